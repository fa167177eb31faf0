(** * Proofs about [MHealRandomsDouble.v]: the longitude, continued *)

From Coq Require Import Reals ZArith List Bool Lia Lra Psatz.
From Flocq Require Import Core IEEE754.BinarySingleNaN.
From Verif Require Import Base BaseP Spec MHealpixFloat PHealpixFloat SpecDouble SpecCoordsDouble SpecHealRandomsDouble MDouble PDouble PPiDouble PSumDouble MGridsDouble PGridsDouble MRemapDouble PRemapDouble2 MRandomsDouble PRandomsDouble PLibmDouble PTripDouble MHealCoordDouble PHealCoordDouble PHealCoordDouble2 PHealCoordDouble4 PHealRandomsDouble3 PHealRandomsDouble4.
Import ListNotations.
Open Scope R_scope.

Lemma abs_split : forall a b r s, Rabs a <= r -> Rabs b <= s -> Rabs (a + b) <= r + s.
Proof. intros. eapply Rle_trans; [apply Rabs_triang|]. lra. Qed.
Lemma abs_prod : forall a b r s, Rabs a <= r -> Rabs b <= s -> Rabs (a * b) <= r * s.
Proof. intros. rewrite Rabs_mult. apply Rmult_le_compat; auto using Rabs_pos. Qed.
Lemma w_u : 0 < b2 (-20) /\ u = b2 (-20) * / 8589934592.
Proof. split; [apply bpow_gt_0|]. unfold u. change (-53)%Z with (-20 + -33)%Z. rewrite bpow_plus. reflexivity. Qed.

(** Near the border of a cap the longitude is the abscissa. *)
Lemma border_phi : forall s p A t, 1 <= s <= 1 + t * u -> 0 <= t <= 400 -> (2 - s) * p = A -> Rabs A <= 0.79 -> Rabs (p - A) <= 0.8 * t * u.
Proof.
  intros s p A t Hs Ht E HA. pose proof u_tiny as U. assert (T : 0 <= t * u <= 0.0004) by (split; [apply Rmult_le_pos; lra|apply Rle_trans with (400 * / 1000000); [apply Rmult_le_compat; lra|lra]]).
  assert (P : Rabs p <= 0.8). { apply Rnot_lt_le. intro N. assert (0.9996 * 0.8 <= (2 - s) * Rabs p) by (apply Rmult_le_compat; lra). rewrite <- E, Rabs_mult, (Rabs_pos_eq (2 - s)) in HA by lra. lra. }
  replace (p - A) with (p * (s - 1)) by (rewrite <- E; ring). replace (0.8 * t * u) with (0.8 * (t * u)) by ring. apply abs_prod; [exact P|]. rewrite Rabs_pos_eq; lra.
Qed.

(** Two facets that share an interior point are one. *)
Lemma same_facet : forall (k k' m : Z) a, Rabs (a - (2 * IZR k + 1) * (PI / 4)) < PI / 4 - 32 * u -> Rabs (a - 2 * PI * IZR m - (2 * IZR k' + 1) * (PI / 4)) <= PI / 4 + 32 * u ->
  (2 * IZR k' + 1) * (PI / 4) = (2 * IZR k + 1) * (PI / 4) - 2 * PI * IZR m.
Proof.
  intros k k' m a H1 H2. pose proof PI_RGT_0 as P. apply Rabs_def2 in H1. apply Rabs_le_inv in H2.
  assert (Z0 : (k - k' - 4 * m = 0)%Z).
  { assert (L : IZR (k - k' - 4 * m) * (PI / 2) < 1 * (PI / 2)) by (rewrite !minus_IZR, mult_IZR; lra). assert (L' : (-1) * (PI / 2) < IZR (k - k' - 4 * m) * (PI / 2)) by (rewrite !minus_IZR, mult_IZR; lra).
    apply Rmult_lt_reg_r in L; [|lra]. apply Rmult_lt_reg_r in L'; [|lra]. apply lt_IZR in L. apply lt_IZR in L'. lia. }
  replace k with (k' + 4 * m)%Z by lia. rewrite plus_IZR, mult_IZR. field.
Qed.

(** The longitude that [healpix_xy2ang] returns for a point near [(xe, ye)], which is
    in the belt or in the triangle of a polar facet. *)
Lemma longitude_ok : forall arccos x y (m : Z) xe ye, fin x -> 0 <= val x <= tau -> fin y -> Rabs (val y) <= 1.6 -> (-1 <= m <= 1)%Z ->
  Rabs (val x + 2 * PI * IZR m - xe) <= 57 * u -> Rabs (val y - ye) <= 69 * u -> Rabs ye <= PI / 2 ->
  (Rabs ye <= PI / 4 \/ exists k : Z, (0 <= k <= 3)%Z /\ Rabs (xe - (2 * IZR k + 1) * (PI / 4)) <= PI / 2 - Rabs ye) ->
  fin (fst (xy2ang_d arccos x y)) /\
  let phi := val (fst (xy2ang_d arccos x y)) + 2 * PI * IZR m in
  (Rabs ye <= PI / 4 -> Rabs (phi - xe) <= 200 * u) /\
  (PI / 4 < Rabs ye -> exists k : Z, (0 <= k <= 3)%Z /\
    let F := (2 * IZR k + 1) * (PI / 4) in let w := 2 - 4 * Rabs ye / PI in
    Rabs (xe - F) <= PI / 4 * w /\ Rabs (w * (phi - F) - (xe - F)) <= 16384 * u /\
    (b2 (-20) <= w -> Rabs (w * (phi - F) - (xe - F)) <= 1000 * u)).
Proof.
  intros arccos x y m xe ye Fx Hx Fy Hy Hm Ex Ey Hye Hf. destruct pi_u as (A & B & C). pose proof u_tiny as U. destruct w_u as [W0 Wu]. destruct (abs_ok y Fy) as [Fa Va]. destruct quarter_val as [Fq Vq].
  assert (M : -1 <= IZR m <= 1) by (split; [apply (IZR_le (-1))|apply (IZR_le m 1)]; lia).
  assert (PM : Rabs (2 * PI * IZR m) <= 6.3). { rewrite Rabs_mult, (Rabs_pos_eq (2 * PI)) by lra. replace 6.3 with (6.3 * 1) by ring. apply Rmult_le_compat; try lra; [apply Rabs_pos|apply Rabs_le; lra]. }
  set (PMm := 2 * PI * IZR m) in *. set (R := Rabs ye) in *. set (re := 4 * R / PI) in *. assert (Er : re * PI = 4 * R) by (unfold re; field; lra).
  assert (R0 : 0 <= R) by apply Rabs_pos. assert (Re : 0 <= re <= 2). { split; apply Rnot_lt_le; intro N; [assert (re * PI < 0 * PI) by (apply Rmult_lt_compat_r; lra)|assert (2 * PI < re * PI) by (apply Rmult_lt_compat_r; lra)]; lra. }
  set (rd := 4 * Rabs (val y) / PI) in *. assert (Erd : rd * PI = 4 * Rabs (val y)) by (unfold rd; field; lra).
  assert (D1 : Rabs (rd - re) <= 88 * u).
  { assert (T : Rabs (Rabs (val y) - R) <= 69 * u) by (eapply Rle_trans; [apply Rabs_triang_inv2|exact Ey]). apply Rabs_le_inv in T. apply Rabs_le. split; apply Rnot_lt_le; intro N.
    - assert ((rd - re) * PI < (- (88 * u)) * PI) by (apply Rmult_lt_compat_r; lra). assert (88 * u * 3.14 <= 88 * u * PI) by (apply Rmult_le_compat_l; lra). lra.
    - assert (88 * u * PI < (rd - re) * PI) by (apply Rmult_lt_compat_r; lra). assert (88 * u * 3.14 <= 88 * u * PI) by (apply Rmult_le_compat_l; lra). lra. }
  assert (BE : re <= 1 -> R <= PI / 4) by (intro Q; assert (re * PI <= 1 * PI) by (apply Rmult_le_compat_r; lra); lra).
  assert (CA : PI / 4 < R -> 1 < re) by (intro Q; apply Rnot_le_lt; intro Q'; apply BE in Q'; lra).
  assert (BE' : R <= PI / 4 -> re <= 1) by (intro Q; apply Rnot_lt_le; intro N; assert (1 * PI < re * PI) by (apply Rmult_lt_compat_r; lra); lra).
  assert (FA : PI / 4 < R -> exists k : Z, (0 <= k <= 3)%Z /\ Rabs (xe - (2 * IZR k + 1) * (PI / 4)) <= PI / 4 * (2 - re)).
  { intro Q. destruct Hf as [Q'|(k & Ik & Hk)]; [lra|]. exists k. split; [exact Ik|]. lra. } clear Hf.
  (* the exact point in a cap, the double's longitude near xe *)
  assert (NEAR : forall phi t r, 0 <= t -> 0 <= r -> PI / 4 < R -> re <= 1 + r * u -> Rabs (phi - xe) <= t * u -> t + 0.79 * r <= 1000 ->
     exists k : Z, (0 <= k <= 3)%Z /\ let F := (2 * IZR k + 1) * (PI / 4) in let w := 2 - re in
     Rabs (xe - F) <= PI / 4 * w /\ Rabs (w * (phi - F) - (xe - F)) <= 16384 * u /\ (b2 (-20) <= w -> Rabs (w * (phi - F) - (xe - F)) <= 1000 * u)).
  { intros phi t r T0 Rr Q Hr Hp Ht. destruct (FA Q) as (k & Ik & Hk). exists k. split; [exact Ik|]. cbv zeta. set (F := (2 * IZR k + 1) * (PI / 4)) in *. split; [exact Hk|]. pose proof (CA Q) as Q1.
    assert (K : Rabs ((2 - re) * (phi - F) - (xe - F)) <= (t + 0.79 * r) * u).
    { replace ((2 - re) * (phi - F) - (xe - F)) with ((2 - re) * (phi - xe) + (1 - re) * (xe - F)) by ring. replace ((t + 0.79 * r) * u) with (1 * (t * u) + r * u * 0.79) by ring. apply abs_split; apply abs_prod; auto.
      - rewrite Rabs_pos_eq; lra. - rewrite Rabs_left1; lra.
      - eapply Rle_trans; [exact Hk|]. replace 0.79 with (0.79 * 1) by ring. apply Rmult_le_compat; lra. }
    assert ((t + 0.79 * r) * u <= 1000 * u) by (apply Rmult_le_compat_r; lra). split; [lra|intros _; lra]. }
  unfold xy2ang_d. assert (Eb : dle (abs_d y) quarter_pi = Rle_bool (Rabs (val y)) (tau / 8)) by (etransitivity; [exact (dle_ok _ _ Fa Fq)|]; rewrite Va, Vq; reflexivity). rewrite Eb. destruct (Rle_bool_spec (Rabs (val y)) (tau / 8)) as [L|L]; cbn [fst]; cbv zeta.
  - (* the double in the belt *)
    split; [exact Fx|]. split; [intros _; lra|]. intro Q.
    assert (S1 : rd <= 1 + 2 * u). { apply Rnot_lt_le. intro N. assert ((1 + 2 * u) * PI < rd * PI) by (apply Rmult_lt_compat_r; lra). assert (2 * u * 3.14 <= 2 * u * PI) by (apply Rmult_le_compat_l; lra). apply Rabs_le_inv in A. lra. }
    apply Rabs_le_inv in D1. apply (NEAR _ 57 90); lra.
  - destruct (sigz_wide y Fy ltac:(lra)) as (sg & s & Hs & I & Fg & Vg & Vy & Ed). fold rd in Ed. set (g := cap_sigz y) in *. destruct (siga_wide g sg s Fg Hs I Vg) as (Fs & Fsa & Vsa). destruct one_ok as [F1 V1].
    assert (Es : Rabs (s - re) <= 92 * u) by (apply Rabs_le_inv in Ed, D1; apply Rabs_le; lra). apply Rabs_le_inv in Es.
    assert (Eq : deq (cap_siga g) one_d = Req_bool s 2). { etransitivity; [exact (deq_ok _ _ Fsa F1)|]. rewrite Vsa, V1. destruct (Req_bool_spec s 2); [apply Req_bool_true|apply Req_bool_false]; lra. } rewrite Eq.
    destruct (Req_bool_spec s 2) as [S2|S2].
    + (* the double at the pole *)
      split; [reflexivity|]. change (val dzero) with 0. split; [intro Q; apply BE' in Q; lra|]. intro Q. destruct (FA Q) as (k & Ik & Hk). exists k. split; [exact Ik|]. set (F := (2 * IZR k + 1) * (PI / 4)) in *. split; [exact Hk|].
      assert (BF : Rabs F <= 5.6). { unfold F. assert (0 <= IZR k <= 3) by (split; [apply (IZR_le 0)|apply (IZR_le k 3)]; lia). replace 5.6 with (7 * 0.8) by lra. apply abs_prod; rewrite Rabs_pos_eq; lra. }
      split; [|intro N; lra].
      replace ((2 - re) * (0 + PMm - F) - (xe - F)) with ((2 - re) * (PMm + - F) + - (xe - F)) by ring. apply Rle_trans with (92 * u * (6.3 + 5.6) + 0.8 * (92 * u)); [|lra]. apply abs_split.
      * apply abs_prod; [rewrite Rabs_pos_eq; lra|]. apply abs_split; [exact PM|rewrite Rabs_Ropp; exact BF].
      * rewrite Rabs_Ropp. eapply Rle_trans; [exact Hk|]. apply Rmult_le_compat; lra.
    + destruct (cap_phi_wide x g sg s Fx ltac:(pose proof tau_bounds; lra) Fg Hs I S2 Vg) as (k' & x' & Ik' & Bx & Ex' & Fp & Ep). split; [exact Fp|].
      set (phi := val (cap_phi x (cap_siga g) (cap_k x))) in *. set (F' := (2 * IZR k' + 1) * (PI / 4)) in *.
      assert (XF : Rabs (val x - F') <= PI / 4 + 32 * u) by (unfold F'; apply Rabs_le; lra).
      assert (BA : Rabs (x' - F') <= 0.79). { replace (x' - F') with ((x' - val x) + (val x - F')) by ring. eapply Rle_trans; [apply abs_split; [exact Ex'|exact XF]|]. lra. }
      assert (BORD : forall t, 0 <= t <= 400 -> s <= 1 + t * u -> Rabs (phi + PMm - xe) <= (0.8 * t + 121) * u).
      { intros t Ht St. pose proof (border_phi s (phi - F') (x' - F') t ltac:(lra) Ht Ep BA) as K. replace (phi + PMm - xe) with ((phi - F' - (x' - F')) + ((x' - val x) + (val x + PMm - xe))) by ring. replace ((0.8 * t + 121) * u) with (0.8 * t * u + (64 * u + 57 * u)) by ring. repeat apply abs_split; assumption. }
      split. { intro Q. apply BE' in Q. pose proof (BORD 92 ltac:(lra) ltac:(lra)). lra. }
      intro Q. pose proof (CA Q) as Q1. destruct (Rle_or_lt s (1 + 400 * u)) as [S4|S4].
      * pose proof (BORD 400 ltac:(lra) S4) as K. apply (NEAR _ (0.8 * 400 + 121) 492); lra.
      * clear NEAR BORD. destruct (FA Q) as (k & Ik & Hk). exists k. split; [exact Ik|]. set (F := (2 * IZR k + 1) * (PI / 4)) in *. split; [exact Hk|].
        assert (EF : F' = F - PMm).
        { apply (same_facet k k' m (val x + PMm)).
          - replace (val x + PMm - (2 * IZR k + 1) * (PI / 4)) with ((val x + PMm - xe) + (xe - F)) by (unfold F; ring). eapply Rle_lt_trans; [apply abs_split; [exact Ex|exact Hk]|]. assert (PI / 4 * (2 - re) <= PI / 4 * (1 - 308 * u)) by (apply Rmult_le_compat_l; lra). assert (0.785 * (308 * u) <= PI / 4 * (308 * u)) by (apply Rmult_le_compat_r; lra). lra.
          - replace (val x + PMm - 2 * PI * IZR m - (2 * IZR k' + 1) * (PI / 4)) with (val x - F') by (unfold PMm, F'; ring). exact XF. }
        set (p := phi - F') in *. replace (phi + PMm - F) with p by (unfold p; rewrite EF; ring). set (E := x' - F') in *.
        assert (DE : Rabs (E - (xe - F)) <= 121 * u). { replace (E - (xe - F)) with ((x' - val x) + (val x + PMm - xe)) by (unfold E; rewrite EF; ring). replace (121 * u) with (64 * u + 57 * u) by ring. apply abs_split; assumption. }
        assert (Ws : 2 - re <= Rabs (2 - s) + 92 * u) by (pose proof (Rle_abs (2 - s)); lra).
        assert (HE : Rabs E <= 0.7875 * Rabs (2 - s) + 194 * u). { replace E with ((E - (xe - F)) + (xe - F)) by ring. eapply Rle_trans; [apply abs_split; [exact DE|exact Hk]|]. assert (PI / 4 * (2 - re) <= 0.7875 * (2 - re)) by (apply Rmult_le_compat_r; lra). lra. }
        pose proof (gap_two s Fs S2) as GT. set (ws := Rabs (2 - s)) in *. assert (Epa : ws * Rabs p = Rabs E) by (unfold ws; rewrite <- Rabs_mult, Ep; reflexivity).
        assert (GEN : forall P, 0 <= P -> 0.7875 * ws + 194 * u <= P * ws -> Rabs ((2 - re) * p - (xe - F)) <= (92 * P + 121) * u).
        { intros P P0 HP. assert (BP : Rabs p <= P). { apply Rmult_le_reg_l with ws; [lra|]. rewrite Epa. lra. }
          replace ((2 - re) * p - (xe - F)) with ((s - re) * p + (E - (xe - F))) by (rewrite <- Ep; ring). replace ((92 * P + 121) * u) with (92 * u * P + 121 * u) by ring. apply abs_split; [apply abs_prod; [apply Rabs_le; lra|exact BP]|exact DE]. }
        split; [pose proof (GEN 98 ltac:(lra) ltac:(lra)); lra|]. intro HW. pose proof (GEN 0.8 ltac:(lra) ltac:(lra)). lra.
Qed.
