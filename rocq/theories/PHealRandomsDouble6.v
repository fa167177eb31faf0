(** * Proofs about [MHealRandomsDouble.v]: the points drawn *)

From Coq Require Import Reals ZArith List Bool Lia Lra Psatz.
From Flocq Require Import Core IEEE754.BinarySingleNaN.
From Verif Require Import Base BaseP Spec MHealpixIndex PHealpixIndex PHealpixCentre MHealpixFloat PHealpixFloat MIndexFloat TIndexFloat SpecDouble SpecCoordsDouble SpecRandomsDouble SpecHealRandomsDouble MDouble PDouble PPiDouble PSumDouble MGridsDouble PGridsDouble MRemapDouble PRemapDouble2 MRandomsDouble PRandomsDouble PLibmDouble PTripDouble MHealCoordDouble PHealCoordDouble PHealCoordDouble2 PHealCoordDouble4 MHealRandomsDouble PHealRandomsDouble PHealRandomsDouble2 PHealRandomsDouble3 PHealRandomsDouble4 PHealRandomsDouble5.
Import ListNotations.
Open Scope R_scope.

Lemma belt_arg : forall arccos y, fin y -> Rabs (val y) <= tau / 8 -> exists c, fin c /\ -1 <= val c <= 1 /\ belt_theta arccos y = arccos c.
Proof.
  intros arccos y Fy Hy. destruct pi_u as (A & B & C). destruct three_pi_val as [F3 E3]. pose proof e0_small as E. pose proof u_tiny as U. destruct (int_ok 8 ltac:(lia)) as [F8 V8].
  destruct (mul_near (dint 8) y F8 Fy) as (Fm & _ & Em); [rewrite V8, Rabs_mult, (Rabs_pos_eq 8); lra|]. rewrite V8 in Em. exists (ddiv (dmul (dint 8) y) (dmul (dint 3) pi_d)). set (m := dmul (dint 8) y) in *. set (T3 := dmul (dint 3) pi_d) in *.
  assert (Bm : Rabs (8 * val y) <= 6.3) by (rewrite Rabs_mult, (Rabs_pos_eq 8); lra).
  assert (Em' : Rabs (val m - 8 * val y) <= 6.4 * u) by (eapply Rle_trans; [exact Em|]; assert (u * Rabs (8 * val y) <= u * 6.3) by (apply Rmult_le_compat_l; lra); lra).
  assert (T9 : 9.4 <= val T3) by (apply Rabs_le_inv in E3; lra).
  assert (Bv : Rabs (val m) <= 6.4). { replace (val m) with ((val m - 8 * val y) + 8 * val y) by ring. eapply Rle_trans; [apply abs_split; [exact Em'|exact Bm]|]. lra. }
  assert (Bq : Rabs (val m / val T3) <= 0.7). { unfold Rdiv. rewrite Rabs_mult, (Rabs_pos_eq (/ val T3)) by (apply Rlt_le, Rinv_0_lt_compat; lra). apply Rmult_le_reg_r with (val T3); [lra|]. rewrite Rmult_assoc, Rinv_l by lra. lra. }
  destruct (div_near m T3 Fm) as (Fq & _ & Eq); [lra|lra|]. set (q := ddiv m T3) in *. split; [exact Fq|]. split; [|reflexivity].
  assert (u * Rabs (val m / val T3) <= u * 0.7) by (apply Rmult_le_compat_l; lra). apply Rabs_le_inv in Bq. assert (Eq' : Rabs (val q - val m / val T3) <= u) by lra. apply Rabs_le_inv in Eq'. lra.
Qed.

Lemma theta_range : forall arccos x y, arccos_ok arccos -> fin y -> Rabs (val y) <= 1.6 ->
  fin (snd (xy2ang_d arccos x y)) /\ 0 <= val (snd (xy2ang_d arccos x y)) <= tau / 2.
Proof.
  intros arccos x y HA Fy Hy. destruct (abs_ok y Fy) as [Fa Va]. destruct quarter_val as [Fq Vq].
  unfold xy2ang_d. assert (Eb : dle (abs_d y) quarter_pi = Rle_bool (Rabs (val y)) (tau / 8)) by (etransitivity; [exact (dle_ok _ _ Fa Fq)|]; rewrite Va, Vq; reflexivity). rewrite Eb. destruct (Rle_bool_spec (Rabs (val y)) (tau / 8)) as [L|L]; cbn [snd]; cbv zeta.
  - destruct (belt_arg arccos y Fy L) as (c & Fc & Bc & ->). apply (HA c Fc). exact Bc.
  - destruct (sigz_wide y Fy ltac:(lra)) as (sg & s & Hs & I & Fg & Vg & _ & _). destruct (cap_cos arccos _ sg s Fg Hs I Vg) as (c & Fc & Bc & Ec & _). cbn [snd]. rewrite Ec. apply (HA c Fc). exact Bc.
Qed.

Lemma up_range : forall d a b, 0 <= d -> 0 <= a <= 1 -> 0 <= b <= 1 -> Rabs (drawn_across d a) + Rabs (drawn_up d a b) <= d.
Proof.
  intros d a b Hd Ha Hb. pose proof (across_range d a Hd Ha) as R1. unfold drawn_up. rewrite Rabs_mult, (Rabs_pos_eq (d - Rabs (drawn_across d a))) by lra.
  assert (Rabs (2 * b - 1) * (d - Rabs (drawn_across d a)) <= 1 * (d - Rabs (drawn_across d a))) by (apply Rmult_le_compat_r; [lra|apply Rabs_le; lra]). lra.
Qed.

(** What is assumed of the centre, and what it implies. *)
Lemma centre_facts : forall n p xp yp xc yc, (1 <= n <= 27397078)%Z -> legal_pix n p ->
  pix2xy_fl p n = Ok (xp, yp) -> pix2xy p n = Ok (xc, yc) ->
  exists i j, legal_ij n i j /\ xc = IZR (jd2 n i j) * half_diag n /\ yc = IZR (id2 n i) * half_diag n /\
    Rabs (xp - xc) <= 32 * u /\ Rabs (yp - yc) <= 32 * u /\ 0 <= xp < 2 * PI /\ Rabs yp <= 1.6 /\ Rabs yc <= PI / 2 - half_diag n.
Proof.
  intros n p xp yp xc yc Hn Hp Ef Ee. destruct (C86_centres n p Hn Hp) as (x & y & xc' & yc' & E1 & E2 & D1 & D2 & _ & R1 & R2 & _).
  rewrite Ef in E1. rewrite Ee in E2. apply Ok_inj in E1, E2. injection E1 as <- <-. injection E2 as <- <-. rewrite b48 in D1, D2.
  destruct (pix2xy_legal n p ltac:(lia) Hp) as (i & j & P & E). rewrite Ee in E. apply Ok_inj in E. injection E as -> ->. exists i, j. destruct P as [L _]. destruct pi_u as (A & B & C).
  split; [exact L|]. do 2 (split; [reflexivity|]). do 3 (split; [assumption|]). split; [apply Rabs_le; lra|].
  assert (N : 1 <= IZR n) by (apply IZR_le; lia). assert (H0 : 0 < half_diag n) by (unfold half_diag; apply Rdiv_lt_0_compat; lra).
  replace (PI / 2 - half_diag n) with ((2 * IZR n - 1) * half_diag n) by (unfold half_diag; field; lra). rewrite Rabs_mult, (Rabs_pos_eq (half_diag n)) by lra. apply Rmult_le_compat_r; [lra|].
  replace (2 * IZR n - 1) with (IZR (2 * n - 1)) by (rewrite minus_IZR, mult_IZR; ring). rewrite <- abs_IZR. apply IZR_le. destruct L. unfold id2. lia.
Qed.

(** One point of the plane. *)
Lemma drawn_point : forall n p xp yp xc yc a b i j, (1 <= n <= 27397078)%Z -> legal_pix n p -> fin xp -> fin yp ->
  pix2xy_fl p n = Ok (val xp, val yp) -> pix2xy p n = Ok (xc, yc) -> kth_draw i a -> kth_draw j b ->
  let x := mod_d (point_x xp n a) twopi in let y := point_y xp yp n a b in
  let xe := xc + drawn_across (half_diag n) (val a) in let ye := yc + drawn_up (half_diag n) (val a) (val b) in
  fin x /\ fin y /\ 0 <= val x <= tau /\ Rabs (val y) <= 1.6 /\ Rabs (val y - ye) <= 69 * u /\ Rabs ye <= PI / 2 /\
  Rabs (drawn_across (half_diag n) (val a)) + Rabs (drawn_up (half_diag n) (val a) (val b)) <= half_diag n /\
  (Rabs ye <= PI / 4 \/ exists k : Z, (0 <= k <= 3)%Z /\ Rabs (xe - (2 * IZR k + 1) * (PI / 4)) <= PI / 2 - Rabs ye) /\
  exists m : Z, (-1 <= m <= 1)%Z /\ Rabs (val x + 2 * PI * IZR m - xe) <= 57 * u.
Proof.
  intros n p xp yp xc yc a b ka kb Hn Hp Fx Fy Ef Ee Ha Hb x y xe ye. destruct (centre_facts n p _ _ _ _ Hn Hp Ef Ee) as (i & j & L & Exc & Eyc & D1 & D2 & B1 & B2 & B3).
  destruct pi_u as (A & B & C). pose proof u_tiny as U. destruct (draw_range _ _ Ha) as [Fa Ra]. destruct (draw_range _ _ Hb) as [Fb Rb].
  destruct (point_ok xp yp n ka kb a b Fx ltac:(rewrite Rabs_pos_eq; lra) Fy B2 ltac:(lia) Ha Hb) as (Fpx & Fpy & Px & Py).
  assert (N : 1 <= IZR n) by (apply IZR_le; lia). set (d := half_diag n) in *. assert (H0 : 0 < d) by (unfold d, half_diag; apply Rdiv_lt_0_compat; lra). assert (Dn : d * IZR n = PI / 4) by (unfold d, half_diag; field; lra). assert (H1 : d <= PI / 4) by (rewrite <- Dn; rewrite <- (Rmult_1_r d) at 1; apply Rmult_le_compat_l; lra).
  pose proof (up_range d (val a) (val b) ltac:(lra) ltac:(lra) ltac:(lra)) as UR. pose proof (Rabs_pos (drawn_across d (val a))) as P1. pose proof (Rabs_pos (drawn_up d (val a) (val b))) as P2.
  set (ac := drawn_across d (val a)) in *. set (up := drawn_up d (val a) (val b)) in *.
  assert (Bac : Rabs ac <= 0.79) by lra. apply Rabs_le_inv in Bac. assert (Px' := Rabs_le_inv _ _ Px).
  destruct (mod_tau (point_x xp n a) Fpx ltac:(lra)) as (m & Im & Fm & Bm & Em). fold x in Fm, Bm, Em.
  assert (Ey : Rabs (val y - ye) <= 69 * u) by (unfold ye; fold y in Py; apply Rabs_le_inv in Py, D2; apply Rabs_le; lra).
  assert (Bye : Rabs ye <= PI / 2) by (unfold ye; eapply Rle_trans; [apply Rabs_triang|]; lra).
  split; [exact Fm|]. split; [exact Fpy|]. split; [exact Bm|]. split. { apply Rabs_le_inv in Ey, Bye. apply Rabs_le. lra. }
  split; [exact Ey|]. split; [exact Bye|]. split; [exact UR|]. split.
  - assert (I0 : 0 <= / d) by (apply Rlt_le, Rinv_0_lt_compat; lra).
    pose proof (facet_of n i j (ac / d) (up / d) ltac:(lia) L) as FO. fold d in FO. replace xe with ((IZR (jd2 n i j) + ac / d) * d) by (unfold xe; rewrite Exc; field; lra). replace ye with ((IZR (id2 n i) + up / d) * d) by (unfold ye; rewrite Eyc; field; lra). apply FO.
    unfold Rdiv. rewrite !Rabs_mult, (Rabs_pos_eq (/ d)) by exact I0. rewrite <- Rmult_plus_distr_r. rewrite <- (Rinv_r d) by lra. apply Rmult_le_compat_r; [exact I0|exact UR].
  - exists m. split; [exact Im|]. unfold xe. apply Rabs_le_inv in Em, D1. apply Rabs_le. lra.
Qed.
