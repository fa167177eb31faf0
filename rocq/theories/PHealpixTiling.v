(** * The pixel diamonds tile the HEALPix plane region *)

From Coq Require Import Reals ZArith List Bool Lia Lra Psatz.
From Flocq Require Import Core.Raux.
From Verif Require Import Base BaseP Spec MHealpixIndex PHealpixIndex PHealpixCentre.
Import ListNotations.
Open Scope R_scope.

Lemma half_diag_pos : forall nside, (1 <= nside)%Z -> 0 < half_diag nside.
Proof.
  intros. unfold half_diag. assert (1 <= IZR nside) by (apply IZR_le; auto).
  pose proof PI_pos. apply Rdiv_lt_0_compat; lra.
Qed.

Lemma two_pi_half_diag : forall nside, (1 <= nside)%Z -> 2 * PI = 8 * IZR nside * half_diag nside.
Proof.
  intros. unfold half_diag. assert (1 <= IZR nside) by (apply IZR_le; auto). field. lra.
Qed.

(** ** Separation of centres *)

Lemma lattice_sep : forall nside i j i' j' m, (1 <= nside)%Z ->
  legal_ij nside i j -> legal_ij nside i' j' ->
  ((i, j) <> (i', j') \/ m <> 0%Z) ->
  (2 <= Z.abs (jd2 nside i j + 8 * nside * m - jd2 nside i' j') + Z.abs (id2 nside i - id2 nside i'))%Z.
Proof.
  intros nside i j i' j' m Hn Hl Hl' Hne.
  pose proof (jd2_range _ _ _ Hn Hl) as B. pose proof (jd2_range _ _ _ Hn Hl') as B'.
  pose proof (jd2_parity nside i j) as P. pose proof (jd2_parity nside i' j') as P'.
  set (J := jd2 nside i j) in *. set (J' := jd2 nside i' j') in *.
  set (I := id2 nside i) in *. set (I' := id2 nside i') in *.
  apply Zeven_bool_iff, Zeven_ex_iff in P. destruct P as [u P].
  apply Zeven_bool_iff, Zeven_ex_iff in P'. destruct P' as [v P'].
  assert (NZ : ~ (J + 8 * nside * m - J' = 0 /\ I - I' = 0)%Z).
  { intros [E1 E2]. assert (m = 0)%Z by nia. subst m.
    destruct Hne as [Hne|Hne]; [|lia]. apply Hne.
    assert (i = i') by (unfold I, I', id2 in E2; lia). subst i'.
    assert (j = j') by (apply (jd2_inj nside i j j'); auto; unfold J, J' in *; lia).
    subst; auto. }
  assert (J + 8 * nside * m - J' + (I - I') = 2 * (u - v + 4 * nside * m))%Z by lia.
  lia.
Qed.

Lemma centres_apart : forall nside p q m x y x' y', (1 <= nside)%Z ->
  legal_pix nside p -> legal_pix nside q -> (p <> q \/ m <> 0%Z) ->
  pix2xy p nside = Ok (x, y) -> pix2xy q nside = Ok (x', y') ->
  2 * half_diag nside <= l1 (x + 2 * PI * IZR m) y x' y'.
Proof.
  intros nside p q m x y x' y' Hn Hp Hq Hne E E'.
  destruct (pix2xy_legal nside p Hn Hp) as [i [j [P Q]]].
  destruct (pix2xy_legal nside q Hn Hq) as [i' [j' [P' Q']]].
  rewrite Q in E. rewrite Q' in E'. injection E as <- <-. injection E' as <- <-.
  assert (S : (2 <= Z.abs (jd2 nside i j + 8 * nside * m - jd2 nside i' j')
                    + Z.abs (id2 nside i - id2 nside i'))%Z).
  { apply lattice_sep; auto. apply P. apply P'.
    destruct Hne as [Hne|Hne]; auto. left. intro C. injection C as -> ->. apply Hne.
    destruct P as [_ ->]. destruct P' as [_ ->]. reflexivity. }
  pose proof (half_diag_pos nside Hn) as Hh.
  unfold l1. rewrite (two_pi_half_diag nside Hn). set (h := half_diag nside) in *.
  apply IZR_le in S. rewrite plus_IZR, !abs_IZR, !minus_IZR, plus_IZR, !mult_IZR in S.
  replace (IZR (jd2 nside i j) * h + 8 * IZR nside * h * IZR m - IZR (jd2 nside i' j') * h)
    with ((IZR (jd2 nside i j) + 8 * IZR nside * IZR m - IZR (jd2 nside i' j')) * h) by ring.
  replace (IZR (id2 nside i) * h - IZR (id2 nside i') * h)
    with ((IZR (id2 nside i) - IZR (id2 nside i')) * h) by ring.
  rewrite !Rabs_mult. rewrite (Rabs_pos_eq h) by lra. nra.
Qed.

Lemma l1_triangle : forall x y x' y' x'' y'',
  l1 x y x'' y'' <= l1 x y x' y' + l1 x' y' x'' y''.
Proof.
  intros. unfold l1.
  pose proof (Rabs_triang (x - x') (x' - x'')). pose proof (Rabs_triang (y - y') (y' - y'')).
  replace (x - x' + (x' - x'')) with (x - x'') in H by ring.
  replace (y - y' + (y' - y'')) with (y - y'') in H0 by ring. lra.
Qed.

Lemma l1_sym : forall x y x' y', l1 x y x' y' = l1 x' y' x y.
Proof. intros. unfold l1. rewrite (Rabs_minus_sym x), (Rabs_minus_sym y). auto. Qed.

(** No point lies in the open diamonds of two different pixels. *)
Lemma diamonds_disjoint : forall nside p q xp yp xq yq x y, (1 <= nside)%Z ->
  legal_pix nside p -> legal_pix nside q -> p <> q ->
  pix2xy p nside = Ok (xp, yp) -> pix2xy q nside = Ok (xq, yq) ->
  in_open_diamond nside xp yp x y -> in_open_diamond nside xq yq x y -> False.
Proof.
  intros nside p q xp yp xq yq x y Hn Hp Hq Hne Ep Eq [m Hm] [m' Hm'].
  pose proof (centres_apart nside p q (m' - m) xp yp xq yq Hn Hp Hq (or_introl Hne) Ep Eq) as S.
  rewrite minus_IZR in S.
  pose proof (l1_triangle (xp + 2 * PI * (IZR m' - IZR m)) yp (x + 2 * PI * IZR m') y xq yq) as T.
  assert (U : l1 (xp + 2 * PI * (IZR m' - IZR m)) yp (x + 2 * PI * IZR m') y
              = l1 (x + 2 * PI * IZR m) y xp yp).
  { rewrite (l1_sym (x + 2 * PI * IZR m)). unfold l1. f_equal. f_equal. ring. }
  lra.
Qed.

(** ** Ranges *)

Lemma centre_in_range : forall nside p x y, (1 <= nside)%Z -> legal_pix nside p ->
  pix2xy p nside = Ok (x, y) -> 0 <= x < 2 * PI /\ - (PI / 2) < y < PI / 2.
Proof.
  intros nside p x y Hn Hp E. destruct (pix2xy_legal nside p Hn Hp) as [i [j [P Q]]].
  rewrite Q in E. injection E as <- <-.
  pose proof (jd2_range _ _ _ Hn (proj1 P)) as [B1 B2]. pose proof (half_diag_pos nside Hn) as Hh.
  pose proof (two_pi_half_diag nside Hn) as T. destruct P as [[[Hi1 Hi2] _] _].
  assert (I1 : (- (2 * nside) + 1 <= id2 nside i <= 2 * nside - 1)%Z) by (unfold id2; lia).
  destruct I1 as [I1 I2].
  apply IZR_le in B1. apply IZR_lt in B2. rewrite mult_IZR in B2.
  apply IZR_le in I1. apply IZR_le in I2.
  rewrite plus_IZR, opp_IZR, mult_IZR in I1. rewrite minus_IZR, mult_IZR in I2.
  set (h := half_diag nside) in *. assert (E2 : PI / 2 = 2 * IZR nside * h) by lra.
  split; split; nra.
Qed.

(** ** Every lattice site of the region is a pixel *)

Lemma site_north : forall nside k i J, (1 <= nside)%Z -> (0 <= k <= 3)%Z -> (1 <= i <= nside)%Z ->
  (Z.abs (J - (2 * k + 1) * nside) <= i - 1)%Z ->
  Z.even (J + (2 * nside - i) + nside + 1) = true ->
  exists j, legal_ij nside i j /\ jd2 nside i j = J.
Proof.
  intros nside k i J Hn Hk Hi HJ HE.
  apply Zeven_bool_iff, Zeven_ex_iff in HE. destruct HE as [u HE].
  set (r := (u - nside * k - 2 * nside + i - 1)%Z).
  assert (Er : J = ((2 * k + 1) * nside + 1 - i + 2 * r)%Z) by (unfold r; lia).
  assert (Hr : (0 <= r < i)%Z) by lia.
  exists (i * k + r + 1)%Z.
  assert (Hq : ((i * k + r + 1 - 1) / i = k)%Z).
  { replace (i * k + r + 1 - 1)%Z with (r + k * i)%Z by ring.
    rewrite Z_div_plus_full by lia. rewrite Z.div_small by lia. lia. }
  assert (Hm : ((i * k + r + 1 - 1) mod i = r)%Z).
  { replace (i * k + r + 1 - 1)%Z with (r + k * i)%Z by ring.
    rewrite Z_mod_plus_full. apply Z.mod_small; lia. }
  split.
  - unfold legal_ij, ring_len. split; [lia|].
    destruct (Z.ltb_spec i nside); [nia|].
    replace (i <=? 3 * nside)%Z with true by (symmetry; apply Z.leb_le; lia). nia.
  - unfold jd2. replace (i <=? nside)%Z with true by (symmetry; apply Z.leb_le; lia).
    rewrite Hq, Hm. rewrite Er. ring.
Qed.

Lemma site_south : forall nside k i J, (1 <= nside)%Z -> (0 <= k <= 3)%Z ->
  (3 * nside <= i <= 4 * nside - 1)%Z ->
  (Z.abs (J - (2 * k + 1) * nside) <= 4 * nside - i - 1)%Z ->
  Z.even (J + (2 * nside - i) + nside + 1) = true ->
  exists j, legal_ij nside i j /\ jd2 nside i j = J.
Proof.
  intros nside k i J Hn Hk Hi HJ HE.
  apply Zeven_bool_iff, Zeven_ex_iff in HE. destruct HE as [u HE].
  set (a := (4 * nside - i)%Z) in *.
  set (r := (u - nside * k - 1)%Z).
  assert (Er : J = ((2 * k + 1) * nside + 1 - a + 2 * r)%Z) by (unfold r, a; lia).
  assert (Hr : (0 <= r < a)%Z) by lia.
  assert (Ha : (1 <= a <= nside)%Z) by (unfold a; lia).
  exists (a * k + r + 1)%Z.
  assert (Hq : ((a * k + r + 1 - 1) / a = k)%Z).
  { replace (a * k + r + 1 - 1)%Z with (r + k * a)%Z by ring.
    rewrite Z_div_plus_full by lia. rewrite Z.div_small by lia. lia. }
  assert (Hm : ((a * k + r + 1 - 1) mod a = r)%Z).
  { replace (a * k + r + 1 - 1)%Z with (r + k * a)%Z by ring.
    rewrite Z_mod_plus_full. apply Z.mod_small; lia. }
  split.
  - unfold legal_ij, ring_len. split; [lia|].
    replace (i <? nside)%Z with false by (symmetry; apply Z.ltb_ge; lia).
    destruct (Z.leb_spec i (3 * nside)).
    + assert (a = nside) by (unfold a; lia). nia.
    + fold a. nia.
  - unfold jd2. replace (i <? 3 * nside)%Z with false by (symmetry; apply Z.ltb_ge; lia).
    replace (i <=? nside)%Z with false by (symmetry; apply Z.leb_gt; lia). fold a. cbv zeta.
    rewrite Hq, Hm. rewrite Er. ring.
Qed.

Lemma site_belt : forall nside i J, (1 <= nside)%Z -> (nside <= i <= 3 * nside)%Z ->
  (0 <= J < 8 * nside)%Z ->
  Z.even (J + (2 * nside - i) + nside + 1) = true ->
  exists j, legal_ij nside i j /\ jd2 nside i j = J.
Proof.
  intros nside i J Hn Hi HJ HE.
  destruct (Z.eq_dec i nside) as [->|N1].
  { (* border ring, cap formula *)
    apply (site_north nside (J / (2 * nside)) nside J); auto; try lia.
    - split. apply Z.div_pos; lia. apply Z.lt_succ_r. apply Z.div_lt_upper_bound; lia.
    - pose proof (Z_div_mod_eq_full J (2 * nside)). pose proof (Z.mod_pos_bound J (2 * nside) ltac:(lia)).
      set (k := (J / (2 * nside))%Z) in *. set (t := (J mod (2 * nside))%Z) in *.
      apply Zeven_bool_iff, Zeven_ex_iff in HE. destruct HE as [u HE].
      assert (J = 2 * (u - nside) - 1)%Z by lia.
      assert (t <> 0)%Z by nia. lia. }
  destruct (Z.eq_dec i (3 * nside)) as [->|N2].
  { apply (site_south nside (J / (2 * nside)) (3 * nside) J); auto; try lia.
    - split. apply Z.div_pos; lia. apply Z.lt_succ_r. apply Z.div_lt_upper_bound; lia.
    - pose proof (Z_div_mod_eq_full J (2 * nside)). pose proof (Z.mod_pos_bound J (2 * nside) ltac:(lia)).
      set (k := (J / (2 * nside))%Z) in *. set (t := (J mod (2 * nside))%Z) in *.
      apply Zeven_bool_iff, Zeven_ex_iff in HE. destruct HE as [u HE].
      assert (J = 2 * u - 1)%Z by lia.
      assert (t <> 0)%Z by nia. lia. }
  apply Zeven_bool_iff, Zeven_ex_iff in HE. destruct HE as [u HE].
  assert (L : forall j, (1 <= j <= 4 * nside)%Z -> legal_ij nside i j).
  { intros j Hj. unfold legal_ij, ring_len. split; [lia|].
    replace (i <? nside)%Z with false by (symmetry; apply Z.ltb_ge; lia).
    replace (i <=? 3 * nside)%Z with true by (symmetry; apply Z.leb_le; lia). lia. }
  assert (D : forall j, jd2 nside i j = if Z.even (i + nside) then (2 * j - 1)%Z else (2 * j - 2)%Z).
  { intros j. unfold jd2.
    replace (i <=? nside)%Z with false by (symmetry; apply Z.leb_gt; lia).
    replace (i <? 3 * nside)%Z with true by (symmetry; apply Z.ltb_lt; lia). reflexivity. }
  destruct (Z.even (i + nside)) eqn:EV.
  - apply Zeven_bool_iff, Zeven_ex_iff in EV. destruct EV as [v EV].
    exists (u + v - 2 * nside)%Z. split. apply L; lia. rewrite D. lia.
  - assert (O : Z.odd (i + nside) = true) by (rewrite <- Z.negb_even, EV; auto).
    apply Zodd_bool_iff, Zodd_ex_iff in O. destruct O as [v O].
    exists (u + v - 2 * nside + 1)%Z. split. apply L; lia. rewrite D. lia.
Qed.

(** ** Covering *)

(** A site in range gives a pixel whose diamond contains the nearby point. *)
Lemma site_to_pixel : forall nside x y i j J m, (1 <= nside)%Z -> legal_ij nside i j ->
  jd2 nside i j = (J + 8 * nside * m)%Z ->
  Rabs (x / half_diag nside - IZR J) + Rabs (y / half_diag nside - IZR (2 * nside - i)) <= 1 ->
  exists p xc yc, legal_pix nside p /\ pix2xy p nside = Ok (xc, yc) /\ in_diamond nside xc yc x y.
Proof.
  intros nside x y i j J m Hn Hl HJ Hd.
  destruct (ij2pix_correct nside i j Hn Hl) as [L [P E]].
  exists (ij2pix i j nside). do 2 eexists. split; [auto|]. split.
  { unfold pix2xy. rewrite E. cbn [bind fst snd]. apply ij2xy_legal; auto. apply Hl. }
  exists m. pose proof (half_diag_pos nside Hn) as Hh. unfold l1.
  rewrite (two_pi_half_diag nside Hn). rewrite HJ. unfold id2.
  set (h := half_diag nside) in *.
  assert (Ex : x + 8 * IZR nside * h * IZR m - IZR (J + 8 * nside * m) * h = (x / h - IZR J) * h).
  { rewrite plus_IZR, !mult_IZR. field. lra. }
  assert (Ey : y - IZR (2 * nside - i) * h = (y / h - IZR (2 * nside - i)) * h) by (field; lra).
  rewrite Ex, Ey, !Rabs_mult, (Rabs_pos_eq h) by lra. nra.
Qed.

Lemma max_l1 : forall u v, Rabs (u + v) <= 1 -> Rabs (u - v) <= 1 -> Rabs u + Rabs v <= 1.
Proof.
  intros u v. unfold Rabs.
  repeat destruct Rcase_abs; lra.
Qed.

Lemma cover : forall nside x y, (1 <= nside)%Z -> heal_region x y ->
  exists p xc yc, legal_pix nside p /\ pix2xy p nside = Ok (xc, yc) /\ in_diamond nside xc yc x y.
Proof.
  intros nside x y Hn [Hx Hreg].
  pose proof (half_diag_pos nside Hn) as Hh. pose proof (two_pi_half_diag nside Hn) as TP.
  pose proof PI_pos as HPI. assert (Hn' : 1 <= IZR nside) by (apply IZR_le; auto).
  set (h := half_diag nside) in *. set (n := IZR nside) in *.
  set (X := x / h). set (Y := y / h).
  assert (EX : x = X * h) by (unfold X; field; lra).
  assert (EY : y = Y * h) by (unfold Y; field; lra).
  assert (HX : 0 <= X < 8 * n) by (split; nra).
  assert (Ep4 : PI / 4 = n * h) by lra.
  (* choice of the cell from star coordinates *)
  assert (FIN : forall A B u v i, 
     (A + nside + 1 = 2 * u)%Z -> (B + nside + 1 = 2 * v)%Z -> (i = 2 * nside - (u - v))%Z ->
     Rabs (X + Y - IZR A) <= 1 -> Rabs (X - Y - IZR B) <= 1 ->
     (exists j m, legal_ij nside i j /\ jd2 nside i j = (u + v - nside - 1 + 8 * nside * m)%Z) ->
     exists p xc yc, legal_pix nside p /\ pix2xy p nside = Ok (xc, yc) /\ in_diamond nside xc yc x y).
  { intros A B u v i HA HB Hi Ha Hb [j [m [Hl HJ]]].
    apply (site_to_pixel nside x y i j (u + v - nside - 1) m Hn Hl HJ). fold h X Y.
    rewrite Hi. replace (2 * nside - (2 * nside - (u - v)))%Z with (u - v)%Z by ring.
    assert (EA : IZR A = IZR (u + v - nside - 1) + IZR (u - v)) by (rewrite <- plus_IZR; f_equal; lia).
    assert (EB : IZR B = IZR (u + v - nside - 1) - IZR (u - v)) by (rewrite <- minus_IZR; f_equal; lia).
    apply max_l1.
    - replace (X - IZR (u + v - nside - 1) + (Y - IZR (u - v))) with (X + Y - IZR A) by lra. auto.
    - replace (X - IZR (u + v - nside - 1) - (Y - IZR (u - v))) with (X - Y - IZR B) by lra. auto. }
  (* half-open cells *)
  assert (FL : forall a, exists u, a - 1 < IZR (2 * u - nside - 1) <= a + 1).
  { intros a. exists (Zfloor ((a + n) / 2) + 1)%Z. pose proof (Zfloor_bound ((a + n) / 2)).
    replace (2 * (Zfloor ((a + n) / 2) + 1) - nside - 1)%Z with (2 * Zfloor ((a + n) / 2) + 1 - nside)%Z by ring.
    rewrite minus_IZR, plus_IZR, mult_IZR. fold n. lra. }
  assert (FC : forall a, exists u, a - 1 <= IZR (2 * u - nside - 1) < a + 1).
  { intros a. exists (Zceil ((a + n) / 2))%Z.
    pose proof (Zceil_ub ((a + n) / 2)). pose proof (Zceil_lb ((a + n) / 2)) as LB.
    rewrite !minus_IZR, mult_IZR. fold n. lra. }
  assert (PAR : forall u v, Z.even (u + v - nside - 1 + (u - v) + nside + 1) = true).
  { intros. apply Zeven_bool_iff, Zeven_ex_iff. exists u. ring. }
  destruct (Rle_dec (Rabs y) (PI / 4)) as [Hb|Hb].
  - (* belt *)
    assert (HY : - n <= Y <= n).
    { rewrite Ep4, EY in Hb. apply Rabs_le_inv in Hb. split; nra. }
    destruct (FL (X + Y)) as [u Hu]. destruct (FL (X - Y)) as [v Hv].
    set (A := (2 * u - nside - 1)%Z) in *. set (B := (2 * v - nside - 1)%Z) in *.
    assert (HA : IZR A - IZR B = 2 * IZR (u - v)).
    { rewrite <- minus_IZR. rewrite <- mult_IZR. f_equal. unfold A, B. ring. }
    assert (I1 : (u - v <= nside)%Z).
    { apply Z.lt_succ_r. apply lt_IZR. unfold Z.succ. rewrite plus_IZR. fold n. lra. }
    assert (I2 : (- nside <= u - v)%Z).
    { apply Z.lt_pred_le. apply lt_IZR. unfold Z.pred. rewrite plus_IZR, opp_IZR. fold n. lra. }
    apply (FIN A B u v (2 * nside - (u - v))%Z); try (unfold A, B; lia); try (apply Rabs_le; lra).
    set (J := (u + v - nside - 1)%Z).
    pose proof (Z.mod_pos_bound J (8 * nside) ltac:(lia)) as MB.
    destruct (site_belt nside (2 * nside - (u - v)) (J mod (8 * nside))) as [j [Hl HJ]]; auto; try lia.
    { pose proof (PAR u v) as PV. fold J in PV.
      rewrite Z.mod_eq by lia.
      apply Zeven_bool_iff, Zeven_ex_iff in PV. destruct PV as [w PV].
      apply Zeven_bool_iff, Zeven_ex_iff. exists (w - 4 * nside * (J / (8 * nside)))%Z. lia. }
    exists j, (- (J / (8 * nside)))%Z. split; auto. rewrite HJ. rewrite Z.mod_eq by lia. fold J. ring.
  - apply Rnot_le_lt in Hb. destruct Hreg as [Hreg|[k [Hk Hreg]]]; [lra|].
    set (c := (2 * IZR k + 1) * n).
    assert (Ek : (2 * IZR k + 1) * (PI / 4) = c * h) by (unfold c; rewrite Ep4; ring).
    rewrite Ek in Hreg. apply Rabs_le_inv in Hreg.
    assert (Ec : IZR ((2 * k + 1) * nside) = c).
    { unfold c, n. rewrite mult_IZR, plus_IZR, mult_IZR. reflexivity. }
    destruct (Rle_dec 0 y) as [Hy|Hy].
    + (* north *)
      rewrite Rabs_pos_eq in Hb, Hreg by auto.
      assert (HY : n < Y) by nra.
      assert (T1 : X + Y <= c + 2 * n) by nra.
      assert (T2 : c - 2 * n <= X - Y) by nra.
      destruct (FC (X + Y)) as [u Hu]. destruct (FL (X - Y)) as [v Hv].
      set (A := (2 * u - nside - 1)%Z) in *. set (B := (2 * v - nside - 1)%Z) in *.
      assert (A1 : (A <= (2 * k + 1) * nside + 2 * nside - 1)%Z).
      { assert (L : (A < (2 * k + 1) * nside + 2 * nside + 1)%Z).
        { apply lt_IZR. rewrite !plus_IZR, Ec, mult_IZR. fold n. lra. }
        unfold A in *. nia. }
      assert (B1 : ((2 * k + 1) * nside - 2 * nside + 1 <= B)%Z).
      { assert (L : ((2 * k + 1) * nside - 2 * nside - 1 < B)%Z).
        { apply lt_IZR. rewrite !minus_IZR, Ec, mult_IZR. fold n. lra. }
        unfold B in *. nia. }
      assert (HA : IZR A - IZR B = 2 * IZR (u - v)).
      { rewrite <- minus_IZR. rewrite <- mult_IZR. f_equal. unfold A, B. ring. }
      assert (I1 : (nside <= u - v)%Z).
      { apply Z.lt_pred_le. apply lt_IZR. unfold Z.pred. rewrite plus_IZR. fold n. lra. }
      apply (FIN A B u v (2 * nside - (u - v))%Z); try (unfold A, B; lia); try (apply Rabs_le; lra).
      destruct (site_north nside k (2 * nside - (u - v)) (u + v - nside - 1)) as [j [Hl HJ]]; auto.
      * unfold A, B in *. nia.
      * unfold A, B in *. lia.
      * replace (2 * nside - (2 * nside - (u - v)))%Z with (u - v)%Z by ring. apply PAR.
      * exists j, 0%Z. split; auto. rewrite HJ. ring.
    + (* south *)
      apply Rnot_le_lt in Hy. rewrite Rabs_left in Hb, Hreg by auto.
      assert (HY : Y < - n) by nra.
      assert (T1 : X - Y <= c + 2 * n) by nra.
      assert (T2 : c - 2 * n <= X + Y) by nra.
      destruct (FL (X + Y)) as [u Hu]. destruct (FC (X - Y)) as [v Hv].
      set (A := (2 * u - nside - 1)%Z) in *. set (B := (2 * v - nside - 1)%Z) in *.
      assert (B1 : (B <= (2 * k + 1) * nside + 2 * nside - 1)%Z).
      { assert (L : (B < (2 * k + 1) * nside + 2 * nside + 1)%Z).
        { apply lt_IZR. rewrite !plus_IZR, Ec, mult_IZR. fold n. lra. }
        unfold B in *. nia. }
      assert (A1 : ((2 * k + 1) * nside - 2 * nside + 1 <= A)%Z).
      { assert (L : ((2 * k + 1) * nside - 2 * nside - 1 < A)%Z).
        { apply lt_IZR. rewrite !minus_IZR, Ec, mult_IZR. fold n. lra. }
        unfold A in *. nia. }
      assert (HA : IZR A - IZR B = 2 * IZR (u - v)).
      { rewrite <- minus_IZR. rewrite <- mult_IZR. f_equal. unfold A, B. ring. }
      assert (I1 : (u - v <= - nside)%Z).
      { apply Z.lt_succ_r. apply lt_IZR. unfold Z.succ. rewrite plus_IZR, opp_IZR. fold n. lra. }
      apply (FIN A B u v (2 * nside - (u - v))%Z); try (unfold A, B; lia); try (apply Rabs_le; lra).
      destruct (site_south nside k (2 * nside - (u - v)) (u + v - nside - 1)) as [j [Hl HJ]]; auto.
      * unfold A, B in *. nia.
      * unfold A, B in *. lia.
      * replace (2 * nside - (2 * nside - (u - v)))%Z with (u - v)%Z by ring. apply PAR.
      * exists j, 0%Z. split; auto. rewrite HJ. ring.
Qed.

(** Centres themselves lie in the region. *)
Lemma centre_in_region : forall nside p x y, (1 <= nside)%Z -> legal_pix nside p ->
  pix2xy p nside = Ok (x, y) -> heal_region x y.
Proof.
  intros nside p x y Hn Hp E. pose proof (centre_in_range nside p x y Hn Hp E) as [R1 _].
  destruct (pix2xy_legal nside p Hn Hp) as [i [j [[L _] Q]]].
  rewrite Q in E. injection E as <- <-. split; [lra|].
  pose proof (half_diag_pos nside Hn) as Hh. pose proof (two_pi_half_diag nside Hn) as TP.
  set (h := half_diag nside) in *. assert (Ep4 : PI / 4 = IZR nside * h) by lra.
  pose proof (ring_len_cap nside i j Hn L) as [C1 [C2 C3]]. destruct L as [Hi _].
  destruct (Z_lt_le_dec i nside) as [A|A]; [|destruct (Z_lt_le_dec (3 * nside) i) as [B|B]].
  - right. destruct (cap_facet nside i j ltac:(lia) (C1 ltac:(lia))) as [F1 [F2 F3]].
    exists ((j - 1) / i)%Z. split; [auto|].
    unfold jd2. replace (i <=? nside)%Z with true by (symmetry; apply Z.leb_le; lia).
    set (k := ((j - 1) / i)%Z) in *. set (r := ((j - 1) mod i)%Z) in *.
    replace (PI / 2) with (2 * IZR nside * h) by lra. rewrite Ep4.
    unfold id2. rewrite minus_IZR, mult_IZR.
    assert (G1 : 1 <= IZR i) by (apply IZR_le; lia).
    assert (G2 : IZR i < IZR nside) by (apply IZR_lt; lia).
    assert (G3 : 0 <= IZR r) by (apply IZR_le; lia).
    assert (G4 : IZR r <= IZR i - 1) by (rewrite <- minus_IZR; apply IZR_le; lia).
    rewrite (Rabs_pos_eq ((2 * IZR nside - IZR i) * h)) by nra.
    repeat rewrite ?plus_IZR, ?minus_IZR, ?mult_IZR. apply Rabs_le. split; nra.
  - right. destruct (cap_facet nside (4 * nside - i) j ltac:(lia) (C3 ltac:(lia))) as [F1 [F2 F3]].
    exists ((j - 1) / (4 * nside - i))%Z. split; [auto|].
    unfold jd2. replace (i <=? nside)%Z with false by (symmetry; apply Z.leb_gt; lia).
    replace (i <? 3 * nside)%Z with false by (symmetry; apply Z.ltb_ge; lia). cbv zeta.
    set (a := (4 * nside - i)%Z) in *.
    set (k := ((j - 1) / a)%Z) in *. set (r := ((j - 1) mod a)%Z) in *.
    replace (PI / 2) with (2 * IZR nside * h) by lra. rewrite Ep4.
    assert (EI : id2 nside i = (a - 2 * nside)%Z) by (unfold id2, a; ring). rewrite EI.
    rewrite (minus_IZR a), (mult_IZR 2).
    assert (G1 : 1 <= IZR a) by (apply IZR_le; unfold a; lia).
    assert (G2 : IZR a < IZR nside) by (apply IZR_lt; unfold a; lia).
    assert (G3 : 0 <= IZR r) by (apply IZR_le; lia).
    assert (G4 : IZR r <= IZR a - 1) by (rewrite <- minus_IZR; apply IZR_le; lia).
    rewrite (Rabs_left ((IZR a - 2 * IZR nside) * h)) by nra.
    repeat rewrite ?plus_IZR, ?minus_IZR, ?mult_IZR. apply Rabs_le. split; nra.
  - left. rewrite Ep4. unfold id2. rewrite minus_IZR, mult_IZR.
    assert (G1 : IZR nside <= IZR i) by (apply IZR_le; lia).
    assert (G2 : IZR i <= 3 * IZR nside) by (rewrite <- mult_IZR; apply IZR_le; lia).
    apply Rabs_le. split; nra.
Qed.

(** ** C07: star indices *)

Lemma star_exact : forall nside p, (1 <= nside)%Z -> legal_pix nside p ->
  exists i j jd is js, pix2ij p nside = Ok (i, j) /\ j2jd i j nside = Ok jd /\
    ijd2ijs (i2id i nside) jd nside = (is, js) /\
    (0 <= is)%Z /\ (0 <= js)%Z /\
    IZR is = jd - i2id i nside + IZR nside / 2 - / 2 /\
    IZR js = jd + i2id i nside + IZR nside / 2 - / 2 /\
    ijs2ijd is js nside = (i2id i nside, jd).
Proof.
  intros nside p Hn Hp. destruct (pix2ij_correct nside p Hn Hp) as [i [j [E [[L P] _]]]].
  pose proof (j2jd_legal nside i j Hn (proj1 L)) as EJ.
  pose proof (jd2_parity nside i j) as PV.
  apply Zeven_bool_iff, Zeven_ex_iff in PV. destruct PV as [u PV].
  set (J := jd2 nside i j) in *. set (I := id2 nside i) in *.
  exists i, j, (IZR J / 2), (u - I - 1)%Z, (u - 1)%Z.
  rewrite i2id_id2. fold I.
  assert (ER : IZR J = 2 * IZR u - IZR I - IZR nside - 1).
  { rewrite <- mult_IZR, <- !minus_IZR. f_equal. lia. }
  assert (Hu : (1 <= u)%Z /\ (1 <= u - I)%Z).
  { pose proof (ring_len_cap nside i j Hn L) as [C1 [C2 C3]].
    unfold I, id2 in *. unfold J, jd2 in PV. destruct L as [Hi _].
    destruct (Z.leb_spec i nside).
    - pose proof (cap_facet nside i j ltac:(lia) (C1 ltac:(lia))). nia.
    - destruct (Z.ltb_spec i (3 * nside)).
      + specialize (C2 ltac:(lia)). destruct (Z.even (i + nside)); lia.
      + pose proof (cap_facet nside (4 * nside - i) j ltac:(lia) (C3 ltac:(lia))). cbv zeta in PV. nia. }
  assert (T1 : IZR J / 2 - IZR I / 2 + IZR nside / 2 - / 2 = IZR (u - I - 1)).
  { rewrite !minus_IZR, ER. field. }
  assert (T2 : IZR J / 2 + IZR I / 2 + IZR nside / 2 - / 2 = IZR (u - 1)).
  { rewrite !minus_IZR, ER. field. }
  repeat split; auto; try lia; try lra.
  - unfold ijd2ijs. cbv zeta. rewrite T1, T2, !Ztrunc_IZR. reflexivity.
  - unfold ijs2ijd. cbv zeta. f_equal; rewrite ?minus_IZR; lra.
Qed.

Lemma star_inverse : forall nside is js,
  let '(idash, jdash) := ijs2ijd is js nside in
  ijd2ijs idash jdash nside = (is, js).
Proof.
  intros. unfold ijs2ijd, ijd2ijs. cbv zeta. f_equal.
  - transitivity (Ztrunc (IZR is)); [f_equal; field | apply Ztrunc_IZR].
  - transitivity (Ztrunc (IZR js)); [f_equal; field | apply Ztrunc_IZR].
Qed.

Lemma centre_range_region : forall nside p x y, (1 <= nside)%Z -> legal_pix nside p ->
  pix2xy p nside = Ok (x, y) ->
  0 <= x < 2 * PI /\ - (PI / 2) < y < PI / 2 /\ heal_region x y.
Proof.
  intros nside p x y Hn Hp E. destruct (centre_in_range nside p x y Hn Hp E) as [A B].
  split; auto. split; auto. eapply centre_in_region; eauto.
Qed.
