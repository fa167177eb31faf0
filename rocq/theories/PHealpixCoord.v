(** * Proofs about [MHealpixCoord.v] *)

From Coq Require Import Reals ZArith List Bool Lia Lra Psatz.
From Coquelicot Require Import Coquelicot.
From Flocq Require Import Core.Raux.
From Verif Require Import Base BaseP Spec MHealpixIndex MHealpixCoord PHealpixCentre PHealpixArray.
Import ListNotations.
Open Scope R_scope.

Lemma Rsign_pos : forall z, 0 < z -> Rsign z = 1.
Proof. intros. unfold Rsign. rewrite Rlt_bool_t by auto. auto. Qed.
Lemma Rsign_neg : forall z, z < 0 -> Rsign z = -1.
Proof. intros. unfold Rsign. rewrite Rlt_bool_f by lra. rewrite Rlt_bool_t by auto. auto. Qed.

Lemma Rsign_abs : forall z, z <> 0 -> Rsign z * Rabs z = z.
Proof.
  intros. unfold Rsign. rcase; try lra.
  rewrite Rabs_pos_eq; lra. rewrite Rabs_left; lra.
Qed.

Lemma Rsign_cases : forall z, z <> 0 -> Rsign z = 1 \/ Rsign z = -1.
Proof. intros. unfold Rsign. rcase; try lra; auto. Qed.

Lemma Rsign_mult_pos : forall s t, (s = 1 \/ s = -1) -> 0 < t ->
  Rsign (s * t) = s /\ Rabs (s * t) = t.
Proof.
  intros s t [->| ->] Ht; unfold Rsign.
  - rewrite Rlt_bool_t by lra. rewrite Rabs_pos_eq; lra.
  - rewrite Rlt_bool_f by lra. rewrite Rlt_bool_t by lra. rewrite Rabs_left; lra.
Qed.

(** ** sphere -> plane -> sphere *)

Lemma cos_interior : forall t, 0 < t < PI -> -1 < cos t < 1.
Proof.
  intros t Ht. split.
  - rewrite <- cos_PI. apply cos_decreasing_1; lra.
  - rewrite <- cos_0. apply cos_decreasing_1; lra.
Qed.

(** The data of the polar branch of [ang2xy]. *)
Lemma ang2xy_polar : forall phi theta, 0 < theta < PI -> 2 / 3 < Rabs (cos theta) ->
  exists s q k, (s = 1 \/ s = -1) /\ 0 < q < 1 /\
    cos theta = s * (1 - q ^ 2 / 3) /\
    IZR k * (PI / 2) <= phi < (IZR k + 1) * (PI / 2) /\
    ang2xy phi theta = (q * phi + (1 - q) * (PI / 4) * (2 * IZR k + 1), s * (2 - q) * (PI / 4)).
Proof.
  intros phi theta Ht Hz. pose proof (cos_interior theta Ht) as Hc. pose proof PI_pos as HPI.
  set (z := cos theta) in *.
  assert (Hz0 : z <> 0) by (intro E; rewrite E, Rabs_R0 in Hz; lra).
  assert (Hz1 : Rabs z < 1) by (apply Rabs_def1; lra).
  set (q := sqrt (3 * (1 - Rabs z))).
  assert (Hq2 : q * q = 3 * (1 - Rabs z)) by (apply sqrt_sqrt; lra).
  assert (Hq0 : 0 < q) by (apply sqrt_lt_R0; lra).
  assert (Hq1 : q < 1) by nra.
  exists (Rsign z), q, (Zfloor (phi / (PI / 2))).
  assert (Hs := Rsign_cases z Hz0). split; auto. split; [lra|].
  split. { rewrite <- (Rsign_abs z Hz0) at 1. f_equal. simpl. lra. }
  pose proof (Zfloor_bound (phi / (PI / 2))) as [F1 F2].
  set (k := Zfloor (phi / (PI / 2))) in *.
  assert (E : phi = phi / (PI / 2) * (PI / 2)) by (field; lra).
  split. { split; nra. }
  unfold ang2xy. fold z. rewrite Rle_bool_f by auto. fold q.
  destruct (Rsign_mult_pos (Rsign z) (2 - q) Hs ltac:(lra)) as [G1 G2].
  rewrite G2. unfold Rmod. fold k. f_equal; field.
Qed.

Lemma xy2ang_polar : forall x s q k, (s = 1 \/ s = -1) -> 0 < q < 1 ->
  IZR k * (PI / 2) <= x < (IZR k + 1) * (PI / 2) ->
  xy2ang x (s * (2 - q) * (PI / 4))
  = ((x - (PI / 4) * (1 - q) * (2 * IZR k + 1)) / q, Some (acos (s * (1 - q ^ 2 / 3)))).
Proof.
  intros x s q k Hs Hq Hx. pose proof PI_pos as HPI. unfold xy2ang.
  destruct (Rsign_mult_pos s (2 - q) Hs ltac:(lra)) as [G1 G2].
  rewrite Rabs_mult, G2, (Rabs_pos_eq (PI / 4)) by lra.
  rewrite Rle_bool_f by nra.
  replace (4 * (s * (2 - q) * (PI / 4)) / PI) with (s * (2 - q)) by (field; lra).
  rewrite G1, G2.
  replace (1 - 1 / 3 * (2 - (2 - q)) ^ 2) with (1 - q ^ 2 / 3) by field.
  rewrite np_arccos_ok by (destruct Hs as [-> | ->]; nra).
  rewrite Req_bool_false by lra. f_equal.
  rewrite (Zfloor_unique (2 * x / PI) k).
  2: { assert (E : x = 2 * x / PI * (PI / 2)) by (field; lra).
       split; apply Rmult_le_reg_r with (PI / 2) || apply Rmult_lt_reg_r with (PI / 2); lra. }
  replace (1 - (2 - q - 1)) with q by ring. replace (2 - q - 1) with (1 - q) by ring. reflexivity.
Qed.

Lemma facet_pos : forall q k phi, 0 < q < 1 ->
  IZR k * (PI / 2) <= phi < (IZR k + 1) * (PI / 2) ->
  IZR k * (PI / 2) <= q * phi + (1 - q) * (PI / 4) * (2 * IZR k + 1) < (IZR k + 1) * (PI / 2).
Proof. intros q k phi Hq Hp. pose proof PI_pos. split; nra. Qed.

Lemma ang_xy_ang : forall phi theta, 0 <= phi < 2 * PI -> 0 < theta < PI ->
  let '(x, y) := ang2xy phi theta in
  xy2ang x y = (phi, Some theta) /\ heal_chart x y.
Proof.
  intros phi theta Hphi Ht. pose proof PI_pos as HPI.
  destruct (Rle_dec (Rabs (cos theta)) (2 / 3)) as [Hz|Hz].
  - unfold ang2xy. rewrite Rle_bool_t by auto.
    assert (B : Rabs (3 * PI / 8 * cos theta) <= PI / 4).
    { rewrite Rabs_mult, (Rabs_pos_eq (3 * PI / 8)) by lra. nra. }
    split.
    + unfold xy2ang. rewrite Rle_bool_t by auto.
      replace (8 * (3 * PI / 8 * cos theta) / (3 * PI)) with (cos theta) by (field; lra).
      rewrite np_arccos_ok by (pose proof (COS_bound theta); lra).
      rewrite acos_cos by lra. reflexivity.
    + split; auto.
  - apply Rnot_le_lt in Hz.
    destruct (ang2xy_polar phi theta Ht Hz) as [s [q [k [Hs [Hq [Ez [Hk E]]]]]]].
    rewrite E. pose proof (facet_pos q k phi Hq Hk) as HF. split.
    + rewrite (xy2ang_polar _ s q k Hs Hq HF).
      rewrite <- Ez, acos_cos by lra. f_equal. field. lra.
    + assert (HK : (0 <= k <= 3)%Z).
      { split.
        - apply Z.lt_succ_r. apply lt_IZR. unfold Z.succ. rewrite plus_IZR. nra.
        - apply Z.lt_succ_r. apply lt_IZR. simpl. nra. }
      assert (HK1 : 0 <= IZR k) by (apply IZR_le; lia).
      assert (HK2 : IZR k <= 3) by (apply IZR_le; lia).
      destruct (Rsign_mult_pos s (2 - q) Hs ltac:(lra)) as [_ G2].
      split. { split; nra. }
      right. rewrite Rabs_mult, G2, (Rabs_pos_eq (PI / 4)) by lra.
      split; [nra|]. exists k. split; auto. split; nra.
Qed.

(** ** plane -> sphere -> plane *)

Lemma xy_ang_xy : forall x y, heal_chart x y ->
  exists phi theta, xy2ang x y = (phi, Some theta) /\
    0 <= phi < 2 * PI /\ 0 < theta < PI /\ ang2xy phi theta = (x, y).
Proof.
  intros x y [Hx Hy]. pose proof PI_pos as HPI.
  destruct (Rle_dec (Rabs y) (PI / 4)) as [B|B].
  - unfold xy2ang. rewrite Rle_bool_t by auto.
    set (z := 8 * y / (3 * PI)).
    assert (Ez : y = 3 * PI / 8 * z) by (unfold z; field; lra).
    assert (Hz : Rabs z <= 2 / 3).
    { rewrite Ez, Rabs_mult, (Rabs_pos_eq (3 * PI / 8)) in B by lra. nra. }
    assert (Hz' : -1 < z < 1) by (destruct (Rabs_def2 z 1 ltac:(lra)); lra).
    rewrite np_arccos_ok by lra. exists x, (acos z). split; auto. split; auto. split.
    + apply acos_bound_lt. lra.
    + unfold ang2xy. rewrite cos_acos by lra. rewrite Rle_bool_t by auto. rewrite <- Ez. auto.
  - destruct Hy as [Hy|[Hy [k [Hk Hc]]]]; [lra|]. apply Rnot_le_lt in B.
    assert (Hy0 : y <> 0) by (intro E; rewrite E, Rabs_R0 in B; lra).
    set (s := Rsign y). set (q := 2 - Rabs y * (4 / PI)).
    assert (Eay : Rabs y = (2 - q) * (PI / 4)) by (unfold q; field; lra).
    assert (Hq : 0 < q < 1).
    { rewrite Eay in B, Hy. split; nra. }
    assert (Hs : s = 1 \/ s = -1) by (apply Rsign_cases; auto).
    assert (Ey : y = s * (2 - q) * (PI / 4)).
    { rewrite <- (Rsign_abs y Hy0) at 1. rewrite Eay. fold s. ring. }
    rewrite Eay in Hc.
    assert (Hk1 : 0 <= IZR k) by (apply IZR_le; lia).
    assert (Hk2 : IZR k <= 3) by (apply IZR_le; lia).
    rewrite Ey. rewrite (xy2ang_polar x s q k Hs Hq) by (split; nra).
    set (phi := (x - PI / 4 * (1 - q) * (2 * IZR k + 1)) / q).
    assert (Ex : x = q * phi + (1 - q) * (PI / 4) * (2 * IZR k + 1)) by (unfold phi; field; lra).
    assert (Hphi : IZR k * (PI / 2) <= phi < (IZR k + 1) * (PI / 2)).
    { rewrite Ex in Hc. split; nra. }
    set (z := s * (1 - q ^ 2 / 3)).
    assert (Hz' : -1 < z < 1) by (unfold z; destruct Hs as [-> | ->]; nra).
    exists phi, (acos z). split; auto. split. { split; nra. }
    split. { apply acos_bound_lt. lra. }
    assert (Haz : Rabs z = 1 - q ^ 2 / 3).
    { unfold z. apply Rsign_mult_pos; auto. nra. }
    destruct (ang2xy_polar phi (acos z)) as [s' [q' [k' [Hs' [Hq' [Ez [Hk' E]]]]]]].
    { apply acos_bound_lt. lra. }
    { rewrite cos_acos by lra. rewrite Haz. nra. }
    rewrite cos_acos in Ez by lra.
    assert (k' = k).
    { assert (IZR k < IZR k' + 1) by nra. assert (IZR k' < IZR k + 1) by nra.
      rewrite <- plus_IZR in H, H0. apply lt_IZR in H, H0. lia. }
    assert (s' = s /\ q' = q) as [-> ->].
    { unfold z in Ez. destruct Hs as [-> | ->]; destruct Hs' as [-> | ->]; try (exfalso; nra);
      (split; [auto|]); assert ((q' - q) * (q' + q) = 0) by nra; nra. }
    subst k'. rewrite E. rewrite <- Ex. reflexivity.
Qed.

(** Every returned theta is a colatitude. *)
Lemma xy2ang_theta_range : forall x y phi theta,
  xy2ang x y = (phi, Some theta) -> 0 <= theta <= PI.
Proof.
  intros x y phi theta. unfold xy2ang, np_arccos. intros H.
  destruct (Rle_bool (Rabs y) (PI / 4)).
  - injection H as _ H. destruct (Rle_bool _ _ && Rle_bool _ _); inversion H. apply acos_bound.
  - injection H as _ H. destruct (Rle_bool _ _ && Rle_bool _ _); inversion H. apply acos_bound.
Qed.

(** Pole: the apex of every triangle is the pole, reported with phi = 0. *)
Lemma xy2ang_pole : forall x,
  xy2ang x (PI / 2) = (0, Some 0) /\ xy2ang x (- (PI / 2)) = (0, Some PI).
Proof.
  intros x. pose proof PI_pos as HPI. unfold xy2ang. split.
  - rewrite (Rabs_pos_eq (PI / 2)) by lra. rewrite Rle_bool_f by lra.
    replace (4 * (PI / 2) / PI) with 2 by (field; lra).
    rewrite (Rabs_pos_eq 2) by lra. rewrite Req_bool_true by lra.
    unfold Rsign. rewrite Rlt_bool_t by lra.
    replace (1 * (1 - 1 / 3 * (2 - 2) ^ 2)) with 1 by field.
    rewrite np_arccos_ok by lra. rewrite acos_1. reflexivity.
  - rewrite Rabs_Ropp, (Rabs_pos_eq (PI / 2)) by lra. rewrite Rle_bool_f by lra.
    replace (4 * - (PI / 2) / PI) with (-2) by (field; lra).
    rewrite (Rabs_left (-2)) by lra. rewrite Req_bool_true by lra.
    unfold Rsign. rewrite Rlt_bool_f by lra. rewrite Rlt_bool_t by lra.
    replace (-1 * (1 - 1 / 3 * (2 - - -2) ^ 2)) with (-(1)) by field.
    rewrite np_arccos_ok by lra. rewrite acos_opp, acos_1. f_equal. f_equal. lra.
Qed.

(** ** Right cut edge: the point is returned on the glued left edge. *)
Lemma xy2ang_cut : forall s q k, (s = 1 \/ s = -1) -> 0 < q < 1 -> (0 <= k <= 3)%Z ->
  let x := (2 * IZR k + 1) * (PI / 4) + q * (PI / 4) in
  let y := s * (2 - q) * (PI / 4) in
  fst (xy2ang x y) = (IZR k + 1) * (PI / 2) /\
  exists theta, snd (xy2ang x y) = Some theta /\ 0 < theta < PI /\
    ang2xy ((IZR k + 1) * (PI / 2)) theta = (x + 2 * (1 - q) * (PI / 4), y).
Proof.
  intros s q k Hs Hq Hk x y. pose proof PI_pos as HPI. unfold y.
  rewrite (xy2ang_polar x s q k Hs Hq) by (unfold x; split; nra). cbn [fst snd]. split.
  - unfold x. field. lra.
  - set (z := s * (1 - q ^ 2 / 3)).
    assert (Hz' : -1 < z < 1) by (unfold z; destruct Hs as [-> | ->]; nra).
    exists (acos z). split; auto. split. { apply acos_bound_lt. lra. }
    assert (Haz : Rabs z = 1 - q ^ 2 / 3).
    { unfold z. apply Rsign_mult_pos; auto. nra. }
    destruct (ang2xy_polar ((IZR k + 1) * (PI / 2)) (acos z))
      as [s' [q' [k' [Hs' [Hq' [Ez [Hk' E]]]]]]].
    { apply acos_bound_lt. lra. }
    { rewrite cos_acos by lra. rewrite Haz. nra. }
    rewrite cos_acos in Ez by lra.
    assert (k' = k + 1)%Z.
    { assert (IZR k + 1 < IZR k' + 1) by nra. assert (IZR k' < IZR k + 1 + 1) by nra.
      rewrite <- !plus_IZR in *. apply lt_IZR in H, H0. lia. }
    assert (s' = s /\ q' = q) as [-> ->].
    { unfold z in Ez. destruct Hs as [-> | ->]; destruct Hs' as [-> | ->]; try (exfalso; nra);
      (split; [auto|]); assert ((q' - q) * (q' + q) = 0) by nra; nra. }
    subst k'. rewrite E. rewrite plus_IZR. unfold x. f_equal. field.
Qed.

(** ** Jacobian *)

(** Height on the sphere of the image point. *)
Definition image_z (x y : R) : R :=
  match snd (xy2ang x y) with Some t => cos t | None => 0 end.

Lemma image_z_belt : forall x y, Rabs y <= PI / 4 -> image_z x y = 8 * y / (3 * PI).
Proof.
  intros x y H. pose proof PI_pos as HPI. unfold image_z, xy2ang. rewrite Rle_bool_t by auto.
  assert (-1 <= 8 * y / (3 * PI) <= 1).
  { assert (E : y = 3 * PI / 8 * (8 * y / (3 * PI))) by (field; lra).
    apply Rabs_le_between in H. split; nra. }
  cbn [snd]. rewrite np_arccos_ok by auto. apply cos_acos; auto.
Qed.

Lemma image_z_polar : forall x y, PI / 4 < Rabs y <= PI / 2 ->
  image_z x y = Rsign y * (1 - (2 - Rabs y * (4 / PI)) ^ 2 / 3).
Proof.
  intros x y H. pose proof PI_pos as HPI. unfold image_z, xy2ang. rewrite Rle_bool_f by lra.
  assert (Hy0 : y <> 0) by (intro E; rewrite E, Rabs_R0 in H; lra).
  assert (Ea : Rabs (4 * y / PI) = Rabs y * (4 / PI)).
  { replace (4 * y / PI) with (y * (4 / PI)) by (field; lra).
    rewrite Rabs_mult, (Rabs_pos_eq (4 / PI)); auto.
    apply Rlt_le. apply Rdiv_lt_0_compat; lra. }
  assert (Es : Rsign (4 * y / PI) = Rsign y).
  { destruct (Rsign_cases y Hy0) as [S|S].
    - assert (0 < y) by (unfold Rsign in S; revert S; rcase; lra).
      rewrite !Rsign_pos; auto. apply Rdiv_lt_0_compat; lra.
    - assert (y < 0) by (unfold Rsign in S; revert S; rcase; lra).
      assert (4 * y / PI < 0).
      { replace (4 * y / PI) with (- (4 * (- y) / PI)) by (field; lra).
        assert (0 < 4 * - y / PI) by (apply Rdiv_lt_0_compat; lra). lra. }
      rewrite !Rsign_neg; auto. }
  rewrite Ea, Es. cbn [snd].
  replace (1 / 3 * (2 - Rabs y * (4 / PI)) ^ 2) with ((2 - Rabs y * (4 / PI)) ^ 2 / 3) by (field; lra).
  assert (B : 0 <= 2 - Rabs y * (4 / PI) <= 1).
  { assert (E : Rabs y = Rabs y * (4 / PI) * (PI / 4)) by (field; lra). split; nra. }
  set (q := 2 - Rabs y * (4 / PI)) in *.
  assert (-1 <= Rsign y * (1 - q ^ 2 / 3) <= 1).
  { assert (q ^ 2 <= 1) by nra. assert (0 <= q ^ 2) by nra.
    destruct (Rsign_cases y Hy0) as [-> | ->]; lra. }
  rewrite np_arccos_ok by auto. apply cos_acos; auto.
Qed.

Ltac toR := match goal with |- @eq _ ?a ?b => change (@eq R a b) end.

Lemma locally_abs_lt : forall y c, Rabs y < c -> locally y (fun t => Rabs t < c).
Proof.
  intros y c H. exists (mkposreal (c - Rabs y) ltac:(lra)). intros t Ht.
  change (Rabs (t - y) < c - Rabs y) in Ht.
  replace t with (t - y + y) by ring. eapply Rle_lt_trans. apply Rabs_triang. lra.
Qed.

Lemma locally_abs_gt : forall y c, c < Rabs y -> locally y (fun t => c < Rabs t).
Proof.
  intros y c H. exists (mkposreal (Rabs y - c) ltac:(lra)). intros t Ht.
  change (Rabs (t - y) < Rabs y - c) in Ht. rewrite Rabs_minus_sym in Ht.
  pose proof (Rabs_triang (y - t) t). replace (y - t + t) with y in H0 by ring. lra.
Qed.

Lemma locally_between : forall x a b, a < x < b -> locally x (fun t => a < t < b).
Proof.
  intros x a b H.
  exists (mkposreal (Rmin (x - a) (b - x)) ltac:(apply Rmin_glb_lt; lra)). intros t Ht.
  change (Rabs (t - x) < Rmin (x - a) (b - x)) in Ht.
  pose proof (Rmin_l (x - a) (b - x)). pose proof (Rmin_r (x - a) (b - x)).
  assert (Rabs (t - x) < x - a) by lra. assert (Rabs (t - x) < b - x) by lra.
  apply Rabs_def2 in H2, H3. lra.
Qed.

Lemma jac_belt : forall x y, Rabs y < PI / 4 ->
  is_derive (fun t => fst (xy2ang t y)) x 1 /\
  is_derive (fun t => image_z x t) y (8 / (3 * PI)).
Proof.
  intros x y H. pose proof PI_pos as HPI. split.
  - apply is_derive_ext with (fun t => t).
    + intros t. unfold xy2ang. rewrite Rle_bool_t by lra. auto.
    + apply (is_derive_id x).
  - apply is_derive_ext_loc with (fun t => 8 * t / (3 * PI)).
    + generalize (locally_abs_lt y (PI / 4) H). apply filter_imp.
      intros t Ht. rewrite image_z_belt; lra.
    + auto_derive; auto. field. lra.
Qed.

(** Polar caps, away from the facet borders [x = k*pi/2]. *)
Lemma jac_polar : forall x y k, PI / 4 < Rabs y < PI / 2 ->
  IZR k * (PI / 2) < x < (IZR k + 1) * (PI / 2) ->
  is_derive (fun t => fst (xy2ang t y)) x (/ (2 - Rabs y * (4 / PI))) /\
  is_derive (fun t => image_z x t) y (8 / (3 * PI) * (2 - Rabs y * (4 / PI))) /\
  0 < 2 - Rabs y * (4 / PI).
Proof.
  intros x y k H Hx. pose proof PI_pos as HPI.
  assert (Hy0 : y <> 0) by (intro E; rewrite E, Rabs_R0 in H; lra).
  set (q := 2 - Rabs y * (4 / PI)).
  assert (Eay : Rabs y = (2 - q) * (PI / 4)) by (unfold q; field; lra).
  assert (Hq : 0 < q < 1) by (rewrite Eay in H; split; nra).
  assert (Hs := Rsign_cases y Hy0).
  assert (Ey : y = Rsign y * (2 - q) * (PI / 4)).
  { rewrite <- (Rsign_abs y Hy0) at 1. rewrite Eay. ring. }
  split; [|split; [|lra]].
  - apply is_derive_ext_loc with (fun t => (t - PI / 4 * (1 - q) * (2 * IZR k + 1)) / q).
    + generalize (locally_between x _ _ Hx). apply filter_imp.
      intros t Ht. rewrite Ey. rewrite (xy2ang_polar t _ q k Hs Hq) by lra. auto.
    + auto_derive; [lra|]. field. lra.
  - assert (L : locally y (fun t => PI / 4 < Rabs t < PI / 2)).
    { apply filter_and. apply locally_abs_gt; lra. apply locally_abs_lt; lra. }
    destruct (Rlt_dec 0 y) as [P|P].
    + apply is_derive_ext_loc with (fun t => 1 - (2 - t * (4 / PI)) ^ 2 / 3).
      * generalize (filter_and _ _ L (locally_between y 0 (y + 1) ltac:(lra))).
        apply filter_imp. intros t [T1 T2]. rewrite image_z_polar by lra.
        unfold Rsign. rewrite Rlt_bool_t by lra. rewrite Rabs_pos_eq by lra. toR; ring.
      * unfold q. rewrite Rabs_pos_eq by lra. auto_derive; auto. field. lra.
    + apply is_derive_ext_loc with (fun t => - (1 - (2 + t * (4 / PI)) ^ 2 / 3)).
      * generalize (filter_and _ _ L (locally_between y (y - 1) 0 ltac:(lra))).
        apply filter_imp. intros t [T1 T2]. rewrite image_z_polar by lra.
        unfold Rsign. rewrite Rlt_bool_f by lra. rewrite Rlt_bool_t by lra.
        rewrite Rabs_left by lra. replace (2 - - t * (4 / PI)) with (2 + t * (4 / PI)) by ring. toR; ring.
      * unfold q. rewrite Rabs_left by lra. auto_derive; auto. field. lra.
Qed.

Lemma equal_area : forall x y,
  (Rabs y < PI / 4 \/
   (PI / 4 < Rabs y < PI / 2 /\ exists k : Z, IZR k * (PI / 2) < x < (IZR k + 1) * (PI / 2))) ->
  exists a b, is_derive (fun t => fst (xy2ang t y)) x a /\
    is_derive (fun t => image_z x t) y b /\
    (forall t, image_z t y = image_z x y) /\
    a * b = 8 / (3 * PI).
Proof.
  intros x y [H|[H [k Hk]]]; pose proof PI_pos as HPI.
  - destruct (jac_belt x y H) as [A B]. exists 1, (8 / (3 * PI)). split; [|split; [|split]]; auto.
    + intros t. rewrite !image_z_belt; lra.
    + lra.
  - destruct (jac_polar x y k H Hk) as [A [B Q]].
    eexists; eexists. split; [exact A|]. split; [exact B|]. split.
    + intros t. rewrite !image_z_polar; lra.
    + field. split; lra.
Qed.

(** ** Arrays *)

Lemma length_xy2ang_arr : forall xs ys,
  length (fst (xy2ang_arr xs ys)) = length xs /\ length (snd (xy2ang_arr xs ys)) = length xs.
Proof.
  intros. unfold xy2ang_arr. cbn [fst snd]. split.
  - destruct (negb _); rewrite ?length_put, ?repeat_length; auto.
  - rewrite ?length_put, ?repeat_length; auto.
Qed.

(** Nested fancy indexing [cond[np.where(f(cond))]]. *)
Lemma take_where_filter : forall (g : nat -> bool) l,
  take 0%nat l (np_where (map g l)) = filter g l.
Proof.
  induction l as [|a l IH]; auto. simpl map. rewrite np_where_cons.
  assert (E : take 0%nat (a :: l) (map S (np_where (map g l))) = filter g l).
  { unfold take. rewrite map_map. simpl. exact IH. }
  simpl filter. destruct (g a); auto. simpl. f_equal. exact E.
Qed.

Lemma take_map : forall A B (h : A -> B) l idx d d',
  (forall c, In c idx -> (c < length l)%nat) ->
  take d (map h l) idx = map h (take d' l idx).
Proof.
  intros. unfold take. rewrite map_map. apply map_ext_in. intros c Hc.
  apply nth_map_lt. auto.
Qed.

Lemma nth_put_filter : forall A g m (l : list A) (h : nat -> A) q d,
  length m = length l -> (q < length l)%nat ->
  nth q (put l (filter g (np_where m)) (map h (filter g (np_where m)))) d
  = if nth q m false && g q then h q else nth q l d.
Proof.
  intros A g m l h q d Hl Hq.
  destruct (in_dec Nat.eq_dec q (filter g (np_where m))) as [I|I].
  - rewrite nth_put_in; auto.
    + apply filter_In in I. destruct I as [I G]. apply in_np_where in I.
      destruct I as [_ I]. rewrite I, G. auto.
    + apply NoDup_filter. apply NoDup_np_where.
  - rewrite nth_put_notin by auto.
    destruct (nth q m false && g q) eqn:E; auto. exfalso. apply I.
    apply andb_true_iff in E. apply filter_In. split; [|tauto].
    apply in_np_where. split; [lia | tauto].
Qed.

Lemma xy2ang_arr_spec : forall xs ys q, length xs = length ys -> (q < length xs)%nat ->
  nth q (fst (xy2ang_arr xs ys)) None = Some (fst (xy2ang (nth q xs 0) (nth q ys 0))) /\
  nth q (snd (xy2ang_arr xs ys)) None = snd (xy2ang (nth q xs 0) (nth q ys 0)).
Proof.
  intros xs ys q Hl Hq. unfold xy2ang_arr. cbn [fst snd].
  set (mb := map (fun y => Rle_bool (Rabs y) (PI / 4)) ys).
  set (mp := map (fun y => Rlt_bool (PI / 4) (Rabs y)) ys).
  assert (Nb : nth q mb false = Rle_bool (Rabs (nth q ys 0)) (PI / 4)).
  { unfold mb. rewrite nth_map_lt with (d' := 0) by lia. auto. }
  assert (Np : nth q mp false = Rlt_bool (PI / 4) (Rabs (nth q ys 0))).
  { unfold mp. rewrite nth_map_lt with (d' := 0) by lia. auto. }
  assert (Lb : length mb = length xs) by (unfold mb; rewrite map_length; auto).
  assert (Lp : length mp = length xs) by (unfold mp; rewrite map_length; auto).
  assert (PB : Rlt_bool (PI / 4) (Rabs (nth q ys 0)) = negb (Rle_bool (Rabs (nth q ys 0)) (PI / 4)))
    by apply Rlt_bool_negb.
  split.
  - set (sa := fun i => Rabs (4 * nth i ys 0 / PI) - 1).
    set (kk := fun i => IZR (Zfloor (2 * nth i xs 0 / PI))).
    set (F := fun i => fdiv (nth i xs 0 - PI / 4 * sa i * (2 * kk i + 1)) (1 - sa i)).
    set (phi0 := put (repeat (Some 0) (length xs)) (np_where mb)
                     (map Some (take 0 xs (np_where mb)))).
    assert (P0 : nth q phi0 (None : num) = if Rle_bool (Rabs (nth q ys 0)) (PI / 4)
                                   then Some (nth q xs 0) else Some 0).
    { unfold phi0, take. rewrite map_map. rewrite nth_put_where by (rewrite repeat_length; auto).
      rewrite Nb. rewrite nth_repeat_lt by auto. auto. }
    assert (L0 : length phi0 = length xs) by (unfold phi0; rewrite length_put, repeat_length; auto).
    set (S := map (fun s => Rabs s - 1) (map (fun y => 4 * y / PI) (take 0 ys (np_where mp)))).
    set (K := map (fun x => IZR (Zfloor (2 * x / PI))) (take 0 xs (np_where mp))).
    assert (ES : S = map sa (np_where mp)) by (unfold S, take; rewrite !map_map; auto).
    assert (EK : K = map kk (np_where mp)) by (unfold K, take; rewrite !map_map; auto).
    unfold xy2ang. cbn [fst].
    destruct (negb (existsb (fun s => Req_bool s 1) S)) eqn:E.
    + rewrite ES, EK. rewrite combine_map_map. unfold take. rewrite map2_map_map. cbn [fst snd].
      change (fun x => fdiv (nth x xs 0 - PI / 4 * sa x * (2 * kk x + 1)) (1 - sa x)) with F.
      rewrite nth_put_where; [| exact (eq_trans Lp (eq_sym L0)) | rewrite <- L0 in Hq; exact Hq].
      unfold num in *. rewrite Np, P0, PB.
      destruct (Rle_bool (Rabs (nth q ys 0)) (PI / 4)) eqn:Eb; cbn [negb]; auto.
      assert (Hsa : sa q <> 1).
      { apply negb_true_iff in E. intro C.
        assert (existsb (fun s => Req_bool s 1) S = true); [|congruence].
        apply existsb_exists. exists (sa q). split.
        - rewrite ES. apply in_map. apply in_np_where. split; [lia|]. rewrite Np, PB. auto.
        - rewrite C. apply Req_bool_true. auto. }
      unfold F. rewrite fdiv_nz by lra. fold (sa q). fold (kk q).
      rewrite Req_bool_false by auto. auto.
    + rewrite ES, EK. rewrite !map_map.
      rewrite !take_where_filter.
      set (idx1 := filter (fun x => Req_bool (sa x) 1) (np_where mp)).
      set (idx2 := filter (fun x => negb (Req_bool (sa x) 1)) (np_where mp)).
      set (c2 := np_where (map (fun x => negb (Req_bool (sa x) 1)) (np_where mp))).
      assert (HC2 : forall c, In c c2 -> (c < length (np_where mp))%nat).
      { intros c Hc. apply in_np_where in Hc. rewrite map_length in Hc. tauto. }
      rewrite (take_map _ _ sa (np_where mp) c2 0 0%nat HC2).
      rewrite (take_map _ _ kk (np_where mp) c2 0 0%nat HC2).
      unfold c2. rewrite take_where_filter. fold idx2.
      rewrite combine_map_map. unfold take. rewrite map2_map_map. cbn [fst snd].
      change (fun x => fdiv (nth x xs 0 - PI / 4 * sa x * (2 * kk x + 1)) (1 - sa x)) with F.
      unfold idx2.
      rewrite nth_put_filter; [| rewrite length_put; exact (eq_trans Lp (eq_sym L0))
                               | rewrite length_put; rewrite <- L0 in Hq; exact Hq].
      assert (E1 : map (fun _ : nat => Some 0) (np_where (map (fun x => Req_bool (sa x) 1) (np_where mp)))
                   = map (fun _ => Some 0) idx1).
      { unfold idx1. rewrite <- take_where_filter. unfold take. rewrite map_map. auto. }
      rewrite E1. unfold idx1.
      rewrite nth_put_filter; [| exact (eq_trans Lp (eq_sym L0)) | rewrite <- L0 in Hq; exact Hq].
      unfold num in *. rewrite Np, P0, PB.
      destruct (Rle_bool (Rabs (nth q ys 0)) (PI / 4)) eqn:Eb; cbn [negb andb]; auto.
      fold (sa q). fold (kk q).
      destruct (Req_bool_spec (sa q) 1); cbn [negb]; auto.
      unfold F. rewrite fdiv_nz by lra. auto.
  - unfold take. rewrite !map_map.
    rewrite nth_put_where by (rewrite length_put, repeat_length; auto).
    rewrite nth_put_where by (rewrite repeat_length; auto).
    rewrite Np, Nb, nth_repeat_lt by auto. unfold xy2ang. rewrite PB.
    destruct (Rle_bool (Rabs (nth q ys 0)) (PI / 4)); cbn [negb snd]; auto.
Qed.

Lemma length_ang2xy_arr : forall ps ts, length ps = length ts ->
  length (fst (ang2xy_arr ps ts)) = length ps /\ length (snd (ang2xy_arr ps ts)) = length ps.
Proof.
  intros. unfold ang2xy_arr. cbn [fst snd].
  rewrite ?length_put, ?repeat_length; auto.
Qed.

Lemma ang2xy_arr_spec : forall ps ts q, length ps = length ts -> (q < length ps)%nat ->
  nth q (fst (ang2xy_arr ps ts)) 0 = fst (ang2xy (nth q ps 0) (nth q ts 0)) /\
  nth q (snd (ang2xy_arr ps ts)) 0 = snd (ang2xy (nth q ps 0) (nth q ts 0)).
Proof.
  intros ps ts q Hl Hq. unfold ang2xy_arr. cbn [fst snd]. rewrite !map_map.
  set (mb := map (fun t => Rle_bool (Rabs (cos t)) (2 / 3)) ts).
  set (mp := map (fun t => Rlt_bool (2 / 3) (Rabs (cos t))) ts).
  assert (Nb : nth q mb false = Rle_bool (Rabs (cos (nth q ts 0))) (2 / 3)).
  { unfold mb. rewrite nth_map_lt with (d' := 0) by lia. auto. }
  assert (Np : nth q mp false = negb (Rle_bool (Rabs (cos (nth q ts 0))) (2 / 3))).
  { unfold mp. rewrite nth_map_lt with (d' := 0) by lia. apply Rlt_bool_negb. }
  assert (Lb : length mb = length ps) by (unfold mb; rewrite map_length; auto).
  assert (Lp : length mp = length ps) by (unfold mp; rewrite map_length; auto).
  assert (HC : forall c, In c (np_where mp) -> (c < length ts)%nat).
  { intros c Hc. apply in_np_where in Hc. lia. }
  rewrite (take_map _ _ cos ts (np_where mp) 0 0 HC).
  unfold take. rewrite !map_map, combine_map_map, map2_map_map. cbn [fst snd].
  rewrite !nth_put_where by (rewrite ?length_put, ?repeat_length; lia).
  rewrite Np, Nb, !nth_repeat_lt by lia. unfold ang2xy.
  destruct (Rle_bool (Rabs (cos (nth q ts 0))) (2 / 3)); cbn [negb fst snd]; auto.
Qed.
