(** * Coordinate conversions *)

From Coq Require Import Reals ZArith List Bool Lra Lia Psatz.
From Flocq Require Import Core.Raux.
From Verif Require Import Base BaseP SpecSphere MCoords PHealpixCentre PHealpixArray PTrig.
Import ListNotations.
Open Scope R_scope.

Lemma cart2polar_range : forall x y c0 c1,
  0 <= fst (cart2polar x y c0 c1) /\ 0 <= snd (cart2polar x y c0 c1) < 2 * PI.
Proof.
  intros. unfold cart2polar; cbn [fst snd]. split; [apply sqrt_pos|].
  exact (proj2 (proj2 (wrap_neg_spec (y - c1) (x - c0)))).
Qed.

Lemma polar_of_cart : forall x y c0 c1,
  polar2cart (fst (cart2polar x y c0 c1)) (snd (cart2polar x y c0 c1)) c0 c1 = (x, y).
Proof.
  intros. unfold cart2polar, polar2cart; cbn [fst snd].
  destruct (wrap_neg_spec (y - c1) (x - c0)) as (H1 & H2 & _). unfold wrap_neg in *.
  rewrite H1, H2. f_equal; ring.
Qed.

Lemma cart_of_polar : forall r f c0 c1, 0 < r -> 0 <= f < 2 * PI ->
  cart2polar (fst (polar2cart r f c0 c1)) (snd (polar2cart r f c0 c1)) c0 c1 = (r, f).
Proof.
  intros r f c0 c1 Hr Hf. unfold cart2polar, polar2cart; cbn [fst snd].
  replace (r * cos f + c0 - c0) with (r * cos f) by ring.
  replace (r * sin f + c1 - c1) with (r * sin f) by ring.
  f_equal.
  - replace ((r * cos f) ^ 2 + (r * sin f) ^ 2) with (r ^ 2) by (pose proof (sc1 f); nra).
    apply sqrt_pow2'. lra.
  - exact (atan2_polar r f Hr Hf).
Qed.

Lemma nth_put_wrap : forall (l : list R) q, (q < length l)%nat ->
  nth q (put l (np_where (map (fun f => Rlt_bool f 0) l))
               (map (fun f => f + 2 * PI) (take 0 l (np_where (map (fun f => Rlt_bool f 0) l))))) 0
  = wrap_neg (nth q l 0).
Proof.
  intros l q Hq. unfold take. rewrite map_map.
  rewrite (nth_put_where _ (map (fun f => Rlt_bool f 0) l) l
             (fun i => nth i l 0 + 2 * PI) q 0).
  - rewrite (nth_map_lt _ _ _ l q false 0) by exact Hq. unfold wrap_neg.
    destruct (Rlt_bool (nth q l 0) 0); reflexivity.
  - rewrite map_length. reflexivity.
  - exact Hq.
Qed.

Lemma cart2polar_arr_len : forall x y c0 c1, length x = length y ->
  length (fst (cart2polar_arr x y c0 c1)) = length x /\
  length (snd (cart2polar_arr x y c0 c1)) = length x.
Proof.
  intros x y c0 c1 H. unfold cart2polar_arr; cbn [fst snd]. rewrite length_put, !map2_length.
  lia.
Qed.

Lemma cart2polar_arr_nth : forall x y c0 c1 q, length x = length y -> (q < length x)%nat ->
  (nth q (fst (cart2polar_arr x y c0 c1)) 0, nth q (snd (cart2polar_arr x y c0 c1)) 0)
  = cart2polar (nth q x 0) (nth q y 0) c0 c1.
Proof.
  intros x y c0 c1 q H Hq. unfold cart2polar_arr, cart2polar; cbn [fst snd].
  rewrite nth_put_wrap by (rewrite map2_length; lia).
  rewrite !(nth_map2 _ _ _ _ _ _ _ 0 0 0) by lia. reflexivity.
Qed.

(** ** Spherical *)

Lemma hyp3 : forall x y z, x ^ 2 + y ^ 2 <= x ^ 2 + y ^ 2 + z ^ 2.
Proof. intros. nra. Qed.

Lemma c2s_theta : forall x y z c0 c1 c2, exists t,
  snd (cart2sphere x y z c0 c1 c2) = Some t /\ 0 <= t <= PI /\
  fst (fst (cart2sphere x y z c0 c1 c2)) * cos t = z - c2 /\
  fst (fst (cart2sphere x y z c0 c1 c2)) * sin t = sqrt ((x - c0) ^ 2 + (y - c1) ^ 2).
Proof.
  intros. unfold cart2sphere; cbn [fst snd].
  set (X := x - c0). set (Y := y - c1). set (Z := z - c2).
  set (r := sqrt (X ^ 2 + Y ^ 2 + Z ^ 2)). pose proof PI_pos as HP.
  assert (Hr : r ^ 2 = X ^ 2 + Y ^ 2 + Z ^ 2).
  { unfold r. rewrite <- Rsqr_pow2. apply Rsqr_sqrt. nra. }
  assert (Hr0 : 0 <= r) by apply sqrt_pos.
  destruct (Req_bool_spec r 0) as [E|E]; cbn [negb].
  - exists 0. assert (X = 0 /\ Y = 0 /\ Z = 0) as (HX & HY & HZ).
    { rewrite E in Hr. repeat split; nra. }
    rewrite HX, HY, HZ, E. repeat split; try lra.
    replace (0 ^ 2 + 0 ^ 2) with 0 by ring. rewrite sqrt_0. ring.
  - assert (0 < r) by lra.
    assert (HB : -1 <= Z / r <= 1).
    { split; apply Rmult_le_reg_r with r; try lra; unfold Rdiv;
        rewrite Rmult_assoc, Rinv_l by lra; nra. }
    rewrite np_arccos_ok by exact HB.
    exists (acos (Z / r)). split; [reflexivity|].
    split; [apply acos_bound|]. rewrite cos_acos by lra. split; [field; lra|].
    rewrite sin_acos by lra.
    rewrite <- (sqrt_pow2' r Hr0) at 1.
    rewrite <- sqrt_mult; [|nra|].
    + f_equal. unfold Rsqr. replace (r ^ 2 * (1 - Z / r * (Z / r))) with (r ^ 2 - Z ^ 2) by (field; lra).
      lra.
    + unfold Rsqr. nra.
Qed.

Lemma cart2sphere_spec : forall x y z c0 c1 c2, exists r f t,
  cart2sphere x y z c0 c1 c2 = (r, f, Some t) /\ 0 <= r /\ 0 <= f < 2 * PI /\ 0 <= t <= PI /\
  sphere2cart r f t c0 c1 c2 = (x, y, z).
Proof.
  intros. destruct (c2s_theta x y z c0 c1 c2) as (t & H1 & H2 & H3 & H4).
  destruct (wrap_neg_spec (y - c1) (x - c0)) as (G1 & G2 & G3).
  exists (fst (fst (cart2sphere x y z c0 c1 c2))), (wrap_neg (atan2 (y - c1) (x - c0))), t.
  split.
  - rewrite <- H1. unfold cart2sphere, wrap_neg; cbn [fst snd]. reflexivity.
  - split; [unfold cart2sphere; cbn [fst]; apply sqrt_pos|]. split; [exact G3|]. split; [exact H2|].
    unfold sphere2cart. set (r := fst (fst _)) in *.
    replace (r * cos (wrap_neg (atan2 (y - c1) (x - c0))) * sin t) with
      ((r * sin t) * cos (wrap_neg (atan2 (y - c1) (x - c0)))) by ring.
    replace (r * sin (wrap_neg (atan2 (y - c1) (x - c0))) * sin t) with
      ((r * sin t) * sin (wrap_neg (atan2 (y - c1) (x - c0)))) by ring.
    rewrite H4, H3, G1, G2. f_equal; [f_equal|]; ring.
Qed.

Lemma sphere_of_cart : forall r f t c0 c1 c2,
  0 < r -> 0 <= f < 2 * PI -> 0 < t < PI ->
  cart2sphere (fst (fst (sphere2cart r f t c0 c1 c2))) (snd (fst (sphere2cart r f t c0 c1 c2)))
              (snd (sphere2cart r f t c0 c1 c2)) c0 c1 c2 = (r, f, Some t).
Proof.
  intros r f t c0 c1 c2 Hr Hf Ht. unfold sphere2cart, cart2sphere; cbn [fst snd].
  replace (r * cos f * sin t + c0 - c0) with ((r * sin t) * cos f) by ring.
  replace (r * sin f * sin t + c1 - c1) with ((r * sin t) * sin f) by ring.
  replace (r * cos t + c2 - c2) with (r * cos t) by ring.
  assert (Hs : 0 < sin t) by (apply sin_gt_0; lra).
  assert (E : sqrt ((r * sin t * cos f) ^ 2 + (r * sin t * sin f) ^ 2 + (r * cos t) ^ 2) = r).
  { replace ((r * sin t * cos f) ^ 2 + (r * sin t * sin f) ^ 2 + (r * cos t) ^ 2)
      with (r ^ 2 * (sin t ^ 2 * (sin f ^ 2 + cos f ^ 2) + cos t ^ 2)) by ring.
    rewrite sc1, Rmult_1_r, sc1, Rmult_1_r. apply sqrt_pow2'. lra. }
  rewrite E.
  replace (negb (Req_bool r 0)) with true
    by (symmetry; destruct (Req_bool_spec r 0); [lra|reflexivity]).
  assert (HA := atan2_polar (r * sin t) f ltac:(nra) Hf). unfold wrap_neg in HA. rewrite HA.
  replace (r * cos t / r) with (cos t) by (field; lra).
  rewrite np_arccos_ok by (apply COS_bound). rewrite acos_cos by lra. reflexivity.
Qed.

Lemma nth_combine_lt : forall A B (l : list A) (m : list B) q da db,
  length l = length m -> (q < length l)%nat ->
  nth q (combine l m) (da, db) = (nth q l da, nth q m db).
Proof. intros. now apply combine_nth. Qed.

Lemma cart2sphere_arr_nth : forall x y z c0 c1 c2 q,
  length x = length y -> length y = length z -> (q < length x)%nat ->
  (nth q (fst (fst (cart2sphere_arr x y z c0 c1 c2))) 0,
   nth q (snd (fst (cart2sphere_arr x y z c0 c1 c2))) 0,
   nth q (snd (cart2sphere_arr x y z c0 c1 c2)) None)
  = cart2sphere (nth q x 0) (nth q y 0) (nth q z 0) c0 c1 c2.
Proof.
  intros x y z c0 c1 c2 q H H' Hq. unfold cart2sphere_arr, cart2sphere; cbn [fst snd].
  rewrite nth_put_wrap by (rewrite map2_length; lia).
  assert (Hr : forall i, (i < length x)%nat ->
    nth i (map2 (fun xy z => sqrt ((fst xy - c0) ^ 2 + (snd xy - c1) ^ 2 + (z - c2) ^ 2))
                (combine x y) z) 0
    = sqrt ((nth i x 0 - c0) ^ 2 + (nth i y 0 - c1) ^ 2 + (nth i z 0 - c2) ^ 2)).
  { intros i Hi. rewrite (nth_map2 _ _ _ _ _ _ _ (0, 0) 0 0)
      by (rewrite ?combine_length; lia).
    rewrite nth_combine_lt by lia. reflexivity. }
  rewrite Hr by exact Hq.
  rewrite !(nth_map2 _ _ _ _ y x _ 0 0 0) by lia.
  set (rr := map2 _ (combine x y) z) in *.
  assert (Lr : length rr = length x) by (unfold rr; rewrite map2_length, combine_length; lia).
  f_equal. unfold take. rewrite map2_map_map.
  rewrite (nth_put_where _ (map (fun r => negb (Req_bool r 0)) rr) _
             (fun i => np_arccos ((nth i z 0 - c2) / nth i rr 0)) q None).
  - rewrite (nth_map_lt _ _ _ rr q false 0) by lia. rewrite Hr by exact Hq.
    rewrite nth_repeat_lt by (rewrite length_put, map2_length; lia).
    reflexivity.
  - rewrite map_length, repeat_length, length_put, map2_length. lia.
  - rewrite repeat_length, length_put, map2_length. lia.
Qed.

Lemma cart2sphere_arr_len : forall x y z c0 c1 c2,
  length x = length y -> length y = length z ->
  length (fst (fst (cart2sphere_arr x y z c0 c1 c2))) = length x /\
  length (snd (fst (cart2sphere_arr x y z c0 c1 c2))) = length x /\
  length (snd (cart2sphere_arr x y z c0 c1 c2)) = length x.
Proof.
  intros. unfold cart2sphere_arr; cbn [fst snd].
  repeat rewrite ?length_put, ?repeat_length, ?map2_length, ?combine_length. lia.
Qed.

(** ** Orthographic lift *)

Lemma ortho2cart_in : forall x y r fill, x ^ 2 + y ^ 2 < r ^ 2 -> exists z,
  ortho2cart x y r fill = Some z /\ x ^ 2 + y ^ 2 + z ^ 2 = r ^ 2 /\ 0 < z.
Proof.
  intros x y r fill H. unfold ortho2cart. rewrite Rlt_bool_t by exact H.
  exists (sqrt (r ^ 2 - (x ^ 2 + y ^ 2))). unfold np_sqrt. rewrite Rlt_bool_f by lra.
  split; [reflexivity|]. split.
  - rewrite <- (Rsqr_pow2 (sqrt _)), Rsqr_sqrt by lra. ring.
  - apply sqrt_lt_R0. lra.
Qed.

Lemma ortho2cart_out : forall x y r fill, r ^ 2 <= x ^ 2 + y ^ 2 ->
  ortho2cart x y r fill = fill.
Proof. intros x y r fill H. unfold ortho2cart. now rewrite Rlt_bool_f. Qed.

Lemma ortho2cart_arr_nth : forall x y r fill q, length x = length y -> (q < length x)%nat ->
  nth q (ortho2cart_arr x y r fill) None = ortho2cart (nth q x 0) (nth q y 0) r fill.
Proof.
  intros x y r fill q H Hq. unfold ortho2cart_arr, ortho2cart, take. rewrite map_map.
  set (xy := map2 _ x y). assert (Lxy : length xy = length x) by (unfold xy; rewrite map2_length; lia).
  rewrite (nth_put_where _ (map (fun q => Rlt_bool q (r ^ 2)) xy) _
             (fun i => np_sqrt (r ^ 2 - nth i xy 0)) q None).
  - rewrite (nth_map_lt _ _ _ xy q false 0) by lia.
    unfold xy. rewrite (nth_map2 _ _ _ _ x y q 0 0 0) by lia.
    rewrite nth_repeat_lt by lia. reflexivity.
  - rewrite map_length, repeat_length. lia.
  - rewrite repeat_length. lia.
Qed.

Lemma ortho2cart_arr_len : forall x y r fill,
  length (ortho2cart_arr x y r fill) = length x.
Proof. intros. unfold ortho2cart_arr. now rewrite length_put, repeat_length. Qed.

(** ** Sky area *)

Definition area_limits (p0 p1 t0 t1 : R) : Prop :=
  0 <= p0 < 2 * PI /\ 0 < p1 <= 2 * PI /\ p0 <> p1 /\ 0 <= t0 < PI /\ 0 < t1 <= PI /\ t0 <> t1.

Lemma area_ok : forall p0 p1 t0 t1,
  0 <= p0 < 2 * PI -> 0 < p1 <= 2 * PI -> p0 <> p1 ->
  0 <= t0 < PI -> 0 < t1 <= PI -> t0 <> t1 ->
  usphere_area p0 p1 t0 t1 = Ok ((p1 - p0) * (cos t0 - cos t1)).
Proof.
  intros p0 p1 t0 t1 H1 H2 H3 H4 H5 H6. unfold usphere_area, py_assert.
  rewrite (Rle_bool_t 0 p0), (Rlt_bool_t p0), (Rlt_bool_t 0 p1), (Rle_bool_t p1),
    (Rle_bool_t 0 t0), (Rlt_bool_t t0), (Rlt_bool_t 0 t1), (Rle_bool_t t1) by lra.
  destruct (Req_bool_spec p0 p1); [lra|]. destruct (Req_bool_spec t0 t1); [lra|]. reflexivity.
Qed.

Lemma area_inv : forall p0 p1 t0 t1 a, usphere_area p0 p1 t0 t1 = Ok a ->
  (0 <= p0 < 2 * PI /\ 0 < p1 <= 2 * PI /\ p0 <> p1 /\
   0 <= t0 < PI /\ 0 < t1 <= PI /\ t0 <> t1) /\ a = (p1 - p0) * (cos t0 - cos t1).
Proof.
  intros p0 p1 t0 t1 a. unfold usphere_area, py_assert.
  destruct (Rle_bool_spec 0 p0); [|discriminate].
  destruct (Rlt_bool_spec p0 (2 * PI)); [|discriminate].
  destruct (Rlt_bool_spec 0 p1); [|discriminate].
  destruct (Rle_bool_spec p1 (2 * PI)); [|discriminate].
  destruct (Req_bool_spec p0 p1); [discriminate|].
  destruct (Rle_bool_spec 0 t0); [|discriminate].
  destruct (Rlt_bool_spec t0 PI); [|discriminate].
  destruct (Rlt_bool_spec 0 t1); [|discriminate].
  destruct (Rle_bool_spec t1 PI); [|discriminate].
  destruct (Req_bool_spec t0 t1); [discriminate|].
  cbn. intros E. apply Ok_inj in E. subst a. split; [|reflexivity]. repeat split; assumption.
Qed.
