(** * Angles: [atan2], wrapping to [0, 2*pi), uniqueness *)

From Coq Require Import Reals ZArith List Bool Lra Lia Psatz.
From Flocq Require Import Core.Raux.
From Verif Require Import Base BaseP PHealpixCentre.
Import ListNotations.
Open Scope R_scope.

Lemma sqrt_scale : forall x q, 0 < x -> 0 <= q -> sqrt (x ^ 2 * q) = x * sqrt q.
Proof.
  intros x q Hx Hq. rewrite sqrt_mult; [|nra|exact Hq]. f_equal.
  replace (x ^ 2) with (x * x) by ring. apply sqrt_square. lra.
Qed.

Lemma hyp_pos : forall x y, 0 < x -> sqrt (x ^ 2 + y ^ 2) = x * sqrt (1 + (y / x) ^ 2).
Proof.
  intros x y Hx. rewrite <- sqrt_scale; [|exact Hx|nra].
  f_equal. field. lra.
Qed.

Lemma sqrt1p_pos : forall q, 0 < sqrt (1 + q ^ 2).
Proof. intros q. apply sqrt_lt_R0. nra. Qed.

Lemma atan2_spec : forall y x,
  sqrt (x ^ 2 + y ^ 2) * cos (atan2 y x) = x /\
  sqrt (x ^ 2 + y ^ 2) * sin (atan2 y x) = y /\
  - PI < atan2 y x <= PI.
Proof.
  intros y x. pose proof PI_pos as HP. unfold atan2.
  destruct (Rlt_bool_spec 0 x) as [Hx|Hx].
  - rewrite hyp_pos by exact Hx. rewrite cos_atan, sin_atan.
    pose proof (sqrt1p_pos (y / x)) as Hs. rewrite <- Rsqr_pow2 in Hs |- *.
    destruct (atan_bound (y / x)).
    split; [|split]; [field; lra|field; split; lra|lra].
  - destruct (Rlt_bool_spec x 0) as [Hx'|Hx'].
    + assert (E : sqrt (x ^ 2 + y ^ 2) = - x * sqrt (1 + (y / x) ^ 2)).
      { replace (x ^ 2 + y ^ 2) with ((- x) ^ 2 + y ^ 2) by ring.
        rewrite hyp_pos by lra. f_equal. f_equal. f_equal. field. lra. }
      rewrite E.
      pose proof (sqrt1p_pos (y / x)) as Hs.
      destruct (atan_bound (y / x)).
      destruct (Rle_bool_spec 0 y) as [Hy|Hy].
      * rewrite neg_cos, neg_sin, cos_atan, sin_atan.
        rewrite <- Rsqr_pow2 in Hs |- *.
        split; [|split]; [field; lra|field; split; lra|].
        split; [lra|].
        assert (y / x <= 0).
        { unfold Rdiv. assert (/ x < 0) by (apply Rinv_lt_0_compat; lra). nra. }
        destruct (Req_dec (y / x) 0) as [E0|E0].
        -- rewrite E0, atan_0. lra.
        -- assert (atan (y / x) < atan 0) by (apply atan_increasing; lra).
           rewrite atan_0 in *. lra.
      * replace (atan (y / x) - PI) with (- (PI - atan (y / x))) by ring.
        rewrite cos_neg, sin_neg, sin_PI_x.
        replace (cos (PI - atan (y / x))) with (- cos (atan (y / x)))
          by (rewrite cos_minus, cos_PI, sin_PI; ring).
        rewrite cos_atan, sin_atan. rewrite <- Rsqr_pow2 in Hs |- *.
        split; [|split]; [field; lra|field; split; lra|].
        assert (0 < y / x).
        { unfold Rdiv. assert (/ x < 0) by (apply Rinv_lt_0_compat; lra). nra. }
        assert (atan 0 < atan (y / x)) by (apply atan_increasing; lra).
        rewrite atan_0 in *. split; lra.
    + assert (x = 0) by lra. subst x.
      replace (0 ^ 2 + y ^ 2) with (y * y) by ring.
      destruct (Rlt_bool_spec 0 y) as [Hy|Hy].
      * rewrite sqrt_square by lra. rewrite cos_PI2, sin_PI2. split; [|split]; lra.
      * destruct (Rlt_bool_spec y 0) as [Hy'|Hy'].
        -- replace (y * y) with ((- y) * (- y)) by ring. rewrite sqrt_square by lra.
           rewrite cos_neg, sin_neg, cos_PI2, sin_PI2. split; [|split]; lra.
        -- assert (y = 0) by lra. subst y. rewrite Rmult_0_l, sqrt_0. split; [|split]; lra.
Qed.

(** The wrapped angle. *)
Definition wrap_neg (f : R) : R := if Rlt_bool f 0 then f + 2 * PI else f.

Lemma wrap_neg_spec : forall y x,
  let f := wrap_neg (atan2 y x) in
  sqrt (x ^ 2 + y ^ 2) * cos f = x /\ sqrt (x ^ 2 + y ^ 2) * sin f = y /\ 0 <= f < 2 * PI.
Proof.
  intros y x f. pose proof PI_pos as HP. destruct (atan2_spec y x) as (H1 & H2 & H3).
  unfold f, wrap_neg. destruct (Rlt_bool_spec (atan2 y x) 0) as [H|H].
  - assert (Ec : cos (atan2 y x + 2 * PI) = cos (atan2 y x)).
    { pose proof (cos_period (atan2 y x) 1) as E. cbn [INR] in E.
      replace (atan2 y x + 2 * PI) with (atan2 y x + 2 * 1 * PI) by ring. exact E. }
    assert (Es : sin (atan2 y x + 2 * PI) = sin (atan2 y x)).
    { pose proof (sin_period (atan2 y x) 1) as E. cbn [INR] in E.
      replace (atan2 y x + 2 * PI) with (atan2 y x + 2 * 1 * PI) by ring. exact E. }
    rewrite Ec, Es. split; [|split]; try assumption. lra.
  - split; [|split]; try assumption. lra.
Qed.

Lemma cos_2PI_shift : forall a, cos (a + 2 * PI) = cos a.
Proof. intros a. rewrite cos_plus, cos_2PI, sin_2PI. ring. Qed.
Lemma sin_2PI_shift : forall a, sin (a + 2 * PI) = sin a.
Proof. intros a. rewrite sin_plus, cos_2PI, sin_2PI. ring. Qed.

Lemma angle_unique : forall a b, 0 <= a < 2 * PI -> 0 <= b < 2 * PI ->
  cos a = cos b -> sin a = sin b -> a = b.
Proof.
  intros a b Ha Hb Hc Hs. pose proof PI_pos as HP.
  assert (E : cos (a - b) = 1).
  { rewrite cos_minus, Hc, Hs. pose proof (sin2_cos2 b) as E. unfold Rsqr in E. lra. }
  assert (E2 : sin ((a - b) / 2) = 0).
  { replace (a - b) with (2 * ((a - b) / 2)) in E by field.
    rewrite cos_2a_sin in E. nra. }
  apply sin_eq_0_0 in E2. destruct E2 as [k Hk].
  assert (k = 0%Z).
  { assert (-1 < IZR k < 1) by (split; nra).
    assert ((-1 < k)%Z) by (apply lt_IZR; lra).
    assert ((k < 1)%Z) by (apply lt_IZR; lra). lia. }
  subst k. lra.
Qed.

Lemma cos_inj : forall a b, 0 <= a <= PI -> 0 <= b <= PI -> cos a = cos b -> a = b.
Proof.
  intros a b Ha Hb H. rewrite <- (acos_cos a), <- (acos_cos b) by assumption.
  now rewrite H.
Qed.

Lemma sqrt_pow2' : forall r, 0 <= r -> sqrt (r ^ 2) = r.
Proof. intros r Hr. replace (r ^ 2) with (r * r) by ring. now apply sqrt_square. Qed.

Lemma sc1 : forall a, sin a ^ 2 + cos a ^ 2 = 1.
Proof. intros a. pose proof (sin2_cos2 a) as E. unfold Rsqr in E. lra. Qed.

Lemma atan2_polar : forall r f, 0 < r -> 0 <= f < 2 * PI ->
  wrap_neg (atan2 (r * sin f) (r * cos f)) = f.
Proof.
  intros r f Hr Hf.
  destruct (wrap_neg_spec (r * sin f) (r * cos f)) as (H1 & H2 & H3).
  replace ((r * cos f) ^ 2 + (r * sin f) ^ 2) with (r ^ 2) in H1, H2
    by (pose proof (sc1 f); nra).
  rewrite sqrt_pow2' in H1, H2 by lra.
  apply angle_unique; [exact H3|exact Hf| |].
  - apply Rmult_eq_reg_l with r; lra.
  - apply Rmult_eq_reg_l with r; lra.
Qed.
