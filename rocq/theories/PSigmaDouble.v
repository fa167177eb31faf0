(** * Relative errors of chains of operations *)

From Coq Require Import Reals ZArith List Bool Lia Lra Psatz.
From Flocq Require Import Core IEEE754.BinarySingleNaN.
From Verif Require Import Base BaseP POneD MHealpixFloat PHealpixFloat SpecDouble MDouble PDouble MSumDouble PSumDouble PDenseDouble PRemap2 PRadial SpecRebinDouble PRebinDouble2 PRebinDouble3 PRebinDouble4.
Import ListNotations.
Open Scope R_scope.

(** [t] is 1 up to [k] roundings. *)
Definition around (k : nat) (t : R) : Prop := 0 < t /\ t <= (1 + u) ^ k /\ / t <= (1 + u) ^ k.

(** [x] is [X] up to [k] roundings; [X] is zero or between 2^-r and 2^r. *)
Definition rel (k : nat) (r : Z) (x : double) (X : R) : Prop :=
  fin x /\ (exists t, around k t /\ val x = X * t) /\ (X = 0 \/ b2 (- r) <= Rabs X <= b2 r).

Definition few (k : nat) : Prop := INR k <= b2 30.

Lemma few_pow : forall k, few k -> 1 <= (1 + u) ^ k <= 1 + / 4.
Proof.
  intros k H. pose proof u_pos as U. split; [apply pow_ge_1|].
  assert (INR k * u <= b2 (-23)).
  { apply Rle_trans with (b2 30 * u); [apply Rmult_le_compat_r; [lra|exact H]|]. unfold u. rewrite <- bpow_plus. apply bpow_le. lia. }
  assert (b2 (-23) <= / 8) by (change (/ 8) with (b2 (-3)); apply bpow_le; lia).
  pose proof (pow_lin k ltac:(lra)). lra.
Qed.

Lemma around_0 : around 0 1.
Proof. repeat split; cbn; lra. Qed.

Lemma around_weaken : forall j k t, (j <= k)%nat -> around j t -> around k t.
Proof. intros j k t L (A & B & C). pose proof (pow_mono j k L). repeat split; lra. Qed.

Lemma around_mul : forall j k s t, around j s -> around k t -> around (j + k) (s * t).
Proof.
  intros j k s t (A & B & C) (A' & B' & C'). rewrite <- ?Rinv_mult. unfold around. rewrite pow_add. pose proof (Rinv_0_lt_compat s A). pose proof (Rinv_0_lt_compat t A').
  split; [now apply Rmult_lt_0_compat|]. split; [apply Rmult_le_compat; lra|]. rewrite Rinv_mult. apply Rmult_le_compat; lra.
Qed.

Lemma around_inv : forall k t, around k t -> around k (/ t).
Proof. intros k t (A & B & C). split; [now apply Rinv_0_lt_compat|]. split; [exact C|]. now rewrite Rinv_inv. Qed.

Lemma around_bound : forall k t, few k -> around k t -> / 2 <= t <= 2.
Proof.
  intros k t F (A & B & C). pose proof (few_pow k F) as P. split; [|lra]. rewrite <- (Rinv_inv t). apply Rinv_le; [now apply Rinv_0_lt_compat|lra].
Qed.

Lemma near_around : forall q d, 0 <= d <= u * / 1024 -> Rabs (q - 1) <= u + d -> around 2 q.
Proof.
  intros q d Hd D. pose proof u_pos as U. apply Rabs_le_inv in D. assert (P : 0 < q) by lra. split; [exact P|]. cbn [pow].
  split; [nra|]. apply Rmult_le_reg_r with q; [exact P|]. rewrite Rinv_l by lra. assert ((1 + u) * ((1 + u) * 1) * (1 - u - d) <= (1 + u) * ((1 + u) * 1) * q) by (apply Rmult_le_compat_l; nra). nra.
Qed.

(** A rounded number of moderate size. *)
Lemma round_around : forall z, b2 (-1010) <= Rabs z -> exists t, around 2 t /\ fl z = z * t.
Proof.
  intros z H. pose proof u_pos as U. pose proof (bpow_gt_0 radix2 (-1010)) as P. pose proof (fl_mixed z) as E.
  assert (T : b2 (-1075) <= b2 (-65) * Rabs z).
  { apply Rle_trans with (b2 (-65) * b2 (-1010)); [rewrite <- bpow_plus; apply bpow_le; lia|]. apply Rmult_le_compat_l; [apply bpow_ge_0|exact H]. }
  assert (T2 : b2 (-65) <= u * / 1024) by (unfold u; change (/ 1024) with (b2 (-10)); rewrite <- bpow_plus; apply bpow_le; lia).
  assert (E' : Rabs (fl z - z) <= u * (1 + / 1024) * Rabs z) by nra.
  exists (fl z / z). assert (NZ : z <> 0) by (intros ->; rewrite Rabs_R0 in H; lra). split; [|field; exact NZ].
  assert (D : Rabs (fl z / z - 1) <= u * (1 + / 1024)).
  { replace (fl z / z - 1) with ((fl z - z) / z) by (field; exact NZ). unfold Rdiv. rewrite Rabs_mult, Rabs_inv. apply Rmult_le_reg_r with (Rabs z); [lra|].
    rewrite Rmult_assoc, Rinv_l by lra. lra. }
  apply (near_around _ (u * / 1024)); [lra|]. replace (u + u * / 1024) with (u * (1 + / 1024)) by ring. exact D.
Qed.

Lemma add_around : forall a b, fmt a -> fmt b -> exists t, around 2 t /\ fl (a + b) = (a + b) * t.
Proof.
  intros a b Fa Fb. pose proof u_pos as U. pose proof (add_err a b Fa Fb) as E. destruct (Req_dec (a + b) 0) as [Z|NZ].
  - exists 1. split; [apply (around_weaken 0); [lia|apply around_0]|]. rewrite Z, Rabs_R0, Rmult_0_r, Rminus_0_r in E. rewrite Z. pose proof (Rabs_pos (fl 0)).
    destruct (Req_dec (fl 0) 0) as [->|N]; [ring|]. apply Rabs_pos_lt in N. lra.
  - exists (fl (a + b) / (a + b)). split; [|field; exact NZ].
    assert (D : Rabs (fl (a + b) / (a + b) - 1) <= u).
    { replace (fl (a + b) / (a + b) - 1) with ((fl (a + b) - (a + b)) / (a + b)) by (field; exact NZ). unfold Rdiv. rewrite Rabs_mult, Rabs_inv.
      pose proof (Rabs_pos_lt _ NZ). apply Rmult_le_reg_r with (Rabs (a + b)); [lra|]. rewrite Rmult_assoc, Rinv_l by lra. lra. }
    apply (near_around _ 0); [lra|]. rewrite Rplus_0_r. exact D.
Qed.

Lemma around_1_0 : forall k, around k 1.
Proof. intros k. apply (around_weaken 0); [lia|apply around_0]. Qed.

Lemma fl_0 : fl 0 = 0.
Proof. apply fl_fmt, fmt_0. Qed.

Lemma rel_weaken : forall j k q r x X, (j <= k)%nat -> (q <= r)%Z -> rel j q x X -> rel k r x X.
Proof.
  intros j k q r x X H H' (F & (t & A & V) & R). split; [exact F|]. split; [exists t; split; [now apply (around_weaken j)|exact V]|].
  destruct R as [->|[R1 R2]]; [now left|right]. split; [apply Rle_trans with (2 := R1)|apply Rle_trans with (1 := R2)]; apply bpow_le; lia.
Qed.

Lemma rel_exact : forall r x, fin x -> val x = 0 \/ b2 (- r) <= Rabs (val x) <= b2 r -> rel 0 r x (val x).
Proof. intros r x F R. split; [exact F|]. split; [exists 1; split; [apply around_0|ring]|exact R]. Qed.

Lemma rel_0 : forall k r x X, rel k r x X -> val x = 0 <-> X = 0.
Proof. intros k r x X (_ & (t & (A & _) & ->) & _). split; [intros H; apply Rmult_integral in H; destruct H; lra|intros ->; ring]. Qed.

Lemma rel_pos : forall k r x X, rel k r x X -> 0 < val x <-> 0 < X.
Proof. intros k r x X (_ & (t & (A & _) & ->) & _). split; intros H; [nra|]. now apply Rmult_lt_0_compat. Qed.

Lemma rel_size : forall k r x X, few k -> rel k r x X -> X <> 0 -> / 2 * b2 (- r) <= Rabs (val x) <= 2 * b2 r.
Proof.
  intros k r x X F (_ & (t & A & ->) & [R|[R1 R2]]) N; [contradiction|]. destruct (around_bound k t F A) as [T1 T2]. pose proof (bpow_gt_0 radix2 (- r)).
  rewrite Rabs_mult, (Rabs_pos_eq t) by lra. split; [rewrite (Rmult_comm (/ 2)); apply Rmult_le_compat; lra|rewrite (Rmult_comm 2); apply Rmult_le_compat; lra].
Qed.

Lemma b2_split : forall a b, b2 (a + b) = b2 a * b2 b.
Proof. intros. apply bpow_plus. Qed.

Lemma rel_mul : forall j k q r x y X Y, few j -> few k -> (0 <= q)%Z -> (0 <= r)%Z -> (q + r <= 1000)%Z -> rel j q x X -> rel k r y Y -> rel (j + k + 2) (q + r) (dmul x y) (X * Y).
Proof.
  intros j k q r x y X Y Fj Fk Hq Hr H Rx Ry. pose proof Rx as (Fx & (s & As & Vx) & Qx). pose proof Ry as (Fy & (t & At & Vy) & Qy).
  destruct (Req_dec (X * Y) 0) as [Z|NZ].
  - assert (V0 : val x * val y = 0) by (rewrite Vx, Vy; replace (X * s * (Y * t)) with (X * Y * (s * t)) by ring; rewrite Z; ring).
    destruct (dmul_ok x y Fx Fy) as [F V]; [rewrite V0, fl_0, Rabs_R0; apply bpow_gt_0|]. rewrite V0, fl_0 in V.
    split; [exact F|]. split; [exists 1; split; [apply around_1_0|rewrite V, Z; ring]|now left].
  - assert (NX : X <> 0) by (intros ->; apply NZ; ring). assert (NY : Y <> 0) by (intros ->; apply NZ; ring).
    destruct (rel_size j q x X Fj Rx NX) as [X1 X2]. destruct (rel_size k r y Y Fk Ry NY) as [Y1 Y2].
    pose proof (bpow_gt_0 radix2 (- q)) as P1. pose proof (bpow_gt_0 radix2 (- r)) as P2. pose proof (bpow_gt_0 radix2 q) as P3. pose proof (bpow_gt_0 radix2 r) as P4.
    assert (LO : b2 (-1010) <= Rabs (val x * val y)).
    { rewrite Rabs_mult. apply Rle_trans with (/ 2 * b2 (- q) * (/ 2 * b2 (- r))); [|apply Rmult_le_compat; lra].
      change (/ 2) with (b2 (-1)). rewrite <- !bpow_plus. apply bpow_le. lia. }
    assert (HI : Rabs (val x * val y) <= b2 1010).
    { rewrite Rabs_mult. apply Rle_trans with (2 * b2 q * (2 * b2 r)); [apply Rmult_le_compat; lra || apply Rabs_pos|].
      change 2 with (b2 1). rewrite <- !bpow_plus. apply bpow_le. lia. }
    destruct (round_around _ LO) as (w & Aw & Vw).
    destruct (dmul_ok x y Fx Fy) as [F V]; [apply Rle_lt_trans with (b2 1010); [apply fl_big; [lia|exact HI]|apply bpow_lt; lia]|].
    split; [exact F|]. split.
    + exists (s * t * w). split; [apply around_mul; [apply around_mul|]; assumption|]. rewrite V, Vw, Vx, Vy. ring.
    + right. destruct Qx as [Qx|[Q1 Q2]]; [contradiction|]. destruct Qy as [Qy|[Q3 Q4]]; [contradiction|]. rewrite Rabs_mult, Z.opp_add_distr, !bpow_plus.
      split; apply Rmult_le_compat; lra || apply Rabs_pos.
Qed.

Lemma rel_div : forall j k q r x y X Y, few j -> few k -> (0 <= q)%Z -> (0 <= r)%Z -> (q + r <= 1000)%Z -> rel j q x X -> rel k r y Y -> Y <> 0 -> rel (j + k + 2) (q + r) (ddiv x y) (X / Y).
Proof.
  intros j k q r x y X Y Fj Fk Hq Hr H Rx Ry NY. pose proof Rx as (Fx & (s & As & Vx) & Qx). pose proof Ry as (Fy & (t & At & Vy) & Qy).
  assert (Ny : val y <> 0) by (rewrite (rel_0 _ _ _ _ Ry); exact NY). assert (Pt : 0 < t) by apply At.
  destruct (Req_dec X 0) as [Z|NX].
  - assert (V0 : val x / val y = 0) by (rewrite Vx, Z; unfold Rdiv; ring).
    destruct (ddiv_ok x y Fx Ny) as [F V]; [rewrite V0, fl_0, Rabs_R0; apply bpow_gt_0|]. rewrite V0, fl_0 in V.
    split; [exact F|]. split; [exists 1; split; [apply around_1_0|rewrite V, Z; unfold Rdiv; ring]|left; rewrite Z; unfold Rdiv; ring].
  - destruct (rel_size j q x X Fj Rx NX) as [X1 X2]. destruct (rel_size k r y Y Fk Ry NY) as [Y1 Y2].
    pose proof (bpow_gt_0 radix2 (- q)) as P1. pose proof (bpow_gt_0 radix2 (- r)) as P2. pose proof (bpow_gt_0 radix2 q) as P3. pose proof (bpow_gt_0 radix2 r) as P4.
    assert (I1 : / Rabs (val y) <= 2 * b2 r).
    { replace (2 * b2 r) with (/ (/ 2 * b2 (- r))) by (rewrite Rinv_mult, Rinv_inv, bpow_opp, Rinv_inv; reflexivity). apply Rinv_le; lra. }
    assert (I2 : / 2 * b2 (- r) <= / Rabs (val y)).
    { replace (/ 2 * b2 (- r)) with (/ (2 * b2 r)) by (rewrite Rinv_mult, bpow_opp; reflexivity). apply Rinv_le; [apply Rabs_pos_lt; exact Ny|lra]. }
    assert (LO : b2 (-1010) <= Rabs (val x / val y)).
    { unfold Rdiv. rewrite Rabs_mult, Rabs_inv. apply Rle_trans with (/ 2 * b2 (- q) * (/ 2 * b2 (- r))); [|apply Rmult_le_compat; lra].
      change (/ 2) with (b2 (-1)). rewrite <- !bpow_plus. apply bpow_le. lia. }
    assert (HI : Rabs (val x / val y) <= b2 1010).
    { unfold Rdiv. rewrite Rabs_mult, Rabs_inv. apply Rle_trans with (2 * b2 q * (2 * b2 r)); [apply Rmult_le_compat; try lra; apply Rabs_pos|].
      change 2 with (b2 1). rewrite <- !bpow_plus. apply bpow_le. lia. }
    destruct (round_around _ LO) as (w & Aw & Vw).
    destruct (ddiv_ok x y Fx Ny) as [F V]; [apply Rle_lt_trans with (b2 1010); [apply fl_big; [lia|exact HI]|apply bpow_lt; lia]|].
    split; [exact F|]. split.
    + exists (s * / t * w). split; [apply around_mul; [apply around_mul; [|apply around_inv]|]; assumption|]. rewrite V, Vw, Vx, Vy. field. split; [lra|exact NY].
    + right. destruct Qx as [Qx|[Q1 Q2]]; [contradiction|]. destruct Qy as [Qy|[Q3 Q4]]; [contradiction|]. unfold Rdiv. rewrite Rabs_mult, Rabs_inv, Z.opp_add_distr, !bpow_plus.
      split; apply Rmult_le_compat; try lra; try apply Rabs_pos; try (left; apply Rinv_0_lt_compat, Rabs_pos_lt; exact NY).
      * rewrite bpow_opp. apply Rinv_le; [apply Rabs_pos_lt; exact NY|exact Q4].
      * rewrite <- (Rinv_inv (b2 r)). apply Rinv_le; [apply Rinv_0_lt_compat; exact P4|]. rewrite <- bpow_opp. exact Q3.
Qed.

Lemma rel_sq : forall k r x X, few k -> (0 <= r)%Z -> (r + r <= 1000)%Z -> rel k r x X -> rel (k + k + 2) (r + r) (sq x) (X ^ 2).
Proof. intros k r x X F H1 H2 R. unfold sq. replace (X ^ 2) with (X * X) by ring. now apply rel_mul. Qed.

(** Square root. *)
Lemma rel_sqrt : forall k r x X, few (k + k) -> (0 <= r <= 500)%Z -> 0 <= X -> rel (k + k) (r + r) x X -> rel (k + 2) r (dsqrt x) (sqrt X).
Proof.
  intros k r x X F Hr PX Rx. pose proof Rx as (Fx & (t & At & Vx) & Qx). assert (Pt : 0 < t) by apply At.
  assert (P : 0 <= val x) by (rewrite Vx; apply Rmult_le_pos; lra). destruct (dsqrt_ok x Fx P) as [Fs Vs].
  split; [exact Fs|]. destruct Qx as [->|[Q1 Q2]].
  - rewrite sqrt_0. split; [|now left]. exists 1. split; [apply around_1_0|]. rewrite Vs, Vx, Rmult_0_l, sqrt_0, fl_0. ring.
  - rewrite Rabs_pos_eq in Q1, Q2 by exact PX. pose proof (bpow_gt_0 radix2 (- r)) as P1. pose proof (bpow_gt_0 radix2 r) as P2.
    assert (S1 : b2 (- r) <= sqrt X) by (rewrite <- (sqrt_square (b2 (- r))) by lra; apply sqrt_le_1_alt; rewrite <- bpow_plus; replace (- r + - r)%Z with (- (r + r))%Z by lia; exact Q1).
    assert (S2 : sqrt X <= b2 r) by (rewrite <- (sqrt_square (b2 r)) by lra; apply sqrt_le_1_alt; rewrite <- bpow_plus; exact Q2).
    split; [|right; rewrite Rabs_pos_eq by lra; split; assumption].
    assert (AT : around k (sqrt t)).
    { destruct At as (_ & A2 & A3). pose proof (sqrt_lt_R0 t Pt) as ST. pose proof (pow_ge_1 k) as G. split; [exact ST|]. rewrite pow_add in A2, A3. split.
      - rewrite <- (sqrt_square ((1 + u) ^ k)) by lra. apply sqrt_le_1_alt. exact A2.
      - rewrite <- sqrt_inv by exact Pt. rewrite <- (sqrt_square ((1 + u) ^ k)) by lra. apply sqrt_le_1_alt. exact A3. }
    assert (FK : few k) by (unfold few in *; rewrite plus_INR in F; pose proof (pos_INR k); lra).
    destruct (around_bound k _ FK AT) as [T1 T2].
    assert (SV : sqrt (val x) = sqrt X * sqrt t) by (rewrite Vx; apply sqrt_mult; lra).
    destruct (round_around (sqrt (val x))) as (w & Aw & Vw).
    { rewrite SV, Rabs_pos_eq by (apply Rmult_le_pos; lra). apply Rle_trans with (b2 (- r) * / 2); [|apply Rmult_le_compat; lra]. change (/ 2) with (b2 (-1)). rewrite <- bpow_plus. apply bpow_le. lia. }
    exists (sqrt t * w). split; [apply around_mul; assumption|]. rewrite Vs, Vw, SV. ring.
Qed.

(** Sums of terms that are not negative. *)
Lemma rel_sum : forall o l L k r, order_ok o -> Forall2 (rel k r) l L -> few k -> (0 <= r)%Z -> (r <= 950)%Z -> INR (length l) <= b2 20 -> (forall X, In X L -> 0 <= X) ->
  rel (k + 2 * length l) (r + 20) (sum_d o l) (Rsum L).
Proof.
  intros o l L k r O H F Hr Hr' Hm P. pose proof u_pos as U. set (m := length l) in *. pose proof (few_pow k F) as GK.
  assert (EV : exists t, around k t /\ Rsum (map val l) = Rsum L * t).
  { clear - H P U GK. assert (S : Rsum L / (1 + u) ^ k <= Rsum (map val l) <= Rsum L * (1 + u) ^ k /\ 0 <= Rsum L).
    { induction H as [|x X l L R H IH]; [cbn; unfold Rdiv; lra|]. cbn [map]. rewrite !Rsum_cons. specialize (IH ltac:(intros; apply P; now right)). specialize (P X (or_introl eq_refl)).
      destruct R as (_ & (t & (A & B & C) & ->) & _). assert (X / (1 + u) ^ k <= X * t); [|assert (X * t <= X * (1 + u) ^ k) by (apply Rmult_le_compat_l; lra); unfold Rdiv in *; lra].
      apply Rmult_le_compat_l; [lra|]. rewrite <- (Rinv_inv t). apply Rinv_le; [now apply Rinv_0_lt_compat|exact C]. }
    destruct S as [[S1 S2] S3]. destruct (Req_dec (Rsum L) 0) as [Z|NZ].
    - exists 1. split; [apply around_1_0|]. rewrite Z in *. unfold Rdiv in S1. lra.
    - exists (Rsum (map val l) / Rsum L). split; [|field; exact NZ]. assert (PS : 0 < Rsum L) by lra. assert (0 < Rsum L / (1 + u) ^ k) by (apply Rdiv_lt_0_compat; lra).
      split; [apply Rdiv_lt_0_compat; lra|]. split.
      + apply Rmult_le_reg_r with (Rsum L); [lra|]. unfold Rdiv. rewrite Rmult_assoc, Rinv_l by lra. lra.
      + rewrite Rinv_div. apply Rmult_le_reg_r with (Rsum (map val l)); [lra|]. unfold Rdiv. rewrite Rmult_assoc, Rinv_l by lra.
        apply (Rmult_le_compat_r ((1 + u) ^ k)) in S1; [|lra]. unfold Rdiv in S1. rewrite Rmult_assoc, Rinv_l in S1 by lra. lra. }
  assert (PV : forall y, In y l -> fin y /\ 0 <= val y).
  { clear - H P. induction H as [|x X l L R H IH]; [intros y []|]. intros y [<-|Hy]; [|apply IH; auto; intros; apply P; now right].
    specialize (P X (or_introl eq_refl)). destruct R as (Fx & (t & (A & _) & ->) & _). split; [exact Fx|]. apply Rmult_le_pos; lra. }
  assert (LB : Rsum L = 0 \/ b2 (- (r + 20)) <= Rabs (Rsum L) <= b2 (r + 20)).
  { assert (S : (Rsum L = 0 \/ b2 (- r) <= Rsum L) /\ 0 <= Rsum L <= INR m * b2 r).
    { unfold m. clear - H P. pose proof (bpow_gt_0 radix2 (- r)) as P1. pose proof (bpow_gt_0 radix2 r) as P2. induction H as [|x X l L R H IH]; [cbn; split; [now left|lra]|].
      cbn [length]. rewrite Rsum_cons, S_INR. specialize (IH ltac:(intros; apply P; now right)). specialize (P X (or_introl eq_refl)). destruct R as (_ & _ & Q). rewrite Rabs_pos_eq in Q by exact P.
      destruct IH as [I1 I2]. split; [|destruct Q as [->|Q]; lra]. destruct Q as [->|Q]; [rewrite Rplus_0_l; exact I1|right; lra]. }
    destruct S as [[S|S] [S1 S2]]; [now left|right]. rewrite Rabs_pos_eq by exact S1. split; [apply Rle_trans with (2 := S); apply bpow_le; lia|].
    apply Rle_trans with (1 := S2). rewrite bpow_plus, Rmult_comm. apply Rmult_le_compat_l; [apply bpow_ge_0|exact Hm]. }
  destruct EV as (t & At & EV). destruct (around_bound k t F At) as [T1 T2].
  assert (PL : 0 <= Rsum L) by (clear - P; induction L as [|X L IH]; [cbn; lra|]; rewrite Rsum_cons; pose proof (P X (or_introl eq_refl)); specialize (IH ltac:(intros; apply P; now right)); lra).
  assert (UL : Rsum L <= b2 (r + 20)) by (destruct LB as [-> |[_ B]]; [apply bpow_ge_0|rewrite Rabs_pos_eq in B by exact PL; exact B]).
  assert (MG : Rsum (map (fun y => Rabs (val y)) l) = Rsum (map val l)) by (f_equal; apply map_ext_in; intros y Hy; apply Rabs_pos_eq; now apply PV).
  assert (GM : 1 <= (1 + u) ^ (m - 1) <= 1 + / 4).
  { apply few_pow. unfold few. apply Rle_trans with (INR m); [apply le_INR; lia|]. apply Rle_trans with (1 := Hm). apply bpow_le. lia. }
  destruct (sum_d_err o l O) as [Fs Es]; [intros y Hy; now apply PV| |].
  { rewrite MG, EV. apply Rle_trans with ((1 + u) ^ (m - 1) * (Rsum L * t)); [apply Req_le; reflexivity|]. apply Rle_trans with (4 * b2 (r + 20)); [|change 4 with (b2 2); rewrite <- bpow_plus; apply bpow_le; lia].
    apply Rle_trans with (2 * (b2 (r + 20) * 2)); [|lra]. apply Rmult_le_compat; [lra|apply Rmult_le_pos; lra|lra|]. apply Rmult_le_compat; lra. }
  rewrite MG, EV in Es. change (Rabs (val (sum_d o l) - Rsum L * t) <= ((1 + u) ^ (m - 1) - 1) * (Rsum L * t)) in Es. split; [exact Fs|]. split; [|exact LB].
  destruct (Req_dec (Rsum L) 0) as [Z|NZ].
  { exists 1. split; [apply around_1_0|]. rewrite Z, Rmult_0_l in *. rewrite Rmult_0_r, Rminus_0_r in Es. pose proof (Rabs_pos (val (sum_d o l))) as Pa.
    destruct (Req_dec (val (sum_d o l)) 0) as [E|N]; [exact E|]. apply Rabs_pos_lt in N. lra. }
  assert (PL' : 0 < Rsum L) by lra. assert (PT : 0 < Rsum L * t) by (apply Rmult_lt_0_compat; lra).
  set (w := val (sum_d o l) / (Rsum L * t)). set (g := (1 + u) ^ (m - 1)) in *.
  assert (W : Rabs (w - 1) <= g - 1).
  { unfold w. replace (val (sum_d o l) / (Rsum L * t) - 1) with ((val (sum_d o l) - Rsum L * t) / (Rsum L * t)) by (field; lra).
    unfold Rdiv. rewrite Rabs_mult, (Rabs_pos_eq (/ (Rsum L * t))) by (left; now apply Rinv_0_lt_compat). apply Rmult_le_reg_r with (Rsum L * t); [exact PT|]. rewrite Rmult_assoc, Rinv_l by lra. lra. }
  apply Rabs_le_inv in W. exists (t * w). split; [|unfold w; field; lra].
  apply around_mul; [exact At|]. assert (GG : g * g <= (1 + u) ^ (2 * m)) by (unfold g; rewrite <- pow_add; apply pow_mono; lia).
  clearbody g w. split; [lra|]. split; [apply Rle_trans with (2 := GG); nra|]. apply Rle_trans with (2 := GG). apply Rmult_le_reg_r with w; [lra|]. rewrite Rinv_l by lra.
  apply Rle_trans with (g * g * (2 - g)); [|apply Rmult_le_compat_l; nra]. replace (g * g * (2 - g)) with (1 + (g - 1) * (1 + g - g * g)) by ring.
  assert (0 <= (g - 1) * (1 + g - g * g)) by (apply Rmult_le_pos; nra). lra.
Qed.

Lemma rel_add : forall k r x y X Y, few k -> (0 <= r <= 950)%Z -> rel k r x X -> rel k r y Y -> 0 <= X -> 0 <= Y -> rel (k + 2 * 2) (r + 20) (dadd x y) (X + Y).
Proof.
  intros k r x y X Y F Hr Rx Ry PX PY. pose proof (rel_sum pair_order [x; y] [X; Y] k r pair_order_ok) as H. cbn [length] in H.
  replace (X + Y) with (Rsum [X; Y]) by (cbn; ring). apply H; auto; try lia.
  - change (INR 2) with 2. change 2 with (b2 1). apply bpow_le. lia.
  - intros Z [<-|[<-|[]]]; assumption.
Qed.

(** From relations to errors. *)
Lemma rel_err : forall k r x X, few k -> rel k r x X -> fin x /\ Rabs (val x - X) <= 2 * INR k * u * Rabs X.
Proof.
  intros k r x X F (Fx & (t & (A & B & C) & ->) & _). split; [exact Fx|]. pose proof u_pos as U. pose proof (few_pow k F) as G. pose proof (pos_INR k) as PK.
  assert (KU : INR k * u <= / 4).
  { apply Rle_trans with (b2 30 * u); [apply Rmult_le_compat_r; [lra|exact F]|]. unfold u. rewrite <- bpow_plus. change (/ 4) with (b2 (-2)). apply bpow_le. lia. }
  pose proof (pow_lin k KU) as L. replace (X * t - X) with ((t - 1) * X) by ring. rewrite Rabs_mult. apply Rmult_le_compat_r; [apply Rabs_pos|].
  assert (0 <= INR k * u) by (apply Rmult_le_pos; lra). apply Rabs_le. split; [|lra].
  assert (1 <= t * (1 + u) ^ k) by (apply Rmult_le_reg_l with (/ t); [now apply Rinv_0_lt_compat|]; rewrite <- Rmult_assoc, Rinv_l by lra; lra).
  assert (t * (1 + u) ^ k <= t * (1 + 2 * (INR k * u))) by (apply Rmult_le_compat_l; lra). nra.
Qed.
