(** * Lemmas: a C library that meets the accuracy assumed *)

From Coq Require Import Reals ZArith List Bool Lia Lra Psatz.
From Flocq Require Import Core IEEE754.BinarySingleNaN.
From Verif Require Import Base MHealpixFloat PHealpixFloat SpecDouble MDouble PDouble PPiDouble PTrig SpecCoordsDouble.
Open Scope R_scope.

Lemma dbl_ok : forall m e, (Z.abs m <= 2 ^ 53)%Z -> (-1074 <= e <= 900)%Z -> fin (dbl m e) /\ val (dbl m e) = IZR m * b2 e.
Proof.
  intros m e Hm He. assert (F : fmt (IZR m * b2 e)).
  { destruct (Z.eq_dec (Z.abs m) (2 ^ 53)) as [E|E].
    - destruct (Z.abs_eq_or_opp m) as [A|A]; rewrite A in E; [|apply Z.opp_inj_wd in E; rewrite Z.opp_involutive in E]; rewrite E.
      + change (IZR (2 ^ 53)) with (b2 53). rewrite <- bpow_plus. apply fmt_b2. lia.
      + rewrite opp_IZR. change (IZR (2 ^ 53)) with (b2 53). rewrite <- Ropp_mult_distr_l, <- bpow_plus. apply fmt_opp, fmt_b2. lia.
    - apply generic_format_FLT. exists (Float radix2 m e); cbn [Fnum Fexp]; [reflexivity|change (radix2 ^ 53)%Z with (2 ^ 53)%Z; lia|lia]. }
  pose proof (binary_normalize_correct 53 1024 p53 p1024 mode_NE m e false) as C. cbv zeta in C. unfold F2R in C. cbn [Fnum Fexp] in C. change (round radix2 _ _ _) with (fl (IZR m * b2 e)) in C. rewrite (fl_fmt _ F) in C. rewrite Rlt_bool_true in C.
  - destruct C as (V & Fi & _). split; [exact Fi|exact V].
  - rewrite Rabs_mult, (Rabs_pos_eq (b2 e)) by apply bpow_ge_0. rewrite <- abs_IZR. apply IZR_le in Hm. change (IZR (2 ^ 53)) with (b2 53) in Hm. apply Rle_lt_trans with (b2 53 * b2 900); [apply Rmult_le_compat; [apply IZR_le; lia|apply bpow_ge_0|exact Hm|apply bpow_le; lia]|]. rewrite <- bpow_plus. apply bpow_lt. lia.
Qed.

(** The nearest multiple of [2^-k]. *)
Definition multiple (k : Z) (r : R) : double := dbl (ZnearestE (r * b2 k)) (- k).

Lemma multiple_ok : forall k r a b, (0 <= k <= 1000)%Z -> (- 2 ^ 53 <= a)%Z -> (b <= 2 ^ 53)%Z -> IZR a - / 4 <= r * b2 k <= IZR b + / 4 ->
  fin (multiple k r) /\ IZR a * b2 (- k) <= val (multiple k r) <= IZR b * b2 (- k) /\ Rabs (val (multiple k r) - r) <= b2 (- k - 1).
Proof.
  intros k r a b Hk Ha Hb H. pose proof (Znearest_half (fun x => negb (Z.even x)) (r * b2 k)) as N. fold ZnearestE in N. set (m := ZnearestE (r * b2 k)) in *. apply Rabs_le_inv in N.
  assert (A : (a <= m)%Z) by (apply Zlt_succ_le, lt_IZR; rewrite succ_IZR; lra). assert (B : (m <= b)%Z) by (apply Zlt_succ_le, lt_IZR; rewrite succ_IZR; lra).
  destruct (dbl_ok m (- k)) as [F V]; [lia|lia|]. change (dbl m (- k)) with (multiple k r) in F, V. split; [exact F|]. rewrite V. pose proof (bpow_gt_0 radix2 (- k)) as P.
  split; [split; apply Rmult_le_compat_r; try lra; now apply IZR_le|]. assert (I : b2 k * b2 (- k) = 1) by (rewrite <- bpow_plus, Z.add_opp_diag_r; reflexivity).
  replace (IZR m * b2 (- k) - r) with (- (r * b2 k - IZR m) * b2 (- k)) by (rewrite <- (Rmult_1_r r) at 2; rewrite <- I; ring). rewrite Rabs_mult, (Rabs_pos_eq (b2 (- k))) by lra.
  assert (E : b2 (- k - 1) = / 2 * b2 (- k)) by (unfold Z.sub; rewrite bpow_plus; change (b2 (-(1))) with (/ 2); ring). rewrite E. apply Rmult_le_compat_r; [lra|]. apply Rabs_le. lra.
Qed.

Lemma multiple_mono : forall k r s, (0 <= k <= 1000)%Z -> -1 <= r <= s -> s <= 1 -> (k <= 53)%Z -> val (multiple k r) <= val (multiple k s).
Proof.
  intros k r s Hk H Hs K. assert (P : 1 <= b2 k <= b2 53) by (split; [change 1 with (b2 0)|]; apply bpow_le; lia).
  assert (B : forall x, -1 <= x <= 1 -> (Z.abs (ZnearestE (x * b2 k)) <= 2 ^ 53)%Z).
  { intros x Hx. pose proof (Znearest_half (fun x => negb (Z.even x)) (x * b2 k)) as N. fold ZnearestE in N. set (m := ZnearestE (x * b2 k)) in *. apply Rabs_le_inv in N. change (b2 53) with (IZR (2 ^ 53)) in P.
    assert (A : IZR m < IZR (Z.succ (2 ^ 53))) by (rewrite succ_IZR; nra). assert (C : IZR (- Z.succ (2 ^ 53)) < IZR m) by (rewrite opp_IZR, succ_IZR; nra). apply lt_IZR in A, C. lia. }
  unfold multiple. destruct (dbl_ok _ (- k) (B r ltac:(lra)) ltac:(lia)) as [_ ->]. destruct (dbl_ok _ (- k) (B s ltac:(lra)) ltac:(lia)) as [_ ->]. apply Rmult_le_compat_r; [apply bpow_ge_0|]. apply IZR_le, Zrnd_le; [auto with typeclass_instances|]. apply Rmult_le_compat_r; lra.
Qed.

Lemma half_turn : IZR 3537118876014220 * b2 (-50) = tau / 2.
Proof. unfold tau. change 7074237752028440%Z with (2 * 3537118876014220)%Z. rewrite mult_IZR. field. Qed.

Lemma pi_50 : PI * b2 50 <= IZR 3537118876014220 + / 4.
Proof.
  pose proof pi_accuracy as [_ A]. pose proof (bpow_gt_0 radix2 50) as P. assert (I : b2 (-50) * b2 50 = 1) by (rewrite <- bpow_plus; reflexivity). assert (J : b2 (-52) * b2 50 = / 4) by (rewrite <- bpow_plus; reflexivity).
  apply Rle_trans with ((tau / 2 + b2 (-52)) * b2 50); [apply Rmult_le_compat_r; lra|]. rewrite <- half_turn, Rmult_plus_distr_r, Rmult_assoc, I, J. lra.
Qed.

Definition cos_l (x : double) : double := multiple 53 (cos (val x)).
Definition sin_l (x : double) : double := multiple 53 (sin (val x)).
Definition arctan2_l (y x : double) : double := multiple 50 (atan2 (val y) (val x)).
Definition arccos_l (q : double) : double := if Rle_bool (Rabs (val q)) 1 then multiple 50 (acos (val q)) else B754_nan.

Lemma circle_l : forall r, -1 <= r <= 1 -> fin (multiple 53 r) /\ -1 <= val (multiple 53 r) <= 1 /\ Rabs (val (multiple 53 r) - r) <= b2 (-52).
Proof.
  intros r H. assert (I : b2 53 * b2 (-53) = 1) by (rewrite <- bpow_plus; reflexivity). pose proof (bpow_gt_0 radix2 53) as P. destruct (multiple_ok 53 r (- 2 ^ 53) (2 ^ 53)) as (F & B & E); [lia|lia|lia|rewrite opp_IZR; change (IZR (2 ^ 53)) with (b2 53); nra|].
  rewrite opp_IZR in B. change (IZR (2 ^ 53)) with (b2 53) in B. change (- (53))%Z with (-53)%Z in B. rewrite <- Ropp_mult_distr_l, I in B. split; [exact F|]. split; [exact B|]. apply Rle_trans with (1 := E). apply bpow_le. lia.
Qed.

Lemma libm_l : cos_ok cos_l /\ near_on_circle cos cos_l /\ near_on_circle sin sin_l /\ cos_falls cos_l /\ arctan2_ok arctan2_l /\ near_arctan2 arctan2_l /\ arccos_ok arccos_l /\ near_arccos arccos_l.
Proof.
  assert (AT : forall y x : double, fin (arctan2_l y x) /\ - (tau / 2) <= val (arctan2_l y x) <= tau / 2 /\ Rabs (val (arctan2_l y x) - atan2 (val y) (val x)) <= b2 (-51)).
  { intros y x. destruct (atan2_spec (val y) (val x)) as (_ & _ & R). pose proof pi_50 as P5. pose proof (bpow_gt_0 radix2 50) as P. destruct (multiple_ok 50 (atan2 (val y) (val x)) (Z.opp 3537118876014220) 3537118876014220) as (F & B & E); [lia|lia|lia|rewrite opp_IZR; nra|].
    change (- (50))%Z with (-50)%Z in B. rewrite opp_IZR, <- Ropp_mult_distr_l, half_turn in B. auto. }
  assert (AC : forall q : double, -1 <= val q <= 1 -> fin (arccos_l q) /\ 0 <= val (arccos_l q) <= tau / 2 /\ Rabs (val (arccos_l q) - acos (val q)) <= b2 (-51)).
  { intros q H. unfold arccos_l. rewrite Rle_bool_true by (apply Rabs_le; lra). pose proof (acos_bound (val q)) as R. pose proof pi_50 as P5. pose proof (bpow_gt_0 radix2 50) as P. destruct (multiple_ok 50 (acos (val q)) 0 3537118876014220) as (F & B & E); [lia|lia|lia|split; [nra|apply Rle_trans with (PI * b2 50); [apply Rmult_le_compat_r; lra|exact P5]]|].
    change (- (50))%Z with (-50)%Z in B. rewrite Rmult_0_l, half_turn in B. auto. }
  split; [intros x F; destruct (circle_l (cos (val x)) (COS_bound _)) as (A & B & _); auto|]. split; [intros x F H; apply (circle_l (cos (val x)) (COS_bound _))|]. split; [intros x F H; apply (circle_l (sin (val x)) (SIN_bound _))|].
  split; [intros x y Fx Fy H Hy; apply multiple_mono; [lia| | |lia]; [split; [apply COS_bound|]|apply COS_bound]; pose proof pi_accuracy; apply cos_decr_1; lra|].
  split; [intros y x Fy Fx; destruct (AT y x) as (A & B & _); auto|].
  split; [intros y x Fy Fx; exists (atan2 (val y) (val x)); destruct (AT y x) as (_ & _ & E); split; [|exact E]; destruct (atan2_spec (val y) (val x)) as (E1 & E2 & _); unfold angle_of; replace (val x * val x + val y * val y) with (val x ^ 2 + val y ^ 2) by ring; now rewrite E1, E2|].
  split; [intros q Fq; split; [intros H; destruct (AC q H) as (A & B & _); auto|intros H; unfold arccos_l; rewrite Rle_bool_false by exact H; reflexivity]|].
  intros q Fq H. exists (acos (val q)). destruct (AC q H) as (_ & _ & E). split; [apply acos_bound|]. split; [apply cos_acos; lra|exact E].
Qed.
