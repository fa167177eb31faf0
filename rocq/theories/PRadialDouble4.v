(** * Lemmas: accuracy of cumulative profiles in double precision *)

From Coq Require Import Reals ZArith List Bool Lia Lra Psatz Permutation.
From Flocq Require Import Core IEEE754.BinarySingleNaN.
From Verif Require Import TDenseDouble Base BaseP SpecGrid SpecRemap PGrids MHealpixFloat PHealpixFloat SpecDouble MDouble PDouble
  MRemapDouble MGridsDouble PGridsDouble MSumDouble PSumDouble PDense PDenseDouble PRemap2 PRadial MOneDDouble PRebinDouble PRebinDouble2 PRebinDouble4 SpecSigmaDouble PSigmaDouble PSigmaDouble2 PSigmaDouble4
  PPiDouble SpecRadialDouble MRadialDouble PRadialDouble PRadialDouble2 PRadialDouble3.
Import ListNotations.
Open Scope R_scope.

Lemma rel_near : forall k r x X, rel k r x X -> Rabs (val x - X) <= ((1 + u) ^ k - 1) * Rabs X.
Proof.
  intros k r x X (_ & (t & (T1 & T2 & T3) & ->) & _). replace (X * t - X) with ((t - 1) * X) by ring. rewrite Rabs_mult. apply Rmult_le_compat_r; [apply Rabs_pos|]. set (g := (1 + u) ^ k) in *.
  assert (1 <= g * t) by (apply Rmult_le_reg_r with (/ t); [now apply Rinv_0_lt_compat|]; rewrite Rmult_assoc, Rinv_r by lra; lra).
  assert (1 <= g) by apply pow_ge_1. apply Rabs_le. split; [|lra]. assert (0 <= (g - 1) * (g - 1)) by (apply Rle_0_sqr). nra.
Qed.

(** A sum of values of either sign, each good to [k] roundings. *)
Lemma sum_rel_signed : forall o n (x : nat -> double) X k r, order_ok o -> INR n <= b2 20 -> few (k + n) -> (0 <= r <= 950)%Z -> (forall i, (i < n)%nat -> rel k r (x i) (X i)) ->
  fin (sum_d o (tab n x)) /\ Rabs (val (sum_d o (tab n x)) - total n X) <= 2 * INR (k + n) * u * total n (fun i => Rabs (X i)).
Proof.
  intros o n x X k r O Hn HF Hr H. rewrite (total_sum n X), (total_sum n (fun i => Rabs (X i))). pose proof u_pos as U. pose proof (few_pow _ HF) as [G1 G2].
  assert (SY : 0 <= sum_upto n (fun i => Rabs (X i)) <= INR n * b2 r).
  { split; [apply (total_pos n (fun i => Rabs (X i))); intros; apply Rabs_pos|]. rewrite <- sum_const. apply sum_le. intros i Hi. destruct (H i Hi) as (_ & _ & [-> |[_ B]]); [rewrite Rabs_R0; apply bpow_ge_0|exact B]. }
  assert (PW : (1 + u) ^ k * (1 + u) ^ (n - 1) <= (1 + u) ^ (k + n)) by (rewrite <- pow_add; apply pow_mono; lia).
  pose proof (pow_ge_1 k) as PK. pose proof (pow_ge_1 (n - 1)) as PN.
  destruct (sum_approx o n x X (fun i => Rabs (X i)) ((1 + u) ^ k) O PK) as [F E].
  - intros i Hi. split; [apply (H i Hi)|]. split; [apply (rel_near k r), H, Hi|lra].
  - apply Rle_trans with (b2 1 * (b2 20 * b2 r)).
    + change (b2 1) with 2. apply Rmult_le_compat; [nra|lra|lra|]. apply Rle_trans with (1 := proj2 SY). apply Rmult_le_compat_r; [apply bpow_ge_0|exact Hn].
    + rewrite <- !bpow_plus. apply bpow_le. lia.
  - split; [exact F|]. apply Rle_trans with (1 := E). apply Rmult_le_compat_r; [lra|].
    assert (KU : INR (k + n) * u <= / 4).
    { apply Rle_trans with (b2 30 * u); [apply Rmult_le_compat_r; [lra|exact HF]|]. unfold u. rewrite <- bpow_plus. change (/ 4) with (b2 (-2)). apply bpow_le. lia. }
    pose proof (pow_lin (k + n) KU). lra.
Qed.

Section Rings.
Variables (r : list double) (m K : nat).
Hypothesis Lr : length r = S m.
Hypothesis Mr : forall x, In x r -> mild x.
Hypothesis HI : forall i, (i < m)%nat -> 0 <= val (nth i r dzero) < val (nth (S i) r dzero) /\ val (nth (S i) r dzero) <= INR K * (val (nth (S i) r dzero) - val (nth i r dzero)).
Hypothesis K1 : (1 <= K)%nat.
Hypothesis HK : INR K <= b2 20.

Definition disc (i : nat) : R := PI * (val (nth (S i) r dzero) ^ 2 - val (nth i r dzero) ^ 2).

Lemma ring_area_rel : forall i, (i < m)%nat -> rel (2 * K + 5) 102 (ring_area r i) (disc i).
Proof.
  intros i Hi. destruct (HI i Hi) as [H1 H2]. assert (L : length r = S m) by exact Lr. apply area_rel; auto; apply Mr, nth_In; unfold double in *; lia.
Qed.

Lemma disc_pos : forall i, (i < m)%nat -> 0 < disc i.
Proof. intros i Hi. destruct (HI i Hi) as [H1 _]. unfold disc. apply Rmult_lt_0_compat; [apply PI_RGT_0|]. nra. Qed.

Lemma few_K : forall k c, INR k <= b2 20 -> (c <= 100)%nat -> few (c + 4 * K + 4 * k).
Proof.
  intros k c Hk Hc. unfold few. rewrite !plus_INR, !mult_INR. apply le_INR in Hc. rewrite (INR_IZR_INZ 100) in Hc. change (Z.of_nat 100) with 100%Z in Hc. replace (INR 4) with 4 by (cbn; ring).
  change (b2 20) with 1048576 in *. change (b2 30) with 1073741824. lra.
Qed.

Lemma cumulative_near : forall (f : nat -> double) k, INR m <= b2 20 -> (forall i, (i < m)%nat -> sized (-300) 300 (f i)) -> (k < m)%nat ->
  fin (sum_d comb (tab (S k) (fun i => dmul (ring_area r i) (f i)))) /\
  Rabs (val (sum_d comb (tab (S k) (fun i => dmul (ring_area r i) (f i)))) - total (S k) (fun i => disc i * val (f i))) <= 2 * INR (2 * K + 7 + S k) * u * total (S k) (fun i => disc i * Rabs (val (f i))).
Proof.
  intros f k Hm Hf Hk. assert (Hk20 : INR (S k) <= b2 20) by (apply Rle_trans with (2 := Hm); apply le_INR; lia).
  pose proof (few_K (S k) 7 Hk20 ltac:(lia)) as FK. assert (FW : forall j, (j <= 7 + 4 * K + 4 * S k)%nat -> few j) by (intros j Hj; unfold few; apply Rle_trans with (2 := FK); now apply le_INR).
  destruct (sum_rel_signed comb (S k) (fun i => dmul (ring_area r i) (f i)) (fun i => disc i * val (f i)) (2 * K + 7) 402 comb_ok Hk20) as [F E]; [apply FW; lia|lia| |].
  - intros i Hi. replace (2 * K + 7)%nat with (2 * K + 5 + 0 + 2)%nat by lia. change 402%Z with (102 + 300)%Z. apply rel_mul; try lia; [apply FW; lia|apply FW; lia|apply ring_area_rel; lia|apply sized_rel, Hf; lia].
  - split; [exact F|]. apply Rle_trans with (1 := E). apply Req_le. f_equal. rewrite (total_sum _ (fun i => Rabs _)), (total_sum _ (fun i => disc i * Rabs _)). apply sum_ext. intros i Hi. rewrite Rabs_mult, (Rabs_pos_eq (disc i)) by (left; apply disc_pos; lia). reflexivity.
Qed.

Lemma cumulative_error_rel : forall (s : list double) k, INR m <= b2 20 -> (forall i, (i < m)%nat -> sized (-100) 100 (nth i s dzero)) -> (k < m)%nat ->
  rel (2 * K + 11 + k) 212 (dsqrt (sum_d comb (tab (S k) (var_area r s)))) (sqrt (total (S k) (fun i => (disc i * val (nth i s dzero)) ^ 2))).
Proof.
  intros s k Hm Hs Hk. assert (Hk20 : INR (S k) <= b2 20) by (apply Rle_trans with (2 := Hm); apply le_INR; lia).
  pose proof (few_K (S k) 50 Hk20 ltac:(lia)) as FK. assert (FW : forall j, (j <= 50 + 4 * K + 4 * S k)%nat -> few j) by (intros j Hj; unfold few; apply Rle_trans with (2 := FK); now apply le_INR).
  replace (2 * K + 11 + k)%nat with ((2 * K + 9 + k) + 2)%nat by lia. apply rel_sqrt; [apply FW; lia|lia|apply total_pos; intros; apply pow2_ge_0|].
  replace (2 * K + 9 + k + (2 * K + 9 + k))%nat with ((4 * K + 16) + 2 * S k)%nat by lia. change (212 + 212)%Z with (404 + 20)%Z.
  apply sum_rel; auto; [apply comb_ok|apply FW; lia|lia|]. intros i Hi. split; [|apply pow2_ge_0]. unfold var_area.
  replace (4 * K + 16)%nat with ((2 * K + 7) + (2 * K + 7) + 2)%nat by lia. change 404%Z with (202 + 202)%Z. apply rel_sq; [apply FW; lia|lia|lia|].
  replace (2 * K + 7)%nat with (2 * K + 5 + 0 + 2)%nat by lia. change 202%Z with (102 + 100)%Z. apply rel_mul; try lia; [apply FW; lia|apply FW; lia|apply ring_area_rel; lia|apply sized_rel, Hs; lia].
Qed.

(** One pixel of a polar grid with the angular step [dp]. *)
Lemma polar_pixel_rel : forall i p0 p1, (i < m)%nat -> mild p0 -> mild p1 -> 
  rel (2 * K + 12) 197 (ddiv (dmul (ring_area r i) (dsub p1 p0)) twopi) (disc i * (val p1 - val p0) / (2 * PI)).
Proof.
  intros i p0 p1 Hi M0 M1. pose proof (few_K 0 50 ltac:(change (INR 0) with 0; apply bpow_ge_0) ltac:(lia)) as FK. assert (FW : forall j, (j <= 50 + 4 * K + 4 * 0)%nat -> few j) by (intros j Hj; unfold few; apply Rle_trans with (2 := FK); now apply le_INR).
  replace (2 * K + 12)%nat with ((2 * K + 9) + 1 + 2)%nat by lia. change 197%Z with (194 + 3)%Z. apply rel_div; try lia; [apply FW; lia|apply FW; lia| |exact twopi_rel|pose proof PI_RGT_0; lra].
  replace (2 * K + 9)%nat with ((2 * K + 5) + 2 + 2)%nat by lia. change 194%Z with (102 + 92)%Z. apply rel_mul; try lia; [apply FW; lia|apply FW; lia|now apply ring_area_rel|now apply rel_sub].
Qed.
End Rings.
