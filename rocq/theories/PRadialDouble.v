(** * Lemmas: radial profiles in double precision *)

From Coq Require Import Reals ZArith List Bool Lia Lra Psatz Permutation.
From Flocq Require Import Core IEEE754.BinarySingleNaN.
From Verif Require Import TDenseDouble Base BaseP SpecGrid SpecRemap PGrids MHealpixFloat PHealpixFloat SpecDouble MDouble PDouble
  MRemapDouble MGridsDouble PGridsDouble MSumDouble PSumDouble PDense PDenseDouble PRemap2 PRadial MOneDDouble PRebinDouble PRebinDouble2 PRebinDouble4 SpecSigmaDouble PSigmaDouble PSigmaDouble2 PSigmaDouble4
  PPiDouble SpecRadialDouble MRadialDouble.
Import ListNotations.
Open Scope R_scope.

(** ** Columns *)

Lemma total_sum : forall k g, total k g = sum_upto k g.
Proof. reflexivity. Qed.

Lemma col_tab : forall f n c j, grid_d f n c -> column_d f j = tab n (fun i => pixel f i j).
Proof.
  intros f n c j [L _]. unfold column_d, pixel. rewrite <- L. apply (nth_ext _ _ dzero dzero); [rewrite map_length, tab_length; reflexivity|].
  intros i Hi. rewrite map_length in Hi. rewrite tab_nth by exact Hi. apply (nth_map_lt _ _ (fun row => nth j row (B754_zero false)) f i dzero []). exact Hi.
Qed.

Lemma axis0 : forall o c f n j, grid_d f n c -> (j < c)%nat -> nth j (sum_axis0_d o c f) dzero = sum_d o (tab n (fun i => pixel f i j)).
Proof.
  intros o c f n j G Hj. unfold sum_axis0_d. rewrite (nth_map_lt _ _ _ _ j dzero 0%nat) by (rewrite seq_length; exact Hj). rewrite seq_nth by exact Hj. rewrite Nat.add_0_l. f_equal. exact (col_tab f n c j G).
Qed.

Lemma axis0_length : forall o c f, length (sum_axis0_d o c f) = c.
Proof. intros. unfold sum_axis0_d. now rewrite map_length, seq_length. Qed.

Lemma grid_row : forall f n c i, grid_d f n c -> (i < n)%nat -> length (nth i f []) = c.
Proof. intros f n c i [L R] Hi. apply R, nth_In. now rewrite L. Qed.

Lemma zip_grid : forall g a b n c, grid_d a n c -> grid_d b n c -> grid_d (zip2_d g a b) n c.
Proof.
  intros g a b n c A B. pose proof A as [La Ra]. pose proof B as [Lb Rb]. unfold zip2_d. split; [rewrite map2_length; unfold double in *; lia|].
  intros row Hr. apply (In_nth _ _ []) in Hr. destruct Hr as (i & Hi & <-). rewrite map2_length in Hi. unfold double in *. rewrite (nth_map2 _ _ _ _ _ _ i [] [] []) by lia.
  rewrite map2_length. rewrite (grid_row a n c) by (auto; lia). rewrite (grid_row b n c) by (auto; lia). lia.
Qed.

Lemma zip_pixel : forall g a b n c i j, grid_d a n c -> grid_d b n c -> (i < n)%nat -> (j < c)%nat -> pixel (zip2_d g a b) i j = g (pixel a i j) (pixel b i j).
Proof.
  intros g a b n c i j A B Hi Hj. pose proof A as [La _]. pose proof B as [Lb _]. unfold pixel, zip2_d. unfold double in *. rewrite (nth_map2 _ _ _ _ _ _ i [] [] []) by lia.
  apply nth_map2; [rewrite (grid_row a n c) by auto; exact Hj|rewrite (grid_row b n c) by auto; exact Hj].
Qed.

Lemma map_grid : forall g a n c, grid_d a n c -> grid_d (map (map g) a) n c.
Proof.
  intros g a n c [L R]. split; [rewrite map_length; exact L|]. intros row Hr. apply in_map_iff in Hr. destruct Hr as (r & <- & Hr). rewrite map_length. now apply R.
Qed.

Lemma map_pixel : forall g a n c i j, grid_d a n c -> (i < n)%nat -> (j < c)%nat -> pixel (map (map g) a) i j = g (pixel a i j).
Proof.
  intros g a n c i j A Hi Hj. pose proof A as [La _]. unfold pixel. rewrite (nth_map_lt _ _ (map g) a i [] []) by (unfold double in *; lia).
  apply (nth_map_lt _ _ g (nth i a []) j dzero dzero). unfold double in *. rewrite (grid_row a n c) by auto. exact Hj.
Qed.

(** ** Means *)

Lemma count_ok : forall n, INR n <= b2 20 -> fin (dint (Z.of_nat n)) /\ val (dint (Z.of_nat n)) = INR n.
Proof.
  intros n Hn. rewrite INR_IZR_INZ. apply dint_ok. rewrite Z.abs_eq by lia. apply le_IZR. rewrite <- INR_IZR_INZ. apply Rle_trans with (1 := Hn). change (IZR (2 ^ 53)) with (b2 53). apply bpow_le. lia.
Qed.

Lemma radial_mean : forall o n (x : nat -> double) M, order_ok o -> (1 <= n)%nat -> INR n <= b2 20 -> b2 (-900) <= M <= b2 900 -> (forall i, (i < n)%nat -> fin (x i) /\ Rabs (val (x i)) <= M) ->
  let q := ddiv (sum_d o (tab n x)) (dint (Z.of_nat n)) in fin q /\ Rabs (val q - total n (fun i => val (x i)) / INR n) <= (2 * INR n + 2) * u * M.
Proof.
  intros o n x M O Hn Hn20 HM Hx q. rewrite total_sum. pose proof u_pos as U. pose proof (INR_b n Hn) as B1. pose proof (u20 n Hn) as U2. pose proof (bpow_gt_0 radix2 (-900)) as P9.
  assert (NU : INR n * u <= / 1048576) by (apply Rle_trans with (2 := U2); rewrite (Rmult_comm u); apply Rmult_le_compat_r; lra).
  assert (N1 : INR (n - 1) = INR n - 1) by (rewrite minus_INR by lia; reflexivity).
  assert (G : 1 <= (1 + u) ^ (n - 1) <= 1 + 2 * (INR n - 1) * u).
  { split; [apply pow_ge_1|]. rewrite <- N1. pose proof (pow_lin (n - 1)) as L. rewrite Rmult_assoc. apply L. rewrite N1. nra. }
  assert (SY : sum_upto n (fun _ => M) = INR n * M) by apply sum_const.
  destruct (sum_approx o n x (fun i => val (x i)) (fun _ => M) 1 O (Rle_refl 1)) as [FS BS].
  { intros a Ha. destruct (Hx a Ha) as [F B]. split; [exact F|]. rewrite Rminus_diag_eq, Rabs_R0 by reflexivity. split; [lra|exact B]. }
  { rewrite SY, Rmult_1_l. apply Rle_trans with (2 * (b2 20 * b2 900)); [apply Rmult_le_compat; try nra|]; change 2 with (b2 1) || idtac; rewrite <- ?bpow_plus; try (apply bpow_le; lia). }
  rewrite Rmult_1_l, SY in BS. set (S := sum_d o (tab n x)) in *. set (T := sum_upto n (fun i => val (x i))) in *.
  assert (BT : Rabs T <= INR n * M) by (rewrite <- SY; apply Rle_trans with (1 := sum_abs n _); apply sum_le; intros i Hi; apply Hx; lia).
  destruct (count_ok n Hn20) as [Fn Vn]. assert (PN : 0 < / INR n) by (apply Rinv_0_lt_compat; lra).
  assert (E1 : Rabs (val S / INR n - T / INR n) <= 2 * (INR n - 1) * u * M).
  { replace (val S / INR n - T / INR n) with ((val S - T) * / INR n) by (unfold Rdiv; ring). rewrite Rabs_mult, (Rabs_pos_eq (/ INR n)) by lra.
    apply Rmult_le_reg_r with (INR n); [lra|]. rewrite Rmult_assoc, Rinv_l, Rmult_1_r by lra. apply Rle_trans with (1 := BS).
    replace (2 * (INR n - 1) * u * M * INR n) with (2 * (INR n - 1) * u * (INR n * M)) by ring. apply Rmult_le_compat_r; [nra|lra]. }
  assert (E2 : Rabs (T / INR n) <= M).
  { unfold Rdiv. rewrite Rabs_mult, (Rabs_pos_eq (/ INR n)) by lra. apply Rmult_le_reg_r with (INR n); [lra|]. rewrite Rmult_assoc, Rinv_l, Rmult_1_r by lra. lra. }
  assert (E3 : Rabs (val S / INR n) <= 2 * M).
  { replace (val S / INR n) with ((val S / INR n - T / INR n) + T / INR n) by ring. apply Rle_trans with (1 := Rabs_triang _ _). nra. }
  destruct (ddiv_ok S (dint (Z.of_nat n)) FS) as [Fq Vq].
  { rewrite Vn. lra. }
  { rewrite Vn. apply Rle_lt_trans with (b2 901); [|apply bpow_lt; lia]. apply fl_big; [lia|]. change 901%Z with (1 + 900)%Z. rewrite bpow_plus. change (b2 1) with 2. lra. }
  fold q in Fq, Vq. split; [exact Fq|]. rewrite Vq, Vn.
  replace (fl (val S / INR n) - T / INR n) with ((fl (val S / INR n) - val S / INR n) + (val S / INR n - T / INR n)) by ring. apply Rle_trans with (1 := Rabs_triang _ _).
  pose proof (fl_mixed (val S / INR n)) as E4.
  assert (E5 : b2 (-1075) <= u * M).
  { apply Rle_trans with (u * b2 (-900)); [unfold u; rewrite <- bpow_plus; apply bpow_le; lia|apply Rmult_le_compat_l; lra]. }
  nra.
Qed.

Lemma dmul_comm : forall x y, dmul x y = dmul y x.
Proof.
  intros x y. unfold dmul. destruct x as [s|s| |s m e B]; destruct y as [s'|s'| |s' m' e' B']; cbn [Bmult]; try reflexivity; try (now rewrite xorb_comm).
  apply B2SF_inj. rewrite !B2SF_SF2B. now rewrite xorb_comm, Pos.mul_comm, Z.add_comm.
Qed.
