(** * Proofs about [MDenseDouble.v] *)

From Coq Require Import Reals ZArith List Bool Lia Lra Psatz Permutation.
From Flocq Require Import Core IEEE754.BinarySingleNaN.
From Verif Require Import Base BaseP SpecGrid SpecRemap SpecDense MGrids MHealpixFloat PHealpixFloat SpecDouble MDouble PDouble MGridsDouble PGridsDouble MSumDouble PSumDouble
  MDenseDouble PRemap2 PRadial PDense.
Import ListNotations.
Open Scope R_scope.

(** ** Shapes *)

Lemma tab_S : forall A n (g : nat -> A), tab (S n) g = g 0%nat :: tab n (fun i => g (S i)).
Proof. intros. unfold tab. cbn [seq map]. f_equal. rewrite <- seq_shift, map_map. reflexivity. Qed.

Lemma length_concat_tab2 : forall A n c (g : nat -> nat -> A), length (concat (tab2 n c g)) = (n * c)%nat.
Proof.
  intros A n c. induction n as [|n IH]; intros g; [reflexivity|]. unfold tab2 in *. rewrite tab_S. cbn [concat]. rewrite app_length, IH, tab_length. lia.
Qed.

Lemma nth_concat_tab2 : forall A (d : A) n c g i k, (i < n)%nat -> (k < c)%nat -> nth (k + c * i) (concat (tab2 n c g)) d = g i k.
Proof.
  intros A d n c. induction n as [|n IH]; intros g i k Hi Hk; [lia|]. unfold tab2 in *. rewrite tab_S. cbn [concat].
  destruct i as [|i].
  - rewrite Nat.mul_0_r, Nat.add_0_r, app_nth1 by now rewrite tab_length. now rewrite tab_nth.
  - rewrite app_nth2 by (rewrite tab_length; nia). rewrite tab_length. replace (k + c * S i - c)%nat with (k + c * i)%nat by nia. now rewrite IH by lia.
Qed.

Lemma reshape3_d_tab : forall n b c g,
  reshape3_d n b c (tab2 (n * b) c g) = Ok (tab3 n b c (fun i a k => g (i * b + a)%nat k)).
Proof.
  intros n b c g. unfold reshape3_d. cbv zeta. rewrite length_concat_tab2, Nat.eqb_refl. f_equal.
  unfold tab3. apply tab_ext. intros i Hi. unfold tab2 at 2. apply tab_ext. intros a Ha. apply tab_ext. intros k Hk.
  replace ((i * b + a) * c + k)%nat with (k + c * (i * b + a))%nat by lia. apply nth_concat_tab2; nia.
Qed.

Lemma reshape3_d_split : forall n m b g,
  reshape3_d n m b (tab2 n (m * b) g) = Ok (tab3 n m b (fun i j c => g i (j * b + c)%nat)).
Proof.
  intros n m b g. unfold reshape3_d. cbv zeta. rewrite length_concat_tab2.
  replace (n * (m * b))%nat with (n * m * b)%nat by lia. rewrite Nat.eqb_refl. f_equal.
  unfold tab3. apply tab_ext. intros i Hi. unfold tab2 at 2. apply tab_ext. intros j Hj. apply tab_ext. intros c Hc'.
  replace ((i * m + j) * b + c)%nat with (j * b + c + (m * b) * i)%nat by lia. apply nth_concat_tab2; nia.
Qed.

Lemma sum_axis1_d_tab : forall o n b c g, sum_axis1_d o c (tab3 n b c g) = tab2 n c (fun i k => sum_d o (tab b (fun a => g i a k))).
Proof.
  intros. unfold sum_axis1_d, tab3. rewrite tab_map. unfold tab2 at 2. apply tab_ext. intros i Hi.
  apply tab_ext. intros k Hk. f_equal. unfold tab2. rewrite tab_map. apply tab_ext. intros a Ha. now apply tab_nth.
Qed.

Lemma mean_axis2_d_tab : forall o n b c g, mean_axis2_d o (tab3 n b c g) = tab2 n b (fun i a => mean_d o (tab c (g i a))).
Proof.
  intros. unfold mean_axis2_d, tab3. rewrite tab_map. unfold tab2 at 2. apply tab_ext. intros i Hi.
  unfold tab2. rewrite tab_map. reflexivity.
Qed.

Definition ring_w (redges : list double) (k : nat) : double :=
  dsub (dmul (nth (S k) redges dzero) (nth (S k) redges dzero)) (dmul (nth k redges dzero) (nth k redges dzero)).
Definition value_of (v : option double) : double := match v with Some x => x | None => dzero end.

(** One cell: the mean over the refined radii of the sums over the refined
    angles. *)
Definition cell_sum (o1 o2 : nat -> tree) (b : nat) (p : nat -> nat -> double) : double :=
  mean_d o2 (tab b (fun c => sum_d o1 (tab b (fun a => p a c)))).

Lemma remap_means_tab : forall o1 o2 n m b redges F, length redges = S (m * b) ->
  remap_means_d o1 o2 (tab2 (n * b) (m * b) F) redges (n * b) n m b b (m * b) =
  Ok (tab2 n m (fun i j => ddiv
    (cell_sum o1 o2 b (fun a c => dmul (value_of (F (i * b + a)%nat (j * b + c)%nat)) (ring_w redges (j * b + c))))
    (cell_sum o1 o2 b (fun a c => ring_w redges (j * b + c))))).
Proof.
  intros o1 o2 n m b redges F L. unfold remap_means_d. cbv zeta.
  assert (E : repeat (map2 (fun b a => dsub (dmul b b) (dmul a a)) (tl redges) (removelast redges)) (n * b) = tab2 (n * b) (m * b) (fun _ k => ring_w redges k)).
  { unfold tab2. rewrite tab_const. f_equal. rewrite (tab_of_list _ redges (S (m * b)) dzero L) at 1 2. now rewrite steps_tab. }
  rewrite E. clear E.
  rewrite tab2_map, tab2_zip2, reshape3_d_tab. cbn [bind]. rewrite sum_axis1_d_tab, reshape3_d_split. cbn [bind].
  rewrite reshape3_d_tab. cbn [bind]. rewrite sum_axis1_d_tab, reshape3_d_split. cbn [bind].
  rewrite !mean_axis2_d_tab, tab2_zip2. reflexivity.
Qed.

(** ** Error of one cell *)

Lemma sum_abs : forall n g, Rabs (sum_upto n g) <= sum_upto n (fun i => Rabs (g i)).
Proof.
  intros n g. induction n as [|n IH]; [rewrite !sum_0, Rabs_R0; lra|]. rewrite !sum_S. apply Rle_trans with (1 := Rabs_triang _ _). lra.
Qed.

Lemma sum_minus : forall n g h, sum_upto n (fun i => g i - h i) = sum_upto n g - sum_upto n h.
Proof. intros. induction n as [|n IH]; [rewrite !sum_0; lra|]. rewrite !sum_S, IH. lra. Qed.

Lemma sum_const : forall n k, sum_upto n (fun _ => k) = INR n * k.
Proof. intros. induction n as [|n IH]; [rewrite sum_0; cbn [INR]; lra|]. rewrite sum_S, IH, S_INR. ring. Qed.

Lemma tab_In : forall A n (g : nat -> A) y, In y (tab n g) -> exists k, (k < n)%nat /\ y = g k.
Proof. intros A n g y H. unfold tab in H. apply in_map_iff in H. destruct H as (k & <- & Hk). apply in_seq in Hk. exists k. split; [lia|reflexivity]. Qed.

Lemma sum_approx : forall o b (q : nat -> double) y Y G, order_ok o -> 1 <= G ->
  (forall a, (a < b)%nat -> fin (q a) /\ Rabs (val (q a) - y a) <= (G - 1) * Y a /\ Rabs (y a) <= Y a) ->
  G * (1 + u) ^ (b - 1) * sum_upto b Y <= b2 1020 ->
  fin (sum_d o (tab b q)) /\ Rabs (val (sum_d o (tab b q)) - sum_upto b y) <= (G * (1 + u) ^ (b - 1) - 1) * sum_upto b Y.
Proof.
  intros o b q y Y G O HG H B. pose proof (pow_ge_1 (b - 1)) as P1. set (g := (1 + u) ^ (b - 1)) in *.
  assert (V : forall a, (a < b)%nat -> Rabs (val (q a)) <= G * Y a).
  { intros a Ha. destruct (H a Ha) as (_ & E & F). replace (val (q a)) with ((val (q a) - y a) + y a) by ring. apply Rle_trans with (1 := Rabs_triang _ _). lra. }
  assert (Mg : sum_upto b (fun a => Rabs (val (q a))) <= G * sum_upto b Y) by (rewrite <- sum_scal; now apply sum_le).
  assert (D : Rabs (sum_upto b (fun a => val (q a)) - sum_upto b y) <= (G - 1) * sum_upto b Y).
  { rewrite <- sum_minus, <- sum_scal. apply Rle_trans with (1 := sum_abs _ _). apply sum_le. intros a Ha. now apply H. }
  destruct (sum_d_err o (tab b q) O) as [F E].
  - intros z Hz. apply tab_In in Hz. destruct Hz as (k & Hk & ->). now apply H.
  - rewrite tab_length, tab_map, Rsum_tab. fold g. apply Rle_trans with (2 := B). rewrite (Rmult_comm G), Rmult_assoc. apply Rmult_le_compat_l; [lra|exact Mg].
  - split; [exact F|]. rewrite tab_length, !tab_map, !Rsum_tab in E. fold g in E.
    replace (val (sum_d o (tab b q)) - sum_upto b y) with ((val (sum_d o (tab b q)) - sum_upto b (fun a => val (q a))) + (sum_upto b (fun a => val (q a)) - sum_upto b y)) by ring.
    apply Rle_trans with (1 := Rabs_triang _ _). apply Rle_trans with ((g - 1) * (G * sum_upto b Y) + (G - 1) * sum_upto b Y); [|right; ring].
    apply Rplus_le_compat; [|exact D]. apply Rle_trans with (1 := E). apply Rmult_le_compat_l; [lra|exact Mg].
Qed.

Section OneCell.
Variables (o1 o2 : nat -> tree) (b : nat) (W : nat -> R).
Hypothesis O1 : order_ok o1.
Hypothesis O2 : order_ok o2.
Hypothesis Hb : (1 <= b)%nat.
Hypothesis Hb20 : INR b <= b2 20.
Hypothesis HW : forall c, (c < b)%nat -> b2 (-500) <= W c <= b2 500.

Let Om := sum_upto b W.
Definition gain : R := (1 + 2 * u) * (1 + u) ^ (b - 1) * (1 + u) ^ (b - 1).

Lemma INR_b : 1 <= INR b.
Proof. apply (le_INR 1). exact Hb. Qed.

Lemma u20 : u * b2 20 <= / 1048576.
Proof. unfold u. rewrite <- bpow_plus. change (/ 1048576) with (b2 (-20)). apply bpow_le. lia. Qed.

Lemma gain_bound : 1 <= gain <= 1 + (4 * INR b + 1) * u.
Proof.
  unfold gain. pose proof u_pos as U. pose proof u20 as U2. pose proof INR_b as B1. set (g := (1 + u) ^ (b - 1)). pose proof (pow_ge_1 (b - 1)) as G1. fold g in G1.
  assert (N : INR (b - 1) = INR b - 1) by (rewrite minus_INR by lia; reflexivity).
  assert (S : INR b * u <= / 1048576) by nra.
  assert (G2 : g <= 1 + 2 * ((INR b - 1) * u)) by (unfold g; rewrite <- N; apply pow_lin; rewrite N; nra).
  split; [nra|]. set (h := (INR b - 1) * u) in *. assert (H0 : 0 <= h) by (unfold h; nra). assert (H1 : h = INR b * u - u) by (unfold h; ring).
  assert (Gg : g * g <= (1 + 2 * h) * (1 + 2 * h)) by nra.
  assert (T : (1 + 2 * u) * g * g <= (1 + 2 * u) * ((1 + 2 * h) * (1 + 2 * h))) by nra.
  assert (U40 : b2 20 * (u * b2 20) <= / 8192) by (unfold u; rewrite <- !bpow_plus; change (/ 8192) with (b2 (-13)); apply bpow_le; lia).
  assert (Hh : h * h <= / 8192 * u).
  { replace (h * h) with ((INR b - 1) * (u * (INR b - 1)) * u) by (unfold h; ring). apply Rmult_le_compat_r; [lra|]. apply Rle_trans with (2 := U40).
    apply Rmult_le_compat; nra. }
  assert (Hs : h <= / 1048576) by lra.
  apply Rle_trans with (1 := T). replace ((1 + 2 * u) * ((1 + 2 * h) * (1 + 2 * h))) with (1 + 4 * h + 2 * u + 4 * (h * h) + 8 * (u * h) + 8 * u * (h * h)) by ring.
  assert (u * h <= u * / 1048576) by (apply Rmult_le_compat_l; lra). assert (u <= 1) by (unfold u; change 1 with (b2 0); apply bpow_le; lia).
  assert (u * (h * h) <= 1 * (/ 8192 * u)) by (apply Rmult_le_compat; nra). lra.
Qed.

Lemma Om_bound : b2 (-500) <= Om <= b2 520.
Proof.
  unfold Om. split.
  - apply Rle_trans with (sum_upto b (fun _ => b2 (-500))); [rewrite sum_const; pose proof INR_b; pose proof (bpow_gt_0 radix2 (-500)); nra|]. apply sum_le. intros. now apply HW.
  - apply Rle_trans with (sum_upto b (fun _ => b2 500)); [apply sum_le; intros; now apply HW|]. rewrite sum_const.
    change 520%Z with (20 + 500)%Z. rewrite bpow_plus. apply Rmult_le_compat_r; [apply bpow_ge_0|exact Hb20].
Qed.

(** Rounded block sums of nearly exact products. *)
Lemma cell_sum_err : forall (p : nat -> nat -> double) (x : nat -> nat -> R) M, b2 (-300) <= M <= b2 300 ->
  (forall a c, (a < b)%nat -> (c < b)%nat -> fin (p a c) /\ Rabs (val (p a c) - x a c) <= 2 * u * (M * W c) /\ Rabs (x a c) <= M * W c) ->
  fin (cell_sum o1 o2 b p) /\
  Rabs (val (cell_sum o1 o2 b p) - sum_upto b (fun c => sum_upto b (fun a => x a c)) / INR b) <= (4 * INR b + 4) * u * (M * Om).
Proof.
  intros p x M HM H. pose proof u_pos as U. pose proof gain_bound as GB. pose proof INR_b as B1. pose proof Om_bound as HO. pose proof u20 as U2.
  set (g := (1 + u) ^ (b - 1)). pose proof (pow_ge_1 (b - 1)) as G1. fold g in G1.
  assert (EG : gain = (1 + 2 * u) * g * g) by reflexivity.
  assert (GB2 : gain <= 2) by nra.
  assert (PM : 0 < b2 (-300)) by apply bpow_gt_0. assert (PW : 0 < b2 (-500)) by apply bpow_gt_0.
  assert (P0 : 0 <= M * Om) by (apply Rmult_le_pos; lra).
  assert (BMO : M * Om <= b2 820) by (change 820%Z with (300 + 520)%Z; rewrite bpow_plus; apply Rmult_le_compat; lra).
  assert (SumY : sum_upto b (fun c => INR b * (M * W c)) = INR b * (M * Om)).
  { rewrite sum_scal. unfold Om. now rewrite sum_scal. }
  assert (BB : INR b * (M * Om) <= b2 840).
  { change 840%Z with (20 + 820)%Z. rewrite bpow_plus. apply Rmult_le_compat; lra. }
  assert (B2 : 2 * b2 840 <= b2 1020) by (change 2 with (b2 1); rewrite <- bpow_plus; apply bpow_le; lia).
  assert (Step1 : forall c, (c < b)%nat -> fin (sum_d o1 (tab b (fun a => p a c))) /\
    Rabs (val (sum_d o1 (tab b (fun a => p a c))) - sum_upto b (fun a => x a c)) <= ((1 + 2 * u) * g - 1) * (INR b * (M * W c)) /\
    Rabs (sum_upto b (fun a => x a c)) <= INR b * (M * W c)).
  { intros c Hc. destruct (HW c Hc) as [W1 W2]. assert (Q0 : 0 <= M * W c) by (apply Rmult_le_pos; lra).
    assert (Q1 : M * W c <= b2 800) by (change 800%Z with (300 + 500)%Z; rewrite bpow_plus; apply Rmult_le_compat; lra).
    assert (Q2 : INR b * (M * W c) <= b2 820) by (change 820%Z with (20 + 800)%Z; rewrite bpow_plus; apply Rmult_le_compat; lra).
    destruct (sum_approx o1 b (fun a => p a c) (fun a => x a c) (fun _ => M * W c) (1 + 2 * u) O1 ltac:(lra)) as [F E].
    - intros a Ha. destruct (H a c Ha Hc) as (F & E & X). split; [exact F|]. split; [|exact X]. apply Rle_trans with (1 := E). right. ring.
    - rewrite sum_const. fold g. assert (B820 : 2 * b2 820 <= b2 1020) by (change 2 with (b2 1); rewrite <- bpow_plus; apply bpow_le; lia).
      assert ((1 + 2 * u) * g <= 2) by nra. assert (0 <= INR b * (M * W c)) by nra. nra.
    - rewrite sum_const in E. fold g in E. split; [exact F|]. split; [exact E|].
      apply Rle_trans with (1 := sum_abs _ _). rewrite <- sum_const. apply sum_le. intros a Ha. now apply H. }
  destruct (sum_approx o2 b (fun c => sum_d o1 (tab b (fun a => p a c))) (fun c => sum_upto b (fun a => x a c)) (fun c => INR b * (M * W c)) ((1 + 2 * u) * g) O2 ltac:(nra) Step1) as [F E].
  { fold g. rewrite <- EG, SumY. assert (0 <= INR b * (M * Om)) by nra. nra. }
  fold g in E. rewrite <- EG, SumY in E.
  set (T := sum_upto b (fun c => sum_upto b (fun a => x a c))) in *. unfold cell_sum, mean_d. rewrite tab_length. set (t := sum_d o2 _) in *.
  assert (TB : Rabs T <= INR b * (M * Om)).
  { unfold T. apply Rle_trans with (1 := sum_abs _ _). rewrite <- SumY. apply sum_le. intros c Hc. now apply Step1. }
  assert (tB : Rabs (val t) <= gain * (INR b * (M * Om))).
  { replace (val t) with ((val t - T) + T) by ring. apply Rle_trans with (1 := Rabs_triang _ _). lra. }
  destruct (dint_ok (Z.of_nat b)) as [Fb Vb].
  { rewrite Z.abs_eq by lia. apply le_IZR. rewrite <- INR_IZR_INZ. apply Rle_trans with (1 := Hb20). change (IZR (2 ^ 53)) with (b2 53). apply bpow_le. lia. }
  rewrite <- INR_IZR_INZ in Vb. change (dbl (Z.of_nat b) 0) with (dint (Z.of_nat b)). set (db := dint (Z.of_nat b)) in *.
  assert (Ib : / INR b <= 1) by (rewrite <- Rinv_1; apply Rinv_le; lra). assert (Pb : 0 < / INR b) by (apply Rinv_0_lt_compat; lra).
  assert (Qb : Rabs (val t / val db) <= gain * (M * Om)).
  { rewrite Vb. unfold Rdiv. rewrite Rabs_mult, (Rabs_pos_eq (/ INR b)) by lra. apply Rle_trans with (gain * (INR b * (M * Om)) * / INR b); [apply Rmult_le_compat_r; lra|]. right. field. lra. }
  pose proof (fl_mixed (val t / val db)) as Em.
  assert (Tiny : b2 (-1075) <= u * (M * Om)).
  { apply Rle_trans with (u * (b2 (-300) * b2 (-500))).
    - unfold u. rewrite <- !bpow_plus. apply bpow_le. lia.
    - apply Rmult_le_compat_l; [lra|]. apply Rmult_le_compat; lra. }
  assert (Big : Rabs (val t / val db) <= b2 821) by (change 821%Z with (1 + 820)%Z; rewrite bpow_plus; change (b2 1) with 2; nra).
  destruct (ddiv_ok t db F) as [Fd Vd].
  - rewrite Vb. lra.
  - apply Rle_lt_trans with (b2 821); [|apply bpow_lt; lia]. apply Rabs_le_inv in Big. apply Rabs_le.
    split; [apply fl_ge|apply fl_le]; try lra; [rewrite fl_opp; f_equal|]; apply fl_fmt, fmt_b2; lia.
  - split; [exact Fd|]. rewrite Vd.
    replace (fl (val t / val db) - T / INR b) with ((fl (val t / val db) - val t / val db) + (val t - T) * / INR b) by (rewrite Vb; field; lra).
    apply Rle_trans with (1 := Rabs_triang _ _).
    assert (E2 : Rabs ((val t - T) * / INR b) <= (gain - 1) * (M * Om)).
    { rewrite Rabs_mult, (Rabs_pos_eq (/ INR b)) by lra. apply Rle_trans with ((gain - 1) * (INR b * (M * Om)) * / INR b); [apply Rmult_le_compat_r; lra|]. right. field. lra. }
    assert (E3 : (gain - 1) * (M * Om) <= (4 * INR b + 1) * u * (M * Om)) by (apply Rmult_le_compat_r; lra).
    assert (E4 : u * Rabs (val t / val db) <= u * (gain * (M * Om))) by (apply Rmult_le_compat_l; lra).
    assert (E5 : u * (gain * (M * Om)) <= u * (2 * (M * Om))) by (apply Rmult_le_compat_l; [lra|]; apply Rmult_le_compat_r; lra).
    lra.
Qed.

End OneCell.

Lemma fl_big : forall x k, (-1000 <= k <= 1023)%Z -> Rabs x <= b2 k -> Rabs (fl x) <= b2 k.
Proof.
  intros x k Hk H. apply Rabs_le_inv in H. apply Rabs_le. assert (F : fmt (b2 k)) by (apply fmt_b2; lia).
  split; [rewrite <- (fl_fmt (b2 k) F), <- fl_opp|rewrite <- (fl_fmt (b2 k) F)]; apply fl_mono; lra.
Qed.

(** One product. *)
Lemma product_err : forall x w M, fin x -> fin w -> b2 (-300) <= M <= b2 300 -> b2 (-500) <= val w <= b2 500 -> Rabs (val x) <= M ->
  fin (dmul x w) /\ Rabs (val (dmul x w) - val x * val w) <= 2 * u * (M * val w) /\ Rabs (val x * val w) <= M * val w.
Proof.
  intros x w M Fx Fw HM Hw Hx. pose proof u_pos as U. pose proof (bpow_gt_0 radix2 (-300)) as P3. pose proof (bpow_gt_0 radix2 (-500)) as P5.
  assert (B : Rabs (val x * val w) <= M * val w) by (rewrite Rabs_mult, (Rabs_pos_eq (val w)) by lra; apply Rmult_le_compat_r; lra).
  assert (Big : M * val w <= b2 800) by (change 800%Z with (300 + 500)%Z; rewrite bpow_plus; apply Rmult_le_compat; lra).
  destruct (dmul_ok x w Fx Fw) as [F V].
  - apply Rle_lt_trans with (b2 800); [apply fl_big; [lia|lra]|apply bpow_lt; lia].
  - split; [exact F|]. split; [|exact B]. rewrite V. apply Rle_trans with (1 := fl_mixed _).
    assert (Tiny : b2 (-1075) <= u * (M * val w)).
    { apply Rle_trans with (u * (b2 (-300) * b2 (-500))).
      - unfold u. rewrite <- !bpow_plus. apply bpow_le. lia.
      - apply Rmult_le_compat_l; [lra|]. apply Rmult_le_compat; lra. }
    assert (u * Rabs (val x * val w) <= u * (M * val w)) by (apply Rmult_le_compat_l; lra). lra.
Qed.

(** One averaged cell, against the mean with the rounded weights. *)
Lemma cell_err : forall o1 o2 b (v : nat -> nat -> double) (w : nat -> double) M, order_ok o1 -> order_ok o2 -> (1 <= b)%nat -> INR b <= b2 20 ->
  b2 (-300) <= M <= b2 300 -> (forall c, (c < b)%nat -> fin (w c) /\ b2 (-500) <= val (w c) <= b2 500) ->
  (forall a c, (a < b)%nat -> (c < b)%nat -> fin (v a c) /\ Rabs (val (v a c)) <= M) ->
  let q := ddiv (cell_sum o1 o2 b (fun a c => dmul (v a c) (w c))) (cell_sum o1 o2 b (fun _ c => w c)) in
  fin q /\ Rabs (val q - block_mean b (fun c => val (w c)) (fun a c => val (v a c))) <= (INR b + 1) * b2 (-49) * M.
Proof.
  intros o1 o2 b v w M O1 O2 Hb Hb20 HM Hw Hv q. pose proof u_pos as U. pose proof (INR_b b Hb) as B1. pose proof (u20 b Hb) as U2.
  set (W := fun c => val (w c)). assert (HW : forall c, (c < b)%nat -> b2 (-500) <= W c <= b2 500) by (intros; now apply Hw).
  set (Om := sum_upto b W). pose proof (Om_bound b W Hb Hb20 HW) as HO. fold Om in HO.
  pose proof (bpow_gt_0 radix2 (-300)) as P3. pose proof (bpow_gt_0 radix2 (-500)) as P5.
  set (x := fun a c => val (v a c) * W c).
  destruct (cell_sum_err o1 o2 b W O1 O2 Hb Hb20 HW (fun a c => dmul (v a c) (w c)) x M HM) as [Fn En].
  { intros a c Ha Hc. destruct (Hv a c Ha Hc). apply product_err; auto; now apply Hw. }
  destruct (cell_sum_err o1 o2 b W O1 O2 Hb Hb20 HW (fun _ c => w c) (fun _ c => W c) 1) as [Fd Ed].
  { split; [change 1 with (b2 0)|change 1 with (b2 0)]; apply bpow_le; lia. }
  { intros a c Ha Hc. destruct (Hw c Hc). fold (W c). split; [assumption|]. rewrite Rminus_diag_eq, Rabs_R0 by reflexivity. specialize (HW c Hc). rewrite Rabs_pos_eq by lra. nra. }
  fold Om in En, Ed. rewrite !Rmult_1_l in Ed.
  assert (ED : sum_upto b (fun c => sum_upto b (fun _ => W c)) / INR b = Om).
  { rewrite (sum_ext b _ (fun c => INR b * W c)) by (intros; apply sum_const). rewrite sum_scal. fold Om. field. lra. }
  rewrite ED in Ed. set (n := cell_sum o1 o2 b (fun a c => dmul (v a c) (w c))) in *. set (d := cell_sum o1 o2 b (fun _ c => w c)) in *.
  set (S := sum_upto b (fun c => sum_upto b (fun a => x a c))) in *.
  assert (EM : block_mean b W (fun a c => val (v a c)) = S / INR b / Om).
  { unfold block_mean, S. rewrite (sum_swap b b (fun c a => x a c)). rewrite (sum_ext b _ (fun a => sum_upto b (fun c => x a c))).
    - rewrite sum_const. fold Om. field. split; lra.
    - intros a Ha. apply sum_ext. intros c Hc. unfold x. ring. }
  rewrite EM. set (m := S / INR b / Om).
  set (e := (4 * INR b + 4) * u) in *.
  assert (BU : INR b * u <= / 1048576) by (rewrite Rmult_comm; apply Rle_trans with (2 := U2); apply Rmult_le_compat_l; lra).
  assert (UB : u <= INR b * u) by nra.
  assert (He : 0 <= e <= / 65536) by (unfold e; lra).
  assert (Mm : Rabs m <= M).
  { assert (Rabs S <= INR b * (M * Om)).
    { unfold S. apply Rle_trans with (1 := sum_abs _ _). unfold Om. rewrite <- !sum_scal. apply sum_le. intros c Hc.
      apply Rle_trans with (1 := sum_abs _ _). rewrite <- sum_const. apply sum_le. intros a Ha. unfold x. rewrite Rabs_mult, (Rabs_pos_eq (W c)) by (specialize (HW c Hc); lra).
      apply Rmult_le_compat_r; [specialize (HW c Hc); lra|]. now apply Hv. }
    unfold m, Rdiv. rewrite !Rabs_mult, (Rabs_pos_eq (/ INR b)), (Rabs_pos_eq (/ Om)) by (left; apply Rinv_0_lt_compat; lra).
    apply Rle_trans with (INR b * (M * Om) * / INR b * / Om); [|right; field; split; lra].
    apply Rmult_le_compat_r; [left; apply Rinv_0_lt_compat; lra|]. apply Rmult_le_compat_r; [left; apply Rinv_0_lt_compat; lra|assumption]. }
  assert (Es : S / INR b = m * Om) by (unfold m; field; split; lra). rewrite Es in En.
  assert (Dd : Om * (1 - e) <= val d <= Om * (1 + e)) by (apply Rabs_le_inv in Ed; lra).
  assert (Pd : 0 < val d) by nra.
  assert (Eq : Rabs (val n / val d - m) <= 2 * e * M * (1 + 2 * e)).
  { replace (val n / val d - m) with ((val n - m * Om + m * (Om - val d)) / val d) by (field; lra).
    unfold Rdiv. rewrite Rabs_mult, (Rabs_pos_eq (/ val d)) by (left; apply Rinv_0_lt_compat; lra).
    apply Rle_trans with (2 * e * (M * Om) * / val d).
    - apply Rmult_le_compat_r; [left; apply Rinv_0_lt_compat; lra|]. apply Rle_trans with (1 := Rabs_triang _ _). rewrite Rabs_mult, (Rabs_minus_sym Om).
      assert (Rabs m * Rabs (val d - Om) <= M * (e * Om)) by (apply Rmult_le_compat; try apply Rabs_pos; lra). lra.
    - apply (Rmult_le_reg_r (val d)); [exact Pd|]. rewrite Rmult_assoc, Rinv_l, Rmult_1_r by lra.
      replace (2 * e * (M * Om)) with (2 * e * M * Om) by ring. rewrite (Rmult_assoc (2 * e * M)). apply Rmult_le_compat_l; [apply Rmult_le_pos; lra|]. nra. }
  assert (Qb : Rabs (val n / val d) <= 2 * M).
  { replace (val n / val d) with ((val n / val d - m) + m) by ring. apply Rle_trans with (1 := Rabs_triang _ _).
    assert (2 * e * M * (1 + 2 * e) <= M) by (replace (2 * e * M * (1 + 2 * e)) with (2 * e * (1 + 2 * e) * M) by ring; rewrite <- (Rmult_1_l M) at 2; apply Rmult_le_compat_r; nra). lra. }
  assert (Big : 2 * M <= b2 301) by (change 301%Z with (1 + 300)%Z; rewrite bpow_plus; change (b2 1) with 2; lra).
  destruct (ddiv_ok n d Fn ltac:(lra)) as [Fq Vq].
  - apply Rle_lt_trans with (b2 301); [apply fl_big; [lia|lra]|apply bpow_lt; lia].
  - split; [exact Fq|]. unfold q. rewrite Vq. pose proof (fl_mixed (val n / val d)) as Em.
    assert (Tiny : b2 (-1075) <= u * M). { apply Rle_trans with (u * b2 (-300)); [unfold u; rewrite <- bpow_plus; apply bpow_le; lia|apply Rmult_le_compat_l; lra]. }
    assert (E49 : b2 (-49) = 16 * u) by (change (-49)%Z with (4 + -53)%Z; unfold u; rewrite bpow_plus; reflexivity). rewrite E49.
    replace (fl (val n / val d) - m) with ((fl (val n / val d) - val n / val d) + (val n / val d - m)) by ring. apply Rle_trans with (1 := Rabs_triang _ _).
    assert (A1 : u * Rabs (val n / val d) <= u * (2 * M)) by (apply Rmult_le_compat_l; lra).
    assert (A2 : 2 * e * M * (1 + 2 * e) <= 2 * e * M * (1 + / 32768)) by (apply Rmult_le_compat_l; [apply Rmult_le_pos; lra|lra]).
    assert (A3 : (2 * e * (1 + / 32768) + 3 * u) * M <= (INR b + 1) * (16 * u) * M).
    { apply Rmult_le_compat_r; [lra|]. unfold e. nra. }
    lra.
Qed.

(** ** Order *)

Lemma sum_tab_mono : forall o b (q q' : nat -> double) e, order_ok o -> (1 <= b)%nat -> INR b <= b2 20 -> (0 <= e <= 900)%Z ->
  (forall a, (a < b)%nat -> fin (q a) /\ fin (q' a) /\ val (q a) <= val (q' a) /\ Rabs (val (q a)) <= b2 e /\ Rabs (val (q' a)) <= b2 e) ->
  fin (sum_d o (tab b q)) /\ val (sum_d o (tab b q)) <= val (sum_d o (tab b q')) /\ Rabs (val (sum_d o (tab b q))) <= b2 (e + 21).
Proof.
  intros o b q q' e O Hb Hb20 He H. pose proof u_pos as U. pose proof (INR_b b Hb) as B1. pose proof (u20 b Hb) as U2.
  assert (G : (1 + u) ^ (b - 1) <= 2).
  { assert (N : INR (b - 1) = INR b - 1) by (rewrite minus_INR by lia; reflexivity). assert (L : INR (b - 1) * u <= / 4) by (rewrite N; nra).
    apply Rle_trans with (1 := pow_lin (b - 1) L). lra. }
  pose proof (pow_ge_1 (b - 1)) as G1.
  assert (BE : 2 * (INR b * b2 e) <= b2 (e + 21)).
  { replace (e + 21)%Z with (1 + (20 + e))%Z by lia. rewrite !bpow_plus. change (b2 1) with 2. pose proof (bpow_ge_0 radix2 e).
    apply Rmult_le_compat_l; [lra|]. apply Rmult_le_compat_r; lra. }
  assert (BE2 : b2 (e + 21) <= b2 1020) by (apply bpow_le; lia).
  assert (Tot : forall f : nat -> double, (forall a, (a < b)%nat -> Rabs (val (f a)) <= b2 e) -> (1 + u) ^ (b - 1) * sum_upto b (fun a => Rabs (val (f a))) <= b2 (e + 21)).
  { intros f Hf. apply Rle_trans with (2 := BE). apply Rmult_le_compat; [lra| |lra|rewrite <- sum_const; now apply sum_le].
    replace 0 with (sum_upto b (fun _ => 0)) by (rewrite sum_const; ring). apply sum_le. intros. apply Rabs_pos. }
  assert (Tq := Tot q (fun a Ha => proj1 (proj2 (proj2 (proj2 (H a Ha)))))). assert (Tq' := Tot q' (fun a Ha => proj2 (proj2 (proj2 (proj2 (H a Ha)))))).
  destruct (sum_d_err o (tab b q) O) as [F E].
  { intros y Hy. apply tab_In in Hy. destruct Hy as (k & Hk & ->). now apply H. }
  { rewrite tab_length, tab_map, Rsum_tab. lra. }
  rewrite tab_length, !tab_map, !Rsum_tab in E. split; [exact F|]. split.
  - apply sum_d_mono; auto; rewrite ?tab_length, ?tab_map, ?Rsum_tab; [reflexivity| |lra|lra].
    intros k Hk. rewrite !tab_nth by exact Hk. destruct (H k Hk) as (? & ? & ? & _). auto.
  - set (tot := sum_upto b (fun a => val (q a))) in *. set (mag := sum_upto b (fun a => Rabs (val (q a)))) in *.
    assert (Rabs tot <= mag) by apply sum_abs.
    replace (val (sum_d o (tab b q))) with ((val (sum_d o (tab b q)) - tot) + tot) by ring. apply Rle_trans with (1 := Rabs_triang _ _). lra.
Qed.

Lemma mean_tab_mono : forall o b (q q' : nat -> double) e, order_ok o -> (1 <= b)%nat -> INR b <= b2 20 -> (0 <= e <= 900)%Z ->
  (forall a, (a < b)%nat -> fin (q a) /\ fin (q' a) /\ val (q a) <= val (q' a) /\ Rabs (val (q a)) <= b2 e /\ Rabs (val (q' a)) <= b2 e) ->
  fin (mean_d o (tab b q)) /\ val (mean_d o (tab b q)) <= val (mean_d o (tab b q')).
Proof.
  intros o b q q' e O Hb Hb20 He H. pose proof (INR_b b Hb) as B1.
  destruct (sum_tab_mono o b q q' e O Hb Hb20 He H) as (F & L & B).
  destruct (sum_tab_mono o b q' q' e O Hb Hb20 He) as (F' & _ & B').
  { intros a Ha. destruct (H a Ha) as (? & ? & ? & ? & ?). repeat split; auto. apply Rle_refl. }
  unfold mean_d. rewrite !tab_length. destruct (dint_ok (Z.of_nat b)) as [Fb Vb].
  { rewrite Z.abs_eq by lia. apply le_IZR. rewrite <- INR_IZR_INZ. apply Rle_trans with (1 := Hb20). change (IZR (2 ^ 53)) with (b2 53). apply bpow_le. lia. }
  rewrite <- INR_IZR_INZ in Vb. change (dbl (Z.of_nat b) 0) with (dint (Z.of_nat b)). set (db := dint (Z.of_nat b)) in *.
  assert (Ib : / INR b <= 1) by (rewrite <- Rinv_1; apply Rinv_le; lra). assert (Pb : 0 < / INR b) by (apply Rinv_0_lt_compat; lra).
  assert (Q : forall t, fin t -> Rabs (val t) <= b2 (e + 21) -> fin (ddiv t db) /\ val (ddiv t db) = fl (val t / INR b)).
  { intros t Ft Bt. destruct (ddiv_ok t db Ft) as [Fd Vd].
    - rewrite Vb. lra.
    - apply Rle_lt_trans with (b2 (e + 21)); [|apply bpow_lt; lia]. apply fl_big; [lia|]. rewrite Vb. unfold Rdiv. rewrite Rabs_mult, (Rabs_pos_eq (/ INR b)) by lra.
      pose proof (Rabs_pos (val t)). nra.
    - split; [exact Fd|]. now rewrite Vd, Vb. }
  destruct (Q _ F B) as [F1 V1]. destruct (Q _ F' B') as [F2 V2]. split; [exact F1|]. rewrite V1, V2. apply fl_mono. apply Rmult_le_compat_r; lra.
Qed.

Lemma cell_sum_mono : forall o1 o2 b (p p' : nat -> nat -> double) e, order_ok o1 -> order_ok o2 -> (1 <= b)%nat -> INR b <= b2 20 -> (0 <= e <= 800)%Z ->
  (forall a c, (a < b)%nat -> (c < b)%nat -> fin (p a c) /\ fin (p' a c) /\ val (p a c) <= val (p' a c) /\ Rabs (val (p a c)) <= b2 e /\ Rabs (val (p' a c)) <= b2 e) ->
  fin (cell_sum o1 o2 b p) /\ val (cell_sum o1 o2 b p) <= val (cell_sum o1 o2 b p').
Proof.
  intros o1 o2 b p p' e O1 O2 Hb Hb20 He H. unfold cell_sum. apply (mean_tab_mono o2 b _ _ (e + 21) O2 Hb Hb20); [lia|]. intros c Hc.
  destruct (sum_tab_mono o1 b (fun a => p a c) (fun a => p' a c) e O1 Hb Hb20) as (F & L & B); [lia|intros a Ha; now apply H|].
  destruct (sum_tab_mono o1 b (fun a => p' a c) (fun a => p' a c) e O1 Hb Hb20) as (F' & _ & B'); [lia| |].
  { intros a Ha. destruct (H a c Ha Hc) as (? & ? & ? & ? & ?). repeat split; auto. apply Rle_refl. }
  auto.
Qed.

Lemma cell_sum_zero : forall o1 o2 b (p : nat -> nat -> double), order_ok o1 -> order_ok o2 -> (1 <= b)%nat -> INR b <= b2 20 ->
  (forall a c, (a < b)%nat -> (c < b)%nat -> fin (p a c) /\ val (p a c) = 0) -> val (cell_sum o1 o2 b p) = 0.
Proof.
  intros o1 o2 b p O1 O2 Hb Hb20 H.
  assert (Z : forall o (q : nat -> double), order_ok o -> (forall a, (a < b)%nat -> fin (q a) /\ val (q a) = 0) -> fin (sum_d o (tab b q)) /\ val (sum_d o (tab b q)) = 0).
  { intros o q O Hq. assert (S0 : sum_upto b (fun a => Rabs (val (q a))) = 0).
    { rewrite (sum_ext b _ (fun _ => 0)); [rewrite sum_const; ring|]. intros a Ha. destruct (Hq a Ha) as [_ ->]. apply Rabs_R0. }
    destruct (sum_d_err o (tab b q) O) as [F E].
    - intros y Hy. apply tab_In in Hy. destruct Hy as (k & Hk & ->). now apply Hq.
    - rewrite tab_map, Rsum_tab, S0, Rmult_0_r. apply bpow_ge_0.
    - split; [exact F|]. rewrite !tab_map, !Rsum_tab, S0, Rmult_0_r in E. rewrite (sum_ext b _ (fun _ => 0)), sum_const, Rmult_0_r, Rminus_0_r in E by (intros a Ha; now apply Hq).
      apply Rabs_le_inv in E. lra. }
  unfold cell_sum, mean_d. rewrite tab_length. destruct (Z o2 (fun c => sum_d o1 (tab b (fun a => p a c))) O2) as [F V].
  { intros c Hc. apply Z; [exact O1|]. intros a Ha. now apply H. }
  set (t := sum_d o2 _) in *. destruct (dint_ok (Z.of_nat b)) as [Fb Vb].
  { rewrite Z.abs_eq by lia. apply le_IZR. rewrite <- INR_IZR_INZ. apply Rle_trans with (1 := Hb20). change (IZR (2 ^ 53)) with (b2 53). apply bpow_le. lia. }
  rewrite <- INR_IZR_INZ in Vb. change (dbl (Z.of_nat b) 0) with (dint (Z.of_nat b)). pose proof (INR_b b Hb) as B1.
  destruct (ddiv_ok t (dint (Z.of_nat b)) F) as [_ Vd].
  - rewrite Vb. lra.
  - rewrite V. unfold Rdiv. rewrite Rmult_0_l, (fl_fmt 0 fmt_0), Rabs_R0. apply bpow_gt_0.
  - rewrite Vd, V. unfold Rdiv. rewrite Rmult_0_l. apply fl_fmt, fmt_0.
Qed.

(** ** Weights *)

(** One ring weight: outer radius at most [K] times the width. *)
Lemma ring_w_ok : forall redges k K, let e0 := nth k redges dzero in let e1 := nth (S k) redges dzero in
  fin e0 -> fin e1 -> 0 <= val e0 < val e1 -> b2 (-200) <= val e1 <= b2 200 -> 1 <= K <= b2 30 -> val e1 <= K * (val e1 - val e0) ->
  let w := val e1 ^ 2 - val e0 ^ 2 in
  fin (ring_w redges k) /\ Rabs (val (ring_w redges k) - w) <= 4 * u * K * w /\ b2 (-500) <= val (ring_w redges k) <= b2 500 /\ b2 (-430) <= w <= b2 400.
Proof.
  intros redges k K e0 e1 F0 F1 H01 H1 HK HW w. pose proof u_pos as U. unfold ring_w. fold e0 e1. set (x0 := val e0) in *. set (x1 := val e1) in *.
  pose proof (bpow_gt_0 radix2 (-200)) as P2.
  assert (S1 : b2 (-400) <= x1 * x1 <= b2 400).
  { change (-400)%Z with (-200 + -200)%Z. change 400%Z with (200 + 200)%Z. rewrite !bpow_plus. split; apply Rmult_le_compat; lra. }
  assert (S0 : 0 <= x0 * x0 <= x1 * x1) by nra.
  assert (Kw : x1 * x1 <= K * w).
  { unfold w. replace (x1 ^ 2 - x0 ^ 2) with ((x1 - x0) * (x1 + x0)) by ring. assert (x1 * x1 <= K * (x1 - x0) * x1) by (apply Rmult_le_compat_r; lra).
    assert (0 <= K * (x1 - x0) * x0) by (apply Rmult_le_pos; lra). nra. }
  assert (Wp : 0 < w) by (unfold w; nra). assert (Wu : w <= x1 * x1) by (unfold w; nra).
  pose proof (bpow_gt_0 radix2 (-400)) as P4.
  assert (Wl : b2 (-430) <= w).
  { apply (Rmult_le_reg_l (b2 30)); [apply bpow_gt_0|]. rewrite <- bpow_plus. change (30 + -430)%Z with (-400)%Z. apply Rle_trans with (K * w); [lra|]. apply Rmult_le_compat_r; lra. }
  assert (Tiny : b2 (-1075) <= / 16 * u * (x1 * x1)).
  { apply Rle_trans with (/ 16 * u * b2 (-400)).
    - change (/ 16) with (b2 (-4)). unfold u. rewrite <- !bpow_plus. apply bpow_le. lia.
    - apply Rmult_le_compat_l; lra. }
  destruct (dmul_ok e1 e1 F1 F1) as [M1 V1].
  { fold x1. apply Rle_lt_trans with (b2 400); [apply fl_big; [lia|rewrite Rabs_pos_eq; lra]|apply bpow_lt; lia]. }
  destruct (dmul_ok e0 e0 F0 F0) as [M0 V0].
  { fold x0. apply Rle_lt_trans with (b2 400); [apply fl_big; [lia|rewrite Rabs_pos_eq; lra]|apply bpow_lt; lia]. }
  fold x1 in V1. fold x0 in V0. set (p1 := dmul e1 e1) in *. set (p0 := dmul e0 e0) in *.
  pose proof (fl_mixed (x1 * x1)) as E1. pose proof (fl_mixed (x0 * x0)) as E0. rewrite <- V1 in E1. rewrite <- V0 in E0.
  rewrite (Rabs_pos_eq (x1 * x1)) in E1 by lra. rewrite (Rabs_pos_eq (x0 * x0)) in E0 by lra. apply Rabs_le_inv in E1. apply Rabs_le_inv in E0.
  set (q := x1 * x1) in *. assert (Ux : u * (x0 * x0) <= u * q) by (apply Rmult_le_compat_l; lra).
  assert (Ew : w = q - x0 * x0) by (unfold w, q; ring).
  assert (Uq : 0 < u * q <= / 1024 * q) by (split; [apply Rmult_lt_0_compat|apply Rmult_le_compat_r]; lra).
  assert (ED : Rabs (val p1 - val p0 - w) <= (2 + / 8) * u * q) by (apply Rabs_le; lra).
  assert (AD : Rabs (val p1 - val p0) <= (1 + / 8) * q) by (apply Rabs_le_inv in ED; apply Rabs_le; lra).
  assert (AD2 : Rabs (val p1 - val p0) <= b2 401) by (change 401%Z with (1 + 400)%Z; rewrite bpow_plus; change (b2 1) with 2; lra).
  destruct (dsub_ok p1 p0 M1 M0) as [Fs Vs].
  { apply Rle_lt_trans with (b2 401); [apply fl_big; [lia|exact AD2]|apply bpow_lt; lia]. }
  split; [exact Fs|]. rewrite Vs.
  assert (EA : Rabs (fl (val p1 - val p0) - (val p1 - val p0)) <= u * Rabs (val p1 - val p0)).
  { apply (add_err (val p1) (- val p0)); [apply fmt_val|apply fmt_opp, fmt_val]. }
  assert (UA : u * Rabs (val p1 - val p0) <= u * ((1 + / 8) * q)) by (apply Rmult_le_compat_l; lra).
  set (f := fl (val p1 - val p0)) in *.
  assert (T : Rabs (f - w) <= 4 * u * q).
  { replace (f - w) with ((f - (val p1 - val p0)) + (val p1 - val p0 - w)) by ring. apply Rle_trans with (1 := Rabs_triang _ _). lra. }
  assert (T2 : 4 * u * q <= 4 * u * K * w) by (rewrite !Rmult_assoc; apply Rmult_le_compat_l; [lra|]; apply Rmult_le_compat_l; [lra|exact Kw]).
  assert (UK : 4 * u * K <= / 2).
  { apply Rle_trans with (4 * u * b2 30); [apply Rmult_le_compat_l; lra|]. change 4 with (b2 2). change (/ 2) with (b2 (-1)). unfold u. rewrite <- !bpow_plus. apply bpow_le. lia. }
  assert (UKw : 4 * u * K * w <= / 2 * w) by (apply Rmult_le_compat_r; lra).
  split; [lra|]. apply Rabs_le_inv in T.
  assert (L500 : b2 (-500) <= / 2 * b2 (-430)) by (change (/ 2) with (b2 (-1)); rewrite <- bpow_plus; apply bpow_le; lia).
  assert (U500 : 2 * b2 400 <= b2 500) by (change 2 with (b2 1); rewrite <- bpow_plus; apply bpow_le; lia).
  split; lra.
Qed.

(** Nearly equal weights give nearly equal means. *)
Lemma block_mean_weights : forall b (W W' : nat -> R) V M d, (1 <= b)%nat -> 0 <= d <= / 4 ->
  (forall c, (c < b)%nat -> 0 < W c /\ Rabs (W' c - W c) <= d * W c) -> (forall a c, (a < b)%nat -> (c < b)%nat -> Rabs (V a c) <= M) ->
  Rabs (block_mean b W' V - block_mean b W V) <= 3 * d * M.
Proof.
  intros b W W' V M d Hb Hd HW HV. pose proof (INR_b b Hb) as B1. unfold block_mean. rewrite !sum_const.
  set (Om := sum_upto b W). set (Om' := sum_upto b W').
  set (S := sum_upto b (fun a => sum_upto b (fun c => W c * V a c))). set (S' := sum_upto b (fun a => sum_upto b (fun c => W' c * V a c))).
  assert (M0 : 0 <= M) by (apply Rle_trans with (1 := Rabs_pos (V 0%nat 0%nat)); apply HV; lia).
  assert (PO : 0 < Om).
  { unfold Om. clear - HW Hb. destruct b as [|b]; [lia|]. rewrite sum_S.
    assert (0 <= sum_upto b W). { replace 0 with (sum_upto b (fun _ => 0)) by (rewrite sum_const; ring). apply sum_le. intros c Hc. destruct (HW c ltac:(lia)). lra. }
    destruct (HW b ltac:(lia)). lra. }
  assert (DO : Rabs (Om' - Om) <= d * Om).
  { unfold Om, Om'. rewrite <- sum_minus, <- sum_scal. apply Rle_trans with (1 := sum_abs _ _). apply sum_le. intros c Hc. now apply HW. }
  assert (DS : Rabs (S' - S) <= INR b * (d * M * Om)).
  { unfold S, S'. rewrite <- sum_minus. apply Rle_trans with (1 := sum_abs _ _). rewrite <- sum_const. apply sum_le. intros a Ha.
    rewrite <- sum_minus. apply Rle_trans with (1 := sum_abs _ _). unfold Om. rewrite <- sum_scal. apply sum_le. intros c Hc.
    replace (W' c * V a c - W c * V a c) with ((W' c - W c) * V a c) by ring. rewrite Rabs_mult. destruct (HW c Hc).
    replace (d * M * W c) with (d * W c * M) by ring. apply Rmult_le_compat; try apply Rabs_pos; auto. }
  assert (BS : Rabs S <= INR b * (M * Om)).
  { unfold S. apply Rle_trans with (1 := sum_abs _ _). rewrite <- sum_const. apply sum_le. intros a Ha. apply Rle_trans with (1 := sum_abs _ _). unfold Om. rewrite <- sum_scal.
    apply sum_le. intros c Hc. destruct (HW c Hc). rewrite Rabs_mult, (Rabs_pos_eq (W c)), Rmult_comm by lra. apply Rmult_le_compat_r; [lra|auto]. }
  set (m := S / (INR b * Om)).
  assert (Em : S = m * (INR b * Om)) by (unfold m; field; split; lra).
  assert (PbO : 0 < INR b * Om) by (apply Rmult_lt_0_compat; lra).
  assert (Mm : Rabs m <= M).
  { unfold m, Rdiv. rewrite Rabs_mult, (Rabs_pos_eq (/ _)) by (left; now apply Rinv_0_lt_compat). apply (Rmult_le_reg_r (INR b * Om)); [exact PbO|].
    rewrite Rmult_assoc, Rinv_l, Rmult_1_r by lra. lra. }
  apply Rabs_le_inv in DO as DO2. assert (PO' : (1 - d) * Om <= Om') by lra. assert (PP : 0 < Om') by nra.
  replace (S' / (INR b * Om') - m) with ((S' - S - m * (INR b * (Om' - Om))) / (INR b * Om')) by (rewrite Em; field; split; lra).
  assert (PbO' : 0 < INR b * Om') by (apply Rmult_lt_0_compat; lra).
  unfold Rdiv. rewrite Rabs_mult, (Rabs_pos_eq (/ _)) by (left; now apply Rinv_0_lt_compat). apply (Rmult_le_reg_r (INR b * Om')); [exact PbO'|].
  rewrite Rmult_assoc, Rinv_l, Rmult_1_r by lra.
  apply Rle_trans with (INR b * (2 * (d * M * Om))).
  - unfold Rminus at 1. apply Rle_trans with (1 := Rabs_triang _ _). rewrite Rabs_Ropp, Rabs_mult, (Rabs_mult (INR b)), (Rabs_pos_eq (INR b)) by lra.
    assert (Rabs m * (INR b * Rabs (Om' - Om)) <= M * (INR b * (d * Om))).
    { apply Rmult_le_compat; try apply Rabs_pos; auto; [apply Rmult_le_pos; [lra|apply Rabs_pos]|apply Rmult_le_compat_l; lra]. }
    lra.
  - replace (3 * d * M * (INR b * Om')) with (INR b * (3 * (d * M * Om'))) by ring. apply Rmult_le_compat_l; [lra|].
    assert (0 <= d * M) by (apply Rmult_le_pos; lra). assert (d * M * ((1 - d) * Om) <= d * M * Om') by (apply Rmult_le_compat_l; lra).
    assert (0 <= d * M * Om) by (apply Rmult_le_pos; lra). nra.
Qed.

Lemma block_mean_const : forall b W k, (1 <= b)%nat -> 0 < sum_upto b W -> block_mean b W (fun _ _ => k) = k.
Proof.
  intros b W k Hb P. pose proof (INR_b b Hb). unfold block_mean. rewrite (sum_ext b _ (fun _ => sum_upto b W * k)) by (intros; apply sum_scal_r).
  rewrite !sum_const. field. split; lra.
Qed.
