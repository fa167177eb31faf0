(** * Lemmas: errors of radial profiles, ring areas *)

From Coq Require Import Reals ZArith List Bool Lia Lra Psatz Permutation.
From Flocq Require Import Core IEEE754.BinarySingleNaN.
From Verif Require Import TDenseDouble Base BaseP SpecGrid SpecRemap PGrids MHealpixFloat PHealpixFloat SpecDouble MDouble PDouble
  MRemapDouble MGridsDouble PGridsDouble MSumDouble PSumDouble PDense PDenseDouble PRemap2 PRadial MOneDDouble PRebinDouble PRebinDouble2 PRebinDouble4 SpecSigmaDouble PSigmaDouble PSigmaDouble2 PSigmaDouble4
  PPiDouble SpecRadialDouble MRadialDouble PRadialDouble.
Import ListNotations.
Open Scope R_scope.

(** ** Errors *)

Lemma sized_rel : forall r x, sized (- r) r x -> rel 0 r x (val x).
Proof. intros r x [F H]. now apply rel_exact. Qed.

Lemma few_n : forall n k, INR n <= b2 20 -> (k <= 100 + 20 * n)%nat -> few k.
Proof.
  intros n k Hn Hk. unfold few. apply le_INR in Hk. rewrite plus_INR, mult_INR in Hk. apply Rle_trans with (1 := Hk). rewrite (INR_IZR_INZ 100), (INR_IZR_INZ 20). change (Z.of_nat 100) with 100%Z. change (Z.of_nat 20) with 20%Z.
  change (b2 20) with 1048576 in Hn. change (b2 30) with 1073741824. lra.
Qed.

Lemma Forall2_tab : forall A B (P : A -> B -> Prop) n x y, (forall i, (i < n)%nat -> P (x i) (y i)) -> Forall2 P (tab n x) (map y (seq 0 n)).
Proof.
  intros A B P n x y H. unfold tab. assert (G : forall i, In i (seq 0 n) -> P (x i) (y i)) by (intros i Hi; apply in_seq in Hi; apply H; lia).
  induction (seq 0 n) as [|a l IH]; constructor; [apply G; now left|apply IH; intros i Hi; apply G; now right].
Qed.

Lemma sum_rel : forall o n (x : nat -> double) X k r, order_ok o -> INR n <= b2 20 -> few k -> (0 <= r <= 950)%Z -> (forall i, (i < n)%nat -> rel k r (x i) (X i) /\ 0 <= X i) ->
  rel (k + 2 * n) (r + 20) (sum_d o (tab n x)) (total n X).
Proof.
  intros o n x X k r O Hn Hk Hr H. pose proof (rel_sum o (tab n x) (map X (seq 0 n)) k r O) as S. rewrite tab_length in S.
  apply S; auto; try lia; [apply Forall2_tab; intros; now apply H|]. intros Y HY. apply in_map_iff in HY. destruct HY as (i & <- & Hi). apply in_seq in Hi. apply H. lia.
Qed.

Lemma total_pos : forall n X, (forall i, (i < n)%nat -> 0 <= X i) -> 0 <= total n X.
Proof. intros n X H. rewrite total_sum. unfold sum_upto. apply Rsum_nonneg. intros y Hy. apply in_map_iff in Hy. destruct Hy as (i & <- & Hi). apply in_seq in Hi. apply H. lia. Qed.

Lemma var_entry : forall p a s, sized (-100) 100 p -> sized (-100) 100 a -> val a <> 0 -> sized (-100) 100 s -> rel 6 400 (dmul (ddiv p a) (sq s)) (val p / val a * val s ^ 2).
Proof.
  intros p a s Hp Ha Na Hs. pose proof (rel_div 0 0 100 100 p a _ _ (few_small 0 ltac:(lia)) (few_small 0 ltac:(lia)) ltac:(lia) ltac:(lia) ltac:(lia) (sized_rel 100 p Hp) (sized_rel 100 a Ha) Na) as R1.
  pose proof (rel_sq 0 100 s _ (few_small 0 ltac:(lia)) ltac:(lia) ltac:(lia) (sized_rel 100 s Hs)) as R2.
  exact (rel_mul 2 2 200 200 _ _ _ _ (few_small 2 ltac:(lia)) (few_small 2 ltac:(lia)) ltac:(lia) ltac:(lia) ltac:(lia) R1 R2).
Qed.

Lemma var_entry_w : forall p a w s, sized (-100) 100 p -> sized (-100) 100 a -> val a <> 0 -> sized (-100) 100 w -> sized (-100) 100 s ->
  rel 10 600 (dmul (ddiv p a) (sq (dmul w s))) (val p / val a * (val w * val s) ^ 2).
Proof.
  intros p a w s Hp Ha Na Hw Hs. pose proof (rel_div 0 0 100 100 p a _ _ (few_small 0 ltac:(lia)) (few_small 0 ltac:(lia)) ltac:(lia) ltac:(lia) ltac:(lia) (sized_rel 100 p Hp) (sized_rel 100 a Ha) Na) as R1.
  pose proof (rel_mul 0 0 100 100 w s _ _ (few_small 0 ltac:(lia)) (few_small 0 ltac:(lia)) ltac:(lia) ltac:(lia) ltac:(lia) (sized_rel 100 w Hw) (sized_rel 100 s Hs)) as R0.
  pose proof (rel_sq 2 200 _ _ (few_small 2 ltac:(lia)) ltac:(lia) ltac:(lia) R0) as R2.
  exact (rel_mul 2 6 200 400 _ _ _ _ (few_small 2 ltac:(lia)) (few_small 6 ltac:(lia)) ltac:(lia) ltac:(lia) ltac:(lia) R1 R2).
Qed.

Lemma var_pos : forall p a s, 0 <= p -> 0 < a -> 0 <= p / a * s ^ 2.
Proof. intros p a s Hp Ha. apply Rmult_le_pos; [apply Rmult_le_pos; [exact Hp|left; now apply Rinv_0_lt_compat]|apply pow2_ge_0]. Qed.

Lemma count_rel : forall n, (1 <= n)%nat -> INR n <= b2 20 -> rel 0 20 (dint (Z.of_nat n)) (INR n).
Proof.
  intros n H1 Hn. destruct (count_ok n Hn) as [F V]. pose proof (INR_b n H1). pose proof (rel_exact 20 _ F) as R. rewrite V in R. apply R. right. rewrite Rabs_pos_eq by lra. split; [|exact Hn].
  apply Rle_trans with (b2 0); [apply bpow_le; lia|change (b2 0) with 1; lra].
Qed.

Lemma radial_error : forall o n (x : nat -> double) X, order_ok o -> (1 <= n)%nat -> INR n <= b2 20 -> (forall i, (i < n)%nat -> rel 6 400 (x i) (X i) /\ 0 <= X i) ->
  rel (n + 7) 230 (dsqrt (ddiv (sum_d o (tab n x)) (sq (dint (Z.of_nat n))))) (sqrt (total n X) / INR n).
Proof.
  intros o n x X O H1 Hn H. pose proof (sum_rel o n x X 6 400 O Hn (few_small 6 ltac:(lia)) ltac:(lia) H) as RS. pose proof (count_rel n H1 Hn) as RN. pose proof (INR_b n H1) as B1.
  pose proof (rel_sq 0 20 _ _ (few_small 0 ltac:(lia)) ltac:(lia) ltac:(lia) RN) as RQ. assert (NZ : INR n ^ 2 <> 0) by (apply pow_nonzero; lra).
  pose proof (rel_div (6 + 2 * n) 2 420 40 _ _ _ _ (few_n n (6 + 2 * n) Hn ltac:(lia)) (few_small 2 ltac:(lia)) ltac:(lia) ltac:(lia) ltac:(lia) RS RQ NZ) as RD.
  assert (TP : 0 <= total n X) by (apply total_pos; intros; now apply H).
  replace (sqrt (total n X) / INR n) with (sqrt (total n X / INR n ^ 2)).
  - replace (n + 7)%nat with (n + 5 + 2)%nat by lia. apply rel_sqrt; [apply (few_n n); [exact Hn|lia]|lia|apply Rmult_le_pos; [exact TP|left; apply Rinv_0_lt_compat; nra]|].
    replace (n + 5 + (n + 5))%nat with (6 + 2 * n + 2 + 2)%nat by lia. exact RD.
  - rewrite sqrt_div by (try exact TP; nra). f_equal. apply sqrt_pow2. lra.
Qed.

Lemma radial_error_w : forall o n (x w : nat -> double) X, order_ok o -> INR n <= b2 20 -> (forall i, (i < n)%nat -> rel 10 600 (x i) (X i) /\ 0 <= X i) ->
  (forall i, (i < n)%nat -> sized (-100) 100 (w i) /\ 0 <= val (w i)) -> total n (fun i => val (w i)) <> 0 ->
  rel (3 * n + 9) 430 (dsqrt (ddiv (sum_d o (tab n x)) (sq (sum_d o (tab n w))))) (sqrt (total n X) / total n (fun i => val (w i))).
Proof.
  intros o n x w X O Hn H Hw NZ. pose proof (sum_rel o n x X 10 600 O Hn (few_small 10 ltac:(lia)) ltac:(lia) H) as RS.
  assert (RW : rel (0 + 2 * n) (100 + 20) (sum_d o (tab n w)) (total n (fun i => val (w i)))).
  { apply sum_rel; auto; [apply few_small; lia|lia|]. intros i Hi. destruct (Hw i Hi) as [S P]. split; [now apply sized_rel|exact P]. }
  pose proof (rel_sq (2 * n) 120 _ _ (few_n n (2 * n) Hn ltac:(lia)) ltac:(lia) ltac:(lia) RW) as RQ.
  assert (TP : 0 <= total n X) by (apply total_pos; intros; now apply H). assert (WP : 0 <= total n (fun i => val (w i))) by (apply total_pos; intros; now apply Hw).
  set (W := total n (fun i => val (w i))) in *. assert (NZ2 : W ^ 2 <> 0) by (now apply pow_nonzero).
  pose proof (rel_div (10 + 2 * n) (2 * n + 2 * n + 2) 620 240 _ _ _ _ (few_n n (10 + 2 * n) Hn ltac:(lia)) (few_n n (2 * n + 2 * n + 2) Hn ltac:(lia)) ltac:(lia) ltac:(lia) ltac:(lia) RS RQ NZ2) as RD.
  replace (sqrt (total n X) / W) with (sqrt (total n X / W ^ 2)).
  - replace (3 * n + 9)%nat with (3 * n + 7 + 2)%nat by lia. apply rel_sqrt; [apply (few_n n); [exact Hn|lia]|lia|apply Rmult_le_pos; [exact TP|left; apply Rinv_0_lt_compat; nra]|].
    replace (3 * n + 7 + (3 * n + 7))%nat with (10 + 2 * n + (2 * n + 2 * n + 2) + 2)%nat by lia. exact RD.
  - rewrite sqrt_div by (try exact TP; nra). f_equal. apply sqrt_pow2. lra.
Qed.

(** ** Areas *)

Lemma around_lin : forall m q, few m -> Rabs (q - 1) <= INR m * u -> around (2 * m) q.
Proof.
  intros m q Hm H. apply Rabs_le_inv in H. pose proof u_pos as U. pose proof (pos_INR m) as Pm.
  assert (MU : INR m * u <= / 1048576).
  { apply Rle_trans with (b2 30 * u); [apply Rmult_le_compat_r; [lra|exact Hm]|]. unfold u. rewrite <- bpow_plus. change (/ 1048576) with (b2 (-20)). apply bpow_le. lia. }
  assert (PL : forall k, 1 + INR k * u <= (1 + u) ^ k).
  { intros k. induction k as [|k IH]; [cbn; lra|]. rewrite S_INR. cbn [pow]. pose proof (pos_INR k). nra. }
  pose proof (PL (2 * m)%nat) as L. rewrite mult_INR in L. replace (INR 2) with 2 in L by (cbn; ring).
  split; [lra|]. split; [nra|]. apply Rle_trans with (2 := L). apply Rmult_le_reg_r with q; [lra|]. rewrite Rinv_l by lra. nra.
Qed.

Lemma pi_rel : rel 1 2 pi_d PI.
Proof.
  destruct pi_val as [F V]. pose proof pi_accuracy as [A1 A2]. pose proof tau_bounds as T. split; [exact F|]. pose proof u_pos as U. split.
  - exists (val pi_d / PI). rewrite V. assert (PP : 3 < PI) by lra. split; [|field; lra].
    assert (B : b2 (-52) = 2 * u) by (unfold u; change (-52)%Z with (1 + -53)%Z; rewrite bpow_plus; reflexivity).
    split; [apply Rdiv_lt_0_compat; lra|]. cbn [pow]. split.
    + apply Rmult_le_reg_r with PI; [lra|]. unfold Rdiv. rewrite Rmult_assoc, Rinv_l by lra. nra.
    + rewrite Rinv_div. apply Rmult_le_reg_r with (tau / 2); [lra|]. unfold Rdiv at 1. rewrite Rmult_assoc, Rinv_l by lra. nra.
  - right. rewrite Rabs_pos_eq by lra. change (- (2))%Z with (-2)%Z. change (b2 (-2)) with (/ 4). change (b2 2) with 4. pose proof PI_4. lra.
Qed.

Lemma twopi_rel : rel 1 3 twopi (2 * PI).
Proof.
  destruct twopi_val as [F V]. destruct pi_rel as (_ & (t & A & E) & R). destruct pi_val as [_ V']. split; [exact F|]. split.
  - exists t. split; [exact A|]. rewrite V. rewrite V' in E. lra.
  - right. pose proof pi_accuracy as [A1 A2]. pose proof tau_bounds as T. pose proof PI_4. rewrite Rabs_pos_eq by lra. change (b2 3) with 8. split; [|lra].
    apply Rle_trans with (b2 0); [apply bpow_le; lia|change (b2 0) with 1; lra].
Qed.

(** The difference of the squares of two radii, with the cancellation bounded by
    [K]. *)
Lemma ring_rel : forall a b K, mild a -> mild b -> 0 <= val a < val b -> (1 <= K)%nat -> INR K <= b2 20 -> val b <= INR K * (val b - val a) ->
  rel (2 * K + 2) 100 (dsub (sq b) (sq a)) (val b ^ 2 - val a ^ 2).
Proof.
  intros a b K Ma Mb HAB H1 HK HB. pose proof u_pos as U. pose proof (INR_b K H1) as B1.
  assert (SQ : forall x, mild x -> fin (sq x) /\ Rabs (val (sq x) - val x ^ 2) <= u * val x ^ 2 /\ fmt (val (sq x)) /\ Rabs (val (sq x)) <= b2 101).
  { intros x [F R]. assert (Bx : Rabs (val x * val x) <= b2 100).
    { rewrite Rabs_mult. change 100%Z with (50 + 50)%Z. rewrite bpow_plus. pose proof (bpow_gt_0 radix2 50). assert (Rabs (val x) <= b2 50) by (destruct R as [-> |R]; [rewrite Rabs_R0; lra|lra]). apply Rmult_le_compat; auto; apply Rabs_pos. }
    destruct (dmul_ok x x F F) as [Fq Vq]; [apply Rle_lt_trans with (b2 100); [apply fl_big; [lia|exact Bx]|apply bpow_lt; lia]|]. fold (sq x) in Fq, Vq.
    split; [exact Fq|]. split; [|split; [apply fmt_val|rewrite Vq; apply Rle_trans with (b2 100); [apply fl_big; [lia|exact Bx]|apply bpow_le; lia]]].
    rewrite Vq. replace (val x ^ 2) with (val x * val x) by ring. destruct R as [E|[R1 R2]]; [rewrite E, Rmult_0_l, fl_0, Rminus_diag_eq, Rabs_R0 by reflexivity; lra|].
    apply fl_rel. assert (E : val x * val x = Rabs (val x) * Rabs (val x)) by (rewrite <- Rabs_mult, Rabs_pos_eq by (apply Rle_0_sqr); reflexivity). apply Rle_trans with (Rabs (val x) * Rabs (val x)); [|lra].
    apply Rle_trans with (b2 (-40) * b2 (-40)); [rewrite <- bpow_plus; apply bpow_le; lia|pose proof (bpow_gt_0 radix2 (-40)); apply Rmult_le_compat; lra]. }
  destruct (SQ a Ma) as (Fa & Ea & Ta & Ba). destruct (SQ b Mb) as (Fb & Eb & Tb & Bb). clear SQ.
  set (A := val a) in *. set (B := val b) in *. set (D := B ^ 2 - A ^ 2). set (D' := val (sq b) - val (sq a)).
  assert (BD : B * (B + A) <= INR K * D).
  { replace (INR K * D) with (INR K * (B - A) * (B + A)) by (unfold D; ring). apply Rmult_le_compat_r; lra. }
  assert (PD : 0 < D) by (unfold D; nra).
  assert (ED : Rabs (D' / D - 1) <= INR K * u).
  { replace (D' / D - 1) with ((D' - D) * / D) by (field; lra). rewrite Rabs_mult, (Rabs_pos_eq (/ D)) by (left; now apply Rinv_0_lt_compat).
    apply Rmult_le_reg_r with D; [exact PD|]. rewrite Rmult_assoc, Rinv_l, Rmult_1_r by lra.
    replace (D' - D) with ((val (sq b) - B ^ 2) - (val (sq a) - A ^ 2)) by (unfold D', D; ring). apply Rle_trans with (Rabs (val (sq b) - B ^ 2) + Rabs (val (sq a) - A ^ 2)).
    - unfold Rminus at 1. apply Rle_trans with (1 := Rabs_triang _ _). rewrite Rabs_Ropp. lra.
    - apply Rle_trans with (u * (B * (B + A))).
      + apply Rle_trans with (1 := Rplus_le_compat _ _ _ _ Eb Ea). rewrite <- Rmult_plus_distr_l. apply Rmult_le_compat_l; [lra|]. assert (A * A <= B * A) by (apply Rmult_le_compat_r; lra). replace (B ^ 2 + A ^ 2) with (B * B + A * A) by ring. lra.
      + replace (INR K * u * D) with (u * (INR K * D)) by ring. apply Rmult_le_compat_l; lra. }
  assert (FK : few K) by (unfold few; apply Rle_trans with (1 := HK); apply bpow_le; lia).
  destruct (add_around (val (sq b)) (- val (sq a)) Tb (generic_format_opp _ _ _ Ta)) as (t & At & Et). fold D' in Et. change (val (sq b) + - val (sq a)) with D' in Et.
  destruct (dsub_ok (sq b) (sq a) Fb Fa) as [F V].
  { fold D'. apply Rle_lt_trans with (b2 102); [apply fl_big; [lia|]|apply bpow_lt; lia]. unfold D', Rminus. apply Rle_trans with (1 := Rabs_triang _ _). rewrite Rabs_Ropp.
    change 102%Z with (1 + 101)%Z. rewrite bpow_plus. change (b2 1) with 2. lra. }
  fold D' in V. split; [exact F|]. split.
  - exists (D' / D * t). split; [apply around_mul; [now apply around_lin|exact At]|]. rewrite V, Et. field. lra.
  - right. fold D. rewrite Rabs_pos_eq by lra. assert (RB : b2 (-40) <= B <= b2 50).
    { destruct Mb as [_ [E|R]]; [fold B in E; lra|]. fold B in R. rewrite Rabs_pos_eq in R by lra. exact R. }
    pose proof (bpow_gt_0 radix2 (-40)) as P40. split.
    + apply Rmult_le_reg_l with (INR K); [lra|]. apply Rle_trans with (b2 20 * b2 (- (100))); [apply Rmult_le_compat_r; [apply bpow_ge_0|exact HK]|]. apply Rle_trans with (B * (B + A)); [|exact BD].
      rewrite <- bpow_plus. change (20 + - (100))%Z with (-40 + -40)%Z. rewrite bpow_plus. apply Rmult_le_compat; lra.
    + apply Rle_trans with (b2 50 * b2 50); [|rewrite <- bpow_plus; apply bpow_le; lia]. apply Rle_trans with (B * B); [unfold D; nra|apply Rmult_le_compat; lra].
Qed.

Lemma area_rel : forall a b K, mild a -> mild b -> 0 <= val a < val b -> (1 <= K)%nat -> INR K <= b2 20 -> val b <= INR K * (val b - val a) ->
  rel (2 * K + 5) 102 (dmul pi_d (dsub (sq b) (sq a))) (PI * (val b ^ 2 - val a ^ 2)).
Proof.
  intros a b K Ma Mb HAB H1 HK HB. pose proof (ring_rel a b K Ma Mb HAB H1 HK HB) as R.
  replace (2 * K + 5)%nat with (1 + (2 * K + 2) + 2)%nat by lia. apply (rel_mul 1 (2 * K + 2) 2 100); auto; try lia; [apply few_small; lia|apply (few_n K); [exact HK|lia]|exact pi_rel].
Qed.
