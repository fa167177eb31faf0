(** * [MOneDDouble.v]: the errors, at most one edge in the new bin *)

From Coq Require Import Reals ZArith List Bool Lia Lra Psatz.
From Flocq Require Import Core IEEE754.BinarySingleNaN.
From Verif Require Import Base BaseP SpecGrid SpecRebin MGrids MUtils MOneD PGrids PUtils PPolarCoords POneD POneD2 POneD3.
From Verif Require Import MHealpixFloat PHealpixFloat SpecDouble MDouble PDouble MRemapDouble MGridsDouble PGridsDouble MSumDouble PSumDouble PDenseDouble PRemap2 PRadial
  SpecRebinDouble MOneDDouble PRebinDouble PRebinDouble2 PRebinDouble3 PRebinDouble4 SpecSigmaDouble PSigmaDouble PSigmaDouble2 PSigmaDouble3 PSigma.
Import ListNotations.
Open Scope R_scope.

(** ** Values that are not finite *)

Lemma zero_shape : forall x : double, fin x -> val x = 0 -> exists b, x = B754_zero b.
Proof.
  intros x F V. destruct x as [b|b| |b m e B]; try discriminate; [now exists b|]. exfalso. apply (f_equal Rabs) in V. unfold val in V. cbn in V. rewrite Rabs_R0, <- F2R_Zabs in V.
  apply eq_0_F2R in V. destruct b; discriminate.
Qed.

Lemma div_by_zero : forall x y : double, fin y -> val y = 0 -> is_finite (ddiv x y) = false.
Proof. intros x y F V. destruct (zero_shape y F V) as (b & ->). destruct x as [c|c| |c m e B]; reflexivity. Qed.

Lemma mul_not_finite : forall x y : double, is_finite y = false -> is_finite (dmul x y) = false.
Proof. intros x y H. destruct y as [b|b| |b m e B]; try discriminate; destruct x as [c|c| |c m' e' B']; reflexivity. Qed.

Lemma sqrt_not_finite : forall x : double, is_finite x = false -> is_finite (dsqrt x) = false.
Proof. intros x H. destruct x as [b|b| |b m e B]; try discriminate; [destruct b; reflexivity|reflexivity]. Qed.

Lemma pos_gap : forall a b, a <= b -> b - a <> 0 -> 0 < b - a.
Proof. intros a b H N. lra. Qed.

Lemma squeeze : forall a b c, a <= b -> b <= c -> a = c -> b - a = 0 /\ c - b = 0.
Proof. intros a b c H K E. lra. Qed.

Lemma zero_quot : forall a b, a = 0 -> a / b = 0.
Proof. intros a b ->. unfold Rdiv. ring. Qed.

Section Compare.
Variables (o : nat -> tree) (e s : list double) (n lo hi : nat) (bmin bmax : double).
Hypothesis O : order_ok o.
Hypothesis Me : forall x, In x e -> mild x.
Hypothesis Ma : mild bmin.
Hypothesis Mb : mild bmax.
Hypothesis HI : increasing (map val e).
Hypothesis He : length e = S n.
Hypothesis Hn : (2 <= n)%nat.
Hypothesis Hn19 : INR n <= b2 19.
Hypothesis Hs : length s = n.
Hypothesis Ms : forall x, In x s -> sized (- (60)) 60 x.
Hypothesis HL : located (map val e) lo hi (val bmin) (val bmax).

Let LV : length (map val e) = S n := len_val e n He.
Let LS : length (map val s) = n. Proof. rewrite map_length. exact Hs. Qed.
Let Fe : all_fin e. Proof. intros x Hx. apply Me, Hx. Qed.
Let ME : forall i, mild (nth i e dzero) := mild_nth e Me.
Let Hn1 : (1 <= n)%nat. Proof. clear - Hn. lia. Qed.
Let Fa : fin bmin := proj1 Ma.
Let Fb : fin bmax := proj1 Mb.

Notation Agree := (agree o e s n bmin bmax).
Notation Neither := (neither o e s bmin bmax).

(** A bin of the old grid stretched or shrunk to another length. *)
Lemma part_case : forall i a b, (i < n)%nat -> mild a -> mild b -> val b <= val a ->
  rebin_1d_single_bin_sigma_d o e s bmin bmax = Ok (sigma_part_d (nth i s dzero) (blen_d e i) (dsub a b)) ->
  rebin_1d_single_bin_sigma (map val e) (map val s) (val bmin) (val bmax) = Ok (sigma_part (val (nth i s dzero)) (bin_length (map val e) i) (val a - val b)) ->
  Agree \/ Neither.
Proof.
  intros i a b Hi Ha Hb L D R. pose proof (blen_pos e n HI He i Hi) as PL. destruct (Req_dec (val a - val b) 0) as [Z|NZ].
  - right. eexists. split; [exact D|]. split.
    + unfold sigma_part_d. apply sqrt_not_finite, mul_not_finite, div_by_zero; [apply (rel_sub a b Ha Hb)|]. apply (rel_0 _ _ _ _ (rel_sub a b Ha Hb)). exact Z.
    + rewrite R. unfold sigma_part, fdiv. rewrite Z, Req_bool_true by reflexivity. reflexivity.
  - left. assert (P : 0 < val a - val b) by lra. set (S := val (nth i s dzero)) in *. set (Q := bin_length (map val e) i / (val a - val b)).
    assert (PQ : 0 < Q) by (apply Rdiv_lt_0_compat; assumption).
    assert (PX : 0 <= S ^ 2 * Q) by (apply Rmult_le_pos; [apply pow2_ge_0|lra]).
    exists (sigma_part_d (nth i s dzero) (blen_d e i) (dsub a b)), (sqrt (S ^ 2 * Q)), 7%nat. split; [lia|]. split; [exact D|]. split.
    + rewrite R. unfold sigma_part. rewrite fdiv_ok by exact NZ. cbn [nmul nsqrt]. unfold np_sqrt. fold Q. rewrite Rlt_bool_f by exact PX. reflexivity.
    + split; [|split; [apply sqrt_pos|]].
      * unfold sigma_part_d. apply (rel_sqrt 5 448); [apply few_small; lia|lia|exact PX|].
        apply (rel_weaken (2 + 6 + 2) _ (120 + 143)); [lia|lia|]. apply rel_mul; try (apply few_small; lia); try lia.
        -- apply (rel_sq 0 60); [apply few_small; lia|lia|lia|]. apply s_rel. exact Ms.
        -- apply (ratio_rel e n); auto.
      * intros NS. apply Rgt_not_eq, sqrt_lt_R0, Rmult_lt_0_compat; [|exact PQ]. apply square_pos. apply NS. apply nth_In. apply (Nat.lt_le_trans _ n); [exact Hi|]. apply Nat.eq_le_incl. symmetry. exact Hs.
Qed.

Lemma get_len_d : forall z, (0 <= z < Z.of_nat n)%Z -> py_get (bin_lengths_d e) z = Ok (blen_d e (Z.to_nat z)).
Proof. intros z H. rewrite (py_get_ok _ _ _ dzero) by (rewrite (length_bin_lengths_d e n He); exact H). rewrite (nth_bin_lengths_d e n) by (exact He || lia). reflexivity. Qed.

Lemma sigma_0_in_d : lo = hi -> (1 <= lo <= n)%nat ->
  rebin_1d_single_bin_sigma_d o e s bmin bmax = Ok (sigma_part_d (nth (lo - 1) s dzero) (blen_d e (lo - 1)) (dsub bmax bmin)).
Proof.
  intros H1 H2. unfold rebin_1d_single_bin_sigma_d. rewrite (E_d e lo hi bmin bmax) by assumption. rewrite H1, Nat.sub_diag. cbn [length seq].
  rewrite (EA_d e lo hi bmin bmax) by assumption. rewrite seq_length.
  destruct (Nat.eqb_spec (length e - lo) 0) as [|_]; [unfold double in *; lia|].
  destruct (Nat.eqb_spec (length e - lo) (length e)) as [|_]; [unfold double in *; lia|]. cbn [negb andb].
  rewrite zget_seq_0 by (unfold double in *; lia). cbn [bind]. rewrite (py_get_ok _ _ _ dzero) by (unfold double in *; lia). cbn [bind]. rewrite get_len_d by lia. cbn [bind].
  replace (Z.to_nat (Z.of_nat lo - 1)) with (lo - 1)%nat by lia. rewrite H1. reflexivity.
Qed.

Lemma sigma_0_out_d : lo = hi -> (lo = 0 \/ lo = S n)%nat -> rebin_1d_single_bin_sigma_d o e s bmin bmax = Ok dnan.
Proof.
  intros H1 H2. unfold rebin_1d_single_bin_sigma_d. rewrite (E_d e lo hi bmin bmax) by assumption. rewrite H1, Nat.sub_diag. cbn [length seq].
  rewrite (EA_d e lo hi bmin bmax) by assumption. rewrite seq_length.
  destruct (Nat.eqb_spec (length e - lo) 0) as [|Hx]; [reflexivity|].
  destruct (Nat.eqb_spec (length e - lo) (length e)) as [|Hy]; [reflexivity|]. unfold double in *. lia.
Qed.

Lemma sigma_1_first_d : hi = 1%nat -> lo = 0%nat ->
  rebin_1d_single_bin_sigma_d o e s bmin bmax = Ok (sigma_part_d (nth 0 s dzero) (blen_d e 0) (dsub bmax (nth 0 e dzero))).
Proof.
  intros H1 H2. unfold rebin_1d_single_bin_sigma_d. rewrite (E_d e lo hi bmin bmax) by assumption. rewrite H1, H2. cbn [length seq Nat.sub].
  change (zget [0%nat] 0) with (Ok 0%Z). cbn [bind]. change (0 <? 0)%Z with false. change (0 =? 0)%Z with true. cbn [andb].
  rewrite (py_get_ok _ e 0 dzero) by (unfold double in *; lia). rewrite (py_get_ok _ s 0 dzero) by (unfold double in *; lia). rewrite get_len_d by lia. reflexivity.
Qed.

Lemma sigma_1_last_d : hi = S n -> lo = n ->
  rebin_1d_single_bin_sigma_d o e s bmin bmax = Ok (sigma_part_d (nth (n - 1) s dzero) (blen_d e (n - 1)) (dsub (nth n e dzero) bmin)).
Proof.
  intros H1 H2. unfold rebin_1d_single_bin_sigma_d. rewrite (E_d e lo hi bmin bmax) by assumption. rewrite H1, H2.
  replace (S n - n)%nat with 1%nat by lia. cbn [length seq]. unfold zget. change (py_get [n] 0) with (Ok n). cbn [bind].
  replace (Z.of_nat n <? Z.of_nat (length e) - 1)%Z with false by (symmetry; apply Z.ltb_ge; unfold double in *; lia).
  rewrite andb_false_r. replace (Z.of_nat n =? 0)%Z with false by (symmetry; apply Z.eqb_neq; lia).
  rewrite (get_wrap_d e (S n)) by (exact He || lia). rewrite (get_wrap_d s n) by (exact Hs || lia). rewrite (get_wrap_d (bin_lengths_d e) n) by (apply (length_bin_lengths_d e n He) || lia).
  cbn [bind]. unfold wrap. change (-1 <? 0)%Z with true. cbn iota. change (Z.to_nat (- -1)) with 1%nat. rewrite (nth_bin_lengths_d e n) by (exact He || lia). replace (S n - 1)%nat with n by lia. reflexivity.
Qed.

Lemma sigma_1_mid_d : hi = S lo -> (1 <= lo < n)%nat ->
  rebin_1d_single_bin_sigma_d o e s bmin bmax =
  Ok (let l1 := dsub (nth lo e dzero) bmin in let l2 := dsub bmax (nth lo e dzero) in
      let a1 := if negb (deq l1 dzero) then dmul (ddiv (blen_d e (lo - 1)) l1) (sq (dmul (u1_d e lo bmin) (nth (lo - 1) s dzero))) else dzero in
      let a2 := if negb (deq l2 dzero) then dadd a1 (dmul (ddiv (blen_d e lo) l2) (sq (dmul (u2_d e lo bmax) (nth lo s dzero)))) else a1 in
      dsqrt (ddiv a2 (sq (dadd (u1_d e lo bmin) (u2_d e lo bmax))))).
Proof.
  intros H1 H2. unfold rebin_1d_single_bin_sigma_d. rewrite (E_d e lo hi bmin bmax) by assumption. rewrite H1.
  replace (S lo - lo)%nat with 1%nat by lia. cbn [length seq]. unfold zget. change (py_get [lo] 0) with (Ok lo). cbn [bind].
  replace (0 <? Z.of_nat lo)%Z with true by (symmetry; apply Z.ltb_lt; lia).
  replace (Z.of_nat lo <? Z.of_nat (length e) - 1)%Z with true by (symmetry; apply Z.ltb_lt; unfold double in *; lia). cbn [andb].
  rewrite !(py_get_ok _ e _ dzero), !(py_get_ok _ s _ dzero), !get_len_d by (unfold double in *; lia). cbn [bind]. rewrite Nat2Z.id.
  replace (Z.to_nat (Z.of_nat lo - 1)) with (lo - 1)%nat by lia. replace (Z.to_nat (Z.of_nat lo + 1)) with (lo + 1)%nat by lia. cbv zeta.
  unfold u1_d, u2_d. destruct (deq (dsub (nth lo e dzero) bmin) dzero); cbn [negb bind]; destruct (deq (dsub bmax (nth lo e dzero)) dzero); reflexivity.
Qed.

Lemma compare_mid : hi = S lo -> (1 <= lo < n)%nat -> Agree \/ Neither.
Proof.
  intros H1 H2. pose proof (sigma_1_mid_d H1 H2) as D. cbv zeta in D.
  pose proof (above_min_e (map val e) n lo hi (val bmin) (val bmax) LV Hn1 HL lo ltac:(lia)) as A1. pose proof (below_max_e (map val e) n lo hi (val bmin) (val bmax) LV Hn1 HL lo ltac:(lia)) as A2.
  rewrite nth_val in A1, A2. pose proof (inc_val e s n HI He Hn Hs (lo - 1) lo ltac:(lia)) as I1. pose proof (inc_val e s n HI He Hn Hs lo (lo + 1) ltac:(lia)) as I2.
  pose proof (rel_quot (nth lo e dzero) bmin (nth lo e dzero) (nth (lo - 1) e dzero) (ME _) Ma (ME _) (ME _) (gap_ne _ _ I1)) as R1.
  pose proof (rel_quot bmax (nth lo e dzero) (nth (lo + 1) e dzero) (nth lo e dzero) Mb (ME _) (ME _) (ME _) (gap_ne _ _ I2)) as R2.
  fold (u1_d e lo bmin) in R1. fold (u2_d e lo bmax) in R2.
  assert (U1 : u1 (map val e) lo (val bmin) = (val (nth lo e dzero) - val bmin) / (val (nth lo e dzero) - val (nth (lo - 1) e dzero))) by (unfold u1; rewrite !nth_val; reflexivity).
  assert (U2 : u2 (map val e) lo (val bmax) = (val bmax - val (nth lo e dzero)) / (val (nth (lo + 1) e dzero) - val (nth lo e dzero))) by (unfold u2; rewrite !nth_val; reflexivity).
  rewrite <- U1 in R1. rewrite <- U2 in R2.
  assert (P1 : 0 <= u1 (map val e) lo (val bmin)) by (rewrite U1; apply Rmult_le_pos; [apply Rle_0_minus in A1; exact A1|left; apply Rinv_0_lt_compat, gap_pos; exact I1]).
  assert (P2 : 0 <= u2 (map val e) lo (val bmax)) by (rewrite U2; apply Rmult_le_pos; [apply Rle_0_minus in A2; exact A2|left; apply Rinv_0_lt_compat, gap_pos; exact I2]).
  pose proof (rel_add 6 143 _ _ _ _ (few_small 6 ltac:(lia)) ltac:(lia) R1 R2 P1 P2) as RW.
  pose proof (rel_sq 10 163 _ _ (few_small 10 ltac:(lia)) ltac:(lia) ltac:(lia) RW) as RS.
  pose proof (rel_sub (nth lo e dzero) bmin (ME _) Ma) as RL1. pose proof (rel_sub bmax (nth lo e dzero) Mb (ME _)) as RL2.
  assert (EZ : forall x X, rel 2 92 x X -> deq x dzero = Req_bool X 0).
  { intros x X R. rewrite deq_ok by (apply R || reflexivity). change (val dzero) with 0. pose proof (rel_0 _ _ _ _ R) as Z.
    destruct (Req_bool_spec X 0) as [Q|Q]; [apply Req_bool_true; tauto|apply Req_bool_false; tauto]. }
  rewrite (EZ _ _ RL1), (EZ _ _ RL2) in D.
  destruct (Rle_lt_or_eq_dec _ _ (Rle_trans _ _ _ A1 A2)) as [B|B].
  - left. destruct (sigma_1_mid (map val e) n lo hi (val bmin) (val bmax) HI LV Hn1 HL (map val s) LS H1 H2 B) as [R SP].
    eexists _, _, 29%nat. split; [lia|]. split; [exact D|]. split; [exact R|].
    set (ps := part _ _ _ ++ part _ _ _) in *. unfold propagated.
    assert (S1 : (lo - 1 < n)%nat) by lia.
    assert (NS : forall i, (i < n)%nat -> (forall x, In x s -> val x <> 0) -> val (nth i s dzero) <> 0).
    { intros i Hi NS. apply NS, nth_In. apply (Nat.lt_le_trans _ n); [exact Hi|]. apply Nat.eq_le_incl. symmetry. exact Hs. }
    assert (Z1 : val (nth lo e dzero) - val bmin = 0 -> u1 (map val e) lo (val bmin) = 0) by (intros Q; rewrite U1; apply zero_quot; exact Q).
    assert (Z2 : val bmax - val (nth lo e dzero) = 0 -> u2 (map val e) lo (val bmax) = 0) by (intros Q; rewrite U2; apply zero_quot; exact Q).
    assert (SH : Rsum (map share ps) = u1 (map val e) lo (val bmin) + u2 (map val e) lo (val bmax)).
    { unfold ps, part. rewrite !nth_val. clear - Z1 Z2. unfold double in *. destruct (Req_EM_T (val (nth lo e dzero) - val bmin) 0) as [Q1|Q1]; destruct (Req_EM_T (val bmax - val (nth lo e dzero)) 0) as [Q2|Q2]; cbn [app map share]; rewrite ?Rsum_cons; change (Rsum []) with 0;
        try rewrite (Z1 Q1); try rewrite (Z2 Q2); ring. }
    set (NUM := Rsum (map (fun p => (share p * nth (bin p) (map val s) 0) ^ 2 * (bin_length (map val e) (bin p) / extent p)) ps)).
    assert (T1 : val (nth lo e dzero) - val bmin <> 0 -> rel 26 549 (dmul (ddiv (blen_d e (lo - 1)) (dsub (nth lo e dzero) bmin)) (sq (dmul (u1_d e lo bmin) (nth (lo - 1) s dzero))))
       (bin_length (map val e) (lo - 1) / (val (nth lo e dzero) - val bmin) * (u1 (map val e) lo (val bmin) * val (nth (lo - 1) s dzero)) ^ 2)).
    { intros Q. apply (rel_mul 6 18 143 406); try (apply few_small; lia); try lia; [apply (ratio_rel e n); auto|now apply (ws_rel e s n)]. }
    assert (T2 : val bmax - val (nth lo e dzero) <> 0 -> rel 26 549 (dmul (ddiv (blen_d e lo) (dsub bmax (nth lo e dzero))) (sq (dmul (u2_d e lo bmax) (nth lo s dzero))))
       (bin_length (map val e) lo / (val bmax - val (nth lo e dzero)) * (u2 (map val e) lo (val bmax) * val (nth lo s dzero)) ^ 2)).
    { intros Q. apply (rel_mul 6 18 143 406); try (apply few_small; lia); try lia; [apply (ratio_rel e n); auto; lia|now apply (ws_rel e s n)]. }
    assert (N1 : val (nth lo e dzero) - val bmin <> 0 -> 0 <= bin_length (map val e) (lo - 1) / (val (nth lo e dzero) - val bmin) * (u1 (map val e) lo (val bmin) * val (nth (lo - 1) s dzero)) ^ 2 /\
       ((forall x, In x s -> val x <> 0) -> 0 < bin_length (map val e) (lo - 1) / (val (nth lo e dzero) - val bmin) * (u1 (map val e) lo (val bmin) * val (nth (lo - 1) s dzero)) ^ 2)).
    { intros Q. assert (0 < bin_length (map val e) (lo - 1) / (val (nth lo e dzero) - val bmin)) by (apply Rdiv_lt_0_compat; [apply (blen_pos e n); auto|exact (pos_gap _ _ A1 Q)]).
      split; [apply Rmult_le_pos; [lra|apply pow2_ge_0]|]. intros X. apply Rmult_lt_0_compat; [assumption|]. apply square_pos, Rmult_integral_contrapositive. split; [|apply NS; auto].
      rewrite U1. apply Rmult_integral_contrapositive. split; [exact Q|apply Rinv_neq_0_compat, gap_ne; exact I1]. }
    assert (N2 : val bmax - val (nth lo e dzero) <> 0 -> 0 <= bin_length (map val e) lo / (val bmax - val (nth lo e dzero)) * (u2 (map val e) lo (val bmax) * val (nth lo s dzero)) ^ 2 /\
       ((forall x, In x s -> val x <> 0) -> 0 < bin_length (map val e) lo / (val bmax - val (nth lo e dzero)) * (u2 (map val e) lo (val bmax) * val (nth lo s dzero)) ^ 2)).
    { intros Q. assert (0 < bin_length (map val e) lo / (val bmax - val (nth lo e dzero))) by (apply Rdiv_lt_0_compat; [apply (blen_pos e n); auto; lia|exact (pos_gap _ _ A2 Q)]).
      split; [apply Rmult_le_pos; [lra|apply pow2_ge_0]|]. intros X. apply Rmult_lt_0_compat; [assumption|]. apply square_pos, Rmult_integral_contrapositive. split; [|apply NS; auto; lia].
      rewrite U2. apply Rmult_integral_contrapositive. split; [exact Q|apply Rinv_neq_0_compat, gap_ne; exact I2]. }
    match goal with |- matched _ _ (dsqrt (ddiv ?a _)) _ => assert (K : rel 30 569 a NUM /\ 0 <= NUM /\ ((forall x, In x s -> val x <> 0) -> 0 < NUM)) end.
    { unfold NUM, ps, part. rewrite !nth_val. clear - T1 T2 N1 N2 B. unfold double in *.
      destruct (Req_EM_T (val (nth lo e dzero) - val bmin) 0) as [Q1|Q1]; [rewrite (Req_bool_true _ _ Q1)|rewrite (Req_bool_false _ _ Q1); specialize (T1 Q1); specialize (N1 Q1)];
      (destruct (Req_EM_T (val bmax - val (nth lo e dzero)) 0) as [Q2|Q2]; [rewrite (Req_bool_true _ _ Q2)|rewrite (Req_bool_false _ _ Q2); specialize (T2 Q2); specialize (N2 Q2)]);
      cbn [negb app map share extent bin]; rewrite ?Rsum_cons; change (Rsum []) with 0; rewrite ?nth_val; rewrite ?(Rmult_comm (_ ^ 2)).
      - exfalso. lra.
      - rewrite Rplus_0_r. split; [|exact N2]. rewrite <- Rplus_0_l at 1. apply (rel_add 26 549); [apply few_small; lia|lia| |exact T2|lra|apply N2].
        split; [reflexivity|]. split; [exists 1; split; [apply around_1_0|cbn; ring]|now left].
      - rewrite Rplus_0_r. split; [|exact N1]. apply (rel_weaken 26 _ 549); [lia|lia|exact T1].
      - rewrite Rplus_0_r. split; [apply (rel_add 26 549); [apply few_small; lia|lia|exact T1|exact T2|apply N1|apply N2]|]. split; [|intros X]; destruct N1 as [N1 N1']; destruct N2 as [N2 N2']; [lra|]. specialize (N1' X). lra. }
    destruct K as (K1 & K2 & K3). rewrite SH in *.
    assert (DN : (u1 (map val e) lo (val bmin) + u2 (map val e) lo (val bmax)) ^ 2 <> 0) by (apply pow_nonzero; lra).
    assert (DP : 0 < / (u1 (map val e) lo (val bmin) + u2 (map val e) lo (val bmax)) ^ 2) by (apply Rinv_0_lt_compat, pow_lt; exact SP).
    pose proof (rel_div 30 22 569 326 _ _ _ _ (few_small 30 ltac:(lia)) (few_small 22 ltac:(lia)) ltac:(lia) ltac:(lia) ltac:(lia) K1 RS DN) as RQ.
    split; [|split; [apply sqrt_pos|]].
    + apply (rel_sqrt 27 448); [apply few_small; lia|lia|apply Rmult_le_pos; [exact K2|lra]|]. apply (rel_weaken (30 + 22 + 2) _ (569 + 326)); [lia|lia|exact RQ].
    + intros X. apply Rgt_not_eq, sqrt_lt_R0, Rmult_lt_0_compat; [now apply K3|exact DP].
  - right. assert (Z1 : val (nth lo e dzero) - val bmin = 0) by exact (proj1 (squeeze _ _ _ A1 A2 B)). assert (Z2 : val bmax - val (nth lo e dzero) = 0) by exact (proj2 (squeeze _ _ _ A1 A2 B)).
    eexists. split; [exact D|]. split; [|apply (sigma_1_touch (map val e) n lo hi (val bmin) (val bmax) HI LV Hn1 HL (map val s) LS H1 H2 B)].
    rewrite (Req_bool_true _ _ Z1), (Req_bool_true _ _ Z2). cbn [negb]. apply sqrt_not_finite, div_by_zero; [apply RS|].
    apply (rel_0 _ _ _ _ RS). rewrite U1, U2, !zero_quot by assumption. ring.
Qed.

Lemma compare : val bmin <= val bmax -> Agree \/ Neither.
Proof.
  intros B. assert (A : (lo <= hi <= S n)%nat) by (destruct HL as (A & _); rewrite LV in A; lia).
  destruct (Nat.le_gt_cases 2 (hi - lo)) as [K|K]; [left; apply (compare_several o e s n lo hi); auto|].
  destruct (Nat.eq_dec lo hi) as [E|E].
  - assert (C : (1 <= lo <= n \/ (lo = 0 \/ lo = S n))%nat) by lia. destruct C as [C|C].
    + apply (part_case (lo - 1) bmax bmin ltac:(lia) Mb Ma B); [now apply sigma_0_in_d|]. rewrite <- nth_val. apply (sigma_0_in (map val e) n lo hi); auto.
    + right. exists dnan. split; [now apply sigma_0_out_d|]. split; [reflexivity|]. apply (sigma_0_out (map val e) n lo hi); auto.
  - assert (H1 : hi = S lo) by lia. destruct (Nat.eq_dec lo 0) as [Z|Z]; [|destruct (Nat.eq_dec lo n) as [Z'|Z']].
    + apply (part_case 0 bmax (nth 0 e dzero) ltac:(lia) Mb (ME 0%nat)); [|apply sigma_1_first_d; lia|].
      * rewrite <- nth_val. apply (below_max_e (map val e) n lo hi (val bmin) (val bmax) LV Hn1 HL). lia.
      * rewrite <- !nth_val. apply (sigma_1_first (map val e) n lo hi); auto; lia.
    + apply (part_case (n - 1) (nth n e dzero) bmin ltac:(lia) (ME n) Ma); [|apply sigma_1_last_d; lia|].
      * rewrite <- nth_val. apply (above_min_e (map val e) n lo hi (val bmin) (val bmax) LV Hn1 HL). lia.
      * rewrite <- !nth_val. apply (sigma_1_last (map val e) n lo hi); auto; lia.
    + apply compare_mid; [exact H1|lia].
Qed.
End Compare.
