(** * [MOneDDouble.v]: the errors against exact arithmetic *)

From Coq Require Import Reals ZArith List Bool Lia Lra Psatz.
From Flocq Require Import Core IEEE754.BinarySingleNaN.
From Verif Require Import Base BaseP SpecGrid SpecRebin MGrids MUtils MOneD PGrids PUtils PPolarCoords POneD POneD2 POneD3.
From Verif Require Import MHealpixFloat PHealpixFloat SpecDouble MDouble PDouble MRemapDouble MGridsDouble PGridsDouble MSumDouble PSumDouble PDenseDouble PRemap2 PRadial
  SpecRebinDouble MOneDDouble PRebinDouble PRebinDouble2 PRebinDouble3 PRebinDouble4 SpecSigmaDouble PSigmaDouble PSigmaDouble2 PSigma.
Import ListNotations.
Open Scope R_scope.

Definition tr (t : dtrip) (T : trip) : Prop :=
  dz t = tz T /\ (exists a b, dl t = dsub a b /\ mild a /\ mild b /\ tl_ T = val a - val b) /\ (0 < tl_ T -> rel 6 143 (dw t) (tw T) /\ 0 < tw T).

Lemma dpos_pos : forall t T, tr t T -> dpos t = pos T.
Proof.
  intros t T (_ & (a & b & Ed & Ma & Mb & ET) & _). unfold dpos, pos. pose proof (rel_sub a b Ma Mb) as R. rewrite <- Ed, <- ET in R. pose proof (rel_pos _ _ _ _ R) as P. destruct R as (F & _). rewrite dlt_ok by (exact F || reflexivity).
  change (val dzero) with 0. destruct (Rlt_bool_spec 0 (tl_ T)) as [H|H]; [now apply Rlt_bool_t, P|]. apply Rlt_bool_f. apply Rnot_lt_le. intros X. apply P in X. lra.
Qed.

Lemma filter_tr : forall ts Ts, Forall2 tr ts Ts -> Forall2 (fun t T => tr t T /\ 0 < tl_ T) (filter dpos ts) (filter pos Ts).
Proof.
  intros ts Ts H. induction H as [|t T ts Ts R H IH]; [constructor|]. cbn [filter]. rewrite (dpos_pos t T R). destruct (pos T) eqn:P; [|exact IH]. constructor; [|exact IH].
  split; [exact R|]. unfold pos in P. destruct (Rlt_bool_spec 0 (tl_ T)); [assumption|discriminate].
Qed.

Lemma Forall2_map2 : forall A B C D (P : A -> B -> Prop) (Q : C -> D -> Prop) f g l m, Forall2 P l m -> (forall a b, In a l -> In b m -> P a b -> Q (f a) (g b)) -> Forall2 Q (map f l) (map g m).
Proof. intros A B C D P Q f g l m H. induction H; intros X; [constructor|]. cbn [map]. constructor; [apply X; [now left|now left|assumption]|]. apply IHForall2. intros. apply X; [now right|now right|assumption]. Qed.

Lemma Forall2_len : forall A B (P : A -> B -> Prop) l m, Forall2 P l m -> length l = length m.
Proof. intros A B P l m H. induction H; cbn; congruence. Qed.

Lemma nth_sized : forall lo hi l i, (forall x, In x l -> sized lo hi x) -> sized lo hi (nth i l dzero).
Proof. intros lo hi l i H. destruct (Nat.lt_ge_cases i (length l)) as [L|L]; [apply H, nth_In; exact L|]. rewrite nth_overflow by exact L. split; [reflexivity|]. now left. Qed.

Lemma Rsum_pos_in : forall A (f : A -> R) l a, (forall x, In x l -> 0 <= f x) -> In a l -> 0 < f a -> 0 < Rsum (map f l).
Proof.
  intros A f l a. induction l as [|b l IH]; intros H Ha P; [destruct Ha|]. cbn [map]. rewrite Rsum_cons.
  pose proof (Rsum_nonneg (map f l)) as N. assert (0 <= Rsum (map f l)) by (apply N; intros x Hx; apply in_map_iff in Hx; destruct Hx as (y & <- & Hy); apply H; now right).
  pose proof (H b (or_introl eq_refl)). destruct Ha as [->|Ha]; [lra|]. specialize (IH ltac:(intros; apply H; now right) Ha P). lra.
Qed.

Lemma filter_short : forall A (f : A -> bool) l, (length (filter f l) <= length l)%nat.
Proof. intros A f l. induction l as [|a l IH]; [apply le_n|]. cbn [filter length]. destruct (f a); cbn [length]; lia. Qed.

Lemma gap_ne : forall a b, a < b -> b - a <> 0.
Proof. intros a b H. lra. Qed.

Lemma gap_pos : forall a b, a < b -> 0 < b - a.
Proof. intros a b H. lra. Qed.

Lemma square_pos : forall x, x <> 0 -> 0 < x ^ 2.
Proof. intros x H. replace (x ^ 2) with (Rsqr x) by (unfold Rsqr; ring). now apply Rsqr_pos_lt. Qed.

(** A relation between a value with error and one without, and that the latter
    is not zero if no error in the data is. *)
Definition matched (k : nat) (s : list double) (q : double) (v : R) : Prop :=
  rel k 448 q v /\ 0 <= v /\ ((forall x, In x s -> val x <> 0) -> v <> 0).

Section Finish.
Variables (o : nat -> tree) (e s : list double) (n : nat).
Hypothesis O : order_ok o.
Hypothesis Me : forall x, In x e -> mild x.
Hypothesis HI : increasing (map val e).
Hypothesis He : length e = S n.
Hypothesis Hs : length s = n.
Hypothesis Ms : forall x, In x s -> sized (- (60)) 60 x.

Lemma mild_nth : forall i, mild (nth i e dzero).
Proof. intros i. now apply nth_sized. Qed.

Lemma len_val : length (map val e) = S n.
Proof. rewrite map_length. exact He. Qed.

Lemma blen_rel : forall i, (i < n)%nat -> rel 2 92 (blen_d e i) (bin_length (map val e) i).
Proof. intros i Hi. unfold blen_d, bin_length. rewrite !nth_val. apply rel_sub; apply mild_nth. Qed.

Lemma blen_pos : forall i, (i < n)%nat -> 0 < bin_length (map val e) i.
Proof. intros i Hi. apply (len_pos _ n HI len_val i Hi). Qed.

(** A length over another. *)
Lemma ratio_rel : forall i a b, (i < n)%nat -> mild a -> mild b -> val a - val b <> 0 -> rel 6 143 (ddiv (blen_d e i) (dsub a b)) (bin_length (map val e) i / (val a - val b)).
Proof. intros i a b Hi Ha Hb N. unfold blen_d, bin_length. rewrite !nth_val. apply rel_quot; auto using mild_nth. Qed.

Lemma s_rel : forall i, rel 0 60 (nth i s dzero) (val (nth i s dzero)).
Proof. intros i. destruct (nth_sized (- (60)) 60 s i Ms) as [F R]. now apply rel_exact. Qed.

Lemma ws_rel : forall w W i, rel 6 143 w W -> rel 18 406 (sq (dmul w (nth i s dzero))) ((W * val (nth i s dzero)) ^ 2).
Proof.
  intros w W i H. pose proof (rel_mul 6 0 143 60 _ _ _ _ (few_small 6 ltac:(lia)) (few_small 0 ltac:(lia)) ltac:(lia) ltac:(lia) ltac:(lia) H (s_rel i)) as A.
  apply (rel_sq 8 203) in A; [exact A|apply few_small; lia|lia|lia].
Qed.

Lemma finish : forall F G, Forall2 (fun t T => tr t T /\ 0 < tl_ T) F G ->
  (forall T, In T G -> (wrap n (tz T) < n)%nat) -> INR (length F) <= b2 20 -> G <> [] ->
  exists v, end_value (map val e) (map val s) (map (fun t => Piece (tw t) (tl_ t) (wrap n (tz t))) G) = Some v /\ matched (23 + 3 * length F) s (end_d o e s n F) v.
Proof.
  intros F G H B Hm NE. set (m := length F) in *. set (E := map val e). set (S' := map val s).
  assert (TP : forall T, In T G -> 0 < tl_ T /\ 0 < tw T).
  { clear - H. induction H as [|t T F G R H IH]; [intros T []|]. intros X [<-|Hx]; [|now apply IH]. destruct R as ((_ & _ & R) & P). split; [exact P|]. now apply R. }
  assert (LP : forall T, In T G -> 0 < bin_length E (wrap n (tz T)) / tl_ T).
  { intros T HT. apply Rdiv_lt_0_compat; [apply blen_pos, B, HT|apply TP, HT]. }
  set (num := map (fun T => (tw T * nth (wrap n (tz T)) S' 0) ^ 2 * (bin_length E (wrap n (tz T)) / tl_ T)) G).
  assert (WP : 0 < Rsum (map tw G)).
  { destruct G as [|T G]; [now destruct NE|]. apply (Rsum_pos_in _ tw _ T); [intros x Hx; left; now apply TP|now left|now apply TP; left]. }
  assert (NP : forall T, In T G -> 0 <= (tw T * nth (wrap n (tz T)) S' 0) ^ 2 * (bin_length E (wrap n (tz T)) / tl_ T)).
  { intros T HT. apply Rmult_le_pos; [apply pow2_ge_0|left; now apply LP]. }
  assert (RN : rel (26 + 2 * m) 569 (sum_d o (map (fun t => dmul (sq (dmul (dw t) (nth (wrap n (dz t)) s dzero))) (ddiv (blen_d e (wrap n (dz t))) (dl t))) F)) (Rsum num)).
  { replace m with (length (map (fun t => dmul (sq (dmul (dw t) (nth (wrap n (dz t)) s dzero))) (ddiv (blen_d e (wrap n (dz t))) (dl t))) F)) by apply map_length.
    apply (rel_sum o _ num 26 549 O); [|apply few_small; lia|lia|lia|rewrite map_length; exact Hm|].
    - unfold num. apply (Forall2_map2 _ _ _ _ _ _ _ _ F G H). intros t T Ht HT ((Z & (a & b & Ed & Ma & Mb & EdT) & R) & P).
      rewrite Z. destruct (R P) as [RW _]. unfold S'. rewrite nth_val.
      apply (rel_mul 18 6 406 143); [apply few_small; lia|apply few_small; lia|lia|lia|lia|now apply ws_rel|].
      rewrite Ed, EdT. apply ratio_rel; auto. lra.
    - intros X HX. unfold num in HX. apply in_map_iff in HX. destruct HX as (T & <- & HT). now apply NP. }
  assert (RW : rel (6 + 2 * m) 163 (sum_d o (map dw F)) (Rsum (map tw G))).
  { replace m with (length (map dw F)) by apply map_length. apply (rel_sum o _ _ 6 143 O); [|apply few_small; lia|lia|lia|rewrite map_length; exact Hm|].
    - apply (Forall2_map2 _ _ _ _ _ _ _ _ F G H). intros t T _ _ ((_ & _ & R) & P). now apply R.
    - intros X HX. apply in_map_iff in HX. destruct HX as (T & <- & HT). left. now apply TP. }
  assert (FM : forall a b, (a <= 1000)%nat -> (b <= 10)%nat -> few (a + b * m)).
  { intros a b Ha Hb. unfold few. rewrite plus_INR, mult_INR. apply le_INR in Ha, Hb. rewrite (INR_IZR_INZ 1000), (INR_IZR_INZ 10) in *. pose proof (pos_INR m). pose proof (pos_INR b).
    apply Rle_trans with (1000 + 10 * b2 20); [apply Rplus_le_compat; [exact Ha|]; apply Rmult_le_compat; auto|]. change (b2 20) with 1048576. change (b2 30) with 1073741824. lra. }
  pose proof (rel_sq (6 + 2 * m) 163 _ _ (FM 6%nat 2%nat ltac:(lia) ltac:(lia)) ltac:(lia) ltac:(lia) RW) as RS.
  assert (DN : Rsum (map tw G) ^ 2 <> 0) by (apply pow_nonzero; lra).
  assert (FS : few (6 + 2 * m + (6 + 2 * m) + 2)) by (replace (6 + 2 * m + (6 + 2 * m) + 2)%nat with (14 + 4 * m)%nat by lia; apply FM; lia).
  pose proof (rel_div (26 + 2 * m) (6 + 2 * m + (6 + 2 * m) + 2) 569 (163 + 163) _ _ _ _ (FM 26%nat 2%nat ltac:(lia) ltac:(lia)) FS ltac:(lia) ltac:(lia) ltac:(lia) RN RS DN) as RQ.
  exists (sqrt (Rsum num / Rsum (map tw G) ^ 2)).
  assert (QP : 0 <= Rsum num / Rsum (map tw G) ^ 2).
  { apply Rmult_le_pos; [apply Rsum_nonneg; intros X HX; unfold num in HX; apply in_map_iff in HX; destruct HX as (T & <- & HT); now apply NP|]. left. apply Rinv_0_lt_compat. apply pow_lt. exact WP. }
  split.
  - unfold end_value. rewrite !map_map. cbn [share extent bin]. fold num. change (fun x => tw x) with tw.
    rewrite fdiv_ok by exact DN. unfold nsqrt, np_sqrt. rewrite Rlt_bool_f by exact QP. reflexivity.
  - split; [|split].
    + replace (23 + 3 * m)%nat with (21 + 3 * m + 2)%nat by lia. apply rel_sqrt; [replace (21 + 3 * m + (21 + 3 * m))%nat with (42 + 6 * m)%nat by lia; apply FM; lia|lia|exact QP|].
      apply (rel_weaken (26 + 2 * m + (6 + 2 * m + (6 + 2 * m) + 2) + 2) _ (569 + (163 + 163))); [lia|lia|exact RQ].
    + apply sqrt_pos.
    + intros NS. apply Rgt_not_eq, sqrt_lt_R0. apply Rdiv_lt_0_compat; [|apply pow_lt; exact WP].
      destruct G as [|T G]; [now destruct NE|]. unfold num. apply (Rsum_pos_in _ _ _ T); [exact NP|now left|].
      apply Rmult_lt_0_compat; [|apply LP; now left]. apply square_pos. apply Rmult_integral_contrapositive. split; [apply Rgt_not_eq; now apply TP; left|].
      unfold S'. rewrite nth_val. apply NS. apply nth_In. apply (Nat.lt_le_trans _ n); [apply B; now left|]. apply Nat.eq_le_incl. symmetry. exact Hs.
Qed.
End Finish.

Section Compare.
Variables (o : nat -> tree) (e s : list double) (n lo hi : nat) (bmin bmax : double).
Hypothesis O : order_ok o.
Hypothesis Me : forall x, In x e -> mild x.
Hypothesis Ma : mild bmin.
Hypothesis Mb : mild bmax.
Hypothesis HI : increasing (map val e).
Hypothesis He : length e = S n.
Hypothesis Hn : (2 <= n)%nat.
Hypothesis Hn19 : INR n <= b2 19.
Hypothesis Hs : length s = n.
Hypothesis Ms : forall x, In x s -> sized (- (60)) 60 x.
Hypothesis HL : located (map val e) lo hi (val bmin) (val bmax).

Let LV : length (map val e) = S n := len_val e n He.
Let LS : length (map val s) = n. Proof. rewrite map_length. exact Hs. Qed.
Let Fe : all_fin e. Proof. intros x Hx. apply Me, Hx. Qed.
Let ME : forall i, mild (nth i e dzero) := mild_nth e Me.

Lemma inc_val : forall i j, (i < j <= n)%nat -> val (nth i e dzero) < val (nth j e dzero).
Proof. intros i j H. rewrite <- !nth_val. apply HI. rewrite LV. lia. Qed.

Lemma start_both : (2 <= hi - lo)%nat -> exists z m,
  start_weights (Z.of_nat (length (map val e))) (seq lo (hi - lo)) = Ok (repeat (Some 1) (S (S m)), zrange z (S (S m))) /\
  start_weights_d (Z.of_nat (length e)) (seq lo (hi - lo)) = Ok (repeat done (S (S m)), zrange z (S (S m))) /\
  (-1 <= z)%Z /\ (1 <= z + Z.of_nat (S m) < Z.of_nat n)%Z /\
  ((1 <= m)%nat \/ z = 0%Z \/ hi = S n /\ (z + Z.of_nat (S m) = Z.of_nat n - 1)%Z).
Proof.
  intros Hk. assert (A : (lo <= hi <= S n)%nat) by (destruct HL as (A & _); rewrite LV in A; lia).
  destruct (Nat.eq_dec hi (S n)) as [H|H].
  - exists (Z.of_nat lo - 1)%Z, (hi - lo - 2)%nat. replace (S (S (hi - lo - 2))) with (hi - lo)%nat by lia.
    split; [apply start_BD; unfold double in *; lia|]. split; [apply start_BD_d; unfold double in *; lia|]. split; [lia|]. split; [lia|].
    right; right. lia.
  - destruct (Nat.eq_dec lo 0) as [Z|Z].
    + exists 0%Z, (hi - lo - 2)%nat. replace (S (S (hi - lo - 2))) with (hi - lo)%nat by lia.
      split; [apply start_C; unfold double in *; lia|]. split; [apply start_C_d; unfold double in *; lia|]. split; [lia|]. split; [lia|]. now right; left.
    + exists (Z.of_nat lo - 1)%Z, (hi - lo - 1)%nat. replace (S (S (hi - lo - 1))) with (S (hi - lo))%nat by lia.
      split; [apply start_A; unfold double in *; lia|]. split; [apply start_A_d; unfold double in *; lia|]. split; [lia|]. split; [lia|]. left. lia.
Qed.

Definition trips (z : Z) (m : nat) : list trip :=
  first_trip (map val e) n (val bmin) z :: mid_trips (map val e) (z + 1) m ++ [last_trip (map val e) (val bmax) (z + Z.of_nat (S m))].

Lemma tr_trips : forall z m, (-1 <= z)%Z -> (1 <= z + Z.of_nat (S m) < Z.of_nat n)%Z -> Forall2 tr (trips_d e n bmin bmax z m) (trips z m).
Proof.
  intros z m H1 H2. unfold trips_d, trips. constructor; [|apply Forall2_app].
  - unfold first_trip_d, first_trip. destruct (Z.eqb_spec z 0) as [->|N].
    + split; [reflexivity|]. split; [|intros _; split; [exact rel_one|cbn; lra]]. exists (nth 1 e dzero), (nth 0 e dzero).
      split; [reflexivity|]. split; [apply ME|]. split; [apply ME|]. unfold tl_, bin_length. cbn [fst snd]. now rewrite !nth_val.
    + destruct (Z.ltb_spec z 0) as [M|M].
      * pose proof (inc_val (n - 1) n ltac:(lia)) as P. split; [reflexivity|]. rewrite !nth_val. split.
        -- exists (nth n e dzero), bmin. repeat split; try apply ME; apply Ma.
        -- unfold tl_, tw, dw. cbn [fst snd]. intros Q. split; [apply rel_quot; auto; exact (gap_ne _ _ P)|]. apply Rdiv_lt_0_compat; [exact Q|exact (gap_pos _ _ P)].
      * pose proof (inc_val (Z.to_nat z - 1) (Z.to_nat z) ltac:(lia)) as P. split; [reflexivity|]. cbv zeta. rewrite !nth_val. split.
        -- exists (nth (Z.to_nat z) e dzero), bmin. repeat split; try apply ME; apply Ma.
        -- unfold tl_, tw, dw. cbn [fst snd]. intros Q. split; [apply rel_quot; auto; exact (gap_ne _ _ P)|]. apply Rdiv_lt_0_compat; [exact Q|exact (gap_pos _ _ P)].
  - unfold mid_trips_d, mid_trips. apply (Forall2_map2 _ _ _ _ eq).
    + clear. induction (zrange (z + 1) m); constructor; auto.
    + intros y y' _ _ <-. split; [reflexivity|]. split; [|intros _; split; [exact rel_one|cbn; lra]]. exists (nth (S (Z.to_nat y)) e dzero), (nth (Z.to_nat y) e dzero).
      split; [reflexivity|]. split; [apply ME|]. split; [apply ME|]. unfold tl_, bin_length. cbn [fst snd]. now rewrite !nth_val.
  - constructor; [|constructor]. unfold last_trip_d, last_trip. set (i := Z.to_nat (z + Z.of_nat (S m))). pose proof (inc_val (i - 1) i ltac:(lia)) as P.
    split; [reflexivity|]. cbv zeta. rewrite !nth_val. split.
    + exists bmax, (nth i e dzero). repeat split; try apply ME; apply Mb.
    + unfold tl_, tw, dw. cbn [fst snd]. intros Q. split; [apply rel_quot; auto; exact (gap_ne _ _ P)|]. apply Rdiv_lt_0_compat; [exact Q|exact (gap_pos _ _ P)].
Qed.

Lemma kept : forall z m, (-1 <= z)%Z -> (1 <= z + Z.of_nat (S m) < Z.of_nat n)%Z -> (1 <= m)%nat \/ z = 0%Z \/ hi = S n /\ (z + Z.of_nat (S m) = Z.of_nat n - 1)%Z ->
  filter pos (trips z m) <> [].
Proof.
  intros z m H1 H2 H. assert (X : exists T, In T (trips z m) /\ pos T = true).
  { unfold trips. destruct H as [H|[->|[Hh Hz]]].
    - exists (1, bin_length (map val e) (Z.to_nat (z + 1)), (z + 1)%Z). split.
      + right. apply in_or_app. left. unfold mid_trips. apply in_map_iff. exists (z + 1)%Z. split; [reflexivity|]. unfold zrange. apply in_map_iff. exists 0%nat. split; [lia|]. apply in_seq. lia.
      + unfold pos, tl_. cbn [fst snd]. apply Rlt_bool_t. apply (blen_pos e n); auto. lia.
    - eexists. split; [left; reflexivity|]. unfold first_trip, pos, tl_. cbn [Z.eqb fst snd]. apply Rlt_bool_t. apply (blen_pos e n); auto. lia.
    - eexists. split; [right; apply in_or_app; right; left; reflexivity|]. unfold last_trip, pos, tl_. cbn [fst snd]. rewrite Hz. apply Rlt_bool_t.
      assert (nth n (map val e) 0 <= val bmax) by (destruct HL as (_ & _ & C); apply C; lia).
      pose proof (HI (n - 1)%nat n ltac:(rewrite LV; lia)). replace (Z.to_nat (Z.of_nat n - 1)) with (n - 1)%nat by lia. lra. }
  destruct X as (T & HT & HP). intros E. assert (I : In T (filter pos (trips z m))) by (apply filter_In; auto). rewrite E in I. destruct I.
Qed.

Lemma trip_range : forall z m T, (-1 <= z)%Z -> (1 <= z + Z.of_nat (S m) < Z.of_nat n)%Z -> In T (trips z m) -> (wrap n (tz T) < n)%nat.
Proof.
  intros z m T H1 H2 H. apply wrap_lt. unfold trips in H. destruct H as [<- | H].
  - unfold first_trip. destruct (z =? 0)%Z; [cbn [tz snd]; lia|]. destruct (z <? 0)%Z; cbn [tz snd]; lia.
  - apply in_app_or in H. destruct H as [H|[<-|[]]]; [|cbn [last_trip tz snd]; lia].
    unfold mid_trips, zrange in H. rewrite map_map in H. apply in_map_iff in H. destruct H as (i & <- & Hi). apply in_seq in Hi. cbn [tz snd]. lia.
Qed.

Definition agree : Prop := exists q v k, (k <= 26 + 3 * n)%nat /\
  rebin_1d_single_bin_sigma_d o e s bmin bmax = Ok q /\ rebin_1d_single_bin_sigma (map val e) (map val s) (val bmin) (val bmax) = Ok (Some v) /\ matched k s q v.

Definition neither : Prop := exists q, rebin_1d_single_bin_sigma_d o e s bmin bmax = Ok q /\ is_finite q = false /\
  rebin_1d_single_bin_sigma (map val e) (map val s) (val bmin) (val bmax) = Ok None.

Lemma compare_several : (2 <= hi - lo)%nat -> agree.
Proof.
  intros Hk. destruct (start_both Hk) as (z & m & SW & SD & H1 & H2 & H3).
  pose proof (filter_tr _ _ (tr_trips z m H1 H2)) as FT.
  assert (LF : (length (filter dpos (trips_d e n bmin bmax z m)) <= n + 1)%nat).
  { apply Nat.le_trans with (length (trips_d e n bmin bmax z m)); [apply filter_short|]. unfold trips_d, mid_trips_d. cbn [length]. rewrite app_length, map_length. unfold zrange. rewrite map_length, seq_length. cbn [length]. lia. }
  destruct (finish o e s n O Me HI He Hs Ms _ _ FT) as (v & EV & MV).
  - intros T HT. apply filter_In in HT. now apply (trip_range z m).
  - apply le_INR in LF. rewrite plus_INR in LF. cbn [INR] in LF. apply Rle_trans with (1 := LF). apply Rle_trans with (b2 19 + 1); [lra|]. change (b2 19) with 524288. change (b2 20) with 1048576. lra.
  - now apply kept.
  - eexists _, v, _. split; [|split; [apply (several_d o e s n lo hi bmin bmax Fe (proj1 Ma) (proj1 Mb) He Hs HL Hk z m SD H1 H2)|split; [|exact MV]]]; [lia|].
    rewrite (several (map val e) (map val s) n lo hi _ _ HI LV LS HL Hk z m SW H1 H2). now rewrite <- EV.
Qed.
End Compare.
