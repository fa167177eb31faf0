(** * Theorems: errors of rebinned values in double precision (C91) *)

From Coq Require Import Reals ZArith List Bool Lia Lra Psatz.
From Flocq Require Import Core IEEE754.BinarySingleNaN.
From Verif Require Import TDenseDouble Base BaseP SpecGrid SpecRebin MGrids MUtils MOneD PGrids PUtils PPolarCoords POneD POneD2 POneD3 TOneD PSigma2 TSigma.
From Verif Require Import PHeal MHealpixFloat PHealpixFloat SpecDouble MDouble PDouble MRemapDouble MGridsDouble PGridsDouble MSumDouble PSumDouble PDense PDenseDouble PRemap2 PRadial
  SpecRebinDouble MOneDDouble PRebinDouble PRebinDouble2 PRebinDouble3 PRebinDouble4 TRebinDouble SpecSigmaDouble PSigmaDouble PSigmaDouble2 PSigmaDouble3 PSigmaDouble4 PSigma.
Import ListNotations.
Open Scope R_scope.

(** ** Lemmas *)

Lemma compare_bin : forall o e s n a b, order_ok o -> (forall x, In x e -> mild x) -> mild a -> mild b -> increasing (map val e) -> length e = S n -> (2 <= n)%nat -> INR n <= b2 19 ->
  length s = n -> (forall x, In x s -> sized (- (60)) 60 x) -> val a <= val b -> agree o e s n a b \/ neither o e s a b.
Proof.
  intros o e s n a b O Me Ma Mb HI He Hn Hn19 Hs Ms Hab. destruct (locate (map val e) (val a) (val b) HI Hab) as (lo & hi & HL). now apply (compare o e s n lo hi).
Qed.

Lemma few_n : forall n k a b, INR n <= b2 19 -> (k <= a + b * n)%nat -> (a <= 1000)%nat -> (b <= 10)%nat -> few k /\ INR k <= INR a + INR b * INR n.
Proof.
  intros n k a b Hn Hk Ha Hb. apply le_INR in Hk. rewrite plus_INR, mult_INR in Hk. split; [|exact Hk]. unfold few. apply Rle_trans with (1 := Hk).
  apply le_INR in Ha, Hb. rewrite (INR_IZR_INZ 1000), (INR_IZR_INZ 10) in *. pose proof (pos_INR n). pose proof (pos_INR b).
  apply Rle_trans with (1000 + 10 * b2 19); [apply Rplus_le_compat; [exact Ha|]; apply Rmult_le_compat; auto|]. change (b2 19) with 524288. change (b2 30) with 1073741824. lra.
Qed.

Lemma rel_close : forall n k r q v err, INR n <= b2 19 -> (k <= 56 + 6 * n)%nat -> 2 * INR k * u <= err -> 0 <= v -> rel k r q v -> relative err (Some v) q.
Proof.
  intros n k r q v err Hn Hk HE P R. destruct (few_n n k 56 6 Hn Hk ltac:(lia) ltac:(lia)) as [F _]. destruct (rel_err k r q v F R) as [Fq B]. split; [exact Fq|].
  rewrite (Rabs_pos_eq v) in B by exact P. apply Rle_trans with (1 := B). now apply Rmult_le_compat_r.
Qed.

Lemma eighth : forall n k a b c d, INR n <= b2 19 -> (k <= a + b * n)%nat -> (a <= 4 * d)%nat -> (b <= 4 * c)%nat -> (a <= 1000)%nat -> (b <= 10)%nat -> 2 * INR k * u <= (INR c * INR n + INR d) * b2 (-50).
Proof.
  intros n k a b c d Hn Hk Ha Hb Ha' Hb'. destruct (few_n n k a b Hn Hk Ha' Hb') as [_ K]. apply le_INR in Ha, Hb. rewrite mult_INR in Ha, Hb. replace (INR 4) with 4 in * by (cbn; ring).
  unfold u. change (-50)%Z with (3 + -53)%Z. rewrite bpow_plus. change (b2 3) with 8. pose proof (bpow_gt_0 radix2 (-53)) as P. pose proof (pos_INR n) as Pn.
  rewrite <- Rmult_assoc. apply Rmult_le_compat_r; [lra|]. assert (INR b * INR n <= 4 * INR c * INR n) by (apply Rmult_le_compat_r; lra). lra.
Qed.

Lemma rel_two : forall k r x X, rel k r x X -> Rabs (val x) <= (1 + u) ^ k * Rabs X /\ Rabs X <= (1 + u) ^ k * Rabs (val x).
Proof.
  intros k r x X (_ & (t & (T1 & T2 & T3) & ->) & _). rewrite Rabs_mult, (Rabs_pos_eq t) by lra. pose proof (Rabs_pos X) as P. split; [nra|].
  assert (1 <= (1 + u) ^ k * t); [|nra]. apply Rmult_le_reg_r with (/ t); [now apply Rinv_0_lt_compat|]. rewrite Rmult_assoc, Rinv_r by lra. lra.
Qed.

(** Whether a subscript is in range does not depend on the entries. *)
Lemma get_same : forall A (d d' : list A) k x, length d = length d' -> py_get d k = Ok x -> exists y, py_get d' k = Ok y.
Proof.
  intros A d d' k x L H. unfold py_get in *. rewrite <- L. destruct (_ <? 0)%Z; [discriminate|]. set (m := Z.to_nat _) in *. clearbody m.
  destruct (nth_error d m) eqn:E; [|discriminate]. assert (m < length d')%nat by (rewrite <- L; apply nth_error_Some; now rewrite E).
  destruct (nth_error d' m) eqn:E'; [now eexists|]. apply nth_error_None in E'. lia.
Qed.

Lemma gets_same : forall A (d d' : list A) ks xs, length d = length d' -> mapM (py_get d) ks = Ok xs -> exists ys, mapM (py_get d') ks = Ok ys.
Proof.
  intros A d d' ks. induction ks as [|k ks IH]; intros xs L H; [now eexists|]. cbn [mapM] in *. apply bind_inv in H. destruct H as (x & E & H). apply bind_inv in H. destruct H as (xs' & E' & _).
  destruct (get_same A d d' k x L E) as [y ->]. destruct (IH xs' L E') as [ys ->]. now eexists.
Qed.

Lemma single_same : forall o e d d' a b x, length d = length d' -> rebin_1d_single_bin_d o e d a b = Ok x -> exists y, rebin_1d_single_bin_d o e d' a b = Ok y.
Proof.
  intros o e d d' a b x L H. unfold rebin_1d_single_bin_d in *. cbv zeta in *. destruct (length (edges_in_d e a b)) as [|[|m]].
  - destruct (_ && _); [|now eexists]. apply bind_inv in H. destruct H as (c & -> & H). now apply (get_same _ d d' _ x).
  - apply bind_inv in H. destruct H as (c & -> & H). cbn [bind]. destruct (_ && _).
    + apply bind_inv in H. destruct H as (x1 & -> & H). apply bind_inv in H. destruct H as (x2 & -> & H). apply bind_inv in H. destruct H as (x3 & -> & H).
      apply bind_inv in H. destruct H as (x4 & E4 & H). apply bind_inv in H. destruct H as (x5 & E5 & H). cbn [bind].
      destruct (get_same _ d d' _ _ L E4) as [y4 ->]. destruct (get_same _ d d' _ _ L E5) as [y5 ->]. now eexists.
    + destruct (_ =? _)%Z; now apply (get_same _ d d' _ x).
  - apply bind_inv in H. destruct H as ([w idx] & -> & H). apply bind_inv in H. destruct H as (ds & E & _). cbn [bind]. destruct (gets_same _ d d' _ _ L E) as [ys ->]. now eexists.
Qed.

Lemma single_runs : forall o e n d a b, order_ok o -> (forall x, In x e -> tame x) -> tame a -> tame b -> increasing (map val e) -> length e = S n -> (1 <= n)%nat -> val a <= val b -> length d = n ->
  exists v, rebin_1d_single_bin_d o e d a b = Ok v.
Proof.
  intros o e n d a b O Me Ma Mb HI Le Hn Hab Ld. assert (L : length (repeat dzero n) = n) by apply repeat_length.
  assert (F : all_fin (repeat dzero n)) by (intros x Hx; apply repeat_spec in Hx; subst x; reflexivity).
  assert (exists v, rebin_1d_single_bin_d o e (repeat dzero n) a b = Ok v) as [v H].
  { destruct (single_cases o e n a b O Me Ma Mb HI Le Hn Hab) as [[_ H]|[(k & _ & _ & H)|(o' & ws & WS & idx & _ & _ & _ & _ & _ & _ & _ & H)]]; eexists; [apply (H _ L F)|apply (H _ L)|apply (H _ L)]. }
  apply (single_same o e (repeat dzero n) d a b v); [|exact H]. unfold double in *. lia.
Qed.

(** ** When there are values *)

(** Increasing edges, zero or between 2^-240 and 2^300 in size: a value for any
    data, finite or not, and the errors leave it as it is. *)
Theorem C91_runs : forall o e n d new w, order_ok o -> (forall x, In x e -> tame x) -> (forall x, In x new -> tame x) -> increasing (map val e) -> nondecreasing (map val new) ->
  length e = S n -> (1 <= n)%nat -> length d = n -> (match w with Some w => length w = n | None => True end) ->
  exists out, rebin_1d_d o e d new w None = Ok (out, None) /\ length out = (length new - 1)%nat /\
    forall s out' sg, rebin_1d_d o e d new w (Some s) = Ok (out', sg) -> out' = out.
Proof.
  intros o e n d new w O Me Mn HI HN Le Hn Ld Lw.
  assert (Fe : all_fin e) by (intros x Hx; apply Me, Hx). assert (Fn : all_fin new) by (intros x Hx; apply Mn, Hx).
  assert (SR : forall x j, length x = n -> (S j < length new)%nat -> exists v, rebin_1d_single_bin_d o e x (nth j new dzero) (nth (S j) new dzero) = Ok v).
  { intros x j Lx Hj. apply (single_runs o e n); auto; try (now apply tame_nth). now apply new_le_d. }
  assert (Ldw : forall v, length v = n -> length (map2 dmul d v) = n) by (intros v Hv; rewrite map2_length; unfold double in *; lia).
  assert (exists out, rebin_1d_d o e d new w None = Ok (out, None) /\ length out = (length new - 1)%nat) as (out & E & L).
  { rewrite (rebin_d_ok o e d new w None n) by (auto; now apply inc_nondec). destruct w as [w|].
    - rewrite !over_d; [cbn [bind]; unfold tab; rewrite map2_map_map; eexists; split; [reflexivity|apply tab_length]| |]; intros i Hi; apply SR; auto.
    - rewrite over_d; [cbn [bind]; eexists; split; [reflexivity|apply tab_length]|]; intros i Hi; apply SR; auto. }
  exists out. split; [exact E|]. split; [exact L|]. intros s out' sg H. unfold rebin_1d_d in *.
  destruct (_ =? _)%Z; [|discriminate]. destruct (is_pos_monotonic_d e); [|discriminate]. destruct (is_pos_monotonic_d new); [|discriminate]. cbn [bind] in *.
  destruct (match w with Some w0 => _ | None => _ end) in E, H; cbn [bind] in *; [|discriminate]. destruct (length d =? length s)%nat; [|discriminate]. cbn [bind] in *.
  destruct (match w with Some w0 => _ | None => _ end) as [y|] in E, H; cbn [bind] in *; [|discriminate]. injection E as ->. apply bind_inv in H. destruct H as (z & _ & H). injection H as -> _. reflexivity.
Qed.
Print Assumptions C91_runs.

Lemma mild_tame : forall x, sized (-40) 50 x -> tame x.
Proof.
  intros x [F H]. split; [exact F|]. destruct H as [H|[H1 H2]]; [now left|right]. split; [apply Rle_trans with (2 := H1)|apply Rle_trans with (1 := H2)]; apply bpow_le; lia.
Qed.

(** ** Errors without weights *)

(** Edges zero or between 2^-40 and 2^50 in size, errors zero or between 2^-60
    and 2^60, 2 to 2^19 old bins: the errors differ from those in exact
    arithmetic by at most [(n + 7) 2^-50] of their size, and are infinite or NaN
    exactly where there is none.  The values are those without errors. *)
Theorem C91_accuracy : forall o e n d s new, order_ok o -> (forall x, In x e -> sized (-40) 50 x) -> (forall x, In x new -> sized (-40) 50 x) ->
  increasing (map val e) -> nondecreasing (map val new) -> length e = S n -> (2 <= n)%nat -> INR n <= b2 19 -> length d = n -> length s = n ->
  (forall x, In x s -> sized (-60) 60 x) ->
  exists out dexact exact sg, rebin_1d_d o e d new None None = Ok (out, None) /\ rebin_1d (map val e) (map val d) (map val new) None (Some (map val s)) = Ok (dexact, Some exact) /\
    rebin_1d_d o e d new None (Some s) = Ok (out, Some sg) /\ length exact = (length new - 1)%nat /\ length sg = (length new - 1)%nat /\
    forall j, (j < length new - 1)%nat -> relative ((INR n + 7) * b2 (-50)) (nth j exact None) (nth j sg dzero).
Proof.
  intros o e n d s new O Me Mn HI HN Le Hn Hn19 Ld Ls Hs.
  destruct (C91_runs o e n d new None O (fun x H => mild_tame x (Me x H)) (fun x H => mild_tame x (Mn x H)) HI HN Le ltac:(lia) Ld I) as (out & HD & _). exists out.
  assert (LE : length (map val e) = S n) by (rewrite map_length; exact Le). assert (LD : length (map val d) = n) by (rewrite map_length; exact Ld). assert (LS : length (map val s) = n) by (rewrite map_length; exact Ls).
  assert (Fe : all_fin e) by (intros x Hx; apply Me, Hx). assert (Fn : all_fin new) by (intros x Hx; apply Mn, Hx).
  assert (SE : forall j, (S j < length new)%nat -> agree o e s n (nth j new dzero) (nth (S j) new dzero) \/ neither o e s (nth j new dzero) (nth (S j) new dzero)).
  { intros j Hj. apply compare_bin; auto; try apply nth_sized; auto. now apply new_le_d. }
  do 2 eexists. exists (tab (length new - 1) (fun i => value_d (rebin_1d_single_bin_sigma_d o e s (nth i new dzero) (nth (S i) new dzero)))).
  split; [exact HD|]. split; [apply (rebin_sigma _ n); auto; lia|]. split.
  { rewrite (rebin_d_ok o e d new None (Some s) n) by (auto; now apply inc_nondec). rewrite (rebin_d_ok o e d new None None n) in HD by (auto; now apply inc_nondec).
    destruct (over_bins_d (rebin_1d_single_bin_d o e d) new) as [l|x]; [|discriminate]. cbn [bind] in *. injection HD as ->.
    rewrite over_d; [reflexivity|]. intros i Hi. destruct (SE i Hi) as [(q & v & k & _ & E & _)|(q & E & _)]; eexists; exact E. }
  split; [rewrite map_length, seq_length, map_length; reflexivity|]. split; [apply tab_length|].
  intros j Hj. rewrite tab_nth by exact Hj. rewrite nth_bins by (rewrite map_length; exact Hj). rewrite !nth_val. unfold sigma_value.
  destruct (SE j ltac:(lia)) as [(q & v & k & K & -> & -> & R & P & _)|(q & -> & F & ->)]; [|exact F].
  apply (rel_close n k 448); auto; [lia|]. pose proof (eighth n k 28 4 1 7 Hn19 ltac:(lia) ltac:(lia) ltac:(lia) ltac:(lia) ltac:(lia)) as B. cbn [INR] in B.
  replace ((1 * INR n + (1 + 1 + 1 + 1 + 1 + 1 + 1)) * b2 (-50)) with ((INR n + 7) * b2 (-50)) in B by ring. exact B.
Qed.
Print Assumptions C91_accuracy.

(** A new bin which holds at most one old edge: that close to the error of the
    mean over the parts of the old bins it covers. *)
Theorem C91_mean : forall o e n d s new, order_ok o -> (forall x, In x e -> sized (-40) 50 x) -> (forall x, In x new -> sized (-40) 50 x) ->
  increasing (map val e) -> nondecreasing (map val new) -> length e = S n -> (2 <= n)%nat -> INR n <= b2 19 -> length d = n -> length s = n ->
  (forall x, In x s -> sized (-60) 60 x) ->
  exists out sg, rebin_1d_d o e d new None (Some s) = Ok (out, Some sg) /\ length sg = (length new - 1)%nat /\
    forall j, (j < length new - 1)%nat -> let a := val (nth j new dzero) in let b := val (nth (S j) new dzero) in
      a < b -> val (nth 0 e dzero) < b -> a < val (nth n e dzero) ->
      (forall c c', (c <= n)%nat -> (c' <= n)%nat -> a <= val (nth c e dzero) <= b -> a <= val (nth c' e dzero) <= b -> c = c') ->
      fin (nth j sg dzero) /\ Rabs (val (nth j sg dzero) - mean_error (map val e) (map val s) n a b) <= (INR n + 7) * b2 (-50) * mean_error (map val e) (map val s) n a b.
Proof.
  intros o e n d s new O Me Mn HI HN Le Hn Hn19 Ld Ls Hs.
  destruct (C91_accuracy o e n d s new O Me Mn HI HN Le Hn Hn19 Ld Ls Hs) as (out & dx & ex & sg & _ & R & D & L1 & L2 & C).
  exists out, sg. split; [exact D|]. split; [exact L2|]. intros j Hj a b H1 H2 H3 H4. specialize (C j Hj).
  rewrite (C73_few_edges (map val e) n (map val d) (map val s) (map val new) dx ex j HI) in C; try (rewrite map_length; assumption || lia); auto; try lia; try (rewrite !nth_val; assumption).
  - rewrite !nth_val in C. exact C.
  - intros c c' Hc Hc'. rewrite !nth_val. now apply H4.
Qed.
Print Assumptions C91_mean.

(** ** Weights *)

Lemma propagated_mono : forall e n s s' ps g, (forall i, (i < n)%nat -> 0 < bin_length e i) -> (forall p, In p ps -> 0 < extent p /\ (bin p < n)%nat) -> 0 <= g ->
  (forall i, (i < n)%nat -> Rabs (nth i s 0) <= g * Rabs (nth i s' 0)) -> Rsum (map share ps) <> 0 -> propagated e s ps <= g * propagated e s' ps.
Proof.
  intros e n s s' ps g LP HP Hg H NZ. unfold propagated. rewrite <- (sqrt_square g) at 1 by exact Hg.
  assert (P : forall t, 0 <= Rsum (map (fun p => (share p * nth (bin p) t 0) ^ 2 * (bin_length e (bin p) / extent p)) ps)).
  { intros t. apply Rsum_nonneg. intros x Hx. apply in_map_iff in Hx. destruct Hx as (p & <- & Hp). destruct (HP p Hp) as [A B]. apply Rmult_le_pos; [apply pow2_ge_0|]. left. apply Rdiv_lt_0_compat; [now apply LP|exact A]. }
  assert (W : 0 < / Rsum (map share ps) ^ 2) by (apply Rinv_0_lt_compat, square_pos; exact NZ).
  rewrite <- sqrt_mult; [|nra|apply Rmult_le_pos; [apply P|lra]]. apply sqrt_le_1_alt. unfold Rdiv. rewrite <- Rmult_assoc. apply Rmult_le_compat_r; [lra|].
  rewrite <- Rsum_map_scal. apply Rsum_le. intros p Hp. destruct (HP p Hp) as [A B]. assert (L : 0 < bin_length e (bin p) / extent p) by (apply Rdiv_lt_0_compat; [now apply LP|exact A]).
  fold (bin_length e (bin p) / extent p). rewrite <- Rmult_assoc. apply Rmult_le_compat_r; [lra|]. specialize (H (bin p) B).
  rewrite !Rpow_mult_distr. rewrite (Rmult_comm (g * g)), Rmult_assoc. apply Rmult_le_compat_l; [apply pow2_ge_0|].
  rewrite <- (pow2_abs (nth (bin p) s 0)), <- (pow2_abs (nth (bin p) s' 0)). pose proof (Rabs_pos (nth (bin p) s 0)). pose proof (Rabs_pos (nth (bin p) s' 0)). set (x := Rabs (nth (bin p) s 0)) in *. set (y := Rabs (nth (bin p) s' 0)) in *. clearbody x y. nra.
Qed.

(** Errors and weights zero or between 2^-29 and 2^29, the weights not zero. *)
Theorem C91_weighted : forall o e n d w s new, order_ok o -> (forall x, In x e -> sized (-40) 50 x) -> (forall x, In x new -> sized (-40) 50 x) ->
  increasing (map val e) -> nondecreasing (map val new) -> length e = S n -> (2 <= n)%nat -> INR n <= b2 19 -> length d = n -> length w = n -> length s = n ->
  (forall x, In x s -> sized (-29) 29 x) -> (forall x, In x w -> sized (-29) 29 x /\ val x <> 0) ->
  exists out dexact exact sg, rebin_1d_d o e d new (Some w) None = Ok (out, None) /\ rebin_1d (map val e) (map val d) (map val new) (Some (map val w)) (Some (map val s)) = Ok (dexact, Some exact) /\
    rebin_1d_d o e d new (Some w) (Some s) = Ok (out, Some sg) /\ length exact = (length new - 1)%nat /\ length sg = (length new - 1)%nat /\
    forall j, (j < length new - 1)%nat -> relative ((2 * INR n + 14) * b2 (-50)) (nth j exact None) (nth j sg dzero).
Proof.
  intros o e n d w s new O Me Mn HI HN Le Hn Hn19 Ld Lw Ls Hs Hw.
  destruct (C91_runs o e n d new (Some w) O (fun x H => mild_tame x (Me x H)) (fun x H => mild_tame x (Mn x H)) HI HN Le ltac:(lia) Ld Lw) as (out & HD & _). exists out.
  assert (LE : length (map val e) = S n) by (rewrite map_length; exact Le). assert (LD : length (map val d) = n) by (rewrite map_length; exact Ld).
  assert (LS : length (map val s) = n) by (rewrite map_length; exact Ls). assert (LW : length (map val w) = n) by (rewrite map_length; exact Lw).
  assert (Fe : all_fin e) by (intros x Hx; apply Me, Hx). assert (Fn : all_fin new) by (intros x Hx; apply Mn, Hx).
  set (y := map2 Rmult (map val s) (map val w)). set (sw := map2 dmul s w).
  assert (Ly : length y = n) by (unfold y; rewrite map2_length; lia). assert (Lsw : length sw = n) by (unfold sw; rewrite map2_length; unfold double in *; lia).
  assert (Nw : forall i, (i < n)%nat -> In (nth i w dzero) w) by (intros i Hi; apply nth_In; unfold double in *; lia).
  assert (ny : forall i, (i < n)%nat -> nth i y 0 = val (nth i s dzero) * val (nth i w dzero)).
  { intros i Hi. unfold y. rewrite (nth_map2 _ _ _ Rmult _ _ i 0 0 0) by lia. now rewrite !nth_val. }
  assert (nsw : forall i, (i < n)%nat -> nth i sw dzero = dmul (nth i s dzero) (nth i w dzero)).
  { intros i Hi. unfold sw. apply nth_map2; unfold double in *; lia. }
  assert (RP : forall i, (i < n)%nat -> rel 2 58 (nth i sw dzero) (nth i y 0)).
  { intros i Hi. rewrite nsw, ny by exact Hi. destruct (nth_sized (-29) 29 s i Hs) as [Fs Rs]. destruct (Hw _ (Nw i Hi)) as [[Fw Rw] _].
    apply (rel_mul 0 0 29 29); try (apply few_small; lia); try lia; now apply rel_exact. }
  assert (Zsw : forall x, In x sw -> sized (- (60)) 60 x).
  { intros x Hx. apply (In_nth _ _ dzero) in Hx. destruct Hx as (i & Hi & <-). specialize (RP i ltac:(unfold double in *; lia)). split; [apply RP|].
    destruct (Req_dec (nth i y 0) 0) as [Z|Z]; [left; now apply (rel_0 _ _ _ _ RP)|right]. destruct (rel_size 2 58 _ _ (few_small 2 ltac:(lia)) RP Z) as [B1 B2].
    change (- (60))%Z with (-60)%Z. split; [apply Rle_trans with (2 := B1)|apply Rle_trans with (1 := B2)].
    - change (/ 2) with (b2 (-1)). rewrite <- bpow_plus. apply bpow_le. lia.
    - change 2 with (b2 1). rewrite <- bpow_plus. apply bpow_le. lia. }
  assert (Zw : forall x, In x w -> sized (- (60)) 60 x).
  { intros x Hx. destruct (Hw x Hx) as [[F R] _]. split; [exact F|]. destruct R as [R|[R1 R2]]; [now left|right]. split; [apply Rle_trans with (2 := R1)|apply Rle_trans with (1 := R2)]; apply bpow_le; lia. }
  assert (SE : forall j, (S j < length new)%nat -> let a := nth j new dzero in let b := nth (S j) new dzero in
    exists q1 q2, rebin_1d_single_bin_sigma_d o e sw a b = Ok q1 /\ rebin_1d_single_bin_sigma_d o e w a b = Ok q2 /\
      relative ((2 * INR n + 14) * b2 (-50)) (ndiv (sigma_value (map val e) y (val a) (val b)) (sigma_value (map val e) (map val w) (val a) (val b))) (ddiv q1 q2)).
  { intros j Hj a b. pose proof (nth_sized (-40) 50 new j Mn) as Ma. pose proof (nth_sized (-40) 50 new (S j) Mn) as Mb. pose proof (new_le_d new j HN Hj) as Hab. fold a b in Ma, Mb, Hab.
    assert (LSW : length (map val sw) = n) by (rewrite map_length; exact Lsw).
    destruct (compare_bin o e w n a b O Me Ma Mb HI Le Hn Hn19 Lw Zw Hab) as [(q2 & v2 & k2 & K2 & D2 & R2 & M2 & P2 & N2)|(q2 & D2 & F2 & R2)];
    destruct (compare_bin o e sw n a b O Me Ma Mb HI Le Hn Hn19 Lsw Zsw Hab) as [(q1 & v1 & k1 & K1 & D1 & R1 & M1 & P1 & N1)|(q1 & D1 & F1 & R1)];
    exists q1, q2; (split; [exact D1|]); (split; [exact D2|]); unfold sigma_value; rewrite R2;
    destruct (sigma_dichotomy (map val e) n (val a) (val b) HI LE ltac:(lia) Hab) as [[_ H]|[_ (ps & G & NZ & H)]];
    rewrite H in R1 by exact LSW; rewrite H in R2 by exact LW; try discriminate; rewrite (H y Ly).
    - injection R1 as R1. assert (NV2 : v2 <> 0) by (apply N2; intros x Hx; now apply Hw). cbn [ndiv]. rewrite fdiv_ok by exact NV2.
      set (v := propagated (map val e) y ps). pose proof (len_pos (map val e) n HI LE) as LP.
      assert (GG : forall i, (i < n)%nat -> Rabs (nth i (map val sw) 0) <= (1 + u) ^ 2 * Rabs (nth i y 0) /\ Rabs (nth i y 0) <= (1 + u) ^ 2 * Rabs (nth i (map val sw) 0)).
      { intros i Hi. rewrite nth_val. apply (rel_two _ _ _ _ (RP i Hi)). }
      pose proof (pow_ge_1 2) as G1.
      assert (U1 : v1 <= (1 + u) ^ 2 * v) by (rewrite <- R1; apply (propagated_mono _ n); auto; [lra|intros; now apply GG]).
      assert (U2 : v <= (1 + u) ^ 2 * v1) by (rewrite <- R1; apply (propagated_mono _ n); auto; [lra|intros; now apply GG]).
      assert (PV : 0 <= v) by apply sqrt_pos.
      assert (MV : rel (k1 + 2) 450 q1 v).
      { pose proof (few_pow 2 (few_small 2 ltac:(lia))) as [_ F2]. destruct M1 as (F1 & (t & A & V) & RG). split; [exact F1|]. destruct (Req_dec v 0) as [Z|Z].
        - rewrite Z in U1 |- *. split; [|now left]. exists 1. split; [apply around_1_0|]. rewrite V. replace v1 with 0 by lra. ring.
        - assert (PV1 : 0 < v1) by (destruct (Req_dec v1 0) as [E|]; [rewrite E in U2; lra|lra]). split.
          + exists (t * (v1 / v)). split; [|rewrite V; field; exact Z]. apply around_mul; [exact A|]. split; [apply Rdiv_lt_0_compat; lra|]. split.
            * apply Rmult_le_reg_r with v; [lra|]. unfold Rdiv. rewrite Rmult_assoc, Rinv_l by exact Z. lra.
            * rewrite Rinv_div. apply Rmult_le_reg_r with v1; [lra|]. unfold Rdiv. rewrite Rmult_assoc, Rinv_l by lra. lra.
          + right. rewrite Rabs_pos_eq by exact PV. destruct RG as [RG|[B1 B2]]; [lra|]. rewrite Rabs_pos_eq in B1, B2 by lra. pose proof (bpow_gt_0 radix2 (- (448))) as Q1. pose proof (bpow_gt_0 radix2 448) as Q2. split.
            * apply Rle_trans with (b2 (- (448)) * / 4); [change (/ 4) with (b2 (-2)); rewrite <- bpow_plus; apply bpow_le; lia|]. nra.
            * apply Rle_trans with (b2 448 * 4); [nra|]. change 4 with (b2 2). rewrite <- bpow_plus. apply bpow_le. lia. }
      destruct (few_n n (k1 + 2) 28 3 Hn19 ltac:(lia) ltac:(lia) ltac:(lia)) as [FK1 _]. destruct (few_n n k2 26 3 Hn19 ltac:(lia) ltac:(lia) ltac:(lia)) as [FK2 _].
      pose proof (rel_div (k1 + 2) k2 450 448 _ _ _ _ FK1 FK2 ltac:(lia) ltac:(lia) ltac:(lia) MV M2 NV2) as RQ.
      apply (rel_close n (k1 + 2 + k2 + 2) (450 + 448)); auto; [lia| |apply Rmult_le_pos; [exact PV|left; apply Rinv_0_lt_compat; lra]].
      pose proof (eighth n (k1 + 2 + k2 + 2) 56 6 2 14 Hn19 ltac:(lia) ltac:(lia) ltac:(lia) ltac:(lia) ltac:(lia)) as B. replace (INR 2) with 2 in B by (cbn; ring). replace (INR 14) with 14 in B by (cbn; ring). exact B.
    - cbn [ndiv]. destruct q2 as [c|c| |c m x B]; try discriminate; [|destruct q1; reflexivity]. destruct q1 as [c'|c'| |c' m' x' B']; try discriminate; reflexivity. }
  destruct (C73_weighted (map val e) n (map val d) (map val w) (map val s) (map val new) HI LE ltac:(lia) LD LW LS HN) as (dx & o1 & o2 & num & den & W1 & W2 & W3).
  fold y in W2.
  exists dx, (map2 ndiv num den), (tab (length new - 1) (fun i => ddiv (value_d (rebin_1d_single_bin_sigma_d o e sw (nth i new dzero) (nth (S i) new dzero))) (value_d (rebin_1d_single_bin_sigma_d o e w (nth i new dzero) (nth (S i) new dzero))))).
  rewrite (rebin_sigma _ n) in W2 by (auto; lia). rewrite (rebin_sigma _ n) in W3 by (auto; lia). injection W2 as _ W2. injection W3 as _ W3.
  split; [exact HD|]. split; [exact W1|]. split.
  { rewrite (rebin_d_ok o e d new (Some w) (Some s) n) by (auto; now apply inc_nondec). rewrite (rebin_d_ok o e d new (Some w) None n) in HD by (auto; now apply inc_nondec).
    destruct (over_bins_d (rebin_1d_single_bin_d o e (map2 dmul d w)) new) as [l|x]; [|discriminate]. cbn [bind] in *.
    destruct (over_bins_d (rebin_1d_single_bin_d o e w) new) as [l'|x]; [|discriminate]. cbn [bind] in *. injection HD as ->. fold sw.
    rewrite !over_d; [cbn [bind]; unfold tab; rewrite map2_map_map; reflexivity| |]; intros i Hi; destruct (SE i Hi) as (q1 & q2 & E1 & E2 & _); eexists; eassumption. }
  rewrite <- W2, <- W3, map2_map_map.
  split; [rewrite map_length, seq_length, map_length; reflexivity|]. split; [apply tab_length|].
  intros j Hj. rewrite tab_nth by exact Hj. rewrite nth_bins by (rewrite map_length; exact Hj). rewrite !nth_val.
  destruct (SE j ltac:(lia)) as (q1 & q2 & -> & -> & C). exact C.
Qed.
Print Assumptions C91_weighted.

(** Equal errors stay as they are, up to that factor. *)
Theorem C91_weighted_equal : forall o e n d w s new c, order_ok o -> (forall x, In x e -> sized (-40) 50 x) -> (forall x, In x new -> sized (-40) 50 x) ->
  increasing (map val e) -> nondecreasing (map val new) -> length e = S n -> (2 <= n)%nat -> INR n <= b2 19 -> length d = n -> length w = n -> length s = n ->
  (forall x, In x s -> sized (-29) 29 x) -> (forall x, In x w -> sized (-29) 29 x /\ val x <> 0) -> 0 <= c -> (forall x, In x s -> val x = c) ->
  exists out sg, rebin_1d_d o e d new (Some w) (Some s) = Ok (out, Some sg) /\ length sg = (length new - 1)%nat /\
    forall j, (j < length new - 1)%nat -> is_finite (nth j sg dzero) = true -> Rabs (val (nth j sg dzero) - c) <= (2 * INR n + 14) * b2 (-50) * c.
Proof.
  intros o e n d w s new c O Me Mn HI HN Le Hn Hn19 Ld Lw Ls Hs Hw Hc Heq.
  destruct (C91_weighted o e n d w s new O Me Mn HI HN Le Hn Hn19 Ld Lw Ls Hs Hw) as (out & dx & ex & sg & _ & R & D & L1 & L2 & C).
  exists out, sg. split; [exact D|]. split; [exact L2|]. intros j Hj F. specialize (C j Hj). destruct (nth j ex None) as [v|] eqn:E; [|cbn in C; congruence].
  rewrite (C73_weighted_equal (map val e) n (map val d) (map val w) (map val s) (map val new) dx ex j c v HI) in C; try (rewrite map_length; assumption || lia); auto; try lia; [apply C|].
  intros i Hi. rewrite nth_val. apply Heq, nth_In. unfold double in *. lia.
Qed.
Print Assumptions C91_weighted_equal.

(** There is an error exactly for a new bin of some length that meets the old
    ones. *)
Theorem C91_defined : forall o e n d s new, order_ok o -> (forall x, In x e -> sized (-40) 50 x) -> (forall x, In x new -> sized (-40) 50 x) ->
  increasing (map val e) -> nondecreasing (map val new) -> length e = S n -> (2 <= n)%nat -> INR n <= b2 19 -> length d = n -> length s = n ->
  (forall x, In x s -> sized (-60) 60 x) ->
  exists out sg, rebin_1d_d o e d new None (Some s) = Ok (out, Some sg) /\ length sg = (length new - 1)%nat /\
    forall j, (j < length new - 1)%nat -> let a := val (nth j new dzero) in let b := val (nth (S j) new dzero) in
      is_finite (nth j sg dzero) = true <-> a < b /\ val (nth 0 e dzero) < b /\ a < val (nth n e dzero).
Proof.
  intros o e n d s new O Me Mn HI HN Le Hn Hn19 Ld Ls Hs.
  destruct (C91_accuracy o e n d s new O Me Mn HI HN Le Hn Hn19 Ld Ls Hs) as (out & dx & ex & sg & _ & R & D & L1 & L2 & C).
  exists out, sg. split; [exact D|]. split; [exact L2|]. intros j Hj a b. specialize (C j Hj). pose proof (new_le_d new j HN ltac:(lia)) as AB.
  pose proof (C73_defined (map val e) n (map val d) (map val s) (map val new) dx ex j HI) as DF. rewrite !map_length in DF. specialize (DF Le ltac:(lia) Ld Ls HN ltac:(lia) R). cbv zeta in DF. rewrite !nth_val in DF.
  fold a b in DF, AB. split.
  - intros F. destruct (nth j ex None) as [v|]; [|cbn in C; congruence]. repeat split; apply Rnot_le_lt; intros X; assert (Z : Some v = None) by (apply DF; [lra || tauto]); discriminate.
  - intros (X1 & X2 & X3). destruct (nth j ex None) as [v|]; [apply C|]. exfalso. destruct (proj1 DF eq_refl) as [X|[X|[X|[X _]]]]; try lra. lia.
Qed.
Print Assumptions C91_defined.

(** User expectation: where there is no error it is NaN.  Violated: for a new bin
    of no length inside an old bin the value is that of the old bin and the error
    is infinite. *)
Theorem C91_nan_refuted : exists o e d s new out sg, order_ok o /\ (forall x, In x e -> sized (-40) 50 x) /\ (forall x, In x new -> sized (-40) 50 x) /\
  increasing (map val e) /\ nondecreasing (map val new) /\ length e = 3%nat /\ length d = 2%nat /\ length s = 2%nat /\ (forall x, In x s -> sized (-60) 60 x) /\
  rebin_1d_d o e d new None (Some s) = Ok (out, Some sg) /\ out = [dint 5] /\ map B2SF sg = [SpecFloat.S754_infinity false].
Proof.
  destruct (fin_dint [0; 2; 4]%Z) as [F V]; [intros z [<- |[<- |[<- |[]]]]; lia|]. destruct (fin_dint [1; 1]%Z) as [F' V']; [intros z [<- |[<- |[]]]; lia|].
  assert (B4 : forall lo hi x, (lo <= 0)%Z -> (3 <= hi)%Z -> 1 <= x <= 8 -> bpow radix2 lo <= Rabs x <= bpow radix2 hi).
  { intros lo hi x H1 H2 Hx. rewrite Rabs_pos_eq by lra. split; [apply Rle_trans with (b2 0); [apply bpow_le; lia|change (b2 0) with 1; lra]|apply Rle_trans with (b2 3); [change (b2 3) with 8; lra|apply bpow_le; lia]]. }
  exists one_by_one, (map dint [0; 2; 4]%Z), (map dint [5; 7]%Z), (map dint [1; 1]%Z), (map dint [1; 1]%Z). do 2 eexists.
  split; [exact one_by_one_ok|]. split; [|split; [|split; [|split; [|split; [reflexivity|split; [reflexivity|split; [reflexivity|split; [|split; [reflexivity|split]]]]]]]]].
  - intros x Hx. split; [apply F, Hx|]. apply (in_map val) in Hx. rewrite V in Hx. destruct Hx as [<- |[<- |[<- |[]]]]; [now left|right; apply B4; lia || lra|right; apply B4; lia || lra].
  - intros x Hx. split; [apply F', Hx|]. apply (in_map val) in Hx. rewrite V' in Hx. destruct Hx as [<- |[<- |[]]]; right; apply B4; lia || lra.
  - rewrite V. intros i j Hij. cbn [length map] in Hij. destruct i as [|[|[|]]]; destruct j as [|[|[|]]]; try lia; cbn [nth map]; lra.
  - rewrite V'. intros i j Hij. cbn [length map] in Hij. destruct i as [|[|]]; destruct j as [|[|]]; try lia; cbn [nth map]; lra.
  - intros x Hx. split; [apply F', Hx|]. apply (in_map val) in Hx. rewrite V' in Hx. destruct Hx as [<- |[<- |[]]]; right; apply B4; lia || lra.
  - cbn [nth]. f_equal; apply B2SF_inj; vm_compute; reflexivity.
  - vm_compute. reflexivity.
Qed.
Print Assumptions C91_nan_refuted.

(** ** An example *)

Example C91_example : exists out wout sg wsg, let e := map dint [0; 1; 2; 4]%Z in let d := map dint [5; 7; 1]%Z in let new := map dint [0; 3; 4; 5]%Z in let s := map dint [1; 2; 1]%Z in let w := map dint [1; 2; 4]%Z in
  (forall x, In x e -> sized (-40) 50 x) /\ (forall x, In x new -> sized (-40) 50 x) /\ increasing (map val e) /\ nondecreasing (map val new) /\
  (forall x, In x s -> sized (-29) 29 x) /\ (forall x, In x w -> sized (-29) 29 x /\ val x <> 0) /\
  rebin_1d_d one_by_one e d new None (Some s) = Ok (out, Some sg) /\ rebin_1d_d one_by_one e d new (Some w) (Some s) = Ok (wout, Some wsg) /\
  map B2SF sg = [SpecFloat.S754_finite false 7943603079083661 (-53); SpecFloat.S754_finite false 6369051672525773 (-52); SpecFloat.S754_infinity false] /\ map B2SF wsg = [SpecFloat.S754_finite false 5182710525779459 (-52); SpecFloat.S754_finite false 4503599627370496 (-52); SpecFloat.S754_nan].
Proof.
  destruct (fin_dint [0; 1; 2; 4]%Z) as [F V]; [intros z [<- |[<- |[<- |[<- |[]]]]]; lia|]. destruct (fin_dint [0; 3; 4; 5]%Z) as [F' V']; [intros z [<- |[<- |[<- |[<- |[]]]]]; lia|].
  destruct (fin_dint [1; 2; 1]%Z) as [Fs Vs]; [intros z [<- |[<- |[<- |[]]]]; lia|]. destruct (fin_dint [1; 2; 4]%Z) as [Fw Vw]; [intros z [<- |[<- |[<- |[]]]]; lia|].
  assert (B4 : forall lo hi x, (lo <= 0)%Z -> (3 <= hi)%Z -> 1 <= x <= 8 -> bpow radix2 lo <= Rabs x <= bpow radix2 hi).
  { intros lo hi x H1 H2 Hx. rewrite Rabs_pos_eq by lra. split; [apply Rle_trans with (b2 0); [apply bpow_le; lia|change (b2 0) with 1; lra]|apply Rle_trans with (b2 3); [change (b2 3) with 8; lra|apply bpow_le; lia]]. }
  do 4 eexists. cbv zeta.
  split; [|split; [|split; [|split; [|split; [|split; [|split; [reflexivity|split; [reflexivity|split]]]]]]]].
  - intros x Hx. split; [apply F, Hx|]. apply (in_map val) in Hx. rewrite V in Hx. destruct Hx as [<- |[<- |[<- |[<- |[]]]]]; [now left| | |]; right; apply B4; lia || lra.
  - intros x Hx. split; [apply F', Hx|]. apply (in_map val) in Hx. rewrite V' in Hx. destruct Hx as [<- |[<- |[<- |[<- |[]]]]]; [now left| | |]; right; apply B4; lia || lra.
  - rewrite V. intros i j Hij. cbn [length map] in Hij. destruct i as [|[|[|[|]]]]; destruct j as [|[|[|[|]]]]; try lia; cbn [nth map]; lra.
  - rewrite V'. intros i j Hij. cbn [length map] in Hij. destruct i as [|[|[|[|]]]]; destruct j as [|[|[|[|]]]]; try lia; cbn [nth map]; lra.
  - intros x Hx. split; [apply Fs, Hx|]. apply (in_map val) in Hx. rewrite Vs in Hx. destruct Hx as [<- |[<- |[<- |[]]]]; right; apply B4; lia || lra.
  - intros x Hx. assert (G : 1 <= val x <= 8) by (apply (in_map val) in Hx; rewrite Vw in Hx; destruct Hx as [<- |[<- |[<- |[]]]]; lra).
    split; [split; [apply Fw, Hx|right; apply B4; lia || lra]|lra].
  - vm_compute. reflexivity.
  - vm_compute. reflexivity.
Qed.
