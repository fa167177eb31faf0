(** * Rebinning in one dimension: consequences *)

From Coq Require Import Reals ZArith List Bool Lra Lia Psatz.
From Flocq Require Import Core.Raux.
From Verif Require Import Base BaseP SpecGrid MGrids MUtils MOneD PGrids PRadial PUtils.
From Verif Require Import PPolarCoords POneD.
Import ListNotations.
Open Scope R_scope.

Definition pick (d : list R) (idx : list nat) : list R := map (fun i => nth i d 0) idx.

(** ** Every finite value is a mean with fixed non-negative weights *)

Definition no_bin (e : list R) (bmin bmax : R) : Prop :=
  bmax < nth 0 e 0 \/ nth (length e - 1) e 0 < bmin \/
  (bmin = bmax /\ exists c, (0 < c < length e - 1)%nat /\ nth c e 0 = bmin).

Section Convex.
Variables (e : list R) (n : nat) (bmin bmax : R).
Hypothesis HI : increasing e.
Hypothesis He : length e = S n.
Hypothesis Hn : (1 <= n)%nat.
Hypothesis Hb : bmin <= bmax.

Definition is_mean (f : list R -> res num) : Prop :=
  exists ws idx, length ws = length idx /\ (forall x, In x ws -> 0 <= x) /\ 0 < Rsum ws /\
    (forall i, In i idx -> (i < n)%nat) /\
    forall d, length d = n -> f d = Ok (Some (wmean ws (pick d idx))).

Lemma mean_one : forall k, (k < n)%nat -> forall f,
  (forall d, length d = n -> f d = Ok (Some (nth k d 0))) -> is_mean f.
Proof.
  intros k Hk f H. exists [1], [k]. split; [reflexivity|]. split; [intros x [<-|[]]; lra|].
  split; [cbn; lra|]. split; [intros i [<-|[]]; exact Hk|].
  intros d Hd. rewrite H by exact Hd. unfold wmean, pick. cbn. do 2 f_equal. field.
Qed.

Lemma In_repeat : forall A (a x : A) k, In x (repeat a k) -> x = a.
Proof. intros. apply repeat_spec in H. exact H. Qed.

Lemma in_seq_lt : forall p m i, In i (seq p m) -> (p + m <= n)%nat -> (i < n)%nat.
Proof. intros p m i H H2. apply in_seq in H. lia. Qed.

Lemma single_dichotomy :
  (no_bin e bmin bmax /\ forall d, length d = n -> rebin_1d_single_bin e d bmin bmax = Ok None) \/
  (~ no_bin e bmin bmax /\ is_mean (fun d => rebin_1d_single_bin e d bmin bmax)).
Proof.
  destruct (locate e bmin bmax HI Hb) as (lo & hi & HL).
  pose proof HL as (HR & H1 & H2). rewrite He in HR.
  assert (C0 : bmax < nth 0 e 0 <-> hi = 0%nat).
  { specialize (H2 0%nat ltac:(lia)). split; intros H.
    - destruct hi; [reflexivity|]. assert (nth 0 e 0 <= bmax) by (apply H2; lia). lra.
    - apply Rnot_le_lt. intros HC. apply H2 in HC. lia. }
  assert (C1 : nth (length e - 1) e 0 < bmin <-> lo = S n).
  { rewrite H1 by lia. rewrite He. lia. }
  assert (NB : no_bin e bmin bmax <-> (hi = 0%nat \/ lo = S n \/
             (bmin = bmax /\ exists c, (0 < c < length e - 1)%nat /\ nth c e 0 = bmin))).
  { unfold no_bin. tauto. }
  destruct (Nat.eq_dec lo hi) as [EQ|NE].
  - (* no edge inside *)
    assert (NC : forall c, (c < length e)%nat -> bmin = bmax -> nth c e 0 <> bmin).
    { intros c Hc Hbb HC. assert (c < hi)%nat by (apply H2; lra || lia).
      assert (c < lo)%nat by lia. assert (nth c e 0 < bmin) by (apply H1; lia). lra. }
    destruct (Nat.eq_dec lo 0) as [Z|Z]; [|destruct (Nat.eq_dec lo (S n)) as [Z'|Z']].
    + left. split; [apply NB; lia|]. intros d Hd. apply (single_0_out e lo hi bmin bmax d n); auto.
    + left. split; [apply NB; lia|]. intros d Hd. apply (single_0_out e lo hi bmin bmax d n); auto.
    + right. split.
      * rewrite NB. intros [H|[H|[Hbb (c & Hc & HC)]]]; try lia. apply (NC c) in HC; [exact HC|lia|exact Hbb].
      * apply (mean_one (lo - 1)); [lia|]. intros d Hd.
        apply (single_0_in e lo hi bmin bmax d n); auto; lia.
  - assert (LT : (lo < hi)%nat) by lia.
    assert (IN : nth lo e 0 <= bmax) by (apply H2; lia).
    assert (IN' : ~ nth lo e 0 < bmin) by (intros HC; apply H1 in HC; lia).
    assert (DEG : bmin = bmax -> hi = S lo).
    { intros Hbb. destruct (Nat.eq_dec hi (S lo)) as [|Hne]; [assumption|]. exfalso.
      assert (nth (S lo) e 0 <= bmax) by (apply H2; lia).
      pose proof (HI lo (S lo) ltac:(lia)). lra. }
    assert (LONLY : forall c, (c < length e)%nat -> bmin = bmax -> nth c e 0 = bmin -> c = lo).
    { intros c Hc Hbb HC. assert (c < hi)%nat by (apply H2; lra || lia).
      assert (~ (c < lo)%nat). { intros HX. apply H1 in HX; [lra|lia]. }
      specialize (DEG Hbb). lia. }
    destruct (Nat.eq_dec hi (S lo)) as [K1|K1].
    + (* one edge *)
      destruct (Nat.eq_dec lo 0) as [Z|Z]; [|destruct (Nat.eq_dec lo n) as [Z'|Z']].
      * right. split.
        -- rewrite NB. intros [H|[H|[Hbb (c & Hc & HC)]]]; try lia.
           apply LONLY in HC; [lia|lia|exact Hbb].
        -- apply (mean_one 0); [lia|]. intros d Hd.
           apply (single_1_first e lo hi bmin bmax d n); auto; lia.
      * right. split.
        -- rewrite NB. intros [H|[H|[Hbb (c & Hc & HC)]]]; try lia.
           apply LONLY in HC; [lia|lia|exact Hbb].
        -- apply (mean_one (n - 1)); [lia|]. intros d Hd.
           apply (single_1_last e lo hi bmin bmax d n); auto; lia.
      * assert (P1 := HI (lo - 1)%nat lo ltac:(lia)). assert (P2 := HI lo (lo + 1)%nat ltac:(lia)).
        assert (U1 : 0 <= u1 e lo bmin).
        { unfold u1. apply Rmult_le_pos; [lra|]. left. apply Rinv_0_lt_compat. lra. }
        assert (U2 : 0 <= u2 e lo bmax).
        { unfold u2. apply Rmult_le_pos; [lra|]. left. apply Rinv_0_lt_compat. lra. }
        destruct (Req_dec bmin bmax) as [Hbb|Hbb].
        -- left. split.
           ++ apply NB. right; right. split; [exact Hbb|]. exists lo. split; [lia|]. lra.
           ++ intros d Hd. rewrite (single_1_mid e lo hi bmin bmax d n) by (auto; lia).
              assert (nth lo e 0 = bmin) by lra. unfold u1, u2. rewrite <- Hbb, H.
              unfold fdiv. rewrite Req_bool_true; [reflexivity|]. unfold Rdiv. ring.
        -- right. split.
           ++ rewrite NB. intros [H|[H|[Hbb' _]]]; try lia. contradiction.
           ++ assert (US : 0 < u1 e lo bmin + u2 e lo bmax).
              { destruct (Rle_lt_or_eq_dec bmin (nth lo e 0)) as [Q|Q]; [lra| |].
                - assert (0 < u1 e lo bmin); [|lra]. unfold u1. apply Rdiv_lt_0_compat; lra.
                - assert (0 < u2 e lo bmax); [|lra]. unfold u2. apply Rdiv_lt_0_compat; lra. }
              exists [u1 e lo bmin; u2 e lo bmax], [(lo - 1)%nat; lo].
              split; [reflexivity|]. split; [intros x [<-|[<-|[]]]; assumption|].
              split; [cbn; lra|]. split; [intros i [<-|[<-|[]]]; lia|].
              intros d Hd. rewrite (single_1_mid e lo hi bmin bmax d n) by (auto; lia).
              rewrite fdiv_ok by lra. unfold wmean, pick. cbn. rewrite !Rplus_0_r. reflexivity.
    + (* at least two edges *)
      right. split.
      { rewrite NB. intros [H|[H|[Hbb _]]]; try lia. specialize (DEG Hbb). lia. }
      assert (K2 : (2 <= hi - lo)%nat) by lia.
      assert (WL := wL_nonneg e lo hi bmin bmax HI HL K2).
      assert (PN : 0 < INR (hi - lo - 1)) by (apply lt_0_INR; lia).
      destruct (Nat.eq_dec lo 0) as [Z|Z]; destruct (Nat.eq_dec hi (S n)) as [Z'|Z'].
      * exists (repeat 1 (S n)), ((n - 1)%nat :: seq 0 n).
        split; [cbn [length]; rewrite repeat_length, seq_length; lia|].
        split; [intros x Hx; apply In_repeat in Hx; lra|].
        split; [rewrite Rsum_repeat; rewrite S_INR; pose proof (pos_INR n); lra|].
        split; [intros i [<-|Hi]; [lia|apply in_seq in Hi; lia]|].
        intros d Hd. apply (single_D e lo hi bmin bmax d n); auto; lia.
      * eexists (_ ++ [_]), (seq 0 (hi - lo)).
        split; [|split; [|split; [|split]]].
        5: { intros d Hd. apply (single_C e lo hi bmin bmax d n); auto; lia. }
        -- rewrite app_length, repeat_length, seq_length. cbn [length]. lia.
        -- intros x Hx. apply in_app_or in Hx. destruct Hx as [Hx|[<-|[]]]; [apply In_repeat in Hx; lra|assumption].
        -- rewrite Rsum_app, Rsum_repeat, Rsum_cons. change (Rsum []) with 0. lra.
        -- intros i Hi. apply in_seq in Hi. lia.
      * assert (WF := wF_range e lo hi bmin bmax HI HL K2 Z).
        eexists (_ :: _), (seq (lo - 1) (hi - lo)).
        split; [|split; [|split; [|split]]].
        5: { intros d Hd. apply (single_B e lo hi bmin bmax d n); auto; lia. }
        -- cbn [length]. rewrite repeat_length, seq_length. lia.
        -- intros x [<-|Hx]; [lra|apply In_repeat in Hx; lra].
        -- rewrite Rsum_cons, Rsum_repeat. lra.
        -- intros i Hi. apply in_seq in Hi. lia.
      * assert (WF := wF_range e lo hi bmin bmax HI HL K2 Z).
        eexists (_ :: _ ++ [_]), (seq (lo - 1) (S (hi - lo))).
        split; [|split; [|split; [|split]]].
        5: { intros d Hd. apply (single_A e lo hi bmin bmax d n); auto; lia. }
        -- cbn [length]. rewrite app_length, repeat_length, seq_length. cbn [length]. lia.
        -- intros x [<-|Hx]; [lra|]. apply in_app_or in Hx.
           destruct Hx as [Hx|[<-|[]]]; [apply In_repeat in Hx; lra|assumption].
        -- rewrite Rsum_cons, Rsum_app, Rsum_repeat, Rsum_cons. change (Rsum []) with 0. lra.
        -- intros i Hi. apply in_seq in Hi. lia.
Qed.
End Convex.

Lemma map2_comm : forall l m, map2 Rmult l m = map2 Rmult m l.
Proof. induction l as [|a l IH]; intros [|b m]; try reflexivity. cbn. now rewrite IH, Rmult_comm. Qed.

Lemma wmean_within : forall ws ds lo hi, length ws = length ds -> (forall x, In x ws -> 0 <= x) ->
  0 < Rsum ws -> within lo hi ds -> lo <= wmean ws ds <= hi.
Proof.
  intros ws ds lo hi HL Hw Hs HW. unfold wmean. rewrite map2_comm.
  pose proof (wsum_within ds ws lo hi (eq_sym HL) HW Hw).
  split.
  - apply (Rmult_le_reg_r (Rsum ws)); [exact Hs|]. unfold Rdiv. rewrite Rmult_assoc, Rinv_l by lra. lra.
  - apply (Rmult_le_reg_r (Rsum ws)); [exact Hs|]. unfold Rdiv. rewrite Rmult_assoc, Rinv_l by lra. lra.
Qed.

Lemma pick_within : forall d n idx lo hi, length d = n -> (forall i, In i idx -> (i < n)%nat) ->
  within lo hi d -> within lo hi (pick d idx).
Proof.
  intros d n idx lo hi Hd Hi HW x Hx. apply in_map_iff in Hx. destruct Hx as (i & <- & H).
  apply HW. apply nth_In. rewrite Hd. now apply Hi.
Qed.

Lemma pick_prod : forall d w idx, length d = length w -> (forall i, In i idx -> (i < length d)%nat) ->
  pick (map2 Rmult d w) idx = map2 Rmult (pick d idx) (pick w idx).
Proof.
  intros d w idx HL. induction idx as [|i idx IH]; intros H; [reflexivity|].
  cbn [pick map map2]. f_equal; [|apply IH; intros; apply H; now right].
  apply nth_map2; [apply H; now left|rewrite <- HL; apply H; now left].
Qed.

Lemma wsum_pos : forall ws vv, length ws = length vv ->
  (forall x, In x ws -> 0 <= x) -> 0 < Rsum ws -> (forall x, In x vv -> 0 < x) ->
  0 < Rsum (map2 Rmult ws vv).
Proof.
  induction ws as [|w ws IH]; intros [|v vv] H1 Hw Hs Hv; cbn in H1; try lia; [cbn in Hs; lra|].
  cbn [map2]. rewrite Rsum_cons in *.
  assert (0 <= w) by (apply Hw; now left). assert (0 < v) by (apply Hv; now left).
  assert (0 <= w * v) by (apply Rmult_le_pos; lra).
  assert (NN : 0 <= Rsum (map2 Rmult ws vv)).
  { apply Rsum_nonneg_in. intros x Hx. apply In_nth with (d := 0) in Hx. destruct Hx as (i & Hi & <-).
    rewrite map2_length in Hi. rewrite (nth_map2 _ _ _ _ _ _ i 0 0 0) by lia.
    apply Rmult_le_pos; [apply Hw; right; apply nth_In; lia|left; apply Hv; right; apply nth_In; lia]. }
  destruct (Req_dec w 0) as [->|Hne].
  - assert (0 < Rsum (map2 Rmult ws vv)); [|lra]. apply IH; try lia; try lra.
    + intros x Hx; apply Hw; now right.
    + intros x Hx; apply Hv; now right.
  - assert (0 < w * v) by (apply Rmult_lt_0_compat; lra). lra.
Qed.

Lemma wmean_pos : forall ws vv, length ws = length vv ->
  (forall x, In x ws -> 0 <= x) -> 0 < Rsum ws -> (forall x, In x vv -> 0 < x) -> 0 < wmean ws vv.
Proof. intros. unfold wmean. apply Rdiv_lt_0_compat; [now apply wsum_pos|assumption]. Qed.

(** A quotient of two means with the same weights. *)
Lemma wmean_quotient : forall ws dd vv lo hi, length ws = length dd -> length dd = length vv ->
  (forall x, In x ws -> 0 <= x) -> 0 < Rsum ws -> (forall x, In x vv -> 0 < x) -> within lo hi dd ->
  lo <= wmean ws (map2 Rmult dd vv) / wmean ws vv <= hi.
Proof.
  intros ws dd vv lo hi H1 H2 Hw Hs Hv HW.
  assert (P : 0 < Rsum (map2 Rmult ws vv)) by (apply wsum_pos; auto; lia).
  assert (X : map2 Rmult ws (map2 Rmult dd vv) = map2 Rmult dd (map2 Rmult ws vv)).
  { clear - H1 H2. revert dd vv H1 H2. induction ws as [|w ws IH]; intros [|x dd] [|v vv] H1 H2; cbn in *; try lia; [reflexivity|].
    rewrite IH by lia. f_equal. ring. }
  assert (B := wsum_within dd (map2 Rmult ws vv) lo hi).
  rewrite map2_length in B. specialize (B ltac:(lia) HW).
  assert (BB : lo * Rsum (map2 Rmult ws vv) <= Rsum (map2 Rmult dd (map2 Rmult ws vv)) <= hi * Rsum (map2 Rmult ws vv)).
  { apply B. intros x Hx. apply In_nth with (d := 0) in Hx. destruct Hx as (i & Hi & <-).
    rewrite map2_length in Hi. rewrite (nth_map2 _ _ _ _ _ _ i 0 0 0) by lia.
    apply Rmult_le_pos; [apply Hw; apply nth_In; lia|left; apply Hv; apply nth_In; lia]. }
  unfold wmean. rewrite X.
  set (P' := Rsum (map2 Rmult ws vv)) in *. set (Q := Rsum (map2 Rmult dd (map2 Rmult ws vv))) in *.
  replace (Q / Rsum ws / (P' / Rsum ws)) with (Q / P') by (field; split; lra).
  split.
  - apply (Rmult_le_reg_r P'); [exact P|]. unfold Rdiv. rewrite Rmult_assoc, Rinv_l by lra. lra.
  - apply (Rmult_le_reg_r P'); [exact P|]. unfold Rdiv. rewrite Rmult_assoc, Rinv_l by lra. lra.
Qed.

(** ** The whole function *)

Lemma increasing_monotonic : forall e, increasing e -> is_pos_monotonic (map Some e) = true.
Proof.
  intros e H. apply is_pos_monotonic_spec. intros i j Hij.
  destruct (Nat.eq_dec i j) as [->|]; [lra|]. pose proof (H i j ltac:(lia)). lra.
Qed.

Lemma rebin_ok : forall e d new w sigma n, increasing e -> length e = S n -> length d = n -> nondecreasing new ->
  match w with Some w => length w = n | None => True end ->
  match sigma with Some w => length w = n | None => True end ->
  rebin_1d e d new w sigma =
  (data_new <- match w with
    | None => over_bins (rebin_1d_single_bin e d) new
    | Some w =>
        num <- over_bins (rebin_1d_single_bin e (map2 Rmult d w)) new ;;
        den <- over_bins (rebin_1d_single_bin e w) new ;;
        Ok (map2 ndiv num den)
    end ;;
  match sigma with
  | None => Ok (data_new, None)
  | Some sigma =>
      sigma_new <- match w with
        | None => over_bins (rebin_1d_single_bin_sigma e sigma) new
        | Some w =>
            num <- over_bins (rebin_1d_single_bin_sigma e (map2 Rmult sigma w)) new ;;
            den <- over_bins (rebin_1d_single_bin_sigma e w) new ;;
            Ok (map2 ndiv num den)
        end ;;
      Ok (data_new, Some sigma_new)
  end).
Proof.
  intros e d new w sigma n HI He Hd HN Hw Hs. unfold rebin_1d.
  replace (Z.of_nat (length e) - 1 =? Z.of_nat (length d))%Z with true by (symmetry; apply Z.eqb_eq; lia).
  rewrite (increasing_monotonic e HI), (proj2 (is_pos_monotonic_spec new) HN).
  assert (G1 : match w with Some w => (length d =? length w)%nat | None => true end = true)
    by (destruct w; [apply Nat.eqb_eq; lia|reflexivity]).
  assert (G2 : match sigma with Some w => (length d =? length w)%nat | None => true end = true)
    by (destruct sigma; [apply Nat.eqb_eq; lia|reflexivity]).
  rewrite G1, G2. reflexivity.
Qed.

Lemma over_bins_ok : forall A (f : R -> R -> res A) (g : R -> R -> A) new,
  (forall i, (S i < length new)%nat ->
     f (nth i new 0) (nth (S i) new 0) = Ok (g (nth i new 0) (nth (S i) new 0))) ->
  over_bins f new = Ok (map (fun i => g (nth i new 0) (nth (S i) new 0)) (seq 0 (length new - 1))).
Proof.
  intros A f g new H. unfold over_bins. apply mapM_ok. intros i Hi. apply in_seq in Hi. apply H. lia.
Qed.

(** ** Identical bins *)

Lemma located_same : forall e n i, increasing e -> length e = S n -> (i < n)%nat ->
  located e i (i + 2) (nth i e 0) (nth (S i) e 0).
Proof.
  intros e n i HI He Hi. split; [lia|]. split; intros j Hj; split; intros H.
  - destruct (Nat.lt_ge_cases j i) as [|Hge]; [assumption|]. exfalso.
    destruct (Nat.eq_dec i j) as [->|]; [lra|]. pose proof (HI i j ltac:(lia)). lra.
  - apply HI. lia.
  - destruct (Nat.lt_ge_cases j (i + 2)) as [|Hge]; [assumption|]. exfalso.
    pose proof (HI (S i) j ltac:(lia)). lra.
  - destruct (Nat.eq_dec j (S i)) as [->|]; [lra|]. left. apply HI. lia.
Qed.

Lemma single_same : forall e n d i, increasing e -> length e = S n -> length d = n -> (i < n)%nat ->
  rebin_1d_single_bin e d (nth i e 0) (nth (S i) e 0) = Ok (Some (nth i d 0)).
Proof.
  intros e n d i HI He Hd Hi. assert (HL := located_same e n i HI He Hi).
  assert (W0 : forall e0 : list R, wF e i (nth i e 0) = 0) by (intros; unfold wF, Rdiv; ring).
  assert (W1 : wL e (i + 2) (nth (S i) e 0) = 0).
  { unfold wL. replace (i + 2 - 1)%nat with (S i) by lia. unfold Rdiv. ring. }
  assert (KK : (i + 2 - i)%nat = 2%nat) by lia.
  destruct (Nat.eq_dec i 0) as [Z|Z]; destruct (Nat.eq_dec (i + 2) (S n)) as [Z'|Z'].
  - rewrite (single_D e i (i + 2) _ _ d n) by (auto; lia). do 2 f_equal.
    assert (n = 1%nat) as -> by lia. subst i. unfold wmean. cbn. field.
  - rewrite (single_C e i (i + 2) _ _ d n) by (auto; lia). rewrite KK, W1. do 2 f_equal.
    subst i. unfold wmean. cbn. field.
  - rewrite (single_B e i (i + 2) _ _ d n) by (auto; lia). rewrite KK, (W0 e). do 2 f_equal.
    destruct i as [|i]; [lia|]. unfold wmean. cbn [Nat.sub repeat slice seq map]. rewrite Nat.sub_0_r. cbn. field.
  - rewrite (single_A e i (i + 2) _ _ d n) by (auto; lia). rewrite KK, (W0 e), W1. do 2 f_equal.
    destruct i as [|i]; [lia|]. unfold wmean. cbn [Nat.sub repeat slice seq map]. rewrite Nat.sub_0_r. cbn. field.
Qed.

(** ** Overlap average on uniform bins *)

Lemma Rsum_zero : forall A (g : A -> R) l, (forall x, In x l -> g x = 0) -> Rsum (map g l) = 0.
Proof.
  intros A g l. induction l as [|a l IH]; intros H; [reflexivity|]. cbn [map]. rewrite Rsum_cons, IH, H.
  - ring. - now left. - intros; apply H; now right.
Qed.

Lemma sum_window : forall (g : nat -> R) n p m, (p + m <= n)%nat ->
  (forall i, (i < n)%nat -> (i < p \/ p + m <= i)%nat -> g i = 0) ->
  Rsum (map g (seq 0 n)) = Rsum (map g (seq p m)).
Proof.
  intros g n p m H HZ. replace n with (p + (m + (n - p - m)))%nat at 1 by lia.
  rewrite seq_app, seq_app, !map_app, !Rsum_app. rewrite Nat.add_0_l.
  rewrite (Rsum_zero _ g (seq 0 p)), (Rsum_zero _ g (seq (p + m) _)); [ring| |].
  - intros i Hi. apply in_seq in Hi. apply HZ; lia.
  - intros i Hi. apply in_seq in Hi. apply HZ; lia.
Qed.

Lemma wmean_scaled : forall (g : nat -> R) h d p m ws, h <> 0 -> length ws = m ->
  (forall t, (t < m)%nat -> nth t ws 0 = g (p + t)%nat / h) ->
  wmean ws (slice d p m) = Rsum (map (fun i => g i * nth i d 0) (seq p m)) / Rsum (map g (seq p m)).
Proof.
  intros g h d p m ws Hh HL HW. unfold wmean.
  assert (E1 : Rsum ws = Rsum (map g (seq p m)) / h).
  { assert (ws = map (fun i => / h * g i) (seq p m)) as ->.
    { apply (list_ext R _ _ 0); [rewrite map_length, seq_length; exact HL|]. intros t Ht. rewrite HL in Ht.
      rewrite HW by lia. rewrite (nth_map_lt _ _ _ _ t 0 0%nat) by (rewrite seq_length; lia).
      rewrite seq_nth by lia. unfold Rdiv. ring. }
    rewrite Rsum_map_scal. unfold Rdiv. ring. }
  assert (E2 : Rsum (map2 Rmult ws (slice d p m)) = Rsum (map (fun i => g i * nth i d 0) (seq p m)) / h).
  { assert (map2 Rmult ws (slice d p m) = map (fun i => / h * (g i * nth i d 0)) (seq p m)) as ->.
    { apply (list_ext R _ _ 0); [rewrite map2_length, map_length, length_slice, seq_length; lia|]. intros t Ht.
      rewrite map2_length, length_slice in Ht.
      rewrite (nth_map2 _ _ _ _ _ _ t 0 0 0) by (rewrite ?length_slice; lia).
      rewrite HW by lia. unfold slice. rewrite !(nth_map_lt _ _ _ _ t 0 0%nat) by (rewrite seq_length; lia).
      rewrite seq_nth by lia. unfold Rdiv. ring. }
    rewrite (Rsum_map_scal _ (fun i => g i * nth i d 0)). unfold Rdiv. ring. }
  rewrite E1, E2. set (A := Rsum (map g (seq p m))).
  destruct (Req_dec A 0) as [->|HA].
  - unfold Rdiv. rewrite !Rmult_0_l, Rinv_0. ring.
  - field. split; assumption.
Qed.

Lemma nth_ends : forall a b m t, (t <= S m)%nat -> nth t (a :: repeat 1 m ++ [b]) 0
  = if (t =? 0)%nat then a else if (t =? S m)%nat then b else 1.
Proof.
  intros a b m [|t] H; [reflexivity|]. cbn [nth Nat.eqb].
  destruct (Nat.eqb_spec t m) as [->|Hne].
  - rewrite app_nth2 by (rewrite repeat_length; lia). rewrite repeat_length, Nat.sub_diag. reflexivity.
  - rewrite app_nth1 by (rewrite repeat_length; lia). apply nth_repeat_lt. lia.
Qed.

Section Uniform.
Variables (e : list R) (a h : R) (n lo hi : nat) (bmin bmax : R) (d : list R).
Hypothesis HU : uniform_edges e a h n.
Hypothesis Hh : 0 < h.
Hypothesis Hn : (1 <= n)%nat.
Hypothesis Hd : length d = n.
Hypothesis HL : located e lo hi bmin bmax.
Hypothesis Hb : bmin <= bmax.

Lemma uniform_increasing : increasing e.
Proof.
  clear - HU Hh. intros i j Hij. destruct HU as [H1 H2]. rewrite !H2 by lia.
  assert (INR i < INR j) by (apply lt_INR; lia). nra.
Qed.

Definition ov (i : nat) : R := overlap bmin bmax (nth i e 0) (nth (S i) e 0).

Lemma step : forall i, (i < n)%nat -> nth (S i) e 0 - nth i e 0 = h.
Proof. intros i Hi. destruct HU as [H1 H2]. rewrite !H2, S_INR by lia. ring. Qed.

Lemma lenE : length e = S n. Proof. apply HU. Qed.

Lemma below : forall i, (i < lo)%nat -> nth i e 0 < bmin.
Proof. intros i Hi. destruct HL as (A & B & C). apply B; lia. Qed.
Lemma above_min : forall i, (lo <= i <= n)%nat -> bmin <= nth i e 0.
Proof. intros i Hi. destruct HL as (A & B & C). pose proof lenE. apply Rnot_lt_le. intros H0. apply B in H0; lia. Qed.
Lemma below_max : forall i, (i < hi)%nat -> nth i e 0 <= bmax.
Proof. intros i Hi. destruct HL as (A & B & C). apply C; lia. Qed.
Lemma above : forall i, (hi <= i <= n)%nat -> bmax < nth i e 0.
Proof. intros i Hi. destruct HL as (A & B & C). pose proof lenE. apply Rnot_le_lt. intros H0. apply C in H0; lia. Qed.

Lemma ov_first : (1 <= lo)%nat -> (lo < hi)%nat -> ov (lo - 1) = nth lo e 0 - bmin.
Proof.
  intros H1 H2. unfold ov, overlap. replace (S (lo - 1)) with lo by lia.
  pose proof (below (lo - 1) ltac:(lia)). pose proof (below_max lo ltac:(lia)).
  assert (lo <= n)%nat by (destruct HL as (A & _); pose proof lenE; lia).
  pose proof (above_min lo ltac:(lia)).
  rewrite (Rmin_right bmax), (Rmax_left bmin), Rmax_right by lra. reflexivity.
Qed.

Lemma ov_mid : forall i, (lo <= i)%nat -> (S i < hi)%nat -> ov i = h.
Proof.
  intros i H1 H2. unfold ov, overlap.
  assert (hi <= S n)%nat by (destruct HL as (A & _); pose proof lenE; lia).
  pose proof (above_min i ltac:(lia)). pose proof (below_max (S i) ltac:(lia)). pose proof (step i ltac:(lia)).
  rewrite (Rmin_right bmax), (Rmax_right bmin), Rmax_right by lra. lra.
Qed.

Lemma ov_last : (lo < hi)%nat -> (hi <= n)%nat -> ov (hi - 1) = bmax - nth (hi - 1) e 0.
Proof.
  intros H1 H2. unfold ov, overlap. replace (S (hi - 1)) with hi by lia.
  pose proof (above_min (hi - 1) ltac:(lia)). pose proof (below_max (hi - 1) ltac:(lia)).
  pose proof (above hi ltac:(lia)).
  rewrite (Rmin_left bmax), (Rmax_right bmin), Rmax_right by lra. reflexivity.
Qed.

Lemma ov_left : forall i, (S i < lo)%nat -> ov i = 0.
Proof.
  intros i H. unfold ov, overlap. pose proof (below (S i) ltac:(lia)).
  assert (S i <= n)%nat by (destruct HL as (A & _); pose proof lenE; lia).
  pose proof (step i ltac:(lia)). 
  rewrite (Rmin_right bmax), (Rmax_left bmin), Rmax_left by lra. reflexivity.
Qed.

Lemma ov_right : forall i, (hi <= i < n)%nat -> ov i = 0.
Proof.
  intros i H. unfold ov, overlap. pose proof (above i ltac:(lia)). pose proof (step i ltac:(lia)).
  rewrite (Rmin_left bmax), (Rmax_right bmin), Rmax_left by lra. reflexivity.
Qed.

Definition ov_mean : R := Rsum (map (fun i => ov i * nth i d 0) (seq 0 n)) / Rsum (map ov (seq 0 n)).

Lemma window : forall p m, (p + m <= n)%nat ->
  (forall i, (i < n)%nat -> (i < p \/ p + m <= i)%nat -> ov i = 0) ->
  ov_mean = Rsum (map (fun i => ov i * nth i d 0) (seq p m)) / Rsum (map ov (seq p m)).
Proof.
  intros p m H HZ. unfold ov_mean. rewrite (sum_window ov n p m H HZ).
  rewrite (sum_window (fun i => ov i * nth i d 0) n p m H); [reflexivity|].
  intros i Hi Ho. rewrite HZ by assumption. ring.
Qed.

Lemma ov_single : forall p, (p < n)%nat -> ov p <> 0 ->
  (forall i, (i < n)%nat -> i <> p -> ov i = 0) -> ov_mean = nth p d 0.
Proof.
  intros p Hp H HZ. rewrite (window p 1); [|lia|].
  - cbn. field. exact H.
  - intros i Hi Ho. apply HZ; lia.
Qed.

Lemma uniform_mean : ~ (lo = 0 /\ hi = S n)%nat -> bmin < nth n e 0 -> nth 0 e 0 < bmax -> bmin < bmax ->
  rebin_1d_single_bin e d bmin bmax = Ok (Some ov_mean).
Proof.
  intros HD HB1 HB2 HB3. pose proof uniform_increasing as HI. pose proof lenE as He.
  assert (HR : (lo <= hi <= S n)%nat) by (destruct HL as (A & _); lia).
  assert (lo <> S n). { intros HC. pose proof (below n ltac:(lia)). lra. }
  assert (hi <> 0)%nat. { intros HC. pose proof (above 0 ltac:(lia)). lra. }
  destruct (Nat.eq_dec lo hi) as [EQ|NE].
  - rewrite (single_0_in e lo hi bmin bmax d n) by (auto; lia). do 2 f_equal. symmetry.
    pose proof (below (lo - 1) ltac:(lia)). pose proof (above lo ltac:(lia)).
    apply ov_single; [lia| |].
    + unfold ov, overlap. replace (S (lo - 1)) with lo by lia.
      rewrite (Rmin_left bmax), (Rmax_left bmin), Rmax_right by lra. lra.
    + intros i Hi Hne. destruct (Nat.lt_ge_cases i lo); [apply ov_left; lia|apply ov_right; lia].
  - destruct (Nat.eq_dec hi (S lo)) as [K1|K1].
    + destruct (Nat.eq_dec lo 0) as [Z|Z]; [|destruct (Nat.eq_dec lo n) as [Z'|Z']].
      * rewrite (single_1_first e lo hi bmin bmax d n) by (auto; lia). do 2 f_equal. symmetry.
        apply ov_single; [lia| |].
        -- replace 0%nat with (hi - 1)%nat by lia. rewrite ov_last by lia.
           replace (hi - 1)%nat with 0%nat by lia. lra.
        -- intros i Hi Hne. apply ov_right. lia.
      * rewrite (single_1_last e lo hi bmin bmax d n) by (auto; lia). do 2 f_equal. symmetry.
        apply ov_single; [lia| |].
        -- replace (n - 1)%nat with (lo - 1)%nat by lia. rewrite ov_first by lia.
           replace lo with n by lia. lra.
        -- intros i Hi Hne. apply ov_left. lia.
      * rewrite (single_1_mid e lo hi bmin bmax d n) by (auto; lia). f_equal.
        pose proof (step (lo - 1) ltac:(lia)) as S1. pose proof (step lo ltac:(lia)) as S2.
        replace (S (lo - 1)) with lo in S1 by lia.
        assert (O1 := ov_first ltac:(lia) ltac:(lia)). assert (O2 := ov_last ltac:(lia) ltac:(lia)).
        replace (hi - 1)%nat with lo in O2 by lia.
        rewrite (window (lo - 1) 2); [|lia|].
        -- cbn [seq map]. replace (S (lo - 1)) with lo by lia. rewrite !Rsum_cons. change (Rsum []) with 0.
           rewrite O1, O2. unfold u1, u2. rewrite S1.
           replace (lo + 1)%nat with (S lo) by lia. rewrite S2.
           pose proof (above_min lo ltac:(lia)). pose proof (below_max lo ltac:(lia)).
           rewrite fdiv_ok.
           ++ f_equal. field. split; [lra|]. lra.
           ++ intros HC. assert ((nth lo e 0 - bmin) / h + (bmax - nth lo e 0) / h = (bmax - bmin) / h) by (field; lra).
              assert (0 < (bmax - bmin) / h) by (apply Rdiv_lt_0_compat; lra). lra.
        -- intros i Hi [Ho|Ho]; [apply ov_left; lia|apply ov_right; lia].
    + assert (K2 : (2 <= hi - lo)%nat) by lia.
      assert (WFE : (1 <= lo)%nat -> wF e lo bmin = ov (lo - 1) / h).
      { intros H1. rewrite ov_first by lia. unfold wF. f_equal.
        pose proof (step (lo - 1) ltac:(lia)) as S1. replace (S (lo - 1)) with lo in S1 by lia. lra. }
      assert (WLE : (hi <= n)%nat -> wL e hi bmax = ov (hi - 1) / h).
      { intros H1. rewrite ov_last by lia. unfold wL. f_equal.
        pose proof (step (hi - 2) ltac:(lia)) as S1. replace (S (hi - 2)) with (hi - 1)%nat in S1 by lia. lra. }
      assert (ONE : forall i, (lo <= i)%nat -> (S i < hi)%nat -> 1 = ov i / h).
      { intros i H1 H2. rewrite ov_mid by assumption. field. lra. }
      assert (ZERO : forall i, (i < n)%nat -> (S i < lo \/ hi <= i)%nat -> ov i = 0).
      { intros i Hi [Ho|Ho]; [apply ov_left; lia|apply ov_right; lia]. }
      destruct (Nat.eq_dec lo 0) as [Z|Z]; destruct (Nat.eq_dec hi (S n)) as [Z'|Z'].
      * tauto.
      * rewrite (single_C e lo hi bmin bmax d n) by (auto; lia). do 2 f_equal.
        rewrite (window 0 (hi - lo)); [|lia|intros i Hi Ho; apply ZERO; lia].
        apply (wmean_scaled ov h); [lra|rewrite app_length, repeat_length; cbn; lia|].
        intros t Ht. rewrite Nat.add_0_l. destruct (Nat.eq_dec t (hi - lo - 1)) as [->|Hne].
        -- rewrite app_nth2 by (rewrite repeat_length; lia). rewrite repeat_length, Nat.sub_diag. cbn [nth].
           rewrite WLE by lia. do 2 f_equal. lia.
        -- rewrite app_nth1 by (rewrite repeat_length; lia). rewrite nth_repeat_lt by lia. apply ONE; lia.
      * rewrite (single_B e lo hi bmin bmax d n) by (auto; lia). do 2 f_equal.
        rewrite (window (lo - 1) (hi - lo)); [|lia|intros i Hi Ho; apply ZERO; lia].
        apply (wmean_scaled ov h); [lra|cbn [length]; rewrite repeat_length; lia|].
        intros t Ht. destruct t as [|t].
        -- cbn [nth]. rewrite WFE by lia. do 2 f_equal. lia.
        -- cbn [nth]. rewrite nth_repeat_lt by lia. apply ONE; lia.
      * rewrite (single_A e lo hi bmin bmax d n) by (auto; lia). do 2 f_equal.
        rewrite (window (lo - 1) (S (hi - lo))); [|lia|intros i Hi Ho; apply ZERO; lia].
        apply (wmean_scaled ov h); [lra|cbn [length]; rewrite app_length, repeat_length; cbn; lia|].
        intros t Ht. rewrite nth_ends by lia.
        destruct (Nat.eqb_spec t 0) as [->|]; [rewrite WFE by lia; do 2 f_equal; lia|].
        destruct (Nat.eqb_spec t (S (hi - lo - 1))) as [->|]; [rewrite WLE by lia; do 2 f_equal; lia|].
        apply ONE; lia.
Qed.
End Uniform.
