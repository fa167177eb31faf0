(** * Theorems about rebinning in one dimension: C32-C38 *)

From Coq Require Import Reals ZArith List Bool Lra Lia Psatz.
From Flocq Require Import Core.Raux.
From Verif Require Import Base BaseP SpecGrid MGrids MUtils MOneD PGrids PRadial PUtils.
From Verif Require Import PPolarCoords POneD POneD2 POneD3.
Import ListNotations.
Open Scope R_scope.

Lemma new_le : forall new j, nondecreasing new -> (S j < length new)%nat -> nth j new 0 <= nth (S j) new 0.
Proof. intros new j H Hj. apply H. lia. Qed.

Lemma single_total : forall e n d a b, increasing e -> length e = S n -> (1 <= n)%nat -> length d = n -> a <= b ->
  exists v, rebin_1d_single_bin e d a b = Ok v.
Proof.
  intros e n d a b HI He Hn Hd Hab.
  destruct (single_dichotomy e n a b HI He Hn Hab) as [[_ H]|[_ (ws & idx & _ & _ & _ & _ & H)]];
    eexists; apply H; exact Hd.
Qed.

Definition single_value (e d : list R) (a b : R) : num :=
  match rebin_1d_single_bin e d a b with Ok v => v | Err _ => None end.

Lemma over_single : forall e n d new, increasing e -> length e = S n -> (1 <= n)%nat -> length d = n ->
  nondecreasing new ->
  over_bins (rebin_1d_single_bin e d) new
  = Ok (map (fun i => single_value e d (nth i new 0) (nth (S i) new 0)) (seq 0 (length new - 1))).
Proof.
  intros e n d new HI He Hn Hd HN. apply over_bins_ok. intros i Hi.
  destruct (single_total e n d (nth i new 0) (nth (S i) new 0) HI He Hn Hd) as (v & Hv).
  - apply new_le; assumption.
  - unfold single_value. rewrite Hv. reflexivity.
Qed.

Lemma rebin_plain : forall e n d new, increasing e -> length e = S n -> (1 <= n)%nat -> length d = n ->
  nondecreasing new ->
  rebin_1d e d new None None
  = Ok (map (fun i => single_value e d (nth i new 0) (nth (S i) new 0)) (seq 0 (length new - 1)), None).
Proof.
  intros e n d new HI He Hn Hd HN. rewrite (rebin_ok e d new None None n HI He Hd HN I I).
  rewrite (over_single e n) by assumption. reflexivity.
Qed.

Lemma nth_bins : forall (g : nat -> num) m j, (j < m)%nat -> nth j (map g (seq 0 m)) None = g j.
Proof.
  intros g m j Hj. refine (eq_trans (nth_map_lt nat num _ _ j None 0%nat _) _).
  - rewrite seq_length. exact Hj.
  - rewrite seq_nth by exact Hj. reflexivity.
Qed.

(** Every entry of the output is a single-bin value. *)
Lemma rebin_nth : forall e n d new out j, increasing e -> length e = S n -> (1 <= n)%nat -> length d = n ->
  nondecreasing new -> rebin_1d e d new None None = Ok (out, None) -> (S j < length new)%nat ->
  nth j out None = single_value e d (nth j new 0) (nth (S j) new 0).
Proof.
  intros e n d new out j HI He Hn Hd HN HO Hj. rewrite (rebin_plain e n) in HO by assumption.
  injection HO as <-. apply nth_bins. lia.
Qed.

(** ** C32: bounds, constants, linearity *)

(** The call succeeds with one value per new bin, and every finite value lies
    within any bounds of the data. *)
Theorem C32_rebin_bounds : forall e n d new, increasing e -> length e = S n -> (1 <= n)%nat ->
  length d = n -> nondecreasing new ->
  exists out, rebin_1d e d new None None = Ok (out, None) /\ length out = (length new - 1)%nat /\
    forall lo hi j v, within lo hi d -> nth j out None = Some v -> lo <= v <= hi.
Proof.
  intros e n d new HI He Hn Hd HN. eexists. split; [apply (rebin_plain e n); assumption|].
  split; [rewrite map_length, seq_length; reflexivity|].
  intros lo hi j v HW HV. destruct (Nat.lt_ge_cases j (length new - 1)) as [Hj|Hj].
  - rewrite nth_bins in HV by exact Hj. unfold single_value in HV.
    destruct (single_dichotomy e n (nth j new 0) (nth (S j) new 0) HI He Hn) as [[_ H]|[_ H]].
    + apply new_le; [exact HN|lia].
    + rewrite H in HV by exact Hd. discriminate.
    + destruct H as (ws & idx & L & P & S1 & IX & H). rewrite H in HV by exact Hd. injection HV as <-.
      apply wmean_within; [unfold pick; now rewrite map_length|exact P|exact S1|].
      apply (pick_within d n); assumption.
  - rewrite nth_overflow in HV; [discriminate|]. rewrite map_length, seq_length. exact Hj.
Qed.
Print Assumptions C32_rebin_bounds.

(** Constant data give the constant in every finite output bin. *)
Theorem C32_constant : forall e n c new, increasing e -> length e = S n -> (1 <= n)%nat -> nondecreasing new ->
  exists out, rebin_1d e (repeat c n) new None None = Ok (out, None) /\
    forall j, nth j out None = Some c \/ nth j out None = None.
Proof.
  intros e n c new HI He Hn HN.
  destruct (C32_rebin_bounds e n (repeat c n) new HI He Hn (repeat_length c n) HN) as (out & E & _ & H).
  exists out. split; [exact E|]. intros j. destruct (nth j out None) as [v|] eqn:V; [left|now right].
  assert (c <= v <= c); [|f_equal; lra]. apply (H c c j v); [|exact V].
  intros x Hx. apply repeat_spec in Hx. lra.
Qed.
Print Assumptions C32_constant.

(** Which output bins are finite: those meeting the closed data range, except
    a zero-width bin placed exactly on an interior edge. *)
Theorem C32_finite : forall e n d new out j, increasing e -> length e = S n -> (1 <= n)%nat ->
  length d = n -> nondecreasing new -> rebin_1d e d new None None = Ok (out, None) -> (S j < length new)%nat ->
  (nth j out None = None <->
   nth (S j) new 0 < nth 0 e 0 \/ nth n e 0 < nth j new 0 \/
   (nth j new 0 = nth (S j) new 0 /\ exists c, (0 < c < n)%nat /\ nth c e 0 = nth j new 0)).
Proof.
  intros e n d new out j HI He Hn Hd HN HO Hj. rewrite (rebin_nth e n d new out j) by assumption.
  assert (NB : no_bin e (nth j new 0) (nth (S j) new 0) <->
    nth (S j) new 0 < nth 0 e 0 \/ nth n e 0 < nth j new 0 \/
   (nth j new 0 = nth (S j) new 0 /\ exists c, (0 < c < n)%nat /\ nth c e 0 = nth j new 0)).
  { unfold no_bin. replace (length e - 1)%nat with n by lia. tauto. }
  rewrite <- NB. unfold single_value.
  destruct (single_dichotomy e n (nth j new 0) (nth (S j) new 0) HI He Hn (new_le new j HN Hj)) as [[Q H]|[Q H]].
  - rewrite H by exact Hd. tauto.
  - destruct H as (ws & idx & L & P & S1 & IX & H). rewrite H by exact Hd. split; [discriminate|tauto].
Qed.
Print Assumptions C32_finite.

Lemma wmean_lin : forall ws dd vv a b, length ws = length dd -> length dd = length vv ->
  wmean ws (map2 (fun x y => a * x + b * y) dd vv) = a * wmean ws dd + b * wmean ws vv.
Proof.
  intros ws dd vv a b H1 H2. unfold wmean.
  assert (E : Rsum (map2 Rmult ws (map2 (fun x y => a * x + b * y) dd vv))
    = a * Rsum (map2 Rmult ws dd) + b * Rsum (map2 Rmult ws vv)).
  { revert dd vv H1 H2. induction ws as [|w ws IH]; intros [|x dd] [|y vv] H1 H2; cbn in H1, H2; try lia.
    - cbn. ring.
    - cbn [map2]. rewrite !Rsum_cons, IH by lia. ring. }
  rewrite E. unfold Rdiv. ring.
Qed.

(** Linear in the data, with the same non-finite bins for all data. *)
Theorem C32_linear : forall e n d1 d2 a b new o1 o2 o3, increasing e -> length e = S n -> (1 <= n)%nat ->
  length d1 = n -> length d2 = n -> nondecreasing new ->
  rebin_1d e d1 new None None = Ok (o1, None) -> rebin_1d e d2 new None None = Ok (o2, None) ->
  rebin_1d e (map2 (fun x y => a * x + b * y) d1 d2) new None None = Ok (o3, None) ->
  o3 = map2 (fun x y => nadd (nmul (Some a) x) (nmul (Some b) y)) o1 o2.
Proof.
  intros e n d1 d2 a b new o1 o2 o3 HI He Hn H1 H2 HN E1 E2 E3.
  assert (H3 : length (map2 (fun x y => a * x + b * y) d1 d2) = n) by (rewrite map2_length; lia).
  rewrite (rebin_plain e n) in E1, E2, E3 by assumption.
  injection E1 as <-. injection E2 as <-. injection E3 as <-. rewrite map2_map_map.
  apply map_ext_in. intros j Hj. apply in_seq in Hj. unfold single_value.
  destruct (single_dichotomy e n (nth j new 0) (nth (S j) new 0) HI He Hn) as [[Q H]|[Q H]].
  - apply new_le; [exact HN|lia].
  - rewrite !H by assumption. reflexivity.
  - destruct H as (ws & idx & L & P & S1 & IX & H). rewrite !H by assumption.
    cbn [nadd nmul]. f_equal. rewrite <- wmean_lin by (unfold pick; rewrite !map_length; auto). f_equal.
    clear - IX H1 H2. induction idx as [|i idx IH]; [reflexivity|]. cbn [pick map map2]. f_equal.
    + rewrite (nth_map2 _ _ _ _ _ _ i 0 0 0); [reflexivity| |]; [rewrite H1|rewrite H2]; apply IX; now left.
    + apply IH. intros; apply IX; now right.
Qed.
Print Assumptions C32_linear.

(** With positive weights per old bin the finite values still lie within the
    bounds of the data, and finite bins are the same. *)
Theorem C32_weighted : forall e n d w new, increasing e -> length e = S n -> (1 <= n)%nat ->
  length d = n -> length w = n -> (forall x, In x w -> 0 < x) -> nondecreasing new ->
  exists out plain, rebin_1d e d new (Some w) None = Ok (out, None) /\
    rebin_1d e d new None None = Ok (plain, None) /\ length out = (length new - 1)%nat /\
    (forall j, nth j out None = None <-> nth j plain None = None) /\
    forall lo hi j v, within lo hi d -> nth j out None = Some v -> lo <= v <= hi.
Proof.
  intros e n d w new HI He Hn Hd Hw Hp HN.
  assert (HM : length (map2 Rmult d w) = n) by (rewrite map2_length; lia).
  do 2 eexists. split; [|split; [apply (rebin_plain e n); assumption|split; [|split]]].
  - rewrite (rebin_ok e d new (Some w) None n HI He Hd HN Hw I).
    rewrite !(over_single e n) by assumption. cbn [bind]. rewrite map2_map_map. reflexivity.
  - rewrite map_length, seq_length. reflexivity.
  - intros j. destruct (Nat.lt_ge_cases j (length new - 1)) as [Hj|Hj].
    + rewrite !nth_bins by exact Hj. unfold single_value.
      destruct (single_dichotomy e n (nth j new 0) (nth (S j) new 0) HI He Hn) as [[_ H]|[_ H]].
      * apply new_le; [exact HN|lia].
      * rewrite !H by assumption. tauto.
      * destruct H as (ws & idx & L & P & S1 & IX & H). rewrite !H by assumption.
        rewrite pick_prod by (try lia; intros i Hi; rewrite Hd; now apply IX). unfold ndiv.
        assert (PW : 0 < wmean ws (pick w idx)).
        { apply wmean_pos; [unfold pick; rewrite map_length; exact L|exact P|exact S1|].
          intros x Hx. apply in_map_iff in Hx. destruct Hx as (i & <- & Hi). apply Hp, nth_In. rewrite Hw. now apply IX. }
        rewrite fdiv_ok by lra. split; discriminate.
    + rewrite !nth_overflow by (rewrite map_length, seq_length; exact Hj). tauto.
  - intros lo hi j v HW HV. destruct (Nat.lt_ge_cases j (length new - 1)) as [Hj|Hj].
    + rewrite nth_bins in HV by exact Hj. unfold single_value in HV.
      destruct (single_dichotomy e n (nth j new 0) (nth (S j) new 0) HI He Hn) as [[_ H]|[_ H]].
      * apply new_le; [exact HN|lia].
      * rewrite !H in HV by assumption. discriminate.
      * destruct H as (ws & idx & L & P & S1 & IX & H). rewrite !H in HV by assumption.
        rewrite pick_prod in HV by (try lia; intros i Hi; rewrite Hd; now apply IX). unfold ndiv in HV.
        assert (PP : forall x, In x (pick w idx) -> 0 < x).
        { intros x Hx. apply in_map_iff in Hx. destruct Hx as (i & <- & Hi). apply Hp, nth_In. rewrite Hw. now apply IX. }
        assert (LW : length ws = length (pick w idx)) by (unfold pick; now rewrite map_length).
        assert (LD : length ws = length (pick d idx)) by (unfold pick; now rewrite map_length).
        pose proof (wmean_pos ws (pick w idx) LW P S1 PP).
        rewrite fdiv_ok in HV by lra. injection HV as <-.
        apply wmean_quotient; try assumption; [lia|]. apply (pick_within d n); assumption.
    + rewrite nth_overflow in HV; [discriminate|]. rewrite map_length, seq_length. exact Hj.
Qed.
Print Assumptions C32_weighted.

(** Mismatched lengths and edges out of order are refused. *)
Theorem C32_refused : forall e d new w sigma,
  length e <> S (length d) \/ ~ nondecreasing e \/ ~ nondecreasing new \/
  (exists w', w = Some w' /\ length w' <> length d) \/ (exists s', sigma = Some s' /\ length s' <> length d) ->
  rebin_1d e d new w sigma = Err AssertionError.
Proof.
  intros e d new w sigma H. unfold rebin_1d, py_assert.
  destruct (Z.eqb_spec (Z.of_nat (length e) - 1) (Z.of_nat (length d))) as [E1|]; [|reflexivity].
  destruct (is_pos_monotonic (map Some e)) eqn:E2; [|reflexivity].
  destruct (is_pos_monotonic (map Some new)) eqn:E3; [|reflexivity]. cbn [bind].
  pose proof (proj1 (is_pos_monotonic_spec e) E2) as M2. pose proof (proj1 (is_pos_monotonic_spec new) E3) as M3.
  destruct H as [H|[H|[H|[(w' & -> & H)|(s' & -> & H)]]]]; try contradiction; [lia| |].
  - destruct (Nat.eqb_spec (length d) (length w')); [lia|reflexivity].
  - destruct (match w with Some w => (length d =? length w)%nat | None => true end); [|reflexivity].
    cbn [bind]. destruct (Nat.eqb_spec (length d) (length s')); [lia|reflexivity].
Qed.
Print Assumptions C32_refused.

Lemma increasing_012 : increasing [0; 1; 2; 4].
Proof.
  intros i j Hij. cbn [length] in Hij.
  destruct i as [|[|[|[|]]]]; destruct j as [|[|[|[|]]]]; try lia; cbn [nth]; lra.
Qed.

Example C32_example : increasing [0; 1; 2; 4] /\ nondecreasing [-1; 1/2; 1/2; 3; 9] /\
  exists out, rebin_1d [0; 1; 2; 4] [5; 5; 5] [-1; 1/2; 1/2; 3; 9] None None = Ok (out, None) /\
    length out = 4%nat /\ nth 1 out None = Some 5.
Proof.
  assert (HN : nondecreasing [-1; 1/2; 1/2; 3; 9]).
  { intros i j Hij. cbn [length] in Hij.
    destruct i as [|[|[|[|[|]]]]]; destruct j as [|[|[|[|[|]]]]]; try lia; cbn [nth]; lra. }
  split; [exact increasing_012|]. split; [exact HN|].
  destruct (C32_rebin_bounds [0;1;2;4] 3 [5;5;5] [-1; 1/2; 1/2; 3; 9] increasing_012 eq_refl ltac:(lia) eq_refl HN)
    as (out & E & L & _).
  exists out. split; [exact E|]. split; [exact L|].
  destruct (C32_constant [0;1;2;4] 3 5 [-1; 1/2; 1/2; 3; 9] increasing_012 eq_refl ltac:(lia) HN) as (out' & E' & C).
  cbn [repeat] in E'. rewrite E in E'. injection E' as <-. destruct (C 1%nat) as [H|H]; [exact H|exfalso].
  apply (C32_finite [0;1;2;4] 3 [5;5;5] _ out 1 increasing_012 eq_refl ltac:(lia) eq_refl HN E) in H; [|cbn; lia].
  cbn [nth] in H. destruct H as [H|[H|[_ (c & Hc & H)]]]; try lra.
  destruct c as [|[|[|]]]; try lia; cbn [nth] in H; lra.
Qed.

(** ** C33: identical bins *)

Theorem C33_rebin_identity : forall e n d, increasing e -> length e = S n -> (1 <= n)%nat -> length d = n ->
  rebin_1d e d e None None = Ok (map Some d, None).
Proof.
  intros e n d HI He Hn Hd.
  assert (HN : nondecreasing e).
  { intros i j Hij. destruct (Nat.eq_dec i j) as [->|]; [lra|]. left. apply HI. lia. }
  rewrite (rebin_plain e n) by assumption. f_equal. f_equal.
  apply (list_ext num _ _ None); rewrite map_length, seq_length; [rewrite map_length; lia|].
  intros j Hj. rewrite nth_bins by exact Hj. unfold single_value.
  rewrite (single_same e n d j) by (auto; lia).
  symmetry. apply (nth_map_lt R num Some d j None 0). lia.
Qed.
Print Assumptions C33_rebin_identity.

Example C33_example : rebin_1d [0; 1; 2; 4] [7; -3; 5] [0; 1; 2; 4] None None
  = Ok ([Some 7; Some (-3); Some 5], None).
Proof. apply (C33_rebin_identity _ 3); [exact increasing_012|reflexivity|lia|reflexivity]. Qed.

(** ** C34: the overlap average *)

(** Mean of the histogram with edges [e] and values [d] over [[a,b]]. *)
Definition histogram_mean (e d : list R) (n : nat) (a b : R) : R :=
  Rsum (map (fun i => overlap a b (nth i e 0) (nth (S i) e 0) * nth i d 0) (seq 0 n)) /
  Rsum (map (fun i => overlap a b (nth i e 0) (nth (S i) e 0)) (seq 0 n)).

Theorem C34_rebin_overlap_mean : forall e a h n d new out j, uniform_edges e a h n -> 0 < h -> (1 <= n)%nat ->
  length d = n -> nondecreasing new -> rebin_1d e d new None None = Ok (out, None) -> (S j < length new)%nat ->
  nth j new 0 < nth (S j) new 0 -> nth j new 0 < nth n e 0 -> nth 0 e 0 < nth (S j) new 0 ->
  ~ (nth j new 0 <= nth 0 e 0 /\ nth n e 0 <= nth (S j) new 0) ->
  nth j out None = Some (histogram_mean e d n (nth j new 0) (nth (S j) new 0)).
Proof.
  intros e a h n d new out j HU Hh Hn Hd HN HO Hj H1 H2 H3 H4.
  pose proof (uniform_increasing e a h n HU Hh) as HI. assert (He : length e = S n) by apply HU.
  rewrite (rebin_nth e n d new out j) by assumption. unfold single_value.
  set (p := nth j new 0) in *. set (q := nth (S j) new 0) in *.
  destruct (locate e p q HI ltac:(lra)) as (lo & hi & HL).
  rewrite (uniform_mean e a h n lo hi p q d HU Hh Hn Hd HL); try assumption; [reflexivity|lra|].
  intros [E1 E2]. apply H4. destruct HL as (A & B & C). split.
  - apply Rnot_lt_le. intros HC. apply B in HC; lia.
  - apply C; lia.
Qed.
Print Assumptions C34_rebin_overlap_mean.

Example C34_example : exists out, rebin_1d [0; 1; 2; 3] [6; 0; 9] [1/2; 3/2; 5] None None = Ok (out, None) /\
  nth 0 out None = Some 3 /\ nth 1 out None = Some 6.
Proof.
  assert (HU : uniform_edges [0; 1; 2; 3] 0 1 3).
  { split; [reflexivity|]. intros i Hi. destruct i as [|[|[|[|]]]]; try lia; cbn; lra. }
  assert (HN : nondecreasing [1/2; 3/2; 5]).
  { intros i j Hij. cbn [length] in Hij. destruct i as [|[|[|]]]; destruct j as [|[|[|]]]; try lia; cbn [nth]; lra. }
  pose proof (uniform_increasing _ _ _ _ HU Rlt_0_1) as HI.
  destruct (C32_rebin_bounds [0;1;2;3] 3 [6;0;9] [1/2; 3/2; 5] HI eq_refl ltac:(lia) eq_refl HN) as (out & E & _).
  exists out. split; [exact E|]. split.
  - rewrite (C34_rebin_overlap_mean [0;1;2;3] 0 1 3 [6;0;9] [1/2;3/2;5] out 0 HU Rlt_0_1 ltac:(lia) eq_refl HN E); try (cbn; lra || lia).
    f_equal. unfold histogram_mean, overlap, Rmax, Rmin. cbn [seq map nth Rsum fold_right].
    repeat destruct (Rle_dec _ _); try lra.
  - rewrite (C34_rebin_overlap_mean [0;1;2;3] 0 1 3 [6;0;9] [1/2;3/2;5] out 1 HU Rlt_0_1 ltac:(lia) eq_refl HN E); try (cbn; lra || lia).
    f_equal. unfold histogram_mean, overlap, Rmax, Rmin. cbn [seq map nth Rsum fold_right].
    repeat destruct (Rle_dec _ _); try lra.
Qed.

(** ** C35: a bin covering the whole range *)

Theorem C35_rebin_covering : forall e n d new out j, increasing e -> length e = S n -> (1 <= n)%nat ->
  length d = n -> nondecreasing new -> rebin_1d e d new None None = Ok (out, None) -> (S j < length new)%nat ->
  nth j new 0 <= nth 0 e 0 -> nth n e 0 <= nth (S j) new 0 ->
  nth j out None = Some ((Rsum d + nth (n - 1) d 0) / (INR n + 1)).
Proof.
  intros e n d new out j HI He Hn Hd HN HO Hj H1 H2.
  rewrite (rebin_nth e n d new out j) by assumption. unfold single_value.
  set (p := nth j new 0) in *. set (q := nth (S j) new 0) in *.
  assert (HL : located e 0 (S n) p q).
  { split; [lia|]. split; intros i Hi; split; intros H; try lia.
    - exfalso. destruct i as [|i]; [lra|]. pose proof (HI 0%nat (S i) ltac:(lia)). lra.
    - destruct (Nat.eq_dec i n) as [->|]; [lra|]. pose proof (HI i n ltac:(lia)). lra. }
  rewrite (single_D e 0 (S n) p q d n) by (auto; lia). f_equal. unfold wmean.
  replace (slice d 0 n) with d by (rewrite <- Hd; symmetry; apply slice_all). rewrite Rsum_repeat, S_INR, Rmult_1_r. f_equal.
  assert (R1 : forall l, Rsum (map2 Rmult (repeat 1 (length l)) l) = Rsum l).
  { induction l as [|x l IH]; [reflexivity|]. cbn [length repeat map2]. rewrite !Rsum_cons, IH. ring. }
  replace (S n) with (length (nth (n - 1) d 0 :: d)) by (cbn; lia). rewrite R1, Rsum_cons. ring.
Qed.
Print Assumptions C35_rebin_covering.

(** So the mean of all bins is returned exactly when the last datum already
    equals that mean. *)
Theorem C35_mean_iff : forall e n d new out j, increasing e -> length e = S n -> (1 <= n)%nat ->
  length d = n -> nondecreasing new -> rebin_1d e d new None None = Ok (out, None) -> (S j < length new)%nat ->
  nth j new 0 <= nth 0 e 0 -> nth n e 0 <= nth (S j) new 0 ->
  (nth j out None = Some (Rsum d / INR n) <-> nth (n - 1) d 0 = Rsum d / INR n).
Proof.
  intros e n d new out j HI He Hn Hd HN HO Hj H1 H2.
  rewrite (C35_rebin_covering e n d new out j) by assumption.
  assert (0 < INR n) by (apply lt_0_INR; lia).
  assert (ID : (Rsum d + nth (n - 1) d 0) / (INR n + 1) - Rsum d / INR n
               = (nth (n - 1) d 0 - Rsum d / INR n) / (INR n + 1)) by (field; lra).
  split; intros HH.
  - injection HH as HH. assert (Z : (nth (n - 1) d 0 - Rsum d / INR n) / (INR n + 1) = 0) by lra.
    apply Rmult_integral in Z. destruct Z as [Z|Z]; [lra|].
    exfalso. apply (Rinv_neq_0_compat (INR n + 1)); [lra|exact Z].
  - f_equal. rewrite HH at 1. field. lra.
Qed.
Print Assumptions C35_mean_iff.

Lemma nondec2 : forall a b, a <= b -> nondecreasing [a; b].
Proof. intros a b H i j Hij. cbn [length] in Hij. destruct i as [|[|]]; destruct j as [|[|]]; try lia; cbn [nth]; lra. Qed.

Lemma increasing_2 : increasing [0; 1; 2].
Proof.
  intros i j Hij. cbn [length] in Hij. destruct i as [|[|[|]]]; destruct j as [|[|[|]]]; try lia; cbn [nth]; lra.
Qed.

Theorem C35_covering_mean_refuted : exists e d new, increasing e /\ nondecreasing new /\
  rebin_1d e d new None None = Ok ([Some 2], None) /\ histogram_mean e d (length d) (nth 0 new 0) (nth 1 new 0) = 3 / 2.
Proof.
  exists [0; 1; 2], [0; 3], [0; 2].
  assert (HN : nondecreasing [0; 2]) by (apply nondec2; lra).
  split; [exact increasing_2|]. split; [exact HN|]. split.
  - destruct (C32_rebin_bounds [0;1;2] 2 [0;3] [0;2] increasing_2 eq_refl ltac:(lia) eq_refl HN) as (out & E & L & _).
    pose proof (C35_rebin_covering [0;1;2] 2 [0;3] [0;2] out 0 increasing_2 eq_refl ltac:(lia) eq_refl HN E
      ltac:(cbn; lia) ltac:(cbn; lra) ltac:(cbn; lra)) as H.
    rewrite E. destruct out as [|x [|]]; try (cbn in L; lia). cbn [nth] in H. rewrite H. do 4 f_equal. cbn. lra.
  - unfold histogram_mean, overlap, Rmax, Rmin. cbn [length seq map nth Rsum fold_right].
    repeat destruct (Rle_dec _ _); try lra.
Qed.
Print Assumptions C35_covering_mean_refuted.

(** ** C36: non-uniform bins *)

(** A new bin around exactly one interior edge, reaching neither neighbouring
    edge, gets the histogram mean exactly when the two old bins have equal
    widths or equal values. *)
Theorem C36_one_edge_iff : forall e n d new out j c, increasing e -> length e = S n -> (1 <= n)%nat ->
  length d = n -> nondecreasing new -> rebin_1d e d new None None = Ok (out, None) -> (S j < length new)%nat ->
  (0 < c < n)%nat -> nth (c - 1) e 0 < nth j new 0 < nth c e 0 -> nth c e 0 < nth (S j) new 0 < nth (S c) e 0 ->
  (nth j out None = Some (histogram_mean e d n (nth j new 0) (nth (S j) new 0)) <->
   nth c e 0 - nth (c - 1) e 0 = nth (S c) e 0 - nth c e 0 \/ nth (c - 1) d 0 = nth c d 0).
Proof.
  intros e n d new out j c HI He Hn Hd HN HO Hj Hc [P1 P2] [Q1 Q2].
  rewrite (rebin_nth e n d new out j) by assumption. unfold single_value.
  set (p := nth j new 0) in *. set (q := nth (S j) new 0) in *.
  assert (LE : forall i k, (i <= k <= n)%nat -> nth i e 0 <= nth k e 0).
  { intros i k Hik. destruct (Nat.eq_dec i k) as [->|]; [lra|]. left. apply HI. lia. }
  assert (HL : located e c (S c) p q).
  { split; [lia|]. split; intros i Hi; split; intros H.
    - destruct (Nat.lt_ge_cases i c) as [|HG]; [assumption|]. pose proof (LE c i ltac:(lia)). lra.
    - pose proof (LE i (c - 1)%nat ltac:(lia)). lra.
    - destruct (Nat.lt_ge_cases i (S c)) as [|HG]; [assumption|]. pose proof (LE (S c) i ltac:(lia)). lra.
    - pose proof (LE i c ltac:(lia)). lra. }
  rewrite (single_1_mid e c (S c) p q d n) by (auto; lia).
  assert (HM : histogram_mean e d n p q
    = ((nth c e 0 - p) * nth (c - 1) d 0 + (q - nth c e 0) * nth c d 0) / (q - p)).
  { unfold histogram_mean.
    assert (OZ : forall i, (i < n)%nat -> (i < c - 1 \/ c - 1 + 2 <= i)%nat ->
                 overlap p q (nth i e 0) (nth (S i) e 0) = 0).
    { intros i Hi [Ho|Ho]; unfold overlap.
      - pose proof (LE (S i) (c - 1)%nat ltac:(lia)). pose proof (LE i (S i) ltac:(lia)).
        rewrite Rmin_right, (Rmax_left p), Rmax_left by lra. reflexivity.
      - pose proof (LE (S c) i ltac:(lia)). pose proof (LE i (S i) ltac:(lia)).
        rewrite Rmin_left, (Rmax_right p), Rmax_left by lra. reflexivity. }
    rewrite !(sum_window _ n (c - 1) 2) by (try lia; intros i Hi Ho; rewrite OZ by assumption; ring).
    cbn [seq map]. rewrite !Rsum_cons. change (Rsum []) with 0.
    replace (S (c - 1)) with c by lia. unfold overlap.
    rewrite (Rmin_right q (nth c e 0)), (Rmax_left p (nth (c - 1) e 0)), (Rmin_left q), (Rmax_right p) by lra.
    rewrite !Rmax_right by lra. replace (nth c e 0 - p + (q - nth c e 0 + 0)) with (q - p) by ring.
    f_equal. ring. }
  rewrite HM. unfold u1, u2. replace (c + 1)%nat with (S c) by lia.
  set (l1 := nth c e 0 - p). set (l2 := q - nth c e 0).
  set (W1 := nth c e 0 - nth (c - 1) e 0). set (W2 := nth (S c) e 0 - nth c e 0).
  assert (0 < l1) by (unfold l1; lra). assert (0 < l2) by (unfold l2; lra).
  assert (0 < W1) by (unfold W1; lra). assert (0 < W2) by (unfold W2; lra).
  assert (0 < l1 / W1) by (apply Rdiv_lt_0_compat; lra). assert (0 < l2 / W2) by (apply Rdiv_lt_0_compat; lra).
  rewrite fdiv_ok by lra. replace (q - p) with (l1 + l2) by (unfold l1, l2; ring).
  set (x := nth (c - 1) d 0). set (y := nth c d 0).
  assert (ID : (l1 / W1 * x + l2 / W2 * y) / (l1 / W1 + l2 / W2) - (l1 * x + l2 * y) / (l1 + l2)
     = l1 * l2 * (W2 - W1) * (x - y) / ((l1 * W2 + l2 * W1) * (l1 + l2))).
  { field. repeat split; try lra; nra. }
  assert (DN : 0 < (l1 * W2 + l2 * W1) * (l1 + l2)).
  { apply Rmult_lt_0_compat; [|lra]. pose proof (Rmult_lt_0_compat l1 W2). pose proof (Rmult_lt_0_compat l2 W1). lra. }
  split.
  - intros HH. injection HH as HH. assert (Z : l1 * l2 * (W2 - W1) * (x - y) / ((l1 * W2 + l2 * W1) * (l1 + l2)) = 0) by lra.
    apply Rmult_integral in Z. destruct Z as [Z|Z].
    + apply Rmult_integral in Z. destruct Z as [Z|Z]; [|right; lra].
      apply Rmult_integral in Z. destruct Z as [Z|Z]; [|left; lra].
      apply Rmult_integral in Z. lra.
    + exfalso. apply (Rinv_neq_0_compat ((l1 * W2 + l2 * W1) * (l1 + l2))); [lra|exact Z].
  - intros HH. f_equal. apply Rminus_diag_uniq. rewrite ID.
    destruct HH as [HH|HH]; [replace (W2 - W1) with 0 by lra|replace (x - y) with 0 by lra]; unfold Rdiv; ring.
Qed.
Print Assumptions C36_one_edge_iff.

(** Several edges: on [[0,2,3,5]] with data [0,0,1] the new bin [[0,4]] gets
    1/3; the histogram mean is 1/4, and counting old bins by the covered
    fraction would give 1/5. *)
Theorem C36_rebin_overlap_refuted : exists e d new, increasing e /\ nondecreasing new /\
  rebin_1d e d new None None = Ok ([Some (1 / 3)], None) /\
  histogram_mean e d (length d) (nth 0 new 0) (nth 1 new 0) = 1 / 4.
Proof.
  exists [0; 2; 3; 5], [0; 0; 1], [0; 4].
  assert (HI : increasing [0; 2; 3; 5]).
  { intros i j Hij. cbn [length] in Hij.
    destruct i as [|[|[|[|]]]]; destruct j as [|[|[|[|]]]]; try lia; cbn [nth]; lra. }
  assert (HN : nondecreasing [0; 4]) by (apply nondec2; lra).
  split; [exact HI|]. split; [exact HN|]. split.
  - rewrite (rebin_plain _ 3) by (auto; lia). cbn [length Nat.sub seq map nth]. unfold single_value.
    assert (HL : located [0; 2; 3; 5] 0 3 0 4).
    { split; [cbn; lia|]. split; intros i Hi; cbn [length] in Hi;
        destruct i as [|[|[|[|]]]]; try lia; cbn [nth]; split; intros; try lra; try lia. }
    rewrite (single_C _ 0 3 0 4 _ 3) by (auto; lia). do 4 f_equal.
    unfold wmean, wL. cbn. field.
  - unfold histogram_mean, overlap, Rmax, Rmin. cbn [length seq map nth Rsum fold_right].
    repeat destruct (Rle_dec _ _); try lra.
Qed.
Print Assumptions C36_rebin_overlap_refuted.

(** ** C37: the weights function *)

Definition weighted_mean (ws d : list R) : R := Rsum (map2 Rmult ws d) / Rsum ws.

(** New bins that contain no old edge, or at least two but not all of them,
    and meet the range: the weights reproduce the rebinned value for all data. *)
Theorem C37_weights_agree : forall e n bmin bmax, increasing e -> length e = S n -> (1 <= n)%nat -> bmin <= bmax ->
  nth 0 e 0 <= bmax -> bmin <= nth n e 0 ->
  ~ (bmin <= nth 0 e 0 /\ nth n e 0 <= bmax) ->
  (forall c, (c <= n)%nat -> bmin <= nth c e 0 <= bmax ->
     exists c', (c' <= n)%nat /\ c' <> c /\ bmin <= nth c' e 0 <= bmax) ->
  exists ws, rebin_1d_single_bin_weights e bmin bmax = Ok (Some (map Some ws)) /\ length ws = n /\ 0 < Rsum ws /\
    forall d, length d = n -> rebin_1d e d [bmin; bmax] None None = Ok ([Some (weighted_mean ws d)], None).
Proof.
  intros e n bmin bmax HI He Hn Hb H0 H1 HD HC.
  destruct (locate e bmin bmax HI Hb) as (lo & hi & HL). pose proof HL as (A & B & C).
  destruct (weights_agree e lo hi bmin bmax n HI He Hn HL) as (ws & W1 & W2 & W3 & W4).
  - destruct (Nat.eq_dec lo 0) as [E0|]; [|now left]. destruct (Nat.eq_dec hi (S n)) as [E1|]; [|now right].
    exfalso. apply HD. split; [apply Rnot_lt_le; intros HX; apply B in HX; lia|apply C; lia].
  - intros EL. assert (nth n e 0 < bmin) by (apply B; lia). lra.
  - intros EL. assert (0 < hi)%nat by (apply C; [lia|exact H0]). lia.
  - intros EL. destruct (HC lo ltac:(lia)) as (c' & Hc' & HN & HX & HY).
    + split; [apply Rnot_lt_le; intros HX; apply B in HX; lia|apply C; lia].
    + apply C in HY; [|lia]. assert (~ (c' < lo)%nat) by (intros HZ; apply B in HZ; [lra|lia]). lia.
  - exists ws. split; [exact W1|]. split; [exact W2|]. split; [exact W3|]. intros d Hd.
    rewrite (rebin_plain e n) by (auto using nondec2). cbn [length Nat.sub seq map nth].
    unfold single_value. rewrite W4 by exact Hd. reflexivity.
Qed.
Print Assumptions C37_weights_agree.

(** Exactly one interior edge [c], with at least two bins after it: rebinning
    mixes bins [c-1] and [c], the weights are stored at [c] and [c+1]. *)
Theorem C37_weights_shifted : forall e n bmin bmax c, increasing e -> length e = S n ->
  bmin < bmax -> (1 <= c)%nat -> (c + 1 < n)%nat ->
  nth (c - 1) e 0 < bmin <= nth c e 0 -> nth c e 0 <= bmax < nth (c + 1) e 0 ->
  exists a b, 0 <= a /\ 0 <= b /\ 0 < a + b /\
    rebin_1d_single_bin_weights e bmin bmax
      = Ok (Some (map Some (repeat 0 c ++ [a; b] ++ repeat 0 (n - c - 2)))) /\
    forall d, length d = n -> rebin_1d e d [bmin; bmax] None None
      = Ok ([Some ((a * nth (c - 1) d 0 + b * nth c d 0) / (a + b))], None).
Proof.
  intros e n bmin bmax c HI He Hb Hc1 Hc2 [P1 P2] [Q1 Q2].
  assert (LE : forall i k, (i <= k <= n)%nat -> nth i e 0 <= nth k e 0).
  { intros i k Hik. destruct (Nat.eq_dec i k) as [->|]; [lra|]. left. apply HI. lia. }
  assert (HL : located e c (S c) bmin bmax).
  { replace (c + 1)%nat with (S c) in Q2 by lia. split; [lia|]. split; intros i Hi; split; intros H.
    - destruct (Nat.lt_ge_cases i c) as [|HG]; [assumption|]. pose proof (LE c i ltac:(lia)). lra.
    - pose proof (LE i (c - 1)%nat ltac:(lia)). lra.
    - destruct (Nat.lt_ge_cases i (S c)) as [|HG]; [assumption|]. pose proof (LE (S c) i ltac:(lia)). lra.
    - pose proof (LE i c ltac:(lia)). lra. }
  exists (u1 e c bmin), (u2 e c bmax).
  assert (U1 : 0 <= u1 e c bmin).
  { unfold u1. apply Rmult_le_pos; [lra|]. left. apply Rinv_0_lt_compat. lra. }
  assert (U2 : 0 <= u2 e c bmax).
  { unfold u2. apply Rmult_le_pos; [lra|]. left. apply Rinv_0_lt_compat. lra. }
  assert (U : 0 < u1 e c bmin + u2 e c bmax).
  { destruct (Rle_lt_or_eq_dec bmin (nth c e 0) P2) as [Q|Q].
    - assert (0 < u1 e c bmin); [|lra]. unfold u1. apply Rdiv_lt_0_compat; lra.
    - assert (0 < u2 e c bmax); [|lra]. unfold u2. apply Rdiv_lt_0_compat; lra. }
  split; [exact U1|]. split; [exact U2|]. split; [exact U|]. split.
  - rewrite (weights_one_mid e c (S c) bmin bmax n HI He ltac:(lia) HL) by lia.
    unfold padded. cbn [length]. reflexivity.
  - intros d Hd. rewrite (rebin_plain e n) by (auto; try lia; apply nondec2; lra).
    cbn [length Nat.sub seq map nth]. unfold single_value.
    rewrite (single_1_mid e c (S c) bmin bmax d n) by (auto; lia). rewrite fdiv_ok by lra. reflexivity.
Qed.
Print Assumptions C37_weights_shifted.

(** One edge only, and it is the last interior edge or the last edge: the
    weights function raises although [rebin_1d] succeeds. *)
Theorem C37_weights_index_error : forall e n bmin bmax c, increasing e -> length e = S n ->
  bmin < bmax -> (1 <= c)%nat -> (c = n - 1 \/ c = n)%nat ->
  nth (c - 1) e 0 < bmin <= nth c e 0 -> nth c e 0 <= bmax -> (c = (n - 1)%nat -> bmax < nth n e 0) ->
  rebin_1d_single_bin_weights e bmin bmax = Err IndexError /\
  forall d, length d = n -> exists v, rebin_1d e d [bmin; bmax] None None = Ok ([Some v], None).
Proof.
  intros e n bmin bmax c HI He Hb Hc1 Hc2 [P1 P2] Q1 Q2.
  assert (LE : forall i k, (i <= k <= n)%nat -> nth i e 0 <= nth k e 0).
  { intros i k Hik. destruct (Nat.eq_dec i k) as [->|]; [lra|]. left. apply HI. lia. }
  assert (HL : located e c (S c) bmin bmax).
  { split; [lia|]. split; intros i Hi; split; intros H.
    - destruct (Nat.lt_ge_cases i c) as [|HG]; [assumption|]. pose proof (LE c i ltac:(lia)). lra.
    - pose proof (LE i (c - 1)%nat ltac:(lia)). lra.
    - destruct (Nat.lt_ge_cases i (S c)) as [|HG]; [assumption|]. exfalso.
      assert (c = n - 1)%nat by lia. assert (i = n) by lia. subst i. specialize (Q2 H0). lra.
    - pose proof (LE i c ltac:(lia)). lra. }
  split; [apply (weights_one_late e c (S c) bmin bmax n He ltac:(lia) HL); lia|].
  intros d Hd. rewrite (rebin_plain e n) by (auto; try lia; apply nondec2; lra).
  cbn [length Nat.sub seq map nth]. unfold single_value.
  destruct (single_dichotomy e n bmin bmax HI He ltac:(lia) ltac:(lra)) as [[Q H]|[Q H]].
  - exfalso. replace (length e - 1)%nat with n in Q by lia. unfold no_bin in Q.
    replace (length e - 1)%nat with n in Q by lia.
    pose proof (LE 0%nat c ltac:(lia)). pose proof (LE c n ltac:(lia)). destruct Q as [Q|[Q|[Q _]]]; lra.
  - destruct H as (ws & idx & L & P & S1 & IX & H). rewrite H by exact Hd. eexists. reflexivity.
Qed.
Print Assumptions C37_weights_index_error.

(** Concrete disagreement: weights from the function give 6, [rebin_1d] gives 3. *)
Theorem C37_weights_reproduce_refuted : exists e d bmin bmax ws, increasing e /\ length ws = length d /\
  rebin_1d_single_bin_weights e bmin bmax = Ok (Some (map Some ws)) /\ weighted_mean ws d = 6 /\
  rebin_1d e d [bmin; bmax] None None = Ok ([Some 3], None).
Proof.
  assert (HI : increasing [0; 1; 2; 3]).
  { intros i j Hij. cbn [length] in Hij.
    destruct i as [|[|[|[|]]]]; destruct j as [|[|[|[|]]]]; try lia; cbn [nth]; lra. }
  assert (HL : located [0; 1; 2; 3] 1 2 (1/2) (3/2)).
  { split; [cbn; lia|]. split; intros i Hi; cbn [length] in Hi;
      destruct i as [|[|[|[|]]]]; try lia; cbn [nth]; split; intros; try lra; try lia. }
  exists [0; 1; 2; 3], [3; 3; 9], (1/2), (3/2), (padded 1 3 [u1 [0;1;2;3] 1 (1/2); u2 [0;1;2;3] 1 (3/2)]).
  split; [exact HI|]. split; [reflexivity|]. split; [|split].
  - apply (weights_one_mid _ 1 2 _ _ 3); auto; lia.
  - unfold weighted_mean, padded, u1, u2. cbn. field.
  - rewrite (rebin_plain _ 3) by (auto; try lia; apply nondec2; lra).
    cbn [length Nat.sub seq map nth]. unfold single_value.
    rewrite (single_1_mid _ 1 2 _ _ _ 3) by (auto; lia). unfold u1, u2. cbn [nth Nat.add Nat.sub].
    rewrite fdiv_ok by lra. do 4 f_equal. field.
Qed.
Print Assumptions C37_weights_reproduce_refuted.

(** ** C38: errors on identical bins *)

(** Errors returned when rebinning onto the same edges, for every number of
    bins: unchanged except in the second bin; a single bin gives no finite
    error. *)
Definition same_bin_error (e s : list R) (n i : nat) : num :=
  if (n =? 1)%nat then None
  else if (i =? 1)%nat then
    if (n =? 2)%nat then
      let r := (nth 2 e 0 - nth 1 e 0) / (nth 1 e 0 - nth 0 e 0) in
      Some (sqrt (nth 0 s 0 * nth 0 s 0 + (r * nth 1 s 0) * (r * nth 1 s 0)) / (1 + r))
    else Some (sqrt (nth 0 s 0 * nth 0 s 0 + nth 1 s 0 * nth 1 s 0) / 2)
  else Some (nth i s 0).

Theorem C38_sigma_same_bins : forall e n d s, increasing e -> length e = S n -> (1 <= n)%nat ->
  length d = n -> length s = n -> (forall x, In x s -> 0 <= x) ->
  rebin_1d e d e None (Some s) = Ok (map Some d, Some (map (same_bin_error e s n) (seq 0 n))).
Proof.
  intros e n d s HI He Hn Hd Hs Hp.
  assert (HN : nondecreasing e).
  { intros i j Hij. destruct (Nat.eq_dec i j) as [->|]; [lra|]. left. apply HI. lia. }
  pose proof (C33_rebin_identity e n d HI He Hn Hd) as ID.
  rewrite (rebin_ok e d e None None n HI He Hd HN I I) in ID.
  rewrite (rebin_ok e d e None (Some s) n HI He Hd HN I Hs).
  destruct (over_bins (rebin_1d_single_bin e d) e) as [o|]; cbn [bind] in *; [|discriminate].
  injection ID as ->.
  assert (OS : over_bins (rebin_1d_single_bin_sigma e s) e = Ok (map (same_bin_error e s n) (seq 0 n))).
  { unfold over_bins. replace (length e - 1)%nat with n by lia. apply mapM_ok.
    intros i Hi. apply in_seq in Hi. unfold same_bin_error.
    destruct (Nat.eqb_spec n 1) as [N1|N1]; [apply (sigma_only e n s i); auto; lia|].
    destruct (Nat.eqb_spec i 1) as [I1|I1].
    - destruct (Nat.eqb_spec n 2) as [N2|N2].
      + apply (sigma_last2 e n s i); auto; lia.
      + apply (sigma_second e n s i); auto; lia.
    - destruct (Nat.eq_dec i 0) as [I0|I0].
      + rewrite (sigma_first e n s i) by (auto; lia). now rewrite I0.
      + destruct (Nat.eq_dec i (n - 1)) as [IL|IL].
        * apply (sigma_last e n s i); auto; lia.
        * apply (sigma_mid e n s i); auto; lia. }
  rewrite OS. reflexivity.
Qed.
Print Assumptions C38_sigma_same_bins.

Theorem C38_sigma_identity_refuted : exists e d s, increasing e /\ (forall x, In x s -> 0 <= x) /\
  rebin_1d e d e None (Some s) = Ok (map Some d, Some [Some 3; Some (5 / 2); Some 1]) /\ s = [3; 4; 1].
Proof.
  exists [0; 1; 2; 4], [1; 1; 1], [3; 4; 1]. split; [exact increasing_012|].
  split; [intros x [<-|[<-|[<-|[]]]]; lra|]. split; [|reflexivity].
  rewrite (C38_sigma_same_bins _ 3) by (try exact increasing_012; try reflexivity; try lia; intros x [<-|[<-|[<-|[]]]]; lra).
  do 3 f_equal. cbn [seq map]. unfold same_bin_error. cbn [Nat.eqb nth].
  replace (3 * 3 + 4 * 4) with (5 * 5) by ring. rewrite sqrt_square by lra. reflexivity.
Qed.
Print Assumptions C38_sigma_identity_refuted.
