(** * Theorems about the errors of rebinned values: C73 *)

From Coq Require Import Reals ZArith List Bool Lra Lia Psatz.
From Flocq Require Import Core.Raux.
From Verif Require Import Base BaseP SpecGrid SpecRebin MGrids MUtils MOneD PGrids PRadial PUtils.
From Verif Require Import PPolarCoords POneD POneD2 POneD3 TOneD PSigma PSigma2.
Import ListNotations.
Open Scope R_scope.

(** ** From the output to single bins *)

Definition sigma_value (e s : list R) (a b : R) : num :=
  match rebin_1d_single_bin_sigma e s a b with Ok v => v | Err _ => None end.

Lemma sigma_total : forall e n s a b, increasing e -> length e = S n -> (1 <= n)%nat -> length s = n -> a <= b ->
  rebin_1d_single_bin_sigma e s a b = Ok (sigma_value e s a b).
Proof.
  intros e n s a b HI He Hn Hs Hab. unfold sigma_value.
  destruct (sigma_dichotomy e n a b HI He Hn Hab) as [[_ H]|[_ (ps & _ & _ & H)]]; rewrite H by exact Hs; reflexivity.
Qed.

Lemma over_sigma : forall e n s new, increasing e -> length e = S n -> (1 <= n)%nat -> length s = n -> nondecreasing new ->
  over_bins (rebin_1d_single_bin_sigma e s) new
  = Ok (map (fun i => sigma_value e s (nth i new 0) (nth (S i) new 0)) (seq 0 (length new - 1))).
Proof.
  intros e n s new HI He Hn Hs HN. apply over_bins_ok. intros i Hi. apply (sigma_total e n); auto.
Qed.

Lemma rebin_sigma : forall e n d s new, increasing e -> length e = S n -> (1 <= n)%nat -> length d = n -> length s = n -> nondecreasing new ->
  rebin_1d e d new None (Some s)
  = Ok (map (fun i => single_value e d (nth i new 0) (nth (S i) new 0)) (seq 0 (length new - 1)),
        Some (map (fun i => sigma_value e s (nth i new 0) (nth (S i) new 0)) (seq 0 (length new - 1)))).
Proof.
  intros e n d s new HI He Hn Hd Hs HN. rewrite (rebin_ok e d new None (Some s) n HI He Hd HN I Hs).
  rewrite (over_single e n), (over_sigma e n) by assumption. reflexivity.
Qed.

Lemma sigma_nth : forall e n d s new out sg j, increasing e -> length e = S n -> (1 <= n)%nat -> length d = n -> length s = n ->
  nondecreasing new -> rebin_1d e d new None (Some s) = Ok (out, Some sg) -> (S j < length new)%nat ->
  nth j sg None = sigma_value e s (nth j new 0) (nth (S j) new 0) /\ nth j new 0 <= nth (S j) new 0.
Proof.
  intros e n d s new out sg j HI He Hn Hd Hs HN HO Hj. rewrite (rebin_sigma e n) in HO by assumption.
  injection HO as <- <-. split; [apply nth_bins; lia|apply new_le; assumption].
Qed.

Lemma spot : forall e n a b p q, increasing e -> length e = S n -> edges_inside e n a b p q -> located e p (S q) a b.
Proof.
  intros e n a b p q HI He ([H1 H2] & H). pose proof (le_edges e n HI He) as LE.
  assert (P : a <= nth p e 0 <= b) by (apply H; lia). assert (Q : a <= nth q e 0 <= b) by (apply H; lia).
  split; [lia|]. split; intros i Hi.
  - split.
    + intros L. destruct (Nat.lt_ge_cases i p); [assumption|]. pose proof (LE p i ltac:(lia)). lra.
    + intros L. destruct (Rlt_dec (nth i e 0) a); [assumption|]. exfalso. pose proof (LE i p ltac:(lia)).
      assert (p <= i <= q)%nat by (apply H; [lia|lra]). lia.
  - split.
    + intros L. destruct (Nat.lt_ge_cases i (S q)); [assumption|]. exfalso. pose proof (LE q i ltac:(lia)).
      assert (p <= i <= q)%nat by (apply H; [lia|lra]). lia.
    + intros L. pose proof (LE i q ltac:(lia)). lra.
Qed.

(** ** C73: when there is an error *)

(** The call succeeds and returns one value and one error per new bin. *)
Theorem C73_runs : forall e n d s new, increasing e -> length e = S n -> (1 <= n)%nat -> length d = n -> length s = n ->
  nondecreasing new ->
  exists out sg, rebin_1d e d new None (Some s) = Ok (out, Some sg) /\
    length out = (length new - 1)%nat /\ length sg = (length new - 1)%nat /\
    rebin_1d e d new None None = Ok (out, None).
Proof.
  intros e n d s new HI He Hn Hd Hs HN. do 2 eexists. split; [apply (rebin_sigma e n); assumption|].
  rewrite !map_length, seq_length. split; [reflexivity|]. split; [reflexivity|]. apply (rebin_plain e n); assumption.
Qed.
Print Assumptions C73_runs.

(** Bin [j] has no error (NaN) exactly when it has no length, when it has no
    length in common with the edges, or when there is one old bin only and the
    new bin reaches beyond it equally far on both sides. *)
Theorem C73_defined : forall e n d s new out sg j, increasing e -> length e = S n -> (1 <= n)%nat ->
  length d = n -> length s = n -> nondecreasing new -> (S j < length new)%nat ->
  rebin_1d e d new None (Some s) = Ok (out, Some sg) ->
  let a := nth j new 0 in let b := nth (S j) new 0 in
  nth j sg None = None <->
  a = b \/ b <= nth 0 e 0 \/ nth n e 0 <= a \/
  (n = 1%nat /\ a <= nth 0 e 0 /\ nth 1 e 0 <= b /\ nth 0 e 0 - a = b - nth 1 e 0).
Proof.
  intros e n d s new out sg j HI He Hn Hd Hs HN Hj HO a b. destruct (sigma_nth e n d s new out sg j) as [-> L]; auto. fold a b in L |- *.
  assert (NE : no_error e n a b <-> (a = b \/ b <= nth 0 e 0 \/ nth n e 0 <= a \/
    (n = 1%nat /\ a <= nth 0 e 0 /\ nth 1 e 0 <= b /\ nth 0 e 0 - a = b - nth 1 e 0))).
  { unfold no_error. split; (intros [H|[H|[H|(H1 & H2 & H3 & H4)]]]; [left; exact H|right; left; exact H|do 2 right; left; exact H|do 3 right; repeat split; auto; lra]). }
  rewrite <- NE. unfold sigma_value. destruct (sigma_dichotomy e n a b HI He Hn L) as [[X H]|[X (ps & _ & _ & H)]]; rewrite H by exact Hs.
  - split; auto.
  - split; [discriminate|]. intros Y. contradiction.
Qed.
Print Assumptions C73_defined.

(** ** C73: where the error is that of the mean *)

(** A new bin which holds at most one old edge gets the error of the mean over
    the parts of the old bins it covers, whatever the old bins. *)
Theorem C73_few_edges : forall e n d s new out sg j, increasing e -> length e = S n -> (1 <= n)%nat ->
  length d = n -> length s = n -> nondecreasing new -> (S j < length new)%nat ->
  rebin_1d e d new None (Some s) = Ok (out, Some sg) ->
  let a := nth j new 0 in let b := nth (S j) new 0 in
  a < b -> nth 0 e 0 < b -> a < nth n e 0 ->
  (forall c c', (c <= n)%nat -> (c' <= n)%nat -> a <= nth c e 0 <= b -> a <= nth c' e 0 <= b -> c = c') ->
  nth j sg None = Some (mean_error e s n a b).
Proof.
  intros e n d s new out sg j HI He Hn Hd Hs HN Hj HO a b H1 H2 H3 H4. destruct (sigma_nth e n d s new out sg j) as [-> L]; auto. fold a b in L |- *.
  unfold sigma_value. rewrite (few_edges e n a b) by assumption. reflexivity.
Qed.
Print Assumptions C73_few_edges.

(** A new bin which holds two or more old edges, [p] the first and [q] the last
    of them, ends before the last old edge and starts either at the third or a
    later old edge or not after the first old edge: the error of the mean again,
    if the two bins around edge [q] have equal length. *)
Theorem C73_aligned : forall e n d s new out sg j p q, increasing e -> length e = S n -> (1 <= n)%nat ->
  length d = n -> length s = n -> nondecreasing new -> (S j < length new)%nat ->
  rebin_1d e d new None (Some s) = Ok (out, Some sg) ->
  let a := nth j new 0 in let b := nth (S j) new 0 in
  edges_inside e n a b p q -> (p < q)%nat -> (q < n)%nat ->
  (p = 0%nat \/ (2 <= p)%nat /\ a = nth p e 0) ->
  bin_length e (q - 1) = bin_length e q ->
  nth j sg None = Some (mean_error e s n a b).
Proof.
  intros e n d s new out sg j p q HI He Hn Hd Hs HN Hj HO a b HE Hpq Hq Ha Hl. destruct (sigma_nth e n d s new out sg j) as [-> L]; auto. fold a b in L |- *.
  pose proof (spot e n a b p q HI He HE) as HL. unfold sigma_value.
  rewrite (several_inner e s n p (S q) a b HI He Hs HL) by lia.
  assert (E : start_piece e p = []) by (unfold start_piece; destruct (Nat.eqb_spec p 1); [lia|reflexivity]). rewrite E. cbn [app].
  replace (S q - 1 - p)%nat with (q - p)%nat by lia. replace (S q - 1)%nat with q by lia. f_equal.
  destruct HE as [_ HE]. assert (P : a <= nth p e 0 <= b) by (apply HE; lia). assert (Q : a <= nth q e 0 <= b) by (apply HE; lia).
  pose proof (proj1 (above_e e n p (S q) a b He Hn HL (S q) ltac:(lia))) as U || pose proof (above_e e n p (S q) a b He Hn HL (S q) ltac:(lia)) as U.
  pose proof (HI 0%nat p) as O. pose proof (le_edges e n HI He p q ltac:(lia)). pose proof (HI p q ltac:(lia)).
  apply (mean_whole e n a b HI He ltac:(lra)); auto; try lra.
  destruct Ha as [->|[_ Ha]]; [left; split; [reflexivity|lra]|right; exact Ha].
Qed.
Print Assumptions C73_aligned.

(** ** C73: new bins with two or more old edges *)

(** [p] the first and [q] the last old edge inside, [q] not the last edge: the
    whole bins between them, the part after edge [q] weighed against the length
    of bin [q - 1], and for [p = 1] the whole of bin [0] -- otherwise nothing
    of the bin the new bin starts in. *)
Theorem C73_inner : forall e n d s new out sg j p q, increasing e -> length e = S n -> (1 <= n)%nat ->
  length d = n -> length s = n -> nondecreasing new -> (S j < length new)%nat ->
  rebin_1d e d new None (Some s) = Ok (out, Some sg) ->
  let a := nth j new 0 in let b := nth (S j) new 0 in
  edges_inside e n a b p q -> (p < q)%nat -> (q < n)%nat ->
  nth j sg None = Some (propagated e s (start_piece e p ++ whole e p (q - p) ++ end_piece e b q)).
Proof.
  intros e n d s new out sg j p q HI He Hn Hd Hs HN Hj HO a b HE Hpq Hq. destruct (sigma_nth e n d s new out sg j) as [-> L]; auto. fold a b in L |- *.
  pose proof (spot e n a b p q HI He HE) as HL. unfold sigma_value.
  rewrite (several_inner e s n p (S q) a b HI He Hs HL) by lia.
  replace (S q - 1 - p)%nat with (q - p)%nat by lia. replace (S q - 1)%nat with q by lia. reflexivity.
Qed.
Print Assumptions C73_inner.

(** The last old edge inside, the first not: the last bin is weighed by the
    length up to the end of the new bin, even beyond the last edge. *)
Theorem C73_to_the_end : forall e n d s new out sg j p, increasing e -> length e = S n -> (1 <= n)%nat ->
  length d = n -> length s = n -> nondecreasing new -> (S j < length new)%nat ->
  rebin_1d e d new None (Some s) = Ok (out, Some sg) ->
  let a := nth j new 0 in let b := nth (S j) new 0 in
  edges_inside e n a b p n -> (1 <= p < n)%nat ->
  nth j sg None = Some (propagated e s (start_piece e p ++ whole e p (n - 1 - p) ++ end_piece e b (n - 1))).
Proof.
  intros e n d s new out sg j p HI He Hn Hd Hs HN Hj HO a b HE Hp. destruct (sigma_nth e n d s new out sg j) as [-> L]; auto. fold a b in L |- *.
  pose proof (spot e n a b p n HI He HE) as HL. unfold sigma_value.
  rewrite (several_end e s n p (S n) a b HI He Hs HL) by lia. reflexivity.
Qed.
Print Assumptions C73_to_the_end.

(** All old edges inside, two or more old bins: the last bin is used twice,
    once with everything from the start of the new bin to the last edge. *)
Theorem C73_all_edges : forall e n d s new out sg j, increasing e -> length e = S n -> (2 <= n)%nat ->
  length d = n -> length s = n -> nondecreasing new -> (S j < length new)%nat ->
  rebin_1d e d new None (Some s) = Ok (out, Some sg) ->
  let a := nth j new 0 in let b := nth (S j) new 0 in
  a <= nth 0 e 0 -> nth n e 0 <= b ->
  nth j sg None = Some (propagated e s
    (Piece ((nth n e 0 - a) / bin_length e (n - 1)) (nth n e 0 - a) (n - 1) :: whole e 0 (n - 1) ++ end_piece e b (n - 1))).
Proof.
  intros e n d s new out sg j HI He Hn Hd Hs HN Hj HO a b H0 H1. destruct (sigma_nth e n d s new out sg j) as [-> L]; auto; [lia|]. fold a b in L |- *.
  assert (HE : edges_inside e n a b 0 n).
  { split; [lia|]. intros i Hi. pose proof (le_edges e n HI He 0 i ltac:(lia)). pose proof (le_edges e n HI He i n ltac:(lia)). split; intros; [lia|lra]. }
  pose proof (spot e n a b 0 n HI He HE) as HL. unfold sigma_value.
  rewrite (several_all e s n 0 (S n) a b HI He Hs HL) by lia. reflexivity.
Qed.
Print Assumptions C73_all_edges.

(** One old bin, covered: [L] its length, [l] and [r] how far the new bin
    reaches beyond it. *)
Theorem C73_one_bin : forall e0 e1 d s0 new out sg j, e0 < e1 -> length d = 1%nat -> nondecreasing new -> (S j < length new)%nat ->
  rebin_1d [e0; e1] d new None (Some [s0]) = Ok (out, Some sg) ->
  let l := e0 - nth j new 0 in let r := nth (S j) new 0 - e1 in let L := e1 - e0 in
  0 <= l -> 0 <= r -> l <> r ->
  nth j sg None = Some (sqrt (s0 ^ 2 * L * (2 * L + l + r) / (l - r) ^ 2)).
Proof.
  intros e0 e1 d s0 new out sg j H Hd HN Hj HO l r L Hl Hr Hlr.
  assert (HI : increasing [e0; e1]) by (intros i k Hik; cbn [length] in Hik; destruct i as [|[|]]; destruct k as [|[|]]; try lia; cbn [nth]; lra).
  destruct (sigma_nth [e0; e1] 1 d [s0] new out sg j) as [-> LL]; auto. unfold sigma_value.
  rewrite several_one by (unfold l, r in *; lra).
  rewrite (end_defined [e0; e1] 1).
  - f_equal. unfold propagated, bin_length. cbn [map share extent bin nth]. unfold Rsum. cbn [fold_right]. f_equal.
    replace (nth j new 0) with (e0 - l) in * by (unfold l; ring). replace (nth (S j) new 0) with (e1 + r) in * by (unfold r; ring).
    replace e1 with (e0 + L) in * by (unfold L; ring). clearbody l r L. assert (0 < L) by lra.
    assert (l - r <> 0) by (intros Q; apply Hlr; lra).
    field. repeat split; try lra. intros Q. apply Hlr. nra.
  - exact HI.
  - reflexivity.
  - intros p [<-|[<-|[]]]; cbn [extent bin]; unfold l, r in *; split; lra || lia.
  - cbn [map share]. unfold Rsum. cbn [fold_right]. intros Q. apply Hlr. unfold l, r.
    assert (E : (e1 - nth j new 0) / (e1 - e0) + ((nth (S j) new 0 - e0) / (e0 - e1) + 0) = (e0 + e1 - nth j new 0 - nth (S j) new 0) / (e1 - e0)) by (field; lra).
    rewrite E in Q. apply Rmult_integral in Q. destruct Q as [Q|Q]; [lra|]. apply Rinv_neq_0_compat in Q; [contradiction|lra].
Qed.
Print Assumptions C73_one_bin.

(** The error of the old bin in which the new bin starts is not used when that
    bin is not the first and two or more old edges are inside. *)
Theorem C73_left_ignored : forall e n d s s' new out out' sg sg' j p q, increasing e -> length e = S n -> (1 <= n)%nat ->
  length d = n -> length s = n -> length s' = n -> nondecreasing new -> (S j < length new)%nat ->
  rebin_1d e d new None (Some s) = Ok (out, Some sg) -> rebin_1d e d new None (Some s') = Ok (out', Some sg') ->
  edges_inside e n (nth j new 0) (nth (S j) new 0) p q -> (2 <= p)%nat -> (p < q)%nat ->
  (forall i, i <> (p - 1)%nat -> nth i s 0 = nth i s' 0) ->
  nth j sg None = nth j sg' None.
Proof.
  intros e n d s s' new out out' sg sg' j p q HI He Hn Hd Hs Hs' HN Hj HO HO' HE Hp Hpq Heq.
  assert (X : forall m ps, (forall x, In x ps -> (p <= bin x)%nat) -> propagated e s (ps ++ end_piece e (nth (S j) new 0) (p + m)) = propagated e s' (ps ++ end_piece e (nth (S j) new 0) (p + m))).
  { intros m ps H. unfold propagated. do 3 f_equal. apply map_ext_in. intros x Hx. rewrite (Heq (bin x)); [reflexivity|].
    apply in_app_or in Hx. destruct Hx as [Hx|Hx]; [specialize (H x Hx); lia|].
    unfold end_piece in Hx. destruct (Rlt_dec _ _); [|destruct Hx]. destruct Hx as [<-|[]]. cbn [bin]. lia. }
  assert (W : forall m x, In x (whole e p m) -> (p <= bin x)%nat).
  { intros m x Hx. unfold whole in Hx. apply in_map_iff in Hx. destruct Hx as (i & <- & Hi). apply in_seq in Hi. cbn [bin]. lia. }
  assert (E : start_piece e p = []) by (unfold start_piece; destruct (Nat.eqb_spec p 1); [lia|reflexivity]).
  pose proof (proj1 HE) as HB. destruct (Nat.eq_dec q n) as [Q|Q].
  - subst q. rewrite (C73_to_the_end e n d s new out sg j p), (C73_to_the_end e n d s' new out' sg' j p) by (auto; lia).
    rewrite E. cbn [app]. f_equal. replace (n - 1)%nat with (p + (n - 1 - p))%nat at 2 4 by lia. apply X. apply W.
  - rewrite (C73_inner e n d s new out sg j p q), (C73_inner e n d s' new out' sg' j p q) by (auto; lia).
    rewrite E. cbn [app]. f_equal. replace q with (p + (q - p))%nat at 2 4 by lia. apply X. apply W.
Qed.
Print Assumptions C73_left_ignored.

(** ** C73: weights *)

(** With weights the error is the error of [s*w] divided by the error obtained
    with [w] in the place of the errors. *)
Theorem C73_weighted : forall e n d w s new, increasing e -> length e = S n -> (1 <= n)%nat ->
  length d = n -> length w = n -> length s = n -> nondecreasing new ->
  exists out o1 o2 num den, rebin_1d e d new (Some w) (Some s) = Ok (out, Some (map2 ndiv num den)) /\
    rebin_1d e d new None (Some (map2 Rmult s w)) = Ok (o1, Some num) /\
    rebin_1d e d new None (Some w) = Ok (o2, Some den).
Proof.
  intros e n d w s new HI He Hn Hd Hw Hs HN.
  assert (L : length (map2 Rmult s w) = n) by (rewrite map2_length; lia).
  assert (Ld : length (map2 Rmult d w) = n) by (rewrite map2_length; lia).
  do 5 eexists. split; [|split; apply (rebin_sigma e n); assumption].
  rewrite (rebin_ok e d new (Some w) (Some s) n HI He Hd HN Hw Hs).
  rewrite !(over_single e n), !(over_sigma e n) by assumption. cbn [bind]. reflexivity.
Qed.
Print Assumptions C73_weighted.

(** Equal errors [c]: wherever there is an error it is [c], whatever the weights
    and however many old bins the new bin covers. *)
Theorem C73_weighted_equal : forall e n d w s new out sg j c v, increasing e -> length e = S n -> (1 <= n)%nat ->
  length d = n -> length w = n -> length s = n -> nondecreasing new -> 0 <= c ->
  (forall i, (i < n)%nat -> nth i s 0 = c) -> (S j < length new)%nat ->
  rebin_1d e d new (Some w) (Some s) = Ok (out, Some sg) -> nth j sg None = Some v -> v = c.
Proof.
  intros e n d w s new out sg j c v HI He Hn Hd Hw Hs HN Hc Heq Hj HO HV.
  destruct (C73_weighted e n d w s new HI He Hn Hd Hw Hs HN) as (o & o1 & o2 & num & den & H1 & H2 & H3).
  rewrite H1 in HO. injection HO as <- <-.
  assert (ES : map2 Rmult s w = map (Rmult c) w).
  { clear - Heq Hw Hs. revert w n Hw Hs Heq. induction s as [|x s IH]; intros [|y w] n Hw Hs Heq; cbn in Hw, Hs; try lia; [reflexivity|].
    cbn [map2 map]. f_equal; [change (x * y = c * y); rewrite <- (Heq 0%nat ltac:(lia)); reflexivity|]. apply (IH w (length w)); auto; [lia|].
    intros i Hi. apply (Heq (S i)). lia. }
  assert (L : length (map2 Rmult s w) = n) by (rewrite map2_length; lia).
  rewrite ES in *.
  destruct (sigma_nth e n d (map (Rmult c) w) new o1 num j) as [N1 LE]; auto. destruct (sigma_nth e n d w new o2 den j) as [N2 _]; auto.
  destruct (C73_runs e n d w new HI He Hn Hd Hw HN) as (? & ? & R1 & _ & R2 & _). rewrite H3 in R1. injection R1 as <- <-.
  destruct (C73_runs e n d (map (Rmult c) w) new HI He Hn Hd L HN) as (? & ? & R3 & _ & R4 & _). rewrite H2 in R3. injection R3 as <- <-.
  rewrite (nth_map2 _ _ _ ndiv num den j None None None) in HV by lia. rewrite N1, N2 in HV. unfold sigma_value in HV.
  destruct (sigma_dichotomy e n (nth j new 0) (nth (S j) new 0) HI He Hn LE) as [[_ H]|[_ (ps & G & _ & H)]]; rewrite !H in HV by assumption; [discriminate|].
  rewrite (propagated_scale e n) in HV by assumption. cbn [ndiv] in HV. unfold fdiv in HV.
  destruct (Req_bool_spec (propagated e w ps) 0) as [Z|Z]; [discriminate|]. injection HV as <-. field. exact Z.
Qed.
Print Assumptions C73_weighted_equal.

(** ** C73: examples and expectations that fail *)

Lemma inc4 : increasing [0; 1; 2; 3].
Proof.
  intros i k H. cbn [length] in H.
  destruct i as [|[|[|[|]]]]; destruct k as [|[|[|[|]]]]; try lia; cbn [nth]; lra.
Qed.
Lemma nondec2 : forall a b, a <= b -> nondecreasing [a; b].
Proof.
  intros a b H i k Hik. cbn [length] in Hik. destruct i as [|[|]]; destruct k as [|[|]]; try lia; cbn [nth]; lra.
Qed.

Ltac inside := split; [lia|]; intros i Hi; cbn [nth]; destruct i as [|[|[|[|]]]]; try lia; cbn [nth]; split; intros; first [lia|lra].

(** The claims apply: one edge inside, several edges from the first edge on,
    and a bin without error. *)
Example C73_example : exists out sg,
  rebin_1d [0; 1; 2; 3] [6; 0; 9] [-1; 0; 5/2; 3] None (Some [3; 4; 1]) = Ok (out, Some sg) /\
  nth 0 sg None = None /\ nth 1 sg None = Some (mean_error [0; 1; 2; 3] [3; 4; 1] 3 0 (5/2)) /\
  nth 2 sg None = Some (mean_error [0; 1; 2; 3] [3; 4; 1] 3 (5/2) 3) /\
  mean_error [0; 1; 2; 3] [3; 4; 1] 3 0 (5/2) = sqrt (102 / 25) /\
  mean_error [0; 1; 2; 3] [3; 4; 1] 3 (5/2) 3 = sqrt 2.
Proof.
  assert (HN : nondecreasing [-1; 0; 5/2; 3]).
  { intros i k H. cbn [length] in H. destruct i as [|[|[|[|]]]]; destruct k as [|[|[|[|]]]]; try lia; cbn [nth]; lra. }
  destruct (C73_runs [0; 1; 2; 3] 3 [6; 0; 9] [3; 4; 1] [-1; 0; 5/2; 3] inc4 eq_refl ltac:(lia) eq_refl eq_refl HN) as (out & sg & H & _).
  exists out, sg. split; [exact H|]. split; [|split; [|split; [|split]]].
  - apply (C73_defined [0; 1; 2; 3] 3 [6; 0; 9] [3; 4; 1] _ out sg 0 inc4 eq_refl ltac:(lia) eq_refl eq_refl HN ltac:(cbn; lia) H).
    right; left. cbn [nth]. lra.
  - apply (C73_aligned [0; 1; 2; 3] 3 [6; 0; 9] [3; 4; 1] _ out sg 1 0 2 inc4 eq_refl ltac:(lia) eq_refl eq_refl HN ltac:(cbn; lia) H);
      try lia; [cbn [nth]; inside|unfold bin_length; cbn [Nat.sub nth]; ring].
  - apply (C73_few_edges [0; 1; 2; 3] 3 [6; 0; 9] [3; 4; 1] _ out sg 2 inc4 eq_refl ltac:(lia) eq_refl eq_refl HN ltac:(cbn; lia) H);
      cbn [nth]; try lra. intros c c' Hc Hc'. destruct c as [|[|[|[|]]]]; destruct c' as [|[|[|[|]]]]; try lia; cbn [nth]; intros; lia || lra.
  - unfold mean_error, covered, overlap, bin_length, Rsum. cbn [seq map fold_right nth].
    rewrite (Rmin_right (5/2) 1), (Rmin_right (5/2) 2), (Rmin_left (5/2) 3), !Rmax_right; try lra.
    + f_equal. field.
    + rewrite !Rmax_right by lra. lra.
    + rewrite !Rmax_right by lra. lra.
    + rewrite !Rmax_right by lra. lra.
  - unfold mean_error, covered, overlap, bin_length, Rsum. cbn [seq map fold_right nth].
    rewrite (Rmin_right 3 1), (Rmin_right 3 2), (Rmin_right 3 3), (Rmax_left (5/2) 0), (Rmax_left (5/2) 1), (Rmax_left (5/2) 2) by lra.
    rewrite (Rmax_left 0 (1 - 5/2)), (Rmax_left 0 (2 - 5/2)), (Rmax_right 0 (3 - 5/2)) by lra. f_equal. field.
Qed.

(** Half of bin 0, bin 1 and half of bin 2, all errors 1: the error of the mean
    is [sqrt (1/2)], the code returns [sqrt (2/5)] (the whole of bin 0). *)
Theorem C73_mean_error_refuted : exists e d s new out,
  increasing e /\ nondecreasing new /\ (forall i, (i < 3)%nat -> bin_length e i = 1) /\
  rebin_1d e d new None (Some s) = Ok (out, Some [Some (sqrt (2 / 5))]) /\
  mean_error e s 3 (nth 0 new 0) (nth 1 new 0) = sqrt (1 / 2) /\ sqrt (2 / 5) < sqrt (1 / 2).
Proof.
  pose proof (nondec2 (1/2) (5/2) ltac:(lra)) as HN.
  destruct (C73_runs [0; 1; 2; 3] 3 [0; 0; 0] [1; 1; 1] [1/2; 5/2] inc4 eq_refl ltac:(lia) eq_refl eq_refl HN) as (out & sg & H & _ & L & _).
  exists [0; 1; 2; 3], [0; 0; 0], [1; 1; 1], [1/2; 5/2], out. split; [exact inc4|]. split; [exact HN|].
  split; [intros i Hi; unfold bin_length; destruct i as [|[|[|]]]; try lia; cbn [nth]; ring|].
  split; [|split].
  - destruct sg as [|x [|y sg]]; cbn [length] in L; try lia. rewrite H. do 4 f_equal.
    pose proof (C73_inner [0; 1; 2; 3] 3 [0; 0; 0] [1; 1; 1] _ out [x] 0 1 2 inc4 eq_refl ltac:(lia) eq_refl eq_refl HN ltac:(cbn; lia) H) as E.
    cbv beta zeta in E. change (nth 0 [x] None) with x in E. rewrite E by (try lia; cbn [nth]; inside). f_equal.
    unfold propagated, end_piece. cbn [nth]. destruct (Rlt_dec 2 (5/2)) as [_|]; [|lra].
    unfold start_piece, whole, bin_length, Rsum. cbn [Nat.eqb seq map app fold_right nth share extent bin Nat.sub]. f_equal. field.
  - unfold mean_error, covered, overlap, bin_length, Rsum. cbn [seq map fold_right nth].
    rewrite (Rmin_right (5/2) 1), (Rmin_right (5/2) 2), (Rmin_left (5/2) 3), (Rmax_left (1/2) 0), (Rmax_right (1/2) 1), (Rmax_right (1/2) 2) by lra.
    rewrite !Rmax_right by lra. f_equal. field.
  - apply sqrt_lt_1; lra.
Qed.
Print Assumptions C73_mean_error_refuted.

(** Unit weights change the errors: the average of two values with error 1 has
    error [sqrt (1/2)] without weights and 1 with them. *)
Theorem C73_unit_weights_refuted : exists e d s w new out out',
  increasing e /\ nondecreasing new /\ (forall x, In x w -> x = 1) /\
  rebin_1d e d new None (Some s) = Ok (out, Some [Some (sqrt (1 / 2))]) /\
  rebin_1d e d new (Some w) (Some s) = Ok (out', Some [Some 1]).
Proof.
  pose proof (nondec2 0 2 ltac:(lra)) as HN.
  destruct (C73_runs [0; 1; 2; 3] 3 [0; 0; 0] [1; 1; 1] [0; 2] inc4 eq_refl ltac:(lia) eq_refl eq_refl HN) as (out & sg & H & _ & L & _).
  destruct sg as [|x [|y sg]]; cbn [length] in L; try lia.
  pose proof (C73_inner [0; 1; 2; 3] 3 [0; 0; 0] [1; 1; 1] _ out [x] 0 0 2 inc4 eq_refl ltac:(lia) eq_refl eq_refl HN ltac:(cbn; lia) H) as E.
  cbv beta zeta in E. change (nth 0 [x] None) with x in E. rewrite E in H by (try lia; cbn [nth]; inside). clear E.
  assert (P : propagated [0; 1; 2; 3] [1; 1; 1] (start_piece [0; 1; 2; 3] 0 ++ whole [0; 1; 2; 3] 0 (2 - 0) ++ end_piece [0; 1; 2; 3] (nth 1 [0; 2] 0) 2) = sqrt (1 / 2)).
  { unfold propagated, end_piece. cbn [nth]. destruct (Rlt_dec 2 2) as [|_]; [lra|].
    unfold start_piece, whole, bin_length, Rsum. cbn [Nat.eqb seq map app fold_right nth share extent bin Nat.sub]. f_equal. field. }
  rewrite P in H.
  destruct (C73_weighted [0; 1; 2; 3] 3 [0; 0; 0] [1; 1; 1] [1; 1; 1] [0; 2] inc4 eq_refl ltac:(lia) eq_refl eq_refl eq_refl HN) as (o & o1 & o2 & num & den & H1 & H2 & H3).
  exists [0; 1; 2; 3], [0; 0; 0], [1; 1; 1], [1; 1; 1], [0; 2], out, o. split; [exact inc4|]. split; [exact HN|].
  split; [intros y [<-|[<-|[<-|[]]]]; reflexivity|]. split; [exact H|]. rewrite H1.
  cbn [map2] in H2. rewrite !Rmult_1_l in H2. rewrite H in H2, H3. injection H2 as _ <-. injection H3 as _ <-.
  cbn [map2 ndiv]. unfold fdiv. rewrite Req_bool_false.
  - do 4 f_equal. unfold Rdiv. rewrite Rinv_r; [reflexivity|]. apply Rgt_not_eq. apply sqrt_lt_R0. lra.
  - apply Rgt_not_eq. apply sqrt_lt_R0. lra.
Qed.
Print Assumptions C73_unit_weights_refuted.
