(** * Theorems: [rebin_1d] in double precision (C90) *)

From Coq Require Import Reals ZArith List Bool Lia Lra Psatz Permutation.
From Flocq Require Import Core IEEE754.BinarySingleNaN.
From Verif Require Import TDenseDouble Base BaseP SpecGrid SpecRemap MGrids MUtils PGrids PPolarCoords PUtils MOneD POneD POneD2 TOneD MHealpixFloat PHealpixFloat SpecDouble MDouble PDouble
  MGridsDouble PGridsDouble MRemapDouble MSumDouble PSumDouble PDense PDenseDouble PRemap2 PRadial SpecRebinDouble MOneDDouble PRebinDouble PRebinDouble2 PRebinDouble3 PRebinDouble4.
Import ListNotations.
Open Scope R_scope.

(** ** Lemmas *)

Lemma inc_nondec : forall l, increasing l -> nondecreasing l.
Proof.
  intros l H i j Hij. destruct (Nat.eq_dec i j) as [-> |N]; [lra|]. apply Rlt_le, H. lia.
Qed.

Lemma at_most_nth : forall M l i, 0 <= M -> at_most M l -> fin (nth i l dzero) /\ Rabs (val (nth i l dzero)) <= M.
Proof.
  intros M l i HM H. destruct (Nat.lt_ge_cases i (length l)) as [L|L]; [apply H, nth_In, L|]. rewrite nth_overflow by exact L.
  split; [reflexivity|]. change (val dzero) with 0. now rewrite Rabs_R0.
Qed.

Lemma tame_nth : forall l i, (forall x, In x l -> tame x) -> tame (nth i l dzero).
Proof.
  intros l i H. destruct (Nat.lt_ge_cases i (length l)) as [L|L]; [apply H, nth_In, L|]. rewrite nth_overflow by exact L.
  split; [reflexivity|]. now left.
Qed.

Lemma new_le_d : forall new j, nondecreasing (map val new) -> (S j < length new)%nat -> val (nth j new dzero) <= val (nth (S j) new dzero).
Proof. intros new j H Hj. rewrite <- !nth_val. apply new_le; [exact H|]. now rewrite map_length. Qed.

(** ** Unweighted data *)

(** Edges that are zero or between 2^-240 and 2^300 in size, up to 2^19 bins,
    data of size at most [M]: each new bin differs from its value in exact
    arithmetic by at most [(n + 4) 2^-50 M], and is NaN exactly where there is
    none. *)
Theorem C90_accuracy : forall o e n d new M, order_ok o -> (forall x, In x e -> tame x) -> (forall x, In x new -> tame x) ->
  increasing (map val e) -> nondecreasing (map val new) -> length e = S n -> (1 <= n)%nat -> INR n <= b2 19 -> length d = n ->
  b2 (-300) <= M <= b2 300 -> at_most M d ->
  exists exact out, rebin_1d (map val e) (map val d) (map val new) None None = Ok (exact, None) /\ rebin_1d_d o e d new None None = Ok (out, None) /\
    length exact = (length new - 1)%nat /\ length out = (length new - 1)%nat /\
    forall j, (j < length new - 1)%nat -> close ((INR n + 4) * b2 (-50) * M) (nth j exact None) (nth j out dzero).
Proof.
  intros o e n d new M O Me Mn HI HN Le Hn Hn19 Ld HM Hd. pose proof (bpow_gt_0 radix2 (-300)) as P300.
  assert (LE : length (map val e) = S n) by (rewrite map_length; exact Le). assert (LD : length (map val d) = n) by (rewrite map_length; exact Ld).
  assert (SE : forall j, (S j < length new)%nat ->
    (single_value (map val e) (map val d) (val (nth j new dzero)) (val (nth (S j) new dzero)) = None /\ rebin_1d_single_bin_d o e d (nth j new dzero) (nth (S j) new dzero) = Ok dnan) \/
    exists q v, rebin_1d_single_bin_d o e d (nth j new dzero) (nth (S j) new dzero) = Ok q /\
      single_value (map val e) (map val d) (val (nth j new dzero)) (val (nth (S j) new dzero)) = Some v /\ fin q /\ Rabs (val q - v) <= (INR n + 4) * b2 (-50) * M).
  { intros j Hj.
    destruct (single_err o e n (nth j new dzero) (nth (S j) new dzero) O Me (tame_nth _ _ Mn) (tame_nth _ _ Mn) HI Le Hn (new_le_d _ _ HN Hj)
                d (map val d) (repeat M n) 0 Hn19 Ld LD ltac:(apply repeat_length) ltac:(lra)) as [(R1 & _ & D1)|(q & v & V & D1 & R1 & R2 & F & B & _ & _)].
    - intros i Hi. rewrite nth_repeat_lt by exact Hi. rewrite nth_val. destruct (at_most_nth M d i ltac:(lra) Hd) as [F B].
      split; [exact F|]. rewrite Rminus_diag_eq, Rabs_R0 by reflexivity. split; [lra|]. split; [exact B|exact HM].
    - left. unfold single_value. rewrite R1. now split.
    - right. exists q, v. unfold single_value. rewrite R1. split; [exact D1|]. split; [reflexivity|]. split; [exact F|].
      assert (V = M).
      { destruct (single_dichotomy (map val e) n (val (nth j new dzero)) (val (nth (S j) new dzero)) HI LE Hn (new_le_d _ _ HN Hj)) as [[_ H]|[_ H]].
        - rewrite H in R2 by apply repeat_length. discriminate.
        - destruct H as (ws & idx & L & P & S1 & IX & H). rewrite H in R2 by apply repeat_length. injection R2 as <-.
          pose proof (wmean_within ws (pick (repeat M n) idx) M M ltac:(unfold pick; now rewrite map_length) P S1) as W.
          assert (M <= wmean ws (pick (repeat M n) idx) <= M); [apply W|lra].
          intros x Hx. apply in_map_iff in Hx. destruct Hx as (i & <- & Hi). rewrite nth_repeat_lt by (now apply IX). lra. }
      subst V. apply Rle_trans with (1 := B). apply Rmult_le_compat_r; [lra|]. unfold u. change (-50)%Z with (3 + -53)%Z. rewrite bpow_plus. change (b2 3) with 8.
      pose proof (bpow_gt_0 radix2 (-53)). pose proof (pos_INR n). nra. }
  exists (map (fun i => single_value (map val e) (map val d) (nth i (map val new) 0) (nth (S i) (map val new) 0)) (seq 0 (length (map val new) - 1))).
  exists (tab (length new - 1) (fun i => value_d (rebin_1d_single_bin_d o e d (nth i new dzero) (nth (S i) new dzero)))).
  split; [apply (rebin_plain _ n); assumption|]. split.
  { rewrite (rebin_d_ok o e d new None None n); auto; [|intros x Hx; apply Me, Hx|intros x Hx; apply Mn, Hx|now apply inc_nondec].
    rewrite over_d; [reflexivity|]. intros i Hi. destruct (SE i Hi) as [[_ E]|(q & v & E & _)]; eexists; exact E. }
  split; [rewrite map_length, seq_length, map_length; reflexivity|]. split; [apply tab_length|].
  intros j Hj. rewrite tab_nth by exact Hj. rewrite nth_bins by (rewrite map_length; exact Hj). rewrite !nth_val.
  destruct (SE j ltac:(lia)) as [[-> ->]|(q & v & -> & -> & F & B)]; [reflexivity|]. split; [exact F|exact B].
Qed.
Print Assumptions C90_accuracy.

(** Data within bounds, or all equal: the new bins are so up to the rounding
    error. *)
Theorem C90_bounds : forall o e n d new M lo hi, order_ok o -> (forall x, In x e -> tame x) -> (forall x, In x new -> tame x) ->
  increasing (map val e) -> nondecreasing (map val new) -> length e = S n -> (1 <= n)%nat -> INR n <= b2 19 -> length d = n ->
  b2 (-300) <= M <= b2 300 -> at_most M d -> (forall x, In x d -> lo <= val x <= hi) ->
  exists out, rebin_1d_d o e d new None None = Ok (out, None) /\ length out = (length new - 1)%nat /\
    forall j, (j < length new - 1)%nat -> is_nan (nth j out dzero) = true \/
      fin (nth j out dzero) /\ lo - (INR n + 4) * b2 (-50) * M <= val (nth j out dzero) <= hi + (INR n + 4) * b2 (-50) * M.
Proof.
  intros o e n d new M lo hi O Me Mn HI HN Le Hn Hn19 Ld HM Hd HW.
  destruct (C90_accuracy o e n d new M O Me Mn HI HN Le Hn Hn19 Ld HM Hd) as (ex & out & R & D & L1 & L2 & C).
  exists out. split; [exact D|]. split; [exact L2|]. intros j Hj. specialize (C j Hj).
  destruct (C32_rebin_bounds (map val e) n (map val d) (map val new) HI ltac:(now rewrite map_length) Hn ltac:(now rewrite map_length) HN) as (ex' & R' & _ & B).
  rewrite R in R'. injection R' as <-. destruct (nth j ex None) as [v|] eqn:E; [right|left; exact C].
  destruct C as [F C]. split; [exact F|]. apply Rabs_le_inv in C.
  assert (lo <= v <= hi); [|lra]. apply (B lo hi j v); [|exact E]. intros x Hx. apply in_map_iff in Hx. destruct Hx as (y & <- & Hy). now apply HW.
Qed.
Print Assumptions C90_bounds.

Theorem C90_constant : forall o e n c new, order_ok o -> (forall x, In x e -> tame x) -> (forall x, In x new -> tame x) ->
  increasing (map val e) -> nondecreasing (map val new) -> length e = S n -> (1 <= n)%nat -> INR n <= b2 19 ->
  fin c -> b2 (-300) <= Rabs (val c) <= b2 300 ->
  exists out, rebin_1d_d o e (repeat c n) new None None = Ok (out, None) /\ length out = (length new - 1)%nat /\
    forall j, (j < length new - 1)%nat -> is_nan (nth j out dzero) = true \/
      fin (nth j out dzero) /\ Rabs (val (nth j out dzero) - val c) <= (INR n + 4) * b2 (-50) * Rabs (val c).
Proof.
  intros o e n c new O Me Mn HI HN Le Hn Hn19 Fc HM.
  destruct (C90_bounds o e n (repeat c n) new (Rabs (val c)) (val c) (val c) O Me Mn HI HN Le Hn Hn19 (repeat_length _ _) HM) as (out & D & L & C).
  - intros x Hx. apply repeat_spec in Hx. subst x. split; [exact Fc|lra].
  - intros x Hx. apply repeat_spec in Hx. subst x. lra.
  - exists out. split; [exact D|]. split; [exact L|]. intros j Hj. destruct (C j Hj) as [H|[F H]]; [now left|right]. split; [exact F|]. apply Rabs_le. lra.
Qed.
Print Assumptions C90_constant.

(** Old bins of equal length: the mean of the histogram over the new bin, except
    for a new bin that covers the whole range. *)
Theorem C90_mean : forall o e a h n d new M, order_ok o -> (forall x, In x e -> tame x) -> (forall x, In x new -> tame x) ->
  uniform_edges (map val e) a h n -> 0 < h -> nondecreasing (map val new) -> (1 <= n)%nat -> INR n <= b2 19 -> length d = n ->
  b2 (-300) <= M <= b2 300 -> at_most M d ->
  exists out, rebin_1d_d o e d new None None = Ok (out, None) /\ length out = (length new - 1)%nat /\
    forall j p q, p = val (nth j new dzero) -> q = val (nth (S j) new dzero) -> (j < length new - 1)%nat ->
      p < q -> p < val (nth n e dzero) -> val (nth 0 e dzero) < q -> ~ (p <= val (nth 0 e dzero) /\ val (nth n e dzero) <= q) ->
      fin (nth j out dzero) /\ Rabs (val (nth j out dzero) - histogram_mean (map val e) (map val d) n p q) <= (INR n + 4) * b2 (-50) * M.
Proof.
  intros o e a h n d new M O Me Mn HU Hh HN Hn Hn19 Ld HM Hd. pose proof (uniform_increasing _ a h n HU Hh) as HI.
  assert (Le : length e = S n) by (destruct HU as [HU _]; rewrite map_length in HU; exact HU).
  destruct (C90_accuracy o e n d new M O Me Mn HI HN Le Hn Hn19 Ld HM Hd) as (ex & out & R & D & L1 & L2 & C).
  exists out. split; [exact D|]. split; [exact L2|]. intros j p q -> -> Hj H1 H2 H3 H4. specialize (C j Hj).
  rewrite <- (nth_val new j) in *. rewrite <- (nth_val new (S j)) in *. rewrite <- (nth_val e 0), <- (nth_val e n) in *.
  rewrite (C34_rebin_overlap_mean (map val e) a h n (map val d) (map val new) ex j HU Hh Hn ltac:(now rewrite map_length) HN R ltac:(rewrite map_length; lia) H1 H2 H3 H4) in C.
  exact C.
Qed.
Print Assumptions C90_mean.

(** ** Weighted data *)

Lemma quotient_err : forall q1 q2 v1 V2 M e1 e2, 0 < V2 -> 0 <= M -> 0 <= e1 -> 0 <= e2 <= / 16 -> Rabs v1 <= M * V2 ->
  Rabs (q1 - v1) <= e1 * (M * V2) -> Rabs (q2 - V2) <= e2 * V2 -> 0 < q2 /\ Rabs (q1 / q2 - v1 / V2) <= (16 / 15) * (e1 + e2) * M.
Proof.
  intros q1 q2 v1 V2 M e1 e2 PV PM P1 P2 Hv H1 H2.
  assert (P : 15 / 16 * V2 <= q2) by (apply Rabs_le_inv in H2; nra). assert (0 < q2) by lra. split; [lra|].
  replace (q1 / q2 - v1 / V2) with (((q1 - v1) - (v1 / V2) * (q2 - V2)) / q2) by (field; lra).
  unfold Rdiv at 1. rewrite Rabs_mult, (Rabs_pos_eq (/ q2)) by (left; apply Rinv_0_lt_compat; lra).
  assert (HQ : Rabs (v1 / V2) <= M).
  { unfold Rdiv. rewrite Rabs_mult, (Rabs_pos_eq (/ V2)) by (left; apply Rinv_0_lt_compat; lra). apply Rmult_le_reg_r with V2; [lra|]. rewrite Rmult_assoc, Rinv_l by lra. lra. }
  assert (HN : Rabs (q1 - v1 - v1 / V2 * (q2 - V2)) <= (e1 + e2) * M * V2).
  { apply Rle_trans with (Rabs (q1 - v1) + Rabs (v1 / V2 * (q2 - V2))); [unfold Rminus at 1; apply Rle_trans with (1 := Rabs_triang _ _); rewrite Rabs_Ropp; lra|]. rewrite Rabs_mult.
    assert (Rabs (v1 / V2) * Rabs (q2 - V2) <= M * (e2 * V2)) by (apply Rmult_le_compat; try apply Rabs_pos; assumption). lra. }
  apply Rmult_le_reg_r with q2; [lra|]. rewrite Rmult_assoc, Rinv_l, Rmult_1_r by lra. apply Rle_trans with (1 := HN).
  assert (0 <= (e1 + e2) * M) by (apply Rmult_le_pos; lra). nra.
Qed.

(** Weights between 2^-100 and 2^100, data of size at most [M]. *)
Theorem C90_weighted : forall o e n d w new M, order_ok o -> (forall x, In x e -> tame x) -> (forall x, In x new -> tame x) ->
  increasing (map val e) -> nondecreasing (map val new) -> length e = S n -> (1 <= n)%nat -> INR n <= b2 19 -> length d = n -> length w = n ->
  b2 (-200) <= M <= b2 200 -> at_most M d -> (forall x, In x w -> fin x /\ b2 (-100) <= val x <= b2 100) ->
  exists exact out, rebin_1d (map val e) (map val d) (map val new) (Some (map val w)) None = Ok (exact, None) /\ rebin_1d_d o e d new (Some w) None = Ok (out, None) /\
    length exact = (length new - 1)%nat /\ length out = (length new - 1)%nat /\
    forall j, (j < length new - 1)%nat -> close ((2 * INR n + 12) * b2 (-50) * M) (nth j exact None) (nth j out dzero).
Proof.
  intros o e n d w new M O Me Mn HI HN Le Hn Hn19 Ld Lw HM Hd Hw. pose proof (bpow_gt_0 radix2 (-200)) as P200. pose proof (bpow_gt_0 radix2 (-100)) as P100.
  pose proof u_pos as U.
  assert (Nw : forall i, (i < n)%nat -> fin (nth i w dzero) /\ b2 (-100) <= val (nth i w dzero) <= b2 100) by (intros i Hi; apply Hw, nth_In; unfold double in *; lia).
  assert (LE : length (map val e) = S n) by (rewrite map_length; exact Le). assert (LD : length (map val d) = n) by (rewrite map_length; exact Ld).
  assert (LW : length (map val w) = n) by (rewrite map_length; exact Lw).
  set (y := map2 Rmult (map val d) (map val w)). set (Y := map (fun x => M * x) (map val w)). set (dw := map2 dmul d w).
  assert (Ly : length y = n) by (unfold y; rewrite map2_length; lia). assert (LY : length Y = n) by (unfold Y; rewrite map_length; lia).
  assert (Ldw : length dw = n) by (unfold dw; rewrite map2_length; unfold double in *; lia).
  assert (ny : forall i, (i < n)%nat -> nth i y 0 = val (nth i d dzero) * val (nth i w dzero)).
  { intros i Hi. unfold y. rewrite (nth_map2 _ _ _ Rmult _ _ i 0 0 0) by lia. now rewrite !nth_val. }
  assert (nY : forall i, (i < n)%nat -> nth i Y 0 = M * val (nth i w dzero)).
  { intros i Hi. unfold Y. rewrite (nth_map_lt _ _ _ _ i 0 0) by lia. now rewrite nth_val. }
  assert (ndw : forall i, (i < n)%nat -> nth i dw dzero = dmul (nth i d dzero) (nth i w dzero)).
  { intros i Hi. unfold dw. apply nth_map2; unfold double in *; lia. }
  assert (YB : forall i, (i < n)%nat -> b2 (-300) <= nth i Y 0 <= b2 300).
  { intros i Hi. rewrite nY by exact Hi. destruct (Nw i Hi) as (_ & B1 & B2). change (-300)%Z with (-200 + -100)%Z. change 300%Z with (200 + 100)%Z. rewrite !bpow_plus.
    split; apply Rmult_le_compat; lra. }
  assert (SE : forall j, (S j < length new)%nat -> let a := nth j new dzero in let b := nth (S j) new dzero in
    exists q1 q2, rebin_1d_single_bin_d o e dw a b = Ok q1 /\ rebin_1d_single_bin_d o e w a b = Ok q2 /\
      close ((2 * INR n + 12) * b2 (-50) * M) (ndiv (single_value (map val e) y (val a) (val b)) (single_value (map val e) (map val w) (val a) (val b))) (ddiv q1 q2)).
  { intros j Hj a b.
    pose proof (tame_nth new j Mn) as Ma. pose proof (tame_nth new (S j) Mn) as Mb. pose proof (new_le_d new j HN Hj) as Hab. fold a b in Ma, Mb, Hab.
    destruct (single_err o e n a b O Me Ma Mb HI Le Hn Hab w (map val w) (map val w) 0 Hn19 Lw LW LW ltac:(lra)) as [(R2 & _ & D2)|(q2 & V2 & V2' & D2 & R2 & R2' & F2 & B2 & _ & RG2)].
    { intros i Hi. rewrite nth_val. destruct (Nw i Hi) as (F & B1 & B2). split; [exact F|]. rewrite Rminus_diag_eq, Rabs_R0 by reflexivity. rewrite Rabs_pos_eq by lra. split; [lra|]. split; [lra|].
      split; [apply Rle_trans with (b2 (-100)); [apply bpow_le; lia|exact B1]|apply Rle_trans with (b2 100); [exact B2|apply bpow_le; lia]]. }
    all: destruct (single_err o e n a b O Me Ma Mb HI Le Hn Hab dw y Y (2 * u) Hn19 Ldw Ly LY) as [(R1 & _ & D1)|(q1 & v1 & V1 & D1 & R1 & R1' & F1 & B1 & A1 & RG1)];
      [unfold u; split; [pose proof (bpow_gt_0 radix2 (-53)); lra|]; change 2 with (b2 1); rewrite <- bpow_plus; change (/ 1048576) with (b2 (-20)); apply bpow_le; lia| | |].
    1,4: (intros i Hi; rewrite ndw, ny, nY by exact Hi; destruct (Nw i Hi) as (Fw & W1 & W2); destruct (at_most_nth M d i ltac:(lra) Hd) as [Fd Bd];
      pose proof (YB i Hi) as YBi; rewrite nY in YBi by exact Hi;
      assert (PB : Rabs (val (nth i d dzero) * val (nth i w dzero)) <= M * val (nth i w dzero)) by (rewrite Rabs_mult, (Rabs_pos_eq (val (nth i w dzero))) by lra; apply Rmult_le_compat_r; lra);
      destruct (dmul_ok (nth i d dzero) (nth i w dzero) Fd Fw) as [F V];
      [apply Rle_lt_trans with (b2 300); [apply fl_big; [lia|lra]|apply bpow_lt; lia]|split; [exact F|split; [|split; [exact PB|exact YBi]]]; rewrite V;
       apply Rle_trans with (1 := fl_mixed _);
       assert (b2 (-1075) <= u * (M * val (nth i w dzero)));
       [apply Rle_trans with (u * b2 (-300)); [unfold u; rewrite <- bpow_plus; apply bpow_le; lia|apply Rmult_le_compat_l; lra]|nra]]).
    - exists dnan, dnan. split; [exact D1|]. split; [exact D2|]. unfold single_value. rewrite R1. reflexivity.
    - exfalso. destruct (single_dichotomy (map val e) n (val a) (val b) HI LE Hn Hab) as [[_ H]|[_ (ws & idx & _ & _ & _ & _ & H)]]; [rewrite H in R1 by exact Ly|rewrite H in R2 by exact LW]; discriminate.
    - exfalso. destruct (single_dichotomy (map val e) n (val a) (val b) HI LE Hn Hab) as [[_ H]|[_ (ws & idx & _ & _ & _ & _ & H)]]; [rewrite H in R2 by exact LW|rewrite H in R1 by exact Ly]; discriminate.
    - exists q1, q2. split; [exact D1|]. split; [exact D2|]. unfold single_value. rewrite R1, R2.
      rewrite R2 in R2'. injection R2' as <-.
      assert (E1 : V1 = M * V2).
      { destruct (single_dichotomy (map val e) n (val a) (val b) HI LE Hn Hab) as [[_ H]|[_ (ws & idx & _ & _ & _ & IX & H)]]; [rewrite H in R1 by exact Ly; discriminate|].
        rewrite H in R1' by exact LY. rewrite H in R2 by exact LW. injection R1' as <-. injection R2 as <-.
        assert (EP : pick Y idx = map (fun x => M * x) (pick (map val w) idx)).
        { unfold pick. rewrite map_map. apply map_ext_in. intros i Hi. rewrite nY by (now apply IX). now rewrite nth_val. }
        rewrite EP. unfold wmean. replace (Rsum (map2 Rmult ws (map (fun x => M * x) (pick (map val w) idx)))) with (M * Rsum (map2 Rmult ws (pick (map val w) idx))); [unfold Rdiv; ring|].
        clear. generalize (pick (map val w) idx). intros l. revert l. induction ws as [|x ws IH]; intros l; [cbn; ring|]. destruct l as [|z l]; [cbn; ring|].
        cbn [map map2]. rewrite !Rsum_cons, <- IH. ring. }
      subst V1. pose proof (bpow_gt_0 radix2 (-300)) as P300. assert (PV2 : 0 < V2) by lra. pose proof (pos_INR n) as Pn.
      assert (NU : INR n * u <= / 1048576).
      { apply Rle_trans with (b2 19 * u); [apply Rmult_le_compat_r; lra|]. unfold u. rewrite <- bpow_plus. change (/ 1048576) with (b2 (-20)). apply bpow_le. lia. }
      assert (UU : u <= / 1048576) by (unfold u; change (/ 1048576) with (b2 (-20)); apply bpow_le; lia).
      assert (G2 : 0 <= (6 * INR n + 30) * u <= / 16) by nra.
      assert (G1 : 0 <= (6 * INR n + 46) * u) by nra.
      destruct (quotient_err (val q1) (val q2) v1 V2 M ((6 * INR n + 46) * u) ((6 * INR n + 30) * u) PV2 ltac:(lra) G1 G2 A1) as [Pq Q].
      { apply Rle_trans with (1 := B1). apply Rmult_le_compat_r; lra. }
      { apply Rle_trans with (1 := B2). apply Rmult_le_compat_r; lra. }
      assert (AQ : Rabs (v1 / V2) <= M).
      { unfold Rdiv. rewrite Rabs_mult, (Rabs_pos_eq (/ V2)) by (left; apply Rinv_0_lt_compat; lra). apply Rmult_le_reg_r with V2; [lra|]. rewrite Rmult_assoc, Rinv_l by lra. lra. }
      assert (AQ2 : Rabs (val q1 / val q2) <= 2 * M).
      { replace (val q1 / val q2) with ((val q1 / val q2 - v1 / V2) + v1 / V2) by ring. apply Rle_trans with (1 := Rabs_triang _ _).
        assert (16 / 15 * ((6 * INR n + 46) * u + (6 * INR n + 30) * u) * M <= 1 * M) by (apply Rmult_le_compat_r; [lra|nra]). lra. }
      destruct (ddiv_ok q1 q2 F1 ltac:(lra)) as [Fq Vq].
      { apply Rle_lt_trans with (b2 201); [|apply bpow_lt; lia]. apply fl_big; [lia|]. apply Rle_trans with (1 := AQ2). change 201%Z with (1 + 200)%Z. rewrite bpow_plus. change (b2 1) with 2. lra. }
      unfold ndiv. rewrite fdiv_ok by lra. split; [exact Fq|]. rewrite Vq.
      replace (fl (val q1 / val q2) - v1 / V2) with ((fl (val q1 / val q2) - val q1 / val q2) + (val q1 / val q2 - v1 / V2)) by ring.
      apply Rle_trans with (1 := Rabs_triang _ _). pose proof (fl_mixed (val q1 / val q2)) as FM.
      assert (T : b2 (-1075) <= u * M) by (apply Rle_trans with (u * b2 (-200)); [unfold u; rewrite <- bpow_plus; apply bpow_le; lia|apply Rmult_le_compat_l; lra]).
      assert (UQ : u * Rabs (val q1 / val q2) <= u * (2 * M)) by (apply Rmult_le_compat_l; lra).
      apply Rle_trans with ((3 * u + 16 / 15 * ((6 * INR n + 46) * u + (6 * INR n + 30) * u)) * M); [lra|]. apply Rmult_le_compat_r; [lra|].
      unfold u. change (-50)%Z with (3 + -53)%Z. rewrite bpow_plus. change (b2 3) with 8. fold u. nra. }
  exists (map (fun i => ndiv (single_value (map val e) y (nth i (map val new) 0) (nth (S i) (map val new) 0)) (single_value (map val e) (map val w) (nth i (map val new) 0) (nth (S i) (map val new) 0))) (seq 0 (length (map val new) - 1))).
  exists (tab (length new - 1) (fun i => ddiv (value_d (rebin_1d_single_bin_d o e dw (nth i new dzero) (nth (S i) new dzero))) (value_d (rebin_1d_single_bin_d o e w (nth i new dzero) (nth (S i) new dzero))))).
  split; [|split; [|split; [rewrite map_length, seq_length, map_length; reflexivity|split; [apply tab_length|]]]].
  - rewrite (rebin_ok _ _ _ (Some (map val w)) None n HI LE LD HN LW I). fold y. rewrite !(over_single _ n) by assumption. cbn [bind]. rewrite map2_map_map. reflexivity.
  - rewrite (rebin_d_ok o e d new (Some w) None n); auto; [|intros x Hx; apply Me, Hx|intros x Hx; apply Mn, Hx|now apply inc_nondec]. fold dw.
    rewrite !over_d; [cbn [bind]; unfold tab; rewrite map2_map_map; reflexivity| |]; intros i Hi; destruct (SE i Hi) as (q1 & q2 & E1 & E2 & _); eexists; eassumption.
  - intros j Hj. rewrite tab_nth by exact Hj. rewrite nth_bins by (rewrite map_length; exact Hj). rewrite !nth_val.
    destruct (SE j ltac:(lia)) as (q1 & q2 & -> & -> & C). exact C.
Qed.
Print Assumptions C90_weighted.

(** ** Identical bins *)

Lemma nth_slice_d : forall d p m i, (i < m)%nat -> nth i (slice_d d p m) dzero = nth (p + i) d dzero.
Proof. intros d p m i Hi. unfold slice_d. rewrite (nth_map_lt _ _ _ _ i dzero 0%nat) by (rewrite seq_length; exact Hi). now rewrite seq_nth. Qed.

Lemma slice_fin : forall d p m, all_fin d -> all_fin (slice_d d p m).
Proof. intros d p m F x Hx. apply in_map_iff in Hx. destruct Hx as (i & <- & _). now apply all_fin_nth. Qed.

Lemma slice_length_d : forall d p m, length (slice_d d p m) = m.
Proof. intros. unfold slice_d. now rewrite map_length, seq_length. Qed.

(** The weights of an old bin as new bin: one, and zero for the neighbours. *)
Lemma same_weights : forall o e n i d, all_fin e -> increasing (map val e) -> length e = S n -> (2 <= n)%nat -> length d = n -> (i < n)%nat ->
  exists ws p k, rebin_1d_single_bin_d o e d (nth i e dzero) (nth (S i) e dzero) = Ok (wmean_d o ws (slice_d d p (length ws))) /\
    (k < length ws)%nat /\ (p + k = i)%nat /\ nth k ws dzero = done /\ (p + length ws <= n)%nat /\
    (forall t, (t < length ws)%nat -> t <> k -> fin (nth t ws dzero) /\ val (nth t ws dzero) = 0) /\
    ((1 <= i)%nat -> (p <= i - 1)%nat) /\ ((S i < n)%nat -> (S i < p + length ws)%nat).
Proof.
  intros o e n i d Fe HI Le Hn Ld Hi. assert (LE : length (map val e) = S n) by (rewrite map_length; exact Le).
  pose proof (located_same (map val e) n i HI LE Hi) as HL. rewrite !nth_val in HL.
  assert (INC : forall a b, (a < b < S n)%nat -> val (nth a e dzero) < val (nth b e dzero)).
  { intros a b Hab. rewrite <- !nth_val. apply HI. rewrite LE. exact Hab. }
  assert (F : forall a, fin (nth a e dzero)) by (intros; now apply all_fin_nth).
  assert (WF : (1 <= i)%nat -> fin (wF_d e i (nth i e dzero)) /\ val (wF_d e i (nth i e dzero)) = 0).
  { intros H. unfold wF_d. apply zero_weight; auto. apply Rgt_not_eq. apply INC. lia. }
  assert (WL : fin (wL_d e (nth (S i) e dzero) (i + 2)) /\ val (wL_d e (nth (S i) e dzero) (i + 2)) = 0).
  { unfold wL_d. replace (i + 2 - 1)%nat with (S i) by lia. replace (i + 2 - 2)%nat with i by lia. apply zero_weight; auto. apply Rgt_not_eq. apply INC. lia. }
  destruct (Nat.eq_dec i 0) as [Z|Z]; destruct (Nat.eq_dec (i + 2) (S n)) as [Z'|Z']; [lia| | |].
  - exists [done; wL_d e (nth (S i) e dzero) (i + 2)], 0%nat, 0%nat. split.
    { rewrite (single_C_d o e i (i + 2) _ _ d n) by (auto; lia). replace (i + 2 - i)%nat with 2%nat by lia. reflexivity. }
    cbn [length]. split; [lia|]. split; [lia|]. split; [reflexivity|]. split; [lia|]. split; [|lia].
    intros t Ht Nt. destruct t as [|[|t]]; [lia|exact WL|lia].
  - exists [wF_d e i (nth i e dzero); done], (i - 1)%nat, 1%nat. split.
    { rewrite (single_B_d o e i (i + 2) _ _ d n) by (auto; lia). replace (i + 2 - i)%nat with 2%nat by lia. reflexivity. }
    cbn [length]. split; [lia|]. split; [lia|]. split; [reflexivity|]. split; [lia|]. split; [|lia].
    intros t Ht Nt. destruct t as [|[|t]]; [apply WF; lia|lia|lia].
  - exists [wF_d e i (nth i e dzero); done; wL_d e (nth (S i) e dzero) (i + 2)], (i - 1)%nat, 1%nat. split.
    { rewrite (single_A_d o e i (i + 2) _ _ d n) by (auto; lia). replace (i + 2 - i)%nat with 2%nat by lia. reflexivity. }
    cbn [length]. split; [lia|]. split; [lia|]. split; [reflexivity|]. split; [lia|]. split; [|lia].
    intros t Ht Nt. destruct t as [|[|[|t]]]; [apply WF; lia|lia|exact WL|lia].
Qed.

Lemma half_back : forall a b x, fin a -> val a = 2 * val x -> val b = 2 -> fin (ddiv a b) /\ val (ddiv a b) = val x.
Proof.
  intros a b x Fa Va Vb. assert (Q : fl (val a / val b) = val x) by (rewrite Va, Vb; replace (2 * val x / 2) with (val x) by field; apply fl_fmt, fmt_val).
  rewrite <- Q. apply ddiv_ok; [exact Fa|lra|]. rewrite Q. apply abs_B2R_lt_emax.
Qed.

(** Finite increasing edges and finite data of any size: on the same edges the
    data come back exactly (for a single bin unless twice its value overflows). *)
Theorem C90_identity : forall o e n d, order_ok o -> all_fin e -> increasing (map val e) -> length e = S n -> (1 <= n)%nat ->
  length d = n -> all_fin d -> (n = 1%nat -> Rabs (val (nth 0 d dzero)) < b2 1023) ->
  exists out, rebin_1d_d o e d e None None = Ok (out, None) /\ length out = n /\ all_fin out /\ map val out = map val d.
Proof.
  intros o e n d O Fe HI Le Hn Ld Fd H1. assert (LE : length (map val e) = S n) by (rewrite map_length; exact Le).
  assert (SE : forall i, (i < n)%nat -> exists q, rebin_1d_single_bin_d o e d (nth i e dzero) (nth (S i) e dzero) = Ok q /\ fin q /\ val q = val (nth i d dzero)).
  { intros i Hi. destruct (Nat.eq_dec n 1) as [E1|N1].
    - assert (i = 0%nat) as -> by lia. pose proof (located_same (map val e) n 0 HI LE Hi) as HL. rewrite !nth_val in HL.
      pose proof (single_D_d o e 0 2 _ _ d n Fe (all_fin_nth _ _ Fe) (all_fin_nth _ _ Fe) Le Hn Ld HL eq_refl ltac:(lia)) as S1.
      eexists. split; [exact S1|]. specialize (H1 E1). rewrite E1 in *. unfold slice_d, wmean_d. cbn [seq map Nat.sub repeat map2].
      destruct done_ok as [F1 V1]. pose proof (all_fin_nth d 0 Fd) as F0. set (x := nth 0 d dzero) in *.
      destruct (one_mul done x F1 F0 V1) as [Fp Vp].
      assert (DB : fl (val x + val x) = 2 * val x) by (replace (val x + val x) with (2 * val x) by ring; apply fl_fmt, fmt_double, fmt_val).
      assert (DL : Rabs (2 * val x) < b2 1024).
      { rewrite Rabs_mult, (Rabs_pos_eq 2) by lra. change 1024%Z with (1 + 1023)%Z. rewrite bpow_plus. change (b2 1) with 2. lra. }
      destruct (sum_two o (dmul done x) (dmul done x) O Fp Fp ltac:(rewrite Vp, DB; exact DL)) as [Fs Vs]. rewrite Vp, DB in Vs.
      assert (TW : fl (val done + val done) = 2) by (rewrite V1; replace (1 + 1) with (2 * 1) by ring; rewrite fl_fmt by apply fmt_double, fmt_1; ring).
      destruct (sum_two o done done O F1 F1) as [Ft Vt].
      { rewrite TW, Rabs_pos_eq by lra. change 2 with (b2 1). apply bpow_lt. lia. }
      rewrite TW in Vt. apply (half_back _ _ x Fs Vs Vt).
    - destruct (same_weights o e n i d Fe HI Le ltac:(lia) Ld Hi) as (ws & p & k & S1 & Hk & PK & W1 & PL & W0 & _).
      eexists. split; [exact S1|]. destruct (wmean_lone o ws (slice_d d p (length ws)) k O (slice_length_d _ _ _) Hk W1 W0 (slice_fin _ _ _ Fd)) as [F V].
      split; [exact F|]. rewrite V, nth_slice_d by exact Hk. now rewrite PK. }
  exists (tab n (fun i => value_d (rebin_1d_single_bin_d o e d (nth i e dzero) (nth (S i) e dzero)))). split; [|split; [apply tab_length|split]].
  - rewrite (rebin_d_ok o e d e None None n); auto; [|now apply inc_nondec|now apply inc_nondec].
    rewrite over_d; [rewrite Le; cbn [Nat.sub]; rewrite Nat.sub_0_r; reflexivity|]. intros i Hi. destruct (SE i ltac:(lia)) as (q & E & _). eexists. exact E.
  - intros x Hx. apply in_map_iff in Hx. destruct Hx as (i & <- & Hi). apply in_seq in Hi. destruct (SE i ltac:(lia)) as (q & -> & F & _). exact F.
  - apply (list_ext R _ _ 0); rewrite !map_length; [unfold tab; rewrite map_length, seq_length; unfold double in *; lia|].
    intros i Hi. unfold tab in Hi. rewrite map_length, seq_length in Hi. rewrite !nth_val, tab_nth by exact Hi. destruct (SE i Hi) as (q & -> & _ & V). exact V.
Qed.
Print Assumptions C90_identity.

(** A value that is infinite or NaN makes the adjacent bins NaN, though they do
    not overlap it. *)
Theorem C90_neighbour : forall o e n d i, order_ok o -> all_fin e -> increasing (map val e) -> length e = S n -> (2 <= n)%nat -> length d = n -> (i < n)%nat ->
  (exists k, (k < n)%nat /\ (S k = i \/ k = S i)%nat /\ is_finite (nth k d dzero) = false) ->
  exists out, rebin_1d_d o e d e None None = Ok (out, None) /\ is_nan (nth i out dzero) = true.
Proof.
  intros o e n d i O Fe HI Le Hn Ld Hi (k & Hk & HK & HN).
  assert (T : forall i, (S i < length e)%nat -> exists v, rebin_1d_single_bin_d o e d (nth i e dzero) (nth (S i) e dzero) = Ok v).
  { intros j Hj. destruct (same_weights o e n j d Fe HI Le Hn Ld ltac:(lia)) as (ws & p & t & S1 & _). eexists. exact S1. }
  eexists. split.
  - rewrite (rebin_d_ok o e d e None None n); auto; [|now apply inc_nondec|now apply inc_nondec]. rewrite over_d by exact T. reflexivity.
  - rewrite tab_nth by lia. destruct (same_weights o e n i d Fe HI Le Hn Ld Hi) as (ws & p & t & S1 & Ht & PT & W1 & PL & W0 & A & B). rewrite S1. cbn [value_d].
    destruct (W0 (k - p)%nat ltac:(lia) ltac:(lia)) as [F V]. apply (wmean_spoilt o ws _ (k - p)%nat O (slice_length_d _ _ _) ltac:(lia) F V).
    rewrite nth_slice_d by lia. now replace (p + (k - p))%nat with k by lia.
Qed.
Print Assumptions C90_neighbour.

(** ** Input that is refused *)

Lemma nan_le : forall x y, is_nan x = true \/ is_nan y = true -> dle x y = false.
Proof. intros x y [H|H]; destruct x, y; try discriminate; reflexivity. Qed.

Lemma nan_not_monotonic : forall l x, In x l -> is_nan x = true -> (2 <= length l)%nat -> is_pos_monotonic_d l = false.
Proof.
  intros l x Hx HN L. apply (In_nth _ _ dnan) in Hx. destruct Hx as (k & Hk & E). apply not_true_is_false. intros M.
  unfold is_pos_monotonic_d in M. rewrite forallb_forall in M. unfold double in *.
  assert (C : exists j, (S j < length l)%nat /\ (j = k \/ S j = k)) by (destruct k as [|k]; [exists 0%nat; lia|exists k; lia]).
  destruct C as (j & Hj & HJ). specialize (M j ltac:(apply in_seq; lia)). rewrite nan_le in M; [discriminate|].
  destruct HJ as [<- | <-]; rewrite E; [left|right]; exact HN.
Qed.

(** Mismatched lengths, edges out of order and edges that are NaN raise an
    AssertionError. *)
Theorem C90_refused : forall o e d new w sigma,
  length e <> S (length d) \/
  (exists l, (l = e \/ l = new) /\ ((2 <= length l)%nat /\ (exists x, In x l /\ is_nan x = true) \/ all_fin l /\ ~ nondecreasing (map val l))) \/
  (exists w', w = Some w' /\ length w' <> length d) \/ (exists s', sigma = Some s' /\ length s' <> length d) ->
  rebin_1d_d o e d new w sigma = Err AssertionError.
Proof.
  intros o e d new w sigma H.
  assert (B : forall l, (2 <= length l)%nat /\ (exists x, In x l /\ is_nan x = true) \/ all_fin l /\ ~ nondecreasing (map val l) -> is_pos_monotonic_d l = false).
  { intros l [[L (x & Hx & HN)]|[F N]]; [now apply (nan_not_monotonic l x)|]. rewrite monotonic_val by exact F. apply not_true_is_false. intros M.
    apply N. exact (proj1 (is_pos_monotonic_spec (map val l)) M). }
  unfold rebin_1d_d, py_assert, double in *.
  destruct (Z.eqb_spec (Z.of_nat (length e) - 1) (Z.of_nat (length d))) as [E1|]; [|reflexivity].
  destruct (is_pos_monotonic_d e) eqn:E2; [|reflexivity]. destruct (is_pos_monotonic_d new) eqn:E3; [|reflexivity]. cbn [bind].
  destruct H as [H|[(l & [-> | ->] & H)|[(w' & -> & H)|(s' & -> & H)]]].
  - unfold double in *. lia.
  - apply B in H. congruence.
  - apply B in H. congruence.
  - destruct (Nat.eqb_spec (length d) (length w')); [unfold double in *; lia|reflexivity].
  - destruct (match w with Some w => (length d =? length w)%nat | None => true end); [|reflexivity].
    cbn [bind]. destruct (Nat.eqb_spec (length d) (length s')); [unfold double in *; lia|reflexivity].
Qed.
Print Assumptions C90_refused.

(** ** What does not hold *)

Lemma fin_dint : forall zs, (forall z, In z zs -> (Z.abs z <= 2 ^ 53)%Z) -> all_fin (map dint zs) /\ map val (map dint zs) = map IZR zs.
Proof.
  intros zs H. split.
  - intros x Hx. apply in_map_iff in Hx. destruct Hx as (z & <- & Hz). apply dint_ok, H, Hz.
  - rewrite map_map. apply map_ext_in. intros z Hz. apply dint_ok, H, Hz.
Qed.

(** A single bin with the value 2^1023 on its own edges gives infinity. *)
Theorem C90_identity_refuted : exists o e d out, order_ok o /\ all_fin e /\ increasing (map val e) /\ length e = S (length d) /\ all_fin d /\
  rebin_1d_d o e d e None None = Ok (out, None) /\ nth 0 out dzero = @B754_infinity 53 1024 false.
Proof.
  exists one_by_one, (map dint [0; 1]%Z), [dbl 1 1023]. eexists. split; [apply one_by_one_ok|].
  destruct (fin_dint [0; 1]%Z) as [F V]; [intros z [<- |[<- |[]]]; lia|]. split; [exact F|]. split.
  { rewrite V. intros i j Hij. cbn [length map] in Hij. destruct i as [|[|]]; destruct j as [|[|]]; try lia; cbn [nth map]; lra. }
  split; [reflexivity|]. split; [intros x [<- |[]]; vm_compute; reflexivity|]. split; [reflexivity|].
  cbn [nth]. apply B2SF_inj. vm_compute. reflexivity.
Qed.
Print Assumptions C90_identity_refuted.

(** Bins that are all 0.1 give a value above 0.1. *)
Theorem C90_constant_refuted : exists o e d new out, order_ok o /\ (forall x, In x e -> tame x) /\ increasing (map val e) /\ length e = S (length d) /\
  (forall x, In x d -> x = tenth) /\ rebin_1d_d o e d new None None = Ok (out, None) /\ fin (nth 0 out dzero) /\ val tenth < val (nth 0 out dzero).
Proof.
  exists one_by_one, (map dint [0; 1; 2]%Z), [tenth; tenth], (map dint [0; 2]%Z). eexists. split; [apply one_by_one_ok|].
  destruct (fin_dint [0; 1; 2]%Z) as [F V]; [intros z [<- |[<- |[<- |[]]]]; lia|]. split.
  { intros x Hx. split; [apply F, Hx|]. apply (in_map val) in Hx. rewrite V in Hx. destruct Hx as [<- |[<- |[<- |[]]]]; [now left| |]; right; rewrite Rabs_pos_eq by lra.
    - change 1 with (b2 0). split; apply bpow_le; lia.
    - change 2 with (b2 1). split; apply bpow_le; lia. }
  split.
  { rewrite V. intros i j Hij. cbn [length map] in Hij. destruct i as [|[|[|]]]; destruct j as [|[|[|]]]; try lia; cbn [nth map]; lra. }
  split; [reflexivity|]. split; [intros x [<- |[<- |[]]]; reflexivity|]. split; [reflexivity|]. cbn [nth]. split; [vm_compute; reflexivity|].
  unfold val. rewrite <- !SF2R_B2SF.
  match goal with |- _ < SF2R radix2 ?t => replace t with (SpecFloat.S754_finite false 7205759403792795 (-56)) by (vm_compute; reflexivity) end.
  replace (B2SF tenth) with (SpecFloat.S754_finite false 7205759403792794 (-56)) by (vm_compute; reflexivity).
  unfold SF2R, F2R. cbn [Fnum Fexp cond_Zopp]. apply Rmult_lt_compat_r; [apply bpow_gt_0|]. apply IZR_lt. lia.
Qed.
Print Assumptions C90_constant_refuted.

(** Bins 0-1-2-4 with values 5, 7, 1 onto 0-1/2-3: all hypotheses of
    [C90_accuracy], [C90_weighted] and [C90_identity] hold. *)
Example C90_example : exists out wout, let e := map dint [0; 1; 2; 4]%Z in let d := map dint [5; 7; 1]%Z in let new := [dint 0; dbl 1 (-1); dint 3] in
  (forall x, In x e -> tame x) /\ (forall x, In x new -> tame x) /\ increasing (map val e) /\ nondecreasing (map val new) /\ at_most 7 d /\
  rebin_1d_d one_by_one e d new None None = Ok (out, None) /\ nth 0 out dzero = dint 5 /\ B2SF (nth 1 out dzero) = SpecFloat.S754_finite false 4728779608739021 (-50) /\
  rebin_1d_d one_by_one e d new (Some (map dint [1; 2; 4]%Z)) None = Ok (wout, None) /\ B2SF (nth 1 wout dzero) = SpecFloat.S754_finite false 7101830181622704 (-51) /\
  rebin_1d_d one_by_one e [dint 5; dnan; dint 1] e None None = Ok ([dnan; dnan; dnan], None).
Proof.
  do 2 eexists. cbv zeta. destruct (fin_dint [0; 1; 2; 4]%Z) as [F V]; [intros z [<- |[<- |[<- |[<- |[]]]]]; lia|].
  destruct (fin_dint [5; 7; 1]%Z) as [F' V']; [intros z [<- |[<- |[<- |[]]]]; lia|].
  assert (H2 : fin (dbl 1 (-1)) /\ val (dbl 1 (-1)) = / 2).
  { split; [vm_compute; reflexivity|]. unfold val. rewrite <- SF2R_B2SF. replace (B2SF (dbl 1 (-1))) with (SpecFloat.S754_finite false 4503599627370496 (-53)) by (vm_compute; reflexivity).
    unfold SF2R, F2R. cbn [Fnum Fexp cond_Zopp]. change (b2 (-53)) with (/ IZR 9007199254740992). lra. }
  destruct H2 as [FH VH]. destruct (dint_ok 0 ltac:(lia)) as [F0 V0]. destruct (dint_ok 3 ltac:(lia)) as [F3 V3].
  assert (B4 : forall x, / 2 <= x <= 4 -> b2 (-240) <= Rabs x <= b2 300).
  { intros x Hx. rewrite Rabs_pos_eq by lra. split; [apply Rle_trans with (b2 (-1)); [apply bpow_le; lia|change (b2 (-1)) with (/ 2); lra]|
      apply Rle_trans with (b2 2); [change (b2 2) with 4; lra|apply bpow_le; lia]]. }
  split; [|split; [|split; [|split; [|split; [|split; [reflexivity|split; [|split; [|split; [reflexivity|split]]]]]]]]].
  - intros x Hx. split; [apply F, Hx|]. apply (in_map val) in Hx. rewrite V in Hx. destruct Hx as [<- |[<- |[<- |[<- |[]]]]]; [now left|right; apply B4; lra|right; apply B4; lra|right; apply B4; lra].
  - intros x [<- |[<- |[<- |[]]]].
    + split; [exact F0|left; exact V0].
    + split; [exact FH|right; rewrite VH; apply B4; lra].
    + split; [exact F3|right; rewrite V3; apply B4; lra].
  - rewrite V. intros i j Hij. cbn [length map] in Hij. destruct i as [|[|[|[|]]]]; destruct j as [|[|[|[|]]]]; try lia; cbn [nth map]; lra.
  - intros i j Hij. cbn [length map] in Hij. destruct i as [|[|[|]]]; destruct j as [|[|[|]]]; try lia; cbn [nth map]; rewrite ?V0, ?VH, ?V3; lra.
  - intros x Hx. split; [apply F', Hx|]. apply (in_map val) in Hx. rewrite V' in Hx. destruct Hx as [<- |[<- |[<- |[]]]]; rewrite Rabs_pos_eq; lra.
  - cbn [nth]. apply B2SF_inj. vm_compute. reflexivity.
  - cbn [nth]. vm_compute. reflexivity.
  - cbn [nth]. vm_compute. reflexivity.
  - reflexivity.
Qed.
