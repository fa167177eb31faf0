(** * [MOneDDouble.v]: lemmas about [rebin_1d_d] as a whole, identical bins *)

From Coq Require Import Reals ZArith List Bool Lia Lra Psatz Permutation.
From Flocq Require Import Core IEEE754.BinarySingleNaN.
From Verif Require Import Base BaseP SpecGrid SpecRemap MGrids MUtils PGrids PPolarCoords PUtils MOneD POneD POneD2 MHealpixFloat PHealpixFloat SpecDouble MDouble PDouble
  MGridsDouble PGridsDouble MSumDouble PSumDouble PDense PDenseDouble PRemap2 PRadial SpecRebinDouble MOneDDouble PRebinDouble PRebinDouble2 PRebinDouble3.
Import ListNotations.
Open Scope R_scope.

Local Existing Instance p53.
Local Instance fexp_valid : Valid_exp (FLT_exp (-1074) 53).
Proof. apply FLT_exp_valid. reflexivity. Qed.

Definition value_d (r : res double) : double := match r with Ok v => v | Err _ => dnan end.

Lemma over_d : forall (f : double -> double -> res double) new, (forall i, (S i < length new)%nat -> exists v, f (nth i new dzero) (nth (S i) new dzero) = Ok v) ->
  over_bins_d f new = Ok (tab (length new - 1) (fun i => value_d (f (nth i new dzero) (nth (S i) new dzero)))).
Proof.
  intros f new H. unfold over_bins_d.
  assert (G : forall l, (forall i, In i l -> (S i < length new)%nat) ->
    mapM (fun i => f (nth i new dnan) (nth (S i) new dnan)) l = Ok (map (fun i => value_d (f (nth i new dzero) (nth (S i) new dzero))) l)).
  { induction l as [|i l IH]; intros Hl; [reflexivity|]. cbn [mapM map]. rewrite IH by (intros; apply Hl; now right).
    specialize (Hl i (or_introl eq_refl)). rewrite (nth_indep new dnan dzero) by lia. rewrite (nth_indep new dnan dzero) by lia.
    destruct (H i Hl) as (v & ->). reflexivity. }
  rewrite G; [reflexivity|]. intros i Hi. apply in_seq in Hi. unfold double in *. lia.
Qed.

Lemma nondecreasing_val : forall l, all_fin l -> nondecreasing (map val l) -> is_pos_monotonic_d l = true.
Proof. intros l F H. rewrite monotonic_val by exact F. now apply is_pos_monotonic_spec. Qed.

Lemma rebin_d_ok : forall o e d new w sigma n, all_fin e -> all_fin new -> nondecreasing (map val e) -> nondecreasing (map val new) ->
  length e = S n -> length d = n -> (match w with Some w => length w = n | None => True end) -> (match sigma with Some s => length s = n | None => True end) ->
  rebin_1d_d o e d new w sigma =
  (data_new <- match w with
    | None => over_bins_d (rebin_1d_single_bin_d o e d) new
    | Some w =>
        num <- over_bins_d (rebin_1d_single_bin_d o e (map2 dmul d w)) new ;;
        den <- over_bins_d (rebin_1d_single_bin_d o e w) new ;;
        Ok (map2 ddiv num den)
    end ;;
  match sigma with
  | None => Ok (data_new, None)
  | Some sigma =>
      sigma_new <- match w with
        | None => over_bins_d (rebin_1d_single_bin_sigma_d o e sigma) new
        | Some w =>
            num <- over_bins_d (rebin_1d_single_bin_sigma_d o e (map2 dmul sigma w)) new ;;
            den <- over_bins_d (rebin_1d_single_bin_sigma_d o e w) new ;;
            Ok (map2 ddiv num den)
        end ;;
      Ok (data_new, Some sigma_new)
  end).
Proof.
  intros o e d new w sigma n Fe Fn He Hn Le Ld Lw Ls. unfold rebin_1d_d, py_assert.
  replace (Z.of_nat (length e) - 1 =? Z.of_nat (length d))%Z with true by (symmetry; apply Z.eqb_eq; unfold double in *; lia).
  rewrite !nondecreasing_val by assumption. cbn [bind].
  replace (match w with Some w0 => (length d =? length w0)%nat | None => true end) with true
    by (destruct w; [symmetry; apply Nat.eqb_eq; unfold double in *; lia|reflexivity]).
  replace (match sigma with Some s => (length d =? length s)%nat | None => true end) with true
    by (destruct sigma; [symmetry; apply Nat.eqb_eq; unfold double in *; lia|reflexivity]).
  reflexivity.
Qed.

(** ** Exact operations *)

Lemma val_lt : forall x, fin x -> Rabs (val x) < b2 1024.
Proof. intros x _. apply abs_B2R_lt_emax. Qed.

Lemma add_zero : forall x y, fin x -> fin y -> val y = 0 -> fin (dadd x y) /\ val (dadd x y) = val x.
Proof.
  intros x y Fx Fy V. assert (E : fl (val x + val y) = val x) by (rewrite V, Rplus_0_r; apply fl_fmt, fmt_val).
  rewrite <- E. apply dadd_ok; auto. rewrite E. now apply val_lt.
Qed.

Lemma zero_add : forall x y, fin x -> fin y -> val x = 0 -> fin (dadd x y) /\ val (dadd x y) = val y.
Proof.
  intros x y Fx Fy V. assert (E : fl (val x + val y) = val y) by (rewrite V, Rplus_0_l; apply fl_fmt, fmt_val).
  rewrite <- E. apply dadd_ok; auto. rewrite E. now apply val_lt.
Qed.

Lemma zero_mul : forall x y, fin x -> fin y -> val x = 0 -> fin (dmul x y) /\ val (dmul x y) = 0.
Proof.
  intros x y Fx Fy V. assert (E : fl (val x * val y) = 0) by (rewrite V, Rmult_0_l; apply fl_fmt, fmt_0).
  rewrite <- E. apply dmul_ok; auto. rewrite E, Rabs_R0. apply bpow_gt_0.
Qed.

Lemma done_ok : fin done /\ val done = 1.
Proof. exact (dint_ok 1 ltac:(lia)). Qed.

Lemma one_mul : forall x y, fin x -> fin y -> val x = 1 -> fin (dmul x y) /\ val (dmul x y) = val y.
Proof.
  intros x y Fx Fy V. assert (E : fl (val x * val y) = val y) by (rewrite V, Rmult_1_l; apply fl_fmt, fmt_val).
  rewrite <- E. apply dmul_ok; auto. rewrite E. now apply val_lt.
Qed.

Lemma div_one : forall x y, fin x -> fin y -> val y = 1 -> fin (ddiv x y) /\ val (ddiv x y) = val x.
Proof.
  intros x y Fx Fy V. assert (E : fl (val x / val y) = val x) by (rewrite V; replace (val x / 1) with (val x) by field; apply fl_fmt, fmt_val).
  rewrite <- E. apply ddiv_ok; auto; [lra|]. rewrite E. now apply val_lt.
Qed.

Lemma sub_self : forall x, fin x -> fin (dsub x x) /\ val (dsub x x) = 0.
Proof.
  intros x Fx. assert (E : fl (val x - val x) = 0) by (rewrite Rminus_diag_eq by reflexivity; apply fl_fmt, fmt_0).
  rewrite <- E. apply dsub_ok; auto. rewrite E, Rabs_R0. apply bpow_gt_0.
Qed.

Lemma sub_distinct : forall x y, fin x -> fin y -> val x <> val y -> is_nan (dsub x y) = false /\ (fin (dsub x y) -> val (dsub x y) <> 0).
Proof.
  intros x y Fx Fy N. pose proof (@Bminus_correct 53 1024 p53 p1024 mode_NE x y Fx Fy) as C.
  change (round radix2 _ _ _) with (fl (val x - val y)) in C. change (Bminus mode_NE x y) with (dsub x y) in C.
  destruct (Rlt_bool_spec (Rabs (fl (val x - val y))) (b2 1024)) as [L|L].
  - destruct C as (C1 & C2 & _). split; [destruct (dsub x y); try reflexivity; discriminate|]. intros _. unfold val. rewrite C1.
    pose proof (add_err (val x) (- val y) (fmt_val x) (fmt_opp _ (fmt_val y))) as E. change (val x + - val y) with (val x - val y) in E.
    intros Z. change (fl (B2R x - B2R y)) with (fl (val x - val y)) in Z. rewrite Z in E. unfold Rminus at 1 in E. rewrite Rplus_0_l, Rabs_Ropp in E.
    assert (0 < Rabs (val x - val y)) by (apply Rabs_pos_lt; lra). pose proof u_pos. nra.
  - destruct C as [C _]. destruct (dsub x y); split; try reflexivity; try discriminate; intros H; discriminate.
Qed.

Lemma zero_div : forall x y, fin x -> val x = 0 -> is_nan y = false -> (fin y -> val y <> 0) -> fin (ddiv x y) /\ val (ddiv x y) = 0.
Proof.
  intros x y Fx V Ny Hy. destruct (val_0 x Fx V) as (s & ->). destruct y as [t|t| |t m e B]; try discriminate.
  - exfalso. now apply Hy.
  - split; reflexivity.
  - split; reflexivity.
Qed.

Lemma zero_weight : forall x y a, fin x -> fin y -> fin a -> val a = val x -> val x <> val y -> fin (ddiv (dsub x a) (dsub x y)) /\ val (ddiv (dsub x a) (dsub x y)) = 0.
Proof.
  intros x y a Fx Fy Fa E N. assert (Z : fin (dsub x a) /\ val (dsub x a) = 0).
  { assert (Z : fl (val x - val a) = 0) by (rewrite E, Rminus_diag_eq by reflexivity; apply fl_fmt, fmt_0).
    rewrite <- Z. apply dsub_ok; auto. rewrite Z, Rabs_R0. apply bpow_gt_0. }
  destruct (sub_distinct x y Fx Fy N) as [N1 N2]. apply zero_div; tauto.
Qed.

Lemma zero_weight' : forall x y z a, fin x -> fin y -> fin z -> fin a -> val a = val x -> val z <> val y -> fin (ddiv (dsub a x) (dsub z y)) /\ val (ddiv (dsub a x) (dsub z y)) = 0.
Proof.
  intros x y z a Fx Fy Fz Fa E N. assert (Z : fin (dsub a x) /\ val (dsub a x) = 0).
  { assert (Z : fl (val a - val x) = 0) by (rewrite E, Rminus_diag_eq by reflexivity; apply fl_fmt, fmt_0).
    rewrite <- Z. apply dsub_ok; auto. rewrite Z, Rabs_R0. apply bpow_gt_0. }
  destruct (sub_distinct z y Fz Fy N) as [N1 N2]. apply zero_div; tauto.
Qed.

(** ** Sums with one entry that is not zero *)

Lemma add_up_lone : forall l k t, NoDup (leaves t) -> fin (nth k l dzero) ->
  (forall i, In i (leaves t) -> i <> k -> fin (nth i l dzero) /\ val (nth i l dzero) = 0) ->
  fin (add_up t l) /\ val (add_up t l) = if in_dec Nat.eq_dec k (leaves t) then val (nth k l dzero) else 0.
Proof.
  intros l k t. induction t as [|j|a IHa b IHb]; intros ND Fk H; cbn [leaves add_up] in *.
  - split; reflexivity.
  - destruct (in_dec Nat.eq_dec k [j]) as [[-> |[]]|N]; [split; [exact Fk|reflexivity]|]. apply H; [now left|]. intros ->. apply N. now left.
  - assert (NDa : NoDup (leaves a)) by (clear - ND; induction (leaves a) as [|i l' IH]; [constructor|]; cbn in ND; inversion ND; subst; constructor; [intros C; apply H1, in_or_app; now left|auto]).
    assert (NDb : NoDup (leaves b)) by (clear - ND; induction (leaves a) as [|i l' IH]; [exact ND|]; cbn in ND; inversion ND; subst; auto).
    assert (DJ : ~ (In k (leaves a) /\ In k (leaves b))).
    { intros [C1 C2]. clear - ND C1 C2. induction (leaves a) as [|i l' IH]; [destruct C1|]. cbn in ND. inversion ND; subst.
      destruct C1 as [-> |C1]; [apply H1, in_or_app; now right|auto]. }
    destruct (IHa NDa Fk ltac:(intros i Hi; apply H, in_or_app; now left)) as [Fa Va].
    destruct (IHb NDb Fk ltac:(intros i Hi; apply H, in_or_app; now right)) as [Fb Vb].
    destruct (in_dec Nat.eq_dec k (leaves a)) as [Ia|Ia]; destruct (in_dec Nat.eq_dec k (leaves b)) as [Ib|Ib].
    + exfalso. auto.
    + destruct (in_dec Nat.eq_dec k (leaves a ++ leaves b)) as [I|I]; [|exfalso; apply I, in_or_app; now left].
      rewrite <- Va. now apply add_zero.
    + destruct (in_dec Nat.eq_dec k (leaves a ++ leaves b)) as [I|I]; [|exfalso; apply I, in_or_app; now right].
      rewrite <- Vb. now apply zero_add.
    + destruct (in_dec Nat.eq_dec k (leaves a ++ leaves b)) as [I|I]; [exfalso; apply in_app_or in I; tauto|].
      rewrite <- Va. now apply add_zero.
Qed.

Lemma sum_lone : forall o l k, order_ok o -> (k < length l)%nat -> fin (nth k l dzero) ->
  (forall i, (i < length l)%nat -> i <> k -> fin (nth i l dzero) /\ val (nth i l dzero) = 0) ->
  fin (sum_d o l) /\ val (sum_d o l) = val (nth k l dzero).
Proof.
  intros o l k O Hk Fk H. unfold sum_d. specialize (O (length l)).
  assert (IN : forall i, In i (leaves (o (length l))) <-> (i < length l)%nat).
  { intros i. split; intros Hi; [apply (Permutation_in _ O), in_seq in Hi; lia|apply (Permutation_in _ (Permutation_sym O)), in_seq; lia]. }
  destruct (add_up_lone l k (o (length l))) as [F V]; [apply (Permutation_NoDup (Permutation_sym O)), seq_NoDup|exact Fk|intros i Hi; apply H, IN, Hi|].
  split; [exact F|]. rewrite V. destruct (in_dec Nat.eq_dec k (leaves (o (length l)))) as [_|N]; [reflexivity|]. exfalso. apply N, IN, Hk.
Qed.

(** A NaN among the entries. *)
Lemma nan_add : forall x y, is_nan x = true \/ is_nan y = true -> is_nan (dadd x y) = true.
Proof. intros x y [H|H]; destruct x, y; try discriminate; reflexivity. Qed.

Lemma add_up_nan : forall l k t, In k (leaves t) -> is_nan (nth k l dzero) = true -> is_nan (add_up t l) = true.
Proof.
  intros l k t. induction t as [|j|a IHa b IHb]; intros Hk HN; cbn [leaves add_up] in *; [destruct Hk| |].
  - destruct Hk as [-> |[]]. exact HN.
  - apply nan_add. apply in_app_or in Hk. destruct Hk; [left; auto|right; auto].
Qed.

Lemma sum_nan : forall o l k, order_ok o -> (k < length l)%nat -> is_nan (nth k l dzero) = true -> is_nan (sum_d o l) = true.
Proof.
  intros o l k O Hk HN. unfold sum_d. apply (add_up_nan l k); [|exact HN]. apply (Permutation_in _ (Permutation_sym (O (length l)))), in_seq. lia.
Qed.

Lemma nan_div : forall x y, is_nan x = true -> is_nan (ddiv x y) = true.
Proof. intros x y H. destruct x, y; try discriminate; reflexivity. Qed.

Lemma zero_mul_nonfin : forall x y, fin x -> val x = 0 -> is_finite y = false -> is_nan (dmul x y) = true.
Proof. intros x y Fx V N. destruct (val_0 x Fx V) as (s & ->). destruct y; try discriminate; reflexivity. Qed.

(** The weighted mean with one weight one and the others zero. *)
Lemma wmean_lone : forall o ws ds k, order_ok o -> length ds = length ws -> (k < length ws)%nat -> nth k ws dzero = done ->
  (forall i, (i < length ws)%nat -> i <> k -> fin (nth i ws dzero) /\ val (nth i ws dzero) = 0) -> all_fin ds ->
  fin (wmean_d o ws ds) /\ val (wmean_d o ws ds) = val (nth k ds dzero).
Proof.
  intros o ws ds k O L Hk K1 K0 Fd. destruct done_ok as [F1 V1]. unfold wmean_d.
  assert (NM : forall i, (i < length ws)%nat -> nth i (map2 dmul ws ds) dzero = dmul (nth i ws dzero) (nth i ds dzero)) by (intros i Hi; apply nth_map2; lia).
  assert (LM : length (map2 dmul ws ds) = length ws) by (rewrite map2_length; lia).
  destruct (sum_lone o ws k O Hk ltac:(rewrite K1; exact F1) K0) as [Fs Vs]. rewrite K1, V1 in Vs.
  destruct (one_mul (nth k ws dzero) (nth k ds dzero)) as [Fp Vp]; [rewrite K1; exact F1|apply all_fin_nth, Fd|rewrite K1; exact V1|].
  destruct (sum_lone o (map2 dmul ws ds) k O ltac:(lia)) as [Fm Vm].
  - rewrite NM by exact Hk. exact Fp.
  - intros i Hi Ni. rewrite LM in Hi. rewrite NM by exact Hi. destruct (K0 i Hi Ni). apply zero_mul; auto. apply all_fin_nth, Fd.
  - rewrite NM, Vp in Vm by exact Hk. rewrite <- Vm. now apply div_one.
Qed.

Lemma wmean_spoilt : forall o ws ds i, order_ok o -> length ds = length ws -> (i < length ws)%nat -> fin (nth i ws dzero) -> val (nth i ws dzero) = 0 ->
  is_finite (nth i ds dzero) = false -> is_nan (wmean_d o ws ds) = true.
Proof.
  intros o ws ds i O L Hi F V N. unfold wmean_d. apply nan_div, (sum_nan o _ i O); [rewrite map2_length; lia|].
  rewrite (nth_map2 _ _ _ dmul ws ds i dzero dzero dzero) by lia. now apply zero_mul_nonfin.
Qed.

(** Sums of two entries. *)
Lemma leaves_0 : forall l t, leaves t = [] -> fin (add_up t l) /\ val (add_up t l) = 0.
Proof.
  intros l t. induction t as [|j|a IHa b IHb]; intros H; cbn [leaves add_up] in *; [split; reflexivity|discriminate|].
  apply app_eq_nil in H. destruct H as [Ha Hb]. destruct (IHa Ha) as [Fa Va]. destruct (IHb Hb) as [Fb Vb]. rewrite <- Va. now apply add_zero.
Qed.

Lemma leaves_1 : forall l k t, leaves t = [k] -> fin (nth k l dzero) -> fin (add_up t l) /\ val (add_up t l) = val (nth k l dzero).
Proof.
  intros l k t. induction t as [|j|a IHa b IHb]; intros H Fk; cbn [leaves add_up] in *; [discriminate|injection H as ->; now split|].
  apply app_eq_unit in H. destruct H as [[Ha Hb]|[Ha Hb]].
  - destruct (leaves_0 l a Ha). destruct (IHb Hb Fk) as [? <-]. now apply zero_add.
  - destruct (leaves_0 l b Hb). destruct (IHa Ha Fk) as [? <-]. now apply add_zero.
Qed.

Lemma leaves_2 : forall l i j t, leaves t = [i; j] -> fin (nth i l dzero) -> fin (nth j l dzero) -> Rabs (fl (val (nth i l dzero) + val (nth j l dzero))) < b2 1024 ->
  fin (add_up t l) /\ val (add_up t l) = fl (val (nth i l dzero) + val (nth j l dzero)).
Proof.
  intros l i j t. induction t as [|k|a IHa b IHb]; intros H Fi Fj HB; cbn [leaves add_up] in *; [discriminate|discriminate|].
  destruct (leaves a) as [|x [|y [|z r]]] eqn:Ea; cbn [app] in H.
  - destruct (leaves_0 l a Ea). destruct (IHb H Fi Fj HB) as [? <-]. now apply zero_add.
  - injection H as -> Hb. destruct (leaves_1 l i a Ea Fi) as [F1 V1]. destruct (leaves_1 l j b Hb Fj) as [F2 V2]. rewrite <- V1, <- V2 in *. now apply dadd_ok.
  - injection H as -> -> Hb. destruct (leaves_0 l b Hb). destruct (IHa eq_refl Fi Fj HB) as [? <-]. now apply add_zero.
  - discriminate.
Qed.

Lemma sum_two : forall o x y, order_ok o -> fin x -> fin y -> Rabs (fl (val x + val y)) < b2 1024 ->
  fin (sum_d o [x; y]) /\ val (sum_d o [x; y]) = fl (val x + val y).
Proof.
  intros o x y O Fx Fy HB. unfold sum_d. cbn [length]. specialize (O 2%nat). cbn [seq] in O.
  apply Permutation_sym, Permutation_length_2_inv in O. destruct O as [E|E].
  - now apply (leaves_2 [x; y] 0 1).
  - rewrite Rplus_comm in *. now apply (leaves_2 [x; y] 1 0).
Qed.

Lemma fmt_double : forall x, fmt x -> fmt (2 * x).
Proof.
  intros x F. unfold fmt in *. rewrite Rmult_comm. change 2 with (b2 1). destruct (Req_dec x 0) as [-> |N]; [rewrite Rmult_0_l; apply fmt_0|].
  apply generic_format_FLT. apply FLT_format_generic in F; [|exact p53]. destruct F as [f E1 E2 E3].
  exists (Float radix2 (Fnum f) (Fexp f + 1)).
  - rewrite E1. unfold F2R. cbn [Fnum Fexp]. rewrite bpow_plus. ring.
  - exact E2.
  - cbn [Fexp]. lia.
Qed.
