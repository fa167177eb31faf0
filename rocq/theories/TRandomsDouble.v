(** * Theorems: tabulated distributions in double precision (C93) *)

From Coq Require Import Reals ZArith List Bool Lia Lra Psatz Permutation.
From Flocq Require Import Core IEEE754.BinarySingleNaN.
From Verif Require Import PPolarCoords TDenseDouble TGridsDouble Base BaseP SpecGrid SpecRemap PGrids MHealpixFloat PHealpixFloat SpecDouble MDouble PDouble
  MRemapDouble MGridsDouble PGridsDouble MSumDouble PSumDouble PDense PDenseDouble PRemap2 PRadial MOneDDouble PRebinDouble PRebinDouble2 PRebinDouble3 PRebinDouble4 SpecSigmaDouble PSigmaDouble PSigmaDouble2 PSigmaDouble3 PSigmaDouble4
  PPiDouble SpecRadialDouble MRadialDouble PRadialDouble PRadialDouble2 PRadialDouble3 PRadialDouble4 SpecRandomsDouble MRandomsDouble PRandomsDouble PRandomsDouble2 TWeightsDouble PRandomsDouble3 PRandomsDouble4.
Import ListNotations.
Open Scope R_scope.

(** ** Lemmas *)

Lemma cumsum_fold : forall l acc, nth (length l) (acc :: cumsum_from_d acc l) dzero = fold_left dadd l acc.
Proof. induction l as [|a l IH]; intros acc; [reflexivity|]. cbn [length cumsum_from_d fold_left]. exact (IH (dadd acc a)). Qed.

Definition mass (xmid pdf : list double) : double := dmul (fold_left dadd (tl pdf) (hd dzero pdf)) (dsub (nth 1 xmid dzero) (nth 0 xmid dzero)).

Lemma raw_mass : forall xmid pdf n, length pdf = n -> (1 <= n)%nat -> raw xmid pdf n = mass xmid pdf.
Proof.
  intros xmid pdf n L H. destruct n as [|n]; [lia|]. cbn [raw]. unfold mass. f_equal. destruct pdf as [|a l]; [discriminate|]. cbn [cumsum_d tl hd]. cbn [length] in L. injection L as <-. apply cumsum_fold.
Qed.

Lemma nn_all : forall pdf, (forall v, In v pdf -> not_negative v) -> forall v : double, In v pdf -> nonneg v.
Proof. intros pdf H v Hv. destruct (H v Hv) as [[F P]| ->]; [now apply fin_nonneg|reflexivity]. Qed.

Lemma get_ends : forall (c : nat -> double) n, py_get (tab (S n) c) 0 = Ok (c 0%nat) /\ py_get (tab (S n) c) (-1) = Ok (c n).
Proof.
  intros c n. split; (rewrite (get_wrap_d _ (S n)); [|apply tab_length|lia]); unfold PSigma.wrap.
  - change (0 <? 0)%Z with false. cbn iota. change (Z.to_nat 0) with 0%nat. rewrite tab_nth by lia. reflexivity.
  - change (-1 <? 0)%Z with true. cbn iota. replace (S n - Z.to_nat (- (-1)))%nat with n by lia. rewrite tab_nth by lia. reflexivity.
Qed.

Lemma inf_over_inf : forall m : double, m = B754_infinity false -> ddiv m m = B754_nan.
Proof. intros m ->. reflexivity. Qed.

(** Everything about an accepted distribution. *)
Lemma setup : forall (xmid pdf : list double) n, length xmid = n -> length pdf = n -> (2 <= n)%nat -> (forall v, In v pdf -> not_negative v) -> fin (width xmid) -> 0 < val (width xmid) ->
  fin (mass xmid pdf) -> 0 < val (mass xmid pdf) ->
  exists x, linspace_d (first_edge xmid) (last_edge xmid) (Z.of_nat n + 1) = Ok x /\ length x = S n /\
    pdf2cdf_d xmid pdf = Ok (x, tab (S n) (cdfv xmid pdf n), map (fun v => ddiv v (mass xmid pdf)) pdf) /\
    forall u size, (0 <= size)%Z -> randoms_pdf_d u xmid pdf size = Ok (map (np_interp_d (tab (S n) (cdfv xmid pdf n)) x) u).
Proof.
  intros xmid pdf n Lx Lp Hn NP Fd Pd FM PM. rewrite <- (raw_mass xmid pdf n Lp ltac:(lia)) in *. pose proof (nn_all pdf NP) as NN.
  destruct (pdf2cdf_ok xmid pdf n Lx Lp Hn) as (x & E & L & P). cbv zeta in P. rewrite (max_is_last xmid pdf n Lx Lp Hn NN Fd Pd FM PM) in P. exists x. split; [exact E|]. split; [exact L|]. split; [exact P|].
  intros u size Hs. unfold randoms_pdf_d. rewrite P. cbn [bind]. unfold randoms_cdf_d. destruct (get_ends (fun k => ddiv (raw xmid pdf k) (raw xmid pdf n)) n) as [G0 G1]. rewrite G0, G1. cbn [bind].
  pose proof (cdf_first xmid pdf n Lx Lp Hn FM PM) as C0. unfold cdfv in C0. rewrite C0. change (deq dzero dzero) with true. cbn [bind andb].
  destruct (cdf_last xmid pdf n Lx Lp Hn NN Fd Pd FM PM) as [F1 V1]. unfold cdfv in F1, V1. destruct one_ok as [Fo Vo]. rewrite deq_ok by auto. rewrite V1, Vo, Req_bool_true by reflexivity.
  destruct (Z.ltb_spec size 0) as [|_]; [lia|]. rewrite tab_length. replace (length x) with (S n) by (symmetry; exact L). rewrite Nat.eqb_refl. reflexivity.
Qed.

(** ** Acceptance *)

(** The sum of the densities, from left to right, times the bin width decides:
    finite and positive, the result runs from exactly 0 to exactly 1, never
    decreasing, and passes the assertion of [randoms_cdf]; zero (also by
    underflow) or infinite, the assertion fails. *)
Theorem C93_accepted : forall (xmid pdf : list double) n, length xmid = n -> length pdf = n -> (2 <= n)%nat -> (forall v, In v pdf -> not_negative v) ->
  let dx := dsub (nth 1 xmid dzero) (nth 0 xmid dzero) in let m := dmul (fold_left dadd (tl pdf) (hd dzero pdf)) dx in
  fin dx -> 0 < val dx ->
  (fin m /\ 0 < val m -> exists x cdf norm, pdf2cdf_d xmid pdf = Ok (x, cdf, norm) /\ length x = S n /\ length cdf = S n /\ length norm = n /\
     nth 0 cdf dzero = dzero /\ val (nth n cdf dzero) = 1 /\ (forall k, (k <= n)%nat -> fin (nth k cdf dzero) /\ 0 <= val (nth k cdf dzero) <= 1) /\
     (forall i j, (i <= j <= n)%nat -> val (nth i cdf dzero) <= val (nth j cdf dzero)) /\
     forall u size, (0 <= size)%Z -> exists y, randoms_pdf_d u xmid pdf size = Ok y /\ length y = length u) /\
  (~ (fin m /\ 0 < val m) -> forall u size, randoms_pdf_d u xmid pdf size = Err AssertionError).
Proof.
  intros xmid pdf n Lx Lp Hn NP dx m Fd Pd. change dx with (width xmid) in Fd, Pd. change m with (mass xmid pdf). clear m. pose proof (nn_all pdf NP) as NN. split.
  - intros [FM PM]. destruct (setup xmid pdf n Lx Lp Hn NP Fd Pd FM PM) as (x & _ & L & P & R). do 3 eexists. split; [exact P|]. rewrite tab_length, map_length. split; [exact L|]. split; [reflexivity|]. split; [exact Lp|].
    rewrite <- (raw_mass xmid pdf n Lp ltac:(lia)) in *. split; [rewrite tab_nth by lia; exact (cdf_first xmid pdf n Lx Lp Hn FM PM)|].
    split; [rewrite tab_nth by lia; apply (cdf_last xmid pdf n Lx Lp Hn NN Fd Pd FM PM)|]. split; [intros k Hk; rewrite tab_nth by lia; destruct (cdf_ok xmid pdf n Lx Lp Hn NN Fd Pd FM PM k Hk) as (A & _ & B); auto|].
    split; [intros i j Hij; rewrite !tab_nth by lia; now apply (cdf_mono xmid pdf n Lx Lp Hn NN Fd Pd FM PM)|]. intros u size Hs. rewrite (R u size Hs). eexists. split; [reflexivity|apply map_length].
  - intros Bad u size. destruct (pdf2cdf_ok xmid pdf n Lx Lp Hn) as (x & _ & L & P). cbv zeta in P. unfold randoms_pdf_d. rewrite P. cbn [bind]. unfold randoms_cdf_d. set (M := np_max_d (tab (S n) (raw xmid pdf))) in *.
    destruct (get_ends (fun k => ddiv (raw xmid pdf k) M) n) as [G0 G1]. rewrite G0, G1. cbn [bind].
    destruct (max_raw xmid pdf n Lp ltac:(lia) NN Fd Pd) as [[S1 S2] NM]. fold M in S1, S2, NM. rewrite <- (raw_mass xmid pdf n Lp ltac:(lia)) in Bad.
    pose proof (raw_nn xmid pdf n Lx Lp Hn NN Fd Pd n ltac:(lia)) as NR. cbn [raw].
    destruct (nonneg_cases _ NR) as [[FR PR]|ER].
    + assert (Z : val (raw xmid pdf n) = 0) by (destruct (Req_dec (val (raw xmid pdf n)) 0) as [E|N]; [exact E|exfalso; apply Bad; split; [exact FR|lra]]).
      pose proof (dle_fin M _ NM FR S1) as FMx. apply dle_val in S1, S2; auto. assert (ZM : val M = 0) by lra. destruct (val_0 _ FMx ZM) as (s & ->). destruct s; reflexivity.
    + rewrite ER in *. pose proof (inf_dle M NM S2) as EM. rewrite EM. reflexivity.
Qed.
Print Assumptions C93_accepted.

(** "Non-negative densities with a positive finite sum are accepted" fails: the
    product with the bin width may vanish. *)
Theorem C93_accepted_refuted : exists xmid pdf : list double, length xmid = 2%nat /\ length pdf = 2%nat /\ (forall v, In v pdf -> fin v /\ 0 <= val v) /\
  0 < val (dadd (nth 0 pdf dzero) (nth 1 pdf dzero)) /\ val (nth 0 xmid dzero) < val (nth 1 xmid dzero) /\ forall u size, randoms_pdf_d u xmid pdf size = Err AssertionError.
Proof.
  set (t := dbl 1 (-1074)). set (q := dbl 1 (-2)). assert (TS : B2SF t = SpecFloat.S754_finite false 1 (-1074)) by (vm_compute; reflexivity).
  assert (Ft : fin t) by (unfold fin; rewrite <- is_finite_SF_B2SF, TS; reflexivity). assert (Vt : 0 < val t) by (unfold val; rewrite <- SF2R_B2SF, TS; apply F2R_gt_0; reflexivity).
  assert (QS : B2SF q = SpecFloat.S754_finite false 4503599627370496 (-54)) by (vm_compute; reflexivity).
  assert (Fq : fin q) by (unfold fin; rewrite <- is_finite_SF_B2SF, QS; reflexivity). assert (Vq : 0 < val q) by (unfold val; rewrite <- SF2R_B2SF, QS; apply F2R_gt_0; reflexivity).
  assert (PV : forall v, In v [t; dzero] -> fin v /\ 0 <= val v) by (intros v [<- | [<- | []]]; [split; [exact Ft|lra]|split; [reflexivity|rewrite val_zero; lra]]).
  assert (S : dadd t dzero = t) by (apply B2SF_inj; vm_compute; reflexivity). assert (D : dsub q dzero = q) by (apply B2SF_inj; vm_compute; reflexivity).
  exists [dzero; q], [t; dzero]. split; [reflexivity|]. split; [reflexivity|]. split; [exact PV|]. cbn [nth]. split; [rewrite S; exact Vt|]. split; [rewrite val_zero; exact Vq|].
  assert (NV : forall v, In v [t; dzero] -> not_negative v) by (intros v Hv; left; now apply PV).
  pose proof (C93_accepted [dzero; q] [t; dzero] 2 eq_refl eq_refl (le_n 2) NV) as A. cbv zeta in A. cbn [nth fold_left hd tl] in A. rewrite S, D in A. apply (A Fq Vq). intros [_ H].
  assert (Z : dmul t q = dzero) by (apply B2SF_inj; vm_compute; reflexivity). rewrite Z, val_zero in H. lra.
Qed.
Print Assumptions C93_accepted_refuted.

(** ** Lengths *)

(** At least two mid-points; as many densities as mid-points, or one. *)
Theorem C93_lengths : forall (xmid pdf : list double) n, length xmid = n ->
  ((n < 2)%nat -> pdf2cdf_d xmid pdf = Err IndexError) /\ ((2 <= n)%nat -> (pdf2cdf_d xmid pdf = Err ValueError <-> length pdf <> n /\ length pdf <> 1%nat)).
Proof.
  intros xmid pdf n Lx. split.
  - intros H. unfold pdf2cdf_d. destruct xmid as [|a [|b l]]; [reflexivity|reflexivity|cbn in Lx; lia].
  - intros Hn. unfold pdf2cdf_d. destruct (get_mid xmid n Lx Hn) as (-> & -> & ->). cbn [bind]. cbv zeta.
    set (a := dsub _ (dmul _ _)). set (b := dadd _ (dmul _ _)). destruct (linspace_shape a b (Z.of_nat n)) as (x & E & L & _); [lia|]. rewrite Nat2Z.id in L.
    replace (Z.of_nat (length xmid)) with (Z.of_nat n) by (f_equal; symmetry; exact Lx). rewrite E. cbn [bind]. replace (length x) with (S n) by (symmetry; exact L).
    set (v := map _ (cumsum_d pdf)). assert (LV : length v = length pdf) by (unfold v; rewrite map_length; apply cumsum_length). rewrite <- LV. clearbody v. unfold set_tail_d. cbn [repeat tl]. rewrite repeat_length.
    destruct (Nat.eqb_spec (length v) n) as [EQ|NE]; [split; [discriminate|intros [A _]; contradiction]|]. destruct v as [|v0 [|v1 v]]; cbn [bind length] in *; split; try discriminate; try (intros; reflexivity); try (intros [_ B]; lia); intros _; split; lia.
Qed.
Print Assumptions C93_lengths.

(** A single density does not stand for a uniform distribution: all the mass is
    put into the first bin. *)
Theorem C93_single : forall (xmid : list double) n p, length xmid = n -> (2 <= n)%nat -> let dx := dsub (nth 1 xmid dzero) (nth 0 xmid dzero) in
  fin p -> fin dx -> fin (dmul p dx) -> 0 < val (dmul p dx) ->
  exists x cdf norm, pdf2cdf_d xmid [p] = Ok (x, cdf, norm) /\ length cdf = S n /\ val (nth 0 cdf dzero) = 0 /\ forall k, (1 <= k <= n)%nat -> val (nth k cdf dzero) = 1.
Proof.
  intros xmid n p Lx Hn dx Fp Fd Fm Pm. unfold pdf2cdf_d. destruct (get_mid xmid n Lx Hn) as (-> & -> & ->). cbn [bind]. cbv zeta. fold dx.
  set (a := dsub _ (dmul _ _)). set (b := dadd _ (dmul _ _)). destruct (linspace_shape a b (Z.of_nat n)) as (x & E & L & _); [lia|]. rewrite Nat2Z.id in L.
  replace (Z.of_nat (length xmid)) with (Z.of_nat n) by (f_equal; symmetry; exact Lx). rewrite E. cbn [bind]. replace (length x) with (S n) by (symmetry; exact L).
  cbn [cumsum_d cumsum_from_d map]. set (m := dmul p dx) in *.
  assert (T : set_tail_d (repeat dzero (S n)) [m] = Ok (dzero :: repeat m n)).
  { unfold set_tail_d. cbn [repeat tl firstn app]. rewrite repeat_length. destruct (Nat.eqb_spec (length [m]) n) as [Q|_]; [cbn in Q; lia|]. do 2 f_equal. clear. induction n as [|n IH]; [reflexivity|]. cbn. now rewrite IH. }
  rewrite T. cbn [bind]. assert (MX : np_max_d (dzero :: repeat m n) = m).
  { unfold np_max_d. destruct n as [|n']; [lia|]. cbn [repeat fold_left]. assert (M0 : max_d dzero m = m).
    { unfold max_d. change (is_nan dzero) with false. cbn iota. destruct (is_nan m) eqn:NM; [reflexivity|]. rewrite dlt_ok by (auto; reflexivity). rewrite val_zero, Rlt_bool_true by exact Pm. reflexivity. }
    rewrite M0. assert (MM : max_d m m = m) by (unfold max_d; destruct (is_nan m); [reflexivity|]; now destruct (dlt m m)). clear - MM. induction n' as [|n' IH]; [reflexivity|]. cbn [repeat fold_left]. now rewrite MM. }
  rewrite MX. do 3 eexists. split; [reflexivity|]. cbn [map length]. rewrite map_length, repeat_length. split; [reflexivity|].
  destruct (norm_ok dzero m eq_refl Fm ltac:(rewrite val_zero; lra) Pm) as (_ & V0 & _). split; [cbn [nth]; rewrite V0, val_zero; unfold Rdiv; rewrite Rmult_0_l; apply fl_0|].
  intros k Hk. destruct k as [|k]; [lia|]. cbn [nth]. assert (HL : (k < length (repeat m n))%nat) by (rewrite repeat_length; lia).
  assert (E1 : nth k (map (fun c : double => ddiv c m) (repeat m n)) dzero = ddiv m m) by (refine (eq_trans (nth_map_lt _ _ (fun c : double => ddiv c m) (repeat m n) k dzero dzero HL) _); cbv beta; f_equal; apply nth_repeat_lt; lia).
  rewrite E1. destruct (norm_ok m m Fm Fm ltac:(lra) Pm) as (_ & V1 & _). rewrite V1. unfold Rdiv. rewrite Rinv_r by lra. apply fl_fmt, fmt_1.
Qed.
Print Assumptions C93_single.

(** A NaN among the densities is refused. *)
Lemma max_nan : forall l a, is_nan a = true \/ (exists x, In x l /\ is_nan x = true) -> is_nan (fold_left max_d l a) = true.
Proof.
  induction l as [|b l IH]; intros a H; [destruct H as [H|(x & [] & _)]; exact H|]. cbn [fold_left]. apply IH. unfold max_d. destruct (is_nan a) eqn:Na; [left; exact Na|].
  destruct H as [H|(x & [<- |Hx] & Nx)]; [congruence|rewrite Nx; left; exact Nx|]. right. now exists x.
Qed.

Theorem C93_nan : forall (xmid pdf : list double) n u size, length xmid = n -> length pdf = n -> (2 <= n)%nat -> (exists v, In v pdf /\ is_nan v = true) -> randoms_pdf_d u xmid pdf size = Err AssertionError.
Proof.
  intros xmid pdf n u size Lx Lp Hn (v & Hv & Nv). destruct (pdf2cdf_ok xmid pdf n Lx Lp Hn) as (x & _ & L & P). cbv zeta in P. unfold randoms_pdf_d. rewrite P. cbn [bind]. unfold randoms_cdf_d. set (M := np_max_d (tab (S n) (raw xmid pdf))) in *.
  destruct (get_ends (fun k => ddiv (raw xmid pdf k) M) n) as [G0 _]. rewrite G0. cbn [bind raw]. assert (NM : is_nan M = true).
  { unfold M, np_max_d. rewrite tab_S. apply max_nan. right. destruct (In_nth pdf v dzero Hv) as (j & Hj & E). exists (raw xmid pdf (S j)). split; [unfold tab; apply in_map_iff; exists j; split; [reflexivity|apply in_seq; unfold double in *; lia]|]. cbn [raw].
    assert (NC : is_nan (nth j (cumsum_d pdf) dzero) = true).
    { rewrite cumsum_nth by exact Hj. destruct j as [|j]; rewrite E; [exact Nv|]. destruct v; try discriminate. now destruct (nth j (cumsum_d pdf) dzero) as [[]|[]| |[] ? ? ?]. }
    destruct (nth j (cumsum_d pdf) dzero); try discriminate. destruct (width xmid); reflexivity. }
  destruct M; try discriminate. reflexivity.
Qed.
Print Assumptions C93_nan.

(** ** Edges *)

(** The edges never decrease; the outer ones are half a width beyond the outer
    mid-points, the others equally spaced between them, all up to rounding. *)
Theorem C93_edges : forall (xmid pdf : list double) n, mid_points xmid n -> length pdf = n ->
  exists x cdf norm, pdf2cdf_d xmid pdf = Ok (x, cdf, norm) /\ length x = S n /\
  let X i := val (nth i x dzero) in let h := val (dsub (nth 1 xmid dzero) (nth 0 xmid dzero)) / 2 in
  let first := val (nth 0 xmid dzero) - h in let last := val (nth (n - 1) xmid dzero) + h in
  (forall i, (i <= n)%nat -> fin (nth i x dzero)) /\ (forall i j, (i <= j <= n)%nat -> X i <= X j) /\
  Rabs (X 0%nat - first) <= b2 (-53) * Rabs first /\ Rabs (X n - last) <= b2 (-53) * Rabs last /\
  forall i, (i <= n)%nat -> Rabs (X i - (X 0%nat + INR i * ((X n - X 0%nat) / INR n))) <= 9 * b2 (-53) * hull (X 0%nat) (X n).
Proof.
  intros xmid pdf n MP Lp. pose proof MP as (Lx & Hn & _). destruct (pdf2cdf_ok xmid pdf n Lx Lp Hn) as (x & E & L & P). cbv zeta in P. destruct (edges_ok xmid n MP) as (x' & E' & _ & _ & _ & _ & B). rewrite E in E'. apply Ok_inj in E'. subst x'.
  cbv zeta in B. destruct B as (_ & B1 & B2 & B3 & B4 & B5). do 3 eexists. split; [exact P|]. split; [exact L|]. cbv zeta. split; [intros i Hi; now apply B1|]. split; [exact B2|]. split; [exact B3|]. split; [exact B4|exact B5].
Qed.
Print Assumptions C93_edges.

(** ** Accuracy *)

Lemma u_52 : 2 * u = b2 (-52).
Proof. unfold u. change (-52)%Z with (1 + -53)%Z. rewrite bpow_plus. reflexivity. Qed.

Lemma raw_rel : forall (xmid pdf : list double) n, length pdf = n -> INR n <= b2 20 -> sized (-201) 201 (width xmid) -> (forall v, In v pdf -> sized (-200) 200 v /\ 0 <= val v) ->
  forall k, (k <= n)%nat -> rel (2 * k + 2) 421 (raw xmid pdf k) (total k (fun i => val (nth i pdf dzero)) * val (width xmid)).
Proof.
  intros xmid pdf n Lp Hn20 SW SP k Hk. destruct k as [|k].
  - assert (Z : total 0 (fun i => val (nth i pdf dzero)) * val (width xmid) = val dzero) by (rewrite val_zero; unfold total; cbn; ring). rewrite Z. apply (rel_weaken 0 _ 421 421); [lia|lia|]. apply rel_exact; [reflexivity|left; apply val_zero].
  - cbn [raw]. assert (T : pdf = tab n (fun i => nth i pdf dzero)).
    { apply (nth_ext _ _ dzero dzero); [rewrite tab_length; exact Lp|]. intros i Hi. rewrite tab_nth by (unfold double in *; lia). reflexivity. }
    assert (C : nth k (cumsum_d pdf) dzero = sum_d comb (tab (S k) (fun i => nth i pdf dzero))) by (rewrite T at 1; apply cumsum_tab; lia). rewrite C.
    assert (HK : INR (S k) <= b2 20) by (apply Rle_trans with (2 := Hn20); apply le_INR; exact Hk).
    assert (RS : rel (0 + 2 * S k) (200 + 20) (sum_d comb (tab (S k) (fun i => nth i pdf dzero))) (total (S k) (fun i => val (nth i pdf dzero)))).
    { apply (sum_rel comb (S k) (fun i => nth i pdf dzero) (fun i => val (nth i pdf dzero)) 0 200 comb_ok HK (few_small 0 ltac:(lia)) ltac:(lia)). intros i Hi. destruct (SP (nth i pdf dzero)) as [S1 S2]; [apply nth_In; unfold double in *; lia|]. split; [now apply sized_rel|exact S2]. }
    pose proof (rel_mul (0 + 2 * S k) 0 220 201 _ _ _ _ (few_n (S k) (0 + 2 * S k) HK ltac:(lia)) (few_small 0 ltac:(lia)) ltac:(lia) ltac:(lia) ltac:(lia) RS (sized_rel 201 _ SW)) as R.
    refine (rel_weaken _ _ _ _ _ _ _ _ R); lia.
Qed.

Lemma total_ge : forall n X, (forall i, (i < n)%nat -> 0 <= X i) -> forall k, (k <= n)%nat -> 0 <= total k X <= total n X.
Proof.
  intros n X H k Hk. assert (S : forall m, total (S m) X = total m X + X m).
  { intros m. unfold total. rewrite seq_S, map_app, fold_right_app. cbn [map fold_right plus]. generalize (map X (seq 0 m)). induction l as [|a l IH]; cbn; [ring|rewrite IH; ring]. }
  split; [apply total_pos; intros; apply H; lia|]. induction Hk as [|n Hk IH]; [lra|]. rewrite S. assert (total k X <= total n X) by (apply IH; intros; apply H; lia). pose proof (H n ltac:(lia)). lra.
Qed.

Lemma good_mass : forall (xmid pdf : list double) n, mid_points xmid n -> length pdf = n -> (forall v, In v pdf -> sized (-200) 200 v /\ 0 <= val v) -> total n (fun i => val (nth i pdf dzero)) <> 0 ->
  (forall v, In v pdf -> not_negative v) /\ sized (-201) 201 (width xmid) /\ fin (width xmid) /\ 0 < val (width xmid) /\ fin (mass xmid pdf) /\ 0 < val (mass xmid pdf) /\ 0 < total n (fun i => val (nth i pdf dzero)).
Proof.
  intros xmid pdf n MP Lp SP NZ. pose proof MP as (_ & Hn & Hn20 & _). destruct (edges_ok xmid n MP) as (_ & _ & _ & Fd & SW & Pd & _).
  assert (PP : 0 < total n (fun i => val (nth i pdf dzero))).
  { assert (0 <= total n (fun i => val (nth i pdf dzero))) by (apply total_pos; intros i Hi; apply SP, nth_In; unfold double in *; lia). lra. }
  pose proof (raw_rel xmid pdf n Lp Hn20 SW SP n (le_n n)) as R. rewrite (raw_mass xmid pdf n Lp ltac:(lia)) in R.
  split; [intros v Hv; destruct (SP v Hv) as [[F _] P]; left; auto|]. split; [exact SW|]. split; [exact Fd|]. split; [exact Pd|]. split; [apply R|]. split; [|exact PP]. apply (rel_pos _ _ _ _ R). now apply Rmult_lt_0_compat.
Qed.

(** Densities zero or between [2^-200] and [2^200], not all zero: the cumulative
    and the normalised distribution are accurate to a relative error that grows
    with the number of bins. *)
Theorem C93_accuracy : forall (xmid pdf : list double) n, mid_points xmid n -> length pdf = n -> (forall v, In v pdf -> sized (-200) 200 v /\ 0 <= val v) ->
  let p i := val (nth i pdf dzero) in let S := total n p in let dx := val (dsub (nth 1 xmid dzero) (nth 0 xmid dzero)) in S <> 0 ->
  exists x cdf norm, pdf2cdf_d xmid pdf = Ok (x, cdf, norm) /\
    (forall k, (k <= n)%nat -> fin (nth k cdf dzero) /\ Rabs (val (nth k cdf dzero) - total k p / S) <= (2 * INR k + 2 * INR n + 6) * b2 (-52) * (total k p / S)) /\
    (forall k, (k < n)%nat -> fin (nth k norm dzero) /\ Rabs (val (nth k norm dzero) - p k / (S * dx)) <= (2 * INR n + 4) * b2 (-52) * (p k / (S * dx))).
Proof.
  intros xmid pdf n MP Lp SP p S dx NZ. pose proof MP as (Lx & Hn & Hn20 & _). destruct (good_mass xmid pdf n MP Lp SP NZ) as (NP & SW & Fd & Pd & FM & PM & PS). fold p in PS. fold S in PS.
  destruct (setup xmid pdf n Lx Lp Hn NP Fd Pd FM PM) as (x & _ & _ & P & _). change dx with (val (width xmid)). pose proof (raw_rel xmid pdf n Lp Hn20 SW SP) as RR. fold p in RR.
  assert (ND : S * val (width xmid) <> 0) by (apply Rmult_integral_contrapositive; split; lra).
  do 3 eexists. split; [exact P|]. split.
  - intros k Hk. rewrite tab_nth by lia. pose proof (rel_div (2 * k + 2) (2 * n + 2) 421 421 _ _ _ _ (few_n n (2 * k + 2) Hn20 ltac:(lia)) (few_n n (2 * n + 2) Hn20 ltac:(lia)) ltac:(lia) ltac:(lia) ltac:(lia) (RR k Hk) (RR n (le_n n)) ND) as R.
    fold S in R. replace (total k p * val (width xmid) / (S * val (width xmid))) with (total k p / S) in R by (field; lra).
    destruct (fun f => rel_err _ _ _ _ f R) as [F E]; [apply (few_n n _ Hn20); lia|]. split; [exact F|]. apply Rle_trans with (1 := E).
    assert (T0 : 0 <= total k p / S). { apply Rmult_le_pos; [apply total_pos; intros i Hi; apply SP, nth_In; unfold double in *; lia|left; now apply Rinv_0_lt_compat]. }
    rewrite (Rabs_pos_eq _ T0), <- u_52. apply Req_le. rewrite !plus_INR, !mult_INR. cbn [INR]. ring.
  - intros k Hk. assert (HL : (k < length pdf)%nat) by (unfold double in *; lia). rewrite (nth_map_lt _ _ (fun v => ddiv v (mass xmid pdf)) pdf k dzero dzero HL). cbv beta. rewrite <- (raw_mass xmid pdf n Lp ltac:(lia)).
    destruct (SP (nth k pdf dzero) (nth_In _ _ HL)) as [S1 S2].
    pose proof (rel_div 0 (2 * n + 2) 200 421 _ _ _ _ (few_small 0 ltac:(lia)) (few_n n (2 * n + 2) Hn20 ltac:(lia)) ltac:(lia) ltac:(lia) ltac:(lia) (sized_rel 200 _ S1) (RR n (le_n n)) ND) as R. fold S in R. fold (p k) in R.
    destruct (fun f => rel_err _ _ _ _ f R) as [F E]; [apply (few_n n _ Hn20); lia|]. split; [exact F|]. apply Rle_trans with (1 := E).
    assert (T0 : 0 <= p k / (S * val (width xmid))) by (apply Rmult_le_pos; [exact S2|left; apply Rinv_0_lt_compat; now apply Rmult_lt_0_compat]).
    rewrite (Rabs_pos_eq _ T0), <- u_52. apply Req_le. rewrite !plus_INR, !mult_INR. cbn [INR]. ring.
Qed.
Print Assumptions C93_accuracy.

(** ** Draws *)

Lemma tab_list : forall (x : list double) n, length x = S n -> x = tab (S n) (fun i => nth i x dzero).
Proof. intros x n L. apply (nth_ext _ _ dzero dzero); [rewrite tab_length; exact L|]. intros i Hi. rewrite tab_nth by (unfold double in *; lia). reflexivity. Qed.

(** Densities at mid-points in range that can be drawn from: not negative, and
    their sum from left to right times the bin width finite and positive. *)
Definition accepted (xmid pdf : list double) (n : nat) : Prop :=
  mid_points xmid n /\ length pdf = n /\ (forall v, In v pdf -> not_negative v) /\
  let m := dmul (fold_left dadd (tl pdf) (hd dzero pdf)) (dsub (nth 1 xmid dzero) (nth 0 xmid dzero)) in fin m /\ 0 < val m.

(** All about the draws of an accepted distribution. *)
Lemma draws : forall (xmid pdf : list double) n, accepted xmid pdf n -> exists x norm, let cdf := tab (S n) (cdfv xmid pdf n) in
  pdf2cdf_d xmid pdf = Ok (x, cdf, norm) /\ length x = S n /\ (forall u size, (0 <= size)%Z -> randoms_pdf_d u xmid pdf size = Ok (map (np_interp_d cdf x) u)) /\
  (forall i, (i <= n)%nat -> fin (cdfv xmid pdf n i) /\ 0 <= val (cdfv xmid pdf n i) <= 1) /\ (forall i j, (i <= j <= n)%nat -> val (cdfv xmid pdf n i) <= val (cdfv xmid pdf n j)) /\ val (cdfv xmid pdf n 0) = 0 /\ val (cdfv xmid pdf n n) = 1 /\
  (forall i j, (i <= j <= n)%nat -> val (nth i x dzero) <= val (nth j x dzero)) /\
  let H := hull (val (nth 0 x dzero)) (val (nth n x dzero)) in 0 < H /\
  forall k u, kth_draw k u -> exists j, (j < n)%nat /\ val (cdfv xmid pdf n j) <= val u < val (cdfv xmid pdf n (S j)) /\ (fin (nth j pdf dzero) /\ 0 < val (nth j pdf dzero)) /\
    let y := np_interp_d cdf x u in fin y /\ val y = interp_val (val (nth j x dzero)) (val (nth (S j) x dzero)) (val (cdfv xmid pdf n j)) (val (cdfv xmid pdf n (S j))) (val u) /\ val (nth j x dzero) <= val y /\
    Rabs (val y - (val (nth j x dzero) + (val u - val (cdfv xmid pdf n j)) / (val (cdfv xmid pdf n (S j)) - val (cdfv xmid pdf n j)) * (val (nth (S j) x dzero) - val (nth j x dzero)))) <= b2 (-49) * H.
Proof.
  intros xmid pdf n (MP & Lp & NP & FM & PM). change (fin (mass xmid pdf)) in FM. change (0 < val (mass xmid pdf)) in PM. pose proof MP as (Lx & Hn & _).
  destruct (edges_ok xmid n MP) as (x & E & L & Fd & _ & Pd & B). cbv zeta in B. destruct B as (B0 & B1 & B2 & _).
  destruct (setup xmid pdf n Lx Lp Hn NP Fd Pd FM PM) as (x' & E' & _ & P & R). rewrite E in E'. apply Ok_inj in E'. subst x'. pose proof (nn_all pdf NP) as NN.
  rewrite <- (raw_mass xmid pdf n Lp ltac:(lia)) in FM, PM.
  assert (CO : forall i, (i <= n)%nat -> fin (cdfv xmid pdf n i) /\ 0 <= val (cdfv xmid pdf n i) <= 1) by (intros i Hi; destruct (cdf_ok xmid pdf n Lx Lp Hn NN Fd Pd FM PM i Hi) as (A & _ & C); auto).
  pose proof (cdf_mono xmid pdf n Lx Lp Hn NN Fd Pd FM PM) as CM. assert (C0 : val (cdfv xmid pdf n 0) = 0) by (rewrite (cdf_first xmid pdf n Lx Lp Hn FM PM); apply val_zero).
  destruct (cdf_last xmid pdf n Lx Lp Hn NN Fd Pd FM PM) as [_ C1].
  exists x. eexists. cbv zeta. split; [exact P|]. split; [exact L|]. split; [exact R|]. split; [exact CO|]. split; [exact CM|]. split; [exact C0|]. split; [exact C1|]. split; [exact B2|].
  split; [pose proof (bpow_gt_0 radix2 (-900)); lra|]. intros k u K.
  destruct (interp_ok n (cdfv xmid pdf n) (fun i => nth i x dzero) k u _ K ltac:(lia) CO CM C0 C1 B1 B2 B0) as (j & Hj & Hv & Y). exists j. split; [exact Hj|]. split; [exact Hv|].
  split; [apply (step_positive xmid pdf n Lx Lp Hn NN Fd Pd FM PM j Hj); lra|]. rewrite <- (tab_list x n L) in Y. exact Y.
Qed.

(** Every draw falls into a bin of positive density: where the cumulative
    distribution passes the draw.  It is the linear interpolation up to [2^-49]
    of the largest edge, and never below the lower edge of the bin. *)
Theorem C93_draw : forall (xmid pdf : list double) n, accepted xmid pdf n -> exists x cdf norm, pdf2cdf_d xmid pdf = Ok (x, cdf, norm) /\
  let X i := val (nth i x dzero) in let C i := val (nth i cdf dzero) in
  forall k u, kth_draw k u -> exists y, (forall size, (0 <= size)%Z -> randoms_pdf_d [u] xmid pdf size = Ok [y]) /\ fin y /\
    exists j, (j < n)%nat /\ 0 < val (nth j pdf dzero) /\ C j <= val u < C (S j) /\ X j <= val y /\
      Rabs (val y - (X j + (val u - C j) / (C (S j) - C j) * (X (S j) - X j))) <= b2 (-49) * hull (X 0%nat) (X n).
Proof.
  intros xmid pdf n A. destruct (draws xmid pdf n A) as (x & norm & P & L & R & _ & _ & _ & _ & _ & _ & D). do 3 eexists. split; [exact P|]. cbv zeta. intros k u K. eexists. split; [intros size Hs; rewrite (R [u] size Hs); reflexivity|].
  destruct (D k u K) as (j & Hj & Hv & (_ & Pj) & F & _ & Lo & E). split; [exact F|]. exists j. rewrite !tab_nth by lia. auto 10.
Qed.
Print Assumptions C93_draw.

(** Lists of draws are treated one by one. *)
Theorem C93_draws : forall (xmid pdf u : list double) n size, accepted xmid pdf n -> (0 <= size)%Z -> exists y, randoms_pdf_d u xmid pdf size = Ok y /\ length y = length u /\
  forall i, (i < length u)%nat -> randoms_pdf_d [nth i u dzero] xmid pdf size = Ok [nth i y dzero].
Proof.
  intros xmid pdf u n size A Hs. destruct (draws xmid pdf n A) as (x & norm & _ & _ & R & _). rewrite (R u size Hs). eexists. split; [reflexivity|]. split; [apply map_length|]. intros i Hi. rewrite (R _ size Hs). cbn [map]. do 2 f_equal. symmetry.
  exact (nth_map_lt _ _ (np_interp_d (tab (S n) (cdfv xmid pdf n)) x) u i dzero dzero Hi).
Qed.
Print Assumptions C93_draws.

(** A larger draw gives a larger number, up to [2^-49] of the largest edge; exactly within a bin. *)
Theorem C93_monotone : forall (xmid pdf : list double) n, accepted xmid pdf n -> exists x cdf norm, pdf2cdf_d xmid pdf = Ok (x, cdf, norm) /\
  forall k k' u u' y y' size, kth_draw k u -> kth_draw k' u' -> (k <= k')%Z -> randoms_pdf_d [u] xmid pdf size = Ok [y] -> randoms_pdf_d [u'] xmid pdf size = Ok [y'] ->
    val y <= val y' + b2 (-49) * hull (val (nth 0 x dzero)) (val (nth n x dzero)) /\
    (forall j, (j < n)%nat -> val (nth j cdf dzero) <= val u -> val u' < val (nth (S j) cdf dzero) -> val y <= val y').
Proof.
  intros xmid pdf n A. destruct (draws xmid pdf n A) as (x & norm & P & L & R & CO & CM & C0 & C1 & XM & HP & D). do 3 eexists. split; [exact P|]. intros k k' u u' y y' size K K' Hk Y Y'.
  assert (Hs : (0 <= size)%Z). { destruct (Z.ltb_spec size 0) as [Q|Q]; [|exact Q]. exfalso. revert Y. pose proof (R [u] 0%Z (Z.le_refl 0)) as R0. unfold randoms_pdf_d in *. rewrite P in *. cbn [bind] in *. unfold randoms_cdf_d in *. destruct (py_get (tab (S n) (cdfv xmid pdf n)) 0) as [c0|e0]; cbn [bind] in *; [|discriminate].
    destruct (if deq c0 dzero then _ else _) as [c1|e1]; cbn [bind] in *; [|discriminate]. destruct (deq c0 dzero && deq c1 one_d); [|discriminate]. destruct (Z.ltb_spec size 0); [discriminate|lia]. }
  rewrite (R _ size Hs) in Y. rewrite (R _ size Hs) in Y'. cbn [map] in Y, Y'. apply Ok_inj in Y, Y'. injection Y as <-. injection Y' as <-.
  destruct (D k u K) as (j & Hj & Hv & _ & F & V & Lo & E). destruct (D k' u' K') as (j' & Hj' & Hv' & _ & F' & V' & Lo' & E'). cbv zeta in *.
  assert (UU : val u <= val u') by (destruct K as (_ & _ & ->); destruct K' as (_ & _ & ->); apply Rmult_le_compat_r; [apply bpow_ge_0|now apply IZR_le]).
  set (H := hull _ _) in *. assert (SAME : j = j' -> val (np_interp_d (tab (S n) (cdfv xmid pdf n)) x u) <= val (np_interp_d (tab (S n) (cdfv xmid pdf n)) x u')).
  { intros <-. rewrite V, V'. destruct (Req_dec (val u) (val u')) as [Q|Q]; [rewrite Q; apply Rle_refl|]. apply interp_mono; [apply XM; lia|lra| |exact UU].
    apply Rle_trans with (fl (b2 (-106))); [rewrite fl_fmt by (apply fmt_b2; lia); apply Rle_refl|]. apply fl_mono. apply (gap_big _ _ (val (cdfv xmid pdf n (S j)))); auto using fmt_val; [apply CO; lia|lra|].
    apply Rle_trans with (val u'); [|lra]. destruct K' as (Hk' & _ & Vu'). rewrite Vu'. destruct (draw_range k u K) as [_ Ru]. assert (1 <= IZR k'). { apply IZR_le. destruct (Z.eq_dec k' 0) as [Z|]; [|lia]. rewrite Z, Rmult_0_l in Vu'. lra. } pose proof (bpow_gt_0 radix2 (-53)). nra. }
  assert (JJ : (j <= j')%nat). { destruct (le_lt_dec j j') as [|Q]; [assumption|]. pose proof (CM (S j') j ltac:(lia)). lra. }
  assert (EH : 0 <= b2 (-49) * H) by (apply Rmult_le_pos; [apply bpow_ge_0|lra]). split.
  - destruct (Nat.eq_dec j j') as [Q|Q]; [pose proof (SAME Q); lra|]. apply Rabs_le_inv in E. pose proof (XM (S j) j' ltac:(lia)) as XX. pose proof (XM j (S j) ltac:(lia)) as XJ.
    set (c := val (cdfv xmid pdf n j)) in *. set (d := val (cdfv xmid pdf n (S j))) in *. set (a := val (nth j x dzero)) in *. set (b := val (nth (S j) x dzero)) in *.
    assert (T : 0 <= (val u - c) / (d - c) <= 1). { split; [apply Rmult_le_pos; [lra|left; apply Rinv_0_lt_compat; lra]|]. apply Rmult_le_reg_r with (d - c); [lra|]. unfold Rdiv. rewrite Rmult_assoc, Rinv_l by lra. lra. }
    assert ((val u - c) / (d - c) * (b - a) <= 1 * (b - a)) by (apply Rmult_le_compat_r; lra). lra.
  - intros i Hi Q1 Q2. rewrite !tab_nth in * by lia. apply SAME. assert (j = i /\ j' = i) as [-> ->]; [|reflexivity].
    assert (G : forall a v, (a < n)%nat -> val (cdfv xmid pdf n a) <= v < val (cdfv xmid pdf n (S a)) -> val (cdfv xmid pdf n i) <= v < val (cdfv xmid pdf n (S i)) -> a = i).
    { intros a v Ha V1 V2. destruct (lt_eq_lt_dec a i) as [[Z|Z]|Z]; [|exact Z|]; [pose proof (CM (S a) i ltac:(lia)); lra|pose proof (CM (S i) a ltac:(lia)); lra]. }
    split; [apply (G j (val u)); auto; lra|apply (G j' (val u')); auto; lra].
Qed.
Print Assumptions C93_monotone.

(** The draws of numbers [a j] to [a (j+1)] fall into bin [j]; their share among
    the [2^53] draws is the share of its density up to an error that grows with
    the number of bins. *)
Theorem C93_frequency : forall (xmid pdf : list double) n, mid_points xmid n -> length pdf = n -> (forall v, In v pdf -> sized (-200) 200 v /\ 0 <= val v) ->
  let p i := val (nth i pdf dzero) in total n p <> 0 ->
  exists x cdf norm, pdf2cdf_d xmid pdf = Ok (x, cdf, norm) /\ exists a : nat -> Z, a 0%nat = 0%Z /\ a n = (2 ^ 53)%Z /\
  let X i := val (nth i x dzero) in
  forall j, (j < n)%nat -> (a j <= a (S j))%Z /\ Rabs ((IZR (a (S j)) - IZR (a j)) * b2 (-53) - p j / total n p) <= (8 * INR n + 13) * b2 (-52) /\
    forall k u y size, kth_draw k u -> (a j <= k < a (S j))%Z -> randoms_pdf_d [u] xmid pdf size = Ok [y] -> X j <= val y <= X (S j) + b2 (-49) * hull (X 0%nat) (X n).
Proof.
  intros xmid pdf n MP Lp SP p NZ. pose proof MP as (Lx & Hn & Hn20 & _). destruct (good_mass xmid pdf n MP Lp SP NZ) as (NP & _ & _ & _ & FM & PM & PS). fold p in PS.
  assert (A : accepted xmid pdf n) by (split; [exact MP|]; split; [exact Lp|]; split; [exact NP|]; split; [exact FM|exact PM]). destruct (draws xmid pdf n A) as (x & norm & P & L & R & CO & CM & C0 & C1 & XM & HP & D).
  destruct (C93_accuracy xmid pdf n MP Lp SP NZ) as (x2 & cdf2 & norm2 & P2 & AC & _). rewrite P in P2. apply Ok_inj in P2. injection P2 as <- <- <-. fold p in AC.
  exists x, (tab (S n) (cdfv xmid pdf n)), norm. split; [exact P|]. set (C := fun i => val (cdfv xmid pdf n i)). exists (fun i => Zceil (C i * b2 53)). split; [unfold C; rewrite C0, Rmult_0_l; apply (Zceil_IZR 0)|]. split; [unfold C; rewrite C1, Rmult_1_l; exact (Zceil_IZR (2 ^ 53))|].
  cbv zeta. intros j Hj. assert (MJ : C j <= C (S j)) by (apply CM; lia). split; [apply Zceil_le; apply Rmult_le_compat_r; [apply bpow_ge_0|exact MJ]|]. split.
  - destruct (threshold_range (C j)) as [_ T1]; [apply CO; lia|]. destruct (threshold_range (C (S j))) as [_ T2]; [apply CO; lia|].
    assert (AB : forall i, (i <= n)%nat -> Rabs (C i - total i p / total n p) <= (4 * INR n + 6) * b2 (-52)).
    { intros i Hi. destruct (AC i Hi) as [_ E]. rewrite tab_nth in E by lia. apply Rle_trans with (1 := E). rewrite <- (Rmult_1_r ((4 * INR n + 6) * b2 (-52))).
      destruct (total_ge n p (fun i Hi => proj2 (SP _ (nth_In pdf dzero (eq_ind_r (fun m => (i < m)%nat) Hi Lp)))) i Hi) as [G1 G2]. apply le_INR in Hi. pose proof (pos_INR i). pose proof (bpow_ge_0 radix2 (-52)).
      apply Rmult_le_compat; [apply Rmult_le_pos; [lra|assumption]|apply Rmult_le_pos; [lra|left; now apply Rinv_0_lt_compat]|apply Rmult_le_compat_r; lra|]. apply Rmult_le_reg_r with (total n p); [exact PS|]. unfold Rdiv. rewrite Rmult_assoc, Rinv_l by lra. lra. }
    pose proof (Rabs_le_inv _ _ (AB j ltac:(lia))) as E1. pose proof (Rabs_le_inv _ _ (AB (S j) ltac:(lia))) as E2.
    assert (TS : total (S j) p = total j p + p j). { unfold total. rewrite seq_S, map_app, fold_right_app. cbn [map fold_right plus]. generalize (map p (seq 0 j)). induction l as [|b l IH]; cbn; [ring|rewrite IH; ring]. }
    replace (p j / total n p) with (total (S j) p / total n p - total j p / total n p) by (rewrite TS; field; lra).
    assert (B52 : b2 (-52) = 2 * b2 (-53)) by (change (-52)%Z with (1 + -53)%Z; rewrite bpow_plus; reflexivity). pose proof (bpow_gt_0 radix2 (-53)) as P53. apply Rabs_le. rewrite Rmult_minus_distr_r. lra.
  - intros k u y size K Hk Y.
    assert (Hs : (0 <= size)%Z). { destruct (Z.ltb_spec size 0) as [Q|Q]; [|exact Q]. exfalso. revert Y. pose proof (R [u] 0%Z (Z.le_refl 0)) as R0. unfold randoms_pdf_d in *. rewrite P in *. cbn [bind] in *. unfold randoms_cdf_d in *. destruct (py_get (tab (S n) (cdfv xmid pdf n)) 0) as [c0|e0]; cbn [bind] in *; [|discriminate].
      destruct (if deq c0 dzero then _ else _) as [c1|e1]; cbn [bind] in *; [|discriminate]. destruct (deq c0 dzero && deq c1 one_d); [|discriminate]. destruct (Z.ltb_spec size 0); [discriminate|lia]. }
    rewrite (R _ size Hs) in Y. cbn [map] in Y. apply Ok_inj in Y. injection Y as <-. destruct (D k u K) as (i & Hi & Hv & _ & F & V & Lo & E). cbv zeta in *.
    pose proof (below_threshold k u (C j) K) as T1. pose proof (below_threshold k u (C (S j)) K) as T2. cbv beta in Hk.
    destruct (Z.ltb_spec k (Zceil (C j * b2 53))) as [|_]; [lia|]. destruct (Z.ltb_spec k (Zceil (C (S j) * b2 53))) as [_|]; [|lia].
    destruct (Rlt_bool_spec (val u) (C j)) as [|U1]; [discriminate|]. destruct (Rlt_bool_spec (val u) (C (S j))) as [U2|]; [|discriminate]. unfold C in U1, U2.
    assert (i = j) as ->. { destruct (lt_eq_lt_dec i j) as [[Z|Z]|Z]; [|exact Z|]; [pose proof (CM (S i) j ltac:(lia)); lra|pose proof (CM (S j) i ltac:(lia)); lra]. }
    split; [exact Lo|]. apply Rabs_le_inv in E. pose proof (XM j (S j) ltac:(lia)) as XJ.
    set (c := val (cdfv xmid pdf n j)) in *. set (d := val (cdfv xmid pdf n (S j))) in *. set (a := val (nth j x dzero)) in *. set (b := val (nth (S j) x dzero)) in *. set (H := hull _ _) in *.
    assert (T : 0 <= (val u - c) / (d - c) <= 1). { split; [apply Rmult_le_pos; [lra|left; apply Rinv_0_lt_compat; lra]|]. apply Rmult_le_reg_r with (d - c); [lra|]. unfold Rdiv. rewrite Rmult_assoc, Rinv_l by lra. lra. }
    assert ((val u - c) / (d - c) * (b - a) <= 1 * (b - a)) by (apply Rmult_le_compat_r; lra). lra.
Qed.
Print Assumptions C93_frequency.

(** ** Refuted expectations and an example *)

Lemma val_of : forall (x : double) s m e, B2SF x = SpecFloat.S754_finite s m e -> fin x /\ val x = IZR (cond_Zopp s (Zpos m)) * b2 e.
Proof. intros x s m e H. split; [unfold fin; rewrite <- is_finite_SF_B2SF, H; reflexivity|unfold val; rewrite <- SF2R_B2SF, H; reflexivity]. Qed.

Lemma edge_500 : forall x, Rabs x <= 1024 -> Rabs x <= b2 500.
Proof. intros x H. apply Rle_trans with (1 := H). change 1024 with (b2 10). apply bpow_le. lia. Qed.

Lemma gap_200 : forall x, / 1024 <= x <= 1024 -> b2 (-200) <= x <= b2 200.
Proof. intros x [A B]. split; [apply Rle_trans with (2 := A); change (/ 1024) with (b2 (-10))|apply Rle_trans with (1 := B); change 1024 with (b2 10)]; apply bpow_le; lia. Qed.

Lemma small_20 : forall n, (n <= 1000)%nat -> INR n <= b2 20.
Proof. intros n H. apply le_INR in H. apply Rle_trans with (1 := H). rewrite INR_IZR_INZ. change (b2 20) with (IZR 1048576). apply IZR_le. lia. Qed.

(** "Random numbers lie between the first and the last edge" fails: mid-points
    -1.3 and 0.7, densities 6 and 14, the largest draw gives the double after
    the last edge 1.7. *)
Theorem C93_range_refuted : exists xmid pdf u x cdf norm y, accepted xmid pdf 2 /\ kth_draw (2 ^ 53 - 1) u /\ pdf2cdf_d xmid pdf = Ok (x, cdf, norm) /\ randoms_pdf_d [u] xmid pdf 1 = Ok [y] /\ val (nth 2 x dzero) < val y.
Proof.
  set (a := dbl (-5854679515581645) (-52)). set (b := dbl 6305039478318694 (-53)). set (u := dbl 9007199254740991 (-53)). set (p := dint 6). set (q := dint 14).
  destruct (val_of a true 5854679515581645 (-52)) as [Fa Va]; [vm_compute; reflexivity|]. destruct (val_of b false 6305039478318694 (-53)) as [Fb Vb]; [vm_compute; reflexivity|].
  destruct (val_of u false 9007199254740991 (-53)) as [Fu Vu]; [vm_compute; reflexivity|]. destruct (dint_ok 6 ltac:(lia)) as [Fp Vp]. destruct (dint_ok 14 ltac:(lia)) as [Fq Vq]. fold p in Fp, Vp. fold q in Fq, Vq.
  cbn [cond_Zopp Z.opp] in *. assert (K : kth_draw (2 ^ 53 - 1) u) by (split; [lia|]; split; [exact Fu|exact Vu]).
  assert (B52 : b2 (-52) = / IZR (2 ^ 52)) by reflexivity. assert (B53 : b2 (-53) = / IZR (2 ^ 53)) by reflexivity. change (2 ^ 52)%Z with 4503599627370496%Z in B52. change (2 ^ 53)%Z with 9007199254740992%Z in B53. rewrite B52 in Va. rewrite B53 in Vb.
  assert (A : accepted [a; b] [p; q] 2).
  { split; [|split; [reflexivity|split]].
    - split; [reflexivity|]. split; [lia|]. split; [apply small_20; lia|]. cbn [nth Nat.sub]. split; [exact Fa|]. split; [exact Fb|]. split; [exact Fb|]. rewrite Va, Vb. split; [apply edge_500, Rabs_le; lra|]. split; [apply edge_500, Rabs_le; lra|]. split; [lra|apply gap_200; lra].
    - intros v [<- |[<- |[]]]; left; split; auto; rewrite ?Vp, ?Vq; lra.
    - cbv zeta. cbn [tl hd fold_left nth]. destruct (val_of (dmul (dadd p q) (dsub b a)) false 5629499534213120 (-47)) as [F V]; [vm_compute; reflexivity|]. split; [exact F|]. rewrite V. apply Rmult_lt_0_compat; [cbn; lra|apply bpow_gt_0]. }
  destruct (C93_draw _ _ _ A) as (x & cdf & norm & P & D). cbv zeta in D. destruct (D _ _ K) as (y & R & Fy & _). exists [a; b], [p; q], u, x, cdf, norm, y. split; [exact A|]. split; [exact K|]. split; [exact P|]. specialize (R 1%Z ltac:(lia)). split; [exact R|].
  pose (f := fun r : res (list double) => match r with Ok [v] => B2SF v | _ => SpecFloat.S754_nan end). pose (g := fun r : res (list double * list double * list double) => match r with Ok (v, _, _) => B2SF (nth 2 v dzero) | _ => SpecFloat.S754_nan end).
  assert (Y : B2SF y = SpecFloat.S754_finite false 7656119366529844 (-52)) by (refine (eq_trans (eq_sym (f_equal f R)) _); vm_compute; reflexivity).
  assert (X : B2SF (nth 2 x dzero) = SpecFloat.S754_finite false 7656119366529843 (-52)) by (refine (eq_trans (eq_sym (f_equal g P)) _); vm_compute; reflexivity).
  destruct (val_of _ _ _ _ X) as [_ ->]. destruct (val_of _ _ _ _ Y) as [_ ->]. apply Rmult_lt_compat_r; [apply bpow_gt_0|]. cbn [cond_Zopp]. lra.
Qed.
Print Assumptions C93_range_refuted.

(** "Every bin of positive density can be drawn" fails: edges 0, 1, 2, 3 and
    densities 1, [2^-60], 1; no draw lands between the edges of the second bin. *)
Theorem C93_lost_refuted : exists xmid pdf x cdf norm, accepted xmid pdf 3 /\ 0 < val (nth 1 pdf dzero) /\ pdf2cdf_d xmid pdf = Ok (x, cdf, norm) /\ val (nth 1 x dzero) = 1 /\ val (nth 2 x dzero) = 2 /\
  forall k u y, kth_draw k u -> randoms_pdf_d [u] xmid pdf 1 = Ok [y] -> val y <= 1 + b2 (-47) \/ 2 <= val y.
Proof.
  set (a := dbl 1 (-1)). set (b := dbl 3 (-1)). set (c := dbl 5 (-1)). set (p := dint 1). set (q := dbl 1 (-60)).
  destruct (val_of a false 4503599627370496 (-53)) as [Fa Va]; [vm_compute; reflexivity|]. destruct (val_of b false 6755399441055744 (-52)) as [Fb Vb]; [vm_compute; reflexivity|]. destruct (val_of c false 5629499534213120 (-51)) as [Fc Vc]; [vm_compute; reflexivity|].
  destruct (dint_ok 1 ltac:(lia)) as [Fp Vp]. fold p in Fp, Vp. destruct (val_of q false 4503599627370496 (-112)) as [Fq Vq]; [vm_compute; reflexivity|]. cbn [cond_Zopp] in *.
  assert (Pq : 0 < val q) by (rewrite Vq; apply Rmult_lt_0_compat; [lra|apply bpow_gt_0]).
  assert (B51 : b2 (-51) = / IZR (2 ^ 51)) by reflexivity. assert (B52 : b2 (-52) = / IZR (2 ^ 52)) by reflexivity. assert (B53 : b2 (-53) = / IZR (2 ^ 53)) by reflexivity.
  change (2 ^ 51)%Z with 2251799813685248%Z in B51. change (2 ^ 52)%Z with 4503599627370496%Z in B52. change (2 ^ 53)%Z with 9007199254740992%Z in B53. rewrite B53 in Va. rewrite B52 in Vb. rewrite B51 in Vc.
  assert (A : accepted [a; b; c] [p; q; p] 3).
  { split; [|split; [reflexivity|split]].
    - split; [reflexivity|]. split; [lia|]. split; [apply small_20; lia|]. cbn [nth Nat.sub]. split; [exact Fa|]. split; [exact Fb|]. split; [exact Fc|]. rewrite Va, Vb, Vc. split; [apply edge_500, Rabs_le; lra|]. split; [apply edge_500, Rabs_le; lra|]. split; [lra|apply gap_200; lra].
    - intros v [<- |[<- |[<- |[]]]]; left; split; auto; rewrite ?Vp; lra.
    - cbv zeta. cbn [tl hd fold_left nth]. destruct (val_of (dmul (dadd (dadd p q) p) (dsub b a)) false 4503599627370496 (-51)) as [F V]; [vm_compute; reflexivity|]. split; [exact F|]. rewrite V. apply Rmult_lt_0_compat; [cbn; lra|apply bpow_gt_0]. }
  destruct (C93_draw _ _ _ A) as (x & cdf & norm & P & D). cbv zeta in D. exists [a; b; c], [p; q; p], x, cdf, norm. split; [exact A|]. split; [exact Pq|]. split; [exact P|].
  pose (f := fun r : res (list double * list double * list double) => match r with Ok (v, w, _) => [B2SF (nth 0 v dzero); B2SF (nth 1 v dzero); B2SF (nth 2 v dzero); B2SF (nth 3 v dzero); B2SF (nth 1 w dzero); B2SF (nth 2 w dzero)] | _ => [] end).
  assert (G : [B2SF (nth 0 x dzero); B2SF (nth 1 x dzero); B2SF (nth 2 x dzero); B2SF (nth 3 x dzero); B2SF (nth 1 cdf dzero); B2SF (nth 2 cdf dzero)]
    = [SpecFloat.S754_zero false; SpecFloat.S754_finite false 4503599627370496 (-52); SpecFloat.S754_finite false 4503599627370496 (-51); SpecFloat.S754_finite false 6755399441055744 (-51); SpecFloat.S754_finite false 4503599627370496 (-53); SpecFloat.S754_finite false 4503599627370496 (-53)]) by (refine (eq_trans (eq_sym (f_equal f P)) _); vm_compute; reflexivity).
  injection G as X0 X1 X2 X3 C1 C2. apply val_of in X1, X2, X3, C1, C2. destruct X1 as [_ X1]. destruct X2 as [_ X2]. destruct X3 as [_ X3]. destruct C1 as [_ C1]. destruct C2 as [_ C2]. cbn [cond_Zopp] in *. rewrite ?B51, ?B52, ?B53 in *.
  assert (X0' : val (nth 0 x dzero) = 0) by (unfold val; rewrite <- SF2R_B2SF, X0; reflexivity). split; [lra|]. split; [lra|]. intros k u y K R. destruct (D k u K) as (y' & R' & _ & j & Hj & _ & V & Lo & E). specialize (R' 1%Z ltac:(lia)). rewrite R in R'. apply Ok_inj in R'. injection R' as <-.
  destruct j as [|[|[|j]]]; [| | |lia].
  - left. assert (H3 : hull (val (nth 0 x dzero)) (val (nth 3 x dzero)) <= 3) by (unfold hull; rewrite X0', X3; apply Rmax_lub; apply Rabs_le; lra). apply Rabs_le_inv in E. pose proof (bpow_gt_0 radix2 (-49)) as B. assert (B47 : b2 (-47) = 4 * b2 (-49)) by (change (-47)%Z with (2 + -49)%Z; rewrite bpow_plus; reflexivity).
    set (c0 := val (nth 0 cdf dzero)) in *. set (c1 := val (nth 1 cdf dzero)) in *. assert (T : (val u - c0) / (c1 - c0) <= 1) by (apply Rmult_le_reg_r with (c1 - c0); [lra|]; unfold Rdiv; rewrite Rmult_assoc, Rinv_l by lra; lra). rewrite X0' in *. assert (X1' : val (nth 1 x dzero) = 1) by lra. rewrite X1' in *. nra.
  - lra.
  - right. lra.
Qed.
Print Assumptions C93_lost_refuted.

(** Mid-points 1/2 and 3/2, densities 1 and 3: edges 0, 1, 2, cumulative
    distribution 0, 1/4, 1; the draws 1/8 and 5/8 give 1/2 and 3/2. *)
Example C93_example : accepted [dbl 1 (-1); dbl 3 (-1)] [dint 1; dint 3] 2 /\ (forall v, In v [dint 1; dint 3] -> sized (-200) 200 v /\ 0 <= val v) /\ kth_draw (2 ^ 50) (dbl 1 (-3)) /\
  (exists x cdf norm, pdf2cdf_d [dbl 1 (-1); dbl 3 (-1)] [dint 1; dint 3] = Ok (x, cdf, norm) /\ map B2SF x = map B2SF [dint 0; dint 1; dint 2] /\ map B2SF cdf = map B2SF [dint 0; dbl 1 (-2); dint 1] /\ map B2SF norm = map B2SF [dbl 1 (-2); dbl 3 (-2)]) /\
  exists y, randoms_pdf_d [dbl 1 (-3); dbl 5 (-3)] [dbl 1 (-1); dbl 3 (-1)] [dint 1; dint 3] 2 = Ok y /\ map B2SF y = map B2SF [dbl 1 (-1); dbl 3 (-1)].
Proof.
  set (a := dbl 1 (-1)). set (b := dbl 3 (-1)). destruct (val_of a false 4503599627370496 (-53)) as [Fa Va]; [vm_compute; reflexivity|]. destruct (val_of b false 6755399441055744 (-52)) as [Fb Vb]; [vm_compute; reflexivity|].
  destruct (dint_ok 1 ltac:(lia)) as [Fp Vp]. destruct (dint_ok 3 ltac:(lia)) as [Fq Vq]. cbn [cond_Zopp] in *.
  assert (B52 : b2 (-52) = / IZR (2 ^ 52)) by reflexivity. assert (B53 : b2 (-53) = / IZR (2 ^ 53)) by reflexivity. change (2 ^ 52)%Z with 4503599627370496%Z in B52. change (2 ^ 53)%Z with 9007199254740992%Z in B53. rewrite B53 in Va. rewrite B52 in Vb.
  assert (A : accepted [a; b] [dint 1; dint 3] 2).
  { split; [|split; [reflexivity|split]].
    - split; [reflexivity|]. split; [lia|]. split; [apply small_20; lia|]. cbn [nth Nat.sub]. split; [exact Fa|]. split; [exact Fb|]. split; [exact Fb|]. rewrite Va, Vb. split; [apply edge_500, Rabs_le; lra|]. split; [apply edge_500, Rabs_le; lra|]. split; [lra|apply gap_200; lra].
    - intros v [<- |[<- |[]]]; left; split; auto; rewrite ?Vp, ?Vq; lra.
    - cbv zeta. cbn [tl hd fold_left nth]. destruct (val_of (dmul (dadd (dint 1) (dint 3)) (dsub b a)) false 4503599627370496 (-50)) as [F V]; [vm_compute; reflexivity|]. split; [exact F|]. rewrite V. apply Rmult_lt_0_compat; [cbn; lra|apply bpow_gt_0]. }
  assert (SZ : forall z, (1 <= z <= 3)%Z -> sized (-200) 200 (dint z) /\ 0 <= val (dint z)).
  { intros z Hz. destruct (dint_ok z ltac:(lia)) as [F V]. assert (1 <= val (dint z) <= 3) by (rewrite V; split; apply IZR_le; lia). split; [|lra]. split; [exact F|]. right. rewrite Rabs_pos_eq by lra. split; [apply Rle_trans with (b2 0); [apply bpow_le; lia|cbn; lra]|]. apply Rle_trans with (b2 2); [change (b2 2) with 4; lra|apply bpow_le; lia]. }
  split; [exact A|]. split; [intros v [<- |[<- |[]]]; apply SZ; lia|]. split.
  { split; [lia|]. destruct (val_of (dbl 1 (-3)) false 4503599627370496 (-55)) as [F V]; [vm_compute; reflexivity|]. split; [exact F|]. rewrite V. cbn [cond_Zopp]. change (IZR 4503599627370496) with (b2 52). change (IZR (2 ^ 50)) with (b2 50). rewrite <- !bpow_plus. reflexivity. }
  split.
  - destruct (C93_draw _ _ _ A) as (x & cdf & norm & P & _). exists x, cdf, norm. split; [exact P|].
    pose (f := fun r : res (list double * list double * list double) => match r with Ok (v, w, z) => (map B2SF v, map B2SF w, map B2SF z) | _ => ([], [], []) end).
    assert (G : (map B2SF x, map B2SF cdf, map B2SF norm) = (map B2SF [dint 0; dint 1; dint 2], map B2SF [dint 0; dbl 1 (-2); dint 1], map B2SF [dbl 1 (-2); dbl 3 (-2)])) by (refine (eq_trans (eq_sym (f_equal f P)) _); vm_compute; reflexivity).
    injection G as -> -> ->. auto.
  - destruct (C93_draws _ _ [dbl 1 (-3); dbl 5 (-3)] _ 2 A ltac:(lia)) as (y & R & _). exists y. split; [exact R|].
    pose (f := fun r : res (list double) => match r with Ok v => map B2SF v | _ => [] end). refine (eq_trans (eq_sym (f_equal f R)) _); vm_compute; reflexivity.
Qed.
Print Assumptions C93_example.
