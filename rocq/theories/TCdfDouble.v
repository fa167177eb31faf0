(** * Theorems: draws from a given cumulative distribution in double precision (C93) *)

From Coq Require Import Reals ZArith List Bool Lia Lra Psatz.
From Flocq Require Import Core IEEE754.BinarySingleNaN Plus_error.
From Verif Require Import PPolarCoords Base BaseP PGrids MHealpixFloat PHealpixFloat SpecDouble MDouble PDouble MRemapDouble PRemapDouble2 PSigmaDouble2 PDense SpecRandomsDouble MRandomsDouble PRandomsDouble PRandomsDouble2 PRandomsDouble3.
Import ListNotations.
Open Scope R_scope.

(** ** Lemmas *)

Lemma deq_fin : forall x y : double, fin y -> deq x y = true -> fin x.
Proof. intros x y F E. unfold fin in *. destruct x as [s|s| |s m e B], y as [s'|s'| |s' m' e' B']; try reflexivity; try discriminate; destruct s; discriminate. Qed.

Lemma deq_iff : forall x y : double, fin y -> deq x y = true <-> fin x /\ val x = val y.
Proof.
  intros x y F. split.
  - intros E. pose proof (deq_fin x y F E) as Fx. split; [exact Fx|]. rewrite (deq_ok x y Fx F) in E. now destruct (Req_bool_spec (val x) (val y)).
  - intros [Fx E]. rewrite (deq_ok x y Fx F). now apply Req_bool_true.
Qed.

(** The three ways to be refused, and the entries used. *)
Lemma cdf_table : forall u x cdf size, (0 < length cdf)%nat ->
  randoms_cdf_d u x cdf size = (if deq (nth 0 cdf dzero) dzero && deq (nth (length cdf - 1) cdf dzero) one_d
    then if (size <? 0)%Z then Err ValueError else if (length cdf =? length x)%nat then Ok (map (np_interp_d cdf x) u) else Err ValueError else Err AssertionError).
Proof.
  intros u x cdf size L. unfold randoms_cdf_d. assert (G0 : py_get cdf 0 = Ok (nth 0 cdf dzero)) by (rewrite (py_get_ok _ cdf 0 dzero) by (unfold double in *; lia); reflexivity). assert (G1 : py_get cdf (-1) = Ok (nth (length cdf - 1) cdf dzero)).
  { rewrite (get_wrap_d cdf (length cdf) (-1) eq_refl) by (unfold double in *; lia). unfold PSigma.wrap. replace (-1 <? 0)%Z with true by reflexivity. do 2 f_equal; unfold double in *; lia. }
  rewrite G0. cbn [bind]. destruct (deq (nth 0 cdf dzero) dzero); [rewrite G1; cbn [bind]; unfold py_assert; destruct (deq (nth (length cdf - 1) cdf dzero) one_d); reflexivity|reflexivity].
Qed.

Lemma beyond : forall c : double, fin c -> 0 < val c -> exists m e B, c = B754_finite false m e B.
Proof.
  intros c F P. unfold fin, val in *. destruct c as [s|s| |s m e B]; try discriminate; [cbn in P; lra|]. destruct s; [|now exists m, e, B]. exfalso. cbn [B2R] in P. assert (F2R (Float radix2 (cond_Zopp true (Z.pos m)) e) < 0) by (apply F2R_lt_0; reflexivity). lra.
Qed.
Lemma below : forall c : double, fin c -> val c < 0 -> exists m e B, c = B754_finite true m e B.
Proof.
  intros c F P. unfold fin, val in *. destruct c as [s|s| |s m e B]; try discriminate; [cbn in P; lra|]. destruct s; [now exists m, e, B|]. exfalso. cbn [B2R] in P. assert (0 < F2R (Float radix2 (cond_Zopp false (Z.pos m)) e)) by (apply F2R_gt_0; reflexivity). lra.
Qed.
Lemma sub_pos : forall x y : double, fin x -> fin y -> 0 <= val y < val x -> val x <= 1 -> fin (dsub x y) /\ 0 < val (dsub x y).
Proof.
  intros x y Fx Fy H H1. destruct (dsub_ok x y Fx Fy) as [A V].
  - apply small_b2, Rabs_le. split; [apply Rle_trans with 0; [lra|apply fl_ge; [apply fl_fmt, fmt_0|lra]]|apply Rle_trans with 1; [apply fl_le; [apply fl_fmt; exact (fmt_b2 0 ltac:(lia))|lra]|lra]].
  - split; [exact A|]. rewrite V. assert (N : fl (val x - val y) <> 0) by (unfold Rminus; apply (@round_plus_neq_0 radix2 (FLT_exp (-1074) 53)); [apply FLT_exp_valid; reflexivity|apply monotone_exp_not_FTZ; [apply FLT_exp_valid; reflexivity|apply FLT_exp_monotone]|apply valid_rnd_N|apply fmt_val|apply fmt_opp, fmt_val|apply Rgt_not_eq; lra]). assert (0 <= fl (val x - val y)) by (apply fl_ge; [apply fl_fmt, fmt_0|lra]). lra.
Qed.

(** ** Properties *)

(** Tables and sizes that are refused. *)
Theorem C93_cdf_refused : forall u x cdf size,
  (cdf = [] -> randoms_cdf_d u x cdf size = Err IndexError) /\
  (cdf <> [] -> let first := nth 0 cdf dzero in let last := nth (length cdf - 1) cdf dzero in
    let normalised := fin first /\ val first = 0 /\ fin last /\ val last = 1 in
    (~ normalised -> randoms_cdf_d u x cdf size = Err AssertionError) /\
    (normalised -> (size < 0)%Z \/ length x <> length cdf -> randoms_cdf_d u x cdf size = Err ValueError) /\
    (normalised -> (0 <= size)%Z -> length x = length cdf -> exists y, randoms_cdf_d u x cdf size = Ok y /\ length y = length u)).
Proof.
  intros u x cdf size. split; [now intros ->|]. intros NE first last normalised. assert (L : (0 < length cdf)%nat) by (destruct cdf; [contradiction|cbn; lia]). rewrite (cdf_table u x cdf size L). fold first last.
  assert (D : deq first dzero && deq last one_d = true <-> normalised) by (destruct one_ok as [F1 V1]; rewrite andb_true_iff, (deq_iff first dzero fin_zero), (deq_iff last one_d F1), val_zero, V1; unfold normalised; tauto).
  destruct (deq first dzero && deq last one_d) eqn:E.
  - assert (N : normalised) by now apply D. split; [tauto|]. split.
    + intros _ [H|H]; [rewrite (proj2 (Z.ltb_lt _ _) H); reflexivity|]. destruct (size <? 0)%Z; [reflexivity|]. assert (Q : (length cdf =? length x)%nat = false) by (apply Nat.eqb_neq; intros Q; apply H; symmetry; exact Q). rewrite Q. reflexivity.
    + intros _ H H'. rewrite (proj2 (Z.ltb_ge _ _) H). rewrite H', Nat.eqb_refl. eexists. split; [reflexivity|]. apply map_length.
  - assert (N : ~ normalised) by (intros N; apply D in N; discriminate). tauto.
Qed.
Print Assumptions C93_cdf_refused.

(** What is returned for a draw within a bin that has an infinite or undefined
    end: the infinity, or NaN if the ends are opposite. *)
Theorem C93_infinite : forall (x cdf : list double) n u j, length cdf = S n -> length x = S n ->
  (forall k, (k <= n)%nat -> fin (nth k cdf dzero)) -> (forall i k, (i <= k <= n)%nat -> val (nth i cdf dzero) <= val (nth k cdf dzero)) ->
  val (nth 0 cdf dzero) = 0 -> val (nth n cdf dzero) = 1 -> fin u -> (j < n)%nat -> val (nth j cdf dzero) <= val u < val (nth (S j) cdf dzero) ->
  let a := nth j x dzero in let b := nth (S j) x dzero in
  exists y, (forall size, (0 <= size)%Z -> randoms_cdf_d [u] x cdf size = Ok [y]) /\
    (val u = val (nth j cdf dzero) -> y = a) /\
    (val (nth j cdf dzero) < val u ->
      (is_nan a = true \/ is_nan b = true -> is_nan y = true) /\
      (forall s, a = B754_infinity s -> b = B754_infinity s -> y = B754_infinity s) /\
      (forall s, a = B754_infinity s -> b = B754_infinity (negb s) -> is_nan y = true) /\
      (forall s, a = B754_infinity s -> fin b -> y = B754_infinity s) /\
      (forall s, fin a -> b = B754_infinity s -> y = B754_infinity s)).
Proof.
  intros x cdf n u j Lc Lx Fc Mc C0 C1 Fu Hj Hu a b. exists (np_interp_d cdf x u).
  assert (R : forall size, (0 <= size)%Z -> randoms_cdf_d [u] x cdf size = Ok [np_interp_d cdf x u]).
  { intros size Hs. rewrite cdf_table by (unfold double in *; lia). rewrite Lc. replace (S n - 1)%nat with n by lia. destruct one_ok as [F1 V1]. rewrite (proj2 (deq_iff _ _ fin_zero)) by (split; [apply Fc; lia|rewrite C0, val_zero; reflexivity]). rewrite (proj2 (deq_iff _ _ F1)) by (split; [apply Fc; lia|rewrite C1, V1; reflexivity]). cbn [andb].
    rewrite (proj2 (Z.ltb_ge _ _) Hs). rewrite Lx, Nat.eqb_refl. reflexivity. }
  split; [exact R|]. assert (T : cdf = tab (S n) (fun k => nth k cdf dzero)) by (apply (nth_ext _ _ dzero dzero); [rewrite tab_length; exact Lc|]; intros k Hk; rewrite Lc in Hk; rewrite (tab_nth _ _ _ _ _ Hk); reflexivity). 
  assert (U0 : 0 <= val u < 1) by (pose proof (Mc 0%nat j ltac:(lia)); pose proof (Mc (S j) n ltac:(lia)); lra).
  destruct (position n (fun k => nth k cdf dzero) u Fc Mc Fu ltac:(lra)) as [Hj' Hu']. rewrite <- T in Hj', Hu'. unfold np_interp_d. cbv zeta. set (j' := (length (filter (fun x0 => dle x0 u) cdf) - 1)%nat) in *.
  assert (E : j' = j). { destruct (Nat.lt_trichotomy j j') as [Q|[Q|Q]]; [|symmetry; exact Q|]; exfalso; [pose proof (Mc (S j) j' ltac:(lia))|pose proof (Mc (S j') j ltac:(lia))]; lra. }
  clearbody j'. subst j'. rewrite Lc. replace (j =? S n - 1)%nat with false by (symmetry; apply Nat.eqb_neq; lia). fold a b. set (c := nth j cdf dzero) in *. set (d := nth (S j) cdf dzero) in *. assert (Fj : fin c) by (apply Fc; lia). assert (Fd : fin d) by (apply Fc; lia). assert (P0 : 0 <= val c) by (rewrite <- C0; apply Mc; lia). assert (P1 : val d <= 1) by (rewrite <- C1; apply Mc; lia).
  rewrite (deq_ok c u Fj Fu). split; [intros Q; rewrite Req_bool_true by lra; reflexivity|]. intros Q. rewrite Req_bool_false by lra.
  destruct (sub_pos d c Fd Fj ltac:(lra) P1) as [A1 A2]. destruct (beyond _ A1 A2) as (m1 & e1 & B1 & ->). destruct (sub_pos u c Fu Fj ltac:(lra) ltac:(lra)) as [A3 A4]. destruct (beyond _ A3 A4) as (m2 & e2 & B2 & ->).
  assert (A5 : fin (dsub u d) /\ val (dsub u d) < 0).
  { destruct (sub_pos d u Fd Fu ltac:(lra) P1) as [Z1 Z2]. destruct (dsub_ok d u Fd Fu) as [_ V]; [apply Rle_lt_trans with 1; [|apply (Rlt_trans _ 1024); [lra|change 1024 with (b2 10); apply bpow_lt; lia]]; apply Rabs_le; split; [apply Rle_trans with 0; [lra|apply fl_ge; [apply fl_fmt, fmt_0|lra]]|apply fl_le; [apply fl_fmt; exact (fmt_b2 0 ltac:(lia))|lra]]|].
    rewrite V in Z2. assert (S : fl (val u - val d) = - fl (val d - val u)) by (rewrite <- fl_opp; f_equal; ring). destruct (dsub_ok u d Fu Fd) as [W1 W2]; [rewrite S, Rabs_Ropp; apply small_b2, Rabs_le; split; [lra|apply Rle_trans with 1; [apply fl_le; [apply fl_fmt; exact (fmt_b2 0 ltac:(lia))|lra]|lra]]|]. split; [exact W1|]. rewrite W2, S. lra. }
  destruct (below _ (proj1 A5) (proj2 A5)) as (m3 & e3 & B3 & ->). clearbody a b. clear - a b.
  split; [intros [H|H]|split; [|split; [|split]]].
  - destruct a; try discriminate. destruct b; reflexivity.
  - destruct b; try discriminate. destruct a; reflexivity.
  - intros s -> ->. destruct s; reflexivity.
  - intros s -> ->. destruct s; reflexivity.
  - intros s -> F. destruct b as [s'|s'| |s' m e B]; try discriminate; destruct s; reflexivity.
  - intros s F ->. destruct a as [s'|s'| |s' m e B]; try discriminate; destruct s; reflexivity.
Qed.
Print Assumptions C93_infinite.

(** Non-trivial: a table with infinite ends. *)
Example C93_infinite_example : exists y, randoms_cdf_d [dbl 1 (-1)] [B754_infinity true; dzero] [dzero; one_d] 1 = Ok [y] /\ y = B754_infinity true.
Proof. eexists. split; [reflexivity|]. apply B2SF_inj. vm_compute. reflexivity. Qed.
