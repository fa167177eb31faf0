(** * Proofs about [MGridsDouble.v] *)

From Coq Require Import Reals ZArith List Bool Lia Lra Psatz.
From Flocq Require Import Core IEEE754.BinarySingleNaN Plus_error Relative.
From Verif Require Import Base BaseP MHealpixFloat PHealpixFloat SpecDouble MDouble PDouble MGridsDouble.
Import ListNotations.
Open Scope R_scope.

Local Existing Instance p53.
Local Instance fexp_valid : Valid_exp (FLT_exp (-1074) 53).
Proof. apply FLT_exp_valid. reflexivity. Qed.
Local Instance fexp_mono : Monotone_exp (FLT_exp (-1074) 53).
Proof. apply FLT_exp_monotone. Qed.

(** ** Relative errors *)

Lemma fl_rel : forall x, b2 (-1022) <= x -> Rabs (fl x - x) <= b2 (-53) * x.
Proof.
  intros x H. assert (0 < x) by (apply Rlt_le_trans with (2 := H); apply bpow_gt_0).
  pose proof (relative_error_N_FLT radix2 (-1074) 53 eq_refl (fun z => negb (Z.even z)) x) as E.
  rewrite (Rabs_pos_eq x) in E by lra. specialize (E H). fold (fl x) in E.
  replace (b2 (-53)) with (/ 2 * b2 (-53 + 1)); [exact E|].
  rewrite bpow_plus. change (b2 1) with 2. field.
Qed.

Lemma fl_plus_rel : forall a b, fmt a -> fmt b -> Rabs (fl (a + b) - (a + b)) <= b2 (-53) * Rabs (fl (a + b)).
Proof.
  intros a b Fa Fb. destruct (Rle_or_lt (Rabs (a + b)) (b2 (-1021))) as [L|L].
  - assert (F : fmt (a + b)) by (apply FLT_format_plus_small; auto with typeclass_instances). rewrite (fl_fmt _ F), Rminus_diag_eq, Rabs_R0 by reflexivity.
    apply Rmult_le_pos; [apply bpow_ge_0|apply Rabs_pos].
  - pose proof (relative_error_N_FLT_round radix2 (-1074) 53 eq_refl (fun z => negb (Z.even z)) (a + b)) as E.
    fold (fl (a + b)) in E. replace (b2 (-53)) with (/ 2 * b2 (-53 + 1)); [apply E|].
    + apply Rle_trans with (b2 (-1021)); [apply bpow_le; lia|lra].
    + rewrite bpow_plus. change (b2 1) with 2. field.
Qed.

(** ** Integers *)

Lemma dint_ok : forall z, (Z.abs z <= 2 ^ 53)%Z -> fin (dint z) /\ val (dint z) = IZR z.
Proof.
  intros z Hz. pose proof (@binary_normalize_correct 53 1024 p53 p1024 mode_NE z 0 false) as C. cbv zeta in C.
  change (round radix2 (SpecFloat.fexp 53 1024) (round_mode mode_NE)) with fl in C.
  assert (E : F2R (Float radix2 z 0) = IZR z) by (unfold F2R; cbn [Fnum Fexp]; rewrite b2_0; ring).
  rewrite E in C. rewrite (fl_int z Hz) in C. rewrite Rlt_bool_true in C.
  - destruct C as (C1 & C2 & _). split; [exact C2|exact C1].
  - rewrite <- abs_IZR. apply Rle_lt_trans with (IZR (2 ^ 53)); [now apply IZR_le|]. change (IZR (2 ^ 53)) with (b2 53). apply bpow_lt. lia.
Qed.

Lemma half_ok : fin (dbl 1 (-1)) /\ val (dbl 1 (-1)) = / 2.
Proof.
  assert (E : B2SF (dbl 1 (-1)) = SpecFloat.S754_finite false 4503599627370496 (-53)) by (vm_compute; reflexivity).
  unfold fin, val. destruct (dbl 1 (-1)) as [s|s| |s m e B]; try discriminate. cbn [B2SF] in E. injection E as -> -> ->. split; [reflexivity|].
  unfold B2R, F2R. cbn [Fnum Fexp cond_Zopp]. change (-53)%Z with (-52 + -1)%Z. rewrite bpow_plus. change (b2 (-1)) with (/ 2).
  change (b2 (-52)) with (/ IZR 4503599627370496). field.
Qed.

(** ** One edge, over the reals *)

Definition hull (a b : R) : R := Rmax (Rabs a) (Rabs b).

Lemma hull_bound : forall a b x, a <= x <= b -> Rabs x <= hull a b.
Proof.
  intros a b x H. unfold hull, Rmax. destruct (Rle_dec (Rabs a) (Rabs b)); unfold Rabs in *; repeat destruct Rcase_abs; lra.
Qed.

Lemma u_small : 0 < b2 (-53) <= / 1024.
Proof. split; [apply bpow_gt_0|]. change (/ 1024) with (b2 (-10)). apply bpow_le. lia. Qed.

Lemma edge_core : forall lo hi n i, fmt lo -> fmt hi -> b2 (-960) <= hi - lo ->
  (1 <= n <= 2 ^ 50)%Z -> (0 <= i < n)%Z ->
  let step := fl (fl (hi - lo) / IZR n) in
  let z := fl (IZR i * step) in
  let y := fl (z + lo) in
  0 < step <= 2 * (hi - lo) /\ 0 <= z <= hi - lo /\ lo <= y <= hi /\
  Rabs (y - (lo + IZR i * ((hi - lo) / IZR n))) <= b2 (-53) * (hull lo hi + 4 * (hi - lo)).
Proof.
  intros lo hi n i Flo Fhi HD Hn Hi step z y. set (D := hi - lo) in *. set (u := b2 (-53)). pose proof u_small as Hu. fold u in Hu.
  assert (PD : 0 < D) by (apply Rlt_le_trans with (2 := HD); apply bpow_gt_0).
  assert (Nn : 1 <= IZR n) by (apply IZR_le; lia).
  assert (Un : 8 * u * IZR n <= 1).
  { assert (IZR n <= IZR (2 ^ 50)) by (apply IZR_le; lia). assert (E : u * IZR (2 ^ 50) = / 8).
    { unfold u. change (IZR (2 ^ 50)) with (b2 50). rewrite <- bpow_plus. reflexivity. } nra. }
  assert (Ni : 0 <= IZR i <= IZR n - 1) by (split; [apply IZR_le; lia|rewrite <- minus_IZR; apply IZR_le; lia]).
  set (d := fl D). assert (Ed : Rabs (d - D) <= u * D) by (apply fl_rel; apply Rle_trans with (2 := HD); apply bpow_le; lia).
  apply Rabs_le_inv in Ed.
  assert (Pd : 0 < d) by nra.
  assert (In : 0 < / IZR n <= 1) by (split; [apply Rinv_0_lt_compat; lra|rewrite <- Rinv_1; apply Rinv_le; lra]).
  assert (InI : IZR n * / IZR n = 1) by (apply Rinv_r; lra).
  set (v := / IZR n) in *.
  assert (Lq : b2 (-1020) <= d / IZR n).
  { unfold Rdiv. fold v. assert (Ev : b2 (-50) <= v).
    { assert (E : b2 (-50) * IZR (2 ^ 50) = 1) by reflexivity || (change (IZR (2 ^ 50)) with (b2 50); rewrite <- bpow_plus; reflexivity).
      assert (IZR n <= IZR (2 ^ 50)) by (apply IZR_le; lia). pose proof (bpow_gt_0 radix2 (-50)). nra. }
    apply Rle_trans with (b2 (-961) * b2 (-50)); [rewrite <- bpow_plus; apply bpow_le; lia|].
    apply Rmult_le_compat; try apply bpow_ge_0; [|exact Ev].
    assert (b2 (-960) = 2 * b2 (-961)) by (change (-960)%Z with (1 + -961)%Z; rewrite bpow_plus; reflexivity). nra. }
  assert (Es : Rabs (step - d * v) <= u * (d * v)).
  { apply fl_rel. apply Rle_trans with (2 := Lq). apply bpow_le; lia. }
  apply Rabs_le_inv in Es.
  assert (Pq : 0 < d * v) by (apply Rmult_lt_0_compat; lra).
  assert (Ps : 0 < step) by nra.
  assert (S1 : step <= 2 * D).
  { assert (d * v <= d) by nra. nra. }
  assert (Ez : Rabs (z - IZR i * step) <= u * (IZR i * step)).
  { destruct (Z.eq_dec i 0) as [->|N].
    - unfold z. rewrite Rmult_0_l, fl_fmt, Rminus_diag_eq, Rabs_R0, Rmult_0_r by (auto using fmt_0). lra.
    - apply fl_rel. apply Rle_trans with step; [|assert (1 <= IZR i) by (apply IZR_le; lia); nra].
      apply Rle_trans with (fl (b2 (-1020))); [rewrite fl_fmt by (apply fmt_b2; lia); apply bpow_le; lia|apply fl_mono, Lq]. }
  apply Rabs_le_inv in Ez.
  (* everything relative to the exact position *)
  set (w := IZR i * v). assert (Hw : 0 <= w <= 1 - v) by (unfold w; nra).
  assert (Dw : 0 <= D * w) by nra.
  assert (Bd : D * w * (1 - u) <= d * w <= D * w * (1 + u)) by (split; nra).
  assert (Bs : d * w * (1 - u) <= IZR i * step <= d * w * (1 + u)).
  { replace (d * w) with (IZR i * (d * v)) by (unfold w; ring). split; nra. }
  assert (Bz : IZR i * step * (1 - u) <= z <= IZR i * step * (1 + u)) by lra.
  assert (Up : z <= D * w * (1 + 4 * u)).
  { apply Rle_trans with (d * w * (1 + u) * (1 + u)); [nra|].
    apply Rle_trans with (D * w * (1 + u) * (1 + u) * (1 + u)); [nra|].
    assert ((1 + u) * (1 + u) * (1 + u) <= 1 + 4 * u) by nra. nra. }
  assert (Lo : D * w * (1 - 4 * u) <= z).
  { apply Rle_trans with (d * w * (1 - u) * (1 - u)); [|nra].
    apply Rle_trans with (D * w * (1 - u) * (1 - u) * (1 - u)); [|nra].
    assert (1 - 4 * u <= (1 - u) * (1 - u) * (1 - u)) by nra. nra. }
  assert (Z1 : z <= D).
  { apply Rle_trans with (1 := Up). assert (W : w * (1 + 4 * u) <= 1) by nra. nra. }
  assert (Z0 : 0 <= z) by nra.
  split; [split; assumption|]. split; [split; assumption|].
  assert (Y : lo <= y <= hi).
  { split; [apply fl_ge; [now apply fl_fmt|lra]|apply fl_le; [now apply fl_fmt|unfold D in Z1; lra]]. }
  split; [exact Y|].
  pose proof (fl_plus_rel z lo (fmt_fl _) Flo) as P. fold y in P. fold u in P. pose proof (hull_bound _ _ _ Y) as HB.
  assert (P' : Rabs (y - (z + lo)) <= u * hull lo hi) by (apply Rle_trans with (1 := P); apply Rmult_le_compat_l; lra).
  apply Rabs_le_inv in P'. unfold Rdiv. fold v. replace (IZR i * (D * v)) with (D * w) by (unfold w; ring).
  assert (D * w <= D) by nra.
  apply Rabs_le. split; nra.
Qed.
