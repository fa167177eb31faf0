(** * Theorems: random radii of a shell in double precision (C87) *)

From Coq Require Import Reals ZArith List Bool Lia Lra Psatz.
From Flocq Require Import Core IEEE754.BinarySingleNaN Relative.
From Verif Require Import Base MHealpixFloat PHealpixFloat SpecDouble MDouble PDouble PGridsDouble TDouble TDouble2 MGridsDouble MShellDouble.
Import ListNotations.
Open Scope R_scope.

Local Existing Instance p53.
Local Instance fexp_valid : Valid_exp (FLT_exp (-1074) 53).
Proof. apply FLT_exp_valid. reflexivity. Qed.

(** The C library's [pow]: zero to a positive power is zero; of positive numbers
    the result, when well inside the range of doubles, is within one unit in the
    last place ([2^-52] of the true power). *)
Definition pow_ok (pow : double -> double -> double) : Prop :=
  (forall x y, fin x -> fin y -> val x = 0 -> 0 < val y -> fin (pow x y) /\ val (pow x y) = 0) /\
  (forall x y, fin x -> fin y -> 0 < val x -> b2 (-1000) <= Rpower (val x) (val y) <= b2 1000 ->
     fin (pow x y) /\ Rabs (val (pow x y) - Rpower (val x) (val y)) <= b2 (-52) * Rpower (val x) (val y)).

(** A radius that is zero or of moderate size. *)
Definition size_ok (r : double) : Prop := fin r /\ (val r = 0 \/ b2 (-300) <= val r <= b2 300).

(** ** Lemmas *)

Lemma three_ok : fin three /\ val three = 3.
Proof. exact (dint_ok 3 ltac:(lia)). Qed.

Definition kappa : R := / (3 * b2 54).

Lemma third_ok : fin third /\ val third = / 3 - kappa.
Proof.
  assert (E : B2SF third = SpecFloat.S754_finite false 6004799503160661 (-54)) by (vm_compute; reflexivity).
  unfold fin, val. destruct third as [s|s| |s m e B]; try discriminate. cbn [B2SF] in E. injection E as -> -> ->. split; [reflexivity|].
  unfold B2R, F2R, kappa. cbn [Fnum Fexp cond_Zopp]. change (b2 (-54)) with (/ IZR 18014398509481984). change (b2 54) with (IZR 18014398509481984).
  field.
Qed.

Lemma e_small : 0 < b2 (-52) <= / 1024.
Proof. split; [apply bpow_gt_0|]. change (/ 1024) with (b2 (-10)). apply bpow_le. lia. Qed.

Lemma kappa_e : 12 * kappa = b2 (-52).
Proof.
  unfold kappa. change (b2 54) with (b2 (2 + 52)). rewrite bpow_plus. change (b2 2) with 4. change (-52)%Z with (- (52))%Z. rewrite (bpow_opp radix2 52).
  field. pose proof (bpow_gt_0 radix2 52). lra.
Qed.

Lemma b2_pow3 : forall e, b2 e * b2 e * b2 e = b2 (3 * e).
Proof. intros. rewrite <- !bpow_plus. f_equal. lia. Qed.

Lemma cube_le : forall a b, 0 <= a -> 0 <= b -> a * a * a <= b * b * b -> a <= b.
Proof. intros a b Ha Hb H. apply Rnot_lt_le. intros K. assert (b * b <= a * a) by nra. assert (0 < a * a) by nra.
  assert (b * (b * b) <= b * (a * a)) by (apply Rmult_le_compat_l; lra). assert (b * (a * a) < a * (a * a)) by (apply Rmult_lt_compat_r; lra). lra. Qed.

Lemma cube_mono : forall a b, 0 <= a <= b -> a * a * a <= b * b * b.
Proof. intros a b H. assert (a * a <= b * b) by nra. apply Rmult_le_compat; nra. Qed.

Lemma Rpower_3 : forall x, 0 < x -> Rpower x 3 = x * x * x.
Proof. intros x H. replace 3 with (INR 3) by (cbn; ring). rewrite Rpower_pow by exact H. ring. Qed.

(** The cube of a radius. *)
Lemma cube_ok : forall pow r, pow_ok pow -> size_ok r ->
  fin (pow r three) /\ 0 <= val r /\
  val r * val r * val r * (1 - b2 (-52)) <= val (pow r three) <= val r * val r * val r * (1 + b2 (-52)) /\
  0 <= val (pow r three) <= b2 901 /\ val r * val r * val r <= b2 900.
Proof.
  intros pow r [P0 P1] [Fr [Z|B]]; destruct three_ok as [F3 V3]; pose proof e_small as He.
  - destruct (P0 r three Fr F3 Z) as [F V]; [lra|]. rewrite V, Z. rewrite !Rmult_0_l. pose proof (bpow_gt_0 radix2 901). pose proof (bpow_gt_0 radix2 900).
    split; [exact F|]. lra.
  - assert (Pr : 0 < val r) by (pose proof (bpow_gt_0 radix2 (-300)); lra).
    assert (C : b2 (-900) <= val r * val r * val r <= b2 900).
    { pose proof (b2_pow3 (-300)) as T1. pose proof (b2_pow3 300) as T2. change (3 * -300)%Z with (-900)%Z in T1. change (3 * 300)%Z with 900%Z in T2. rewrite <- T1, <- T2. pose proof (bpow_gt_0 radix2 (-300)). split; apply cube_mono; lra. }
    destruct (P1 r three Fr F3 Pr) as [F V].
    + rewrite V3, Rpower_3 by exact Pr. pose proof (bpow_le radix2 (-1000) (-900) ltac:(lia)). pose proof (bpow_le radix2 900 1000 ltac:(lia)). lra.
    + rewrite V3, Rpower_3 in V by exact Pr. apply Rabs_le_inv in V. set (q := val r * val r * val r) in *. pose proof (bpow_gt_0 radix2 (-900)).
      assert (b2 901 = 2 * b2 900) by (change 901%Z with (1 + 900)%Z; rewrite bpow_plus; reflexivity). split; [exact F|]. split; [lra|]. split; [split; nra|]. split; [split; nra|lra].
Qed.

(** The argument of the root. *)
Lemma shell_arg : forall pow u r_min r_max, pow_ok pow -> draw u -> size_ok r_min -> size_ok r_max -> val r_min <= val r_max ->
  let v := dadd (dmul (dsub (pow r_max three) (pow r_min three)) u) (pow r_min three) in
  fin v /\ val r_min * val r_min * val r_min * (1 - b2 (-52)) <= val v <= val r_max * val r_max * val r_max * (1 + b2 (-52)) /\
  0 <= val v <= b2 901 /\ (val u = 0 -> val v = val (pow r_min three)).
Proof.
  intros pow u r0 r1 P Du S0 S1 H v. destruct (cube_ok pow r0 P S0) as (F0 & N0 & B0 & C0 & D0). destruct (cube_ok pow r1 P S1) as (F1 & N1 & B1 & C1 & D1).
  assert (Fd : fin (dsub (pow r1 three) (pow r0 three))).
  { apply dsub_ok; auto. apply Rle_lt_trans with (b2 901); [|apply bpow_lt; lia].
    apply abs_round_le_generic; auto with typeclass_instances; [apply (fmt_b2 901); lia|]. apply Rabs_le. lra. }
  destruct (lerp_d (pow r0 three) (pow r1 three) u F0 F1 Fd Du) as (Dv & P1 & P2 & A1 & _ & V1 & _ & R). fold v in A1, V1, R. split; [exact A1|].
  pose proof (cube_mono (val r0) (val r1) ltac:(lra)) as M. pose proof e_small as He.
  set (q0 := val r0 * val r0 * val r0) in *. set (q1 := val r1 * val r1 * val r1) in *.
  assert (Q0 : 0 <= q0) by (unfold q0; apply Rmult_le_pos; [nra|exact N0]).
  split; [|split].
  - unfold Rmin, Rmax in R. destruct (Rle_dec (val (pow r0 three)) (val (pow r1 three))); split; nra.
  - unfold Rmin, Rmax in R. destruct (Rle_dec (val (pow r0 three)) (val (pow r1 three))); split; lra.
  - intros Zu. rewrite V1, P2, Zu, Rmult_0_r, (fl_fmt 0), Rplus_0_l by apply fmt_0. apply fl_fmt, fmt_val.
Qed.

Lemma ln_le : forall x y, 0 < x -> x <= y -> ln x <= ln y.
Proof. intros x y P [L|E]; [left; now apply ln_increasing|rewrite E; lra]. Qed.

Lemma ln_b2 : forall v, b2 (-1074) <= v <= b2 901 -> - 1074 <= ln v <= 1074.
Proof.
  intros v [L U]. assert (E2 : 2 <= exp 1) by (pose proof (exp_ineq1_le 1); lra). pose proof (bpow_gt_0 radix2 (-1074)) as P.
  assert (X : forall n, (0 <= n)%Z -> b2 n <= exp (IZR n)).
  { intros n Hn. rewrite bpow_powerRZ. destruct n as [|n|n]; [rewrite exp_0; cbn; lra| |lia]. cbn [powerRZ].
    rewrite <- (positive_nat_Z n), <- INR_IZR_INZ. set (m := Pos.to_nat n). clearbody m. change (IZR radix2) with 2. induction m as [|m IH]; [cbn [pow INR]; rewrite exp_0; lra|].
    rewrite S_INR, exp_plus. cbn [pow]. pose proof (pow_lt 2 m ltac:(lra)). nra. }
  split.
  - rewrite <- (ln_exp (- 1074)). apply ln_le; [apply exp_pos|]. apply Rle_trans with (2 := L). change (exp (-1074)) with (exp (Ropp (IZR 1074))). change (-1074)%Z with (- (1074))%Z. rewrite bpow_opp, exp_Ropp.
    apply Rinv_le; [apply bpow_gt_0|apply X; lia].
  - rewrite <- (ln_exp 1074). apply ln_le; [lra|]. apply Rle_trans with (1 := U). apply Rle_trans with (b2 1074); [apply bpow_le; lia|apply (X 1074%Z); lia].
Qed.

Lemma exp_up : forall t, 0 <= t <= / 2 -> exp t <= 1 + 2 * t.
Proof.
  intros t H. assert (E : exp t * exp (- t) = 1) by (rewrite <- exp_plus, Rplus_opp_r; apply exp_0).
  pose proof (exp_ineq1_le (- t)). pose proof (exp_pos t). assert (exp t * (1 - t) <= 1) by nra. assert ((1 + 2 * t) * (1 - t) >= 1) by nra. nra.
Qed.

(** The cube root of a number, against the power with exponent [1./3.]. *)
Lemma root_ok : forall pow v, pow_ok pow -> fin v -> 0 < val v <= b2 901 ->
  exists s, 0 < s /\ s * s * s = val v /\ fin (pow v third) /\
    Rabs (val (pow v third) - s * exp (- (kappa * ln (val v)))) <= b2 (-52) * (s * exp (- (kappa * ln (val v)))) /\
    Rabs (kappa * ln (val v)) <= b2 (-45).
Proof.
  intros pow v [P0 P1] Fv Hv. destruct third_ok as [F3 V3]. set (l := ln (val v)).
  assert (Lv : b2 (-1074) <= val v).
  { rewrite <- (fl_fmt (val v)) by apply fmt_val. assert (fmt (val v)) by apply fmt_val.
    pose proof (generic_format_ge_bpow radix2 (FLT_exp (-1074) 53) (-1074)) as G. rewrite fl_fmt by assumption. apply G; [intros e; unfold FLT_exp; lia|lra|assumption]. }
  pose proof (ln_b2 (val v) ltac:(lra)) as B. fold l in B.
  assert (K : 0 < kappa) by (unfold kappa; apply Rinv_0_lt_compat; pose proof (bpow_gt_0 radix2 54); lra).
  assert (KB : Rabs (kappa * l) <= b2 (-45)).
  { rewrite Rabs_mult, (Rabs_pos_eq kappa) by lra. assert (Rabs l <= 1074) by (apply Rabs_le; lra). apply Rle_trans with (kappa * 1074); [nra|].
    pose proof kappa_e. assert (b2 (-45) = 128 * b2 (-52)) by (change (-45)%Z with (7 + -52)%Z; rewrite bpow_plus; reflexivity). lra. }
  exists (exp (l / 3)). set (s := exp (l / 3)). assert (Ps : 0 < s) by apply exp_pos.
  assert (E3 : s * s * s = val v).
  { unfold s. rewrite <- !exp_plus. replace (l / 3 + l / 3 + l / 3) with l by field. unfold l. apply exp_ln. lra. }
  assert (ER : Rpower (val v) (val third) = s * exp (- (kappa * l))).
  { rewrite V3. unfold Rpower. fold l. unfold s. rewrite <- exp_plus. f_equal. field. }
  split; [exact Ps|]. split; [exact E3|]. rewrite <- ER. apply Rabs_le_inv in KB.
  assert (b2 (-45) <= / 1024) by (change (/ 1024) with (b2 (-10)); apply bpow_le; lia).
  assert (S1 : b2 (-400) <= s).
  { apply cube_le; [apply bpow_ge_0|lra|]. rewrite E3, b2_pow3. apply Rle_trans with (2 := Lv). apply bpow_le. lia. }
  assert (S2 : s <= b2 301).
  { apply cube_le; [lra|apply bpow_ge_0|]. rewrite E3, b2_pow3. apply Rle_trans with (1 := proj2 Hv). apply bpow_le. lia. }
  destruct (P1 v third Fv F3) as [F V]; [lra| |split; [exact F|split; [exact V|apply Rabs_le; lra]]].
  rewrite ER. pose proof (exp_pos (- (kappa * l))). pose proof (bpow_gt_0 radix2 (-400)). split.
  - apply Rle_trans with (b2 (-401)); [apply bpow_le; lia|]. assert (b2 (-400) = 2 * b2 (-401)) by (change (-400)%Z with (1 + -401)%Z; rewrite bpow_plus; reflexivity).
    pose proof (exp_ineq1_le (- (kappa * l))). nra.
  - apply Rle_trans with (b2 302); [|apply bpow_le; lia]. assert (b2 302 = 2 * b2 301) by (change 302%Z with (1 + 301)%Z; rewrite bpow_plus; reflexivity).
    assert (exp (- (kappa * l)) <= 2).
    { apply Rle_trans with (exp (/ 2)); [apply exp_le_inv || (destruct (Rle_lt_or_eq_dec (- (kappa * l)) (/ 2)) as [L|L]; [lra|left; now apply exp_increasing|rewrite L; lra])|].
      pose proof (exp_up (/ 2)). lra. }
    nra.
Qed.

(** ** C87 *)

(** Radii keep to the shell up to a relative [2^-43]. *)
Theorem C87_shell : forall pow u r_min r_max, pow_ok pow -> draw u -> size_ok r_min -> size_ok r_max -> val r_min <= val r_max ->
  let r := randoms_sphere_r_d pow u r_min r_max in
  fin r /\ val r_min * (1 - b2 (-43)) <= val r <= val r_max * (1 + b2 (-43)).
Proof.
  intros pow u r0 r1 P Du S0 S1 H r. destruct (shell_arg pow u r0 r1 P Du S0 S1 H) as (Fv & B & C & _). unfold r, randoms_sphere_r_d.
  set (v := dadd _ _) in *. pose proof e_small as He. destruct (cube_ok pow r0 P S0) as (_ & N0 & _). destruct (cube_ok pow r1 P S1) as (_ & N1 & _).
  assert (E43 : b2 (-43) = 512 * b2 (-52)) by (change (-43)%Z with (9 + -52)%Z; rewrite bpow_plus; reflexivity).
  assert (E45 : b2 (-45) = 128 * b2 (-52)) by (change (-45)%Z with (7 + -52)%Z; rewrite bpow_plus; reflexivity).
  assert (E30 : b2 (-52) <= / 1048576) by (change (/ 1048576) with (b2 (-20)); apply bpow_le; lia).
  rewrite E43. destruct (Req_dec (val v) 0) as [Z|Z].
  - destruct P as [P0 _]. destruct third_ok as [F3 V3]. pose proof kappa_e. destruct (P0 v third Fv F3 Z) as [F V]; [lra|]. split; [exact F|]. rewrite V.
    assert (val r0 = 0).
    { rewrite Z in B. destruct (Rle_lt_or_eq_dec 0 (val r0) N0) as [L|L]; [|lra]. exfalso.
      assert (0 < val r0 * val r0 * val r0) by (apply Rmult_lt_0_compat; [nra|exact L]). nra. }
    split; [nra|]. nra.
  - destruct (root_ok pow v P Fv ltac:(lra)) as (s & Ps & E3 & F & A & K). split; [exact F|]. set (q := val (pow v third)) in *. set (t := kappa * ln (val v)) in *.
    rewrite E45 in K. apply Rabs_le_inv in K. pose proof (exp_pos (- t)) as Px.
    assert (X1 : 1 - 128 * b2 (-52) <= exp (- t)) by (pose proof (exp_ineq1_le (- t)); lra).
    assert (X2 : exp (- t) <= 1 + 256 * b2 (-52)).
    { apply Rle_trans with (exp (128 * b2 (-52))); [|pose proof (exp_up (128 * b2 (-52))); lra].
      destruct (Rle_lt_or_eq_dec (- t) (128 * b2 (-52))) as [L|L]; [lra|left; now apply exp_increasing|rewrite L; lra]. }
    set (e := b2 (-52)) in *.
    assert (S1' : s <= val r1 * (1 + e)).
    { apply cube_le; [lra|nra|]. rewrite E3. apply Rle_trans with (1 := proj2 B). set (c := val r1 * val r1 * val r1).
      replace (val r1 * (1 + e) * (val r1 * (1 + e)) * (val r1 * (1 + e))) with (c * ((1 + e) * ((1 + e) * (1 + e)))) by (unfold c; ring).
      assert (0 <= c) by (unfold c; apply Rmult_le_pos; [nra|exact N1]). apply Rmult_le_compat_l; [assumption|nra]. }
    assert (S0' : val r0 * (1 - e) <= s).
    { apply cube_le; [nra|lra|]. rewrite E3. apply Rle_trans with (2 := proj1 B). set (c := val r0 * val r0 * val r0).
      replace (val r0 * (1 - e) * (val r0 * (1 - e)) * (val r0 * (1 - e))) with (c * ((1 - e) * ((1 - e) * (1 - e)))) by (unfold c; ring).
      assert (0 <= c) by (unfold c; apply Rmult_le_pos; [nra|exact N0]). apply Rmult_le_compat_l; [assumption|nra]. }
    apply Rabs_le_inv in A. set (x := exp (- t)) in *.
    assert (A1 : s * x * (1 - e) <= q <= s * x * (1 + e)) by lra.
    assert (M1 : s * (1 - 128 * e) <= s * x <= s * (1 + 256 * e)) by (split; apply Rmult_le_compat_l; lra).
    split.
    + apply Rle_trans with (s * (1 - 128 * e) * (1 - e)); [|nra]. apply Rle_trans with (val r0 * (1 - e) * ((1 - 128 * e) * (1 - e))).
      * rewrite Rmult_assoc. apply Rmult_le_compat_l; [exact N0|nra].
      * rewrite Rmult_assoc. rewrite <- Rmult_assoc. replace (s * (1 - 128 * e) * (1 - e)) with (s * ((1 - 128 * e) * (1 - e))) by ring. apply Rmult_le_compat_r; [nra|exact S0'].
    + apply Rle_trans with (s * (1 + 256 * e) * (1 + e)); [nra|]. apply Rle_trans with (val r1 * (1 + e) * ((1 + 256 * e) * (1 + e))).
      * replace (s * (1 + 256 * e) * (1 + e)) with (s * ((1 + 256 * e) * (1 + e))) by ring. apply Rmult_le_compat_r; [nra|exact S1'].
      * rewrite Rmult_assoc. apply Rmult_le_compat_l; [exact N1|nra].
Qed.
Print Assumptions C87_shell.

Lemma exp_18 : exp 18 <= 387420489.
Proof.
  replace 18 with (INR 18) by (rewrite INR_IZR_INZ; reflexivity).
  assert (E : forall n, exp (INR n) <= 3 ^ n).
  { induction n as [|n IH]; [cbn [INR pow]; rewrite exp_0; lra|]. rewrite S_INR, exp_plus. cbn [pow]. pose proof exp_le_3. pose proof (exp_pos (INR n)). pose proof (exp_pos 1). nra. }
  apply Rle_trans with (1 := E 18%nat). cbn [pow]. lra.
Qed.

(** "No radius is below [r_min]" is false for every shell whose inner radius is at
    least 1000: the draw 0 gives a smaller radius. *)
Theorem C87_inner : forall pow u r_min r_max, pow_ok pow -> draw u -> val u = 0 -> size_ok r_max -> fin r_min ->
  1000 <= val r_min <= val r_max ->
  val (randoms_sphere_r_d pow u r_min r_max) < val r_min.
Proof.
  intros pow u r0 r1 P Du Zu S1 F0 H. assert (S0 : size_ok r0).
  { split; [exact F0|]. right. destruct S1 as [_ [Z|B]]; [lra|]. split; [|lra]. apply Rle_trans with (b2 0); [apply bpow_le; lia|rewrite b2_0; lra]. }
  destruct (shell_arg pow u r0 r1 P Du S0 S1 ltac:(lra)) as (Fv & _ & C & V). specialize (V Zu). unfold randoms_sphere_r_d. set (v := dadd _ _) in *.
  destruct (cube_ok pow r0 P S0) as (_ & N0 & B & _). rewrite <- V in B. pose proof e_small as He. set (c := val r0 * val r0 * val r0) in *.
  assert (Hc : 1000000000 <= c).
  { replace 1000000000 with (1000 * 1000 * 1000) by ring. apply cube_mono. lra. }
  assert (Hv : 387420489 <= val v) by nra.
  destruct (root_ok pow v P Fv ltac:(lra)) as (s & Ps & E3 & F & A & K). set (t := kappa * ln (val v)) in *.
  assert (Lv : 18 <= ln (val v)).
  { rewrite <- (ln_exp 18). apply ln_le; [apply exp_pos|]. pose proof exp_18. lra. }
  pose proof kappa_e as Ke. set (e := b2 (-52)) in *.
  assert (Ht : 3 / 2 * e <= t) by (unfold t; nra).
  assert (Sb : s <= val r0 * (1 + e / 3)).
  { apply cube_le; [lra|nra|]. rewrite E3. apply Rle_trans with (1 := proj2 B).
    replace (val r0 * (1 + e / 3) * (val r0 * (1 + e / 3)) * (val r0 * (1 + e / 3))) with (c * ((1 + e / 3) * ((1 + e / 3) * (1 + e / 3)))) by (unfold c; ring).
    apply Rmult_le_compat_l; [lra|nra]. }
  assert (X : exp (- t) * (1 + 3 / 2 * e) <= 1).
  { assert (E : exp t * exp (- t) = 1) by (rewrite <- exp_plus, Rplus_opp_r; apply exp_0). pose proof (exp_ineq1_le t). pose proof (exp_pos (- t)). nra. }
  apply Rabs_le_inv in A. set (x := exp (- t)) in *. assert (Px : 0 < x) by apply exp_pos.
  assert (Q : val (pow v third) <= s * (x * (1 + e))) by lra.
  apply Rle_lt_trans with (1 := Q). apply Rle_lt_trans with (val r0 * (1 + e / 3) * (x * (1 + e))); [apply Rmult_le_compat_r; nra|].
  rewrite Rmult_assoc. rewrite <- (Rmult_1_r (val r0)) at 2. apply Rmult_lt_compat_l; [lra|].
  apply Rlt_le_trans with (2 := X). replace ((1 + e / 3) * (x * (1 + e))) with (x * ((1 + e / 3) * (1 + e))) by ring. apply Rmult_lt_compat_l; [exact Px|]. nra.
Qed.
Print Assumptions C87_inner.

(** Correctly rounded powers meet the assumptions on [pow]. *)
Definition round_d (x : R) : double := dbl (ZnearestE (scaled_mantissa radix2 (FLT_exp (-1074) 53) x)) (cexp radix2 (FLT_exp (-1074) 53) x).
Definition pow_d (x y : double) : double := if Req_bool (val x) 0 then dzero else round_d (Rpower (val x) (val y)).

Lemma round_d_ok : forall x, Rabs (fl x) < b2 1024 -> fin (round_d x) /\ val (round_d x) = fl x.
Proof.
  intros x H. unfold round_d, dbl. set (m := ZnearestE _). set (k := cexp _ _ _).
  pose proof (@binary_normalize_correct 53 1024 p53 p1024 mode_NE m k false) as C. cbv zeta in C.
  change (round radix2 (SpecFloat.fexp 53 1024) (round_mode mode_NE)) with fl in C. change (F2R (Float radix2 m k)) with (fl x) in C.
  rewrite (fl_fmt (fl x)) in C by apply fmt_fl. rewrite Rlt_bool_true in C by exact H. destruct C as (C1 & C2 & _). split; [exact C2|exact C1].
Qed.

Lemma pow_d_ok : pow_ok pow_d.
Proof.
  assert (E : b2 (-52) = 2 * b2 (-53)) by (change (-52)%Z with (1 + -53)%Z; rewrite bpow_plus; reflexivity). pose proof (bpow_gt_0 radix2 (-53)) as P53.
  split; intros x y Fx Fy.
  - intros Z _. unfold pow_d. rewrite Req_bool_true by exact Z. split; [apply fin_zero|apply val_zero].
  - intros Px B. unfold pow_d. rewrite Req_bool_false by lra. set (w := Rpower (val x) (val y)) in *.
    assert (W : b2 (-1022) <= w) by (apply Rle_trans with (2 := proj1 B); apply bpow_le; lia). pose proof (PGridsDouble.fl_rel w W) as R.
    destruct (round_d_ok w) as [F V].
    + apply Rle_lt_trans with (b2 1000); [|apply bpow_lt; lia]. pose proof (bpow_gt_0 radix2 (-1022)).
      assert (0 <= fl w <= b2 1000) by (split; [apply fl_ge; [apply fl_fmt, fmt_0|lra]|apply fl_le; [apply fl_fmt, fmt_b2; lia|lra]]). rewrite Rabs_pos_eq; lra.
    + split; [exact F|]. rewrite V, E. pose proof (bpow_gt_0 radix2 (-1022)). apply Rle_trans with (1 := R). nra.
Qed.

(** The expectation fails: a shell from 1000 to 2000 with a correctly rounded
    [pow]. *)
Theorem C87_refuted : exists pow u r_min r_max, pow_ok pow /\ draw u /\ size_ok r_min /\ size_ok r_max /\ val r_min < val r_max /\
  val (randoms_sphere_r_d pow u r_min r_max) < val r_min.
Proof.
  destruct (dint_ok 1000) as [F0 V0]; [lia|]. destruct (dint_ok 2000) as [F1 V1]; [lia|].
  assert (L : b2 (-300) <= 1) by (rewrite <- b2_0; apply bpow_le; lia). assert (U : 2048 <= b2 300) by (change 2048 with (b2 11); apply bpow_le; lia).
  assert (S1 : size_ok (dint 2000)) by (split; [exact F1|right; rewrite V1; lra]).
  assert (D : draw dzero) by (split; [apply fin_zero|rewrite val_zero; lra]).
  exists pow_d, dzero, (dint 1000), (dint 2000). split; [exact pow_d_ok|]. split; [exact D|].
  split; [split; [exact F0|right; rewrite V0; lra]|]. split; [exact S1|]. split; [rewrite V0, V1; lra|].
  exact (C87_inner pow_d dzero (dint 1000) (dint 2000) pow_d_ok D val_zero S1 F0 ltac:(rewrite V0, V1; lra)).
Qed.
Print Assumptions C87_refuted.

Example C87_example : pow_ok pow_d /\ draw (dbl 1 (-1)) /\ size_ok dzero /\ size_ok (dint 1).
Proof.
  destruct (dint_ok 1) as [F1 V1]; [lia|]. destruct half_ok as [H1 H2]. split; [exact pow_d_ok|]. split; [split; [exact H1|rewrite H2; lra]|].
  split; [split; [apply fin_zero|left; apply val_zero]|]. split; [exact F1|]. right. rewrite V1, <- b2_0. split; apply bpow_le; lia.
Qed.
