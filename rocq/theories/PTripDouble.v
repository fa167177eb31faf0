(** * Lemmas: nearby angles, cartesian coordinates in double precision *)

From Coq Require Import Reals ZArith List Bool Lia Lra Psatz.
From Flocq Require Import Core IEEE754.BinarySingleNaN.
From Verif Require Import Base MHealpixFloat PHealpixFloat SpecDouble MDouble PDouble PPiDouble PTrig PSumDouble SpecCoordsDouble MCoordsDouble PLibmDouble.
Import ListNotations.
Open Scope R_scope.

Local Instance fexp_valid : Valid_exp (FLT_exp (-1074) 53).
Proof. apply FLT_exp_valid. reflexivity. Qed.

(** ** Angles *)

Lemma half_sine : forall x, 0 <= x <= PI / 2 -> x <= 2 * sin x.
Proof.
  intros x H. pose proof PI_4 as P4. destruct (pre_sin_bound x 0) as [L _]; [lra|lra|]. unfold sin_approx, sum_f_R0, sin_term in L. cbn [mult plus fact pow INR] in L. assert (L' : x - x * x * x / 6 <= sin x) by (apply Rle_trans with (2 := L); apply Req_le; simpl; field). assert (x * x <= 4) by nra. assert (x * (x * x) <= x * 3); [|nra].
  apply Rmult_le_compat_l; [lra|]. assert (x <= 1.6); [|nra]. pose proof pi_accuracy as [_ A]. assert (b2 (-52) <= / 1024) by (change (/ 1024) with (b2 (-10)); apply bpow_le; lia).
  assert (tau < 6.3); [|lra]. unfold tau. change (b2 (-50)) with (/ IZR (Z.pow_pos 2 50)). change (Z.pow_pos 2 50) with 1125899906842624%Z. lra.
Qed.

Lemma reduce : forall d, exists j : Z, - PI <= d - 2 * PI * IZR j <= PI.
Proof.
  intros d. pose proof PI_RGT_0 as P. exists (Zfloor ((d + PI) / (2 * PI))). pose proof (Zfloor_lb ((d + PI) / (2 * PI))) as A. pose proof (Zfloor_ub ((d + PI) / (2 * PI))) as B. set (j := IZR (Zfloor ((d + PI) / (2 * PI)))) in *.
  assert (E : (d + PI) / (2 * PI) * (2 * PI) = d + PI) by (field; lra). split; nra.
Qed.

Lemma turn : forall d j, cos (d - 2 * PI * IZR j) = cos d /\ sin (d - 2 * PI * IZR j) = sin d.
Proof.
  intros d j. assert (N : forall x n, cos (x + 2 * PI * INR n) = cos x /\ sin (x + 2 * PI * INR n) = sin x).
  { intros x n. pose proof (cos_period x n). pose proof (sin_period x n). replace (x + 2 * PI * INR n) with (x + 2 * INR n * PI) by ring. auto. }
  destruct (Z.le_ge_cases 0 j) as [H|H].
  - destruct (N (d - 2 * PI * IZR j) (Z.to_nat j)) as [A B]. rewrite INR_IZR_INZ, Z2Nat.id in A, B by exact H. replace (d - 2 * PI * IZR j + 2 * PI * IZR j) with d in A, B by ring. auto.
  - destruct (N d (Z.to_nat (- j))) as [A B]. rewrite INR_IZR_INZ, Z2Nat.id, opp_IZR in A, B by lia. replace (d + 2 * PI * - IZR j) with (d - 2 * PI * IZR j) in A, B by ring. auto.
Qed.

Lemma two_sides : forall a e f, Rabs e <= f -> Rabs (e * cos a) <= f /\ Rabs (e * sin a) <= f.
Proof. intros a e f H. pose proof (COS_bound a). pose proof (SIN_bound a). pose proof (Rabs_pos e). rewrite !Rabs_mult. assert (Rabs (cos a) <= 1) by (apply Rabs_le; lra). assert (Rabs (sin a) <= 1) by (apply Rabs_le; lra). split; nra. Qed.

Lemma angle_close : forall rho R' x y phi psi dl, 0 < rho -> 0 <= R' -> 0 <= dl <= / 16 -> x = R' * cos psi -> y = R' * sin psi ->
  Rabs (x - rho * cos phi) <= dl * rho -> Rabs (y - rho * sin phi) <= dl * rho -> exists j : Z, Rabs (psi - phi - 2 * PI * IZR j) <= 5 * dl.
Proof.
  intros rho R' x y phi psi dl Pr PR Hd Ex Ey Hx Hy. destruct (reduce (psi - phi)) as (j & Hj). exists j. destruct (turn (psi - phi) j) as [TC TS]. set (d := psi - phi - 2 * PI * IZR j) in *. pose proof PI_RGT_0 as PP.
  assert (C : R' * cos d = x * cos phi + y * sin phi) by (rewrite TC, cos_minus, Ex, Ey; ring). assert (S : R' * sin d = y * cos phi - x * sin phi) by (rewrite TS, sin_minus, Ex, Ey; ring).
  pose proof (sc1 phi) as U. destruct (two_sides phi _ _ Hx) as [X1 X2]. destruct (two_sides phi _ _ Hy) as [Y1 Y2]. apply Rabs_le_inv in X1, X2, Y1, Y2.
  assert (C' : R' * cos d = rho + ((x - rho * cos phi) * cos phi + (y - rho * sin phi) * sin phi)) by (rewrite C; transitivity (rho * (sin phi ^ 2 + cos phi ^ 2) + ((x - rho * cos phi) * cos phi + (y - rho * sin phi) * sin phi)); [ring|rewrite U; ring]).
  assert (S' : R' * sin d = (y - rho * sin phi) * cos phi - (x - rho * cos phi) * sin phi) by (rewrite S; ring).
  assert (CL : (1 - 2 * dl) * rho <= R' * cos d) by (rewrite C'; lra). assert (SL : Rabs (R' * sin d) <= 2 * dl * rho) by (rewrite S'; apply Rabs_le; lra).
  assert (PC : 0 < cos d) by (assert (0 < R' * cos d) by nra; destruct (Rle_or_lt (cos d) 0); [nra|assumption]). pose proof (COS_bound d) as CB.
  assert (RL : (1 - 2 * dl) * rho <= R') by nra. assert (HS : Rabs (sin d) <= 5 / 2 * dl).
  { rewrite Rabs_mult, (Rabs_pos_eq R' PR) in SL. pose proof (Rabs_pos (sin d)) as PS. apply Rmult_le_reg_l with ((1 - 2 * dl) * rho); [apply Rmult_lt_0_compat; lra|]. apply Rle_trans with (R' * Rabs (sin d)); [apply Rmult_le_compat_r; assumption|]. apply Rle_trans with (1 := SL). assert (0 <= dl * rho) by (apply Rmult_le_pos; lra). assert (0 <= dl * rho * (/ 16 - dl)) by (apply Rmult_le_pos; lra). nra. }
  assert (DB : - (PI / 2) < d < PI / 2).
  { split; [destruct (Rle_or_lt d (- (PI / 2))) as [Q|Q]; [|exact Q]|destruct (Rle_or_lt (PI / 2) d) as [Q|Q]; [|exact Q]]; exfalso.
    - assert (Z : cos (- d) <= 0) by (apply cos_le_0; lra). rewrite cos_neg in Z. lra.
    - assert (Z : cos d <= 0) by (apply cos_le_0; lra). lra. }
  destruct (Rle_or_lt 0 d) as [Q|Q].
  - pose proof (half_sine d ltac:(lra)) as H. apply Rabs_le_inv in HS. rewrite Rabs_pos_eq by exact Q. lra.
  - pose proof (half_sine (- d) ltac:(lra)) as H. rewrite sin_neg in H. apply Rabs_le_inv in HS. rewrite Rabs_left by exact Q. lra.
Qed.

Lemma colat_close : forall a b dl, 0 <= a <= PI -> 0 <= b <= PI -> Rabs (cos a - cos b) <= dl -> sin a * Rabs (a - b) <= 4 * dl /\ Rabs (a - b) * Rabs (a - b) <= 8 * dl.
Proof.
  intros a b dl Ha Hb H. set (m := (a + b) / 2). set (d := Rabs (a - b) / 2). pose proof PI_RGT_0 as PP.
  assert (D : 0 <= d <= PI / 2) by (unfold d; split; [pose proof (Rabs_pos (a - b)); lra|assert (Rabs (a - b) <= PI) by (apply Rabs_le; lra); lra]).
  assert (MD : d <= m <= PI - d) by (unfold m, d, Rabs; destruct (Rcase_abs (a - b)); lra).
  assert (SM : sin d <= sin m). { destruct (Rle_or_lt m (PI / 2)) as [Q|Q]; [apply sin_incr_1; lra|]. rewrite <- (sin_PI_x m). apply sin_incr_1; lra. }
  assert (E : Rabs (cos a - cos b) = 2 * sin m * sin d).
  { assert (X : cos a - cos b = - 2 * sin ((a - b) / 2) * sin m) by (unfold m; exact (form2 a b)). assert (S0 : 0 <= sin d) by (apply sin_ge_0; lra). assert (Y : Rabs (sin ((a - b) / 2)) = sin d).
    { unfold d, Rabs at 2. destruct (Rcase_abs (a - b)) as [N|N]; [replace (- (a - b) / 2) with (- ((a - b) / 2)) by field; rewrite sin_neg|]; [apply Rabs_left1|apply Rabs_pos_eq].
      - assert (0 <= sin (- ((a - b) / 2))) by (apply sin_ge_0; lra). rewrite sin_neg in *. lra.
      - apply sin_ge_0; lra. }
    rewrite X, !Rabs_mult, Y, (Rabs_pos_eq (sin m)) by lra. replace (- 2) with (-(2)) by ring. rewrite Rabs_Ropp, Rabs_pos_eq by lra. ring. }
  assert (S0 : 0 <= sin d) by (apply sin_ge_0; lra). pose proof (half_sine d D) as HS. assert (R2 : Rabs (a - b) = 2 * d) by (unfold d; field). rewrite R2. rewrite E in H.
  assert (SA : sin a <= 2 * sin m).
  { assert (A : a = m + (a - b) / 2) by (unfold m; field). rewrite A at 1. rewrite sin_plus. pose proof (COS_bound ((a - b) / 2)) as C1. pose proof (COS_bound m) as C2. assert (Y : Rabs (sin ((a - b) / 2)) <= sin d).
    { unfold d, Rabs at 2. destruct (Rcase_abs (a - b)) as [N|N]; [replace (- (a - b) / 2) with (- ((a - b) / 2)) by field; rewrite sin_neg; rewrite Rabs_left1; [lra|]|rewrite Rabs_pos_eq; [lra|]].
      - assert (0 <= sin (- ((a - b) / 2))) by (apply sin_ge_0; lra). rewrite sin_neg in *. lra.
      - apply sin_ge_0; lra. }
    apply Rabs_le_inv in Y. assert (sin m * cos ((a - b) / 2) <= sin m * 1) by (apply Rmult_le_compat_l; lra). assert (cos m * sin ((a - b) / 2) <= sin d); [|lra].
    apply Rle_trans with (Rabs (cos m * sin ((a - b) / 2))); [apply Rle_abs|]. rewrite Rabs_mult. assert (Rabs (cos m) <= 1) by (apply Rabs_le; lra). assert (Rabs (sin ((a - b) / 2)) <= sin d) by (apply Rabs_le; lra). pose proof (Rabs_pos (cos m)). pose proof (Rabs_pos (sin ((a - b) / 2))). nra. }
  assert (A0 : 0 <= sin a) by (apply sin_ge_0; lra). split.
  - apply Rle_trans with (sin a * (4 * sin d)); [apply Rmult_le_compat_l; lra|]. assert (0 <= sin d * (2 * sin m - sin a)) by (apply Rmult_le_pos; lra). lra.
  - assert (d * d <= (2 * sin d) * (2 * sin d)) by (apply Rmult_le_compat; lra). assert (sin d * sin d <= sin m * sin d) by (apply Rmult_le_compat_r; lra). lra.
Qed.

(** ** Products *)

Lemma add_zero : forall x, fin x -> fin (dadd x dzero) /\ val (dadd x dzero) = val x.
Proof.
  intros x F. pose proof (fl_fmt _ (fmt_val x)) as E. destruct (dadd_ok x dzero F fin_zero) as [A V]; [rewrite val_zero, Rplus_0_r, E; apply abs_B2R_lt_emax|]. split; [exact A|]. rewrite V, val_zero, Rplus_0_r. exact E.
Qed.
Lemma sub_zero : forall x, fin x -> fin (dsub x dzero) /\ val (dsub x dzero) = val x.
Proof.
  intros x F. pose proof (fl_fmt _ (fmt_val x)) as E. destruct (dsub_ok x dzero F fin_zero) as [A V]; [rewrite val_zero, Rminus_0_r, E; apply abs_B2R_lt_emax|]. split; [exact A|]. rewrite V, val_zero, Rminus_0_r. exact E.
Qed.

(** A number of size up to [r] times one of size up to 1. *)
Lemma scaled : forall x c r, fin x -> fin c -> fmt r -> Rabs (val x) <= r -> Rabs (val c) <= 1 ->
  fin (dmul x c) /\ val (dmul x c) = fl (val x * val c) /\ Rabs (val (dmul x c)) <= r /\ Rabs (val (dmul x c) - val x * val c) <= b2 (-53) * Rabs (val x * val c) + b2 (-1075).
Proof.
  intros x c r Fx Fc Fr Hx Hc. pose proof (Rabs_pos (val x)) as P0. pose proof (Rabs_pos (val c)) as P1.
  assert (LX : Rabs (val x * val c) <= Rabs (val x)) by (rewrite Rabs_mult; nra).
  assert (B : Rabs (fl (val x * val c)) <= Rabs (val x)).
  { apply Rabs_le. apply Rabs_le_inv in LX. assert (FX : fmt (Rabs (val x))) by (unfold fmt; apply generic_format_abs, fmt_val). split; [apply fl_ge; [now apply fl_fmt, fmt_opp|lra]|apply fl_le; [now apply fl_fmt|lra]]. }
  destruct (dmul_ok x c Fx Fc) as [A V]; [apply Rle_lt_trans with (1 := B), abs_B2R_lt_emax|]. split; [exact A|]. split; [exact V|]. rewrite V. split; [lra|]. apply fl_mixed.
Qed.

Lemma few_sizes : forall r, b2 (-200) <= r -> b2 (-1075) <= b2 (-70) * b2 (-53) * r.
Proof. intros r H. apply Rle_trans with (b2 (-70) * b2 (-53) * b2 (-200)); [rewrite <- !bpow_plus; apply bpow_le; lia|]. apply Rmult_le_compat_l; [apply Rmult_le_pos; apply bpow_ge_0|exact H]. Qed.

(** A radius times a cosine or sine. *)
Lemma arm : forall f fd r phi, near_on_circle f fd -> fin r -> b2 (-200) <= val r -> fin phi -> Rabs (val phi) <= 8 ->
  fin (dmul r (fd phi)) /\ Rabs (val (dmul r (fd phi))) <= val r /\ Rabs (val (dmul r (fd phi)) - val r * f (val phi)) <= (3 + b2 (-70)) * b2 (-53) * val r.
Proof.
  intros f fd r phi N Fr Pr Fp Hp. destruct (N phi Fp Hp) as (Fc & Bc & Ec). pose proof (bpow_gt_0 radix2 (-200)) as P200. pose proof (few_sizes _ Pr) as T.
  assert (PR : 0 < val r) by lra. assert (AC : Rabs (val (fd phi)) <= 1) by (apply Rabs_le; lra).
  destruct (scaled r (fd phi) (val r) Fr Fc (fmt_val r) ltac:(rewrite Rabs_pos_eq by lra; lra) AC) as (A & _ & B & C). split; [exact A|]. split; [exact B|].
  replace (val (dmul r (fd phi)) - val r * f (val phi)) with ((val (dmul r (fd phi)) - val r * val (fd phi)) + val r * (val (fd phi) - f (val phi))) by ring.
  apply Rle_trans with (1 := Rabs_triang _ _). rewrite (Rabs_mult (val r) (val (fd phi) - _)), (Rabs_pos_eq (val r)) by lra. rewrite Rabs_mult, (Rabs_pos_eq (val r)) in C by lra.
  assert (E52 : b2 (-52) = 2 * b2 (-53)) by (change (-52)%Z with (1 + -53)%Z; rewrite bpow_plus; reflexivity). rewrite E52 in Ec. pose proof (bpow_gt_0 radix2 (-53)) as P53.
  assert (val r * Rabs (val (fd phi) - f (val phi)) <= val r * (2 * b2 (-53))) by (apply Rmult_le_compat_l; lra).
  assert (b2 (-53) * (val r * Rabs (val (fd phi))) <= b2 (-53) * (val r * 1)) by (apply Rmult_le_compat_l; [lra|apply Rmult_le_compat_l; lra]). lra.
Qed.

(** An arm times another cosine or sine. *)
Lemma arm2 : forall f g fd gd r phi theta, near_on_circle f fd -> near_on_circle g gd -> (forall x, Rabs (g x) <= 1) -> fin r -> b2 (-200) <= val r ->
  fin phi -> Rabs (val phi) <= 8 -> fin theta -> Rabs (val theta) <= 8 ->
  let x := dmul (dmul r (fd phi)) (gd theta) in
  fin x /\ Rabs (val x) <= val r /\ Rabs (val x - val r * f (val phi) * g (val theta)) <= 7 * b2 (-53) * val r.
Proof.
  intros f g fd gd r phi theta Nf Ng G1 Fr Pr Fp Hp Ft Ht x. destruct (arm f fd r phi Nf Fr Pr Fp Hp) as (Fm & Bm & Em). destruct (Ng theta Ft Ht) as (Fs & Bs & Es). pose proof (few_sizes _ Pr) as T. pose proof (bpow_gt_0 radix2 (-200)) as P200.
  assert (PR : 0 < val r) by lra. assert (AS : Rabs (val (gd theta)) <= 1) by (apply Rabs_le; lra). destruct (scaled _ (gd theta) (val r) Fm Fs (fmt_val r) Bm AS) as (A & _ & B & C). fold x in A, B, C. split; [exact A|]. split; [exact B|].
  set (m := dmul r (fd phi)) in *. replace (val x - val r * f (val phi) * g (val theta)) with ((val x - val m * val (gd theta)) + (val m * (val (gd theta) - g (val theta)) + (val m - val r * f (val phi)) * g (val theta))) by ring.
  apply Rle_trans with (1 := Rabs_triang _ _). assert (Q := Rabs_triang (val m * (val (gd theta) - g (val theta))) ((val m - val r * f (val phi)) * g (val theta))). rewrite !Rabs_mult in Q. rewrite Rabs_mult in C.
  assert (E52 : b2 (-52) = 2 * b2 (-53)) by (change (-52)%Z with (1 + -53)%Z; rewrite bpow_plus; reflexivity). rewrite E52 in Es. pose proof (bpow_gt_0 radix2 (-53)) as P53.
  assert (P70 : b2 (-70) <= / 1024) by (change (/ 1024) with (b2 (-10)); apply bpow_le; lia). assert (0 <= b2 (-70)) by apply bpow_ge_0.
  assert (X1 : Rabs (val m) * Rabs (val (gd theta) - g (val theta)) <= val r * (2 * b2 (-53))) by (apply Rmult_le_compat; try apply Rabs_pos; lra).
  assert (X2 : Rabs (val m - val r * f (val phi)) * Rabs (g (val theta)) <= (3 + b2 (-70)) * b2 (-53) * val r * 1) by (apply Rmult_le_compat; try apply Rabs_pos; [exact Em|apply G1]).
  assert (X3 : b2 (-53) * (Rabs (val m) * Rabs (val (gd theta))) <= b2 (-53) * (val r * 1)) by (apply Rmult_le_compat_l; [lra|apply Rmult_le_compat; try apply Rabs_pos; lra]).
  assert (X4 : b2 (-70) * (b2 (-53) * val r) <= / 1024 * (b2 (-53) * val r)) by (apply Rmult_le_compat_r; [apply Rmult_le_pos; lra|exact P70]). nra.
Qed.

(** Squares of nearby numbers, and roots of nearby numbers. *)
Lemma near_square : forall x X r e, 0 < r -> 0 <= e <= / 1024 -> Rabs X <= r -> Rabs (x - X) <= e * r -> Rabs (x * x - X * X) <= 2 * e * r * r + / 1024 * e * r * r.
Proof.
  intros x X r e P He HX H. replace (x * x - X * X) with ((x - X) * ((x - X) + 2 * X)) by ring. rewrite Rabs_mult. assert (T := Rabs_triang (x - X) (2 * X)). rewrite Rabs_mult, (Rabs_pos_eq 2) in T by lra.
  assert (E : e * r <= / 1024 * r) by (apply Rmult_le_compat_r; lra). apply Rle_trans with ((e * r) * ((/ 1024 + 2) * r)); [apply Rmult_le_compat; try apply Rabs_pos; lra|]. apply Req_le. ring.
Qed.
Lemma near_root : forall S r e, 0 < r -> 0 <= e -> 0 <= S -> Rabs (S - r * r) <= e * r * r -> Rabs (sqrt S - r) <= e * r.
Proof.
  intros S r e P He HS H. pose proof (sqrt_pos S) as P1. pose proof (sqrt_sqrt S HS) as Q. apply Rmult_le_reg_r with (sqrt S + r); [lra|]. rewrite <- (Rabs_pos_eq (sqrt S + r)) at 1 by lra. rewrite <- Rabs_mult. replace ((sqrt S - r) * (sqrt S + r)) with (sqrt S * sqrt S - r * r) by ring. rewrite Q. apply Rle_trans with (1 := H).
  assert (0 <= e * r) by (apply Rmult_le_pos; lra). assert (e * r * r <= e * r * (sqrt S + r)) by (apply Rmult_le_compat_l; lra). exact H1.
Qed.

Lemma cos_lip : forall a b, Rabs (cos a - cos b) <= Rabs (a - b).
Proof.
  intros a b. pose proof (form2 a b) as E. cbn in E. rewrite E, !Rabs_mult. replace (-2) with (- (2)) by ring. rewrite Rabs_Ropp, (Rabs_pos_eq 2) by lra. assert (S : Rabs (sin ((a + b) / 2)) <= 1) by (apply Rabs_le; apply SIN_bound).
  assert (T : forall t, Rabs (sin t) <= Rabs t). { intros t. destruct (Rle_or_lt 0 t) as [H|H]. - destruct H as [H| <-]; [|rewrite sin_0, !Rabs_R0; lra]. rewrite (Rabs_pos_eq t) by lra. pose proof (sin_lt_x t H). pose proof (SIN_bound t). apply Rabs_le. split; [|lra]. destruct (Rle_or_lt t 1) as [Q|Q]; [|lra]. assert (0 <= sin t) by (apply sin_ge_0; [lra|pose proof PI2_1; lra]). lra.
    - rewrite <- (Rabs_Ropp (sin t)), <- (Rabs_Ropp t), <- sin_neg. assert (H' : 0 < - t) by lra. clear H. set (s := - t) in *. rewrite (Rabs_pos_eq s) by lra. pose proof (sin_lt_x s H'). pose proof (SIN_bound s). apply Rabs_le. split; [|lra]. destruct (Rle_or_lt s 1) as [Q|Q]; [|lra]. assert (0 <= sin s) by (apply sin_ge_0; [lra|pose proof PI2_1; lra]). lra. }
  specialize (T ((a - b) / 2)). unfold Rdiv in T at 2. rewrite Rabs_mult, (Rabs_pos_eq (/ 2)) in T by lra. pose proof (Rabs_pos (sin ((a - b) / 2))). pose proof (Rabs_pos (sin ((a + b) / 2))). nra.
Qed.
Lemma sin_lip : forall a b, Rabs (sin a - sin b) <= Rabs (a - b).
Proof. intros a b. rewrite <- (cos_shift a), <- (cos_shift b). apply Rle_trans with (1 := cos_lip _ _). rewrite <- Rabs_Ropp. apply Req_le. f_equal. ring. Qed.

(** ** One, and numbers next to it *)

Lemma one_val : fin (dbl 1 0) /\ val (dbl 1 0) = 1.
Proof. destruct (dbl_ok 1 0 ltac:(lia) ltac:(lia)) as [F V]. split; [exact F|]. rewrite V. simpl. lra. Qed.

Lemma one_only : forall x, val x = 1 -> x = dbl 1 0.
Proof.
  intros x V. destruct one_val as [_ W]. assert (S : forall t : binary_float 53 1024, val t = 1 -> is_finite_strict t = true) by (intros t; unfold val; destruct t; cbn; intros; lra || reflexivity). apply B2R_inj; [now apply S|now apply S|]. unfold val in *. congruence.
Qed.

Lemma next_to_one : forall t, 0 <= t <= b2 (-54) -> fl (1 + t) = 1.
Proof.
  intros t H. assert (F1 : fmt 1) by exact (fmt_b2 0 ltac:(lia)). apply Rle_antisym.
  - apply round_N_le_midp; [exact _|exact F1|]. rewrite succ_eq_pos by lra. assert (E : b2 (FLT_exp (-1074) 53 (0 + 1)) = 4 * b2 (-54)) by (change (FLT_exp (-1074) 53 (0 + 1)) with (2 + -54)%Z; rewrite bpow_plus; reflexivity).
    assert (U : ulp radix2 (FLT_exp (-1074) 53) 1 = 4 * b2 (-54)) by (rewrite <- E; change 1 with (b2 0); apply ulp_bpow). rewrite U. pose proof (bpow_gt_0 radix2 (-54)). lra.
  - apply fl_ge; [now apply fl_fmt|lra].
Qed.
