(** * Proofs about [MDouble.v] *)

From Coq Require Import Reals ZArith List Bool Lia Lra Psatz.
From Flocq Require Import Core IEEE754.BinarySingleNaN Plus_error.
From Verif Require Import Base MHealpixFloat PHealpixFloat SpecDouble MDouble.
Import ListNotations.
Open Scope R_scope.

Local Instance fexp_valid : Valid_exp (FLT_exp (-1074) 53).
Proof. apply FLT_exp_valid. reflexivity. Qed.
Local Instance fexp_mono : Monotone_exp (FLT_exp (-1074) 53).
Proof. apply FLT_exp_monotone. Qed.

Local Existing Instance p53.

Definition fmt (x : R) : Prop := generic_format radix2 (FLT_exp (-1074) 53) x.

Lemma fmt_val : forall x, fmt (val x).
Proof. intros x. apply (generic_format_B2R 53 1024). Qed.

Lemma fl_fmt : forall x, fmt x -> fl x = x.
Proof. intros x H. apply round_generic; [auto with typeclass_instances|exact H]. Qed.

Lemma fmt_fl : forall x, fmt (fl x).
Proof. intros x. apply generic_format_round; auto with typeclass_instances. Qed.

Lemma fl_opp : forall x, fl (- x) = - fl x.
Proof. intros. apply round_NE_opp. Qed.

Lemma fmt_b2 : forall e, (-1074 <= e)%Z -> fmt (b2 e).
Proof. intros e H. apply generic_format_bpow. unfold FLT_exp. lia. Qed.

Lemma fmt_0 : fmt 0.
Proof. apply generic_format_0. Qed.

Lemma fmt_1 : fmt 1.
Proof. exact (fmt_b2 0 ltac:(lia)). Qed.

Lemma fmt_opp : forall x, fmt x -> fmt (- x).
Proof. intros. now apply generic_format_opp. Qed.

Lemma fl_err : forall x e, Rabs x < b2 e -> (-1021 <= e)%Z -> Rabs (fl x - x) <= b2 (e - 54).
Proof.
  intros x e H He. destruct (Req_dec x 0) as [->|N].
  { unfold fl. rewrite round_0 by auto with typeclass_instances. rewrite Rminus_0_r, Rabs_R0. apply bpow_ge_0. }
  apply Rle_trans with (/ 2 * ulp radix2 (FLT_exp (-1074) 53) x); [apply error_le_half_ulp; auto with typeclass_instances|].
  rewrite ulp_neq_0 by exact N. unfold cexp. assert (mag radix2 x <= e)%Z by (apply mag_le_bpow; assumption).
  apply Rle_trans with (/ 2 * b2 (e - 53)).
  - apply Rmult_le_compat_l; [lra|]. apply bpow_le. unfold FLT_exp. lia.
  - replace (e - 53)%Z with ((e - 54) + 1)%Z by lia. rewrite bpow_plus. cbn [bpow]. change (IZR (Zpower_pos radix2 1)) with 2. lra.
Qed.

(** ** Operations *)

Lemma dadd_ok : forall x y, fin x -> fin y -> Rabs (fl (val x + val y)) < b2 1024 ->
  fin (dadd x y) /\ val (dadd x y) = fl (val x + val y).
Proof.
  intros x y Fx Fy H. pose proof (@Bplus_correct 53 1024 p53 p1024 mode_NE x y Fx Fy) as C.
  change (round radix2 _ _ _) with (fl (val x + val y)) in C. rewrite Rlt_bool_true in C by exact H. destruct C as (C1 & C2 & _). split; assumption.
Qed.

Lemma dsub_ok : forall x y, fin x -> fin y -> Rabs (fl (val x - val y)) < b2 1024 ->
  fin (dsub x y) /\ val (dsub x y) = fl (val x - val y).
Proof.
  intros x y Fx Fy H. pose proof (@Bminus_correct 53 1024 p53 p1024 mode_NE x y Fx Fy) as C.
  change (round radix2 _ _ _) with (fl (val x - val y)) in C. rewrite Rlt_bool_true in C by exact H. destruct C as (C1 & C2 & _). split; assumption.
Qed.

Lemma dsub_fin : forall x y, fin x -> fin y -> fin (dsub x y) ->
  Rabs (fl (val x - val y)) < b2 1024.
Proof.
  intros x y Fx Fy H. pose proof (@Bminus_correct 53 1024 p53 p1024 mode_NE x y Fx Fy) as C.
  change (round radix2 _ _ _) with (fl (val x - val y)) in C. destruct (Rlt_bool_spec (Rabs (fl (val x - val y))) (b2 1024)) as [L|L]; [exact L|].
  exfalso. destruct C as [C _]. change (Bminus mode_NE x y) with (dsub x y) in C. unfold fin in H. destruct (dsub x y); try discriminate.
Qed.

Lemma dmul_ok : forall x y, fin x -> fin y -> Rabs (fl (val x * val y)) < b2 1024 ->
  fin (dmul x y) /\ val (dmul x y) = fl (val x * val y).
Proof.
  intros x y Fx Fy H. pose proof (@Bmult_correct 53 1024 p53 p1024 mode_NE x y) as C.
  change (round radix2 _ _ _) with (fl (val x * val y)) in C. rewrite Rlt_bool_true in C by exact H. destruct C as (C1 & C2 & _). split; [|exact C1].
  unfold fin in *. change (Bmult mode_NE x y) with (dmul x y) in C2. now rewrite C2, Fx, Fy.
Qed.

Lemma ddiv_ok : forall x y, fin x -> val y <> 0 -> Rabs (fl (val x / val y)) < b2 1024 ->
  fin (ddiv x y) /\ val (ddiv x y) = fl (val x / val y).
Proof.
  intros x y Fx Ny H. pose proof (@Bdiv_correct 53 1024 p53 p1024 mode_NE x y Ny) as C.
  change (round radix2 _ _ _) with (fl (val x / val y)) in C. rewrite Rlt_bool_true in C by exact H. destruct C as (C1 & C2 & _). split; [|exact C1].
  unfold fin in *. change (Bdiv mode_NE x y) with (ddiv x y) in C2. now rewrite C2.
Qed.

Lemma dsqrt_ok : forall x, fin x -> 0 <= val x -> fin (dsqrt x) /\ val (dsqrt x) = fl (sqrt (val x)).
Proof.
  intros x Fx Px. pose proof (@Bsqrt_correct 53 1024 p53 p1024 mode_NE x) as (C1 & C2 & _). split; [|exact C1].
  unfold fin. change (Bsqrt mode_NE x) with (dsqrt x) in C2. rewrite C2. destruct x as [s|s| |s m e B]; try discriminate; [reflexivity|].
  destruct s; [|reflexivity]. exfalso. unfold val, B2R in Px. pose proof (F2R_lt_0 radix2 (Float radix2 (cond_Zopp true (Zpos m)) e) eq_refl). lra.
Qed.

Lemma dlt_ok : forall x y, fin x -> fin y -> dlt x y = Rlt_bool (val x) (val y).
Proof. intros. now apply Bltb_correct. Qed.
Lemma deq_ok : forall x y, fin x -> fin y -> deq x y = Req_bool (val x) (val y).
Proof. intros. now apply Beqb_correct. Qed.

Lemma fin_zero : fin dzero. Proof. reflexivity. Qed.
Lemma val_zero : val dzero = 0. Proof. reflexivity. Qed.

Lemma twopi_val : fin twopi /\ val twopi = tau.
Proof.
  assert (E : B2SF twopi = SpecFloat.S754_finite false 7074237752028440 (-50)) by (vm_compute; reflexivity).
  unfold fin, val, tau. destruct twopi as [s|s| |s m e B]; try discriminate. cbn [B2SF] in E. injection E as -> -> ->. split; reflexivity.
Qed.
Lemma mtwopi_val : fin mtwopi /\ val mtwopi = - tau.
Proof.
  assert (E : B2SF mtwopi = SpecFloat.S754_finite true 7074237752028440 (-50)) by (vm_compute; reflexivity).
  unfold fin, val, tau. destruct mtwopi as [s|s| |s m e B]; try discriminate. cbn [B2SF] in E. injection E as -> -> ->. split; [reflexivity|].
  rewrite Ropp_mult_distr_l, <- opp_IZR. reflexivity.
Qed.
Lemma pi_val : fin pi_d /\ val pi_d = tau / 2.
Proof.
  assert (E : B2SF pi_d = SpecFloat.S754_finite false 7074237752028440 (-51)) by (vm_compute; reflexivity).
  unfold fin, val, tau. destruct pi_d as [s|s| |s m e B]; try discriminate. cbn [B2SF] in E. injection E as -> -> ->. split; [reflexivity|].
  unfold B2R, F2R. cbn [Fnum Fexp cond_Zopp]. change (-50)%Z with (-51 + 1)%Z. rewrite bpow_plus. change (b2 1) with 2. field.
Qed.

Lemma tau_bounds : 6 < tau < 7.
Proof.
  unfold tau. change (b2 (-50)) with (/ IZR (Z.pow_pos 2 50)). assert (0 < IZR (Z.pow_pos 2 50)) by (apply IZR_lt; reflexivity).
  split; [apply Rmult_lt_reg_r with (IZR (Z.pow_pos 2 50))|apply Rmult_lt_reg_r with (IZR (Z.pow_pos 2 50))]; auto;
  rewrite Rmult_assoc, Rinv_l, Rmult_1_r by lra; rewrite <- mult_IZR; apply IZR_lt; reflexivity.
Qed.

Lemma fmt_tau : fmt tau.
Proof. destruct twopi_val as [_ <-]. apply fmt_val. Qed.

Lemma small_b2 : forall x, Rabs x <= 1024 -> Rabs x < b2 1024.
Proof. intros x H. apply Rle_lt_trans with (1 := H). change 1024 with (b2 10). apply bpow_lt. lia. Qed.

(** ** The square root of a rounded square *)

Lemma b2_0 : b2 0 = 1. Proof. reflexivity. Qed.

Lemma sqrt_of_square : forall x, fmt x -> b2 (-511) <= x -> fl (sqrt (fl (x * x))) = x.
Proof.
  intros x Fx Hx. assert (Px : 0 < x) by (apply Rlt_le_trans with (2 := Hx); apply bpow_gt_0).
  destruct (mag radix2 x) as [e He]. specialize (He ltac:(lra)). rewrite Rabs_pos_eq in He by lra.
  assert (E511 : (-510 <= e)%Z). { assert (-511 < e)%Z; [|lia]. apply (lt_bpow radix2). lra. }
  destruct (Req_dec x (b2 (e - 1))) as [E|NE].
  { rewrite E, <- bpow_plus. rewrite (fl_fmt (b2 _)) by (apply fmt_b2; lia).
    replace (b2 (e - 1 + (e - 1))) with (b2 (e - 1) * b2 (e - 1)) by (symmetry; apply bpow_plus). rewrite sqrt_square by apply bpow_ge_0.
    apply fl_fmt, fmt_b2. lia. }
  set (u := b2 (e - 53)). assert (Pu : 0 < u) by apply bpow_gt_0.
  assert (Ee : b2 (e - 1) = IZR (2 ^ 52) * u).
  { unfold u. replace (e - 1)%Z with (52 + (e - 53))%Z by lia. rewrite bpow_plus. reflexivity. }
  assert (Ee' : b2 e = IZR (2 ^ 53) * u).
  { unfold u. replace e with (53 + (e - 53))%Z at 1 by lia. rewrite bpow_plus. reflexivity. }
  (* x is an integer multiple of u *)
  assert (En : exists n, x = IZR n * u).
  { exists (Ztrunc (scaled_mantissa radix2 (FLT_exp (-1074) 53) x)). pose proof Fx as Fx'. unfold fmt, generic_format in Fx'. rewrite Fx' at 1. unfold F2R. cbn [Fnum Fexp]. f_equal. unfold u, cexp, FLT_exp.
    f_equal. rewrite (mag_unique_pos radix2 x e) by exact He. lia. }
  destruct En as [n En].
  assert (Hn : (2 ^ 52 + 1 <= n <= 2 ^ 53 - 1)%Z).
  { split.
    - assert (2 ^ 52 < n)%Z; [|lia]. apply lt_IZR. apply Rmult_lt_reg_r with (1 := Pu). rewrite <- En, <- Ee. lra.
    - assert (n < 2 ^ 53)%Z; [|lia]. apply lt_IZR. apply Rmult_lt_reg_r with (1 := Pu). rewrite <- En, <- Ee'. lra. }
  assert (Lx : b2 (e - 1) + u <= x <= b2 e - u).
  { rewrite Ee, Ee', En. destruct Hn as [H1 H2]. apply IZR_le in H1, H2. rewrite plus_IZR in H1. rewrite minus_IZR in H2. split; nra. }
  set (y := fl (x * x)).
  assert (Hy : Rabs (y - x * x) <= b2 (e - 1) * u).
  { apply Rle_trans with (b2 (2 * e - 54)).
    - apply fl_err; [|lia]. rewrite Rabs_pos_eq by nra. replace (2 * e)%Z with (e + e)%Z by lia. rewrite bpow_plus. nra.
    - apply Req_le. unfold u. rewrite <- bpow_plus. f_equal. lia. }
  assert (Py : 0 <= y). { rewrite <- (fl_fmt 0 fmt_0). apply fl_mono. nra. }
  apply Rabs_le_inv in Hy.
  set (s := sqrt y). assert (Ps : 0 <= s) by apply sqrt_pos. assert (Es : s * s = y) by (apply sqrt_sqrt; exact Py).
  assert (Pe : 0 < b2 (e - 1)) by apply bpow_gt_0.
  assert (Up : s < x + u / 2).
  { apply Rnot_le_lt. intros K. assert (M : (x + u / 2) * (x + u / 2) <= s * s) by (apply Rmult_le_compat; lra).
    assert (0 < (x - b2 (e - 1)) * u) by (apply Rmult_lt_0_compat; lra). nra. }
  assert (Lo : x - u / 2 < s).
  { apply Rnot_le_lt. intros K. assert (M : s * s <= (x - u / 2) * (x - u / 2)) by (apply Rmult_le_compat; lra).
    assert (0 <= (x - b2 (e - 1) - u) * u) by (apply Rmult_le_pos; lra). nra. }
  (* rounding *)
  assert (Ms : mag radix2 s = e :> Z) by (apply mag_unique_pos; lra).
  unfold fl, round. unfold scaled_mantissa, cexp. rewrite Ms. replace (FLT_exp (-1074) 53 e) with (e - 53)%Z by (unfold FLT_exp; lia).
  rewrite (Znearest_imp _ _ n).
  - unfold F2R. cbn [Fnum Fexp]. fold u. now symmetry.
  - rewrite bpow_opp. fold u. replace (s * / u - IZR n) with ((s - x) * / u) by (rewrite En; field; lra).
    rewrite Rabs_mult, (Rabs_pos_eq (/ u)) by (left; now apply Rinv_0_lt_compat). apply Rmult_lt_reg_r with (1 := Pu).
    rewrite Rmult_assoc, Rinv_l, Rmult_1_r by lra. apply Rabs_def1; lra.
Qed.

Lemma sqrt_of_square_abs : forall x, fmt x -> b2 (-511) <= Rabs x -> fl (sqrt (fl (x * x))) = Rabs x.
Proof.
  intros x Fx Hx. replace (x * x) with (Rabs x * Rabs x) by (rewrite <- Rabs_mult; apply Rabs_pos_eq; nra).
  apply sqrt_of_square; [|exact Hx]. unfold Rabs. destruct (Rcase_abs x); [now apply fmt_opp|exact Fx].
Qed.

(** ** Interpolation stays between its ends *)

Lemma draw_bound : forall u, fmt u -> u < 1 -> u <= 1 - b2 (-53).
Proof.
  intros u Fu Hu. assert (H : u <= pred radix2 (FLT_exp (-1074) 53) 1) by (apply pred_ge_gt; auto with typeclass_instances; apply fmt_1).
  rewrite <- (b2_0) in H at 1. rewrite pred_bpow in H. unfold FLT_exp in H. rewrite b2_0 in H. exact H.
Qed.

Lemma scaled_lt : forall D u, fmt D -> b2 (-1021) <= D -> fmt u -> 0 <= u < 1 -> fl (D * u) < D.
Proof.
  intros D u FD HD Fu Hu. assert (PD : 0 < D) by (apply Rlt_le_trans with (2 := HD); apply bpow_gt_0).
  pose proof (draw_bound u Fu ltac:(lra)) as Bu.
  assert (G : b2 (-53) * D <= D - D * u) by nra.
  assert (LE : fl (D * u) <= D) by (rewrite <- (fl_fmt D FD) at 2; apply fl_mono; nra).
  destruct (Rle_lt_or_eq_dec _ _ LE) as [|EQ]; [assumption|exfalso].
  destruct (mag radix2 D) as [e He]. specialize (He ltac:(lra)). rewrite Rabs_pos_eq in He by lra.
  assert (Ee : (-1020 <= e)%Z). { assert (-1021 < e)%Z; [|lia]. apply (lt_bpow radix2). lra. }
  assert (E1 : b2 (e - 54) <= b2 (-53) * D). { replace (e - 54)%Z with (-53 + (e - 1))%Z by lia. rewrite bpow_plus. apply Rmult_le_compat_l; [apply bpow_ge_0|lra]. }
  destruct (Rlt_or_le (D * u) (b2 (e - 1))) as [L|L].
  - assert (A : Rabs (fl (D * u) - D * u) <= b2 (e - 1 - 54)) by (apply fl_err; [rewrite Rabs_pos_eq by nra; exact L|lia]).
    rewrite EQ, Rabs_pos_eq in A by nra. assert (b2 (e - 1 - 54) < b2 (e - 54)) by (apply bpow_lt; lia). lra.
  - assert (A : Rabs (fl (D * u) - D * u) <= b2 (e - 54)) by (apply fl_err; [rewrite Rabs_pos_eq by nra; nra|lia]).
    rewrite EQ, Rabs_pos_eq in A by nra.
    assert (S : b2 (e - 1) < D) by nra.
    assert (b2 (e - 54) < b2 (-53) * D).
    { replace (e - 54)%Z with (-53 + (e - 1))%Z by lia. rewrite bpow_plus. apply Rmult_lt_compat_l; [apply bpow_gt_0|exact S]. }
    lra.
Qed.

Lemma lerp_up : forall a b u, fmt a -> fmt b -> fmt u -> a <= b -> 0 <= u < 1 ->
  0 <= fl (fl (b - a) * u) <= fl (b - a) /\ a <= fl (fl (fl (b - a) * u) + a) <= b.
Proof.
  intros a b u Fa Fb Fu Hab Hu. set (D := fl (b - a)).
  assert (PD : 0 <= D) by (unfold D; rewrite <- (fl_fmt 0 fmt_0); apply fl_mono; lra).
  assert (FD : fmt D) by apply fmt_fl. set (P := fl (D * u)).
  assert (FP : fmt P) by apply fmt_fl.
  assert (P0 : 0 <= P) by (unfold P; rewrite <- (fl_fmt 0 fmt_0); apply fl_mono; nra).
  assert (P1 : P <= D) by (rewrite <- (fl_fmt D FD); apply fl_mono; nra).
  split; [lra|].
  assert (P2 : P <= b - a).
  { destruct (Rle_or_lt D (b - a)) as [L|L]; [lra|].
    assert (N : b2 (-1021) < b - a).
    { apply Rnot_le_lt. intros K. apply (Rlt_irrefl D). rewrite <- (fl_fmt (b - a)) in L; [exact L|].
      unfold Rminus. apply (FLT_format_plus_small radix2 (-1074) 53); [exact Fb|now apply fmt_opp|]. change (53 + -1074)%Z with (-1021)%Z.
      rewrite Rabs_pos_eq by lra. exact K. }
    assert (PD' : P < D) by (apply scaled_lt; auto; lra).
    apply Rnot_lt_le. intros K. assert (D <= P) by (unfold D; rewrite <- (fl_fmt P FP); apply fl_mono; lra). lra. }
  split.
  - rewrite <- (fl_fmt a Fa) at 1. apply fl_mono. lra.
  - rewrite <- (fl_fmt b Fb). apply fl_mono. lra.
Qed.

Lemma lerp : forall a b u, fmt a -> fmt b -> fmt u -> 0 <= u < 1 ->
  Rabs (fl (fl (b - a) * u)) <= Rabs (fl (b - a)) /\
  Rmin a b <= fl (fl (fl (b - a) * u) + a) <= Rmax a b.
Proof.
  intros a b u Fa Fb Fu Hu. destruct (Rle_or_lt a b) as [L|L].
  - destruct (lerp_up a b u Fa Fb Fu L Hu) as [H1 H2]. rewrite Rmin_left, Rmax_right by exact L. split; [|exact H2].
    rewrite !Rabs_pos_eq by lra. lra.
  - destruct (lerp_up (- a) (- b) u (fmt_opp _ Fa) (fmt_opp _ Fb) Fu ltac:(lra) Hu) as [H1 H2].
    replace (- b - - a) with (- (b - a)) in * by ring. rewrite fl_opp in *. rewrite Ropp_mult_distr_l_reverse, fl_opp in *.
    replace (- fl (fl (b - a) * u) + - a) with (- (fl (fl (b - a) * u) + a)) in H2 by ring. rewrite fl_opp in H2.
    rewrite Rmin_right, Rmax_left by lra. split; [|lra]. rewrite !Rabs_left1 by lra. lra.
Qed.
