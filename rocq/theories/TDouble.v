(** * Theorems: double precision (C80, C81, C82) *)

From Coq Require Import Reals ZArith List Bool Lia Lra Psatz.
From Flocq Require Import Core IEEE754.BinarySingleNaN Plus_error Relative Sterbenz.
From Verif Require Import Base MHealpixFloat PHealpixFloat SpecDouble MDouble PDouble.
Import ListNotations.
Open Scope R_scope.

Local Existing Instance p53.
Local Instance fexp_valid : Valid_exp (FLT_exp (-1074) 53).
Proof. apply FLT_exp_valid. reflexivity. Qed.
Local Instance fexp_mono : Monotone_exp (FLT_exp (-1074) 53).
Proof. apply FLT_exp_monotone. Qed.

(** ** Lemmas: angles *)

Lemma b2_51 : b2 (-50) = 2 * b2 (-51).
Proof. change (-50)%Z with (1 + -51)%Z. rewrite bpow_plus. reflexivity. Qed.

Lemma b2_small : 0 < b2 (-51) <= / 1024.
Proof. split; [apply bpow_gt_0|]. change (/ 1024) with (b2 (-10)). apply bpow_le. lia. Qed.

Lemma tau_half_even : fl (tau - b2 (-51)) = tau.
Proof.
  assert (E : B2SF (dadd (dbl (-1) (-51)) twopi) = B2SF twopi) by (vm_compute; reflexivity).
  assert (F : fin (dbl (-1) (-51)) /\ val (dbl (-1) (-51)) = - b2 (-51)).
  { assert (E' : B2SF (dbl (-1) (-51)) = SpecFloat.S754_finite true 4503599627370496 (-103)) by (vm_compute; reflexivity).
    unfold fin, val. destruct (dbl (-1) (-51)) as [s|s| |s m e B]; try discriminate. cbn [B2SF] in E'. injection E' as -> -> ->. split; [reflexivity|].
    unfold B2R, F2R. cbn [Fnum Fexp cond_Zopp]. change (-51)%Z with (52 + -103)%Z. rewrite bpow_plus. change (b2 52) with (IZR 4503599627370496).
    change (- 4503599627370496)%Z with (Z.opp 4503599627370496). rewrite opp_IZR. ring. }
  destruct F as [F1 F2]. destruct twopi_val as [T1 T2]. pose proof tau_bounds as TB. pose proof b2_small as SB.
  destruct (dadd_ok (dbl (-1) (-51)) twopi F1 T1) as [A1 A2].
  { apply small_b2. rewrite F2, T2. assert (0 <= fl (- b2 (-51) + tau) <= tau).
    { split; [apply fl_ge; [apply fl_fmt, fmt_0|lra]|apply fl_le; [apply fl_fmt, fmt_tau|lra]]. } rewrite Rabs_pos_eq; lra. }
  rewrite F2, T2 in A2. replace (tau - b2 (-51)) with (- b2 (-51) + tau) by ring. rewrite <- A2, <- T2.
  unfold val. rewrite <- !SF2R_B2SF. now rewrite E.
Qed.

Lemma succ_below_tau : fmt (tau - b2 (-50)) /\ succ radix2 (FLT_exp (-1074) 53) (tau - b2 (-50)) = tau.
Proof.
  pose proof tau_bounds as TB. pose proof b2_small as SB. pose proof b2_51 as E51.
  assert (F : fmt (tau - b2 (-50))).
  { apply generic_format_FLT. exists (Float radix2 7074237752028439 (-50)); cbn [Fnum Fexp]; [|reflexivity|lia].
    unfold tau, F2R. cbn [Fnum Fexp]. change 7074237752028439%Z with (7074237752028440 - 1)%Z. rewrite minus_IZR. ring. }
  split; [exact F|]. rewrite succ_eq_pos by lra. rewrite ulp_neq_0 by lra. unfold cexp.
  rewrite (mag_unique_pos radix2 _ 3) by (change (b2 (3 - 1)) with 4; change (b2 3) with 8; lra).
  change (FLT_exp (-1074) 53 3) with (-50)%Z. ring.
Qed.

Lemma wrap_val : forall p, fin p -> - tau <= val p <= tau ->
  fin (wrap p) /\ val (wrap p) = if Rlt_dec (val p) 0 then fl (val p + tau) else val p.
Proof.
  intros p Fp Hp. unfold wrap. rewrite dlt_ok by (auto; apply fin_zero). rewrite val_zero. destruct twopi_val as [T1 T2]. pose proof tau_bounds.
  destruct (Rlt_bool_spec (val p) 0) as [L|L]; destruct (Rlt_dec (val p) 0) as [L'|L']; try lra; [|auto].
  rewrite <- T2. apply dadd_ok; auto. rewrite T2. apply small_b2.
  assert (0 <= fl (val p + tau) <= tau).
  { split; [apply fl_ge; [apply fl_fmt, fmt_0|lra]|apply fl_le; [apply fl_fmt, fmt_tau|lra]]. } rewrite Rabs_pos_eq; lra.
Qed.

Lemma wrap_spec : forall p, fin p -> - tau <= val p <= tau / 2 ->
  fin (wrap p) /\ 0 <= val (wrap p) <= tau /\ (val (wrap p) = tau <-> - b2 (-51) <= val p < 0) /\
  Rabs (val (wrap p) - (if Rlt_dec (val p) 0 then val p + tau else val p)) <= b2 (-51).
Proof.
  intros p Fp Hp. pose proof tau_bounds as TB. pose proof b2_small as SB. destruct (wrap_val p Fp ltac:(lra)) as [F ->]. split; [exact F|].
  destruct (Rlt_dec (val p) 0) as [L|L].
  - assert (R : 0 <= fl (val p + tau) <= tau).
    { split; [apply fl_ge; [apply fl_fmt, fmt_0|lra]|apply fl_le; [apply fl_fmt, fmt_tau|lra]]. }
    split; [exact R|]. split.
    + split.
      * intros E. split; [|exact L]. apply Rnot_lt_le. intros K. destruct succ_below_tau as [S1 S2].
        assert (fl (val p + tau) <= tau - b2 (-50)).
        { apply round_N_le_midp; auto with typeclass_instances. rewrite S2. pose proof b2_51. lra. }
        rewrite b2_51 in *. lra.
      * intros [K _]. apply Rle_antisym; [lra|]. rewrite <- tau_half_even at 1. apply fl_mono. lra.
    + change (-51)%Z with (3 - 54)%Z. apply fl_err; [|lia]. change (b2 3) with 8. rewrite Rabs_pos_eq; lra.
  - split; [lra|]. split; [split; lra|]. rewrite Rminus_diag_eq, Rabs_R0 by reflexivity. lra.
Qed.

(** ** C80: polar and spherical coordinates *)

Lemma diff_ok : forall x c, fin x -> fin c -> Rabs (val x) <= b2 1022 -> Rabs (val c) <= b2 1022 ->
  fin (dsub x c) /\ val (dsub x c) = fl (val x - val c) /\ Rabs (val (dsub x c)) <= b2 1023.
Proof.
  intros x c Fx Fc Hx Hc. assert (E : b2 1023 = 2 * b2 1022) by (change 1023%Z with (1 + 1022)%Z; rewrite bpow_plus; reflexivity).
  assert (B : Rabs (fl (val x - val c)) <= b2 1023).
  { apply abs_round_le_generic; auto with typeclass_instances; [apply (fmt_b2 1023); lia|].
    apply Rle_trans with (1 := Rabs_triang _ _). rewrite Rabs_Ropp. lra. }
  destruct (dsub_ok x c Fx Fc) as [A1 A2]; [apply Rle_lt_trans with (1 := B); apply bpow_lt; lia|]. rewrite A2. auto.
Qed.

(** The longitude is finite and in the closed range; it is exactly [2 pi] for the
    directions less than [2^-51] below the axis, and off by at most [2^-51]. *)
Theorem C80_longitude : forall arctan2 arccos x y z c0 c1 c2, arctan2_ok arctan2 ->
  (forall v, In v [x; y; c0; c1] -> fin v /\ Rabs (val v) <= b2 1022) ->
  let phi := snd (cart2polar_d arctan2 x y c0 c1) in
  let a := val (arctan2 (dsub y c1) (dsub x c0)) in
  snd (fst (cart2sphere_d arctan2 arccos x y z c0 c1 c2)) = phi /\
  fin phi /\ 0 <= val phi <= tau /\ (val phi = tau <-> - b2 (-51) <= a < 0) /\
  Rabs (val phi - (if Rlt_dec a 0 then a + tau else a)) <= b2 (-51).
Proof.
  intros f g x y z c0 c1 c2 Hf HI phi a. split; [reflexivity|]. pose proof tau_bounds.
  destruct (HI x), (HI y), (HI c0), (HI c1); cbn; auto 6.
  destruct (diff_ok x c0) as (X & _); auto. destruct (diff_ok y c1) as (Y & _); auto.
  destruct (Hf _ _ Y X) as [F R]. unfold phi, a. cbn [snd cart2polar_d]. apply wrap_spec; [exact F|lra].
Qed.
Print Assumptions C80_longitude.

(** Half-open ranges do not hold: a direction below the axis gets the longitude
    of a full turn. *)
Theorem C80_full_turn_refuted : exists a, fin a /\ val a < 0 /\
  forall arctan2 x y c0 c1, arctan2 (dsub y c1) (dsub x c0) = a -> snd (cart2polar_d arctan2 x y c0 c1) = twopi.
Proof.
  exists (dbl (-1) (-60)). split; [reflexivity|]. split.
  - assert (E' : B2SF (dbl (-1) (-60)) = SpecFloat.S754_finite true 4503599627370496 (-112)) by (vm_compute; reflexivity).
    unfold val. destruct (dbl (-1) (-60)) as [s|s| |s m e B]; try discriminate. cbn [B2SF] in E'. injection E' as -> -> ->. apply F2R_lt_0. reflexivity.
  - intros f x y c0 c1 E. cbn [snd cart2polar_d]. rewrite E. apply B2SF_inj. vm_compute. reflexivity.
Qed.
Print Assumptions C80_full_turn_refuted.

Lemma sq_ok : forall d, fin d -> Rabs (val d) <= b2 511 ->
  fin (sq d) /\ val (sq d) = fl (val d * val d) /\ 0 <= val (sq d) <= b2 1022.
Proof.
  intros d Fd Hd. assert (E : b2 1022 = b2 511 * b2 511) by (rewrite <- bpow_plus; reflexivity).
  assert (S : 0 <= val d * val d <= b2 1022).
  { split; [nra|]. rewrite E. pose proof (Rabs_pos (val d)). rewrite <- (Rabs_pos_eq (val d * val d)) by nra. rewrite Rabs_mult. apply Rmult_le_compat; lra. }
  assert (B : 0 <= fl (val d * val d) <= b2 1022).
  { split; [apply fl_ge; [apply fl_fmt, fmt_0|lra]|apply fl_le; [apply fl_fmt, fmt_b2; lia|lra]]. }
  destruct (dmul_ok d d Fd Fd) as [A1 A2]; [rewrite Rabs_pos_eq by lra; apply Rle_lt_trans with (1 := proj2 B); apply bpow_lt; lia|].
  unfold sq. rewrite A2. auto.
Qed.

Lemma add_nonneg : forall x y k, fin x -> fin y -> 0 <= val x -> 0 <= val y -> val x + val y <= b2 k -> (-1074 <= k < 1024)%Z ->
  fin (dadd x y) /\ val (dadd x y) = fl (val x + val y) /\ val x <= val (dadd x y) /\ val y <= val (dadd x y) /\ val (dadd x y) <= b2 k.
Proof.
  intros x y k Fx Fy Px Py B Hk.
  assert (R : 0 <= fl (val x + val y) <= b2 k).
  { split; [apply fl_ge; [apply fl_fmt, fmt_0|lra]|apply fl_le; [apply fl_fmt, fmt_b2; lia|lra]]. }
  destruct (dadd_ok x y Fx Fy) as [A1 A2]; [rewrite Rabs_pos_eq by lra; apply Rle_lt_trans with (1 := proj2 R); apply bpow_lt; lia|].
  rewrite A2. split; [exact A1|]. split; [reflexivity|].
  split; [apply fl_ge; [apply fl_fmt, fmt_val|lra]|]. split; [apply fl_ge; [apply fl_fmt, fmt_val|lra]|lra].
Qed.

(** Root of a sum of squares, [s] the double under the root. *)
Lemma root_ge : forall s d, fin s -> val (sq d) <= val s -> val (sq d) = fl (val d * val d) -> b2 (-511) <= Rabs (val d) ->
  Rabs (val d) <= fl (sqrt (val s)).
Proof.
  intros s d Fs H E B. rewrite <- (sqrt_of_square_abs (val d)) by (auto; apply fmt_val). apply fl_mono. apply sqrt_le_1_alt. rewrite <- E. exact H.
Qed.

Definition far (x c : double) : Prop := b2 (-511) <= Rabs (val x - val c).

Lemma far_diff : forall x c, far x c -> b2 (-511) <= Rabs (fl (val x - val c)).
Proof.
  intros x c H. apply abs_round_ge_generic; auto with typeclass_instances. apply (fmt_b2 (-511)). lia.
Qed.

Lemma moderate : forall x c, fin x -> fin c -> Rabs (val x) <= b2 510 -> Rabs (val c) <= b2 510 ->
  fin (dsub x c) /\ val (dsub x c) = fl (val x - val c) /\ Rabs (val (dsub x c)) <= b2 511.
Proof.
  intros x c Fx Fc Hx Hc. assert (E : b2 511 = 2 * b2 510) by (change 511%Z with (1 + 510)%Z; rewrite bpow_plus; reflexivity).
  assert (B : Rabs (fl (val x - val c)) <= b2 511).
  { apply abs_round_le_generic; auto with typeclass_instances; [apply (fmt_b2 511); lia|].
    apply Rle_trans with (1 := Rabs_triang _ _). rewrite Rabs_Ropp. lra. }
  destruct (dsub_ok x c Fx Fc) as [A1 A2]; [apply Rle_lt_trans with (1 := B); apply bpow_lt; lia|]. rewrite A2. auto.
Qed.

Lemma radius3 : forall x y z c0 c1 c2, (forall v, In v [x; y; z; c0; c1; c2] -> fin v /\ Rabs (val v) <= b2 510) ->
  let S := dadd (dadd (sq (dsub x c0)) (sq (dsub y c1))) (sq (dsub z c2)) in
  let r := dsqrt S in
  fin r /\ 0 <= val S /\ val r = fl (sqrt (val S)) /\ 0 <= val r /\
  (forall p c, In (p, c) [(x, c0); (y, c1); (z, c2)] -> val (sq (dsub p c)) <= val S /\ val (sq (dsub p c)) = fl (val (dsub p c) * val (dsub p c))).
Proof.
  intros x y z c0 c1 c2 HI S r.
  destruct (HI x), (HI y), (HI z), (HI c0), (HI c1), (HI c2); cbn; auto 8.
  destruct (moderate x c0) as (Fx & Ex & Bx); auto. destruct (moderate y c1) as (Fy & Ey & By); auto. destruct (moderate z c2) as (Fz & Ez & Bz); auto.
  destruct (sq_ok _ Fx Bx) as (X1 & X2 & X3). destruct (sq_ok _ Fy By) as (Y1 & Y2 & Y3). destruct (sq_ok _ Fz Bz) as (Z1 & Z2 & Z3).
  set (dx := dsub x c0) in *. set (dy := dsub y c1) in *. set (dz := dsub z c2) in *.
  assert (E23 : b2 1023 = 2 * b2 1022) by (change 1023%Z with (1 + 1022)%Z; rewrite bpow_plus; reflexivity).
  assert (P : 0 < b2 1022) by apply bpow_gt_0.
  destruct (add_nonneg (sq dx) (sq dy) 1023) as (A1 & A2 & A3 & A4 & A5); auto; try lra; try lia.
  (* the second sum stays below 2^1024 *)
  set (T := dadd (sq dx) (sq dy)) in *.
  assert (F3 : fmt (3 * b2 1022)).
  { apply generic_format_FLT. exists (Float radix2 3 1022); cbn [Fnum Fexp]; [unfold F2R; cbn [Fnum Fexp]; ring|reflexivity|lia]. }
  assert (B : 0 <= fl (val T + val (sq dz)) <= 3 * b2 1022).
  { split; [apply fl_ge; [apply fl_fmt, fmt_0|lra]|apply fl_le; [apply fl_fmt; exact F3|lra]]. }
  assert (E24 : b2 1024 = 4 * b2 1022) by (change 1024%Z with (2 + 1022)%Z; rewrite bpow_plus; reflexivity).
  destruct (dadd_ok T (sq dz) A1 Z1) as [S1 S2]; [rewrite Rabs_pos_eq by lra; lra|]. fold S in S1, S2.
  assert (S3 : val T <= val S) by (rewrite S2; apply fl_ge; [apply fl_fmt, fmt_val|lra]).
  assert (S4 : val (sq dz) <= val S) by (rewrite S2; apply fl_ge; [apply fl_fmt, fmt_val|lra]).
  assert (S0 : 0 <= val S) by lra.
  destruct (dsqrt_ok S S1 S0) as [R1 R2]. fold r in R1, R2. split; [exact R1|]. split; [exact S0|]. split; [exact R2|]. split.
  - rewrite R2. apply fl_ge; [apply fl_fmt, fmt_0|apply sqrt_pos].
  - intros p c [E|[E|[E|[]]]]; injection E as <- <-; fold dx dy dz; split; auto; lra.
Qed.

(** Some coordinate at least [2^-511] (about 1.5e-154) from the centre and all
    at most [2^510]: the radius is at least every coordinate difference, so the
    colatitude is never NaN and within [[0, pi]]. *)
Theorem C80_colatitude : forall arctan2 arccos x y z c0 c1 c2, arccos_ok arccos ->
  (forall v, In v [x; y; z; c0; c1; c2] -> fin v /\ Rabs (val v) <= b2 510) ->
  far x c0 \/ far y c1 \/ far z c2 ->
  let '(r, _, theta) := cart2sphere_d arctan2 arccos x y z c0 c1 c2 in
  fin r /\ 0 < val r /\ (forall p c, In (p, c) [(x, c0); (y, c1); (z, c2)] -> Rabs (val (dsub p c)) <= val r) /\
  fin theta /\ 0 <= val theta <= tau / 2.
Proof.
  intros f g x y z c0 c1 c2 Hg HI HF. unfold cart2sphere_d.
  destruct (radius3 x y z c0 c1 c2 HI) as (R1 & S0 & R2 & R3 & R4).
  set (S := dadd (dadd _ _) _) in *. set (r := dsqrt S) in *.
  assert (FS : fin S).
  { unfold r in R1. unfold fin, dsqrt in *. destruct (proj2 (@Bsqrt_correct 53 1024 p53 p1024 mode_NE S)) as [Q _]. rewrite Q in R1. destruct S; auto; discriminate. }
  assert (BIG : forall p c, In (p, c) [(x, c0); (y, c1); (z, c2)] -> b2 (-511) <= Rabs (val (dsub p c)) -> Rabs (val (dsub p c)) <= val r).
  { intros p c I B. destruct (R4 p c I) as [Q1 Q2]. rewrite R2. now apply root_ge. }
  assert (DV : forall p c, In (p, c) [(x, c0); (y, c1); (z, c2)] -> fin (dsub p c) /\ val (dsub p c) = fl (val p - val c)).
  { intros p c I. assert (J : In p [x; y; z; c0; c1; c2] /\ In c [x; y; z; c0; c1; c2]) by (destruct I as [E|[E|[E|[]]]]; injection E as <- <-; cbn; auto 10).
    destruct (HI p (proj1 J)), (HI c (proj2 J)). destruct (moderate p c) as (A & B & _); auto. }
  assert (RB : b2 (-511) <= val r).
  { destruct HF as [H|[H|H]]; apply far_diff in H.
    - destruct (DV x c0) as [_ E]; [cbn; auto|]. rewrite <- E in H. apply Rle_trans with (1 := H). apply BIG; [cbn; auto|exact H].
    - destruct (DV y c1) as [_ E]; [cbn; auto|]. rewrite <- E in H. apply Rle_trans with (1 := H). apply BIG; [cbn; auto|exact H].
    - destruct (DV z c2) as [_ E]; [cbn; auto|]. rewrite <- E in H. apply Rle_trans with (1 := H). apply BIG; [cbn; auto|exact H]. }
  assert (P : 0 < b2 (-511)) by apply bpow_gt_0.
  assert (ALL : forall p c, In (p, c) [(x, c0); (y, c1); (z, c2)] -> Rabs (val (dsub p c)) <= val r).
  { intros p c I. destruct (Rle_or_lt (b2 (-511)) (Rabs (val (dsub p c)))); [now apply BIG|lra]. }
  split; [exact R1|]. split; [lra|]. split; [exact ALL|].
  rewrite deq_ok by (auto; apply fin_zero). rewrite val_zero, Req_bool_false by lra. cbn [negb].
  assert (IZ : In (z, c2) [(x, c0); (y, c1); (z, c2)]) by (cbn; auto). destruct (DV z c2 IZ) as [FZ _]. pose proof (ALL z c2 IZ) as BZ.
  assert (Q : Rabs (val (dsub z c2) / val r) <= 1).
  { unfold Rdiv. rewrite Rabs_mult, (Rabs_pos_eq (/ val r)) by (left; apply Rinv_0_lt_compat; lra).
    apply Rmult_le_reg_r with (val r); [lra|]. rewrite Rmult_assoc, Rinv_l by lra. lra. }
  assert (Q' : Rabs (fl (val (dsub z c2) / val r)) <= 1) by (apply abs_round_le_generic; auto with typeclass_instances; apply fmt_1).
  destruct (ddiv_ok (dsub z c2) r FZ) as [D1 D2]; [lra|apply small_b2; lra|]. rewrite <- D2 in Q'. apply Rabs_le_inv in Q'.
  apply (proj1 (Hg _ D1)). lra.
Qed.
Print Assumptions C80_colatitude.

(** At the centre itself the colatitude is 0. *)
Theorem C80_centre : forall arctan2 arccos x y z, fin x -> fin y -> fin z ->
  let '(r, _, theta) := cart2sphere_d arctan2 arccos x y z x y z in val r = 0 /\ fin r /\ theta = dzero.
Proof.
  intros f g x y z Fx Fy Fz. unfold cart2sphere_d.
  assert (Z : forall v, fin v -> fin (dsub v v) /\ val (dsub v v) = 0 /\ val (sq (dsub v v)) = 0 /\ fin (sq (dsub v v))).
  { intros v Fv. assert (E : fl (val v - val v) = 0) by (rewrite Rminus_diag_eq by reflexivity; apply fl_fmt, fmt_0).
    destruct (dsub_ok v v Fv Fv) as [A1 A2]; [rewrite E, Rabs_R0; apply bpow_gt_0|]. rewrite E in A2. split; [exact A1|]. split; [exact A2|].
    assert (E2 : fl (val (dsub v v) * val (dsub v v)) = 0) by (rewrite A2, Rmult_0_l; apply fl_fmt, fmt_0).
    destruct (dmul_ok (dsub v v) (dsub v v) A1 A1) as [B1 B2]; [rewrite E2, Rabs_R0; apply bpow_gt_0|]. unfold sq. rewrite B2. auto. }
  destruct (Z x Fx) as (_ & _ & X1 & X2). destruct (Z y Fy) as (_ & _ & Y1 & Y2). destruct (Z z Fz) as (_ & _ & Z1 & Z2).
  assert (P : b2 0 = 1) by reflexivity.
  destruct (add_nonneg (sq (dsub x x)) (sq (dsub y y)) 0) as (A1 & A2 & _); auto; try lra; try lia.
  rewrite X1, Y1, Rplus_0_r, (fl_fmt 0 fmt_0) in A2. set (T := dadd (sq (dsub x x)) (sq (dsub y y))) in *.
  destruct (add_nonneg T (sq (dsub z z)) 0) as (B1 & B2 & _); auto; try lra; try lia.
  rewrite A2, Z1, Rplus_0_r, (fl_fmt 0 fmt_0) in B2.
  destruct (dsqrt_ok _ B1 ltac:(lra)) as [R1 R2]. rewrite B2, sqrt_0, (fl_fmt 0 fmt_0) in R2.
  split; [exact R2|]. split; [exact R1|]. rewrite deq_ok by (auto; apply fin_zero). rewrite val_zero, Req_bool_true by exact R2. reflexivity.
Qed.
Print Assumptions C80_centre.

Lemma val_pos_dbl : forall (d : double) m e, B2SF d = SpecFloat.S754_finite false m e -> fin d /\ val d = IZR (Zpos m) * b2 e.
Proof. intros d m e E. unfold fin, val. destruct d as [s|s| |s m' e' B]; try discriminate. cbn [B2SF] in E. injection E as -> -> ->. split; reflexivity. Qed.

(** Both limits are needed: a point very close to the centre gets colatitude
    NaN, a point very far along the pole gets the colatitude of the equator. *)
Theorem C80_tiny_refuted : exists z, fin z /\ 0 < val z /\ forall arctan2 arccos, arccos_ok arccos ->
  snd (cart2sphere_d arctan2 arccos dzero dzero z dzero dzero dzero) = B754_nan.
Proof.
  exists (dbl 3 (-538)). destruct (val_pos_dbl (dbl 3 (-538)) 6755399441055744 (-589) ltac:(vm_compute; reflexivity)) as [F V].
  split; [exact F|]. split; [rewrite V; apply Rmult_lt_0_compat; [apply IZR_lt; reflexivity|apply bpow_gt_0]|]. intros f g Hg.
  cbn [snd cart2sphere_d]. set (q := ddiv _ _). set (b := negb _). assert (Eb : b = true) by (vm_compute; reflexivity). rewrite Eb.
  destruct (val_pos_dbl q 4776788754394329 (-52) ltac:(vm_compute; reflexivity)) as [Fq Vq].
  apply (proj2 (Hg q Fq)). rewrite Vq, Rabs_pos_eq.
  - apply Rmult_lt_reg_r with (b2 52); [apply bpow_gt_0|]. rewrite Rmult_assoc, <- bpow_plus. change (b2 (-52 + 52)) with 1. rewrite Rmult_1_l, Rmult_1_r.
    change (b2 52) with (IZR 4503599627370496). apply IZR_lt. reflexivity.
  - apply Rmult_le_pos; [apply IZR_le; discriminate|apply bpow_ge_0].
Qed.
Print Assumptions C80_tiny_refuted.

Theorem C80_huge_refuted : exists z, fin z /\ 0 < val z /\ forall arctan2 arccos,
  let '(r, _, theta) := cart2sphere_d arctan2 arccos dzero dzero z dzero dzero dzero in
  r = B754_infinity false /\ theta = arccos dzero.
Proof.
  exists (dbl 1 600). destruct (val_pos_dbl (dbl 1 600) 4503599627370496 548 ltac:(vm_compute; reflexivity)) as [F V].
  split; [exact F|]. split; [rewrite V; apply Rmult_lt_0_compat; [apply IZR_lt; reflexivity|apply bpow_gt_0]|]. intros f g.
  unfold cart2sphere_d. set (r := dsqrt _). set (q := ddiv _ _). set (b := negb _). assert (Eb : b = true) by (vm_compute; reflexivity). rewrite Eb.
  split; [apply B2SF_inj; vm_compute; reflexivity|]. apply (f_equal g). apply B2SF_inj. vm_compute. reflexivity.
Qed.
Print Assumptions C80_huge_refuted.

(** [ortho2cart]: the height is between 0 and the radius, or the fill value. *)
Theorem C80_ortho : forall x y r fill, (forall v, In v [x; y; r] -> fin v /\ Rabs (val v) <= b2 511) -> b2 (-511) <= Rabs (val r) ->
  let z := ortho2cart_d x y r fill in z = fill \/ fin z /\ 0 <= val z <= Rabs (val r).
Proof.
  intros x y r fill HI HR z. destruct (HI x), (HI y), (HI r); cbn; auto. unfold z, ortho2cart_d.
  destruct (sq_ok x) as (X1 & X2 & X3); auto. destruct (sq_ok y) as (Y1 & Y2 & Y3); auto. destruct (sq_ok r) as (R1 & R2 & R3); auto.
  assert (E23 : b2 1023 = 2 * b2 1022) by (change 1023%Z with (1 + 1022)%Z; rewrite bpow_plus; reflexivity).
  destruct (add_nonneg (sq x) (sq y) 1023) as (A1 & A2 & A3 & A4 & A5); auto; try lra; try lia.
  set (S := dadd (sq x) (sq y)) in *. rewrite dlt_ok by auto. destruct (Rlt_bool_spec (val S) (val (sq r))) as [L|L]; [right|left; reflexivity].
  assert (B : 0 <= fl (val (sq r) - val S) <= val (sq r)).
  { split; [apply fl_ge; [apply fl_fmt, fmt_0|lra]|apply fl_le; [apply fl_fmt, fmt_val|lra]]. }
  destruct (dsub_ok (sq r) S R1 A1) as [D1 D2].
  { rewrite Rabs_pos_eq by lra. apply Rle_lt_trans with (1 := proj2 B). apply Rle_lt_trans with (1 := proj2 R3). apply bpow_lt. lia. }
  destruct (dsqrt_ok _ D1 ltac:(lra)) as [Q1 Q2]. split; [exact Q1|]. rewrite Q2, D2. split.
  - apply fl_ge; [apply fl_fmt, fmt_0|apply sqrt_pos].
  - rewrite <- (sqrt_of_square_abs (val r)) by (auto; apply fmt_val). apply fl_mono, sqrt_le_1_alt. rewrite <- R2. lra.
Qed.
Print Assumptions C80_ortho.

(** ** C80: accuracy of the radius *)

Definition eps : R := b2 (-53).

Lemma eps_bounds : 0 < eps <= / 1024.
Proof. unfold eps. split; [apply bpow_gt_0|]. change (/ 1024) with (b2 (-10)). apply bpow_le. lia. Qed.

Lemma fl_rel : forall x, b2 (-1022) <= Rabs x -> Rabs (fl x - x) <= eps * Rabs x.
Proof.
  intros x H. pose proof (relative_error_N_FLT radix2 (-1074) 53 p53 (fun n => negb (Z.even n)) x H) as E. cbn [Z.opp Z.add] in E.
  apply Rle_trans with (1 := E). apply Rmult_le_compat_r; [apply Rabs_pos|]. unfold eps. change (-53)%Z with (-1 + -52)%Z. rewrite bpow_plus. apply Req_le. reflexivity.
Qed.

(** Sums lose at most a relative [2^-53], even near underflow. *)
Lemma fl_sum_rel : forall x y, fmt x -> fmt y -> Rabs (fl (x + y) - (x + y)) <= eps * Rabs (x + y).
Proof.
  intros x y Fx Fy. destruct (Rle_or_lt (Rabs (x + y)) (b2 (-1021))) as [L|L].
  - rewrite fl_fmt.
    + rewrite Rminus_diag_eq, Rabs_R0 by reflexivity. apply Rmult_le_pos; [apply bpow_ge_0|apply Rabs_pos].
    + apply (FLT_format_plus_small radix2 (-1074) 53); auto.
  - apply fl_rel. apply Rle_trans with (2 := Rlt_le _ _ L). apply bpow_le. lia.
Qed.

Lemma fl_any : forall x, Rabs (fl x - x) <= eps * Rabs x + b2 (-1075).
Proof.
  intros x. destruct (Rle_or_lt (b2 (-1022)) (Rabs x)) as [L|L].
  - pose proof (fl_rel x L). pose proof (bpow_ge_0 radix2 (-1075)). lra.
  - assert (Rabs (fl x - x) <= b2 (-1021 - 54)) by (apply fl_err; [apply Rlt_le_trans with (1 := L); apply bpow_le; lia|lia]).
    change (-1021 - 54)%Z with (-1075)%Z in H. assert (0 <= eps * Rabs x) by (apply Rmult_le_pos; [apply bpow_ge_0|apply Rabs_pos]). lra.
Qed.

Lemma square_between : forall d D q, Rabs (D - d) <= eps * Rabs d -> q = fl (D * D) ->
  (1 - 3 * eps) * (d * d) - b2 (-1075) <= q <= (1 + 4 * eps) * (d * d) + b2 (-1075).
Proof.
  intros d D q H ->. pose proof eps_bounds as E. pose proof (fl_any (D * D)) as A. rewrite (Rabs_pos_eq (D * D)) in A by nra. apply Rabs_le_inv in A.
  assert (U : (1 - eps) * (1 - eps) * (d * d) <= D * D <= (1 + eps) * (1 + eps) * (d * d)).
  { assert (B : (1 - eps) * Rabs d <= Rabs D <= (1 + eps) * Rabs d).
    { pose proof (Rabs_triang (D - d) d). replace (D - d + d) with D in H0 by ring. pose proof (Rabs_triang (d - D) D). replace (d - D + D) with d in H1 by ring.
      rewrite (Rabs_minus_sym d D) in H1. lra. }
    assert (Ed : d * d = Rabs d * Rabs d) by (rewrite <- Rabs_mult; symmetry; apply Rabs_pos_eq; nra).
    assert (ED : D * D = Rabs D * Rabs D) by (rewrite <- Rabs_mult; symmetry; apply Rabs_pos_eq; nra).
    pose proof (Rabs_pos d). pose proof (Rabs_pos D). rewrite Ed, ED. split.
    - replace ((1 - eps) * (1 - eps) * (Rabs d * Rabs d)) with (((1 - eps) * Rabs d) * ((1 - eps) * Rabs d)) by ring. apply Rmult_le_compat; try lra; apply Rmult_le_pos; lra.
    - replace ((1 + eps) * (1 + eps) * (Rabs d * Rabs d)) with (((1 + eps) * Rabs d) * ((1 + eps) * Rabs d)) by ring. apply Rmult_le_compat; lra. }
  assert (P : 0 <= d * d) by nra. set (q := d * d) in *. set (Q := D * D) in *. clearbody q Q. clear H. split.
  - apply Rle_trans with ((1 - eps) * Q - b2 (-1075)); [|lra]. apply Rplus_le_compat_r.
    apply Rle_trans with ((1 - eps) * ((1 - eps) * (1 - eps) * q)); [|apply Rmult_le_compat_l; lra].
    rewrite <- !Rmult_assoc. apply Rmult_le_compat_r; [exact P|]. nra.
  - apply Rle_trans with ((1 + eps) * Q + b2 (-1075)); [lra|]. apply Rplus_le_compat_r.
    apply Rle_trans with ((1 + eps) * ((1 + eps) * (1 + eps) * q)); [apply Rmult_le_compat_l; lra|].
    rewrite <- !Rmult_assoc. apply Rmult_le_compat_r; [exact P|]. nra.
Qed.

(** From the sum of squares to the root. *)
Lemma root_close : forall S s, 0 < S -> b2 (-1022) <= s -> (1 - 9 * eps) * S <= s <= (1 + 10 * eps) * S ->
  Rabs (fl (sqrt s) - sqrt S) <= b2 (-50) * sqrt S.
Proof.
  intros S s PS Ls Hs. pose proof eps_bounds as E. assert (E8 : b2 (-50) = 8 * eps) by (unfold eps; change (-50)%Z with (3 + -53)%Z; rewrite bpow_plus; reflexivity).
  assert (Ps : 0 < s) by (apply Rlt_le_trans with (2 := Ls); apply bpow_gt_0).
  pose proof (sqrt_lt_R0 S PS) as P1. pose proof (sqrt_lt_R0 s Ps) as P2.
  assert (Q1 : sqrt S * sqrt S = S) by (apply sqrt_sqrt; lra). assert (Q2 : sqrt s * sqrt s = s) by (apply sqrt_sqrt; lra).
  set (a := sqrt S) in *. set (b := sqrt s) in *.
  assert (B : (1 - 5 * eps) * a <= b <= (1 + 5 * eps) * a).
  { split; apply Rnot_lt_le; intros K.
    - assert (b * b < ((1 - 5 * eps) * a) * ((1 - 5 * eps) * a)) by (apply Rmult_le_0_lt_compat; lra).
      assert ((1 - 10 * eps + 25 * (eps * eps)) * S <= (1 - 9 * eps) * S) by (apply Rmult_le_compat_r; [lra|nra]). nra.
    - assert (((1 + 5 * eps) * a) * ((1 + 5 * eps) * a) < b * b) by (apply Rmult_le_0_lt_compat; try lra; apply Rmult_le_pos; lra).
      assert ((1 + 10 * eps) * S <= (1 + 10 * eps + 25 * (eps * eps)) * S) by (apply Rmult_le_compat_r; [lra|nra]). nra. }
  assert (F : Rabs (fl b - b) <= eps * b).
  { rewrite <- (Rabs_pos_eq b) at 3 by lra. apply fl_rel. rewrite Rabs_pos_eq by lra. unfold b. apply Rle_trans with (b2 (-511)); [apply bpow_le; lia|].
    replace (b2 (-511)) with (sqrt (b2 (-1022))); [apply sqrt_le_1_alt; exact Ls|]. change (-1022)%Z with (-511 + -511)%Z. rewrite bpow_plus. apply sqrt_square, bpow_ge_0. }
  apply Rabs_le_inv in F. rewrite E8. apply Rabs_le. assert (eps * b <= eps * ((1 + 5 * eps) * a)) by (apply Rmult_le_compat_l; lra).
  assert (eps * ((1 + 5 * eps) * a) <= 2 * eps * a) by (rewrite <- !Rmult_assoc; apply Rmult_le_compat_r; [lra|nra]). split; lra.
Qed.

(** The distance returned is within a relative [2^-50] of the exact one. *)
Theorem C80_radius : forall arctan2 arccos x y z c0 c1 c2,
  (forall v, In v [x; y; z; c0; c1; c2] -> fin v /\ Rabs (val v) <= b2 510) -> far x c0 \/ far y c1 \/ far z c2 ->
  let rho := sqrt ((val x - val c0) * (val x - val c0) + (val y - val c1) * (val y - val c1) + (val z - val c2) * (val z - val c2)) in
  Rabs (val (fst (fst (cart2sphere_d arctan2 arccos x y z c0 c1 c2))) - rho) <= b2 (-50) * rho.
Proof.
  intros f g x y z c0 c1 c2 HI HF rho. unfold cart2sphere_d. cbn [fst].
  destruct (HI x) as [Fx Bx], (HI y) as [Fy By], (HI z) as [Fz Bz], (HI c0) as [F0 B0], (HI c1) as [F1 B1], (HI c2) as [F2 B2]; cbn; auto 8.
  destruct (moderate x c0) as (X1 & X2 & X3); auto. destruct (moderate y c1) as (Y1 & Y2 & Y3); auto. destruct (moderate z c2) as (Z1 & Z2 & Z3); auto.
  assert (HS : b2 (-1022) <= (val x - val c0) * (val x - val c0) + (val y - val c1) * (val y - val c1) + (val z - val c2) * (val z - val c2)).
  { assert (SQ : forall p c, far p c -> b2 (-1022) <= (val p - val c) * (val p - val c)).
    { intros p c H. unfold far in H. change (-1022)%Z with (-511 + -511)%Z. rewrite bpow_plus. rewrite <- (Rabs_pos_eq ((val p - val c) * (val p - val c))) by exact (Rle_0_sqr _). rewrite Rabs_mult.
      apply Rmult_le_compat; try apply bpow_ge_0; exact H. }
    pose proof (Rle_0_sqr (val x - val c0)) as N1. pose proof (Rle_0_sqr (val y - val c1)) as N2. pose proof (Rle_0_sqr (val z - val c2)) as N3. unfold Rsqr in N1, N2, N3.
    destruct HF as [H|[H|H]]; apply SQ in H; lra. }
  destruct (radius3 x y z c0 c1 c2 HI) as (R1 & S0 & R2 & _). cbv zeta in R1, S0, R2.
  destruct (sq_ok _ X1 X3) as (X4 & X5 & X6). destruct (sq_ok _ Y1 Y3) as (Y4 & Y5 & Y6). destruct (sq_ok _ Z1 Z3) as (Z4 & Z5 & Z6).
  assert (E23 : b2 1023 = 2 * b2 1022) by (change 1023%Z with (1 + 1022)%Z; rewrite bpow_plus; reflexivity).
  destruct (add_nonneg (sq (dsub x c0)) (sq (dsub y c1)) 1023) as (A1 & A2 & A3 & A4 & A5); auto; try lra; try lia.
  set (qx := sq (dsub x c0)) in *. set (qy := sq (dsub y c1)) in *. set (qz := sq (dsub z c2)) in *. set (T := dadd qx qy) in *.
  assert (E24 : b2 1024 = 4 * b2 1022) by (change 1024%Z with (2 + 1022)%Z; rewrite bpow_plus; reflexivity).
  assert (PP : 0 < b2 1022) by apply bpow_gt_0.
  assert (F3 : fmt (3 * b2 1022)).
  { apply generic_format_FLT. exists (Float radix2 3 1022); cbn [Fnum Fexp]; [unfold F2R; cbn [Fnum Fexp]; ring|reflexivity|lia]. }
  assert (B : 0 <= fl (val T + val qz) <= 3 * b2 1022).
  { split; [apply fl_ge; [apply fl_fmt, fmt_0|lra]|apply fl_le; [apply fl_fmt; exact F3|lra]]. }
  destruct (dadd_ok T qz A1 Z4) as [S1 S2]; [rewrite Rabs_pos_eq by lra; lra|].
  rewrite R2. set (S := dadd T qz) in *. clearbody S.
  set (dx := val x - val c0) in *. set (dy := val y - val c1) in *. set (dz := val z - val c2) in *.
  assert (Hx : Rabs (val (dsub x c0) - dx) <= eps * Rabs dx) by (rewrite X2; unfold dx, Rminus; apply fl_sum_rel; [apply fmt_val|apply fmt_opp, fmt_val]).
  assert (Hy : Rabs (val (dsub y c1) - dy) <= eps * Rabs dy) by (rewrite Y2; unfold dy, Rminus; apply fl_sum_rel; [apply fmt_val|apply fmt_opp, fmt_val]).
  assert (Hz : Rabs (val (dsub z c2) - dz) <= eps * Rabs dz) by (rewrite Z2; unfold dz, Rminus; apply fl_sum_rel; [apply fmt_val|apply fmt_opp, fmt_val]).
  pose proof (square_between dx _ (val qx) Hx X5) as Qx. pose proof (square_between dy _ (val qy) Hy Y5) as Qy. pose proof (square_between dz _ (val qz) Hz Z5) as Qz.
  set (ax := dx * dx) in *. set (ay := dy * dy) in *. set (az := dz * dz) in *.
  assert (Px : 0 <= ax) by exact (Rle_0_sqr _). assert (Py : 0 <= ay) by exact (Rle_0_sqr _). assert (Pz : 0 <= az) by exact (Rle_0_sqr _).
  assert (G1 : Rabs (val T - (val qx + val qy)) <= eps * (val qx + val qy)).
  { rewrite A2. rewrite <- (Rabs_pos_eq (val qx + val qy)) at 3 by lra. apply fl_sum_rel; apply fmt_val. }
  assert (G2 : Rabs (val S - (val T + val qz)) <= eps * (val T + val qz)).
  { rewrite S2. rewrite <- (Rabs_pos_eq (val T + val qz)) at 3 by lra. apply fl_sum_rel; apply fmt_val. }
  assert (LS : b2 (-1022) <= val S).
  { assert (SQ : forall p c D, far p c -> D = fl (val p - val c) -> b2 (-1022) <= fl (D * D)).
    { intros p c D H E. apply far_diff in H. rewrite <- E in H. apply fl_ge; [apply fl_fmt, fmt_b2; lia|]. change (-1022)%Z with (-511 + -511)%Z. rewrite bpow_plus.
      rewrite <- (Rabs_pos_eq (D * D)) by exact (Rle_0_sqr _). rewrite Rabs_mult. apply Rmult_le_compat; try apply bpow_ge_0; exact H. }
    assert (ST : val T <= val S) by (rewrite S2; apply fl_ge; [apply fl_fmt, fmt_val|lra]).
    assert (SZ : val qz <= val S) by (rewrite S2; apply fl_ge; [apply fl_fmt, fmt_val|lra]).
    destruct HF as [H|[H|H]].
    - pose proof (SQ x c0 _ H X2). rewrite <- X5 in H0. lra.
    - pose proof (SQ y c1 _ H Y2). rewrite <- Y5 in H0. lra.
    - pose proof (SQ z c2 _ H Z2). rewrite <- Z5 in H0. lra. }
  apply Rabs_le_inv in G1. apply Rabs_le_inv in G2. pose proof eps_bounds as E.
  assert (ET : b2 (-1075) = eps * b2 (-1022)) by (unfold eps; rewrite <- bpow_plus; reflexivity).
  pose proof (bpow_gt_0 radix2 (-1022)) as P22. set (t := b2 (-1022)) in *.
  assert (Ht : b2 (-1075) <= eps * (ax + ay + az)) by (rewrite ET; apply Rmult_le_compat_l; lra).
  set (h := b2 (-1075)) in *. set (SS := ax + ay + az) in *.
  apply root_close; [lra|exact LS|].
  assert (M1 : (1 - 6 * eps) * SS <= val qx + val qy + val qz <= (1 + 7 * eps) * SS) by (unfold SS in *; lra).
  set (q := val qx + val qy + val qz) in *.
  assert (M2 : (1 - eps) * ((1 - eps) * q) <= val S <= (1 + eps) * ((1 + eps) * q)).
  { assert (0 <= eps * val qz) by (apply Rmult_le_pos; lra).
    assert (N1 : (1 - eps) * q <= val T + val qz <= (1 + eps) * q) by (unfold q; lra).
    split; [apply Rle_trans with ((1 - eps) * (val T + val qz)); [apply Rmult_le_compat_l; lra|lra]|].
    apply Rle_trans with ((1 + eps) * (val T + val qz)); [lra|apply Rmult_le_compat_l; lra]. }
  assert (PS : 0 < SS) by lra. split.
  - apply Rle_trans with (2 := proj1 M2). apply Rle_trans with ((1 - eps) * ((1 - eps) * ((1 - 6 * eps) * SS))).
    + rewrite <- !Rmult_assoc. apply Rmult_le_compat_r; [lra|]. nra.
    + apply Rmult_le_compat_l; [lra|]. apply Rmult_le_compat_l; lra.
  - apply Rle_trans with (1 := proj2 M2). apply Rle_trans with ((1 + eps) * ((1 + eps) * ((1 + 7 * eps) * SS))).
    + apply Rmult_le_compat_l; [lra|]. apply Rmult_le_compat_l; lra.
    + rewrite <- !Rmult_assoc. apply Rmult_le_compat_r; [lra|]. assert (0 <= eps * eps <= eps * / 1024) by (split; nra). nra.
Qed.
Print Assumptions C80_radius.

(** A point inside the unit sphere: all hypotheses hold. *)
Example C80_example : fin (dbl 1 (-1)) /\ Rabs (val (dbl 1 (-1))) <= b2 510 /\ far (dbl 1 (-1)) dzero /\
  arccos_ok (fun q => if dlt q (dbl (-1) 0) || dlt (dbl 1 0) q then B754_nan else dzero) /\ arctan2_ok (fun _ _ => dzero).
Proof.
  destruct (val_pos_dbl (dbl 1 (-1)) 4503599627370496 (-53) ltac:(vm_compute; reflexivity)) as [F V].
  assert (V' : val (dbl 1 (-1)) = b2 (-1)) by (rewrite V; change (IZR 4503599627370496) with (b2 52); rewrite <- bpow_plus; reflexivity).
  split; [exact F|]. split; [rewrite V', Rabs_pos_eq by apply bpow_ge_0; apply bpow_le; lia|]. split.
  { unfold far. rewrite V', val_zero, Rminus_0_r, Rabs_pos_eq by apply bpow_ge_0. apply bpow_le. lia. }
  pose proof tau_bounds as TB. split.
  - destruct (val_pos_dbl (dbl 1 0) 4503599627370496 (-52) ltac:(vm_compute; reflexivity)) as [F1 V1].
    assert (V1' : val (dbl 1 0) = 1) by (rewrite V1; change (IZR 4503599627370496) with (b2 52); rewrite <- bpow_plus; reflexivity).
    assert (M1 : fin (dbl (-1) 0) /\ val (dbl (-1) 0) = -1).
    { assert (E : B2SF (dbl (-1) 0) = SpecFloat.S754_finite true 4503599627370496 (-52)) by (vm_compute; reflexivity).
      unfold fin, val. destruct (dbl (-1) 0) as [s|s| |s m e B]; try discriminate. cbn [B2SF] in E. injection E as -> -> ->. split; [reflexivity|].
      unfold B2R, F2R. cbn [Fnum Fexp cond_Zopp]. change (- 4503599627370496)%Z with (Z.opp 4503599627370496). rewrite opp_IZR.
      change (IZR 4503599627370496) with (b2 52). rewrite Ropp_mult_distr_l_reverse, <- bpow_plus. reflexivity. }
    destruct M1 as [F2 V2]. intros q Fq. rewrite !dlt_ok by auto. rewrite V1', V2. split; intros H.
    + rewrite !Rlt_bool_false by lra. cbn [orb]. rewrite val_zero. split; [apply fin_zero|lra].
    + destruct (Rlt_bool_spec (val q) (-1)); [reflexivity|]. destruct (Rlt_bool_spec 1 (val q)); [reflexivity|].
      exfalso. assert (Rabs (val q) <= 1) by (apply Rabs_le; lra). lra.
  - intros y x _ _. rewrite val_zero. split; [apply fin_zero|lra].
Qed.

(** ** C81: shifted longitudes *)

(** A longitude in [[0, 2 pi]] shifted by less than a full turn stays in the
    closed range and is within [2^-50] of the exact shift, modulo the double
    [2 pi]; other shifts are refused. *)
Theorem C81_shift : forall phi dphi, fin phi -> 0 <= val phi <= tau -> fin dphi ->
  if Rlt_dec (Rabs (val dphi)) tau then
    exists s, phi_shift_d phi dphi = Ok s /\ fin s /\ 0 <= val s <= tau /\
      exists k, (-1 <= k <= 1)%Z /\ Rabs (val s - (val phi + val dphi + IZR k * tau)) <= b2 (-50)
  else phi_shift_d phi dphi = Err AssertionError.
Proof.
  intros phi dphi Fp Hp Fd. unfold phi_shift_d. destruct twopi_val as [T1 T2]. destruct mtwopi_val as [M1 M2].
  rewrite !dlt_ok by auto. rewrite M2, T2. pose proof tau_bounds as TB. pose proof b2_51 as E51. pose proof b2_small as SB.
  destruct (Rlt_dec (Rabs (val dphi)) tau) as [L|L].
  - apply Rabs_def2 in L. rewrite !Rlt_bool_true by lra. cbn [andb py_assert].
    assert (BS : - tau <= fl (val phi + val dphi) <= 2 * tau).
    { split.
      - apply fl_ge; [apply fl_fmt, fmt_opp, fmt_tau|lra].
      - apply fl_le; [|lra]. apply fl_fmt. apply generic_format_FLT. exists (Float radix2 7074237752028440 (-49)); cbn [Fnum Fexp]; [|reflexivity|lia].
        unfold tau, F2R. cbn [Fnum Fexp]. change (-49)%Z with (1 + -50)%Z. rewrite bpow_plus. change (b2 1) with 2. ring. }
    destruct (dadd_ok phi dphi Fp Fd) as [S1 S2]; [apply small_b2, Rabs_le; lra|].
    set (s := dadd phi dphi) in *. rewrite <- S2 in BS.
    assert (E1 : Rabs (val s - (val phi + val dphi)) <= b2 (-50)).
    { rewrite S2. change (-50)%Z with (4 - 54)%Z. apply fl_err; [|lia]. change (b2 4) with 16. apply Rabs_def1; lra. }
    rewrite !dlt_ok by (auto using fin_zero). rewrite T2, val_zero.
    destruct (Rlt_bool_spec tau (val s)) as [H|H].
    + assert (X : fl (val s - tau) = val s - tau).
      { apply fl_fmt. apply sterbenz; auto with typeclass_instances; [apply fmt_val|apply fmt_tau|lra]. }
      destruct (dsub_ok s twopi S1 T1) as [D1 D2]; [rewrite T2, X; apply small_b2, Rabs_le; lra|]. rewrite T2, X in D2.
      exists (dsub s twopi). split; [reflexivity|]. split; [exact D1|]. rewrite D2. split; [lra|]. exists (-1)%Z. split; [lia|].
      replace (val s - tau - (val phi + val dphi + -1 * tau)) with (val s - (val phi + val dphi)) by ring. exact E1.
    + destruct (Rlt_bool_spec (val s) 0) as [K|K].
      * destruct (wrap_spec s S1 ltac:(lra)) as (W1 & W2 & _ & W3). unfold wrap in *. rewrite dlt_ok in * by (auto using fin_zero). rewrite val_zero in *.
        rewrite Rlt_bool_true in * by exact K. exists (dadd s twopi). split; [reflexivity|]. split; [exact W1|]. split; [exact W2|].
        exists 1%Z. split; [lia|]. destruct (Rlt_dec (val s) 0) as [_|N]; [|lra].
        assert (E2 : Rabs (val s - (val phi + val dphi)) <= b2 (-51)).
        { rewrite S2. change (-51)%Z with (3 - 54)%Z. apply fl_err; [|lia]. change (b2 3) with 8.
          assert (val phi + val dphi < 1); [|apply Rabs_def1; lra]. apply Rnot_le_lt. intros Q.
          assert (1 <= val s) by (rewrite S2; apply fl_ge; [apply fl_fmt, fmt_1|exact Q]). lra. }
        replace (val (dadd s twopi) - (val phi + val dphi + 1 * tau)) with ((val (dadd s twopi) - (val s + tau)) + (val s - (val phi + val dphi))) by ring.
        apply Rle_trans with (1 := Rabs_triang _ _). lra.
      * exists s. split; [reflexivity|]. split; [exact S1|]. split; [lra|]. exists 0%Z. split; [lia|].
        replace (val s - (val phi + val dphi + 0 * tau)) with (val s - (val phi + val dphi)) by ring. exact E1.
  - destruct (Rlt_bool_spec (- tau) (val dphi)); [|reflexivity]. destruct (Rlt_bool_spec (val dphi) tau); [|reflexivity].
    exfalso. apply L. apply Rabs_def1; lra.
Qed.
Print Assumptions C81_shift.

(** Infinite and NaN shifts are refused. *)
Theorem C81_not_finite : forall phi dphi, is_finite dphi = false -> phi_shift_d phi dphi = Err AssertionError.
Proof.
  intros phi dphi H. unfold phi_shift_d. destruct mtwopi_val as [M1 M2]. destruct twopi_val as [T1 T2].
  destruct dphi as [s|[]| |s m e B]; try discriminate; unfold dlt, Bltb; cbn [B2SF].
  - replace (SpecFloat.SFltb (B2SF mtwopi) (SpecFloat.S754_infinity true)) with false by (vm_compute; reflexivity). reflexivity.
  - replace (SpecFloat.SFltb (SpecFloat.S754_infinity false) (B2SF twopi)) with false by (vm_compute; reflexivity). rewrite andb_false_r. reflexivity.
  - replace (SpecFloat.SFltb (B2SF mtwopi) SpecFloat.S754_nan) with false by (vm_compute; reflexivity). reflexivity.
Qed.
Print Assumptions C81_not_finite.

(** An array is shifted element by element like a scalar. *)
Theorem C81_array : forall phi dphi, fin dphi -> (forall p, In p phi -> fin p /\ 0 <= val p <= tau) ->
  phi_shift_arr_d phi dphi = if Rlt_dec (Rabs (val dphi)) tau then mapM (fun p => phi_shift_d p dphi) phi else Err AssertionError.
Proof.
  intros phi dphi Fd HP. destruct twopi_val as [T1 T2]. destruct mtwopi_val as [M1 M2]. pose proof tau_bounds as TB.
  destruct (Rlt_dec (Rabs (val dphi)) tau) as [L|L].
  - assert (G : dlt mtwopi dphi && dlt dphi twopi = true).
    { rewrite !dlt_ok by auto. rewrite M2, T2. apply Rabs_def2 in L. rewrite !Rlt_bool_true by lra. reflexivity. }
    unfold phi_shift_arr_d. rewrite G. cbn [py_assert]. rewrite !map_map. induction phi as [|p phi IH]; [reflexivity|]. cbn [mapM map].
    pose proof (C81_shift p dphi (proj1 (HP p (or_introl eq_refl))) (proj2 (HP p (or_introl eq_refl))) Fd) as C.
    destruct (Rlt_dec (Rabs (val dphi)) tau) as [_|N]; [|lra]. destruct C as (s & E & Fs & Rs & _). rewrite E. cbn [bind].
    specialize (IH (fun q I => HP q (or_intror I))). rewrite <- IH. cbn [bind]. do 2 f_equal.
    unfold phi_shift_d in E. rewrite G in E. cbn [py_assert] in E. set (t := dadd p dphi) in *.
    destruct (dlt twopi t) eqn:E1; [|apply (f_equal (fun r => match r with Ok v => v | Err _ => s end)) in E; exact E].
    assert (Es : dsub t twopi = s) by (apply (f_equal (fun r => match r with Ok v => v | Err _ => s end)) in E; exact E). rewrite Es.
    rewrite dlt_ok by (auto using fin_zero). rewrite val_zero, Rlt_bool_false by lra. reflexivity.
  - unfold phi_shift_arr_d. rewrite !dlt_ok by auto. rewrite M2, T2.
    destruct (Rlt_bool_spec (- tau) (val dphi)); [|reflexivity]. destruct (Rlt_bool_spec (val dphi) tau); [|reflexivity].
    exfalso. apply L. apply Rabs_def1; lra.
Qed.
Print Assumptions C81_array.

(** Any number of shifts: the longitude stays in the range and drifts by at
    most [2^-50] per shift. *)
Fixpoint shifts (phi : double) (ds : list double) : res double :=
  match ds with [] => Ok phi | d :: t => p <- phi_shift_d phi d ;; shifts p t end.

Theorem C81_many : forall ds phi, fin phi -> 0 <= val phi <= tau -> (forall d, In d ds -> fin d /\ Rabs (val d) < tau) ->
  exists s, shifts phi ds = Ok s /\ fin s /\ 0 <= val s <= tau /\
    exists k, Rabs (val s - (val phi + fold_right Rplus 0 (map val ds) + IZR k * tau)) <= INR (length ds) * b2 (-50).
Proof.
  induction ds as [|d ds IH]; intros phi Fp Hp HD.
  - exists phi. split; [reflexivity|]. split; [exact Fp|]. split; [exact Hp|]. exists 0%Z. cbn [map fold_right length INR].
    replace (val phi - (val phi + 0 + 0 * tau)) with 0 by ring. rewrite Rabs_R0, Rmult_0_l. lra.
  - destruct (HD d (or_introl eq_refl)) as [Fd Bd]. pose proof (C81_shift phi d Fp Hp Fd) as C. destruct (Rlt_dec (Rabs (val d)) tau) as [_|N]; [|lra].
    destruct C as (s & E & Fs & Rs & k & _ & A). destruct (IH s Fs Rs (fun d' I => HD d' (or_intror I))) as (s' & E' & Fs' & Rs' & k' & A').
    exists s'. cbn [shifts]. rewrite E. cbn [bind]. split; [exact E'|]. split; [exact Fs'|]. split; [exact Rs'|]. exists (k + k')%Z.
    cbn [map fold_right]. set (D := fold_right Rplus 0 (map val ds)) in *. change (length (d :: ds)) with (S (length ds)). rewrite S_INR, plus_IZR.
    replace (val s' - (val phi + (val d + D) + (IZR k + IZR k') * tau)) with ((val s' - (val s + D + IZR k' * tau)) + (val s - (val phi + val d + IZR k * tau))) by ring.
    apply Rle_trans with (1 := Rabs_triang _ _). lra.
Qed.
Print Assumptions C81_many.

Example C81_example : exists s, phi_shift_d (dbl 1 0) (dbl (-1) 0) = Ok s /\ val s = 0 /\ phi_shift_d (dbl 1 0) twopi = Err AssertionError.
Proof. eexists. split; [reflexivity|]. split; [|reflexivity]. rewrite <- SF2R_B2SF || idtac. unfold val. rewrite <- SF2R_B2SF. vm_compute. reflexivity. Qed.
