(** * Theorems: latitudes and areas in double precision (C95) *)

From Coq Require Import Reals ZArith List Bool Lia Lra Psatz.
From Flocq Require Import Core IEEE754.BinarySingleNaN Sterbenz.
From Verif Require Import Base MHealpixFloat PHealpixFloat SpecDouble MDouble PDouble MRemapDouble PRemapDouble2 PPiDouble SpecCoordsDouble MCoordsDouble PLibmDouble.
Open Scope R_scope.

Local Existing Instance p53.
Local Instance fexp_valid : Valid_exp (FLT_exp (-1074) 53).
Proof. apply FLT_exp_valid. reflexivity. Qed.
Local Instance fexp_mono : Monotone_exp (FLT_exp (-1074) 53).
Proof. apply FLT_exp_monotone. Qed.

(** ** Latitudes *)

Lemma quarter : fin (ddiv pi_d (dbl 2 0)) /\ val (ddiv pi_d (dbl 2 0)) = tau / 4.
Proof.
  assert (E : B2SF (ddiv pi_d (dbl 2 0)) = SpecFloat.S754_finite false 7074237752028440 (-52)) by (vm_compute; reflexivity).
  split; [unfold fin; rewrite <- is_finite_SF_B2SF, E; reflexivity|]. unfold val. rewrite <- SF2R_B2SF, E. unfold SF2R, F2R, tau. cbn [Fnum Fexp cond_Zopp]. change (-50)%Z with (-52 + 2)%Z. rewrite bpow_plus. change (b2 2) with 4. field.
Qed.

Lemma fmt_quarter : fmt (tau / 4).
Proof. destruct quarter as [_ <-]. apply fmt_val. Qed.

Lemma lat_ok : forall x, fin x -> - (tau / 4) <= val x <= tau / 2 -> fin (sphere2lonlat_d x) /\ val (sphere2lonlat_d x) = fl (tau / 4 - val x) /\ - (tau / 4) <= val (sphere2lonlat_d x) <= tau / 2.
Proof.
  intros x F H. destruct quarter as [Fq Vq]. pose proof tau_bounds as T. assert (FT : fmt (tau / 2)) by (destruct pi_val as [_ <-]; apply fmt_val).
  assert (B : - (tau / 4) <= fl (tau / 4 - val x) <= tau / 2) by (split; [apply fl_ge; [apply fl_fmt, fmt_opp, fmt_quarter|lra]|apply fl_le; [now apply fl_fmt|lra]]).
  destruct (dsub_ok _ x Fq F) as [A V]; [rewrite Vq; apply small_b2, Rabs_le; lra|]. unfold sphere2lonlat_d. rewrite V, Vq. auto.
Qed.

Lemma lat_exact : forall x, fin x -> tau / 8 <= val x <= tau / 2 -> val (sphere2lonlat_d x) = tau / 4 - val x.
Proof.
  intros x F H. pose proof tau_bounds as T. destruct (lat_ok x F ltac:(lra)) as (_ & -> & _). apply fl_fmt. apply sterbenz; [exact _|exact _|exact fmt_quarter|apply fmt_val|]. lra.
Qed.

Lemma lat_err : forall x e, fin x -> - (tau / 4) <= val x <= tau / 2 -> Rabs (tau / 4 - val x) < b2 e -> (-1021 <= e)%Z -> Rabs (val (sphere2lonlat_d x) - (tau / 4 - val x)) <= b2 (e - 54).
Proof. intros x e F H L He. destruct (lat_ok x F H) as (_ & -> & _). now apply fl_err. Qed.

(** A colatitude between 0 and [pi] gives a latitude between [-pi/2] and
    [pi/2], wrong by at most [2^-53], exact from [pi/4] on; larger colatitudes
    never give larger latitudes. *)
Theorem C95_latitude : forall theta, fin theta -> 0 <= val theta <= tau / 2 ->
  fin (sphere2lonlat_d theta) /\ - (tau / 4) <= val (sphere2lonlat_d theta) <= tau / 4 /\
  Rabs (val (sphere2lonlat_d theta) - (tau / 4 - val theta)) <= b2 (-53) /\
  (tau / 8 <= val theta -> val (sphere2lonlat_d theta) = tau / 4 - val theta) /\
  forall theta', fin theta' -> val theta <= val theta' <= tau / 2 -> val (sphere2lonlat_d theta') <= val (sphere2lonlat_d theta).
Proof.
  intros x F H. pose proof tau_bounds as T. destruct (lat_ok x F ltac:(lra)) as (A & V & B). split; [exact A|].
  split; [split; [apply B|rewrite V; apply fl_le; [apply fl_fmt, fmt_quarter|lra]]|]. split; [apply (lat_err x 1 F); [lra|change (b2 1) with 2; apply Rabs_def1; lra|lia]|].
  split; [intros H8; apply (lat_exact x F); lra|]. intros y Fy Hy. destruct (lat_ok y Fy ltac:(lra)) as (_ & V' & _). rewrite V, V'. apply fl_mono. lra.
Qed.
Print Assumptions C95_latitude.

(** Poles and equator are exact. *)
Theorem C95_poles : forall theta, fin theta ->
  (val theta = 0 -> val (sphere2lonlat_d theta) = tau / 4) /\ (val theta = tau / 4 -> val (sphere2lonlat_d theta) = 0) /\ (val theta = tau / 2 -> val (sphere2lonlat_d theta) = - (tau / 4)).
Proof.
  intros x F. pose proof tau_bounds as T. split; [intros H; destruct (lat_ok x F ltac:(lra)) as (_ & -> & _); rewrite H, Rminus_0_r; apply fl_fmt, fmt_quarter|].
  split; intros H; rewrite (lat_exact x F ltac:(lra)), H; lra.
Qed.
Print Assumptions C95_poles.

(** From colatitude to latitude and back, or from latitude to colatitude and
    back: wrong by at most [2^-52], exact from [pi/4] on. *)
Theorem C95_back : forall x, fin x -> - (tau / 4) <= val x <= tau / 2 ->
  lonlat2sphere_d x = sphere2lonlat_d x /\ fin (lonlat2sphere_d (sphere2lonlat_d x)) /\
  Rabs (val (lonlat2sphere_d (sphere2lonlat_d x)) - val x) <= b2 (-52) /\
  (0 <= val x -> Rabs (val (lonlat2sphere_d (sphere2lonlat_d x)) - val x) <= b2 (-53)) /\
  (tau / 8 <= val x -> val (lonlat2sphere_d (sphere2lonlat_d x)) = val x).
Proof.
  intros x F H. split; [reflexivity|]. change lonlat2sphere_d with sphere2lonlat_d. pose proof tau_bounds as T. destruct (lat_ok x F H) as (F1 & V1 & B1). destruct (lat_ok _ F1 B1) as (F2 & V2 & _). split; [exact F2|].
  assert (EX : tau / 8 <= val x -> val (sphere2lonlat_d (sphere2lonlat_d x)) = val x).
  { intros H8. rewrite V2, (lat_exact x F ltac:(lra)). replace (tau / 4 - (tau / 4 - val x)) with (val x) by ring. apply fl_fmt, fmt_val. }
  assert (NE : forall e, (-1021 <= e)%Z -> val x < tau / 8 -> Rabs (tau / 4 - val x) < b2 e -> Rabs (val (sphere2lonlat_d (sphere2lonlat_d x)) - val x) <= b2 (e - 54)).
  { intros e He H8 L. assert (G : tau / 8 <= val (sphere2lonlat_d x)).
    { rewrite V1. apply fl_ge; [|lra]. apply fl_fmt. replace (tau / 8) with (IZR 7074237752028440 * b2 (-53)) by (unfold tau; change (-50)%Z with (-53 + 3)%Z; rewrite bpow_plus; change (b2 3) with 8; field).
      apply generic_format_FLT. exists (Float radix2 7074237752028440 (-53)); cbn [Fnum Fexp]; [reflexivity|reflexivity|lia]. }
    rewrite (lat_exact _ F1 ltac:(lra)). pose proof (lat_err x e F H L He) as E. replace (tau / 4 - val (sphere2lonlat_d x) - val x) with (- (val (sphere2lonlat_d x) - (tau / 4 - val x))) by ring. rewrite Rabs_Ropp. exact E. }
  assert (P52 : 0 < b2 (-52)) by apply bpow_gt_0. assert (P53 : 0 < b2 (-53)) by apply bpow_gt_0. split; [|split; [|exact EX]].
  - destruct (Rlt_or_le (val x) (tau / 8)) as [L|L]; [apply (NE 2%Z); [lia|exact L|change (b2 2) with 4; apply Rabs_def1; lra]|rewrite (EX L), Rminus_diag_eq, Rabs_R0 by reflexivity; lra].
  - intros P. destruct (Rlt_or_le (val x) (tau / 8)) as [L|L]; [apply (NE 1%Z); [lia|exact L|change (b2 1) with 2; apply Rabs_def1; lra]|rewrite (EX L), Rminus_diag_eq, Rabs_R0 by reflexivity; lra].
Qed.
Print Assumptions C95_back.

(** "The two conversions undo each other" fails: the colatitude [2^-60] comes
    back as 0. *)
Theorem C95_back_refuted : exists x, fin x /\ 0 < val x <= tau / 2 /\ val (lonlat2sphere_d (sphere2lonlat_d x)) = 0.
Proof.
  exists (dbl 1 (-60)). assert (E : B2SF (dbl 1 (-60)) = SpecFloat.S754_finite false 4503599627370496 (-112)) by (vm_compute; reflexivity).
  split; [unfold fin; rewrite <- is_finite_SF_B2SF, E; reflexivity|]. split.
  - assert (V : val (dbl 1 (-60)) = b2 (-60)) by (unfold val; rewrite <- SF2R_B2SF, E; unfold SF2R, F2R; cbn [Fnum Fexp cond_Zopp]; change (IZR 4503599627370496) with (b2 52); rewrite <- bpow_plus; reflexivity).
    rewrite V. split; [apply bpow_gt_0|]. pose proof tau_bounds. apply Rle_trans with (b2 0); [apply bpow_le; lia|change (b2 0) with 1; lra].
  - assert (Z : B2SF (lonlat2sphere_d (sphere2lonlat_d (dbl 1 (-60)))) = SpecFloat.S754_zero false) by (vm_compute; reflexivity). unfold val. rewrite <- SF2R_B2SF, Z. reflexivity.
Qed.
Print Assumptions C95_back_refuted.

(** ** Areas *)

Lemma dlt_fin : forall x y : double, dlt dzero x = true -> dle x y = true -> fin y -> fin x.
Proof. intros [[]|[]| |s m e B] y; try discriminate; try reflexivity. intros _ H F. now destruct y as [[]|[]| |[] ? ? ?]. Qed.
Lemma dle_fin' : forall x y : double, dle dzero x = true -> dlt x y = true -> fin y -> fin x.
Proof. intros [[]|[]| |s m e B] y; try discriminate; try reflexivity. intros _ H F. now destruct y as [[]|[]| |[] ? ? ?]. Qed.

(** Exactly the documented limits are accepted; NaN and infinities are refused. *)
Theorem C95_area_accepted : forall cos a b s t,
  (patch a b s t <-> exists area, usphere_area_d cos a b s t = Ok area) /\ (~ patch a b s t -> usphere_area_d cos a b s t = Err AssertionError).
Proof.
  intros cos a b s t. destruct twopi_val as [Ft Vt]. destruct pi_val as [Fp Vp]. pose proof fin_zero as F0. pose proof val_zero as V0.
  assert (G1 : forall x M m, fin M -> val M = m -> dle dzero x && dlt x M = true <-> fin x /\ 0 <= val x < m).
  { intros x M m FM VM. rewrite andb_true_iff. split.
    - intros [A B]. assert (F : fin x) by (apply (dle_fin' x M); auto). split; [exact F|]. rewrite dle_ok, V0 in A by auto. rewrite dlt_ok, VM in B by auto. split; [now destruct (Rle_bool_spec 0 (val x))|now destruct (Rlt_bool_spec (val x) m)].
    - intros [F [A B]]. rewrite dle_ok, dlt_ok, V0, VM by auto. now rewrite Rle_bool_true, Rlt_bool_true. }
  assert (G2 : forall x M m, fin M -> val M = m -> dlt dzero x && dle x M = true <-> fin x /\ 0 < val x <= m).
  { intros x M m FM VM. rewrite andb_true_iff. split.
    - intros [A B]. assert (F : fin x) by (apply (dlt_fin x M); auto). split; [exact F|]. rewrite dlt_ok, V0 in A by auto. rewrite dle_ok, VM in B by auto. split; [now destruct (Rlt_bool_spec 0 (val x))|now destruct (Rle_bool_spec (val x) m)].
    - intros [F [A B]]. rewrite dle_ok, dlt_ok, V0, VM by auto. now rewrite Rle_bool_true, Rlt_bool_true. }
  assert (G3 : forall x y, fin x -> fin y -> negb (deq x y) = true <-> val x <> val y).
  { intros x y Fx Fy. rewrite deq_ok by auto. destruct (Req_bool_spec (val x) (val y)) as [E|E]; cbn; split; auto; try discriminate; contradiction. }
  pose proof (G1 a twopi tau Ft Vt) as A1. pose proof (G2 b twopi tau Ft Vt) as A2. pose proof (G1 s pi_d (tau / 2) Fp Vp) as A3. pose proof (G2 t pi_d (tau / 2) Fp Vp) as A4. clear G1 G2.
  unfold usphere_area_d, py_assert, patch. destruct (dle dzero a && dlt a twopi); [|split; [split; [intros (F1 & F2 & F3 & F4 & Q1 & _); destruct A1 as [_ A1]; discriminate A1; auto|intros (z & Z); discriminate]|reflexivity]].
  destruct (dlt dzero b && dle b twopi); [|split; [split; [intros (F1 & F2 & F3 & F4 & Q1 & Q2 & _); destruct A2 as [_ A2]; discriminate A2; auto|intros (z & Z); discriminate]|reflexivity]].
  destruct A1 as [[Fa Ra] _]; [reflexivity|]. destruct A2 as [[Fb Rb] _]; [reflexivity|]. pose proof (G3 a b Fa Fb) as A5.
  destruct (negb (deq a b)); [|split; [split; [intros (F1 & F2 & F3 & F4 & Q1 & Q2 & Q3 & _); destruct A5 as [_ A5]; discriminate A5; auto|intros (z & Z); discriminate]|reflexivity]].
  destruct (dle dzero s && dlt s pi_d); [|split; [split; [intros (F1 & F2 & F3 & F4 & Q1 & Q2 & Q3 & Q4 & _); destruct A3 as [_ A3]; discriminate A3; auto|intros (z & Z); discriminate]|reflexivity]].
  destruct (dlt dzero t && dle t pi_d); [|split; [split; [intros (F1 & F2 & F3 & F4 & Q1 & Q2 & Q3 & Q4 & Q5 & _); destruct A4 as [_ A4]; discriminate A4; auto|intros (z & Z); discriminate]|reflexivity]].
  destruct A3 as [[Fs Rs] _]; [reflexivity|]. destruct A4 as [[Fu Ru] _]; [reflexivity|]. pose proof (G3 s t Fs Fu) as A6.
  destruct (negb (deq s t)); [|split; [split; [intros (F1 & F2 & F3 & F4 & Q1 & Q2 & Q3 & Q4 & Q5 & Q6); destruct A6 as [_ A6]; discriminate A6; auto|intros (z & Z); discriminate]|reflexivity]].
  destruct A5 as [A5 _]. destruct A6 as [A6 _]. specialize (A5 eq_refl). specialize (A6 eq_refl). split; [split; [intros _; now eexists|intros _; tauto]|].
  intros N. exfalso. apply N. tauto.
Qed.
Print Assumptions C95_area_accepted.

(** The two factors. *)
Lemma area_ok : forall cos a b s t, cos_ok cos -> patch a b s t -> exists area, usphere_area_d cos a b s t = Ok area /\ fin area /\
  val area = fl (fl (val b - val a) * fl (val (cos s) - val (cos t))) /\ Rabs (fl (val b - val a)) <= tau /\ Rabs (fl (val (cos s) - val (cos t))) <= 2.
Proof.
  intros cos a b s t CO P. destruct (C95_area_accepted cos a b s t) as [[A _] _]. destruct (A P) as (area & E). exists area. split; [exact E|]. assert (D : area = dmul (dsub b a) (dsub (cos s) (cos t))).
  { revert E. unfold usphere_area_d, py_assert. repeat (match goal with |- (if ?c then _ else _) = _ -> _ => destruct c; [|discriminate] end). intros E. apply (f_equal (fun r => match r with Ok v => v | Err _ => dzero end)) in E. cbn in E. now symmetry. }
  destruct P as (Fa & Fb & Fs & Ft & Ra & Rb & _ & Rs & Ru & _). pose proof tau_bounds as T. destruct (CO s Fs) as [C1 C2]. destruct (CO t Ft) as [C3 C4].
  assert (B1 : Rabs (fl (val b - val a)) <= tau) by (apply Rabs_le; split; [apply fl_ge; [apply fl_fmt, fmt_opp, fmt_tau|lra]|apply fl_le; [apply fl_fmt, fmt_tau|lra]]).
  assert (F2 : fmt 2) by (change 2 with (b2 1); apply fmt_b2; lia).
  assert (B2 : Rabs (fl (val (cos s) - val (cos t))) <= 2) by (apply Rabs_le; split; [apply fl_ge; [now apply fl_fmt, fmt_opp|lra]|apply fl_le; [now apply fl_fmt|lra]]).
  destruct (dsub_ok b a Fb Fa) as [D1 D2]; [apply small_b2; lra|]. destruct (dsub_ok (cos s) (cos t) C1 C3) as [D3 D4]; [apply small_b2; lra|].
  assert (B3 : Rabs (fl (val b - val a) * fl (val (cos s) - val (cos t))) <= 14) by (rewrite Rabs_mult; pose proof (Rabs_pos (fl (val b - val a))); pose proof (Rabs_pos (fl (val (cos s) - val (cos t)))); nra).
  assert (F16 : fmt 16) by (change 16 with (b2 4); apply fmt_b2; lia).
  destruct (dmul_ok _ _ D1 D3) as [D5 D6].
  { rewrite D2, D4. apply small_b2. apply Rabs_le_inv in B3. apply Rle_trans with 16; [|lra]. apply Rabs_le. split; [apply fl_ge; [now apply fl_fmt, fmt_opp|lra]|apply fl_le; [now apply fl_fmt|lra]]. }
  rewrite D. split; [exact D5|]. rewrite D6, D2, D4. auto.
Qed.

(** The area is accurate to [2^-47]. *)
Theorem C95_area_accuracy : forall cosd a b s t, cos_ok cosd -> near_on_circle cos cosd -> patch a b s t ->
  exists area, usphere_area_d cosd a b s t = Ok area /\ fin area /\ Rabs (val area - (val b - val a) * (cos (val s) - cos (val t))) <= b2 (-47).
Proof.
  intros cosd a b s t CO CN P. destruct (area_ok cosd a b s t CO P) as (area & E & F & V & B1 & B2). exists area. split; [exact E|]. split; [exact F|]. rewrite V. clear V E F.
  destruct P as (Fa & Fb & Fs & Ft & Ra & Rb & _ & Rs & Ru & _). pose proof tau_bounds as T. destruct (CN s Fs) as (_ & C1 & C2); [apply Rabs_le; lra|]. destruct (CN t Ft) as (_ & C3 & C4); [apply Rabs_le; lra|].
  assert (E1 : Rabs (fl (val b - val a) - (val b - val a)) <= b2 (3 - 54)) by (apply fl_err; [change (b2 3) with 8; apply Rabs_def1; lra|lia]).
  assert (E2 : Rabs (fl (val (cosd s) - val (cosd t)) - (val (cosd s) - val (cosd t))) <= b2 (2 - 54)) by (apply fl_err; [change (b2 2) with 4; apply Rabs_def1; lra|lia]).
  set (D := fl (val b - val a)) in *. set (W := fl (val (cosd s) - val (cosd t))) in *.
  assert (E3 : Rabs (fl (D * W) - D * W) <= b2 (4 - 54)) by (apply fl_err; [change (b2 4) with 16; rewrite Rabs_mult; pose proof (Rabs_pos D); pose proof (Rabs_pos W); nra|lia]).
  change (3 - 54)%Z with (-51)%Z in E1. change (2 - 54)%Z with (-52)%Z in E2. change (4 - 54)%Z with (-50)%Z in E3.
  assert (Q1 : b2 (-51) = 2 * b2 (-52)) by (change (-51)%Z with (1 + -52)%Z; rewrite bpow_plus; reflexivity). assert (Q0 : b2 (-50) = 4 * b2 (-52)) by (change (-50)%Z with (2 + -52)%Z; rewrite bpow_plus; reflexivity).
  assert (Q7 : b2 (-47) = 32 * b2 (-52)) by (change (-47)%Z with (5 + -52)%Z; rewrite bpow_plus; reflexivity). rewrite Q7. rewrite Q1 in E1. rewrite Q0 in E3. pose proof (bpow_gt_0 radix2 (-52)) as Pe. set (e := b2 (-52)) in *.
  assert (EW : Rabs (W - (cos (val s) - cos (val t))) <= 3 * e) by (apply Rabs_le_inv in C2, C4, E2; apply Rabs_le; lra).
  replace (fl (D * W) - (val b - val a) * (cos (val s) - cos (val t))) with ((fl (D * W) - D * W) + (D - (val b - val a)) * W + (val b - val a) * (W - (cos (val s) - cos (val t)))) by ring.
  assert (M1 : Rabs ((D - (val b - val a)) * W) <= 2 * e * 2) by (rewrite Rabs_mult; apply Rmult_le_compat; auto using Rabs_pos).
  assert (M2 : Rabs ((val b - val a) * (W - (cos (val s) - cos (val t)))) <= 7 * (3 * e)) by (rewrite Rabs_mult; apply Rmult_le_compat; auto using Rabs_pos; apply Rabs_le; lra).
  apply Rabs_le_inv in E3, M1, M2. apply Rabs_le. lra.
Qed.
Print Assumptions C95_area_accuracy.

(** Exchanging the limits of one coordinate changes the sign exactly. *)
Theorem C95_area_sign : forall cosd a b s t area area', cos_ok cosd -> usphere_area_d cosd a b s t = Ok area ->
  (usphere_area_d cosd b a s t = Ok area' -> val area' = - val area) /\ (usphere_area_d cosd a b t s = Ok area' -> val area' = - val area).
Proof.
  intros cosd a b s t area area' CO E. assert (V : forall a b s t area, usphere_area_d cosd a b s t = Ok area -> val area = fl (fl (val b - val a) * fl (val (cosd s) - val (cosd t)))).
  { intros a0 b0 s0 t0 ar E0. destruct (C95_area_accepted cosd a0 b0 s0 t0) as [[_ A] _]. destruct (area_ok cosd a0 b0 s0 t0 CO) as (ar' & E1 & _ & V & _); [apply A; now exists ar|]. rewrite E0 in E1. now injection E1 as <-. }
  rewrite (V _ _ _ _ _ E). split; intros E'; rewrite (V _ _ _ _ _ E').
  - replace (val a - val b) with (- (val b - val a)) by ring. rewrite fl_opp, <- (fl_opp (_ * _)). apply (f_equal fl). ring.
  - replace (val (cosd t) - val (cosd s)) with (- (val (cosd s) - val (cosd t))) by ring. rewrite fl_opp, <- (fl_opp (_ * _)). apply (f_equal fl). ring.
Qed.
Print Assumptions C95_area_sign.

(** For a cosine that never increases, areas with limits in order are not
    negative, and a patch inside another one has no larger area. *)
Theorem C95_area_order : forall cosd a b s t a' b' s' t' area area', cos_ok cosd -> cos_falls cosd ->
  val a <= val a' <= val b' -> val b' <= val b -> val s <= val s' <= val t' -> val t' <= val t ->
  usphere_area_d cosd a b s t = Ok area -> usphere_area_d cosd a' b' s' t' = Ok area' -> 0 <= val area' <= val area.
Proof.
  intros cosd a b s t a' b' s' t' area area' CO CF Ha Hb Hs Ht E E'. destruct (C95_area_accepted cosd a b s t) as [[_ A] _]. destruct (C95_area_accepted cosd a' b' s' t') as [[_ A'] _].
  assert (P : patch a b s t) by (apply A; now exists area). assert (P' : patch a' b' s' t') by (apply A'; now exists area'). destruct (area_ok _ _ _ _ _ CO P) as (z & Z & _ & V & _). rewrite E in Z. injection Z as <-.
  destruct (area_ok _ _ _ _ _ CO P') as (z & Z & _ & V' & _). rewrite E' in Z. injection Z as <-. rewrite V, V'.
  destruct P as (_ & _ & Fs & Ft & _ & _ & _ & Rs & Rt & _). destruct P' as (_ & _ & Fs' & Ft' & _ & _ & _ & Rs' & Rt' & _).
  pose proof (CF s s' Fs Fs' ltac:(lra) ltac:(lra)) as M1. pose proof (CF s' t' Fs' Ft' ltac:(lra) ltac:(lra)) as M2. pose proof (CF t' t Ft' Ft ltac:(lra) ltac:(lra)) as M3.
  assert (Z1 : 0 <= fl (val b' - val a')) by (apply fl_ge; [apply fl_fmt, fmt_0|lra]). assert (Z2 : 0 <= fl (val (cosd s') - val (cosd t'))) by (apply fl_ge; [apply fl_fmt, fmt_0|lra]).
  assert (L1 : fl (val b' - val a') <= fl (val b - val a)) by (apply fl_mono; lra). assert (L2 : fl (val (cosd s') - val (cosd t')) <= fl (val (cosd s) - val (cosd t))) by (apply fl_mono; lra).
  split; [apply fl_ge; [apply fl_fmt, fmt_0|]; now apply Rmult_le_pos|apply fl_mono; now apply Rmult_le_compat].
Qed.
Print Assumptions C95_area_order.

(** The whole sky, for a cosine that is exact at its ends. *)
Theorem C95_whole_sky : forall cosd, cosd dzero = dbl 1 0 -> cosd pi_d = dbl (-1) 0 -> exists area, usphere_area_d cosd dzero twopi dzero pi_d = Ok area /\ val area = 2 * tau.
Proof.
  intros cosd C0 C1. exists (dmul (dsub twopi dzero) (dsub (dbl 1 0) (dbl (-1) 0))). split.
  - unfold usphere_area_d, py_assert. rewrite C0, C1. set (r := dmul _ _). clearbody r. assert (G : ((dle dzero dzero && dlt dzero twopi) && (dlt dzero twopi && dle twopi twopi) && negb (deq dzero twopi) && (dle dzero dzero && dlt dzero pi_d) && (dlt dzero pi_d && dle pi_d pi_d) && negb (deq dzero pi_d)) = true) by (vm_compute; reflexivity).
    repeat match goal with Q : _ && _ = true |- _ => apply andb_prop in Q; destruct Q end. repeat match goal with Q : ?c = true |- context [?c] => rewrite Q end. reflexivity.
  - assert (E : B2SF (dmul (dsub twopi dzero) (dsub (dbl 1 0) (dbl (-1) 0))) = SpecFloat.S754_finite false 7074237752028440 (-49)) by (vm_compute; reflexivity). unfold val. rewrite <- SF2R_B2SF, E. unfold SF2R, F2R, tau. cbn [Fnum Fexp cond_Zopp]. change (-49)%Z with (1 + -50)%Z. rewrite bpow_plus. change (b2 1) with 2. ring.
Qed.
Print Assumptions C95_whole_sky.

(** "A patch with limits in order has a positive area" fails: the cap of
    colatitudes up to [2^-30] has area 0, the cosine of [2^-30] rounding to 1. *)
Theorem C95_cap_refuted : exists a b s t, patch a b s t /\ val a < val b /\ val s < val t /\
  forall cosd, cosd s = dbl 1 0 -> cosd t = dbl 1 0 -> exists area, usphere_area_d cosd a b s t = Ok area /\ val area = 0.
Proof.
  set (t := dbl 1 (-30)). assert (E : B2SF t = SpecFloat.S754_finite false 4503599627370496 (-82)) by (vm_compute; reflexivity).
  assert (F : fin t) by (unfold fin; rewrite <- is_finite_SF_B2SF, E; reflexivity).
  assert (V : val t = b2 (-30)) by (unfold val; rewrite <- SF2R_B2SF, E; unfold SF2R, F2R; cbn [Fnum Fexp cond_Zopp]; change (IZR 4503599627370496) with (b2 52); rewrite <- bpow_plus; reflexivity).
  pose proof tau_bounds as T. destruct twopi_val as [Ft Vt]. pose proof (bpow_gt_0 radix2 (-30)) as P. assert (L : b2 (-30) <= 1) by (change 1 with (b2 0); apply bpow_le; lia).
  exists dzero, twopi, dzero, t. split.
  - repeat split; try exact F; try exact Ft; rewrite ?val_zero, ?Vt, ?V; lra.
  - rewrite val_zero, Vt, V. split; [lra|]. split; [exact P|]. intros cosd C0 C1. exists (dmul (dsub twopi dzero) (dsub (dbl 1 0) (dbl 1 0))). split.
    + unfold usphere_area_d, py_assert. rewrite C0, C1. set (r := dmul _ _). clearbody r. assert (G : ((dle dzero dzero && dlt dzero twopi) && (dlt dzero twopi && dle twopi twopi) && negb (deq dzero twopi) && (dle dzero dzero && dlt dzero pi_d) && (dlt dzero t && dle t pi_d) && negb (deq dzero t)) = true) by (vm_compute; reflexivity).
      repeat match goal with Q : _ && _ = true |- _ => apply andb_prop in Q; destruct Q end. repeat match goal with Q : ?c = true |- context [?c] => rewrite Q end. reflexivity.
    + assert (Z : B2SF (dmul (dsub twopi dzero) (dsub (dbl 1 0) (dbl 1 0))) = SpecFloat.S754_zero false) by (vm_compute; reflexivity). unfold val. rewrite <- SF2R_B2SF, Z. reflexivity.
Qed.
Print Assumptions C95_cap_refuted.

(** Non-vacuity: a cosine within its range that never increases, the northern
    half of the sky. *)
Example C95_example : exists cosd, cos_ok cosd /\ near_on_circle cos cosd /\ cos_falls cosd /\ patch dzero twopi dzero (ddiv pi_d (dbl 2 0)) /\
  (exists area, usphere_area_d cosd dzero twopi dzero (ddiv pi_d (dbl 2 0)) = Ok area) /\
  fin (dbl 1 0) /\ 0 <= val (dbl 1 0) <= tau / 2.
Proof.
  exists cos_l. destruct libm_l as (L1 & L2 & _ & L3 & _). pose proof tau_bounds as T. destruct (dbl_ok 1 0 ltac:(lia) ltac:(lia)) as [F1 V1]. change (b2 0) with 1 in V1. destruct quarter as [Fq Vq]. destruct twopi_val as [Ft Vt].
  assert (PA : patch dzero twopi dzero (ddiv pi_d (dbl 2 0))) by (unfold patch; rewrite val_zero, Vt, Vq; repeat split; try exact Ft; try exact Fq; lra).
  split; [exact L1|]. split; [exact L2|]. split; [exact L3|]. split; [exact PA|]. split; [now apply C95_area_accepted|]. split; [exact F1|lra].
Qed.
Print Assumptions C95_example.
