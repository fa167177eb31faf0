(** * Rotations on the sphere in double precision: poles, an instance *)

From Coq Require Import Reals ZArith List Bool Lia Lra Psatz.
From Flocq Require Import Core IEEE754.BinarySingleNaN.
From Verif Require Import Base PUsphere MHealpixFloat PHealpixFloat SpecDouble MDouble PDouble PPiDouble PTrig PSumDouble PDenseDouble TDouble TDoublePi TDouble3 SpecCoordsDouble MCoordsDouble MRemapDouble PLibmDouble PTripDouble TTripDouble MOneDDouble PRemapDouble2 PRebinDouble3 PRebinDouble4 MHealRandomsDouble SpecSphere SpecRotateDouble MRotateDouble PRotateDouble PRotateDouble2 PRotateDouble3 TRotateDouble.
Import ListNotations.
Open Scope R_scope.

(** ** Two names of the same pole *)

Definition iszero (x : double) : Prop := exists s, x = B754_zero s.

Lemma zero_mul : forall x y, iszero x -> fin y -> iszero (dmul x y) /\ iszero (dmul y x).
Proof. intros x y [s ->] F. destruct y as [t|t| |t m e B]; try discriminate F; split; unfold iszero; cbn; eexists; reflexivity. Qed.
Lemma zero_add : forall x y, iszero x -> iszero y -> iszero (dadd x y).
Proof. intros x y [s ->] [t ->]. destruct s, t; unfold iszero; cbn; eexists; reflexivity. Qed.
Lemma zero_sub : forall x y, iszero x -> iszero y -> iszero (dsub x y).
Proof. intros x y [s ->] [t ->]. destruct s, t; unfold iszero; cbn; eexists; reflexivity. Qed.
Lemma zero_fin : forall x, iszero x -> fin x.
Proof. intros x [s ->]. reflexivity. Qed.
Lemma zero_div : forall x y, iszero x -> iszero y -> ddiv x y = nan.
Proof. intros x y [s ->] [t ->]. reflexivity. Qed.
Lemma zero_sqrt : forall x, iszero x -> iszero (dsqrt x).
Proof. intros x [s ->]. exists s. reflexivity. Qed.
Lemma nan_mul : forall x, dmul nan x = nan.
Proof. intros x. destruct x; reflexivity. Qed.
Lemma nan_sub : forall x, dsub nan x = nan.
Proof. intros x. destruct x; reflexivity. Qed.
Lemma nan_add : forall x, dadd nan x = nan.
Proof. intros x. destruct x; reflexivity. Qed.
Lemma nan_div : forall x, ddiv nan x = nan.
Proof. intros x. destruct x; reflexivity. Qed.

(** The assertions accept two different longitudes at colatitude 0, one and the
    same pole: the axis is 0/0 and every point becomes NaN. *)
Theorem C104_same_pole : forall L phi theta pe te ps ts, accepted pe te ps ts -> val ts = 0 -> val te = 0 ->
  (forall x, fin x -> Rabs (val x) <= 8 -> fin (l_cos L x) /\ Rabs (val (l_cos L x)) <= 1 /\ fin (l_sin L x) /\ Rabs (val (l_sin L x)) <= 1) -> (forall x, fin x -> val x = 0 -> val (l_sin L x) = 0) ->
  sums_ok dadd (l_sum L) -> nan_through (l_arctan2 L) (l_arccos L) (l_mdot L) ->
  (forall a b c, exists m, l_inv L ((a, nan, nan), (b, nan, nan), (c, nan, nan)) = Ok m) ->
  usphere_rotate_d L phi theta pe te ps ts = Ok (nan, nan).
Proof.
  intros L phi theta pe te ps ts A Zs Ze FT SZ SO (NA & NC & NM) IV. unfold usphere_rotate_d. rewrite (proj1 (setup_ok L pe te ps ts) A). destruct A as ((Fps & Bps) & (Fpe & Bpe) & (Fts & Bts) & (Fte & Bte) & _). pose proof tau_bounds as TB.
  assert (PT : forall p t, fin p -> 0 <= val p <= tau -> fin t -> val t = 0 -> exists x y z, on_sphere_d L p t = (x, y, z) /\ iszero x /\ iszero y /\ fin z).
  { intros p t Fp Bp Ft Zt. unfold on_sphere_d, sphere2cart_d. do 3 eexists. split; [reflexivity|].
    destruct (FT p Fp ltac:(apply Rabs_le; lra)) as (C1 & C2 & S1 & S2). destruct (FT t Ft ltac:(rewrite Zt, Rabs_R0; lra)) as (D1 & D2 & T1 & _). pose proof (SZ t Ft Zt) as TZ. destruct (val_0 _ T1 TZ) as [sg TE]. assert (IZ : iszero (l_sin L t)) by (exists sg; exact TE). assert (ZZ : iszero dzero) by (exists false; reflexivity).
    assert (ONE : forall a, fin a -> Rabs (val a) <= 1 -> fin (dmul done a)). { intros a Fa Ba. destruct done_ok as [F1 V1]. apply dmul_ok; auto. rewrite V1, Rmult_1_l. apply small_lt. lra. }
    split; [|split].
    - apply zero_add; [|exact ZZ]. apply (zero_mul _ _ IZ). now apply ONE.
    - apply zero_add; [|exact ZZ]. apply (zero_mul _ _ IZ). now apply ONE.
    - apply (add_zero _ dzero); [now apply ONE|apply fin_zero|apply val_zero]. }
  destruct (PT ps ts Fps Bps Fts Zs) as (a0 & a1 & a2 & -> & A0 & A1 & A2). destruct (PT pe te Fpe Bpe Fte Ze) as (b0 & b1 & b3 & -> & B0 & B1 & B3).
  unfold frame_d, axes_d. cbn [cross_d]. pose proof (zero_fin _ A0) as FA0. pose proof (zero_fin _ A1) as FA1. pose proof (zero_fin _ B0) as FB0. pose proof (zero_fin _ B1) as FB1.
  assert (N0 : iszero (dsub (dmul a1 b3) (dmul a2 b1))) by (apply zero_sub; [apply (zero_mul _ _ A1 B3)|apply (zero_mul _ _ B1 A2)]).
  assert (N1 : iszero (dsub (dmul a2 b0) (dmul a0 b3))) by (apply zero_sub; [apply (zero_mul _ _ B0 A2)|apply (zero_mul _ _ A0 B3)]).
  assert (N2 : iszero (dsub (dmul a0 b1) (dmul a1 b0))) by (apply zero_sub; [apply (zero_mul _ _ A0 FB1)|apply (zero_mul _ _ A1 FB0)]).
  set (n0 := dsub (dmul a1 b3) _) in *. set (n1 := dsub (dmul a2 b0) _) in *. set (n2 := dsub (dmul a0 b1) _) in *.
  assert (SQ : forall x, iszero x -> iszero (sq x)) by (intros x H; unfold sq; apply (zero_mul _ _ H (zero_fin _ H))).
  assert (RZ : iszero (dsqrt (l_sum L (sq n0) (sq n1) (sq n2)))) by (apply zero_sqrt; destruct (SO (sq n0) (sq n1) (sq n2)) as [-> | ->]; repeat apply zero_add; auto).
  set (rho := dsqrt _) in *. rewrite !(zero_div _ rho) by assumption. cbn [cross_d]. rewrite !nan_mul, !nan_sub. cbn [columns_d]. cbv zeta. destruct (IV a0 a1 a2) as [m IM].
  match goal with |- context [l_inv L ?x] => change (l_inv L x) with (l_inv L ((a0, nan, nan), (a1, nan, nan), (a2, nan, nan))) end. rewrite IM. cbn [bind]. unfold rotate_point_d.
  match goal with |- context [l_mdot L ?M ?w] => let E := fresh in assert (E : l_mdot L M w = (nan, nan, nan)) by exact (NM a0 a1 a2 w); rewrite E; clear E end.
  unfold cart2sphere_d. unfold sq. rewrite !nan_sub, !nan_mul, !nan_add, NA. change (dsqrt nan) with nan. rewrite nan_div, NC. reflexivity.
Qed.
Print Assumptions C104_same_pole.

(** ** A library that meets the assumptions *)

Definition arctan2_n (y x : double) : double := if is_nan y then nan else arctan2_l y x.
Definition arccos_n (q : double) : double := if is_nan q then nan else arccos_l q.
Definition dot_r (a b : dvec) : double :=
  let '(a0, a1, a2) := a in let '(b0, b1, b3) := b in dadd (dadd (dmul a0 b0) (dmul a1 b1)) (dmul a2 b3).
Definition mdot_r (m : dmat) (w : dvec) : dvec := let '(r0, r1, r2) := m in (dot_r r0 w, dot_r r1 w, dot_r r2 w).
Definition transpose (m : dmat) : res dmat :=
  let '((a0, a1, a2), (b0, b1, b3), (c0, c1, c2)) := m in Ok ((a0, b0, c0), (a1, b1, c1), (a2, b3, c2)).
Definition lib_l : library := Library cos_l sin_l arctan2_n arccos_n (fun a b c => dadd (dadd a b) c) dot_r mdot_r transpose.

Lemma multiple_0 : val (multiple 53 0) = 0.
Proof. destruct (multiple_ok 53 0 0 0) as (_ & B & _); [lia|lia|lia|lra|]. lra. Qed.

Lemma fin_nan : forall x : double, fin x -> is_nan x = false.
Proof. intros x F. destruct x; try discriminate F; reflexivity. Qed.

Lemma dot_r_ok : dots_ok dot_r.
Proof.
  intros [[a0 a1] a2] [[b0 b1] b3] ((FA0 & A0) & (FA1 & A1) & (FA2 & A2)) ((FB0 & B0) & (FB1 & B1) & (FB2 & B2')). unfold within, dot_r, vval, dot. cbn [vx vy vz]. pose proof u_pos as U0.
  assert (Ur : u <= u <= b2 (-30)) by (split; [lra|unfold u; apply bpow_le; lia]). assert (Us : u <= / 1024) by (unfold u; change (/ 1024) with (b2 (-10)); apply bpow_le; lia). assert (E47 : b2 (-47) = 64 * u) by (unfold u; change (-47)%Z with (6 + -53)%Z; rewrite bpow_plus; reflexivity).
  assert (SL : forall z, Rabs z <= 16 -> Rabs (fl z) < b2 1024) by (intros z H; apply Rle_lt_trans with (b2 4); [apply fl_big; [lia|exact H]|apply bpow_lt; lia]).
  assert (MU : forall x y, fin x -> fin y -> Rabs (val x) <= 2 -> Rabs (val y) <= 2 -> fin (dmul x y) /\ Rabs (val (dmul x y) - val x * val y) <= (4 + / 1024) * u /\ Rabs (val x * val y) <= 4).
  { intros x y Fx Fy Hx Hy. assert (P : Rabs (val x * val y) <= 4) by (rewrite Rabs_mult; pose proof (Rabs_pos (val x)); pose proof (Rabs_pos (val y)); nra). destruct (dmul_ok x y Fx Fy) as [F V]; [apply SL; lra|]. rewrite V. split; [exact F|]. split; [now apply rnd|exact P]. }
  destruct (MU _ _ FA0 FB0 A0 B0) as (F0 & E0 & P0). destruct (MU _ _ FA1 FB1 A1 B1) as (F1 & E1 & P1). destruct (MU _ _ FA2 FB2 A2 B2') as (F2 & E2 & P2). apply Rabs_le_inv in E0, E1, E2, P0, P1, P2.
  assert (Q1 : Rabs (val (dmul a0 b0) + val (dmul a1 b1)) <= 9) by (apply Rabs_le; lra). destruct (dadd_ok _ _ F0 F1) as [F3 V3']; [apply SL; lra|]. pose proof (rnd u Ur _ _ Q1) as R1. rewrite <- V3' in R1. apply Rabs_le_inv in R1.
  assert (Q2 : Rabs (val (dadd (dmul a0 b0) (dmul a1 b1)) + val (dmul a2 b3)) <= 13) by (apply Rabs_le; lra). destruct (dadd_ok _ _ F3 F2) as [F4 V4]; [apply SL; lra|]. pose proof (rnd u Ur _ _ Q2) as R2. rewrite <- V4 in R2. apply Rabs_le_inv in R2.
  split; [exact F4|]. rewrite E47. apply Rabs_le. lra.
Qed.

Lemma lib_accurate : accurate lib_l.
Proof.
  destruct libm_l as (_ & Nc & Ns & _ & O1 & O2 & O3 & O4). unfold accurate, lib_l. cbn [l_cos l_sin l_arctan2 l_arccos l_sum l_dot l_mdot l_inv].
  split; [exact Nc|]. split; [exact Ns|]. split; [intros y x Fy Fx; unfold arctan2_n; rewrite (fin_nan y Fy); now apply O1|]. split; [intros y x Fy Fx; unfold arctan2_n; rewrite (fin_nan y Fy); now apply O2|].
  split; [intros q Fq; unfold arccos_n; rewrite (fin_nan q Fq); now apply O3|]. split; [intros q Fq; unfold arccos_n; rewrite (fin_nan q Fq); now apply O4|]. split; [intros a b c; now left|]. split; [exact dot_r_ok|]. split.
  - intros r0 r1 r2 w T0 T1 T2 Tw. cbn [mdot_r vwithin vx vy vz]. split; [|split]; now apply dot_r_ok.
  - intros e [[a0 a1] a2] [[b0 b1] b3] [[c0 c1] c2] a b c He _ (X0 & X1 & X2) (Y0 & Y1 & Y2) (Z0 & Z1 & Z2). cbn [vx vy vz] in *. do 3 eexists. split; [reflexivity|]. pose proof (bpow_ge_0 radix2 (-45)) as P.
    assert (G : e <= 8 * e + b2 (-45)) by lra. cbn [vwithin]. repeat split; first [apply X0|apply X1|apply X2|apply Y0|apply Y1|apply Y2|apply Z0|apply Z1|apply Z2|eapply Rle_trans; [|exact G]; first [apply X0|apply X1|apply X2|apply Y0|apply Y1|apply Y2|apply Z0|apply Z1|apply Z2]].
Qed.

(** From the north pole to the colatitude 1. *)
Example C104_example : accurate lib_l /\ accepted dzero done dzero dzero /\
  b2 (-20) <= sqrt (dot (cross (dir (val dzero) (val dzero)) (dir (val dzero) (val done))) (cross (dir (val dzero) (val dzero)) (dir (val dzero) (val done)))) /\
  exists p t, usphere_rotate_d lib_l dzero dzero dzero done dzero dzero = Ok (p, t) /\ Rabs (cos (val t) - cos 1) <= b2 (-29).
Proof.
  pose proof lib_accurate as AL. destruct done_ok as [F1 V1]. pose proof tau_bounds as TB. pose proof PI_4 as P4.
  assert (A : accepted dzero done dzero dzero). { unfold accepted. rewrite val_zero, V1. repeat split; try apply fin_zero; try exact F1; lra. }
  assert (S1 : 1 / 5 <= sin 1). { rewrite <- cos_shift. pose proof (cos_lip (PI / 2 - 1) 0) as C. rewrite cos_0, Rminus_0_r in C. pose proof pi_accuracy as PA. assert (b2 (-52) <= / 1024) by (change (/ 1024) with (b2 (-10)); apply bpow_le; lia). rewrite (Rabs_pos_eq (PI / 2 - 1)) in C by lra. apply Rabs_le_inv in C. lra. }
  assert (WE : sqrt (dot (cross (dir (val dzero) (val dzero)) (dir (val dzero) (val done))) (cross (dir (val dzero) (val dzero)) (dir (val dzero) (val done)))) = sin 1).
  { change (nrm (cross (dir (val dzero) (val dzero)) (dir (val dzero) (val done))) = sin 1). rewrite meridian_cross, nrm_scale by apply east_unit. rewrite val_zero, V1, Rminus_0_r. apply Rabs_pos_eq. lra. }
  assert (W20 : b2 (-20) <= sin 1) by (apply Rle_trans with (b2 (-3)); [apply bpow_le; lia|change (b2 (-3)) with (/ 8); lra]).
  split; [exact AL|]. split; [exact A|]. rewrite WE. split; [exact W20|]. pose proof (C104_start_to_end lib_l dzero done dzero dzero AL A) as G. cbv zeta in G. rewrite WE in G. destruct (G W20) as (p & t & E & h & _ & _ & _ & HZ). exists p, t. split; [exact E|]. rewrite V1 in HZ. apply Rle_trans with (1 := HZ).
  apply Rmult_le_reg_r with (sin 1); [lra|]. replace (b2 (-32) / sin 1 * sin 1) with (b2 (-32)) by (field; lra). assert (E32 : b2 (-32) = / 8 * b2 (-29)) by (change (/ 8) with (b2 (-3)); rewrite <- bpow_plus; reflexivity). rewrite E32, Rmult_comm. apply Rmult_le_compat_l; [apply bpow_ge_0|lra].
Qed.

(** User expectation: accepted positions give numbers. Violated. *)
Theorem C104_numbers_refuted : exists L pe te ps ts, accurate L /\ accepted pe te ps ts /\
  forall phi theta, usphere_rotate_d L phi theta pe te ps ts = Ok (nan, nan).
Proof.
  exists lib_l, done, dzero, dzero, dzero. destruct done_ok as [F1 V1]. pose proof tau_bounds as TB. split; [exact lib_accurate|].
  assert (A : accepted done dzero dzero dzero). { unfold accepted. rewrite val_zero, V1. repeat split; try apply fin_zero; try exact F1; lra. }
  split; [exact A|]. intros phi theta. destruct libm_l as (_ & Nc & Ns & _). apply C104_same_pole; [exact A|apply val_zero|apply val_zero| | | | |].
  - intros x Fx Hx. destruct (Nc x Fx Hx) as (X1 & X2 & _). destruct (Ns x Fx Hx) as (Y1 & Y2 & _). repeat split; auto; apply Rabs_le; assumption.
  - intros x Fx Zx. cbn [lib_l l_sin]. unfold sin_l. rewrite Zx, sin_0. apply multiple_0.
  - intros a b c. now left.
  - split; [|split]; [intros x; reflexivity|reflexivity|]. intros a b c [[w0 w1] w2]. cbn [lib_l l_mdot mdot_r dot_r]. rewrite !nan_mul. assert (AN : forall x, dadd x nan = nan) by (intros x; destruct x; reflexivity). rewrite !AN. reflexivity.
  - intros a b c. eexists. reflexivity.
Qed.
Print Assumptions C104_numbers_refuted.

(** A shift by one radian of longitude from the pole to the colatitude 1. *)
Example C104_shift_example : placed dzero dzero /\ placed done done /\ Rabs (val (dsub done dzero)) < tau /\ val dzero <> val done /\
  exists p t, usphere_shift_d lib_l done done dzero dzero done done = Ok (p, t) /\ fin p /\ fin t.
Proof.
  destruct C104_example as (AL & A & HW & _). destruct done_ok as [F1 V1]. pose proof tau_bounds as TB. destruct (sub_zero done F1) as [FD VD].
  assert (P0 : placed dzero dzero) by (unfold placed; rewrite val_zero; repeat split; try apply fin_zero; lra). assert (P1 : placed done done) by (unfold placed; rewrite V1; repeat split; try exact F1; lra).
  assert (LT : Rabs (val (dsub done dzero)) < tau) by (rewrite VD, V1, Rabs_R1; lra). split; [exact P0|]. split; [exact P1|]. split; [exact LT|]. split; [rewrite val_zero, V1; lra|].
  pose proof (C104_shift lib_l done done dzero dzero done done AL F1 ltac:(rewrite V1; lra) F1 ltac:(rewrite V1, Rabs_R1; lra) P0 P1) as C.
  destruct (Rlt_dec (Rabs (val (dsub done dzero))) tau); [|contradiction]. cbv zeta in C. destruct (Req_EM_T (val dzero) (val done)) as [E|_]; [rewrite val_zero, V1 in E; lra|].
  assert (WE : nrm (cross (dir (val dzero) (val dzero)) (dir (val dzero) (val done))) = Rabs (sin (val done - val dzero))) by (rewrite meridian_cross; apply nrm_scale, east_unit). unfold nrm in WE. rewrite WE in HW.
  destruct (C HW) as (p & t & E & Fp & _ & Ft & _). exists p, t. auto.
Qed.

(** User expectation: longitudes less than a whole turn apart can be shifted into
    each other. Violated: the difference is rounded before it is compared. *)
Theorem C104_near_turn_refuted : exists ps pe, fin ps /\ fin pe /\ 0 <= val ps <= tau /\ 0 <= val pe <= tau /\ Rabs (val pe - val ps) < tau /\
  forall L phi theta ts te, usphere_shift_d L phi theta ps ts pe te = Err AssertionError.
Proof.
  exists (dbl 1 (-60)), twopi. destruct (dbl_ok 1 (-60) ltac:(lia) ltac:(lia)) as [F V]. rewrite Rmult_1_l in V. destruct twopi_val as [FT VT]. pose proof tau_bounds as TB. pose proof (bpow_gt_0 radix2 (-60)) as P. assert (S : b2 (-60) <= / 1024) by (change (/ 1024) with (b2 (-10)); apply bpow_le; lia).
  split; [exact F|]. split; [exact FT|]. rewrite V, VT. split; [lra|]. split; [lra|]. split; [apply Rabs_lt; lra|]. intros L phi theta ts te. unfold usphere_shift_d.
  destruct (within_d dzero (dbl 1 (-60)) twopi); [|reflexivity]. destruct (within_d dzero twopi twopi); [|reflexivity]. destruct (within_d dzero ts pi_d); [|reflexivity]. destruct (within_d dzero te pi_d); [|reflexivity]. cbn [py_assert].
  assert (E : dsub twopi (dbl 1 (-60)) = twopi) by (apply B2SF_inj; vm_compute; reflexivity). rewrite E. unfold phi_shift_d. assert (G : dlt mtwopi twopi && dlt twopi twopi = false) by (vm_compute; reflexivity). rewrite G. reflexivity.
Qed.
Print Assumptions C104_near_turn_refuted.
