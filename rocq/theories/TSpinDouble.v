(** * Spins on the sphere in double precision *)

From Coq Require Import Reals ZArith List Bool Lia Lra Psatz.
From Flocq Require Import Core IEEE754.BinarySingleNaN.
From Verif Require Import Base PUsphere MHealpixFloat PHealpixFloat SpecDouble MDouble PDouble PPiDouble PTrig PSumDouble PDenseDouble TDouble TDoublePi TDouble3 SpecCoordsDouble MCoordsDouble MRemapDouble PLibmDouble PTripDouble TTripDouble MOneDDouble PRemapDouble2 PRebinDouble3 PRebinDouble4 MHealRandomsDouble SpecSphere SpecRotateDouble MRotateDouble PRotateDouble PRotateDouble2 PRotateDouble3 TRotateDouble TRotateDouble2 MSpinDouble.
Import ListNotations.
Open Scope R_scope.

(** ** Lengths *)

Definition vminus (a b : vec) : vec := vadd a (vscale (-1) b).

Lemma comp_le : forall A e, nrm A <= e -> Rabs (vx A) <= e /\ Rabs (vy A) <= e /\ Rabs (vz A) <= e.
Proof.
  intros [x y z] e H. unfold nrm, dot in H. cbn [vx vy vz] in *.
  assert (G : forall a s, a * a <= s -> sqrt s <= e -> Rabs a <= e). { intros a s Ha Hs. apply Rle_trans with (2 := Hs). replace (Rabs a) with (sqrt (a * a)) by (apply (sqrt_Rsqr_abs a)). now apply sqrt_le_1_alt. }
  pose proof (Rle_0_sqr x) as X. pose proof (Rle_0_sqr y) as Y. pose proof (Rle_0_sqr z) as Z. unfold Rsqr in *. repeat split; (eapply G; [|exact H]); lra.
Qed.

Lemma nrm_le : forall x y z, nrm (V3 x y z) <= Rabs x + Rabs y + Rabs z.
Proof.
  intros x y z. unfold nrm, dot. cbn [vx vy vz]. pose proof (Rabs_pos x). pose proof (Rabs_pos y). pose proof (Rabs_pos z).
  rewrite <- (sqrt_square (Rabs x + Rabs y + Rabs z)) by lra. apply sqrt_le_1_alt.
  assert (S : forall a, a * a = Rabs a * Rabs a) by (intros a; rewrite <- Rabs_mult; symmetry; apply Rabs_pos_eq; exact (Rle_0_sqr a)). rewrite (S x), (S y), (S z).
  assert (0 <= Rabs x * Rabs y) by (apply Rmult_le_pos; lra). assert (0 <= Rabs x * Rabs z) by (apply Rmult_le_pos; lra). assert (0 <= Rabs y * Rabs z) by (apply Rmult_le_pos; lra). lra.
Qed.

Lemma nrm_rod : forall n a v, dot n n = 1 -> nrm (rodrigues n a v) = nrm v.
Proof. intros n a v H. unfold nrm. now rewrite rod_dot. Qed.

Lemma rod_minus : forall n a v w, rodrigues n a (vminus v w) = vminus (rodrigues n a v) (rodrigues n a w).
Proof. intros. unfold vminus. now rewrite rod_add, rod_scale. Qed.

(** Where the angles [p], [t] of a point close to [Q] really are. *)
Lemma angles_near : forall Q p t h e, dot Q Q = 1 -> 0 <= h -> 0 <= e <= / 1024 -> 0 <= sin t ->
  Rabs (h * cos p - vx Q) <= e -> Rabs (h * sin p - vy Q) <= e -> Rabs (cos t - vz Q) <= e ->
  let sg := sqrt (vx Q * vx Q + vy Q * vy Q) in
  sg * nrm (vminus (dir p t) Q) <= 16 * e.
Proof.
  intros Q p t h e UQ Hh He Ht HX HY HZ sg. destruct (unit_le Q UQ) as (BX & BY & BZ). unfold dot in UQ.
  pose proof (sin2_cos2 p) as Pp. pose proof (sin2_cos2 t) as Pt. unfold Rsqr in Pp, Pt. pose proof (SIN_bound t) as ST.
  set (ax := h * cos p) in *. set (ay := h * sin p) in *. assert (HH : ax * ax + ay * ay = h * h). { transitivity (h * h * (sin p * sin p + cos p * cos p)); [unfold ax, ay; ring|rewrite Pp; ring]. }
  pose proof (near_square ax (vx Q) 1 e ltac:(lra) He BX ltac:(lra)) as QX. pose proof (near_square ay (vy Q) 1 e ltac:(lra) He BY ltac:(lra)) as QY. pose proof (near_square (cos t) (vz Q) 1 e ltac:(lra) He BZ ltac:(lra)) as QZ. apply Rabs_le_inv in QX, QY, QZ.
  assert (HS : Rabs (h * h - sin t * sin t) <= 61/10 * e) by (apply Rabs_le; lra).
  assert (H1 : h <= 11/10) by (apply Rabs_le_inv in HS; nra).
  set (g := Rabs (h - sin t)). assert (G0 : 0 <= g) by apply Rabs_pos. assert (G1 : g <= 11/10) by (unfold g; apply Rabs_le; lra).
  assert (GH : g * h <= 61/10 * e). { apply Rle_trans with (2 := HS). replace (h * h - sin t * sin t) with ((h - sin t) * (h + sin t)) by ring. rewrite Rabs_mult, (Rabs_pos_eq (h + sin t)) by lra. fold g. apply Rmult_le_compat_l; lra. }
  assert (S0 : 0 <= sg) by apply sqrt_pos. assert (SS : sg * sg = vx Q * vx Q + vy Q * vy Q) by (apply sqrt_sqrt; pose proof (Rle_0_sqr (vx Q)); pose proof (Rle_0_sqr (vy Q)); unfold Rsqr in *; lra).
  assert (S1 : sg <= 1) by (pose proof (Rle_0_sqr (vz Q)); unfold Rsqr in *; nra).
  assert (AX : Rabs ax <= h) by (unfold ax; rewrite Rabs_mult, (Rabs_pos_eq h) by lra; assert (Rabs (cos p) <= 1) by (apply Rabs_le; apply COS_bound); pose proof (Rabs_pos (cos p)); nra). assert (AY : Rabs ay <= h) by (unfold ay; rewrite Rabs_mult, (Rabs_pos_eq h) by lra; assert (Rabs (sin p) <= 1) by (apply Rabs_le; apply SIN_bound); pose proof (Rabs_pos (sin p)); nra).
  assert (SH : sg <= h + 2 * e).
  { apply Rsqr_incr_0_var; [|lra]. unfold Rsqr. rewrite SS.
    assert (T : forall a q, Rabs a <= h -> Rabs (a - q) <= e -> q * q <= a * a + 2 * (h * e) + e * e). { intros a q Ha Hq. replace (q * q) with (a * a + (- 2 * a * (a - q) + (a - q) * (a - q))) by ring.
      assert (Rabs (a * (a - q)) <= h * e) by (rewrite Rabs_mult; apply Rmult_le_compat; try apply Rabs_pos; assumption). assert ((a - q) * (a - q) <= e * e) by (apply Rabs_le_inv in Hq; nra). apply Rabs_le_inv in H. lra. }
    pose proof (T ax _ AX HX). pose proof (T ay _ AY HY). nra. }
  assert (SG : sg * g <= 85/10 * e). { apply Rle_trans with ((h + 2 * e) * g); [apply Rmult_le_compat_r; lra|]. assert (2 * e * g <= 2 * e * (11/10)) by (apply Rmult_le_compat_l; lra). lra. }
  assert (CS : Rabs (cos p) + Rabs (sin p) <= 3/2).
  { assert (SA : forall a, a * a = Rabs a * Rabs a) by (intros a; rewrite <- Rabs_mult; symmetry; apply Rabs_pos_eq; exact (Rle_0_sqr a)). rewrite (SA (sin p)), (SA (cos p)) in Pp. pose proof (Rabs_pos (cos p)). pose proof (Rabs_pos (sin p)). set (a := Rabs (cos p)) in *. set (b := Rabs (sin p)) in *. pose proof (Rle_0_sqr (a - b)) as K. unfold Rsqr in K. nra. }
  apply Rle_trans with (sg * (3/2 * g + 3 * e)).
  - apply Rmult_le_compat_l; [exact S0|]. unfold vminus, dir, vadd, vscale. cbn [vx vy vz]. apply Rle_trans with (1 := nrm_le _ _ _).
    assert (C1 : forall c a q, a = h * c -> Rabs (a - q) <= e -> Rabs (c * sin t + -1 * q) <= Rabs c * g + e).
    { intros c a q E Hq. replace (c * sin t + -1 * q) with (- c * (h - sin t) + (a - q)) by (rewrite E; ring). apply Rle_trans with (1 := Rabs_triang _ _). rewrite Rabs_mult, Rabs_Ropp. fold g. lra. }
    pose proof (C1 _ _ _ eq_refl HX) as K1. pose proof (C1 _ _ _ eq_refl HY) as K2. assert (K3 : Rabs (cos t + -1 * vz Q) <= e) by (replace (cos t + -1 * vz Q) with (cos t - vz Q) by ring; exact HZ).
    assert ((Rabs (cos p) + Rabs (sin p)) * g <= 3/2 * g) by (apply Rmult_le_compat_r; lra). lra.
  - assert (sg * (3 * e) <= 1 * (3 * e)) by (apply Rmult_le_compat_r; lra). lra.
Qed.

(** ** Spins *)

(** The assertions on the centre and the angle come first. *)
Theorem C105_refused : forall L phi theta pc tc al, ~ (placed pc tc /\ fin al /\ 0 <= val al <= tau) -> usphere_spin_d L phi theta pc tc al = Err AssertionError.
Proof.
  intros L phi theta pc tc al H. unfold usphere_spin_d. pose proof (within_ok pc twopi (or_introl eq_refl)) as G1. pose proof (within_ok tc pi_d (or_intror eq_refl)) as G2. pose proof (within_ok al twopi (or_introl eq_refl)) as G3. rewrite (proj2 twopi_val) in G1, G3. rewrite (proj2 pi_val) in G2.
  destruct (within_d dzero pc twopi); [|reflexivity]. destruct (within_d dzero tc pi_d); [|reflexivity]. destruct (within_d dzero al twopi); [|reflexivity]. exfalso. apply H. destruct (proj1 G1 eq_refl), (proj1 G2 eq_refl), (proj1 G3 eq_refl). unfold placed. auto.
Qed.
Print Assumptions C105_refused.

Lemma guard_2pi : forall x, fin x -> 0 <= val x <= tau -> within_d dzero x twopi = true.
Proof. intros x F B. apply (proj2 (within_ok x twopi (or_introl eq_refl))). rewrite (proj2 twopi_val). auto. Qed.

Lemma guard_pi : forall x, fin x -> 0 <= val x <= tau / 2 -> within_d dzero x pi_d = true.
Proof. intros x F B. apply (proj2 (within_ok x pi_d (or_intror eq_refl))). rewrite (proj2 pi_val). auto. Qed.

Ltac spin_guards HP Fa := let Fp := fresh "GFp" in let Bp := fresh "GBp" in let Ft := fresh "GFt" in let Bt := fresh "GBt" in
  destruct HP as ((Fp & Bp) & Ft & Bt); unfold usphere_spin_d;
  try rewrite (guard_2pi _ Fp Bp); try rewrite (guard_pi _ Ft Bt); try rewrite (guard_2pi _ Fa) by lra; cbn [py_assert].

Lemma self_sub : forall x, fin x -> fin (dsub x x) /\ val (dsub x x) = 0.
Proof. intros x F. destruct (dsub_ok x x F F) as [A B]; [rewrite Rminus_diag_eq, fl_fmt, Rabs_R0 by (reflexivity || apply fmt_0); apply bpow_gt_0|]. split; [exact A|]. rewrite B, Rminus_diag_eq by reflexivity. apply fl_fmt, fmt_0. Qed.

(** A full turn is accepted by the assertions of the spin and refused by the
    longitude shift inside. *)
Theorem C105_full_turn : forall L phi theta pc tc al, placed pc tc -> fin al -> val al = tau -> forall q, usphere_shift_d L phi theta pc tc pc dzero = Ok q ->
  fin (fst q) -> 0 <= val (fst q) <= tau -> usphere_spin_d L phi theta pc tc al = Err AssertionError.
Proof.
  intros L phi theta pc tc al HP Fa Va q E Fq Bq. pose proof tau_bounds as TB. pose proof HP as HP0. spin_guards HP0 Fa. rewrite E. cbn [bind]. pose proof (C81_shift (fst q) al Fq Bq Fa) as C. destruct (Rlt_dec (Rabs (val al)) tau) as [H|_]; [rewrite Va, Rabs_pos_eq in H by lra; lra|]. rewrite C. reflexivity.
Qed.
Print Assumptions C105_full_turn.

(** About the pole the colatitude is kept and the angle is added. *)
Theorem C105_pole : forall L phi theta pc tc al, accurate L -> fin phi -> 0 <= val phi <= tau -> fin theta -> Rabs (val theta) <= 8 ->
  placed pc tc -> val tc = 0 -> fin al -> 0 <= val al < tau ->
  exists p, usphere_spin_d L phi theta pc tc al = Ok (p, theta) /\ fin p /\ 0 <= val p <= tau /\
    exists k : Z, Rabs (val p - (val phi + val al + IZR k * (2 * PI))) <= b2 (-46).
Proof.
  intros L phi theta pc tc al AL Fp Bp Ft Bt HP Zt Fa Ba. pose proof tau_bounds as TB. pose proof HP as HP0. spin_guards HP0 Fa. pose proof HP as ((Fpc & Bpc) & Ftc & Btc).
  assert (HZ : placed pc dzero) by (unfold placed; rewrite val_zero; repeat split; try assumption; try apply fin_zero; lra). destruct (self_sub pc Fpc) as [FS VS].
  assert (E46 : b2 (-46) = 128 * u) by (unfold u; change (-46)%Z with (7 + -53)%Z; rewrite bpow_plus; reflexivity). assert (E48 : b2 (-48) = 32 * u) by (unfold u; change (-48)%Z with (5 + -53)%Z; rewrite bpow_plus; reflexivity). assert (E49 : b2 (-49) = 16 * u) by (unfold u; change (-49)%Z with (4 + -53)%Z; rewrite bpow_plus; reflexivity). pose proof u_pos as U0.
  pose proof (C104_shift L phi theta pc tc pc dzero AL Fp Bp Ft Bt HP HZ) as S1. rewrite VS, Rabs_R0 in S1. destruct (Rlt_dec 0 tau) as [_|]; [|lra]. cbv zeta in S1. destruct (Req_EM_T (val tc) (val dzero)) as [_|N]; [|rewrite val_zero in N; contradiction]. destruct S1 as (p1 & -> & F1 & B1 & k1 & K1). cbn [bind fst snd].
  destruct (C81_true_shift p1 al F1 B1 Fa ltac:(rewrite Rabs_pos_eq; lra)) as (p2 & -> & F2 & B2 & _ & k2 & _ & K2). cbn [bind].
  pose proof (C104_shift L p2 theta pc dzero pc tc AL F2 B2 Ft Bt HZ HP) as S2. rewrite VS, Rabs_R0 in S2. destruct (Rlt_dec 0 tau) as [_|]; [|lra]. cbv zeta in S2. destruct (Req_EM_T (val dzero) (val tc)) as [_|N]; [|rewrite val_zero in N; lra]. destruct S2 as (p3 & -> & F3 & B3 & k3 & K3).
  exists p3. split; [reflexivity|]. split; [exact F3|]. split; [exact B3|]. exists (k1 + k2 + k3)%Z. rewrite !plus_IZR, E46. rewrite E48 in K1, K3. rewrite E49 in K2. apply Rabs_le_inv in K1, K2, K3. apply Rabs_le. lra.
Qed.
Print Assumptions C105_pole.

(** Elsewhere every point turns about the centre; the error is at most
    [2^-27] over the sine of the colatitude of the centre and over the sine of the
    distance of the point from the centre. *)
Theorem C105_spin : forall L phi theta pc tc al, accurate L -> fin phi -> 0 <= val phi <= tau -> fin theta -> Rabs (val theta) <= 8 ->
  placed pc tc -> b2 (-20) <= sin (val tc) -> fin al -> 0 <= val al < tau ->
  let C := dir (val pc) (val tc) in
  let P := dir (val phi) (val theta) in
  let Q := rodrigues C (val al) P in
  let sg := sqrt (dot (cross C P) (cross C P)) in
  exists p t, usphere_spin_d L phi theta pc tc al = Ok (p, t) /\
    fin p /\ 0 <= val p <= tau /\ fin t /\ 0 <= val t <= tau / 2 /\
    exists h, 0 <= h /\ sg * Rabs (h * cos (val p) - vx Q) <= b2 (-27) / sin (val tc) /\ sg * Rabs (h * sin (val p) - vy Q) <= b2 (-27) / sin (val tc) /\ sg * Rabs (cos (val t) - vz Q) <= b2 (-27) / sin (val tc).
Proof.
  intros L phi theta pc tc al AL Fp Bp Ft Bt HP Hs Fa Ba C P Q sg. pose proof tau_bounds as TB. pose proof pi_accuracy as PA. pose proof HP as HP0. spin_guards HP0 Fa. pose proof HP as ((Fpc & Bpc) & Ftc & Btc).
  assert (HZ : placed pc dzero) by (unfold placed; rewrite val_zero; repeat split; try assumption; try apply fin_zero; lra). destruct (self_sub pc Fpc) as [FS VS].
  pose proof (bpow_gt_0 radix2 (-20)) as P20. pose proof u_pos as U0. assert (NZ : val tc <> 0) by (intros E; rewrite E, sin_0 in Hs; lra).
  assert (SA : Rabs (sin (0 - val tc)) = sin (val tc)) by (replace (0 - val tc) with (- val tc) by ring; rewrite sin_neg, Rabs_Ropp; apply Rabs_pos_eq; lra). assert (SB : Rabs (sin (val tc - 0)) = sin (val tc)) by (rewrite Rminus_0_r; apply Rabs_pos_eq; lra).
  pose proof (C104_shift L phi theta pc tc pc dzero AL Fp Bp Ft Bt HP HZ) as S1. rewrite VS, Rabs_R0 in S1. destruct (Rlt_dec 0 tau) as [_|]; [|lra]. cbv zeta in S1. destruct (Req_EM_T (val tc) (val dzero)) as [N|_]; [rewrite val_zero in N; contradiction|]. rewrite val_zero, SA, (Rminus_diag_eq (val pc) (val pc) eq_refl), Rplus_0_r in S1. fold P in S1.
  destruct (S1 Hs) as (p1 & t1 & -> & F1 & B1 & G1 & D1 & h1 & H1 & X1 & Y1 & Z1). clear S1. cbn [bind fst snd].
  destruct (C81_true_shift p1 al F1 B1 Fa ltac:(rewrite Rabs_pos_eq; lra)) as (p2 & -> & F2 & B2' & _ & k2 & _ & K2). cbn [bind].
  pose proof (C104_shift L p2 t1 pc dzero pc tc AL F2 B2' G1 ltac:(apply Rabs_le; lra) HZ HP) as S2. rewrite VS, Rabs_R0 in S2. destruct (Rlt_dec 0 tau) as [_|]; [|lra]. cbv zeta in S2. destruct (Req_EM_T (val dzero) (val tc)) as [N|_]; [rewrite val_zero in N; lra|]. rewrite val_zero, SB, (Rminus_diag_eq (val pc) (val pc) eq_refl), Rplus_0_r, Rminus_0_r in S2.
  destruct (S2 Hs) as (p & t & -> & F3 & B3 & G3 & D3 & h & H3 & X3 & Y3 & Z3). clear S2. exists p, t. split; [reflexivity|]. do 4 (split; [assumption|]). exists h. split; [exact H3|].
  set (s := sin (val tc)) in *. set (e := b2 (-32) / s) in *. set (E := east (val pc)) in *. assert (UE : dot E E = 1) by apply east_unit.
  assert (e32 : b2 (-32) <= e). { unfold e. apply Rmult_le_reg_r with s; [lra|]. replace (b2 (-32) / s * s) with (b2 (-32)) by (field; lra). pose proof (SIN_bound (val tc)). fold s in H. pose proof (bpow_gt_0 radix2 (-32)). nra. }
  assert (e12 : e <= b2 (-12)). { unfold e. apply Rmult_le_reg_r with s; [lra|]. replace (b2 (-32) / s * s) with (b2 (-32)) by (field; lra). change (-32)%Z with (-12 + -20)%Z. rewrite bpow_plus. apply Rmult_le_compat_l; [apply bpow_ge_0|exact Hs]. }
  assert (e10 : 0 <= e <= / 1024) by (split; [pose proof (bpow_ge_0 radix2 (-32)); lra|apply Rle_trans with (1 := e12); change (/ 1024) with (b2 (-10)); apply bpow_le; lia]).
  set (Q1 := rodrigues E (0 - val tc) P) in *. assert (UP : dot P P = 1) by apply PRotateDouble3.dir_unit. assert (UQ : dot Q1 Q1 = 1) by (unfold Q1; rewrite rod_dot; assumption).
  assert (BK : rodrigues E (val tc) Q1 = P). { unfold Q1. rewrite rod_comp by exact UE. replace (0 - val tc + val tc) with 0 by ring. apply rod_0. }
  assert (ET : rodrigues E (val tc) ez = C) by (unfold E, C; apply east_turn).
  assert (SG : sqrt (vx Q1 * vx Q1 + vy Q1 * vy Q1) = sg).
  { unfold sg. f_equal. rewrite lagrange, UP. replace (dot C C) with 1 by (symmetry; apply PRotateDouble3.dir_unit). assert (ZC : vz Q1 = dot C P) by (rewrite <- ET, <- BK, rod_dot by exact UE; unfold dot, ez; cbn [vx vy vz]; ring). rewrite <- ZC. unfold dot in UQ. lra. }
  assert (ST : 0 <= sin (val t1)) by (apply sin_ge_0; lra).
  pose proof (angles_near Q1 (val p1) (val t1) h1 e UQ H1 e10 ST X1 Y1 Z1) as AN. cbv zeta in AN. rewrite SG in AN.
  assert (QE : Q = rodrigues E (val tc) (rodrigues ez (val al) Q1)).
  { unfold Q. rewrite (rot_equivariant (rodrigues E (val tc))) by (apply rod_rotation, UE). rewrite ET, BK. reflexivity. }
  set (D2 := dir (val p2) (val t1)) in *. set (R1 := dir (val p1 + val al) (val t1)).
  assert (N2 : nrm (vminus D2 R1) <= 32 * u).
  { assert (E49 : b2 (-49) = 16 * u) by (unfold u; change (-49)%Z with (4 + -53)%Z; rewrite bpow_plus; reflexivity). rewrite E49 in K2. unfold D2, R1, vminus, dir, vadd, vscale. cbn [vx vy vz]. apply Rle_trans with (1 := nrm_le _ _ _).
    assert (CC : Rabs (cos (val p2) - cos (val p1 + val al)) <= 16 * u) by (rewrite <- (cos_turns (val p1 + val al) k2); apply Rle_trans with (1 := cos_lip _ _); exact K2). assert (SS : Rabs (sin (val p2) - sin (val p1 + val al)) <= 16 * u) by (rewrite <- (sin_turns (val p1 + val al) k2); apply Rle_trans with (1 := sin_lip _ _); exact K2).
    assert (TB1 : Rabs (sin (val t1)) <= 1) by (apply Rabs_le; apply SIN_bound).
    assert (M : forall a b, Rabs (a - b) <= 16 * u -> Rabs (a * sin (val t1) + -1 * (b * sin (val t1))) <= 16 * u). { intros a b H. replace (a * sin (val t1) + -1 * (b * sin (val t1))) with ((a - b) * sin (val t1)) by ring. rewrite Rabs_mult. apply Rle_trans with (16 * u * 1); [apply Rmult_le_compat; try apply Rabs_pos; assumption|lra]. }
    apply M in CC, SS. replace (cos (val t1) + -1 * cos (val t1)) with 0 by ring. rewrite Rabs_R0. lra. }
  assert (RE : R1 = rodrigues ez (val al) (dir (val p1) (val t1))) by apply dir_add.
  set (V1 := vminus D2 R1) in *. set (V2 := vminus (dir (val p1) (val t1)) Q1) in *.
  assert (DEC : vminus (rodrigues E (val tc) D2) Q = vadd (rodrigues E (val tc) V1) (rodrigues E (val tc) (rodrigues ez (val al) V2))).
  { rewrite QE. unfold V1, V2. rewrite !rod_minus, <- RE. unfold vminus, vadd, vscale. cbn [vx vy vz]. f_equal; ring. }
  destruct (comp_le (rodrigues E (val tc) V1) (32 * u)) as (M1 & M2 & M3); [rewrite nrm_rod by exact UE; exact N2|].
  destruct (comp_le (rodrigues E (val tc) (rodrigues ez (val al) V2)) (nrm V2)) as (L1 & L2 & L3); [rewrite !nrm_rod by (exact UE || apply ez_unit); lra|].
  set (A1 := rodrigues E (val tc) V1) in *. set (A2 := rodrigues E (val tc) (rodrigues ez (val al) V2)) in *. set (B := rodrigues E (val tc) D2) in *.
  assert (CX : vx B - vx Q = vx A1 + vx A2) by (transitivity (vx (vminus B Q)); [unfold vminus, vadd, vscale; cbn [vx]; ring|rewrite DEC; reflexivity]). assert (CY : vy B - vy Q = vy A1 + vy A2) by (transitivity (vy (vminus B Q)); [unfold vminus, vadd, vscale; cbn [vy]; ring|rewrite DEC; reflexivity]). assert (CZ : vz B - vz Q = vz A1 + vz A2) by (transitivity (vz (vminus B Q)); [unfold vminus, vadd, vscale; cbn [vz]; ring|rewrite DEC; reflexivity]).
  assert (S0 : 0 <= sg) by apply sqrt_pos. assert (SG1 : sg <= 1). { rewrite <- SG. rewrite <- sqrt_1. apply sqrt_le_1_alt. unfold dot in UQ. pose proof (Rle_0_sqr (vz Q1)) as K. unfold Rsqr in K. lra. }
  assert (u32 : 32 * u <= / 1024 * e). { apply Rle_trans with (/ 1024 * b2 (-32)); [|apply Rmult_le_compat_l; lra]. unfold u. change 32 with (b2 5). change (/ 1024) with (b2 (-10)). rewrite <- !bpow_plus. apply bpow_le. lia. }
  assert (E27 : b2 (-27) / s = 32 * e). { unfold e. change (-27)%Z with (5 + -32)%Z. rewrite bpow_plus. change (b2 5) with 32. field. lra. }
  rewrite E27. assert (FIN : forall a b q w1 w2, Rabs (a - b) <= e -> b - q = w1 + w2 -> Rabs w1 <= 32 * u -> Rabs w2 <= nrm V2 -> sg * Rabs (a - q) <= 32 * e).
  { intros a b q w1 w2 K E1 K1 K3. apply Rle_trans with (sg * (2 * e + nrm V2)).
    - apply Rmult_le_compat_l; [exact S0|]. replace (a - q) with ((a - b) + (w1 + w2)) by lra. apply Rle_trans with (1 := Rabs_triang _ _). pose proof (Rabs_triang w1 w2). lra.
    - assert (sg * (2 * e) <= 1 * (2 * e)) by (apply Rmult_le_compat_r; lra). lra. }
  split; [|split]; eapply FIN; eassumption.
Qed.
Print Assumptions C105_spin.

Lemma sin_one : b2 (-20) <= sin 1.
Proof.
  destruct C104_example as (_ & _ & HW & _). destruct done_ok as [F1 V1]. assert (WE : nrm (cross (dir (val dzero) (val dzero)) (dir (val dzero) (val done))) = Rabs (sin (val done - val dzero))) by (rewrite meridian_cross; apply nrm_scale, east_unit). unfold nrm in WE. rewrite WE, val_zero, V1, Rminus_0_r in HW. pose proof (sin_ge_0 1 ltac:(lra) ltac:(pose proof tau_bounds; pose proof pi_accuracy; assert (b2 (-52) <= / 1024) by (change (/ 1024) with (b2 (-10)); apply bpow_le; lia); lra)). rewrite Rabs_pos_eq in HW by assumption. exact HW.
Qed.

(** Spinning the pole by one about (1, 1). *)
Example C105_example : accurate lib_l /\ placed done done /\ b2 (-20) <= sin (val done) /\ fin done /\ 0 <= val done < tau /\
  exists p t, usphere_spin_d lib_l dzero dzero done done done = Ok (p, t) /\ fin p /\ fin t.
Proof.
  destruct done_ok as [F1 V1]. pose proof tau_bounds as TB. assert (PL : placed done done) by (unfold placed; rewrite V1; repeat split; try exact F1; lra). assert (S : b2 (-20) <= sin (val done)) by (rewrite V1; exact sin_one).
  split; [exact lib_accurate|]. split; [exact PL|]. split; [exact S|]. split; [exact F1|]. split; [rewrite V1; lra|].
  destruct (C105_spin lib_l dzero dzero done done done lib_accurate fin_zero ltac:(rewrite val_zero; lra) fin_zero ltac:(rewrite val_zero, Rabs_R0; lra) PL S F1 ltac:(rewrite V1; lra)) as (p & t & E & Fp & _ & Ft & _). exists p, t. auto.
Qed.

Example C105_pole_example : placed done dzero /\ exists p, usphere_spin_d lib_l done done done dzero done = Ok (p, done) /\ exists k : Z, Rabs (val p - (2 + IZR k * (2 * PI))) <= b2 (-46).
Proof.
  destruct done_ok as [F1 V1]. pose proof tau_bounds as TB. assert (PL : placed done dzero) by (unfold placed; rewrite V1, val_zero; repeat split; try exact F1; try apply fin_zero; lra). split; [exact PL|].
  destruct (C105_pole lib_l done done done dzero done lib_accurate F1 ltac:(rewrite V1; lra) F1 ltac:(rewrite V1, Rabs_R1; lra) PL val_zero F1 ltac:(rewrite V1; lra)) as (p & E & _ & _ & k & K). exists p. split; [exact E|]. exists k. rewrite V1 in K. replace 2 with (1 + 1) at 1 by ring. exact K.
Qed.

(** User expectation: every angle the spin accepts, [0] to [2 pi], spins the sky.
    Violated: [2 pi] passes the assertion of the spin and is refused inside. *)
Theorem C105_full_turn_refuted : exists L phi theta pc tc al, accurate L /\ fin phi /\ 0 <= val phi <= tau /\ fin theta /\ 0 <= val theta <= tau / 2 /\
  placed pc tc /\ within_d dzero al twopi = true /\ usphere_spin_d L phi theta pc tc al = Err AssertionError.
Proof.
  destruct done_ok as [F1 V1]. destruct twopi_val as [FT VT]. pose proof tau_bounds as TB. assert (PL : placed done dzero) by (unfold placed; rewrite V1, val_zero; repeat split; try exact F1; try apply fin_zero; lra).
  exists lib_l, done, done, done, dzero, twopi. split; [exact lib_accurate|]. rewrite V1. split; [exact F1|]. split; [lra|]. split; [exact F1|]. split; [lra|]. split; [exact PL|]. split; [apply (proj2 (within_ok twopi twopi (or_introl eq_refl))); rewrite VT; split; [exact FT|lra]|].
  pose proof (C104_shift lib_l done done done dzero done dzero lib_accurate F1 ltac:(rewrite V1; lra) F1 ltac:(rewrite V1, Rabs_R1; lra) PL PL) as S1. destruct (self_sub done F1) as [FS VS]. rewrite VS, Rabs_R0 in S1. destruct (Rlt_dec 0 tau) as [_|]; [|lra]. cbv zeta in S1. destruct (Req_EM_T (val dzero) (val dzero)) as [_|N]; [|contradiction]. destruct S1 as (p1 & E1 & G1 & B1 & _).
  exact (C105_full_turn lib_l done done done dzero twopi PL FT VT _ E1 G1 B1).
Qed.
Print Assumptions C105_full_turn_refuted.
