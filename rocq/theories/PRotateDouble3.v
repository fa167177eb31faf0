(** * Lemmas on rotations in double precision: back to the sphere *)

From Coq Require Import Reals ZArith List Bool Lia Lra Psatz.
From Flocq Require Import Core IEEE754.BinarySingleNaN.
From Verif Require Import Base PUsphere MHealpixFloat PHealpixFloat SpecDouble MDouble PDouble PPiDouble PTrig PSumDouble PDenseDouble TDouble TDouble3 SpecCoordsDouble MCoordsDouble MRemapDouble PLibmDouble PTripDouble TTripDouble MOneDDouble PRebinDouble4 MHealRandomsDouble SpecSphere SpecRotateDouble MRotateDouble PRotateDouble PRotateDouble2.
Import ListNotations.
Open Scope R_scope.

Lemma back_near : forall f g x y z Q e, arctan2_ok f -> near_arctan2 f -> arccos_ok g -> near_arccos g -> dot Q Q = 1 -> 100 * u <= e <= / 1024 -> vwithin e (x, y, z) Q ->
  let '(_, p, t) := cart2sphere_d f g x y z dzero dzero dzero in
  fin p /\ 0 <= val p <= tau /\ fin t /\ 0 <= val t <= tau / 2 /\
  exists h, 0 <= h /\ Rabs (h * cos (val p) - vx Q) <= 2 * e /\ Rabs (h * sin (val p) - vy Q) <= 2 * e /\ Rabs (cos (val t) - vz Q) <= 8 * e.
Proof.
  intros f g x y z Q e Ok1 Ok2 Ok3 Ok4 UQ He ((Fx & Ex) & (Fy & Ey) & (Fz & Ez)). destruct (unit_le Q UQ) as (BX & BY & BZ). pose proof u_pos as U0. pose proof tau_bounds as TB. pose proof pi_accuracy as PA.
  assert (He' : 0 <= e <= / 1024) by lra.
  pose proof (near_square (val x) (vx Q) 1 e ltac:(lra) He' BX ltac:(lra)) as QX. pose proof (near_square (val y) (vy Q) 1 e ltac:(lra) He' BY ltac:(lra)) as QY. pose proof (near_square (val z) (vz Q) 1 e ltac:(lra) He' BZ ltac:(lra)) as QZ.
  assert (ID : vx Q * vx Q + vy Q * vy Q + vz Q * vz Q = 1) by exact UQ.
  set (S := val x * val x + val y * val y + val z * val z).
  assert (SQ : forall v, 0 <= v * v) by (intros v; exact (Rle_0_sqr v)).
  assert (HS0 : 0 <= S) by (unfold S; pose proof (SQ (val x)); pose proof (SQ (val y)); pose proof (SQ (val z)); lra).
  assert (HS : Rabs (S - 1 * 1) <= (61/10 * e) * 1 * 1). { apply Rabs_le_inv in QX, QY, QZ. unfold S. apply Rabs_le. lra. }
  pose proof (near_root S 1 (61/10 * e) ltac:(lra) ltac:(lra) HS0 HS) as HR. apply Rabs_le_inv in HS.
  assert (HF : far x dzero \/ far y dzero \/ far z dzero).
  { apply (far_one x y z 1 Fx Fy Fz); [change 1 with (b2 0); apply bpow_le; lia|]. fold S. lra. }
  assert (B2 : forall v V, Rabs V <= 1 -> Rabs (v - V) <= e -> Rabs v <= 2) by (intros v V HV H; apply Rabs_le_inv in HV, H; apply Rabs_le; lra).
  pose proof (B2 _ _ BX Ex) as AX. pose proof (B2 _ _ BY Ey) as AY. pose proof (B2 _ _ BZ Ez) as AZ. assert (W510 : 2 <= b2 510) by (change 2 with (b2 1); apply bpow_le; lia).
  assert (HI : forall v, In v [x; y; z; dzero; dzero; dzero] -> fin v /\ Rabs (val v) <= b2 510).
  { intros v [<- |[<- |[<- |[<- |[<- |[<- |[]]]]]]]; (split; [assumption || apply fin_zero|]); try lra; rewrite val_zero, Rabs_R0; apply bpow_ge_0. }
  pose proof (C80_radius f g x y z dzero dzero dzero HI HF) as R2. cbv zeta in R2. rewrite !val_zero, !Rminus_0_r in R2. fold S in R2. pose proof (C80_colatitude f g x y z dzero dzero dzero Ok3 HI HF) as CO.
  assert (HI2 : forall v, In v [x; y; dzero; dzero] -> fin v /\ Rabs (val v) <= b2 1022). { assert (W' : b2 510 <= b2 1022) by (apply bpow_le; lia). intros v I. destruct (HI v) as [I1 I2]; [destruct I as [I|[I|[I|[I|[]]]]]; cbn; auto 8|]. split; [exact I1|lra]. }
  pose proof (C80_longitude f g x y z dzero dzero dzero Ok1 HI2) as (LO & LF & LB & _ & LE).
  destruct (sub_zero x Fx) as [Fx' Vx]. destruct (sub_zero y Fy) as [Fy' Vy]. destruct (sub_zero z Fz) as [Fz' Vz].
  destruct (Ok2 _ _ Fy' Fx') as (psi & (PX & PY) & PE). rewrite Vx, Vy in PX, PY. set (a := f (dsub y dzero) (dsub x dzero)) in *.
  unfold cart2sphere_d in *. cbn [fst snd] in R2, LO. set (r' := dsqrt _) in *. destruct CO as (Fr' & Pr' & BB & Fth & Bth). rewrite LO. set (p := snd (cart2polar_d f x y dzero dzero)) in *.
  split; [exact LF|]. split; [exact LB|]. split; [exact Fth|]. split; [exact Bth|].
  assert (E50 : b2 (-50) = 8 * u) by (unfold u; change (-50)%Z with (3 + -53)%Z; rewrite bpow_plus; reflexivity). assert (E51 : b2 (-51) = 4 * u) by (unfold u; change (-51)%Z with (2 + -53)%Z; rewrite bpow_plus; reflexivity). assert (E52 : b2 (-52) = 2 * u) by (unfold u; change (-52)%Z with (1 + -53)%Z; rewrite bpow_plus; reflexivity).
  rewrite E50 in R2. rewrite E51 in PE, LE. rewrite E52 in PA.
  assert (TRIG : Rabs (cos (val p) - cos psi) <= 12 * u /\ Rabs (sin (val p) - sin psi) <= 12 * u).
  { apply Rabs_le_inv in PE, LE. destruct (Rlt_dec (val a) 0).
    - rewrite <- (cos_period psi 1), <- (sin_period psi 1). cbn [INR]. assert (D : Rabs (val p - (psi + 2 * 1 * PI)) <= 12 * u) by (apply Rabs_le; lra). split; [pose proof (cos_lip (val p) (psi + 2 * 1 * PI))|pose proof (sin_lip (val p) (psi + 2 * 1 * PI))]; lra.
    - assert (D : Rabs (val p - psi) <= 12 * u) by (apply Rabs_le; lra). split; [pose proof (cos_lip (val p) psi)|pose proof (sin_lip (val p) psi)]; lra. }
  set (h := sqrt (val x * val x + val y * val y)) in *. assert (H0 : 0 <= h) by apply sqrt_pos.
  assert (H2 : h <= 2). { unfold h. rewrite <- (sqrt_square 2) by lra. apply sqrt_le_1_alt. pose proof (SQ (val z)). unfold S in HS. lra. }
  destruct TRIG as [TC TS]. exists h. split; [exact H0|].
  assert (HB : forall q, Rabs q <= 12 * u -> Rabs (h * q) <= 24 * u). { intros q Hq. rewrite Rabs_mult, (Rabs_pos_eq h) by lra. apply Rle_trans with (2 * (12 * u)); [apply Rmult_le_compat; try apply Rabs_pos; lra|lra]. }
  apply HB in TC, TS. split; [|split].
  - replace (h * cos (val p) - vx Q) with (h * (cos (val p) - cos psi) + (val x - vx Q)) by lra. apply Rle_trans with (1 := Rabs_triang _ _). lra.
  - replace (h * sin (val p) - vy Q) with (h * (sin (val p) - sin psi) + (val y - vy Q)) by lra. apply Rle_trans with (1 := Rabs_triang _ _). lra.
  - assert (NE : negb (deq r' dzero) = true) by (rewrite (deq_ok r' dzero Fr' fin_zero), val_zero; destruct (Req_bool_spec (val r') 0); [lra|reflexivity]). rewrite NE in *.
    assert (BZ' : Rabs (val z) <= val r') by (rewrite <- Vz; apply (BB z dzero); cbn; auto).
    assert (RR : Rabs (val r' - 1) <= 63/10 * e). { apply Rabs_le_inv in HR, R2. assert (8 * u * sqrt S <= 8 * u * 2) by (apply Rmult_le_compat_l; lra). apply Rabs_le. lra. }
    assert (Q1 : Rabs (val z / val r') <= 1) by (unfold Rdiv; rewrite Rabs_mult, Rabs_inv, (Rabs_pos_eq (val r')) by lra; apply Rmult_le_reg_r with (val r'); [exact Pr'|]; rewrite Rmult_assoc, Rinv_l by lra; lra).
    assert (QF : -1 <= fl (val z / val r') <= 1). { apply Rabs_le_inv in Q1. assert (F1 : fmt 1) by exact (fmt_b2 0 ltac:(lia)). split; [replace (-1) with (- (1)) by ring; apply fl_ge; [now apply fl_fmt, fmt_opp|lra]|apply fl_le; [now apply fl_fmt|lra]]. }
    destruct (ddiv_ok (dsub z dzero) r' Fz' (Rgt_not_eq _ _ Pr')) as [Fq Vq]; [rewrite Vz; apply small_lt, Rabs_le; apply Rabs_le_inv in Q1; lra|]. rewrite Vz in Vq. destruct (Ok4 _ Fq ltac:(rewrite Vq; exact QF)) as (th & P1 & P2 & P3). rewrite Vq in P2. rewrite E51 in P3. set (t := g (ddiv (dsub z dzero) r')) in *.
    pose proof (cos_lip (val t) th) as LC. assert (Ur : u <= u <= b2 (-30)) by (split; [lra|unfold u; apply bpow_le; lia]). pose proof (rnd u Ur _ _ Q1) as RD. rewrite <- P2 in RD.
    assert (ZR : Rabs (val z / val r' - val z) <= 63/10 * e). { replace (val z / val r' - val z) with (val z / val r' * (1 - val r')) by (field; lra). rewrite Rabs_mult, (Rabs_minus_sym 1). apply Rle_trans with (1 * (63/10 * e)); [apply Rmult_le_compat; try apply Rabs_pos; assumption|lra]. }
    assert (LC' : Rabs (cos (val t) - cos th) <= 4 * u) by lra. apply Rabs_le_inv in LC', RD, ZR, Ez. apply Rabs_le. lra.
Qed.

Lemma dir_unit : forall p t, dot (dir p t) (dir p t) = 1.
Proof.
  intros p t. unfold dot, dir. cbn [vx vy vz]. pose proof (sin2_cos2 p) as A. pose proof (sin2_cos2 t) as B. unfold Rsqr in A, B.
  transitivity ((sin p * sin p + cos p * cos p) * (sin t * sin t) + cos t * cos t); [ring|]. rewrite A. lra.
Qed.

Lemma on_sphere_near : forall L phi theta, near_on_circle cos (l_cos L) -> near_on_circle sin (l_sin L) -> fin phi -> Rabs (val phi) <= 8 -> fin theta -> Rabs (val theta) <= 8 ->
  vwithin (8 * u) (on_sphere_d L phi theta) (dir (val phi) (val theta)).
Proof.
  intros L phi theta Nc Ns Fp Hp Ft Ht. destruct done_ok as [F1 V1]. pose proof u_pos as U0. pose proof (C96_sphere_points (l_cos L) (l_sin L) done phi theta Nc Ns F1) as C. rewrite V1 in C.
  specialize (C ltac:(change 1 with (b2 0); split; apply bpow_le; lia) Fp Hp Ft Ht). unfold on_sphere_d. destruct (sphere2cart_d (l_cos L) (l_sin L) done phi theta dzero dzero dzero) as [[x y] z]. destruct C as ((Fx & _ & Ex) & (Fy & _ & Ey) & (Fz & _ & Ez)).
  assert (E50 : b2 (-50) = 8 * u) by (unfold u; change (-50)%Z with (3 + -53)%Z; rewrite bpow_plus; reflexivity). assert (E51 : b2 (-51) = 4 * u) by (unfold u; change (-51)%Z with (2 + -53)%Z; rewrite bpow_plus; reflexivity). rewrite E50 in Ex, Ey. rewrite E51 in Ez.
  rewrite !Rmult_1_l in Ex, Ey, Ez. cbn [vwithin dir vx vy vz]. repeat split; try assumption; lra.
Qed.
