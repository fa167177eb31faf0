(** * Proofs about [MHealCoordDouble.v]: from the sphere to the plane and back *)

From Coq Require Import Reals ZArith List Bool Lia Lra Psatz.
From Flocq Require Import Core IEEE754.BinarySingleNaN.
From Verif Require Import Base BaseP MHealpixFloat PHealpixFloat SpecDouble SpecCoordsDouble MDouble PDouble PPiDouble PSumDouble MGridsDouble PGridsDouble MRemapDouble PRemapDouble2 MRandomsDouble PRandomsDouble PTripDouble MHealCoordDouble PHealCoordDouble PHealCoordDouble2.
Import ListNotations.
Open Scope R_scope.

Notation w := (b2 (-27)).
Lemma u_w : u = w * w * 2.
Proof. unfold u. rewrite <- bpow_plus. change (-53)%Z with (-27 + -27 + 1)%Z. rewrite (bpow_plus _ _ 1). reflexivity. Qed.
Lemma w_tiny : 0 < w <= / 1000000.
Proof. split; [apply bpow_gt_0|apply Rle_trans with (b2 (-20)); [apply bpow_le; lia|change (b2 (-20)) with (/ 1048576); lra]]. Qed.

Lemma theta_close : forall T psi th, 0 <= T <= PI -> 0 <= psi <= PI -> Rabs (cos psi - cos T) <= 20 * u -> sin psi * Rabs (th - psi) <= 32 * u -> Rabs (th - psi) <= 16 * w ->
  sin T * Rabs (th - T) <= 256 * u /\ Rabs (th - T) <= 64 * w.
Proof.
  intros T psi th HT Hp HC H1 H2. rewrite Rabs_minus_sym in HC. destruct (colat_close T psi _ HT Hp HC) as [K1 K2]. pose proof w_tiny as W. assert (U := u_w). rewrite U in *. clear U. set (ww := b2 (-27)) in *. clearbody ww.
  pose proof (Rabs_pos (T - psi)) as P0. pose proof (Rabs_pos (th - psi)) as P1. assert (D : Rabs (T - psi) <= 17.9 * ww) by (clear - K2 P0 W; nra).
  assert (TR : Rabs (th - T) <= Rabs (th - psi) + Rabs (T - psi)) by (replace (th - T) with ((th - psi) - (T - psi)) by ring; unfold Rminus at 1; eapply Rle_trans; [apply Rabs_triang|rewrite Rabs_Ropp; lra]).
  split; [|lra]. assert (S0 : 0 <= sin T) by (apply sin_ge_0; lra). assert (SL : sin T <= sin psi + Rabs (T - psi)) by (pose proof (sin_lip T psi) as L; apply Rabs_le_inv in L; lra).
  assert (A1 : sin T * Rabs (th - psi) <= (sin psi + Rabs (T - psi)) * Rabs (th - psi)) by (apply Rmult_le_compat_r; lra). assert (A2 : Rabs (T - psi) * Rabs (th - psi) <= (17.9 * ww) * (16 * ww)) by (apply Rmult_le_compat; lra).
  assert (A3 : sin T * Rabs (th - T) <= sin T * (Rabs (th - psi) + Rabs (T - psi))) by (apply Rmult_le_compat_l; lra). assert (0 <= ww * ww) by (apply Rmult_le_pos; lra). lra.
Qed.

Definition trip_close (phi theta phi' theta' : R) : Prop :=
  sin theta * Rabs (theta' - theta) <= b2 (-45) /\ Rabs (theta' - theta) <= b2 (-21) /\
  sin theta * Rabs (phi' - phi) <= b2 (-22) /\ (b2 (-24) <= theta <= PI - b2 (-24) -> sin theta * Rabs (phi' - phi) <= b2 (-40)).

Lemma b45 : b2 (-45) = 256 * u. Proof. unfold u. change (-45)%Z with (8 + -53)%Z. rewrite bpow_plus. reflexivity. Qed.
Lemma b40 : b2 (-40) = 8192 * u. Proof. unfold u. change (-40)%Z with (13 + -53)%Z. rewrite bpow_plus. reflexivity. Qed.
Lemma b21 : b2 (-21) = 64 * w. Proof. change (-21)%Z with (6 + -27)%Z. rewrite bpow_plus. reflexivity. Qed.

Lemma trip_of : forall T phi ps psi th, 0 <= T <= PI -> 0 <= psi <= PI -> Rabs (cos psi - cos T) <= 20 * u -> sin psi * Rabs (th - psi) <= 32 * u -> Rabs (th - psi) <= 16 * w ->
  sin T * Rabs (ps - phi) <= 8192 * u -> trip_close phi T ps th.
Proof.
  intros T phi ps psi th HT Hp HC H1 H2 HF. destruct (theta_close T psi th HT Hp HC H1 H2) as [A B]. unfold trip_close. rewrite b45, b21, b40. split; [exact A|]. split; [exact B|]. split; [|intros _; exact HF].
  apply Rle_trans with (1 := HF). rewrite <- b40. apply bpow_le. lia.
Qed.

(** A colatitude of the belt and the sign of the cosine there. *)
Lemma sg_abs : forall sg t, sg = 1 \/ sg = -1 -> 0 < sg * t -> t = sg * Rabs t.
Proof. intros sg t [-> | ->] H; [rewrite Rabs_pos_eq by lra|rewrite Rabs_left by lra]; ring. Qed.

Lemma small_step : 32 * u <= 16 * w.
Proof. rewrite u_w. pose proof w_tiny. nra. Qed.
Lemma b48 : b2 (-48) = 32 * u. Proof. unfold u. change (-48)%Z with (5 + -53)%Z. rewrite bpow_plus. reflexivity. Qed.
Lemma b49 : b2 (-49) = 16 * u. Proof. unfold u. change (-49)%Z with (4 + -53)%Z. rewrite bpow_plus. reflexivity. Qed.
Lemma b50 : b2 (-50) = 8 * u. Proof. unfold u. change (-50)%Z with (3 + -53)%Z. rewrite bpow_plus. reflexivity. Qed.
Lemma b47 : b2 (-47) = 64 * u. Proof. unfold u. change (-47)%Z with (6 + -53)%Z. rewrite bpow_plus. reflexivity. Qed.
Lemma b23 : b2 (-23) = 16 * w. Proof. change (-23)%Z with (4 + -27)%Z. rewrite bpow_plus. reflexivity. Qed.

(** The plane read back in the belt. *)
Lemma back_belt : forall arccosd x y, near_arccos arccosd -> fin y -> Rabs (val y) <= tau / 8 ->
  exists psi, fst (xy2ang_d arccosd x y) = x /\ 0 <= psi <= PI /\ cos psi = 8 * val y / (3 * PI) /\ sin psi * Rabs (val (snd (xy2ang_d arccosd x y)) - psi) <= 32 * u /\ Rabs (val (snd (xy2ang_d arccosd x y)) - psi) <= 16 * w.
Proof.
  intros arccosd x y HA Fy Hy. destruct (abs_ok y Fy) as [Fa Va]. destruct quarter_val as [Fq Vq].
  assert (E : xy2ang_d arccosd x y = (x, belt_theta arccosd y)). { unfold xy2ang_d. replace (dle (abs_d y) quarter_pi) with true; [reflexivity|]. symmetry. etransitivity; [exact (dle_ok _ _ Fa Fq)|]. rewrite Va, Vq. apply Rle_bool_true. exact Hy. }
  destruct (belt_back arccosd y HA Fy Hy) as (psi & I & C & D). rewrite b48 in D. exists psi. rewrite E. cbn [fst snd]. split; [reflexivity|]. split; [exact I|]. split; [exact C|]. pose proof small_step. split; [|lra].
  pose proof (SIN_bound psi). assert (0 <= sin psi) by (apply sin_ge_0; lra). pose proof (Rabs_pos (val (belt_theta arccosd y) - psi)). assert (sin psi * Rabs (val (belt_theta arccosd y) - psi) <= 1 * (32 * u)) by (apply Rmult_le_compat; lra). lra.
Qed.

(** The plane read back in the caps. *)
Lemma back_cap : forall arccosd x y, near_arccos arccosd -> fin x -> 0 <= val x <= 8 -> fin y -> tau / 8 < Rabs (val y) <= tau / 4 ->
  exists sg s psi, (sg = 1 \/ sg = -1) /\ 1 <= s <= 2 /\ val y = sg * Rabs (val y) /\ Rabs (s - 4 * Rabs (val y) / PI) <= 4 * u /\ (Rabs (val y) = tau / 4 -> s = 2) /\
    0 <= psi <= PI /\ cos psi = sg * (1 - (2 - s) * (2 - s) / 3) /\ sin psi * Rabs (val (snd (xy2ang_d arccosd x y)) - psi) <= 16 * u /\ Rabs (val (snd (xy2ang_d arccosd x y)) - psi) <= 16 * w /\
    (s = 2 -> fst (xy2ang_d arccosd x y) = dzero) /\
    (s < 2 -> exists (k : Z) x', (0 <= k <= 5)%Z /\ IZR k * (PI / 2) - 32 * u <= val x <= (IZR k + 1) * (PI / 2) + 32 * u /\ Rabs (x' - val x) <= 64 * u /\
       fin (fst (xy2ang_d arccosd x y)) /\ val (fst (xy2ang_d arccosd x y)) = (x' - PI / 4 * (s - 1) * (2 * IZR k + 1)) / (2 - s)).
Proof.
  intros arccosd x y HA Fx Hx Fy Hy. destruct (abs_ok y Fy) as [Fa Va]. destruct quarter_val as [Fq Vq]. destruct (sigz_ok y Fy Hy) as (sg & s & Hs & I & Fg & Vg & Vy & Es & E2). rewrite b51_u in Es.
  destruct (cap_theta_ok arccosd (cap_sigz y) sg s HA Fg Hs I Vg) as (psi & Ip & Cp & K1 & K2). rewrite b49 in K1. rewrite b23 in K2. destruct (siga_ok _ sg s Fg Hs I Vg) as (_ & Fsa & Vsa). destruct one_ok as [F1 V1].
  assert (E : xy2ang_d arccosd x y = (if deq (cap_siga (cap_sigz y)) one_d then dzero else cap_phi x (cap_siga (cap_sigz y)) (cap_k x), cap_theta arccosd (cap_sigz y))).
  { unfold xy2ang_d. replace (dle (abs_d y) quarter_pi) with false; [reflexivity|]. symmetry. etransitivity; [exact (dle_ok _ _ Fa Fq)|]. rewrite Va, Vq. apply Rle_bool_false. lra. }
  assert (ED : deq (cap_siga (cap_sigz y)) one_d = Req_bool (s - 1) 1). { etransitivity; [exact (deq_ok _ _ Fsa F1)|]. rewrite Vsa, V1. reflexivity. }
  exists sg, s, psi. rewrite E, ED. cbn [fst snd]. repeat (split; [assumption|]). split.
  - intros ->. rewrite Req_bool_true by lra. reflexivity.
  - intros L. rewrite Req_bool_false by lra. destruct (cap_phi_ok x (cap_sigz y) sg s Fx Hx Fg Hs ltac:(lra) Vg) as (k & x' & Ik & Bk & Ex & _ & Ff & Vf). rewrite b48 in Bk. rewrite b47 in Ex. exists k, x'. auto.
Qed.

Lemma sine_belt : forall T, 0 <= T <= PI -> Rabs (cos T) <= 0.7 -> 0.7 <= sin T <= 1.
Proof.
  intros T HT HC. apply Rabs_le_inv in HC. pose proof (sin2_cos2 T) as SC. unfold Rsqr in SC. assert (0 <= sin T) by (apply sin_ge_0; lra). pose proof (SIN_bound T). split; [|lra]. assert (cos T * cos T <= 0.49) by nra. nra.
Qed.

Lemma sg_dist : forall sg a b e, sg = 1 \/ sg = -1 -> Rabs (a - b) <= e -> Rabs (sg * a - sg * b) <= e.
Proof. intros sg a b e Hs H. replace (sg * a - sg * b) with (sg * (a - b)) by ring. rewrite Rabs_mult. replace (Rabs sg) with 1 by (destruct Hs as [-> | ->]; unfold Rabs; destruct Rcase_abs; lra). lra. Qed.

Lemma same_sign : forall sg sg' a b, sg = 1 \/ sg = -1 -> sg' = 1 \/ sg' = -1 -> 0 < a -> 0 < b -> sg * a = sg' * b -> sg = sg'.
Proof. intros sg sg' a b [-> | ->] [-> | ->] Ha Hb E; lra. Qed.

(** [trip] from the belt. *)
Lemma trip_belt : forall cosd arccosd phi theta, near_on_circle cos cosd -> near_arccos arccosd -> fin phi -> 0 <= val phi <= tau -> fin theta -> 0 <= val theta <= tau / 2 -> Rabs (val (cosd theta)) <= val two_thirds ->
  let y := belt_y cosd theta in fin y /\ Rabs (val y) <= tau / 4 /\ trip_close (val phi) (val theta) (val (fst (xy2ang_d arccosd phi y))) (val (snd (xy2ang_d arccosd phi y))).
Proof.
  intros cosd arccosd phi theta HC HA Fp Hp Ft Ht Hz y. pose proof pi_u as (A & B & C). pose proof u_tiny as U. pose proof pi_accuracy as PA. destruct thirds_u as [TU TL].
  destruct (HC theta Ft ltac:(rewrite Rabs_pos_eq; lra)) as (Fz & _ & Ez). assert (B52 : b2 (-52) = 2 * u) by (unfold u; change (-52)%Z with (1 + -53)%Z; rewrite bpow_plus; reflexivity). rewrite B52 in Ez.
  destruct (belt_forth cosd theta HC Ft ltac:(rewrite Rabs_pos_eq; lra)) as (Fy & Ey & By). fold y in Fy, Ey, By. specialize (By Hz). rewrite b50 in Ey. set (c := cos (val theta)) in *. set (T := val theta) in *. set (v := val y) in *.
  assert (Cc : Rabs c <= 2 / 3 + 2 * u). { replace c with (val (cosd theta) - (val (cosd theta) - c)) by ring. unfold Rminus at 1. eapply Rle_trans; [apply Rabs_triang|]. rewrite Rabs_Ropp. lra. }
  assert (HT : 0 <= T <= PI) by lra. destruct (sine_belt T HT) as [S1 S2]; [fold c; lra|]. split; [exact Fy|]. split; [lra|].
  destruct (Rle_or_lt (Rabs v) (tau / 8)) as [L|L].
  - destruct (back_belt arccosd phi y HA Fy L) as (psi & E1 & I & Cp & K1 & K2). rewrite E1. apply (trip_of T _ _ psi); [exact HT|exact I| |exact K1|exact K2|].
    + rewrite Cp. fold v c. replace (8 * v / (3 * PI) - c) with ((v - 3 * PI / 8 * c) * (8 / (3 * PI))) by (field; lra). rewrite Rabs_mult, (Rabs_pos_eq (8 / (3 * PI))) by (apply Rlt_le, Rdiv_lt_0_compat; lra).
      assert (8 / (3 * PI) <= 1) by (apply Rmult_le_reg_r with (3 * PI); [lra|]; unfold Rdiv; rewrite Rmult_assoc, Rinv_l by lra; lra). pose proof (Rabs_pos (v - 3 * PI / 8 * c)). assert (Rabs (v - 3 * PI / 8 * c) * (8 / (3 * PI)) <= (8 * u) * 1) by (apply Rmult_le_compat; [lra|apply Rlt_le, Rdiv_lt_0_compat; lra|lra|lra]). lra.
    + replace (val phi - val phi) with 0 by ring. rewrite Rabs_R0. lra.
  - destruct (back_cap arccosd phi y HA Fp ltac:(lra) Fy) as (sg & s & psi & Hs & I & Vy & Es & _ & Ip & Cp & K1 & K2 & _ & KF); [fold v; lra|]. fold v in Vy, Es.
    assert (AV : sg * v = Rabs v) by (rewrite Vy at 1; destruct Hs as [-> | ->]; ring). assert (SC : Rabs (Rabs v - 3 * PI / 8 * (sg * c)) <= 8 * u) by (rewrite <- AV; replace (sg * v - 3 * PI / 8 * (sg * c)) with (sg * v - sg * (3 * PI / 8 * c)) by ring; apply sg_dist; assumption).
    assert (SC2 := Rabs_le_inv _ _ SC). assert (CU : sg * c <= 2 / 3 + 2 * u) by (apply Rabs_le_inv in Cc; destruct Hs as [-> | ->]; lra). assert (QL : 2 / 3 - 8 * u <= sg * c) by (apply Rnot_lt_le; intro N; assert (1.17 * (8 * u) <= 3 * PI / 8 * (2 / 3 - sg * c)) by (apply Rmult_le_compat; lra); lra).
    assert (VU : 4 * Rabs v / PI <= 1 + 14 * u). { apply Rmult_le_reg_r with PI; [lra|]. unfold Rdiv. rewrite Rmult_assoc, Rinv_l by lra. assert (PI * (sg * c) <= PI * (2 / 3 + 2 * u)) by (apply Rmult_le_compat_l; lra). assert (u * 3.14 <= u * PI) by (apply Rmult_le_compat_l; lra). lra. }
    assert (Es2 := Rabs_le_inv _ _ Es). assert (SU : s <= 1 + 18 * u) by lra. destruct (KF ltac:(lra)) as (k & x' & Ik & Bk & Ex & Ff & Vf).
    apply (trip_of T _ _ psi); [exact HT|exact Ip| |lra|exact K2|].
    + rewrite Cp. fold c. replace c with (sg * (sg * c)) by (destruct Hs as [-> | ->]; ring). apply sg_dist; [exact Hs|]. set (t := s - 1) in *. replace ((2 - s) * (2 - s)) with (1 - 2 * t + t * t) by (unfold t; ring). assert (0 <= t <= 18 * u) by (unfold t; lra). assert (0 <= t * t <= t * (18 * u)) by (split; [apply Rmult_le_pos; lra|apply Rmult_le_compat_l; lra]). assert (t * (18 * u) <= t * 1) by (apply Rmult_le_compat_l; lra). apply Rabs_le. split; lra.
    + rewrite Vf. assert (K5 : 0 <= IZR k <= 5) by (split; [apply (IZR_le 0)|apply (IZR_le k 5)]; lia). set (p := (x' - PI / 4 * (s - 1) * (2 * IZR k + 1)) / (2 - s)). assert (EP : p * (2 - s) = x' - PI / 4 * (s - 1) * (2 * IZR k + 1)) by (unfold p; field; lra).
      assert (EQ : (p - val phi) * (2 - s) = (x' - val phi) - (s - 1) * (PI / 4 * (2 * IZR k + 1) - val phi)) by (rewrite Rmult_minus_distr_r, EP; ring).
      assert (BB : Rabs ((s - 1) * (PI / 4 * (2 * IZR k + 1) - val phi)) <= (18 * u) * 9) by (rewrite Rabs_mult, (Rabs_pos_eq (s - 1)) by lra; apply Rmult_le_compat; [lra|apply Rabs_pos|lra|assert (KP : PI / 4 * 1 <= PI / 4 * (2 * IZR k + 1) <= PI / 4 * 11) by (split; apply Rmult_le_compat_l; lra); apply Rabs_le; split; lra]).
      assert (BQ : Rabs ((p - val phi) * (2 - s)) <= 300 * u) by (rewrite EQ; apply Rabs_le_inv in BB, Ex; apply Rabs_le; lra). rewrite Rabs_mult, (Rabs_pos_eq (2 - s)) in BQ by lra. pose proof (Rabs_pos (p - val phi)) as P0.
      assert (BP : Rabs (p - val phi) * 0.5 <= Rabs (p - val phi) * (2 - s)) by (apply Rmult_le_compat_l; lra). assert (sin T * Rabs (p - val phi) <= 1 * (600 * u)) by (apply Rmult_le_compat; lra). lra.
Qed.

(** Longitudes read back in the caps: [f] is the longitude from the left border of
    the facet, [d = 2 - s] and [d2] its value read back. *)
Lemma lon_back : forall phi k d d2 k2 x x' p, 0 <= phi <= 6.3 -> 0 <= IZR k <= 4 -> 0 <= IZR k2 <= 5 -> - (4 * u) <= phi - IZR k * (PI / 2) <= PI / 2 -> 0 < d <= 1 -> 0 < d2 <= 1 -> Rabs (d2 - d) <= 10 * u ->
  Rabs (x - (phi - (1 - d) * (phi - IZR k * (PI / 2) - PI / 4))) <= 16 * u -> Rabs (x' - x) <= 64 * u ->
  IZR k2 * (PI / 2) - 32 * u <= x <= (IZR k2 + 1) * (PI / 2) + 32 * u -> p * d2 = x' - PI / 4 * (1 - d2) * (2 * IZR k2 + 1) -> Rabs (p - phi) * d2 <= 2048 * u.
Proof.
  intros phi k d d2 k2 x x' p Hphi Hk Hk2 Hf Hd Hd2 Ed Ex Ex' Bk Ep. pose proof pi_u as (_ & _ & C). pose proof u_tiny as U.
  rewrite <- (Rabs_pos_eq d2) at 1 by lra. rewrite <- Rabs_mult. apply Rabs_le_inv in Ed, Ex, Ex'. set (f := phi - IZR k * (PI / 2)) in *.
  destruct (Z.eq_dec k2 k) as [-> |N].
  - assert (E : (p - phi) * d2 = (x' - x) + (x - (phi - (1 - d) * (f - PI / 4))) - (f - PI / 4) * (d2 - d)) by (rewrite Rmult_minus_distr_r, Ep; unfold f; field).
    assert (B : Rabs ((f - PI / 4) * (d2 - d)) <= 1 * (10 * u)) by (rewrite Rabs_mult; apply Rmult_le_compat; try apply Rabs_pos; apply Rabs_le; lra). apply Rabs_le_inv in B. rewrite E. apply Rabs_le. split; lra.
  - assert (D1 : 1 - d <= 70 * u).
    { assert (X : x = IZR k * (PI / 2) + f * d + (1 - d) * (PI / 4) + (x - (phi - (1 - d) * (f - PI / 4)))) by (unfold f; ring). set (e1 := x - (phi - (1 - d) * (f - PI / 4))) in *.
      assert (Q : 3.14 * (1 - d) <= PI * (1 - d)) by (apply Rmult_le_compat_r; lra). destruct (Z.lt_ge_cases k2 k) as [L|L].
      - assert (IZR k2 + 1 <= IZR k) by (rewrite <- plus_IZR; apply IZR_le; lia). assert (Y : (IZR k2 + 1) * (PI / 2) <= IZR k * (PI / 2)) by (apply Rmult_le_compat_r; lra). assert (- (4 * u) * 1 <= f * d) by (assert (0 <= (f + 4 * u) * d) by (apply Rmult_le_pos; lra); assert (4 * u * d <= 4 * u * 1) by (apply Rmult_le_compat_l; lra); lra). lra.
      - assert (IZR k + 1 <= IZR k2) by (rewrite <- plus_IZR; apply IZR_le; lia). assert (Y : (IZR k + 1) * (PI / 2) <= IZR k2 * (PI / 2)) by (apply Rmult_le_compat_r; lra). assert (f * d <= PI / 2 * d) by (apply Rmult_le_compat_r; lra). lra. }
    assert (E : (p - phi) * d2 = (x' - x) + (x - (phi - (1 - d) * (f - PI / 4))) - (1 - d) * (f - PI / 4) - (1 - d2) * (PI / 4 * (2 * IZR k2 + 1) - phi)) by (rewrite Rmult_minus_distr_r, Ep; ring).
    assert (B1 : Rabs ((1 - d) * (f - PI / 4)) <= (70 * u) * 1) by (rewrite Rabs_mult; apply Rmult_le_compat; try apply Rabs_pos; apply Rabs_le; lra).
    assert (KP : PI / 4 * 1 <= PI / 4 * (2 * IZR k2 + 1) <= PI / 4 * 11) by (split; apply Rmult_le_compat_l; lra).
    assert (B2 : Rabs ((1 - d2) * (PI / 4 * (2 * IZR k2 + 1) - phi)) <= (80 * u) * 9) by (rewrite Rabs_mult; apply Rmult_le_compat; try apply Rabs_pos; apply Rabs_le; lra).
    apply Rabs_le_inv in B1, B2. rewrite E. apply Rabs_le. split; lra.
Qed.

Lemma sine_cap : forall T, 0 <= T <= PI -> sin T * sin T <= 2 * (1 - Rabs (cos T)).
Proof.
  intros T HT. pose proof (sin2_cos2 T) as SC. unfold Rsqr in SC. pose proof (COS_bound T). assert (Rabs (cos T) <= 1) by (apply Rabs_le; lra). assert (E : cos T * cos T = Rabs (cos T) * Rabs (cos T)) by (rewrite <- Rabs_mult; symmetry; apply Rabs_pos_eq; nra).
  pose proof (Rabs_pos (cos T)). nra.
Qed.

Lemma sine_far : forall T, 8 * w <= T <= PI - 8 * w -> 4 * w <= sin T.
Proof.
  intros T H. pose proof w_tiny as W. pose proof pi_u as (_ & _ & C). destruct (Rle_or_lt T (PI / 2)) as [L|L].
  - pose proof (half_sine T ltac:(lra)). lra.
  - rewrite <- (sin_PI_x T). pose proof (half_sine (PI - T) ltac:(lra)). lra.
Qed.

Lemma trip_cap : forall cosd arccosd phi theta, near_on_circle cos cosd -> near_arccos arccosd -> fin phi -> 0 <= val phi <= tau -> fin theta -> 0 <= val theta <= tau / 2 -> val two_thirds < Rabs (val (cosd theta)) ->
  let g := cap_sigz_of (cosd theta) in let x := cap_x phi (cap_siga g) (mod_d phi half_pi) in let y := cap_y g in
  fin x /\ fin y /\ Rabs (val y) <= tau / 4 /\ trip_close (val phi) (val theta) (val (fst (xy2ang_d arccosd x y))) (val (snd (xy2ang_d arccosd x y))).
Proof.
  intros cosd arccosd phi theta HC HA Fp Hp Ft Ht Hz g x y. pose proof pi_u as (A & B & C). pose proof u_tiny as U. pose proof w_tiny as W. pose proof pi_accuracy as PA.
  assert (B52 : b2 (-52) = 2 * u) by (unfold u; change (-52)%Z with (1 + -53)%Z; rewrite bpow_plus; reflexivity). rewrite B52 in PA.
  destruct (HC theta Ft ltac:(rewrite Rabs_pos_eq; lra)) as (Fz & Iz & Ez). rewrite B52 in Ez.
  destruct (cap_forth cosd phi theta HC Fp Hp Ft ltac:(rewrite Rabs_pos_eq; lra) Hz) as (sg & s & k & Hs & S1 & Ik & Bk & Sc & Es & Fx & Bx & Ex & Fy & Ey & Vy & By & Y1 & Y2). rewrite b49 in Es, Ex. rewrite b51_u in Ey.
  fold g in Fx, Bx, Ex, Fy, Ey, Vy, By, Y1. fold x in Fx, Bx, Ex. fold y in Fy, Ey, Vy, By, Y1. set (c := cos (val theta)) in *. set (T := val theta) in *. set (v := val y) in *. set (z := val (cosd theta)) in *.
  assert (HT : 0 <= T <= PI) by lra. split; [exact Fx|]. split; [exact Fy|]. split; [exact By|].
  assert (Ec : c = sg * Rabs c) by (apply sg_abs; assumption). assert (Cz : Rabs (Rabs z - Rabs c) <= 2 * u) by (eapply Rle_trans; [apply Rabs_triang_inv2|exact Ez]). apply Rabs_le_inv in Cz.
  assert (KR : 0 <= IZR k <= 4) by (split; [apply (IZR_le 0)|apply (IZR_le k 4)]; lia). assert (AV : Rabs (Rabs v - PI * s / 4) <= 4 * u).
  { replace (Rabs v) with (sg * v) by (rewrite Vy at 1; destruct Hs as [-> | ->]; ring). replace (PI * s / 4) with (sg * (sg * (PI * s / 4))) by (destruct Hs as [-> | ->]; field). apply sg_dist; assumption. }
  apply Rabs_le_inv in AV, Es. set (d := 2 - s) in *. assert (D1 : 0 <= d <= 1) by (unfold d; lra). replace (s - 1) with (1 - d) in Ex by (unfold d; ring).
  assert (KT : - (4 * u) <= val phi - IZR k * (PI / 2) <= PI / 2).
  { assert (0 <= IZR k * (PI / 2 - tau / 4) <= 4 * u) by (split; [apply Rmult_le_pos; lra|apply Rmult_le_compat; lra]). assert ((IZR k + 1) * (tau / 4) <= (IZR k + 1) * (PI / 2)) by (apply Rmult_le_compat_l; lra). lra. }
  pose proof (SIN_bound T) as SB. assert (S0 : 0 <= sin T) by (apply sin_ge_0; lra).
  destruct (Rle_or_lt (Rabs v) (tau / 8)) as [L|L].
  - (* at the border of the belt *)
    assert (D2 : 1 - d <= 6 * u) by (unfold d; apply Rnot_lt_le; intro N; assert (3.14 * (6 * u) <= PI * (1 - (2 - s))) by (apply Rmult_le_compat; lra); lra).
    destruct (back_belt arccosd x y HA Fy L) as (psi & E1 & I & Cp & K1 & K2). rewrite E1. apply (trip_of T _ _ psi); [exact HT|exact I| |exact K1|exact K2|].
    + rewrite Cp. fold v c. rewrite Ec, Vy. replace (8 * (sg * Rabs v) / (3 * PI)) with (sg * (8 * Rabs v / (3 * PI))) by (field; lra). apply sg_dist; [exact Hs|]. set (q := 8 * Rabs v / (3 * PI)). assert (Eq : q * (3 * PI / 8) = Rabs v) by (unfold q; field; lra).
      assert (DD : (1 - 12 * u) <= d * d <= 1) by (assert (d * d <= 1 * 1) by (apply Rmult_le_compat; lra); assert ((1 - 6 * u) * (1 - 6 * u) <= d * d) by (apply Rmult_le_compat; lra); assert (0 <= u * u) by (apply Rmult_le_pos; lra); split; lra).
      assert (Q1 : q <= 2 / 3 + 8 * u) by (apply Rnot_lt_le; intro N; assert (8 * u * 1.17 <= (q - 2 / 3) * (3 * PI / 8)) by (apply Rmult_le_compat; lra); lra).
      assert (Q2 : 2 / 3 - 8 * u <= q). { apply Rnot_lt_le; intro N. assert (8 * u * 1.17 <= (2 / 3 - q) * (3 * PI / 8)) by (apply Rmult_le_compat; lra). assert (0 <= PI * (s - 1)) by (apply Rmult_le_pos; lra). lra. }
      apply Rabs_le. split; lra.
    + assert (BF : Rabs ((1 - d) * (val phi - IZR k * (PI / 2) - PI / 4)) <= (6 * u) * 1) by (rewrite Rabs_mult; apply Rmult_le_compat; try apply Rabs_pos; apply Rabs_le; lra). apply Rabs_le_inv in BF, Ex. assert (Rabs (val x - val phi) <= 30 * u) by (apply Rabs_le; lra). pose proof (Rabs_pos (val x - val phi)). assert (sin T * Rabs (val x - val phi) <= 1 * (30 * u)) by (apply Rmult_le_compat; lra). lra.
  - destruct (back_cap arccosd x y HA Fx Bx Fy) as (sg' & s2 & psi & Hs' & I & Vy' & Es' & E2 & Ip & Cp & K1 & K2 & KP & KF); [fold v; lra|]. fold v in Vy', Es', E2.
    assert (SG : sg = sg') by (apply (same_sign sg sg' (Rabs v) (Rabs v)); try assumption; try lra). subst sg'. clear Vy' Hs'.
    set (q := 4 * Rabs v / PI) in *. assert (Eq : q * (PI / 4) = Rabs v) by (unfold q; field; lra). apply Rabs_le_inv in Es'.
    assert (Q1 : q - s <= 6 * u) by (apply Rnot_lt_le; intro N; assert (6 * u * 0.785 <= (q - s) * (PI / 4)) by (apply Rmult_le_compat; lra); lra).
    assert (Q2 : s - q <= 6 * u) by (apply Rnot_lt_le; intro N; assert (6 * u * 0.785 <= (s - q) * (PI / 4)) by (apply Rmult_le_compat; lra); lra).
    set (d2 := 2 - s2) in *. assert (Ed : Rabs (d2 - d) <= 10 * u) by (unfold d2, d; apply Rabs_le; lra). assert (Ed2 := Rabs_le_inv _ _ Ed). assert (D2 : 0 <= d2 <= 1) by (unfold d2; lra).
    assert (CC : Rabs (cos psi - cos T) <= 20 * u).
    { rewrite Cp. fold c. rewrite Ec. apply sg_dist; [exact Hs|]. assert (Rabs (d2 * d2 - d * d) <= (10 * u) * 2) by (replace (d2 * d2 - d * d) with ((d2 - d) * (d2 + d)) by ring; rewrite Rabs_mult; apply Rmult_le_compat; try apply Rabs_pos; [exact Ed|apply Rabs_le; lra]). apply Rabs_le_inv in H. apply Rabs_le. split; lra. }
    destruct (Rle_lt_or_eq_dec (Rabs z) 1 ltac:(apply Rabs_le; lra)) as [Z1|Z1].
    + (* off the poles *)
      specialize (Y2 Z1). assert (ZF : fmt (Rabs z)) by (destruct (abs_ok _ Fz) as [_ Va]; unfold z; rewrite <- Va; apply fmt_val). pose proof (draw_bound _ ZF Z1) as DB. change (b2 (-53)) with u in DB.
      assert (DW : 1.4 * w <= d) by (rewrite u_w in DB; apply Rnot_lt_le; intro N; assert (d * d <= (1.4 * w) * (1.4 * w)) by (apply Rmult_le_compat; lra); assert (0 < w * w) by (apply Rmult_lt_0_compat; lra); lra).
      assert (DU : 10 * u <= 0.001 * d) by (rewrite u_w; assert (w * w <= w * / 1000000) by (apply Rmult_le_compat_l; lra); lra).
      assert (SQ : sin T <= 2.5 * d). { pose proof (sine_cap T HT) as SQ. fold c in SQ. apply Rnot_lt_le. intro N. assert ((2.5 * d) * (2.5 * d) <= sin T * sin T) by (apply Rmult_le_compat; lra). assert (0 < d * d) by (apply Rmult_lt_0_compat; lra). lra. }
      destruct (KF ltac:(unfold d2, d in *; lra)) as (k2 & x' & Ik2 & Bk2 & Ex' & Ff & Vf). set (p := val (fst (xy2ang_d arccosd x y))) in *.
      assert (Ep : p * d2 = x' - PI / 4 * (1 - d2) * (2 * IZR k2 + 1)) by (rewrite Vf; fold d2; replace (s2 - 1) with (1 - d2) by (unfold d2; ring); field; lra).
      assert (K5 : 0 <= IZR k2 <= 5) by (split; [apply (IZR_le 0)|apply (IZR_le k2 5)]; lia).
      pose proof (lon_back (val phi) k d d2 k2 (val x) x' p ltac:(lra) KR K5 KT ltac:(lra) ltac:(lra) Ed Ex Ex' Bk2 Ep) as LB. pose proof (Rabs_pos (p - val phi)) as P0.
      apply (trip_of T _ _ psi); [exact HT|exact Ip|exact CC|lra|exact K2|].
      assert (sin T * Rabs (p - val phi) <= (2.6 * d2) * Rabs (p - val phi)) by (apply Rmult_le_compat_r; lra). lra.
    + (* a pole *)
      destruct (Y1 Z1) as [S2 YT]. rewrite (KP (E2 YT)). rewrite val_zero. destruct (theta_close T psi (val (snd (xy2ang_d arccosd x y))) HT Ip CC ltac:(lra) K2) as [X1 X2]. unfold trip_close. rewrite b45, b21. split; [exact X1|]. split; [exact X2|].
      assert (SQ : sin T <= 3 * w). { pose proof (sine_cap T HT) as SQ. fold c in SQ. rewrite u_w in Cz. apply Rnot_lt_le. intro N. assert ((3 * w) * (3 * w) <= sin T * sin T) by (apply Rmult_le_compat; lra). assert (0 < w * w) by (apply Rmult_lt_0_compat; lra). lra. }
      split.
      * replace (b2 (-22)) with (32 * w) by (change (-22)%Z with (5 + -27)%Z; rewrite bpow_plus; reflexivity). assert (Rabs (0 - val phi) <= 6.4) by (apply Rabs_le; lra). pose proof (Rabs_pos (0 - val phi)). assert (sin T * Rabs (0 - val phi) <= (3 * w) * 6.4) by (apply Rmult_le_compat; lra). lra.
      * intros HF. exfalso. replace (b2 (-24)) with (8 * w) in HF by (change (-24)%Z with (3 + -27)%Z; rewrite bpow_plus; reflexivity). pose proof (sine_far T HF). lra.
Qed.
