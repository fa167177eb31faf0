(** * Proofs about [MHealCoordDouble.v]: from the sphere to the plane, and back *)

From Coq Require Import Reals ZArith List Bool Lia Lra Psatz.
From Flocq Require Import Core IEEE754.BinarySingleNaN Plus_error Sterbenz Mult_error.
From Verif Require Import Base BaseP MHealpixFloat PHealpixFloat SpecDouble SpecCoordsDouble MDouble PDouble PPiDouble PSumDouble MGridsDouble PGridsDouble MRemapDouble PRemapDouble2 MRandomsDouble PRandomsDouble PLibmDouble PTripDouble PHealpixCoord MHealCoordDouble PHealCoordDouble.
From Verif Require PRebinDouble4.
Import ListNotations.
Open Scope R_scope.

Local Instance fexp_valid : Valid_exp (FLT_exp (-1074) 53).
Proof. apply FLT_exp_valid. reflexivity. Qed.
Local Instance fexp_mono : Monotone_exp (FLT_exp (-1074) 53).
Proof. apply FLT_exp_monotone. Qed.
Local Existing Instance p53.

(** ** [%] is exact for non-negative numbers *)

Lemma mant_bound : forall m e, SpecFloat.bounded 53 1024 m e = true -> (Zpos m < 2 ^ 53)%Z /\ (-1074 <= e)%Z.
Proof.
  intros m e H. apply andb_prop in H. destruct H as [H _]. apply Zeq_bool_eq in H. unfold SpecFloat.fexp, SpecFloat.emin in H.
  assert (D : (Zpos (Digits.digits2_pos m) <= 53)%Z /\ (-1074 <= e)%Z) by (change (SpecFloat.digits2_pos m) with (Digits.digits2_pos m) in H; lia). destruct D as [D1 D2]. split; [|exact D2].
  rewrite Digits.Zpos_digits2_pos in D1. pose proof (Digits.Zdigits_correct radix2 (Zpos m)) as [_ K]. apply Z.lt_le_trans with (1 := K). change (Zpower radix2 (Digits.Zdigits radix2 (Z.pos m)) <= Zpower radix2 53)%Z. apply Zpower_le. exact D1.
Qed.

Lemma mod_ok : forall a mb eb Hb, fin a -> 0 <= val a -> (eb <= 900)%Z ->
  let b : double := B754_finite false mb eb Hb in
  exists k : Z, (0 <= k)%Z /\ fin (mod_d a b) /\ val (mod_d a b) = val a - IZR k * val b /\ 0 <= val (mod_d a b) < val b.
Proof.
  intros a mb eb Hb Fa Pa He b. assert (Vb : val b = IZR (Zpos mb) * b2 eb) by reflexivity. assert (Pb : 0 < val b) by (rewrite Vb; apply Rmult_lt_0_compat; [apply IZR_lt; reflexivity|apply bpow_gt_0]).
  destruct a as [sa|sa| |sa ma ea Ha]; try discriminate Fa.
  - exists 0%Z. split; [lia|]. change (mod_d (B754_zero sa) b) with dzero. rewrite val_zero. change (val (B754_zero sa : double)) with 0. split; [reflexivity|]. split; [ring|lra].
  - destruct sa. { exfalso. assert (V : val (B754_finite true ma ea Ha : double) = IZR (Zneg ma) * b2 ea) by reflexivity. rewrite V in Pa. assert (IZR (Zneg ma) < 0) by (apply IZR_lt; reflexivity). pose proof (bpow_gt_0 radix2 ea). nra. }
    assert (Va : val (B754_finite false ma ea Ha : double) = IZR (Zpos ma) * b2 ea) by reflexivity. destruct (mant_bound _ _ Ha) as [A1 A2]. destruct (mant_bound _ _ Hb) as [B1 B2].
    set (e := Z.min ea eb). set (A := (Zpos ma * 2 ^ (ea - e))%Z). set (B := (Zpos mb * 2 ^ (eb - e))%Z).
    assert (PB : (0 < B)%Z) by (unfold B; apply Z.mul_pos_pos; [lia|apply Z.pow_pos_nonneg; lia]). assert (PA : (0 <= A)%Z) by (unfold A; apply Z.mul_nonneg_nonneg; [lia|apply Z.pow_nonneg; lia]).
    assert (VA : val (B754_finite false ma ea Ha : double) = IZR A * b2 e) by (rewrite Va; unfold A; rewrite mult_IZR; change 2%Z with (radix_val radix2) at 1; rewrite IZR_Zpower by lia; rewrite Rmult_assoc, <- bpow_plus; do 2 f_equal; lia).
    assert (VB : val b = IZR B * b2 e) by (rewrite Vb; unfold B; rewrite mult_IZR; change 2%Z with (radix_val radix2) at 1; rewrite IZR_Zpower by lia; rewrite Rmult_assoc, <- bpow_plus; do 2 f_equal; lia).
    set (r := Z.rem A B). assert (R1 : (0 <= r < B)%Z) by (apply Z.rem_bound_pos; lia). assert (R2 : (A = B * Z.quot A B + r)%Z) by (apply Z.quot_rem'). assert (K0 : (0 <= Z.quot A B)%Z) by (apply Z.quot_pos; lia).
    assert (R3 : (Z.abs r <= 2 ^ 53)%Z).
    { rewrite Z.abs_eq by lia. destruct (Z.le_ge_cases ea eb) as [L|L].
      - assert (A = Zpos ma) by (unfold A, e; rewrite Z.min_l, Z.sub_diag by lia; cbn; lia). assert (0 <= B * Z.quot A B)%Z by (apply Z.mul_nonneg_nonneg; lia). lia.
      - assert (B = Zpos mb) by (unfold B, e; rewrite Z.min_r, Z.sub_diag by lia; cbn; lia). lia. }
    exists (Z.quot A B). split; [exact K0|].
    assert (EM : fin (mod_d (B754_finite false ma ea Ha) b) /\ val (mod_d (B754_finite false ma ea Ha) b) = IZR r * b2 e).
    { unfold mod_d, b. fold e. change (cond_Zopp false (Zpos ma)) with (Zpos ma). fold A B r. destruct (Z.eqb_spec r 0) as [E|E].
      - rewrite val_zero, E. split; [apply fin_zero|ring].
      - rewrite (proj2 (Z.ltb_ge r 0)) by lia. apply dbl_ok; [exact R3|]. unfold e. lia. }
    destruct EM as [F V]. split; [exact F|]. rewrite V, VA, VB. pose proof (bpow_gt_0 radix2 e) as Pe. assert (EA : IZR A = IZR B * IZR (Z.quot A B) + IZR r) by (rewrite <- mult_IZR, <- plus_IZR; f_equal; exact R2). split; [rewrite EA; ring|].
    split; [apply Rmult_le_pos; [apply IZR_le; lia|lra]|]. apply Rmult_lt_compat_r; [exact Pe|]. apply IZR_lt. lia.
Qed.

Lemma mod_half : forall a, fin a -> 0 <= val a -> exists k : Z, (0 <= k)%Z /\ fin (mod_d a half_pi) /\ val (mod_d a half_pi) = val a - IZR k * (tau / 4) /\ 0 <= val (mod_d a half_pi) < tau / 4.
Proof.
  intros a Fa Pa. destruct half_val as [_ Vh]. assert (S : B2SF half_pi = SpecFloat.S754_finite false 7074237752028440 (-52)) by (vm_compute; reflexivity).
  destruct half_pi as [s|s| |s m e H] eqn:E; try discriminate S. injection S as -> Em Ee. destruct (mod_ok a m e H Fa Pa) as (k & K0 & F & V & I); [lia|]. rewrite Vh in V, I. exists k. auto.
Qed.

(** ** From the sphere to the plane *)

Lemma thirds_val : fin two_thirds /\ val two_thirds = IZR 6004799503160661 * b2 (-53) /\ fmt (IZR 6004799503160662 * b2 (-53)).
Proof.
  assert (F : fin two_thirds) by (unfold fin; rewrite <- is_finite_SF_B2SF; vm_compute; reflexivity). split; [exact F|]. split.
  - unfold val. rewrite <- SF2R_B2SF. replace (B2SF two_thirds) with (SpecFloat.S754_finite false 6004799503160661 (-53)) by (vm_compute; reflexivity). reflexivity.
  - apply generic_format_FLT. exists (Float radix2 6004799503160662 (-53)); [reflexivity|vm_compute; reflexivity|cbn; lia].
Qed.

Lemma thirds_u : val two_thirds <= 2 / 3 /\ 2 / 3 - val two_thirds <= u.
Proof.
  destruct thirds_val as (_ & V & _). rewrite V. unfold u. change (b2 (-53)) with (/ 9007199254740992). lra.
Qed.

(** Above [2/3], as a number of the code, is above two thirds. *)
Lemma above_thirds : forall z, fmt z -> val two_thirds < z <= 1 -> 2 / 3 < z.
Proof.
  intros z Fz [H1 H2]. destruct thirds_val as (_ & V & _). assert (S : succ radix2 (FLT_exp (-1074) 53) (val two_thirds) <= z) by (apply succ_le_lt; [typeclasses eauto|apply fmt_val|exact Fz|exact H1]).
  rewrite succ_eq_pos in S by (rewrite V; apply Rmult_le_pos; [apply IZR_le; lia|apply bpow_ge_0]).
  rewrite (ulp_neq_0 _ _ (val two_thirds)) in S by (rewrite V; change (b2 (-53)) with (/ 9007199254740992); lra).
  assert (M : mag radix2 (val two_thirds) = 0%Z :> Z) by (apply mag_unique; rewrite V, Rabs_pos_eq by (apply Rmult_le_pos; [apply IZR_le; lia|apply bpow_ge_0]); change (b2 (-53)) with (/ 9007199254740992); change (b2 (0 - 1)) with (/ 2); change (b2 0) with 1; lra).
  unfold cexp in S. rewrite M in S. change (b2 (FLT_exp (-1074) 53 0)) with (/ 9007199254740992) in S. rewrite V in S. change (b2 (-53)) with (/ 9007199254740992) in S. lra.
Qed.

Lemma belt_forth : forall cosd theta, near_on_circle cos cosd -> fin theta -> Rabs (val theta) <= 8 ->
  fin (belt_y cosd theta) /\ Rabs (val (belt_y cosd theta) - 3 * PI / 8 * cos (val theta)) <= b2 (-50) /\ (Rabs (val (cosd theta)) <= val two_thirds -> Rabs (val (belt_y cosd theta)) <= 0.8).
Proof.
  intros cosd theta HC Ft Ht. destruct (HC theta Ft Ht) as (Fz & Iz & Ez). destruct pi_u as (A & B & C). destruct three_pi_val as [F3 E3]. pose proof e0_small as E. pose proof u_tiny as U. destruct (int_ok 8 ltac:(lia)) as [F8 V8].
  set (T3 := dmul (dint 3) pi_d) in *. assert (E32 := Rabs_le_inv _ _ E3). destruct (div_near T3 (dint 8) F3) as (Fc & _ & Ec); [lra|rewrite V8; apply Rabs_le; lra|]. rewrite V8 in Ec. set (c := ddiv T3 (dint 8)) in *.
  assert (Ec' : Rabs (val c - 3 * PI / 8) <= 3.3 * u). { replace (val c - 3 * PI / 8) with ((val c - val T3 / 8) + (val T3 - 3 * PI) / 8) by field. eapply Rle_trans; [apply Rabs_triang|]. assert (Rabs (val T3 / 8) <= 1.19) by (apply Rabs_le; lra). assert (u * Rabs (val T3 / 8) <= u * 1.19) by (apply Rmult_le_compat_l; lra). assert (Rabs ((val T3 - 3 * PI) / 8) <= 2 * u) by (apply Rabs_le; lra). lra. }
  assert (Ec2 := Rabs_le_inv _ _ Ec'). set (z := cosd theta) in *.
  assert (Bz : Rabs (val z) <= 1) by (apply Rabs_le; lra). assert (Bcz : Rabs (val c * val z) <= 1.2) by (rewrite Rabs_mult, (Rabs_pos_eq (val c)) by lra; pose proof (Rabs_pos (val z)); nra).
  destruct (mul_near c z Fc Fz) as (Fy & _ & Ey); [lra|]. change (belt_y cosd theta) with (dmul c z). set (y := dmul c z) in *. split; [exact Fy|]. assert (B52 : b2 (-52) = 2 * u) by (unfold u; change (-52)%Z with (1 + -53)%Z; rewrite bpow_plus; reflexivity). rewrite B52 in Ez. split.
  - replace (b2 (-50)) with (8 * u) by (unfold u; change (-50)%Z with (3 + -53)%Z; rewrite bpow_plus; reflexivity).
    replace (val y - 3 * PI / 8 * cos (val theta)) with ((val y - val c * val z) + ((val c - 3 * PI / 8) * val z + 3 * PI / 8 * (val z - cos (val theta)))) by ring.
    eapply Rle_trans; [apply Rabs_triang|]. assert (T := Rabs_triang ((val c - 3 * PI / 8) * val z) (3 * PI / 8 * (val z - cos (val theta)))). rewrite !Rabs_mult, (Rabs_pos_eq (3 * PI / 8)) in T by lra. assert (u * Rabs (val c * val z) <= u * 1.2) by (apply Rmult_le_compat_l; lra). pose proof (Rabs_pos (val z)). pose proof (Rabs_pos (val c - 3 * PI / 8)). pose proof (Rabs_pos (val z - cos (val theta))).
    assert (Rabs (val c - 3 * PI / 8) * Rabs (val z) <= 3.3 * u) by nra. assert (3 * PI / 8 * Rabs (val z - cos (val theta)) <= 1.19 * (2 * u)) by nra. lra.
  - intros Hz. destruct thirds_u as [TU _]. assert (Rabs (val c * val z) <= 0.79) by (rewrite Rabs_mult, (Rabs_pos_eq (val c)) by lra; pose proof (Rabs_pos (val z)); nra). assert (u * Rabs (val c * val z) <= u * 1.2) by (apply Rmult_le_compat_l; lra). apply Rabs_le_inv in Ey, H. apply Rabs_le. split; lra.
Qed.

(** [sigz] of the caps. *)
Lemma sigz_of_ok : forall z, fin z -> val two_thirds < Rabs (val z) <= 1 ->
  exists sg s, (sg = 1 \/ sg = -1) /\ 1 <= s <= 2 /\ fin (cap_sigz_of z) /\ val (cap_sigz_of z) = sg * s /\ val z = sg * Rabs (val z) /\
    Rabs ((2 - s) * (2 - s) - 3 * (1 - Rabs (val z))) <= 8 * u /\ (Rabs (val z) = 1 -> s = 2) /\ (Rabs (val z) < 1 -> 1 - Rabs (val z) <= (2 - s) * (2 - s)).
Proof.
  intros z Fz Hz. pose proof e0_small as E. pose proof u_tiny as U. destruct (int_ok 1 ltac:(lia)) as [F1 V1]. destruct (int_ok 2 ltac:(lia)) as [F2 V2]. destruct (int_ok 3 ltac:(lia)) as [F3 V3]. destruct (abs_ok z Fz) as [Fa Va].
  assert (Fz' : fmt (Rabs (val z))) by (rewrite <- Va; apply fmt_val). pose proof (above_thirds _ Fz' Hz) as H23. set (v := Rabs (val z)) in *.
  destruct (sub_near (dint 1) (abs_d z) F1 Fa) as (Fq & Vq & _); [rewrite V1, Va, Rabs_pos_eq; lra|]. rewrite V1, Va, fl_fmt in Vq by (apply sterbenz; [typeclasses eauto|typeclasses eauto|apply fmt_1|exact Fz'|lra]). set (q := dsub (dint 1) (abs_d z)) in *.
  destruct (mul_near (dint 3) q F3 Fq) as (Fr & Vr & _); [rewrite V3, Vq, Rabs_pos_eq; lra|]. rewrite V3, Vq in Vr. set (r := dmul (dint 3) q) in *.
  assert (R1 : 0 <= val r <= 1) by (rewrite Vr; split; [apply fl_ge; [apply fl_fmt, fmt_0|lra]|apply fl_le; [apply fl_fmt, fmt_1|lra]]).
  assert (Er : Rabs (val r - 3 * (1 - v)) <= u * (3 * (1 - v))).
  { (* 1 - v is 0 or at least 2^-53, so no underflow *)
    destruct (Rle_lt_or_eq_dec v 1 (proj2 Hz)) as [L|L]; [|rewrite L in Vr; rewrite Vr; replace (3 * (1 - v)) with 0 by lra; replace (3 * (1 - 1)) with 0 by ring; rewrite fl_fmt by apply fmt_0; rewrite Rminus_0_r, Rabs_R0; lra].
    pose proof (draw_bound v Fz' L) as D. rewrite Vr. apply fl_rel. apply Rle_trans with (b2 (-53)); [apply bpow_le; lia|]. lra. }
  assert (Er2 := Rabs_le_inv _ _ Er). destruct (dsqrt_ok r Fr (proj1 R1)) as [Fw Vw]. set (w := dsqrt r) in *. set (t := sqrt (val r)) in *. assert (T1 : 0 <= t <= 1) by (split; [apply sqrt_pos|unfold t; rewrite <- sqrt_1; apply sqrt_le_1_alt; lra]). assert (TT : t * t = val r) by (apply sqrt_sqrt; lra).
  assert (W1 : 0 <= val w <= 1) by (rewrite Vw; split; [apply fl_ge; [apply fl_fmt, fmt_0|lra]|apply fl_le; [apply fl_fmt, fmt_1|lra]]).
  assert (Ew : Rabs (val w - t) <= u * t + e0) by (rewrite Vw; pose proof (fl_mixed t) as M; change (b2 (-53)) with u in M; rewrite (Rabs_pos_eq t) in M by lra; exact M).
  destruct (sub_near (dint 2) w F2 Fw) as (Fs & Vs & _); [rewrite V2, Rabs_pos_eq; lra|]. rewrite V2 in Vs. set (s := dsub (dint 2) w) in *.
  assert (S1 : 1 <= val s <= 2) by (rewrite Vs; split; [apply fl_ge; [apply fl_fmt, fmt_1|lra]|apply fl_le; [apply fl_fmt; change (fmt (b2 1)); apply fmt_b2; lia|lra]]).
  assert (Es : Rabs (val s - (2 - val w)) <= 2 * u).
  { rewrite Vs. pose proof (add_err 2 (- val w)) as H. eapply Rle_trans; [apply H; [change (fmt (b2 1)); apply fmt_b2; lia|apply fmt_opp, fmt_val]|]. rewrite Rabs_pos_eq by lra. nra. }
  assert (Es2 := Rabs_le_inv _ _ Es). assert (Ew2 := Rabs_le_inv _ _ Ew).
  assert (Ng : val z <> 0) by (intro H0; unfold v in H23; rewrite H0, Rabs_R0 in H23; lra). destruct (sign_ok z Fz Ng) as [Fsg Vsg].
  assert (Hs : exists sg, (sg = 1 \/ sg = -1) /\ val (sign_d z) = sg /\ val z = sg * v).
  { destruct (Rlt_bool_spec (val z) 0) as [L|L]; rewrite Vsg; [exists (-1); unfold v; rewrite Rabs_left by lra|exists 1; unfold v; rewrite Rabs_pos_eq by lra]; (split; [auto|split; [reflexivity|ring]]). }
  destruct Hs as (sg & Hs & Vsg' & Vz). exists sg, (val s). split; [exact Hs|]. split; [exact S1|].
  destruct (mul_near (sign_d z) s Fsg Fs) as (Fc & Vc & _); [rewrite Vsg'; destruct Hs as [-> | ->]; apply Rabs_le; lra|]. rewrite Vsg' in Vc. split; [exact Fc|].
  split. { change (cap_sigz_of z) with (dmul (sign_d z) s). rewrite Vc. apply fl_fmt. destruct Hs as [-> | ->]; [rewrite Rmult_1_l; apply fmt_val|]. replace (-1 * val s) with (- val s) by ring. apply fmt_opp, fmt_val. }
  split; [exact Vz|]. split; [|split].
  - set (d := 2 - val s) in *. assert (D1 : 0 <= d <= 1) by (unfold d; lra). assert (ED : Rabs (d - val w) <= 2 * u) by (unfold d; apply Rabs_le; lra).
    replace (d * d - 3 * (1 - v)) with ((d - val w) * (d + val w) + ((val w - t) * (val w + t) + (val r - 3 * (1 - v)))) by (rewrite <- TT; ring).
    eapply Rle_trans; [apply Rabs_triang|]. assert (X := Rabs_triang ((val w - t) * (val w + t)) (val r - 3 * (1 - v))). rewrite Rabs_mult, (Rabs_pos_eq (val w + t)) in X by lra. rewrite (Rabs_mult (d - val w)), (Rabs_pos_eq (d + val w)) by lra.
    pose proof (Rabs_pos (d - val w)). pose proof (Rabs_pos (val w - t)). assert (Rabs (d - val w) * (d + val w) <= 2 * u * 2) by (apply Rmult_le_compat; lra). assert (u * t <= u * 1) by (apply Rmult_le_compat_l; lra). assert (Rabs (val w - t) * (val w + t) <= (1.001 * u) * 2) by (apply Rmult_le_compat; lra). assert (u * (3 * (1 - v)) <= u * 1) by (apply Rmult_le_compat_l; lra). lra.
  - intros Ev. assert (R0 : val r = 0) by (rewrite Ev in Vr; rewrite Vr; replace (3 * (1 - 1)) with 0 by ring; apply fl_fmt, fmt_0). assert (T0 : t = 0) by (unfold t; rewrite R0; apply sqrt_0). rewrite T0 in Vw. rewrite fl_fmt in Vw by apply fmt_0. rewrite Vs, Vw, Rminus_0_r. apply fl_fmt. change (fmt (b2 1)). apply fmt_b2. lia.
  - intros L. pose proof (draw_bound v Fz' L) as D. change (b2 (-53)) with u in D. assert (TL : 2.9 * (1 - v) <= t * t) by (rewrite TT; nra). assert (T1000 : 1000 * u <= t) by nra. assert (WL : 0.998 * t <= val w) by nra. assert (SL : 0.99 * t <= 2 - val s) by lra. assert (Q : (0.99 * t) * (0.99 * t) <= (2 - val s) * (2 - val s)) by (apply Rmult_le_compat; lra). lra.
Qed.

(** A point of the caps in the plane. *)
Lemma cap_forth : forall cosd phi theta, near_on_circle cos cosd -> fin phi -> 0 <= val phi <= tau -> fin theta -> Rabs (val theta) <= 8 -> val two_thirds < Rabs (val (cosd theta)) ->
  let g := cap_sigz_of (cosd theta) in
  let x := cap_x phi (cap_siga g) (mod_d phi half_pi) in
  exists (sg s : R) (k : Z), (sg = 1 \/ sg = -1) /\ 1 <= s <= 2 /\ (0 <= k <= 4)%Z /\ IZR k * (tau / 4) <= val phi < (IZR k + 1) * (tau / 4) /\
    0 < sg * cos (val theta) /\ Rabs ((2 - s) * (2 - s) - 3 * (1 - Rabs (cos (val theta)))) <= b2 (-49) /\
    fin x /\ 0 <= val x <= 8 /\ Rabs (val x - (val phi - (s - 1) * (val phi - IZR k * (PI / 2) - PI / 4))) <= b2 (-49) /\
    fin (cap_y g) /\ Rabs (val (cap_y g) - sg * (PI * s / 4)) <= b2 (-51) /\ val (cap_y g) = sg * Rabs (val (cap_y g)) /\ Rabs (val (cap_y g)) <= tau / 4 /\
    (Rabs (val (cosd theta)) = 1 -> s = 2 /\ Rabs (val (cap_y g)) = tau / 4) /\ (Rabs (val (cosd theta)) < 1 -> 1 - Rabs (val (cosd theta)) <= (2 - s) * (2 - s)).
Proof.
  intros cosd phi theta HC Fp Hp Ft Ht Hz g x. destruct (HC theta Ft Ht) as (Fz & Iz & Ez). destruct pi_u as (A & B & C). pose proof e0_small as E. pose proof u_tiny as U. destruct (int_ok 4 ltac:(lia)) as [F4 V4]. destruct pi_val as [Fpi Vpi]. destruct quarter_val as [Fqp Vqp].
  assert (B52 : b2 (-52) = 2 * u) by (unfold u; change (-52)%Z with (1 + -53)%Z; rewrite bpow_plus; reflexivity). rewrite B52 in Ez. destruct thirds_u as [_ TU].
  destruct (sigz_of_ok (cosd theta) Fz) as (sg & s & Hs & S1 & Fg & Vg & Vz & Es & S2 & S3). { split; [exact Hz|apply Rabs_le; lra]. } fold g in Fg, Vg.
  destruct (siga_ok g sg s Fg Hs S1 Vg) as (Fs & Fa & Va). destruct (mod_half phi Fp (proj1 Hp)) as (k & K0 & Fm & Vm & Im). set (m := mod_d phi half_pi) in *. set (a := cap_siga g) in *.
  set (z := val (cosd theta)) in *. assert (Ez2 := Rabs_le_inv _ _ Ez). assert (Cz : Rabs (Rabs z - Rabs (cos (val theta))) <= 2 * u) by (eapply Rle_trans; [apply Rabs_triang_inv2|exact Ez]). assert (Cz2 := Rabs_le_inv _ _ Cz). assert (Es2 := Rabs_le_inv _ _ Es).
  assert (K4 : (k <= 4)%Z) by (assert (IZR k < 5) by nra; apply lt_IZR in H; lia). assert (KR : 0 <= IZR k <= 4) by (split; [apply (IZR_le 0)|apply (IZR_le k 4)]; lia).
  (* phit - pi/4 *)
  destruct (sub_near m quarter_pi Fm Fqp) as (Ft1 & Vt1 & Et1); [rewrite Vqp; apply Rabs_le; lra|]. rewrite Vqp in Vt1, Et1. set (t1 := dsub m quarter_pi) in *. assert (Bt1 : Rabs (val m - tau / 8) <= 0.79) by (apply Rabs_le; lra). assert (Et1' : Rabs (val t1 - (val m - tau / 8)) <= 0.79 * u) by nra. assert (Et12 := Rabs_le_inv _ _ Et1').
  assert (Bt1' : Rabs (val t1) <= 0.8) by (apply Rabs_le_inv in Bt1; apply Rabs_le; lra).
  assert (Bp : Rabs ((s - 1) * val t1) <= 0.8) by (rewrite Rabs_mult, (Rabs_pos_eq (s - 1)) by lra; pose proof (Rabs_pos (val t1)); nra).
  destruct (mul_near a t1 Fa Ft1) as (Fp1 & Vp1 & Ep1); [rewrite Va; lra|]. rewrite Va in Vp1, Ep1. set (p := dmul a t1) in *. assert (Ep' : Rabs (val p - (s - 1) * val t1) <= 0.81 * u) by (assert (u * Rabs ((s - 1) * val t1) <= u * 0.8) by (apply Rmult_le_compat_l; lra); lra). assert (Ep2 := Rabs_le_inv _ _ Ep'). assert (Bp2 := Rabs_le_inv _ _ Bp).
  destruct (sub_near phi p Fp Fp1) as (Fx & Vx & Ex); [apply Rabs_le; lra|]. change (dsub phi p) with x in Fx, Vx, Ex.
  assert (Bx : Rabs (val phi - val p) <= 7.2) by (apply Rabs_le; lra). assert (Ex' : Rabs (val x - (val phi - val p)) <= 7.2 * u) by nra. assert (Ex2 := Rabs_le_inv _ _ Ex'). assert (Bx2 := Rabs_le_inv _ _ Bx).
  assert (X0 : 0 <= val x).
  { rewrite Vx. apply fl_ge; [apply fl_fmt, fmt_0|]. assert (PM : val p <= val phi); [|lra]. rewrite Vp1. apply fl_le; [apply fl_fmt, fmt_val|].
    assert (TM : val t1 <= val m) by (rewrite Vt1; apply fl_le; [apply fl_fmt, fmt_val|lra]). assert (ML : val m <= val phi) by (rewrite Vm; assert (0 <= IZR k * (tau / 4)) by (apply Rmult_le_pos; lra); lra).
    destruct (Rle_or_lt (val t1) 0) as [N|N]; [assert (0 <= (s - 1) * (- val t1)) by (apply Rmult_le_pos; lra); lra|]. assert ((s - 1) * val t1 <= 1 * val t1) by (apply Rmult_le_compat_r; lra). lra. }
  (* y *)
  assert (PSB : tau / 2 * 1 <= tau / 2 * s <= tau / 2 * 2) by (split; apply Rmult_le_compat_l; lra).
  destruct (mul_near pi_d g Fpi Fg) as (Fy1 & Vy1 & Ey1); [rewrite Vpi, Vg; destruct Hs as [-> | ->]; apply Rabs_le; lra|]. rewrite Vpi, Vg in Vy1, Ey1. set (y1 := dmul pi_d g) in *.
  assert (Vy1' : val y1 = sg * fl (tau / 2 * s)). { rewrite Vy1. destruct Hs as [-> | ->]; [rewrite !Rmult_1_l; reflexivity|]. replace (tau / 2 * (-1 * s)) with (- (tau / 2 * s)) by ring. rewrite fl_opp. ring. }
  set (h := fl (tau / 2 * s)) in *. assert (Eh : Rabs (h - tau / 2 * s) <= u * (tau / 2 * s) + e0) by (pose proof (fl_mixed (tau / 2 * s)) as M; change (b2 (-53)) with u in M; rewrite (Rabs_pos_eq (tau / 2 * s)) in M by lra; exact M).
  assert (H1 : tau / 2 <= h <= tau). { unfold h. split; [apply fl_ge; [apply fl_fmt; destruct pi_val as [_ Vpp]; rewrite <- Vpp; apply fmt_val|lra]|apply fl_le; [apply fl_fmt, fmt_tau|lra]]. }
  assert (B51 : b2 (-51) = 4 * u) by apply b51_u. assert (B49 : b2 (-49) = 16 * u) by (unfold u; change (-49)%Z with (4 + -53)%Z; rewrite bpow_plus; reflexivity).
  assert (Fh0 : fmt h) by apply fmt_fl. assert (Fh : fmt (h / 4)).
  { replace (h / 4) with (h * b2 (-2)) by (change (b2 (-2)) with (/ 4); field). apply mult_bpow_exact_FLT; [exact Fh0|]. assert (M : (2 <= mag radix2 h)%Z) by (apply mag_ge_bpow; rewrite Rabs_pos_eq by lra; change (b2 (2 - 1)) with 2; lra). lia. }
  destruct (div_near y1 (dint 4) Fy1) as (Fy & Vy & _); [lra|rewrite V4, Vy1'; destruct Hs as [-> | ->]; apply Rabs_le; lra|]. rewrite V4, Vy1' in Vy. change (ddiv y1 (dint 4)) with (cap_y g) in Fy, Vy.
  assert (Vy' : val (cap_y g) = sg * (h / 4)). { rewrite Vy. destruct Hs as [-> | ->]; [replace (1 * h / 4) with (h / 4) by field; rewrite fl_fmt by exact Fh; ring|]. replace (-1 * h / 4) with (- (h / 4)) by field. rewrite fl_opp, fl_fmt by exact Fh. ring. }
  assert (Ay : Rabs (val (cap_y g)) = h / 4) by (rewrite Vy', Rabs_mult, (Rabs_pos_eq (h / 4)) by lra; destruct Hs as [-> | ->]; [rewrite Rabs_R1|rewrite Rabs_left by lra]; ring).
  exists sg, s, k. split; [exact Hs|]. split; [exact S1|]. split; [lia|]. split; [lra|]. split; [|split; [|split; [exact Fx|split; [lra|split; [|split; [exact Fy|split; [|split; [rewrite Ay; exact Vy'|split; [rewrite Ay; lra|split; [|exact S3]]]]]]]]]].
  - rewrite Vz in Ez2. destruct Hs as [-> | ->]; lra.
  - rewrite B49. apply Rabs_le. split; lra.
  - rewrite B49. set (T := val phi - IZR k * (PI / 2) - PI / 4). assert (ET : Rabs (val t1 - T) <= 5.5 * u).
    { replace (val t1 - T) with ((val t1 - (val m - tau / 8)) - (tau / 2 - PI) * (IZR k / 2 + / 4)) by (unfold T; rewrite Vm; field). unfold Rminus at 1. eapply Rle_trans; [apply Rabs_triang|]. rewrite Rabs_Ropp, Rabs_mult, (Rabs_pos_eq (IZR k / 2 + / 4)) by lra. pose proof (Rabs_pos (tau / 2 - PI)). assert (Rabs (tau / 2 - PI) * (IZR k / 2 + / 4) <= 2 * u * 2.25) by (apply Rmult_le_compat; lra). lra. }
    assert (EP : Rabs ((s - 1) * (val t1 - T)) <= 5.5 * u) by (rewrite Rabs_mult, (Rabs_pos_eq (s - 1)) by lra; pose proof (Rabs_pos (val t1 - T)); assert ((s - 1) * Rabs (val t1 - T) <= 1 * (5.5 * u)) by (apply Rmult_le_compat; lra); lra).
    apply Rabs_le_inv in EP. apply Rabs_le. replace (val x - (val phi - (s - 1) * T)) with ((val x - (val phi - val p)) - (val p - (s - 1) * val t1) - (s - 1) * (val t1 - T)) by ring. split; lra.
  - rewrite Vy', B51. replace (sg * (h / 4) - sg * (PI * s / 4)) with (sg * ((h - PI * s) / 4)) by field. rewrite Rabs_mult. replace (Rabs sg) with 1 by (destruct Hs as [-> | ->]; unfold Rabs; destruct Rcase_abs; lra). rewrite Rmult_1_l.
    assert (X : Rabs ((tau / 2 - PI) * s) <= 4 * u) by (rewrite Rabs_mult, (Rabs_pos_eq s) by lra; pose proof (Rabs_pos (tau / 2 - PI)); assert (Rabs (tau / 2 - PI) * s <= 2 * u * 2) by (apply Rmult_le_compat; lra); lra). apply Rabs_le_inv in X. assert (u * (tau / 2 * s) <= u * 6.3) by (apply Rmult_le_compat_l; lra). assert (Eh2 := Rabs_le_inv _ _ Eh). replace ((h - PI * s) / 4) with (((h - tau / 2 * s) + (tau / 2 - PI) * s) / 4) by field. apply Rabs_le. split; lra.
  - intros Z1. assert (S := S2 Z1). split; [exact S|]. rewrite Ay. unfold h. rewrite S. replace (tau / 2 * 2) with tau by field. rewrite fl_fmt by apply fmt_tau. reflexivity.
Qed.
