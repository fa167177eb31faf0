(** * Proofs about [MHealCoordDouble.v] *)

From Coq Require Import Reals ZArith List Bool Lia Lra Psatz.
From Flocq Require Import Core IEEE754.BinarySingleNaN Plus_error Sterbenz.
From Verif Require Import Base BaseP MHealpixFloat PHealpixFloat SpecDouble SpecCoordsDouble MDouble PDouble PPiDouble PSumDouble MGridsDouble PGridsDouble MRemapDouble PRemapDouble2 MRandomsDouble PRandomsDouble PLibmDouble PTripDouble PHealpixCoord MHealCoordDouble.
From Verif Require PRebinDouble4.
Import ListNotations.
Open Scope R_scope.

Local Instance fexp_valid : Valid_exp (FLT_exp (-1074) 53).
Proof. apply FLT_exp_valid. reflexivity. Qed.
Local Instance fexp_mono : Monotone_exp (FLT_exp (-1074) 53).
Proof. apply FLT_exp_monotone. Qed.
Local Existing Instance p53.

Notation e0 := (b2 (-1075)).

(** ** Operations on numbers of moderate size *)

Lemma fl_512 : forall r, Rabs r <= 512 -> Rabs (fl r) < b2 1024.
Proof.
  intros r H. apply Rle_lt_trans with (b2 9); [|apply bpow_lt; lia]. apply abs_round_le_generic; [typeclasses eauto|typeclasses eauto|apply fmt_b2; lia|exact H].
Qed.
Lemma add_near : forall x y, fin x -> fin y -> Rabs (val x + val y) <= 512 ->
  fin (dadd x y) /\ val (dadd x y) = fl (val x + val y) /\ Rabs (val (dadd x y) - (val x + val y)) <= u * Rabs (val x + val y).
Proof. intros x y Fx Fy H. destruct (dadd_ok x y Fx Fy (fl_512 _ H)) as [F V]. split; [exact F|]. split; [exact V|]. rewrite V. apply add_err; apply fmt_val. Qed.
Lemma sub_near : forall x y, fin x -> fin y -> Rabs (val x - val y) <= 512 ->
  fin (dsub x y) /\ val (dsub x y) = fl (val x - val y) /\ Rabs (val (dsub x y) - (val x - val y)) <= u * Rabs (val x - val y).
Proof. intros x y Fx Fy H. destruct (dsub_ok x y Fx Fy (fl_512 _ H)) as [F V]. split; [exact F|]. split; [exact V|]. rewrite V. apply (add_err (val x) (- val y)); [apply fmt_val|apply fmt_opp, fmt_val]. Qed.
Lemma mul_near : forall x y, fin x -> fin y -> Rabs (val x * val y) <= 512 ->
  fin (dmul x y) /\ val (dmul x y) = fl (val x * val y) /\ Rabs (val (dmul x y) - val x * val y) <= u * Rabs (val x * val y) + e0.
Proof. intros x y Fx Fy H. destruct (dmul_ok x y Fx Fy (fl_512 _ H)) as [F V]. split; [exact F|]. split; [exact V|]. rewrite V. apply fl_mixed. Qed.
Lemma div_near : forall x y, fin x -> val y <> 0 -> Rabs (val x / val y) <= 512 ->
  fin (ddiv x y) /\ val (ddiv x y) = fl (val x / val y) /\ Rabs (val (ddiv x y) - val x / val y) <= u * Rabs (val x / val y) + e0.
Proof. intros x y Fx Ny H. destruct (ddiv_ok x y Fx Ny (fl_512 _ H)) as [F V]. split; [exact F|]. split; [exact V|]. rewrite V. apply fl_mixed. Qed.

Lemma abs_ok : forall x, fin x -> fin (abs_d x) /\ val (abs_d x) = Rabs (val x).
Proof. intros x F. split; [unfold fin, abs_d; rewrite is_finite_Babs; exact F|unfold val, abs_d; apply B2R_Babs]. Qed.

Lemma int_ok : forall z, (-100 <= z <= 100)%Z -> fin (dint z) /\ val (dint z) = IZR z.
Proof. intros z H. apply dint_ok. lia. Qed.

Lemma sign_ok : forall x, fin x -> val x <> 0 -> fin (sign_d x) /\ val (sign_d x) = if Rlt_bool (val x) 0 then -1 else 1.
Proof.
  intros x F N. destruct one_ok as [F1 V1]. destruct (int_ok (-1) ltac:(lia)) as [Fm Vm].
  assert (E : sign_d x = if dlt dzero x then one_d else if dlt x dzero then dint (-1) else dzero) by (destruct x; try discriminate F; reflexivity).
  rewrite E, (dlt_ok dzero x fin_zero F), (dlt_ok x dzero F fin_zero), val_zero.
  destruct (Rlt_bool_spec 0 (val x)) as [H|H]; destruct (Rlt_bool_spec (val x) 0) as [G|G]; try lra; auto.
Qed.

Lemma e0_u : e0 <= b2 (-900) * u.
Proof. unfold u. rewrite <- bpow_plus. apply bpow_le. lia. Qed.
Lemma e0_small : 0 < e0 <= / 1024 * u.
Proof. split; [apply bpow_gt_0|]. apply Rle_trans with (1 := e0_u). apply Rmult_le_compat_r; [apply Rlt_le, u_pos|]. change (/ 1024) with (b2 (-10)). apply bpow_le. lia. Qed.
Lemma u_tiny : 0 < u <= / 1000000.
Proof. split; [apply u_pos|]. apply Rle_trans with (b2 (-20)); [apply bpow_le; lia|]. change (b2 (-20)) with (/ 1048576). lra. Qed.

(** [np.pi] against pi, in units of 2^-53. *)
Lemma pi_u : Rabs (tau / 2 - PI) <= 2 * u /\ 3.14 < tau / 2 < 3.15 /\ 3.14 < PI < 3.15.
Proof.
  destruct pi_accuracy as [A B]. assert (E : b2 (-52) = 2 * u) by (unfold u; change (-52)%Z with (1 + -53)%Z; rewrite bpow_plus; reflexivity). pose proof u_tiny as U.
  assert (T : 6.283 < tau < 6.284) by (unfold tau; change (b2 (-50)) with (/ IZR (Z.pow_pos 2 50)); change (Z.pow_pos 2 50) with 1125899906842624%Z; lra).
  split; [apply Rabs_le; lra|]. lra.
Qed.

Lemma quarter_val : fin quarter_pi /\ val quarter_pi = tau / 8.
Proof.
  destruct pi_val as [F V]. destruct (int_ok 4 ltac:(lia)) as [F4 V4]. pose proof tau_bounds as T. assert (Q : fmt (tau / 8)).
  { replace (tau / 8) with (7074237752028440 * b2 (-53)); [apply generic_format_FLT; exists (Float radix2 7074237752028440 (-53)); [reflexivity|vm_compute; reflexivity|cbn; lia]|].
    unfold tau. replace (b2 (-50)) with (8 * b2 (-53)) by (change 8 with (b2 3); rewrite <- bpow_plus; reflexivity). field. }
  assert (E : val pi_d / val (dint 4) = tau / 8) by (rewrite V, V4; field).
  destruct (div_near pi_d (dint 4) F) as (Fd & Vd & _); [lra|rewrite E, Rabs_pos_eq; lra|]. rewrite E, (fl_fmt _ Q) in Vd. auto.
Qed.
Lemma half_val : fin half_pi /\ val half_pi = tau / 4.
Proof.
  destruct pi_val as [F V]. destruct (int_ok 2 ltac:(lia)) as [F4 V4]. pose proof tau_bounds as T. assert (Q : fmt (tau / 4)).
  { replace (tau / 4) with (7074237752028440 * b2 (-52)); [apply generic_format_FLT; exists (Float radix2 7074237752028440 (-52)); [reflexivity|vm_compute; reflexivity|cbn; lia]|].
    unfold tau. replace (b2 (-50)) with (4 * b2 (-52)) by (change 4 with (b2 2); rewrite <- bpow_plus; reflexivity). field. }
  assert (E : val pi_d / val (dint 2) = tau / 4) by (rewrite V, V4; field).
  destruct (div_near pi_d (dint 2) F) as (Fd & Vd & _); [lra|rewrite E, Rabs_pos_eq; lra|]. rewrite E, (fl_fmt _ Q) in Vd. auto.
Qed.
Lemma three_pi_val : fin (dmul (dint 3) pi_d) /\ Rabs (val (dmul (dint 3) pi_d) - 3 * PI) <= 16 * u.
Proof.
  destruct pi_val as [F V]. destruct (int_ok 3 ltac:(lia)) as [F3 V3]. destruct pi_u as (A & B & C). pose proof e0_small as E. pose proof u_tiny as U.
  destruct (mul_near (dint 3) pi_d F3 F) as (Fm & _ & Em); [rewrite V, V3, Rabs_pos_eq; lra|]. split; [exact Fm|]. rewrite V, V3, (Rabs_pos_eq (3 * (tau / 2))) in Em by lra.
  apply Rabs_le_inv in A, Em. assert (u * (3 * (tau / 2)) <= u * 9.45) by (apply Rmult_le_compat_l; lra). apply Rabs_le. split; lra.
Qed.
Lemma third_val : fin one_third /\ Rabs (val one_third - / 3) <= u.
Proof.
  destruct (int_ok 1 ltac:(lia)) as [F1 V1]. destruct (int_ok 3 ltac:(lia)) as [F3 V3]. pose proof e0_small as E. pose proof u_tiny as U.
  destruct (div_near (dint 1) (dint 3) F1) as (Fd & _ & Ed); [lra|rewrite V1, V3, Rabs_pos_eq; lra|]. split; [exact Fd|]. rewrite V1, V3, (Rabs_pos_eq (1 / 3)) in Ed by lra. replace (/ 3) with (1 / 3) by lra.
  unfold one_third. eapply Rle_trans; [exact Ed|]. lra.
Qed.

(** ** From the plane to the sphere *)

Lemma b51_u : b2 (-51) = 4 * u.
Proof. unfold u. change (-51)%Z with (2 + -53)%Z. rewrite bpow_plus. reflexivity. Qed.

Lemma ratio_near : forall m T X Y a b, 9 <= T -> 9 <= Y -> Rabs (m - X) <= a -> Rabs (T - Y) <= b -> Rabs (X / Y) <= 1 -> Rabs (m / T - X / Y) <= (a + b) / 9.
Proof.
  intros m T X Y a b HT HY Hm Hb HV. set (V := X / Y) in *. assert (EV : V * Y = X) by (unfold V; field; lra). set (W := m / T). assert (EW : W * T = m) by (unfold W; field; lra).
  assert (E : (W - V) * T = (m - X) - V * (T - Y)) by (rewrite <- EW, <- EV; ring).
  assert (B : Rabs ((W - V) * T) <= a + b).
  { rewrite E. unfold Rminus at 1. eapply Rle_trans; [apply Rabs_triang|]. rewrite Rabs_Ropp, Rabs_mult. pose proof (Rabs_pos (T - Y)). pose proof (Rabs_pos V). nra. }
  rewrite Rabs_mult, (Rabs_pos_eq T) in B by lra. pose proof (Rabs_pos (W - V)). apply Rmult_le_reg_r with 9; [lra|]. replace ((a + b) / 9 * 9) with (a + b) by field. nra.
Qed.

Lemma belt_back : forall arccos y, near_arccos arccos -> fin y -> Rabs (val y) <= tau / 8 ->
  exists psi, 0 <= psi <= PI /\ cos psi = 8 * val y / (3 * PI) /\ Rabs (val (belt_theta arccos y) - psi) <= b2 (-48).
Proof.
  intros arccos y HA Fy Hy. destruct pi_u as (A & B & C). destruct three_pi_val as [F3 E3]. pose proof e0_small as E. pose proof u_tiny as U. destruct (int_ok 8 ltac:(lia)) as [F8 V8].
  destruct (mul_near (dint 8) y F8 Fy) as (Fm & _ & Em); [rewrite V8, Rabs_mult, (Rabs_pos_eq 8); lra|]. rewrite V8 in Em. set (m := dmul (dint 8) y) in *. set (T3 := dmul (dint 3) pi_d) in *.
  assert (Bm : Rabs (8 * val y) <= 6.3) by (rewrite Rabs_mult, (Rabs_pos_eq 8); lra).
  assert (Em' : Rabs (val m - 8 * val y) <= 6.4 * u) by (eapply Rle_trans; [exact Em|]; assert (u * Rabs (8 * val y) <= u * 6.3) by (apply Rmult_le_compat_l; lra); lra).
  assert (T9 : 9.4 <= val T3) by (apply Rabs_le_inv in E3; lra).
  assert (HV : Rabs (8 * val y / (3 * PI)) <= 0.67). { unfold Rdiv. rewrite Rabs_mult, (Rabs_pos_eq (/ (3 * PI))) by (apply Rlt_le, Rinv_0_lt_compat; lra). apply Rmult_le_reg_r with (3 * PI); [lra|]. rewrite Rmult_assoc, Rinv_l by lra. lra. }
  assert (R1 := ratio_near (val m) (val T3) (8 * val y) (3 * PI) _ _ ltac:(lra) ltac:(lra) Em' E3 ltac:(lra)). set (V := 8 * val y / (3 * PI)) in *.
  assert (Bq : Rabs (val m / val T3) <= 0.68). { replace (val m / val T3) with ((val m / val T3 - V) + V) by ring. eapply Rle_trans; [apply Rabs_triang|]. lra. }
  destruct (div_near m T3 Fm) as (Fq & _ & Eq); [lra|lra|]. set (q := ddiv m T3) in *.
  assert (EQ : Rabs (val q - V) <= 4 * u).
  { replace (val q - V) with ((val q - val m / val T3) + (val m / val T3 - V)) by ring. eapply Rle_trans; [apply Rabs_triang|]. assert (u * Rabs (val m / val T3) <= u * 0.68) by (apply Rmult_le_compat_l; lra). lra. }
  assert (Hq : -1 <= val q <= 1) by (apply Rabs_le_inv in EQ, HV; lra).
  destruct (HA q Fq Hq) as (psi' & I' & C' & D'). exists (acos V). apply Rabs_le_inv in HV. assert (CV : cos (acos V) = V) by (apply cos_acos; lra). pose proof (acos_bound V) as IV. split; [exact IV|]. split; [exact CV|].
  destruct (colat_close (acos V) psi' (4 * u) IV I') as [K1 _]. { rewrite CV, C', Rabs_minus_sym. exact EQ. }
  assert (SV : 0.74 <= sin (acos V)). { pose proof (sin2_cos2 (acos V)) as SC. unfold Rsqr in SC. rewrite CV in SC. assert (0 <= sin (acos V)) by (apply sin_ge_0; lra). assert (V * V <= 0.67 * 0.67) by nra. nra. }
  pose proof (Rabs_pos (acos V - psi')) as P0. assert (K2 : Rabs (acos V - psi') <= 22 * u) by nra.
  replace (val (belt_theta arccos y) - acos V) with ((val (arccos q) - psi') - (acos V - psi')) by (unfold belt_theta; fold m T3 q; ring).
  unfold Rminus at 1. eapply Rle_trans; [apply Rabs_triang|]. rewrite Rabs_Ropp. rewrite b51_u in D'. replace (b2 (-48)) with (32 * u) by (unfold u; change (-48)%Z with (5 + -53)%Z; rewrite bpow_plus; reflexivity). lra.
Qed.

Lemma cap_theta_ok : forall arccos g sg s, near_arccos arccos -> fin g -> sg = 1 \/ sg = -1 -> 1 <= s <= 2 -> val g = sg * s ->
  exists psi, 0 <= psi <= PI /\ cos psi = sg * (1 - (2 - s) * (2 - s) / 3) /\ sin psi * Rabs (val (cap_theta arccos g) - psi) <= b2 (-49) /\ Rabs (val (cap_theta arccos g) - psi) <= b2 (-23).
Proof.
  intros arccos g sg s HA Fg Hs I Vg. pose proof e0_small as E. pose proof u_tiny as U. destruct (int_ok 2 ltac:(lia)) as [F2 V2]. destruct (int_ok 1 ltac:(lia)) as [F1 V1]. destruct third_val as [Ft Et].
  destruct (abs_ok g Fg) as [Fa Va]. assert (Va' : val (abs_d g) = s) by (rewrite Va, Vg, Rabs_mult, (Rabs_pos_eq s) by lra; destruct Hs as [-> | ->]; [rewrite Rabs_R1|rewrite Rabs_left by lra]; ring). clear Va.
  assert (Fs : fmt s) by (rewrite <- Va'; apply fmt_val).
  destruct (sub_near (dint 2) (abs_d g) F2 Fa) as (Fd & Vd & _); [rewrite V2, Va', Rabs_pos_eq; lra|]. rewrite V2, Va', fl_fmt in Vd by (apply sterbenz; [typeclasses eauto|typeclasses eauto|change (fmt (b2 1)); apply fmt_b2; lia|exact Fs|lra]).
  set (d := dsub (dint 2) (abs_d g)) in *. destruct (mul_near d d Fd Fd) as (Fq & _ & Eq); [rewrite Vd, Rabs_pos_eq; nra|]. rewrite Vd in Eq. set (dd := (2 - s) * (2 - s)) in *. assert (Hdd : 0 <= dd <= 1) by (unfold dd; nra). rewrite (Rabs_pos_eq dd) in Eq by lra.
  fold (sq d) in Fq, Eq. set (q := sq d) in *. assert (Eq' : Rabs (val q - dd) <= 1.01 * u) by nra. assert (Eq2 := Rabs_le_inv _ _ Eq'). assert (Et2 := Rabs_le_inv _ _ Et).
  assert (Qb : Rabs (val one_third * val q - dd / 3) <= 1.4 * u). { replace (val one_third * val q - dd / 3) with ((val one_third - / 3) * val q + / 3 * (val q - dd)) by field. eapply Rle_trans; [apply Rabs_triang|]. rewrite !Rabs_mult, (Rabs_pos_eq (/ 3)) by lra. assert (Rabs (val q) <= 1.01) by (apply Rabs_le; lra). pose proof (Rabs_pos (val q)). pose proof (Rabs_pos (val one_third - / 3)). nra. }
  assert (Qb2 := Rabs_le_inv _ _ Qb). destruct (mul_near one_third q Ft Fq) as (Fm & Vm & Em); [apply Rabs_le; lra|]. set (m := dmul one_third q) in *.
  assert (Mb : Rabs (val one_third * val q) <= 0.34) by (apply Rabs_le; lra). assert (Em' : Rabs (val m - dd / 3) <= 1.8 * u). { replace (val m - dd / 3) with ((val m - val one_third * val q) + (val one_third * val q - dd / 3)) by ring. eapply Rle_trans; [apply Rabs_triang|]. assert (u * Rabs (val one_third * val q) <= u * 0.34) by (apply Rmult_le_compat_l; lra). lra. }
  assert (Em2 := Rabs_le_inv _ _ Em').
  assert (Q0 : 0 <= val q) by (destruct (dmul_ok d d Fd Fd ltac:(apply fl_512; rewrite Vd, Rabs_pos_eq; nra)) as [_ W]; unfold q, sq; rewrite W, Vd; apply fl_ge; [apply fl_fmt, fmt_0|exact (proj1 Hdd)]).
  assert (M0 : 0 <= val m) by (rewrite Vm; apply fl_ge; [apply fl_fmt, fmt_0|apply Rmult_le_pos; lra]).
  destruct (sub_near (dint 1) m F1 Fm) as (Fz & Vz & Ez); [rewrite V1; apply Rabs_le; lra|]. rewrite V1 in Vz, Ez. set (z := dsub (dint 1) m) in *.
  assert (Z1 : val z <= 1) by (rewrite Vz; apply fl_le; [apply fl_fmt, fmt_1|lra]).
  assert (Ez' : Rabs (val z - (1 - dd / 3)) <= 3 * u). { replace (val z - (1 - dd / 3)) with ((val z - (1 - val m)) - (val m - dd / 3)) by ring. unfold Rminus at 1. eapply Rle_trans; [apply Rabs_triang|]. rewrite Rabs_Ropp. assert (Rabs (1 - val m) <= 1) by (apply Rabs_le; lra). assert (u * Rabs (1 - val m) <= u * 1) by (apply Rmult_le_compat_l; lra). lra. }
  assert (Ez2 := Rabs_le_inv _ _ Ez').
  assert (Ng : val g <> 0) by (rewrite Vg; destruct Hs as [-> | ->]; intro; lra). destruct (sign_ok g Fg Ng) as [Fsg Vsg]. assert (Vsg' : val (sign_d g) = sg) by (rewrite Vsg, Vg; destruct Hs as [-> | ->]; [rewrite Rlt_bool_false|rewrite Rlt_bool_true]; lra).
  destruct (mul_near (sign_d g) z Fsg Fz) as (Fc & Vc & _); [rewrite Vsg'; destruct Hs as [-> | ->]; apply Rabs_le; lra|]. rewrite Vsg' in Vc. set (c := dmul (sign_d g) z) in *.
  assert (Vc' : val c = sg * val z). { rewrite Vc. apply fl_fmt. destruct Hs as [-> | ->]; [rewrite Rmult_1_l; apply fmt_val|]. replace (-1 * val z) with (- val z) by ring. apply fmt_opp, fmt_val. }
  destruct (HA c Fc) as (psi' & I' & C' & D'); [rewrite Vc'; destruct Hs as [-> | ->]; lra|]. set (v := sg * (1 - dd / 3)).
  assert (Hv : -1 <= v <= 1) by (unfold v; destruct Hs as [-> | ->]; lra). exists (acos v). pose proof (acos_bound v) as IV. assert (CV := cos_acos v Hv). split; [exact IV|]. split; [exact CV|].
  destruct (colat_close (acos v) psi' (3 * u) IV I') as [K1 K2].
  { rewrite CV, C', Vc', Rabs_minus_sym. unfold v. replace (sg * val z - sg * (1 - dd / 3)) with (sg * (val z - (1 - dd / 3))) by ring. rewrite Rabs_mult. replace (Rabs sg) with 1 by (destruct Hs as [-> | ->]; unfold Rabs; destruct Rcase_abs; lra). lra. }
  change (cap_theta arccos g) with (arccos c). set (a := acos v) in *. rewrite b51_u in D'.
  assert (T : Rabs (val (arccos c) - a) <= 4 * u + Rabs (a - psi')). { replace (val (arccos c) - a) with ((val (arccos c) - psi') - (a - psi')) by ring. unfold Rminus at 1. eapply Rle_trans; [apply Rabs_triang|]. rewrite Rabs_Ropp. lra. }
  assert (S0 : 0 <= sin a) by (apply sin_ge_0; lra). pose proof (SIN_bound a) as S1. pose proof (Rabs_pos (a - psi')) as P0. split.
  - apply Rle_trans with (sin a * (4 * u + Rabs (a - psi'))); [apply Rmult_le_compat_l; lra|]. replace (b2 (-49)) with (16 * u) by (unfold u; change (-49)%Z with (4 + -53)%Z; rewrite bpow_plus; reflexivity). nra.
  - assert (X : u = b2 (-27) * b2 (-27) * 2) by (unfold u; rewrite <- bpow_plus; change (-53)%Z with (-27 + -27 + 1)%Z; rewrite (bpow_plus _ _ 1); reflexivity).
    replace (b2 (-23)) with (16 * b2 (-27)) by (change (-23)%Z with (4 + -27)%Z; rewrite bpow_plus; reflexivity). assert (B27 : 0 < b2 (-27) <= / 1000000) by (split; [apply bpow_gt_0|apply Rle_trans with (b2 (-20)); [apply bpow_le; lia|change (b2 (-20)) with (/ 1048576); lra]]). set (w := b2 (-27)) in *. clearbody w.
    assert (Rabs (a - psi') <= 8 * w) by nra. nra.
Qed.

Lemma quad_fmt : forall r, fmt r -> fmt (4 * r).
Proof. intros r F. replace (4 * r) with (2 * (2 * r)) by ring. apply PRebinDouble4.fmt_double, PRebinDouble4.fmt_double, F. Qed.

Lemma sigz_ok : forall y, fin y -> tau / 8 < Rabs (val y) <= tau / 4 ->
  exists sg s, (sg = 1 \/ sg = -1) /\ 1 <= s <= 2 /\ fin (cap_sigz y) /\ val (cap_sigz y) = sg * s /\ val y = sg * Rabs (val y) /\
    Rabs (s - 4 * Rabs (val y) / PI) <= b2 (-51) /\ (Rabs (val y) = tau / 4 -> s = 2).
Proof.
  intros y Fy Hy. destruct pi_u as (A & B & C). destruct pi_val as [Fp Vp]. destruct (int_ok 4 ltac:(lia)) as [F4 V4]. pose proof e0_small as E. pose proof u_tiny as U. set (v := Rabs (val y)) in *.
  destruct (mul_near (dint 4) y F4 Fy) as (Fm & Vm & _); [rewrite V4, Rabs_mult, (Rabs_pos_eq 4); fold v; lra|]. rewrite V4, fl_fmt in Vm by apply quad_fmt, fmt_val.
  set (m := dmul (dint 4) y) in *. assert (Q0 : 1 < 4 * v / (tau / 2) <= 2). { split; [apply Rmult_lt_reg_r with (tau / 2)|apply Rmult_le_reg_r with (tau / 2)]; try lra; unfold Rdiv; rewrite (Rmult_assoc (4 * v)), Rinv_l by lra; lra. }
  set (q := 4 * v / (tau / 2)) in *.
  assert (Hs : exists sg, (sg = 1 \/ sg = -1) /\ val y = sg * v). { unfold v, Rabs. destruct (Rcase_abs (val y)); [exists (-1)|exists 1]; split; auto; ring. }
  destruct Hs as (sg & Hs & Vy). assert (Em : val m / val pi_d = sg * q) by (rewrite Vm, Vp, Vy; unfold q; field; lra). assert (Aq : Rabs (sg * q) <= 2) by (destruct Hs as [-> | ->]; apply Rabs_le; lra).
  destruct (div_near m pi_d Fm) as (Fz & Vz & _); [rewrite Vp; lra|rewrite Em; lra|]. rewrite Em in Vz. change (cap_sigz y) with (ddiv m pi_d).
  assert (Vz' : val (ddiv m pi_d) = sg * fl q). { rewrite Vz. destruct Hs as [-> | ->]; [now rewrite !Rmult_1_l|]. replace (-1 * q) with (- q) by ring. rewrite fl_opp. ring. }
  exists sg, (fl q). split; [exact Hs|]. split; [split; [apply fl_ge; [apply fl_fmt, fmt_1|lra]|apply fl_le; [apply fl_fmt; change (fmt (b2 1)); apply fmt_b2; lia|lra]]|]. split; [exact Fz|]. split; [exact Vz'|]. split; [exact Vy|]. split.
  - pose proof (fl_mixed q) as M. change (b2 (-53)) with u in M. rewrite (Rabs_pos_eq q) in M by lra.
    assert (X : Rabs (q - 4 * v / PI) <= 1.4 * u). { set (r := 4 * v / PI). assert (R1 : r * PI = 4 * v) by (unfold r; field; lra). assert (Q1 : q * (tau / 2) = 4 * v) by (unfold q; field; lra). assert (Z : (q - r) * PI = - q * (tau / 2 - PI)) by (replace (- q * (tau / 2 - PI)) with (q * PI - q * (tau / 2)) by ring; rewrite Q1, <- R1; ring).
      assert (Z2 : Rabs ((q - r) * PI) <= 4 * u) by (rewrite Z, Rabs_mult, Rabs_Ropp, (Rabs_pos_eq q) by lra; pose proof (Rabs_pos (tau / 2 - PI)); nra). rewrite Rabs_mult, (Rabs_pos_eq PI) in Z2 by lra. pose proof (Rabs_pos (q - r)). nra. }
    replace (fl q - 4 * v / PI) with ((fl q - q) + (q - 4 * v / PI)) by ring. eapply Rle_trans; [apply Rabs_triang|]. rewrite b51_u. assert (u * q <= u * 2) by (apply Rmult_le_compat_l; lra). lra.
  - intros Ev. assert (q = 2) by (unfold q; rewrite Ev; field; lra). rewrite H. apply fl_fmt. change (fmt (b2 1)). apply fmt_b2. lia.
Qed.

Lemma below_two : forall s, fmt s -> s < 2 -> s <= 2 - b2 (-52).
Proof.
  intros s Fs Hs. assert (H : s <= pred radix2 (FLT_exp (-1074) 53) 2) by (apply pred_ge_gt; [typeclasses eauto|exact Fs|change (fmt (b2 1)); apply fmt_b2; lia|exact Hs]).
  change 2 with (b2 1) in H at 1. rewrite pred_bpow in H. exact H.
Qed.

Lemma siga_ok : forall g sg s, fin g -> sg = 1 \/ sg = -1 -> 1 <= s <= 2 -> val g = sg * s -> fmt s /\ fin (cap_siga g) /\ val (cap_siga g) = s - 1.
Proof.
  intros g sg s Fg Hs I Vg. destruct (int_ok 1 ltac:(lia)) as [F1 V1].
  destruct (abs_ok g Fg) as [Fa Va]. assert (Va' : val (abs_d g) = s) by (rewrite Va, Vg, Rabs_mult, (Rabs_pos_eq s) by lra; destruct Hs as [-> | ->]; [rewrite Rabs_R1|rewrite Rabs_left by lra]; ring). clear Va.
  assert (Fs : fmt s) by (rewrite <- Va'; apply fmt_val). split; [exact Fs|]. destruct (sub_near (abs_d g) (dint 1) Fa F1) as (Fd & Vd & _); [rewrite V1, Va', Rabs_pos_eq; lra|].
  split; [exact Fd|]. change (cap_siga g) with (dsub (abs_d g) (dint 1)). rewrite Vd, V1, Va'. apply fl_fmt. apply sterbenz; [typeclasses eauto|typeclasses eauto|exact Fs|apply fmt_1|lra].
Qed.

Lemma cap_k_ok : forall x, fin x -> 0 <= val x <= 8 -> exists k : Z, (0 <= k <= 5)%Z /\ fin (cap_k x) /\ val (cap_k x) = IZR k /\ IZR k * (PI / 2) - b2 (-48) <= val x <= (IZR k + 1) * (PI / 2) + b2 (-48).
Proof.
  intros x Fx Hx. destruct pi_u as (A & B & C). destruct pi_val as [Fp Vp]. destruct (int_ok 2 ltac:(lia)) as [F2 V2]. pose proof e0_small as E. pose proof u_tiny as U.
  destruct (mul_near (dint 2) x F2 Fx) as (Fm & Vm & _); [rewrite V2, Rabs_pos_eq; lra|]. rewrite V2, fl_fmt in Vm by apply PRebinDouble4.fmt_double, fmt_val. set (m := dmul (dint 2) x) in *.
  set (q := 2 * val x / (tau / 2)). assert (Eq : q * (tau / 2) = 2 * val x) by (unfold q; field; lra). assert (Q0 : 0 <= q <= 5.2) by (split; nra). assert (Em : val m / val pi_d = q) by (rewrite Vm, Vp; reflexivity).
  destruct (div_near m pi_d Fm) as (Fz & Vz & Ez); [rewrite Vp; lra|rewrite Em, Rabs_pos_eq; lra|]. rewrite Em in Vz, Ez. rewrite (Rabs_pos_eq q) in Ez by lra. set (z := ddiv m pi_d) in *.
  assert (Z0 : 0 <= val z) by (rewrite Vz; apply fl_ge; [apply fl_fmt, fmt_0|lra]). destruct (floor_ok z Fz) as [Fk Vk]. pose proof (Zfloor_lb (val z)) as L1. pose proof (Zfloor_ub (val z)) as L2. set (k := Zfloor (val z)) in *.
  apply Rabs_le_inv in Ez. assert (EU : u * q <= u * 5.2) by (apply Rmult_le_compat_l; lra). exists k. split; [|split; [exact Fk|split; [exact Vk|]]].
  - split; [apply le_IZR; apply (Zfloor_le 0) in Z0; rewrite (Zfloor_IZR 0) in Z0; apply IZR_le; exact Z0|]. assert (IZR k < 6) by lra. apply lt_IZR in H. lia.
  - replace (b2 (-48)) with (32 * u) by (unfold u; change (-48)%Z with (5 + -53)%Z; rewrite bpow_plus; reflexivity). apply Rabs_le_inv in A. assert (K0 : 0 <= IZR k <= 5.3) by (split; [apply (Zfloor_le 0) in Z0; rewrite (Zfloor_IZR 0) in Z0; apply (IZR_le 0); exact Z0|lra]). set (kk := IZR k) in *. clearbody kk. clear Vk k Fk. split; nra.
Qed.

Lemma cap_phi_ok : forall x g sg s, fin x -> 0 <= val x <= 8 -> fin g -> sg = 1 \/ sg = -1 -> 1 <= s < 2 -> val g = sg * s ->
  exists (k : Z) x', (0 <= k <= 5)%Z /\ IZR k * (PI / 2) - b2 (-48) <= val x <= (IZR k + 1) * (PI / 2) + b2 (-48) /\ Rabs (x' - val x) <= b2 (-47) /\ b2 (-52) <= 2 - s /\
    fin (cap_phi x (cap_siga g) (cap_k x)) /\ val (cap_phi x (cap_siga g) (cap_k x)) = (x' - PI / 4 * (s - 1) * (2 * IZR k + 1)) / (2 - s).
Proof.
  intros x g sg s Fx Hx Fg Hs I Vg. destruct pi_u as (A & B & C). pose proof e0_small as E. pose proof u_tiny as U. destruct (int_ok 2 ltac:(lia)) as [F2 V2]. destruct (int_ok 1 ltac:(lia)) as [F1 V1]. destruct quarter_val as [Fqp Vqp].
  destruct (siga_ok g sg s Fg Hs ltac:(lra) Vg) as (Fs & Fa & Va). destruct (cap_k_ok x Fx Hx) as (k & Ik & Fk & Vk & Bk).
  set (a := cap_siga g) in *. set (kd := cap_k x) in *. assert (K5 : 0 <= IZR k <= 5) by (split; [apply (IZR_le 0)|apply (IZR_le k 5)]; lia).
  (* 2k+1 *)
  destruct (mul_near (dint 2) kd F2 Fk) as (Fm & Vm & _); [rewrite V2, Vk, Rabs_pos_eq; lra|]. assert (Vm' : val (dmul (dint 2) kd) = 2 * IZR k) by (rewrite Vm, V2, Vk; apply fl_fmt, PRebinDouble4.fmt_double; rewrite <- Vk; apply fmt_val).
  destruct (add_near (dmul (dint 2) kd) (dint 1) Fm F1) as (Fn & Vn & _); [rewrite Vm', V1, Rabs_pos_eq; lra|]. assert (Vn' : val (dadd (dmul (dint 2) kd) (dint 1)) = 2 * IZR k + 1).
  { rewrite Vn, Vm', V1. destruct (int_ok (2 * k + 1) ltac:(lia)) as [_ Vo]. replace (2 * IZR k + 1) with (IZR (2 * k + 1)) by (rewrite plus_IZR, mult_IZR; ring). rewrite <- Vo. apply fl_fmt, fmt_val. }
  clear Vm Vn. set (n := dadd (dmul (dint 2) kd) (dint 1)) in *. clear Vm' Fm.
  (* pi/4 siga *)
  assert (PA : 0 <= tau / 8 * (s - 1) <= 0.79) by nra. destruct (mul_near quarter_pi a Fqp Fa) as (Fp & _ & Ep); [rewrite Vqp, Va, Rabs_pos_eq; lra|]. rewrite Vqp, Va, (Rabs_pos_eq (tau / 8 * (s - 1))) in Ep by lra. set (p := dmul quarter_pi a) in *.
  assert (Ep' : Rabs (val p - PI / 4 * (s - 1)) <= 1.4 * u).
  { replace (val p - PI / 4 * (s - 1)) with ((val p - tau / 8 * (s - 1)) + (tau / 2 - PI) * ((s - 1) / 4)) by field. eapply Rle_trans; [apply Rabs_triang|]. rewrite (Rabs_mult (tau / 2 - PI)), (Rabs_pos_eq ((s - 1) / 4)) by lra. pose proof (Rabs_pos (tau / 2 - PI)). nra. }
  assert (Ep2 := Rabs_le_inv _ _ Ep'). set (v := PI / 4 * (s - 1)) in *. assert (Hv : 0 <= v <= 0.79) by (unfold v; split; nra). set (nn := 2 * IZR k + 1) in *. assert (N1 : 1 <= nn <= 11) by (unfold nn; lra).
  assert (Epn : Rabs (val p * nn - v * nn) <= 15.4 * u) by (replace (val p * nn - v * nn) with ((val p - v) * nn) by ring; rewrite Rabs_mult, (Rabs_pos_eq nn) by lra; pose proof (Rabs_pos (val p - v)); nra).
  assert (Epn2 := Rabs_le_inv _ _ Epn). assert (Hvn : 0 <= v * nn <= 8.69) by (split; nra).
  destruct (mul_near p n Fp Fn) as (Fr & _ & Er); [rewrite Vn'; apply Rabs_le; lra|]. rewrite Vn' in Er. set (r := dmul p n) in *.
  assert (Er' : Rabs (val r - v * nn) <= 24.2 * u). { replace (val r - v * nn) with ((val r - val p * nn) + (val p * nn - v * nn)) by ring. eapply Rle_trans; [apply Rabs_triang|]. assert (Rabs (val p * nn) <= 8.7) by (apply Rabs_le; lra). assert (u * Rabs (val p * nn) <= u * 8.7) by (apply Rmult_le_compat_l; lra). lra. }
  assert (Er2 := Rabs_le_inv _ _ Er').
  destruct (sub_near x r Fx Fr) as (Ft & _ & Et); [apply Rabs_le; lra|]. set (t := dsub x r) in *. assert (Bt : Rabs (val x - val r) <= 8.7) by (apply Rabs_le; lra). assert (Et' : Rabs (val t - (val x - val r)) <= 8.7 * u) by nra. assert (Et2 := Rabs_le_inv _ _ Et'). assert (Bt2 := Rabs_le_inv _ _ Bt).
  (* 1 - siga *)
  destruct (sub_near (dint 1) a F1 Fa) as (Fd & Vd & _); [rewrite V1, Va, Rabs_pos_eq; lra|]. rewrite V1, Va in Vd. replace (1 - (s - 1)) with (2 - s) in Vd by ring. rewrite fl_fmt in Vd by (apply sterbenz; [typeclasses eauto|typeclasses eauto|change (fmt (b2 1)); apply fmt_b2; lia|exact Fs|lra]).
  set (d := dsub (dint 1) a) in *. pose proof (below_two s Fs (proj2 I)) as D1. assert (B52 : b2 (-52) = 2 * u) by (unfold u; change (-52)%Z with (1 + -53)%Z; rewrite bpow_plus; reflexivity).
  assert (QB : Rabs (val t / (2 - s)) <= b2 60).
  { unfold Rdiv. rewrite Rabs_mult. replace (b2 60) with (16 * b2 56) by (change 60%Z with (4 + 56)%Z; rewrite bpow_plus; reflexivity). assert (Rabs (val t) <= 16) by (apply Rabs_le; lra). rewrite (Rabs_pos_eq (/ (2 - s))) by (apply Rlt_le, Rinv_0_lt_compat; lra).
    assert (/ (2 - s) <= b2 52) by (change 52%Z with (- -52)%Z; rewrite bpow_opp; apply Rinv_le; [apply bpow_gt_0|lra]). assert (b2 52 <= b2 56) by (apply bpow_le; lia). apply Rmult_le_compat; [apply Rabs_pos|apply Rlt_le, Rinv_0_lt_compat; lra|lra|lra]. }
  destruct (ddiv_ok t d Ft) as [Ff Vf]; [rewrite Vd; lra| |].
  { rewrite Vd. apply Rle_lt_trans with (b2 60); [|apply bpow_lt; lia]. apply abs_round_le_generic; [typeclasses eauto|typeclasses eauto|apply fmt_b2; lia|exact QB]. }
  rewrite Vd in Vf. pose proof (fl_mixed (val t / (2 - s))) as M. change (b2 (-53)) with u in M. change (cap_phi x a kd) with (ddiv t d). rewrite <- Vf in M. set (f := val (ddiv t d)) in *.
  assert (EF : Rabs (f * (2 - s) - val t) <= 8.8 * u).
  { replace (f * (2 - s) - val t) with ((f - val t / (2 - s)) * (2 - s)) by (field; lra). rewrite Rabs_mult, (Rabs_pos_eq (2 - s)) by lra. apply Rle_trans with ((u * Rabs (val t / (2 - s)) + e0) * (2 - s)); [apply Rmult_le_compat_r; lra|].
    unfold Rdiv. rewrite Rabs_mult, (Rabs_pos_eq (/ (2 - s))) by (apply Rlt_le, Rinv_0_lt_compat; lra). replace ((u * (Rabs (val t) * / (2 - s)) + e0) * (2 - s)) with (u * Rabs (val t) + e0 * (2 - s)) by (field; lra).
    assert (Rabs (val t) <= 8.71) by (apply Rabs_le; lra). assert (u * Rabs (val t) <= u * 8.71) by (apply Rmult_le_compat_l; lra). assert (e0 * (2 - s) <= e0 * 1) by (apply Rmult_le_compat_l; lra). lra. }
  assert (EF2 := Rabs_le_inv _ _ EF). exists k, (f * (2 - s) + v * nn). split; [exact Ik|]. split; [exact Bk|]. split; [|split; [lra|split; [exact Ff|unfold v, nn; field; lra]]].
  replace (b2 (-47)) with (64 * u) by (unfold u; change (-47)%Z with (6 + -53)%Z; rewrite bpow_plus; reflexivity). apply Rabs_le. split; lra.
Qed.
