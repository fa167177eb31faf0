(** * Lemmas on rotations in double precision: the frame *)

From Coq Require Import Reals ZArith List Bool Lia Lra Psatz.
From Flocq Require Import Core IEEE754.BinarySingleNaN.
From Verif Require Import Base PUsphere MHealpixFloat PHealpixFloat SpecDouble MDouble PDouble PPiDouble PTrig PSumDouble PDenseDouble TDouble TDouble3 SpecCoordsDouble MCoordsDouble PLibmDouble PTripDouble TTripDouble MOneDDouble PRebinDouble4 MHealRandomsDouble SpecSphere SpecRotateDouble MRotateDouble PRotateDouble.
Import ListNotations.
Open Scope R_scope.

Lemma within_le : forall e f x X, e <= f -> within e x X -> within f x X.
Proof. intros e f x X H [F E]. split; [exact F|lra]. Qed.

Lemma vwithin_le : forall e f a A, e <= f -> vwithin e a A -> vwithin f a A.
Proof. intros e f [[a0 a1] a2] A H (E0 & E1 & E2). repeat split; try apply E0; try apply E1; try apply E2; eapply Rle_trans; try exact H; [apply E0|apply E1|apply E2]. Qed.

Definition small_vec (A : vec) : Prop := Rabs (vx A) <= 1 /\ Rabs (vy A) <= 1 /\ Rabs (vz A) <= 1.

Lemma vwithin_tame : forall e a A, e <= 1 -> small_vec A -> vwithin e a A -> tame a.
Proof.
  intros e [[a0 a1] a2] A He (B0 & B1 & B2') ((F0 & E0) & (F1 & E1) & (F2 & E2)).
  assert (G : forall a X, Rabs X <= 1 -> Rabs (a - X) <= e -> Rabs a <= 2) by (intros a X HX H; apply Rabs_le_inv in HX, H; apply Rabs_le; lra).
  repeat split; auto; first [exact (G _ _ B0 E0)|exact (G _ _ B1 E1)|exact (G _ _ B2' E2)].
Qed.

(** The decomposition along an orthonormal frame. *)
Lemma along_frame : forall a b c p, cross b c = a -> cross c a = b -> cross a b = c -> dot a a = 1 ->
  vadd (vadd (vscale (dot p a) a) (vscale (dot p b) b)) (vscale (dot p c) c) = p.
Proof.
  intros a b c p H1 H2 H3 U. transitivity (vscale (dot a (cross b c)) p); [|rewrite H1, U; destruct p; unfold vscale; cbn; f_equal; ring].
  transitivity (vadd (vadd (vscale (dot p a) (cross b c)) (vscale (dot p b) (cross c a))) (vscale (dot p c) (cross a b))); [now rewrite H1, H2, H3|].
  destruct a, b, c, p. unfold vadd, vscale, dot, cross. cbn. f_equal; ring.
Qed.

Section Frame.
Variable L : library.
Hypothesis Nc : near_on_circle cos (l_cos L).
Hypothesis Ns : near_on_circle sin (l_sin L).
Hypothesis A1 : arctan2_ok (l_arctan2 L).
Hypothesis A2 : near_arctan2 (l_arctan2 L).
Hypothesis SO : sums_ok dadd (l_sum L).
Hypothesis DO : dots_ok (l_dot L).
Hypothesis MO : mdots_ok (l_mdot L).
Hypothesis IO : inverse_ok (l_inv L).

Variables U V : vec.
Hypothesis HU : dot U U = 1.
Hypothesis HV : dot V V = 1.
Let W := nrm (cross U V).
Hypothesis HW : b2 (-20) <= W.
Let N := unit_of (cross U V).
Let T := cross N U.
Let d := u / W.

Lemma W_pos : 0 < W.
Proof. pose proof (bpow_gt_0 radix2 (-20)). lra. Qed.

Lemma W_le : W <= 1.
Proof. pose proof (nrm_cross_sq U V HU HV) as E. fold W in E. pose proof W_pos. nra. Qed.

Lemma W_ne : nrm (cross U V) <> 0.
Proof. pose proof W_pos. fold W. lra. Qed.

Lemma d_range : u <= d <= b2 (-30).
Proof.
  pose proof W_pos. pose proof W_le. pose proof u_pos. unfold d. split.
  - apply Rmult_le_reg_r with W; [lra|]. replace (u / W * W) with u by (field; lra). nra.
  - apply Rmult_le_reg_r with W; [lra|]. replace (u / W * W) with u by (field; lra). apply Rle_trans with (b2 (-30) * b2 (-20)); [rewrite <- bpow_plus; unfold u; apply bpow_le; lia|apply Rmult_le_compat_l; [apply bpow_ge_0|lra]].
Qed.

Lemma d_range' : d <= b2 (-33).
Proof.
  pose proof W_pos. unfold d. apply Rmult_le_reg_r with W; [lra|]. replace (u / W * W) with u by (field; lra). apply Rle_trans with (b2 (-33) * b2 (-20)); [rewrite <- bpow_plus; unfold u; apply bpow_le; lia|apply Rmult_le_compat_l; [apply bpow_ge_0|lra]].
Qed.

Lemma frame_units : dot N N = 1 /\ dot T T = 1 /\ dot N U = 0 /\ dot V T = W /\ cross T N = U /\ cross U T = N.
Proof.
  pose proof W_ne. repeat split; [now apply n_unit|now apply t_unit|now apply n_u|now apply v_t|now apply cross_t_n|now apply cross_u_t].
Qed.

Lemma frame_ortho : orthonormal U T N.
Proof.
  destruct frame_units as (A & B & C & _). repeat split; auto.
  - unfold T. apply dot_cross_r.
  - rewrite <- C. unfold dot. ring.
  - unfold T. rewrite <- (dot_cross_l N U). unfold dot. ring.
Qed.

Lemma div_near : forall a rho X, fin a -> fin rho -> Rabs X <= 1 -> Rabs (val a - W * X) <= 39 * u -> Rabs (val rho - W) <= 281 * u -> within (330 * d) (ddiv a rho) X.
Proof.
  intros a rho X Fa Fr HX Ea Er. pose proof W_pos as PW. pose proof d_range as Dr. pose proof u_pos as U0. assert (DW : d * W = u) by (unfold d; field; lra).
  assert (UW : 281 * u <= / 1024 * W). { apply Rle_trans with (/ 1024 * b2 (-20)); [|apply Rmult_le_compat_l; lra]. apply Rle_trans with (b2 9 * u); [apply Rmult_le_compat_r; [lra|change (b2 9) with 512; lra]|]. unfold u. change (/ 1024) with (b2 (-10)). rewrite <- !bpow_plus. apply bpow_le. lia. }
  pose proof (Rabs_le_inv _ _ Er) as Er'. assert (PR : 1023 / 1024 * W <= val rho) by lra.
  assert (Q : Rabs (val a / val rho - X) <= 322 * d).
  { apply Rmult_le_reg_r with (val rho); [lra|]. rewrite <- (Rabs_pos_eq (val rho)) at 2 by lra. rewrite <- Rabs_mult. replace ((val a / val rho - X) * val rho) with ((val a - W * X) - X * (val rho - W)) by (field; lra).
    apply Rle_trans with (1 := Rabs_triang _ _). rewrite Rabs_Ropp, Rabs_mult. assert (Rabs X * Rabs (val rho - W) <= 1 * (281 * u)) by (apply Rmult_le_compat; auto; apply Rabs_pos).
    assert (322 * d * (1023 / 1024 * W) <= 322 * d * val rho) by (apply Rmult_le_compat_l; lra). replace (322 * d * (1023 / 1024 * W)) with (322 * (1023 / 1024) * (d * W)) in H0 by ring. rewrite DW in H0. lra. }
  pose proof (d_small d Dr 322 ltac:(change (b2 20) with 1048576; lra)) as S. pose proof (Rabs_le_inv _ _ Q) as Q'. pose proof (Rabs_le_inv _ _ HX) as HX'.
  assert (QB : Rabs (val a / val rho) <= 1 + / 1024) by (apply Rabs_le; lra).
  destruct (ddiv_ok a rho Fa) as [F Vq]; [lra|apply small_lt; lra|]. split; [exact F|]. rewrite Vq. pose proof (rnd d Dr _ _ QB) as RD. apply Rabs_le_inv in RD. apply Rabs_le. lra.
Qed.

Variables uu vv : dvec.
Hypothesis Eu : vwithin (8 * u) uu U.
Hypothesis Ev : vwithin (8 * u) vv V.

Lemma axes_near : let '(n, t) := axes_d L uu vv in vwithin (330 * d) n N /\ vwithin (700 * d) t T.
Proof.
  pose proof u_pos as U0. assert (Ur : u <= u <= b2 (-30)) by (split; [lra|unfold u; apply bpow_le; lia]). pose proof d_range as Dr. pose proof W_pos as PW. pose proof W_le as LW.
  pose proof (near_cross u Ur 8 8 uu vv U V ltac:(lra) ltac:(lra) HU HV Eu Ev) as C. replace (2 * (8 + 8 + 2) + 3) with 39 in C by ring.
  unfold axes_d. destruct (cross_d uu vv) as [[n0 n1] n2]. destruct C as ((F0 & E0) & (F1 & E1) & (F2 & E2)).
  destruct frame_units as (UN & _ & _ & _). destruct (unit_le N UN) as (N0 & N1 & N2).
  assert (CN : cross U V = vscale W N) by (unfold N, unit_of; fold W; destruct (cross U V); unfold vscale; cbn; f_equal; field; lra).
  rewrite CN in E0, E1, E2. cbn [vscale vx vy vz] in E0, E1, E2.
  assert (EW : 0 <= 39 * u <= / 1024 * W). { split; [lra|]. apply Rle_trans with (/ 1024 * b2 (-20)); [|apply Rmult_le_compat_l; lra]. apply Rle_trans with (b2 9 * u); [apply Rmult_le_compat_r; [lra|change (b2 9) with 512; lra]|]. unfold u. change (/ 1024) with (b2 (-10)). rewrite <- !bpow_plus. apply bpow_le. lia. }
  destruct (length_near L n0 n1 n2 W N (39 * u) SO F0 F1 F2 UN (conj HW LW) EW E0 E1 E2) as [FR ER]. set (rho := dsqrt _) in *.
  assert (ER' : Rabs (val rho - W) <= 281 * u) by lra.
  assert (NN : vwithin (330 * d) (ddiv n0 rho, ddiv n1 rho, ddiv n2 rho) N) by (split; [|split]; apply div_near; assumption).
  split; [exact NN|]. apply vwithin_le with ((2 * (330 + 8 + 2) + 3) * d); [apply Rmult_le_compat_r; lra|].
  apply (near_cross d Dr); [lra|lra|exact UN|exact HU|exact NN|]. apply vwithin_le with (2 := Eu). apply Rmult_le_compat_l; lra.
Qed.

Lemma unit_small : forall A, dot A A = 1 -> small_vec A.
Proof. exact unit_le. Qed.

Lemma dot_near : forall k l a b A B, 0 <= k <= 1000 -> 0 <= l <= 1000 -> small_vec A -> small_vec B -> vwithin (k * d) a A -> vwithin (l * d) b B ->
  within ((3 * (k + l + / 4) + 64) * d) (l_dot L a b) (dot A B).
Proof.
  intros k l a b A B Hk Hl SA SB Ea Eb. pose proof d_range as Dr. pose proof (d_pos d Dr) as Dp. pose proof (d_small d Dr k ltac:(change (b2 20) with 1048576; lra)) as Dk. pose proof (d_small d Dr l ltac:(change (b2 20) with 1048576; lra)) as Dl.
  destruct (DO a b) as [F E]; [now apply (vwithin_tame (k * d)) with A; [lra| |]|now apply (vwithin_tame (l * d)) with B; [lra| |]|]. split; [exact F|].
  assert (KL : k * (l * d) <= / 4). { pose proof (d_small d Dr (k * l) ltac:(change (b2 20) with 1048576; split; [apply Rmult_le_pos; lra|nra])). lra. }
  pose proof (sum_near d k l a b A B Dp ltac:(lra) ltac:(lra) KL SA SB Ea Eb) as S. assert (E47 : b2 (-47) = 64 * u) by (unfold u; change (-47)%Z with (6 + -53)%Z; rewrite bpow_plus; reflexivity). rewrite E47 in E.
  apply Rabs_le_inv in S, E. apply Rabs_le. lra.
Qed.

Lemma mdot_near : forall k l r0 r1 r2 w R0 R1 R2 B, 0 <= k <= 80000 -> 0 <= l <= 80000 -> k * l <= b2 30 -> small_vec R0 -> small_vec R1 -> small_vec R2 -> small_vec B ->
  vwithin (k * d) r0 R0 -> vwithin (k * d) r1 R1 -> vwithin (k * d) r2 R2 -> vwithin (l * d) w B ->
  vwithin ((3 * (k + l + / 4) + 64) * d) (l_mdot L (r0, r1, r2) w) (V3 (dot R0 B) (dot R1 B) (dot R2 B)).
Proof.
  intros k l r0 r1 r2 w R0 R1 R2 B Hk Hl HKL S0 S1 S2 SB E0 E1 E2 Eb. pose proof d_range as Dr. pose proof d_range' as Dr'. pose proof (d_pos d Dr) as Dp. pose proof (d_small d Dr k ltac:(change (b2 20) with 1048576; lra)) as Dk. pose proof (d_small d Dr l ltac:(change (b2 20) with 1048576; lra)) as Dl.
  assert (TA : forall r R, small_vec R -> vwithin (k * d) r R -> tame r) by (intros r R S E; apply (vwithin_tame (k * d)) with R; [lra|exact S|exact E]).
  pose proof (MO r0 r1 r2 w (TA _ _ S0 E0) (TA _ _ S1 E1) (TA _ _ S2 E2) ltac:(apply (vwithin_tame (l * d)) with B; [lra|exact SB|exact Eb])) as G.
  assert (KL : k * (l * d) <= / 4). { replace (k * (l * d)) with (k * l * d) by ring. apply Rle_trans with (b2 30 * b2 (-33)); [apply Rmult_le_compat; try lra; apply Rmult_le_pos; lra|]. rewrite <- bpow_plus. change (/ 4) with (b2 (-2)). apply bpow_le. lia. }
  pose proof (sum_near d k l r0 w R0 B Dp ltac:(lra) ltac:(lra) KL S0 SB E0 Eb) as Q0. pose proof (sum_near d k l r1 w R1 B Dp ltac:(lra) ltac:(lra) KL S1 SB E1 Eb) as Q1. pose proof (sum_near d k l r2 w R2 B Dp ltac:(lra) ltac:(lra) KL S2 SB E2 Eb) as Q2.
  assert (E47 : b2 (-47) = 64 * u) by (unfold u; change (-47)%Z with (6 + -53)%Z; rewrite bpow_plus; reflexivity). rewrite E47 in G. destruct (l_mdot L (r0, r1, r2) w) as [[o0 o1] o2]. destruct G as ((F0 & G0) & (F1 & G1) & (F2 & G2)). cbn [vx vy vz] in *.
  apply Rabs_le_inv in Q0, Q1, Q2, G0, G1, G2. split; [|split]; (split; [assumption|cbn [vx vy vz]; apply Rabs_le; lra]).
Qed.

Lemma turn_near : let '(n, t) := axes_d L uu vv in
  let alpha := l_arctan2 L (l_dot L vv t) (l_dot L vv uu) in
  within (7000 * d) (l_cos L alpha) (dot U V) /\ within (7000 * d) (l_sin L alpha) W.
Proof.
  pose proof axes_near as AX. destruct (axes_d L uu vv) as [n t]. destruct AX as [_ Et]. cbv zeta. pose proof d_range as Dr. pose proof (d_pos d Dr) as Dp. pose proof W_pos as PW. pose proof W_le as LW. destruct frame_units as (_ & UT & _ & VT & _). pose proof u_pos as U0.
  assert (Evd : vwithin (8 * d) vv V) by (apply vwithin_le with (2 := Ev); apply Rmult_le_compat_l; lra). assert (Eud : vwithin (8 * d) uu U) by (apply vwithin_le with (2 := Eu); apply Rmult_le_compat_l; lra).
  destruct (dot_near 8 700 vv t V T ltac:(lra) ltac:(lra) (unit_small _ HV) (unit_small _ UT) Evd Et) as [Fy Ey]. destruct (dot_near 8 8 vv uu V U ltac:(lra) ltac:(lra) (unit_small _ HV) (unit_small _ HU) Evd Eud) as [Fx Ex]. rewrite VT in Ey.
  assert (VU : dot V U = dot U V) by (unfold dot; ring). rewrite VU in Ex. set (y := l_dot L vv t) in *. set (x := l_dot L vv uu) in *. set (c := dot U V) in *.
  assert (CW : c * c + W * W = 1) by (pose proof (nrm_cross_sq U V HU HV) as E; fold W c in E; lra).
  assert (Cb : Rabs c <= 1) by (apply Rabs_le; nra).
  assert (Ex' : Rabs (val x - c) <= 120 * d * 1) by lra. assert (Ey' : Rabs (val y - W) <= 2200 * d * 1) by lra.
  pose proof (d_small d Dr 120 ltac:(change (b2 20) with 1048576; lra)) as S1. pose proof (d_small d Dr 2200 ltac:(change (b2 20) with 1048576; lra)) as S2.
  pose proof (near_square (val x) c 1 (120 * d) ltac:(lra) S1 Cb Ex') as Q1. pose proof (near_square (val y) W 1 (2200 * d) ltac:(lra) S2 ltac:(apply Rabs_le; lra) Ey') as Q2.
  destruct (A1 y x Fy Fx) as [Fa Ba]. destruct (A2 y x Fy Fx) as (psi & (P1 & P2) & P3). set (al := l_arctan2 L y x) in *. set (S := val x * val x + val y * val y) in *.
  assert (S0 : 0 <= S) by (unfold S; pose proof (Rle_0_sqr (val x)); pose proof (Rle_0_sqr (val y)); unfold Rsqr in *; lra).
  assert (HR : Rabs (sqrt S - 1) <= 4700 * d * 1). { apply near_root; [lra|lra|exact S0|]. apply Rabs_le_inv in Q1, Q2. unfold S. apply Rabs_le. lra. }
  pose proof tau_bounds as TB. assert (AB : Rabs (val al) <= 8) by (apply Rabs_le; lra).
  destruct (Nc al Fa AB) as (Fc & _ & Ec). destruct (Ns al Fa AB) as (Fs & _ & Es).
  assert (E51 : b2 (-51) = 4 * u) by (unfold u; change (-51)%Z with (2 + -53)%Z; rewrite bpow_plus; reflexivity). assert (E52 : b2 (-52) = 2 * u) by (unfold u; change (-52)%Z with (1 + -53)%Z; rewrite bpow_plus; reflexivity). rewrite E51 in P3. rewrite E52 in Ec, Es.
  pose proof (cos_lip (val al) psi) as LC. pose proof (sin_lip (val al) psi) as LS.
  assert (MB : forall q, Rabs q <= 1 -> Rabs (q * (1 - sqrt S)) <= 4700 * d). { intros q Hq. rewrite Rabs_mult, (Rabs_minus_sym 1). apply Rle_trans with (1 * (4700 * d)); [apply Rmult_le_compat; try apply Rabs_pos; lra|lra]. }
  assert (MC := MB (cos psi) ltac:(apply Rabs_le; apply COS_bound)). assert (MS := MB (sin psi) ltac:(apply Rabs_le; apply SIN_bound)).
  assert (LC' : Rabs (cos (val al) - cos psi) <= 4 * u) by lra. assert (LS' : Rabs (sin (val al) - sin psi) <= 4 * u) by lra. clear LC LS P3 MB HR Q1 Q2.
  assert (IC : cos psi - c = (val x - c) + cos psi * (1 - sqrt S)) by lra. assert (IS : sin psi - W = (val y - W) + sin psi * (1 - sqrt S)) by lra.
  apply Rabs_le_inv in MC, MS, LC', LS', Ec, Es, Ex', Ey'. split; (split; [assumption|]); apply Rabs_le; lra.
Qed.

Variable pp : dvec.
Variable P : vec.
Hypothesis HP : dot P P = 1.
Hypothesis Ep : vwithin (40 * u) pp P.

Lemma unit_dot : forall A, dot A A = 1 -> Rabs (dot P A) <= 1.
Proof. intros A HA. apply Rabs_le. now apply dot_range. Qed.

Lemma rod_small : forall a, small_vec (rodrigues N a P).
Proof. intros a. apply unit_le. destruct frame_units as (UN & _). rewrite rod_dot by exact UN. exact HP. Qed.

Theorem frame_near : exists f, frame_d L uu vv = Ok f /\ vwithin (230000 * d) (f pp) (rodrigues N (acos (dot U V)) P).
Proof.
  pose proof axes_near as AX. pose proof turn_near as TN. unfold frame_d. destruct (axes_d L uu vv) as [n t]. destruct AX as [En Et]. cbv zeta in TN. set (alpha := l_arctan2 L _ _) in *. destruct TN as [[Fc Ec] [Fs Es]].
  pose proof d_range as Dr. pose proof (d_pos d Dr) as Dp. pose proof W_pos as PW. pose proof W_le as LW. destruct frame_units as (UN & UT & _ & _ & TN & UTN). pose proof u_pos as U0.
  destruct (unit_le U HU) as (U0' & U1' & U2'). destruct (unit_le T UT) as (T0' & T1' & T2'). destruct (unit_le N UN) as (N0' & N1' & N2').
  assert (CT : exists r0 r1 r2, columns_d uu t n = (r0, r1, r2) /\ vwithin (700 * d) r0 (V3 (vx U) (vx T) (vx N)) /\ vwithin (700 * d) r1 (V3 (vy U) (vy T) (vy N)) /\ vwithin (700 * d) r2 (V3 (vz U) (vz T) (vz N))).
  { destruct uu as [[u0 u1] u2], t as [[t0 t1] t2], n as [[n0 n1] n2]. cbn [columns_d]. do 3 eexists. split; [reflexivity|]. destruct Eu as (X0 & X1 & X2). destruct Et as (Y0 & Y1 & Y2). destruct En as (Z0 & Z1 & Z2). cbn [vwithin vx vy vz].
    assert (H8 : 8 * u <= 700 * d) by lra. assert (H3 : 330 * d <= 700 * d) by lra. split; [|split]; (split; [|split]); first [eassumption|eapply within_le; [exact H8|assumption]|eapply within_le; [exact H3|assumption]]. }
  destruct CT as (r0 & r1 & r2 & -> & E0 & E1 & E2). cbv zeta. pose proof (d_small d Dr 700 ltac:(change (b2 20) with 1048576; lra)) as S7.
  destruct (IO (700 * d) r0 r1 r2 U T N) as (s0 & s1 & s2 & IE & I0 & I1 & I2); [change (b2 (-10)) with (/ 1024); lra|exact frame_ortho|exact E0|exact E1|exact E2|].
  assert (IE' : l_inv L (@pair (dvec * dvec) dvec (@pair dvec dvec r0 r1) r2) = Ok (@pair (dvec * dvec) dvec (@pair dvec dvec s0 s1) s2)) by exact IE. rewrite IE'.
  assert (E45 : b2 (-45) = 256 * u) by (unfold u; change (-45)%Z with (8 + -53)%Z; rewrite bpow_plus; reflexivity). assert (H6 : 8 * (700 * d) + b2 (-45) <= 6000 * d) by (rewrite E45; lra).
  cbn [bind]. eexists. split; [reflexivity|]. cbv beta.
  assert (Epd : vwithin (40 * d) pp P) by (apply vwithin_le with (2 := Ep); apply Rmult_le_compat_l; lra).
  assert (B30 : b2 30 = 1073741824) by reflexivity.
  pose proof (mdot_near 6000 40 s0 s1 s2 pp U T N P ltac:(lra) ltac:(lra) ltac:(lra) (unit_small _ HU) (unit_small _ UT) (unit_small _ UN) (unit_small _ HP) (vwithin_le _ _ _ _ H6 I0) (vwithin_le _ _ _ _ H6 I1) (vwithin_le _ _ _ _ H6 I2) Epd) as W1.
  set (w1 := l_mdot L (s0, s1, s2) pp) in *. assert (W1' : vwithin (18200 * d) w1 (V3 (dot P U) (dot P T) (dot P N))).
  { replace (V3 (dot P U) (dot P T) (dot P N)) with (V3 (dot U P) (dot T P) (dot N P)) by (f_equal; unfold dot; ring). apply vwithin_le with (2 := W1). apply Rmult_le_compat_r; lra. }
  set (q := V3 (dot P U) (dot P T) (dot P N)) in *. assert (SQ : small_vec q) by (unfold q; repeat split; cbn [vx vy vz]; apply unit_dot; assumption).
  assert (FZ : within (7000 * d) dzero 0) by (split; [apply fin_zero|rewrite val_zero, Rminus_0_r, Rabs_R0; lra]).
  assert (F1 : within (7000 * d) done 1) by (destruct done_ok as [F Vd]; split; [exact F|rewrite Vd, Rminus_diag_eq by reflexivity; rewrite Rabs_R0; lra]).
  assert (FO : within (7000 * d) (opp_d (l_sin L alpha)) (- W)).
  { unfold opp_d. split; [unfold fin; rewrite is_finite_Bopp; exact Fs|]. unfold val. rewrite B2R_Bopp. change (B2R (l_sin L alpha)) with (val (l_sin L alpha)). replace (- val (l_sin L alpha) - - W) with (- (val (l_sin L alpha) - W)) by ring. rewrite Rabs_Ropp. exact Es. }
  set (c := dot U V) in *. assert (CW : c * c + W * W = 1) by (pose proof (nrm_cross_sq U V HU HV) as E; fold W c in E; lra).
  assert (Cb : Rabs c <= 1) by (apply Rabs_le; nra). assert (Wb : Rabs W <= 1) by (apply Rabs_le; lra). assert (Wb' : Rabs (- W) <= 1) by (rewrite Rabs_Ropp; exact Wb). assert (Zb : Rabs 0 <= 1) by (rewrite Rabs_R0; lra). assert (Ob : Rabs 1 <= 1) by (rewrite Rabs_R1; lra).
  pose proof (mdot_near 7000 18200 (l_cos L alpha, opp_d (l_sin L alpha), dzero) (l_sin L alpha, l_cos L alpha, dzero) (dzero, dzero, done) w1 (V3 c (- W) 0) (V3 W c 0) (V3 0 0 1) q
    ltac:(lra) ltac:(lra) ltac:(lra) ltac:(repeat split; assumption) ltac:(repeat split; assumption) ltac:(repeat split; assumption) SQ
    (conj (conj Fc Ec) (conj FO FZ)) (conj (conj Fs Es) (conj (conj Fc Ec) FZ)) (conj FZ (conj FZ F1)) W1') as W2.
  fold (turn_d L alpha) in W2. set (w2 := l_mdot L (turn_d L alpha) w1) in *. set (q2 := V3 (dot (V3 c (- W) 0) q) (dot (V3 W c 0) q) (dot (V3 0 0 1) q)) in *.
  assert (W2' : vwithin (75700 * d) w2 q2) by (apply vwithin_le with (2 := W2); apply Rmult_le_compat_r; lra).
  assert (PE : mdot (frameT U V) q = P).
  { unfold frameT, mdot. fold N T. cbn [row1 row2 row3]. transitivity (vadd (vadd (vscale (dot P U) U) (vscale (dot P T) T)) (vscale (dot P N) N)); [|exact (along_frame U T N P TN eq_refl UTN HU)]. unfold q, vadd, vscale, dot. cbn [vx vy vz]. f_equal; ring. }
  assert (RE : rodrigues N (acos c) P = V3 (dot (V3 (vx U) (vx T) (vx N)) q2) (dot (V3 (vy U) (vy T) (vy N)) q2) (dot (V3 (vz U) (vz T) (vz N)) q2)).
  { rewrite <- PE at 1. unfold N, c. rewrite (rod_frame U V W_ne). rewrite (sin_acos_dot U V HU HV), cos_acos by (apply dot_range; assumption). fold W c. unfold mdot at 1, frameT. cbn [row1 row2 row3]. fold N T. unfold q2, mdot. cbn [row1 row2 row3]. reflexivity. }
  assert (Q2S : small_vec q2).
  { apply unit_le. unfold q2. assert (QQ : dot q q = 1). { rewrite <- HP. transitivity (dot P (vadd (vadd (vscale (dot P U) U) (vscale (dot P T) T)) (vscale (dot P N) N))); [|now rewrite (along_frame U T N P TN eq_refl UTN HU)]. unfold q, dot, vadd, vscale. cbn [vx vy vz]. ring. }
    transitivity ((c * c + W * W) * (vx q * vx q + vy q * vy q) + vz q * vz q); [unfold dot; cbn [vx vy vz]; ring|]. rewrite CW. unfold dot in QQ. lra. }
  pose proof (mdot_near 700 75700 r0 r1 r2 w2 (V3 (vx U) (vx T) (vx N)) (V3 (vy U) (vy T) (vy N)) (V3 (vz U) (vz T) (vz N)) q2 ltac:(lra) ltac:(lra) ltac:(lra) (conj U0' (conj T0' N0')) (conj U1' (conj T1' N1')) (conj U2' (conj T2' N2')) Q2S E0 E1 E2 W2') as W3.
  rewrite RE. apply vwithin_le with (2 := W3). apply Rmult_le_compat_r; lra.
Qed.
End Frame.
