(** * Lemmas on rotations in double precision *)

From Coq Require Import Reals ZArith List Bool Lia Lra Psatz.
From Flocq Require Import Core IEEE754.BinarySingleNaN.
From Verif Require Import Base MHealpixFloat PHealpixFloat SpecDouble MDouble PDouble PPiDouble PTrig PSumDouble PDenseDouble TDouble TDouble3 SpecCoordsDouble MCoordsDouble PLibmDouble PTripDouble TTripDouble MOneDDouble PRebinDouble4 MHealRandomsDouble SpecSphere SpecRotateDouble MRotateDouble.
Import ListNotations.
Open Scope R_scope.

(** ** Errors in units of [d] *)

Lemma unit_le : forall a, dot a a = 1 -> Rabs (vx a) <= 1 /\ Rabs (vy a) <= 1 /\ Rabs (vz a) <= 1.
Proof. intros [x y z] H. unfold dot in H. cbn [vx vy vz] in *. repeat split; apply Rabs_le; nra. Qed.

Lemma prod_near : forall d k l x y X Y, 0 < d -> 0 <= k -> 0 <= l -> k * (l * d) <= / 4 -> Rabs X <= 1 -> Rabs Y <= 1 ->
  Rabs (x - X) <= k * d -> Rabs (y - Y) <= l * d -> Rabs (x * y - X * Y) <= (k + l + / 4) * d.
Proof.
  intros d k l x y X Y Hd Hk Hl H HX HY Ex Ey. replace (x * y - X * Y) with ((x - X) * (y - Y) + X * (y - Y) + Y * (x - X)) by ring.
  apply Rle_trans with (1 := Rabs_triang _ _). pose proof (Rabs_triang ((x - X) * (y - Y)) (X * (y - Y))) as T. rewrite !Rabs_mult in T. rewrite Rabs_mult.
  assert (A : Rabs (x - X) * Rabs (y - Y) <= k * d * (l * d)) by (apply Rmult_le_compat; auto; apply Rabs_pos).
  assert (B : Rabs X * Rabs (y - Y) <= 1 * (l * d)) by (apply Rmult_le_compat; auto; apply Rabs_pos).
  assert (C : Rabs Y * Rabs (x - X) <= 1 * (k * d)) by (apply Rmult_le_compat; auto; apply Rabs_pos).
  assert (D : k * d * (l * d) <= / 4 * d) by (replace (k * d * (l * d)) with (k * (l * d) * d) by ring; apply Rmult_le_compat_r; lra). lra.
Qed.

Lemma sum_near : forall d k l a b A B, 0 < d -> 0 <= k -> 0 <= l -> k * (l * d) <= / 4 ->
  Rabs (vx A) <= 1 /\ Rabs (vy A) <= 1 /\ Rabs (vz A) <= 1 -> Rabs (vx B) <= 1 /\ Rabs (vy B) <= 1 /\ Rabs (vz B) <= 1 ->
  vwithin (k * d) a A -> vwithin (l * d) b B -> Rabs (dot (vval a) (vval b) - dot A B) <= 3 * (k + l + / 4) * d.
Proof.
  intros d k l [[a0 a1] a2] [[b0 b1] b3] A B Hd Hk Hl H (A0 & A1 & A2) (B0 & B1 & B3) ((_ & E0) & (_ & E1) & (_ & E2)) ((_ & G0) & (_ & G1) & (_ & G2)).
  unfold dot, vval. cbn [vx vy vz].
  pose proof (prod_near d k l _ _ _ _ Hd Hk Hl H A0 B0 E0 G0) as P0. pose proof (prod_near d k l _ _ _ _ Hd Hk Hl H A1 B1 E1 G1) as P1. pose proof (prod_near d k l _ _ _ _ Hd Hk Hl H A2 B3 E2 G2) as P2.
  apply Rabs_le_inv in P0, P1, P2. apply Rabs_le. lra.
Qed.

Section Units.
Variable d : R.
Hypothesis Hd : u <= d <= b2 (-30).

Lemma d_pos : 0 < d.
Proof. pose proof u_pos. lra. Qed.

Lemma e0_d : b2 (-1075) <= / 1024 * d.
Proof.
  apply Rle_trans with (/ 1024 * u); [|apply Rmult_le_compat_l; lra]. unfold u. change (/ 1024) with (b2 (-10)). rewrite <- bpow_plus. apply bpow_le. lia.
Qed.

Lemma d_small : forall k, 0 <= k <= b2 20 -> 0 <= k * d <= / 1024.
Proof.
  intros k Hk. pose proof d_pos. split; [apply Rmult_le_pos; lra|]. apply Rle_trans with (b2 20 * b2 (-30)); [apply Rmult_le_compat; lra|]. rewrite <- bpow_plus. change (/ 1024) with (b2 (-10)). apply bpow_le. lia.
Qed.

Lemma small_lt : forall z, Rabs z <= 8 -> Rabs (fl z) < b2 1024.
Proof. intros z H. apply Rle_lt_trans with (b2 3); [apply fl_big; [lia|exact H]|apply bpow_lt; lia]. Qed.

Lemma rnd : forall z m, Rabs z <= m -> Rabs (fl z - z) <= (m + / 1024) * d.
Proof.
  intros z m H. pose proof (fl_mixed z) as M. pose proof e0_d as E. pose proof u_pos as U. pose proof (Rabs_pos z).
  assert (u * Rabs z <= d * m) by (apply Rmult_le_compat; lra). lra.
Qed.

Lemma near_mul : forall k l x y X Y, 0 <= k <= 1000 -> 0 <= l <= 1000 -> Rabs X <= 1 -> Rabs Y <= 1 ->
  within (k * d) x X -> within (l * d) y Y -> within ((k + l + 2) * d) (dmul x y) (X * Y).
Proof.
  intros k l x y X Y Hk Hl HX HY [Fx Ex] [Fy Ey]. pose proof d_pos as D.
  assert (KL : k * (l * d) <= / 4).
  { replace (k * (l * d)) with (k * l * d) by ring. apply Rle_trans with (b2 20 * d); [apply Rmult_le_compat_r; [lra|]|pose proof (d_small (b2 20) ltac:(split; [apply bpow_ge_0|lra])); lra].
    change (b2 20) with 1048576. nra. }
  pose proof (prod_near d k l _ _ _ _ D ltac:(lra) ltac:(lra) KL HX HY Ex Ey) as P.
  assert (XY : Rabs (X * Y) <= 1) by (rewrite Rabs_mult; pose proof (Rabs_pos X); pose proof (Rabs_pos Y); nra).
  pose proof (d_small (k + l + / 4) ltac:(change (b2 20) with 1048576; lra)) as S.
  assert (Z : Rabs (val x * val y) <= 1 + / 1024) by (replace (val x * val y) with ((val x * val y - X * Y) + X * Y) by ring; apply Rle_trans with (1 := Rabs_triang _ _); lra).
  destruct (dmul_ok x y Fx Fy) as [F V]; [apply small_lt; lra|]. split; [exact F|]. rewrite V. pose proof (rnd _ _ Z) as Rd.
  apply Rabs_le_inv in Rd, P. apply Rabs_le. lra.
Qed.

Lemma near_sub : forall k l x y X Y, 0 <= k <= 1000 -> 0 <= l <= 1000 -> Rabs X <= 1 -> Rabs Y <= 1 ->
  within (k * d) x X -> within (l * d) y Y -> within ((k + l + 3) * d) (dsub x y) (X - Y).
Proof.
  intros k l x y X Y Hk Hl HX HY [Fx Ex] [Fy Ey]. pose proof d_pos as D.
  pose proof (d_small (k + l) ltac:(change (b2 20) with 1048576; lra)) as S.
  assert (P : Rabs (val x - val y - (X - Y)) <= (k + l) * d) by (apply Rabs_le_inv in Ex, Ey; apply Rabs_le; lra).
  assert (Z : Rabs (val x - val y) <= 2 + / 1024) by (apply Rabs_le_inv in P, HX, HY; apply Rabs_le; lra).
  destruct (dsub_ok x y Fx Fy) as [F V]; [apply small_lt; lra|]. split; [exact F|]. rewrite V. pose proof (rnd _ _ Z) as Rd.
  apply Rabs_le_inv in Rd, P. apply Rabs_le. lra.
Qed.

Lemma near_cross : forall k l a b A B, 0 <= k <= 400 -> 0 <= l <= 400 -> dot A A = 1 -> dot B B = 1 ->
  vwithin (k * d) a A -> vwithin (l * d) b B -> vwithin ((2 * (k + l + 2) + 3) * d) (cross_d a b) (cross A B).
Proof.
  intros k l [[a0 a1] a2] [[b0 b1] b3] A B Hk Hl UA UB (E0 & E1 & E2) (G0 & G1 & G2). destruct (unit_le A UA) as (A0 & A1 & A2). destruct (unit_le B UB) as (B0 & B1 & B3).
  assert (PB : forall X Y, Rabs X <= 1 -> Rabs Y <= 1 -> Rabs (X * Y) <= 1) by (intros X Y HX HY; rewrite Rabs_mult; pose proof (Rabs_pos X); pose proof (Rabs_pos Y); nra).
  assert (G : forall x y z w X Y Z W, Rabs X <= 1 -> Rabs Y <= 1 -> Rabs Z <= 1 -> Rabs W <= 1 -> within (k * d) x X -> within (l * d) y Y -> within (k * d) z Z -> within (l * d) w W ->
    within ((2 * (k + l + 2) + 3) * d) (dsub (dmul x y) (dmul z w)) (X * Y - Z * W)).
  { intros x y z w X Y Z W HX HY HZ HW Ex Ey Ez Ew. replace (2 * (k + l + 2) + 3) with ((k + l + 2) + (k + l + 2) + 3) by ring.
    apply near_sub; [lra|lra|now apply PB|now apply PB|apply near_mul; auto; lra|apply near_mul; auto; lra]. }
  unfold cross_d, cross. cbn [vwithin vx vy vz]. split; [|split]; apply G; assumption.
Qed.
End Units.

(** ** The length of a vector *)

Lemma sum3_real : forall x y z, 0 <= x -> 0 <= y -> 0 <= z -> fmt x -> fmt y -> fmt z ->
  0 <= fl (x + y) /\ Rabs (fl (fl (x + y) + z) - (x + y + z)) <= 3 * u * (x + y + z).
Proof.
  intros x y z Hx Hy Hz Fx Fy Fz. pose proof (add_err x y Fx Fy) as E1. pose proof u_pos as U. assert (Us : u <= / 1024) by (unfold u; change (/ 1024) with (b2 (-10)); apply bpow_le; lia).
  assert (P : 0 <= fl (x + y)) by (apply fl_ge; [apply fl_fmt, fmt_0|lra]). split; [exact P|].
  pose proof (add_err (fl (x + y)) z (fmt_fl _) Fz) as E2. set (s := fl (x + y)) in *. rewrite (Rabs_pos_eq (x + y)) in E1 by lra. rewrite (Rabs_pos_eq (s + z)) in E2 by lra.
  assert (u * (x + y) <= / 1024 * (x + y)) by (apply Rmult_le_compat_r; lra). apply Rabs_le_inv in E1.
  assert (u * (s + z) <= u * (1025 / 1024 * (x + y + z))) by (apply Rmult_le_compat_l; lra). assert (0 <= u * z) by (apply Rmult_le_pos; lra). assert (0 <= u * (x + y)) by (apply Rmult_le_pos; lra).
  apply Rabs_le_inv in E2. apply Rabs_le. lra.
Qed.

Lemma length_near : forall L a0 a1 a2 W N e, sums_ok dadd (l_sum L) -> fin a0 -> fin a1 -> fin a2 -> dot N N = 1 -> b2 (-20) <= W <= 1 -> 0 <= e <= / 1024 * W ->
  Rabs (val a0 - W * vx N) <= e -> Rabs (val a1 - W * vy N) <= e -> Rabs (val a2 - W * vz N) <= e ->
  let rho := dsqrt (l_sum L (sq a0) (sq a1) (sq a2)) in
  fin rho /\ Rabs (val rho - W) <= 7 * e + 8 * u.
Proof.
  intros L a0 a1 a2 W N e SO F0 F1 F2 UN HW He E0 E1 E2. cbv zeta. pose proof (bpow_gt_0 radix2 (-20)) as P20. pose proof u_pos as U.
  assert (Us : u <= / 1024) by (unfold u; change (/ 1024) with (b2 (-10)); apply bpow_le; lia).
  destruct (unit_le N UN) as (N0 & N1 & N2).
  assert (AB : forall a n, Rabs n <= 1 -> Rabs (val a - W * n) <= e -> Rabs (val a) <= 2).
  { intros a n Hn E. apply Rabs_le_inv in E. assert (Rabs (W * n) <= 1) by (rewrite Rabs_mult, (Rabs_pos_eq W) by lra; pose proof (Rabs_pos n); nra). apply Rabs_le_inv in H. apply Rabs_le. lra. }
  pose proof (AB a0 _ N0 E0) as B0. pose proof (AB a1 _ N1 E1) as B1. pose proof (AB a2 _ N2 E2) as B2'. clear AB.
  assert (W511 : 2 <= b2 511) by (change 2 with (b2 1); apply bpow_le; lia).
  destruct (sq_ok a0 F0 ltac:(lra)) as (S0 & V0 & Q0). destruct (sq_ok a1 F1 ltac:(lra)) as (S1 & V1 & Q1). destruct (sq_ok a2 F2 ltac:(lra)) as (S2 & V2 & Q2).
  set (x := val (sq a0)) in *. set (y := val (sq a1)) in *. set (z := val (sq a2)) in *.
  assert (SB : forall a, Rabs (val a) <= 2 -> 0 <= val a * val a <= 4). { intros a Ha. apply Rabs_le_inv in Ha. split; [nra|]. nra. }
  assert (SX : forall a, Rabs (val a) <= 2 -> Rabs (fl (val a * val a) - val a * val a) <= u * (val a * val a) + b2 (-1075)).
  { intros a Ha. pose proof (fl_mixed (val a * val a)) as M. rewrite (Rabs_pos_eq (val a * val a)) in M by apply (SB a Ha). exact M. }
  pose proof (SX a0 B0) as X0. pose proof (SX a1 B1) as X1. pose proof (SX a2 B2') as X2. rewrite <- V0 in X0. rewrite <- V1 in X1. rewrite <- V2 in X2.
  pose proof (SB a0 B0) as T0. pose proof (SB a1 B1) as T1. pose proof (SB a2 B2') as T2. clear SX SB.
  set (R2 := val a0 * val a0 + val a1 * val a1 + val a2 * val a2).
  assert (DR : Rabs (R2 - W * W) <= 6 * (W * e) + 3 * (e * e)).
  { set (f0 := val a0 - W * vx N) in *. set (f1 := val a1 - W * vy N) in *. set (f2 := val a2 - W * vz N) in *.
    assert (EQ : R2 - W * W = 2 * W * (vx N * f0 + vy N * f1 + vz N * f2) + (f0 * f0 + f1 * f1 + f2 * f2)).
    { transitivity (R2 - W * W * dot N N); [rewrite UN; ring|]. unfold R2, f0, f1, f2, dot. ring. }
    assert (PR : forall n f, Rabs n <= 1 -> Rabs f <= e -> Rabs (n * f) <= e). { intros n f Hn Hf. rewrite Rabs_mult. pose proof (Rabs_pos n). pose proof (Rabs_pos f). nra. }
    assert (SQ : forall f, Rabs f <= e -> 0 <= f * f <= e * e). { intros f Hf. apply Rabs_le_inv in Hf. split; nra. }
    pose proof (PR _ _ N0 E0) as P0. pose proof (PR _ _ N1 E1) as P1. pose proof (PR _ _ N2 E2) as P2. pose proof (SQ _ E0). pose proof (SQ _ E1). pose proof (SQ _ E2).
    apply Rabs_le_inv in P0, P1, P2. rewrite EQ. assert (M : Rabs (2 * W * (vx N * f0 + vy N * f1 + vz N * f2)) <= 2 * W * (3 * e)).
    { rewrite Rabs_mult, (Rabs_pos_eq (2 * W)) by lra. apply Rmult_le_compat_l; [lra|]. apply Rabs_le. lra. }
    apply Rabs_le_inv in M. apply Rabs_le. lra. }
  assert (WW : b2 (-40) <= W * W). { replace (b2 (-40)) with (b2 (-20) * b2 (-20)) by (rewrite <- bpow_plus; reflexivity). apply Rmult_le_compat; lra. }
  assert (We : W * e <= / 1024 * (W * W)) by (replace (/ 1024 * (W * W)) with (W * (/ 1024 * W)) by ring; apply Rmult_le_compat_l; lra).
  assert (ee : e * e <= / 1024 * (W * e)) by (replace (/ 1024 * (W * e)) with ((/ 1024 * W) * e) by ring; apply Rmult_le_compat_r; lra).
  assert (WW1 : W * W <= 1) by nra. assert (We0 : 0 <= W * e) by (apply Rmult_le_pos; lra).
  apply Rabs_le_inv in DR. assert (R2B : 1 / 2 * (W * W) <= R2 <= 2) by lra.
  assert (T75 : b2 (-1075) <= / 1024 * (u * R2)).
  { apply Rle_trans with (/ 1024 * (u * (1 / 2 * b2 (-40)))); [|apply Rmult_le_compat_l; [lra|]; apply Rmult_le_compat_l; lra].
    unfold u. change (/ 1024) with (b2 (-10)). replace (1 / 2) with (b2 (-1)) by (change (b2 (-1)) with (/ 2); lra). rewrite <- !bpow_plus. apply bpow_le. lia. }
  assert (XYZ : Rabs (x + y + z - R2) <= (101/100) * (u * R2)). { apply Rabs_le_inv in X0, X1, X2. unfold R2 in *. apply Rabs_le. lra. }
  assert (UR : u * R2 <= / 1024 * R2) by (apply Rmult_le_compat_r; lra). assert (UR0 : 0 <= u * R2) by (apply Rmult_le_pos; lra). apply Rabs_le_inv in XYZ.
  assert (BIG : forall p q, fin p -> fin q -> 0 <= val p -> 0 <= val q -> val p + val q <= 8 -> fin (dadd p q) /\ val (dadd p q) = fl (val p + val q)).
  { intros p q Fp Fq Pp Pq H. apply dadd_ok; auto. apply small_lt. rewrite Rabs_pos_eq; lra. }
  assert (SUM : forall p q r, fin p -> fin q -> fin r -> 0 <= val p -> 0 <= val q -> 0 <= val r -> val p + val q + val r <= 3 ->
    fin (dadd (dadd p q) r) /\ fin (dadd r (dadd p q)) /\ val (dadd (dadd p q) r) = fl (fl (val p + val q) + val r) /\ val (dadd r (dadd p q)) = fl (fl (val p + val q) + val r)).
  { intros p q r Fp Fq Fr Pp Pq Pr H. destruct (BIG p q Fp Fq Pp Pq ltac:(lra)) as [A B]. assert (A0 : 0 <= fl (val p + val q) <= 4).
    { split; [apply fl_ge; [apply fl_fmt, fmt_0|lra]|apply fl_le; [apply fl_fmt; exact (fmt_b2 2 ltac:(lia))|lra]]. }
    destruct (BIG (dadd p q) r A Fr ltac:(lra) Pr ltac:(lra)) as [C D]. destruct (BIG r (dadd p q) Fr A Pr ltac:(lra) ltac:(lra)) as [C' D']. rewrite B in D, D'.
    split; [exact C|]. split; [exact C'|]. split; [exact D|]. rewrite D'. f_equal. ring. }
  assert (XYZ3 : x + y + z <= 3) by lra.
  assert (PX : 0 <= x) by exact (proj1 Q0). assert (PY : 0 <= y) by exact (proj1 Q1). assert (PZ : 0 <= z) by exact (proj1 Q2). clear Q0 Q1 Q2.
  assert (S : exists S, l_sum L (sq a0) (sq a1) (sq a2) = S /\ fin S /\ 0 <= val S /\ Rabs (val S - (x + y + z)) <= 3 * u * (x + y + z)).
  { eexists. split; [reflexivity|]. destruct (SO (sq a0) (sq a1) (sq a2)) as [-> | ->].
    - destruct (SUM (sq a0) (sq a1) (sq a2) S0 S1 S2 PX PY PZ XYZ3) as (A & _ & B & _). destruct (sum3_real x y z PX PY PZ (fmt_val _) (fmt_val _) (fmt_val _)) as [C D].
      split; [exact A|]. fold x y z in B. rewrite B. split; [apply fl_ge; [apply fl_fmt, fmt_0|lra]|exact D].
    - destruct (SUM (sq a1) (sq a2) (sq a0) S1 S2 S0 PY PZ PX ltac:(fold x y z; lra)) as (_ & A & _ & B). destruct (sum3_real y z x PY PZ PX (fmt_val _) (fmt_val _) (fmt_val _)) as [C D].
      split; [exact A|]. fold x y z in B. rewrite B. split; [apply fl_ge; [apply fl_fmt, fmt_0|lra]|]. replace (x + y + z) with (y + z + x) by ring. exact D. }
  destruct S as (S & -> & FS & PS & ES). destruct (dsqrt_ok S FS PS) as [FR VR]. split; [exact FR|]. rewrite VR.
  assert (UX : 3 * u * (x + y + z) <= 3 * u * (1026 / 1024 * R2)) by (apply Rmult_le_compat_l; lra). apply Rabs_le_inv in ES.
  assert (SW : Rabs (val S - W * W) <= 6 * (W * e) + 3 * (e * e) + 5 * (u * R2)) by (apply Rabs_le; lra).
  assert (UR2 : u * R2 <= (101/100) * (u * (W * W))). { replace ((101/100) * (u * (W * W))) with (u * ((101/100) * (W * W))) by ring. apply Rmult_le_compat_l; lra. }
  assert (U2 : 0 <= u * (W * W)) by (apply Rmult_le_pos; lra).
  assert (SQ : Rabs (sqrt (val S) - W) <= (13/2) * e + 6 * (u * W)).
  { assert (RP : 0 <= sqrt (val S)) by apply sqrt_pos. pose proof (sqrt_sqrt (val S) PS) as SS. set (r := sqrt (val S)) in *.
    apply Rmult_le_reg_r with (r + W); [lra|]. rewrite <- (Rabs_pos_eq (r + W)) at 1 by lra. rewrite <- Rabs_mult. replace ((r - W) * (r + W)) with (val S - W * W) by (rewrite <- SS; ring).
    apply Rle_trans with (1 := SW). apply Rle_trans with (((13/2) * e + 6 * (u * W)) * W); [|apply Rmult_le_compat_l; [assert (0 <= u * W) by (apply Rmult_le_pos; lra); lra|lra]]. replace (((13/2) * e + 6 * (u * W)) * W) with ((13/2) * (W * e) + 6 * (u * (W * W))) by ring. lra. }
  assert (UW : u * W <= u * 1) by (apply Rmult_le_compat_l; lra). assert (UW' : u * W <= / 1024 * W) by (apply Rmult_le_compat_r; lra).
  apply Rabs_le_inv in SQ. assert (RB : Rabs (sqrt (val S)) <= 1 + 1 / 64) by (apply Rabs_le; lra).
  pose proof (rnd u ltac:(split; [lra|unfold u; apply bpow_le; lia]) _ _ RB) as RD. apply Rabs_le_inv in RD. apply Rabs_le. lra.
Qed.
