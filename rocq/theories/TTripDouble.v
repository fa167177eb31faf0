(** * Round trips of coordinates in double precision *)

From Coq Require Import Reals ZArith List Bool Lia Lra Psatz.
From Flocq Require Import Core IEEE754.BinarySingleNaN.
From Verif Require Import Base MHealpixFloat PHealpixFloat SpecDouble MDouble PDouble PPiDouble PTrig PSumDouble TDouble TDouble3 SpecCoordsDouble MCoordsDouble PLibmDouble PTripDouble.
Import ListNotations.
Open Scope R_scope.

(** ** Longitudes *)

Lemma wrapped : forall arctan2 x y phi rho dl, arctan2_ok arctan2 -> near_arctan2 arctan2 -> fin x -> fin y -> Rabs (val x) <= b2 510 -> Rabs (val y) <= b2 510 ->
  0 < rho -> 0 <= dl <= / 16 -> Rabs (val x - rho * cos phi) <= dl * rho -> Rabs (val y - rho * sin phi) <= dl * rho ->
  let back := snd (cart2polar_d arctan2 x y dzero dzero) in
  fin back /\ 0 <= val back <= tau /\ exists j : Z, Rabs (val back - phi - 2 * PI * IZR j) <= 5 * dl + 3 * b2 (-51).
Proof.
  intros f x y phi rho dl Ok1 Ok2 Fx Fy Bx By Pr Hd Hx Hy back. assert (W : b2 510 <= b2 1022) by (apply bpow_le; lia).
  destruct (C80_longitude f (fun _ => dzero) x y dzero dzero dzero dzero Ok1) as (_ & F & B & _ & E).
  { intros v [<- |[<- |[<- |[<- |[]]]]]; (split; [assumption || apply fin_zero|]); try lra; rewrite val_zero, Rabs_R0; apply bpow_ge_0. }
  fold back in F, B, E. split; [exact F|]. split; [exact B|]. destruct (sub_zero x Fx) as [F1 V1]. destruct (sub_zero y Fy) as [F2 V2]. destruct (Ok2 _ _ F2 F1) as (psi & [A1 A2] & A3). rewrite V1, V2 in A1, A2.
  set (a := f (dsub y dzero) (dsub x dzero)) in *. destruct (angle_close rho _ (val x) (val y) phi psi dl Pr (sqrt_pos _) Hd A1 A2 Hx Hy) as (j & J). pose proof pi_accuracy as PA.
  assert (B51 : b2 (-51) = 2 * b2 (-52)) by (change (-51)%Z with (1 + -52)%Z; rewrite bpow_plus; reflexivity). apply Rabs_le_inv in A3, J.
  destruct (Rlt_dec (val a) 0) as [N|N]; apply Rabs_le_inv in E.
  - exists (j + 1)%Z. rewrite plus_IZR. apply Rabs_le. lra.
  - exists j. apply Rabs_le. lra.
Qed.

Lemma far_one : forall x y z r, fin x -> fin y -> fin z -> b2 (-200) <= r -> r * r / 2 <= val x * val x + val y * val y + val z * val z -> far x dzero \/ far y dzero \/ far z dzero.
Proof.
  intros x y z r Fx Fy Fz Pr H. unfold far. rewrite val_zero, !Rminus_0_r. destruct (Rle_or_lt (b2 (-511)) (Rabs (val x))) as [A|A]; [now left|]. destruct (Rle_or_lt (b2 (-511)) (Rabs (val y))) as [B|B]; [now right; left|]. destruct (Rle_or_lt (b2 (-511)) (Rabs (val z))) as [C|C]; [now right; right|]. exfalso.
  assert (Q : forall v, Rabs v < b2 (-511) -> v * v <= b2 (-1022)).
  { intros v L. rewrite <- (Rabs_pos_eq (v * v)) by exact (Rle_0_sqr v). rewrite Rabs_mult. change (-1022)%Z with (-511 + -511)%Z. rewrite bpow_plus. apply Rmult_le_compat; try apply Rabs_pos; lra. }
  apply Q in A, B, C. assert (P : b2 (-200) * b2 (-200) <= r * r) by (apply Rmult_le_compat; try apply bpow_ge_0; exact Pr). rewrite <- bpow_plus in P. assert (b2 (-1022) <= / 1024 * b2 (-200 + -200)). { change (/ 1024) with (b2 (-10)). rewrite <- bpow_plus. apply bpow_le. lia. } pose proof (bpow_gt_0 radix2 (-200 + -200)). lra.
Qed.

(** ** Properties *)

(** Polar coordinates to cartesian coordinates. *)
Theorem C96_polar_points : forall cos_d sin_d r phi c0 c1, near_on_circle cos cos_d -> near_on_circle sin sin_d ->
  fin r -> b2 (-200) <= val r <= b2 200 -> fin phi -> Rabs (val phi) <= 8 -> fin c0 -> fin c1 -> Rabs (val c0) <= b2 200 -> Rabs (val c1) <= b2 200 ->
  let '(x, y) := polar2cart_d cos_d sin_d r phi c0 c1 in
  fin x /\ fin y /\ Rabs (val x - (val c0 + val r * cos (val phi))) <= b2 (-50) * (val r + Rabs (val c0)) /\
  Rabs (val y - (val c1 + val r * sin (val phi))) <= b2 (-50) * (val r + Rabs (val c1)).
Proof.
  intros cos_d sin_d r phi c0 c1 Nc Ns Fr Hr Fp Hp F0 F1 B0 B1. unfold polar2cart_d.
  assert (G : forall f fd c, near_on_circle f fd -> fin c -> Rabs (val c) <= b2 200 -> fin (dadd (dmul r (fd phi)) c) /\ Rabs (val (dadd (dmul r (fd phi)) c) - (val c + val r * f (val phi))) <= b2 (-50) * (val r + Rabs (val c))).
  { intros f fd c N Fc Bc. destruct (arm f fd r phi N Fr ltac:(lra) Fp Hp) as (A & B & E). set (m := dmul r (fd phi)) in *. assert (E53 : b2 (-50) = 8 * b2 (-53)) by (change (-50)%Z with (3 + -53)%Z; rewrite bpow_plus; reflexivity). pose proof (bpow_gt_0 radix2 (-53)) as P53. pose proof (bpow_gt_0 radix2 (-200)) as P200.
    assert (P70 : b2 (-70) <= / 1024) by (change (/ 1024) with (b2 (-10)); apply bpow_le; lia). assert (0 <= b2 (-70)) by apply bpow_ge_0. pose proof (few_sizes (val r) ltac:(lra)) as T.
    pose proof (Rabs_triang (val m) (val c)) as S. pose proof (fl_mixed (val m + val c)) as M. assert (E201 : b2 201 = 2 * b2 200) by (change 201%Z with (1 + 200)%Z; rewrite bpow_plus; reflexivity).
    destruct (dadd_ok m c A Fc) as [D V]. { apply Rle_lt_trans with (b2 201); [|apply bpow_lt; lia]. apply Rabs_le. assert (Q : Rabs (val m + val c) <= b2 201) by lra. apply Rabs_le_inv in Q. assert (FB : fmt (b2 201)) by (apply fmt_b2; lia). split; [apply fl_ge; [now apply fl_fmt, fmt_opp|lra]|apply fl_le; [now apply fl_fmt|lra]]. }
    split; [exact D|]. rewrite V, E53. replace (fl (val m + val c) - (val c + val r * f (val phi))) with ((fl (val m + val c) - (val m + val c)) + (val m - val r * f (val phi))) by ring.
    apply Rle_trans with (1 := Rabs_triang _ _). assert (X : b2 (-53) * Rabs (val m + val c) <= b2 (-53) * (val r + Rabs (val c))) by (apply Rmult_le_compat_l; lra).
    assert (X4 : b2 (-70) * (b2 (-53) * val r) <= / 1024 * (b2 (-53) * val r)) by (apply Rmult_le_compat_r; [apply Rmult_le_pos; lra|exact P70]). pose proof (Rabs_pos (val c)). assert (0 <= b2 (-53) * Rabs (val c)) by (apply Rmult_le_pos; lra). assert (0 <= b2 (-53) * val r) by (apply Rmult_le_pos; lra). unfold u in M. change (-(53))%Z with (-53)%Z in M. nra. }
  destruct (G cos cos_d c0 Nc F0 B0) as [A1 A2]. destruct (G sin sin_d c1 Ns F1 B1) as [A3 A4]. auto.
Qed.
Print Assumptions C96_polar_points.

(** Polar coordinates to cartesian coordinates and back. *)
Theorem C96_polar : forall cos_d sin_d arctan2 r phi, near_on_circle cos cos_d -> near_on_circle sin sin_d -> arctan2_ok arctan2 -> near_arctan2 arctan2 ->
  fin r -> b2 (-200) <= val r <= b2 200 -> fin phi -> Rabs (val phi) <= 8 ->
  let '(x, y) := polar2cart_d cos_d sin_d r phi dzero dzero in
  let '(r', phi') := cart2polar_d arctan2 x y dzero dzero in
  fin r' /\ Rabs (val r' - val r) <= b2 (-48) * val r /\
  fin phi' /\ 0 <= val phi' <= tau /\ exists j : Z, Rabs (val phi' - val phi - 2 * PI * IZR j) <= b2 (-47).
Proof.
  intros cos_d sin_d f r phi Nc Ns Ok1 Ok2 Fr Hr Fp Hp. unfold polar2cart_d. destruct (arm cos cos_d r phi Nc Fr ltac:(lra) Fp Hp) as (Fx & Bx & Ex). destruct (arm sin sin_d r phi Ns Fr ltac:(lra) Fp Hp) as (Fy & By & Ey).
  destruct (add_zero _ Fx) as [Fx' Vx]. destruct (add_zero _ Fy) as [Fy' Vy]. rewrite <- Vx in Bx, Ex. rewrite <- Vy in By, Ey. set (x := dadd (dmul r (cos_d phi)) dzero) in *. set (y := dadd (dmul r (sin_d phi)) dzero) in *.
  pose proof (bpow_gt_0 radix2 (-53)) as P53. pose proof (bpow_gt_0 radix2 (-200)) as P200. assert (PR : 0 < val r) by lra. assert (W : b2 200 <= b2 510) by (apply bpow_le; lia).
  assert (P70 : b2 (-70) <= / 1024) by (change (/ 1024) with (b2 (-10)); apply bpow_le; lia). assert (Q70 : 0 <= b2 (-70)) by apply bpow_ge_0. assert (S53 : b2 (-53) <= / 1024 / 1024) by (replace (/ 1024 / 1024) with (b2 (-20)) by (simpl; lra); apply bpow_le; lia).
  assert (SM : (3 + b2 (-70)) * b2 (-53) * val r <= (4 * b2 (-53)) * val r) by (apply Rmult_le_compat_r; [lra|apply Rmult_le_compat_r; lra]).
  pose proof (COS_bound (val phi)) as CB. pose proof (SIN_bound (val phi)) as SB.
  assert (HX : Rabs (val x - val r * cos (val phi)) <= 4 * b2 (-53) * val r) by lra. assert (HY : Rabs (val y - val r * sin (val phi)) <= 4 * b2 (-53) * val r) by lra.
  assert (AX : Rabs (val r * cos (val phi)) <= val r) by (rewrite Rabs_mult, (Rabs_pos_eq (val r)) by lra; assert (Rabs (cos (val phi)) <= 1) by (apply Rabs_le; lra); nra).
  assert (AY : Rabs (val r * sin (val phi)) <= val r) by (rewrite Rabs_mult, (Rabs_pos_eq (val r)) by lra; assert (Rabs (sin (val phi)) <= 1) by (apply Rabs_le; lra); nra).
  pose proof (near_square _ _ _ (4 * b2 (-53)) PR ltac:(lra) AX HX) as QX. pose proof (near_square _ _ _ (4 * b2 (-53)) PR ltac:(lra) AY HY) as QY.
  assert (ID : val r * cos (val phi) * (val r * cos (val phi)) + val r * sin (val phi) * (val r * sin (val phi)) = val r * val r) by (transitivity (val r * val r * (sin (val phi) ^ 2 + cos (val phi) ^ 2)); [ring|rewrite sc1; ring]).
  set (S := val x * val x + val y * val y). assert (HS0 : 0 <= S) by (unfold S; pose proof (Rle_0_sqr (val x)); pose proof (Rle_0_sqr (val y)); unfold Rsqr in *; lra).
  assert (UR : 0 < b2 (-53) * val r * val r) by (apply Rmult_lt_0_compat; [apply Rmult_lt_0_compat|]; lra).
  assert (HS : Rabs (S - val r * val r) <= 17 * b2 (-53) * val r * val r).
  { rewrite <- ID. unfold S. match goal with |- Rabs ?e <= _ => replace e with ((val x * val x - val r * cos (val phi) * (val r * cos (val phi))) + (val y * val y - val r * sin (val phi) * (val r * sin (val phi)))) by ring end.
    apply Rle_trans with (1 := Rabs_triang _ _). lra. }
  pose proof (near_root S (val r) (17 * b2 (-53)) PR ltac:(lra) HS0 HS) as HR.
  assert (HF : far x dzero \/ far y dzero).
  { destruct (far_one x y dzero (val r) Fx' Fy' fin_zero ltac:(lra)) as [H|[H|H]]; [|tauto|tauto|].
    - rewrite val_zero. fold S. apply Rabs_le_inv in HS. assert (17 * b2 (-53) * val r * val r <= / 1024 * (val r * val r)); [|assert (0 < val r * val r) by (apply Rmult_lt_0_compat; lra); lra]. rewrite Rmult_assoc. apply Rmult_le_compat_r; [apply Rmult_le_pos; lra|lra].
    - unfold far in H. rewrite val_zero, Rminus_0_r, Rabs_R0 in H. pose proof (bpow_gt_0 radix2 (-511)). lra. }
  assert (HI : forall v, In v [x; y; dzero; dzero] -> fin v /\ Rabs (val v) <= b2 510).
  { intros v [<- |[<- |[<- |[<- |[]]]]]; (split; [assumption || apply fin_zero|]); try lra; rewrite val_zero, Rabs_R0; apply bpow_ge_0. }
  pose proof (C80_polar_radius f x y dzero dzero HI HF) as [R1 R2]. rewrite !val_zero, !Rminus_0_r in R2. fold S in R2. pose proof (wrapped f x y (val phi) (val r) (4 * b2 (-53)) Ok1 Ok2 Fx' Fy' ltac:(lra) ltac:(lra) PR ltac:(lra) HX HY) as [L1 [L2 (j & L3)]].
  destruct (cart2polar_d f x y dzero dzero) as [r' phi'] eqn:E. cbn [fst snd] in *. assert (E50 : b2 (-50) = 8 * b2 (-53)) by (change (-50)%Z with (3 + -53)%Z; rewrite bpow_plus; reflexivity). assert (E48 : b2 (-48) = 32 * b2 (-53)) by (change (-48)%Z with (5 + -53)%Z; rewrite bpow_plus; reflexivity). assert (E51 : b2 (-51) = 4 * b2 (-53)) by (change (-51)%Z with (2 + -53)%Z; rewrite bpow_plus; reflexivity). assert (E47 : b2 (-47) = 64 * b2 (-53)) by (change (-47)%Z with (6 + -53)%Z; rewrite bpow_plus; reflexivity).
  split; [exact R1|]. split; [|split; [exact L1|split; [exact L2|exists j; rewrite E47; rewrite E51 in L3; lra]]].
  rewrite E50 in R2. rewrite E48. apply Rabs_le_inv in HR, R2. apply Rabs_le. assert (UU : 17 * b2 (-53) * val r <= / 1024 * val r) by (apply Rmult_le_compat_r; lra). assert (8 * b2 (-53) * sqrt S <= 8 * b2 (-53) * (1025 / 1024 * val r)) by (apply Rmult_le_compat_l; lra). assert (0 < b2 (-53) * val r) by (apply Rmult_lt_0_compat; lra). lra.
Qed.
Print Assumptions C96_polar.

(** Spherical coordinates to cartesian coordinates. *)
Theorem C96_sphere_points : forall cos_d sin_d r phi theta, near_on_circle cos cos_d -> near_on_circle sin sin_d ->
  fin r -> b2 (-200) <= val r <= b2 200 -> fin phi -> Rabs (val phi) <= 8 -> fin theta -> Rabs (val theta) <= 8 ->
  let '(x, y, z) := sphere2cart_d cos_d sin_d r phi theta dzero dzero dzero in
  (fin x /\ Rabs (val x) <= val r /\ Rabs (val x - val r * cos (val phi) * sin (val theta)) <= b2 (-50) * val r) /\
  (fin y /\ Rabs (val y) <= val r /\ Rabs (val y - val r * sin (val phi) * sin (val theta)) <= b2 (-50) * val r) /\
  (fin z /\ Rabs (val z) <= val r /\ Rabs (val z - val r * cos (val theta)) <= b2 (-51) * val r).
Proof.
  intros cos_d sin_d r phi theta Nc Ns Fr Hr Fp Hp Ft Ht. unfold sphere2cart_d. assert (E50 : b2 (-50) = 8 * b2 (-53)) by (change (-50)%Z with (3 + -53)%Z; rewrite bpow_plus; reflexivity). assert (E51 : b2 (-51) = 4 * b2 (-53)) by (change (-51)%Z with (2 + -53)%Z; rewrite bpow_plus; reflexivity).
  assert (S1 : forall x, Rabs (sin x) <= 1) by (intros t; apply Rabs_le; pose proof (SIN_bound t); lra). pose proof (bpow_gt_0 radix2 (-53)) as P53. pose proof (bpow_gt_0 radix2 (-200)) as P200.
  destruct (arm2 cos sin cos_d sin_d r phi theta Nc Ns S1 Fr ltac:(lra) Fp Hp Ft Ht) as (Fx & Bx & Ex). destruct (arm2 sin sin sin_d sin_d r phi theta Ns Ns S1 Fr ltac:(lra) Fp Hp Ft Ht) as (Fy & By & Ey). destruct (arm cos cos_d r theta Nc Fr ltac:(lra) Ft Ht) as (Fz & Bz & Ez).
  destruct (add_zero _ Fx) as [Fx' Vx]. destruct (add_zero _ Fy) as [Fy' Vy]. destruct (add_zero _ Fz) as [Fz' Vz]. rewrite Vx, Vy, Vz, E50, E51.
  assert (P70 : b2 (-70) <= / 1024) by (change (/ 1024) with (b2 (-10)); apply bpow_le; lia). assert (Q70 : 0 <= b2 (-70)) by apply bpow_ge_0. assert (0 < b2 (-53) * val r) by (apply Rmult_lt_0_compat; lra).
  assert (SM : (3 + b2 (-70)) * b2 (-53) * val r <= (4 * b2 (-53)) * val r) by (apply Rmult_le_compat_r; [lra|apply Rmult_le_compat_r; lra]).
  split; [|split]; (split; [assumption|split; [assumption|lra]]).
Qed.
Print Assumptions C96_sphere_points.

(** The same around any centre. *)
Theorem C96_sphere_centre : forall cos_d sin_d r phi theta c0 c1 c2, near_on_circle cos cos_d -> near_on_circle sin sin_d ->
  fin r -> b2 (-200) <= val r <= b2 200 -> fin phi -> Rabs (val phi) <= 8 -> fin theta -> Rabs (val theta) <= 8 ->
  (forall c, In c [c0; c1; c2] -> fin c /\ Rabs (val c) <= b2 200) ->
  let '(x, y, z) := sphere2cart_d cos_d sin_d r phi theta c0 c1 c2 in
  (fin x /\ Rabs (val x - (val c0 + val r * cos (val phi) * sin (val theta))) <= b2 (-49) * (val r + Rabs (val c0))) /\
  (fin y /\ Rabs (val y - (val c1 + val r * sin (val phi) * sin (val theta))) <= b2 (-49) * (val r + Rabs (val c1))) /\
  (fin z /\ Rabs (val z - (val c2 + val r * cos (val theta))) <= b2 (-49) * (val r + Rabs (val c2))).
Proof.
  intros cos_d sin_d r phi theta c0 c1 c2 Nc Ns Fr Hr Fp Hp Ft Ht HC. pose proof (bpow_gt_0 radix2 (-53)) as P53. pose proof (bpow_gt_0 radix2 (-200)) as P200. assert (S1 : forall x, Rabs (sin x) <= 1) by (intros t; apply Rabs_le; pose proof (SIN_bound t); lra).
  assert (G : forall m c e, fin m -> Rabs (val m) <= val r -> Rabs (val m - e) <= 7 * b2 (-53) * val r -> fin c /\ Rabs (val c) <= b2 200 -> fin (dadd m c) /\ Rabs (val (dadd m c) - (val c + e)) <= b2 (-49) * (val r + Rabs (val c))).
  { intros m c e A B E [Fc Bc]. assert (E53 : b2 (-49) = 16 * b2 (-53)) by (change (-49)%Z with (4 + -53)%Z; rewrite bpow_plus; reflexivity).
    assert (P70 : b2 (-70) <= / 1024) by (change (/ 1024) with (b2 (-10)); apply bpow_le; lia). assert (0 <= b2 (-70)) by apply bpow_ge_0. pose proof (few_sizes (val r) ltac:(lra)) as T.
    pose proof (Rabs_triang (val m) (val c)) as S. pose proof (fl_mixed (val m + val c)) as M. assert (E201 : b2 201 = 2 * b2 200) by (change 201%Z with (1 + 200)%Z; rewrite bpow_plus; reflexivity).
    destruct (dadd_ok m c A Fc) as [D V]. { apply Rle_lt_trans with (b2 201); [|apply bpow_lt; lia]. apply Rabs_le. assert (Q : Rabs (val m + val c) <= b2 201) by lra. apply Rabs_le_inv in Q. assert (FB : fmt (b2 201)) by (apply fmt_b2; lia). split; [apply fl_ge; [now apply fl_fmt, fmt_opp|lra]|apply fl_le; [now apply fl_fmt|lra]]. }
    split; [exact D|]. rewrite V, E53. replace (fl (val m + val c) - (val c + e)) with ((fl (val m + val c) - (val m + val c)) + (val m - e)) by ring.
    apply Rle_trans with (1 := Rabs_triang _ _). assert (X : b2 (-53) * Rabs (val m + val c) <= b2 (-53) * (val r + Rabs (val c))) by (apply Rmult_le_compat_l; lra).
    assert (X4 : b2 (-70) * (b2 (-53) * val r) <= / 1024 * (b2 (-53) * val r)) by (apply Rmult_le_compat_r; [apply Rmult_le_pos; lra|exact P70]). pose proof (Rabs_pos (val c)). assert (0 <= b2 (-53) * Rabs (val c)) by (apply Rmult_le_pos; lra). assert (0 <= b2 (-53) * val r) by (apply Rmult_le_pos; lra). unfold u in M. change (-(53))%Z with (-53)%Z in M. nra. }
  destruct (arm2 cos sin cos_d sin_d r phi theta Nc Ns S1 Fr ltac:(lra) Fp Hp Ft Ht) as (Fx & Bx & Ex). destruct (arm2 sin sin sin_d sin_d r phi theta Ns Ns S1 Fr ltac:(lra) Fp Hp Ft Ht) as (Fy & By & Ey). destruct (arm cos cos_d r theta Nc Fr ltac:(lra) Ft Ht) as (Fz & Bz & Ez).
  assert (P70 : b2 (-70) <= / 1024) by (change (/ 1024) with (b2 (-10)); apply bpow_le; lia). assert (SM : (3 + b2 (-70)) * b2 (-53) * val r <= 7 * b2 (-53) * val r) by (apply Rmult_le_compat_r; [lra|apply Rmult_le_compat_r; lra]).
  unfold sphere2cart_d. split; [|split]; (apply G; [assumption|assumption|lra|apply HC; cbn; auto]).
Qed.
Print Assumptions C96_sphere_centre.

(** Spherical coordinates to cartesian coordinates and back: the radius keeps
    its digits, the direction moves by less than [2^-43] on the sky unless the
    point is near a pole, where the colatitude is good to [2^-21] only. *)
Theorem C96_sphere : forall cos_d sin_d arctan2 arccos r phi theta, near_on_circle cos cos_d -> near_on_circle sin sin_d ->
  arctan2_ok arctan2 -> near_arctan2 arctan2 -> arccos_ok arccos -> near_arccos arccos ->
  fin r -> b2 (-200) <= val r <= b2 200 -> fin phi -> Rabs (val phi) <= 8 -> fin theta -> 0 <= val theta <= tau / 2 ->
  let '(x, y, z) := sphere2cart_d cos_d sin_d r phi theta dzero dzero dzero in
  let '(r', phi', theta') := cart2sphere_d arctan2 arccos x y z dzero dzero dzero in
  fin r' /\ Rabs (val r' - val r) <= b2 (-47) * val r /\
  fin phi' /\ 0 <= val phi' <= tau /\ (exists j : Z, sin (val theta) * Rabs (val phi' - val phi - 2 * PI * IZR j) <= b2 (-44)) /\
  fin theta' /\ 0 <= val theta' <= tau / 2 /\ Rabs (val theta' - val theta) <= b2 (-21) /\ sin (val theta) * Rabs (val theta' - val theta) <= b2 (-44).
Proof.
  intros cos_d sin_d f g r phi theta Nc Ns Ok1 Ok2 Ok3 Ok4 Fr Hr Fp Hp Ft Ht. pose proof tau_bounds as TB. pose proof (C96_sphere_points cos_d sin_d r phi theta Nc Ns Fr Hr Fp Hp Ft ltac:(apply Rabs_le; lra)) as PT.
  destruct (sphere2cart_d cos_d sin_d r phi theta dzero dzero dzero) as [[x y] z]. destruct PT as ((Fx & Bx & Ex) & (Fy & By & Ey) & (Fz & Bz & Ez)).
  assert (E50 : b2 (-50) = 8 * b2 (-53)) by (change (-50)%Z with (3 + -53)%Z; rewrite bpow_plus; reflexivity). assert (E51 : b2 (-51) = 4 * b2 (-53)) by (change (-51)%Z with (2 + -53)%Z; rewrite bpow_plus; reflexivity). assert (E47 : b2 (-47) = 64 * b2 (-53)) by (change (-47)%Z with (6 + -53)%Z; rewrite bpow_plus; reflexivity). assert (E44 : b2 (-44) = 512 * b2 (-53)) by (change (-44)%Z with (9 + -53)%Z; rewrite bpow_plus; reflexivity).
  rewrite E50 in Ex, Ey. rewrite E51 in Ez. pose proof (bpow_gt_0 radix2 (-53)) as P53. pose proof (bpow_gt_0 radix2 (-200)) as P200. assert (PR : 0 < val r) by lra. assert (W : b2 200 <= b2 510) by (apply bpow_le; lia).
  assert (S53 : b2 (-53) <= / 1024 / 1024) by (replace (/ 1024 / 1024) with (b2 (-20)) by (simpl; lra); apply bpow_le; lia). pose proof pi_accuracy as PA. pose proof (COS_bound (val phi)) as CB. pose proof (SIN_bound (val phi)) as SB. pose proof (COS_bound (val theta)) as CT. pose proof (SIN_bound (val theta)) as ST.
  assert (S0 : 0 <= sin (val theta)) by (apply sin_ge_0; lra). assert (UR : 0 < b2 (-53) * val r) by (apply Rmult_lt_0_compat; lra). assert (URR : 0 < b2 (-53) * val r * val r) by (apply Rmult_lt_0_compat; lra).
  assert (A1 : forall c s, -1 <= c <= 1 -> -1 <= s <= 1 -> Rabs (val r * c * s) <= val r).
  { intros c s Hc Hs. rewrite !Rabs_mult, (Rabs_pos_eq (val r)) by lra. assert (Rabs c <= 1) by (apply Rabs_le; lra). assert (Rabs s <= 1) by (apply Rabs_le; lra). pose proof (Rabs_pos c). pose proof (Rabs_pos s). assert (Rabs c * Rabs s <= 1) by nra. assert (val r * (Rabs c * Rabs s) <= val r * 1) by (apply Rmult_le_compat_l; lra). lra. }
  pose proof (A1 _ _ CB ST) as AX. pose proof (A1 _ _ SB ST) as AY. pose proof (A1 _ 1 CT ltac:(lra)) as AZ. rewrite Rmult_1_r in AZ.
  pose proof (near_square _ _ _ (8 * b2 (-53)) PR ltac:(lra) AX Ex) as QX. pose proof (near_square _ _ _ (8 * b2 (-53)) PR ltac:(lra) AY Ey) as QY. pose proof (near_square _ _ _ (4 * b2 (-53)) PR ltac:(lra) AZ Ez) as QZ.
  set (X := val r * cos (val phi) * sin (val theta)) in *. set (Y := val r * sin (val phi) * sin (val theta)) in *. set (Zc := val r * cos (val theta)) in *.
  assert (ID : X * X + Y * Y + Zc * Zc = val r * val r).
  { transitivity (val r * val r * ((sin (val phi) ^ 2 + cos (val phi) ^ 2) * (sin (val theta) * sin (val theta)) + cos (val theta) * cos (val theta))); [unfold X, Y, Zc; ring|]. rewrite sc1. transitivity (val r * val r * (sin (val theta) ^ 2 + cos (val theta) ^ 2)); [ring|rewrite sc1; ring]. }
  set (S := val x * val x + val y * val y + val z * val z). assert (HS0 : 0 <= S) by (unfold S; pose proof (Rle_0_sqr (val x)); pose proof (Rle_0_sqr (val y)); pose proof (Rle_0_sqr (val z)); unfold Rsqr in *; lra).
  assert (HS : Rabs (S - val r * val r) <= 41 * b2 (-53) * val r * val r).
  { rewrite <- ID. unfold S. match goal with |- Rabs ?e <= _ => replace e with ((val x * val x - X * X) + ((val y * val y - Y * Y) + (val z * val z - Zc * Zc))) by ring end.
    apply Rle_trans with (1 := Rabs_triang _ _). pose proof (Rabs_triang (val y * val y - Y * Y) (val z * val z - Zc * Zc)). lra. }
  pose proof (near_root S (val r) (41 * b2 (-53)) PR ltac:(lra) HS0 HS) as HR. assert (UU : 41 * b2 (-53) * val r <= / 1024 * val r) by (apply Rmult_le_compat_r; lra).
  assert (HF : far x dzero \/ far y dzero \/ far z dzero).
  { apply (far_one x y z (val r) Fx Fy Fz ltac:(lra)). fold S. apply Rabs_le_inv in HS. assert (41 * b2 (-53) * val r * val r <= / 1024 * val r * val r) by (apply Rmult_le_compat_r; lra). assert (0 < val r * val r) by (apply Rmult_lt_0_compat; lra). lra. }
  assert (HI : forall v, In v [x; y; z; dzero; dzero; dzero] -> fin v /\ Rabs (val v) <= b2 510).
  { intros v [<- |[<- |[<- |[<- |[<- |[<- |[]]]]]]]; (split; [assumption || apply fin_zero|]); try lra; rewrite val_zero, Rabs_R0; apply bpow_ge_0. }
  pose proof (C80_radius f g x y z dzero dzero dzero HI HF) as R2. cbv zeta in R2. rewrite !val_zero, !Rminus_0_r in R2. fold S in R2. pose proof (C80_colatitude f g x y z dzero dzero dzero Ok3 HI HF) as CO.
  assert (HI2 : forall v, In v [x; y; dzero; dzero] -> fin v /\ Rabs (val v) <= b2 1022). { assert (W' : b2 510 <= b2 1022) by (apply bpow_le; lia). intros v I. destruct (HI v) as [I1 I2]; [destruct I as [I|[I|[I|[I|[]]]]]; cbn; auto 8|]. split; [exact I1|lra]. }
  pose proof (C80_longitude f g x y z dzero dzero dzero Ok1 HI2) as (LO & LF & LB & _).
  assert (LON : exists j : Z, sin (val theta) * Rabs (val (snd (cart2polar_d f x y dzero dzero)) - val phi - 2 * PI * IZR j) <= b2 (-44)).
  { destruct (Rle_or_lt (128 * b2 (-53)) (sin (val theta))) as [Q|Q].
    - set (s := sin (val theta)) in *. assert (Ps : 0 < s) by lra. assert (DL : 0 <= 8 * b2 (-53) / s <= / 16). { split; [apply Rmult_le_pos; [lra|apply Rlt_le, Rinv_0_lt_compat; lra]|]. apply Rmult_le_reg_r with s; [exact Ps|]. replace (8 * b2 (-53) / s * s) with (8 * b2 (-53)) by (field; lra). lra. }
      assert (Prs : 0 < val r * s) by (apply Rmult_lt_0_compat; lra). assert (DE : 8 * b2 (-53) / s * (val r * s) = 8 * b2 (-53) * val r) by (field; lra).
      destruct (wrapped f x y (val phi) (val r * s) (8 * b2 (-53) / s) Ok1 Ok2 Fx Fy ltac:(lra) ltac:(lra) Prs DL) as (_ & _ & j & J).
      + rewrite DE. replace (val r * s * cos (val phi)) with X by (unfold X; ring). exact Ex.
      + rewrite DE. replace (val r * s * sin (val phi)) with Y by (unfold Y; ring). exact Ey.
      + exists j. apply Rle_trans with (s * (5 * (8 * b2 (-53) / s) + 3 * b2 (-51))); [apply Rmult_le_compat_l; lra|]. replace (s * (5 * (8 * b2 (-53) / s) + 3 * b2 (-51))) with (40 * b2 (-53) + s * (3 * b2 (-51))) by (field; lra). rewrite E51, E44. assert (s * (3 * (4 * b2 (-53))) <= 1 * (3 * (4 * b2 (-53)))) by (apply Rmult_le_compat_r; lra). lra.
    - destruct (reduce (val (snd (cart2polar_d f x y dzero dzero)) - val phi)) as (j & J). exists j. rewrite E44. pose proof PI_4 as P4. apply Rle_trans with (128 * b2 (-53) * 4); [|lra]. apply Rmult_le_compat; [exact S0|apply Rabs_pos|lra|apply Rabs_le; lra]. }
  destruct (sub_zero z Fz) as [Fz' Vz]. unfold cart2sphere_d in *. cbn [fst snd] in R2, LO. set (r' := dsqrt _) in *. destruct CO as (Fr' & Pr' & BB & Fth & Bth).
  rewrite E50 in R2. assert (RR : Rabs (val r' - val r) <= 50 * b2 (-53) * val r).
  { apply Rabs_le_inv in HR, R2. apply Rabs_le. assert (8 * b2 (-53) * sqrt S <= 8 * b2 (-53) * (1025 / 1024 * val r)) by (apply Rmult_le_compat_l; lra). lra. }
  split; [exact Fr'|]. split; [rewrite E47; lra|]. rewrite LO. split; [exact LF|]. split; [exact LB|]. split; [exact LON|]. split; [exact Fth|]. split; [exact Bth|].
  assert (NE : negb (deq r' dzero) = true) by (rewrite (deq_ok r' dzero Fr' fin_zero), val_zero; destruct (Req_bool_spec (val r') 0); [lra|reflexivity]). rewrite NE in *.
  assert (BZ : Rabs (val z) <= val r') by (rewrite <- Vz; apply (BB z dzero); cbn; auto).
  assert (Q1 : Rabs (val z / val r') <= 1) by (unfold Rdiv; rewrite Rabs_mult, Rabs_inv, (Rabs_pos_eq (val r')) by lra; apply Rmult_le_reg_r with (val r'); [exact Pr'|]; rewrite Rmult_assoc, Rinv_l by lra; lra).
  assert (QF : -1 <= fl (val z / val r') <= 1). { apply Rabs_le_inv in Q1. assert (F1 : fmt 1) by exact (fmt_b2 0 ltac:(lia)). split; [replace (-1) with (- (1)) by ring; apply fl_ge; [now apply fl_fmt, fmt_opp|lra]|apply fl_le; [now apply fl_fmt|lra]]. }
  destruct (ddiv_ok (dsub z dzero) r' Fz' (Rgt_not_eq _ _ Pr')) as [Fq Vq]; [rewrite Vz; apply small_b2, Rabs_le; lra|]. rewrite Vz in Vq. destruct (Ok4 _ Fq ltac:(rewrite Vq; exact QF)) as (psi & P1 & P2 & P3). rewrite Vq in P2. set (th := g (ddiv (dsub z dzero) r')) in *.
  assert (QE : Rabs (cos (val theta) - cos psi) <= 58 * b2 (-53)).
  { rewrite P2. pose proof (fl_mixed (val z / val r')) as M. unfold u in M. change (-(53))%Z with (-53)%Z in M. assert (T : b2 (-1075) <= b2 (-53)) by (apply bpow_le; lia). assert (M' : Rabs (fl (val z / val r') - val z / val r') <= 2 * b2 (-53)) by nra.
    assert (D : Rabs (cos (val theta) - val z / val r') <= 56 * b2 (-53)).
    { apply Rmult_le_reg_r with (val r'); [exact Pr'|]. rewrite <- (Rabs_pos_eq (val r')) at 2 by lra. rewrite <- Rabs_mult. replace ((cos (val theta) - val z / val r') * val r') with ((Zc - val z) + cos (val theta) * (val r' - val r)) by (unfold Zc; field; lra).
      apply Rle_trans with (1 := Rabs_triang _ _). rewrite (Rabs_minus_sym Zc), Rabs_mult. assert (Rabs (cos (val theta)) * Rabs (val r' - val r) <= 1 * (50 * b2 (-53) * val r)) by (apply Rmult_le_compat; try apply Rabs_pos; [apply Rabs_le; lra|exact RR]).
      apply Rabs_le_inv in RR. assert (50 * b2 (-53) * val r <= / 1024 * val r) by (apply Rmult_le_compat_r; lra). assert (56 * b2 (-53) * (1023 / 1024 * val r) <= 56 * b2 (-53) * val r') by (apply Rmult_le_compat_l; lra). lra. }
    replace (cos (val theta) - fl (val z / val r')) with ((cos (val theta) - val z / val r') - (fl (val z / val r') - val z / val r')) by ring. apply Rle_trans with (1 := Rabs_triang _ _). rewrite Rabs_Ropp. lra. }
  destruct (colat_close (val theta) psi _ ltac:(lra) P1 QE) as [C1 C2]. assert (TR : Rabs (val th - val theta) <= Rabs (val theta - psi) + b2 (-51)) by (apply Rabs_le_inv in P3; apply Rabs_le; pose proof (Rle_abs (val theta - psi)); pose proof (Rle_abs (- (val theta - psi))) as N; rewrite Rabs_Ropp in N; lra).
  split.
  - assert (C3 : Rabs (val theta - psi) <= b2 (-22)). { apply Rsqr_incr_0_var; [|apply bpow_ge_0]. unfold Rsqr. apply Rle_trans with (1 := C2). rewrite <- bpow_plus. change (-22 + -22)%Z with (-44)%Z. rewrite E44. lra. }
    assert (b2 (-21) = 2 * b2 (-22)) by (change (-21)%Z with (1 + -22)%Z; rewrite bpow_plus; reflexivity). assert (b2 (-51) <= b2 (-22)) by (apply bpow_le; lia). lra.
  - apply Rle_trans with (sin (val theta) * (Rabs (val theta - psi) + b2 (-51))); [apply Rmult_le_compat_l; assumption|]. rewrite E44, E51. assert (sin (val theta) * (4 * b2 (-53)) <= 1 * (4 * b2 (-53))) by (apply Rmult_le_compat_r; lra). lra.
Qed.
Print Assumptions C96_sphere.

(** A colatitude on the unit sphere so small that its cosine is 1 comes back as
    [arccos 1]. *)
Theorem C96_pole_lost : forall cos_d sin_d arctan2 arccos phi theta, cos_d theta = dbl 1 0 -> fin (sin_d theta) -> Rabs (val (sin_d theta)) <= b2 (-28) ->
  fin (cos_d phi) -> fin (sin_d phi) -> Rabs (val (cos_d phi)) <= 1 -> Rabs (val (sin_d phi)) <= 1 ->
  let '(x, y, z) := sphere2cart_d cos_d sin_d (dbl 1 0) phi theta dzero dzero dzero in
  snd (cart2sphere_d arctan2 arccos x y z dzero dzero dzero) = arccos (dbl 1 0).
Proof.
  intros cos_d sin_d f g phi theta Ct Fs Bs Fc Fp Bc Bp. unfold sphere2cart_d, cart2sphere_d. cbn [snd]. rewrite Ct. destruct one_val as [F1 V1]. assert (M1 : fmt 1) by exact (fmt_b2 0 ltac:(lia)).
  assert (SQ : forall c, fin c -> Rabs (val c) <= 1 -> let x := dadd (dmul (dmul (dbl 1 0) c) (sin_d theta)) dzero in fin (sq (dsub x dzero)) /\ 0 <= val (sq (dsub x dzero)) <= b2 (-56)).
  { intros c F B x. destruct (scaled (dbl 1 0) c 1 F1 F M1) as (A1 & _ & A2 & _); [rewrite V1, Rabs_R1; lra|exact B|]. set (m := dmul (dbl 1 0) c) in *.
    assert (P : Rabs (val m * val (sin_d theta)) <= b2 (-28)) by (rewrite Rabs_mult; pose proof (Rabs_pos (val m)); pose proof (Rabs_pos (val (sin_d theta))); nra). assert (Q : Rabs (fl (val m * val (sin_d theta))) <= b2 (-28)). { apply Rabs_le_inv in P. assert (FB : fmt (b2 (-28))) by (apply fmt_b2; lia). apply Rabs_le. split; [apply fl_ge; [now apply fl_fmt, fmt_opp|lra]|apply fl_le; [now apply fl_fmt|lra]]. }
    destruct (dmul_ok m (sin_d theta) A1 Fs) as [D1 D2]; [apply Rle_lt_trans with (1 := Q), bpow_lt; lia|]. rewrite <- D2 in Q. destruct (add_zero _ D1) as [E1 E2]. fold x in E1, E2. destruct (sub_zero x E1) as [G1 G2]. rewrite E2 in G2. rewrite <- G2 in Q. set (w := dsub x dzero) in *.
    assert (PW : 0 <= val w * val w <= b2 (-56)) by (split; [exact (Rle_0_sqr _)|]; rewrite <- (Rabs_pos_eq (val w * val w)) by exact (Rle_0_sqr _); rewrite Rabs_mult; change (-56)%Z with (-28 + -28)%Z; rewrite bpow_plus; apply Rmult_le_compat; try apply Rabs_pos; exact Q).
    assert (QW : 0 <= fl (val w * val w) <= b2 (-56)) by (split; [apply fl_ge; [apply fl_fmt, fmt_0|lra]|apply fl_le; [apply fl_fmt, fmt_b2; lia|lra]]).
    unfold sq. destruct (dmul_ok w w G1 G1) as [H1 H2]; [apply small_b2, Rabs_le; assert (b2 (-56) <= 1) by (change 1 with (b2 0); apply bpow_le; lia); lra|]. split; [exact H1|rewrite H2; exact QW]. }
  destruct (SQ _ Fc Bc) as [X1 X2]. destruct (SQ _ Fp Bp) as [Y1 Y2]. set (a := sq _) in X1, X2 |- *. set (b := sq _) in Y1, Y2 |- *. clear SQ.
  assert (ZE : dsub (dadd (dmul (dbl 1 0) (dbl 1 0)) dzero) dzero = dbl 1 0) by (apply B2SF_inj; vm_compute; reflexivity). rewrite ZE. assert (ZS : sq (dbl 1 0) = dbl 1 0) by (apply B2SF_inj; vm_compute; reflexivity). rewrite ZS.
  assert (E55 : b2 (-55) = 2 * b2 (-56)) by (change (-55)%Z with (1 + -56)%Z; rewrite bpow_plus; reflexivity). assert (L55 : b2 (-55) <= b2 (-54)) by (apply bpow_le; lia). assert (L1 : b2 (-55) <= 1) by (change 1 with (b2 0); apply bpow_le; lia).
  assert (QS : 0 <= fl (val a + val b) <= b2 (-55)) by (split; [apply fl_ge; [apply fl_fmt, fmt_0|lra]|apply fl_le; [apply fl_fmt, fmt_b2; lia|lra]]).
  destruct (dadd_ok a b X1 Y1) as [S1 S2]; [apply small_b2, Rabs_le; lra|]. rewrite <- S2 in QS. assert (NX : fl (val (dadd a b) + val (dbl 1 0)) = 1) by (rewrite V1, Rplus_comm; apply next_to_one; lra).
  destruct (dadd_ok (dadd a b) (dbl 1 0) S1 F1) as [T1 T2]; [rewrite NX; apply small_b2, Rabs_le; lra|]. rewrite NX in T2. apply one_only in T2. rewrite T2.
  assert (RE : dsqrt (dbl 1 0) = dbl 1 0) by (apply B2SF_inj; vm_compute; reflexivity). rewrite RE. assert (DE : ddiv (dbl 1 0) (dbl 1 0) = dbl 1 0) by (apply B2SF_inj; vm_compute; reflexivity). rewrite DE. assert (NE : negb (deq (dbl 1 0) dzero) = true) by (vm_compute; reflexivity). rewrite NE. reflexivity.
Qed.
Print Assumptions C96_pole_lost.

(** So a point [2^-30] from the pole comes back at the pole, for a library that
    meets all the accuracies assumed. *)
Theorem C96_pole_refuted : exists cos_d sin_d arctan2 arccos theta, near_on_circle cos cos_d /\ near_on_circle sin sin_d /\ arctan2_ok arctan2 /\ near_arctan2 arctan2 /\ arccos_ok arccos /\ near_arccos arccos /\
  fin theta /\ val theta = b2 (-30) /\ forall phi, fin phi -> Rabs (val phi) <= 8 ->
  let '(x, y, z) := sphere2cart_d cos_d sin_d (dbl 1 0) phi theta dzero dzero dzero in
  val (snd (cart2sphere_d arctan2 arccos x y z dzero dzero dzero)) = 0.
Proof.
  exists cos_l, sin_l, arctan2_l, arccos_l, (dbl 1 (-30)). destruct libm_l as (_ & Nc & Ns & _ & O1 & O2 & O3 & O4). do 6 (split; [assumption|]). destruct (dbl_ok 1 (-30) ltac:(lia) ltac:(lia)) as [F V]. rewrite Rmult_1_l in V. split; [exact F|]. split; [exact V|]. intros phi Fp Hp.
  assert (SM : b2 (-30) <= / 1024) by (change (/ 1024) with (b2 (-10)); apply bpow_le; lia). pose proof (bpow_gt_0 radix2 (-30)) as P30. destruct (Nc phi Fp Hp) as (A1 & A2 & _). destruct (Ns phi Fp Hp) as (B1 & B2 & _). destruct (Ns (dbl 1 (-30)) F ltac:(rewrite V; apply Rabs_le; lra)) as (C1 & _ & C2). rewrite V in C2.
  assert (SB : 0 <= sin (b2 (-30)) <= b2 (-30)) by (split; [apply sin_ge_0; pose proof PI2_1; lra|apply Rlt_le, sin_lt_x; lra]).
  assert (E : cos_l (dbl 1 (-30)) = dbl 1 0).
  { unfold cos_l, multiple. rewrite V. assert (N : ZnearestE (cos (b2 (-30)) * b2 53) = (2 ^ 53)%Z).
    { apply Znearest_imp. change (IZR (2 ^ 53)) with (b2 53). pose proof (COS_bound (b2 (-30))) as CB. pose proof (cos_2a_sin (b2 (-30) / 2)) as D. replace (2 * (b2 (-30) / 2)) with (b2 (-30)) in D by field.
      assert (SH : 0 <= sin (b2 (-30) / 2) <= b2 (-30) / 2) by (split; [apply sin_ge_0; pose proof PI2_1; lra|apply Rlt_le, sin_lt_x; lra]). assert (SS : sin (b2 (-30) / 2) * sin (b2 (-30) / 2) <= b2 (-30) / 2 * (b2 (-30) / 2)) by (apply Rmult_le_compat; lra).
      assert (Q : b2 (-30) * b2 (-30) * b2 53 <= / 4). { rewrite <- !bpow_plus. change (/ 4) with (b2 (-2)). apply bpow_le. lia. } pose proof (bpow_gt_0 radix2 53) as P5. assert (L : (1 - cos (b2 (-30))) * b2 53 <= b2 (-30) * b2 (-30) / 2 * b2 53) by (apply Rmult_le_compat_r; lra). assert (U : 0 <= (1 - cos (b2 (-30))) * b2 53) by (apply Rmult_le_pos; lra). apply Rabs_lt. lra. }
    rewrite N. apply B2SF_inj. vm_compute. reflexivity. }
  pose proof (C96_pole_lost cos_l sin_l arctan2_l arccos_l phi (dbl 1 (-30)) E C1) as L. destruct (sphere2cart_d cos_l sin_l (dbl 1 0) phi (dbl 1 (-30)) dzero dzero dzero) as [[x y] z]. rewrite L; try assumption; try (apply Rabs_le; assumption).
  - destruct one_val as [_ V1]. unfold arccos_l. rewrite V1, Rabs_R1, Rle_bool_true by lra. rewrite acos_1. unfold multiple. rewrite Rmult_0_l. replace (ZnearestE 0) with 0%Z by (symmetry; apply Znearest_imp; rewrite Rminus_0_r, Rabs_R0; lra). destruct (dbl_ok 0 (- (50)) ltac:(lia) ltac:(lia)) as [_ ->]. lra.
  - apply Rabs_le_inv in C2. apply Rabs_le. assert (E28 : b2 (-28) = 4 * b2 (-30)) by (change (-28)%Z with (2 + -30)%Z; rewrite bpow_plus; reflexivity). assert (b2 (-52) <= b2 (-30)) by (apply bpow_le; lia). lra.
Qed.
Print Assumptions C96_pole_refuted.

(** A centre far away takes the point with it. *)
Theorem C96_centre_refuted : exists r c, val r = 1 /\ fin c /\ forall cos_d sin_d arctan2 phi, near_on_circle cos cos_d -> near_on_circle sin sin_d -> fin phi -> Rabs (val phi) <= 8 ->
  let '(x, y) := polar2cart_d cos_d sin_d r phi c c in
  val (fst (cart2polar_d arctan2 x y c c)) = 0.
Proof.
  destruct one_val as [F1 V1]. destruct (dbl_ok 1 60 ltac:(lia) ltac:(lia)) as [F6 V6]. rewrite Rmult_1_l in V6. exists (dbl 1 0), (dbl 1 60). split; [exact V1|]. split; [exact F6|].
  intros cos_d sin_d f phi Nc Ns Fp Hp. unfold polar2cart_d, cart2polar_d. cbn [fst].
  assert (G : forall g gd, near_on_circle g gd -> dadd (dmul (dbl 1 0) (gd phi)) (dbl 1 60) = dbl 1 60).
  { intros g gd N. destruct (N phi Fp Hp) as (A & B & _). assert (B' : Rabs (val (gd phi)) <= 1) by (apply Rabs_le; exact B). assert (M1 : fmt 1) by exact (fmt_b2 0 ltac:(lia)). destruct (scaled (dbl 1 0) (gd phi) 1 F1 A M1) as (C1 & _ & C2 & _); [rewrite V1, Rabs_R1; lra|exact B'|]. set (m := dmul (dbl 1 0) (gd phi)) in *. apply Rabs_le_inv in C2.
    assert (FB : fmt (b2 60)) by (apply fmt_b2; lia). assert (Q : fl (val m + val (dbl 1 60)) = b2 60).
    { rewrite V6. pose proof (bpow_gt_0 radix2 60) as P6. apply Rle_antisym.
      - apply round_N_le_midp; [apply FLT_exp_valid; reflexivity|exact FB|]. rewrite succ_eq_pos by lra. rewrite ulp_bpow. change (FLT_exp (-1074) 53 (60 + 1)) with 8%Z. change (b2 8) with 256. lra.
      - apply round_N_ge_midp; [apply FLT_exp_valid; reflexivity|exact FB|]. rewrite pred_bpow. change (FLT_exp (-1074) 53 60) with 7%Z. change (b2 7) with 128. lra. }
    assert (L : b2 60 < b2 1024) by (apply bpow_lt; lia). destruct (dadd_ok m (dbl 1 60) C1 F6) as [D1 D2]; [rewrite Q, Rabs_pos_eq by apply bpow_ge_0; exact L|]. rewrite Q, <- V6 in D2.
    assert (S : forall t : binary_float 53 1024, val t = b2 60 -> is_finite_strict t = true) by (intros t; pose proof (bpow_gt_0 radix2 60); unfold val; destruct t; cbn -[bpow]; intros; lra || reflexivity). apply B2R_inj; [apply S; congruence|apply S, V6|exact D2]. }
  rewrite (G cos cos_d Nc), (G sin sin_d Ns). assert (E : B2SF (dsqrt (dadd (sq (dsub (dbl 1 60) (dbl 1 60))) (sq (dsub (dbl 1 60) (dbl 1 60))))) = SpecFloat.S754_zero false) by (vm_compute; reflexivity). set (w := dsqrt _) in *. unfold val. destruct w; try discriminate. reflexivity.
Qed.
Print Assumptions C96_centre_refuted.

Lemma angle_there : forall arctan2 x y, arctan2_ok arctan2 -> near_arctan2 arctan2 -> fin x -> fin y -> Rabs (val x) <= b2 510 -> Rabs (val y) <= b2 510 ->
  let back := snd (cart2polar_d arctan2 x y dzero dzero) in
  fin back /\ 0 <= val back <= tau /\ exists psi, angle_of (val x) (val y) psi /\ Rabs (val back - psi) <= 3 * b2 (-51).
Proof.
  intros f x y Ok1 Ok2 Fx Fy Bx By back. assert (W : b2 510 <= b2 1022) by (apply bpow_le; lia).
  destruct (C80_longitude f (fun _ => dzero) x y dzero dzero dzero dzero Ok1) as (_ & F & B & _ & E).
  { intros v [<- |[<- |[<- |[<- |[]]]]]; (split; [assumption || apply fin_zero|]); try lra; rewrite val_zero, Rabs_R0; apply bpow_ge_0. }
  fold back in F, B, E. split; [exact F|]. split; [exact B|]. destruct (sub_zero x Fx) as [F1 V1]. destruct (sub_zero y Fy) as [F2 V2]. destruct (Ok2 _ _ F2 F1) as (psi & A & A3). rewrite V1, V2 in A. set (a := f (dsub y dzero) (dsub x dzero)) in *.
  pose proof pi_accuracy as PA. assert (B51 : b2 (-51) = 2 * b2 (-52)) by (change (-51)%Z with (1 + -52)%Z; rewrite bpow_plus; reflexivity). apply Rabs_le_inv in A3. destruct (Rlt_dec (val a) 0) as [N|N]; apply Rabs_le_inv in E.
  - exists (psi + 2 * PI). split; [unfold angle_of in *; rewrite cos_2PI_shift, sin_2PI_shift; exact A|]. apply Rabs_le. lra.
  - exists psi. split; [exact A|]. apply Rabs_le. lra.
Qed.

(** Cartesian coordinates to spherical coordinates and back: [z] keeps its
    digits, [x] and [y] do so away from the axis, and near it they are good to
    [2^-21] of the distance from the centre only. *)
Theorem C96_cart : forall cos_d sin_d arctan2 arccos x y z, near_on_circle cos cos_d -> near_on_circle sin sin_d ->
  arctan2_ok arctan2 -> near_arctan2 arctan2 -> arccos_ok arccos -> near_arccos arccos -> fin x -> fin y -> fin z ->
  let rho := sqrt (val x * val x + val y * val y + val z * val z) in
  let axis := sqrt (val x * val x + val y * val y) in
  b2 (-190) <= rho <= b2 190 ->
  let '(r, phi, theta) := cart2sphere_d arctan2 arccos x y z dzero dzero dzero in
  let '(x', y', z') := sphere2cart_d cos_d sin_d r phi theta dzero dzero dzero in
  fin x' /\ fin y' /\ fin z' /\ Rabs (val z' - val z) <= b2 (-48) * rho /\
  Rabs (val x' - val x) <= b2 (-21) * rho /\ Rabs (val y' - val y) <= b2 (-21) * rho /\
  axis * Rabs (val x' - val x) <= b2 (-46) * rho * rho /\ axis * Rabs (val y' - val y) <= b2 (-46) * rho * rho.
Proof.
  intros cos_d sin_d f g x y z Nc Ns Ok1 Ok2 Ok3 Ok4 Fx Fy Fz rho h Hr. pose proof tau_bounds as TB. pose proof (bpow_gt_0 radix2 (-53)) as P53. pose proof (bpow_gt_0 radix2 (-190)) as P190. assert (Pr : 0 < rho) by lra. pose proof pi_accuracy as PA.
  assert (E50 : b2 (-50) = 8 * b2 (-53)) by (change (-50)%Z with (3 + -53)%Z; rewrite bpow_plus; reflexivity). assert (E51 : b2 (-51) = 4 * b2 (-53)) by (change (-51)%Z with (2 + -53)%Z; rewrite bpow_plus; reflexivity). assert (E48 : b2 (-48) = 32 * b2 (-53)) by (change (-48)%Z with (5 + -53)%Z; rewrite bpow_plus; reflexivity). assert (E46 : b2 (-46) = 128 * b2 (-53)) by (change (-46)%Z with (7 + -53)%Z; rewrite bpow_plus; reflexivity).
  assert (S53 : b2 (-53) <= / 1024 / 1024) by (replace (/ 1024 / 1024) with (b2 (-20)) by (simpl; lra); apply bpow_le; lia). pose proof (Rle_0_sqr (val x)) as X0. pose proof (Rle_0_sqr (val y)) as Y0. pose proof (Rle_0_sqr (val z)) as Z0. unfold Rsqr in X0, Y0, Z0.
  assert (QR : rho * rho = val x * val x + val y * val y + val z * val z) by (apply sqrt_sqrt; lra). assert (QH : h * h = val x * val x + val y * val y) by (apply sqrt_sqrt; lra). assert (H0 : 0 <= h) by apply sqrt_pos.
  assert (LE : forall v, v * v <= rho * rho -> Rabs v <= rho) by (intros v H; apply Rabs_le; assert (Rsqr v <= Rsqr rho) by exact H; split; [apply Rsqr_neg_pos_le_0; [assumption|lra]|apply Rsqr_incr_0_var; [assumption|lra]]).
  assert (BX : Rabs (val x) <= rho) by (apply LE; lra). assert (BY : Rabs (val y) <= rho) by (apply LE; lra). assert (BZ : Rabs (val z) <= rho) by (apply LE; lra). assert (BH : h <= rho) by (rewrite <- (Rabs_pos_eq h H0); apply LE; lra).
  assert (W : b2 190 <= b2 510) by (apply bpow_le; lia). assert (HF : far x dzero \/ far y dzero \/ far z dzero). { apply (far_one x y z rho Fx Fy Fz); [apply Rle_trans with (b2 (-190)); [apply bpow_le; lia|lra]|]. rewrite <- QR. assert (0 < rho * rho) by (apply Rmult_lt_0_compat; lra). lra. }
  assert (HI : forall v, In v [x; y; z; dzero; dzero; dzero] -> fin v /\ Rabs (val v) <= b2 510).
  { intros v [<- |[<- |[<- |[<- |[<- |[<- |[]]]]]]]; (split; [assumption || apply fin_zero|]); try lra; rewrite val_zero, Rabs_R0; apply bpow_ge_0. }
  pose proof (C80_radius f g x y z dzero dzero dzero HI HF) as R2. cbv zeta in R2. rewrite !val_zero, !Rminus_0_r in R2. fold rho in R2. pose proof (C80_colatitude f g x y z dzero dzero dzero Ok3 HI HF) as CO.
  destruct (angle_there f x y Ok1 Ok2 Fx Fy ltac:(lra) ltac:(lra)) as (LF & LB & psi & [PX PY] & LE2). fold h in PX, PY. unfold cart2polar_d in LF, LB, LE2. cbn [snd] in LF, LB, LE2.
  destruct (sub_zero z Fz) as [Fz' Vz]. unfold cart2sphere_d in *. cbn [fst snd] in R2. set (r := dsqrt _) in *. set (phi := wrap _) in *. destruct CO as (Fr & Pr' & BB & Fth & Bth). rewrite E50 in R2.
  assert (NE : negb (deq r dzero) = true) by (rewrite (deq_ok r dzero Fr fin_zero), val_zero; destruct (Req_bool_spec (val r) 0); [lra|reflexivity]). rewrite NE in *.
  assert (BZ' : Rabs (val z) <= val r) by (rewrite <- Vz; apply (BB z dzero); cbn; auto).
  assert (Q1 : Rabs (val z / val r) <= 1) by (unfold Rdiv; rewrite Rabs_mult, Rabs_inv, (Rabs_pos_eq (val r)) by lra; apply Rmult_le_reg_r with (val r); [exact Pr'|]; rewrite Rmult_assoc, Rinv_l by lra; lra).
  assert (QF : -1 <= fl (val z / val r) <= 1). { apply Rabs_le_inv in Q1. assert (F1 : fmt 1) by exact (fmt_b2 0 ltac:(lia)). split; [replace (-1) with (- (1)) by ring; apply fl_ge; [now apply fl_fmt, fmt_opp|lra]|apply fl_le; [now apply fl_fmt|lra]]. }
  destruct (ddiv_ok (dsub z dzero) r Fz' (Rgt_not_eq _ _ Pr')) as [Fq Vq]; [rewrite Vz; apply small_b2, Rabs_le; lra|]. rewrite Vz in Vq. destruct (Ok4 _ Fq ltac:(rewrite Vq; exact QF)) as (om & P1 & P2 & P3). rewrite Vq in P2. set (th := g (ddiv (dsub z dzero) r)) in *.
  assert (UR : 0 < b2 (-53) * rho) by (apply Rmult_lt_0_compat; lra). assert (R8 : 8 * b2 (-53) * rho <= / 1024 * rho) by (apply Rmult_le_compat_r; lra). assert (RB : 1023 / 1024 * rho <= val r <= 1025 / 1024 * rho) by (apply Rabs_le_inv in R2; lra).
  assert (C1 : -1 <= val z / rho <= 1). { apply Rabs_le_inv in BZ. split; apply Rmult_le_reg_r with rho; try exact Pr; unfold Rdiv; rewrite Rmult_assoc, Rinv_l by lra; lra. }
  set (Th := acos (val z / rho)). pose proof (acos_bound (val z / rho)) as TH. fold Th in TH. assert (CT : cos Th = val z / rho) by (apply cos_acos; exact C1). assert (CT' : rho * cos Th = val z) by (rewrite CT; field; lra).
  assert (S0 : 0 <= sin Th) by (apply sin_ge_0; lra). assert (ST : rho * sin Th = h). { apply Rsqr_inj; [apply Rmult_le_pos; lra|exact H0|]. unfold Rsqr. rewrite QH. pose proof (sc1 Th) as U. assert (U2 : rho * rho * (sin Th ^ 2 + cos Th ^ 2) = rho * rho * 1) by (rewrite U; reflexivity). assert (rho * cos Th * (rho * cos Th) = val z * val z) by (rewrite CT'; reflexivity). lra. }
  assert (QE : Rabs (cos Th - cos om) <= 11 * b2 (-53)).
  { rewrite P2, CT. pose proof (fl_mixed (val z / val r)) as M. unfold u in M. change (-(53))%Z with (-53)%Z in M. assert (T : b2 (-1075) <= b2 (-53)) by (apply bpow_le; lia). assert (M' : Rabs (fl (val z / val r) - val z / val r) <= 2 * b2 (-53)) by nra.
    assert (D : Rabs (val z / rho - val z / val r) <= 9 * b2 (-53)).
    { apply Rmult_le_reg_r with (val r); [exact Pr'|]. rewrite <- (Rabs_pos_eq (val r)) at 2 by lra. rewrite <- Rabs_mult. replace ((val z / rho - val z / val r) * val r) with (val z / rho * (val r - rho)) by (field; lra). rewrite Rabs_mult.
      assert (Rabs (val z / rho) * Rabs (val r - rho) <= 1 * (8 * b2 (-53) * rho)) by (apply Rmult_le_compat; try apply Rabs_pos; [apply Rabs_le; lra|exact R2]). assert (9 * b2 (-53) * (1023 / 1024 * rho) <= 9 * b2 (-53) * val r) by (apply Rmult_le_compat_l; lra). lra. }
    replace (val z / rho - fl (val z / val r)) with ((val z / rho - val z / val r) - (fl (val z / val r) - val z / val r)) by ring. apply Rle_trans with (1 := Rabs_triang _ _). rewrite Rabs_Ropp. lra. }
  destruct (colat_close Th om _ TH P1 QE) as [K1 K2]. assert (K3 : Rabs (Th - om) <= b2 (-23)). { apply Rsqr_incr_0_var; [|apply bpow_ge_0]. unfold Rsqr. apply Rle_trans with (1 := K2). rewrite <- bpow_plus. change (-23 + -23)%Z with (-46)%Z. rewrite E46. lra. }
  set (D := Rabs (val th - Th)). rewrite E51 in P3, LE2. assert (D1 : D <= Rabs (Th - om) + 4 * b2 (-53)). { unfold D. replace (val th - Th) with ((val th - om) - (Th - om)) by ring. apply Rle_trans with (1 := Rabs_triang _ _). rewrite Rabs_Ropp. lra. }
  assert (D0 : 0 <= D) by apply Rabs_pos. assert (SB : sin Th <= 1) by apply SIN_bound. assert (D2 : sin Th * D <= 48 * b2 (-53)). { apply Rle_trans with (sin Th * (Rabs (Th - om) + 4 * b2 (-53))); [apply Rmult_le_compat_l; assumption|]. assert (sin Th * (4 * b2 (-53)) <= 1 * (4 * b2 (-53))) by (apply Rmult_le_compat_r; lra). lra. }
  assert (E21 : b2 (-21) = 4 * b2 (-23)) by (change (-21)%Z with (2 + -23)%Z; rewrite bpow_plus; reflexivity). assert (SM : 64 * b2 (-53) <= b2 (-23)) by (change 64 with (b2 6); rewrite <- bpow_plus; apply bpow_le; lia).
  assert (GR : b2 (-200) <= val r <= b2 200). { split; [apply Rle_trans with (/ 2 * b2 (-190)); [change (/ 2) with (b2 (-1)); rewrite <- bpow_plus; apply bpow_le; lia|lra]|apply Rle_trans with (2 * b2 190); [lra|change 2 with (b2 1); rewrite <- bpow_plus; apply bpow_le; lia]]. }
  pose proof (C96_sphere_points cos_d sin_d r phi th Nc Ns Fr GR LF ltac:(apply Rabs_le; lra) Fth ltac:(apply Rabs_le; lra)) as PT. destruct (sphere2cart_d cos_d sin_d r phi th dzero dzero dzero) as [[x' y'] z']. destruct PT as ((Gx & _ & Ex) & (Gy & _ & Ey) & (Gz & _ & Ez)). rewrite E50 in Ex, Ey. rewrite E51 in Ez.
  split; [exact Gx|]. split; [exact Gy|]. split; [exact Gz|]. assert (RV : 8 * b2 (-53) * val r <= 8 * b2 (-53) * (1025 / 1024 * rho)) by (apply Rmult_le_compat_l; lra).
  assert (FLAT : forall c C v v', v = h * C -> -1 <= C <= 1 -> -1 <= c <= 1 -> Rabs (c - C) <= 12 * b2 (-53) -> Rabs (v' - val r * c * sin (val th)) <= 8 * b2 (-53) * val r -> Rabs (v' - v) <= (29 * b2 (-53) + D) * rho).
  { intros c C v v' Ev BC Bc Hc Hv. subst v. rewrite <- ST. pose proof (SIN_bound (val th)) as SBt. replace (v' - rho * sin Th * C) with ((v' - val r * c * sin (val th)) + ((val r - rho) * (c * sin (val th)) + (rho * (c * (sin (val th) - sin Th)) + rho * (sin Th * (c - C))))) by ring.
    assert (AC : Rabs c <= 1) by (apply Rabs_le; lra). assert (AS : Rabs (sin (val th)) <= 1) by (apply Rabs_le; lra). pose proof (Rabs_pos c). pose proof (Rabs_pos (sin (val th))). pose proof (sin_lip (val th) Th) as LP. fold D in LP.
    pose proof (Rabs_triang (v' - val r * c * sin (val th)) ((val r - rho) * (c * sin (val th)) + (rho * (c * (sin (val th) - sin Th)) + rho * (sin Th * (c - C))))) as T1. pose proof (Rabs_triang ((val r - rho) * (c * sin (val th))) (rho * (c * (sin (val th) - sin Th)) + rho * (sin Th * (c - C)))) as T2. pose proof (Rabs_triang (rho * (c * (sin (val th) - sin Th))) (rho * (sin Th * (c - C)))) as T3.
    assert (U1 : Rabs ((val r - rho) * (c * sin (val th))) <= 8 * b2 (-53) * rho * 1) by (rewrite Rabs_mult; apply Rmult_le_compat; try apply Rabs_pos; [exact R2|rewrite Rabs_mult; nra]).
    assert (U2 : Rabs (rho * (c * (sin (val th) - sin Th))) <= rho * (1 * D)) by (rewrite Rabs_mult, (Rabs_pos_eq rho) by lra; apply Rmult_le_compat_l; [lra|]; rewrite Rabs_mult; apply Rmult_le_compat; try apply Rabs_pos; assumption).
    assert (U3 : Rabs (rho * (sin Th * (c - C))) <= rho * (1 * (12 * b2 (-53)))) by (rewrite Rabs_mult, (Rabs_pos_eq rho) by lra; apply Rmult_le_compat_l; [lra|]; rewrite Rabs_mult, (Rabs_pos_eq (sin Th)) by lra; apply Rmult_le_compat; try apply Rabs_pos; lra). lra. }
  assert (FX : Rabs (val x' - val x) <= (29 * b2 (-53) + D) * rho) by (apply (FLAT (cos (val phi)) (cos psi)); [exact PX|apply COS_bound|apply COS_bound|apply Rle_trans with (1 := cos_lip _ _); lra|exact Ex]).
  assert (FY : Rabs (val y' - val y) <= (29 * b2 (-53) + D) * rho) by (apply (FLAT (sin (val phi)) (sin psi)); [exact PY|apply SIN_bound|apply SIN_bound|apply Rle_trans with (1 := sin_lip _ _); lra|exact Ey]).
  assert (TOT : (29 * b2 (-53) + D) * rho <= b2 (-21) * rho) by (apply Rmult_le_compat_r; lra). assert (AX : h * ((29 * b2 (-53) + D) * rho) <= b2 (-46) * rho * rho). { rewrite <- ST, E46. replace (rho * sin Th * ((29 * b2 (-53) + D) * rho)) with ((sin Th * (29 * b2 (-53)) + sin Th * D) * rho * rho) by ring. apply Rmult_le_compat_r; [lra|]. apply Rmult_le_compat_r; [lra|]. assert (sin Th * (29 * b2 (-53)) <= 1 * (29 * b2 (-53))) by (apply Rmult_le_compat_r; lra). lra. }
  split; [|split; [lra|split; [lra|split; (apply Rle_trans with (h * ((29 * b2 (-53) + D) * rho)); [apply Rmult_le_compat_l; assumption|exact AX])]]].
  rewrite E48, <- CT'. replace (val z' - rho * cos Th) with ((val z' - val r * cos (val th)) + ((val r - rho) * cos (val th) + rho * ((cos (val th) - cos om) + (cos om - cos Th)))) by ring. pose proof (COS_bound (val th)) as CBt.
  pose proof (Rabs_triang (val z' - val r * cos (val th)) ((val r - rho) * cos (val th) + rho * ((cos (val th) - cos om) + (cos om - cos Th)))) as T1. pose proof (Rabs_triang ((val r - rho) * cos (val th)) (rho * ((cos (val th) - cos om) + (cos om - cos Th)))) as T2. pose proof (Rabs_triang (cos (val th) - cos om) (cos om - cos Th)) as T3. rewrite (Rabs_minus_sym (cos om)) in T3. pose proof (cos_lip (val th) om) as LP.
  assert (U1 : Rabs ((val r - rho) * cos (val th)) <= 8 * b2 (-53) * rho * 1) by (rewrite Rabs_mult; apply Rmult_le_compat; try apply Rabs_pos; [exact R2|apply Rabs_le; lra]).
  assert (U2 : Rabs (rho * ((cos (val th) - cos om) + (cos om - cos Th))) <= rho * (15 * b2 (-53))) by (rewrite Rabs_mult, (Rabs_pos_eq rho) by lra; apply Rmult_le_compat_l; lra). lra.
Qed.
Print Assumptions C96_cart.

Lemma multiple_0 : forall k, (0 <= k <= 1000)%Z -> fin (multiple k 0) /\ val (multiple k 0) = 0.
Proof.
  intros k Hk. unfold multiple. rewrite Rmult_0_l. replace (ZnearestE 0) with 0%Z by (symmetry; apply Znearest_imp; rewrite Rminus_0_r, Rabs_R0; lra). destruct (dbl_ok 0 (- k) ltac:(lia) ltac:(lia)) as [F V]. split; [exact F|]. rewrite V. lra.
Qed.

(** A point next to the axis comes back on the axis. *)
Theorem C96_axis_refuted : exists cos_d sin_d arctan2 arccos x z, near_on_circle cos cos_d /\ near_on_circle sin sin_d /\ arctan2_ok arctan2 /\ near_arctan2 arctan2 /\ arccos_ok arccos /\ near_arccos arccos /\
  fin x /\ val x = b2 (-30) /\ fin z /\ val z = 1 /\
  let '(r, phi, theta) := cart2sphere_d arctan2 arccos x dzero z dzero dzero dzero in
  let '(x', y', z') := sphere2cart_d cos_d sin_d r phi theta dzero dzero dzero in val x' = 0.
Proof.
  exists cos_l, sin_l, arctan2_l, arccos_l, (dbl 1 (-30)), (dbl 1 0). destruct libm_l as (_ & Nc & Ns & _ & O1 & O2 & O3 & O4). do 6 (split; [assumption|]). destruct (dbl_ok 1 (-30) ltac:(lia) ltac:(lia)) as [F V]. rewrite Rmult_1_l in V. destruct one_val as [F1 V1]. do 4 (split; [assumption|]).
  destruct (angle_there arctan2_l (dbl 1 (-30)) dzero O1 O2 F fin_zero) as (LF & LB & _); [rewrite V, Rabs_pos_eq by apply bpow_ge_0; apply bpow_le; lia|rewrite val_zero, Rabs_R0; apply bpow_ge_0|]. unfold cart2polar_d in LF, LB. cbn [snd] in LF, LB.
  unfold cart2sphere_d. set (r := dsqrt _). assert (RE : r = dbl 1 0) by (apply B2SF_inj; vm_compute; reflexivity). clearbody r. subst r. set (phi := wrap _) in *. assert (NE : negb (deq (dbl 1 0) dzero) = true) by (vm_compute; reflexivity). rewrite NE. assert (DE : ddiv (dsub (dbl 1 0) dzero) (dbl 1 0) = dbl 1 0) by (apply B2SF_inj; vm_compute; reflexivity). rewrite DE. unfold sphere2cart_d.
  assert (TH : fin (arccos_l (dbl 1 0)) /\ val (arccos_l (dbl 1 0)) = 0) by (unfold arccos_l; rewrite V1, Rabs_R1, Rle_bool_true by lra; rewrite acos_1; apply multiple_0; lia). destruct TH as [FT VT]. set (th := arccos_l (dbl 1 0)) in *. clearbody th.
  assert (SN : fin (sin_l th) /\ val (sin_l th) = 0) by (unfold sin_l; rewrite VT, sin_0; apply multiple_0; lia). destruct SN as [FS VS]. set (s := sin_l th) in *. clearbody s. pose proof tau_bounds as TB. assert (P2 : b2 (-200) <= val (dbl 1 0)) by (rewrite V1; change 1 with (b2 0); apply bpow_le; lia).
  destruct (arm cos cos_l (dbl 1 0) phi Nc F1 P2 LF ltac:(apply Rabs_le; lra)) as (A1 & A2 & _). set (m := dmul (dbl 1 0) (cos_l phi)) in *. assert (Z : fl (val m * val s) = 0) by (rewrite VS, Rmult_0_r; apply fl_fmt, fmt_0). destruct (dmul_ok m s A1 FS) as [B1 B2]; [rewrite Z; apply small_b2; rewrite Rabs_R0; lra|]. destruct (add_zero _ B1) as [_ E]. unfold double in *. rewrite E, B2. exact Z.
Qed.
Print Assumptions C96_axis_refuted.

(** Non-trivial: there is a library that meets all the accuracies, and a point
    in the range accepted. *)
Example C96_example : exists cos_d sin_d arctan2 arccos r theta, near_on_circle cos cos_d /\ near_on_circle sin sin_d /\ arctan2_ok arctan2 /\ near_arctan2 arctan2 /\ arccos_ok arccos /\ near_arccos arccos /\
  fin r /\ b2 (-200) <= val r <= b2 200 /\ fin theta /\ 0 < val theta <= tau / 2 /\
  b2 (-190) <= sqrt (val r * val r + val r * val r + val r * val r) <= b2 190.
Proof.
  exists cos_l, sin_l, arctan2_l, arccos_l, (dbl 3 0), (dbl 3 (-1)). destruct libm_l as (_ & Nc & Ns & _ & O1 & O2 & O3 & O4). do 6 (split; [assumption|]). destruct (dbl_ok 3 0 ltac:(lia) ltac:(lia)) as [F V]. destruct (dbl_ok 3 (-1) ltac:(lia) ltac:(lia)) as [F2 V2]. change (b2 0) with 1 in V. change (b2 (-1)) with (/ 2) in V2. pose proof tau_bounds as TB.
  assert (S : b2 (-190) <= 1 /\ b2 (-200) <= 1) by (change 1 with (b2 0); split; apply bpow_le; lia). assert (T : 1024 <= b2 190 /\ 1024 <= b2 200) by (change 1024 with (b2 10); split; apply bpow_le; lia).
  split; [exact F|]. split; [lra|]. split; [exact F2|]. split; [lra|]. split.
  - apply Rle_trans with 1; [lra|]. rewrite <- sqrt_1 at 1. apply sqrt_le_1_alt. rewrite V. lra.
  - apply Rle_trans with (sqrt (1024 * 1024)); [apply sqrt_le_1_alt; rewrite V; lra|]. rewrite sqrt_square by lra. lra.
Qed.
