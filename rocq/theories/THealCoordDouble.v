(** * C98: the HEALPix projection in double precision

    [tau / 2] is the double [np.pi], so [np.pi/4] is [tau / 8] and [np.pi/2] is
    [tau / 4].  The C library [cos] and [arccos] are any functions within a unit in
    the last place or so of the true ones ([near_on_circle], [near_arccos] of
    [SpecCoordsDouble.v]). *)

From Coq Require Import Reals ZArith List Bool Lia Lra.
From Flocq Require Import Core IEEE754.BinarySingleNaN.
From Verif Require Import Base BaseP MHealpixFloat PHealpixFloat SpecDouble SpecCoordsDouble MDouble PDouble PPiDouble PSumDouble MGridsDouble PGridsDouble MRemapDouble PRemapDouble2 MRandomsDouble PRandomsDouble PLibmDouble PTripDouble MHealCoordDouble PHealCoordDouble PHealCoordDouble2 PHealCoordDouble3 PHealCoordDouble4.
Import ListNotations.
Open Scope R_scope.

(** The sphere of a point of the plane.  In the belt the longitude is the abscissa
    itself, to the last bit. *)
Theorem C98_belt_sky : forall arccosd x y, near_arccos arccosd -> fin y -> Rabs (val y) <= tau / 8 ->
  fst (xy2ang_d arccosd x y) = x /\
  exists psi, 0 <= psi <= PI /\ cos psi = 8 * val y / (3 * PI) /\ Rabs (val (snd (xy2ang_d arccosd x y)) - psi) <= b2 (-48).
Proof.
  intros arccosd x y HA Fy Hy. destruct (back_belt arccosd x y HA Fy Hy) as (_ & E & _). split; [exact E|]. destruct (belt_back arccosd y HA Fy Hy) as (psi & I & C & D). exists psi. split; [exact I|]. split; [exact C|].
  destruct (abs_ok y Fy) as [Fa Va]. destruct quarter_val as [Fq Vq]. unfold xy2ang_d. replace (dle (abs_d y) quarter_pi) with true; [exact D|]. symmetry. etransitivity; [exact (dle_ok _ _ Fa Fq)|]. rewrite Va, Vq. apply Rle_bool_true. exact Hy.
Qed.
Print Assumptions C98_belt_sky.

(** In the caps the result is the exact image of a point [(x', pi s / 4)] close to
    the one given, apart from the rounding of the colatitude. *)
Theorem C98_cap_sky : forall arccosd x y, near_arccos arccosd -> fin x -> 0 <= val x <= 8 -> fin y -> tau / 8 < Rabs (val y) < tau / 4 ->
  exists sg s psi, (sg = 1 \/ sg = -1) /\ val y = sg * Rabs (val y) /\ 1 <= s <= 2 /\ Rabs (s - 4 * Rabs (val y) / PI) <= b2 (-51) /\
    0 <= psi <= PI /\ cos psi = sg * (1 - (2 - s) * (2 - s) / 3) /\
    sin psi * Rabs (val (snd (xy2ang_d arccosd x y)) - psi) <= b2 (-49) /\ Rabs (val (snd (xy2ang_d arccosd x y)) - psi) <= b2 (-23) /\
    (s = 2 -> fst (xy2ang_d arccosd x y) = dzero) /\
    (s < 2 -> exists (k : Z) x', (0 <= k <= 5)%Z /\ IZR k * (PI / 2) - b2 (-48) <= val x <= (IZR k + 1) * (PI / 2) + b2 (-48) /\ Rabs (x' - val x) <= b2 (-47) /\
       fin (fst (xy2ang_d arccosd x y)) /\ val (fst (xy2ang_d arccosd x y)) = (x' - PI / 4 * (s - 1) * (2 * IZR k + 1)) / (2 - s)).
Proof.
  intros arccosd x y HA Fx Hx Fy Hy. destruct (back_cap arccosd x y HA Fx Hx Fy ltac:(lra)) as (sg & s & psi & Hs & I & Vy & Es & _ & Ip & Cp & K1 & K2 & KP & KF).
  exists sg, s, psi. rewrite b51_u, b49, b23, b48, b47. repeat (split; [assumption|]). exact KF.
Qed.
Print Assumptions C98_cap_sky.

(** The two poles: [y = np.pi/2] or [-np.pi/2], whatever [x], even a NaN. *)
Theorem C98_pole_sky : forall arccosd x y, fin y -> Rabs (val y) = tau / 4 ->
  exists c, fin c /\ val c = (if Rlt_bool (val y) 0 then -1 else 1) /\ xy2ang_d arccosd x y = (dzero, arccosd c).
Proof.
  intros arccosd x y Fy Hy. pose proof tau_bounds as TB. destruct (abs_ok y Fy) as [Fa Va]. destruct quarter_val as [Fq Vq]. destruct (sigz_ok y Fy ltac:(lra)) as (sg & s & Hs & I & Fg & Vg & Vy & _ & E2). rewrite (E2 Hy) in Vg. clear E2 I s. set (g := cap_sigz y) in *.
  destruct (siga_ok g sg 2 Fg Hs ltac:(lra) Vg) as (_ & Fsa & Vsa). destruct one_ok as [F1 V1]. destruct (int_ok 1 ltac:(lia)) as [F1' V1']. destruct (int_ok 2 ltac:(lia)) as [F2 V2]. destruct third_val as [Ft Et].
  assert (E : xy2ang_d arccosd x y = (dzero, cap_theta arccosd g)).
  { unfold xy2ang_d. replace (dle (abs_d y) quarter_pi) with false. 2:{ symmetry. etransitivity; [exact (dle_ok _ _ Fa Fq)|]. rewrite Va, Vq. apply Rle_bool_false. lra. }
    fold g. replace (deq (cap_siga g) one_d) with true; [reflexivity|]. symmetry. etransitivity; [exact (deq_ok _ _ Fsa F1)|]. rewrite Vsa, V1. apply Req_bool_true. lra. }
  destruct (abs_ok g Fg) as [Fag Vag]. assert (Vag' : val (abs_d g) = 2) by (rewrite Vag, Vg, Rabs_mult, (Rabs_pos_eq 2) by lra; destruct Hs as [-> | ->]; [rewrite Rabs_R1|rewrite Rabs_left by lra]; ring). clear Vag.
  destruct (sub_near (dint 2) (abs_d g) F2 Fag) as (Fd & Vd & _); [rewrite V2, Vag', Rabs_pos_eq; lra|]. rewrite V2, Vag' in Vd. replace (2 - 2) with 0 in Vd by ring. rewrite (fl_fmt 0 fmt_0) in Vd. set (d := dsub (dint 2) (abs_d g)) in *.
  destruct (mul_near d d Fd Fd) as (Fqq & Vqq & _); [rewrite Vd, Rmult_0_l, Rabs_R0; lra|]. rewrite Vd, Rmult_0_l, (fl_fmt 0 fmt_0) in Vqq. fold (sq d) in Fqq, Vqq.
  destruct (mul_near one_third (sq d) Ft Fqq) as (Fm & Vm & _); [rewrite Vqq, Rmult_0_r, Rabs_R0; lra|]. rewrite Vqq, Rmult_0_r, (fl_fmt 0 fmt_0) in Vm. set (m := dmul one_third (sq d)) in *.
  destruct (sub_near (dint 1) m F1' Fm) as (Fz & Vz & _); [rewrite V1', Vm, Rminus_0_r, Rabs_R1; lra|]. rewrite V1', Vm, Rminus_0_r, (fl_fmt 1 fmt_1) in Vz. set (z := dsub (dint 1) m) in *.
  assert (Ng : val g <> 0) by (rewrite Vg; destruct Hs as [-> | ->]; intro; lra). destruct (sign_ok g Fg Ng) as [Fsg Vsg]. assert (Vsg' : val (sign_d g) = sg) by (rewrite Vsg, Vg; destruct Hs as [-> | ->]; [rewrite Rlt_bool_false|rewrite Rlt_bool_true]; lra).
  destruct (mul_near (sign_d g) z Fsg Fz) as (Fc & Vc & _); [rewrite Vsg', Vz; destruct Hs as [-> | ->]; apply Rabs_le; lra|]. rewrite Vsg', Vz, Rmult_1_r in Vc.
  exists (dmul (sign_d g) z). split; [exact Fc|]. split; [|exact E]. rewrite Vc. rewrite Vy, Hy. destruct Hs as [-> | ->]; [rewrite Rlt_bool_false by lra; apply fl_fmt, fmt_1|rewrite Rlt_bool_true by lra; apply fl_fmt; apply fmt_opp, fmt_1].
Qed.
Print Assumptions C98_pole_sky.

(** The plane of a point of the sphere: the belt. *)
Theorem C98_belt_plane : forall cosd phi theta, near_on_circle cos cosd -> fin theta -> Rabs (val theta) <= 8 -> Rabs (cos (val theta)) <= 2 / 3 - b2 (-51) ->
  exists y, ang2xy_d cosd phi theta = Ok (phi, y) /\ fin y /\ Rabs (val y - 3 * PI / 8 * cos (val theta)) <= b2 (-50).
Proof.
  intros cosd phi theta HC Ft Ht Hc. destruct (HC theta Ft Ht) as (Fz & _ & Ez). destruct (abs_ok _ Fz) as [Fa Va]. destruct thirds_val as (F23 & _ & _). destruct thirds_u as [_ TL]. pose proof u_tiny as U. assert (B52 : b2 (-52) = 2 * u) by (unfold u; change (-52)%Z with (1 + -53)%Z; rewrite bpow_plus; reflexivity). rewrite B52 in Ez. rewrite b51_u in Hc.
  assert (D : Rabs (val (cosd theta)) <= val two_thirds). { replace (val (cosd theta)) with ((val (cosd theta) - cos (val theta)) + cos (val theta)) by ring. eapply Rle_trans; [apply Rabs_triang|]. lra. }
  destruct (belt_forth cosd theta HC Ft Ht) as (Fy & Ey & _). exists (belt_y cosd theta). split; [|split; assumption]. unfold ang2xy_d. replace (dle (abs_d (cosd theta)) two_thirds) with true; [reflexivity|]. symmetry. etransitivity; [exact (dle_ok _ _ Fa F23)|]. rewrite Va. apply Rle_bool_true. exact D.
Qed.
Print Assumptions C98_belt_plane.

(** The caps. *)
Theorem C98_cap_plane : forall cosd phi theta, near_on_circle cos cosd -> fin phi -> 0 <= val phi <= tau -> fin theta -> Rabs (val theta) <= 8 -> 2 / 3 + b2 (-51) <= Rabs (cos (val theta)) ->
  exists x y sg s (k : Z), ang2xy_d cosd phi theta = Ok (x, y) /\ fin x /\ fin y /\ Rabs (val y) <= tau / 4 /\
    (sg = 1 \/ sg = -1) /\ 0 < sg * cos (val theta) /\ 1 <= s <= 2 /\ Rabs ((2 - s) * (2 - s) - 3 * (1 - Rabs (cos (val theta)))) <= b2 (-49) /\
    IZR k * (tau / 4) <= val phi < (IZR k + 1) * (tau / 4) /\
    Rabs (val x - (val phi - (s - 1) * (val phi - IZR k * (PI / 2) - PI / 4))) <= b2 (-49) /\ Rabs (val y - sg * (PI * s / 4)) <= b2 (-51).
Proof.
  intros cosd phi theta HC Fp Hp Ft Ht Hc. destruct (HC theta Ft Ht) as (Fz & _ & Ez). destruct (abs_ok _ Fz) as [Fa Va]. destruct thirds_val as (F23 & _ & _). destruct thirds_u as [TU _]. pose proof u_tiny as U. assert (B52 : b2 (-52) = 2 * u) by (unfold u; change (-52)%Z with (1 + -53)%Z; rewrite bpow_plus; reflexivity). rewrite B52 in Ez. rewrite b51_u in Hc.
  assert (D : val two_thirds < Rabs (val (cosd theta))). { pose proof (Rabs_triang_inv (cos (val theta)) (cos (val theta) - val (cosd theta))) as T. replace (cos (val theta) - (cos (val theta) - val (cosd theta))) with (val (cosd theta)) in T by ring. rewrite (Rabs_minus_sym (cos (val theta))) in T. lra. }
  destruct (cap_forth cosd phi theta HC Fp Hp Ft Ht D) as (sg & s & k & Hs & S1 & Ik & Bk & Sc & Es & Fx & Bx & Ex & Fy & Ey & Vy & By & _ & _).
  exists (cap_x phi (cap_siga (cap_sigz_of (cosd theta))) (mod_d phi half_pi)), (cap_y (cap_sigz_of (cosd theta))), sg, s, k. split.
  { unfold ang2xy_d. replace (dle (abs_d (cosd theta)) two_thirds) with false. 2:{ symmetry. etransitivity; [exact (dle_ok _ _ Fa F23)|]. rewrite Va. apply Rle_bool_false. exact D. }
    replace (dlt two_thirds (abs_d (cosd theta))) with true; [reflexivity|]. symmetry. etransitivity; [exact (dlt_ok _ _ F23 Fa)|]. rewrite Va. apply Rlt_bool_true. exact D. }
  repeat (split; [assumption|]). exact Ey.
Qed.
Print Assumptions C98_cap_plane.

(** There and back: every point of the sphere with [phi] in [0, 2 np.pi] and [theta]
    in [0, np.pi], the border between belt and caps included. *)
Theorem C98_trip : forall cosd arccosd phi theta, near_on_circle cos cosd -> near_arccos arccosd ->
  fin phi -> 0 <= val phi <= tau -> fin theta -> 0 <= val theta <= tau / 2 ->
  exists x y, ang2xy_d cosd phi theta = Ok (x, y) /\ fin x /\ fin y /\ Rabs (val y) <= tau / 4 /\
    let phi' := val (fst (xy2ang_d arccosd x y)) in let theta' := val (snd (xy2ang_d arccosd x y)) in
    Rabs (theta' - val theta) <= b2 (-21) /\ sin (val theta) * Rabs (theta' - val theta) <= b2 (-45) /\
    sin (val theta) * Rabs (phi' - val phi) <= b2 (-22) /\
    (b2 (-24) <= val theta <= PI - b2 (-24) -> sin (val theta) * Rabs (phi' - val phi) <= b2 (-40)).
Proof.
  intros cosd arccosd phi theta HC HA Fp Hp Ft Ht. pose proof tau_bounds as TB. destruct (HC theta Ft ltac:(rewrite Rabs_pos_eq; lra)) as (Fz & _ & _). destruct (abs_ok _ Fz) as [Fa Va]. destruct thirds_val as (F23 & _ & _).
  assert (E1 : dle (abs_d (cosd theta)) two_thirds = Rle_bool (Rabs (val (cosd theta))) (val two_thirds)) by (etransitivity; [exact (dle_ok _ _ Fa F23)|]; rewrite Va; reflexivity).
  assert (E2 : dlt two_thirds (abs_d (cosd theta)) = Rlt_bool (val two_thirds) (Rabs (val (cosd theta)))) by (etransitivity; [exact (dlt_ok _ _ F23 Fa)|]; rewrite Va; reflexivity).
  unfold ang2xy_d. rewrite E1, E2. destruct (Rle_bool_spec (Rabs (val (cosd theta))) (val two_thirds)) as [L|L].
  - destruct (trip_belt cosd arccosd phi theta HC HA Fp Hp Ft Ht L) as (Fy & By & K1 & K2 & K3 & K4). exists phi, (belt_y cosd theta). auto 10.
  - rewrite Rlt_bool_true by exact L. destruct (trip_cap cosd arccosd phi theta HC HA Fp Hp Ft Ht L) as (Fx & Fy & By & K1 & K2 & K3 & K4). eexists. eexists. split; [reflexivity|]. auto 10.
Qed.
Print Assumptions C98_trip.

(** The array branches do the same to every entry, except where a number is not one. *)
Theorem C98_arrays_sky : forall arccosd xs ys q, length xs = length ys -> (q < length xs)%nat ->
  let phi := fst (xy2ang_arr_d arccosd xs ys) in let theta := snd (xy2ang_arr_d arccosd xs ys) in
  length phi = length xs /\ length theta = length xs /\
  (is_nan (nth q ys dzero) = false -> (nth q phi dzero, nth q theta dzero) = xy2ang_d arccosd (nth q xs dzero) (nth q ys dzero)) /\
  (is_nan (nth q ys dzero) = true -> (nth q phi dzero, nth q theta dzero) = (dzero, dzero)).
Proof.
  intros f xs ys q Hl Hq phi theta. destruct (length_xy2ang_arr_d f xs ys) as [L1 L2]. split; [exact L1|]. split; [exact L2|]. pose proof (xy2ang_arr_nth f xs ys q Hl Hq) as [E1 E2]. unfold phi, theta. rewrite E1, E2. split; intros N; rewrite N; [symmetry; apply surjective_pairing|reflexivity].
Qed.
Print Assumptions C98_arrays_sky.

Theorem C98_arrays_plane : forall cosd ps ts q, length ps = length ts -> (q < length ps)%nat ->
  let x := fst (ang2xy_arr_d cosd ps ts) in let y := snd (ang2xy_arr_d cosd ps ts) in
  length x = length ps /\ length y = length ps /\
  (is_nan (cosd (nth q ts dzero)) = false -> ang2xy_d cosd (nth q ps dzero) (nth q ts dzero) = Ok (nth q x dzero, nth q y dzero)) /\
  (is_nan (cosd (nth q ts dzero)) = true -> (nth q x dzero, nth q y dzero) = (dzero, dzero) /\ ang2xy_d cosd (nth q ps dzero) (nth q ts dzero) = Err UnboundLocalError).
Proof.
  intros f ps ts q Hl Hq x y. destruct (length_ang2xy_arr_d f ps ts) as [L1 L2]. rewrite <- Hl in L2. split; [exact L1|]. split; [exact L2|]. destruct (ang2xy_arr_nth f ps ts q Hl Hq) as [E1 E2]. split; [exact E1|]. intros N. destruct (E2 N). split; assumption.
Qed.
Print Assumptions C98_arrays_plane.

(** A missing value comes out of the array branch as the north pole, out of the
    scalar branch as a missing value (any [arccos] that keeps a NaN). *)
Theorem C98_missing_refuted : exists x y, is_nan y = true /\ forall arccosd, arccosd B754_nan = B754_nan ->
  xy2ang_arr_d arccosd [x] [y] = ([dzero], [dzero]) /\ is_nan (fst (xy2ang_d arccosd x y)) = true /\ is_nan (snd (xy2ang_d arccosd x y)) = true.
Proof.
  exists dzero, B754_nan. split; [reflexivity|]. intros f Hf. split; [reflexivity|].
  assert (E : xy2ang_d f dzero B754_nan = (B754_nan, f B754_nan)); [|rewrite E; cbn [fst snd]; rewrite Hf; split; reflexivity].
  unfold xy2ang_d. destruct quarter_val as [Fq _]. destruct (above_nan quarter_pi B754_nan Fq eq_refl) as [-> _].
  assert (G : cap_sigz B754_nan = B754_nan) by (unfold cap_sigz; replace (dmul (dint 4) B754_nan) with (B754_nan : double) by (destruct (dint 4); reflexivity); reflexivity). rewrite G.
  assert (S : cap_siga B754_nan = B754_nan) by reflexivity. rewrite S. f_equal.
Qed.
Print Assumptions C98_missing_refuted.

(** A cosine that comes out as 1 or -1 is a pole: the longitude is lost and comes
    back as 0. *)
Theorem C98_pole_lost : forall cosd arccosd phi theta, near_on_circle cos cosd -> fin phi -> 0 <= val phi <= tau -> fin theta -> Rabs (val theta) <= 8 -> Rabs (val (cosd theta)) = 1 ->
  exists x y c, ang2xy_d cosd phi theta = Ok (x, y) /\ Rabs (val y) = tau / 4 /\ val c = val (cosd theta) /\ xy2ang_d arccosd x y = (dzero, arccosd c).
Proof.
  intros cosd arccosd phi theta HC Fp Hp Ft Ht H1. destruct (HC theta Ft Ht) as (Fz & _ & Ez). destruct (abs_ok _ Fz) as [Fa Va]. destruct thirds_val as (F23 & _ & _). destruct thirds_u as [TU _]. pose proof tau_bounds as TB. assert (D : val two_thirds < Rabs (val (cosd theta))) by lra.
  destruct (cap_forth cosd phi theta HC Fp Hp Ft Ht D) as (sg & s & k & Hs & S1 & Ik & Bk & Sc & Es & Fx & Bx & Ex & Fy & Ey & Vy & By & Y1 & _). destruct (Y1 H1) as [_ YT].
  destruct (C98_pole_sky arccosd (cap_x phi (cap_siga (cap_sigz_of (cosd theta))) (mod_d phi half_pi)) _ Fy YT) as (c & Fc & Vc & E).
  exists (cap_x phi (cap_siga (cap_sigz_of (cosd theta))) (mod_d phi half_pi)), (cap_y (cap_sigz_of (cosd theta))), c. split.
  { unfold ang2xy_d. replace (dle (abs_d (cosd theta)) two_thirds) with false. 2:{ symmetry. etransitivity; [exact (dle_ok _ _ Fa F23)|]. rewrite Va. apply Rle_bool_false. exact D. }
    replace (dlt two_thirds (abs_d (cosd theta))) with true; [reflexivity|]. symmetry. etransitivity; [exact (dlt_ok _ _ F23 Fa)|]. rewrite Va. apply Rlt_bool_true. exact D. }
  split; [exact YT|]. split; [|exact E]. rewrite Vc. rewrite Vy, YT. assert (B52 : b2 (-52) <= / 1024) by (change (/ 1024) with (b2 (-10)); apply bpow_le; lia). apply Rabs_le_inv in Ez. unfold Rabs in H1. destruct (Rcase_abs (val (cosd theta))); destruct Hs as [-> | ->]; try (rewrite Rlt_bool_false by lra); try (rewrite Rlt_bool_true by lra); lra.
Qed.
Print Assumptions C98_pole_lost.

(** So a point [2^-30] from the pole goes to the pole, for a library that meets the
    accuracies assumed. *)
Theorem C98_pole_refuted : exists cosd theta, near_on_circle cos cosd /\ fin theta /\ val theta = b2 (-30) /\
  forall arccosd phi, fin phi -> 0 <= val phi <= tau -> exists x y, ang2xy_d cosd phi theta = Ok (x, y) /\ Rabs (val y) = tau / 4 /\ val (fst (xy2ang_d arccosd x y)) = 0.
Proof.
  exists cos_l, (dbl 1 (-30)). destruct libm_l as (_ & Nc & _). destruct (dbl_ok 1 (-30) ltac:(lia) ltac:(lia)) as [F V]. rewrite Rmult_1_l in V. do 3 (split; [assumption|]). intros arccosd phi Fp Hp.
  assert (SM : b2 (-30) <= / 1024) by (change (/ 1024) with (b2 (-10)); apply bpow_le; lia). pose proof (bpow_gt_0 radix2 (-30)) as P30.
  assert (E : cos_l (dbl 1 (-30)) = dbl 1 0).
  { unfold cos_l, multiple. rewrite V. assert (N : ZnearestE (cos (b2 (-30)) * b2 53) = (2 ^ 53)%Z).
    { apply Znearest_imp. change (IZR (2 ^ 53)) with (b2 53). pose proof (COS_bound (b2 (-30))) as CB. pose proof (cos_2a_sin (b2 (-30) / 2)) as D. replace (2 * (b2 (-30) / 2)) with (b2 (-30)) in D by field.
      assert (SH : 0 <= sin (b2 (-30) / 2) <= b2 (-30) / 2) by (split; [apply sin_ge_0; pose proof PI2_1; lra|apply Rlt_le, sin_lt_x; lra]). assert (SS : sin (b2 (-30) / 2) * sin (b2 (-30) / 2) <= b2 (-30) / 2 * (b2 (-30) / 2)) by (apply Rmult_le_compat; lra).
      assert (Q : b2 (-30) * b2 (-30) * b2 53 <= / 4). { rewrite <- !bpow_plus. change (/ 4) with (b2 (-2)). apply bpow_le. lia. } pose proof (bpow_gt_0 radix2 53) as P5. assert (L : (1 - cos (b2 (-30))) * b2 53 <= b2 (-30) * b2 (-30) / 2 * b2 53) by (apply Rmult_le_compat_r; lra). assert (U : 0 <= (1 - cos (b2 (-30))) * b2 53) by (apply Rmult_le_pos; lra). apply Rabs_lt. lra. }
    rewrite N. apply B2SF_inj. vm_compute. reflexivity. }
  destruct one_val as [_ V1]. destruct (C98_pole_lost cos_l arccosd phi (dbl 1 (-30)) Nc Fp Hp F) as (x & y & c & E1 & E2 & _ & E3); [rewrite V; apply Rabs_le; lra|rewrite E, V1; apply Rabs_R1|].
  exists x, y. split; [exact E1|]. split; [exact E2|]. rewrite E3. apply val_zero.
Qed.
Print Assumptions C98_pole_refuted.

(** The longitude [2 np.pi], in the documented range, leaves the documented range of
    the plane: near the poles it is put in a fifth column of facets. *)
Theorem C98_last_column_refuted : forall cosd, near_on_circle cos cosd ->
  exists phi theta x y, fin phi /\ val phi = tau /\ fin theta /\ 0 <= val theta <= PI /\ ang2xy_d cosd phi theta = Ok (x, y) /\ fin x /\ 2 * PI + / 2 < val x.
Proof.
  intros cosd HC. destruct twopi_val as [Fp Vp]. pose proof pi_u as (A & B & C). pose proof u_tiny as U. exists twopi, dzero.
  destruct (C98_cap_plane cosd twopi dzero HC Fp) as (x & y & sg & s & k & E & Fx & _ & _ & Hs & _ & I & Es & Bk & Ex & _); [rewrite Vp; lra|apply fin_zero|rewrite val_zero, Rabs_R0; lra|rewrite val_zero, cos_0, Rabs_R1, b51_u; lra|].
  exists x, y. rewrite val_zero in *. rewrite Vp in *. rewrite b49 in *. rewrite cos_0, Rabs_R1 in Es. split; [exact Fp|]. split; [reflexivity|]. split; [apply fin_zero|]. split; [lra|]. split; [exact E|]. split; [exact Fx|].
  assert (K4 : k = 4%Z). { assert (IZR k < 5) by (apply Rmult_lt_reg_r with (tau / 4); lra). assert (3 < IZR k) by (apply Rmult_lt_reg_r with (tau / 4); lra). apply lt_IZR in H, H0. lia. } rewrite K4 in Ex.
  assert (S19 : 1.9 <= s). { apply Rabs_le_inv in Es. apply Rnot_lt_le. intro N. assert (0.1 * 0.1 <= (2 - s) * (2 - s)) by (apply Rmult_le_compat; lra). lra. }
  apply Rabs_le_inv in A, Ex. assert ((s - 1) * (tau - 4 * (PI / 2) - PI / 4) <= (s - 1) * (- 0.7)) by (apply Rmult_le_compat_l; lra). lra.
Qed.
Print Assumptions C98_last_column_refuted.

(** A point of the plane with [x] in [0, 2 pi] and [y] in [-pi/2, pi/2] can get a
    longitude outside the documented [0, 2 pi]. *)
Theorem C98_longitude_refuted : exists x y, fin x /\ 0 <= val x <= 2 * PI /\ fin y /\ 0 <= val y <= PI / 2 /\
  forall arccosd, near_arccos arccosd -> fin (fst (xy2ang_d arccosd x y)) /\ val (fst (xy2ang_d arccosd x y)) < -7.
Proof.
  destruct (dbl_ok 3 (-1) ltac:(lia) ltac:(lia)) as [Fy Vy]. change (b2 (-1)) with (/ 2) in Vy. pose proof pi_u as (A & B & C). pose proof u_tiny as U. exists dzero, (dbl 3 (-1)). rewrite val_zero, Vy. split; [apply fin_zero|]. split; [lra|]. split; [exact Fy|]. split; [lra|].
  intros arccosd HA. destruct (C98_cap_sky arccosd dzero (dbl 3 (-1)) HA fin_zero) as (sg & s & psi & Hs & _ & I & Es & _ & _ & _ & _ & _ & KF); [rewrite val_zero; lra|exact Fy|rewrite Vy, Rabs_pos_eq; lra|]. rewrite Vy, (Rabs_pos_eq (3 * / 2)), b51_u in Es by lra. set (q := 4 * (3 * / 2) / PI) in *. assert (Eq : q * PI = 6) by (unfold q; field; lra).
  assert (Q : 1.9 <= q <= 1.92) by (split; apply Rnot_lt_le; intro N; [assert (q * PI <= 1.9 * PI) by (apply Rmult_le_compat_r; lra)|assert (1.92 * PI <= q * PI) by (apply Rmult_le_compat_r; lra)]; lra).
  apply Rabs_le_inv in Es. destruct (KF ltac:(lra)) as (k & x' & Ik & Bk & Ex & Ff & Vf). split; [exact Ff|]. rewrite Vf. rewrite b47 in Ex. rewrite val_zero, Rminus_0_r in Ex. apply Rabs_le_inv in Ex.
  assert (K0 : 0 <= IZR k) by (apply (IZR_le 0); lia). apply Rmult_lt_reg_r with (2 - s); [lra|]. unfold Rdiv at 1. rewrite Rmult_assoc, Rinv_l, Rmult_1_r by lra.
  assert (0.785 * 0.899 <= PI / 4 * (s - 1)) by (apply Rmult_le_compat; lra). assert (PI / 4 * (s - 1) * 1 <= PI / 4 * (s - 1) * (2 * IZR k + 1)) by (apply Rmult_le_compat_l; lra). lra.
Qed.
Print Assumptions C98_longitude_refuted.

(** The hypotheses are met: a point of the cap, one of the belt, there and back. *)
Example C98_example : exists cosd arccosd phi t1 t2, near_on_circle cos cosd /\ near_arccos arccosd /\ fin phi /\ val phi = 1 /\ fin t1 /\ val t1 = / 2 /\ fin t2 /\ val t2 = 3 / 2 /\
  forall t, t = t1 \/ t = t2 -> exists x y, ang2xy_d cosd phi t = Ok (x, y) /\ Rabs (val (snd (xy2ang_d arccosd x y)) - val t) <= b2 (-21) /\ Rabs (val (fst (xy2ang_d arccosd x y)) - 1) <= b2 (-38).
Proof.
  exists cos_l, arccos_l, (dbl 1 0), (dbl 1 (-1)), (dbl 3 (-1)). destruct libm_l as (_ & Nc & _ & _ & _ & _ & _ & Na). destruct one_val as [F1 V1]. destruct (dbl_ok 1 (-1) ltac:(lia) ltac:(lia)) as [Fa Va]. destruct (dbl_ok 3 (-1) ltac:(lia) ltac:(lia)) as [Fb Vb]. change (b2 (-1)) with (/ 2) in Va, Vb.
  split; [exact Nc|]. split; [exact Na|]. split; [exact F1|]. split; [exact V1|]. split; [exact Fa|]. split; [lra|]. split; [exact Fb|]. split; [lra|]. pose proof pi_u as (A & B & C). intros t Ht.
  assert (X : fin t /\ / 2 <= val t <= 3 / 2) by (destruct Ht as [-> | ->]; split; try assumption; lra). destruct X as [Ft Bt]. destruct (C98_trip cos_l arccos_l (dbl 1 0) t Nc Na F1 ltac:(lra) Ft ltac:(lra)) as (x & y & E & _ & _ & _ & T1 & _ & _ & T2).
  exists x, y. split; [exact E|]. split; [exact T1|]. rewrite V1 in T2. assert (B24 : b2 (-24) <= / 1024) by (change (/ 1024) with (b2 (-10)); apply bpow_le; lia). specialize (T2 ltac:(lra)). pose proof (half_sine (val t) ltac:(lra)) as HS. pose proof (Rabs_pos (val (fst (xy2ang_d arccos_l x y)) - 1)) as P0.
  assert (/ 4 * Rabs (val (fst (xy2ang_d arccos_l x y)) - 1) <= sin (val t) * Rabs (val (fst (xy2ang_d arccos_l x y)) - 1)) by (apply Rmult_le_compat_r; lra). replace (b2 (-38)) with (4 * b2 (-40)) by (change (-38)%Z with (2 + -40)%Z; rewrite bpow_plus; reflexivity). lra.
Qed.
Print Assumptions C98_example.
