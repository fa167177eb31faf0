(** * Rotations on the sphere in double precision *)

From Coq Require Import Reals ZArith List Bool Lia Lra Psatz.
From Flocq Require Import Core IEEE754.BinarySingleNaN.
From Verif Require Import Base PUsphere MHealpixFloat PHealpixFloat SpecDouble MDouble PDouble PPiDouble PTrig PSumDouble PDenseDouble TDouble TDoublePi TDouble3 SpecCoordsDouble MCoordsDouble MRemapDouble PLibmDouble PTripDouble TTripDouble MOneDDouble PRemapDouble2 PRebinDouble3 PRebinDouble4 MHealRandomsDouble SpecSphere SpecRotateDouble MRotateDouble PRotateDouble PRotateDouble2 PRotateDouble3.
Import ListNotations.
Open Scope R_scope.

(** ** What is refused *)

(** The range assertions hold of the doubles from 0 to the limit, of no
    infinity and of no NaN. *)
Lemma within_ok : forall x hi, (hi = twopi \/ hi = pi_d) -> within_d dzero x hi = true <-> fin x /\ 0 <= val x <= val hi.
Proof.
  intros x hi H. assert (Fh : fin hi) by (destruct H as [-> | ->]; vm_compute; reflexivity). unfold within_d. destruct (is_finite x) eqn:F.
  - rewrite (dle_ok dzero x fin_zero F), (dle_ok x hi F Fh), val_zero, andb_true_iff. split.
    + intros [A B]. split; [exact F|]. destruct (Rle_bool_spec 0 (val x)), (Rle_bool_spec (val x) (val hi)); try discriminate. lra.
    + intros [_ A]. split; apply Rle_bool_true; lra.
  - split; [|intros [G _]; unfold fin in G; congruence]. destruct x as [s|s| |s m e B]; try discriminate F; destruct H as [-> | ->]; try destruct s; vm_compute; discriminate.
Qed.

Definition accepted (phi_end theta_end phi_start theta_start : double) : Prop :=
  (fin phi_start /\ 0 <= val phi_start <= tau) /\ (fin phi_end /\ 0 <= val phi_end <= tau) /\
  (fin theta_start /\ 0 <= val theta_start <= tau / 2) /\ (fin theta_end /\ 0 <= val theta_end <= tau / 2) /\
  (val phi_start <> val phi_end \/ val theta_start <> val theta_end).

Lemma setup_ok : forall L pe te ps ts,
  (accepted pe te ps ts -> rotate_setup_d L pe te ps ts = frame_d L (on_sphere_d L ps ts) (on_sphere_d L pe te)) /\
  (~ accepted pe te ps ts -> rotate_setup_d L pe te ps ts = Err AssertionError).
Proof.
  intros L pe te ps ts. unfold rotate_setup_d. pose proof (within_ok ps twopi (or_introl eq_refl)) as G1. pose proof (within_ok pe twopi (or_introl eq_refl)) as G2. pose proof (within_ok ts pi_d (or_intror eq_refl)) as G3. pose proof (within_ok te pi_d (or_intror eq_refl)) as G4.
  rewrite (proj2 twopi_val) in G1, G2. rewrite (proj2 pi_val) in G3, G4. split.
  - intros (A1 & A2 & A3 & A4 & D). rewrite (proj2 G1 A1), (proj2 G2 A2), (proj2 G3 A3), (proj2 G4 A4).
    assert (E : negb (deq ps pe) || negb (deq ts te) = true).
    { rewrite (deq_ok ps pe (proj1 A1) (proj1 A2)), (deq_ok ts te (proj1 A3) (proj1 A4)). destruct (Req_bool_spec (val ps) (val pe)), (Req_bool_spec (val ts) (val te)); try reflexivity. destruct D; contradiction. }
    rewrite E. reflexivity.
  - intros NA. destruct (negb (deq ps pe) || negb (deq ts te)) eqn:E; [|reflexivity]. destruct (within_d dzero ps twopi) eqn:E1; [|reflexivity]. destruct (within_d dzero pe twopi) eqn:E2; [|reflexivity]. destruct (within_d dzero ts pi_d) eqn:E3; [|reflexivity]. destruct (within_d dzero te pi_d) eqn:E4; [|reflexivity].
    exfalso. apply NA. pose proof (proj1 G1 eq_refl) as A1. pose proof (proj1 G2 eq_refl) as A2. pose proof (proj1 G3 eq_refl) as A3. pose proof (proj1 G4 eq_refl) as A4. split; [exact A1|]. split; [exact A2|]. split; [exact A3|]. split; [exact A4|].
    rewrite (deq_ok ps pe (proj1 A1) (proj1 A2)), (deq_ok ts te (proj1 A3) (proj1 A4)) in E. destruct (Req_bool_spec (val ps) (val pe)); [|now left]. destruct (Req_bool_spec (val ts) (val te)); [discriminate|now right].
Qed.

(** A point is refused exactly when an angle is outside its range or the two
    positions carry the same coordinates; the only other exception is that of the
    inversion of the matrix. *)
Theorem C104_errors : forall L phi theta pe te ps ts,
  (~ accepted pe te ps ts -> usphere_rotate_d L phi theta pe te ps ts = Err AssertionError) /\
  (accepted pe te ps ts -> (exists out, usphere_rotate_d L phi theta pe te ps ts = Ok out) \/
    exists m e, l_inv L m = Err e /\ usphere_rotate_d L phi theta pe te ps ts = Err e).
Proof.
  intros L phi theta pe te ps ts. destruct (setup_ok L pe te ps ts) as [S1 S2]. unfold usphere_rotate_d. split; intros A.
  - now rewrite (S2 A).
  - rewrite (S1 A). unfold frame_d. destruct (axes_d L (on_sphere_d L ps ts) (on_sphere_d L pe te)) as [n t]. cbv zeta. destruct (l_inv L (columns_d (on_sphere_d L ps ts) t n)) as [i|e] eqn:I; cbn [bind]; [left; eexists; reflexivity|right; do 2 eexists; split; [exact I|reflexivity]].
Qed.
Print Assumptions C104_errors.

(** ** Accuracy *)

Lemma turns_nat : forall x n, cos (x + INR n * (2 * PI)) = cos x /\ sin (x + INR n * (2 * PI)) = sin x.
Proof. intros x n. replace (x + INR n * (2 * PI)) with (x + 2 * INR n * PI) by ring. now rewrite cos_period, sin_period. Qed.

Lemma turns : forall x k, cos (x + IZR k * (2 * PI)) = cos x /\ sin (x + IZR k * (2 * PI)) = sin x.
Proof.
  intros x k. destruct (Z.le_gt_cases 0 k) as [H|H].
  - rewrite <- (Z2Nat.id k H), <- INR_IZR_INZ. apply turns_nat.
  - destruct (turns_nat (x + IZR k * (2 * PI)) (Z.to_nat (- k))) as [A B]. rewrite INR_IZR_INZ, Z2Nat.id, opp_IZR in A, B by lia.
    replace (x + IZR k * (2 * PI) + - IZR k * (2 * PI)) with x in A, B by ring. now split; symmetry.
Qed.

Lemma cos_turns : forall x k, cos (x + IZR k * (2 * PI)) = cos x.
Proof. intros. apply turns. Qed.
Lemma sin_turns : forall x k, sin (x + IZR k * (2 * PI)) = sin x.
Proof. intros. apply turns. Qed.

Definition accurate (L : library) : Prop :=
  near_on_circle cos (l_cos L) /\ near_on_circle sin (l_sin L) /\
  arctan2_ok (l_arctan2 L) /\ near_arctan2 (l_arctan2 L) /\ arccos_ok (l_arccos L) /\ near_arccos (l_arccos L) /\
  sums_ok dadd (l_sum L) /\ dots_ok (l_dot L) /\ mdots_ok (l_mdot L) /\ inverse_ok (l_inv L).

Lemma rotate_near : forall L phi theta pe te ps ts P, accurate L -> accepted pe te ps ts -> dot P P = 1 -> vwithin (40 * u) (on_sphere_d L phi theta) P ->
  let U := dir (val ps) (val ts) in
  let V := dir (val pe) (val te) in
  let W := sqrt (dot (cross U V) (cross U V)) in
  let Q := rodrigues (vscale (/ W) (cross U V)) (acos (dot U V)) P in
  b2 (-20) <= W ->
  exists p t, usphere_rotate_d L phi theta pe te ps ts = Ok (p, t) /\
    fin p /\ 0 <= val p <= tau /\ fin t /\ 0 <= val t <= tau / 2 /\
    exists h, 0 <= h /\ Rabs (h * cos (val p) - vx Q) <= b2 (-32) / W /\ Rabs (h * sin (val p) - vy Q) <= b2 (-32) / W /\ Rabs (cos (val t) - vz Q) <= b2 (-32) / W.
Proof.
  intros L phi theta pe te ps ts P (Nc & Ns & O1 & O2 & O3 & O4 & SO & DO & MO & IO) A HP EP U V W Q HW. pose proof tau_bounds as TB. unfold usphere_rotate_d. rewrite (proj1 (setup_ok L pe te ps ts) A).
  destruct A as ((Fps & Bps) & (Fpe & Bpe) & (Fts & Bts) & (Fte & Bte) & _).
  assert (EU : vwithin (8 * u) (on_sphere_d L ps ts) U) by (apply on_sphere_near; auto; apply Rabs_le; lra). assert (EV : vwithin (8 * u) (on_sphere_d L pe te) V) by (apply on_sphere_near; auto; apply Rabs_le; lra).
  assert (HU : dot U U = 1) by apply dir_unit. assert (HV : dot V V = 1) by apply dir_unit.
  destruct (frame_near L Nc Ns O1 O2 SO DO MO IO U V HU HV HW _ _ EU EV _ _ HP EP) as (f & -> & EF). cbn [bind]. change (nrm (cross U V)) with W in EF. change (unit_of (cross U V)) with (vscale (/ W) (cross U V)) in EF. fold Q in EF.
  pose proof (d_range U V HU HV HW) as Dr. pose proof (d_range' U V HW) as Dr'. change (nrm (cross U V)) with W in Dr, Dr'. set (d := u / W) in *. pose proof u_pos as U0.
  assert (PW : 0 < W) by (pose proof (bpow_gt_0 radix2 (-20)); lra).
  assert (UQ : dot Q Q = 1). { unfold Q. rewrite rod_dot; [exact HP|]. apply (n_unit U V). change (nrm (cross U V)) with W. lra. }
  unfold rotate_point_d. destruct (f (on_sphere_d L phi theta)) as [[x y] z].
  assert (E15 : b2 (-33) * 262144 = b2 (-15)) by (change 262144 with (b2 18); rewrite <- bpow_plus; reflexivity). assert (L15 : b2 (-15) <= / 1024) by (change (/ 1024) with (b2 (-10)); apply bpow_le; lia).
  pose proof (back_near (l_arctan2 L) (l_arccos L) x y z Q (230000 * d) O1 O2 O3 O4 UQ ltac:(lra) EF) as BN.
  destruct (cart2sphere_d (l_arctan2 L) (l_arccos L) x y z dzero dzero dzero) as [[r p] t]. destruct BN as (B1 & B2' & B3 & B4 & h & H0 & HX & HY & HZ). exists p, t. split; [reflexivity|]. do 4 (split; [assumption|]). exists h. split; [exact H0|].
  assert (E32 : b2 (-32) / W = 2097152 * d). { unfold d, u. change (-32)%Z with (21 + -53)%Z. rewrite bpow_plus. change (b2 21) with 2097152. change (- (53))%Z with (-53)%Z. field. lra. }
  rewrite E32. split; [lra|]. split; lra.
Qed.

(** Every point moves as under the rotation about [start x end] that takes one
    position to the other, up to [2^-32] divided by the sine of their distance. *)
Theorem C104_rotation : forall L phi theta pe te ps ts, accurate L -> accepted pe te ps ts ->
  fin phi -> Rabs (val phi) <= 8 -> fin theta -> Rabs (val theta) <= 8 ->
  let U := dir (val ps) (val ts) in
  let V := dir (val pe) (val te) in
  let W := sqrt (dot (cross U V) (cross U V)) in
  let Q := rodrigues (vscale (/ W) (cross U V)) (acos (dot U V)) (dir (val phi) (val theta)) in
  b2 (-20) <= W ->
  exists p t, usphere_rotate_d L phi theta pe te ps ts = Ok (p, t) /\
    fin p /\ 0 <= val p <= tau /\ fin t /\ 0 <= val t <= tau / 2 /\
    exists h, 0 <= h /\ Rabs (h * cos (val p) - vx Q) <= b2 (-32) / W /\ Rabs (h * sin (val p) - vy Q) <= b2 (-32) / W /\ Rabs (cos (val t) - vz Q) <= b2 (-32) / W.
Proof.
  intros L phi theta pe te ps ts AL A Fp Hp Ft Ht. apply rotate_near; [exact AL|exact A|apply dir_unit|]. destruct AL as (Nc & Ns & _). apply vwithin_le with (8 * u); [pose proof u_pos; lra|]. now apply on_sphere_near.
Qed.
Print Assumptions C104_rotation.

(** In particular the start position goes to the end position. *)
Theorem C104_start_to_end : forall L pe te ps ts, accurate L -> accepted pe te ps ts ->
  let U := dir (val ps) (val ts) in
  let V := dir (val pe) (val te) in
  let W := sqrt (dot (cross U V) (cross U V)) in
  b2 (-20) <= W ->
  exists p t, usphere_rotate_d L ps ts pe te ps ts = Ok (p, t) /\
    exists h, 0 <= h /\ Rabs (h * cos (val p) - vx V) <= b2 (-32) / W /\ Rabs (h * sin (val p) - vy V) <= b2 (-32) / W /\ Rabs (cos (val t) - cos (val te)) <= b2 (-32) / W.
Proof.
  intros L pe te ps ts AL A U V W HW. pose proof tau_bounds as TB. pose proof A as ((Fps & Bps) & _ & (Fts & Bts) & _).
  destruct (C104_rotation L ps ts pe te ps ts AL A Fps ltac:(apply Rabs_le; lra) Fts ltac:(apply Rabs_le; lra) HW) as (p & t & E & _ & _ & _ & _ & h & H0 & HX & HY & HZ). exists p, t. split; [exact E|]. exists h. split; [exact H0|].
  assert (RE : rodrigues (vscale (/ W) (cross U V)) (acos (dot U V)) U = V). { apply (rod_start_end U V); [apply dir_unit|apply dir_unit|]. change (nrm (cross U V)) with W. pose proof (bpow_gt_0 radix2 (-20)). lra. }
  fold U V W in HX, HY, HZ. rewrite RE in HX, HY, HZ. auto.
Qed.
Print Assumptions C104_start_to_end.

(** Arrays of points: every point is rotated as on its own. *)
Theorem C104_arrays : forall L phi theta pe te ps ts, length phi = length theta ->
  match usphere_rotate_arr_d L phi theta pe te ps ts with
  | Ok (p, t) => length p = length phi /\ length t = length phi /\
      forall i z, (i < length phi)%nat -> usphere_rotate_d L (nth i phi z) (nth i theta z) pe te ps ts = Ok (nth i p z, nth i t z)
  | Err e => forall a b, usphere_rotate_d L a b pe te ps ts = Err e
  end.
Proof.
  intros L phi theta pe te ps ts HL. unfold usphere_rotate_arr_d, usphere_rotate_d. destruct (rotate_setup_d L pe te ps ts) as [f|e]; cbn [bind]; [|reflexivity].
  assert (LM : length (map2 (rotate_point_d L f) phi theta) = length phi) by (clear -HL; revert theta HL; induction phi as [|a l IH]; intros [|b m] HL; try discriminate HL; cbn; [reflexivity|f_equal; apply IH; cbn in HL; lia]).
  rewrite !map_length. split; [exact LM|]. split; [exact LM|]. intros i z Hi. f_equal. clear LM. revert theta i HL Hi. induction phi as [|a l IH]; intros [|b m] i HL Hi; try discriminate HL; [cbn in Hi; lia|].
  destruct i as [|i]; cbn; [destruct (rotate_point_d L f a b); reflexivity|]. apply IH; cbn in HL, Hi; lia.
Qed.
Print Assumptions C104_arrays.

(** ** Shifts along the sky *)

Definition placed (phi theta : double) : Prop := (fin phi /\ 0 <= val phi <= tau) /\ fin theta /\ 0 <= val theta <= tau / 2.

(** A shift adds the difference of the longitudes, then tilts along the meridian
    of the end position: the result is within [2^-32] over the sine of the
    tilt of the exact one. Differences of longitudes that round to a whole turn
    are refused. *)
Theorem C104_shift : forall L phi theta ps ts pe te, accurate L -> fin phi -> 0 <= val phi <= tau -> fin theta -> Rabs (val theta) <= 8 ->
  placed ps ts -> placed pe te ->
  if Rlt_dec (Rabs (val (dsub pe ps))) tau then
    let Q := rodrigues (east (val pe)) (val te - val ts) (dir (val phi + (val pe - val ps)) (val theta)) in
    let s := Rabs (sin (val te - val ts)) in
    if Req_EM_T (val ts) (val te) then
      exists p, usphere_shift_d L phi theta ps ts pe te = Ok (p, theta) /\ fin p /\ 0 <= val p <= tau /\
        exists k : Z, Rabs (val p - (val phi + (val pe - val ps) + IZR k * (2 * PI))) <= b2 (-48)
    else b2 (-20) <= s ->
      exists p t, usphere_shift_d L phi theta ps ts pe te = Ok (p, t) /\
        fin p /\ 0 <= val p <= tau /\ fin t /\ 0 <= val t <= tau / 2 /\
        exists h, 0 <= h /\ Rabs (h * cos (val p) - vx Q) <= b2 (-32) / s /\ Rabs (h * sin (val p) - vy Q) <= b2 (-32) / s /\ Rabs (cos (val t) - vz Q) <= b2 (-32) / s
  else usphere_shift_d L phi theta ps ts pe te = Err AssertionError.
Proof.
  intros L phi theta ps ts pe te AL Fp Hp Ft Ht ((Fps & Bps) & Fts & Bts) ((Fpe & Bpe) & Fte & Bte). pose proof tau_bounds as TB. pose proof pi_accuracy as PA. pose proof u_pos as U0. unfold usphere_shift_d.
  rewrite (proj2 (within_ok ps twopi (or_introl eq_refl))) by (rewrite (proj2 twopi_val); auto). rewrite (proj2 (within_ok pe twopi (or_introl eq_refl))) by (rewrite (proj2 twopi_val); auto). rewrite (proj2 (within_ok ts pi_d (or_intror eq_refl))) by (rewrite (proj2 pi_val); auto). rewrite (proj2 (within_ok te pi_d (or_intror eq_refl))) by (rewrite (proj2 pi_val); auto). cbn [py_assert].
  assert (DB : Rabs (val pe - val ps) <= 7) by (apply Rabs_le; lra). destruct (dsub_ok pe ps Fpe Fps) as [FD VD]; [apply small_lt; lra|].
  assert (Ur : u <= u <= b2 (-30)) by (split; [lra|unfold u; apply bpow_le; lia]). pose proof (rnd u Ur _ _ DB) as RD. rewrite <- VD in RD. set (dp := dsub pe ps) in *.
  assert (E49 : b2 (-49) = 16 * u) by (unfold u; change (-49)%Z with (4 + -53)%Z; rewrite bpow_plus; reflexivity). assert (E48 : b2 (-48) = 32 * u) by (unfold u; change (-48)%Z with (5 + -53)%Z; rewrite bpow_plus; reflexivity).
  destruct (Rlt_dec (Rabs (val dp)) tau) as [LT|GE].
  2:{ pose proof (C81_shift phi dp Fp Hp FD) as C. destruct (Rlt_dec (Rabs (val dp)) tau); [contradiction|]. rewrite C. reflexivity. }
  destruct (C81_true_shift phi dp Fp Hp FD LT) as (np & -> & Fn & Bn & _ & k & _ & En). cbn [bind]. rewrite E49 in En.
  assert (EN : Rabs (val np - (val phi + (val pe - val ps) + IZR k * (2 * PI))) <= 24 * u) by (apply Rabs_le_inv in En, RD; apply Rabs_le; lra).
  cbv zeta. rewrite (deq_ok ts te Fts Fte). destruct (Req_EM_T (val ts) (val te)) as [EQ|NE].
  - rewrite Req_bool_true by exact EQ. cbn [negb]. exists np. split; [reflexivity|]. split; [exact Fn|]. split; [exact Bn|]. exists k. rewrite E48. lra.
  - rewrite Req_bool_false by exact NE. cbn [negb]. intros HS.
    assert (A : accepted pe te pe ts) by (repeat split; auto; lra).
    set (ps2 := val phi + (val pe - val ps)) in *. assert (EP : vwithin (40 * u) (on_sphere_d L np theta) (dir ps2 (val theta))).
    { destruct AL as (Nc & Ns & _). pose proof (on_sphere_near L np theta Nc Ns Fn ltac:(apply Rabs_le; lra) Ft Ht) as G. destruct (on_sphere_d L np theta) as [[x y] z]. destruct G as ((Fx & Ex) & (Fy & Ey) & (Fz & Ez)). cbn [vwithin dir vx vy vz] in *.
      assert (CC : Rabs (cos (val np) - cos ps2) <= 24 * u) by (rewrite <- (cos_turns ps2 k); pose proof (cos_lip (val np) (ps2 + IZR k * (2 * PI))); lra). assert (SS : Rabs (sin (val np) - sin ps2) <= 24 * u) by (rewrite <- (sin_turns ps2 k); pose proof (sin_lip (val np) (ps2 + IZR k * (2 * PI))); lra).
      assert (SB : Rabs (sin (val theta)) <= 1) by (apply Rabs_le; apply SIN_bound).
      assert (M : forall a b, Rabs (a - b) <= 24 * u -> Rabs (a * sin (val theta) - b * sin (val theta)) <= 24 * u). { intros a b H. rewrite <- Rmult_minus_distr_r, Rabs_mult. apply Rle_trans with (24 * u * 1); [apply Rmult_le_compat; try apply Rabs_pos; assumption|lra]. }
      apply M in CC, SS. split; [|split]; (split; [assumption|]); apply Rabs_le_inv in CC, SS, Ex, Ey, Ez; apply Rabs_le; lra. }
    assert (DP : Rabs (val te - val ts) < PI) by (apply Rabs_lt; lra).
    assert (WE : sqrt (dot (cross (dir (val pe) (val ts)) (dir (val pe) (val te))) (cross (dir (val pe) (val ts)) (dir (val pe) (val te)))) = Rabs (sin (val te - val ts))).
    { change (nrm (cross (dir (val pe) (val ts)) (dir (val pe) (val te))) = Rabs (sin (val te - val ts))). rewrite meridian_cross. apply nrm_scale, east_unit. }
    pose proof (rotate_near L np theta pe te pe ts _ AL A (dir_unit _ _) EP) as G. cbv zeta in G. rewrite WE in G. specialize (G HS).
    assert (ME := meridian_rot (val pe) (val ts) (val te) (dir ps2 (val theta)) ltac:(lra) ltac:(lra) NE DP). unfold unit_of, nrm in ME. rewrite WE in ME. rewrite ME in G. exact G.
Qed.
Print Assumptions C104_shift.
