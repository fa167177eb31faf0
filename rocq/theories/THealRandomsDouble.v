(** * C99: random points of a HEALPix pixel in double precision

    [randoms_healpix_pixel(size, p, nside)] for every [nside] up to 27397078: the
    centre [(xp, yp)] is what [healpix_pix2xy] computes ([MIndexFloat.v]); [ux] and
    [uy] are any draws of [np.random.random_sample].  The true point of the plane is
    [(xc + drawn_across, yc + drawn_up)], [(xc, yc)] the true centre. *)

From Coq Require Import Reals ZArith List Bool Lia Lra.
From Flocq Require Import Core IEEE754.BinarySingleNaN.
From Verif Require Import Base BaseP Spec MHealpixIndex PHealpixIndex PHealpixCentre THealpix MHealpixFloat PHealpixFloat MIndexFloat SpecDouble SpecCoordsDouble SpecRandomsDouble SpecHealRandomsDouble MDouble PDouble PPiDouble PSumDouble MGridsDouble PGridsDouble MRemapDouble PRemapDouble2 MRandomsDouble PRandomsDouble PLibmDouble PTripDouble MHealCoordDouble PHealCoordDouble PHealCoordDouble2 PHealCoordDouble3 PHealCoordDouble4 MHealRandomsDouble PHealRandomsDouble PHealRandomsDouble2 PHealRandomsDouble3 PHealRandomsDouble4 PHealRandomsDouble5 PHealRandomsDouble6.
Import ListNotations.
Open Scope R_scope.

(** The centre is a pair of finite doubles: the hypotheses below are met for every
    pixel. *)
Theorem C99_centres : forall nside p, (1 <= nside <= 27397078)%Z -> legal_pix nside p ->
  exists xp yp xc yc, fin xp /\ fin yp /\ pix2xy_fl p nside = Ok (val xp, val yp) /\ pix2xy p nside = Ok (xc, yc).
Proof.
  intros n p Hn Hp. destruct (centres_exist n p Hn Hp) as (i & j & _ & E & F1 & F2). destruct (pix2xy_legal n p ltac:(lia) Hp) as (i' & j' & _ & E').
  eexists. eexists. eexists. eexists. split; [exact F1|]. split; [exact F2|]. split; [exact E|exact E'].
Qed.
Print Assumptions C99_centres.

(** The points of the plane: [size] of them, finite, each within [2^-46] of the true
    one up to turns of [2 pi]. *)
Theorem C99_points : forall nside p xp yp xc yc ux uy, (1 <= nside <= 27397078)%Z -> legal_pix nside p -> fin xp -> fin yp ->
  pix2xy_fl p nside = Ok (val xp, val yp) -> pix2xy p nside = Ok (xc, yc) -> length ux = length uy -> draws ux -> draws uy ->
  let xs := fst (randoms_xy_d ux uy xp yp nside) in let ys := snd (randoms_xy_d ux uy xp yp nside) in let d := half_diag nside in
  length xs = length ux /\ length ys = length ux /\
  forall q, (q < length ux)%nat ->
    let x := nth q xs dzero in let y := nth q ys dzero in let a := val (nth q ux dzero) in let b := val (nth q uy dzero) in
    fin x /\ fin y /\ 0 <= val x <= tau /\
    (exists m : Z, (-1 <= m <= 1)%Z /\ Rabs (val x + 2 * PI * IZR m - (xc + drawn_across d a)) <= b2 (-47)) /\
    Rabs (val y - (yc + drawn_up d a b)) <= b2 (-46).
Proof.
  intros n p xp yp xc yc ux uy Hn Hp Fx Fy Ef Ee Hl Hx Hy xs ys d. destruct (length_randoms_xy_d ux uy xp yp n) as [L1 L2]. split; [exact L1|]. split; [exact L2|]. intros q Hq x y a b.
  destruct (Hx q Hq) as [i Hi]. destruct (Hy q ltac:(lia)) as [j Hj]. destruct (draw_range _ _ Hi) as [Fa _]. destruct (randoms_xy_nth ux uy xp yp n q Hl Hq Fa) as [E1 E2]. unfold x, y, xs, ys. rewrite E1, E2.
  destruct (drawn_point n p xp yp xc yc _ _ i j Hn Hp Fx Fy Ef Ee Hi Hj) as (Fpx & Fpy & Bx & _ & Ey & _ & _ & _ & m & Im & Em). pose proof u_tiny as U.
  assert (B46 : b2 (-46) = 128 * u) by (unfold u; change (-46)%Z with (7 + -53)%Z; rewrite bpow_plus; reflexivity). rewrite B46, b47. do 3 (split; [assumption|]). split; [exists m; split; [exact Im|]|]; unfold d, a, b; (eapply Rle_trans; [first [exact Em|exact Ey]|lra]).
Qed.
Print Assumptions C99_points.

(** Every point is in the pixel asked for, or outside by at most [2^-45]. *)
Theorem C99_diamond : forall nside p xp yp xc yc ux uy, (1 <= nside <= 27397078)%Z -> legal_pix nside p -> fin xp -> fin yp ->
  pix2xy_fl p nside = Ok (val xp, val yp) -> pix2xy p nside = Ok (xc, yc) -> length ux = length uy -> draws ux -> draws uy ->
  forall q, (q < length ux)%nat ->
    let x := nth q (fst (randoms_xy_d ux uy xp yp nside)) dzero in let y := nth q (snd (randoms_xy_d ux uy xp yp nside)) dzero in
    exists m : Z, l1 (val x + 2 * PI * IZR m) (val y) xc yc <= half_diag nside + b2 (-45).
Proof.
  intros n p xp yp xc yc ux uy Hn Hp Fx Fy Ef Ee Hl Hx Hy q Hq x y.
  destruct (Hx q Hq) as [i Hi]. destruct (Hy q ltac:(lia)) as [j Hj]. destruct (draw_range _ _ Hi) as [Fa _]. destruct (randoms_xy_nth ux uy xp yp n q Hl Hq Fa) as [E1 E2]. unfold x, y. rewrite E1, E2.
  destruct (drawn_point n p xp yp xc yc _ _ i j Hn Hp Fx Fy Ef Ee Hi Hj) as (_ & _ & _ & _ & Ey & _ & UR & _ & m & _ & Em). pose proof u_tiny as U.
  change (B754_zero false : binary_float 53 1024) with dzero in *. set (a := nth q ux dzero) in *. set (b := nth q uy dzero) in *.
  exists m. assert (B45 : b2 (-45) = 256 * u) by (unfold u; change (-45)%Z with (8 + -53)%Z; rewrite bpow_plus; reflexivity). rewrite B45. unfold l1.
  set (X := val (mod_d (point_x xp n a) twopi) + 2 * PI * IZR m) in *. set (Y := val (point_y xp yp n a b)) in *. set (ac := drawn_across (half_diag n) (val a)) in *. set (up := drawn_up (half_diag n) (val a) (val b)) in *.
  assert (Rabs (X - xc) <= 57 * u + Rabs ac) by (replace (X - xc) with ((X - (xc + ac)) + ac) by ring; apply abs_split; [exact Em|lra]).
  assert (Rabs (Y - yc) <= 69 * u + Rabs up) by (replace (Y - yc) with ((Y - (yc + up)) + up) by ring; apply abs_split; [exact Ey|lra]). change (Rabs (X - xc) + Rabs (Y - yc) <= half_diag n + 256 * u). lra.
Qed.
Print Assumptions C99_diamond.

(** A point whose true position is [2^-45] inside the edges is in the pixel asked for
    and in no other. *)
Theorem C99_interior : forall nside p xp yp xc yc ux uy, (1 <= nside <= 27397078)%Z -> legal_pix nside p -> fin xp -> fin yp ->
  pix2xy_fl p nside = Ok (val xp, val yp) -> pix2xy p nside = Ok (xc, yc) -> length ux = length uy -> draws ux -> draws uy ->
  forall q, (q < length ux)%nat ->
    let x := nth q (fst (randoms_xy_d ux uy xp yp nside)) dzero in let y := nth q (snd (randoms_xy_d ux uy xp yp nside)) dzero in
    let a := val (nth q ux dzero) in let b := val (nth q uy dzero) in let d := half_diag nside in
    Rabs (drawn_across d a) + Rabs (drawn_up d a b) <= d - b2 (-45) ->
    in_open_diamond nside xc yc (val x) (val y) /\
    forall p' xc' yc', legal_pix nside p' -> p' <> p -> pix2xy p' nside = Ok (xc', yc') -> ~ in_open_diamond nside xc' yc' (val x) (val y).
Proof.
  intros n p xp yp xc yc ux uy Hn Hp Fx Fy Ef Ee Hl Hx Hy q Hq x y a0 b0 d0 UR.
  destruct (Hx q Hq) as [i Hi]. destruct (Hy q ltac:(lia)) as [j Hj]. destruct (draw_range _ _ Hi) as [Fa _]. destruct (randoms_xy_nth ux uy xp yp n q Hl Hq Fa) as [E1 E2]. unfold x, y. rewrite E1, E2. clear x y.
  destruct (drawn_point n p xp yp xc yc _ _ i j Hn Hp Fx Fy Ef Ee Hi Hj) as (_ & _ & _ & _ & Ey & _ & _ & _ & m & _ & Em). pose proof u_tiny as U. unfold a0, b0, d0 in UR. clear a0 b0 d0.
  change (B754_zero false : binary_float 53 1024) with dzero in *. set (a := nth q ux dzero) in *. set (b := nth q uy dzero) in *.
  assert (B45 : b2 (-45) = 256 * u) by (unfold u; change (-45)%Z with (8 + -53)%Z; rewrite bpow_plus; reflexivity). rewrite B45 in UR.
  set (x := val (mod_d (point_x xp n a) twopi)) in *. set (Y := val (point_y xp yp n a b)) in *. set (ac := drawn_across (half_diag n) (val a)) in *. set (up := drawn_up (half_diag n) (val a) (val b)) in *.
  change (Rabs ac + Rabs up <= half_diag n - 256 * u) in UR.
  assert (D : in_open_diamond n xc yc x Y).
  { exists m. unfold l1. set (X := x + 2 * PI * IZR m) in *.
    assert (Rabs (X - xc) <= 57 * u + Rabs ac) by (replace (X - xc) with ((X - (xc + ac)) + ac) by ring; apply abs_split; [exact Em|lra]).
    assert (Rabs (Y - yc) <= 69 * u + Rabs up) by (replace (Y - yc) with ((Y - (yc + up)) + up) by ring; apply abs_split; [exact Ey|lra]). lra. }
  split; [exact D|]. intros p' xc' yc' Hp' N Ep' D'. exact (C06_diamonds_disjoint n p p' _ _ xc' yc' x Y ltac:(lia) Hp Hp' (not_eq_sym N) Ee Ep' D D').
Qed.
Print Assumptions C99_interior.

(** The sphere: the [q]-th result is the projection of the [q]-th point of the plane. *)
Theorem C99_sky : forall arccosd nside p xp yp xc yc ux uy, (1 <= nside <= 27397078)%Z -> legal_pix nside p -> fin xp -> fin yp ->
  pix2xy_fl p nside = Ok (val xp, val yp) -> pix2xy p nside = Ok (xc, yc) -> length ux = length uy -> draws ux -> draws uy ->
  let xs := fst (randoms_xy_d ux uy xp yp nside) in let ys := snd (randoms_xy_d ux uy xp yp nside) in
  let phi := fst (randoms_pixel_d arccosd ux uy xp yp nside) in let theta := snd (randoms_pixel_d arccosd ux uy xp yp nside) in
  length phi = length ux /\ length theta = length ux /\
  forall q, (q < length ux)%nat -> (nth q phi dzero, nth q theta dzero) = xy2ang_d arccosd (nth q xs dzero) (nth q ys dzero).
Proof.
  intros f n p xp yp xc yc ux uy Hn Hp Fx Fy Ef Ee Hl Hx Hy xs ys phi theta. destruct (length_randoms_xy_d ux uy xp yp n) as [L1 L2]. destruct (length_xy2ang_arr_d f xs ys) as [M1 M2].
  unfold phi, theta, randoms_pixel_d. fold xs ys. fold xs in L1. fold ys in L2. split; [exact (eq_trans M1 L1)|]. split; [exact (eq_trans M2 L1)|]. intros q Hq.
  destruct (C99_points n p xp yp xc yc ux uy Hn Hp Fx Fy Ef Ee Hl Hx Hy) as (_ & _ & K). destruct (K q Hq) as (_ & Fq & _). fold ys in Fq.
  pose proof (xy2ang_arr_nth f xs ys q (eq_trans L1 (eq_sym L2)) (Nat.lt_le_trans _ _ _ Hq (Nat.eq_le_incl _ _ (eq_sym L1)))) as [A1 A2]. rewrite A1, A2. replace (is_nan (nth q ys dzero)) with false by (destruct (nth q ys dzero); [reflexivity|discriminate Fq|discriminate Fq|reflexivity]). symmetry. apply surjective_pairing.
Qed.
Print Assumptions C99_sky.

(** The colatitude: a number from 0 to [np.pi] whose cosine is right to [2^-46]. *)
Theorem C99_colatitude : forall arccosd nside p xp yp xc yc ux uy, near_arccos arccosd -> arccos_ok arccosd -> (1 <= nside <= 27397078)%Z -> legal_pix nside p -> fin xp -> fin yp ->
  pix2xy_fl p nside = Ok (val xp, val yp) -> pix2xy p nside = Ok (xc, yc) -> length ux = length uy -> draws ux -> draws uy ->
  forall q, (q < length ux)%nat ->
    let theta := nth q (snd (randoms_pixel_d arccosd ux uy xp yp nside)) dzero in
    fin theta /\ 0 <= val theta <= tau / 2 /\
    Rabs (cos (val theta) - cos_colat (yc + drawn_up (half_diag nside) (val (nth q ux dzero)) (val (nth q uy dzero)))) <= b2 (-46).
Proof.
  intros f n p xp yp xc yc ux uy HA HO Hn Hp Fx Fy Ef Ee Hl Hx Hy q Hq theta. destruct (C99_sky f n p xp yp xc yc ux uy Hn Hp Fx Fy Ef Ee Hl Hx Hy) as (_ & _ & K). specialize (K q Hq). apply (f_equal snd) in K. cbn [fst snd] in K. unfold theta. rewrite K. clear K theta.
  destruct (Hx q Hq) as [i Hi]. destruct (Hy q ltac:(lia)) as [j Hj]. destruct (draw_range _ _ Hi) as [Fa _]. destruct (randoms_xy_nth ux uy xp yp n q Hl Hq Fa) as [E1 E2]. rewrite E1, E2.
  destruct (drawn_point n p xp yp xc yc _ _ i j Hn Hp Fx Fy Ef Ee Hi Hj) as (_ & Fpy & _ & By & Ey & Bye & _ & _ & _).
  change (B754_zero false : binary_float 53 1024) with dzero in *. set (a := nth q ux dzero) in *. set (b := nth q uy dzero) in *. set (x := mod_d (point_x xp n a) twopi) in *. set (y := point_y xp yp n a b) in *. set (ye := yc + drawn_up (half_diag n) (val a) (val b)) in *.
  change (Rabs (val y - ye) <= 69 * u) in Ey. change (Rabs ye <= PI / 2) in Bye.
  destruct (theta_range f x y HO Fpy By) as [Ft Bt]. split; [exact Ft|]. split; [exact Bt|]. destruct pi_u as (A & B & C). pose proof u_tiny as U.
  pose proof (colat_ok f x y HA Fpy By) as CO. pose proof (colat_lip (val y) ye By ltac:(lra)) as CL.
  assert (B46 : b2 (-46) = 128 * u) by (unfold u; change (-46)%Z with (7 + -53)%Z; rewrite bpow_plus; reflexivity). rewrite B46.
  apply Rabs_le_inv in CO. assert (CL' : Rabs (cos_colat (val y) - cos_colat ye) <= 62.1 * u) by lra. apply Rabs_le_inv in CL'. set (th := val (snd (xy2ang_d f x y))) in *. change (Rabs (cos th - cos_colat ye) <= 128 * u). apply Rabs_le. lra.
Qed.
Print Assumptions C99_colatitude.

(** The longitude.  In the belt it is the true abscissa to [2^-45].  In a polar
    facet, whose meridian in the middle is [F], the true longitude is
    [F + (xe - F) / w] with [w = 2 - 4 |ye| / pi], 0 at the pole: the error, times
    [w], is at most [2^-39] everywhere and [2^-43] unless [w] is below [2^-20]. *)
Theorem C99_longitude : forall arccosd nside p xp yp xc yc ux uy, (1 <= nside <= 27397078)%Z -> legal_pix nside p -> fin xp -> fin yp ->
  pix2xy_fl p nside = Ok (val xp, val yp) -> pix2xy p nside = Ok (xc, yc) -> length ux = length uy -> draws ux -> draws uy ->
  forall q, (q < length ux)%nat ->
    let phi := nth q (fst (randoms_pixel_d arccosd ux uy xp yp nside)) dzero in let d := half_diag nside in
    let xe := xc + drawn_across d (val (nth q ux dzero)) in let ye := yc + drawn_up d (val (nth q ux dzero)) (val (nth q uy dzero)) in
    fin phi /\ exists m : Z, (-1 <= m <= 1)%Z /\
    (Rabs ye <= PI / 4 -> Rabs (val phi + 2 * PI * IZR m - xe) <= b2 (-45)) /\
    (PI / 4 < Rabs ye -> exists k : Z, (0 <= k <= 3)%Z /\
      let F := (2 * IZR k + 1) * (PI / 4) in let w := 2 - 4 * Rabs ye / PI in
      Rabs (xe - F) <= PI / 4 * w /\ Rabs (w * (val phi + 2 * PI * IZR m - F) - (xe - F)) <= b2 (-39) /\
      (b2 (-20) <= w -> Rabs (w * (val phi + 2 * PI * IZR m - F) - (xe - F)) <= b2 (-43))).
Proof.
  intros f n p xp yp xc yc ux uy Hn Hp Fx Fy Ef Ee Hl Hx Hy q Hq phi d xe ye. destruct (C99_sky f n p xp yp xc yc ux uy Hn Hp Fx Fy Ef Ee Hl Hx Hy) as (_ & _ & K). specialize (K q Hq). apply (f_equal fst) in K. cbn [fst snd] in K. unfold phi. rewrite K. clear K phi.
  destruct (Hx q Hq) as [i Hi]. destruct (Hy q ltac:(lia)) as [j Hj]. destruct (draw_range _ _ Hi) as [Fa _]. destruct (randoms_xy_nth ux uy xp yp n q Hl Hq Fa) as [E1 E2]. rewrite E1, E2.
  destruct (drawn_point n p xp yp xc yc _ _ i j Hn Hp Fx Fy Ef Ee Hi Hj) as (Fpx & Fpy & Bx & By & Ey & Bye & _ & FO & m & Im & Em).
  destruct (longitude_ok f _ _ m _ _ Fpx Bx Fpy By Im Em Ey Bye FO) as (Fp & K1 & K2). split; [exact Fp|]. exists m. split; [exact Im|]. pose proof u_tiny as U.
  assert (B45 : b2 (-45) = 256 * u) by (unfold u; change (-45)%Z with (8 + -53)%Z; rewrite bpow_plus; reflexivity). assert (B39 : b2 (-39) = 16384 * u) by (unfold u; change (-39)%Z with (14 + -53)%Z; rewrite bpow_plus; reflexivity). assert (B43 : b2 (-43) = 1024 * u) by (unfold u; change (-43)%Z with (10 + -53)%Z; rewrite bpow_plus; reflexivity).
  rewrite B45, B39, B43. split; [intro Q; eapply Rle_trans; [exact (K1 Q)|lra]|]. intro Q. destruct (K2 Q) as (k & Ik & K3 & K4 & K5). exists k. split; [exact Ik|]. split; [exact K3|]. split; [exact K4|]. intro W. specialize (K5 W). eapply Rle_trans; [exact K5|]. lra.
Qed.
Print Assumptions C99_longitude.

(** The abscissa can be the end [2 np.pi] that the [%] is there to exclude: a draw
    just left of the centre of pixel 4 of [nside = 1]. *)
Theorem C99_two_pi_refuted : exists nside p xp yp a b, (1 <= nside <= 27397078)%Z /\ legal_pix nside p /\ fin xp /\ fin yp /\
  pix2xy_fl p nside = Ok (val xp, val yp) /\ draws [a] /\ draws [b] /\
  val (nth 0 (fst (randoms_xy_d [a] [b] xp yp nside)) dzero) = val twopi.
Proof.
  destruct (centres_exist 1 4 ltac:(lia) ltac:(unfold legal_pix; lia)) as (i & j & P & E & F1 & F2).
  assert (P' : pixel_at 1 4 2 1) by (split; [split; split; vm_compute; discriminate|reflexivity]). destruct (pixel_at_unique 1 4 i j 2 1 ltac:(lia) P P') as [-> ->].
  exists 1%Z, 4%Z, (centre_d (jd2 1 2 1) 1), (centre_d (id2 1 2) 1), (dbl (2 ^ 52 - 1) (-53)), (dbl 1 (-1)). destruct (dbl_ok (2 ^ 52 - 1) (-53) ltac:(lia) ltac:(lia)) as [Fa Va]. destruct (dbl_ok 1 (-1) ltac:(lia) ltac:(lia)) as [Fb Vb].
  split; [lia|]. split; [unfold legal_pix; lia|]. do 2 (split; [assumption|]). split; [exact E|]. split; [|split].
  - intros q Hq. cbn [length] in Hq. replace q with 0%nat by lia. exists (2 ^ 52 - 1)%Z. split; [lia|]. split; [exact Fa|exact Va].
  - intros q Hq. cbn [length] in Hq. replace q with 0%nat by lia. exists (2 ^ 52)%Z. split; [lia|]. split; [exact Fb|]. cbn [nth]. rewrite Vb. change (IZR (2 ^ 52)) with (b2 52). rewrite <- bpow_plus, Rmult_1_l. reflexivity.
  - f_equal. apply B2SF_inj. vm_compute. reflexivity.
Qed.
Print Assumptions C99_two_pi_refuted.

(** The longitude can exceed [2 pi]: the topmost draw of pixel 3 of [nside = 1] gets
    the longitude 8. *)
Theorem C99_longitude_refuted : exists nside p xp yp a b, (1 <= nside <= 27397078)%Z /\ legal_pix nside p /\ fin xp /\ fin yp /\
  pix2xy_fl p nside = Ok (val xp, val yp) /\ draws [a] /\ draws [b] /\
  forall arccosd, val (nth 0 (fst (randoms_pixel_d arccosd [a] [b] xp yp nside)) dzero) = 8 /\ 8 > 2 * PI.
Proof.
  destruct (centres_exist 1 3 ltac:(lia) ltac:(unfold legal_pix; lia)) as (i & j & P & E & F1 & F2).
  assert (P' : pixel_at 1 3 1 4) by (split; [split; split; vm_compute; discriminate|reflexivity]). destruct (pixel_at_unique 1 3 i j 1 4 ltac:(lia) P P') as [-> ->].
  set (xp := centre_d (jd2 1 1 4) 1) in *. set (yp := centre_d (id2 1 1) 1) in *. set (a := dbl 1 (-1)). set (b := dbl (2 ^ 53 - 1) (-53)).
  exists 1%Z, 3%Z, xp, yp, a, b. destruct (dbl_ok (2 ^ 53 - 1) (-53) ltac:(lia) ltac:(lia)) as [Fb Vb]. destruct (dbl_ok 1 (-1) ltac:(lia) ltac:(lia)) as [Fa Va]. fold a in Fa, Va. fold b in Fb, Vb.
  split; [lia|]. split; [unfold legal_pix; lia|]. do 2 (split; [assumption|]). split; [exact E|].
  assert (Da : draws [a]). { intros q Hq. cbn [length] in Hq. replace q with 0%nat by lia. exists (2 ^ 52)%Z. split; [lia|]. split; [exact Fa|]. cbn [nth]. rewrite Va. change (IZR (2 ^ 52)) with (b2 52). rewrite <- bpow_plus, Rmult_1_l. reflexivity. }
  assert (Db : draws [b]). { intros q Hq. cbn [length] in Hq. replace q with 0%nat by lia. exists (2 ^ 53 - 1)%Z. split; [lia|]. split; [exact Fb|exact Vb]. }
  split; [exact Da|]. split; [exact Db|]. intro f. split; [|destruct pi_u; lra].
  destruct (pix2xy_legal 1 3 ltac:(lia) ltac:(unfold legal_pix; lia)) as (i' & j' & _ & E').
  destruct (C99_sky f 1 3 xp yp _ _ [a] [b] ltac:(lia) ltac:(unfold legal_pix; lia) F1 F2 E E' eq_refl Da Db) as (_ & _ & K). specialize (K 0%nat ltac:(cbn; lia)). apply (f_equal fst) in K. cbn [fst snd] in K. etransitivity; [exact (f_equal val K)|].
  assert (G : fst (xy2ang_d f (nth 0 (fst (randoms_xy_d [a] [b] xp yp 1)) dzero) (nth 0 (snd (randoms_xy_d [a] [b] xp yp 1)) dzero)) = fst (xy2ang_d (fun x => x) (nth 0 (fst (randoms_xy_d [a] [b] xp yp 1)) dzero) (nth 0 (snd (randoms_xy_d [a] [b] xp yp 1)) dzero))) by (unfold xy2ang_d; destruct (dle _ _); reflexivity).
  rewrite G. destruct (dbl_ok 8 0 ltac:(lia) ltac:(lia)) as [_ V8]. change (b2 0) with 1 in V8. rewrite Rmult_1_r in V8. rewrite <- V8. f_equal. apply B2SF_inj. vm_compute. reflexivity.
Qed.
Print Assumptions C99_longitude_refuted.

(** The ordinate can be above the pole: the topmost draw of pixel 0 of [nside = 7]
    is at [np.pi/2 + 2^-52]. *)
Theorem C99_over_pole_refuted : exists nside p xp yp a b, (1 <= nside <= 27397078)%Z /\ legal_pix nside p /\ fin xp /\ fin yp /\
  pix2xy_fl p nside = Ok (val xp, val yp) /\ draws [a] /\ draws [b] /\
  PI / 2 < val (nth 0 (snd (randoms_xy_d [a] [b] xp yp nside)) dzero).
Proof.
  destruct (centres_exist 7 0 ltac:(lia) ltac:(unfold legal_pix; lia)) as (i & j & P & E & F1 & F2).
  assert (P' : pixel_at 7 0 1 1) by (split; [split; split; vm_compute; discriminate|reflexivity]). destruct (pixel_at_unique 7 0 i j 1 1 ltac:(lia) P P') as [-> ->].
  exists 7%Z, 0%Z, (centre_d (jd2 7 1 1) 7), (centre_d (id2 7 1) 7), (dbl 1 (-1)), (dbl (2 ^ 53 - 1) (-53)). destruct (dbl_ok (2 ^ 53 - 1) (-53) ltac:(lia) ltac:(lia)) as [Fb Vb]. destruct (dbl_ok 1 (-1) ltac:(lia) ltac:(lia)) as [Fa Va].
  split; [lia|]. split; [unfold legal_pix; lia|]. do 2 (split; [assumption|]). split; [exact E|]. split; [|split].
  - intros q Hq. cbn [length] in Hq. replace q with 0%nat by lia. exists (2 ^ 52)%Z. split; [lia|]. split; [exact Fa|]. cbn [nth]. rewrite Va. change (IZR (2 ^ 52)) with (b2 52). rewrite <- bpow_plus, Rmult_1_l. reflexivity.
  - intros q Hq. cbn [length] in Hq. replace q with 0%nat by lia. exists (2 ^ 53 - 1)%Z. split; [lia|]. split; [exact Fb|exact Vb].
  - apply Rlt_le_trans with (val (dbl 7074237752028441 (-52))).
    + destruct (dbl_ok 7074237752028441 (-52) ltac:(lia) ltac:(lia)) as [_ ->]. destruct pi_accuracy as [_ A]. unfold tau in A.
      assert (B50 : b2 (-50) = 4 * b2 (-52)) by (change (-50)%Z with (2 + -52)%Z; rewrite bpow_plus; reflexivity). rewrite B50 in A. pose proof (bpow_gt_0 radix2 (-52)). lra.
    + apply Req_le. f_equal. apply B2SF_inj. vm_compute. reflexivity.
Qed.
Print Assumptions C99_over_pole_refuted.

(** The hypotheses are met: two draws in pixel 3 of [nside = 1]. *)
Example C99_example : exists xp yp xc yc a b, fin xp /\ fin yp /\ pix2xy_fl 3 1 = Ok (val xp, val yp) /\ pix2xy 3 1 = Ok (xc, yc) /\ draws [a; b] /\ draws [b; a] /\
  val a = / 4 /\ val b = / 2 /\ Rabs (drawn_across (half_diag 1) (/ 2)) + Rabs (drawn_up (half_diag 1) (/ 2) (/ 4)) <= half_diag 1 - b2 (-45) /\ near_arccos arccos_l /\ arccos_ok arccos_l.
Proof.
  destruct (C99_centres 1 3 ltac:(lia) ltac:(unfold legal_pix; lia)) as (xp & yp & xc & yc & F1 & F2 & E1 & E2). exists xp, yp, xc, yc, (dbl 1 (-2)), (dbl 1 (-1)). do 4 (split; [assumption|]).
  destruct (dbl_ok 1 (-2) ltac:(lia) ltac:(lia)) as [Fa Va]. destruct (dbl_ok 1 (-1) ltac:(lia) ltac:(lia)) as [Fb Vb].
  assert (Ka : kth_draw (2 ^ 51) (dbl 1 (-2))) by (split; [lia|]; split; [exact Fa|]; rewrite Va; change (IZR (2 ^ 51)) with (b2 51); rewrite <- bpow_plus, Rmult_1_l; reflexivity).
  assert (Kb : kth_draw (2 ^ 52) (dbl 1 (-1))) by (split; [lia|]; split; [exact Fb|]; rewrite Vb; change (IZR (2 ^ 52)) with (b2 52); rewrite <- bpow_plus, Rmult_1_l; reflexivity).
  split. { intros q Hq. cbn [length] in Hq. destruct q as [|[|q]]; [exists (2 ^ 51)%Z; exact Ka|exists (2 ^ 52)%Z; exact Kb|lia]. }
  split. { intros q Hq. cbn [length] in Hq. destruct q as [|[|q]]; [exists (2 ^ 52)%Z; exact Kb|exists (2 ^ 51)%Z; exact Ka|lia]. }
  change (b2 (-2)) with (/ 4) in Va. change (b2 (-1)) with (/ 2) in Vb. split; [lra|]. split; [lra|]. destruct libm_l as (_ & _ & _ & _ & _ & _ & Oa & Na). split; [|split; [exact Na|exact Oa]].
  assert (Z : drawn_across (half_diag 1) (/ 2) = 0) by (unfold drawn_across; destruct (Rle_lt_dec (/ 2) (/ 2)); [|lra]; replace (2 * / 2) with 1 by lra; rewrite sqrt_1; ring). unfold drawn_up. rewrite Z, Rabs_R0, Rminus_0_r.
  destruct pi_u as (A & B & C). assert (H : 0.7 <= half_diag 1) by (unfold half_diag; lra). set (d := half_diag 1) in *. rewrite Rabs_left1 by lra. assert (b2 (-45) <= / 1024) by (change (/ 1024) with (b2 (-10)); apply bpow_le; lia). lra.
Qed.
Print Assumptions C99_example.
