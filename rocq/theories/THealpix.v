(** * Property theorems: HEALPix indices, plane and sphere maps, outlines, randoms

    Each theorem is followed by its assumptions and by a concrete case meeting
    its hypotheses. *)

From Coq Require Import Reals ZArith List Bool Lia Lra.
From Coquelicot Require Import Coquelicot.
From Verif Require Import Base BaseP Spec
  MHealpixIndex MHealpixCoord MHealpixBoundary MRandomsHealpix
  PHealpixIndex PHealpixArray PHealpixCentre PHealpixTiling PHealpixCoord
  PHealpixNeigh PHealpixBoundary PRandomsHealpix.
Import ListNotations.
Open Scope R_scope.

(** ** C01 *)

(** pix2ij finds the ring and position of every pixel; ij2pix goes back. *)
Theorem C01_pix_to_ring : forall nside p, (1 <= nside)%Z -> legal_pix nside p ->
  exists i j, pix2ij p nside = Ok (i, j) /\ pixel_at nside p i j /\ ij2pix i j nside = p.
Proof. exact pix2ij_correct. Qed.
Print Assumptions C01_pix_to_ring.

Theorem C01_ring_to_pix : forall nside i j, (1 <= nside)%Z -> legal_ij nside i j ->
  legal_pix nside (ij2pix i j nside) /\ pixel_at nside (ij2pix i j nside) i j /\
  pix2ij (ij2pix i j nside) nside = Ok (i, j).
Proof. exact ij2pix_correct. Qed.
Print Assumptions C01_ring_to_pix.

(** The specification [pixel_at] determines the pair. *)
Theorem C01_pixel_at_unique : forall nside p i j i' j', (1 <= nside)%Z ->
  pixel_at nside p i j -> pixel_at nside p i' j' -> i = i' /\ j = j'.
Proof. exact pixel_at_unique. Qed.
Print Assumptions C01_pixel_at_unique.

(** Outside the map: p > 12 nside^2 and p < -1 raise, but the two adjacent
    values p = 12 nside^2 and p = -1 return an illegal pair. *)
Theorem C01_outside : forall nside p, (1 <= nside)%Z ->
  ((12 * nside ^ 2 < p)%Z -> pix2ij p nside = Err UnboundLocalError) /\
  ((p < -1)%Z -> pix2ij p nside = Err ValueError) /\
  pix2ij (12 * nside ^ 2) nside = Ok (4 * nside - 1, 5)%Z /\ pix2ij (-1) nside = Ok (1, 0)%Z /\
  ~ legal_ij nside (4 * nside - 1) 5 /\ ~ legal_ij nside 1 0.
Proof. exact pix2ij_outside. Qed.
Print Assumptions C01_outside.

(** Pixel 30 of nside 3 (odd): second belt ring, seventh pixel. *)
Example C01_case : legal_pix 3 30 /\ pix2ij 30 3 = Ok (4, 7)%Z /\ ij2pix 4 7 3 = 30%Z /\
  pixel_at 3 30 4 7.
Proof.
  assert (L : legal_ij 3 4 7) by (unfold legal_ij, ring_len; simpl; lia).
  destruct (C01_ring_to_pix 3 4 7 ltac:(lia) L) as [_ [A B]].
  change (ij2pix 4 7 3) with 30%Z in A, B. repeat split; auto; try apply L; try reflexivity;
  unfold legal_pix; lia.
Qed.

(** ** C04 *)

Theorem C04_pix2ij_array : forall p nside q, (1 <= nside)%Z -> (q < length p)%nat ->
  (nth q (fst (pix2ij_arr p nside)) None, nth q (snd (pix2ij_arr p nside)) None)
  = match pix2ij (nth q p 0%Z) nside with
    | Ok (i, j) => (Some i, Some j)
    | Err UnboundLocalError => (Some 0%Z, Some 0%Z)
    | Err _ => (None, None)
    end.
Proof. exact pix2ij_arr_spec. Qed.
Print Assumptions C04_pix2ij_array.

Theorem C04_pix2ij_array_length : forall p nside,
  length (fst (pix2ij_arr p nside)) = length p /\
  length (snd (pix2ij_arr p nside)) = length p.
Proof. exact length_pix2ij_arr. Qed.
Print Assumptions C04_pix2ij_array_length.

Theorem C04_ij2pix_array : forall ri rj nside, (1 <= nside)%Z -> length ri = length rj ->
  ij2pix_arr ri rj nside = map2 (fun i j => ij2pix i j nside) ri rj.
Proof. exact ij2pix_arr_spec. Qed.
Print Assumptions C04_ij2pix_array.

Theorem C04_j2jd_array : forall ri rj nside, (1 <= nside)%Z -> length ri = length rj ->
  j2jd_arr ri rj nside
  = map2 (fun i j => match j2jd i j nside with Ok x => Some x | Err _ => None end) ri rj.
Proof. exact j2jd_arr_spec. Qed.
Print Assumptions C04_j2jd_array.

Theorem C04_pix2xy_array : forall p nside, (1 <= nside)%Z ->
  (forall v, In v p -> legal_pix nside v) ->
  exists xs ys, pix2xy_arr p nside = Some (xs, ys) /\
    length xs = length p /\ length ys = length p /\
    forall q, (q < length p)%nat -> forall x y,
      pix2xy (nth q p 0%Z) nside = Ok (x, y) ->
      nth q xs None = Some x /\ nth q ys None = Some y.
Proof. exact pix2xy_arr_spec. Qed.
Print Assumptions C04_pix2xy_array.

Theorem C04_xy2ang_array : forall xs ys q, length xs = length ys -> (q < length xs)%nat ->
  nth q (fst (xy2ang_arr xs ys)) None = Some (fst (xy2ang (nth q xs 0) (nth q ys 0))) /\
  nth q (snd (xy2ang_arr xs ys)) None = snd (xy2ang (nth q xs 0) (nth q ys 0)).
Proof. exact xy2ang_arr_spec. Qed.
Print Assumptions C04_xy2ang_array.

Theorem C04_ang2xy_array : forall ps ts q, length ps = length ts -> (q < length ps)%nat ->
  nth q (fst (ang2xy_arr ps ts)) 0 = fst (ang2xy (nth q ps 0) (nth q ts 0)) /\
  nth q (snd (ang2xy_arr ps ts)) 0 = snd (ang2xy (nth q ps 0) (nth q ts 0)).
Proof. exact ang2xy_arr_spec. Qed.
Print Assumptions C04_ang2xy_array.

(** A pixel of the map next to one far outside it. *)
Example C04_case :
  nth 0 (fst (pix2ij_arr [30; 1000]%Z 3)) None = Some 4%Z /\
  nth 1 (fst (pix2ij_arr [30; 1000]%Z 3)) None = Some 0%Z /\
  pix2ij 1000 3 = Err UnboundLocalError.
Proof.
  pose proof (C04_pix2ij_array [30; 1000]%Z 3 0 ltac:(lia) ltac:(simpl; lia)) as A.
  pose proof (C04_pix2ij_array [30; 1000]%Z 3 1 ltac:(lia) ltac:(simpl; lia)) as B.
  destruct C01_case as [_ [E _]].
  assert (F : pix2ij 1000 3 = Err UnboundLocalError) by (apply C01_outside; lia).
  change (nth 0 [30; 1000]%Z 0%Z) with 30%Z in A. change (nth 1 [30; 1000]%Z 0%Z) with 1000%Z in B.
  rewrite E in A. rewrite F in B. split; [exact (f_equal fst A)|].
  split; [exact (f_equal fst B) | exact F].
Qed.

(** ** C05 *)

Theorem C05_pixel_centres : forall nside p, (1 <= nside)%Z -> legal_pix nside p ->
  exists i j x y theta, pixel_at nside p i j /\ pix2xy p nside = Ok (x, y) /\
    xy2ang x y = (centre_phi nside i j, Some theta) /\
    0 <= theta <= PI /\ cos theta = centre_z nside i.
Proof. exact pixel_centre. Qed.
Print Assumptions C05_pixel_centres.

(** Pixel 30 of nside 3: z = 4/9, phi = 6 * pi/6 = pi. *)
Example C05_case : exists x y theta, pix2xy 30 3 = Ok (x, y) /\
  xy2ang x y = (PI, Some theta) /\ cos theta = 4 / 9.
Proof.
  destruct (C05_pixel_centres 3 30 ltac:(lia) ltac:(unfold legal_pix; lia))
    as [i [j [x [y [theta [A [B [C [D E]]]]]]]]].
  destruct C01_case as [_ [_ [_ A']]].
  destruct (C01_pixel_at_unique 3 30 i j 4 7 ltac:(lia) A A') as [-> ->].
  exists x, y, theta. split; auto. split.
  - rewrite C. f_equal. unfold centre_phi. simpl. field.
  - rewrite E. unfold centre_z. simpl. field.
Qed.

(** ** C06 *)

Theorem C06_centres_apart : forall nside p q m x y x' y', (1 <= nside)%Z ->
  legal_pix nside p -> legal_pix nside q -> (p <> q \/ m <> 0%Z) ->
  pix2xy p nside = Ok (x, y) -> pix2xy q nside = Ok (x', y') ->
  2 * half_diag nside <= l1 (x + 2 * PI * IZR m) y x' y'.
Proof. exact centres_apart. Qed.
Print Assumptions C06_centres_apart.

Theorem C06_diamonds_disjoint : forall nside p q xp yp xq yq x y, (1 <= nside)%Z ->
  legal_pix nside p -> legal_pix nside q -> p <> q ->
  pix2xy p nside = Ok (xp, yp) -> pix2xy q nside = Ok (xq, yq) ->
  in_open_diamond nside xp yp x y -> in_open_diamond nside xq yq x y -> False.
Proof. exact diamonds_disjoint. Qed.
Print Assumptions C06_diamonds_disjoint.

Theorem C06_centres_in_range : forall nside p x y, (1 <= nside)%Z -> legal_pix nside p ->
  pix2xy p nside = Ok (x, y) ->
  0 <= x < 2 * PI /\ - (PI / 2) < y < PI / 2 /\ heal_region x y.
Proof. exact centre_range_region. Qed.
Print Assumptions C06_centres_in_range.

Theorem C06_diamonds_cover : forall nside x y, (1 <= nside)%Z -> heal_region x y ->
  exists p xc yc, legal_pix nside p /\ pix2xy p nside = Ok (xc, yc) /\ in_diamond nside xc yc x y.
Proof. exact cover. Qed.
Print Assumptions C06_diamonds_cover.

(** Neighbouring pixels 30 and 31 of nside 3: centres exactly two
    half-diagonals apart. *)
Example C06_case : exists x y x' y', pix2xy 30 3 = Ok (x, y) /\ pix2xy 31 3 = Ok (x', y') /\
  l1 x y x' y' = 2 * half_diag 3.
Proof.
  assert (L : legal_ij 3 4 7) by (unfold legal_ij, ring_len; simpl; lia).
  assert (L' : legal_ij 3 4 8) by (unfold legal_ij, ring_len; simpl; lia).
  destruct (C01_ring_to_pix 3 4 7 ltac:(lia) L) as [_ [_ B]].
  destruct (C01_ring_to_pix 3 4 8 ltac:(lia) L') as [_ [_ B']].
  change (ij2pix 4 7 3) with 30%Z in B. change (ij2pix 4 8 3) with 31%Z in B'.
  exists (IZR 12 * half_diag 3), (IZR 2 * half_diag 3), (IZR 14 * half_diag 3), (IZR 2 * half_diag 3).
  unfold pix2xy. rewrite B, B'. cbn [bind fst snd].
  rewrite !ij2xy_legal by lia.
  change (jd2 3 4 7) with 12%Z. change (jd2 3 4 8) with 14%Z. change (id2 3 4) with 2%Z.
  split; auto. split; auto. unfold l1.
  pose proof (half_diag_pos 3 ltac:(lia)).
  replace (12 * half_diag 3 - 14 * half_diag 3) with (- (2 * half_diag 3)) by ring.
  replace (2 * half_diag 3 - 2 * half_diag 3) with 0 by ring.
  rewrite Rabs_Ropp, Rabs_R0, Rabs_pos_eq; lra.
Qed.

(** The whole plane region is non-trivial: it contains a polar point. *)
Example C06_cover_case : heal_region (PI / 4) (3 * PI / 8).
Proof.
  pose proof PI_RGT_0. split; [lra|]. right. exists 0%Z. split; [lia|].
  rewrite (Rabs_pos_eq (3 * PI / 8)) by lra. rewrite Rabs_pos_eq; simpl; lra.
Qed.

(** ** C07 *)

Theorem C07_star_exact : forall nside p, (1 <= nside)%Z -> legal_pix nside p ->
  exists i j jd is js, pix2ij p nside = Ok (i, j) /\ j2jd i j nside = Ok jd /\
    ijd2ijs (i2id i nside) jd nside = (is, js) /\
    (0 <= is)%Z /\ (0 <= js)%Z /\
    IZR is = jd - i2id i nside + IZR nside / 2 - / 2 /\
    IZR js = jd + i2id i nside + IZR nside / 2 - / 2 /\
    ijs2ijd is js nside = (i2id i nside, jd).
Proof. exact star_exact. Qed.
Print Assumptions C07_star_exact.

Theorem C07_star_inverse : forall nside is js,
  let '(idash, jdash) := ijs2ijd is js nside in
  ijd2ijs idash jdash nside = (is, js).
Proof. exact star_inverse. Qed.
Print Assumptions C07_star_inverse.

Example C07_case : exists jd, pix2ij 25 4 = Ok (4, 2)%Z /\ j2jd 4 2 4 = Ok jd /\
  ijd2ijs (i2id 4 4) jd 4 = (1, 5)%Z.
Proof. destruct neighbours_interior_witness as [jd [A [B [C _]]]]. exists jd; auto. Qed.

(** ** C08 *)

(** For every pixel in the interior of a base face (and not on the phi = 0
    seam) both outputs have three entries; pairing them gives the pixel itself
    and two of its eight neighbours. *)
Theorem C08_interior_pairing_lost : forall nside p i j jd is js,
  (3 <= nside)%Z -> legal_pix nside p ->
  pix2ij p nside = Ok (i, j) -> j2jd i j nside = Ok jd ->
  ijd2ijs (i2id i nside) jd nside = (is, js) ->
  (0 < is mod nside < nside - 1)%Z -> (0 < js mod nside < nside - 1)%Z ->
  (nside + 1 <= is + js <= 9 * nside - 3)%Z ->
  combine (fst (ijs_neighbours is js nside)) (snd (ijs_neighbours is js nside))
  = [(is - 1, js - 1); (is, js); (is + 1, js + 1)]%Z /\
  length (fst (ijs_neighbours is js nside)) = 3%nat /\
  length (snd (ijs_neighbours is js nside)) = 3%nat.
Proof. exact neighbours_pairs. Qed.
Print Assumptions C08_interior_pairing_lost.

(** The expectation "the outputs pair up into the eight neighbours" fails. *)
Theorem C08_refuted : exists nside p i j jd is js,
  legal_pix nside p /\ pix2ij p nside = Ok (i, j) /\ j2jd i j nside = Ok jd /\
  ijd2ijs (i2id i nside) jd nside = (is, js) /\
  ~ In (is + 1, js)%Z
       (combine (fst (ijs_neighbours is js nside)) (snd (ijs_neighbours is js nside))) /\
  In (is, js) (combine (fst (ijs_neighbours is js nside)) (snd (ijs_neighbours is js nside))).
Proof. exact neighbours_refuted. Qed.
Print Assumptions C08_refuted.

Theorem C08_lengths_differ_refuted : exists nside p i j jd is js,
  legal_pix nside p /\ pix2ij p nside = Ok (i, j) /\ j2jd i j nside = Ok jd /\
  ijd2ijs (i2id i nside) jd nside = (is, js) /\
  length (fst (ijs_neighbours is js nside)) <> length (snd (ijs_neighbours is js nside)).
Proof. exact neighbours_lengths_refuted. Qed.
Print Assumptions C08_lengths_differ_refuted.

Example C08_case : exists jd, pix2ij 25 4 = Ok (4, 2)%Z /\ j2jd 4 2 4 = Ok jd /\
  ijd2ijs (i2id 4 4) jd 4 = (1, 5)%Z /\
  ijs_neighbours 1 5 4 = ([0; 1; 2], [4; 5; 6])%Z.
Proof. exact neighbours_interior_witness. Qed.

(** ** C09 *)

Theorem C09_outline : forall nside p xp yp steps reverse,
  (1 <= nside)%Z -> pix2xy p nside = Ok (xp, yp) -> (0 <= steps)%Z ->
  exists xs ys, boundary p nside steps false = Ok (xs, ys) /\
  boundary p nside steps reverse = Ok (if reverse then (rev xs, rev ys) else (xs, ys)) /\
  length xs = Z.to_nat steps /\ length ys = Z.to_nat steps /\
  (forall q, (q < length xs)%nat -> l1 (nth q xs 0) (nth q ys 0) xp yp = half_diag nside) /\
  ((8 <= steps)%Z -> exists a b c : nat, (0 < a < b)%nat /\ (b < c < length xs - 1)%nat /\
     nth 0 xs 0 = xp - half_diag nside /\ nth 0 ys 0 = yp /\
     nth a xs 0 = xp /\ nth a ys 0 = yp + half_diag nside /\
     nth b xs 0 = xp + half_diag nside /\ nth b ys 0 = yp /\
     nth c xs 0 = xp /\ nth c ys 0 = yp - half_diag nside /\
     nth (length xs - 1) xs 0 = xp - half_diag nside /\ nth (length xs - 1) ys 0 = yp /\
     (forall q, (q <= b)%nat -> yp <= nth q ys 0) /\
     (forall q, (b < q < length xs)%nat -> nth q ys 0 <= yp)).
Proof. exact boundary_spec. Qed.
Print Assumptions C09_outline.

Theorem C09_halves : forall nside p xp yp steps reverse,
  (1 <= nside)%Z -> pix2xy p nside = Ok (xp, yp) -> (0 <= steps)%Z ->
  exists xt yt xb yb,
  boundary_top p nside steps false = Ok (xt, yt) /\
  boundary_top p nside steps reverse = Ok (if reverse then (rev xt, rev yt) else (xt, yt)) /\
  boundary_bot p nside steps false = Ok (xb, yb) /\
  boundary_bot p nside steps reverse = Ok (if reverse then (rev xb, rev yb) else (xb, yb)) /\
  length xt = Z.to_nat steps /\ length yt = Z.to_nat steps /\
  length xb = Z.to_nat steps /\ length yb = Z.to_nat steps /\
  (forall q, (q < length xt)%nat ->
     l1 (nth q xt 0) (nth q yt 0) xp yp = half_diag nside /\ yp <= nth q yt 0) /\
  (forall q, (q < length xb)%nat ->
     l1 (nth q xb 0) (nth q yb 0) xp yp = half_diag nside /\ nth q yb 0 <= yp).
Proof. exact boundary_halves. Qed.
Print Assumptions C09_halves.

Theorem C09_negative_steps : forall nside p steps reverse, (1 <= nside)%Z -> legal_pix nside p ->
  (steps < 0)%Z -> boundary p nside steps reverse = Err ValueError.
Proof. exact boundary_negative. Qed.
Print Assumptions C09_negative_steps.

Example C09_case : exists xp yp xs ys, pix2xy 30 3 = Ok (xp, yp) /\
  boundary 30 3 40 true = Ok (xs, ys) /\ length xs = 40%nat.
Proof.
  destruct C06_case as [x [y [_ [_ [E _]]]]].
  destruct (C09_outline 3 30 x y 40 true ltac:(lia) E ltac:(lia)) as [xs [ys [_ [B [L _]]]]].
  exists x, y, (rev xs), (rev ys). split; auto. split; auto. rewrite rev_length. exact L.
Qed.

(** ** C10 *)

Theorem C10_randoms_in_diamond : forall nside p xp yp ux uy,
  (1 <= nside)%Z -> pix2xy p nside = Ok (xp, yp) -> length ux = length uy ->
  (forall u, In u ux -> 0 <= u < 1) -> (forall v, In v uy -> 0 <= v < 1) ->
  exists xs ys, randoms_healpix_xy ux uy p nside = Ok (xs, ys) /\
    length xs = length ux /\ length ys = length ux /\
    forall q, (q < length ux)%nat -> 0 <= nth q xs 0 < 2 * PI /\
      exists m : Z, let x := nth q xs 0 + 2 * PI * IZR m in let y := nth q ys 0 in
      let d := half_diag nside in let h := d - Rabs (x - xp) in
      (* in the diamond *)
      l1 x y xp yp <= d /\
      (* area of the diamond to the left of x = first draw * area of the diamond *)
      is_RInt (fun t => 2 * (d - Rabs (t - xp))) (xp - d) x (nth q ux 0 * (2 * d ^ 2)) /\
      (* second draw = relative height in the vertical chord through x *)
      0 <= h /\ y = (yp - h) + nth q uy 0 * (2 * h).
Proof. exact randoms_xy_spec. Qed.
Print Assumptions C10_randoms_in_diamond.

(** 2 d^2 is the area of the diamond. *)
Theorem C10_diamond_area : forall nside xp, (1 <= nside)%Z -> let d := half_diag nside in
  is_RInt (fun t => 2 * (d - Rabs (t - xp))) (xp - d) (xp + d) (2 * d ^ 2).
Proof. exact diamond_area. Qed.
Print Assumptions C10_diamond_area.

Example C10_case : exists xp yp xs ys, pix2xy 30 3 = Ok (xp, yp) /\
  randoms_healpix_xy [/ 8; 3 / 4] [/ 3; / 2] 30 3 = Ok (xs, ys) /\ length xs = 2%nat.
Proof.
  destruct C06_case as [x [y [_ [_ [E _]]]]].
  destruct (C10_randoms_in_diamond 3 30 x y [/ 8; 3 / 4] [/ 3; / 2] ltac:(lia) E eq_refl)
    as [xs [ys [B [L _]]]].
  { simpl. intros u [<-|[<-|[]]]; lra. } { simpl. intros u [<-|[<-|[]]]; lra. }
  exists x, y, xs, ys. auto.
Qed.

(** ** C11 *)

Theorem C11_randoms_project_back : forall nside p xp yp ux uy,
  (1 <= nside)%Z -> legal_pix nside p ->
  pix2xy p nside = Ok (xp, yp) -> length ux = length uy ->
  (forall u, In u ux -> 0 <= u < 1) -> (forall v, In v uy -> 0 < v < 1) ->
  exists phis thetas, randoms_healpix_pixel ux uy p nside = Ok (phis, thetas) /\
    length phis = length ux /\ length thetas = length ux /\
    forall q, (q < length ux)%nat -> exists phi theta,
      nth q phis None = Some phi /\ nth q thetas None = Some theta /\
      0 <= phi < 2 * PI /\ 0 < theta < PI /\
      in_diamond nside xp yp (fst (ang2xy phi theta)) (snd (ang2xy phi theta)).
Proof. exact randoms_pixel_spec. Qed.
Print Assumptions C11_randoms_project_back.

(** The exception: a second draw equal to 0 puts the point on the cut between
    two southern facets; projected back it is in another pixel's diamond. *)
Theorem C11_zero_draw_refuted :
  exists xp yp phi theta, pix2xy 8 1 = Ok (xp, yp) /\ legal_pix 1 8 /\
    randoms_healpix_pixel [3 / 4] [0] 8 1 = Ok ([Some phi], [Some theta]) /\
    ~ in_diamond 1 xp yp (fst (ang2xy phi theta)) (snd (ang2xy phi theta)).
Proof. exact randoms_cut_witness. Qed.
Print Assumptions C11_zero_draw_refuted.

(** A polar-cap pixel with four draws. *)
Example C11_case : exists xp yp phis thetas, pix2xy 0 2 = Ok (xp, yp) /\
  randoms_healpix_pixel [0; / 8; 3 / 4] [/ 3; / 2; / 5] 0 2 = Ok (phis, thetas) /\
  length phis = 3%nat.
Proof.
  assert (P : legal_pix 2 0) by (unfold legal_pix; lia).
  destruct (C05_pixel_centres 2 0 ltac:(lia) P) as [i [j [x [y [t [_ [E _]]]]]]].
  destruct (C11_randoms_project_back 2 0 x y [0; / 8; 3 / 4] [/ 3; / 2; / 5] ltac:(lia) P E eq_refl)
    as [f [th [B [L _]]]].
  { simpl. intros u [<-|[<-|[<-|[]]]]; lra. } { simpl. intros u [<-|[<-|[<-|[]]]]; lra. }
  exists x, y, f, th. auto.
Qed.

(** ** C12 *)

Theorem C12_sphere_plane_sphere : forall phi theta, 0 <= phi < 2 * PI -> 0 < theta < PI ->
  let '(x, y) := ang2xy phi theta in
  xy2ang x y = (phi, Some theta) /\ heal_chart x y.
Proof. exact ang_xy_ang. Qed.
Print Assumptions C12_sphere_plane_sphere.

Theorem C12_plane_sphere_plane : forall x y, heal_chart x y ->
  exists phi theta, xy2ang x y = (phi, Some theta) /\
    0 <= phi < 2 * PI /\ 0 < theta < PI /\ ang2xy phi theta = (x, y).
Proof. exact xy_ang_xy. Qed.
Print Assumptions C12_plane_sphere_plane.

Theorem C12_theta_range : forall x y phi theta,
  xy2ang x y = (phi, Some theta) -> 0 <= theta <= PI.
Proof. exact xy2ang_theta_range. Qed.
Print Assumptions C12_theta_range.

(** Apexes are the poles, for every x. *)
Theorem C12_poles : forall x,
  xy2ang x (PI / 2) = (0, Some 0) /\ xy2ang x (- (PI / 2)) = (0, Some PI).
Proof. exact xy2ang_pole. Qed.
Print Assumptions C12_poles.

(** Right edge of a triangle at height [(2-q) pi/4]: it comes back on the glued
    left edge of the next triangle. *)
Theorem C12_cut_edge : forall s q k, (s = 1 \/ s = -1) -> 0 < q < 1 -> (0 <= k <= 3)%Z ->
  let x := (2 * IZR k + 1) * (PI / 4) + q * (PI / 4) in
  let y := s * (2 - q) * (PI / 4) in
  fst (xy2ang x y) = (IZR k + 1) * (PI / 2) /\
  exists theta, snd (xy2ang x y) = Some theta /\ 0 < theta < PI /\
    ang2xy ((IZR k + 1) * (PI / 2)) theta = (x + 2 * (1 - q) * (PI / 4), y).
Proof. exact xy2ang_cut. Qed.
Print Assumptions C12_cut_edge.

(** A direction in the north polar cap. *)
Example C12_case : 0 <= 1 < 2 * PI /\ 0 < PI / 6 < PI /\ 2 / 3 < cos (PI / 6) /\
  let '(x, y) := ang2xy 1 (PI / 6) in xy2ang x y = (1, Some (PI / 6)).
Proof.
  pose proof PI_RGT_0. pose proof PI2_3_2. unfold PI2 in *.
  assert (A : 0 <= 1 < 2 * PI) by lra. assert (B : 0 < PI / 6 < PI) by lra.
  split; auto. split; auto. split.
  - rewrite cos_PI6. assert (4 / 3 < sqrt 3); [|lra].
    apply Rsqr_incrst_0; [rewrite Rsqr_sqrt by lra; unfold Rsqr; lra | lra | apply sqrt_pos].
  - pose proof (C12_sphere_plane_sphere 1 (PI / 6) A B) as C.
    destruct (ang2xy 1 (PI / 6)). apply C.
Qed.

(** ** C13 *)

(** dphi/dx * dz/dy = 8/(3 pi) with z independent of x, z = cos theta. *)
Theorem C13_equal_area : forall x y,
  (Rabs y < PI / 4 \/
   (PI / 4 < Rabs y < PI / 2 /\ exists k : Z, IZR k * (PI / 2) < x < (IZR k + 1) * (PI / 2))) ->
  let z := fun x y => match snd (xy2ang x y) with Some t => cos t | None => 0 end in
  exists a b, is_derive (fun t => fst (xy2ang t y)) x a /\
    is_derive (fun t => z x t) y b /\
    (forall t, z t y = z x y) /\
    a * b = 8 / (3 * PI).
Proof. exact equal_area. Qed.
Print Assumptions C13_equal_area.

(** 12 nside^2 pixel areas (diamond area times Jacobian) make up the sphere. *)
Theorem C13_total_area : forall nside, (1 <= nside)%Z ->
  12 * IZR nside ^ 2 * (2 * half_diag nside ^ 2 * (8 / (3 * PI))) = 4 * PI.
Proof. exact total_area. Qed.
Print Assumptions C13_total_area.

(** Hence the area on the sphere of every pixel is [4 pi / (12 nside^2)]: at
    each height [y] the image of the horizontal chord of the diamond is an arc
    of a parallel of length [a y] times the chord, the height of the parallel
    climbs at the rate [b y], and the area (arc times climb, by Archimedes'
    hat-box theorem) integrates to the equal share. *)
Theorem C13_pixel_area : forall nside p xp yp, (1 <= nside)%Z -> legal_pix nside p -> pix2xy p nside = Ok (xp, yp) ->
  let d := half_diag nside in
  let z := fun x y => match snd (xy2ang x y) with Some t => cos t | None => 0 end in
  exists a b : R -> R,
    (forall y x x', Rabs (x - xp) < d - Rabs (y - yp) -> Rabs (x' - xp) < d - Rabs (y - yp) ->
       fst (xy2ang x' y) - fst (xy2ang x y) = a y * (x' - x) /\ z x' y = z x y) /\
    (forall y, Rabs (y - yp) < d -> Rabs y <> PI / 4 -> 0 < a y /\ 0 < b y /\ is_derive (z xp) y (b y)) /\
    is_RInt (fun y => a y * (2 * (d - Rabs (y - yp))) * b y) (yp - d) (yp + d) (4 * PI / (12 * IZR nside ^ 2)).
Proof. exact pixel_area. Qed.
Print Assumptions C13_pixel_area.

Example C13_pixel_case : (1 <= 1)%Z /\ legal_pix 1 0 /\ exists xp yp, pix2xy 0 1 = Ok (xp, yp).
Proof.
  split; [lia|]. assert (L : legal_pix 1 0) by (unfold legal_pix; lia). split; [exact L|].
  destruct (pix2xy_legal 1 0 ltac:(lia) L) as (i & j & _ & E). do 2 eexists. exact E.
Qed.

Example C13_case : exists x, PI / 4 < Rabs (3 * PI / 8) < PI / 2 /\
  exists k : Z, IZR k * (PI / 2) < x < (IZR k + 1) * (PI / 2).
Proof.
  pose proof PI_RGT_0. exists (3 * (PI / 4)). rewrite Rabs_pos_eq by lra.
  split; [lra|]. exists 1%Z. lra.
Qed.
