(** * Proofs about [MRandomsHealpix.v] *)

From Coq Require Import Reals ZArith List Bool Lia Lra Psatz.
From Coquelicot Require Import Coquelicot.
From Flocq Require Import Core.Raux.
From Verif Require Import Base BaseP Spec MHealpixIndex MHealpixCoord MHealpixBoundary MRandomsHealpix
  PHealpixIndex PHealpixCentre PHealpixArray PHealpixTiling PHealpixCoord.
Import ListNotations.
Open Scope R_scope.

(** Unwrapped point of one pair of draws. *)
Definition draw_x (xp d u : R) : R :=
  if Rle_bool u (/ 2) then xp + d * (sqrt (2 * u) - 1) else xp + d * (1 - sqrt (2 * (1 - u))).
Definition draw_y (xp yp d u v : R) : R :=
  let x := draw_x xp d u in
  if Rle_bool u (/ 2) then 2 * (x - xp + d) * v + (- x + xp - d + yp)
  else 2 * (- x + xp + d) * v + (x - xp - d + yp).

Lemma length_randoms_xy : forall ux uy p nside xs ys,
  randoms_healpix_xy ux uy p nside = Ok (xs, ys) ->
  length xs = length ux /\ length ys = length ux.
Proof.
  intros ux uy p nside xs ys. unfold randoms_healpix_xy.
  destruct (pix2xy p nside) as [[xp yp]|]; cbn [bind]; [|discriminate]. intros H.
  injection H as <- <-. rewrite map_length, !length_put, !repeat_length. auto.
Qed.

Lemma randoms_xy_elt : forall ux uy p nside xp yp, length ux = length uy ->
  pix2xy p nside = Ok (xp, yp) ->
  exists xs ys, randoms_healpix_xy ux uy p nside = Ok (xs, ys) /\
    length xs = length ux /\ length ys = length ux /\
    forall q, (q < length ux)%nat ->
      nth q xs 0 = Rmod (draw_x xp (half_diag nside) (nth q ux 0)) (2 * PI) /\
      nth q ys 0 = draw_y xp yp (half_diag nside) (nth q ux 0) (nth q uy 0).
Proof.
  intros ux uy p nside xp yp Hl Hxy.
  assert (X : exists xs ys, randoms_healpix_xy ux uy p nside = Ok (xs, ys)).
  { unfold randoms_healpix_xy. rewrite Hxy. cbn [bind]. eauto. }
  destruct X as [xs [ys E]]. exists xs, ys.
  destruct (length_randoms_xy _ _ _ _ _ _ E) as [L1 L2].
  split; auto. split; auto. split; auto.
  intros q Hq. unfold randoms_healpix_xy in E. rewrite Hxy in E. cbn [bind] in E.
  injection E as <- <-. change (get_delta nside) with (half_diag nside).
  set (d := half_diag nside).
  set (m1 := map (fun u => Rle_bool u (/ 2)) ux). set (m2 := map (fun u => Rlt_bool (/ 2) u) ux).
  assert (N1 : forall k, (k < length ux)%nat -> nth k m1 false = Rle_bool (nth k ux 0) (/ 2)).
  { intros k Hk. unfold m1. rewrite nth_map_lt with (d' := 0) by auto. auto. }
  assert (N2 : forall k, (k < length ux)%nat -> nth k m2 false = negb (Rle_bool (nth k ux 0) (/ 2))).
  { intros k Hk. unfold m2. rewrite nth_map_lt with (d' := 0) by auto. apply Rlt_bool_negb. }
  assert (M1 : length m1 = length ux) by (unfold m1; rewrite map_length; auto).
  assert (M2 : length m2 = length ux) by (unfold m2; rewrite map_length; auto).
  unfold take. rewrite !map_map.
  set (h1 := fun x => xp + d * (sqrt (2 * nth x ux 0) - 1)).
  set (h2 := fun x => xp + d * (1 - sqrt (2 * (1 - nth x ux 0)))).
  set (x1 := put (repeat 0 (length ux)) (np_where m1) (map h1 (np_where m1))).
  assert (Lx1 : length x1 = length ux) by (unfold x1; rewrite length_put, repeat_length; auto).
  set (x2 := put x1 (np_where m2) (map h2 (np_where m2))).
  assert (Lx2 : length x2 = length ux) by (unfold x2; rewrite length_put; auto).
  assert (X1 : forall k, (k < length ux)%nat -> nth k x1 0 = if nth k m1 false then h1 k else 0).
  { intros k Hk. unfold x1. rewrite nth_put_where by (rewrite repeat_length; auto).
    rewrite nth_repeat_lt by auto. auto. }
  assert (X2 : forall k, (k < length ux)%nat ->
     nth k x2 0 = if nth k m2 false then h2 k else nth k x1 0).
  { intros k Hk. unfold x2. rewrite nth_put_where by lia. auto. }
  split.
  - rewrite nth_map_lt with (d' := 0) by (rewrite Lx2; auto). f_equal.
    rewrite X2, X1, N1, N2 by auto. unfold draw_x, h1, h2.
    destruct (Rle_bool (nth q ux 0) (/ 2)); auto.
  - rewrite !map2_map_map.
    rewrite nth_put_where by (rewrite ?length_put, ?repeat_length; lia).
    rewrite nth_put_where by (rewrite ?length_put, ?repeat_length; lia).
    rewrite X2, X1, N1, N2, nth_repeat_lt by auto. unfold draw_y, draw_x, h1, h2.
    destruct (Rle_bool (nth q ux 0) (/ 2)); auto.
Qed.

(** ** The unwrapped point *)

Lemma draw_x_left : forall xp d u, 0 < d -> 0 <= u <= / 2 ->
  exists a, 0 <= a <= 1 /\ a * a = 2 * u /\ draw_x xp d u = xp - d * (1 - a).
Proof.
  intros xp d u Hd Hu. exists (sqrt (2 * u)).
  assert (E : sqrt (2 * u) * sqrt (2 * u) = 2 * u) by (apply sqrt_sqrt; lra).
  pose proof (sqrt_pos (2 * u)).
  split; [split; [auto | nra]|]. split; auto.
  unfold draw_x. rewrite Rle_bool_t by lra. ring.
Qed.

Lemma draw_x_right : forall xp d u, 0 < d -> / 2 < u <= 1 ->
  exists a, 0 <= a < 1 /\ a * a = 2 * (1 - u) /\ draw_x xp d u = xp + d * (1 - a).
Proof.
  intros xp d u Hd Hu. exists (sqrt (2 * (1 - u))).
  assert (E : sqrt (2 * (1 - u)) * sqrt (2 * (1 - u)) = 2 * (1 - u)) by (apply sqrt_sqrt; lra).
  pose proof (sqrt_pos (2 * (1 - u))).
  split; [split; [auto | nra]|]. split; auto.
  unfold draw_x. rewrite Rle_bool_f by lra. ring.
Qed.

(** Both halves together: the chord half-length at the point is [a*d]. *)
Lemma draw_cases : forall xp yp d u v, 0 < d -> 0 <= u <= 1 ->
  exists a, 0 <= a <= 1 /\
    Rabs (draw_x xp d u - xp) = d * (1 - a) /\
    draw_y xp yp d u v = yp + d * a * (2 * v - 1) /\
    (u < 1 -> a = 0 -> draw_x xp d u = xp - d).
Proof.
  intros xp yp d u v Hd Hu.
  destruct (Rle_dec u (/ 2)) as [H|H].
  - destruct (draw_x_left xp d u Hd) as [a [Ha [Ea E]]]; [lra|]. exists a.
    split; [lra|]. rewrite E. split; [|split].
    + rewrite Rabs_left1; nra.
    + unfold draw_y. rewrite Rle_bool_t by lra. rewrite E. ring.
    + intros _ ->. ring.
  - apply Rnot_le_lt in H.
    destruct (draw_x_right xp d u Hd) as [a [Ha [Ea E]]]; [lra|]. exists a.
    split; [lra|]. rewrite E. split; [|split].
    + rewrite Rabs_pos_eq; nra.
    + unfold draw_y. rewrite Rle_bool_f by lra. rewrite E. ring.
    + intros U A. subst a. exfalso. nra.
Qed.

Lemma draw_in_diamond : forall xp yp d u v, 0 < d -> 0 <= u <= 1 -> 0 <= v <= 1 ->
  l1 (draw_x xp d u) (draw_y xp yp d u v) xp yp <= d.
Proof.
  intros xp yp d u v Hd Hu Hv.
  destruct (draw_cases xp yp d u v Hd Hu) as [a [Ha [Ex [Ey _]]]].
  unfold l1. rewrite Ex, Ey.
  replace (yp + d * a * (2 * v - 1) - yp) with (d * a * (2 * v - 1)) by ring.
  rewrite Rabs_mult, (Rabs_pos_eq (d * a)) by nra.
  assert (Rabs (2 * v - 1) <= 1) by (apply Rabs_le; lra).
  pose proof (Rabs_pos (2 * v - 1)). assert (0 <= d * a) by nra. nra.
Qed.

(** [y] is uniform on the chord of the diamond at the point's [x]. *)
Lemma draw_chord : forall xp yp d u v, 0 < d -> 0 <= u <= 1 ->
  let h := d - Rabs (draw_x xp d u - xp) in
  0 <= h /\ draw_y xp yp d u v = (yp - h) + 2 * h * v.
Proof.
  intros xp yp d u v Hd Hu h.
  destruct (draw_cases xp yp d u v Hd Hu) as [a [Ha [Ex [Ey _]]]].
  unfold h. rewrite Ex, Ey. split. nra. ring.
Qed.

(** Chord length of the diamond at abscissa [t]. *)
Definition chord (xp d t : R) : R := 2 * (d - Rabs (t - xp)).

Lemma chord_int_left : forall xp d b, 0 < d -> xp - d <= b <= xp ->
  is_RInt (chord xp d) (xp - d) b ((b - xp + d) ^ 2).
Proof.
  intros xp d b Hd Hb.
  apply is_RInt_ext with (fun t => 2 * (t - xp + d)).
  { intros t. rewrite Rmin_left, Rmax_right by lra. intros Ht. unfold chord.
    rewrite Rabs_left1 by lra. toR; ring. }
  replace ((b - xp + d) ^ 2) with (minus ((b - xp + d) ^ 2) ((xp - d - xp + d) ^ 2)).
  2: { unfold minus, plus, opp; simpl. ring. }
  apply (is_RInt_derive (fun t => (t - xp + d) ^ 2)).
  - intros. auto_derive; auto. ring.
  - intros. apply (ex_derive_continuous (fun t => 2 * (t - xp + d))). auto_derive; auto.
Qed.

Lemma chord_int_right : forall xp d b, 0 < d -> xp <= b <= xp + d ->
  is_RInt (chord xp d) xp b (d ^ 2 - (xp + d - b) ^ 2).
Proof.
  intros xp d b Hd Hb.
  apply is_RInt_ext with (fun t => 2 * (xp + d - t)).
  { intros t. rewrite Rmin_left, Rmax_right by lra. intros Ht. unfold chord.
    rewrite Rabs_pos_eq by lra. toR; ring. }
  replace (d ^ 2 - (xp + d - b) ^ 2) with (minus (- (xp + d - b) ^ 2) (- (xp + d - xp) ^ 2)).
  2: { unfold minus, plus, opp; simpl. ring. }
  apply (is_RInt_derive (fun t => - (xp + d - t) ^ 2)).
  - intros. auto_derive; auto. ring.
  - intros. apply (ex_derive_continuous (fun t => 2 * (xp + d - t))). auto_derive; auto.
Qed.

Lemma RInt_join : forall (f : R -> R) a b c (l l' l'' : R),
  is_RInt f a b l -> is_RInt f b c l' -> l'' = l + l' -> is_RInt f a c l''.
Proof. intros. subst. apply (is_RInt_Chasles f a b c l l'); auto. Qed.

(** Inverse-CDF: the area of the diamond left of the point is the draw times
    the whole area [2 d^2]. *)
Lemma draw_cdf : forall xp d u, 0 < d -> 0 <= u <= 1 ->
  is_RInt (chord xp d) (xp - d) (draw_x xp d u) (u * (2 * d ^ 2)).
Proof.
  intros xp d u Hd Hu.
  destruct (Rle_dec u (/ 2)) as [H|H].
  - destruct (draw_x_left xp d u Hd) as [a [Ha [Ea E]]]; [lra|]. rewrite E.
    replace (u * (2 * d ^ 2)) with ((xp - d * (1 - a) - xp + d) ^ 2).
    + apply chord_int_left; auto. split; nra.
    + simpl. replace (u * (2 * (d * (d * 1)))) with ((2 * u) * (d * d)) by ring. rewrite <- Ea. ring.
  - apply Rnot_le_lt in H.
    destruct (draw_x_right xp d u Hd) as [a [Ha [Ea E]]]; [lra|]. rewrite E.
    eapply RInt_join.
    + apply chord_int_left with (b := xp); auto. lra.
    + apply chord_int_right; auto. split; nra.
    + simpl. replace u with (1 - (a * a) / 2) by (rewrite Ea; field). field.
Qed.

Lemma chord_total : forall xp d, 0 < d -> is_RInt (chord xp d) (xp - d) (xp + d) (2 * d ^ 2).
Proof.
  intros xp d Hd.
  eapply RInt_join.
  - apply chord_int_left with (b := xp); auto; lra.
  - apply chord_int_right; auto; lra.
  - simpl. ring.
Qed.

(** ** Back from the sphere *)

Lemma Rmod_2PI : forall x, exists m : Z, Rmod x (2 * PI) + 2 * PI * IZR m = x.
Proof. intros x. exists (Zfloor (x / (2 * PI))). unfold Rmod. ring. Qed.

(** A point strictly inside the pixel's diamond, or its left corner, is a
    canonical chart point. *)
Lemma diamond_in_chart : forall nside i j a b, (1 <= nside)%Z -> legal_ij nside i j ->
  (Rabs a + Rabs b < 1 \/ (a = -1 /\ b = 0)) ->
  heal_chart (Rmod ((IZR (jd2 nside i j) + a) * half_diag nside) (2 * PI))
             ((IZR (id2 nside i) + b) * half_diag nside).
Proof.
  intros n i j a b Hn L Hab. pose proof PI_pos as HPI.
  pose proof (half_diag_pos n Hn) as Hd. set (d := half_diag n) in *.
  assert (Hn' : 1 <= IZR n) by (apply IZR_le; auto).
  assert (E2 : 2 * PI = 8 * IZR n * d) by (apply two_pi_half_diag; auto).
  assert (Ab : Rabs b < 1) by (destruct Hab as [H|[_ ->]]; [pose proof (Rabs_pos a); lra | rewrite Rabs_R0; lra]).
  assert (Aa : Rabs a + Rabs b <= 1).
  { destruct Hab as [H|[-> ->]]; [lra|]. rewrite Rabs_R0, Rabs_left by lra. lra. }
  assert (Ar : a + Rabs b < 1).
  { destruct Hab as [H|[-> ->]]; [pose proof (Rle_abs a); lra|]. rewrite Rabs_R0; lra. }
  assert (Bb := Rabs_def2 _ _ Ab). pose proof (Rle_abs b) as Bb1. pose proof (Rle_abs (- b)) as Bb2.
  rewrite Rabs_Ropp in Bb2. pose proof (Rle_abs (- a)) as Aa2. rewrite Rabs_Ropp in Aa2.
  destruct (Rle_dec (Rabs ((IZR (id2 n i) + b) * d)) (PI / 4)) as [B|B].
  { split. apply Rmod_bound; lra. auto. }
  apply Rnot_le_lt in B. rewrite Rabs_mult, (Rabs_pos_eq d) in B by lra.
  assert (B' : IZR n < Rabs (IZR (id2 n i) + b)) by nra. clear B.
  destruct (ring_len_cap n i j Hn L) as [C1 [_ C2]].
  assert (KEY : exists k ii : Z, (0 <= k <= 3)%Z /\ 1 <= IZR ii /\
     Rabs (IZR (id2 n i) + b) <= 2 * IZR n - IZR ii + Rabs b /\
     Rabs (IZR (jd2 n i j) - (2 * IZR k + 1) * IZR n) <= IZR ii - 1).
  { unfold id2 in *. rewrite minus_IZR, mult_IZR in B' |- *.
    destruct (Rle_dec 0 (2 * IZR n - IZR i + b)) as [P|P].
    - rewrite Rabs_pos_eq in B' |- * by auto.
      assert (i <= n)%Z.
      { apply Z.lt_succ_r. apply lt_IZR. unfold Z.succ. rewrite plus_IZR. lra. }
      destruct L as [L1 _].
      destruct (cap_facet n i j ltac:(lia) (C1 H)) as [F1 [F2 F3]].
      exists ((j - 1) / i)%Z, i. split; [auto|]. split; [apply IZR_le; lia|]. split; [lra|].
      unfold jd2. replace (i <=? n)%Z with true by (symmetry; apply Z.leb_le; lia).
      rewrite <- (mult_IZR 2), <- (plus_IZR _ 1), <- mult_IZR, <- minus_IZR, <- abs_IZR, <- (minus_IZR i 1).
      apply IZR_le. nia.
    - apply Rnot_le_lt in P. rewrite Rabs_left in B' |- * by auto.
      assert (3 * n <= i)%Z.
      { apply Z.lt_succ_r. apply lt_IZR. unfold Z.succ. rewrite plus_IZR, mult_IZR. lra. }
      destruct L as [L1 _].
      destruct (cap_facet n (4 * n - i) j ltac:(lia) (C2 H)) as [F1 [F2 F3]].
      exists ((j - 1) / (4 * n - i))%Z, (4 * n - i)%Z. split; [auto|]. split; [apply IZR_le; lia|].
      split. { rewrite minus_IZR, mult_IZR. lra. }
      unfold jd2.
      replace (i <=? n)%Z with false by (symmetry; apply Z.leb_gt; lia).
      replace (i <? 3 * n)%Z with false by (symmetry; apply Z.ltb_ge; lia). cbv zeta.
      rewrite <- (mult_IZR 2), <- (plus_IZR _ 1), <- mult_IZR, <- minus_IZR, <- abs_IZR, <- (minus_IZR (4 * n - i) 1).
      apply IZR_le. nia. }
  destruct KEY as [k [ii [Hk [Hii [KY KX]]]]].
  assert (Hk1 : 0 <= IZR k) by (apply IZR_le; lia).
  assert (Hk2 : IZR k <= 3) by (apply IZR_le; lia).
  set (J := IZR (jd2 n i j)) in *. set (I := IZR (id2 n i)) in *.
  pose proof (Rabs_le_inv _ _ KX) as KX'.
  assert (X1 : 0 <= (J + a) * d < 2 * PI) by (rewrite E2; split; nra).
  rewrite Rmod_id by auto.
  assert (E4 : PI / 4 = IZR n * d) by lra.
  assert (E2' : PI / 2 = 2 * IZR n * d) by lra.
  split; [auto|]. right. rewrite Rabs_mult, (Rabs_pos_eq d) by lra. rewrite E4, E2'.
  split; [nra|]. exists k. split; [auto|]. split; nra.
Qed.

Lemma randoms_pixel_back : forall nside p xp yp u v, (1 <= nside)%Z -> legal_pix nside p ->
  pix2xy p nside = Ok (xp, yp) -> 0 <= u < 1 -> 0 < v < 1 ->
  exists phi theta,
    xy2ang (Rmod (draw_x xp (half_diag nside) u) (2 * PI)) (draw_y xp yp (half_diag nside) u v)
      = (phi, Some theta) /\
    0 <= phi < 2 * PI /\ 0 < theta < PI /\
    in_diamond nside xp yp (fst (ang2xy phi theta)) (snd (ang2xy phi theta)).
Proof.
  intros nside p xp yp u v Hn Hp Hxy Hu Hv.
  pose proof (half_diag_pos nside Hn) as Hd. set (d := half_diag nside) in *.
  destruct (pix2xy_legal nside p Hn Hp) as [i [j [[L _] E]]]. rewrite Hxy in E.
  fold d in E. injection E as Ex Ey.
  destruct (draw_cases xp yp d u v Hd ltac:(lra)) as [a [Ha [Dx [Dy D0]]]].
  set (A := (draw_x xp d u - xp) / d). set (B := a * (2 * v - 1)).
  assert (EA : draw_x xp d u = (IZR (jd2 nside i j) + A) * d) by (unfold A; rewrite Ex; field; lra).
  assert (EB : draw_y xp yp d u v = (IZR (id2 nside i) + B) * d) by (unfold B; rewrite Dy, Ey; ring).
  assert (C : heal_chart (Rmod (draw_x xp d u) (2 * PI)) (draw_y xp yp d u v)).
  { rewrite EA, EB. apply diamond_in_chart; auto.
    assert (AA : Rabs A = 1 - a).
    { unfold A, Rdiv. rewrite Rabs_mult, Dx. rewrite (Rabs_pos_eq (/ d)).
      field; lra. left. apply Rinv_0_lt_compat; auto. }
    destruct (Req_dec a 0) as [Z|Z].
    - right. split. unfold A. rewrite D0 by lra. field; lra. unfold B. rewrite Z. ring.
    - left. rewrite AA. unfold B. rewrite Rabs_mult, (Rabs_pos_eq a) by lra.
      assert (Rabs (2 * v - 1) < 1) by (apply Rabs_def1; lra). nra. }
  destruct (xy_ang_xy _ _ C) as [phi [theta [E1 [E2 [E3 E4]]]]].
  exists phi, theta. split; auto. split; auto. split; auto.
  rewrite E4. cbn [fst snd]. destruct (Rmod_2PI (draw_x xp d u)) as [m Em].
  exists m. rewrite Em. apply draw_in_diamond; auto; lra.
Qed.

Lemma randoms_pixel_spec : forall nside p xp yp ux uy, (1 <= nside)%Z -> legal_pix nside p ->
  pix2xy p nside = Ok (xp, yp) -> length ux = length uy ->
  (forall u, In u ux -> 0 <= u < 1) -> (forall v, In v uy -> 0 < v < 1) ->
  exists phis thetas, randoms_healpix_pixel ux uy p nside = Ok (phis, thetas) /\
    length phis = length ux /\ length thetas = length ux /\
    forall q, (q < length ux)%nat -> exists phi theta,
      nth q phis None = Some phi /\ nth q thetas None = Some theta /\
      0 <= phi < 2 * PI /\ 0 < theta < PI /\
      in_diamond nside xp yp (fst (ang2xy phi theta)) (snd (ang2xy phi theta)).
Proof.
  intros nside p xp yp ux uy Hn Hp Hxy Hl Hu Hv.
  destruct (randoms_xy_elt ux uy p nside xp yp Hl Hxy) as [xs [ys [E [L1 [L2 HQ]]]]].
  unfold randoms_healpix_pixel. rewrite E. cbn [bind fst snd].
  destruct (length_xy2ang_arr xs ys) as [La Lb].
  destruct (xy2ang_arr xs ys) as [phis thetas] eqn:EA. cbn [fst snd] in *.
  exists phis, thetas. split; auto. split; [lia|]. split; [lia|].
  intros q Hq. destruct (HQ q Hq) as [Q1 Q2].
  destruct (xy2ang_arr_spec xs ys q ltac:(lia) ltac:(lia)) as [S1 S2]. rewrite EA in S1, S2.
  cbn [fst snd] in S1, S2.
  destruct (randoms_pixel_back nside p xp yp (nth q ux 0) (nth q uy 0) Hn Hp Hxy)
    as [phi [theta [R1 [R2 [R3 R4]]]]].
  { apply Hu. apply nth_In; auto. } { apply Hv. apply nth_In; lia. }
  rewrite Q1, Q2, R1 in S1, S2. exists phi, theta. auto.
Qed.

(** A zero second draw puts the point on the cut between two southern facets,
    and projecting it back lands on the other side of the cut. *)
Lemma randoms_cut_witness :
  exists xp yp phi theta, pix2xy 8 1 = Ok (xp, yp) /\ legal_pix 1 8 /\
    randoms_healpix_pixel [3 / 4] [0] 8 1 = Ok ([Some phi], [Some theta]) /\
    ~ in_diamond 1 xp yp (fst (ang2xy phi theta)) (snd (ang2xy phi theta)).
Proof.
  pose proof PI_pos as HPI.
  assert (L : legal_ij 1 3 1) by (unfold legal_ij, ring_len; simpl; lia).
  assert (E0 : pix2ij 8 1 = Ok (3, 1)%Z).
  { destruct (ij2pix_correct 1 3 1 ltac:(lia) L) as [_ [_ E]]. exact E. }
  assert (Hd : half_diag 1 = PI / 4) by (unfold half_diag; field).
  assert (Hxy : pix2xy 8 1 = Ok (PI / 4, - (PI / 4))).
  { unfold pix2xy. rewrite E0. cbn [bind fst snd]. rewrite ij2xy_legal by (destruct L; lia).
    rewrite Hd. change (jd2 1 3 1) with 1%Z. change (id2 1 3) with (-1)%Z. f_equal. f_equal; lra. }
  exists (PI / 4), (- (PI / 4)).
  set (r := sqrt (2 * (1 - 3 / 4))).
  assert (Er : r * r = / 2) by (unfold r; rewrite sqrt_sqrt by lra; lra).
  assert (Hr : 0 < r < 1).
  { pose proof (sqrt_pos (2 * (1 - 3 / 4))). fold r in H. split; nra. }
  set (q := 1 - r). assert (Hq : 0 < q < 1) by (unfold q; lra).
  destruct (randoms_xy_elt [3 / 4] [0] 8 1 _ _ eq_refl Hxy) as [xs [ys [E [L1 [L2 HQ]]]]].
  destruct (HQ 0%nat ltac:(simpl; lia)) as [X Y]. cbn [nth] in X, Y.
  assert (DX : draw_x (PI / 4) (half_diag 1) (3 / 4) = (2 * IZR 0 + 1) * (PI / 4) + q * (PI / 4)).
  { unfold draw_x. rewrite Rle_bool_f by lra. fold r. rewrite Hd. unfold q. ring. }
  assert (DY : draw_y (PI / 4) (- (PI / 4)) (half_diag 1) (3 / 4) 0 = -1 * (2 - q) * (PI / 4)).
  { unfold draw_y. rewrite Rle_bool_f by lra. rewrite DX, Hd. ring. }
  rewrite DX in X. rewrite DY in Y. rewrite Rmod_id in X by nra.
  destruct (xy2ang_cut (-1) q 0 (or_intror eq_refl) Hq ltac:(lia)) as [P1 [theta [P2 [P3 P4]]]].
  exists ((IZR 0 + 1) * (PI / 2)), theta. split; auto. split. { unfold legal_pix. lia. }
  split.
  - unfold randoms_healpix_pixel. rewrite E. cbn [bind fst snd].
    destruct (length_xy2ang_arr xs ys) as [La Lb].
    destruct (xy2ang_arr_spec xs ys 0 ltac:(lia) ltac:(simpl in *; lia)) as [S1 S2].
    destruct (xy2ang_arr xs ys) as [phis thetas]. cbn [fst snd] in *.
    rewrite X, Y in S1, S2. rewrite P1 in S1. rewrite P2 in S2.
    destruct phis as [|f [|f' phis]]; simpl in La; try (simpl in L1; lia).
    destruct thetas as [|t [|t' thetas]]; simpl in Lb; try (simpl in L1; lia).
    simpl in S1, S2. subst. auto.
  - rewrite P4. cbn [fst snd]. intros [m Hm]. unfold l1 in Hm. rewrite Hd in Hm.
    replace (-1 * (2 - q) * (PI / 4) - - (PI / 4)) with (- ((1 - q) * (PI / 4))) in Hm by ring.
    rewrite Rabs_Ropp, (Rabs_pos_eq ((1 - q) * (PI / 4))) in Hm by nra.
    set (t := (2 * 0 + 1) * (PI / 4) + q * (PI / 4) + 2 * (1 - q) * (PI / 4) + 2 * PI * IZR m - PI / 4) in *.
    assert (T : t = (2 - q + 8 * IZR m) * (PI / 4)) by (unfold t; field). rewrite T in Hm.
    rewrite Rabs_mult, (Rabs_pos_eq (PI / 4)) in Hm by lra.
    assert (G : 1 < Rabs (2 - q + 8 * IZR m)).
    { destruct (Z_le_dec 0 m) as [M|M].
      - apply IZR_le in M. rewrite Rabs_pos_eq; lra.
      - assert (M' : (m <= -1)%Z) by lia. apply IZR_le in M'. rewrite Rabs_left; lra. }
    nra.
Qed.

Lemma randoms_xy_spec : forall nside p xp yp ux uy,
  (1 <= nside)%Z -> pix2xy p nside = Ok (xp, yp) -> length ux = length uy ->
  (forall u, In u ux -> 0 <= u < 1) -> (forall v, In v uy -> 0 <= v < 1) ->
  exists xs ys, randoms_healpix_xy ux uy p nside = Ok (xs, ys) /\
    length xs = length ux /\ length ys = length ux /\
    forall q, (q < length ux)%nat -> 0 <= nth q xs 0 < 2 * PI /\
      exists m : Z, let x := nth q xs 0 + 2 * PI * IZR m in let y := nth q ys 0 in
      let d := half_diag nside in let h := d - Rabs (x - xp) in
      l1 x y xp yp <= d /\
      is_RInt (fun t => 2 * (d - Rabs (t - xp))) (xp - d) x (nth q ux 0 * (2 * d ^ 2)) /\
      0 <= h /\ y = (yp - h) + nth q uy 0 * (2 * h).
Proof.
  intros nside p xp yp ux uy Hn Hxy Hl Hu Hv. pose proof PI_pos as HPI.
  pose proof (half_diag_pos nside Hn) as Hd.
  destruct (randoms_xy_elt ux uy p nside xp yp Hl Hxy) as [xs [ys [E [L1 [L2 HQ]]]]].
  exists xs, ys. split; auto. split; auto. split; auto.
  intros q Hq. destruct (HQ q Hq) as [Q1 Q2].
  assert (U : 0 <= nth q ux 0 < 1) by (apply Hu; apply nth_In; auto).
  assert (V : 0 <= nth q uy 0 < 1) by (apply Hv; apply nth_In; lia).
  rewrite Q1, Q2. split. { apply Rmod_bound; lra. }
  destruct (Rmod_2PI (draw_x xp (half_diag nside) (nth q ux 0))) as [m Em].
  exists m. cbv zeta. rewrite Em. split. { apply draw_in_diamond; auto; lra. }
  split. { apply draw_cdf; auto; lra. }
  destruct (draw_chord xp yp (half_diag nside) (nth q ux 0) (nth q uy 0) Hd ltac:(lra)) as [C1 C2].
  split; auto. rewrite C2 at 1. ring.
Qed.

Lemma diamond_area : forall nside xp, (1 <= nside)%Z -> let d := half_diag nside in
  is_RInt (fun t => 2 * (d - Rabs (t - xp))) (xp - d) (xp + d) (2 * d ^ 2).
Proof. intros nside xp Hn d. apply chord_total. apply half_diag_pos; auto. Qed.

Lemma total_area : forall nside, (1 <= nside)%Z ->
  12 * IZR nside ^ 2 * (2 * half_diag nside ^ 2 * (8 / (3 * PI))) = 4 * PI.
Proof.
  intros nside Hn. assert (1 <= IZR nside) by (apply IZR_le; auto). pose proof PI_pos.
  unfold half_diag. field. split; lra.
Qed.

(** ** Area of a pixel on the sphere *)

(** Above and below the belt the open chords of a pixel's diamond stay inside
    one facet. *)
Lemma chord_in_facet : forall nside i j y, (1 <= nside)%Z -> legal_ij nside i j ->
  let xp := IZR (jd2 nside i j) * half_diag nside in let yp := IZR (id2 nside i) * half_diag nside in
  Rabs (y - yp) < half_diag nside -> PI / 4 < Rabs y ->
  Rabs y < PI / 2 /\
  exists k : Z, forall x, Rabs (x - xp) < half_diag nside - Rabs (y - yp) ->
    IZR k * (PI / 2) < x < (IZR k + 1) * (PI / 2).
Proof.
  intros n i j y Hn L xp yp Hy B. pose proof PI_pos as HPI.
  pose proof (half_diag_pos n Hn) as Hd. set (d := half_diag n) in *.
  assert (Hn' : 1 <= IZR n) by (apply IZR_le; auto).
  assert (E2 : 2 * PI = 8 * IZR n * d) by (apply two_pi_half_diag; auto).
  set (b := (y - yp) / d).
  assert (Ey : y = (IZR (id2 n i) + b) * d) by (unfold b, yp; field; lra).
  assert (Eb : Rabs b * d = Rabs (y - yp)).
  { unfold b, Rdiv. rewrite Rabs_mult, (Rabs_pos_eq (/ d)) by (left; now apply Rinv_0_lt_compat). field. lra. }
  assert (Ab : Rabs b < 1) by nra.
  assert (Bb := Rabs_def2 _ _ Ab). pose proof (Rle_abs b) as Bb1. pose proof (Rle_abs (- b)) as Bb2.
  rewrite Rabs_Ropp in Bb2.
  assert (EA : Rabs y = Rabs (IZR (id2 n i) + b) * d) by (rewrite Ey, Rabs_mult, (Rabs_pos_eq d); lra).
  rewrite EA in B |- *.
  assert (B' : IZR n < Rabs (IZR (id2 n i) + b)) by nra. clear B.
  destruct (ring_len_cap n i j Hn L) as [C1 [_ C2]].
  assert (KEY : exists k ii : Z, 1 <= IZR ii <= IZR n /\
     Rabs (IZR (id2 n i) + b) <= 2 * IZR n - IZR ii + Rabs b /\
     Rabs (IZR (jd2 n i j) - (2 * IZR k + 1) * IZR n) <= IZR ii - 1).
  { unfold id2 in *. rewrite minus_IZR, mult_IZR in B' |- *.
    destruct (Rle_dec 0 (2 * IZR n - IZR i + b)) as [P|P].
    - rewrite Rabs_pos_eq in B' |- * by auto.
      assert (i <= n)%Z.
      { apply Z.lt_succ_r. apply lt_IZR. unfold Z.succ. rewrite plus_IZR. lra. }
      destruct L as [L1 _].
      destruct (cap_facet n i j ltac:(lia) (C1 H)) as [F1 [F2 F3]].
      exists ((j - 1) / i)%Z, i. split; [split; apply IZR_le; lia|]. split; [lra|].
      unfold jd2. replace (i <=? n)%Z with true by (symmetry; apply Z.leb_le; lia).
      rewrite <- (mult_IZR 2), <- (plus_IZR _ 1), <- mult_IZR, <- minus_IZR, <- abs_IZR, <- (minus_IZR i 1).
      apply IZR_le. nia.
    - apply Rnot_le_lt in P. rewrite Rabs_left in B' |- * by auto.
      assert (3 * n <= i)%Z.
      { apply Z.lt_succ_r. apply lt_IZR. unfold Z.succ. rewrite plus_IZR, mult_IZR. lra. }
      destruct L as [L1 _].
      destruct (cap_facet n (4 * n - i) j ltac:(lia) (C2 H)) as [F1 [F2 F3]].
      exists ((j - 1) / (4 * n - i))%Z, (4 * n - i)%Z. split; [split; apply IZR_le; lia|].
      split. { rewrite minus_IZR, mult_IZR. lra. }
      unfold jd2.
      replace (i <=? n)%Z with false by (symmetry; apply Z.leb_gt; lia).
      replace (i <? 3 * n)%Z with false by (symmetry; apply Z.ltb_ge; lia). cbv zeta.
      rewrite <- (mult_IZR 2), <- (plus_IZR _ 1), <- mult_IZR, <- minus_IZR, <- abs_IZR, <- (minus_IZR (4 * n - i) 1).
      apply IZR_le. nia. }
  destruct KEY as [k [ii [Hii [KY KX]]]].
  assert (E2' : PI / 2 = 2 * IZR n * d) by lra. rewrite E2'.
  split; [nra|]. exists k. intros x Hx.
  apply Rabs_le_inv in KX. apply Rabs_def2 in Hx. unfold xp in Hx.
  pose proof (Rabs_pos (y - yp)). split; nra.
Qed.

Definition stretch (y : R) : R := if Rle_dec (Rabs y) (PI / 4) then 1 else / (2 - Rabs y * (4 / PI)).
Definition climb (y : R) : R :=
  if Rle_dec (Rabs y) (PI / 4) then 8 / (3 * PI) else 8 / (3 * PI) * (2 - Rabs y * (4 / PI)).

Lemma pixel_area : forall nside p xp yp, (1 <= nside)%Z -> legal_pix nside p -> pix2xy p nside = Ok (xp, yp) ->
  let d := half_diag nside in
  exists a b : R -> R,
    (forall y x x', Rabs (x - xp) < d - Rabs (y - yp) -> Rabs (x' - xp) < d - Rabs (y - yp) ->
       fst (xy2ang x' y) - fst (xy2ang x y) = a y * (x' - x) /\ image_z x' y = image_z x y) /\
    (forall y, Rabs (y - yp) < d -> Rabs y <> PI / 4 -> 0 < a y /\ 0 < b y /\ is_derive (image_z xp) y (b y)) /\
    is_RInt (fun y => a y * (2 * (d - Rabs (y - yp))) * b y) (yp - d) (yp + d) (4 * PI / (12 * IZR nside ^ 2)).
Proof.
  intros nside p xp yp Hn Hp E d. pose proof PI_pos as HPI. pose proof (half_diag_pos nside Hn) as Hd. fold d in Hd.
  destruct (pix2xy_legal nside p Hn Hp) as [i [j [[L _] E']]]. rewrite E in E'. injection E' as -> ->.
  fold d. set (xp := IZR (jd2 nside i j) * d). set (yp := IZR (id2 nside i) * d).
  assert (F : forall y, Rabs (y - yp) < d -> PI / 4 < Rabs y -> Rabs y < PI / 2 /\
    exists k : Z, forall x, Rabs (x - xp) < d - Rabs (y - yp) -> IZR k * (PI / 2) < x < (IZR k + 1) * (PI / 2)).
  { intros y. exact (chord_in_facet nside i j y Hn L). }
  assert (POS : forall y, PI / 4 < Rabs y < PI / 2 -> 0 < 2 - Rabs y * (4 / PI)).
  { intros y Hy. assert (Rabs y = Rabs y * (4 / PI) * (PI / 4)) by (field; lra). nra. }
  exists stretch, climb. split; [|split].
  - intros y x x' Hx Hx'.
    assert (Hy : Rabs (y - yp) < d) by (pose proof (Rabs_pos (x - xp)); lra).
    unfold stretch. destruct (Rle_dec (Rabs y) (PI / 4)) as [B|B].
    + split; [|rewrite !image_z_belt by assumption; reflexivity].
      unfold xy2ang. rewrite Rle_bool_t by assumption. cbn [fst]. ring.
    + apply Rnot_le_lt in B. destruct (F y Hy B) as [B2 [k Hk]].
      split; [|rewrite !image_z_polar by lra; reflexivity].
      set (q := 2 - Rabs y * (4 / PI)).
      assert (Eay : Rabs y = (2 - q) * (PI / 4)) by (unfold q; field; lra).
      assert (Hq : 0 < q < 1) by (rewrite Eay in B, B2; split; nra).
      assert (Hy0 : y <> 0) by (intro Z; rewrite Z, Rabs_R0 in B; lra).
      assert (Hs := Rsign_cases y Hy0).
      assert (Ey : y = Rsign y * (2 - q) * (PI / 4)).
      { rewrite <- (Rsign_abs y Hy0) at 1. rewrite Eay. ring. }
      rewrite Ey. pose proof (Hk x Hx). pose proof (Hk x' Hx').
      rewrite (xy2ang_polar x _ q k Hs Hq), (xy2ang_polar x' _ q k Hs Hq) by lra. cbn [fst]. field. lra.
  - intros y Hy Hne. unfold stretch, climb. destruct (Rle_dec (Rabs y) (PI / 4)) as [B|B].
    + split; [lra|]. split; [apply Rdiv_lt_0_compat; lra|]. apply jac_belt. lra.
    + apply Rnot_le_lt in B. destruct (F y Hy B) as [B2 [k Hk]]. pose proof (POS y (conj B B2)) as Q.
      split; [now apply Rinv_0_lt_compat|]. split.
      { apply Rmult_lt_0_compat; [apply Rdiv_lt_0_compat; lra|exact Q]. }
      apply (jac_polar xp y k (conj B B2)). apply Hk. rewrite Rminus_diag_eq, Rabs_R0 by reflexivity. lra.
  - apply is_RInt_ext with (fun y => scal (8 / (3 * PI)) (chord yp d y)).
    { intros y. rewrite Rmin_left, Rmax_right by lra. intros Hy. unfold chord, scal. cbn.
      unfold mult. cbn. unfold stretch, climb. destruct (Rle_dec (Rabs y) (PI / 4)) as [B|B]; [ring|].
      apply Rnot_le_lt in B.
      assert (Hy' : Rabs (y - yp) < d) by (apply Rabs_def1; lra).
      destruct (F y Hy' B) as [B2 _]. pose proof (POS y (conj B B2)) as Q. field. lra. }
    replace (4 * PI / (12 * IZR nside ^ 2)) with (scal (8 / (3 * PI)) (2 * d ^ 2)).
    + apply (is_RInt_scal (chord yp d)). now apply chord_total.
    + unfold scal. cbn. unfold mult. cbn. unfold d, half_diag.
      assert (1 <= IZR nside) by (now apply IZR_le). field. split; lra.
Qed.
