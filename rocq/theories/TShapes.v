(** * Theorems about plane figures and boxes: C54, C55 *)

From Coq Require Import Reals ZArith List Bool Lra Lia Psatz.
From Flocq Require Import Core.Raux.
From Verif Require Import Base BaseP SpecShapes MCoords MShapes PPolarCoords PHealpixCentre PHealpixBoundary PShapes.
Import ListNotations.
Open Scope R_scope.

(** ** C54: rectangle, arc and disc outlines *)

(** [steps = 4m] points; points [km .. km+m-1] run along side [k] from its
    start corner, equally spaced, to its end corner. *)
Theorem C54_square : forall xmin xmax ymin ymax m, (1 <= m)%nat ->
  exists x y, get_square xmin xmax ymin ymax (4 * Z.of_nat m) = Ok (x, y) /\
    length x = (4 * m)%nat /\ length y = (4 * m)%nat /\
    forall k i, (k < 4)%nat -> (i < m)%nat ->
      (nth (k * m + i) x 0, nth (k * m + i) y 0) =
      between2 (rect_corner xmin xmax ymin ymax k) (rect_corner xmin xmax ymin ymax (S k)) (fraction m i).
Proof. exact square_ok. Qed.
Print Assumptions C54_square.

(** Hence every point is on the perimeter, every corner is visited, and
    successive points share a coordinate (the polyline never cuts a corner). *)
Theorem C54_square_perimeter : forall xmin xmax ymin ymax steps x y, xmin <= xmax -> ymin <= ymax ->
  get_square xmin xmax ymin ymax steps = Ok (x, y) ->
  Z.of_nat (length x) = steps /\ length y = length x /\
  (forall n, (n < length x)%nat ->
     (xmin <= nth n x 0 <= xmax /\ (nth n y 0 = ymin \/ nth n y 0 = ymax)) \/
     ((nth n x 0 = xmin \/ nth n x 0 = xmax) /\ ymin <= nth n y 0 <= ymax)) /\
  (forall a b, a = xmin \/ a = xmax -> b = ymin \/ b = ymax ->
     exists n, (n < length x)%nat /\ nth n x 0 = a /\ nth n y 0 = b) /\
  (forall n, (S n < length x)%nat -> nth n x 0 = nth (S n) x 0 \/ nth n y 0 = nth (S n) y 0).
Proof.
  intros a b c d steps x y Hx Hy H. destruct (square_steps _ _ _ _ _ _ _ H) as (m & Hm & ->).
  destruct (square_ok a b c d m Hm) as (x' & y' & E & Lx & Ly & V). rewrite H in E. injection E as <- <-.
  assert (W : forall k i, (k < 4)%nat -> (i < m)%nat ->
    nth (k * m + i) x 0 = fst (between2 (rect_corner a b c d k) (rect_corner a b c d (S k)) (fraction m i)) /\
    nth (k * m + i) y 0 = snd (between2 (rect_corner a b c d k) (rect_corner a b c d (S k)) (fraction m i))).
  { intros k i Hk Hi. rewrite <- (V k i Hk Hi). split; reflexivity. }
  assert (DM : forall n, (n < 4 * m)%nat -> exists k i, (k < 4)%nat /\ (i < m)%nat /\ n = (k * m + i)%nat).
  { intros n Hn. exists (n / m)%nat, (n mod m)%nat. split; [|split].
    - apply Nat.div_lt_upper_bound; lia.
    - apply Nat.mod_upper_bound. lia.
    - rewrite Nat.mul_comm. apply Nat.div_mod. lia. }
  split; [lia|]. split; [lia|]. split; [|split].
  - intros n Hn. rewrite Lx in Hn. destruct (DM n Hn) as (k & i & Hk & Hi & ->). destruct (W k i Hk Hi) as [-> ->].
    pose proof (fraction_range m i Hi) as F. unfold between2, rect_corner.
    destruct k as [|[|[|[|k]]]]; [| | | |lia]; cbn [fst snd].
    + left. split; [split; nra|left; ring].
    + right. split; [right; ring|split; nra].
    + left. split; [split; nra|right; ring].
    + right. split; [left; ring|split; nra].
  - assert (C : forall k, (k < 4)%nat -> (k * m + 0 < length x)%nat /\ nth (k * m + 0) x 0 = fst (rect_corner a b c d k) /\ nth (k * m + 0) y 0 = snd (rect_corner a b c d k)).
    { intros k Hk. split; [rewrite Lx; nia|]. destruct (W k 0%nat Hk ltac:(lia)) as [-> ->]. rewrite fraction_0. unfold between2. cbn [fst snd].
      split; ring. }
    intros p q [->| ->] [->| ->].
    + exists (0 * m + 0)%nat. exact (C 0%nat ltac:(lia)).
    + exists (3 * m + 0)%nat. exact (C 3%nat ltac:(lia)).
    + exists (1 * m + 0)%nat. exact (C 1%nat ltac:(lia)).
    + exists (2 * m + 0)%nat. exact (C 2%nat ltac:(lia)).
  - intros n Hn. rewrite Lx in Hn. destruct (DM n ltac:(lia)) as (k & i & Hk & Hi & ->).
    destruct (Nat.eq_dec (S i) m) as [E|E].
    + (* end of a side *)
      assert (Hk3 : (S k < 4)%nat) by nia.
      replace (S (k * m + i)) with (S k * m + 0)%nat by nia.
      destruct (W k i Hk Hi) as [-> ->]. destruct (W (S k) 0%nat Hk3 ltac:(lia)) as [-> ->]. rewrite fraction_0.
      unfold between2, rect_corner. destruct k as [|[|[|k]]]; [| | |lia]; cbn [fst snd].
      * right. ring.
      * left. ring.
      * right. ring.
    + replace (S (k * m + i)) with (k * m + S i)%nat by lia.
      destruct (W k i Hk Hi) as [-> ->]. destruct (W k (S i) Hk ltac:(lia)) as [-> ->].
      unfold between2, rect_corner. destruct k as [|[|[|[|k]]]]; [| | | |lia]; cbn [fst snd].
      * right. ring.
      * left. ring.
      * right. ring.
      * left. ring.
Qed.
Print Assumptions C54_square_perimeter.

(** Other step counts are refused, by [get_disc] too. *)
Theorem C54_refused : forall a b c d center steps, (steps mod 4 <> 0)%Z \/ (steps <= 0)%Z ->
  get_square a b c d steps = Err AssertionError /\ get_disc a b c d center steps = Err AssertionError.
Proof.
  intros a b c d center steps H.
  assert (E : get_square a b c d steps = Err AssertionError).
  { unfold get_square, py_assert. destruct (Z.eqb_spec (steps mod 4) 0); [|reflexivity].
    destruct (Z.ltb_spec 0 steps); [|reflexivity]. exfalso. destruct H; lia. }
  split; [exact E|]. unfold get_disc. rewrite E. reflexivity.
Qed.
Print Assumptions C54_refused.

Lemma polar_arr : forall r phi c0 c1 rest, length r = length phi ->
  polar2cart_arr r phi (c0 :: c1 :: rest) =
  Ok (map2 (fun a b => a * cos b + c0) r phi, map2 (fun a b => a * sin b + c1) r phi).
Proof.
  intros r phi c0 c1 rest HL. unfold polar2cart_arr.
  rewrite (py_get_ok _ (c0 :: c1 :: rest) 0 0) by (cbn [length]; lia).
  rewrite (py_get_ok _ (c0 :: c1 :: rest) 1 0) by (cbn [length]; lia). cbn [bind].
  change (nth (Z.to_nat 0) (c0 :: c1 :: rest) 0) with c0. change (nth (Z.to_nat 1) (c0 :: c1 :: rest) 0) with c1.
  f_equal. clear HL. f_equal; revert phi; induction r as [|a r IH]; intros [|b phi]; try reflexivity; cbn; now rewrite IH.
Qed.

(** The points of an arc: equally spaced angles at the given radius. *)
Theorem C54_arc : forall radius phimin phimax c0 c1 n, exists x y,
  get_arc radius phimin phimax [c0; c1] (Z.of_nat n) = Ok (x, y) /\ length x = n /\ length y = n /\
  forall i, (i < n)%nat ->
    let phi := phimin + fraction n i * (phimax - phimin) in
    nth i x 0 = c0 + radius * cos phi /\ nth i y 0 = c1 + radius * sin phi /\
    sqrt ((nth i x 0 - c0) ^ 2 + (nth i y 0 - c1) ^ 2) = Rabs radius.
Proof.
  intros r p q c0 c1 n. unfold get_arc. rewrite linspaceZ_ok by lia. cbn [bind]. rewrite Nat2Z.id.
  rewrite polar_arr by (rewrite repeat_length, length_linspace; reflexivity).
  eexists. eexists. split; [reflexivity|].
  split; [rewrite map2_length, repeat_length, length_linspace; lia|].
  split; [rewrite map2_length, repeat_length, length_linspace; lia|].
  intros i Hi. set (phi := p + fraction n i * (q - p)).
  rewrite !(nth_map2 _ _ _ _ (repeat r n) (linspace p q n) i 0 0 0) by (rewrite ?repeat_length, ?length_linspace; exact Hi).
  rewrite nth_repeat_lt by exact Hi. rewrite nth_lin by exact Hi. fold phi.
  split; [ring|]. split; [ring|].
  replace ((r * cos phi + c0 - c0) ^ 2 + (r * sin phi + c1 - c1) ^ 2) with (Rsqr r).
  - apply sqrt_Rsqr_abs.
  - pose proof (sin2_cos2 phi) as S. unfold Rsqr in *. replace ((r * cos phi + c0 - c0) ^ 2 + (r * sin phi + c1 - c1) ^ 2) with (r * r * (sin phi * sin phi + cos phi * cos phi)) by ring.
    rewrite S. ring.
Qed.
Print Assumptions C54_arc.

(** A complete circle closes: the first and last points coincide. *)
Theorem C54_arc_closed : forall radius c0 c1 n x y, (2 <= n)%nat ->
  get_arc radius 0 (2 * PI) [c0; c1] (Z.of_nat n) = Ok (x, y) ->
  nth 0 x 0 = nth (n - 1) x 0 /\ nth 0 y 0 = nth (n - 1) y 0.
Proof.
  intros r c0 c1 n x y Hn H. destruct (C54_arc r 0 (2 * PI) c0 c1 n) as (x' & y' & E & Lx & Ly & V).
  rewrite H in E. injection E as <- <-.
  destruct (V 0%nat ltac:(lia)) as (A0 & B0 & _). destruct (V (n - 1)%nat ltac:(lia)) as (A1 & B1 & _).
  rewrite fraction_0 in A0, B0. rewrite fraction_last in A1, B1 by exact Hn.
  replace (0 + 0 * (2 * PI - 0)) with 0 in A0, B0 by ring. replace (0 + 1 * (2 * PI - 0)) with (2 * PI) in A1, B1 by ring.
  rewrite A0, A1, B0, B1, cos_2PI, sin_2PI, cos_0, sin_0. split; reflexivity.
Qed.
Print Assumptions C54_arc_closed.

Theorem C54_arc_negative : forall radius phimin phimax center steps, (steps < 0)%Z ->
  get_arc radius phimin phimax center steps = Err ValueError.
Proof. intros. unfold get_arc. rewrite linspaceZ_err by assumption. reflexivity. Qed.
Print Assumptions C54_arc_negative.

(** Points of a disc segment: each is the image of a point of the perimeter of
    the (r, phi) rectangle, so lies on one of the two arcs or radial sides. *)
Theorem C54_disc : forall rmin rmax phimin phimax c0 c1 steps x y, rmin <= rmax -> phimin <= phimax ->
  get_disc rmin rmax phimin phimax [c0; c1] steps = Ok (x, y) ->
  Z.of_nat (length x) = steps /\ length y = length x /\
  forall n, (n < length x)%nat -> exists r phi,
    nth n x 0 = c0 + r * cos phi /\ nth n y 0 = c1 + r * sin phi /\
    ((rmin <= r <= rmax /\ (phi = phimin \/ phi = phimax)) \/ ((r = rmin \/ r = rmax) /\ phimin <= phi <= phimax)).
Proof.
  intros a b p q c0 c1 steps x y Hr Hp H. unfold get_disc in H.
  destruct (get_square a b p q steps) as [[r phi]|] eqn:E; [|discriminate]. cbn [bind] in H.
  destruct (C54_square_perimeter a b p q steps r phi Hr Hp E) as (L & L2 & P & _).
  rewrite polar_arr in H by (symmetry; exact L2). injection H as <- <-.
  rewrite !map2_length, L2, Nat.min_id. split; [exact L|]. split; [reflexivity|].
  intros n Hn. exists (nth n r 0), (nth n phi 0).
  rewrite !(nth_map2 _ _ _ _ r phi n 0 0 0) by lia. split; [ring|]. split; [ring|]. now apply P.
Qed.
Print Assumptions C54_disc.

Example C54_example : exists x y, get_square 0 1 0 2 8 = Ok (x, y) /\
  nth 0 x 9 = 0 /\ nth 1 x 9 = 1 /\ nth 3 y 9 = 2 /\ nth 5 x 9 = 0 /\ nth 7 y 9 = 0.
Proof.
  eexists. eexists. split; [reflexivity|]. change (Z.to_nat (8 / 4)) with 2%nat. cbn. lra.
Qed.

(** ** C55: boxes *)

(** Every one of the twelve edges exactly once, sampled end to end. *)
Theorem C55_edges : forall B m center, (1 <= m)%nat -> exists es,
  get_box (bx0 B) (bx1 B) (by0 B) (by1 B) (bz0 B) (bz1 B) (12 * Z.of_nat m) false center = Ok (map (edge_row B m) es) /\
  length es = 12%nat /\ NoDup es /\ forall e, In e es.
Proof.
  intros B m center Hm. exists all_edges. split; [|split; [reflexivity|split; [apply all_edges_NoDup|apply all_edges_full]]].
  unfold get_box. destruct (steps12 m Hm) as [G M]. rewrite G, M. unfold py_assert, all_edges. cbn [map combine].
  rewrite !edge_row_eq. reflexivity.
Qed.
Print Assumptions C55_edges.

Theorem C55_refused : forall B steps nearest center, (steps mod 12 <> 0)%Z \/ (steps <= 0)%Z ->
  get_box (bx0 B) (bx1 B) (by0 B) (by1 B) (bz0 B) (bz1 B) steps nearest center = Err AssertionError.
Proof.
  intros B steps nearest center H. unfold get_box, py_assert. destruct (Z.eqb_spec (steps mod 12) 0); [|reflexivity].
  destruct (Z.ltb_spec 0 steps); [|reflexivity]. exfalso. destruct H; lia.
Qed.
Print Assumptions C55_refused.

(** With [return_nearest]: an edge is kept exactly when, for its two ends,
    none of the 100 samples of the line of sight is inside the box. *)
Theorem C55_nearest : forall B m c0 c1 c2, (1 <= m)%nat -> exists kept,
  get_box (bx0 B) (bx1 B) (by0 B) (by1 B) (bz0 B) (bz1 B) (12 * Z.of_nat m) true [c0; c1; c2] = Ok (map (edge_row B m) kept) /\
  NoDup kept /\
  forall e, In e kept <-> ~ sampled_hidden B (c0, c1, c2) (edge_point B e 0) /\
                          ~ sampled_hidden B (c0, c1, c2) (edge_point B e (fraction m (m - 1))).
Proof.
  intros B m c0 c1 c2 Hm.
  destruct (C55_edges B m [c0; c1; c2] Hm) as (es & E & _ & ND & Full).
  unfold get_box in *. destruct (steps12 m Hm) as [G M]. rewrite G, M in *. unfold py_assert in *.
  apply Ok_inj in E. rewrite E.
  rewrite (py_get_ok _ [c0; c1; c2] 0 0) by (cbn [length]; lia). rewrite (py_get_ok _ [c0; c1; c2] 1 0) by (cbn [length]; lia).
  rewrite (py_get_ok _ [c0; c1; c2] 2 0) by (cbn [length]; lia). cbn [bind].
  change (nth (Z.to_nat 0) [c0; c1; c2] 0) with c0. change (nth (Z.to_nat 1) [c0; c1; c2] 0) with c1. change (nth (Z.to_nat 2) [c0; c1; c2] 0) with c2.
  rewrite filter_map. eexists. split; [reflexivity|]. split; [now apply NoDup_filter|].
  intros e. rewrite filter_In.
  pose proof (hd_edge_row B m e Hm) as HD. pose proof (last_edge_row B m e Hm) as HL. destruct (edge_row B m e) as [[rx ry] rz].
  set (corners := box_corners _ _ _ _ _ _). set (rc := remove_corner _ _ _ _ _ _ _ _ _).
  assert (K : forall x y z t, t = 0 \/ t = 1 -> (x, y, z) = edge_point B e t ->
    nth (np_argmin (corner_dist corners x y z)) (map rc corners) false = true <-> sampled_hidden B (c0, c1, c2) (edge_point B e t)).
  { intros x y z t Ht Exyz. assert (I : In (x, y, z) corners) by (rewrite Exyz; now apply edge_end_corner).
    destruct (nearest_corner corners x y z I) as [L N].
    rewrite (nth_map_lt _ _ rc corners _ false (0, 0, 0)) by exact L. rewrite N, <- Exyz. apply remove_corner_spec. }
  assert (T : fraction m (m - 1) = 0 \/ fraction m (m - 1) = 1).
  { destruct (Nat.eq_dec m 1) as [->|Hm1]; [left; reflexivity|right; apply fraction_last; lia]. }
  rewrite <- (K _ _ _ 0 (or_introl eq_refl) HD), <- (K _ _ _ _ T HL).
  set (b1 := nth _ (map rc corners) false). set (b2 := nth _ (map rc corners) false).
  assert (In e es) by apply Full.
  destruct b1, b2; cbn; intuition congruence.
Qed.
Print Assumptions C55_nearest.

(** Removal is sound: every inner point of a removed edge is behind the box. *)
Theorem C55_removed_hidden : forall B m c0 c1 c2, (1 <= m)%nat -> exists kept,
  get_box (bx0 B) (bx1 B) (by0 B) (by1 B) (bz0 B) (bz1 B) (12 * Z.of_nat m) true [c0; c1; c2] = Ok (map (edge_row B m) kept) /\
  NoDup kept /\
  forall e s, ~ In e kept -> 0 < s < 1 -> hidden B (c0, c1, c2) (edge_point B e s).
Proof.
  intros B m c0 c1 c2 Hm. destruct (C55_nearest B m c0 c1 c2 Hm) as (kept & E & ND & HK).
  exists kept. split; [exact E|]. split; [exact ND|]. clear E ND. intros e s Hn Hs.
  assert (T : fraction m (m - 1) = 0 \/ fraction m (m - 1) = 1).
  { destruct (Nat.eq_dec m 1) as [->|Hm1]; [left; reflexivity|right; apply fraction_last; lia]. }
  assert (D : forall p, sampled_hidden B (c0, c1, c2) p \/ ~ sampled_hidden B (c0, c1, c2) p).
  { intros p. destruct (remove_corner (bx0 B) (bx1 B) (by0 B) (by1 B) (bz0 B) (bz1 B) c0 c1 c2 p) eqn:E.
    - left. now apply remove_corner_spec.
    - right. intros H. apply remove_corner_spec in H. congruence. }
  destruct (D (edge_point B e 0)) as [H0|H0].
  - apply (hidden_end_edge B _ e 0); auto. now apply sampled_hidden_hidden.
  - destruct (D (edge_point B e (fraction m (m - 1)))) as [H1|H1].
    + apply (hidden_end_edge B _ e (fraction m (m - 1))); auto. now apply sampled_hidden_hidden.
    + exfalso. apply Hn, HK. now split.
Qed.
Print Assumptions C55_removed_hidden.

(** Looking at the two ends is the right test: an edge hidden at an inner
    point has a hidden end. *)
Theorem C55_ends_suffice : forall B c e s, 0 < s < 1 -> hidden B c (edge_point B e s) ->
  hidden B c (edge_point B e 0) \/ hidden B c (edge_point B e 1).
Proof. exact hidden_inner_end. Qed.
Print Assumptions C55_ends_suffice.

(** From inside the box everything is removed. *)
Theorem C55_from_inside : forall B m c0 c1 c2, (1 <= m)%nat -> inside B (c0, c1, c2) ->
  get_box (bx0 B) (bx1 B) (by0 B) (by1 B) (bz0 B) (bz1 B) (12 * Z.of_nat m) true [c0; c1; c2] = Ok [].
Proof.
  intros B m c0 c1 c2 Hm Hin. destruct (C55_nearest B m c0 c1 c2 Hm) as (kept & E & _ & K). rewrite E.
  destruct kept as [|e kept]; [reflexivity|]. exfalso. destruct (proj1 (K e) (or_introl eq_refl)) as [N _]. apply N.
  exists 0%nat. split; [lia|]. cbn [INR]. unfold Rdiv. rewrite Rmult_0_l. unfold sight. destruct (edge_point B e 0) as [[x y] z].
  replace (c0 + 0 * (x - c0)) with c0 by ring. replace (c1 + 0 * (y - c1)) with c1 by ring. replace (c2 + 0 * (z - c2)) with c2 by ring. exact Hin.
Qed.
Print Assumptions C55_from_inside.

(** Seen from 98 box lengths away (along any one axis, here x) the sampling
    misses the box: nothing is removed. *)
Theorem C55_far : forall B m c0 c1 c2, (1 <= m)%nat -> bx0 B <= bx1 B -> c0 <= bx0 B - 98 * (bx1 B - bx0 B) ->
  exists es, get_box (bx0 B) (bx1 B) (by0 B) (by1 B) (bz0 B) (bz1 B) (12 * Z.of_nat m) true [c0; c1; c2] = Ok (map (edge_row B m) es) /\
    forall e, In e es.
Proof.
  intros B m c0 c1 c2 Hm HB Hc. destruct (C55_nearest B m c0 c1 c2 Hm) as (kept & E & _ & K).
  exists kept. split; [exact E|]. intros e. apply K.
  assert (T : fraction m (m - 1) = 0 \/ fraction m (m - 1) = 1).
  { destruct (Nat.eq_dec m 1) as [->|Hm1]; [left; reflexivity|right; apply fraction_last; lia]. }
  assert (N : forall t, t = 0 \/ t = 1 -> ~ sampled_hidden B (c0, c1, c2) (edge_point B e t)).
  { intros t Ht (k & Hk & Hin). pose proof (edge_end_corner B e t Ht) as I.
    destruct (edge_point B e t) as [[x y] z].
    assert (X : (x = bx0 B \/ x = bx1 B) /\ (y = by0 B \/ y = by1 B) /\ (z = bz0 B \/ z = bz1 B)).
    { unfold box_corners in I. cbn in I. repeat (destruct I as [I|I]; [injection I as <- <- <-; tauto|]). destruct I. }
    unfold sight, inside in Hin. destruct Hin as ((X1 & X2) & _).
    destruct (Nat.eq_dec k 99) as [->|Hk9].
    - replace (INR 99) with 99 in * by (rewrite INR_IZR_INZ; reflexivity). replace (99 / 99) with 1 in * by field. destruct X as [[->| ->] _]; lra.
    - assert (K98 : INR k <= 98) by (replace 98 with (INR 98) by (rewrite INR_IZR_INZ; reflexivity); apply le_INR; lia).
      assert (XB : x <= bx1 B) by (destruct X as [[->| ->] _]; lra). pose proof (pos_INR k) as K0.
      assert (c0 + INR k / 99 * (x - c0) <= c0 + 98 / 99 * (bx1 B - c0)).
      { assert (INR k / 99 * (x - c0) <= INR k / 99 * (bx1 B - c0)) by (apply Rmult_le_compat_l; lra).
        assert (INR k / 99 * (bx1 B - c0) <= 98 / 99 * (bx1 B - c0)) by (apply Rmult_le_compat_r; lra). lra. }
      lra. }
  split; apply N; [now left|exact T].
Qed.
Print Assumptions C55_far.

(** So hidden edges can be kept: the unit cube seen from (-98,-98,-98). *)
Theorem C55_refuted : exists B c0 c1 c2 m e, (1 <= m)%nat /\
  (forall s, 0 < s <= 1 -> hidden B (c0, c1, c2) (edge_point B e s)) /\
  exists kept, get_box (bx0 B) (bx1 B) (by0 B) (by1 B) (bz0 B) (bz1 B) (12 * Z.of_nat m) true [c0; c1; c2] = Ok (map (edge_row B m) kept) /\ In e kept.
Proof.
  set (B := Box 0 1 0 1 0 1). exists B, (-98), (-98), (-98), 10%nat, (AZ, true, true).
  split; [lia|]. split.
  - assert (H1 : hidden B (-98, -98, -98) (edge_point B (AZ, true, true) 1)).
    { exists (199 / 200). split; [lra|]. unfold B. cbn. lra. }
    intros s Hs. destruct (Rle_lt_or_eq_dec s 1) as [L| ->]; [lra| |exact H1].
    apply (hidden_end_edge B _ _ 1); [now right|exact H1|lra].
  - destruct (C55_far B 10 (-98) (-98) (-98)) as (es & E & F); [lia|unfold B; cbn; lra|unfold B; cbn; lra|].
    exists es. split; [exact E|apply F].
Qed.
Print Assumptions C55_refuted.

(** A non-trivial view: from (2, 1/2, 1/2) the far face x=0 of the unit cube
    is removed and the near face kept. *)
Example C55_example : let B := Box 0 1 0 1 0 1 in exists kept,
  get_box 0 1 0 1 0 1 120 true [2; 1/2; 1/2] = Ok (map (edge_row B 10) kept) /\
  In (AY, true, false) kept /\ ~ In (AY, false, false) kept.
Proof.
  intros B. destruct (C55_nearest B 10 2 (1/2) (1/2)) as (kept & E & _ & K); [lia|]. exists kept. split; [exact E|].
  change (10 - 1)%nat with 9%nat in K. pose proof (fraction_last 10 ltac:(lia)) as F. change (10 - 1)%nat with 9%nat in F. rewrite F in K. split.
  - apply K. split; intros (k & Hk & Hin); unfold B in Hin; cbn in Hin;
      (assert (INR k <= INR 99) by (apply le_INR; lia)); replace (INR 99) with 99 in H by (rewrite INR_IZR_INZ; reflexivity); lra.
  - intros H. destruct (proj1 (K _) H) as [N _]. apply N. exists 66%nat. split; [lia|].
    replace (INR 66) with 66 by (rewrite INR_IZR_INZ; reflexivity). unfold B. cbn. lra.
Qed.
