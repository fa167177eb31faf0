(** * Property theorems: the neighbour index sets of a HEALPix pixel

    [star_at n p s t]: the library's star indices of pixel [p] are [(s, t)]
    (the chain healpix_pix2ij, healpix_i2id and healpix_j2jd, healpix_ijd2ijs).
    [adjacent n p q]: [q] is a legal pixel other than [p], and the pixels
    drawn around the centres given by healpix_pix2xy have a corner in common on
    the sphere ([share_corner], SpecNeighbours.v).
    [sets_right n p s t]: the first array returned by healpix_ijs_neighbours
    holds exactly the first star indices of the pixels adjacent to [p], the
    second exactly their second star indices (all in PNeighbours4.v). *)

From Coq Require Import Reals ZArith List Bool Lia Lra Psatz Sorted.
From Flocq Require Import Core.Raux.
From Verif Require Import Base BaseP Spec SpecNeighbours MHealpixIndex PHealpixIndex PHealpixCentre
  PHealpixTiling PHealpixNeigh PNeighbours PNeighbours2 PNeighbours3 PSky PNeighbours4.
Import ListNotations.
Open Scope Z_scope.

(** ** C71 *)

(** The projection used to decide what touches what shows every pixel centre
    at its standard position. *)
Theorem C71_projection : forall nside p, 1 <= nside -> legal_pix nside p ->
  exists i j x y, pixel_at nside p i j /\ pix2xy p nside = Ok (x, y) /\
    (let z := centre_z nside i in let phi := centre_phi nside i j in
     sky x y = V3 (sqrt (1 - z ^ 2) * cos phi) (sqrt (1 - z ^ 2) * sin phi) z)%R.
Proof. exact sky_centre. Qed.
Print Assumptions C71_projection.

(** Star indices name pixels. *)
Theorem C71_star_names : forall nside p q s t, 1 <= nside -> legal_pix nside p -> legal_pix nside q ->
  star_at nside p s t -> star_at nside q s t -> p = q.
Proof. exact star_inj. Qed.
Print Assumptions C71_star_names.

(** Both arrays are strictly increasing, whatever the arguments. *)
Theorem C71_increasing : forall nside s t,
  StronglySorted Z.lt (fst (ijs_neighbours s t nside)) /\
  StronglySorted Z.lt (snd (ijs_neighbours s t nside)).
Proof. intros. apply returned_sorted. Qed.
Print Assumptions C71_increasing.

(** Away from the left edges of the north polar faces and from the last
    diagonals before the seam phi = 0 (and at two pixels of the seam), the arrays
    hold exactly the star indices of the pixels that touch the given one. *)
Theorem C71_right : forall nside p s t, 2 <= nside -> legal_pix nside p -> star_at nside p s t ->
  ~ (s mod nside = 0 /\ nside * (s / nside) + nside <= t /\ t - s + 1 <> 2 * nside) ->
  s + t <= 9 * nside - 4 \/ (s = 4 * nside - 2 /\ t = 5 * nside - 1) \/
    (s = 5 * nside - 1 /\ t = 4 * nside - 2) ->
  (forall x, In x (fst (ijs_neighbours s t nside)) <->
     exists q y, adjacent nside p q /\ star_at nside q x y) /\
  (forall y, In y (snd (ijs_neighbours s t nside)) <->
     exists q x, adjacent nside p q /\ star_at nside q x y).
Proof. exact sets_right_when. Qed.
Print Assumptions C71_right.

(** On the left edge of a north polar face (the polar pixel excepted) a
    neighbour across the edge is always missing. *)
Theorem C71_left_edge : forall nside p s t, 2 <= nside -> legal_pix nside p -> star_at nside p s t ->
  s mod nside = 0 -> nside * (s / nside) + nside <= t -> t - s + 1 <> 2 * nside ->
  exists q x y, adjacent nside p q /\ star_at nside q x y /\ ~ In x (fst (ijs_neighbours s t nside)).
Proof. intros. apply (left_edge_missing nside p s t); auto. split; auto. Qed.
Print Assumptions C71_left_edge.

(** On the last two diagonals before the seam a neighbour beyond the seam is
    missing from one of the arrays, except at the two pixels of [C71_right]. *)
Theorem C71_seam : forall nside p s t, 2 <= nside -> legal_pix nside p -> star_at nside p s t ->
  9 * nside - 3 <= s + t ->
  ~ (s = 4 * nside - 2 /\ t = 5 * nside - 1) -> ~ (s = 5 * nside - 1 /\ t = 4 * nside - 2) ->
  exists q x y, adjacent nside p q /\ star_at nside q x y /\
    (~ In x (fst (ijs_neighbours s t nside)) \/ ~ In y (snd (ijs_neighbours s t nside))).
Proof.
  intros nside p s t Hn Hp St Hs E1 E2.
  assert (D : {north_left_edge nside s t} + {~ north_left_edge nside s t}).
  { unfold north_left_edge. destruct (Z.eq_dec (s mod nside) 0); [|right; lia].
    destruct (Z_le_gt_dec (nside * (s / nside) + nside) t); [|right; lia].
    destruct (Z.eq_dec (t - s + 1) (2 * nside)); [right|left]; lia. }
  destruct D as [D|D].
  - destruct (left_edge_missing nside p s t Hn Hp St D) as (q & x & y & A & S & NI). exists q, x, y. auto.
  - apply seam_missing; auto. unfold off_seam. lia.
Qed.
Print Assumptions C71_seam.

(** Exactly when the returned sets are right. *)
Theorem C71_exactly_when : forall nside p s t, 2 <= nside -> legal_pix nside p -> star_at nside p s t ->
  (sets_right nside p s t <->
   ~ (s mod nside = 0 /\ nside * (s / nside) + nside <= t /\ t - s + 1 <> 2 * nside) /\
   (s + t <= 9 * nside - 4 \/ (s = 4 * nside - 2 /\ t = 5 * nside - 1) \/
    (s = 5 * nside - 1 /\ t = 4 * nside - 2))).
Proof. exact sets_right_iff. Qed.
Print Assumptions C71_exactly_when.

Lemma star_12 : star_at 4 12 0 5.
Proof. destruct neighbours_lengths_witness as (jd & A & B & C & _). exists 3, 1, jd. auto. Qed.

(** The expectation "the arrays hold the indices of the neighbours" fails: at
    nside = 4 pixel 11 touches pixel 12, and its first star index 13 is not
    returned. *)
Theorem C71_refuted : exists nside p s t q x y,
  legal_pix nside p /\ star_at nside p s t /\ adjacent nside p q /\ star_at nside q x y /\
  ~ In x (fst (ijs_neighbours s t nside)).
Proof.
  destruct (C71_left_edge 4 12 0 5) as (q & x & y & A & S & NI); try (unfold legal_pix; cbn; lia).
  { exact star_12. }
  exists 4, 12, 0, 5, q, x, y. split; [unfold legal_pix; lia|]. split; [exact star_12|auto].
Qed.
Print Assumptions C71_refuted.

(** At nside = 1 the array of second indices of pixel 4 holds -1, which is not
    an index of any pixel. *)
Theorem C71_nside1_refuted : exists p, legal_pix 1 p /\ star_at 1 p 0 0 /\
  In (-1) (snd (ijs_neighbours 0 0 1)) /\ forall q s t, legal_pix 1 q -> star_at 1 q s t -> 0 <= t.
Proof.
  exists 4. split; [unfold legal_pix; lia|]. split; [|split].
  - assert (E : pix2ij 4 1 = Ok (2, 1)).
    { apply pix2ij_of_ij; [lia | | reflexivity]. unfold legal_ij, ring_len. simpl. lia. }
    destruct (PHealpixNeigh.star_exists 1 4 2 1 ltac:(lia) ltac:(unfold legal_pix; lia) E)
      as [jd [is [js [F1 [F2 [A B]]]]]].
    change (id2 1 2) with 0 in A. change (jd2 1 2 1) with 0 in B.
    assert (is = 0) by lia. assert (js = 0) by lia. subst. exists 2, 1, jd. auto.
  - vm_compute. auto.
  - intros q s t Hq (i & j & jd & A & B & C).
    destruct (star_exact 1 q ltac:(lia) Hq) as (i' & j' & jd' & s' & t' & A' & B' & C' & _ & T & _).
    rewrite A in A'. injection A' as <- <-. rewrite B in B'. injection B' as <-.
    rewrite C in C'. injection C' as <- <-. exact T.
Qed.
Print Assumptions C71_nside1_refuted.

(** Hypotheses of [C71_right], [C71_left_edge] and [C71_seam] met. *)
Example C71_case : star_at 4 25 1 5 /\ legal_pix 4 25 /\
  ijs_neighbours 1 5 4 = ([0; 1; 2], [4; 5; 6]) /\
  (exists q, adjacent 4 25 q /\ star_at 4 q 2 6) /\
  star_at 4 12 0 5 /\ ijs_neighbours 0 5 4 = ([0; 1; 14; 15], [3; 4; 5; 6; 19]).
Proof.
  destruct neighbours_interior_witness as (jd & A & B & C & D).
  assert (S : star_at 4 25 1 5) by (exists 4, 2, jd; auto).
  split; [exact S|]. split; [unfold legal_pix; lia|]. split; [exact D|]. split; [|split; [exact star_12|reflexivity]].
  apply (neighbour_adjacent 4 25 1 5); auto. lia. unfold legal_pix; lia.
  split; [exists 0, 1, 2, 2; lia|]. split; [unfold indom; lia|]. split; [|lia].
  exists 1, 1, 0, 0, 0. do 4 (split; [lia|]). left. lia.
Qed.
