(** * Proofs about [healpix_ijs_neighbours] (MHealpixIndex.v) *)

From Coq Require Import Reals ZArith List Bool Lia Lra Psatz.
From Flocq Require Import Core.Raux.
From Verif Require Import Base BaseP Spec MHealpixIndex PHealpixIndex PHealpixCentre PHealpixTiling.
Import ListNotations.
Open Scope Z_scope.

(** No wrap-around: the arrays are unchanged. *)
Lemma put_nil_where : forall sel s a b,
  (forall v, In v (map2 Z.add a b) -> sel v = false) ->
  neigh_wrap sel s a b = (a, b).
Proof.
  intros sel s a b H. unfold neigh_wrap.
  replace (np_where (map sel (map2 Z.add a b))) with (@nil nat).
  - simpl. auto.
  - set (l := map2 Z.add a b) in *. clearbody l.
    induction l as [|v l IH]; auto. simpl map. rewrite np_where_cons.
    rewrite (H v) by (left; auto). rewrite <- IH; auto. intros. apply H. right; auto.
Qed.

Lemma unique3 : forall x, np_unique [x - 1; x; x + 1; x - 1; x + 1; x - 1; x; x + 1] = [x - 1; x; x + 1].
Proof.
  intros x. unfold np_unique. cbn [fold_right insert_unique].
  repeat (match goal with
    | |- context [?a <? ?b] =>
        first [ replace (a <? b) with true by (symmetry; apply Z.ltb_lt; lia)
              | replace (a <? b) with false by (symmetry; apply Z.ltb_ge; lia) ]
    | |- context [?a =? ?b] =>
        first [ replace (a =? b) with true by (symmetry; apply Z.eqb_eq; lia)
              | replace (a =? b) with false by (symmetry; apply Z.eqb_neq; lia) ]
    end; cbn [insert_unique]).
  reflexivity.
Qed.

Lemma unique3' : forall x, np_unique [x - 1; x - 1; x - 1; x; x; x + 1; x + 1; x + 1] = [x - 1; x; x + 1].
Proof.
  intros x. unfold np_unique. cbn [fold_right insert_unique].
  repeat (match goal with
    | |- context [?a <? ?b] =>
        first [ replace (a <? b) with true by (symmetry; apply Z.ltb_lt; lia)
              | replace (a <? b) with false by (symmetry; apply Z.ltb_ge; lia) ]
    | |- context [?a =? ?b] =>
        first [ replace (a =? b) with true by (symmetry; apply Z.eqb_eq; lia)
              | replace (a =? b) with false by (symmetry; apply Z.eqb_neq; lia) ]
    end; cbn [insert_unique]).
  reflexivity.
Qed.

Lemma mod_shift : forall a n, 0 < n -> (a + 1 - n) mod n = 0 -> a mod n = n - 1.
Proof.
  intros a n Hn H. apply Z.mod_divide in H; [|lia]. destruct H as [c Hc].
  symmetry. apply Z.mod_unique with c; [left; lia|]. lia.
Qed.

Lemma neighbours_interior : forall n is js, 3 <= n ->
  0 < is mod n < n - 1 -> 0 < js mod n < n - 1 ->
  js - is + 1 <> 2 * n -> is - js + 1 <> 2 * n ->
  n + 1 <= is + js <= 9 * n - 3 ->
  ijs_neighbours is js n = ([is - 1; is; is + 1], [js - 1; js; js + 1]).
Proof.
  intros n is js Hn Hi Hj HN HS HW. unfold ijs_neighbours.
  assert (E : ijs_neighbours_raw is js n =
    ([is - 1; is; is + 1; is - 1; is + 1; is - 1; is; is + 1],
     [js - 1; js - 1; js - 1; js; js; js + 1; js + 1; js + 1])).
  { unfold ijs_neighbours_raw.
    rewrite (proj2 (Z.eqb_neq (js - is + 1) (2 * n)) HN).
    rewrite (proj2 (Z.eqb_neq (is - js + 1) (2 * n)) HS).
    replace (is mod n =? 0) with false by (symmetry; apply Z.eqb_neq; lia).
    replace (js mod n =? 0) with false by (symmetry; apply Z.eqb_neq; lia).
    replace ((js + 1 - n) mod n =? 0) with false
      by (symmetry; apply Z.eqb_neq; intro C; apply mod_shift in C; lia).
    replace ((is + 1 - n) mod n =? 0) with false
      by (symmetry; apply Z.eqb_neq; intro C; apply mod_shift in C; lia).
    rewrite !andb_false_r, !andb_false_l. reflexivity. }
  rewrite E.
  rewrite put_nil_where.
  2: { cbn [map2 In]. intros v H. apply Z.ltb_ge. intuition lia. }
  rewrite put_nil_where.
  2: { cbn [map2 In]. intros v H. apply Z.ltb_ge. intuition lia. }
  rewrite unique3, unique3'. reflexivity.
Qed.

(** Star indices of a pixel: the chain pix2ij, i2id/j2jd, ijd2ijs. *)
Lemma star_of_pix : forall nside p is js i j jd, (1 <= nside)%Z -> legal_pix nside p ->
  pix2ij p nside = Ok (i, j) -> j2jd i j nside = Ok jd ->
  ijd2ijs (i2id i nside) jd nside = (is, js) ->
  js - is = id2 nside i /\ is + js = jd2 nside i j + nside - 1 /\ legal_ij nside i j.
Proof.
  intros nside p is js i j jd Hn Hp E1 E2 E3.
  destruct (star_exact nside p Hn Hp) as [i' [j' [jd' [is' [js' [F1 [F2 [F3 [F4 [F5 [F6 [F7 _]]]]]]]]]]]].
  rewrite E1 in F1. injection F1 as <- <-. rewrite E2 in F2. injection F2 as <-.
  rewrite E3 in F3. injection F3 as <- <-.
  destruct (pix2ij_correct nside p Hn Hp) as [i' [j' [G1 [[G2 _] _]]]].
  rewrite E1 in G1. injection G1 as <- <-.
  rewrite (j2jd_legal nside i j Hn) in E2 by (destruct G2; auto). injection E2 as <-.
  rewrite i2id_id2 in F6, F7.
  split; [|split; auto]; apply eq_IZR.
  - rewrite minus_IZR. lra.
  - rewrite plus_IZR, minus_IZR, plus_IZR. lra.
Qed.

(** Ring 1 and ring 4n-1 sit on face corners, so interior pixels are elsewhere. *)
Lemma interior_not_polar : forall nside i j is js, 1 <= nside -> legal_ij nside i j ->
  js - is = id2 nside i -> is + js = jd2 nside i j + nside - 1 ->
  0 < is mod nside -> 0 < js mod nside ->
  js - is + 1 <> 2 * nside /\ is - js + 1 <> 2 * nside.
Proof.
  intros n i j is js Hn L E1 E2 Mi Mj. unfold id2 in E1.
  split; intro C.
  - assert (i = 1) by lia. subst i. unfold jd2 in E2.
    replace (1 <=? n) with true in E2 by (symmetry; apply Z.leb_le; lia).
    rewrite Z.div_1_r, Z.mod_1_r in E2.
    assert (is = n * (j - 1)) by lia. subst is.
    rewrite Z.mul_comm, Z.mod_mul in Mi by lia. lia.
  - assert (i = 4 * n - 1) by lia. subst i. unfold jd2 in E2.
    destruct (4 * n - 1 <=? n) eqn:B. { apply Z.leb_le in B. lia. }
    replace (4 * n - 1 <? 3 * n) with false in E2 by (symmetry; apply Z.ltb_ge; lia).
    cbv zeta in E2. replace (4 * n - (4 * n - 1)) with 1 in E2 by lia.
    rewrite Z.div_1_r, Z.mod_1_r in E2.
    assert (js = n * (j - 1)) by nia. subst js.
    rewrite Z.mul_comm, Z.mod_mul in Mj by lia. lia.
Qed.

Lemma neighbours_pixel : forall nside p i j jd is js, 3 <= nside -> legal_pix nside p ->
  pix2ij p nside = Ok (i, j) -> j2jd i j nside = Ok jd ->
  ijd2ijs (i2id i nside) jd nside = (is, js) ->
  0 < is mod nside < nside - 1 -> 0 < js mod nside < nside - 1 ->
  nside + 1 <= is + js <= 9 * nside - 3 ->
  ijs_neighbours is js nside = ([is - 1; is; is + 1], [js - 1; js; js + 1]).
Proof.
  intros nside p i j jd is js Hn Hp E1 E2 E3 Mi Mj W.
  destruct (star_of_pix nside p is js i j jd ltac:(lia) Hp E1 E2 E3) as [A [B L]].
  destruct (interior_not_polar nside i j is js ltac:(lia) L A B) as [N S]; try lia.
  apply neighbours_interior; auto.
Qed.

Lemma star_exists : forall nside p i j, 1 <= nside -> legal_pix nside p ->
  pix2ij p nside = Ok (i, j) ->
  exists jd is js, j2jd i j nside = Ok jd /\ ijd2ijs (i2id i nside) jd nside = (is, js) /\
    js - is = id2 nside i /\ is + js = jd2 nside i j + nside - 1.
Proof.
  intros nside p i j Hn Hp E.
  destruct (star_exact nside p Hn Hp) as [i' [j' [jd [is [js [F1 [F2 [F3 _]]]]]]]].
  rewrite E in F1. injection F1 as <- <-.
  destruct (star_of_pix nside p is js i j jd Hn Hp E F2 F3) as [A [B _]].
  exists jd, is, js. auto.
Qed.

Lemma pix2ij_of_ij : forall nside i j p, 1 <= nside -> legal_ij nside i j ->
  ij2pix i j nside = p -> pix2ij p nside = Ok (i, j).
Proof. intros. subst. apply ij2pix_correct; auto. Qed.

Lemma neighbours_lengths_witness :
  exists jd, pix2ij 12 4 = Ok (3, 1) /\ j2jd 3 1 4 = Ok jd /\
    ijd2ijs (i2id 3 4) jd 4 = (0, 5) /\
    length (fst (ijs_neighbours 0 5 4)) = 4%nat /\ length (snd (ijs_neighbours 0 5 4)) = 5%nat.
Proof.
  assert (E : pix2ij 12 4 = Ok (3, 1)).
  { apply pix2ij_of_ij; [lia | | reflexivity]. unfold legal_ij, ring_len. simpl. lia. }
  destruct (star_exists 4 12 3 1 ltac:(lia) ltac:(unfold legal_pix; lia) E)
    as [jd [is [js [F1 [F2 [A B]]]]]].
  change (id2 4 3) with 5 in A. change (jd2 4 3 1) with 2 in B.
  assert (is = 0) by lia. assert (js = 5) by lia. subst.
  exists jd. repeat split; auto.
Qed.

Lemma neighbours_interior_witness :
  exists jd, pix2ij 25 4 = Ok (4, 2) /\ j2jd 4 2 4 = Ok jd /\
    ijd2ijs (i2id 4 4) jd 4 = (1, 5) /\
    ijs_neighbours 1 5 4 = ([0; 1; 2], [4; 5; 6]).
Proof.
  assert (E : pix2ij 25 4 = Ok (4, 2)).
  { apply pix2ij_of_ij; [lia | | reflexivity]. unfold legal_ij, ring_len. simpl. lia. }
  destruct (star_exists 4 25 4 2 ltac:(lia) ltac:(unfold legal_pix; lia) E)
    as [jd [is [js [F1 [F2 [A B]]]]]].
  change (id2 4 4) with 4 in A. change (jd2 4 4 2) with 3 in B.
  assert (is = 1) by lia. assert (js = 5) by lia. subst.
  exists jd. repeat split; auto.
Qed.

Lemma neighbours_pairs : forall nside p i j jd is js,
  3 <= nside -> legal_pix nside p ->
  pix2ij p nside = Ok (i, j) -> j2jd i j nside = Ok jd ->
  ijd2ijs (i2id i nside) jd nside = (is, js) ->
  0 < is mod nside < nside - 1 -> 0 < js mod nside < nside - 1 ->
  nside + 1 <= is + js <= 9 * nside - 3 ->
  combine (fst (ijs_neighbours is js nside)) (snd (ijs_neighbours is js nside))
  = [(is - 1, js - 1); (is, js); (is + 1, js + 1)] /\
  length (fst (ijs_neighbours is js nside)) = 3%nat /\
  length (snd (ijs_neighbours is js nside)) = 3%nat.
Proof.
  intros. rewrite (neighbours_pixel nside p i j jd is js); auto.
Qed.

Lemma neighbours_refuted : exists nside p i j jd is js,
  legal_pix nside p /\ pix2ij p nside = Ok (i, j) /\ j2jd i j nside = Ok jd /\
  ijd2ijs (i2id i nside) jd nside = (is, js) /\
  ~ In (is + 1, js)
       (combine (fst (ijs_neighbours is js nside)) (snd (ijs_neighbours is js nside))) /\
  In (is, js) (combine (fst (ijs_neighbours is js nside)) (snd (ijs_neighbours is js nside))).
Proof.
  destruct neighbours_interior_witness as [jd [A [B [C D]]]].
  exists 4, 25, 4, 2, jd, 1, 5. split; [unfold legal_pix; lia|].
  split; auto. split; auto. split; auto. rewrite D. cbn [fst snd combine]. split.
  - simpl. intros [H|[H|[H|[]]]]; discriminate.
  - simpl. auto.
Qed.

Lemma neighbours_lengths_refuted : exists nside p i j jd is js,
  legal_pix nside p /\ pix2ij p nside = Ok (i, j) /\ j2jd i j nside = Ok jd /\
  ijd2ijs (i2id i nside) jd nside = (is, js) /\
  length (fst (ijs_neighbours is js nside)) <> length (snd (ijs_neighbours is js nside)).
Proof.
  destruct neighbours_lengths_witness as [jd [A [B [C [D E]]]]].
  exists 4, 12, 3, 1, jd, 0, 5. split; [unfold legal_pix; lia|].
  split; auto. split; auto. split; auto. rewrite D, E. discriminate.
Qed.
