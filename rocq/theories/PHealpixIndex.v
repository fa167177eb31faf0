(** * Proofs about [MHealpixIndex.v] *)

From Coq Require Import Reals ZArith List Bool Lia Lra Psatz.
From Flocq Require Import Core.Raux.
From Verif Require Import Base BaseP Spec MHealpixIndex.
Import ListNotations.
Open Scope R_scope.

(** ** The ring of a polar-cap pixel *)

Lemma cap_ring_spec : forall (i : Z) ph, (1 <= i)%Z ->
  IZR i * (IZR i - 1) + / 2 <= ph <= IZR i * (IZR i + 1) ->
  cap_ring ph = Some i.
Proof.
  intros i ph Hi [Hl Hu].
  assert (Hi' : 1 <= IZR i) by (apply IZR_le; auto).
  set (I := IZR i) in *.
  pose proof (Zfloor_bound ph) as [Hf1 Hf2]. set (m := Zfloor ph) in *.
  assert (Hm0 : (0 <= m)%Z).
  { apply le_IZR. apply Rnot_lt_le. intro. assert (m <= -1)%Z by (apply lt_IZR in H; lia).
    apply IZR_le in H0. simpl in H0. nra. }
  assert (Hml : (i * (i - 1) <= m)%Z).
  { apply Zfloor_lub. rewrite mult_IZR, minus_IZR. fold I. simpl. lra. }
  assert (Hmu : (m <= i * (i + 1))%Z).
  { apply le_IZR. rewrite mult_IZR, plus_IZR. fold I. simpl. lra. }
  assert (HmR : 0 <= IZR m) by (apply IZR_le; auto).
  assert (HmlR : I * (I - 1) <= IZR m).
  { apply IZR_le in Hml. rewrite mult_IZR, minus_IZR in Hml. auto. }
  pose proof (sqrt_pos (IZR m)) as Hs0. pose proof (sqrt_sqrt _ HmR) as Hss.
  unfold cap_ring. unfold np_sqrt at 1. rewrite Rlt_bool_f by auto.
  fold m. set (s := sqrt (IZR m)) in *.
  (* lower bound *)
  assert (Hx1 : (I - 1) * (I - 1) <= ph - s).
  { destruct (Z.eq_dec m (i * (i - 1))) as [E|E].
    - assert (E' : IZR m = I * (I - 1)) by (rewrite E, mult_IZR, minus_IZR; auto).
      assert (s <= I - / 2) by nra. nra.
    - assert (A : (i * (i - 1) + 1 <= m)%Z) by lia.
      apply IZR_le in A. rewrite plus_IZR, mult_IZR, minus_IZR in A. fold I in A. simpl in A.
      destruct (Rle_dec s I) as [B|B].
      + nra.
      + apply Rnot_le_lt in B.
        assert (C : (i * i < m)%Z).
        { apply lt_IZR. rewrite mult_IZR. fold I. nra. }
        assert (D : (i * i + 1 <= m)%Z) by lia.
        apply IZR_le in D. rewrite plus_IZR, mult_IZR in D. fold I in D. simpl in D.
        assert (s <= I + / 2).
        { apply IZR_le in Hmu. rewrite mult_IZR, plus_IZR in Hmu. fold I in Hmu. nra. }
        nra. }
  (* upper bound *)
  assert (Hx2 : ph - s < I * I).
  { destruct (Z_lt_le_dec m (i * i)) as [A|A].
    - assert (A' : (m + 1 <= i * i)%Z) by lia.
      apply IZR_le in A'. rewrite plus_IZR, mult_IZR in A'. fold I in A'. lra.
    - destruct (Z.eq_dec m (i * i)) as [E|E].
      + assert (E' : IZR m = I * I) by (rewrite E, mult_IZR; auto).
        assert (I <= s) by nra. lra.
      + assert (A' : (i * i < m)%Z) by lia.
        apply IZR_lt in A'. rewrite mult_IZR in A'. fold I in A'.
        assert (I < s) by nra. lra. }
  assert (Hx0 : 0 <= ph - s) by nra.
  unfold np_sqrt. rewrite Rlt_bool_f by auto.
  f_equal. rewrite (Zfloor_unique _ (i - 1)). lia.
  rewrite minus_IZR. fold I. simpl.
  pose proof (sqrt_pos (ph - s)). pose proof (sqrt_sqrt _ Hx0). split; nra.
Qed.

(** ** Closed forms of the ring sums *)

Lemma ring_sum_north : forall nside k, (1 <= nside)%Z -> (Z.of_nat k <= nside)%Z ->
  pixels_in_rings nside k = (2 * Z.of_nat k * (Z.of_nat k + 1))%Z.
Proof.
  intros nside k Hn. induction k as [|k IH]; intros Hk. reflexivity.
  cbn [pixels_in_rings]. rewrite IH by lia. unfold ring_len.
  destruct (Z.ltb_spec (Z.of_nat (S k)) nside).
  - nia.
  - assert (Z.of_nat (S k) = nside) by lia.
    replace (Z.of_nat (S k) <=? 3 * nside)%Z with true by (symmetry; apply Z.leb_le; lia).
    nia.
Qed.

Lemma ring_sum_belt : forall nside k, (1 <= nside)%Z -> (nside <= Z.of_nat k <= 3 * nside)%Z ->
  pixels_in_rings nside k = (2 * nside * (nside + 1) + 4 * nside * (Z.of_nat k - nside))%Z.
Proof.
  intros nside k Hn Hk. induction k as [|k IH]. lia.
  destruct (Z.eq_dec (Z.of_nat (S k)) nside) as [E|E].
  - rewrite ring_sum_north by lia. rewrite E. ring.
  - cbn [pixels_in_rings]. rewrite IH by lia. unfold ring_len.
    replace (Z.of_nat (S k) <? nside)%Z with false by (symmetry; apply Z.ltb_ge; lia).
    replace (Z.of_nat (S k) <=? 3 * nside)%Z with true by (symmetry; apply Z.leb_le; lia).
    nia.
Qed.

Lemma ring_sum_south : forall nside k, (1 <= nside)%Z -> (3 * nside <= Z.of_nat k <= 4 * nside)%Z ->
  pixels_in_rings nside k
  = (12 * nside ^ 2 - 2 * (4 * nside - Z.of_nat k - 1) * (4 * nside - Z.of_nat k))%Z.
Proof.
  intros nside k Hn Hk. induction k as [|k IH]. lia.
  destruct (Z.eq_dec (Z.of_nat (S k)) (3 * nside)) as [E|E].
  - rewrite ring_sum_belt by lia. rewrite E. ring.
  - cbn [pixels_in_rings]. rewrite IH by lia. unfold ring_len.
    replace (Z.of_nat (S k) <? nside)%Z with false by (symmetry; apply Z.ltb_ge; lia).
    replace (Z.of_nat (S k) <=? 3 * nside)%Z with false by (symmetry; apply Z.leb_gt; lia).
    nia.
Qed.

Lemma pixels_total : forall nside, (1 <= nside)%Z ->
  pixels_in_rings nside (Z.to_nat (4 * nside - 1)) = (12 * nside ^ 2)%Z.
Proof. intros. rewrite ring_sum_south by lia. rewrite Z2Nat.id by lia. ring. Qed.

(** Number of pixels before ring [i], in closed form. *)
Definition before (nside i : Z) : Z :=
  (if i <=? nside then 2 * i * (i - 1)
   else if i <? 3 * nside then 2 * nside * (nside + 1) + 4 * nside * (i - 1 - nside)
   else 12 * nside ^ 2 - 2 * (4 * nside - i) * (4 * nside - i + 1))%Z.

Lemma before_spec : forall nside i, (1 <= nside)%Z -> (1 <= i <= 4 * nside)%Z ->
  pixels_in_rings nside (Z.to_nat (i - 1)) = before nside i.
Proof.
  intros nside i Hn Hi. unfold before.
  destruct (Z.leb_spec i nside).
  - rewrite ring_sum_north by lia. rewrite Z2Nat.id by lia. ring.
  - destruct (Z.ltb_spec i (3 * nside)).
    + rewrite ring_sum_belt by lia. rewrite Z2Nat.id by lia. ring.
    + destruct (Z.eq_dec i (3 * nside)) as [->|].
      * rewrite ring_sum_belt by lia. rewrite Z2Nat.id by lia. ring.
      * rewrite ring_sum_south by lia. rewrite Z2Nat.id by lia. ring.
Qed.

Lemma ij2pix_before : forall nside i j, (1 <= nside)%Z -> (1 <= i <= 4 * nside - 1)%Z ->
  ij2pix i j nside = (before nside i + j - 1)%Z.
Proof.
  intros nside i j Hn Hi. unfold ij2pix, before. cbv zeta.
  destruct (Z.leb_spec i nside); [ring|].
  replace (nside <? i)%Z with true by (symmetry; apply Z.ltb_lt; lia). rewrite andb_true_l.
  destruct (Z.ltb_spec i (3 * nside)); ring.
Qed.

(** ** [pix2ij] on a legal ring and position *)

Lemma pix2ij_at : forall nside i j, (1 <= nside)%Z -> legal_ij nside i j ->
  pix2ij (before nside i + j - 1) nside = Ok (i, j).
Proof.
  intros nside i j Hn [Hi Hj]. unfold ring_len in Hj. unfold before, pix2ij.
  destruct (Z.leb_spec i nside) as [A|A].
  - (* north cap *)
    assert (Hj' : (1 <= j <= 4 * i)%Z).
    { destruct (Z.ltb_spec i nside); [lia|].
      destruct (Z.leb_spec i (3 * nside)); lia. }
    replace (2 * i * (i - 1) + j - 1 <=? 2 * nside * (nside + 1))%Z with true
      by (symmetry; apply Z.leb_le; nia).
    rewrite (cap_ring_spec i).
    + f_equal. f_equal. ring.
    + lia.
    + assert (E : IZR (2 * i * (i - 1) + j - 1) = 2 * IZR i * (IZR i - 1) + IZR j - 1).
      { rewrite !minus_IZR, plus_IZR, !mult_IZR, minus_IZR. reflexivity. }
      rewrite E. assert (1 <= IZR j) by (apply IZR_le; lia).
      assert (IZR j <= 4 * IZR i) by (rewrite <- mult_IZR; apply IZR_le; lia). lra.
  - destruct (Z.ltb_spec i (3 * nside)) as [B|B].
    + (* belt *)
      assert (Hj' : (1 <= j <= 4 * nside)%Z).
      { destruct (Z.ltb_spec i nside); [lia|].
        destruct (Z.leb_spec i (3 * nside)); lia. }
      set (p := (2 * nside * (nside + 1) + 4 * nside * (i - 1 - nside) + j - 1)%Z).
      assert (Hpd : (p - 2 * nside * (nside - 1) = 4 * nside * (i - nside) + (j - 1))%Z)
        by (unfold p; ring).
      destruct (Z.leb_spec p (2 * nside * (nside + 1))) as [C|C].
      * (* first pixel of ring nside+1: still handled by the cap formula *)
        assert (i = nside + 1 /\ j = 1)%Z as [-> ->] by (unfold p in C; nia).
        assert (Ep : p = (2 * nside * (nside + 1))%Z) by (unfold p; ring).
        rewrite Ep. rewrite (cap_ring_spec (nside + 1)).
        -- f_equal. f_equal. ring.
        -- lia.
        -- assert (E : IZR (2 * nside * (nside + 1)) = 2 * IZR nside * (IZR nside + 1))
             by (rewrite !mult_IZR, plus_IZR; reflexivity).
           rewrite E, plus_IZR. assert (1 <= IZR nside) by (apply IZR_le; lia). split; nra.
      * replace (2 * nside * (nside + 1) <? p)%Z with true by (symmetry; apply Z.ltb_lt; lia).
        replace (p <? 2 * nside * (5 * nside - 1))%Z with true
          by (symmetry; apply Z.ltb_lt; unfold p; nia).
        rewrite ?andb_true_l. cbv iota. rewrite Hpd.
        replace (4 * IZR nside) with (IZR (4 * nside)) by (rewrite mult_IZR; reflexivity).
        rewrite Zfloor_IZR_div by lia.
        replace (4 * nside * (i - nside) + (j - 1))%Z with ((j - 1) + (i - nside) * (4 * nside))%Z by ring.
        rewrite Z_div_plus_full by lia. rewrite Z_mod_plus_full.
        rewrite Z.div_small by lia. rewrite Z.mod_small by lia.
        f_equal. f_equal; ring.
    + (* south cap *)
      set (i' := (4 * nside - i)%Z).
      assert (Hj' : (1 <= j <= 4 * i')%Z).
      { unfold i'. destruct (Z.ltb_spec i nside); [lia|].
        destruct (Z.leb_spec i (3 * nside)); lia. }
      replace i with (4 * nside - i')%Z by (unfold i'; ring).
      assert (Hi' : (1 <= i' <= nside)%Z) by (unfold i'; lia).
      clearbody i'. clear Hj B A Hi i.
      replace (4 * nside - (4 * nside - i'))%Z with i' by ring.
      set (p := (12 * nside ^ 2 - 2 * i' * (i' + 1) + j - 1)%Z).
      replace (p <=? 2 * nside * (nside + 1))%Z with false
        by (symmetry; apply Z.leb_gt; unfold p; nia).
      replace (p <? 2 * nside * (5 * nside - 1))%Z with false
        by (symmetry; apply Z.ltb_ge; unfold p; nia).
      rewrite andb_false_r.
      replace (2 * nside * (5 * nside - 1) <=? p)%Z with true
        by (symmetry; apply Z.leb_le; unfold p; nia).
      replace (p <=? 12 * nside ^ 2)%Z with true
        by (symmetry; apply Z.leb_le; unfold p; nia).
      rewrite ?andb_true_l. cbv iota.
      rewrite (cap_ring_spec i').
      * f_equal. f_equal. unfold p. ring.
      * lia.
      * assert (E : IZR p = 12 * IZR nside ^ 2 - 2 * IZR i' * (IZR i' + 1) + IZR j - 1).
        { unfold p. rewrite !minus_IZR, plus_IZR, minus_IZR, !mult_IZR, plus_IZR.
          replace (IZR (nside ^ 2)) with (IZR nside ^ 2) by (rewrite pow_IZR; reflexivity). reflexivity. }
        rewrite E. assert (1 <= IZR j) by (apply IZR_le; lia).
        assert (IZR j <= 4 * IZR i') by (rewrite <- mult_IZR; apply IZR_le; lia). lra.
Qed.

(** Every legal pixel has a ring and position. *)
Lemma legal_pix_decomp : forall nside p, (1 <= nside)%Z -> legal_pix nside p ->
  exists i j, legal_ij nside i j /\ p = (before nside i + j - 1)%Z.
Proof.
  intros nside p Hn Hp. unfold legal_pix in Hp.
  assert (G : forall k : nat, (Z.of_nat k <= 4 * nside - 1)%Z ->
    (p < pixels_in_rings nside k)%Z ->
    exists i, (1 <= i <= Z.of_nat k)%Z /\
      (pixels_in_rings nside (Z.to_nat (i - 1)) <= p
       < pixels_in_rings nside (Z.to_nat (i - 1)) + ring_len nside i)%Z).
  { induction k as [|k IH]; intros Hk Hlt. simpl in Hlt. lia.
    destruct (Z_lt_le_dec p (pixels_in_rings nside k)) as [A|A].
    - destruct IH as [i [B C]]; try lia. exists i. split; [lia|auto].
    - exists (Z.of_nat (S k)). split; [lia|].
      replace (Z.to_nat (Z.of_nat (S k) - 1)) with k by lia.
      cbn [pixels_in_rings] in Hlt. lia. }
  destruct (G (Z.to_nat (4 * nside - 1))) as [i [Hi Hr]].
  - lia.
  - rewrite pixels_total by lia. lia.
  - rewrite before_spec in Hr by lia.
    exists i, (p - before nside i + 1)%Z. split; [|lia]. unfold legal_ij. split; lia.
Qed.

(** ** Main round-trip statements *)

Lemma pix2ij_correct : forall nside p, (1 <= nside)%Z -> legal_pix nside p ->
  exists i j, pix2ij p nside = Ok (i, j) /\ pixel_at nside p i j /\ ij2pix i j nside = p.
Proof.
  intros nside p Hn Hp. destruct (legal_pix_decomp nside p Hn Hp) as [i [j [Hl E]]].
  exists i, j. assert (Hi := proj1 Hl). split; [|split].
  - rewrite E. apply pix2ij_at; auto.
  - split; auto. rewrite before_spec by lia. auto.
  - rewrite ij2pix_before by lia. auto.
Qed.

Lemma ring_len_pos : forall nside i, (1 <= nside)%Z -> (1 <= i <= 4 * nside - 1)%Z ->
  (4 <= ring_len nside i)%Z.
Proof.
  intros. unfold ring_len.
  destruct (Z.ltb_spec i nside); [lia|]. destruct (Z.leb_spec i (3 * nside)); lia.
Qed.

Lemma pixels_in_rings_mono : forall nside k k', (1 <= nside)%Z -> (k <= k')%nat ->
  (Z.of_nat k' <= 4 * nside - 1)%Z -> (pixels_in_rings nside k <= pixels_in_rings nside k')%Z.
Proof.
  intros nside k k' Hn Hk. induction Hk; intros. lia.
  cbn [pixels_in_rings]. specialize (IHHk ltac:(lia)).
  pose proof (ring_len_pos nside (Z.of_nat (S m)) Hn ltac:(lia)). lia.
Qed.

Lemma ij2pix_correct : forall nside i j, (1 <= nside)%Z -> legal_ij nside i j ->
  legal_pix nside (ij2pix i j nside) /\ pixel_at nside (ij2pix i j nside) i j /\
  pix2ij (ij2pix i j nside) nside = Ok (i, j).
Proof.
  intros nside i j Hn Hl. assert (Hi := proj1 Hl). assert (Hj := proj2 Hl).
  rewrite ij2pix_before by lia.
  assert (P : pixel_at nside (before nside i + j - 1) i j).
  { split; auto. rewrite before_spec by lia. auto. }
  split; [|split]; auto. 2: apply pix2ij_at; auto.
  destruct P as [_ P]. rewrite P. unfold legal_pix.
  pose proof (pixels_in_rings_mono nside 0 (Z.to_nat (i - 1)) Hn ltac:(lia) ltac:(lia)) as A.
  pose proof (pixels_in_rings_mono nside (Z.to_nat i) (Z.to_nat (4 * nside - 1)) Hn ltac:(lia) ltac:(lia)) as B.
  rewrite pixels_total in B by lia.
  replace (Z.to_nat i) with (S (Z.to_nat (i - 1))) in B by lia.
  cbn [pixels_in_rings] in *. replace (Z.of_nat (S (Z.to_nat (i - 1)))) with i in B by lia.
  lia.
Qed.

Lemma pixel_at_unique : forall nside p i j i' j', (1 <= nside)%Z ->
  pixel_at nside p i j -> pixel_at nside p i' j' -> i = i' /\ j = j'.
Proof.
  intros nside p i j i' j' Hn [H1 E1] [H2 E2].
  assert (Hi := proj1 H1). assert (Hi' := proj1 H2).
  rewrite before_spec in E1, E2 by lia.
  pose proof (pix2ij_at nside i j Hn H1) as A. pose proof (pix2ij_at nside i' j' Hn H2) as B.
  rewrite <- E1 in A. rewrite <- E2 in B. rewrite A in B. injection B. auto.
Qed.

(** Behaviour outside the map. *)
Lemma pix2ij_beyond : forall nside p, (1 <= nside)%Z -> (12 * nside ^ 2 < p)%Z ->
  pix2ij p nside = Err UnboundLocalError.
Proof.
  intros nside p Hn Hp. unfold pix2ij.
  replace (p <=? 2 * nside * (nside + 1))%Z with false by (symmetry; apply Z.leb_gt; nia).
  replace (p <? 2 * nside * (5 * nside - 1))%Z with false by (symmetry; apply Z.ltb_ge; nia).
  rewrite andb_false_r.
  replace (p <=? 12 * nside ^ 2)%Z with false by (symmetry; apply Z.leb_gt; nia).
  rewrite andb_false_r. reflexivity.
Qed.

Lemma pix2ij_one_beyond : forall nside, (1 <= nside)%Z ->
  pix2ij (12 * nside ^ 2) nside = Ok (4 * nside - 1, 5)%Z.
Proof.
  intros nside Hn. unfold pix2ij.
  replace (12 * nside ^ 2 <=? 2 * nside * (nside + 1))%Z with false by (symmetry; apply Z.leb_gt; nia).
  replace (12 * nside ^ 2 <? 2 * nside * (5 * nside - 1))%Z with false by (symmetry; apply Z.ltb_ge; nia).
  rewrite andb_false_r.
  replace (2 * nside * (5 * nside - 1) <=? 12 * nside ^ 2)%Z with true by (symmetry; apply Z.leb_le; nia).
  rewrite Z.leb_refl. rewrite ?andb_true_l. cbv iota.
  assert (E : (12 * IZR nside ^ 2 - IZR (12 * nside ^ 2)) / 2 = 0).
  { rewrite mult_IZR. replace (IZR (nside ^ 2)) with (IZR nside ^ 2) by (rewrite pow_IZR; reflexivity).
    field. }
  rewrite E. unfold cap_ring. rewrite (Zfloor_IZR 0). unfold np_sqrt.
  rewrite Rlt_bool_f by lra. rewrite sqrt_0. replace (0 - 0) with 0 by ring.
  rewrite Rlt_bool_f by lra. rewrite sqrt_0, (Zfloor_IZR 0).
  f_equal. f_equal. ring.
Qed.

Lemma pix2ij_negative : forall nside p, (1 <= nside)%Z -> (p < -1)%Z ->
  pix2ij p nside = Err ValueError.
Proof.
  intros nside p Hn Hp. unfold pix2ij.
  replace (p <=? 2 * nside * (nside + 1))%Z with true by (symmetry; apply Z.leb_le; nia).
  assert (F : (Zfloor ((IZR p + 1) / 2) <= -1)%Z).
  { apply Z.lt_succ_r. apply lt_IZR. pose proof (Zfloor_lb ((IZR p + 1) / 2)).
    assert (IZR p <= -2) by (apply IZR_le; lia). simpl. lra. }
  unfold cap_ring, np_sqrt at 1. rewrite Rlt_bool_t. reflexivity.
  apply IZR_le in F. lra.
Qed.

Lemma pix2ij_minus_one : forall nside, (1 <= nside)%Z -> pix2ij (-1) nside = Ok (1, 0)%Z.
Proof.
  intros nside Hn. unfold pix2ij.
  replace (-1 <=? 2 * nside * (nside + 1))%Z with true by (symmetry; apply Z.leb_le; nia).
  assert (E : (-1 + 1) / 2 = 0) by field. change (IZR (-1)) with (-1). rewrite E.
  unfold cap_ring. rewrite (Zfloor_IZR 0). unfold np_sqrt.
  rewrite Rlt_bool_f by lra. rewrite sqrt_0. replace (0 - 0) with 0 by ring.
  rewrite Rlt_bool_f by lra. rewrite sqrt_0, (Zfloor_IZR 0). reflexivity.
Qed.

Lemma pix2ij_outside : forall nside p, (1 <= nside)%Z ->
  ((12 * nside ^ 2 < p)%Z -> pix2ij p nside = Err UnboundLocalError) /\
  ((p < -1)%Z -> pix2ij p nside = Err ValueError) /\
  pix2ij (12 * nside ^ 2) nside = Ok (4 * nside - 1, 5)%Z /\ pix2ij (-1) nside = Ok (1, 0)%Z /\
  ~ legal_ij nside (4 * nside - 1) 5 /\ ~ legal_ij nside 1 0.
Proof.
  intros nside p H. split; [apply pix2ij_beyond; auto|]. split; [apply pix2ij_negative; auto|].
  split; [apply pix2ij_one_beyond; auto|]. split; [apply pix2ij_minus_one; auto|].
  split; unfold legal_ij; [|lia]. unfold ring_len.
  destruct (4 * nside - 1 <? nside)%Z eqn:A; [apply Z.ltb_lt in A; lia|].
  destruct (4 * nside - 1 <=? 3 * nside)%Z eqn:B.
  - apply Z.leb_le in B. lia.
  - lia.
Qed.
