(** * C71 at nside = 1: exactly which pixels have the right neighbour sets *)

From Coq Require Import ZArith List Bool Lia.
From Verif Require Import Base Spec MHealpixIndex PNeighbours PNeighbours3 PNeighbours4.
Import ListNotations.
Open Scope Z_scope.

(** The twelve base pixels. *)
Definition base_sites : list (Z * Z) :=
  [(0, 1); (1, 2); (2, 3); (3, 4); (0, 0); (1, 1); (2, 2); (3, 3); (1, 0); (2, 1); (3, 2); (4, 3)].

Definition gluedb (u v u' v' : Z) : bool :=
  ((u' =? u) && (v' =? v))
  || ((1 <=? v - u) && (v - u <=? 2) && (u' =? v - 1) && (v' =? 2 * v - 1 - u))
  || ((1 <=? v - u) && (v - u <=? 2) && (u' =? 2 * u + 1 - v) && (v' =? u + 1))
  || ((1 <=? u - v) && (u - v <=? 2) && (v' =? u - 1) && (u' =? 2 * u - 1 - v))
  || ((1 <=? u - v) && (u - v <=? 2) && (v' =? 2 * v + 1 - u) && (u' =? v + 1))
  || (((v - u =? 2) || (u - v =? 2)) && (0 <=? u' - u) && (u' - u <=? 3) && (v' - v =? u' - u)).

Lemma gluedb_ok : forall u v u' v', gluedb u v u' v' = true <-> glued 1 u v u' v'.
Proof.
  intros u v u' v'. unfold gluedb, glued. rewrite !orb_true_iff, !andb_true_iff, !orb_true_iff, !Z.eqb_eq, !Z.leb_le.
  assert (D : forall z, (1 | z)) by (intros z; exists z; lia). pose proof (D u) as Du. pose proof (D v) as Dv. clear D.
  split.
  - intros [[[[[H|H]|H]|H]|H]|H].
    + left. lia.
    + right; left. split; [exact Dv|]. lia.
    + do 2 right; left. split; [exact Du|]. lia.
    + do 3 right; left. split; [exact Du|]. lia.
    + do 4 right; left. split; [exact Dv|]. lia.
    + do 5 right. split; [lia|]. exists (u' - u). lia.
  - intros [H|[(_ & H)|[(_ & H)|[(_ & H)|[(_ & H)|[H (j & H')]]]]]].
    + do 5 left. lia.
    + do 4 left. right. lia.
    + do 3 left. right. lia.
    + do 2 left. right. lia.
    + left. right. lia.
    + right. repeat split; try lia.
Qed.

Definition bits : list Z := [0; 1].
Definition turns : list Z := [-2; -1; 0; 1; 2].
Definition touchb (s t s' t' : Z) : bool :=
  existsb (fun e1 => existsb (fun e2 => existsb (fun f1 => existsb (fun f2 => existsb (fun m =>
    gluedb (s + e1) (t + e2) (s' + f1 + 4 * m) (t' + f2 + 4 * m)) turns) bits) bits) bits) bits.

Lemma in_bits : forall e, In e bits <-> 0 <= e <= 1.
Proof. intros e. unfold bits. cbn [In]. lia. Qed.

Lemma glued_sum : forall u v u' v', glued 1 u v u' v' -> - 3 <= u' + v' - (u + v) <= 6.
Proof. intros u v u' v' H. unfold glued in H. destruct H as [H|[(_ & H)|[(_ & H)|[(_ & H)|[(_ & H)|[H (j & H')]]]]]]; lia. Qed.

Lemma touchb_ok : forall s t s' t', indom 1 s t -> indom 1 s' t' -> (touchb s t s' t' = true <-> touch 1 s t s' t').
Proof.
  intros s t s' t' D D'. unfold indom in D, D'. unfold touchb, touch. rewrite existsb_exists. split.
  - intros (e1 & I1 & H). apply existsb_exists in H. destruct H as (e2 & I2 & H). apply existsb_exists in H. destruct H as (f1 & I3 & H).
    apply existsb_exists in H. destruct H as (f2 & I4 & H). apply existsb_exists in H. destruct H as (m & _ & H).
    apply in_bits in I1, I2, I3, I4. apply gluedb_ok in H. exists e1, e2, f1, f2, m. replace (4 * 1 * m) with (4 * m) by lia. auto 10.
  - intros (e1 & e2 & f1 & f2 & m & I1 & I2 & I3 & I4 & H). replace (4 * 1 * m) with (4 * m) in H by lia. pose proof (glued_sum _ _ _ _ H) as B.
    exists e1. split; [now apply in_bits|]. apply existsb_exists. exists e2. split; [now apply in_bits|]. apply existsb_exists. exists f1. split; [now apply in_bits|].
    apply existsb_exists. exists f2. split; [now apply in_bits|]. apply existsb_exists. exists m. split; [unfold turns; cbn [In]; lia|]. now apply gluedb_ok.
Qed.

Lemma site_iff : forall s t, site 1 s t /\ indom 1 s t <-> In (s, t) base_sites.
Proof.
  intros s t. unfold site, indom, base_sites. split.
  - intros [(k & d & a & b & Hd & Ha & Hb & -> & ->) D]. assert (a = 0) by lia. assert (b = 0) by lia. subst a b.
    assert (Dc : d = -1 \/ d = 0 \/ d = 1) by lia.
    assert (Kc : k = 0 \/ k = 1 \/ k = 2 \/ k = 3 \/ k = 4) by lia.
    destruct Dc as [-> |[-> | ->]]; destruct Kc as [-> |[-> |[-> |[-> | ->]]]]; try lia; vm_compute; auto 20.
  - intros H. split.
    + exists s, (t - s), 0, 0. cbn [In] in H. repeat destruct H as [H|H]; try (injection H as <- <-; lia). destruct H.
    + cbn [In] in H. repeat destruct H as [H|H]; try (injection H as <- <-; lia). destruct H.
Qed.

Definition around (s t : Z) : list (Z * Z) :=
  filter (fun q => touchb s t (fst q) (snd q) && negb ((fst q =? s) && (snd q =? t))) base_sites.

Lemma around_ok : forall s t, indom 1 s t -> forall s' t', neighbour 1 s t s' t' <-> In (s', t') (around s t).
Proof.
  intros s t D s' t'. unfold neighbour, around. rewrite filter_In, <- site_iff. cbn [fst snd]. rewrite andb_true_iff, negb_true_iff, andb_false_iff, !Z.eqb_neq.
  split.
  - intros (S & D' & T & N). split; [auto|]. split; [now apply touchb_ok|]. destruct (Z.eq_dec s' s); [right|left]; auto.
  - intros ([S D'] & T & N). split; [exact S|]. split; [exact D'|]. split; [now apply (touchb_ok s t s' t')|]. intros [-> ->]. destruct N as [N|N]; now apply N.
Qed.

Definition same_set (a b : list Z) : bool :=
  forallb (fun x => existsb (Z.eqb x) b) a && forallb (fun x => existsb (Z.eqb x) a) b.
Lemma same_set_ok : forall a b, same_set a b = true <-> forall x, In x a <-> In x b.
Proof.
  intros a b. unfold same_set. rewrite andb_true_iff, !forallb_forall. split.
  - intros [H1 H2] x. split; intros Hx; [apply H1 in Hx|apply H2 in Hx]; apply existsb_exists in Hx; destruct Hx as (y & Hy & E); apply Z.eqb_eq in E; now subst y.
  - intros H. split; intros x Hx; apply existsb_exists; exists x; (split; [now apply H|apply Z.eqb_refl]).
Qed.

Definition rightb (s t : Z) : bool :=
  same_set (fst (ijs_neighbours s t 1)) (map fst (around s t)) && same_set (snd (ijs_neighbours s t 1)) (map snd (around s t)).

Lemma rightb_ok : forall p s t, legal_pix 1 p -> star_at 1 p s t -> (rightb s t = true <-> sets_right 1 p s t).
Proof.
  intros p s t Hp St. pose proof (neighbour_adjacent 1 p s t ltac:(lia) Hp St) as NA.
  destruct (star_facts 1 p s t ltac:(lia) Hp St) as (_ & D & _). pose proof (around_ok s t D) as AO.
  assert (Fa : forall x, In x (map fst (around s t)) <-> exists q y, adjacent 1 p q /\ star_at 1 q x y).
  { intros x. rewrite in_map_iff. split.
    - intros ([x' y] & <- & I). apply AO, NA in I. destruct I as [q I]. exists q, y. exact I.
    - intros (q & y & I). exists (x, y). split; [reflexivity|]. apply AO, NA. eauto. }
  assert (Sa : forall y, In y (map snd (around s t)) <-> exists q x, adjacent 1 p q /\ star_at 1 q x y).
  { intros y. rewrite in_map_iff. split.
    - intros ([x y'] & <- & I). apply AO, NA in I. destruct I as [q I]. exists q, x. exact I.
    - intros (q & x & I). exists (x, y). split; [reflexivity|]. apply AO, NA. eauto. }
  unfold rightb, sets_right. rewrite andb_true_iff, !same_set_ok. split; intros [H1 H2]; split.
  - intros x. rewrite H1. apply Fa.
  - intros y. rewrite H2. apply Sa.
  - intros x. rewrite H1. symmetry. apply Fa.
  - intros y. rewrite H2. symmetry. apply Sa.
Qed.

(** ** C71 *)

(** At nside = 1 the sets are right for every base pixel but four: the last
    ones of the three rings and the first one of the equator. *)
Theorem C71_nside1 : forall p s t, legal_pix 1 p -> star_at 1 p s t ->
  (sets_right 1 p s t <-> ~ ((s = 3 /\ t = 4) \/ (s = 3 /\ t = 3) \/ (s = 4 /\ t = 3) \/ (s = 0 /\ t = 0))).
Proof.
  intros p s t Hp St. rewrite <- (rightb_ok p s t Hp St). destruct (star_facts 1 p s t ltac:(lia) Hp St) as (S & D & _).
  assert (I : In (s, t) base_sites) by (apply site_iff; auto). unfold base_sites in I. cbn [In] in I. clear - I.
  repeat destruct I as [I|I]; try contradiction; injection I as <- <-;
    match goal with |- ?b = true <-> _ => let v := eval vm_compute in b in change b with v end; split; intros H; try discriminate; try reflexivity; try lia.
  all: exfalso; apply H; lia.
Qed.
Print Assumptions C71_nside1.
