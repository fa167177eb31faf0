(** * Lemmas about the vocabulary of [Base.v] *)

From Coq Require Import Reals ZArith List Bool Lia Lra FinFun.
From Flocq Require Import Core.Raux.
From Verif Require Import Base.
Import ListNotations.
Open Scope R_scope.

(** ** Booleans on reals *)

Lemma Rle_bool_t : forall x y, x <= y -> Rle_bool x y = true.
Proof. intros; apply Rle_bool_true; auto. Qed.
Lemma Rle_bool_f : forall x y, y < x -> Rle_bool x y = false.
Proof. intros; apply Rle_bool_false; auto. Qed.
Lemma Rlt_bool_t : forall x y, x < y -> Rlt_bool x y = true.
Proof. intros; apply Rlt_bool_true; auto. Qed.
Lemma Rlt_bool_f : forall x y, y <= x -> Rlt_bool x y = false.
Proof. intros; apply Rlt_bool_false; auto. Qed.

Lemma Rlt_bool_negb : forall x y, Rlt_bool x y = negb (Rle_bool y x).
Proof.
  intros; destruct (Rlt_bool_spec x y); destruct (Rle_bool_spec y x); simpl; auto; lra.
Qed.

(** Case analysis on every real comparison in the goal. *)
Ltac rcase :=
  repeat match goal with
  | |- context [Rle_bool ?a ?b] => destruct (Rle_bool_spec a b)
  | |- context [Rlt_bool ?a ?b] => destruct (Rlt_bool_spec a b)
  | |- context [Req_bool ?a ?b] => destruct (Req_bool_spec a b)
  end.

(** ** Floor and modulo *)

Lemma Zfloor_unique : forall x z, IZR z <= x < IZR z + 1 -> Zfloor x = z.
Proof. intros x z H. apply Zfloor_imp. rewrite plus_IZR. exact H. Qed.

Lemma Zfloor_bound : forall x, IZR (Zfloor x) <= x < IZR (Zfloor x) + 1.
Proof. intros x. split. apply Zfloor_lb. apply Zfloor_ub. Qed.

Lemma Zfloor_plus_Z : forall x z, Zfloor (x + IZR z) = (Zfloor x + z)%Z.
Proof.
  intros. apply Zfloor_unique. rewrite plus_IZR.
  pose proof (Zfloor_bound x). lra.
Qed.

Lemma Rmod_bound : forall x y, 0 < y -> 0 <= Rmod x y < y.
Proof.
  intros x y Hy. unfold Rmod. pose proof (Zfloor_bound (x / y)) as [H1 H2].
  assert (x = y * (x / y)) by (field; lra).
  split; nra.
Qed.

Lemma Rmod_ex : forall x y, exists k : Z, Rmod x y = x - y * IZR k.
Proof. intros. exists (Zfloor (x / y)). reflexivity. Qed.

Lemma Rmod_unique : forall x y r k, 0 < y -> 0 <= r < y -> x = y * IZR k + r ->
  Rmod x y = r.
Proof.
  intros x y r k Hy Hr Hx. unfold Rmod.
  replace (Zfloor (x / y)) with k. lra.
  symmetry. apply Zfloor_unique. subst x.
  replace ((y * IZR k + r) / y) with (IZR k + r / y) by (field; lra).
  assert (0 <= r / y) by (apply Rle_mult_inv_pos; lra).
  assert (r / y < 1). { apply Rmult_lt_reg_r with y; auto. unfold Rdiv.
    rewrite Rmult_assoc, Rinv_l; lra. }
  lra.
Qed.

Lemma Rmod_id : forall x y, 0 <= x < y -> Rmod x y = x.
Proof. intros. apply Rmod_unique with 0%Z; try lra. Qed.

(** Integer floored division seen through the reals. *)
Lemma Zfloor_IZR_div : forall a b, (0 < b)%Z -> Zfloor (IZR a / IZR b) = (a / b)%Z.
Proof.
  intros a b Hb. apply Zfloor_unique.
  assert (Hb' : 0 < IZR b) by (apply IZR_lt; auto).
  pose proof (Z_div_mod_eq_full a b) as E. pose proof (Z.mod_pos_bound a b Hb) as B.
  assert (E' : IZR a = IZR b * IZR (a / b) + IZR (a mod b)).
  { rewrite <- mult_IZR, <- plus_IZR. f_equal. lia. }
  assert (B1 : 0 <= IZR (a mod b)) by (apply IZR_le; lia).
  assert (B2 : IZR (a mod b) < IZR b) by (apply IZR_lt; lia).
  assert (IZR a / IZR b = IZR (a / b) + IZR (a mod b) / IZR b) by (rewrite E'; field; lra).
  assert (0 <= IZR (a mod b) / IZR b) by (apply Rle_mult_inv_pos; lra).
  assert (IZR (a mod b) / IZR b < 1).
  { apply Rmult_lt_reg_r with (IZR b); auto. unfold Rdiv.
    rewrite Rmult_assoc, Rinv_l; lra. }
  lra.
Qed.

Lemma Rmod_IZR : forall a b, (0 < b)%Z -> Rmod (IZR a) (IZR b) = IZR (a mod b).
Proof.
  intros. unfold Rmod. rewrite Zfloor_IZR_div by auto.
  rewrite <- mult_IZR, <- minus_IZR. f_equal.
  pose proof (Z_div_mod_eq_full a b). lia.
Qed.

(** ** [np.where], fancy indexing, masked assignment *)

Lemma where_from_S : forall m k, where_from (S k) m = map S (where_from k m).
Proof.
  induction m as [|b m IH]; intros k; simpl; auto.
  destruct b; simpl; rewrite IH; auto.
Qed.

Lemma np_where_cons : forall b m,
  np_where (b :: m) = if b then 0%nat :: map S (np_where m) else map S (np_where m).
Proof. intros. unfold np_where. simpl. rewrite where_from_S. destruct b; auto. Qed.

Lemma in_np_where : forall m k,
  In k (np_where m) <-> (k < length m)%nat /\ nth k m false = true.
Proof.
  induction m as [|b m IH]; intros k.
  - simpl. split; [tauto | lia].
  - rewrite np_where_cons.
    assert (E : In k (map S (np_where m)) <-> exists k', k = S k' /\ In k' (np_where m)).
    { rewrite in_map_iff. split; intros [x [A B]]; exists x; auto. }
    destruct b.
    + simpl In. rewrite E. destruct k as [|k]; simpl.
      * split; intros. split; [lia | auto]. left; auto.
      * split.
        -- intros [H|[k' [H1 H2]]]; [lia|]. injection H1 as <-. apply IH in H2. split; [lia|tauto].
        -- intros [H1 H2]. right. exists k. split; auto. apply IH. split; [lia|auto].
    + rewrite E. destruct k as [|k]; simpl.
      * split. intros [k' [H _]]; lia. intros [_ H]; discriminate.
      * split.
        -- intros [k' [H1 H2]]. injection H1 as <-. apply IH in H2. split; [lia|tauto].
        -- intros [H1 H2]. exists k. split; auto. apply IH. split; [lia|auto].
Qed.

Lemma NoDup_np_where : forall m, NoDup (np_where m).
Proof.
  induction m as [|b m IH]; [constructor|].
  rewrite np_where_cons.
  assert (NoDup (map S (np_where m))).
  { apply Injective_map_NoDup; auto. intros x y H; lia. }
  destruct b; auto. constructor; auto.
  rewrite in_map_iff. intros [x [H1 _]]; lia.
Qed.

Lemma length_set_nth : forall A (l : list A) k v, length (set_nth l k v) = length l.
Proof. induction l; intros [|k] v; simpl; auto. Qed.

Lemma nth_set_nth : forall A (l : list A) k v q d,
  nth q (set_nth l k v) d = if (q =? k)%nat && (k <? length l)%nat then v else nth q l d.
Proof.
  induction l as [|a l IH]; intros k v q d.
  - simpl. rewrite andb_false_r. auto.
  - destruct k as [|k]; destruct q as [|q]; simpl; auto.
    rewrite IH. reflexivity.
Qed.

Lemma length_put : forall A idx (l : list A) vals, length (put l idx vals) = length l.
Proof.
  induction idx as [|i idx IH]; intros l vals; simpl; auto.
  destruct vals; auto. rewrite IH. apply length_set_nth.
Qed.

Lemma nth_put_notin : forall A idx (l : list A) vals q d,
  ~ In q idx -> nth q (put l idx vals) d = nth q l d.
Proof.
  induction idx as [|i idx IH]; intros l vals q d H; simpl; auto.
  destruct vals as [|v vals]; auto. simpl in H.
  rewrite IH by tauto. rewrite nth_set_nth.
  destruct (Nat.eqb_spec q i); simpl; auto. subst; tauto.
Qed.

Lemma nth_put_in : forall A idx (l : list A) (h : nat -> A) q d,
  NoDup idx -> In q idx -> (q < length l)%nat ->
  nth q (put l idx (map h idx)) d = h q.
Proof.
  induction idx as [|i idx IH]; intros l h q d ND H Hq; simpl in *; [tauto|].
  inversion ND; subst.
  destruct H as [<-|H].
  - rewrite nth_put_notin by auto. rewrite nth_set_nth.
    rewrite Nat.eqb_refl. replace (i <? length l)%nat with true; auto.
    symmetry; apply Nat.ltb_lt; auto.
  - apply IH; auto. rewrite length_set_nth; auto.
Qed.

(** Masked assignment, position by position. *)
Lemma nth_put_where : forall A m (l : list A) (h : nat -> A) q d,
  length m = length l -> (q < length l)%nat ->
  nth q (put l (np_where m) (map h (np_where m))) d
  = if nth q m false then h q else nth q l d.
Proof.
  intros A m l h q d Hl Hq.
  destruct (nth q m false) eqn:E.
  - apply nth_put_in; auto. apply NoDup_np_where. apply in_np_where. split; [lia|auto].
  - apply nth_put_notin. rewrite in_np_where. intros [_ H]. congruence.
Qed.

Lemma map2_map_map : forall A B C D (f : B -> C -> D) (g : A -> B) (h : A -> C) l,
  map2 f (map g l) (map h l) = map (fun x => f (g x) (h x)) l.
Proof. induction l; simpl; congruence. Qed.

Lemma combine_map_map : forall A B C (g : A -> B) (h : A -> C) l,
  combine (map g l) (map h l) = map (fun x => (g x, h x)) l.
Proof. induction l; simpl; congruence. Qed.

Lemma map2_length : forall A B C (f : A -> B -> C) l m,
  length (map2 f l m) = Nat.min (length l) (length m).
Proof. induction l; destruct m; simpl; auto. Qed.

Lemma nth_map2 : forall A B C (f : A -> B -> C) l m q da db dc,
  (q < length l)%nat -> (q < length m)%nat ->
  nth q (map2 f l m) dc = f (nth q l da) (nth q m db).
Proof.
  induction l as [|a l IH]; intros m q da db dc H1 H2; simpl in *; [lia|].
  destruct m as [|b m]; simpl in *; [lia|].
  destruct q; auto. apply IH; lia.
Qed.

Lemma map_where_ext : forall A m (f g : nat -> A),
  (forall q, (q < length m)%nat -> nth q m false = true -> f q = g q) ->
  map f (np_where m) = map g (np_where m).
Proof.
  intros. apply map_ext_in. intros a Ha. apply in_np_where in Ha. apply H; tauto.
Qed.

Lemma nth_map_lt : forall A B (f : A -> B) l q d d',
  (q < length l)%nat -> nth q (map f l) d = f (nth q l d').
Proof.
  intros. rewrite nth_indep with (d' := f d') by (rewrite map_length; auto).
  apply map_nth.
Qed.

Lemma nth_repeat_lt : forall A (a : A) n q d, (q < n)%nat -> nth q (repeat a n) d = a.
Proof. induction n; intros [|q] d H; simpl; auto; try lia. apply IHn; lia. Qed.

Lemma list_ext : forall A (l m : list A) d, length l = length m ->
  (forall q, (q < length l)%nat -> nth q l d = nth q m d) -> l = m.
Proof. intros A l m d H1 H2. apply nth_ext with d d; auto. Qed.

(** ** Sums *)

Lemma Rsum_app : forall l m, Rsum (l ++ m) = Rsum l + Rsum m.
Proof. induction l; intros; simpl. lra. rewrite IHl; lra. Qed.

Lemma Rsum_map_ext : forall A (f g : A -> R) l, (forall x, In x l -> f x = g x) ->
  Rsum (map f l) = Rsum (map g l).
Proof. intros. f_equal. apply map_ext_in; auto. Qed.

Lemma Rsum_map_plus : forall A (f g : A -> R) l,
  Rsum (map (fun x => f x + g x) l) = Rsum (map f l) + Rsum (map g l).
Proof. induction l; simpl. lra. rewrite IHl; lra. Qed.

Lemma Rsum_map_scal : forall A (f : A -> R) c l,
  Rsum (map (fun x => c * f x) l) = c * Rsum (map f l).
Proof. induction l; simpl. lra. rewrite IHl; lra. Qed.

Lemma Rsum_nonneg : forall l, (forall x, In x l -> 0 <= x) -> 0 <= Rsum l.
Proof.
  induction l; simpl; intros. lra.
  pose proof (H a (or_introl eq_refl)). assert (0 <= Rsum l) by auto. lra.
Qed.

Lemma Rsum_le : forall A (f g : A -> R) l, (forall x, In x l -> f x <= g x) ->
  Rsum (map f l) <= Rsum (map g l).
Proof.
  induction l; simpl; intros. lra.
  pose proof (H a (or_introl eq_refl)). assert (Rsum (map f l) <= Rsum (map g l)) by auto. lra.
Qed.

Lemma Rsum_repeat : forall c n, Rsum (repeat c n) = INR n * c.
Proof.
  induction n. simpl; lra.
  rewrite S_INR. change (repeat c (S n)) with (c :: repeat c n). simpl. rewrite IHn. lra.
Qed.

(** ** [linspace] *)

Lemma length_linspace : forall a b n, length (linspace a b n) = n.
Proof.
  intros a b [|[|n]]; auto. unfold linspace. rewrite map_length, seq_length. auto.
Qed.

Lemma nth_linspace : forall a b n i d, (2 <= n)%nat -> (i < n)%nat ->
  nth i (linspace a b n) d = a + INR i * ((b - a) / INR (n - 1)).
Proof.
  intros a b n i d Hn Hi. destruct n as [|[|n]]; try lia. unfold linspace.
  rewrite nth_map_lt with (d' := 0%nat) by (rewrite seq_length; auto).
  rewrite seq_nth by auto. auto.
Qed.

Lemma nth_linspace_0 : forall a b n d, (1 <= n)%nat -> nth 0 (linspace a b n) d = a.
Proof.
  intros a b n d H. destruct n as [|[|n]]; try lia. reflexivity.
  rewrite nth_linspace by lia. simpl INR. lra.
Qed.

Lemma nth_linspace_last : forall a b n d, (2 <= n)%nat ->
  nth (n - 1) (linspace a b n) d = b.
Proof.
  intros a b n d H. rewrite nth_linspace by lia.
  assert (INR (n - 1) <> 0) by (apply not_0_INR; lia). field; auto.
Qed.

Lemma linspace_between : forall a b n x, a <= b -> In x (linspace a b n) -> a <= x <= b.
Proof.
  intros a b n x Hab Hin.
  destruct n as [|[|n]]; simpl in Hin.
  - tauto.
  - destruct Hin as [<-|[]]; lra.
  - change (In x (linspace a b (S (S n)))) in Hin.
    apply In_nth with (d := 0) in Hin. destruct Hin as [i [Hi <-]].
    rewrite length_linspace in Hi. rewrite nth_linspace by lia.
    set (m := (S (S n) - 1)%nat).
    assert (0 < INR m) by (apply lt_0_INR; unfold m; lia).
    assert (0 <= INR i) by apply pos_INR.
    assert (INR i <= INR m) by (apply le_INR; unfold m; lia).
    assert (Hq : 0 <= (b - a) / INR m) by (apply Rle_mult_inv_pos; lra).
    split. nra.
    assert (E : b = a + INR m * ((b - a) / INR m)) by (field; lra).
    nra.
Qed.

Lemma Ok_inj : forall A (a b : A), Ok a = Ok b -> a = b.
Proof. intros; congruence. Qed.
