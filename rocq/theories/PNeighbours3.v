(** * The neighbours of a HEALPix pixel: wrap-around and the returned sets *)

From Coq Require Import ZArith List Bool Lia Psatz Sorted.
From Verif Require Import Base BaseP MHealpixIndex PNeighbours PNeighbours2.
Import ListNotations.
Open Scope Z_scope.

(** ** [np.unique] *)

Lemma in_insert_unique : forall x y l, In y (insert_unique x l) <-> y = x \/ In y l.
Proof.
  induction l as [|z l IH]; cbn [insert_unique].
  - cbn. intuition.
  - destruct (Z.ltb_spec x z); [cbn; intuition|].
    destruct (Z.eqb_spec x z).
    + subst. cbn. intuition.
    + cbn [In]. rewrite IH. intuition.
Qed.

Lemma in_np_unique : forall y l, In y (np_unique l) <-> In y l.
Proof.
  unfold np_unique. induction l as [|x l IH]; cbn [fold_right]; [reflexivity|].
  rewrite in_insert_unique, IH. cbn. intuition.
Qed.

Lemma insert_unique_sorted : forall x l, StronglySorted Z.lt l -> StronglySorted Z.lt (insert_unique x l).
Proof.
  induction l as [|z l IH]; intros H; cbn [insert_unique].
  - repeat constructor.
  - inversion H as [|? ? H1 H2]; subst. destruct (Z.ltb_spec x z).
    + constructor; auto. constructor; auto.
      apply Forall_impl with (2 := H2). intros; lia.
    + destruct (Z.eqb_spec x z); [auto|]. constructor; auto.
      rewrite Forall_forall in *. intros y Hy. apply in_insert_unique in Hy.
      destruct Hy as [->|Hy]; [lia|auto].
Qed.

Lemma np_unique_sorted : forall l, StronglySorted Z.lt (np_unique l).
Proof.
  unfold np_unique. induction l as [|x l IH]; cbn [fold_right]; [constructor|].
  apply insert_unique_sorted; auto.
Qed.

(** ** Wrap-around *)

Definition wrap1 (sel : Z -> bool) (s : Z) (e : Z * Z) : Z * Z :=
  if sel (fst e + snd e) then (fst e + s, snd e + s) else e.

Lemma put_where_add : forall m (l : list Z) s, length m = length l ->
  put l (np_where m) (map (fun v => v + s) (take 0 l (np_where m)))
  = map (fun e : bool * Z => if fst e then snd e + s else snd e) (combine m l).
Proof.
  intros m l s L. unfold take. rewrite map_map.
  apply nth_ext with (d := 0) (d' := 0).
  - rewrite length_put, map_length, combine_length, L. lia.
  - intros q Hq. rewrite length_put in Hq. rewrite nth_put_where by lia.
    rewrite nth_map_lt with (d' := (false, 0)) by (rewrite combine_length; lia).
    rewrite combine_nth by lia. cbn [fst snd]. reflexivity.
Qed.

Lemma neigh_wrap_map : forall sel s l,
  neigh_wrap sel s (map fst l) (map snd l)
  = (map fst (map (wrap1 sel s) l), map snd (map (wrap1 sel s) l)).
Proof.
  intros sel s l. unfold neigh_wrap.
  assert (E : map sel (map2 Z.add (map fst l) (map snd l)) = map (fun e => sel (fst e + snd e)) l).
  { induction l as [|e l IH]; auto. cbn [map map2]. f_equal. exact IH. }
  rewrite E. rewrite !put_where_add by (rewrite !map_length; auto). f_equal.
  - rewrite map_map. clear E. induction l as [|e l IH]; auto. cbn [map combine fst snd]. rewrite IH. f_equal.
    unfold wrap1. destruct (sel (fst e + snd e)); reflexivity.
  - rewrite map_map. clear E. induction l as [|e l IH]; auto. cbn [map combine fst snd]. rewrite IH. f_equal.
    unfold wrap1. destruct (sel (fst e + snd e)); reflexivity.
Qed.

Definition wrapn (n : Z) (e : Z * Z) : Z * Z :=
  wrap1 (fun s => s <? n - 1) (4 * n) (wrap1 (fun s => 9 * n - 1 <? s) (- (4 * n)) e).

Lemma returned : forall n s t l, ijs_neighbours_raw s t n = (map fst l, map snd l) ->
  (forall x, In x (fst (ijs_neighbours s t n)) <-> exists e, In e l /\ x = fst (wrapn n e)) /\
  (forall y, In y (snd (ijs_neighbours s t n)) <-> exists e, In e l /\ y = snd (wrapn n e)).
Proof.
  intros n s t l E. unfold ijs_neighbours. rewrite E, neigh_wrap_map, neigh_wrap_map. cbn [fst snd].
  split; intros x; rewrite in_np_unique, in_map_iff; split.
  - intros (e & <- & H). rewrite in_map_iff in H. destruct H as (e' & <- & H).
    rewrite in_map_iff in H. destruct H as (e'' & <- & H). exists e''. auto.
  - intros (e & H & ->). exists (wrapn n e). split; auto. unfold wrapn. do 2 apply in_map. auto.
  - intros (e & <- & H). rewrite in_map_iff in H. destruct H as (e' & <- & H).
    rewrite in_map_iff in H. destruct H as (e'' & <- & H). exists e''. auto.
  - intros (e & H & ->). exists (wrapn n e). split; auto. unfold wrapn. do 2 apply in_map. auto.
Qed.

Lemma returned_sorted : forall n s t,
  StronglySorted Z.lt (fst (ijs_neighbours s t n)) /\ StronglySorted Z.lt (snd (ijs_neighbours s t n)).
Proof.
  intros. unfold ijs_neighbours. destruct (ijs_neighbours_raw s t n) as [a b].
  destruct (neigh_wrap _ _ a b) as [a' b']. destruct (neigh_wrap _ _ a' b') as [a'' b''].
  cbn [fst snd]. split; apply np_unique_sorted.
Qed.

(** ** The range of the star coordinates *)

Definition indom (n s t : Z) : Prop := n - 1 <= s + t <= 9 * n - 2.

Lemma dom_face : forall n k d a b, 2 <= n -> -1 <= d <= 1 -> 0 <= a < n -> 0 <= b < n ->
  indom n (n * k + a) (n * k + n * d + b) -> k = 0 \/ k = 1 \/ k = 2 \/ k = 3 \/ k = 4.
Proof.
  intros n k d a b Hn Hd Ha Hb D. unfold indom in D. assert (-1 < k < 5) by nia. lia.
Qed.

Lemma dom_unique : forall n s t m, 2 <= n -> indom n s t -> indom n (s + 4 * n * m) (t + 4 * n * m) -> m = 0.
Proof. unfold indom. intros. nia. Qed.

(** Sums of the listed pairs. *)
Lemma listed_sum : forall n k d a b l e, 2 <= n -> 0 <= a < n -> 0 <= b < n ->
  raw_case n (n * k) a d b l -> indom n (n * k + a) (n * k + n * d + b) -> In e l ->
  - (4 * n) <= fst e + snd e <= 14 * n.
Proof.
  intros n k d a b l e Hn Ha Hb C D I. unfold raw_case in C. cbv zeta in C. unfold indom in D.
  set (N := n * k) in *. clearbody N.
  destruct C as [C|[C|[C|[C|[C|[C|[C|[C|C]]]]]]]];
  [ | | | | | | |  | destruct C as [[C|[C|C]] L]];
  conj; subst l; subst; cbn [In] in I;
  repeat match type of I with _ \/ _ => destruct I as [I|I] end; try contradiction;
  subst e; cbn [fst snd]; lia.
Qed.

Definition left_edge (n k a d b : Z) : Prop := d = 1 /\ a = 0 /\ b < n - 1.

(** Pairs on the missed diagonal. *)
Lemma listed_diag : forall n k d a b l e, 2 <= n -> -1 <= d <= 1 -> 0 <= a < n -> 0 <= b < n ->
  raw_case n (n * k) a d b l -> indom n (n * k + a) (n * k + n * d + b) ->
  ~ left_edge n k a d b ->
  n * k + a + (n * k + n * d + b) <= 9 * n - 4 \/
  (n * k + a = 4 * n - 2 /\ n * k + n * d + b = 5 * n - 1) \/
  (n * k + a = 5 * n - 1 /\ n * k + n * d + b = 4 * n - 2) ->
  In e l -> fst e + snd e <> 9 * n - 1.
Proof.
  intros n k d a b l e Hn Hd Ha Hb C D NB S I. unfold left_edge in NB.
  destruct (dom_face _ _ _ _ _ Hn Hd Ha Hb D) as [-> | [-> | [-> | [-> | ->]]]];
  unfold raw_case in C; cbv zeta in C; unfold indom in D;
  (destruct C as [C|[C|[C|[C|[C|[C|[C|[C|C]]]]]]]];
  [ | | | |exfalso; lia| | |  | destruct C as [[C|[C|C]] L]]);
  conj; subst l; subst; try (exfalso; lia); cbn [In] in I;
  repeat match type of I with _ \/ _ => destruct I as [I|I] end; try contradiction;
  subst e; cbn [fst snd]; lia.
Qed.

(** ** The returned sets *)

Definition neighbour (n s t s' t' : Z) : Prop :=
  site n s' t' /\ indom n s' t' /\ touch n s t s' t' /\ ~ (s' = s /\ t' = t).

Lemma site_period : forall n s t m, site n s t -> site n (s + 4 * n * m) (t + 4 * n * m).
Proof.
  intros n s t m (k' & d' & a' & b' & ? & ? & ? & -> & ->).
  exists (k' + 4 * m), d', a', b'. split; [auto|]. split; [auto|]. split; [auto|]. split; ring.
Qed.

Lemma touch_period : forall n s t s' t' m, touch n s t s' t' -> touch n s t (s' + 4 * n * m) (t' + 4 * n * m).
Proof.
  intros n s t s' t' m (e1 & e2 & f1 & f2 & m' & ? & ? & ? & ? & G).
  exists e1, e2, f1, f2, (m' - m). do 4 (split; [auto|]).
  replace (s' + 4 * n * m + f1 + 4 * n * (m' - m)) with (s' + f1 + 4 * n * m') by ring.
  replace (t' + 4 * n * m + f2 + 4 * n * (m' - m)) with (t' + f2 + 4 * n * m') by ring. exact G.
Qed.

Lemma wrapn_dom : forall n e, 2 <= n -> - (4 * n) <= fst e + snd e <= 14 * n -> fst e + snd e <> 9 * n - 1 ->
  exists m, wrapn n e = (fst e + 4 * n * m, snd e + 4 * n * m) /\
    indom n (fst e + 4 * n * m) (snd e + 4 * n * m).
Proof.
  intros n [x y] Hn HS ND. cbn [fst snd] in *. unfold wrapn, wrap1, indom. cbn [fst snd].
  destruct (Z.ltb_spec (9 * n - 1) (x + y)); cbn [fst snd].
  - destruct (Z.ltb_spec (x + - (4 * n) + (y + - (4 * n))) (n - 1)); [lia|].
    exists (-1). split; [f_equal; ring|lia].
  - destruct (Z.ltb_spec (x + y) (n - 1)).
    + exists 1. split; [f_equal; ring|lia].
    + exists 0. split; [f_equal; ring|lia].
Qed.

Lemma neighbour_listed : forall n k d a b l, 2 <= n -> -1 <= d <= 1 -> 0 <= a < n -> 0 <= b < n ->
  raw_case n (n * k) a d b l -> indom n (n * k + a) (n * k + n * d + b) ->
  ~ left_edge n k a d b ->
  forall s' t', neighbour n (n * k + a) (n * k + n * d + b) s' t' ->
  exists m, In (s' + 4 * n * m, t' + 4 * n * m) l.
Proof.
  intros n k d a b l Hn Hd Ha Hb C D NB s' t' (S & D' & T & NP).
  apply (touch_listed n k a d b l s' t'); auto.
  intros m [E1 E2]. assert (m = 0).
  { apply (dom_unique n s' t' m); auto. rewrite E1, E2. auto. }
  subst m. apply NP. split; lia.
Qed.

Lemma listed_neighbour : forall n k d a b l, 2 <= n -> -1 <= d <= 1 -> 0 <= a < n -> 0 <= b < n ->
  raw_case n (n * k) a d b l -> ~ left_edge n k a d b ->
  forall x y m, In (x, y) l -> indom n (x + 4 * n * m) (y + 4 * n * m) ->
  neighbour n (n * k + a) (n * k + n * d + b) (x + 4 * n * m) (y + 4 * n * m).
Proof.
  intros n k d a b l Hn Hd Ha Hb C NB x y m I D.
  destruct (listed_good n k a d b l (x - n * k) (y - n * k) Hn Ha Hb C NB) as (S & T & NP).
  { replace (n * k + (x - n * k)) with x by ring. replace (n * k + (y - n * k)) with y by ring. exact I. }
  split; [|split; [auto|split]].
  - apply site_period. destruct S as (D1 & d' & a' & b' & ? & ? & ? & E1 & E2).
    replace x with (n * k + (x - n * k)) by ring. replace y with (n * k + (y - n * k)) by ring.
    apply rel_site with D1 d' a' b'; auto.
  - apply touch_period. destruct T as (e1 & e2 & f1 & f2 & ? & ? & ? & ? & G).
    replace x with (n * k + (x - n * k)) by ring. replace y with (n * k + (y - n * k)) by ring.
    apply class_touch with e1 e2 f1 f2; auto.
  - intros [E1 E2]. apply (NP m). split; lia.
Qed.

Definition off_seam (n s t : Z) : Prop :=
  s + t <= 9 * n - 4 \/ (s = 4 * n - 2 /\ t = 5 * n - 1) \/ (s = 5 * n - 1 /\ t = 4 * n - 2).

Lemma right_sets : forall n k d a b, 2 <= n -> -1 <= d <= 1 -> 0 <= a < n -> 0 <= b < n ->
  let s := n * k + a in let t := n * k + n * d + b in
  indom n s t -> ~ left_edge n k a d b -> off_seam n s t ->
  (forall x, In x (fst (ijs_neighbours s t n)) <-> exists t', neighbour n s t x t') /\
  (forall y, In y (snd (ijs_neighbours s t n)) <-> exists s', neighbour n s t s' y).
Proof.
  intros n k d a b Hn Hd Ha Hb s t D NB OS.
  destruct (raw_cases n k d a b Hn Hd Ha Hb) as (l & C & E).
  destruct (returned _ _ _ _ E) as [RI RJ]. fold s t in RI, RJ. clear E.
  assert (WD : forall e, In e l -> exists m, wrapn n e = (fst e + 4 * n * m, snd e + 4 * n * m) /\
    indom n (fst e + 4 * n * m) (snd e + 4 * n * m)).
  { intros e I. apply wrapn_dom; auto. apply (listed_sum n k d a b l e); auto.
    apply (listed_diag n k d a b l e); auto. }
  assert (F : forall e, In e l -> neighbour n s t (fst (wrapn n e)) (snd (wrapn n e))).
  { intros e I. destruct (WD e I) as (m & -> & D'). cbn [fst snd]. destruct e as [x y]. cbn [fst snd] in *.
    apply (listed_neighbour n k d a b l); auto. }
  assert (B : forall s' t', neighbour n s t s' t' -> exists e, In e l /\ wrapn n e = (s', t')).
  { intros s' t' NB'. destruct (neighbour_listed n k d a b l Hn Hd Ha Hb C D NB s' t' NB') as [m I].
    eexists. split; [exact I|]. destruct (WD _ I) as (m' & -> & D'). cbn [fst snd] in *.
    assert (m + m' = 0).
    { apply (dom_unique n s' t'); auto. apply NB'.
      replace (s' + 4 * n * (m + m')) with (s' + 4 * n * m + 4 * n * m') by ring.
      replace (t' + 4 * n * (m + m')) with (t' + 4 * n * m + 4 * n * m') by ring. exact D'. }
    replace m' with (- m) by lia. f_equal; ring. }
  split; intros x.
  - rewrite RI. split.
    + intros (e & I & ->). eexists. apply F; auto.
    + intros (t' & H). destruct (B _ _ H) as (e & I & W). exists e. rewrite W. auto.
  - rewrite RJ. split.
    + intros (e & I & ->). eexists. apply F; auto.
    + intros (s' & H). destruct (B _ _ H) as (e & I & W). exists e. rewrite W. auto.
Qed.

(** ** Where the sets are wrong *)

Lemma left_edge_wrong : forall n k d a b, 2 <= n -> -1 <= d <= 1 -> 0 <= a < n -> 0 <= b < n ->
  let s := n * k + a in let t := n * k + n * d + b in
  indom n s t -> left_edge n k a d b ->
  exists s' t', neighbour n s t s' t' /\ ~ In s' (fst (ijs_neighbours s t n)).
Proof.
  intros n k d a b Hn Hd Ha Hb s t D LE.
  destruct (raw_cases n k d a b Hn Hd Ha Hb) as (l & C & E).
  destruct (returned _ _ _ _ E) as [RI _]. fold s t in RI. clear E.
  assert (T : forall m, touch n s t (n * k + (- b - 2) + 4 * n * m) (n * k + (n - 1) + 4 * n * m)).
  { intros m. apply touch_period. unfold s, t. destruct LE as (-> & -> & Lb).
    apply class_touch with 0 1 1 1; try lia. unfold corner_class. do 2 right; left. lia. }
  assert (S : forall m, site n (n * k + (- b - 2) + 4 * n * m) (n * k + (n - 1) + 4 * n * m)).
  { intros m. apply site_period. destruct LE as (-> & -> & Lb).
    apply rel_site with (-1) 1 (n - b - 2) (n - 1); lia. }
  assert (W : exists m, indom n (n * k + (- b - 2) + 4 * n * m) (n * k + (n - 1) + 4 * n * m) /\
    (m = 1 /\ k = 0 \/ m = 0 /\ (k = 1 \/ k = 2 \/ k = 3))).
  { destruct (dom_face _ _ _ _ _ Hn Hd Ha Hb D) as [-> | [-> | [-> | [-> | ->]]]];
    unfold indom, s, t, left_edge in *; [exists 1|exists 0..]; lia. }
  destruct W as (m & D' & K). do 2 eexists. split; [split; [apply S|split; [exact D'|split; [apply T|]]]|].
  - unfold s, t. intros [H1 H2]. destruct LE as (-> & -> & Lb). clear T S RI C.
    destruct K as [[-> ->] | [-> [-> | [-> | ->]]]]; lia.
  - rewrite RI. intros (e & I & H). clear T S D' RI.
    unfold raw_case in C. cbv zeta in C. unfold left_edge in LE. unfold s, t in *. clear s t. unfold indom in D.
    destruct C as [C|[C|[C|[C|[C|[C|[C|[C|C]]]]]]]]; try (exfalso; lia).
    conj. subst l. subst.
    repeat match type of I with In _ _ => cbn [In] in I | _ \/ _ => destruct I as [I|I] end; try contradiction;
    subst e; unfold wrapn, wrap1 in H; cbn [fst snd] in H;
    destruct K as [[-> ->] | [-> [-> | [-> | ->]]]];
    repeat match type of H with context [?x <? ?y] => destruct (Z.ltb_spec x y); cbn [fst snd] in H end; lia.
Qed.

Ltac not_returned H I l :=
  conj; subst l; subst;
  repeat match type of I with In _ _ => cbn [In] in I | _ \/ _ => destruct I as [I|I] end; try contradiction;
  match type of I with _ = ?e => subst e end; unfold wrapn, wrap1 in H; cbn [fst snd] in H;
  repeat match type of H with context [?x <? ?y] => destruct (Z.ltb_spec x y); cbn [fst snd] in H end; lia.

Lemma seam_wrong : forall n k d a b, 2 <= n -> -1 <= d <= 1 -> 0 <= a < n -> 0 <= b < n ->
  let s := n * k + a in let t := n * k + n * d + b in
  indom n s t -> ~ left_edge n k a d b -> ~ off_seam n s t ->
  exists s' t', neighbour n s t s' t' /\
    (~ In s' (fst (ijs_neighbours s t n)) \/ ~ In t' (snd (ijs_neighbours s t n))).
Proof.
  intros n k d a b Hn Hd Ha Hb s t D LE OS.
  destruct (raw_cases n k d a b Hn Hd Ha Hb) as (l & C & E).
  destruct (returned _ _ _ _ E) as [RI RJ]. fold s t in RI, RJ. clear E.
  pose proof (listed_neighbour n k d a b l Hn Hd Ha Hb C LE) as LN. fold s t in LN.
  unfold raw_case in C. cbv zeta in C. fold s t in C.
  assert (K : k = 3 \/ k = 4).
  { destruct (dom_face _ _ _ _ _ Hn Hd Ha Hb D) as [-> | [-> | [-> | [-> | ->]]]]; auto; exfalso;
    clear C LN RI RJ; unfold indom, off_seam, s, t in *;
    assert (Dd : d = -1 \/ d = 0 \/ d = 1) by lia; destruct Dd as [-> | [-> | ->]]; lia. }
  assert (SS : s + t = 9 * n - 3 \/ s + t = 9 * n - 2) by (clear - D OS; unfold indom, off_seam in *; lia).
  unfold off_seam in OS. unfold left_edge in LE. unfold indom in D.
  destruct C as [C|[C|[C|[C|[C|[C|[C|[C|C]]]]]]]].
  - exfalso. clear LN RI RJ. conj; subst. unfold s, t in *. destruct K as [-> | ->]; lia.
  - exfalso. clear LN RI RJ. conj; subst. unfold s, t in *. destruct K as [-> | ->]; lia.
  - exfalso. clear LN RI RJ. conj; subst. unfold s, t in *. destruct K as [-> | ->]; lia.
  - exfalso. clear LN RI RJ. conj; subst. unfold s, t in *. destruct K as [-> | ->]; lia.
  - exfalso. clear LN RI RJ. lia.
  - exfalso. clear LN RI RJ. conj; subst. unfold s, t in *. destruct K as [-> | ->]; lia.
  - assert (S2 : s + t = 9 * n - 2) by (clear LN RI RJ; conj; subst; unfold s, t in *; destruct K as [-> | ->]; lia).
    exists (s + 1 + 4 * n * -1), (t + 4 * n * -1). split.
    + apply LN; [|unfold indom; lia]. destruct C as (_ & _ & _ & ->). cbn [In]. do 3 right. left. reflexivity.
    + right. rewrite RJ. intros (e & I & H). clear RI RJ LN D SS OS. subst s t. cbv zeta in *.
      destruct K as [-> | ->]; not_returned H I l.
  - assert (S2 : s + t = 9 * n - 2) by (clear LN RI RJ; conj; subst; unfold s, t in *; destruct K as [-> | ->]; lia).
    exists (s + 4 * n * -1), (t + 1 + 4 * n * -1). split.
    + apply LN; [|unfold indom; lia]. destruct C as (_ & _ & _ & ->). cbn [In]. do 3 right. left. reflexivity.
    + left. rewrite RI. intros (e & I & H). clear RI RJ LN D SS OS. subst s t. cbv zeta in *.
      destruct K as [-> | ->]; not_returned H I l.
  - destruct C as [C L]. destruct SS as [S2|S2].
    + exists (s + 1 + 4 * n * -1), (t + 1 + 4 * n * -1). split.
      * apply LN; [|unfold indom; lia]. subst l. cbn [In]. do 7 right. left. reflexivity.
      * left. rewrite RI. intros (e & I & H). clear RI RJ LN D OS LE. clearbody s t. clear C. not_returned H I l.
    + exists (s + 1 + 4 * n * -1), (t + 4 * n * -1). split.
      * apply LN; [|unfold indom; lia]. subst l. cbn [In]. do 4 right. left. reflexivity.
      * right. rewrite RJ. intros (e & I & H). clear RI RJ LN D OS LE. clearbody s t. clear C. not_returned H I l.
Qed.
