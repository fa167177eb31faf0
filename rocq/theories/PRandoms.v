(** * Randoms: supporting lemmas *)

From Coq Require Import Reals ZArith List Bool Lra Lia Psatz Permutation.
From Flocq Require Import Core.Raux.
From Coquelicot Require Import Coquelicot.
From Verif Require Import Base BaseP SpecGrid SpecRandoms MGrids MRandoms PGrids PRadial PHealpixCentre.
Import ListNotations.
Open Scope R_scope.

Lemma random_sample_ok : forall size u, draws size u -> random_sample size u = Ok u.
Proof. intros size u [H _]. unfold random_sample. replace (size <? 0)%Z with false by (symmetry; apply Z.ltb_ge; lia). reflexivity. Qed.

Lemma draws_nth : forall size u i, draws size u -> (i < length u)%nat -> 0 <= nth i u 0 < 1.
Proof. intros size u i [_ H] Hi. apply H. now apply nth_In. Qed.

(** ** Cube roots *)

Definition cbrt (x : R) : R := if Req_bool x 0 then 0 else Rpower x (1 / 3).

Lemma cube_root_ok : forall x, 0 <= x -> cube_root x = Some (cbrt x).
Proof.
  intros x H. unfold cube_root, cbrt. rewrite Rlt_bool_f by exact H. now destruct (Req_bool x 0).
Qed.

Lemma cbrt_nonneg : forall x, 0 <= cbrt x.
Proof. intros x. unfold cbrt. destruct (Req_bool x 0); [lra|]. unfold Rpower. left. apply exp_pos. Qed.

Lemma cbrt_cube : forall x, 0 <= x -> cbrt x * cbrt x * cbrt x = x.
Proof.
  intros x H. unfold cbrt. destruct (Req_bool_spec x 0) as [E|E]; [rewrite E; ring|].
  rewrite <- !Rpower_plus. replace (1 / 3 + 1 / 3 + 1 / 3) with 1 by field. apply Rpower_1. lra.
Qed.

Lemma cube_le : forall a b, 0 <= a -> 0 <= b -> a * a * a <= b * b * b -> a <= b.
Proof.
  intros a b Ha Hb H. destruct (Rle_lt_dec a b) as [L|L]; [exact L|]. exfalso.
  assert (b * b < a * a) by nra. nra.
Qed.

(** ** Solid angle *)

Lemma zone_area_cos : forall a b, zone_area a b = 2 * PI * (cos a - cos b).
Proof.
  intros a b. unfold zone_area. f_equal. apply is_RInt_unique.
  replace (cos a - cos b) with (minus (- cos b) (- cos a)) by (unfold minus, plus, opp; simpl; ring).
  apply (is_RInt_derive (fun x => - cos x) sin).
  - intros x _. auto_derive; [exact I|ring].
  - intros x _. apply continuous_sin.
Qed.

(** ** Cumulative sums *)

Lemma cumsum_length : forall l acc, length (cumsum acc l) = length l.
Proof. induction l as [|x l IH]; intros acc; [reflexivity|]. cbn. now rewrite IH. Qed.

Lemma nth_cumsum : forall l acc k, (k < length l)%nat -> nth k (cumsum acc l) 0 = acc + Rsum (firstn (S k) l).
Proof.
  induction l as [|x l IH]; intros acc k Hk; [cbn in Hk; lia|]. cbn [cumsum]. destruct k as [|k].
  - cbn. ring.
  - cbn [nth]. cbn [length] in Hk. rewrite IH by lia.
    change (firstn (S (S k)) (x :: l)) with (x :: firstn (S k) l).
    change (Rsum (x :: ?m)) with (x + Rsum m). ring.
Qed.

Lemma fold_max_spec : forall l a, (forall x, In x (a :: l) -> x <= fold_left Rmax l a) /\ In (fold_left Rmax l a) (a :: l).
Proof.
  induction l as [|b l IH]; intros a; cbn [fold_left].
  - split; [intros x [<-|[]]; lra|now left].
  - destruct (IH (Rmax a b)) as [H1 H2]. split.
    + intros x [<-|[<-|Hx]].
      * apply Rle_trans with (Rmax a b); [apply Rmax_l|]. apply H1. now left.
      * apply Rle_trans with (Rmax a b); [apply Rmax_r|]. apply H1. now left.
      * apply H1. now right.
    + destruct H2 as [H2|H2].
      * rewrite <- H2. unfold Rmax. destruct (Rle_dec a b); [right; now left|now left].
      * right. now right.
Qed.

Lemma np_max_last : forall l, (1 <= length l)%nat -> nondecreasing l -> np_max l = nth (length l - 1) l 0.
Proof.
  intros l Hl HN. destruct l as [|a l]; [cbn in Hl; lia|]. unfold np_max. destruct (fold_max_spec l a) as [H1 H2].
  set (L := (length (a :: l) - 1)%nat). apply Rle_antisym.
  - destruct (In_nth _ _ 0 H2) as (k & Hk & <-). apply HN. unfold L. lia.
  - apply H1. apply nth_In. unfold L. cbn [length]. lia.
Qed.

Lemma Rsum_firstn_step : forall l k, (k < length l)%nat -> Rsum (firstn (S k) l) = Rsum (firstn k l) + nth k l 0.
Proof.
  intros l k Hk. rewrite (firstn_S_nth _ l k 0 Hk), Rsum_app. f_equal. cbn. ring.
Qed.

Lemma Rsum_firstn_le : forall l i j, (forall x, In x l -> 0 <= x) -> (i <= j <= length l)%nat ->
  Rsum (firstn i l) <= Rsum (firstn j l).
Proof.
  intros l i j HP [Hij Hj]. induction Hij as [|j Hij IH]; [lra|].
  rewrite Rsum_firstn_step by lia. assert (0 <= nth j l 0) by (apply HP, nth_In; lia).
  assert (Rsum (firstn i l) <= Rsum (firstn j l)) by (apply IH; lia). lra.
Qed.

(** ** Linear interpolation *)

Lemma nondecreasing_tail : forall a l, nondecreasing (a :: l) -> nondecreasing l.
Proof. intros a l H i j Hij. apply (H (S i) (S j)). cbn. lia. Qed.

Lemma count_le : forall l u, nondecreasing l -> forall i, (i < length l)%nat ->
  (nth i l 0 <= u <-> (i < length (filter (fun x => Rle_bool x u) l))%nat).
Proof.
  induction l as [|a l IH]; intros u HN i Hi; [cbn in Hi; lia|]. cbn [filter].
  destruct (Rle_lt_dec a u) as [L|L].
  - rewrite Rle_bool_t by exact L. cbn [length]. destruct i as [|i]; [cbn; split; [lia|auto]|].
    cbn [nth]. cbn [length] in Hi. rewrite (IH u (nondecreasing_tail a l HN) i) by lia. lia.
  - rewrite Rle_bool_f by exact L.
    assert (Z0 : filter (fun x => Rle_bool x u) l = []).
    { assert (P : forall x, In x l -> a <= x).
      { intros x Hx. destruct (In_nth _ _ 0 Hx) as (k & Hk & <-). apply (HN 0%nat (S k)). cbn. lia. }
      clear - P L. induction l as [|b l IH]; [reflexivity|]. cbn [filter].
      rewrite Rle_bool_f by (pose proof (P b (or_introl eq_refl)); lra). apply IH. intros x Hx. apply P. now right. }
    rewrite Z0. cbn [length]. split; [|lia]. intros H. pose proof (HN 0%nat i ltac:(cbn in *; lia)) as G.
    change (nth 0 (a :: l) 0) with a in G. exfalso; lra.
Qed.

(** The bin of a draw and the interpolated value. *)
Lemma interp_bin : forall xs ys u, (2 <= length xs)%nat -> nondecreasing xs ->
  nth 0 xs 0 <= u < nth (length xs - 1) xs 0 ->
  exists j, (S j < length xs)%nat /\ nth j xs 0 <= u < nth (S j) xs 0 /\
    np_interp xs ys u = nth j ys 0 + (nth (S j) ys 0 - nth j ys 0) * ((u - nth j xs 0) / (nth (S j) xs 0 - nth j xs 0)).
Proof.
  intros xs ys u Hl HN [U0 U1]. set (c := length (filter (fun x => Rle_bool x u) xs)).
  assert (C0 : (0 < c)%nat) by (apply (count_le xs u HN 0%nat); [lia|exact U0]).
  assert (C1 : (c <= length xs - 1)%nat).
  { destruct (Nat.le_gt_cases c (length xs - 1)) as [L|L]; [exact L|exfalso].
    apply (count_le xs u HN (length xs - 1)%nat) in L; [lra|lia]. }
  exists (c - 1)%nat. assert (A : nth (c - 1) xs 0 <= u) by (apply (count_le xs u HN); [lia|fold c; lia]).
  assert (B : u < nth (S (c - 1)) xs 0).
  { destruct (Rlt_le_dec u (nth (S (c - 1)) xs 0)) as [L|L]; [exact L|exfalso].
    apply (count_le xs u HN) in L; [fold c in L; lia|lia]. }
  split; [lia|]. split; [lra|]. unfold np_interp. fold c.
  replace (c - 1 =? length xs - 1)%nat with false by (symmetry; apply Nat.eqb_neq; lia).
  destruct (Req_bool_spec (nth (c - 1) xs 0) u) as [E|E].
  - rewrite E. field. lra.
  - field. lra.
Qed.

Lemma combo : forall a b t, a <= b -> 0 <= t <= 1 -> a <= a + (b - a) * t <= b.
Proof. intros a b t H1 H2. split; nra. Qed.

Lemma ratio_01 : forall a b u, a <= u < b -> 0 <= (u - a) / (b - a) < 1.
Proof.
  intros a b u H. split.
  - apply Rmult_le_pos; [lra|]. left. apply Rinv_0_lt_compat. lra.
  - apply Rmult_lt_reg_r with (b - a); [lra|]. unfold Rdiv. rewrite Rmult_assoc, Rinv_l by lra. lra.
Qed.

Lemma interp_mono : forall xs ys u v, (2 <= length xs)%nat -> length ys = length xs -> nondecreasing xs -> nondecreasing ys ->
  nth 0 xs 0 <= u -> u <= v -> v < nth (length xs - 1) xs 0 -> np_interp xs ys u <= np_interp xs ys v.
Proof.
  intros xs ys u v Hl Hy HX HY H0 Huv H1.
  destruct (interp_bin xs ys u Hl HX ltac:(lra)) as (i & Hi & Bi & ->).
  destruct (interp_bin xs ys v Hl HX ltac:(lra)) as (j & Hj & Bj & ->).
  pose proof (ratio_01 _ _ _ Bi) as Ri. pose proof (ratio_01 _ _ _ Bj) as Rj.
  destruct (Nat.lt_trichotomy i j) as [L|[E|L]].
  - assert (nth (S i) ys 0 <= nth j ys 0) by (apply HY; lia).
    assert (nth i ys 0 <= nth (S i) ys 0) by (apply HY; lia).
    assert (nth j ys 0 <= nth (S j) ys 0) by (apply HY; lia).
    pose proof (combo (nth i ys 0) (nth (S i) ys 0) ((u - nth i xs 0) / (nth (S i) xs 0 - nth i xs 0)) ltac:(lra) ltac:(lra)).
    pose proof (combo (nth j ys 0) (nth (S j) ys 0) ((v - nth j xs 0) / (nth (S j) xs 0 - nth j xs 0)) ltac:(lra) ltac:(lra)). lra.
  - subst j. assert (nth i ys 0 <= nth (S i) ys 0) by (apply HY; lia).
    apply Rplus_le_compat_l. apply Rmult_le_compat_l; [lra|]. unfold Rdiv. apply Rmult_le_compat_r; [|lra].
    left. apply Rinv_0_lt_compat. lra.
  - exfalso. assert (nth (S j) xs 0 <= nth i xs 0) by (apply HX; lia). lra.
Qed.

(** ** Sorting *)

Lemma take_perm : forall A (d : A) l idx, Permutation idx (seq 0 (length l)) -> Permutation (take d l idx) l.
Proof.
  intros A d l idx H. unfold take. apply Permutation_trans with (map (fun i => nth i l d) (seq 0 (length l))).
  - now apply Permutation_map.
  - replace (map (fun i => nth i l d) (seq 0 (length l))) with l; [reflexivity|].
    apply (list_ext A _ _ d); [now rewrite map_length, seq_length|]. intros i Hi.
    rewrite (nth_map_lt _ _ _ _ i d 0%nat) by (rewrite seq_length; exact Hi). now rewrite seq_nth by exact Hi.
Qed.

Lemma orders_length : forall keys idx, orders keys idx -> length idx = length keys.
Proof. intros keys idx [H _]. apply Permutation_length in H. now rewrite seq_length in H. Qed.

Lemma orders_NoDup : forall keys idx, orders keys idx -> NoDup idx.
Proof. intros keys idx [H _]. apply (Permutation_NoDup (l := seq 0 (length keys))); [now symmetry|apply seq_NoDup]. Qed.

Lemma orders_in : forall keys idx i, orders keys idx -> (In i idx <-> (i < length keys)%nat).
Proof.
  intros keys idx i [H _]. split; intros H1.
  - apply (Permutation_in _ H), in_seq in H1. lia.
  - apply (Permutation_in _ (Permutation_sym H)), in_seq. lia.
Qed.

(** The first [m] positions have the smallest keys. *)
Lemma orders_firstn : forall keys idx m, orders keys idx -> forall i j,
  In i (firstn m idx) -> (j < length keys)%nat -> ~ In j (firstn m idx) -> nth i keys 0 <= nth j keys 0.
Proof.
  intros keys idx m H i j Hi Hj Nj. pose proof (proj2 (orders_in keys idx j H) Hj) as Ij.
  rewrite <- (firstn_skipn m idx) in Ij. apply in_app_iff in Ij. destruct Ij as [Ij|Ij]; [contradiction|].
  destruct (In_nth _ _ 0%nat Hi) as (a & Ha & Ea). destruct (In_nth _ _ 0%nat Ij) as (b & Hb & Eb).
  rewrite firstn_length in Ha. rewrite skipn_length in Hb.
  assert (Em : (m <= length idx)%nat) by lia.
  assert (Ea' : nth a idx 0%nat = i).
  { rewrite <- Ea. rewrite <- (firstn_skipn m idx) at 1. rewrite app_nth1 by (rewrite firstn_length; lia). reflexivity. }
  assert (Eb' : nth (m + b) idx 0%nat = j).
  { rewrite <- Eb. rewrite <- (firstn_skipn m idx) at 1. rewrite app_nth2 by (rewrite firstn_length; lia).
    rewrite firstn_length. f_equal. lia. }
  rewrite <- Ea', <- Eb'. apply (proj2 H). lia.
Qed.

(** A sorting routine exists: insertion by key. *)
Fixpoint insert_by (keys : list R) (i : nat) (idx : list nat) : list nat :=
  match idx with
  | [] => [i]
  | j :: idx' => if Rle_bool (nth i keys 0) (nth j keys 0) then i :: idx else j :: insert_by keys i idx'
  end.
Definition insertion_argsort (keys : list R) : list nat :=
  fold_right (insert_by keys) [] (seq 0 (length keys)).

Lemma insert_perm : forall keys i idx, Permutation (insert_by keys i idx) (i :: idx).
Proof.
  intros keys i idx. induction idx as [|j idx IH]; [reflexivity|]. cbn [insert_by].
  destruct (Rle_bool (nth i keys 0) (nth j keys 0)); [reflexivity|].
  apply Permutation_trans with (j :: i :: idx); [apply perm_skip; exact IH|apply perm_swap].
Qed.

Definition key_sorted (keys : list R) (idx : list nat) : Prop :=
  forall i j, (i <= j < length idx)%nat -> nth (nth i idx 0%nat) keys 0 <= nth (nth j idx 0%nat) keys 0.

Lemma key_sorted_cons : forall keys a idx, key_sorted keys idx -> (forall j, In j idx -> nth a keys 0 <= nth j keys 0) ->
  key_sorted keys (a :: idx).
Proof.
  intros keys a idx H1 H2 i j Hij. cbn [length] in Hij. destruct j as [|j].
  - replace i with 0%nat by lia. lra.
  - destruct i as [|i]; cbn [nth].
    + apply H2, nth_In. lia.
    + apply H1. lia.
Qed.

Lemma key_sorted_uncons : forall keys a idx, key_sorted keys (a :: idx) -> key_sorted keys idx /\ (forall j, In j idx -> nth a keys 0 <= nth j keys 0).
Proof.
  intros keys a idx H. split.
  - intros i j Hij. apply (H (S i) (S j)). cbn. lia.
  - intros j Hj. destruct (In_nth _ _ 0%nat Hj) as (k & Hk & <-). apply (H 0%nat (S k)). cbn. lia.
Qed.

Lemma insert_sorted : forall keys i idx, key_sorted keys idx -> key_sorted keys (insert_by keys i idx).
Proof.
  intros keys i idx. induction idx as [|j idx IH]; intros H.
  - apply key_sorted_cons; [exact H|intros q []].
  - cbn [insert_by]. destruct (key_sorted_uncons _ _ _ H) as [H1 H2].
    destruct (Rle_lt_dec (nth i keys 0) (nth j keys 0)) as [L|L].
    + rewrite Rle_bool_t by exact L. apply key_sorted_cons; [exact H|].
      intros q [<-|Hq]; [exact L|]. pose proof (H2 q Hq). lra.
    + rewrite Rle_bool_f by exact L. apply key_sorted_cons; [now apply IH|].
      intros q Hq. apply (Permutation_in _ (insert_perm keys i idx)) in Hq. destruct Hq as [<-|Hq]; [lra|now apply H2].
Qed.

Lemma insertion_sorts : sorts insertion_argsort.
Proof.
  intros keys. unfold orders, insertion_argsort. generalize (seq 0 (length keys)). intros l. split.
  - induction l as [|i l IH]; [constructor|]. cbn [fold_right].
    apply Permutation_trans with (i :: fold_right (insert_by keys) [] l); [apply insert_perm|apply perm_skip; exact IH].
  - assert (key_sorted keys (fold_right (insert_by keys) [] l)) as H; [|exact H].
    induction l as [|i l IH]; [intros i j Hij; cbn in Hij; lia|]. cbn [fold_right]. now apply insert_sorted.
Qed.

(** ** Stochastic weights *)

Lemma ceil_floor_cases : forall w, (exists n, w = IZR n /\ Zceil w = n /\ Zfloor w = n) \/
  (Zceil w = Zfloor w + 1)%Z /\ IZR (Zfloor w) < w < IZR (Zfloor w) + 1.
Proof.
  intros w. destruct (Req_dec (IZR (Zfloor w)) w) as [E|E].
  - left. exists (Zfloor w). split; [now symmetry|]. split; [|reflexivity]. rewrite <- E at 1. apply Zceil_IZR.
  - right. split; [now apply Zceil_floor_neq|]. pose proof (Zfloor_lb w). pose proof (Zfloor_ub w). lra.
Qed.

(** Integral of a two-valued step function. *)
Lemma step_RInt : forall (g : R -> R) t a b, 0 <= t <= 1 ->
  (forall u, 0 < u < t -> g u = a) -> (forall u, t < u < 1 -> g u = b) -> is_RInt g 0 1 (t * a + (1 - t) * b).
Proof.
  intros g t a b Ht HA HB.
  assert (E1 : is_RInt g 0 t (t * a)).
  { apply (is_RInt_ext (fun _ => a)).
    - intros x Hx. rewrite Rmin_left, Rmax_right in Hx by lra. symmetry. now apply HA.
    - pose proof (@is_RInt_const R_NormedModule 0 t a) as C. replace (t * a) with (@scal R_Ring R_NormedModule (t - 0) a) by (unfold scal; simpl; unfold mult; simpl; ring). exact C. }
  assert (E2 : is_RInt g t 1 ((1 - t) * b)).
  { apply (is_RInt_ext (fun _ => b)).
    - intros x Hx. rewrite Rmin_left, Rmax_right in Hx by lra. symmetry. now apply HB.
    - pose proof (@is_RInt_const R_NormedModule t 1 b) as C. exact C. }
  exact (is_RInt_Chasles g 0 t 1 _ _ E1 E2).
Qed.
