(** * Rebinning in one dimension *)

From Coq Require Import Reals ZArith List Bool Lra Lia Psatz.
From Flocq Require Import Core.Raux.
From Verif Require Import Base BaseP SpecGrid MGrids MUtils MOneD PGrids PRadial PUtils.
From Verif Require Import PPolarCoords.
Import ListNotations.
Open Scope R_scope.

(** ** Masks that select a contiguous range *)

Lemma np_where_range : forall m lo k, (lo + k <= length m)%nat ->
  (forall i, (i < length m)%nat -> nth i m false = true <-> (lo <= i < lo + k)%nat) ->
  np_where m = seq lo k.
Proof.
  induction m as [|b m IH]; intros lo k HL H.
  - cbn in HL. replace k with 0%nat by lia. reflexivity.
  - rewrite np_where_cons. pose proof (H 0%nat ltac:(cbn; lia)) as H0. cbn [nth] in H0.
    assert (HS : forall i, (i < length m)%nat -> nth i m false = true <-> (lo <= S i < lo + k)%nat).
    { intros i Hi. apply (H (S i)). cbn. lia. }
    cbn [length] in HL. destruct lo as [|lo].
    + destruct k as [|k].
      * assert (b = false) as -> by (apply not_true_is_false; intros E; apply H0 in E; lia).
        rewrite (IH 0%nat 0%nat); [reflexivity|lia|]. intros i Hi. rewrite HS by exact Hi. lia.
      * assert (b = true) as -> by (apply H0; lia).
        rewrite (IH 0%nat k); [|lia|intros i Hi; rewrite HS by exact Hi; lia].
        rewrite seq_shift. reflexivity.
    + assert (b = false) as -> by (apply not_true_is_false; intros E; apply H0 in E; lia).
      rewrite (IH lo k); [|lia|intros i Hi; rewrite HS by exact Hi; lia].
      apply seq_shift.
Qed.

(** A downward closed predicate is an initial segment. *)
Lemma initial_segment : forall (p : nat -> bool) L,
  (forall i j, (i <= j < L)%nat -> p j = true -> p i = true) ->
  exists m, (m <= L)%nat /\ forall i, (i < L)%nat -> p i = true <-> (i < m)%nat.
Proof.
  intros p. induction L as [|L IH]; intros H.
  - exists 0%nat. split; [lia|]. intros; lia.
  - destruct (p L) eqn:E.
    + exists (S L). split; [lia|]. intros i Hi. split; [lia|]. intros _. apply (H i L); [lia|exact E].
    + destruct IH as (m & Hm & HI). { intros i j Hij. apply H. lia. }
      exists m. split; [lia|]. intros i Hi. destruct (Nat.eq_dec i L) as [->|Hne].
      * rewrite E. split; [discriminate|lia].
      * apply HI. lia.
Qed.

Section Edges.
Variables (e : list R) (lo hi : nat) (bmin bmax : R).

(** Edges [lo .. hi-1] are inside the new bin. *)
Definition located : Prop :=
  (lo <= hi <= length e)%nat /\
  (forall i, (i < length e)%nat -> nth i e 0 < bmin <-> (i < lo)%nat) /\
  (forall i, (i < length e)%nat -> nth i e 0 <= bmax <-> (i < hi)%nat).
End Edges.

Lemma locate : forall e bmin bmax, increasing e -> bmin <= bmax -> exists lo hi, located e lo hi bmin bmax.
Proof.
  intros e bmin bmax HI Hb.
  destruct (initial_segment (fun i => Rlt_bool (nth i e 0) bmin) (length e)) as (lo & L1 & H1).
  { intros i j Hij H. destruct (Rlt_bool_spec (nth j e 0) bmin); [|discriminate].
    apply Rlt_bool_true. destruct (Nat.eq_dec i j) as [->|]; [assumption|].
    pose proof (HI i j ltac:(lia)). lra. }
  destruct (initial_segment (fun i => Rle_bool (nth i e 0) bmax) (length e)) as (hi & L2 & H2).
  { intros i j Hij H. destruct (Rle_bool_spec (nth j e 0) bmax); [|discriminate].
    apply Rle_bool_true. destruct (Nat.eq_dec i j) as [->|]; [assumption|].
    pose proof (HI i j ltac:(lia)). lra. }
  assert (H1' : forall i, (i < length e)%nat -> nth i e 0 < bmin <-> (i < lo)%nat).
  { intros i Hi. rewrite <- H1 by exact Hi. destruct (Rlt_bool_spec (nth i e 0) bmin); split; intros; try lra; try discriminate; reflexivity. }
  assert (H2' : forall i, (i < length e)%nat -> nth i e 0 <= bmax <-> (i < hi)%nat).
  { intros i Hi. rewrite <- H2 by exact Hi. destruct (Rle_bool_spec (nth i e 0) bmax); split; intros; try lra; try discriminate; reflexivity. }
  exists lo, hi. split; [|split; assumption]. split; [|exact L2].
  destruct (Nat.le_gt_cases lo hi) as [|Hgt]; [assumption|]. exfalso.
  assert (hi < hi)%nat; [|lia]. apply H2'; [lia|]. assert (nth hi e 0 < bmin) by (apply H1'; lia). lra.
Qed.

Lemma edges_in_located : forall e lo hi bmin bmax, located e lo hi bmin bmax ->
  edges_in e bmin bmax = seq lo (hi - lo).
Proof.
  intros e lo hi bmin bmax (HL & H1 & H2). unfold edges_in. apply np_where_range.
  - rewrite map_length. lia.
  - rewrite map_length. intros i Hi. rewrite (nth_map_lt _ _ _ _ i false 0) by exact Hi.
    rewrite andb_true_iff. specialize (H1 i Hi). specialize (H2 i Hi).
    destruct (Rle_bool_spec bmin (nth i e 0)) as [A|A]; destruct (Rle_bool_spec (nth i e 0) bmax) as [B|B];
      split; intros HH; try (destruct HH; discriminate); try (split; reflexivity);
      try (assert (~ (i < lo)%nat) by (intros HC; apply H1 in HC; lra));
      try (assert (i < hi)%nat by (apply H2; lra));
      try (assert (i < lo)%nat by (apply H1; lra));
      try (assert (~ (i < hi)%nat) by (intros HC; apply H2 in HC; lra)); lia.
Qed.

Lemma edges_above_located : forall e lo hi bmin bmax, located e lo hi bmin bmax ->
  edges_above e bmin = seq lo (length e - lo).
Proof.
  intros e lo hi bmin bmax (HL & H1 & H2). unfold edges_above. apply np_where_range.
  - rewrite map_length. lia.
  - rewrite map_length. intros i Hi. rewrite (nth_map_lt _ _ _ _ i false 0) by exact Hi.
    specialize (H1 i Hi). destruct (Rle_bool_spec bmin (nth i e 0)) as [A|A]; split; intros HH.
    + assert (~ (i < lo)%nat) by (intros HC; apply H1 in HC; lra). lia.
    + reflexivity.
    + discriminate.
    + assert (i < lo)%nat by (apply H1; lra). lia.
Qed.

(** ** List bookkeeping *)

Definition zrange (a : Z) (m : nat) : list Z := map (fun t => (a + Z.of_nat t)%Z) (seq 0 m).

Lemma zrange_S_last : forall a m, zrange a (S m) = zrange a m ++ [(a + Z.of_nat m)%Z].
Proof. intros. unfold zrange. rewrite seq_S, map_app. reflexivity. Qed.

Lemma zrange_cons : forall a m, zrange a (S m) = a :: zrange (a + 1) m.
Proof.
  intros. unfold zrange. cbn [seq map]. f_equal; [lia|]. rewrite <- seq_shift, map_map.
  apply map_ext. intros t. lia.
Qed.

Lemma length_zrange : forall a m, length (zrange a m) = m.
Proof. intros. unfold zrange. now rewrite map_length, seq_length. Qed.

Lemma index_range : forall lo k, (1 <= k)%nat ->
  map (fun c => (Z.of_nat c - 1)%Z) (seq lo k) ++ [Z.of_nat (lo + k - 1)]
  = zrange (Z.of_nat lo - 1) (S k).
Proof.
  intros lo k Hk. rewrite zrange_S_last. f_equal; [|f_equal; lia].
  unfold zrange. apply (list_ext Z _ _ 0%Z); rewrite !map_length, !seq_length; [reflexivity|].
  intros i Hi. rewrite !(nth_map_lt _ _ _ _ i 0%Z 0%nat) by (rewrite seq_length; exact Hi).
  rewrite !seq_nth by exact Hi. lia.
Qed.

Lemma removelast_app1 : forall A (l : list A) x, removelast (l ++ [x]) = l.
Proof. intros. rewrite removelast_app by discriminate. cbn. apply app_nil_r. Qed.

Lemma repeat_S_last : forall A (x : A) m, repeat x (S m) = repeat x m ++ [x].
Proof. intros. rewrite <- repeat_cons. reflexivity. Qed.

Lemma repeat_pred : forall A (x : A) k, (1 <= k)%nat -> repeat x k = repeat x (k - 1) ++ [x].
Proof. intros A x [|k] H; [lia|]. rewrite repeat_S_last. do 2 f_equal. lia. Qed.

Lemma repeat_pred' : forall A (x : A) k, (1 <= k)%nat -> repeat x k = x :: repeat x (k - 1).
Proof. intros A x [|k] H; [lia|]. cbn. do 2 f_equal. lia. Qed.

Lemma py_set_first : forall A (a : A) l v, py_set (a :: l) 0 v = Ok (v :: l).
Proof. intros. unfold py_set. cbn [Z.ltb Z.compare]. cbn [length].
  replace (Z.of_nat (S (length l)) <=? 0)%Z with false by (symmetry; apply Z.leb_gt; lia). reflexivity. Qed.

Lemma set_nth_app_last : forall A (l : list A) x v, set_nth (l ++ [x]) (length l) v = l ++ [v].
Proof. induction l as [|a l IH]; intros; cbn; [reflexivity|now rewrite IH]. Qed.

Lemma py_set_app_last : forall A (l : list A) x v, py_set (l ++ [x]) (-1) v = Ok (l ++ [v]).
Proof.
  intros. rewrite py_set_last by (rewrite app_length; cbn; lia). f_equal.
  rewrite app_length. cbn [length]. replace (length l + 1 - 1)%nat with (length l) by lia.
  apply set_nth_app_last.
Qed.

Lemma zget_seq_0 : forall lo k, (1 <= k)%nat -> zget (seq lo k) 0 = Ok (Z.of_nat lo).
Proof. intros lo [|k] H; [lia|]. reflexivity. Qed.

Lemma zget_seq_last : forall lo k, (1 <= k)%nat -> zget (seq lo k) (-1) = Ok (Z.of_nat (lo + k - 1)).
Proof.
  intros lo k H. unfold zget. rewrite (py_get_last _ _ 0%nat) by (rewrite seq_length; lia). cbn [bind].
  rewrite seq_length, seq_nth by lia. do 2 f_equal. lia.
Qed.

Lemma map_Some_repeat : forall (x : R) m, map Some (repeat x m) = repeat (Some x) m.
Proof. intros. induction m as [|m IH]; cbn; [reflexivity|now rewrite IH]. Qed.

Definition slice (d : list R) (p m : nat) : list R := map (fun i => nth i d 0) (seq p m).

Lemma length_slice : forall d p m, length (slice d p m) = m.
Proof. intros. unfold slice. now rewrite map_length, seq_length. Qed.

Lemma mapM_get_range : forall (d : list R) p m, (p + m <= length d)%nat ->
  mapM (py_get d) (zrange (Z.of_nat p) m) = Ok (slice d p m).
Proof.
  intros d p m H. unfold zrange, slice.
  rewrite (mapM_ok _ _ _ (fun z => nth (Z.to_nat z) d 0)).
  - f_equal. rewrite map_map. apply (list_ext R _ _ 0); rewrite !map_length, !seq_length; [reflexivity|].
    intros i Hi. rewrite !(nth_map_lt _ _ _ _ i 0 0%nat) by (rewrite seq_length; exact Hi).
    rewrite !seq_nth by exact Hi. f_equal. lia.
  - intros z Hz. apply in_map_iff in Hz. destruct Hz as (t & <- & Ht). apply in_seq in Ht.
    apply py_get_ok. lia.
Qed.

Lemma mapM_get_wrap : forall (d : list R) m, (m = length d)%nat -> (1 <= m)%nat ->
  mapM (py_get d) (zrange (-1) (S m)) = Ok (nth (m - 1) d 0 :: slice d 0 m).
Proof.
  intros d m H Hm. rewrite zrange_cons. cbn [mapM]. rewrite (py_get_last _ _ 0) by lia. cbn [bind].
  change (-1 + 1)%Z with (Z.of_nat 0). rewrite mapM_get_range by lia. cbn [bind]. now rewrite H.
Qed.

Lemma fdiv_ok : forall a b, b <> 0 -> fdiv a b = Some (a / b).
Proof. intros a b H. unfold fdiv. destruct (Req_bool_spec b 0); [contradiction|reflexivity]. Qed.

(** ** The weights of the general case *)

Section General.
Variables (e : list R) (lo hi : nat) (bmin bmax : R).
Hypothesis HI : increasing e.
Hypothesis HL : located e lo hi bmin bmax.
Let k := (hi - lo)%nat.
Hypothesis Hk : (2 <= k)%nat.

Definition wF : R := (nth lo e 0 - bmin) / (nth lo e 0 - nth (lo - 1) e 0).
Definition wL : R := (bmax - nth (hi - 1) e 0) / (nth (hi - 1) e 0 - nth (hi - 2) e 0).

Lemma start_A : (lo + k <> length e)%nat -> (lo <> 0)%nat ->
  start_weights (Z.of_nat (length e)) (seq lo k) = Ok (repeat (Some 1) (S k), zrange (Z.of_nat lo - 1) (S k)).
Proof.
  intros H1 H2. unfold start_weights. rewrite zget_seq_0, zget_seq_last by lia. cbn [bind].
  rewrite seq_length, index_range by lia.
  replace (Z.of_nat (lo + k - 1) =? Z.of_nat (length e) - 1)%Z with false by (symmetry; apply Z.eqb_neq; lia).
  replace (Z.of_nat lo =? 0)%Z with false by (symmetry; apply Z.eqb_neq; lia).
  rewrite Nat.add_1_r. reflexivity.
Qed.

Lemma start_BD : (lo + k = length e)%nat ->
  start_weights (Z.of_nat (length e)) (seq lo k) = Ok (repeat (Some 1) k, zrange (Z.of_nat lo - 1) k).
Proof.
  intros H1. unfold start_weights. rewrite zget_seq_0, zget_seq_last by lia. cbn [bind].
  rewrite seq_length, index_range by lia.
  replace (Z.of_nat (lo + k - 1) =? Z.of_nat (length e) - 1)%Z with true by (symmetry; apply Z.eqb_eq; lia).
  rewrite Nat.add_1_r, repeat_S_last, zrange_S_last, !removelast_app1. reflexivity.
Qed.

Lemma start_C : (lo + k <> length e)%nat -> (lo = 0)%nat ->
  start_weights (Z.of_nat (length e)) (seq lo k) = Ok (repeat (Some 1) k, zrange 0 k).
Proof.
  intros H1 H2. unfold start_weights. rewrite zget_seq_0, zget_seq_last by lia. cbn [bind].
  rewrite seq_length, index_range by lia.
  replace (Z.of_nat (lo + k - 1) =? Z.of_nat (length e) - 1)%Z with false by (symmetry; apply Z.eqb_neq; lia).
  replace (Z.of_nat lo =? 0)%Z with true by (symmetry; apply Z.eqb_eq; lia).
  rewrite Nat.add_1_r, zrange_cons. cbn [repeat tl]. rewrite H2. reflexivity.
Qed.

Lemma get_edge : forall z, (0 <= z < Z.of_nat (length e))%Z -> py_get e z = Ok (nth (Z.to_nat z) e 0).
Proof. intros. apply py_get_ok. assumption. Qed.

Lemma hi_eq : hi = (lo + k)%nat.
Proof. unfold k in *. destruct HL as (H & _). lia. Qed.

Lemma first_weight : (lo <> 0)%nat -> forall l : list num,
  (e0 <- py_get e (Z.of_nat lo) ;; em <- py_get e (Z.of_nat lo - 1) ;;
   py_set (Some 1 :: l) 0 (fdiv (e0 - bmin) (e0 - em))) = Ok (Some wF :: l).
Proof.
  intros H l. pose proof hi_eq. destruct HL as (H1 & _).
  rewrite !get_edge by lia. cbn [bind]. rewrite Nat2Z.id.
  replace (Z.to_nat (Z.of_nat lo - 1)) with (lo - 1)%nat by lia.
  rewrite py_set_first, fdiv_ok; [reflexivity|].
  pose proof (HI (lo - 1)%nat lo ltac:(lia)). lra.
Qed.

Lemma last_weight : forall l : list num,
  (e0 <- py_get e (Z.of_nat (lo + k - 1)) ;; em <- py_get e (Z.of_nat (lo + k - 1) - 1) ;;
   py_set (l ++ [Some 1]) (-1) (fdiv (bmax - e0) (e0 - em))) = Ok (l ++ [Some wL]).
Proof.
  intros l. pose proof hi_eq. destruct HL as (H1 & _).
  rewrite !get_edge by lia. cbn [bind]. rewrite Nat2Z.id.
  replace (Z.to_nat (Z.of_nat (lo + k - 1) - 1)) with (hi - 2)%nat by lia.
  replace (lo + k - 1)%nat with (hi - 1)%nat by lia.
  rewrite py_set_app_last, fdiv_ok; [reflexivity|].
  pose proof (HI (hi - 2)%nat (hi - 1)%nat ltac:(lia)). lra.
Qed.

Ltac gw0 := unfold general_weights; rewrite zget_seq_0, zget_seq_last by lia; cbn [bind].

Lemma gw_A : (hi <> length e)%nat -> (lo <> 0)%nat ->
  general_weights e bmin bmax (seq lo k)
  = Ok (map Some (wF :: repeat 1 (k - 1) ++ [wL]), zrange (Z.of_nat lo - 1) (S k)).
Proof.
  intros H1 H2. pose proof hi_eq. gw0. rewrite start_A by lia. cbn [bind].
  replace (Z.of_nat lo =? 0)%Z with false by (symmetry; apply Z.eqb_neq; lia).
  replace (Z.of_nat (lo + k - 1) =? Z.of_nat (length e) - 1)%Z with false by (symmetry; apply Z.eqb_neq; lia).
  cbn [negb]. cbn [repeat]. rewrite first_weight by exact H2. cbn [bind].
  rewrite (repeat_pred _ (Some 1) k) by lia. rewrite app_comm_cons.
  rewrite last_weight. cbn [bind]. f_equal. f_equal.
  rewrite <- app_comm_cons. cbn [map]. rewrite map_app, map_Some_repeat. reflexivity.
Qed.

Lemma gw_B : (hi = length e)%nat -> (lo <> 0)%nat ->
  general_weights e bmin bmax (seq lo k)
  = Ok (map Some (wF :: repeat 1 (k - 1)), zrange (Z.of_nat lo - 1) k).
Proof.
  intros H1 H2. pose proof hi_eq. gw0. rewrite start_BD by lia. cbn [bind].
  replace (Z.of_nat lo =? 0)%Z with false by (symmetry; apply Z.eqb_neq; lia).
  replace (Z.of_nat (lo + k - 1) =? Z.of_nat (length e) - 1)%Z with true by (symmetry; apply Z.eqb_eq; lia).
  cbn [negb]. rewrite (repeat_pred' _ (Some 1) k) by lia.
  rewrite first_weight by exact H2. cbn [bind]. cbn [map]. rewrite map_Some_repeat. reflexivity.
Qed.

Lemma gw_C : (hi <> length e)%nat -> (lo = 0)%nat ->
  general_weights e bmin bmax (seq lo k)
  = Ok (map Some (repeat 1 (k - 1) ++ [wL]), zrange 0 k).
Proof.
  intros H1 H2. pose proof hi_eq. gw0. rewrite start_C by lia. cbn [bind].
  replace (Z.of_nat lo =? 0)%Z with true by (symmetry; apply Z.eqb_eq; lia).
  replace (Z.of_nat (lo + k - 1) =? Z.of_nat (length e) - 1)%Z with false by (symmetry; apply Z.eqb_neq; lia).
  cbn [negb bind]. rewrite (repeat_pred _ (Some 1) k) by lia.
  rewrite last_weight. cbn [bind]. rewrite map_app, map_Some_repeat. reflexivity.
Qed.

Lemma gw_D : (hi = length e)%nat -> (lo = 0)%nat ->
  general_weights e bmin bmax (seq lo k) = Ok (map Some (repeat 1 k), zrange (-1) k).
Proof.
  intros H1 H2. pose proof hi_eq. gw0. rewrite start_BD by lia. cbn [bind].
  replace (Z.of_nat lo =? 0)%Z with true by (symmetry; apply Z.eqb_eq; lia).
  replace (Z.of_nat (lo + k - 1) =? Z.of_nat (length e) - 1)%Z with true by (symmetry; apply Z.eqb_eq; lia).
  cbn [negb bind]. rewrite map_Some_repeat, H2. reflexivity.
Qed.

Lemma wF_range : (lo <> 0)%nat -> 0 <= wF < 1.
Proof.
  intros H. destruct HL as (H1 & H2 & H3). unfold wF.
  pose proof (HI (lo - 1)%nat lo ltac:(unfold k in *; lia)).
  assert (nth (lo - 1) e 0 < bmin) by (apply H2; unfold k in *; lia).
  assert (~ nth lo e 0 < bmin) by (intros HC; apply H2 in HC; unfold k in *; lia).
  set (a := nth lo e 0) in *. set (b := nth (lo - 1) e 0) in *.
  assert (0 < a - b) by lra.
  split.
  - apply Rmult_le_pos; [lra|]. left. now apply Rinv_0_lt_compat.
  - apply (Rmult_lt_reg_r (a - b)); [assumption|]. unfold Rdiv. rewrite Rmult_assoc, Rinv_l by lra. lra.
Qed.

Lemma wL_nonneg : 0 <= wL.
Proof.
  destruct HL as (H1 & H2 & H3). unfold wL.
  pose proof (HI (hi - 2)%nat (hi - 1)%nat ltac:(unfold k in *; lia)).
  assert (nth (hi - 1) e 0 <= bmax) by (apply H3; unfold k in *; lia).
  apply Rmult_le_pos; [lra|]. left. apply Rinv_0_lt_compat. lra.
Qed.
End General.

(** ** One new bin, case by case *)

(** Weighted mean. *)
Definition wmean (ws ds : list R) : R := Rsum (map2 Rmult ws ds) / Rsum ws.

Lemma nsum_wdata : forall ws ds, length ws = length ds ->
  nsum (map2 (fun a b => nmul a (Some b)) (map Some ws) ds) = Some (Rsum (map2 Rmult ws ds)).
Proof.
  induction ws as [|w ws IH]; intros [|d ds] H; cbn in H; try lia; [reflexivity|].
  cbn [map map2]. unfold nsum, Rsum in *. cbn [fold_right]. rewrite IH by lia. reflexivity.
Qed.

Lemma ndiv_wmean : forall ws ds, length ws = length ds -> Rsum ws <> 0 ->
  ndiv (nsum (map2 (fun a b => nmul a (Some b)) (map Some ws) ds)) (nsum (map Some ws)) = Some (wmean ws ds).
Proof.
  intros ws ds H H0. rewrite nsum_wdata, nsum_Some by exact H. unfold ndiv. now apply fdiv_ok.
Qed.

Section Single.
Variables (e : list R) (lo hi : nat) (bmin bmax : R) (d : list R) (n : nat).
Hypothesis HI : increasing e.
Hypothesis He : length e = S n.
Hypothesis Hn : (1 <= n)%nat.
Hypothesis Hd : length d = n.
Hypothesis HL : located e lo hi bmin bmax.

Lemma E : edges_in e bmin bmax = seq lo (hi - lo).
Proof. exact (edges_in_located e lo hi bmin bmax HL). Qed.

Lemma single_0_in : lo = hi -> (1 <= lo <= n)%nat ->
  rebin_1d_single_bin e d bmin bmax = Ok (Some (nth (lo - 1) d 0)).
Proof.
  intros H1 H2. unfold rebin_1d_single_bin. rewrite E, H1, Nat.sub_diag. cbn [length seq].
  rewrite (edges_above_located e lo hi bmin bmax HL), seq_length.
  destruct (Nat.eqb_spec (length e - lo) 0) as [|_]; [lia|].
  destruct (Nat.eqb_spec (length e - lo) (length e)) as [|_]; [lia|]. cbn [negb andb].
  rewrite zget_seq_0 by lia. cbn [bind]. rewrite (py_get_ok _ _ _ 0) by lia. cbn [bind].
  do 3 f_equal. lia.
Qed.

Lemma single_0_out : lo = hi -> (lo = 0 \/ lo = S n)%nat ->
  rebin_1d_single_bin e d bmin bmax = Ok None.
Proof.
  intros H1 H2. unfold rebin_1d_single_bin. rewrite E, H1, Nat.sub_diag. cbn [length seq].
  rewrite (edges_above_located e lo hi bmin bmax HL), seq_length.
  destruct (Nat.eqb_spec (length e - lo) 0) as [|Hx]; [reflexivity|].
  destruct (Nat.eqb_spec (length e - lo) (length e)) as [|Hy]; [reflexivity|lia].
Qed.

Definition u1 : R := (nth lo e 0 - bmin) / (nth lo e 0 - nth (lo - 1) e 0).
Definition u2 : R := (bmax - nth lo e 0) / (nth (lo + 1) e 0 - nth lo e 0).

Lemma single_1_mid : hi = S lo -> (1 <= lo < n)%nat ->
  rebin_1d_single_bin e d bmin bmax
  = Ok (fdiv (u1 * nth (lo - 1) d 0 + u2 * nth lo d 0) (u1 + u2)).
Proof.
  intros H1 H2. unfold rebin_1d_single_bin. rewrite E, H1.
  replace (S lo - lo)%nat with 1%nat by lia. cbn [length seq zget].
  unfold zget. cbn [py_get]. change (py_get [lo] 0) with (Ok lo). cbn [bind].
  replace (0 <? Z.of_nat lo)%Z with true by (symmetry; apply Z.ltb_lt; lia).
  replace (Z.of_nat lo <? Z.of_nat (length e) - 1)%Z with true by (symmetry; apply Z.ltb_lt; lia).
  cbn [andb]. rewrite !(py_get_ok _ e _ 0), !(py_get_ok _ d _ 0) by lia. cbn [bind]. rewrite Nat2Z.id.
  replace (Z.to_nat (Z.of_nat lo - 1)) with (lo - 1)%nat by lia.
  replace (Z.to_nat (Z.of_nat lo + 1)) with (lo + 1)%nat by lia.
  pose proof (HI (lo - 1)%nat lo ltac:(lia)). pose proof (HI lo (lo + 1)%nat ltac:(lia)).
  rewrite !fdiv_ok by lra. reflexivity.
Qed.

Lemma single_1_first : hi = 1%nat -> lo = 0%nat ->
  rebin_1d_single_bin e d bmin bmax = Ok (Some (nth 0 d 0)).
Proof.
  intros H1 H2. unfold rebin_1d_single_bin. rewrite E, H1, H2. cbn [length seq Nat.sub].
  change (zget [0%nat] 0) with (Ok 0%Z). cbn [bind].
  change (0 <? 0)%Z with false. change (0 =? 0)%Z with true. cbn [andb].
  rewrite (py_get_ok _ d _ 0) by lia. reflexivity.
Qed.

Lemma single_1_last : hi = S n -> lo = n ->
  rebin_1d_single_bin e d bmin bmax = Ok (Some (nth (n - 1) d 0)).
Proof.
  intros H1 H2. unfold rebin_1d_single_bin. rewrite E, H1, H2.
  replace (S n - n)%nat with 1%nat by lia. cbn [length seq].
  unfold zget. change (py_get [n] 0) with (Ok n). cbn [bind].
  replace (Z.of_nat n <? Z.of_nat (length e) - 1)%Z with false by (symmetry; apply Z.ltb_ge; lia).
  rewrite andb_false_r. replace (Z.of_nat n =? 0)%Z with false by (symmetry; apply Z.eqb_neq; lia).
  rewrite (py_get_last _ d 0) by lia. cbn [bind]. now rewrite Hd.
Qed.

Lemma single_general : (2 <= hi - lo)%nat -> forall ws iz ds,
  general_weights e bmin bmax (seq lo (hi - lo)) = Ok (map Some ws, iz) ->
  mapM (py_get d) iz = Ok ds -> length ws = length ds -> Rsum ws <> 0 ->
  rebin_1d_single_bin e d bmin bmax = Ok (Some (wmean ws ds)).
Proof.
  intros H ws iz ds HW HM HLen H0. unfold rebin_1d_single_bin. rewrite E, seq_length.
  rewrite HW. destruct (hi - lo)%nat as [|[|k]]; [lia|lia|]. cbn [bind]. rewrite HM. cbn [bind].
  rewrite ndiv_wmean by assumption. reflexivity.
Qed.

Lemma Rsum_cons : forall a l, Rsum (a :: l) = a + Rsum l.
Proof. reflexivity. Qed.

Lemma single_A : (2 <= hi - lo)%nat -> (1 <= lo)%nat -> (hi <= n)%nat ->
  rebin_1d_single_bin e d bmin bmax
  = Ok (Some (wmean (wF e lo bmin :: repeat 1 (hi - lo - 1) ++ [wL e hi bmax])
                    (slice d (lo - 1) (S (hi - lo))))).
Proof.
  intros H1 H2 H3. eapply single_general; [exact H1|apply gw_A; try assumption; lia| | |].
  - replace (Z.of_nat lo - 1)%Z with (Z.of_nat (lo - 1)) by lia. apply mapM_get_range. lia.
  - cbn [length]. rewrite app_length, repeat_length, length_slice. cbn [length]. lia.
  - rewrite Rsum_cons, Rsum_app, Rsum_repeat, Rsum_cons. change (Rsum []) with 0.
    pose proof (wF_range e lo hi bmin bmax HI HL H1 ltac:(lia)).
    pose proof (wL_nonneg e lo hi bmin bmax HI HL H1).
    assert (0 < INR (hi - lo - 1)) by (apply lt_0_INR; lia). lra.
Qed.

Lemma single_B : (2 <= hi - lo)%nat -> (1 <= lo)%nat -> (hi = S n)%nat ->
  rebin_1d_single_bin e d bmin bmax
  = Ok (Some (wmean (wF e lo bmin :: repeat 1 (hi - lo - 1)) (slice d (lo - 1) (hi - lo)))).
Proof.
  intros H1 H2 H3. eapply single_general; [exact H1|apply gw_B; try assumption; lia| | |].
  - replace (Z.of_nat lo - 1)%Z with (Z.of_nat (lo - 1)) by lia. apply mapM_get_range. lia.
  - cbn [length]. rewrite repeat_length, length_slice. lia.
  - rewrite Rsum_cons, Rsum_repeat.
    pose proof (wF_range e lo hi bmin bmax HI HL H1 ltac:(lia)).
    assert (0 < INR (hi - lo - 1)) by (apply lt_0_INR; lia). lra.
Qed.

Lemma single_C : (2 <= hi - lo)%nat -> (lo = 0)%nat -> (hi <= n)%nat ->
  rebin_1d_single_bin e d bmin bmax
  = Ok (Some (wmean (repeat 1 (hi - lo - 1) ++ [wL e hi bmax]) (slice d 0 (hi - lo)))).
Proof.
  intros H1 H2 H3. eapply single_general; [exact H1|apply gw_C; try assumption; lia| | |].
  - apply (mapM_get_range d 0). lia.
  - rewrite app_length, repeat_length, length_slice. cbn [length]. lia.
  - rewrite Rsum_app, Rsum_repeat, Rsum_cons. change (Rsum []) with 0.
    pose proof (wL_nonneg e lo hi bmin bmax HI HL H1).
    assert (0 < INR (hi - lo - 1)) by (apply lt_0_INR; lia). lra.
Qed.

Lemma single_D : (lo = 0)%nat -> (hi = S n)%nat ->
  rebin_1d_single_bin e d bmin bmax
  = Ok (Some (wmean (repeat 1 (S n)) (nth (n - 1) d 0 :: slice d 0 n))).
Proof.
  intros H1 H2. assert (H3 : (2 <= hi - lo)%nat) by lia.
  eapply single_general; [exact H3|replace (S n) with (hi - lo)%nat by lia; apply gw_D; try assumption; lia| | |].
  - replace (hi - lo)%nat with (S n) by lia. apply mapM_get_wrap; lia.
  - cbn [length]. rewrite repeat_length, length_slice. lia.
  - rewrite Rsum_repeat. assert (0 < INR (S n)) by (apply lt_0_INR; lia). lra.
Qed.

End Single.
