(** * [MOneDDouble.v]: which edges and weights a new bin uses *)

From Coq Require Import Reals ZArith List Bool Lia Lra.
From Flocq Require Import Core IEEE754.BinarySingleNaN.
From Verif Require Import Base BaseP SpecGrid MGrids MUtils PGrids PPolarCoords MOneD POneD MHealpixFloat PHealpixFloat SpecDouble MDouble PDouble
  MRemapDouble PRemapDouble2 MSumDouble MOneDDouble.
Import ListNotations.
Open Scope R_scope.

Definition all_fin (l : list double) : Prop := forall x, In x l -> fin x.

Lemma nth_val : forall l i, nth i (map val l) 0 = val (nth i l dzero).
Proof. intros l i. change 0 with (val dzero). apply map_nth. Qed.

Lemma all_fin_nth : forall l i, all_fin l -> fin (nth i l dzero).
Proof.
  intros l i H. destruct (Nat.lt_ge_cases i (length l)) as [L|L]; [apply H, nth_In, L|]. rewrite nth_overflow by exact L. reflexivity.
Qed.

Lemma edges_in_val : forall e a b, all_fin e -> fin a -> fin b -> edges_in_d e a b = edges_in (map val e) (val a) (val b).
Proof.
  intros e a b He Ha Hb. unfold edges_in_d, edges_in. f_equal. rewrite map_map. apply map_ext_in. intros x Hx.
  rewrite !dle_ok by auto. reflexivity.
Qed.

Lemma edges_above_val : forall e a, all_fin e -> fin a -> edges_above_d e a = edges_above (map val e) (val a).
Proof.
  intros e a He Ha. unfold edges_above_d, edges_above. f_equal. rewrite map_map. apply map_ext_in. intros x Hx.
  rewrite !dle_ok by auto. reflexivity.
Qed.

Lemma monotonic_val : forall l, all_fin l -> is_pos_monotonic_d l = is_pos_monotonic (map Some (map val l)).
Proof.
  intros l F. unfold is_pos_monotonic_d, is_pos_monotonic. rewrite !map_length.
  assert (E : forall (A B : list nat), A = B -> (forall i, In i B -> (S i < length l)%nat) ->
    forallb (fun i => dle (nth i l dnan) (nth (S i) l dnan)) A = forallb (fun i => nle (nth i (map Some (map val l)) None) (nth (S i) (map Some (map val l)) None)) B).
  { intros A B -> H. induction B as [|i B IH]; [reflexivity|]. cbn [forallb]. rewrite IH by (intros; apply H; now right). f_equal.
    specialize (H i (or_introl eq_refl)). assert (K : forall j, (j < length l)%nat -> nth j (map Some (map val l)) None = Some (val (nth j l dnan))).
    { intros j Hj. transitivity (nth j (map Some (map val l)) (Some (val dnan))); [apply nth_indep; now rewrite !map_length|]. rewrite !map_nth. reflexivity. }
    rewrite (K i), (K (S i)) by lia. rewrite dle_ok by (apply F, nth_In; lia). reflexivity. }
  apply E; [reflexivity|]. intros i Hi. apply in_seq in Hi. unfold double in *. lia.
Qed.

Definition slice_d (d : list double) (p m : nat) : list double := map (fun i => nth i d dzero) (seq p m).

Lemma mapM_get_range_d : forall (d : list double) p m, (p + m <= length d)%nat ->
  mapM (py_get d) (zrange (Z.of_nat p) m) = Ok (slice_d d p m).
Proof.
  intros d p m H. unfold zrange, slice_d.
  rewrite (mapM_ok _ _ _ (fun z => nth (Z.to_nat z) d dzero)).
  - f_equal. rewrite map_map. apply (list_ext double _ _ dzero); rewrite !map_length, !seq_length; [reflexivity|].
    intros i Hi. rewrite !(nth_map_lt _ _ _ _ i dzero 0%nat) by (rewrite seq_length; exact Hi).
    rewrite !seq_nth by exact Hi. f_equal. lia.
  - intros z Hz. apply in_map_iff in Hz. destruct Hz as (t & <- & Ht). apply in_seq in Ht.
    apply py_get_ok. lia.
Qed.

Lemma mapM_get_wrap_d : forall (d : list double) m, (m = length d)%nat -> (1 <= m)%nat ->
  mapM (py_get d) (zrange (-1) (S m)) = Ok (nth (m - 1) d dzero :: slice_d d 0 m).
Proof.
  intros d m H Hm. rewrite zrange_cons. cbn [mapM]. rewrite (py_get_last _ _ dzero) by lia. cbn [bind].
  change (-1 + 1)%Z with (Z.of_nat 0). rewrite mapM_get_range_d by lia. cbn [bind]. now rewrite H.
Qed.

(** ** The weights of the general case *)

Section General.
Variables (e : list double) (lo k : nat) (bmin bmax : double).
Hypothesis Hl : (lo + k <= length e)%nat.
Hypothesis Hk : (2 <= k)%nat.

Definition wF_d : double := ddiv (dsub (nth lo e dzero) bmin) (dsub (nth lo e dzero) (nth (lo - 1) e dzero)).
Definition wL_d (hi : nat) : double := ddiv (dsub bmax (nth (hi - 1) e dzero)) (dsub (nth (hi - 1) e dzero) (nth (hi - 2) e dzero)).

Lemma start_A_d : (lo + k <> length e)%nat -> (lo <> 0)%nat ->
  start_weights_d (Z.of_nat (length e)) (seq lo k) = Ok (repeat done (S k), zrange (Z.of_nat lo - 1) (S k)).
Proof.
  intros H1 H2. unfold start_weights_d. rewrite zget_seq_0, zget_seq_last by lia. cbn [bind].
  rewrite seq_length, index_range by lia.
  replace (Z.of_nat (lo + k - 1) =? Z.of_nat (length e) - 1)%Z with false by (symmetry; apply Z.eqb_neq; lia).
  replace (Z.of_nat lo =? 0)%Z with false by (symmetry; apply Z.eqb_neq; lia).
  now replace (k + 1)%nat with (S k) by lia.
Qed.

Lemma start_BD_d : (lo + k = length e)%nat ->
  start_weights_d (Z.of_nat (length e)) (seq lo k) = Ok (repeat done k, zrange (Z.of_nat lo - 1) k).
Proof.
  intros H1. unfold start_weights_d. rewrite zget_seq_0, zget_seq_last by lia. cbn [bind].
  rewrite seq_length, index_range by lia.
  replace (Z.of_nat (lo + k - 1) =? Z.of_nat (length e) - 1)%Z with true by (symmetry; apply Z.eqb_eq; lia).
  replace (k + 1)%nat with (S k) by lia. rewrite repeat_S_last, zrange_S_last, !removelast_app1. reflexivity.
Qed.

Lemma start_C_d : (lo + k <> length e)%nat -> (lo = 0)%nat ->
  start_weights_d (Z.of_nat (length e)) (seq lo k) = Ok (repeat done k, zrange 0 k).
Proof.
  intros H1 H2. unfold start_weights_d. rewrite zget_seq_0, zget_seq_last by lia. cbn [bind].
  rewrite seq_length, index_range by lia.
  replace (Z.of_nat (lo + k - 1) =? Z.of_nat (length e) - 1)%Z with false by (symmetry; apply Z.eqb_neq; lia).
  replace (Z.of_nat lo =? 0)%Z with true by (symmetry; apply Z.eqb_eq; lia).
  replace (k + 1)%nat with (S k) by lia. cbn [repeat tl]. rewrite zrange_cons. cbn [tl]. do 3 f_equal. lia.
Qed.

Lemma get_edge_d : forall z, (0 <= z < Z.of_nat (length e))%Z -> py_get e z = Ok (nth (Z.to_nat z) e dzero).
Proof. intros z H. apply py_get_ok. lia. Qed.

Lemma first_weight_d : (lo <> 0)%nat -> forall l : list double,
  (e0 <- py_get e (Z.of_nat lo) ;; em <- py_get e (Z.of_nat lo - 1) ;;
   py_set (done :: l) 0 (ddiv (dsub e0 bmin) (dsub e0 em))) = Ok (wF_d :: l).
Proof.
  intros H l. rewrite !get_edge_d by lia. cbn [bind]. rewrite Nat2Z.id.
  replace (Z.to_nat (Z.of_nat lo - 1)) with (lo - 1)%nat by lia. now rewrite py_set_first.
Qed.

Lemma last_weight_d : forall l : list double,
  (e0 <- py_get e (Z.of_nat (lo + k - 1)) ;; em <- py_get e (Z.of_nat (lo + k - 1) - 1) ;;
   py_set (l ++ [done]) (-1) (ddiv (dsub bmax e0) (dsub e0 em))) = Ok (l ++ [wL_d (lo + k)]).
Proof.
  intros l. rewrite !get_edge_d by lia. cbn [bind]. rewrite Nat2Z.id.
  replace (Z.to_nat (Z.of_nat (lo + k - 1) - 1)) with (lo + k - 2)%nat by lia. now rewrite py_set_app_last.
Qed.

Ltac gw0 := unfold general_weights_d; rewrite zget_seq_0, zget_seq_last by lia; cbn [bind].

Lemma gw_A_d : (lo + k <> length e)%nat -> (lo <> 0)%nat ->
  general_weights_d e bmin bmax (seq lo k) = Ok (wF_d :: repeat done (k - 1) ++ [wL_d (lo + k)], zrange (Z.of_nat lo - 1) (S k)).
Proof.
  intros H1 H2. gw0. rewrite start_A_d by lia. cbn [bind].
  replace (Z.of_nat lo =? 0)%Z with false by (symmetry; apply Z.eqb_neq; lia).
  replace (Z.of_nat (lo + k - 1) =? Z.of_nat (length e) - 1)%Z with false by (symmetry; apply Z.eqb_neq; lia).
  cbn [negb]. cbn [repeat]. rewrite first_weight_d by exact H2. cbn [bind].
  rewrite (repeat_pred _ done k) by lia. rewrite app_comm_cons. rewrite last_weight_d. reflexivity.
Qed.

Lemma gw_B_d : (lo + k = length e)%nat -> (lo <> 0)%nat ->
  general_weights_d e bmin bmax (seq lo k) = Ok (wF_d :: repeat done (k - 1), zrange (Z.of_nat lo - 1) k).
Proof.
  intros H1 H2. gw0. rewrite start_BD_d by lia. cbn [bind].
  replace (Z.of_nat lo =? 0)%Z with false by (symmetry; apply Z.eqb_neq; lia).
  replace (Z.of_nat (lo + k - 1) =? Z.of_nat (length e) - 1)%Z with true by (symmetry; apply Z.eqb_eq; lia).
  cbn [negb]. rewrite (repeat_pred' _ done k) by lia. rewrite first_weight_d by exact H2. reflexivity.
Qed.

Lemma gw_C_d : (lo + k <> length e)%nat -> (lo = 0)%nat ->
  general_weights_d e bmin bmax (seq lo k) = Ok (repeat done (k - 1) ++ [wL_d (lo + k)], zrange 0 k).
Proof.
  intros H1 H2. gw0. rewrite start_C_d by lia. cbn [bind].
  replace (Z.of_nat lo =? 0)%Z with true by (symmetry; apply Z.eqb_eq; lia).
  replace (Z.of_nat (lo + k - 1) =? Z.of_nat (length e) - 1)%Z with false by (symmetry; apply Z.eqb_neq; lia).
  cbn [negb bind]. rewrite (repeat_pred _ done k) by lia. rewrite last_weight_d. reflexivity.
Qed.

Lemma gw_D_d : (lo + k = length e)%nat -> (lo = 0)%nat ->
  general_weights_d e bmin bmax (seq lo k) = Ok (repeat done k, zrange (-1) k).
Proof.
  intros H1 H2. gw0. rewrite start_BD_d by lia. cbn [bind].
  replace (Z.of_nat lo =? 0)%Z with true by (symmetry; apply Z.eqb_eq; lia).
  replace (Z.of_nat (lo + k - 1) =? Z.of_nat (length e) - 1)%Z with true by (symmetry; apply Z.eqb_eq; lia).
  cbn [negb bind]. now rewrite H2.
Qed.

End General.

(** ** One new bin, case by case *)

Definition wmean_d (o : nat -> tree) (ws ds : list double) : double := ddiv (sum_d o (map2 dmul ws ds)) (sum_d o ws).

Section Single.
Variables (o : nat -> tree) (e : list double) (lo hi : nat) (bmin bmax : double) (d : list double) (n : nat).
Hypothesis Fe : all_fin e.
Hypothesis Fa : fin bmin.
Hypothesis Fb : fin bmax.
Hypothesis He : length e = S n.
Hypothesis Hn : (1 <= n)%nat.
Hypothesis Hd : length d = n.
Hypothesis HL : located (map val e) lo hi (val bmin) (val bmax).

Lemma E_d : edges_in_d e bmin bmax = seq lo (hi - lo).
Proof. rewrite edges_in_val by assumption. exact (edges_in_located _ lo hi _ _ HL). Qed.

Lemma EA_d : edges_above_d e bmin = seq lo (length e - lo).
Proof. rewrite edges_above_val by assumption. rewrite (edges_above_located _ lo hi _ _ HL). now rewrite map_length. Qed.

Lemma single_0_in_d : lo = hi -> (1 <= lo <= n)%nat ->
  rebin_1d_single_bin_d o e d bmin bmax = Ok (nth (lo - 1) d dzero).
Proof.
  intros H1 H2. unfold rebin_1d_single_bin_d. rewrite E_d, H1, Nat.sub_diag. cbn [length seq].
  rewrite EA_d, seq_length.
  destruct (Nat.eqb_spec (length e - lo) 0) as [|_]; [lia|].
  destruct (Nat.eqb_spec (length e - lo) (length e)) as [|_]; [lia|]. cbn [negb andb].
  rewrite zget_seq_0 by lia. cbn [bind]. rewrite (py_get_ok _ _ _ dzero) by lia.
  do 2 f_equal. lia.
Qed.

Lemma single_0_out_d : lo = hi -> (lo = 0 \/ lo = S n)%nat ->
  rebin_1d_single_bin_d o e d bmin bmax = Ok dnan.
Proof.
  intros H1 H2. unfold rebin_1d_single_bin_d. rewrite E_d, H1, Nat.sub_diag. cbn [length seq].
  rewrite EA_d, seq_length.
  destruct (Nat.eqb_spec (length e - lo) 0) as [|Hx]; [reflexivity|].
  destruct (Nat.eqb_spec (length e - lo) (length e)) as [|Hy]; [reflexivity|lia].
Qed.

Definition u1_d : double := ddiv (dsub (nth lo e dzero) bmin) (dsub (nth lo e dzero) (nth (lo - 1) e dzero)).
Definition u2_d : double := ddiv (dsub bmax (nth lo e dzero)) (dsub (nth (lo + 1) e dzero) (nth lo e dzero)).

Lemma single_1_mid_d : hi = S lo -> (1 <= lo < n)%nat ->
  rebin_1d_single_bin_d o e d bmin bmax
  = Ok (ddiv (dadd (dmul u1_d (nth (lo - 1) d dzero)) (dmul u2_d (nth lo d dzero))) (dadd u1_d u2_d)).
Proof.
  intros H1 H2. unfold rebin_1d_single_bin_d. rewrite E_d, H1.
  replace (S lo - lo)%nat with 1%nat by lia. cbn [length seq zget].
  unfold zget. cbn [py_get]. change (py_get [lo] 0) with (Ok lo). cbn [bind].
  replace (0 <? Z.of_nat lo)%Z with true by (symmetry; apply Z.ltb_lt; lia).
  replace (Z.of_nat lo <? Z.of_nat (length e) - 1)%Z with true by (symmetry; apply Z.ltb_lt; lia).
  cbn [andb]. rewrite !(py_get_ok _ e _ dzero), !(py_get_ok _ d _ dzero) by lia. cbn [bind]. rewrite Nat2Z.id.
  replace (Z.to_nat (Z.of_nat lo - 1)) with (lo - 1)%nat by lia.
  replace (Z.to_nat (Z.of_nat lo + 1)) with (lo + 1)%nat by lia. reflexivity.
Qed.

Lemma single_1_first_d : hi = 1%nat -> lo = 0%nat ->
  rebin_1d_single_bin_d o e d bmin bmax = Ok (nth 0 d dzero).
Proof.
  intros H1 H2. unfold rebin_1d_single_bin_d. rewrite E_d, H1, H2. cbn [length seq Nat.sub].
  change (zget [0%nat] 0) with (Ok 0%Z). cbn [bind].
  change (0 <? 0)%Z with false. change (0 =? 0)%Z with true. cbn [andb].
  rewrite (py_get_ok _ d _ dzero) by lia. reflexivity.
Qed.

Lemma single_1_last_d : hi = S n -> lo = n ->
  rebin_1d_single_bin_d o e d bmin bmax = Ok (nth (n - 1) d dzero).
Proof.
  intros H1 H2. unfold rebin_1d_single_bin_d. rewrite E_d, H1, H2.
  replace (S n - n)%nat with 1%nat by lia. cbn [length seq].
  unfold zget. change (py_get [n] 0) with (Ok n). cbn [bind].
  replace (Z.of_nat n <? Z.of_nat (length e) - 1)%Z with false by (symmetry; apply Z.ltb_ge; lia).
  rewrite andb_false_r. replace (Z.of_nat n =? 0)%Z with false by (symmetry; apply Z.eqb_neq; lia).
  rewrite (py_get_last _ d dzero) by lia. now rewrite Hd.
Qed.

Lemma single_general_d : (2 <= hi - lo)%nat -> forall ws iz ds,
  general_weights_d e bmin bmax (seq lo (hi - lo)) = Ok (ws, iz) -> mapM (py_get d) iz = Ok ds ->
  rebin_1d_single_bin_d o e d bmin bmax = Ok (wmean_d o ws ds).
Proof.
  intros H ws iz ds HW HM. unfold rebin_1d_single_bin_d. rewrite E_d, seq_length.
  rewrite HW. destruct (hi - lo)%nat as [|[|k]]; [lia|lia|]. cbn [bind]. rewrite HM. reflexivity.
Qed.

Lemma in_range : (lo <= hi <= S n)%nat.
Proof. destruct HL as (H & _). rewrite map_length in H. unfold double in *. lia. Qed.

Lemma single_A_d : (2 <= hi - lo)%nat -> (1 <= lo)%nat -> (hi <= n)%nat ->
  rebin_1d_single_bin_d o e d bmin bmax
  = Ok (wmean_d o (wF_d e lo bmin :: repeat done (hi - lo - 1) ++ [wL_d e bmax hi]) (slice_d d (lo - 1) (S (hi - lo)))).
Proof.
  intros H1 H2 H3. pose proof in_range. eapply single_general_d; [exact H1| |].
  - rewrite gw_A_d by lia. replace (lo + (hi - lo))%nat with hi by lia. reflexivity.
  - replace (Z.of_nat lo - 1)%Z with (Z.of_nat (lo - 1)) by lia. apply mapM_get_range_d. lia.
Qed.

Lemma single_B_d : (2 <= hi - lo)%nat -> (1 <= lo)%nat -> (hi = S n)%nat ->
  rebin_1d_single_bin_d o e d bmin bmax
  = Ok (wmean_d o (wF_d e lo bmin :: repeat done (hi - lo - 1)) (slice_d d (lo - 1) (hi - lo))).
Proof.
  intros H1 H2 H3. eapply single_general_d; [exact H1|apply gw_B_d; lia|].
  replace (Z.of_nat lo - 1)%Z with (Z.of_nat (lo - 1)) by lia. apply mapM_get_range_d. lia.
Qed.

Lemma single_C_d : (2 <= hi - lo)%nat -> (lo = 0)%nat -> (hi <= n)%nat ->
  rebin_1d_single_bin_d o e d bmin bmax
  = Ok (wmean_d o (repeat done (hi - lo - 1) ++ [wL_d e bmax hi]) (slice_d d 0 (hi - lo))).
Proof.
  intros H1 H2 H3. eapply single_general_d; [exact H1| |].
  - rewrite gw_C_d by lia. replace (lo + (hi - lo))%nat with hi by lia. reflexivity.
  - apply (mapM_get_range_d d 0). lia.
Qed.

Lemma single_D_d : (lo = 0)%nat -> (hi = S n)%nat ->
  rebin_1d_single_bin_d o e d bmin bmax
  = Ok (wmean_d o (repeat done (S n)) (nth (n - 1) d dzero :: slice_d d 0 n)).
Proof.
  intros H1 H2. assert (H3 : (2 <= hi - lo)%nat) by lia.
  eapply single_general_d; [exact H3|replace (S n) with (hi - lo)%nat by lia; apply gw_D_d; lia|].
  replace (hi - lo)%nat with (S n) by lia. apply mapM_get_wrap_d; lia.
Qed.

End Single.
