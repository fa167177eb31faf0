(** * Grid resampling: loops, averages and conservation *)

From Coq Require Import Reals ZArith List Bool Lra Lia Psatz.
From Flocq Require Import Core.Raux.
From Verif Require Import Base BaseP SpecGrid SpecRemap MGrids MRemap PGrids PRadial POneD PRemap.
Import ListNotations.
Open Scope R_scope.

(** ** Finite sums *)

Lemma sum_ext : forall n g h, (forall i, (i < n)%nat -> g i = h i) -> sum_upto n g = sum_upto n h.
Proof. intros n g h H. unfold sum_upto. f_equal. apply map_ext_in. intros i Hi. apply in_seq in Hi. apply H. lia. Qed.

Lemma sum_S : forall n g, sum_upto (S n) g = sum_upto n g + g n.
Proof. intros n g. unfold sum_upto. rewrite seq_S, map_app, Rsum_app. cbn. ring. Qed.

Lemma sum_0 : forall g, sum_upto 0 g = 0.
Proof. reflexivity. Qed.

Lemma sum_plus : forall n g h, sum_upto n (fun i => g i + h i) = sum_upto n g + sum_upto n h.
Proof. intros n g h. induction n as [|n IH]; [rewrite !sum_0; ring|]. rewrite !sum_S, IH. ring. Qed.

Lemma sum_scal : forall n c g, sum_upto n (fun i => c * g i) = c * sum_upto n g.
Proof. intros n c g. induction n as [|n IH]; [rewrite !sum_0; ring|]. rewrite !sum_S, IH. ring. Qed.

Lemma sum_scal_r : forall n c g, sum_upto n (fun i => g i * c) = sum_upto n g * c.
Proof. intros n c g. induction n as [|n IH]; [rewrite !sum_0; ring|]. rewrite !sum_S, IH. ring. Qed.

Lemma sum_zero : forall n g, (forall i, (i < n)%nat -> g i = 0) -> sum_upto n g = 0.
Proof.
  intros n g H. induction n as [|n IH]; [reflexivity|]. rewrite sum_S, IH, H; [ring|lia|].
  intros i Hi. apply H. lia.
Qed.

Lemma sum_swap : forall n m g, sum_upto n (fun i => sum_upto m (g i)) = sum_upto m (fun j => sum_upto n (fun i => g i j)).
Proof.
  intros n m g. induction n as [|n IH].
  - rewrite sum_0. symmetry. apply sum_zero. reflexivity.
  - rewrite sum_S, IH, <- sum_plus. apply sum_ext. intros j Hj. now rewrite sum_S.
Qed.

Lemma sum_one : forall n k g, (k < n)%nat -> (forall i, (i < n)%nat -> i <> k -> g i = 0) -> sum_upto n g = g k.
Proof.
  intros n k g. induction n as [|n IH]; intros Hk H; [lia|]. rewrite sum_S.
  destruct (Nat.eq_dec k n) as [->|Hne].
  - rewrite sum_zero; [ring|]. intros i Hi. apply H; lia.
  - rewrite IH, (H n); [ring|lia|lia|lia|]. intros i Hi Hd. apply H; lia.
Qed.

Lemma sum_le : forall n g h, (forall i, (i < n)%nat -> g i <= h i) -> sum_upto n g <= sum_upto n h.
Proof.
  intros n g h H. induction n as [|n IH]; [rewrite !sum_0; lra|]. rewrite !sum_S.
  pose proof (H n ltac:(lia)). assert (sum_upto n g <= sum_upto n h) by (apply IH; intros; apply H; lia). lra.
Qed.

Lemma Rsum_upto : forall f, Rsum f = sum_upto (length f) (fun i => nth i f 0).
Proof.
  intros f. unfold sum_upto. f_equal. apply (list_ext R _ _ 0); [now rewrite map_length, seq_length|].
  intros i Hi. rewrite (nth_map_lt _ _ _ _ i 0 0%nat) by (rewrite seq_length; exact Hi).
  rewrite seq_nth by exact Hi. reflexivity.
Qed.

Lemma total_upto : forall f n c, shape2 f n c -> total f = sum_upto n (fun i => sum_upto c (fun j => cell f i j)).
Proof.
  intros f n c [Hn Hr]. unfold total. rewrite Rsum_upto, map_length, Hn. apply sum_ext. intros i Hi.
  rewrite (nth_map_lt _ _ _ _ i 0 []) by lia. rewrite Rsum_upto, Hr by lia. reflexivity.
Qed.

(** ** Overlaps *)

Lemma overlap_nonneg : forall a b c d, 0 <= overlap a b c d.
Proof. intros. unfold overlap. apply Rmax_l. Qed.

Lemma overlap_sym : forall a b c d, overlap a b c d = overlap c d a b.
Proof. intros. unfold overlap. now rewrite Rmin_comm, Rmax_comm with (x := a). Qed.

Lemma overlap_split : forall a b c d f, c <= d <= f -> a <= b ->
  overlap a b c d + overlap a b d f = overlap a b c f.
Proof.
  intros a b c d f H1 H2. unfold overlap, Rmax, Rmin. repeat destruct (Rle_dec _ _); lra.
Qed.

Lemma overlap_inside : forall a b c d, a <= c -> d <= b -> c <= d -> overlap a b c d = d - c.
Proof. intros. unfold overlap. rewrite Rmin_right, (Rmax_right a), Rmax_right by lra. reflexivity. Qed.

Section Cells.
Variables (o len : R) (n : nat).
Hypothesis Hlen : 0 < len.
Hypothesis Hn : (1 <= n)%nat.

Lemma width_pos : 0 < len / INR n.
Proof. apply Rdiv_lt_0_compat; [exact Hlen|apply lt_0_INR; lia]. Qed.

Lemma edge_S : forall i, edge o len n (S i) = edge o len n i + len / INR n.
Proof. intros i. unfold edge. rewrite S_INR. ring. Qed.

Lemma edge_0 : edge o len n 0 = o.
Proof. unfold edge. cbn [INR]. ring. Qed.

Lemma edge_n : edge o len n n = o + len.
Proof. unfold edge. field. apply not_0_INR. lia. Qed.

Lemma edge_le : forall i j, (i <= j)%nat -> edge o len n i <= edge o len n j.
Proof. intros i j H. unfold edge. apply le_INR in H. pose proof width_pos. nra. Qed.

Lemma overlap_sum : forall a b m, a <= b ->
  sum_upto m (fun i => overlap a b (edge o len n i) (edge o len n (S i))) = overlap a b o (edge o len n m).
Proof.
  intros a b m Hab. induction m as [|m IH].
  - rewrite sum_0, edge_0. unfold overlap, Rmax, Rmin. repeat destruct (Rle_dec _ _); lra.
  - rewrite sum_S, IH. apply overlap_split; [|exact Hab]. split; [|apply edge_le; lia].
    pose proof (edge_le 0 m ltac:(lia)). rewrite edge_0 in H. exact H.
Qed.

Lemma overlap_total : forall a b, a <= b ->
  sum_upto n (fun i => overlap a b (edge o len n i) (edge o len n (S i))) = overlap a b o (o + len).
Proof. intros a b Hab. rewrite overlap_sum by exact Hab. now rewrite edge_n. Qed.
End Cells.

Section Frac.
Variables (o1 len1 : R) (n1 : nat) (o2 len2 : R) (n2 : nat).
Hypothesis Hl1 : 0 < len1.
Hypothesis Hl2 : 0 < len2.
Hypothesis Hn1 : (1 <= n1)%nat.
Hypothesis Hn2 : (1 <= n2)%nat.

Lemma frac_nonneg : forall k i, 0 <= frac o1 len1 n1 o2 len2 n2 k i.
Proof.
  intros k i. unfold frac. pose proof (width_pos len2 n2 Hl2 Hn2). apply Rmult_le_pos; [apply overlap_nonneg|].
  left. now apply Rinv_0_lt_compat.
Qed.

Lemma frac_sum : forall k, sum_upto n1 (frac o1 len1 n1 o2 len2 n2 k)
  = overlap (edge o2 len2 n2 k) (edge o2 len2 n2 (S k)) o1 (o1 + len1) / (len2 / INR n2).
Proof.
  intros k. unfold frac. rewrite <- (overlap_total o1 len1 n1 Hl1 Hn1).
  - unfold Rdiv at 1. apply sum_scal_r.
  - apply (edge_le o2 len2 n2 Hl2 Hn2); lia.
Qed.

Lemma frac_sum_le1 : forall k, sum_upto n1 (frac o1 len1 n1 o2 len2 n2 k) <= 1.
Proof.
  intros k. rewrite frac_sum. pose proof (width_pos len2 n2 Hl2 Hn2) as W.
  apply (Rmult_le_reg_r (len2 / INR n2)); [exact W|]. set (w := len2 / INR n2) in *.
  unfold Rdiv at 1. rewrite Rmult_assoc, Rinv_l by lra.
  rewrite edge_S. fold w. unfold overlap, Rmax, Rmin. repeat destruct (Rle_dec _ _); lra.
Qed.

Lemma frac_sum_1 : forall k, (k < n2)%nat -> o1 <= o2 -> o2 + len2 <= o1 + len1 ->
  sum_upto n1 (frac o1 len1 n1 o2 len2 n2 k) = 1.
Proof.
  intros k Hk H1 H2. rewrite frac_sum. pose proof (width_pos len2 n2 Hl2 Hn2) as W.
  pose proof (edge_le o2 len2 n2 Hl2 Hn2 0 k ltac:(lia)) as E0. rewrite edge_0 in E0.
  pose proof (edge_le o2 len2 n2 Hl2 Hn2 (S k) n2 ltac:(lia)) as E1. rewrite edge_n in E1 by assumption.
  rewrite overlap_sym, overlap_inside; rewrite ?edge_S; rewrite ?edge_S in E1; try lra. field.
  split; [|lra]. apply not_0_INR. lia.
Qed.

Lemma frac_column : forall i, (i < n1)%nat -> o2 <= o1 -> o1 + len1 <= o2 + len2 ->
  sum_upto n2 (fun k => frac o1 len1 n1 o2 len2 n2 k i) * (len2 / INR n2) = len1 / INR n1.
Proof.
  intros i Hi H1 H2. unfold frac. pose proof (width_pos len2 n2 Hl2 Hn2) as W.
  pose proof (width_pos len1 n1 Hl1 Hn1) as W1.
  unfold Rdiv at 1. rewrite sum_scal_r, Rmult_assoc, Rinv_l by lra. rewrite Rmult_1_r.
  rewrite (sum_ext n2 _ (fun k => overlap (edge o1 len1 n1 i) (edge o1 len1 n1 (S i)) (edge o2 len2 n2 k) (edge o2 len2 n2 (S k))))
    by (intros; apply overlap_sym).
  rewrite overlap_total by (try assumption; apply edge_le; auto; lia).
  pose proof (edge_le o1 len1 n1 Hl1 Hn1 0 i ltac:(lia)) as E0. rewrite edge_0 in E0.
  pose proof (edge_le o1 len1 n1 Hl1 Hn1 (S i) n1 ltac:(lia)) as E1. rewrite edge_n in E1 by assumption.
  rewrite overlap_sym, overlap_inside; rewrite ?edge_S; rewrite ?edge_S in E1; lra.
Qed.
End Frac.

Lemma frac_same : forall o len n k i, 0 < len -> (1 <= n)%nat ->
  frac o len n o len n k i = if (i =? k)%nat then 1 else 0.
Proof.
  intros o len n k i Hl Hn. pose proof (width_pos len n Hl Hn) as W. unfold frac.
  destruct (Nat.eqb_spec i k) as [->|Hne].
  - rewrite overlap_inside by (try lra; apply edge_le; auto; lia). rewrite edge_S. field.
    split; [apply not_0_INR; lia|lra].
  - unfold overlap. rewrite !edge_S. destruct (Nat.lt_ge_cases i k) as [H|H].
    + pose proof (edge_le o len n Hl Hn (S i) k ltac:(lia)) as E. rewrite edge_S in E.
      rewrite Rmin_right, (Rmax_left (edge o len n k)), Rmax_left by lra. unfold Rdiv. ring.
    + pose proof (edge_le o len n Hl Hn (S k) i ltac:(lia)) as E. rewrite edge_S in E.
      rewrite Rmin_left, (Rmax_right (edge o len n k)), Rmax_left by lra. unfold Rdiv. ring.
Qed.

(** ** Buffers during a sweep *)

Definition after (a : axis) (L : nat) (cells : list nat) (b : buffers) : buffers :=
  fold_left (fun b i => remap_1d_grid2grid_pixel a (Z.of_nat i) L b) cells b.

Lemma after_last : forall a L t b, after a L (seq 0 (S t)) b
  = remap_1d_grid2grid_pixel a (Z.of_nat t) L (after a L (seq 0 t) b).
Proof. intros. unfold after. rewrite seq_S, fold_left_app. reflexivity. Qed.

Definition goodbuf (a : axis) (k : nat) (b : buffers) : Prop :=
  clean b /\ forall g, wsum g b
    = sum_upto (Z.to_nat (grid1 a)) (fun i => F a (Z.of_nat k) (Z.of_nat i) * g (Z.of_nat i)).

Section Sweep.
Variable a : axis.
Hypothesis H1 : 0 < dx1 a.
Hypothesis H2 : 0 < dx2 a.
Hypothesis Hg : (0 <= grid1 a)%Z.
Notation L := (Z.to_nat (get_remap_pix_len a)).

Lemma pixel_good : forall k b, ~ bad a (Z.of_nat k) -> goodbuf a k (remap_1d_grid2grid_pixel a (Z.of_nat k) L b).
Proof.
  intros k b HB. split.
  - intros pw Hin. destruct (pixel_range a (Z.of_nat k) L b HB pw Hin); lia.
  - intros g. apply pixel_wsum; assumption.
Qed.

Lemma bad_mono : forall j k, (j <= k)%nat -> bad a (Z.of_nat 0) -> bad a (Z.of_nat k) -> bad a (Z.of_nat j).
Proof.
  intros j k Hjk H0 Hk. apply (bad_iff a H1 H2) in H0. apply (bad_iff a H1 H2) in Hk.
  apply (bad_iff a H1 H2).
  assert (MONO : forall x y, (x <= y)%Z -> e2 a x <= e2 a y).
  { intros x y Hxy. unfold e2. apply IZR_le in Hxy. nra. }
  pose proof (MONO (Z.of_nat 0) (Z.of_nat j) ltac:(lia)).
  pose proof (MONO (Z.of_nat j + 1)%Z (Z.of_nat k + 1)%Z ltac:(lia)). lra.
Qed.

Lemma e2_le : forall x y, (x <= y)%Z -> e2 a x <= e2 a y.
Proof. intros x y Hxy. unfold e2. apply IZR_le in Hxy. nra. Qed.

(** Unless the first cell is just below the grid, every sweep is right. *)
Lemma sweep_good : ~ bad a (Z.of_nat 0) -> forall t b, goodbuf a t (after a L (seq 0 (S t)) b).
Proof.
  intros H0 t b. induction t as [|t IH].
  - rewrite after_last. apply pixel_good. exact H0.
  - rewrite after_last. destruct (bad_dec a (Z.of_nat (S t))) as [B|B]; [|now apply pixel_good].
    rewrite pixel_bad by exact B. destruct IH as [C IH]. split; [exact C|]. intros g. rewrite IH.
    (* both sides vanish *)
    apply (bad_iff a H1 H2) in B. destruct B as [B1 B2].
    assert (Z0 : forall k z, (0 <= z)%Z -> e2 a (k + 1) < x1min a -> F a k z = 0).
    { intros k z Hz Hk. unfold F, ovz, overlap. pose proof (e2_step a k). 
      assert (x1min a <= e1 a z). { unfold e1. apply IZR_le in Hz. nra. }
      rewrite Rmin_left, (Rmax_right (e2 a k)), Rmax_left; [unfold Rdiv; ring| |lra|].
      - pose proof (e1_step a z). pose proof (e1_mono a H1 z z). lra.
      - pose proof (e1_step a z). lra. }
    rewrite !sum_zero; [reflexivity| |].
    + intros i Hi. rewrite Z0; [ring|lia|exact B2].
    + intros i Hi. rewrite Z0; [ring|lia|].
      pose proof (e2_le (Z.of_nat t + 1) (Z.of_nat (S t) + 1) ltac:(lia)). lra.
Qed.

(** While all cells are bad the buffers are untouched. *)
Lemma sweep_bad : forall t b, (forall j, (j <= t)%nat -> bad a (Z.of_nat j)) -> after a L (seq 0 (S t)) b = b.
Proof.
  intros t b H. induction t as [|t IH].
  - rewrite after_last, pixel_bad by (apply H; lia). reflexivity.
  - rewrite after_last, pixel_bad by (apply H; lia). apply IH. intros; apply H; lia.
Qed.
End Sweep.

(** ** The loops *)

Lemma nth_loop1 : forall a L f1 oob cells b t, (t < length cells)%nat ->
  nth t (remap_1d_loop a L f1 oob cells b) 0 = accumulate f1 oob (after a L (firstn (S t) cells) b).
Proof.
  intros a L f1 oob cells. induction cells as [|i cells IH]; intros b t Ht; [cbn in Ht; lia|].
  cbn [remap_1d_loop]. destruct t as [|t]; [reflexivity|]. cbn [nth]. cbn [length] in Ht. rewrite IH by lia. reflexivity.
Qed.

Lemma length_loop1 : forall a L f1 oob cells b, length (remap_1d_loop a L f1 oob cells b) = length cells.
Proof. intros a L f1 oob cells. induction cells as [|i cells IH]; intros b; [reflexivity|]. cbn. now rewrite IH. Qed.

Lemma firstn_seq : forall n t, (t < n)%nat -> firstn (S t) (seq 0 n) = seq 0 (S t).
Proof.
  intros n t H. replace n with (S t + (n - S t))%nat by lia. rewrite seq_app, firstn_app, seq_length, Nat.sub_diag.
  rewrite firstn_O, app_nil_r. apply firstn_all2. rewrite seq_length. lia.
Qed.

Lemma inner2_spec : forall ay L f1 oob xb cells yb,
  snd (remap_2d_inner ay L f1 oob xb cells yb) = after ay L cells yb /\
  length (fst (remap_2d_inner ay L f1 oob xb cells yb)) = length cells /\
  forall t, (t < length cells)%nat -> nth t (fst (remap_2d_inner ay L f1 oob xb cells yb)) 0
    = accumulate f1 oob (entries_2d (grid1 ay) xb (after ay L (firstn (S t) cells) yb)).
Proof.
  intros ay L f1 oob xb cells. induction cells as [|j cells IH]; intros yb.
  - cbn. split; [reflexivity|]. split; [reflexivity|]. intros t Ht. lia.
  - cbn [remap_2d_inner]. specialize (IH (remap_1d_grid2grid_pixel ay (Z.of_nat j) L yb)).
    destruct (remap_2d_inner ay L f1 oob xb cells _) as [vs yb'']. cbn [fst snd] in *.
    destruct IH as (I1 & I2 & I3). split; [exact I1|]. split; [cbn; now rewrite I2|].
    intros [|t] Ht; [reflexivity|]. cbn [nth]. cbn [length] in Ht. rewrite I3 by lia. reflexivity.
Qed.

(** State of the [y] buffers before row [t]. *)
Fixpoint sweeps (a : axis) (L : nat) (t : nat) (b : buffers) : buffers :=
  match t with
  | O => b
  | S t' => after a L (seq 0 (Z.to_nat (grid2 a))) (sweeps a L t' b)
  end.

Lemma sweeps_shift : forall a L t b, sweeps a L t (after a L (seq 0 (Z.to_nat (grid2 a))) b) = sweeps a L (S t) b.
Proof. intros a L t b. induction t as [|t IH]; [reflexivity|]. cbn [sweeps]. rewrite IH. reflexivity. Qed.

Lemma outer2_spec : forall ax ay Lx Ly f1 oob cells xb yb,
  exists rows, remap_2d_outer ax ay Lx Ly f1 oob cells xb yb = concat rows /\ length rows = length cells /\
    forall i, (i < length cells)%nat -> nth i rows []
      = fst (remap_2d_inner ay Ly f1 oob (after ax Lx (firstn (S i) cells) xb) (seq 0 (Z.to_nat (grid2 ay))) (sweeps ay Ly i yb)).
Proof.
  intros ax ay Lx Ly f1 oob cells. induction cells as [|c cells IH]; intros xb yb.
  - exists []. split; [reflexivity|]. split; [reflexivity|]. intros i Hi. cbn in Hi. lia.
  - cbn [remap_2d_outer]. set (xb' := remap_1d_grid2grid_pixel ax (Z.of_nat c) Lx xb).
    destruct (inner2_spec ay Ly f1 oob xb' (seq 0 (Z.to_nat (grid2 ay))) yb) as (S1 & _ & _).
    destruct (remap_2d_inner ay Ly f1 oob xb' (seq 0 (Z.to_nat (grid2 ay))) yb) as [vs yb'] eqn:EI. cbn [snd] in S1.
    destruct (IH xb' yb') as (rows & R1 & R2 & R3). exists (vs :: rows).
    split; [cbn [concat]; now rewrite R1|]. split; [cbn; now rewrite R2|].
    intros [|i] Hi; cbn [nth].
    + cbn [sweeps]. unfold after. cbn [firstn fold_left]. fold xb'. rewrite EI. reflexivity.
    + cbn [length] in Hi. rewrite R3 by lia. rewrite S1, sweeps_shift. reflexivity.
Qed.

Lemma reshape_concat : forall (rows : list (list R)) c, (forall i, (i < length rows)%nat -> length (nth i rows []) = c) ->
  reshape (concat rows) (length rows) c = rows.
Proof.
  intros rows c. induction rows as [|r rows IH]; intros H; [reflexivity|]. cbn [length reshape concat].
  assert (Hr : length r = c) by (apply (H 0%nat); cbn; lia).
  rewrite firstn_app, <- Hr, Nat.sub_diag, firstn_O, app_nil_r, firstn_all. f_equal.
  rewrite skipn_app, Nat.sub_diag, skipn_all. cbn [skipn app]. rewrite Hr. apply IH.
  intros i Hi. apply (H (S i)). cbn. lia.
Qed.

Lemma length_concat_rect : forall (f : list (list R)) n c, shape2 f n c -> length (concat f) = (n * c)%nat.
Proof.
  intros f n c [Hn Hr]. subst n. unfold rect in Hr. induction f as [|r f IH]; [reflexivity|]. cbn [concat length].
  rewrite app_length, IH by (intros i Hi; apply (Hr (S i)); cbn; lia). pose proof (Hr 0%nat ltac:(cbn; lia)) as H0. cbn [nth] in H0. rewrite H0. cbn. lia.
Qed.

Lemma nth_concat_rect : forall (f : list (list R)) n c i j, shape2 f n c -> (i < n)%nat -> (j < c)%nat ->
  nth (j + c * i) (concat f) 0 = cell f i j.
Proof.
  intros f n c i j [Hn Hr] Hi Hj. subst n. unfold rect in Hr. revert i Hi. induction f as [|r f IH]; intros i Hi; [cbn in Hi; lia|].
  assert (L0 : length r = c) by (apply (Hr 0%nat); cbn; lia).
  cbn [concat]. destruct i as [|i].
  - rewrite app_nth1 by lia. unfold cell. cbn [nth]. f_equal. lia.
  - rewrite app_nth2 by lia. rewrite L0. replace (j + c * S i - c)%nat with (j + c * i)%nat by lia.
    rewrite IH; [reflexivity| |cbn in Hi; lia]. intros k Hk. apply (Hr (S k)). cbn. lia.
Qed.

Lemma read_in : forall f1 oob p, (0 <= p < Z.of_nat (length f1))%Z -> read f1 oob p = nth (Z.to_nat p) f1 0.
Proof.
  intros f1 oob p H. unfold read.
  replace (0 <=? p)%Z with true by (symmetry; apply Z.leb_le; lia).
  replace (p <? Z.of_nat (length f1))%Z with true by (symmetry; apply Z.ltb_lt; lia). reflexivity.
Qed.

(** ** From the axis record to the specification *)

Definition ax_of (o1 len1 : R) (n1 : nat) (o2 len2 : R) (n2 : nat) : axis :=
  Axis o1 (o1 + len1) (Z.of_nat n1) o2 (o2 + len2) (Z.of_nat n2).

Section AxisSpec.
Variables (o1 len1 : R) (n1 : nat) (o2 len2 : R) (n2 : nat).
Hypothesis Hl1 : 0 < len1.
Hypothesis Hl2 : 0 < len2.
Hypothesis Hn1 : (1 <= n1)%nat.
Hypothesis Hn2 : (1 <= n2)%nat.
Notation a := (ax_of o1 len1 n1 o2 len2 n2).

Lemma ax_dx1 : dx1 a = len1 / INR n1.
Proof. unfold dx1. cbn [x1min x1max grid1 ax_of]. rewrite INR_IZR_INZ. f_equal. ring. Qed.
Lemma ax_dx2 : dx2 a = len2 / INR n2.
Proof. unfold dx2. cbn [x2min x2max grid2 ax_of]. rewrite INR_IZR_INZ. f_equal. ring. Qed.
Lemma ax_p1 : 0 < dx1 a. Proof. rewrite ax_dx1. now apply width_pos. Qed.
Lemma ax_p2 : 0 < dx2 a. Proof. rewrite ax_dx2. now apply width_pos. Qed.
Lemma ax_e1 : forall i, e1 a (Z.of_nat i) = edge o1 len1 n1 i.
Proof. intros i. unfold e1, edge. rewrite ax_dx1, <- INR_IZR_INZ. cbn [x1min ax_of]. ring. Qed.
Lemma ax_e2 : forall i, e2 a (Z.of_nat i) = edge o2 len2 n2 i.
Proof. intros i. unfold e2, edge. rewrite ax_dx2, <- INR_IZR_INZ. cbn [x2min ax_of]. ring. Qed.

Lemma ax_F : forall k i, F a (Z.of_nat k) (Z.of_nat i) = frac o1 len1 n1 o2 len2 n2 k i.
Proof.
  intros k i. unfold F, ovz, frac.
  replace (Z.of_nat k + 1)%Z with (Z.of_nat (S k)) by (clear; lia). replace (Z.of_nat i + 1)%Z with (Z.of_nat (S i)) by (clear; lia).
  now rewrite !ax_e1, !ax_e2, ax_dx2.
Qed.

Lemma ax_bad : forall k, bad a (Z.of_nat k) <-> just_below o1 len1 n1 o2 len2 n2 k.
Proof.
  intros k. rewrite (bad_iff a ax_p1 ax_p2). unfold just_below.
  replace (Z.of_nat k + 1)%Z with (Z.of_nat (S k)) by lia. rewrite !ax_e2, ax_dx1. reflexivity.
Qed.

Lemma ax_grid : Z.to_nat (grid1 a) = n1. Proof. cbn. apply Nat2Z.id. Qed.

Lemma good_spec : forall k b, goodbuf a k b ->
  forall g, wsum g b = sum_upto n1 (fun i => frac o1 len1 n1 o2 len2 n2 k i * g (Z.of_nat i)).
Proof.
  intros k b [_ H] g. rewrite H, ax_grid. apply sum_ext. intros i Hi. now rewrite ax_F.
Qed.
End AxisSpec.

(** ** Three dimensions *)

Lemma inner3_spec : forall ay az L f1 oob xb yb cells zb,
  snd (remap_3d_inner ay az L f1 oob xb yb cells zb) = after az L cells zb /\
  length (fst (remap_3d_inner ay az L f1 oob xb yb cells zb)) = length cells /\
  forall t, (t < length cells)%nat -> nth t (fst (remap_3d_inner ay az L f1 oob xb yb cells zb)) 0
    = accumulate f1 oob (entries_3d (grid1 ay) (grid1 az) xb yb (after az L (firstn (S t) cells) zb)).
Proof.
  intros ay az L f1 oob xb yb cells. induction cells as [|j cells IH]; intros zb.
  - cbn. split; [reflexivity|]. split; [reflexivity|]. intros t Ht. lia.
  - cbn [remap_3d_inner]. specialize (IH (remap_1d_grid2grid_pixel az (Z.of_nat j) L zb)).
    destruct (remap_3d_inner ay az L f1 oob xb yb cells _) as [vs zb'']. cbn [fst snd] in *.
    destruct IH as (I1 & I2 & I3). split; [exact I1|]. split; [cbn; now rewrite I2|].
    intros [|t] Ht; [reflexivity|]. cbn [nth]. cbn [length] in Ht. rewrite I3 by lia. reflexivity.
Qed.

Lemma middle3_spec : forall ay az Ly Lz f1 oob xb cells yb zb,
  exists rows, remap_3d_middle ay az Ly Lz f1 oob xb cells yb zb
      = (concat rows, after ay Ly cells yb, sweeps az Lz (length cells) zb) /\
    length rows = length cells /\
    forall j, (j < length cells)%nat -> nth j rows []
      = fst (remap_3d_inner ay az Lz f1 oob xb (after ay Ly (firstn (S j) cells) yb) (seq 0 (Z.to_nat (grid2 az))) (sweeps az Lz j zb)).
Proof.
  intros ay az Ly Lz f1 oob xb cells. induction cells as [|c cells IH]; intros yb zb.
  - exists []. split; [reflexivity|]. split; [reflexivity|]. intros i Hi. cbn in Hi. lia.
  - cbn [remap_3d_middle]. set (yb' := remap_1d_grid2grid_pixel ay (Z.of_nat c) Ly yb).
    destruct (inner3_spec ay az Lz f1 oob xb yb' (seq 0 (Z.to_nat (grid2 az))) zb) as (S1 & _ & _).
    destruct (remap_3d_inner ay az Lz f1 oob xb yb' (seq 0 (Z.to_nat (grid2 az))) zb) as [vs zb'] eqn:EI. cbn [snd] in S1.
    destruct (IH yb' zb') as (rows & R1 & R2 & R3). exists (vs :: rows). rewrite R1.
    split; [cbn [concat length]; rewrite S1, sweeps_shift; reflexivity|]. split; [cbn; now rewrite R2|].
    intros [|i] Hi; cbn [nth].
    + cbn [sweeps]. unfold after. cbn [firstn fold_left]. fold yb'. rewrite EI. reflexivity.
    + cbn [length] in Hi. rewrite R3 by lia. rewrite S1, sweeps_shift. reflexivity.
Qed.

Lemma sweeps_add : forall a L s t b, sweeps a L s (sweeps a L t b) = sweeps a L (s + t) b.
Proof. intros a L s t b. induction s as [|s IH]; [reflexivity|]. cbn [sweeps Nat.add]. now rewrite IH. Qed.

Lemma outer3_spec : forall ax ay az Lx Ly Lz f1 oob cells xb yb zb,
  exists slabs, remap_3d_outer ax ay az Lx Ly Lz f1 oob cells xb yb zb = concat slabs /\ length slabs = length cells /\
    forall i, (i < length cells)%nat -> nth i slabs []
      = fst (fst (remap_3d_middle ay az Ly Lz f1 oob (after ax Lx (firstn (S i) cells) xb)
               (seq 0 (Z.to_nat (grid2 ay))) (sweeps ay Ly i yb) (sweeps az Lz (Z.to_nat (grid2 ay) * i) zb))).
Proof.
  intros ax ay az Lx Ly Lz f1 oob cells. induction cells as [|c cells IH]; intros xb yb zb.
  - exists []. split; [reflexivity|]. split; [reflexivity|]. intros i Hi. cbn in Hi. lia.
  - cbn [remap_3d_outer]. set (xb' := remap_1d_grid2grid_pixel ax (Z.of_nat c) Lx xb).
    destruct (middle3_spec ay az Ly Lz f1 oob xb' (seq 0 (Z.to_nat (grid2 ay))) yb zb) as (rows & M1 & _ & _).
    rewrite seq_length in M1. rewrite M1.
    destruct (IH xb' (after ay Ly (seq 0 (Z.to_nat (grid2 ay))) yb) (sweeps az Lz (Z.to_nat (grid2 ay)) zb)) as (slabs & R1 & R2 & R3).
    exists (concat rows :: slabs).
    split; [cbn [concat]; now rewrite R1|]. split; [cbn; now rewrite R2|].
    intros [|i] Hi; cbn [nth].
    + rewrite Nat.mul_0_r. cbn [sweeps]. unfold after at 1. cbn [firstn fold_left]. fold xb'. rewrite M1. reflexivity.
    + cbn [length] in Hi. rewrite R3 by lia. rewrite sweeps_shift, sweeps_add.
      replace (Z.to_nat (grid2 ay) * S i)%nat with (Z.to_nat (grid2 ay) * i + Z.to_nat (grid2 ay))%nat by lia. reflexivity.
Qed.

(** ** Sides *)

Definition ax_sides (s1 s2 : side) : axis := ax_of (org s1) (ext s1) (cells s1) (org s2) (ext s2) (cells s2).

Section Sides.
Variables s1 s2 : side.
Hypothesis P1 : proper s1.
Hypothesis P2 : proper s2.
Notation a := (ax_sides s1 s2).
Notation L := (Z.to_nat (get_remap_pix_len a)).

Lemma side_d1 : 0 < dx1 a. Proof. apply ax_p1; apply P1. Qed.
Lemma side_d2 : 0 < dx2 a. Proof. apply ax_p2; apply P2. Qed.

Lemma side_bad : forall k, bad a (Z.of_nat k) <-> just_below (org s1) (ext s1) (cells s1) (org s2) (ext s2) (cells s2) k.
Proof. intros k. apply ax_bad; [apply P1|apply P2|apply P1|apply P2]. Qed.

Lemma side_good : forall k b, ~ just_below (org s1) (ext s1) (cells s1) (org s2) (ext s2) (cells s2) k ->
  goodbuf a k (remap_1d_grid2grid_pixel a (Z.of_nat k) L b).
Proof.
  intros k b H. apply pixel_good; [apply side_d1|apply side_d2|cbn; lia|]. rewrite side_bad. exact H.
Qed.

Lemma side_sweep : regular_start s1 s2 -> forall t b, goodbuf a t (after a L (seq 0 (S t)) b).
Proof.
  intros H t b. apply sweep_good; [apply side_d1|apply side_d2|cbn; lia|]. rewrite side_bad. exact H.
Qed.

Lemma side_wsum : forall k b, goodbuf a k b -> forall g,
  wsum g b = sum_upto (cells s1) (fun i => part s1 s2 k i * g (Z.of_nat i)).
Proof. intros k b H g. apply good_spec. exact H. Qed.

Lemma part_nonneg : forall k i, 0 <= part s1 s2 k i.
Proof. intros. apply frac_nonneg; apply P2. Qed.

Lemma part_sum_le1 : forall k, sum_upto (cells s1) (part s1 s2 k) <= 1.
Proof. intros. apply frac_sum_le1; [apply P1|apply P2|apply P1|apply P2]. Qed.

Lemma part_sum : covers s1 s2 -> forall k, (k < cells s2)%nat -> sum_upto (cells s1) (part s1 s2 k) = 1.
Proof. intros [C1 C2] k Hk. apply frac_sum_1; auto; [apply P1|apply P2|apply P1|apply P2]. Qed.

Lemma part_column : covers s2 s1 -> forall i, (i < cells s1)%nat ->
  sum_upto (cells s2) (fun k => part s1 s2 k i) * width s2 = width s1.
Proof. intros [C1 C2] k Hk. apply frac_column; auto; [apply P1|apply P2|apply P1|apply P2]. Qed.

Lemma width_side : 0 < width s2.
Proof. apply width_pos; apply P2. Qed.

Lemma covered_start : org s1 <= org s2 -> regular_start s1 s2.
Proof.
  intros H [_ B]. rewrite edge_S, edge_0 in B. pose proof width_side. unfold width in *. lra.
Qed.
End Sides.

Lemma part_same : forall s k i, proper s -> part s s k i = if (i =? k)%nat then 1 else 0.
Proof. intros s k i [H1 H2]. now apply frac_same. Qed.

Lemma weight_of_wsum : forall b i, weight_of b i = wsum (fun z => if (z =? Z.of_nat i)%Z then 1 else 0) b.
Proof.
  intros b i. unfold weight_of, wsum. induction b as [|[p w] b IH]; [reflexivity|].
  cbn [filter map fst snd]. rewrite Rsum_cons, <- IH. destruct (Z.eqb_spec p (Z.of_nat i)) as [->|Hne].
  - replace (Z.of_nat i =? -1)%Z with false by (symmetry; apply Z.eqb_neq; lia).
    cbn [map snd]. rewrite Rsum_cons. ring.
  - destruct (p =? -1)%Z; ring.
Qed.

(** ** Values *)

Lemma good_value1 : forall s1 s2 f1 oob k b, cells s1 = length f1 -> proper s1 -> proper s2 ->
  goodbuf (ax_sides s1 s2) k b -> accumulate f1 oob b = sum_upto (cells s1) (fun i => part s1 s2 k i * nth i f1 0).
Proof.
  intros s1 s2 f1 oob k b Hc P1 P2 G. rewrite accumulate_wsum, (side_wsum _ _ k b G).
  apply sum_ext. intros i Hi. rewrite read_in by lia. now rewrite Nat2Z.id.
Qed.

Lemma good_value2 : forall x1 y1 x2 y2 f1 oob k l xb yb, shape2 f1 (cells x1) (cells y1) ->
  goodbuf (ax_sides x1 x2) k xb -> goodbuf (ax_sides y1 y2) l yb ->
  accumulate (concat f1) oob (entries_2d (grid1 (ax_sides y1 y2)) xb yb) = average2 x1 y1 f1 x2 y2 k l.
Proof.
  intros x1 y1 x2 y2 f1 oob k l xb yb Hs Gx Gy. rewrite accumulate_wsum, wsum_2d; [|cbn; lia|apply Gx|apply Gy].
  rewrite (side_wsum _ _ k xb Gx). unfold average2. apply sum_ext. intros i Hi.
  rewrite (side_wsum _ _ l yb Gy). rewrite <- sum_scal. apply sum_ext. intros j Hj.
  pose proof (length_concat_rect _ _ _ Hs) as HL. cbn [ax_sides ax_of grid1].
  replace (Z.of_nat j + Z.of_nat (cells y1) * Z.of_nat i)%Z with (Z.of_nat (j + cells y1 * i)) by lia.
  rewrite read_in by nia. rewrite Nat2Z.id, (nth_concat_rect f1 (cells x1)) by assumption. ring.
Qed.

Lemma nth_concat3 : forall f n c d i j k, shape3 f n c d -> (i < n)%nat -> (j < c)%nat -> (k < d)%nat ->
  nth (k + d * (j + c * i)) (concat (concat f)) 0 = cell3 f i j k.
Proof.
  intros f n c d i j k [Hn Hs] Hi Hj Hk. subst n. revert i Hi. induction f as [|p f IH]; intros i Hi; [cbn in Hi; lia|].
  assert (S0 : shape2 p c d) by (apply (Hs 0%nat); cbn; lia).
  cbn [concat]. rewrite concat_app. pose proof (length_concat_rect p c d S0) as LP.
  destruct i as [|i].
  - rewrite app_nth1 by nia. replace (k + d * (j + c * 0))%nat with (k + d * j)%nat by nia.
    rewrite (nth_concat_rect p c d j k) by assumption. reflexivity.
  - rewrite app_nth2 by nia. rewrite LP. replace (k + d * (j + c * S i) - c * d)%nat with (k + d * (j + c * i))%nat by nia.
    rewrite IH; [reflexivity| |cbn in Hi; lia]. intros q Hq. apply (Hs (S q)). cbn. lia.
Qed.

Lemma length_concat3 : forall f n c d, shape3 f n c d -> length (concat (concat f)) = (n * (c * d))%nat.
Proof.
  intros f n c d [Hn Hs]. subst n. induction f as [|p f IH]; [reflexivity|].
  cbn [concat length]. rewrite concat_app, app_length, IH by (intros q Hq; apply (Hs (S q)); cbn; lia).
  rewrite (length_concat_rect p c d) by (apply (Hs 0%nat); cbn; lia). lia.
Qed.

Lemma good_value3 : forall x1 y1 z1 x2 y2 z2 f1 oob k l m xb yb zb, shape3 f1 (cells x1) (cells y1) (cells z1) ->
  goodbuf (ax_sides x1 x2) k xb -> goodbuf (ax_sides y1 y2) l yb -> goodbuf (ax_sides z1 z2) m zb ->
  accumulate (concat (concat f1)) oob (entries_3d (grid1 (ax_sides y1 y2)) (grid1 (ax_sides z1 z2)) xb yb zb)
  = average3 x1 y1 z1 f1 x2 y2 z2 k l m.
Proof.
  intros x1 y1 z1 x2 y2 z2 f1 oob k l m xb yb zb Hs Gx Gy Gz.
  rewrite accumulate_wsum, entries_3d_alt; [|cbn; lia|cbn; lia|apply Gx|apply Gy|apply Gz].
  rewrite (side_wsum _ _ k xb Gx). unfold average3. apply sum_ext. intros i Hi.
  rewrite (side_wsum _ _ l yb Gy). rewrite <- sum_scal. apply sum_ext. intros j Hj.
  rewrite (side_wsum _ _ m zb Gz). rewrite <- !sum_scal. apply sum_ext. intros h Hh.
  pose proof (length_concat3 _ _ _ _ Hs) as HL. cbn [ax_sides ax_of grid1].
  replace (Z.of_nat h + Z.of_nat (cells z1) * (Z.of_nat j + Z.of_nat (cells y1) * Z.of_nat i))%Z
    with (Z.of_nat (h + cells z1 * (j + cells y1 * i))) by lia.
  rewrite read_in. 2: { rewrite HL. clear - Hi Hj Hh. assert (j + cells y1 * i < cells x1 * cells y1)%nat by nia. nia. }
  rewrite Nat2Z.id, (nth_concat3 f1 (cells x1) (cells y1) (cells z1)) by assumption. ring.
Qed.
