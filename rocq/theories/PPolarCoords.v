(** * [rotate_polar] and [rotate_polar_grid] *)

From Coq Require Import Reals ZArith List Bool Lra Lia Psatz.
From Flocq Require Import Core.Raux.
From Verif Require Import Base BaseP SpecGrid MPolarCoords PHealpixCentre.
Import ListNotations.
Open Scope R_scope.

Lemma py_get_ok : forall A (l : list A) k d, (0 <= k < Z.of_nat (length l))%Z ->
  py_get l k = Ok (nth (Z.to_nat k) l d).
Proof.
  intros A l k d H. unfold py_get. replace (k <? 0)%Z with false by (symmetry; apply Z.ltb_ge; lia).
  replace (k <? 0)%Z with false by (symmetry; apply Z.ltb_ge; lia).
  rewrite (nth_error_nth' l d) by lia. reflexivity.
Qed.

Lemma py_get_last : forall A (l : list A) d, (1 <= length l)%nat ->
  py_get l (-1) = Ok (nth (length l - 1) l d).
Proof.
  intros A l d H. unfold py_get. replace (-1 <? 0)%Z with true by reflexivity.
  replace (-1 + Z.of_nat (length l) <? 0)%Z with false by (symmetry; apply Z.ltb_ge; lia).
  replace (Z.to_nat (-1 + Z.of_nat (length l))) with (length l - 1)%nat by lia.
  rewrite (nth_error_nth' l d) by lia. reflexivity.
Qed.

Lemma py_set_last : forall A (l : list A) v, (1 <= length l)%nat ->
  py_set l (-1) v = Ok (set_nth l (length l - 1) v).
Proof.
  intros A l v H. unfold py_set. replace (-1 <? 0)%Z with true by reflexivity.
  replace (-1 + Z.of_nat (length l) <? 0)%Z with false by (symmetry; apply Z.ltb_ge; lia).
  replace (Z.of_nat (length l) <=? -1 + Z.of_nat (length l))%Z with false
    by (symmetry; apply Z.leb_gt; lia).
  replace (Z.to_nat (-1 + Z.of_nat (length l))) with (length l - 1)%nat by lia. reflexivity.
Qed.

Lemma slice_pos_neg : forall A (l : list A) k, (1 <= k)%Z ->
  slice_pos l (- k) = (length l - Z.to_nat k)%nat.
Proof.
  intros A l k H. unfold slice_pos. replace (- k <? 0)%Z with true by (symmetry; apply Z.ltb_lt; lia).
  lia.
Qed.

Lemma slice_pos_nn : forall A (l : list A) k, (0 <= k)%Z -> slice_pos l k = Z.to_nat k.
Proof.
  intros A l k H. unfold slice_pos. replace (k <? 0)%Z with false by (symmetry; apply Z.ltb_ge; lia).
  reflexivity.
Qed.

Lemma slice_pos_m1 : forall A (l : list A), slice_pos l (-1) = (length l - 1)%nat.
Proof. intros A l. exact (slice_pos_neg A l 1 ltac:(lia)). Qed.

(** The row roll of lines 52-54. *)
Lemma roll_rows : forall (z f : list (list R)) m, length z = length f -> (1 <= m <= length f)%nat ->
  let r := set_from z (- Z.of_nat m) (slice_to f (Z.of_nat m)) in
  set_to r (- Z.of_nat m) (slice_from f (Z.of_nat m)) = skipn m f ++ firstn m f.
Proof.
  intros z f m HL Hm r. unfold r, set_from, slice_to, slice_from, set_to.
  rewrite !slice_pos_neg by lia. rewrite !slice_pos_nn by lia. rewrite !Nat2Z.id.
  rewrite app_length, !firstn_length. f_equal.
  rewrite skipn_app. rewrite firstn_length.
  rewrite skipn_all2 by (rewrite firstn_length; lia). cbn [app].
  replace (Nat.min (length z - m) (length z) + Nat.min m (length f) - m
           - Nat.min (length z - m) (length z))%nat with 0%nat by lia.
  reflexivity.
Qed.

Lemma roll_rows_over : forall (z f : list (list R)) m, length z = length f -> (length f < m)%nat ->
  let r := set_from z (- Z.of_nat m) (slice_to f (Z.of_nat m)) in
  set_to r (- Z.of_nat m) (slice_from f (Z.of_nat m)) = f.
Proof.
  intros z f m HL Hm r. unfold r, set_from, slice_to, slice_from, set_to.
  rewrite !slice_pos_neg by lia. rewrite !slice_pos_nn by lia. rewrite !Nat2Z.id.
  rewrite (firstn_all2 f) by lia. rewrite (skipn_all2 f) by lia.
  replace (length z - m)%nat with 0%nat by lia. cbn [firstn app].
  replace (length f - m)%nat with 0%nat by lia. reflexivity.
Qed.

Lemma nth_skipn : forall A k (l : list A) i d, nth i (skipn k l) d = nth (k + i) l d.
Proof.
  induction k as [|k IH]; intros [|a l] i d; try reflexivity.
  - now destruct i.
  - cbn. apply IH.
Qed.

Lemma nth_firstn : forall A k (l : list A) i d, (i < k)%nat -> nth i (firstn k l) d = nth i l d.
Proof.
  induction k as [|k IH]; intros [|a l] i d H; try lia; try reflexivity.
  destruct i; [reflexivity|]. cbn. apply IH. lia.
Qed.

Lemma nth_roll : forall (f : list (list R)) m i, (m <= length f)%nat -> (i < length f)%nat ->
  nth i (skipn m f ++ firstn m f) [] = nth ((i + m) mod length f) f [].
Proof.
  intros f m i Hm Hi.
  destruct (Nat.lt_ge_cases (i + m) (length f)) as [H|H].
  - rewrite app_nth1 by (rewrite skipn_length; lia). rewrite nth_skipn.
    rewrite Nat.mod_small by lia. f_equal. lia.
  - rewrite app_nth2 by (rewrite skipn_length; lia). rewrite skipn_length.
    rewrite nth_firstn by lia.
    replace (i + m)%nat with ((i + m - length f) + 1 * length f)%nat by lia.
    rewrite Nat.mod_add by lia. rewrite Nat.mod_small by lia. f_equal. lia.
Qed.

(** Mixing of consecutive rows, lines 57-62. *)
Definition mixed (w : R) (rot : list (list R)) : list (list R) :=
  set_to rot (-1) (map2 (row_mix w) (slice_to rot (-1)) (slice_from rot 1)).

Lemma mixed_length : forall w rot, (1 <= length rot)%nat -> length (mixed w rot) = length rot.
Proof.
  intros w rot H. unfold mixed, set_to, slice_to, slice_from.
  rewrite (slice_pos_m1 _ rot), (slice_pos_nn _ rot 1) by lia.
  rewrite app_length, map2_length, firstn_length, !skipn_length. change (Z.to_nat 1) with 1%nat. lia.
Qed.

Lemma mixed_last : forall w rot, (1 <= length rot)%nat ->
  nth (length rot - 1) (mixed w rot) [] = nth (length rot - 1) rot [].
Proof.
  intros w rot H. unfold mixed, set_to, slice_to, slice_from.
  rewrite (slice_pos_m1 _ rot), (slice_pos_nn _ rot 1) by lia. change (Z.to_nat 1) with 1%nat.
  rewrite app_nth2; rewrite map2_length, firstn_length, skipn_length; [|lia].
  rewrite nth_skipn. f_equal. lia.
Qed.

Lemma mixed_nth : forall w rot i, (S i < length rot)%nat ->
  nth i (mixed w rot) [] = row_mix w (nth i rot []) (nth (S i) rot []).
Proof.
  intros w rot i H. unfold mixed, set_to, slice_to, slice_from.
  rewrite (slice_pos_m1 _ rot), (slice_pos_nn _ rot 1) by lia. change (Z.to_nat 1) with 1%nat.
  rewrite app_nth1; [|rewrite map2_length, firstn_length, skipn_length; lia].
  rewrite (nth_map2 _ _ _ _ _ _ i [] [] []); [|rewrite firstn_length; lia|rewrite skipn_length; lia].
  rewrite nth_firstn by lia. now rewrite nth_skipn.
Qed.

Lemma row_mix_nth : forall w a b j, (j < length a)%nat -> (j < length b)%nat ->
  nth j (row_mix w a b) 0 = w * nth j a 0 + (1 - w) * nth j b 0.
Proof. intros. unfold row_mix. now rewrite (nth_map2 _ _ _ _ _ _ j 0 0 0). Qed.

Section Grid.
Variables (pedges : list R) (f : list (list R)) (phi_shift : R) (m c : nat) (w : R).
Hypothesis Hpe : (2 <= length pedges)%nat.
Hypothesis Hn : (2 <= length f)%nat.
Hypothesis Hc : forall i, (i < length f)%nat -> length (nth i f []) = c.
Hypothesis Hshift : 0 < phi_shift < 2 * PI.
Let dp := nth 1 pedges 0 - nth 0 pedges 0.
Hypothesis Hdp : 0 < dp.
Hypothesis Hw : 0 <= w < 1.
Hypothesis Hm : phi_shift = (INR m + w) * dp.

(** Row [i] of the rolled grid comes from row [src i]. *)
Definition roll_src (i : nat) : nat :=
  if (m <=? length f)%nat then ((i + m) mod length f)%nat else i.

Definition rolled : list (list R) :=
  if (m =? 0)%nat then f else if (m <=? length f)%nat then skipn m f ++ firstn m f else f.

Lemma rolled_length : length rolled = length f.
Proof.
  unfold rolled. destruct (m =? 0)%nat; [reflexivity|].
  destruct (Nat.leb_spec m (length f)); [|reflexivity].
  rewrite app_length, skipn_length, firstn_length. lia.
Qed.

Lemma rolled_nth : forall i, (i < length f)%nat -> nth i rolled [] = nth (roll_src i) f [].
Proof.
  intros i Hi. unfold rolled, roll_src. destruct (Nat.eqb_spec m 0) as [->|Hm0].
  - cbn [Nat.leb]. rewrite Nat.add_0_r, Nat.mod_small by lia. reflexivity.
  - destruct (Nat.leb_spec m (length f)); [|reflexivity]. apply nth_roll; lia.
Qed.

Lemma roll_src_lt : forall i, (i < length f)%nat -> (roll_src i < length f)%nat.
Proof.
  intros i Hi. unfold roll_src. destruct (m <=? length f)%nat; [|exact Hi].
  apply Nat.mod_upper_bound. lia.
Qed.

Lemma floor_shift : Zfloor (phi_shift / dp) = Z.of_nat m.
Proof.
  apply Zfloor_unique. rewrite Hm. replace ((INR m + w) * dp / dp) with (INR m + w) by (field; lra).
  rewrite <- INR_IZR_INZ. lra.
Qed.

Definition final_last : list R :=
  let x := nth (length f - 1) (mixed w rolled) [] in
  if Req_bool (nth (length pedges - 1) pedges 0 - nth 0 pedges 0) (2 * PI)
  then row_mix w x (nth 0 (mixed w rolled) []) else map (fun v => v * w) x.

Lemma grid_run : rotate_polar_grid pedges f phi_shift =
  let out := set_nth (mixed w rolled) (length f - 1) final_last in
  Ok (out, if (m =? 0)%nat then out else f).
Proof.
  unfold rotate_polar_grid, py_assert. rewrite !Rlt_bool_t by lra.
  rewrite (py_get_ok _ pedges 1 0) by lia. rewrite (py_get_ok _ pedges 0 0) by lia.
  change (Z.to_nat 1) with 1%nat. change (Z.to_nat 0) with 0%nat. cbn [bind]. fold dp.
  replace (Req_bool dp 0) with false by (symmetry; apply Req_bool_false; lra).
  rewrite floor_shift. rewrite <- INR_IZR_INZ.
  replace (phi_shift / dp - INR m) with w by (rewrite Hm; field; lra).
  set (rot := if (Z.of_nat m =? 0)%Z then f else _).
  assert (Er : rot = rolled).
  { unfold rot, rolled. destruct (Z.eqb_spec (Z.of_nat m) 0) as [E|E].
    - replace (m =? 0)%nat with true by (symmetry; apply Nat.eqb_eq; lia). reflexivity.
    - replace (m =? 0)%nat with false by (symmetry; apply Nat.eqb_neq; lia).
      destruct (Nat.leb_spec m (length f)).
      + apply roll_rows; [now rewrite map_length|lia].
      + apply roll_rows_over; [now rewrite map_length|lia]. }
  rewrite Er. clear rot Er. fold (mixed w rolled).
  pose proof rolled_length as LR. pose proof (mixed_length w rolled) as LM.
  rewrite LR in LM. specialize (LM ltac:(lia)).
  rewrite (py_get_last _ pedges 0) by lia. cbn [bind].
  rewrite (py_get_last _ (mixed w rolled) []) by lia. cbn [bind].
  rewrite (py_get_ok _ (mixed w rolled) 0 []) by lia. cbn [bind].
  rewrite !py_set_last by lia. rewrite LM. change (Z.to_nat 0) with 0%nat.
  assert (Ez : (Z.of_nat m =? 0)%Z = (m =? 0)%nat).
  { destruct (Z.eqb_spec (Z.of_nat m) 0); destruct (Nat.eqb_spec m 0); lia || reflexivity. }
  rewrite Ez. unfold final_last.
  destruct (Req_bool (nth (length pedges - 1) pedges 0 - nth 0 pedges 0) (2 * PI)); reflexivity.
Qed.

Lemma rolled_row_len : forall i, (i < length f)%nat -> length (nth i rolled []) = c.
Proof. intros i Hi. rewrite rolled_nth by exact Hi. apply Hc, roll_src_lt, Hi. Qed.

Lemma grid_spec : exists out caller,
  rotate_polar_grid pedges f phi_shift = Ok (out, caller) /\
  length out = length f /\
  (forall i j, (S i < length f)%nat -> (j < c)%nat ->
     cell out i j = w * cell f (roll_src i) j + (1 - w) * cell f (roll_src (S i)) j) /\
  (forall j, (j < c)%nat ->
     cell out (length f - 1) j =
     w * cell f (roll_src (length f - 1)) j +
     (if Req_bool (nth (length pedges - 1) pedges 0 - nth 0 pedges 0) (2 * PI)
      then (1 - w) * cell out 0 j else 0)) /\
  caller = (if (m =? 0)%nat then out else f).
Proof.
  rewrite grid_run. cbv zeta.
  set (out := set_nth (mixed w rolled) (length f - 1) final_last).
  pose proof rolled_length as LR. pose proof (mixed_length w rolled) as LM.
  rewrite LR in LM. specialize (LM ltac:(lia)).
  assert (Hrow : forall i, (S i < length f)%nat ->
            nth i out [] = row_mix w (nth i rolled []) (nth (S i) rolled [])).
  { intros i Hi. unfold out. rewrite nth_set_nth.
    replace (i =? length f - 1)%nat with false by (symmetry; apply Nat.eqb_neq; lia).
    cbn [andb]. apply mixed_nth. rewrite LR. lia. }
  exists out, (if (m =? 0)%nat then out else f). split; [reflexivity|].
  split; [unfold out; rewrite length_set_nth; exact LM|]. split; [|split; [|reflexivity]].
  - intros i j Hi Hj. unfold cell. rewrite Hrow by exact Hi.
    rewrite row_mix_nth by (rewrite rolled_row_len; lia).
    now rewrite !rolled_nth by lia.
  - intros j Hj. unfold cell at 1. unfold out at 1. rewrite nth_set_nth, LM, Nat.eqb_refl.
    replace (length f - 1 <? length f)%nat with true by (symmetry; apply Nat.ltb_lt; lia).
    cbn [andb]. unfold final_last.
    pose proof (mixed_last w rolled) as ML. rewrite LR in ML. specialize (ML ltac:(lia)). rewrite ML.
    assert (Hl : length (nth (length f - 1) rolled []) = c) by (apply rolled_row_len; lia).
    destruct (Req_bool (nth (length pedges - 1) pedges 0 - nth 0 pedges 0) (2 * PI)).
    + rewrite row_mix_nth.
      * rewrite rolled_nth by lia. f_equal. f_equal. unfold cell. rewrite Hrow by lia.
        rewrite mixed_nth by lia. reflexivity.
      * lia.
      * rewrite mixed_nth by lia. unfold row_mix. rewrite map2_length, !rolled_row_len by lia. lia.
    + rewrite (nth_map_lt _ _ _ _ j 0 0) by lia. rewrite rolled_nth by lia. unfold cell. ring.
Qed.
End Grid.
