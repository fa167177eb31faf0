(** * Grid resampling: the wrappers *)

From Coq Require Import Reals ZArith List Bool Lra Lia Psatz.
From Flocq Require Import Core.Raux.
From Verif Require Import Base BaseP SpecGrid SpecRemap MGrids MRemap PGrids PRadial POneD PRemap PRemap2.
Import ListNotations.
Open Scope R_scope.

Lemma two_ok : forall A (x : arg A) a b, pair_arg x a b -> two x = Ok (a, b).
Proof. intros A x a b [[-> ->]|[r ->]]; reflexivity. Qed.

Lemma three_ok : forall A (x : arg A) a b c, triple_arg x a b c -> three x = Ok (a, b, c).
Proof. intros A x a b c [(-> & -> & ->)|[r ->]]; reflexivity. Qed.

Definition side1 (o len : R) (f : list R) : side := Side o len (length f).

Lemma proper1 : forall o len f, 0 < len -> f <> [] -> proper (side1 o len f).
Proof. intros o len f H Hf. split; [exact H|]. cbn. destruct f; [congruence|cbn; lia]. Qed.

Definition out1 (oob : Z -> R) (mem : memory) (s1 s2 : side) (f1 : list R) : list R :=
  let a := ax_sides s1 s2 in
  remap_1d_loop a (Z.to_nat (get_remap_pix_len a)) f1 oob (seq 0 (cells s2)) (mem (Z.to_nat (get_remap_pix_len a))).

Lemma grid1D_ok : forall oob mem f1 box n o oout boxout,
  grid2grid1D oob mem f1 box (Z.of_nat n) o oout (Some boxout)
  = Ok (out1 oob mem (side1 o box f1) (Side oout boxout n) f1).
Proof. intros. unfold grid2grid1D, remap_1d_grid2grid, out1, ax_sides, ax_of, side1. cbn [grid2 org ext cells]. now rewrite Nat2Z.id. Qed.

Lemma out1_length : forall oob mem s1 s2 f1, length (out1 oob mem s1 s2 f1) = cells s2.
Proof. intros. unfold out1. rewrite length_loop1. apply seq_length. Qed.

Lemma out1_nth : forall oob mem s1 s2 f1 k, (k < cells s2)%nat ->
  nth k (out1 oob mem s1 s2 f1) 0
  = accumulate f1 oob (after (ax_sides s1 s2) (Z.to_nat (get_remap_pix_len (ax_sides s1 s2))) (seq 0 (S k))
                        (mem (Z.to_nat (get_remap_pix_len (ax_sides s1 s2))))).
Proof.
  intros. unfold out1. rewrite nth_loop1 by (rewrite seq_length; lia). now rewrite firstn_seq by lia.
Qed.

Lemma out1_value : forall oob mem s1 s2 f1 k, cells s1 = length f1 -> proper s1 -> proper s2 -> (k < cells s2)%nat ->
  regular_start s1 s2 \/ ~ just_below (org s1) (ext s1) (cells s1) (org s2) (ext s2) (cells s2) k ->
  nth k (out1 oob mem s1 s2 f1) 0 = sum_upto (cells s1) (fun i => part s1 s2 k i * nth i f1 0).
Proof.
  intros oob mem s1 s2 f1 k Hc P1 P2 Hk H. rewrite out1_nth by exact Hk. apply good_value1; auto.
  destruct H as [H|H]; [now apply side_sweep|]. rewrite after_last. now apply side_good.
Qed.

Lemma out1_bad : forall oob mem s1 s2 f1 k, proper s1 -> proper s2 -> (k < cells s2)%nat ->
  just_below (org s1) (ext s1) (cells s1) (org s2) (ext s2) (cells s2) 0 ->
  just_below (org s1) (ext s1) (cells s1) (org s2) (ext s2) (cells s2) k ->
  nth k (out1 oob mem s1 s2 f1) 0 = accumulate f1 oob (mem (Z.to_nat (get_remap_pix_len (ax_sides s1 s2)))).
Proof.
  intros oob mem s1 s2 f1 k P1 P2 Hk B0 Bk. rewrite out1_nth by exact Hk. f_equal. apply sweep_bad.
  intros j Hj. apply (bad_mono _ (side_d1 s1 s2 P1) (side_d2 s1 s2 P2) j k Hj); now apply side_bad.
Qed.

(** ** Weighted sums *)

Lemma combo_bounds : forall n (w f : nat -> R) lo hi, (forall i, (i < n)%nat -> 0 <= w i) ->
  (forall i, (i < n)%nat -> lo <= f i <= hi) -> sum_upto n w = 1 -> lo <= sum_upto n (fun i => w i * f i) <= hi.
Proof.
  intros n w f lo hi Hw Hf H1.
  assert (E : forall c, sum_upto n (fun i => w i * c) = c) by (intros c; rewrite sum_scal_r, H1; ring).
  split.
  - rewrite <- (E lo). apply sum_le. intros i Hi. apply Rmult_le_compat_l; [now apply Hw|apply Hf, Hi].
  - rewrite <- (E hi). apply sum_le. intros i Hi. apply Rmult_le_compat_l; [now apply Hw|apply Hf, Hi].
Qed.

Lemma conserve1 : forall s1 s2 (f : nat -> R), proper s1 -> proper s2 -> covers s2 s1 ->
  sum_upto (cells s2) (fun k => sum_upto (cells s1) (fun i => part s1 s2 k i * f i)) * width s2
  = sum_upto (cells s1) f * width s1.
Proof.
  intros s1 s2 f P1 P2 C. rewrite sum_swap. rewrite <- !sum_scal_r. apply sum_ext. intros i Hi.
  rewrite sum_scal_r. rewrite <- (part_column s1 s2 P1 P2 C i Hi). ring.
Qed.

Lemma average2_nested : forall x1 y1 f x2 y2 k l, average2 x1 y1 f x2 y2 k l
  = sum_upto (cells x1) (fun i => part x1 x2 k i * sum_upto (cells y1) (fun j => part y1 y2 l j * cell f i j)).
Proof.
  intros. unfold average2. apply sum_ext. intros i Hi. rewrite <- sum_scal. apply sum_ext. intros j Hj. ring.
Qed.

Lemma average3_nested : forall x1 y1 z1 f x2 y2 z2 k l m, average3 x1 y1 z1 f x2 y2 z2 k l m
  = sum_upto (cells x1) (fun i => part x1 x2 k i * sum_upto (cells y1) (fun j => part y1 y2 l j *
      sum_upto (cells z1) (fun h => part z1 z2 m h * cell3 f i j h))).
Proof.
  intros. unfold average3. apply sum_ext. intros i Hi. rewrite <- sum_scal. apply sum_ext. intros j Hj.
  rewrite <- !sum_scal. apply sum_ext. intros h Hh. ring.
Qed.

Lemma conserve2 : forall x1 y1 x2 y2 f, proper x1 -> proper y1 -> proper x2 -> proper y2 -> covers x2 x1 -> covers y2 y1 ->
  sum_upto (cells x2) (fun k => sum_upto (cells y2) (fun l => average2 x1 y1 f x2 y2 k l)) * (width x2 * width y2)
  = sum_upto (cells x1) (fun i => sum_upto (cells y1) (fun j => cell f i j)) * (width x1 * width y1).
Proof.
  intros x1 y1 x2 y2 f P1 Q1 P2 Q2 Cx Cy.
  transitivity (sum_upto (cells x2) (fun k => sum_upto (cells x1) (fun i => part x1 x2 k i *
     (sum_upto (cells y1) (fun j => cell f i j) * width y1))) * width x2).
  - rewrite <- Rmult_assoc, (Rmult_comm _ (width x2)), Rmult_assoc, (Rmult_comm (width x2)). f_equal.
    rewrite <- sum_scal_r. apply sum_ext. intros k Hk.
    rewrite (sum_ext _ _ (fun l => sum_upto (cells x1) (fun i => part x1 x2 k i * sum_upto (cells y1) (fun j => part y1 y2 l j * cell f i j))))
      by (intros; apply average2_nested).
    rewrite sum_swap, <- sum_scal_r. apply sum_ext. intros i Hi. rewrite sum_scal, Rmult_assoc. f_equal.
    now apply conserve1.
  - rewrite conserve1 by assumption. rewrite sum_scal_r. ring.
Qed.

Lemma conserve3 : forall x1 y1 z1 x2 y2 z2 f, proper x1 -> proper y1 -> proper z1 -> proper x2 -> proper y2 -> proper z2 ->
  covers x2 x1 -> covers y2 y1 -> covers z2 z1 ->
  sum_upto (cells x2) (fun k => sum_upto (cells y2) (fun l => sum_upto (cells z2) (fun m => average3 x1 y1 z1 f x2 y2 z2 k l m)))
    * (width x2 * width y2 * width z2)
  = sum_upto (cells x1) (fun i => sum_upto (cells y1) (fun j => sum_upto (cells z1) (fun h => cell3 f i j h)))
    * (width x1 * width y1 * width z1).
Proof.
  intros x1 y1 z1 x2 y2 z2 f P1 Q1 R1 P2 Q2 R2 Cx Cy Cz.
  transitivity (sum_upto (cells x2) (fun k => sum_upto (cells x1) (fun i => part x1 x2 k i *
     (sum_upto (cells y1) (fun j => sum_upto (cells z1) (fun h => cell3 f i j h)) * (width y1 * width z1)))) * width x2).
  - transitivity (sum_upto (cells x2) (fun k => sum_upto (cells y2) (fun l => sum_upto (cells z2) (fun m => average3 x1 y1 z1 f x2 y2 z2 k l m))
        * (width y2 * width z2)) * width x2); [rewrite sum_scal_r; ring|]. f_equal.
    apply sum_ext. intros k Hk.
    rewrite (sum_ext (cells y2) _ (fun l => sum_upto (cells x1) (fun i => part x1 x2 k i * sum_upto (cells z2) (fun m =>
       average2 y1 z1 (nth i f []) y2 z2 l m)))).
    + rewrite sum_swap, <- sum_scal_r. apply sum_ext. intros i Hi. rewrite sum_scal, Rmult_assoc. f_equal.
      rewrite conserve2 by assumption. reflexivity.
    + intros l Hl. rewrite (sum_ext (cells z2) _ (fun m => sum_upto (cells x1) (fun i => part x1 x2 k i * average2 y1 z1 (nth i f []) y2 z2 l m))).
      * rewrite sum_swap. apply sum_ext. intros i Hi. apply sum_scal.
      * intros m Hm. rewrite average3_nested. apply sum_ext. intros i Hi. f_equal. rewrite average2_nested. reflexivity.
  - rewrite conserve1 by assumption. rewrite sum_scal_r. ring.
Qed.

(** ** Two dimensions *)

Section Out2.
Variables (oob : Z -> R) (memx memy : memory) (x1 y1 x2 y2 : side) (f1 : list (list R)).
Hypothesis Hs : shape2 f1 (cells x1) (cells y1).
Hypothesis Px1 : proper x1.
Hypothesis Py1 : proper y1.
Hypothesis Px2 : proper x2.
Hypothesis Py2 : proper y2.
Notation ax := (ax_sides x1 x2).
Notation ay := (ax_sides y1 y2).
Notation Lx := (Z.to_nat (get_remap_pix_len ax)).
Notation Ly := (Z.to_nat (get_remap_pix_len ay)).

Definition out2 : list (list R) :=
  reshape (remap_2d_grid2grid ax ay Lx Ly (concat f1) oob (memx Lx) (memy Ly)) (cells x2) (cells y2).

Lemma out2_rows : length out2 = cells x2 /\ forall i, (i < cells x2)%nat -> nth i out2 []
      = fst (remap_2d_inner ay Ly (concat f1) oob (after ax Lx (seq 0 (S i)) (memx Lx)) (seq 0 (cells y2)) (sweeps ay Ly i (memy Ly))).
Proof.
  unfold out2, remap_2d_grid2grid.
  destruct (outer2_spec ax ay Lx Ly (concat f1) oob (seq 0 (Z.to_nat (grid2 ax))) (memx Lx) (memy Ly)) as (rows & E & HL & HR).
  change (grid2 ax) with (Z.of_nat (cells x2)) in *. change (grid2 ay) with (Z.of_nat (cells y2)) in *.
  rewrite Nat2Z.id in *. rewrite seq_length in *. rewrite E, <- HL, reshape_concat.
  - split; [reflexivity|]. intros i Hi. rewrite HR by lia. rewrite firstn_seq by lia. rewrite Nat2Z.id. reflexivity.
  - intros i Hi. rewrite HR by lia. rewrite Nat2Z.id. rewrite (proj1 (proj2 (inner2_spec _ _ _ _ _ _ _))). apply seq_length.
Qed.

Lemma out2_shape : shape2 out2 (cells x2) (cells y2).
Proof.
  destruct out2_rows as [L1 L2]. split; [exact L1|]. intros i Hi. rewrite L1 in Hi. rewrite L2 by exact Hi.
  rewrite (proj1 (proj2 (inner2_spec _ _ _ _ _ _ _))). apply seq_length.
Qed.

Lemma out2_cell : forall k l, (k < cells x2)%nat -> (l < cells y2)%nat -> cell out2 k l
  = accumulate (concat f1) oob (entries_2d (grid1 ay) (after ax Lx (seq 0 (S k)) (memx Lx))
      (after ay Ly (seq 0 (S l)) (sweeps ay Ly k (memy Ly)))).
Proof.
  intros k l Hk Hl. destruct out2_rows as [L1 L2]. unfold cell. rewrite L2 by exact Hk.
  rewrite (proj2 (proj2 (inner2_spec _ _ _ _ _ _ _))) by (rewrite seq_length; exact Hl).
  rewrite firstn_seq by exact Hl. reflexivity.
Qed.

Lemma out2_value : forall k l, (k < cells x2)%nat -> (l < cells y2)%nat ->
  regular_start x1 x2 \/ ~ just_below (org x1) (ext x1) (cells x1) (org x2) (ext x2) (cells x2) k ->
  regular_start y1 y2 \/ ~ just_below (org y1) (ext y1) (cells y1) (org y2) (ext y2) (cells y2) l ->
  cell out2 k l = average2 x1 y1 f1 x2 y2 k l.
Proof.
  intros k l Hk Hl Hx Hy. rewrite out2_cell by assumption. apply good_value2; [exact Hs| |].
  - destruct Hx as [H|H]; [now apply side_sweep|]. rewrite after_last. now apply side_good.
  - destruct Hy as [H|H]; [now apply side_sweep|]. rewrite after_last. now apply side_good.
Qed.

(** Later rows start with the [y] weights of the last cell of the row before. *)
Lemma out2_stale : forall k l, (1 <= k < cells x2)%nat -> (l < cells y2)%nat ->
  regular_start x1 x2 \/ ~ just_below (org x1) (ext x1) (cells x1) (org x2) (ext x2) (cells x2) k ->
  just_below (org y1) (ext y1) (cells y1) (org y2) (ext y2) (cells y2) 0 ->
  just_below (org y1) (ext y1) (cells y1) (org y2) (ext y2) (cells y2) l ->
  ~ just_below (org y1) (ext y1) (cells y1) (org y2) (ext y2) (cells y2) (cells y2 - 1) ->
  cell out2 k l = average2 x1 y1 f1 x2 y2 k (cells y2 - 1).
Proof.
  intros k l Hk Hl Hx B0 Bl Be. rewrite out2_cell by (try assumption; lia). apply good_value2; [exact Hs| |].
  - destruct Hx as [H|H]; [now apply side_sweep|]. rewrite after_last. now apply side_good.
  - rewrite sweep_bad.
    + destruct k as [|k]; [lia|]. cbn [sweeps]. change (grid2 ay) with (Z.of_nat (cells y2)). rewrite Nat2Z.id.
      replace (seq 0 (cells y2)) with (seq 0 (S (cells y2 - 1))) by (f_equal; destruct Py2; lia). rewrite after_last. now apply side_good.
    + intros j Hj. apply (bad_mono _ (side_d1 y1 y2 Py1) (side_d2 y1 y2 Py2) j l Hj); now apply side_bad.
Qed.
End Out2.

Lemma grid2D_ok : forall oob memx memy x1 y1 x2 y2 f1 boxsize ngridout origin originout boxsizeout,
  shape2 f1 (cells x1) (cells y1) -> proper x1 ->
  pair_arg boxsize (ext x1) (ext y1) -> pair_arg origin (org x1) (org y1) -> pair_arg originout (org x2) (org y2) ->
  pair_arg ngridout (Z.of_nat (cells x2)) (Z.of_nat (cells y2)) ->
  match boxsizeout with None => ext x2 = ext x1 /\ ext y2 = ext y1 | Some b => pair_arg b (ext x2) (ext y2) end ->
  grid2grid2D oob memx memy f1 boxsize ngridout origin originout boxsizeout = Ok (out2 oob memx memy x1 y1 x2 y2 f1).
Proof.
  intros oob memx memy x1 y1 x2 y2 f1 boxsize ngridout origin originout boxsizeout [S1 S2] [_ P] A B C D E.
  unfold grid2grid2D. rewrite (two_ok _ _ _ _ A), (two_ok _ _ _ _ B), (two_ok _ _ _ _ C), (two_ok _ _ _ _ D).
  assert (F : match boxsizeout with None => Ok (ext x1, ext y1) | Some b => two b end = Ok (ext x2, ext y2)).
  { destruct boxsizeout; [now apply two_ok|]. destruct E as [-> ->]. reflexivity. }
  cbn [bind]. rewrite F. cbn [bind]. rewrite S1, (S2 0%nat) by lia.
  unfold out2, ax_sides, ax_of. rewrite !Nat2Z.id. reflexivity.
Qed.

(** ** Three dimensions *)

Section Out3.
Variables (oob : Z -> R) (memx memy memz : memory) (x1 y1 z1 x2 y2 z2 : side) (f1 : list (list (list R))).
Hypothesis Hs : shape3 f1 (cells x1) (cells y1) (cells z1).
Hypothesis Px1 : proper x1.
Hypothesis Py1 : proper y1.
Hypothesis Pz1 : proper z1.
Hypothesis Px2 : proper x2.
Hypothesis Py2 : proper y2.
Hypothesis Pz2 : proper z2.
Notation ax := (ax_sides x1 x2).
Notation ay := (ax_sides y1 y2).
Notation az := (ax_sides z1 z2).
Notation Lx := (Z.to_nat (get_remap_pix_len ax)).
Notation Ly := (Z.to_nat (get_remap_pix_len ay)).
Notation Lz := (Z.to_nat (get_remap_pix_len az)).

Definition out3 : list (list (list R)) :=
  map (fun m => reshape m (cells y2) (cells z2))
    (reshape (remap_3d_grid2grid ax ay az Lx Ly Lz (concat (concat f1)) oob (memx Lx) (memy Ly) (memz Lz))
      (cells x2) (cells y2 * cells z2)).

Lemma concat_length_const : forall (rows : list (list R)) c, (forall i, (i < length rows)%nat -> length (nth i rows []) = c) ->
  length (concat rows) = (length rows * c)%nat.
Proof. intros rows c H. apply length_concat_rect. split; [reflexivity|exact H]. Qed.

Lemma out3_rows : length out3 = cells x2 /\ forall i, (i < cells x2)%nat ->
  length (nth i out3 []) = cells y2 /\ forall j, (j < cells y2)%nat -> nth j (nth i out3 []) []
   = fst (remap_3d_inner ay az Lz (concat (concat f1)) oob (after ax Lx (seq 0 (S i)) (memx Lx))
        (after ay Ly (seq 0 (S j)) (sweeps ay Ly i (memy Ly))) (seq 0 (cells z2)) (sweeps az Lz j (sweeps az Lz (cells y2 * i) (memz Lz)))).
Proof.
  unfold out3, remap_3d_grid2grid.
  destruct (outer3_spec ax ay az Lx Ly Lz (concat (concat f1)) oob (seq 0 (Z.to_nat (grid2 ax))) (memx Lx) (memy Ly) (memz Lz)) as (slabs & E & HL & HR).
  change (grid2 ax) with (Z.of_nat (cells x2)) in *. change (grid2 ay) with (Z.of_nat (cells y2)) in *.
  rewrite !Nat2Z.id in *. rewrite seq_length in *. rewrite E.
  assert (ROWS : forall i, (i < cells x2)%nat -> exists rows, nth i slabs [] = concat rows /\ length rows = cells y2 /\
     forall j, (j < cells y2)%nat -> nth j rows [] =
      fst (remap_3d_inner ay az Lz (concat (concat f1)) oob (after ax Lx (seq 0 (S i)) (memx Lx))
        (after ay Ly (seq 0 (S j)) (sweeps ay Ly i (memy Ly))) (seq 0 (cells z2)) (sweeps az Lz j (sweeps az Lz (cells y2 * i) (memz Lz))))).
  { intros i Hi. rewrite HR by exact Hi. rewrite firstn_seq by exact Hi.
    destruct (middle3_spec ay az Ly Lz (concat (concat f1)) oob (after ax Lx (seq 0 (S i)) (memx Lx)) (seq 0 (cells y2))
       (sweeps ay Ly i (memy Ly)) (sweeps az Lz (cells y2 * i) (memz Lz))) as (rows & M1 & M2 & M3).
    exists rows. rewrite M1. cbn [fst]. split; [reflexivity|]. rewrite seq_length in *. split; [exact M2|].
    intros j Hj. rewrite M3 by exact Hj. rewrite firstn_seq by exact Hj.
    change (grid2 az) with (Z.of_nat (cells z2)). rewrite Nat2Z.id. reflexivity. }
  assert (ROWLEN : forall i rows, (i < cells x2)%nat -> (forall j, (j < cells y2)%nat -> nth j rows [] =
      fst (remap_3d_inner ay az Lz (concat (concat f1)) oob (after ax Lx (seq 0 (S i)) (memx Lx))
        (after ay Ly (seq 0 (S j)) (sweeps ay Ly i (memy Ly))) (seq 0 (cells z2)) (sweeps az Lz j (sweeps az Lz (cells y2 * i) (memz Lz))))) ->
     forall j, (j < cells y2)%nat -> length (nth j rows []) = cells z2).
  { intros i rows Hi HH j Hj. rewrite HH by exact Hj. rewrite (proj1 (proj2 (inner3_spec _ _ _ _ _ _ _ _ _))). apply seq_length. }
  assert (RS : reshape (concat slabs) (cells x2) (cells y2 * cells z2) = slabs).
  { rewrite <- HL. apply reshape_concat.
    intros i Hi. destruct (ROWS i ltac:(lia)) as (rows & A & B & C). rewrite A.
    rewrite (concat_length_const rows (cells z2)), B; [reflexivity|]. intros j Hj. apply (ROWLEN i rows); auto; lia. }
  rewrite RS, map_length. split; [exact HL|]. intros i Hi.
  rewrite (nth_map_lt _ _ _ _ i [] []) by lia. destruct (ROWS i Hi) as (rows & A & B & C). rewrite A.
  assert (RR : reshape (concat rows) (cells y2) (cells z2) = rows).
  { rewrite <- B. apply reshape_concat. intros j Hj. apply (ROWLEN i); auto. lia. }
  rewrite RR. split; assumption.
Qed.

Lemma out3_shape : shape3 out3 (cells x2) (cells y2) (cells z2).
Proof.
  destruct out3_rows as [L1 L2]. split; [exact L1|]. intros i Hi. destruct (L2 i Hi) as [A B]. split; [exact A|].
  intros j Hj. rewrite A in Hj. rewrite B by exact Hj. rewrite (proj1 (proj2 (inner3_spec _ _ _ _ _ _ _ _ _))). apply seq_length.
Qed.

Lemma out3_value : forall k l m, (k < cells x2)%nat -> (l < cells y2)%nat -> (m < cells z2)%nat ->
  regular_start x1 x2 \/ ~ just_below (org x1) (ext x1) (cells x1) (org x2) (ext x2) (cells x2) k ->
  regular_start y1 y2 \/ ~ just_below (org y1) (ext y1) (cells y1) (org y2) (ext y2) (cells y2) l ->
  regular_start z1 z2 \/ ~ just_below (org z1) (ext z1) (cells z1) (org z2) (ext z2) (cells z2) m ->
  cell3 out3 k l m = average3 x1 y1 z1 f1 x2 y2 z2 k l m.
Proof.
  intros k l m Hk Hl Hm Hx Hy Hz. unfold cell3. destruct out3_rows as [_ L2]. destruct (L2 k Hk) as [_ B]. rewrite B by exact Hl.
  rewrite (proj2 (proj2 (inner3_spec _ _ _ _ _ _ _ _ _))) by (rewrite seq_length; exact Hm).
  rewrite firstn_seq by exact Hm. apply good_value3; [exact Hs| | |].
  - destruct Hx as [H|H]; [now apply side_sweep|]. rewrite after_last. now apply side_good.
  - destruct Hy as [H|H]; [now apply side_sweep|]. rewrite after_last. now apply side_good.
  - destruct Hz as [H|H]; [now apply side_sweep|]. rewrite after_last. now apply side_good.
Qed.
End Out3.

Lemma grid3D_ok : forall oob memx memy memz x1 y1 z1 x2 y2 z2 f1 boxsize n origin originout boxsizeout,
  shape3 f1 (cells x1) (cells y1) (cells z1) -> proper x1 -> proper y1 ->
  triple_arg boxsize (ext x1) (ext y1) (ext z1) -> triple_arg origin (org x1) (org y1) (org z1) ->
  triple_arg originout (org x2) (org y2) (org z2) -> cells x2 = n -> cells y2 = n -> cells z2 = n ->
  match boxsizeout with None => ext x2 = ext x1 /\ ext y2 = ext y1 /\ ext z2 = ext z1
                      | Some b => triple_arg b (ext x2) (ext y2) (ext z2) end ->
  grid2grid3D oob memx memy memz f1 boxsize (Sca (Z.of_nat n)) origin originout boxsizeout
  = Ok (out3 oob memx memy memz x1 y1 z1 x2 y2 z2 f1).
Proof.
  intros oob memx memy memz x1 y1 z1 x2 y2 z2 f1 boxsize n origin originout boxsizeout [S1 S2] [_ Px] [_ Py] A B C Nx Ny Nz E.
  unfold grid2grid3D. rewrite (three_ok _ _ _ _ _ A), (three_ok _ _ _ _ _ B), (three_ok _ _ _ _ _ C).
  assert (F : match boxsizeout with None => Ok (ext x1, ext y1, ext z1) | Some b => three b end = Ok (ext x2, ext y2, ext z2)).
  { destruct boxsizeout; [now apply three_ok|]. destruct E as (-> & -> & ->). reflexivity. }
  cbn [bind]. rewrite F. cbn [bind]. destruct (S2 0%nat ltac:(lia)) as [S3 S4]. rewrite S1, S3, (S4 0%nat) by lia.
  unfold out3, ax_sides, ax_of. rewrite Nx, Ny, Nz, !Nat2Z.id. reflexivity.
Qed.
