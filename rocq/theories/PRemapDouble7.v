(** * Lemmas: the loops of the two- and three-dimensional remapping in binary64 *)

From Coq Require Import Reals ZArith List Bool Lia Lra Psatz.
From Flocq Require Import Core IEEE754.BinarySingleNaN.
From Verif Require Import Base BaseP MHealpixFloat PHealpixFloat SpecDouble SpecGrid SpecRemap SpecRemapDouble SpecRemapDouble2 MDouble PDouble MGrids MGridsDouble PGridsDouble PSumDouble PRemap PRemap2
  MRemap MRemapDouble MRemapDouble2 PRemapDouble PRemapDouble2 PRemapDouble3 PRemapDouble4 PRemapDouble5 PRemapDouble6.
Import ListNotations.
Open Scope R_scope.

Local Existing Instance p53.

(** ** Arrays of any type *)
Section Arrays.
  Context {A : Type}.

  Lemma reshape_rows : forall (rows : list (list A)) c, (forall row, In row rows -> length row = c) -> reshape (concat rows) (length rows) c = rows.
  Proof.
    intros rows c. induction rows as [|r rows IH]; intros H; [reflexivity|]. cbn [length reshape concat].
    assert (Hr : length r = c) by (apply H; now left).
    rewrite firstn_app, <- Hr, Nat.sub_diag, firstn_O, app_nil_r, firstn_all. f_equal.
    rewrite skipn_app, Nat.sub_diag, skipn_all. cbn [skipn app]. rewrite Hr. apply IH. intros row Hi. apply H. now right.
  Qed.
  Lemma concat_rows : forall (f : list (list A)) c, (forall row, In row f -> length row = c) -> length (concat f) = (length f * c)%nat.
  Proof.
    intros f c. induction f as [|r f IH]; intros H; [reflexivity|]. cbn [concat length]. rewrite app_length, IH by (intros row Hi; apply H; now right).
    rewrite (H r (or_introl eq_refl)). cbn. lia.
  Qed.
  Lemma nth_rows : forall (f : list (list A)) c i j d, (forall row, In row f -> length row = c) -> (i < length f)%nat -> (j < c)%nat ->
    nth (j + c * i) (concat f) d = nth j (nth i f []) d.
  Proof.
    intros f c i j d. revert i. induction f as [|r f IH]; intros i H Hi Hj; [cbn in Hi; lia|]. pose proof (H r (or_introl eq_refl)) as Hr. cbn [concat]. destruct i as [|i].
    - rewrite app_nth1 by lia. cbn [nth]. f_equal. lia.
    - rewrite app_nth2 by lia. rewrite Hr. replace (j + c * S i - c)%nat with (j + c * i)%nat by lia. rewrite IH; [reflexivity| |cbn in Hi; lia|exact Hj]. intros row Hrow. apply H. now right.
  Qed.
End Arrays.

  Lemma array3_rows : forall (A : Type) (f : list (list (list A))) n c d, array3 f n c d -> array2 (concat f) (n * c) d.
  Proof.
    intros A f n c d [Hn Hs]. split.
    - rewrite (concat_rows f c); [now rewrite Hn|]. intros slab Hi. apply (Hs slab Hi).
    - intros row Hrow. apply in_concat in Hrow. destruct Hrow as (slab & Hi & Hr). apply (Hs slab Hi). exact Hr.
  Qed.


(** ** Loops *)

Lemma inner2_d : forall ay L f oob xb cells yb, length (fst (remap_2d_inner_d ay L f oob xb cells yb)) = length cells /\
  forall t, (t < length cells)%nat -> exists b, nth t (fst (remap_2d_inner_d ay L f oob xb cells yb)) dzero = accumulate_d f oob (entries_2d_d (n1 ay) xb (remap_pixel_d ay (Z.of_nat (nth t cells 0%nat)) L b)).
Proof.
  intros ay L f oob xb cells. induction cells as [|j cells IH]; intros yb; [split; [reflexivity|]; intros t Ht; cbn in Ht; lia|].
  cbn [remap_2d_inner_d]. specialize (IH (remap_pixel_d ay (Z.of_nat j) L yb)). destruct (remap_2d_inner_d ay L f oob xb cells _) as [vs yb'']. cbn [fst snd] in *.
  destruct IH as (I1 & I2). split; [cbn; now rewrite I1|]. intros [|t] Ht; [exists yb; reflexivity|]. cbn [nth]. cbn [length] in Ht. apply I2. lia.
Qed.

Lemma outer2_d : forall ax ay Lx Ly f oob cells xb yb, exists rows, remap_2d_outer_d ax ay Lx Ly f oob cells xb yb = concat rows /\ length rows = length cells /\
  forall i, (i < length cells)%nat -> exists b b', nth i rows [] = fst (remap_2d_inner_d ay Ly f oob (remap_pixel_d ax (Z.of_nat (nth i cells 0%nat)) Lx b) (seq 0 (Z.to_nat (n2 ay))) b').
Proof.
  intros ax ay Lx Ly f oob cells. induction cells as [|c cells IH]; intros xb yb; [exists []; split; [reflexivity|]; split; [reflexivity|]; intros i Hi; cbn in Hi; lia|].
  cbn [remap_2d_outer_d]. destruct (remap_2d_inner_d ay Ly f oob (remap_pixel_d ax (Z.of_nat c) Lx xb) (seq 0 (Z.to_nat (n2 ay))) yb) as [vs yb'] eqn:EI.
  destruct (IH (remap_pixel_d ax (Z.of_nat c) Lx xb) yb') as (rows & R1 & R2 & R3). exists (vs :: rows). split; [cbn [concat]; now rewrite R1|]. split; [cbn; now rewrite R2|].
  intros [|i] Hi; cbn [nth]; [exists xb, yb; rewrite EI; reflexivity|]. cbn [length] in Hi. apply R3. lia.
Qed.

Lemma inner3_d : forall ay az L f oob xb yb cells zb, length (fst (remap_3d_inner_d ay az L f oob xb yb cells zb)) = length cells /\
  forall t, (t < length cells)%nat -> exists b, nth t (fst (remap_3d_inner_d ay az L f oob xb yb cells zb)) dzero = accumulate_d f oob (entries_3d_d (n1 ay) (n1 az) xb yb (remap_pixel_d az (Z.of_nat (nth t cells 0%nat)) L b)).
Proof.
  intros ay az L f oob xb yb cells. induction cells as [|j cells IH]; intros zb; [split; [reflexivity|]; intros t Ht; cbn in Ht; lia|].
  cbn [remap_3d_inner_d]. specialize (IH (remap_pixel_d az (Z.of_nat j) L zb)). destruct (remap_3d_inner_d ay az L f oob xb yb cells _) as [vs zb'']. cbn [fst snd] in *.
  destruct IH as (I1 & I2). split; [cbn; now rewrite I1|]. intros [|t] Ht; [exists zb; reflexivity|]. cbn [nth]. cbn [length] in Ht. apply I2. lia.
Qed.

Lemma middle3_d : forall ay az Ly Lz f oob xb cells yb zb, exists rows, fst (fst (remap_3d_middle_d ay az Ly Lz f oob xb cells yb zb)) = concat rows /\ length rows = length cells /\
  forall j, (j < length cells)%nat -> exists b b', nth j rows [] = fst (remap_3d_inner_d ay az Lz f oob xb (remap_pixel_d ay (Z.of_nat (nth j cells 0%nat)) Ly b) (seq 0 (Z.to_nat (n2 az))) b').
Proof.
  intros ay az Ly Lz f oob xb cells. induction cells as [|c cells IH]; intros yb zb; [exists []; split; [reflexivity|]; split; [reflexivity|]; intros i Hi; cbn in Hi; lia|].
  cbn [remap_3d_middle_d]. destruct (remap_3d_inner_d ay az Lz f oob xb (remap_pixel_d ay (Z.of_nat c) Ly yb) (seq 0 (Z.to_nat (n2 az))) zb) as [vs zb'] eqn:EI.
  destruct (IH (remap_pixel_d ay (Z.of_nat c) Ly yb) zb') as (rows & R1 & R2 & R3). exists (vs :: rows).
  destruct (remap_3d_middle_d ay az Ly Lz f oob xb cells _ zb') as [[ws yb''] zb'']. cbn [fst] in *. split; [cbn [concat]; now rewrite R1|]. split; [cbn; now rewrite R2|].
  intros [|i] Hi; cbn [nth]; [exists yb, zb; rewrite EI; reflexivity|]. cbn [length] in Hi. apply R3. lia.
Qed.

Lemma outer3_d : forall ax ay az Lx Ly Lz f oob cells xb yb zb, exists slabs, remap_3d_outer_d ax ay az Lx Ly Lz f oob cells xb yb zb = concat slabs /\ length slabs = length cells /\
  forall i, (i < length cells)%nat -> exists b b' b'', nth i slabs [] = fst (fst (remap_3d_middle_d ay az Ly Lz f oob (remap_pixel_d ax (Z.of_nat (nth i cells 0%nat)) Lx b) (seq 0 (Z.to_nat (n2 ay))) b' b'')).
Proof.
  intros ax ay az Lx Ly Lz f oob cells. induction cells as [|c cells IH]; intros xb yb zb; [exists []; split; [reflexivity|]; split; [reflexivity|]; intros i Hi; cbn in Hi; lia|].
  cbn [remap_3d_outer_d]. destruct (remap_3d_middle_d ay az Ly Lz f oob (remap_pixel_d ax (Z.of_nat c) Lx xb) (seq 0 (Z.to_nat (n2 ay))) yb zb) as [[vs yb'] zb'] eqn:EI.
  destruct (IH (remap_pixel_d ax (Z.of_nat c) Lx xb) yb' zb') as (slabs & R1 & R2 & R3). exists (vs :: slabs). split; [cbn [concat]; now rewrite R1|]. split; [cbn; now rewrite R2|].
  intros [|i] Hi; cbn [nth]; [exists xb, yb, zb; rewrite EI; reflexivity|]. cbn [length] in Hi. apply R3. lia.
Qed.

Definition axd (s1 s2 : line) : axis_d := ax (lorg s1) (llen s1) (lcells s1) (lorg s2) (llen s2) (lcells s2).
Definition lend (s1 s2 : line) : nat := Z.to_nat (LZ (lorg s1) (llen s1) (lcells s1) (lorg s2) (llen s2) (lcells s2)).
Definition bufd (s1 s2 : line) (k : nat) (b : buffers_d) : buffers_d := remap_pixel_d (axd s1 s2) (Z.of_nat k) (lend s1 s2) b.

Lemma two_arg : forall A (x : arg A) a b, pair_arg x a b -> two x = Ok (a, b).
Proof. intros A x a b [[-> ->]|[r ->]]; reflexivity. Qed.
Lemma three_arg : forall A (x : arg A) a b c, triple_arg x a b c -> three x = Ok (a, b, c).
Proof. intros A x a b c [(-> & -> & ->)|[r ->]]; reflexivity. Qed.

(** Shape and cells of the two-dimensional output. *)
Lemma grid2_cells : forall oob memx memy (f1 : list (list double)) x1 y1 x2 y2 boxsize ngridout origin originout boxsizeout,
  call2 x1 y1 x2 y2 boxsize ngridout origin originout boxsizeout -> array2 f1 (lcells x1) (lcells y1) -> (1 <= lcells x1)%nat ->
  exists f2, grid2grid2D_d oob memx memy f1 boxsize ngridout origin originout boxsizeout = Ok f2 /\ array2 f2 (lcells x2) (lcells y2) /\
  forall k l, (k < lcells x2)%nat -> (l < lcells y2)%nat -> exists b b', nth l (nth k f2 []) dzero
    = accumulate_d (concat f1) oob (entries_2d_d (Z.of_nat (lcells y1)) (bufd x1 x2 k b) (bufd y1 y2 l b')).
Proof.
  intros oob memx memy f1 x1 y1 x2 y2 boxsize ngridout origin originout boxsizeout (C1 & C2 & C3 & C4 & C5) [HL HR] HN. unfold grid2grid2D_d.
  rewrite (two_arg double _ _ _ C1). cbn [bind].
  match goal with |- context [@bind ?A ?B ?m ?k] => replace m with (@Ok A (llen x2, llen y2)) by (destruct boxsizeout as [b|]; [symmetry; now apply two_arg|destruct C5 as [-> ->]; reflexivity]) end.
  cbn [bind]. rewrite (two_arg double _ _ _ C2). cbn [bind]. rewrite (two_arg double _ _ _ C3). cbn [bind]. rewrite (two_arg _ _ _ _ C4). cbn [bind]. cbv zeta.
  assert (HR0 : length (nth 0 f1 []) = lcells y1) by (apply HR, nth_In; lia). rewrite HR0, HL.
  change (AxisD (lorg x1) (dadd (lorg x1) (llen x1)) (Z.of_nat (lcells x1)) (lorg x2) (dadd (lorg x2) (llen x2)) (Z.of_nat (lcells x2))) with (axd x1 x2).
  change (AxisD (lorg y1) (dadd (lorg y1) (llen y1)) (Z.of_nat (lcells y1)) (lorg y2) (dadd (lorg y2) (llen y2)) (Z.of_nat (lcells y2))) with (axd y1 y2).
  change (Z.to_nat (get_remap_pix_len_d (axd x1 x2))) with (lend x1 x2). change (Z.to_nat (get_remap_pix_len_d (axd y1 y2))) with (lend y1 y2).
  unfold remap_2d_grid2grid_d. change (n2 (axd x1 x2)) with (Z.of_nat (lcells x2)). rewrite !Nat2Z.id.
  destruct (outer2_d (axd x1 x2) (axd y1 y2) (lend x1 x2) (lend y1 y2) (concat f1) oob (seq 0 (lcells x2)) (memx (lend x1 x2)) (memy (lend y1 y2))) as (rows & E & RL & RC).
  rewrite E. rewrite seq_length in RL, RC. change (n2 (axd y1 y2)) with (Z.of_nat (lcells y2)) in RC. rewrite Nat2Z.id in RC.
  assert (RR : forall row, In row rows -> length row = lcells y2).
  { intros row Hi. apply (In_nth _ _ []) in Hi. destruct Hi as (i & Hi & <-). destruct (RC i ltac:(lia)) as (b & b' & ->). rewrite (proj1 (inner2_d _ _ _ _ _ _ _)). apply seq_length. }
  exists rows. split; [f_equal; rewrite <- RL; apply reshape_rows; exact RR|]. split; [split; assumption|].
  intros k l Hk Hl. destruct (RC k Hk) as (b & b' & ->).
  destruct (proj2 (inner2_d (axd y1 y2) (lend y1 y2) (concat f1) oob (remap_pixel_d (axd x1 x2) (Z.of_nat (nth k (seq 0 (lcells x2)) 0%nat)) (lend x1 x2) b) (seq 0 (lcells y2)) b') l) as [c ->]; [now rewrite seq_length|].
  exists b, c. rewrite !seq_nth by assumption. reflexivity.
Qed.

(** Shape and cells of the three-dimensional output. *)
Lemma grid3_cells : forall oob memx memy memz (f1 : list (list (list double))) x1 y1 z1 x2 y2 z2 boxsize n origin originout boxsizeout,
  call3 x1 y1 z1 x2 y2 z2 boxsize n origin originout boxsizeout -> array3 f1 (lcells x1) (lcells y1) (lcells z1) -> (1 <= lcells x1)%nat -> (1 <= lcells y1)%nat ->
  exists f2, grid2grid3D_d oob memx memy memz f1 boxsize (Sca (Z.of_nat n)) origin originout boxsizeout = Ok f2 /\ array3 f2 n n n /\
  forall k l m, (k < n)%nat -> (l < n)%nat -> (m < n)%nat -> exists b b' b'', nth m (nth l (nth k f2 []) []) dzero
    = accumulate_d (concat (concat f1)) oob (entries_3d_d (Z.of_nat (lcells y1)) (Z.of_nat (lcells z1)) (bufd x1 x2 k b) (bufd y1 y2 l b') (bufd z1 z2 m b'')).
Proof.
  intros oob memx memy memz f1 x1 y1 z1 x2 y2 z2 boxsize n origin originout boxsizeout (C1 & C2 & C3 & Nx & Ny & Nz & C5) [HL HR] HX HY. unfold grid2grid3D_d.
  rewrite (three_arg double _ _ _ _ C1). cbn [bind].
  match goal with |- context [@bind ?A ?B ?m ?k] => replace m with (@Ok A (llen x2, llen y2, llen z2)) by (destruct boxsizeout as [b|]; [symmetry; now apply three_arg|destruct C5 as (-> & -> & ->); reflexivity]) end.
  cbn [bind]. rewrite (three_arg double _ _ _ _ C2). cbn [bind]. rewrite (three_arg double _ _ _ _ C3). cbn [bind]. cbv zeta.
  assert (S0 : array2 (nth 0 f1 []) (lcells y1) (lcells z1)) by (apply HR, nth_In; lia). destruct S0 as [S1 S2].
  assert (S3 : length (nth 0 (nth 0 f1 []) []) = lcells z1) by (apply S2, nth_In; lia). rewrite S3, S1, HL.
  assert (AX : AxisD (lorg x1) (dadd (lorg x1) (llen x1)) (Z.of_nat (lcells x1)) (lorg x2) (dadd (lorg x2) (llen x2)) (Z.of_nat n) = axd x1 x2) by (unfold axd, ax; rewrite Nx; reflexivity).
  assert (AY : AxisD (lorg y1) (dadd (lorg y1) (llen y1)) (Z.of_nat (lcells y1)) (lorg y2) (dadd (lorg y2) (llen y2)) (Z.of_nat n) = axd y1 y2) by (unfold axd, ax; rewrite Ny; reflexivity).
  assert (AZ : AxisD (lorg z1) (dadd (lorg z1) (llen z1)) (Z.of_nat (lcells z1)) (lorg z2) (dadd (lorg z2) (llen z2)) (Z.of_nat n) = axd z1 z2) by (unfold axd, ax; rewrite Nz; reflexivity).
  rewrite AX, AY, AZ. clear AX AY AZ.
  change (Z.to_nat (get_remap_pix_len_d (axd x1 x2))) with (lend x1 x2). change (Z.to_nat (get_remap_pix_len_d (axd y1 y2))) with (lend y1 y2). change (Z.to_nat (get_remap_pix_len_d (axd z1 z2))) with (lend z1 z2).
  unfold remap_3d_grid2grid_d. change (n2 (axd x1 x2)) with (Z.of_nat (lcells x2)). rewrite Nx, !Nat2Z.id.
  set (g := concat (concat f1)).
  destruct (outer3_d (axd x1 x2) (axd y1 y2) (axd z1 z2) (lend x1 x2) (lend y1 y2) (lend z1 z2) g oob (seq 0 n) (memx (lend x1 x2)) (memy (lend y1 y2)) (memz (lend z1 z2))) as (slabs & E & SL & SC).
  rewrite E. rewrite seq_length in SL, SC. change (n2 (axd y1 y2)) with (Z.of_nat (lcells y2)) in SC. rewrite Ny, Nat2Z.id in SC.
  assert (ROWS : forall i, (i < n)%nat -> exists rows, nth i slabs [] = concat rows /\ length rows = n /\ (forall row, In row rows -> length row = n) /\
     forall l m, (l < n)%nat -> (m < n)%nat -> exists b b' b'', nth m (nth l rows []) dzero = accumulate_d g oob (entries_3d_d (Z.of_nat (lcells y1)) (Z.of_nat (lcells z1)) (bufd x1 x2 i b) (bufd y1 y2 l b') (bufd z1 z2 m b''))).
  { intros i Hi. destruct (SC i Hi) as (b & b' & b'' & ->). rewrite seq_nth by exact Hi. cbn [Nat.add].
    destruct (middle3_d (axd y1 y2) (axd z1 z2) (lend y1 y2) (lend z1 z2) g oob (remap_pixel_d (axd x1 x2) (Z.of_nat i) (lend x1 x2) b) (seq 0 n) b' b'') as (rows & M1 & M2 & M3).
    rewrite seq_length in M2, M3. change (n2 (axd z1 z2)) with (Z.of_nat (lcells z2)) in M3. rewrite Nz, Nat2Z.id in M3.
    exists rows. split; [exact M1|]. split; [exact M2|]. split.
    - intros row Hr. apply (In_nth _ _ []) in Hr. destruct Hr as (j & Hj & <-). destruct (M3 j ltac:(lia)) as (c & c' & ->). rewrite (proj1 (inner3_d _ _ _ _ _ _ _ _ _)). apply seq_length.
    - intros l m Hl Hm. destruct (M3 l Hl) as (c & c' & ->). rewrite seq_nth by exact Hl. cbn [Nat.add].
      destruct (proj2 (inner3_d (axd y1 y2) (axd z1 z2) (lend z1 z2) g oob (remap_pixel_d (axd x1 x2) (Z.of_nat i) (lend x1 x2) b) (remap_pixel_d (axd y1 y2) (Z.of_nat l) (lend y1 y2) c) (seq 0 n) c') m) as [d ->]; [now rewrite seq_length|].
      rewrite seq_nth by exact Hm. exists b, c, d. reflexivity. }
  assert (RS : reshape (concat slabs) n (n * n) = slabs).
  { rewrite <- SL at 1. apply reshape_rows. intros slab Hi. apply (In_nth _ _ []) in Hi. destruct Hi as (i & Hi & <-). destruct (ROWS i ltac:(lia)) as (rows & -> & A & B & _). rewrite (concat_rows rows n B), A. reflexivity. }
  rewrite RS. eexists. split; [reflexivity|].
  assert (NM : forall i, (i < n)%nat -> exists rows, nth i (map (fun m => reshape m n n) slabs) [] = rows /\ nth i slabs [] = concat rows /\ length rows = n /\ (forall row, In row rows -> length row = n) /\
     forall l m, (l < n)%nat -> (m < n)%nat -> exists b b' b'', nth m (nth l rows []) dzero = accumulate_d g oob (entries_3d_d (Z.of_nat (lcells y1)) (Z.of_nat (lcells z1)) (bufd x1 x2 i b) (bufd y1 y2 l b') (bufd z1 z2 m b''))).
  { intros i Hi. destruct (ROWS i Hi) as (rows & A & B & C & D). exists rows. split; [|auto]. rewrite (nth_indep _ [] (reshape [] n n)) by (rewrite map_length; lia). rewrite (map_nth (fun m => reshape m n n)), A. rewrite <- B at 1. apply reshape_rows. exact C. }
  split.
  - split; [now rewrite map_length|]. intros slab Hi. apply (In_nth _ _ []) in Hi. rewrite map_length in Hi. destruct Hi as (i & Hi & <-). destruct (NM i ltac:(lia)) as (rows & -> & _ & B & C & _). split; assumption.
  - intros k l m Hk Hl Hm. destruct (NM k Hk) as (rows & -> & _ & _ & _ & D). apply D; assumption.
Qed.
