(** * Theorems about resampling between regular grids: C39-C44 *)

From Coq Require Import Reals ZArith List Bool Lra Lia Psatz.
From Flocq Require Import Core.Raux.
From Verif Require Import Base BaseP SpecGrid SpecRemap MGrids MRemap PGrids PRadial POneD PRemap PRemap2 PRemap3.
Import ListNotations.
Open Scope R_scope.

(** Both grids along one axis, as passed to the Fortran kernels. *)
Definition axis_between (s1 s2 : side) : axis :=
  Axis (org s1) (org s1 + ext s1) (Z.of_nat (cells s1)) (org s2) (org s2 + ext s2) (Z.of_nat (cells s2)).

Definition side_just_below (s1 s2 : side) (k : nat) : Prop :=
  just_below (org s1) (ext s1) (cells s1) (org s2) (ext s2) (cells s2) k.

(** ** C39: the weights of one output cell *)

(** Whatever the buffers held before, the weight stored for every source cell
    is the covered fraction, all stored indices are valid, and nothing is
    missed because the buffers are too short. *)
Theorem C39_weights : forall s1 s2 k b, proper s1 -> proper s2 -> ~ side_just_below s1 s2 k ->
  let a := axis_between s1 s2 in
  let out := remap_1d_grid2grid_pixel a (Z.of_nat k) (Z.to_nat (get_remap_pix_len a)) b in
  length out = Z.to_nat (get_remap_pix_len a) /\
  (forall i, (i < cells s1)%nat -> weight_of out i = part s1 s2 k i) /\
  (forall p w, In (p, w) out -> p = (-1)%Z \/ (0 <= p < Z.of_nat (cells s1))%Z).
Proof.
  intros s1 s2 k b P1 P2 HB a out. assert (G : goodbuf (ax_sides s1 s2) k out) by (apply side_good; assumption).
  assert (NB : ~ bad (ax_sides s1 s2) (Z.of_nat k)) by (rewrite (side_bad s1 s2 P1 P2); exact HB).
  split; [|split].
  - unfold out, remap_1d_grid2grid_pixel.
    destruct (negb (which_pix (x1min a) (dx1 a) (x2min a + dx2 a * IZR (Z.of_nat k)) =? which_pix (x1min a) (dx1 a) (x2min a + dx2 a * IZR (Z.of_nat k + 1)))%Z) eqn:E1;
      [rewrite map_length; apply seq_length|].
    destruct (negb (which_pix (x1min a) (dx1 a) (x2min a + dx2 a * IZR (Z.of_nat k)) =? -1)%Z) eqn:E2;
      [rewrite map_length; apply seq_length|].
    exfalso. apply NB. apply negb_false_iff, Z.eqb_eq in E1. apply negb_false_iff, Z.eqb_eq in E2.
    unfold bad, p1, p2, e2. split; [exact E2|]. rewrite <- E2. symmetry. exact E1.
  - intros i Hi. rewrite weight_of_wsum, (side_wsum _ _ k out G).
    rewrite (sum_one _ i); [|exact Hi|].
    + rewrite Z.eqb_refl. ring.
    + intros j Hj Hne. replace (Z.of_nat j =? Z.of_nat i)%Z with false by (symmetry; apply Z.eqb_neq; lia). ring.
  - intros p w Hin. destruct (pixel_range (ax_sides s1 s2) (Z.of_nat k) _ b NB (p, w) Hin) as [H|H]; [now left|right; exact H].
Qed.
Print Assumptions C39_weights.

(** The weights add up to the fraction of the output cell inside the source
    domain: at most one, and one when the cell is inside. *)
Theorem C39_weights_sum : forall s1 s2 k b, proper s1 -> proper s2 -> ~ side_just_below s1 s2 k ->
  let a := axis_between s1 s2 in
  let out := remap_1d_grid2grid_pixel a (Z.of_nat k) (Z.to_nat (get_remap_pix_len a)) b in
  let lo := edge (org s2) (ext s2) (cells s2) k in
  let hi := edge (org s2) (ext s2) (cells s2) (S k) in
  let s := sum_upto (cells s1) (weight_of out) in
  s = overlap lo hi (org s1) (org s1 + ext s1) / (hi - lo) /\ 0 <= s <= 1 /\
  (org s1 <= lo -> hi <= org s1 + ext s1 -> s = 1).
Proof.
  intros s1 s2 k b P1 P2 HB a out lo hi s. destruct (C39_weights s1 s2 k b P1 P2 HB) as (_ & W & _).
  assert (E : s = sum_upto (cells s1) (part s1 s2 k)) by (apply sum_ext; exact W).
  assert (D : hi - lo = width s2) by (unfold hi, lo; rewrite edge_S; unfold width; ring).
  assert (Wp : 0 < width s2) by (apply width_side; assumption).
  assert (V : s = overlap lo hi (org s1) (org s1 + ext s1) / (hi - lo)).
  { rewrite E, D. destruct P1, P2. now apply frac_sum. }
  split; [exact V|]. split; [split|].
  - rewrite V. apply Rmult_le_pos; [apply overlap_nonneg|]. left. apply Rinv_0_lt_compat. lra.
  - rewrite E. apply part_sum_le1; assumption.
  - intros A B. rewrite V, overlap_sym, overlap_inside by lra. field. lra.
Qed.
Print Assumptions C39_weights_sum.

Example C39_example : let s1 := Side 0 4 4 in let s2 := Side (1/2) 3 2 in
  proper s1 /\ proper s2 /\ ~ side_just_below s1 s2 1 /\ part s1 s2 1 2 = 2/3 /\ part s1 s2 1 3 = 1/3.
Proof.
  cbn [proper org ext cells]. unfold proper, side_just_below, just_below, part, frac, edge, overlap. cbn [org ext cells INR].
  repeat split; try lra; try lia;
  unfold Rmax, Rmin; repeat destruct (Rle_dec _ _); lra.
Qed.

(** ** C40: one dimension *)

(** Value of every output cell, outside the situation of C43. *)
Theorem C40_cell : forall oob mem f1 box n o oout boxout,
  f1 <> [] -> 0 < box -> 0 < boxout -> (1 <= n)%nat ->
  exists f2, grid2grid1D oob mem f1 box (Z.of_nat n) o oout (Some boxout) = Ok f2 /\ length f2 = n /\
    forall k, (k < n)%nat ->
      ~ (just_below o box (length f1) oout boxout n 0 /\ just_below o box (length f1) oout boxout n k) ->
      nth k f2 0 = cell_average o box f1 oout boxout n k.
Proof.
  intros oob mem f1 box n o oout boxout Hf Hb Hbo Hn. rewrite grid1D_ok. eexists. split; [reflexivity|].
  split; [apply out1_length|]. intros k Hk HB. apply (out1_value oob mem (side1 o box f1) (Side oout boxout n)); auto.
  - now apply proper1.
  - split; assumption.
  - unfold regular_start. cbn [org ext cells side1].
    assert (D : forall x, {just_below o box (length f1) oout boxout n x} + {~ just_below o box (length f1) oout boxout n x}).
    { intros x. unfold just_below.
      destruct (Rle_lt_dec (o - box / INR (length f1)) (edge oout boxout n x)) as [A|A]; [|right; lra].
      destruct (Rlt_le_dec (edge oout boxout n (S x)) o) as [B|B]; [left; lra|right; lra]. }
    destruct (D 0%nat) as [B0|B0]; [right|left; exact B0]. intros Bk. apply HB. split; assumption.
Qed.
Print Assumptions C40_cell.

(** If the first output cell is not just below the source grid, the whole
    output is the exact cell average. *)
Theorem C40_exact : forall oob mem f1 box n o oout boxout,
  f1 <> [] -> 0 < box -> 0 < boxout -> (1 <= n)%nat -> ~ just_below o box (length f1) oout boxout n 0 ->
  grid2grid1D oob mem f1 box (Z.of_nat n) o oout (Some boxout)
  = Ok (map (cell_average o box f1 oout boxout n) (seq 0 n)).
Proof.
  intros oob mem f1 box n o oout boxout Hf Hb Hbo Hn HB.
  destruct (C40_cell oob mem f1 box n o oout boxout Hf Hb Hbo Hn) as (f2 & -> & HL & HV). f_equal.
  apply (list_ext R _ _ 0); [now rewrite map_length, seq_length|]. intros k Hk. rewrite HL in Hk.
  rewrite HV by (auto; intros [H _]; auto).
  rewrite (nth_map_lt _ _ _ _ k 0 0%nat) by (rewrite seq_length; exact Hk). now rewrite seq_nth by exact Hk.
Qed.
Print Assumptions C40_exact.

Lemma not_below_inside : forall o box n1 oout boxout n, 0 < boxout -> (1 <= n)%nat -> o <= oout ->
  ~ just_below o box n1 oout boxout n 0.
Proof. intros o box n1 oout boxout n H Hn Ho [_ B]. rewrite edge_S, edge_0 in B. pose proof (width_pos boxout n H Hn). lra. Qed.

(** The integral is conserved when the output grid covers the source grid. *)
Theorem C40_conserves : forall oob mem f1 box n o oout boxout,
  f1 <> [] -> 0 < box -> 0 < boxout -> (1 <= n)%nat -> ~ just_below o box (length f1) oout boxout n 0 ->
  oout <= o -> o + box <= oout + boxout ->
  exists f2, grid2grid1D oob mem f1 box (Z.of_nat n) o oout (Some boxout) = Ok f2 /\
    Rsum f2 * (boxout / INR n) = Rsum f1 * (box / INR (length f1)).
Proof.
  intros oob mem f1 box n o oout boxout Hf Hb Hbo Hn HB C1 C2. rewrite C40_exact by assumption.
  eexists. split; [reflexivity|]. rewrite (Rsum_upto f1).
  pose proof (conserve1 (side1 o box f1) (Side oout boxout n) (fun i => nth i f1 0)) as E. cbn [cells side1] in E.
  apply E; [now apply proper1|split; assumption|split; assumption].
Qed.
Print Assumptions C40_conserves.

Theorem C40_conserves_same_extent : forall oob mem f1 box n o, f1 <> [] -> 0 < box -> (1 <= n)%nat ->
  exists f2, grid2grid1D oob mem f1 box (Z.of_nat n) o o (Some box) = Ok f2 /\
    Rsum f2 * (box / INR n) = Rsum f1 * (box / INR (length f1)).
Proof.
  intros. apply C40_conserves; auto; try lra. apply not_below_inside; auto. lra.
Qed.
Print Assumptions C40_conserves_same_extent.

(** Inside the source domain every output value is a convex combination. *)
Theorem C40_bounds : forall oob mem f1 box n o oout boxout lo hi,
  f1 <> [] -> 0 < box -> 0 < boxout -> (1 <= n)%nat -> o <= oout -> oout + boxout <= o + box ->
  within lo hi f1 ->
  exists f2, grid2grid1D oob mem f1 box (Z.of_nat n) o oout (Some boxout) = Ok f2 /\ length f2 = n /\ within lo hi f2.
Proof.
  intros oob mem f1 box n o oout boxout lo hi Hf Hb Hbo Hn C1 C2 HW.
  rewrite C40_exact by (auto using not_below_inside). eexists. split; [reflexivity|].
  split; [now rewrite map_length, seq_length|]. intros v Hin. apply in_map_iff in Hin. destruct Hin as (k & <- & Hk).
  apply in_seq in Hk. pose proof (proper1 o box f1 Hb Hf) as P1. assert (P2 : proper (Side oout boxout n)) by (split; assumption).
  unfold cell_average. apply (combo_bounds (length f1) (frac o box (length f1) oout boxout n k)).
  - intros i Hi. apply (part_nonneg (side1 o box f1) (Side oout boxout n) P2).
  - intros i Hi. apply HW. apply nth_In. exact Hi.
  - apply (part_sum (side1 o box f1) (Side oout boxout n) P1 P2); [split; assumption|cbn; lia].
Qed.
Print Assumptions C40_bounds.

Theorem C40_constant : forall oob mem m c box n o oout boxout,
  (1 <= m)%nat -> 0 < box -> 0 < boxout -> (1 <= n)%nat -> o <= oout -> oout + boxout <= o + box ->
  grid2grid1D oob mem (repeat c m) box (Z.of_nat n) o oout (Some boxout) = Ok (repeat c n).
Proof.
  intros oob mem m c box n o oout boxout Hm Hb Hbo Hn C1 C2.
  assert (Hf : repeat c m <> []) by (destruct m; [lia|discriminate]).
  destruct (C40_bounds oob mem (repeat c m) box n o oout boxout c c) as (f2 & -> & HL & HW); auto.
  - intros v Hv. apply repeat_spec in Hv. lra.
  - f_equal. apply (list_ext R _ _ 0); [now rewrite repeat_length|]. intros k Hk.
    rewrite nth_repeat_lt by lia. assert (In (nth k f2 0) f2) as Hin by (now apply nth_In). apply HW in Hin. lra.
Qed.
Print Assumptions C40_constant.

(** Resampling onto the same grid changes nothing. *)
Theorem C40_identity : forall oob mem f1 box o, f1 <> [] -> 0 < box ->
  grid2grid1D oob mem f1 box (Z.of_nat (length f1)) o o (Some box) = Ok f1.
Proof.
  intros oob mem f1 box o Hf Hb. assert (Hn : (1 <= length f1)%nat) by (destruct f1; [congruence|cbn; lia]).
  rewrite C40_exact by (auto; apply not_below_inside; auto; lra). f_equal.
  apply (list_ext R _ _ 0); [now rewrite map_length, seq_length|]. rewrite map_length, seq_length. intros k Hk.
  rewrite (nth_map_lt _ _ _ _ k 0 0%nat) by (rewrite seq_length; exact Hk). rewrite seq_nth by exact Hk.
  cbn [Nat.add]. unfold cell_average. rewrite (sum_one _ k); [|exact Hk|].
  - rewrite frac_same, Nat.eqb_refl by assumption. ring.
  - intros i Hi Hne. rewrite frac_same by assumption. apply Nat.eqb_neq in Hne. rewrite Hne. ring.
Qed.
Print Assumptions C40_identity.

Theorem C40_linear : forall oob mem f g al be box n o oout boxout,
  f <> [] -> length g = length f -> 0 < box -> 0 < boxout -> (1 <= n)%nat ->
  ~ just_below o box (length f) oout boxout n 0 ->
  exists f2 g2, grid2grid1D oob mem f box (Z.of_nat n) o oout (Some boxout) = Ok f2 /\
    grid2grid1D oob mem g box (Z.of_nat n) o oout (Some boxout) = Ok g2 /\
    grid2grid1D oob mem (map2 (fun x y => al * x + be * y) f g) box (Z.of_nat n) o oout (Some boxout)
    = Ok (map2 (fun x y => al * x + be * y) f2 g2).
Proof.
  intros oob mem f g al be box n o oout boxout Hf Hl Hb Hbo Hn HB.
  assert (Lm : length (map2 (fun x y => al * x + be * y) f g) = length f) by (rewrite map2_length; lia).
  assert (Hg : g <> []) by (destruct g, f; cbn in *; congruence).
  assert (Hm : map2 (fun x y => al * x + be * y) f g <> []) by (destruct g, f; cbn in *; congruence).
  rewrite !C40_exact by (try assumption; rewrite ?Lm, ?Hl; assumption).
  eexists. eexists. split; [reflexivity|]. split; [reflexivity|]. f_equal. rewrite map2_map_map.
  apply map_ext_in. intros k Hk. unfold cell_average. rewrite Lm, Hl, <- !sum_scal, <- sum_plus. apply sum_ext.
  intros i Hi. rewrite (nth_map2 _ _ _ _ f g i 0 0 0) by lia. ring.
Qed.
Print Assumptions C40_linear.

Example C40_example : forall oob mem,
  ~ just_below 0 3 3 0 3 2 0 /\
  grid2grid1D oob mem [1; 2; 6] 3 (Z.of_nat 2) 0 0 (Some 3) = Ok [4/3; 14/3].
Proof.
  intros oob mem. assert (N : ~ just_below 0 3 3 0 3 2 0) by (apply not_below_inside; [lra|lia|lra]).
  split; [exact N|]. rewrite C40_exact by (first [discriminate|lra|lia|exact N]).
  assert (X : frac 0 3 3 0 3 2 0 0 = 2/3 /\ frac 0 3 3 0 3 2 0 1 = 1/3 /\ frac 0 3 3 0 3 2 0 2 = 0 /\
              frac 0 3 3 0 3 2 1 0 = 0 /\ frac 0 3 3 0 3 2 1 1 = 1/3 /\ frac 0 3 3 0 3 2 1 2 = 2/3).
  { repeat split; unfold frac, edge, overlap; cbn [INR]; unfold Rmax, Rmin; repeat destruct (Rle_dec _ _); lra. }
  destruct X as (X1 & X2 & X3 & X4 & X5 & X6).
  cbn [seq map]. unfold cell_average, sum_upto. cbn [length seq map nth]. rewrite X1, X2, X3, X4, X5, X6.
  unfold Rsum. cbn [fold_right]. f_equal. f_equal; [lra|f_equal; lra].
Qed.

(** ** C41: two dimensions *)

(** The arguments of [grid2grid2D] describe the axes [x1], [y1] (input) and
    [x2], [y2] (output); [boxsizeout = None] means the same size. *)
Definition describes2 (x1 y1 x2 y2 : side) (boxsize : arg R) (ngridout : arg Z) (origin originout : arg R)
  (boxsizeout : option (arg R)) : Prop :=
  proper x1 /\ proper y1 /\ proper x2 /\ proper y2 /\
  pair_arg boxsize (ext x1) (ext y1) /\ pair_arg origin (org x1) (org y1) /\
  pair_arg originout (org x2) (org y2) /\ pair_arg ngridout (Z.of_nat (cells x2)) (Z.of_nat (cells y2)) /\
  match boxsizeout with None => ext x2 = ext x1 /\ ext y2 = ext y1 | Some b => pair_arg b (ext x2) (ext y2) end.

Theorem C41_exact : forall oob memx memy x1 y1 x2 y2 f1 boxsize ngridout origin originout boxsizeout,
  describes2 x1 y1 x2 y2 boxsize ngridout origin originout boxsizeout -> shape2 f1 (cells x1) (cells y1) ->
  exists f2, grid2grid2D oob memx memy f1 boxsize ngridout origin originout boxsizeout = Ok f2 /\
    shape2 f2 (cells x2) (cells y2) /\
    forall k l, (k < cells x2)%nat -> (l < cells y2)%nat ->
      regular_start x1 x2 \/ ~ side_just_below x1 x2 k -> regular_start y1 y2 \/ ~ side_just_below y1 y2 l ->
      cell f2 k l = average2 x1 y1 f1 x2 y2 k l.
Proof.
  intros oob memx memy x1 y1 x2 y2 f1 boxsize ngridout origin originout boxsizeout (P1 & Q1 & P2 & Q2 & A & B & C & D & E) Hs.
  rewrite (grid2D_ok oob memx memy x1 y1 x2 y2) by assumption. eexists. split; [reflexivity|].
  split; [now apply out2_shape|]. intros k l Hk Hl Hx Hy. now apply out2_value.
Qed.
Print Assumptions C41_exact.

Theorem C41_conserves : forall oob memx memy x1 y1 x2 y2 f1 boxsize ngridout origin originout boxsizeout,
  describes2 x1 y1 x2 y2 boxsize ngridout origin originout boxsizeout -> shape2 f1 (cells x1) (cells y1) ->
  regular_start x1 x2 -> regular_start y1 y2 -> covers x2 x1 -> covers y2 y1 ->
  exists f2, grid2grid2D oob memx memy f1 boxsize ngridout origin originout boxsizeout = Ok f2 /\
    total f2 * (width x2 * width y2) = total f1 * (width x1 * width y1).
Proof.
  intros oob memx memy x1 y1 x2 y2 f1 boxsize ngridout origin originout boxsizeout HD Hs Rx Ry Cx Cy.
  destruct (C41_exact oob memx memy x1 y1 x2 y2 f1 boxsize ngridout origin originout boxsizeout HD Hs) as (f2 & E & S2 & V).
  exists f2. split; [exact E|]. destruct HD as (P1 & Q1 & P2 & Q2 & _).
  rewrite (total_upto f1 _ _ Hs), (total_upto f2 _ _ S2), <- (conserve2 x1 y1 x2 y2 f1) by assumption. f_equal.
  apply sum_ext. intros k Hk. apply sum_ext. intros l Hl. apply V; auto.
Qed.
Print Assumptions C41_conserves.

Theorem C41_bounds : forall oob memx memy x1 y1 x2 y2 f1 boxsize ngridout origin originout boxsizeout lo hi,
  describes2 x1 y1 x2 y2 boxsize ngridout origin originout boxsizeout -> shape2 f1 (cells x1) (cells y1) ->
  covers x1 x2 -> covers y1 y2 ->
  (forall i j, (i < cells x1)%nat -> (j < cells y1)%nat -> lo <= cell f1 i j <= hi) ->
  exists f2, grid2grid2D oob memx memy f1 boxsize ngridout origin originout boxsizeout = Ok f2 /\
    forall k l, (k < cells x2)%nat -> (l < cells y2)%nat -> lo <= cell f2 k l <= hi.
Proof.
  intros oob memx memy x1 y1 x2 y2 f1 boxsize ngridout origin originout boxsizeout lo hi HD Hs Cx Cy HW.
  destruct (C41_exact oob memx memy x1 y1 x2 y2 f1 boxsize ngridout origin originout boxsizeout HD Hs) as (f2 & E & S2 & V).
  exists f2. split; [exact E|]. destruct HD as (P1 & Q1 & P2 & Q2 & _). intros k l Hk Hl.
  rewrite V by (auto; left; apply covered_start; auto; first [apply Cx|apply Cy]).
  rewrite average2_nested. apply combo_bounds.
  - intros. now apply part_nonneg.
  - intros i Hi. apply combo_bounds; [intros; now apply part_nonneg| |now apply part_sum]. intros j Hj. now apply HW.
  - now apply part_sum.
Qed.
Print Assumptions C41_bounds.

Theorem C41_constant : forall oob memx memy x1 y1 x2 y2 f1 boxsize ngridout origin originout boxsizeout c,
  describes2 x1 y1 x2 y2 boxsize ngridout origin originout boxsizeout -> shape2 f1 (cells x1) (cells y1) ->
  covers x1 x2 -> covers y1 y2 ->
  (forall i j, (i < cells x1)%nat -> (j < cells y1)%nat -> cell f1 i j = c) ->
  exists f2, grid2grid2D oob memx memy f1 boxsize ngridout origin originout boxsizeout = Ok f2 /\
    forall k l, (k < cells x2)%nat -> (l < cells y2)%nat -> cell f2 k l = c.
Proof.
  intros oob memx memy x1 y1 x2 y2 f1 boxsize ngridout origin originout boxsizeout c HD Hs Cx Cy HW.
  destruct (C41_bounds oob memx memy x1 y1 x2 y2 f1 boxsize ngridout origin originout boxsizeout c c HD Hs Cx Cy) as (f2 & E & V).
  - intros i j Hi Hj. rewrite HW by assumption. lra.
  - exists f2. split; [exact E|]. intros k l Hk Hl. specialize (V k l Hk Hl). lra.
Qed.
Print Assumptions C41_constant.

Lemma list2_ext : forall (f g : list (list R)) n c, shape2 f n c -> shape2 g n c ->
  (forall i j, (i < n)%nat -> (j < c)%nat -> cell f i j = cell g i j) -> f = g.
Proof.
  intros f g n c [F1 F2] [G1 G2] H. apply (list_ext _ _ _ []); [congruence|]. intros i Hi.
  apply (list_ext _ _ _ 0); [rewrite F2, G2; auto; lia|]. intros j Hj. rewrite F2 in Hj by exact Hi. apply H; lia.
Qed.

Theorem C41_identity : forall oob memx memy x y f1 boxsize ngridout origin originout boxsizeout,
  describes2 x y x y boxsize ngridout origin originout boxsizeout -> shape2 f1 (cells x) (cells y) ->
  grid2grid2D oob memx memy f1 boxsize ngridout origin originout boxsizeout = Ok f1.
Proof.
  intros oob memx memy x y f1 boxsize ngridout origin originout boxsizeout HD Hs.
  destruct (C41_exact oob memx memy x y x y f1 boxsize ngridout origin originout boxsizeout HD Hs) as (f2 & E & S2 & V).
  rewrite E. f_equal. destruct HD as (P & Q & _). apply (list2_ext _ _ _ _ S2 Hs). intros k l Hk Hl.
  rewrite V by (auto; left; apply covered_start; auto; lra).
  rewrite average2_nested, (sum_one _ k); [rewrite (sum_one _ l)| |]; auto.
  - rewrite !part_same, !Nat.eqb_refl by assumption. ring.
  - intros j Hj Hne. rewrite part_same by assumption. apply Nat.eqb_neq in Hne. rewrite Hne. ring.
  - intros j Hj Hne. rewrite part_same by assumption. apply Nat.eqb_neq in Hne. rewrite Hne. ring.
Qed.
Print Assumptions C41_identity.

Theorem C41_linear : forall oob memx memy x1 y1 x2 y2 f g h al be boxsize ngridout origin originout boxsizeout,
  describes2 x1 y1 x2 y2 boxsize ngridout origin originout boxsizeout ->
  shape2 f (cells x1) (cells y1) -> shape2 g (cells x1) (cells y1) -> shape2 h (cells x1) (cells y1) ->
  regular_start x1 x2 -> regular_start y1 y2 ->
  (forall i j, (i < cells x1)%nat -> (j < cells y1)%nat -> cell h i j = al * cell f i j + be * cell g i j) ->
  exists f2 g2 h2, grid2grid2D oob memx memy f boxsize ngridout origin originout boxsizeout = Ok f2 /\
    grid2grid2D oob memx memy g boxsize ngridout origin originout boxsizeout = Ok g2 /\
    grid2grid2D oob memx memy h boxsize ngridout origin originout boxsizeout = Ok h2 /\
    forall k l, (k < cells x2)%nat -> (l < cells y2)%nat -> cell h2 k l = al * cell f2 k l + be * cell g2 k l.
Proof.
  intros oob memx memy x1 y1 x2 y2 f g h al be boxsize ngridout origin originout boxsizeout HD Sf Sg Sh Rx Ry HH.
  destruct (C41_exact oob memx memy x1 y1 x2 y2 f boxsize ngridout origin originout boxsizeout HD Sf) as (f2 & Ef & _ & Vf).
  destruct (C41_exact oob memx memy x1 y1 x2 y2 g boxsize ngridout origin originout boxsizeout HD Sg) as (g2 & Eg & _ & Vg).
  destruct (C41_exact oob memx memy x1 y1 x2 y2 h boxsize ngridout origin originout boxsizeout HD Sh) as (h2 & Eh & _ & Vh).
  exists f2, g2, h2. repeat (split; [assumption|]). intros k l Hk Hl. rewrite Vf, Vg, Vh by auto.
  unfold average2. rewrite <- !sum_scal, <- sum_plus. apply sum_ext. intros i Hi.
  rewrite <- !sum_scal, <- sum_plus. apply sum_ext. intros j Hj. rewrite HH by assumption. ring.
Qed.
Print Assumptions C41_linear.

Example C41_example : describes2 (Side 0 2 2) (Side 0 3 3) (Side 0 2 1) (Side 0 3 2) (Seq [2; 3]) (Seq [1; 2]%Z) (Sca 0) (Sca 0) None
  /\ shape2 [[1; 2; 3]; [4; 5; 6]] 2 3
  /\ average2 (Side 0 2 2) (Side 0 3 3) [[1; 2; 3]; [4; 5; 6]] (Side 0 2 1) (Side 0 3 2) 0 1 = 25/6.
Proof.
  split; [|split].
  - unfold describes2, proper, pair_arg. cbn [org ext cells].
    repeat match goal with |- _ /\ _ => split end; try lra; try lia;
      first [right; eexists; reflexivity | left; split; reflexivity].
  - split; [reflexivity|]. intros [|[|i]] Hi; cbn in *; [reflexivity|reflexivity|lia].
  - assert (X : forall i, (i < 2)%nat -> part (Side 0 2 2) (Side 0 2 1) 0 i = 1/2).
    { intros [|[|i]] Hi; [| |lia]; unfold part, frac, edge, overlap; cbn [org ext cells INR];
        unfold Rmax, Rmin; repeat destruct (Rle_dec _ _); lra. }
    assert (Y0 : part (Side 0 3 3) (Side 0 3 2) 1 0 = 0).
    { unfold part, frac, edge, overlap; cbn [org ext cells INR]; unfold Rmax, Rmin; repeat destruct (Rle_dec _ _); lra. }
    assert (Y1 : part (Side 0 3 3) (Side 0 3 2) 1 1 = 1/3).
    { unfold part, frac, edge, overlap; cbn [org ext cells INR]; unfold Rmax, Rmin; repeat destruct (Rle_dec _ _); lra. }
    assert (Y2 : part (Side 0 3 3) (Side 0 3 2) 1 2 = 2/3).
    { unfold part, frac, edge, overlap; cbn [org ext cells INR]; unfold Rmax, Rmin; repeat destruct (Rle_dec _ _); lra. }
    unfold average2, sum_upto. cbn [cells seq map]. rewrite !X, !Y0, !Y1, !Y2 by lia. unfold cell. cbn [nth].
    unfold Rsum. cbn [fold_right]. lra.
Qed.

(** ** C42: three dimensions *)

Definition describes3 (x1 y1 z1 x2 y2 z2 : side) (boxsize : arg R) (n : nat) (origin originout : arg R)
  (boxsizeout : option (arg R)) : Prop :=
  proper x1 /\ proper y1 /\ proper z1 /\ proper x2 /\ proper y2 /\ proper z2 /\
  triple_arg boxsize (ext x1) (ext y1) (ext z1) /\ triple_arg origin (org x1) (org y1) (org z1) /\
  triple_arg originout (org x2) (org y2) (org z2) /\ cells x2 = n /\ cells y2 = n /\ cells z2 = n /\
  match boxsizeout with None => ext x2 = ext x1 /\ ext y2 = ext y1 /\ ext z2 = ext z1
                      | Some b => triple_arg b (ext x2) (ext y2) (ext z2) end.

Theorem C42_exact : forall oob memx memy memz x1 y1 z1 x2 y2 z2 f1 boxsize n origin originout boxsizeout,
  describes3 x1 y1 z1 x2 y2 z2 boxsize n origin originout boxsizeout -> shape3 f1 (cells x1) (cells y1) (cells z1) ->
  exists f2, grid2grid3D oob memx memy memz f1 boxsize (Sca (Z.of_nat n)) origin originout boxsizeout = Ok f2 /\
    shape3 f2 n n n /\
    forall k l m, (k < n)%nat -> (l < n)%nat -> (m < n)%nat ->
      regular_start x1 x2 \/ ~ side_just_below x1 x2 k -> regular_start y1 y2 \/ ~ side_just_below y1 y2 l ->
      regular_start z1 z2 \/ ~ side_just_below z1 z2 m ->
      cell3 f2 k l m = average3 x1 y1 z1 f1 x2 y2 z2 k l m.
Proof.
  intros oob memx memy memz x1 y1 z1 x2 y2 z2 f1 boxsize n origin originout boxsizeout
    (P1 & Q1 & R1 & P2 & Q2 & R2 & A & B & C & Nx & Ny & Nz & E) Hs.
  rewrite (grid3D_ok oob memx memy memz x1 y1 z1 x2 y2 z2) by assumption. eexists. split; [reflexivity|].
  split. { rewrite <- Nx at 1. rewrite <- Ny at 1. rewrite <- Nz. now apply out3_shape. }
  intros k l m Hk Hl Hm Hx Hy Hz. apply out3_value; auto; congruence.
Qed.
Print Assumptions C42_exact.

Lemma total3_upto : forall f n c d, shape3 f n c d ->
  total3 f = sum_upto n (fun i => sum_upto c (fun j => sum_upto d (fun h => cell3 f i j h))).
Proof.
  intros f n c d [Hn Hr]. unfold total3. rewrite Rsum_upto, map_length, Hn. apply sum_ext. intros i Hi.
  rewrite (nth_map_lt _ _ _ _ i 0 []) by lia. rewrite (total_upto _ _ _ (Hr i Hi)). reflexivity.
Qed.

Theorem C42_conserves : forall oob memx memy memz x1 y1 z1 x2 y2 z2 f1 boxsize n origin originout boxsizeout,
  describes3 x1 y1 z1 x2 y2 z2 boxsize n origin originout boxsizeout -> shape3 f1 (cells x1) (cells y1) (cells z1) ->
  regular_start x1 x2 -> regular_start y1 y2 -> regular_start z1 z2 -> covers x2 x1 -> covers y2 y1 -> covers z2 z1 ->
  exists f2, grid2grid3D oob memx memy memz f1 boxsize (Sca (Z.of_nat n)) origin originout boxsizeout = Ok f2 /\
    total3 f2 * (width x2 * width y2 * width z2) = total3 f1 * (width x1 * width y1 * width z1).
Proof.
  intros oob memx memy memz x1 y1 z1 x2 y2 z2 f1 boxsize n origin originout boxsizeout HD Hs Rx Ry Rz Cx Cy Cz.
  destruct (C42_exact oob memx memy memz x1 y1 z1 x2 y2 z2 f1 boxsize n origin originout boxsizeout HD Hs) as (f2 & E & S2 & V).
  exists f2. split; [exact E|]. destruct HD as (P1 & Q1 & R1 & P2 & Q2 & R2 & _ & _ & _ & Nx & Ny & Nz & _).
  rewrite (total3_upto f1 _ _ _ Hs), (total3_upto f2 _ _ _ S2), <- (conserve3 x1 y1 z1 x2 y2 z2 f1) by assumption. f_equal.
  rewrite Nx, Ny, Nz.
  apply sum_ext. intros k Hk. apply sum_ext. intros l Hl. apply sum_ext. intros m Hm. apply V; auto.
Qed.
Print Assumptions C42_conserves.

Theorem C42_bounds : forall oob memx memy memz x1 y1 z1 x2 y2 z2 f1 boxsize n origin originout boxsizeout lo hi,
  describes3 x1 y1 z1 x2 y2 z2 boxsize n origin originout boxsizeout -> shape3 f1 (cells x1) (cells y1) (cells z1) ->
  covers x1 x2 -> covers y1 y2 -> covers z1 z2 ->
  (forall i j h, (i < cells x1)%nat -> (j < cells y1)%nat -> (h < cells z1)%nat -> lo <= cell3 f1 i j h <= hi) ->
  exists f2, grid2grid3D oob memx memy memz f1 boxsize (Sca (Z.of_nat n)) origin originout boxsizeout = Ok f2 /\
    forall k l m, (k < n)%nat -> (l < n)%nat -> (m < n)%nat -> lo <= cell3 f2 k l m <= hi.
Proof.
  intros oob memx memy memz x1 y1 z1 x2 y2 z2 f1 boxsize n origin originout boxsizeout lo hi HD Hs Cx Cy Cz HW.
  destruct (C42_exact oob memx memy memz x1 y1 z1 x2 y2 z2 f1 boxsize n origin originout boxsizeout HD Hs) as (f2 & E & S2 & V).
  exists f2. split; [exact E|]. destruct HD as (P1 & Q1 & R1 & P2 & Q2 & R2 & _ & _ & _ & Nx & Ny & Nz & _).
  intros k l m Hk Hl Hm.
  rewrite V by (auto; left; apply covered_start; auto; first [apply Cx|apply Cy|apply Cz]).
  rewrite average3_nested. apply combo_bounds.
  - intros. now apply part_nonneg.
  - intros i Hi. apply combo_bounds; [intros; now apply part_nonneg| |apply part_sum; auto; lia].
    intros j Hj. apply combo_bounds; [intros; now apply part_nonneg| |apply part_sum; auto; lia].
    intros h Hh. now apply HW.
  - apply part_sum; auto; lia.
Qed.
Print Assumptions C42_bounds.

Theorem C42_constant : forall oob memx memy memz x1 y1 z1 x2 y2 z2 f1 boxsize n origin originout boxsizeout c,
  describes3 x1 y1 z1 x2 y2 z2 boxsize n origin originout boxsizeout -> shape3 f1 (cells x1) (cells y1) (cells z1) ->
  covers x1 x2 -> covers y1 y2 -> covers z1 z2 ->
  (forall i j h, (i < cells x1)%nat -> (j < cells y1)%nat -> (h < cells z1)%nat -> cell3 f1 i j h = c) ->
  exists f2, grid2grid3D oob memx memy memz f1 boxsize (Sca (Z.of_nat n)) origin originout boxsizeout = Ok f2 /\
    forall k l m, (k < n)%nat -> (l < n)%nat -> (m < n)%nat -> cell3 f2 k l m = c.
Proof.
  intros oob memx memy memz x1 y1 z1 x2 y2 z2 f1 boxsize n origin originout boxsizeout c HD Hs Cx Cy Cz HW.
  destruct (C42_bounds oob memx memy memz x1 y1 z1 x2 y2 z2 f1 boxsize n origin originout boxsizeout c c HD Hs Cx Cy Cz) as (f2 & E & V).
  - intros i j h Hi Hj Hh. rewrite HW by assumption. lra.
  - exists f2. split; [exact E|]. intros k l m Hk Hl Hm. specialize (V k l m Hk Hl Hm). lra.
Qed.
Print Assumptions C42_constant.

Lemma list3_ext : forall (f g : list (list (list R))) n c d, shape3 f n c d -> shape3 g n c d ->
  (forall i j h, (i < n)%nat -> (j < c)%nat -> (h < d)%nat -> cell3 f i j h = cell3 g i j h) -> f = g.
Proof.
  intros f g n c d [F1 F2] [G1 G2] H. apply (list_ext _ _ _ []); [congruence|]. intros i Hi.
  apply (list2_ext _ _ c d); [apply F2; lia|apply G2; lia|]. intros j h Hj Hh. apply H; auto; lia.
Qed.

Theorem C42_identity : forall oob memx memy memz x y z f1 boxsize n origin originout boxsizeout,
  describes3 x y z x y z boxsize n origin originout boxsizeout -> shape3 f1 n n n ->
  grid2grid3D oob memx memy memz f1 boxsize (Sca (Z.of_nat n)) origin originout boxsizeout = Ok f1.
Proof.
  intros oob memx memy memz x y z f1 boxsize n origin originout boxsizeout HD Hs.
  assert (Hs' : shape3 f1 (cells x) (cells y) (cells z)).
  { destruct HD as (_ & _ & _ & _ & _ & _ & _ & _ & _ & -> & -> & -> & _). exact Hs. }
  destruct (C42_exact oob memx memy memz x y z x y z f1 boxsize n origin originout boxsizeout HD Hs') as (f2 & E & S2 & V).
  rewrite E. f_equal. destruct HD as (P & Q & S & _ & _ & _ & _ & _ & _ & Nx & Ny & Nz & _).
  apply (list3_ext _ _ _ _ _ S2 Hs). intros k l m Hk Hl Hm.
  rewrite V by (auto; left; apply covered_start; auto; lra).
  assert (Z0 : forall s a i, proper s -> i <> a -> part s s a i = 0).
  { intros s a i Ps Hne. rewrite part_same by assumption. apply Nat.eqb_neq in Hne. now rewrite Hne. }
  assert (O0 : forall s a, proper s -> part s s a a = 1).
  { intros s a Ps. rewrite part_same by assumption. now rewrite Nat.eqb_refl. }
  rewrite average3_nested, (sum_one _ k); [rewrite (sum_one _ l); [rewrite (sum_one _ m)| |]| |]; try lia.
  - rewrite !O0 by assumption. ring.
  - intros i Hi Hne. rewrite Z0 by assumption. ring.
  - intros i Hi Hne. rewrite Z0 by assumption. ring.
  - intros i Hi Hne. rewrite Z0 by assumption. ring.
Qed.
Print Assumptions C42_identity.

Theorem C42_linear : forall oob memx memy memz x1 y1 z1 x2 y2 z2 f g h al be boxsize n origin originout boxsizeout,
  describes3 x1 y1 z1 x2 y2 z2 boxsize n origin originout boxsizeout ->
  shape3 f (cells x1) (cells y1) (cells z1) -> shape3 g (cells x1) (cells y1) (cells z1) ->
  shape3 h (cells x1) (cells y1) (cells z1) ->
  regular_start x1 x2 -> regular_start y1 y2 -> regular_start z1 z2 ->
  (forall i j e, (i < cells x1)%nat -> (j < cells y1)%nat -> (e < cells z1)%nat ->
     cell3 h i j e = al * cell3 f i j e + be * cell3 g i j e) ->
  exists f2 g2 h2,
    grid2grid3D oob memx memy memz f boxsize (Sca (Z.of_nat n)) origin originout boxsizeout = Ok f2 /\
    grid2grid3D oob memx memy memz g boxsize (Sca (Z.of_nat n)) origin originout boxsizeout = Ok g2 /\
    grid2grid3D oob memx memy memz h boxsize (Sca (Z.of_nat n)) origin originout boxsizeout = Ok h2 /\
    forall k l m, (k < n)%nat -> (l < n)%nat -> (m < n)%nat ->
      cell3 h2 k l m = al * cell3 f2 k l m + be * cell3 g2 k l m.
Proof.
  intros oob memx memy memz x1 y1 z1 x2 y2 z2 f g h al be boxsize n origin originout boxsizeout HD Sf Sg Sh Rx Ry Rz HH.
  destruct (C42_exact oob memx memy memz x1 y1 z1 x2 y2 z2 f boxsize n origin originout boxsizeout HD Sf) as (f2 & Ef & _ & Vf).
  destruct (C42_exact oob memx memy memz x1 y1 z1 x2 y2 z2 g boxsize n origin originout boxsizeout HD Sg) as (g2 & Eg & _ & Vg).
  destruct (C42_exact oob memx memy memz x1 y1 z1 x2 y2 z2 h boxsize n origin originout boxsizeout HD Sh) as (h2 & Eh & _ & Vh).
  exists f2, g2, h2. repeat (split; [assumption|]). intros k l m Hk Hl Hm. rewrite Vf, Vg, Vh by auto.
  unfold average3. rewrite <- !sum_scal, <- sum_plus. apply sum_ext. intros i Hi.
  rewrite <- !sum_scal, <- sum_plus. apply sum_ext. intros j Hj.
  rewrite <- !sum_scal, <- sum_plus. apply sum_ext. intros e He. rewrite HH by assumption. ring.
Qed.
Print Assumptions C42_linear.

Example C42_example :
  describes3 (Side 0 2 2) (Side 0 2 2) (Side 0 2 2) (Side 0 2 1) (Side 0 2 1) (Side 0 2 1) (Sca 2) 1 (Sca 0) (Sca 0) (Some (Seq [2; 2; 2]))
  /\ shape3 [[[1; 2]; [3; 4]]; [[5; 6]; [7; 8]]] 2 2 2
  /\ average3 (Side 0 2 2) (Side 0 2 2) (Side 0 2 2) [[[1; 2]; [3; 4]]; [[5; 6]; [7; 8]]] (Side 0 2 1) (Side 0 2 1) (Side 0 2 1) 0 0 0 = 9/2.
Proof.
  split; [|split].
  - unfold describes3, proper, triple_arg. cbn [org ext cells].
    repeat match goal with |- _ /\ _ => split end; try lra; try lia;
      first [right; eexists; reflexivity | left; repeat split; reflexivity].
  - split; [reflexivity|]. intros [|[|i]] Hi; cbn in *; [| |lia]; (split; [reflexivity|]; intros [|[|j]] Hj; cbn in *; [reflexivity|reflexivity|lia]).
  - assert (E : forall i, (i < 2)%nat -> part (Side 0 2 2) (Side 0 2 1) 0 i = 1/2).
    { intros [|[|i]] Hi; [| |lia]; unfold part, frac, edge, overlap; cbn [org ext cells INR];
        unfold Rmax, Rmin; repeat destruct (Rle_dec _ _); lra. }
    unfold average3, sum_upto. cbn [cells seq map]. rewrite !E by lia. unfold cell3. cbn [nth]. unfold Rsum. cbn [fold_right]. lra.
Qed.

(** ** C43: weights that are never assigned *)

(** Leading output cells inside the phantom cell just below the source grid
    are computed from whatever the local arrays held on entry. *)
Theorem C43_uninitialised : forall oob mem f1 box n o oout boxout,
  f1 <> [] -> 0 < box -> 0 < boxout -> (1 <= n)%nat -> just_below o box (length f1) oout boxout n 0 ->
  exists len f2, (1 <= len)%nat /\ grid2grid1D oob mem f1 box (Z.of_nat n) o oout (Some boxout) = Ok f2 /\
    forall k, (k < n)%nat -> just_below o box (length f1) oout boxout n k ->
      (forall p w, In (p, w) (mem len) -> p = (-1)%Z \/ (0 <= p < Z.of_nat (length f1))%Z) ->
      nth k f2 0 = Rsum (map (fun pw => snd pw * nth (Z.to_nat (fst pw)) f1 0)
                             (filter (fun pw => negb (fst pw =? -1)%Z) (mem len))).
Proof.
  intros oob mem f1 box n o oout boxout Hf Hb Hbo Hn B0.
  pose proof (proper1 o box f1 Hb Hf) as P1. assert (P2 : proper (Side oout boxout n)) by (split; assumption).
  set (a := ax_sides (side1 o box f1) (Side oout boxout n)). exists (Z.to_nat (get_remap_pix_len a)).
  rewrite grid1D_ok. eexists. split; [|split; [reflexivity|]].
  - pose proof (pix_len_pos a (side_d1 _ _ P1) (side_d2 _ _ P2)). lia.
  - intros k Hk Bk HM. rewrite (out1_bad oob mem (side1 o box f1) (Side oout boxout n) f1 k P1 P2 Hk B0 Bk). fold a.
    rewrite accumulate_wsum. unfold wsum.
    set (l := mem (Z.to_nat (get_remap_pix_len a))) in *. clearbody l. clear - HM.
    induction l as [|[p w] l IH]; [reflexivity|]. cbn [map filter fst snd].
    rewrite Rsum_cons, IH by (intros q v Hq; apply (HM q v); now right).
    destruct (Z.eqb_spec p (-1)) as [E|E]; cbn [negb map fst snd]; [ring|].
    rewrite Rsum_cons. f_equal. f_equal. apply read_in. destruct (HM p w); [now left|congruence|assumption].
Qed.
Print Assumptions C43_uninitialised.

(** So any value at all can come out (given a non-zero first input value). *)
Theorem C43_any_value : forall oob f1 box n o oout boxout v,
  f1 <> [] -> nth 0 f1 0 <> 0 -> 0 < box -> 0 < boxout -> (1 <= n)%nat -> just_below o box (length f1) oout boxout n 0 ->
  exists mem f2, grid2grid1D oob mem f1 box (Z.of_nat n) o oout (Some boxout) = Ok f2 /\
    (forall len, (1 <= len)%nat -> length (mem len) = len) /\
    forall k, (k < n)%nat -> just_below o box (length f1) oout boxout n k -> nth k f2 0 = v.
Proof.
  intros oob f1 box n o oout boxout v Hf Hv Hb Hbo Hn B0.
  exists (fun len => (0%Z, v / nth 0 f1 0) :: repeat ((-1)%Z, 0) (len - 1)).
  set (mem := fun len : nat => (0%Z, v / nth 0 f1 0) :: repeat ((-1)%Z, 0) (len - 1)).
  destruct (C43_uninitialised oob mem f1 box n o oout boxout Hf Hb Hbo Hn B0) as (len & f2 & HL & E & V).
  exists f2. split; [exact E|]. split.
  - intros m Hm. cbn. rewrite repeat_length. lia.
  - intros k Hk Bk. rewrite (V k Hk Bk).
    + unfold mem. cbn [filter fst]. replace (negb (0 =? -1)%Z) with true by reflexivity. cbn [map fst snd].
      replace (filter (fun pw => negb (fst pw =? -1)%Z) (repeat ((-1)%Z, 0) (len - 1))) with (@nil (Z * R)).
      * cbn [map]. rewrite Rsum_cons. change (Z.to_nat 0) with 0%nat. change (Rsum []) with 0. field. exact Hv.
      * generalize (len - 1)%nat. induction n0 as [|q IH]; [reflexivity|]. cbn. exact IH.
    + intros p w [H|H]; [injection H as <- <-; right; destruct f1; [congruence|cbn; lia]|].
      left. apply repeat_spec in H. now injection H.
Qed.
Print Assumptions C43_any_value.

(** In two dimensions the leading [y] cells of every row but the first receive
    the value of the last cell of the row instead of zero. *)
Theorem C43_two_dimensions : forall oob memx memy x1 y1 x2 y2 f1 boxsize ngridout origin originout boxsizeout,
  describes2 x1 y1 x2 y2 boxsize ngridout origin originout boxsizeout -> shape2 f1 (cells x1) (cells y1) ->
  regular_start x1 x2 -> side_just_below y1 y2 0 -> ~ side_just_below y1 y2 (cells y2 - 1) ->
  exists f2, grid2grid2D oob memx memy f1 boxsize ngridout origin originout boxsizeout = Ok f2 /\
    forall k l, (1 <= k < cells x2)%nat -> (l < cells y2)%nat -> side_just_below y1 y2 l ->
      average2 x1 y1 f1 x2 y2 k l = 0 /\ cell f2 k l = average2 x1 y1 f1 x2 y2 k (cells y2 - 1) /\
      cell f2 k l = cell f2 k (cells y2 - 1).
Proof.
  intros oob memx memy x1 y1 x2 y2 f1 boxsize ngridout origin originout boxsizeout (P1 & Q1 & P2 & Q2 & A & B & C & D & E) Hs Rx B0 Be.
  rewrite (grid2D_ok oob memx memy x1 y1 x2 y2) by assumption. eexists. split; [reflexivity|].
  intros k l Hk Hl Bl.
  assert (V : cell (out2 oob memx memy x1 y1 x2 y2 f1) k l = average2 x1 y1 f1 x2 y2 k (cells y2 - 1))
    by (apply out2_stale; auto; lia).
  split; [|split; [exact V|]].
  - rewrite average2_nested. apply sum_zero. intros i Hi. rewrite sum_zero; [ring|]. intros j Hj.
    replace (part y1 y2 l j) with 0; [ring|]. symmetry. unfold part, frac.
    destruct Q1 as [Q1a Q1b]. pose proof (edge_le (org y1) (ext y1) (cells y1) Q1a Q1b 0 j ltac:(lia)) as G. rewrite edge_0 in G.
    pose proof (edge_le (org y1) (ext y1) (cells y1) Q1a Q1b j (S j) ltac:(lia)) as G2.
    destruct Bl as [_ Bl]. unfold overlap.
    rewrite Rmin_left, Rmax_left; [unfold Rdiv; ring| |lra].
    pose proof (Rmax_r (edge (org y2) (ext y2) (cells y2) l) (edge (org y1) (ext y1) (cells y1) j)). lra.
  - rewrite V. symmetry. apply out2_value; auto; destruct Q2; lia.
Qed.
Print Assumptions C43_two_dimensions.

(** The expectation "cells outside the source domain get zero" fails. *)
Theorem C43_refuted : exists f1 box n o oout boxout mem,
  f1 <> [] /\ 0 < box /\ 0 < boxout /\ (1 <= n)%nat /\
  (forall len, (1 <= len)%nat -> length (mem len) = len) /\
  cell_average o box f1 oout boxout n 0 = 0 /\
  forall oob, exists f2, grid2grid1D oob mem f1 box (Z.of_nat n) o oout (Some boxout) = Ok f2 /\ nth 0 f2 0 = 7.
Proof.
  assert (B : just_below 0 1 (length [1]) (-9/10) (18/10) 3 0).
  { unfold just_below, edge. cbn [length INR]. lra. }
  exists [1], 1, 3%nat, 0, (-9/10), (18/10), (fun len => (0%Z, 7) :: repeat ((-1)%Z, 0) (len - 1)).
  split; [discriminate|]. split; [lra|]. split; [lra|]. split; [lia|].
  split. { intros len Hl. cbn. rewrite repeat_length. lia. }
  split. { unfold cell_average, sum_upto, frac, edge, overlap. cbn [length seq map nth INR]. unfold Rsum. cbn [fold_right].
    unfold Rmax, Rmin. repeat destruct (Rle_dec _ _); lra. }
  intros oob.
  destruct (C43_uninitialised oob (fun len => (0%Z, 7) :: repeat ((-1)%Z, 0) (len - 1)) [1] 1 3 0 (-9/10) (18/10)) as (len & f2 & HL & E & V);
    [discriminate|lra|lra|lia|exact B|].
  exists f2. split; [exact E|]. rewrite (V 0%nat ltac:(lia) B).
  - cbn [filter fst]. replace (negb (0 =? -1)%Z) with true by reflexivity. cbn [map fst snd].
    replace (filter (fun pw => negb (fst pw =? -1)%Z) (repeat ((-1)%Z, 0) (len - 1))) with (@nil (Z * R)).
    + cbn [map]. rewrite Rsum_cons. cbn. change (Rsum []) with 0. ring.
    + generalize (len - 1)%nat. induction n as [|q IH]; [reflexivity|]. cbn. exact IH.
  - intros p w [H|H]; [injection H as <- <-; right; cbn; lia|].
    left. apply repeat_spec in H. now injection H.
Qed.
Print Assumptions C43_refuted.

(** In two dimensions the failure does not depend on memory contents. *)
Theorem C43_two_dimensions_refuted : exists x1 y1 x2 y2 f1 boxsize ngridout origin originout boxsizeout k l,
  describes2 x1 y1 x2 y2 boxsize ngridout origin originout boxsizeout /\ shape2 f1 (cells x1) (cells y1) /\
  (k < cells x2)%nat /\ (l < cells y2)%nat /\ average2 x1 y1 f1 x2 y2 k l = 0 /\
  forall oob memx memy, exists f2,
    grid2grid2D oob memx memy f1 boxsize ngridout origin originout boxsizeout = Ok f2 /\ cell f2 k l = 5.
Proof.
  set (x := Side 0 2 2). set (y1 := Side 0 1 1). set (y2 := Side (-9/10) (18/10) 3).
  exists x, y1, x, y2, [[3]; [5]], (Seq [2; 1]), (Seq [2; 3]%Z), (Sca 0), (Seq [0; -9/10]), (Some (Seq [2; 18/10])), 1%nat, 0%nat.
  assert (HD : describes2 x y1 x y2 (Seq [2; 1]) (Seq [2; 3]%Z) (Sca 0) (Seq [0; -9/10]) (Some (Seq [2; 18/10]))).
  { unfold describes2, proper, pair_arg. cbn [org ext cells x y1 y2].
    repeat match goal with |- _ /\ _ => split end; try lra; try lia;
      first [right; eexists; reflexivity | left; repeat split; reflexivity]. }
  assert (Hs : shape2 [[3]; [5]] (cells x) (cells y1)).
  { split; [reflexivity|]. intros [|[|i]] Hi; cbn in *; [reflexivity|reflexivity|lia]. }
  assert (B0 : side_just_below y1 y2 0).
  { unfold side_just_below, just_below, edge, y1, y2. cbn [org ext cells INR]. lra. }
  assert (Be : ~ side_just_below y1 y2 (cells y2 - 1)).
  { unfold side_just_below, just_below, edge, y1, y2. cbn [org ext cells INR Nat.sub]. lra. }
  assert (Rx : regular_start x x). { apply covered_start; [split; cbn; [lra|lia]|lra]. }
  destruct (C43_two_dimensions (fun _ => 0) (fun _ => []) (fun _ => []) x y1 x y2 _ _ _ _ _ _ HD Hs Rx B0 Be) as (f0 & _ & V0).
  destruct (V0 1%nat 0%nat ltac:(cbn; lia) ltac:(cbn; lia) B0) as (Z0 & _ & _).
  split; [exact HD|]. split; [exact Hs|]. split; [cbn; lia|]. split; [cbn; lia|]. split; [exact Z0|].
  intros oob memx memy.
  destruct (C43_two_dimensions oob memx memy x y1 x y2 _ _ _ _ _ _ HD Hs Rx B0 Be) as (f2 & E & V).
  exists f2. split; [exact E|]. destruct (V 1%nat 0%nat ltac:(cbn; lia) ltac:(cbn; lia) B0) as (_ & -> & _).
  rewrite average2_nested. unfold sum_upto. cbn [cells x y1 y2 seq map Nat.sub].
  fold x. fold y1. fold y2. rewrite !(part_same x) by (split; cbn; [lra|lia]). cbn [Nat.eqb].
  replace (part y1 y2 2 0) with 1.
  - unfold Rsum, cell. cbn [fold_right nth]. ring.
  - unfold part, frac, edge, overlap, y1, y2. cbn [org ext cells INR]. unfold Rmax, Rmin. repeat destruct (Rle_dec _ _); lra.
Qed.
Print Assumptions C43_two_dimensions_refuted.

(** ** C44: default arguments *)

Theorem C44_1d_default : forall oob mem f1 boxsize ngridout origin originout,
  grid2grid1D oob mem f1 boxsize ngridout origin originout None = Err TypeError.
Proof. reflexivity. Qed.
Print Assumptions C44_1d_default.

(** Leaving [boxsizeout] out works in two dimensions and, with a scalar
    [ngridout], in three. *)
Theorem C44_2d_default : forall oob memx memy f1 boxsize ngridout origin originout,
  grid2grid2D oob memx memy f1 boxsize ngridout origin originout None
  = grid2grid2D oob memx memy f1 boxsize ngridout origin originout (Some boxsize).
Proof. intros. unfold grid2grid2D. destruct (two boxsize) as [[a b]|e]; reflexivity. Qed.
Print Assumptions C44_2d_default.

Theorem C44_3d_default : forall oob memx memy memz f1 boxsize ngridout origin originout,
  grid2grid3D oob memx memy memz f1 boxsize ngridout origin originout None
  = grid2grid3D oob memx memy memz f1 boxsize ngridout origin originout (Some boxsize).
Proof. intros. unfold grid2grid3D. destruct (three boxsize) as [[[a b] c]|e]; reflexivity. Qed.
Print Assumptions C44_3d_default.

(** A list of grid sizes never works in three dimensions. *)
Theorem C44_3d_list : forall oob memx memy memz f1 boxsize nx ny nz rest origin originout boxsizeout bx by_ bz ox oy oz px py pz,
  triple_arg boxsize bx by_ bz -> triple_arg origin ox oy oz -> triple_arg originout px py pz ->
  (forall b, boxsizeout = Some b -> exists u v w, triple_arg b u v w) ->
  grid2grid3D oob memx memy memz f1 boxsize (Seq (nx :: ny :: nz :: rest)) origin originout boxsizeout = Err ValueError.
Proof.
  intros oob memx memy memz f1 boxsize nx ny nz rest origin originout boxsizeout bx by_ bz ox oy oz px py pz A B C D.
  unfold grid2grid3D. rewrite (three_ok _ _ _ _ _ A), (three_ok _ _ _ _ _ B), (three_ok _ _ _ _ _ C). cbn [bind].
  destruct boxsizeout as [b|].
  - destruct (D b eq_refl) as (u & v & w & T). rewrite (three_ok _ _ _ _ _ T). reflexivity.
  - reflexivity.
Qed.
Print Assumptions C44_3d_list.

Theorem C44_3d_list_never : forall oob memx memy memz f1 boxsize l origin originout boxsizeout f2,
  grid2grid3D oob memx memy memz f1 boxsize (Seq l) origin originout boxsizeout <> Ok f2.
Proof.
  intros oob memx memy memz f1 boxsize l origin originout boxsizeout f2. unfold grid2grid3D.
  destruct (three boxsize) as [[[a b] c]|e]; [|discriminate]. cbn [bind].
  destruct (match boxsizeout with None => _ | Some b => three b end) as [[[a' b'] c']|e]; [|discriminate]. cbn [bind].
  destruct (three origin) as [[[a1 b1] c1]|e]; [|discriminate]. cbn [bind].
  destruct (three originout) as [[[a2 b2] c2]|e]; [|discriminate]. cbn [bind].
  destruct (three (Seq l)) as [[[a3 b3] c3]|e]; discriminate.
Qed.
Print Assumptions C44_3d_list_never.

(** Two dimensions accept a list and a scalar, see [pair_arg] in C41. *)
Example C44_example : forall oob memx memy,
  exists f2, grid2grid2D oob memx memy [[1]] (Sca 1) (Seq [2; 2]%Z) (Sca 0) (Sca 0) None = Ok f2.
Proof. intros. eexists. reflexivity. Qed.

(** The expectation on defaults fails in one dimension (and with a list in three). *)
Theorem C44_refuted : exists f1 boxsize ngridout origin originout,
  f1 <> [] /\ 0 < boxsize /\ (1 <= ngridout)%Z /\
  forall oob mem, grid2grid1D oob mem f1 boxsize ngridout origin originout None
    <> grid2grid1D oob mem f1 boxsize ngridout origin originout (Some boxsize).
Proof.
  exists [1], 1, 1%Z, 0, 0. repeat split; try discriminate; try lra; try lia.
Qed.
Print Assumptions C44_refuted.
