(** * Grid remapping in double precision (C89) *)

From Coq Require Import Reals ZArith List Bool Lia Lra Psatz.
From Flocq Require Import Core IEEE754.BinarySingleNaN.
From Verif Require Import Base BaseP MHealpixFloat PHealpixFloat SpecDouble SpecGrid SpecRemap SpecRemapDouble MDouble PDouble MGridsDouble PGridsDouble PSumDouble PRemap PRemap2
  MRemap MRemapDouble PRemapDouble PRemapDouble2 PRemapDouble3 PRemapDouble4 PRemapDouble5.
Import ListNotations.
Open Scope R_scope.

Local Existing Instance p53.

Lemma grid_ok : forall oob mem f1 B1 m o1 o2 B2 f2, grid2grid1D_d oob mem f1 B1 (Z.of_nat m) o1 o2 (Some B2) = Ok f2 ->
  length f2 = m /\ forall k, (k < m)%nat -> exists bd, nth k f2 dzero = accumulate_d f1 oob (remap_pixel_d (ax o1 B1 (length f1) o2 B2 m) (Z.of_nat k) (Z.to_nat (LZ o1 B1 (length f1) o2 B2 m)) bd).
Proof.
  intros oob mem f1 B1 m o1 o2 B2 f2 H. unfold grid2grid1D_d in H. apply Ok_inj in H. subst f2. unfold remap_1d_grid2grid_d.
  change (n2 _) with (Z.of_nat m). rewrite Nat2Z.id. split; [rewrite loop_length; apply seq_length|].
  intros k Hk. destruct (loop_nth oob (ax o1 B1 (length f1) o2 B2 m) (Z.to_nat (LZ o1 B1 (length f1) o2 B2 m)) f1 (seq 0 m) (mem (Z.to_nat (LZ o1 B1 (length f1) o2 B2 m))) k) as [bd E]; [rewrite seq_length; exact Hk|].
  exists bd. rewrite seq_nth in E by exact Hk. exact E.
Qed.

(** Every output cell is finite and within [2^-45 (X/w1 + X/w2) M] of the exact
    average, for all contents of the local arrays. *)
Theorem C89_remap : forall X M oob mem (f1 : list double) boxsize ngridout origin originout boxsizeout,
  moderate X -> moderate M -> grid_within X origin boxsize (length f1) -> grid_within X originout boxsizeout ngridout -> values_within M f1 ->
  exists f2, grid2grid1D_d oob mem f1 boxsize (Z.of_nat ngridout) origin originout (Some boxsizeout) = Ok f2 /\ length f2 = ngridout /\
  forall k, (k < ngridout)%nat -> clear_below X (val origin) (val boxsize) (length f1) (val originout) (val boxsizeout) ngridout k ->
    fin (nth k f2 dzero) /\
    Rabs (val (nth k f2 dzero) - cell_average (val origin) (val boxsize) (map val f1) (val originout) (val boxsizeout) ngridout k)
      <= b2 (-45) * (X / (val boxsize / INR (length f1)) + X / (val boxsizeout / INR ngridout)) * M.
Proof.
  intros X M oob mem f1 B1 m o1 o2 B2 HX HM G1 G2 Hf. destruct (grid2grid1D_d oob mem f1 B1 (Z.of_nat m) o1 o2 (Some B2)) as [f2|ex] eqn:E; [|discriminate E].
  exists f2. split; [reflexivity|]. apply grid_ok in E. destruct E as [HL E]. split; [exact HL|]. intros k Hk Hc. destruct (E k Hk) as [bd ->].
  assert (C : clear_of_below X o1 B1 (length f1) o2 B2 m k).
  { unfold clear_below in Hc. rewrite margin_e in Hc. exact Hc. }
  pose proof (pixel_fair X HX o1 B1 (length f1) o2 B2 m G1 G2 k Hk bd C) as F.
  destruct (fair_result X HX o1 B1 f1 o2 B2 m G1 G2 oob M HM Hf k _ F) as [A B]. split; [exact A|].
  replace (cell_average (val o1) (val B1) (map val f1) (val o2) (val B2) m k) with (exact_cell o1 B1 f1 o2 B2 m k); [exact B|].
  unfold exact_cell, cell_average. rewrite map_length. apply sum_ext. intros i Hi. unfold part, s1, s2. cbn [org ext cells]. f_equal. symmetry. rewrite <- val_zero. apply map_nth.
Qed.
Print Assumptions C89_remap.

(** Resampling on the same grid returns the same values, exactly. *)
Theorem C89_identity : forall X oob mem (f1 : list double) boxsize origin,
  moderate X -> grid_within X origin boxsize (length f1) -> (forall x, In x f1 -> fin x) ->
  exists f2, grid2grid1D_d oob mem f1 boxsize (Z.of_nat (length f1)) origin origin (Some boxsize) = Ok f2 /\ length f2 = length f1 /\
  forall k, (k < length f1)%nat -> fin (nth k f2 dzero) /\ val (nth k f2 dzero) = val (nth k f1 dzero).
Proof.
  intros X oob mem f1 B o HX G Hf. destruct (grid2grid1D_d oob mem f1 B (Z.of_nat (length f1)) o o (Some B)) as [f2|ex] eqn:E; [|discriminate E].
  exists f2. split; [reflexivity|]. apply grid_ok in E. destruct E as [HL E]. split; [exact HL|]. intros k Hk. destruct (E k Hk) as [bd ->].
  exact (same_value X HX o B f1 G k Hk oob bd Hf).
Qed.
Print Assumptions C89_identity.

(** An output cell inside one source cell, by a margin, takes its value exactly
    when every source value is finite... *)
Theorem C89_inside : forall X oob mem (f1 : list double) boxsize ngridout origin originout boxsizeout k p,
  moderate X -> grid_within X origin boxsize (length f1) -> grid_within X originout boxsizeout ngridout -> (forall x, In x f1 -> fin x) ->
  (k < ngridout)%nat -> (p < length f1)%nat ->
  edge (val origin) (val boxsize) (length f1) p + b2 (-48) * X <= edge (val originout) (val boxsizeout) ngridout k ->
  edge (val originout) (val boxsizeout) ngridout (S k) + b2 (-48) * X <= edge (val origin) (val boxsize) (length f1) (S p) ->
  exists f2, grid2grid1D_d oob mem f1 boxsize (Z.of_nat ngridout) origin originout (Some boxsizeout) = Ok f2 /\
    fin (nth k f2 dzero) /\ val (nth k f2 dzero) = val (nth p f1 dzero).
Proof.
  intros X oob mem f1 B1 m o1 o2 B2 k p HX G1 G2 Hf Hk Hp H1 H2. destruct (grid2grid1D_d oob mem f1 B1 (Z.of_nat m) o1 o2 (Some B2)) as [f2|ex] eqn:E; [|discriminate E].
  exists f2. split; [reflexivity|]. apply grid_ok in E. destruct E as [HL E]. destruct (E k Hk) as [bd ->].
  destruct (inside_P X HX o1 B1 (length f1) o2 B2 m G1 G2 k p Hk Hp H1 H2) as [Q1 Q2]. rewrite (inside_buffers o1 B1 (length f1) o2 B2 m k p Hk Hp Q1 Q2).
  destruct (L_bounds X HX o1 B1 (length f1) o2 B2 m G1 G2) as (L2 & _).
  assert (L2' : (2 <= Z.to_nat (LZ o1 B1 (length f1) o2 B2 m))%nat) by (clear - L2; lia).
  pose proof (inside_value f1 oob (ax o1 B1 (length f1) o2 B2 m) (Z.of_nat p) (Z.to_nat (LZ o1 B1 (length f1) o2 B2 m)) eq_refl ltac:(clear - Hp; lia) L2' Hf) as V. rewrite Nat2Z.id in V. exact V.
Qed.
Print Assumptions C89_inside.

(** ... but is NaN whenever the next source cell is infinite or NaN. *)
Theorem C89_nan : forall X oob mem (f1 : list double) boxsize ngridout origin originout boxsizeout k p,
  moderate X -> grid_within X origin boxsize (length f1) -> grid_within X originout boxsizeout ngridout ->
  (k < ngridout)%nat -> (S p < length f1)%nat ->
  edge (val origin) (val boxsize) (length f1) p + b2 (-48) * X <= edge (val originout) (val boxsizeout) ngridout k ->
  edge (val originout) (val boxsizeout) ngridout (S k) + b2 (-48) * X <= edge (val origin) (val boxsize) (length f1) (S p) ->
  ~ fin (nth (S p) f1 dzero) ->
  exists f2, grid2grid1D_d oob mem f1 boxsize (Z.of_nat ngridout) origin originout (Some boxsizeout) = Ok f2 /\ nth k f2 dzero = B754_nan.
Proof.
  intros X oob mem f1 B1 m o1 o2 B2 k p HX G1 G2 Hk Hp H1 H2 Hn. destruct (grid2grid1D_d oob mem f1 B1 (Z.of_nat m) o1 o2 (Some B2)) as [f2|ex] eqn:E; [|discriminate E].
  exists f2. split; [reflexivity|]. apply grid_ok in E. destruct E as [HL E]. destruct (E k Hk) as [bd ->].
  assert (Hp' : (p < length f1)%nat) by lia.
  destruct (inside_P X HX o1 B1 (length f1) o2 B2 m G1 G2 k p Hk Hp' H1 H2) as [Q1 Q2]. rewrite (inside_buffers o1 B1 (length f1) o2 B2 m k p Hk Hp' Q1 Q2).
  destruct (L_bounds X HX o1 B1 (length f1) o2 B2 m G1 G2) as (L2 & _).
  apply inside_nan; [reflexivity|lia|lia|lia|]. replace (Z.to_nat (Z.of_nat p + 1)) with (S p) by lia. exact Hn.
Qed.
Print Assumptions C89_nan.

(** Two cells of width one, values 3 and [x], on six cells of width 1/3. *)
Lemma grids_ok : grid_within 2 (dint 0) (dint 2) 2 /\ grid_within 2 (dint 0) (dint 2) 6.
Proof.
  destruct (dint_ok 0) as [A1 A2]; [lia|]. destruct (dint_ok 2) as [C1 C2]; [lia|].
  assert (Q : b2 (-20) <= / 1024) by (change (/ 1024) with (b2 (-10)); apply bpow_le; lia). pose proof (bpow_gt_0 radix2 (-20)).
  unfold grid_within. rewrite A2, C2, Rabs_R0. cbn [INR]. repeat split; try assumption; try lia; lra.
Qed.

Example C89_example : forall oob mem, exists f2, grid2grid1D_d oob mem [dint 3; dint 5] (dint 2) 6 (dint 0) (dint 0) (Some (dint 2)) = Ok f2 /\
  length f2 = 6%nat /\ val (nth 1 f2 dzero) = 3 /\ Rabs (val (nth 4 f2 dzero) - 5) <= b2 (-38).
Proof.
  intros oob mem. destruct grids_ok as [G1 G2]. destruct (dint_ok 0) as [A1 A2]; [lia|]. destruct (dint_ok 2) as [C1 C2]; [lia|]. destruct (dint_ok 3) as [D1 D2]; [lia|]. destruct (dint_ok 5) as [E1 E2]; [lia|].
  assert (MX : moderate 2) by (split; change 2 with (b2 1); apply bpow_le; lia). assert (MM : moderate 8) by (split; change 8 with (b2 3); apply bpow_le; lia).
  assert (V : values_within 8 [dint 3; dint 5]) by (intros x [<- |[<- |[]]]; [rewrite D2|rewrite E2]; (split; [assumption|rewrite Rabs_pos_eq; lra])).
  pose proof (C89_remap 2 8 oob mem [dint 3; dint 5] (dint 2) 6 (dint 0) (dint 0) (dint 2) MX MM G1 G2 V) as (f2 & R & L & H).
  assert (B48 : b2 (-48) <= / 1024) by (change (/ 1024) with (b2 (-10)); apply bpow_le; lia). pose proof (bpow_gt_0 radix2 (-48)) as P48.
  exists f2. split; [exact R|]. split; [exact L|]. split.
  - pose proof (C89_inside 2 oob mem [dint 3; dint 5] (dint 2) 6 (dint 0) (dint 0) (dint 2) 1 0 MX G1 G2 ltac:(intros x Hx; apply (V x Hx)) ltac:(lia) ltac:(cbn; lia)) as I.
    unfold edge in I. rewrite A2, C2 in I. cbn [length INR] in I. destruct I as (f2' & R' & _ & I); [lra|lra|]. change (Z.of_nat 6) with 6%Z in R'. change (Z.of_nat 6) with 6%Z in R. rewrite R in R'. apply Ok_inj in R'. subst f2'. rewrite I. exact D2.
  - destruct (H 4%nat ltac:(lia)) as [_ K]; [left; rewrite A2; lra|]. replace (cell_average _ _ _ _ _ _ _) with 5 in K.
    + apply Rle_trans with (1 := K). rewrite C2. cbn [length INR]. apply Rle_trans with (b2 (-45) * b2 7); [|rewrite <- bpow_plus; apply bpow_le; lia]. rewrite Rmult_assoc. apply Rmult_le_compat_l; [apply bpow_ge_0|]. change (b2 7) with 128. lra.
    + unfold cell_average, frac, edge, overlap, sum_upto. cbn [map length seq nth Rsum fold_right]. rewrite A2, C2, D2, E2. cbn [INR]. unfold Rmax, Rmin. repeat destruct (Rle_dec _ _); lra.
Qed.

(** Expectation: an output cell inside one source cell takes its value. *)
Theorem C89_refuted : exists X (f1 : list double) boxsize ngridout origin originout boxsizeout k p,
  moderate X /\ grid_within X origin boxsize (length f1) /\ grid_within X originout boxsizeout ngridout /\ (k < ngridout)%nat /\ (p < length f1)%nat /\
  edge (val origin) (val boxsize) (length f1) p < edge (val originout) (val boxsizeout) ngridout k /\
  edge (val originout) (val boxsizeout) ngridout (S k) < edge (val origin) (val boxsize) (length f1) (S p) /\
  fin (nth p f1 dzero) /\
  forall oob mem, exists f2, grid2grid1D_d oob mem f1 boxsize (Z.of_nat ngridout) origin originout (Some boxsizeout) = Ok f2 /\ nth k f2 dzero = B754_nan.
Proof.
  exists 2, [dint 3; B754_nan], (dint 2), 6%nat, (dint 0), (dint 0), (dint 2), 1%nat, 0%nat.
  destruct grids_ok as [G1 G2]. destruct (dint_ok 0) as [A1 A2]; [lia|]. destruct (dint_ok 2) as [C1 C2]; [lia|]. destruct (dint_ok 3) as [D1 D2]; [lia|].
  assert (MX : moderate 2) by (split; change 2 with (b2 1); apply bpow_le; lia).
  assert (B48 : b2 (-48) <= / 1024) by (change (/ 1024) with (b2 (-10)); apply bpow_le; lia). pose proof (bpow_gt_0 radix2 (-48)) as P48.
  split; [exact MX|]. split; [exact G1|]. split; [exact G2|]. split; [lia|]. split; [cbn; lia|].
  unfold edge. rewrite A2, C2. cbn [length INR]. split; [lra|]. split; [lra|]. split; [exact D1|].
  intros oob mem. apply (C89_nan 2 oob mem [dint 3; B754_nan] (dint 2) 6 (dint 0) (dint 0) (dint 2) 1 0 MX G1 G2); [lia|cbn; lia| | |].
  - unfold edge. rewrite A2, C2. cbn [length INR]. lra.
  - unfold edge. rewrite A2, C2. cbn [length INR]. lra.
  - intros H. discriminate H.
Qed.
Print Assumptions C89_refuted.
