(** * Theorems: refused and degenerate arguments (C25, C50, C52, C60, C62, C63, C64, C69) *)

From Coq Require Import Reals ZArith List Bool Lia Lra.
From Flocq Require Import Core.Raux.
From Verif Require PGrids.
From Verif Require Import Base BaseP SpecGrid SpecSphere SpecRandoms SpecMonte SpecDense SpecCube MGrids MDense MRandoms MPolarCoords MUsphere MCoords MOrtho MHeal MMonte MCube MMonteShell
  PPolarCoords PRandoms PHealpixBoundary PDense PMonte PCube PMonteShell TMonte TMonteShell.
Import ListNotations.
Open Scope R_scope.

(** ** C25: [rotate_polar] with an array of angles *)
Theorem C25_array : forall phi,
  rotate_polar phi (NdArray []) = Err AssertionError /\
  (forall x, ~ 0 < x < 2 * PI -> rotate_polar phi (NdArray [x]) = Err AssertionError) /\
  (forall l, (2 <= length l)%nat -> rotate_polar phi (NdArray l) = Err ValueError).
Proof.
  intros phi. split; [reflexivity|]. split.
  - intros x H. unfold rotate_polar, py_assert. destruct (Rlt_bool_spec 0 x); [|reflexivity]. destruct (Rlt_bool_spec x (2 * PI)); [|reflexivity]. destruct H. lra.
  - intros [|a [|b l]] H; cbn in H; try lia. reflexivity.
Qed.
Print Assumptions C25_array.

(** ** C50: [randoms_cdf] with edges and distribution of different lengths *)
Theorem C50_mismatch : forall u x cdf size, draws size u -> length x <> length cdf -> (1 <= length cdf)%nat ->
  nth 0 cdf 0 = 0 -> nth (length cdf - 1) cdf 0 = 1 ->
  randoms_cdf interp1d_linear u x cdf size = Err ValueError.
Proof.
  intros u x cdf size D HL H2 H0 H1. unfold randoms_cdf. rewrite (py_get_ok _ cdf 0 0) by lia. cbn [bind].
  change (Z.to_nat 0) with 0%nat. rewrite H0. rewrite Req_bool_true by reflexivity.
  rewrite (py_get_last _ cdf 0) by lia. cbn [bind]. rewrite H1. rewrite Req_bool_true by reflexivity.
  cbn [andb]. unfold py_assert. rewrite random_sample_ok by exact D. cbn [bind].
  unfold interp1d_linear. destruct (Nat.eqb_spec (length cdf) (length x)); [congruence|reflexivity].
Qed.
Print Assumptions C50_mismatch.

(** ** C52: one probability for all elements and a requested size *)
Theorem C52_scalar_sized : forall A argsort (d : A) u v sample p size, (size < Z.of_nat (length sample))%Z ->
  random_prob_draw argsort d u v sample (Sca p) (Some size) = Err TypeError.
Proof.
  intros A argsort d u v sample p size H. unfold random_prob_draw, py_assert. now rewrite (proj2 (Z.ltb_lt _ _) H).
Qed.
Print Assumptions C52_scalar_sized.

(** ** C62: arguments of the dense [setup_polar] *)
Theorem C62_args : forall ok V rmin rmax numr nside center rs rr px py pz, (1 <= bnx V)%nat -> (1 <= bny V)%nat -> (1 <= bnz V)%nat ->
  let sensible := 0 <= rmin < rmax /\ (1 <= numr)%Z /\ length center = 3%nat /\ (1 <= rs)%Z /\ (1 <= rr)%Z /\ ok nside = true /\ ok (nside * rs)%Z = true in
  let out := setup_shells ok (the_cube V) rmin rmax numr nside center rs rr px py pz in
  (~ sensible -> out = Err AssertionError) /\ (sensible -> numr = 1%Z -> out = Err IndexError) /\
  (sensible -> (2 <= numr)%Z -> exists S, out = Ok S).
Proof.
  intros ok V rmin rmax numr nside center rs rr px py pz Nx Ny Nz. cbn zeta. unfold setup_shells, py_assert.
  destruct (Rle_bool_spec 0 rmin); [|split; [reflexivity|split; intros Q; exfalso; lra]].
  destruct (Rlt_bool_spec rmin rmax); [|split; [reflexivity|split; intros Q; exfalso; lra]].
  destruct (Z.ltb_spec 0 numr); [|split; [reflexivity|split; intros Q; exfalso; lia]].
  destruct (Nat.eqb_spec (length center) 3) as [Lc|]; [|split; [reflexivity|split; intros Q; exfalso; tauto]].
  destruct (Z.leb_spec 1 rs); [|split; [reflexivity|split; intros Q; exfalso; lia]].
  destruct (ok nside) eqn:E1; [|split; [reflexivity|split; intros (_ & _ & _ & _ & _ & Q & _); discriminate]].
  destruct (ok (nside * rs)%Z) eqn:E2; [|split; [reflexivity|split; intros (_ & _ & _ & _ & _ & _ & Q); discriminate]].
  destruct (Z.leb_spec 1 rr); [|split; [reflexivity|split; intros Q; exfalso; lia]].
  split; [intros Q; exfalso; apply Q; split; [lra|]; split; [lia|]; split; [exact Lc|]; split; [lia|]; split; [lia|]; auto|].
  rewrite linspaceZ_ok by lia. cbn [bind]. split.
  - intros _ ->. unfold linspace. reflexivity.
  - intros _ N2. set (re := linspace _ _ _). assert (LR : length re = Z.to_nat (numr + 1)) by apply length_linspace. set (rm := map2 _ _ _).
    assert (LM : length rm = Z.to_nat numr) by (unfold rm; rewrite map2_length, PGrids.length_tl, PGrids.length_removelast, LR; lia).
    rewrite !(py_get_ok _ rm _ 0) by lia. rewrite !(py_get_ok _ center _ 0) by lia. cbn [bind].
    assert (LX : length (cu_xedges (the_cube V)) = S (bnx V)) by (unfold the_cube; cbn [cu_xedges]; apply tab_length).
    assert (LY : length (cu_yedges (the_cube V)) = S (bny V)) by (unfold the_cube; cbn [cu_yedges]; apply tab_length).
    assert (LZ : length (cu_zedges (the_cube V)) = S (bnz V)) by (unfold the_cube; cbn [cu_zedges]; apply tab_length).
    rewrite !(py_get_last _ (cu_xedges (the_cube V)) 0), !(py_get_last _ (cu_yedges (the_cube V)) 0), !(py_get_last _ (cu_zedges (the_cube V)) 0),
      !(py_get_ok _ (cu_xedges (the_cube V)) 0 0), !(py_get_ok _ (cu_yedges (the_cube V)) 0 0), !(py_get_ok _ (cu_zedges (the_cube V)) 0 0) by lia.
    rewrite (py_get_last _ re 0), (py_get_ok _ re 0 0) by lia. cbn [bind]. rewrite linspaceZ_ok by nia. cbn [bind]. now eexists.
Qed.
Print Assumptions C62_args.

(** ** C63, C69: a box without width is sampled as one of width 1 *)

Lemma hist_edges_flat : forall a n, hist_edges a a n = hist_edges (a - / 2) (a + / 2) n.
Proof.
  intros. unfold hist_edges, outer_edges. rewrite Rlt_bool_false by lra. rewrite Req_bool_true by reflexivity.
  rewrite (Rlt_bool_false (a + / 2)) by lra. rewrite Req_bool_false by lra. reflexivity.
Qed.

Lemma mapM_ext : forall A B (f g : A -> res B) l, (forall a, In a l -> f a = g a) -> mapM f l = mapM g l.
Proof.
  intros A B f g l. induction l as [|a l IH]; intros H; [reflexivity|]. cbn [mapM]. rewrite (H a) by now left. rewrite IH; [reflexivity|]. intros b Hb. apply H. now right.
Qed.

Lemma same_shape_tab2 : forall n m g h (f : list (list R)), same_shape f (tab2 n m g) = same_shape f (tab2 n m h).
Proof.
  intros n m g h f. unfold same_shape. rewrite !tab2_length.
  replace (length (nth 0 (tab2 n m g) [])) with (length (nth 0 (tab2 n m h) [])); [reflexivity|].
  destruct n as [|n]; [reflexivity|]. unfold tab2. rewrite !tab_nth by lia. now rewrite !tab_length.
Qed.

(** The range used for one axis. *)
Definition widened (a b a' b' : R) : Prop := (a <> b /\ a' = a /\ b' = b) \/ (a = b /\ a' = a - / 2 /\ b' = a + / 2).

Lemma hist_widened : forall a b a' b' n, widened a b a' b' -> hist_edges a b n = hist_edges a' b' n.
Proof. intros a b a' b' n [(_ & -> & ->)|(-> & -> & ->)]; [reflexivity|apply hist_edges_flat]. Qed.

Lemma ends_tab : forall a b n, (1 <= n)%nat -> let e := tab (S n) (fun i => a + INR i * ((b - a) / INR n)) in
  py_get e 0 = Ok a /\ py_get e (-1) = Ok b /\ length e = S n.
Proof.
  intros a b n Hn e. assert (L : length e = S n) by apply tab_length. rewrite (py_get_ok _ e 0 0), (py_get_last _ e 0) by lia. rewrite L.
  unfold e. change (Z.to_nat 0) with 0%nat. rewrite !tab_nth by lia. cbn [Nat.sub]. rewrite Nat.sub_0_r. assert (0 < INR n) by (apply lt_0_INR; lia).
  split; [|split; [|reflexivity]]; f_equal; [cbn [INR]; ring|field; lra].
Qed.

Theorem C63_zero_width : forall xmin xmax x0 x1 nx ymin ymax y0 y1 ny P mc draws f w, (1 <= nx)%nat -> (1 <= ny)%nat ->
  widened xmin xmax x0 x1 -> widened ymin ymax y0 y1 ->
  user_remap xmin xmax nx ymin ymax ny P mc draws f w = user_remap x0 x1 nx y0 y1 ny P mc draws f w /\
  user_mask xmin xmax nx ymin ymax ny P mc draws = user_mask x0 x1 nx y0 y1 ny P mc draws.
Proof.
  intros xmin xmax x0 x1 nx ymin ymax y0 y1 ny P mc draws f w Nx Ny HX HY. unfold user_remap, user_mask. rewrite !setup_box_ok by auto. cbn [bind].
  set (B := the_box (Pixels xmin _ _ _ _ _)). set (B' := the_box (Pixels x0 _ _ _ _ _)).
  assert (E : get_weights B P draws mc = get_weights B' P draws mc).
  { unfold get_weights, py_assert. destruct (1 <? mc)%Z; [|reflexivity]. f_equal. apply mapM_ext. intros i _. apply mapM_ext. intros j _.
    unfold cell_weights, B, B', the_box. cbn [xedges yedges px0 phx pnx py0 phy pny].
    destruct (ends_tab xmin xmax nx Nx) as (A1 & A2 & A3). destruct (ends_tab x0 x1 nx Nx) as (A4 & A5 & A6).
    destruct (ends_tab ymin ymax ny Ny) as (C1 & C2 & C3). destruct (ends_tab y0 y1 ny Ny) as (C4 & C5 & C6).
    rewrite A1, A2, A3, A4, A5, A6, C1, C2, C3, C4, C5, C6. cbn [bind].
    rewrite (hist_widened xmin xmax x0 x1 _ HX), (hist_widened ymin ymax y0 y1 _ HY). reflexivity. }
  rewrite E. assert (S : forall g : list (list R), same_shape g (x2d B) = same_shape g (x2d B')).
  { intros g. unfold B, B', the_box. cbn [x2d pnx pny]. apply same_shape_tab2. }
  assert (O : map (map (fun _ : R => 1)) (x2d B) = map (map (fun _ : R => 1)) (x2d B')).
  { unfold B, B', the_box. cbn [x2d pnx pny]. now rewrite !tab2_map. }
  assert (Q : forall W g v, mc_remap B P W g v = mc_remap B' P W g v) by (intros W g [v|]; unfold mc_remap; rewrite !S; reflexivity).
  split; destruct (get_weights B' P draws mc) as [W|]; [|reflexivity| |reflexivity]; cbn [bind]; [apply Q|]. unfold mc_mask. now rewrite O, Q.
Qed.
Print Assumptions C63_zero_width.

Lemma shell_weights_ext : forall C C' P draws mc, (forall i j, pixel_weights C P (draws i j) mc i j = pixel_weights C' P (draws i j) mc i j) ->
  shell_weights C P draws mc = shell_weights C' P draws mc.
Proof.
  intros C C' P draws mc H. unfold shell_weights.
  rewrite (mapM_ext _ _ (fun i => mapM (fun j => pixel_weights C P (draws i j) mc i j) (seq 0 (nside2npix (ms_nside P))))
    (fun i => mapM (fun j => pixel_weights C' P (draws i j) mc i j) (seq 0 (nside2npix (ms_nside P))))); [reflexivity|].
  intros i _. apply mapM_ext. intros j _. apply H.
Qed.

Theorem C69_zero_width : forall xmin xmax x0 x1 nx ymin ymax y0 y1 ny zmin zmax z0 z1 nz P mc draws f w, (1 <= nx)%nat -> (1 <= ny)%nat -> (1 <= nz)%nat ->
  widened xmin xmax x0 x1 -> widened ymin ymax y0 y1 -> widened zmin zmax z0 z1 ->
  user_mc_shells xmin xmax nx ymin ymax ny zmin zmax nz P mc draws (fun _ => f) w = user_mc_shells x0 x1 nx y0 y1 ny z0 z1 nz P mc draws (fun _ => f) w.
Proof.
  intros xmin xmax x0 x1 nx ymin ymax y0 y1 ny zmin zmax z0 z1 nz P mc draws f w Nx Ny Nz HX HY HZ. unfold user_mc_shells. rewrite !setup_cube_ok by auto. cbn [bind].
  match goal with |- bind ?a _ = bind ?b _ => assert (E : a = b); [|now rewrite E] end.
  apply shell_weights_ext. intros i j.
  unfold pixel_weights, the_cube, voxel_grid. cbn [cu_xedges cu_yedges cu_zedges bx0 bhx bnx by0 bhy bny bz0 bhz bnz].
  destruct (ends_tab xmin xmax nx Nx) as (A1 & A2 & A3). destruct (ends_tab x0 x1 nx Nx) as (A4 & A5 & A6).
  destruct (ends_tab ymin ymax ny Ny) as (C1 & C2 & C3). destruct (ends_tab y0 y1 ny Ny) as (C4 & C5 & C6).
  destruct (ends_tab zmin zmax nz Nz) as (D1 & D2 & D3). destruct (ends_tab z0 z1 nz Nz) as (D4 & D5 & D6).
  rewrite A1, A2, A3, A4, A5, A6, C1, C2, C3, C4, C5, C6, D1, D2, D3, D4, D5, D6. cbn [bind].
  rewrite (hist_widened xmin xmax x0 x1 _ HX), (hist_widened ymin ymax y0 y1 _ HY), (hist_widened zmin zmax z0 z1 _ HZ). reflexivity.
Qed.
Print Assumptions C69_zero_width.

(** ** C64: refused arguments of the HEALPix classes *)
Theorem C64_map : forall ok nside, setup_map ok nside = if ok nside then Ok nside else Err AssertionError.
Proof. intros. unfold setup_map, py_assert. destruct (ok nside); reflexivity. Qed.
Print Assumptions C64_map.

Theorem C64_weight_map : forall (A : Type) (r : A -> list R -> res (list (list num))) O f w, length f <> length w -> length f <> 1%nat -> length w <> 1%nat ->
  heal_remap r O f (Some w) = Err ValueError.
Proof. intros A r O f w H _ _. unfold heal_remap. destruct (Nat.eqb_spec (length f) (length w)); [contradiction|reflexivity]. Qed.
Print Assumptions C64_weight_map.

(** The hypotheses are met: a box of no height, shells around a cube, a short
    distribution. *)
Example args_case : widened 1 1 (1 - / 2) (1 + / 2) /\ widened 0 1 0 1 /\
  (draws 1 [/ 2] /\ length [0; 1; 2] <> length [0; 1] /\ nth 0 [0; 1] 0 = 0 /\ nth (length [0; 1] - 1) [0; 1] 0 = 1) /\
  exists S, setup_shells (fun _ => true) (the_cube (voxel_grid 0 1 1 0 1 1 0 1 1)) 0 1 2 1 [0; 0; 0] 1 1 (0, 0)%Z (0, 0)%Z (0, 0)%Z = Ok S.
Proof.
  split; [right; auto|]. split; [left; split; [lra|auto]|]. split.
  - split; [|split; [cbn; lia|split; reflexivity]]. split; [reflexivity|]. intros u [<- |[]]. lra.
  - apply (C62_args (fun _ => true) (voxel_grid 0 1 1 0 1 1 0 1 1)); cbn; try lia. repeat split; lra || lia.
Qed.
