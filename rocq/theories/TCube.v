(** * Property theorems: spherical shells from a cube *)

From Coq Require Import Reals ZArith List Bool Lia Lra.
From Verif Require Import Base BaseP SpecGrid SpecRemap SpecCube MGrids MDense MCube PDense PRemap2 PCube.
Import ListNotations.
Open Scope R_scope.

(** The calls of a user, for a cube and a set of shells; [ok], [pix2ang] and
    [ud] stand for healpy's [isnsideok], [pix2ang] and [ud_grade]. *)
Definition user_shells (ok : Z -> bool) (pix2ang : Z -> Z -> R * R) (ud : list R -> Z -> list R)
    (xmin xmax : R) (nx : nat) (ymin ymax : R) (ny : nat) (zmin zmax : R) (nz : nat) (G : shell_set)
    (field : cube_grid -> list (list (list R))) : res (list (list num)) :=
  C <- setup_cube xmin xmax (Z.of_nat nx) ymin ymax (Z.of_nat ny) zmin zmax (Z.of_nat nz) ;;
  S <- setup_shells ok C (ss_rmin G) (ss_rmax G) (Z.of_nat (ss_nr G)) (ss_nside G) [vx (ss_c G); vy (ss_c G); vz (ss_c G)]
         (ss_s G) (Z.of_nat (ss_b G)) (ss_px G) (ss_py G) (ss_pz G) ;;
  cube_remap pix2ang ud C S (field C).

(** What the healpy functions are assumed to do. *)
Definition healpy_ok (ok : Z -> bool) (ud : list R -> Z -> list R) (G : shell_set) : Prop :=
  ok (ss_nside G) = true /\ ok (ss_nside G * ss_s G)%Z = true /\
  forall m, length (ud m (ss_nside G)) = pixels_of (ss_nside G).

(** ** C62 *)

(** An array indexed [[x, y, z]]: every output pixel is the volume-weighted
    mean, over the refined shells of its bin, of the down-graded shell whose
    pixels hold the voxel values at their own centres (of the last image of the
    centre that is inside the cube; zero outside). *)
Theorem C62_value : forall ok pix2ang ud xmin xmax nx ymin ymax ny zmin zmax nz G f,
  xmin < xmax -> ymin < ymax -> zmin < zmax -> (1 <= nx)%nat -> (1 <= ny)%nat -> (1 <= nz)%nat ->
  good_shells G -> (2 <= ss_nr G)%nat -> healpy_ok ok ud G ->
  let V := voxel_grid xmin xmax nx ymin ymax ny zmin zmax nz in
  shape3 f nx ny nz ->
  exists out, user_shells ok pix2ang ud xmin xmax nx ymin ymax ny zmin zmax nz G (fun _ => f) = Ok out /\
    length out = ss_nr G /\
    forall j, (j < ss_nr G)%nat -> length (nth j out []) = pixels_of (ss_nside G) /\
    forall p, (p < pixels_of (ss_nside G))%nat ->
    exists shell : nat -> list R,
      (forall a, (a < ss_b G)%nat ->
         sampled_shell V G (fun q => pix2ang (ss_nside G * ss_s G)%Z (Z.of_nat q)) f (j * ss_b G + a) (shell a)) /\
      nth p (nth j out []) None = Some (bins_mean (ss_b G) (shell_weight G j) (fun a => nth p (ud (shell a) (ss_nside G)) 0)).
Proof.
  intros ok pix2ang ud xmin xmax nx ymin ymax ny zmin zmax nz G f X Y Z Nx Ny Nz HG Hr (O1 & O2 & Hud) V Hf.
  assert (HV : good_voxels V).
  { unfold V, voxel_grid, good_voxels. cbn [bhx bhy bhz]. pose proof (INR_pos nx Nx). pose proof (INR_pos ny Ny). pose proof (INR_pos nz Nz).
    repeat split; apply Rdiv_lt_0_compat; lra. }
  unfold user_shells. rewrite setup_cube_ok by auto. fold V. cbn [bind].
  change (setup_shells ok (the_cube V) _ _ _ _ _ _ _ _ _ _) with (setup_set ok (the_cube V) G).
  rewrite setup_shells_ok by auto. cbn [bind]. rewrite cube_remap_ok by auto. eexists. split; [reflexivity|].
  split; [apply tab_length|]. intros j Hj. unfold tab2. rewrite tab_nth by auto. split; [apply tab_length|]. intros p Hp. rewrite tab_nth by auto.
  eexists. split; [|reflexivity]. intros a Ha. now apply shell_of_sampled.
Qed.
Print Assumptions C62_value.

(** The sampled shells are determined by the specification. *)
Theorem C62_sampled_unique : forall V G dirs f k s s', good_voxels V -> sampled_shell V G dirs f k s -> sampled_shell V G dirs f k s' -> s = s'.
Proof. intros V G dirs f k s s' HV H H'. rewrite (sampled_shell_unique _ _ _ _ _ _ HV H). symmetry. now apply sampled_shell_unique. Qed.
Print Assumptions C62_sampled_unique.

(** A field tabulated with the x axis first is sampled at the right voxels. *)
Theorem C62_x_first : forall V G dirs g k s, good_voxels V -> no_images G ->
  sampled_shell V G dirs (tabulate_ij g V) k s ->
  forall q, (q < pixels_of (ss_nside G * ss_s G))%nat -> voxel_value V g (seen_from (ss_c G) (shell_mid G k) (dirs q)) (nth q s 0).
Proof.
  intros V G dirs g k s HV HI [_ H] q Hq. specialize (H q Hq). rewrite images_single in H by auto. apply last_single in H.
  destruct H as [(a & b & c & Hin & E)|H]; [left|now right]. exists a, b, c. split; auto. rewrite E. destruct Hin as (Ha & Hb & Hc & _).
  change (tabulate_ij g V) with (tab3 (bnx V) (bny V) (bnz V) (fun i j k => g (mid_x V i) (mid_y V j) (mid_z V k))). now apply tab3_cell.
Qed.
Print Assumptions C62_x_first.

(** A field tabulated on the object's own [x3d], [y3d], [z3d] (equal numbers of
    voxels in x and y) is sampled with x and y exchanged. *)
Theorem C62_transposed : forall ok pix2ang ud xmin xmax ymin ymax n zmin zmax nz G g,
  xmin < xmax -> ymin < ymax -> zmin < zmax -> (1 <= n)%nat -> (1 <= nz)%nat ->
  good_shells G -> (2 <= ss_nr G)%nat -> no_images G -> healpy_ok ok ud G ->
  let V := voxel_grid xmin xmax n ymin ymax n zmin zmax nz in
  exists out, user_shells ok pix2ang ud xmin xmax n ymin ymax n zmin zmax nz G (fun C => tabulate g (cu_x3d C) (cu_y3d C) (cu_z3d C)) = Ok out /\
    forall j p, (j < ss_nr G)%nat -> (p < pixels_of (ss_nside G))%nat ->
    exists shell : nat -> list R,
      (forall a, (a < ss_b G)%nat -> length (shell a) = pixels_of (ss_nside G * ss_s G) /\
         forall q, (q < pixels_of (ss_nside G * ss_s G))%nat ->
         swapped_value V g (seen_from (ss_c G) (shell_mid G (j * ss_b G + a)) (pix2ang (ss_nside G * ss_s G)%Z (Z.of_nat q))) (nth q (shell a) 0)) /\
      nth p (nth j out []) None = Some (bins_mean (ss_b G) (shell_weight G j) (fun a => nth p (ud (shell a) (ss_nside G)) 0)).
Proof.
  intros ok pix2ang ud xmin xmax ymin ymax n zmin zmax nz G g X Y Z N Nz HG Hr HI HO V.
  set (f := tab3 n n nz (fun j i k => g (mid_x V i) (mid_y V j) (mid_z V k))).
  destruct (C62_value ok pix2ang ud xmin xmax n ymin ymax n zmin zmax nz G f X Y Z N N Nz HG Hr HO) as (out & E & L & H); [apply tab3_shape|].
  exists out. split.
  - rewrite <- E. unfold user_shells. rewrite setup_cube_ok by auto. fold V. cbn [bind]. now rewrite tabulate_cube.
  - intros j p Hj Hp. destruct (H j Hj) as [_ H']. destruct (H' p Hp) as (shell & Hs & Ev). exists shell. split; [|exact Ev].
    intros a Ha. destruct (Hs a Ha) as [Ls Hq]. split; [exact Ls|]. intros q Qq. specialize (Hq q Qq). rewrite images_single in Hq by auto. apply last_single in Hq.
    destruct Hq as [(i1 & i2 & i3 & Hin & Ei)|Hq]; [left|now right]. exists i1, i2, i3. split; auto. rewrite Ei. destruct Hin as (Ha1 & Hb & Hc & _).
    unfold f. now rewrite tab3_cell.
Qed.
Print Assumptions C62_transposed.

(** With different numbers of voxels in x and y such a field makes [remap]
    raise as soon as a sample lies beyond the shorter axis. *)
Theorem C62_not_square : forall ok pix2ang ud xmin xmax nx ymin ymax ny zmin zmax nz G g t c q i j k,
  xmin < xmax -> ymin < ymax -> zmin < zmax -> (1 <= nx)%nat -> (1 <= ny)%nat -> (1 <= nz)%nat ->
  good_shells G -> (2 <= ss_nr G)%nat -> healpy_ok ok ud G ->
  let V := voxel_grid xmin xmax nx ymin ymax ny zmin zmax nz in
  (t < ss_nr G * ss_b G)%nat -> In c (images V G) -> (q < pixels_of (ss_nside G * ss_s G))%nat ->
  in_voxel V (seen_from c (shell_mid G t) (pix2ang (ss_nside G * ss_s G)%Z (Z.of_nat q))) i j k -> (ny <= i \/ nx <= j)%nat ->
  user_shells ok pix2ang ud xmin xmax nx ymin ymax ny zmin zmax nz G (fun C => tabulate g (cu_x3d C) (cu_y3d C) (cu_z3d C)) = Err IndexError.
Proof.
  intros ok pix2ang ud xmin xmax nx ymin ymax ny zmin zmax nz G g t c q i j k X Y Z Nx Ny Nz HG Hr (O1 & O2 & Hud) V Ht Hc Hq Hin Hbad.
  assert (HV : good_voxels V).
  { unfold V, voxel_grid, good_voxels. cbn [bhx bhy bhz]. pose proof (INR_pos nx Nx). pose proof (INR_pos ny Ny). pose proof (INR_pos nz Nz).
    repeat split; apply Rdiv_lt_0_compat; lra. }
  unfold user_shells. rewrite setup_cube_ok by auto. fold V. cbn [bind].
  change (setup_shells ok (the_cube V) _ _ _ _ _ _ _ _ _ _) with (setup_set ok (the_cube V) G).
  rewrite setup_shells_ok by auto. cbn [bind]. rewrite tabulate_cube.
  eapply (cube_remap_bad pix2ang ud V G _ ny nx nz); eauto. apply tab3_shape.
Qed.
Print Assumptions C62_not_square.

(** One radial bin cannot be set up. *)
Theorem C62_single_bin : forall ok pix2ang ud xmin xmax nx ymin ymax ny zmin zmax nz G field,
  (1 <= nx)%nat -> (1 <= ny)%nat -> (1 <= nz)%nat -> good_shells G -> ss_nr G = 1%nat -> healpy_ok ok ud G ->
  user_shells ok pix2ang ud xmin xmax nx ymin ymax ny zmin zmax nz G field = Err IndexError.
Proof.
  intros ok pix2ang ud xmin xmax nx ymin ymax ny zmin zmax nz G field Nx Ny Nz HG Hr (O1 & O2 & _).
  unfold user_shells. rewrite setup_cube_ok by auto. cbn [bind].
  change (setup_shells ok ?C _ _ _ _ _ _ _ _ _ _) with (setup_set ok C G). now rewrite setup_shells_single.
Qed.
Print Assumptions C62_single_bin.

(** A constant field gives constant shells when every sampled point, seen from
    one of the images of the centre, is in the cube, provided down-grading a
    constant map gives the same constant. *)
Theorem C62_constant : forall ok pix2ang ud xmin xmax nx ymin ymax ny zmin zmax nz G v,
  xmin < xmax -> ymin < ymax -> zmin < zmax -> (1 <= nx)%nat -> (1 <= ny)%nat -> (1 <= nz)%nat ->
  good_shells G -> (2 <= ss_nr G)%nat -> healpy_ok ok ud G ->
  let V := voxel_grid xmin xmax nx ymin ymax ny zmin zmax nz in
  (forall t q, (t < ss_nr G * ss_b G)%nat -> (q < pixels_of (ss_nside G * ss_s G))%nat ->
     exists c, In c (images V G) /\ in_cube V (seen_from c (shell_mid G t) (pix2ang (ss_nside G * ss_s G)%Z (Z.of_nat q)))) ->
  (forall p, (p < pixels_of (ss_nside G))%nat -> nth p (ud (repeat v (pixels_of (ss_nside G * ss_s G))) (ss_nside G)) 0 = v) ->
  exists out, user_shells ok pix2ang ud xmin xmax nx ymin ymax ny zmin zmax nz G (fun _ => tabulate_ij (fun _ _ _ => v) V) = Ok out /\
    forall j p, (j < ss_nr G)%nat -> (p < pixels_of (ss_nside G))%nat -> nth p (nth j out []) None = Some v.
Proof.
  intros ok pix2ang ud xmin xmax nx ymin ymax ny zmin zmax nz G v X Y Z Nx Ny Nz HG Hr HO V Hall Hc.
  assert (HV : good_voxels V).
  { unfold V, voxel_grid, good_voxels. cbn [bhx bhy bhz]. pose proof (INR_pos nx Nx). pose proof (INR_pos ny Ny). pose proof (INR_pos nz Nz).
    repeat split; apply Rdiv_lt_0_compat; lra. }
  destruct (C62_value ok pix2ang ud xmin xmax nx ymin ymax ny zmin zmax nz G (tabulate_ij (fun _ _ _ => v) V) X Y Z Nx Ny Nz HG Hr HO) as (out & E & L & H).
  { change (tabulate_ij (fun _ _ _ => v) V) with (tab3 nx ny nz (fun _ _ _ => v)). apply tab3_shape. }
  exists out. split; [exact E|]. intros j p Hj Hp. destruct (H j Hj) as [_ H']. destruct (H' p Hp) as (shell & Hs & Ev). rewrite Ev. f_equal.
  assert (Hsh : forall a, (a < ss_b G)%nat -> shell a = repeat v (pixels_of (ss_nside G * ss_s G))).
  { intros a Ha. pose proof (Hs a Ha) as S. apply (nth_ext _ _ 0 v); [rewrite repeat_length; apply S|]. intros q Hq. destruct S as [Ls S].
    rewrite Ls in Hq. rewrite nth_repeat.
    destruct (S q Hq) as [(m & i1 & i2 & i3 & _ & Hin & Ei & _)|[Hout _]].
    - rewrite Ei. destruct Hin as (H1 & H2 & H3 & _).
      change (tabulate_ij (fun _ _ _ => v) V) with (tab3 nx ny nz (fun _ _ _ => v)). now rewrite tab3_cell.
    - destruct (Hall (j * ss_b G + a)%nat q ltac:(nia) Hq) as (c & Hc1 & Hc2). exfalso. apply (Hout _ (in_map _ _ _ Hc1) Hc2). }
  unfold bins_mean. rewrite (sum_ext _ _ (fun a => v * shell_weight G j a)) by (intros a Ha; rewrite Hsh, Hc by auto; reflexivity).
  rewrite sum_scal. assert (P : 0 < sum_upto (ss_b G) (shell_weight G j)) by (apply sum_pos; [apply HG|intros; now apply shell_weight_pos]). field. lra.
Qed.
Print Assumptions C62_constant.

(** The set-up of the counter-example: a 2 x 2 x 1 cube on [[-2, 2]]^3 seen
    from (0, -1, 0), shells of nside 1 out to r = 2, no refinement. *)
Definition ex_shells : shell_set := ShellSet 0 2 2 1 1 1 (V3 0 (-1) 0) (0, 0)%Z (0, 0)%Z (0, 0)%Z.
Definition ex_cube : voxels := voxel_grid (-2) 2 2 (-2) 2 2 (-2) 2 1.

Example C62_case : good_voxels ex_cube /\ good_shells ex_shells /\ no_images ex_shells /\
  forall t, (t < 2)%nat -> in_voxel ex_cube (seen_from (V3 0 (-1) 0) (shell_mid ex_shells t) (PI / 2, 0)) 1 0 0.
Proof.
  split; [|split; [|split]].
  - unfold good_voxels, ex_cube, voxel_grid. cbn. lra.
  - unfold good_shells, ex_shells. cbn. repeat split; try lra; try lia.
  - repeat split; reflexivity.
  - intros t Ht. assert (M : shell_mid ex_shells t = INR t + / 2) by (unfold shell_mid, ex_shells; cbn; field).
    assert (0 <= INR t <= 1) by (destruct t as [|[|t]]; cbn; lra || lia).
    unfold in_voxel, ex_cube, voxel_grid, seen_from. rewrite M. cbn [bnx bny bnz bx0 by0 bz0 bhx bhy bhz vx vy vz fst snd].
    rewrite cos_0, sin_0, cos_PI2, sin_PI2. cbn [INR]. repeat split; try lia; lra.
Qed.

(** The field f = x, tabulated on the object's own mesh: in the direction of
    pixel 4 of an nside 1 map (the x axis) the samples have x > 0, voxel centre
    x = 1, and the remapped value is -1.  [ud_grade] to the same resolution is
    taken to return its argument. *)
Theorem C62_refuted : forall ok pix2ang ud, ok 1%Z = true -> pix2ang 1%Z 4%Z = (PI / 2, 0) ->
  (forall m, length (ud m 1%Z) = 12%nat) -> (forall m, length m = 12%nat -> ud m 1%Z = m) ->
  exists out, user_shells ok pix2ang ud (-2) 2 2 (-2) 2 2 (-2) 2 1 ex_shells
      (fun C => tabulate (fun x _ _ => x) (cu_x3d C) (cu_y3d C) (cu_z3d C)) = Ok out /\
    forall j, (j < 2)%nat ->
      0 < vx (seen_from (V3 0 (-1) 0) (shell_mid ex_shells j) (pix2ang 1%Z 4%Z)) /\ nth 4 (nth j out []) None = Some (-1).
Proof.
  intros ok pix2ang ud Ho Hp Hl Hud. destruct C62_case as (HV & HG & HI & Hin).
  assert (P1 : pixels_of (ss_nside ex_shells) = 12%nat) by reflexivity.
  assert (P2 : pixels_of (ss_nside ex_shells * ss_s ex_shells) = 12%nat) by reflexivity.
  destruct (C62_transposed ok pix2ang ud (-2) 2 (-2) 2 2 (-2) 2 1 ex_shells (fun x _ _ => x)) as (out & E & H); try lra; try lia; auto.
  { repeat split; auto. }
  exists out. split; [exact E|]. intros j Hj. rewrite Hp. split.
  - destruct (Hin j Hj) as (_ & _ & _ & Hx & _). unfold ex_cube, voxel_grid in Hx. cbn [bx0 bhx] in Hx. cbn [INR] in Hx.
    unfold seen_from in *. cbn [vx fst snd] in *. rewrite cos_0, sin_PI2 in *.
    assert (M : shell_mid ex_shells j = INR j + / 2) by (unfold shell_mid, ex_shells; cbn; field). rewrite M in *. pose proof (pos_INR j). lra.
  - destruct (H j 4%nat Hj ltac:(rewrite P1; lia)) as (shell & Hs & Ev). rewrite Ev. f_equal.
    change (ss_b ex_shells) with 1%nat in *. destruct (Hs 0%nat ltac:(lia)) as [Ls Hq]. specialize (Hq 4%nat ltac:(rewrite P2; lia)).
    change (ss_nside ex_shells * ss_s ex_shells)%Z with 1%Z in *. change (Z.of_nat 4) with 4%Z in Hq. rewrite Hp in Hq.
    replace (j * 1 + 0)%nat with j in Hq by lia. change (ss_nside ex_shells) with 1%Z in *.
    assert (Q : nth 4 (shell 0%nat) 0 = -1).
    { fold ex_cube in Hq. change (ss_c ex_shells) with (V3 0 (-1) 0) in Hq. destruct Hq as [(a & b & c & Hv & Ea)|[Hout _]].
      - destruct (in_voxel_unique _ _ _ _ _ _ _ _ HV (Hin j Hj) Hv) as (<- & <- & <-). rewrite Ea.
        unfold mid_x, ex_cube, voxel_grid. cbn [bx0 bhx]. cbn [INR]. lra.
      - destruct Hout. exact (in_voxel_cube _ _ _ _ _ HV (Hin j Hj)). }
    assert (U : ud (shell 0%nat) 1%Z = shell 0%nat) by (apply Hud; rewrite Ls; reflexivity).
    unfold bins_mean. cbn. rewrite U. cbn in Q. rewrite Q.
    pose proof (shell_weight_pos ex_shells j 0%nat HG). field. lra.
Qed.
Print Assumptions C62_refuted.
