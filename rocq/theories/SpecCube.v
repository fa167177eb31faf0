(** * Specifications: sampling a cube of voxels along spherical shells

    Independent of the model files, see [Spec.v]. *)

From Coq Require Import Reals ZArith List Bool.
From Verif Require Import Base SpecGrid SpecRemap.
Import ListNotations.
Open Scope R_scope.

(** A voxel grid: [nx] by [ny] by [nz] voxels of size [hx] by [hy] by [hz] from
    [(x0, y0, z0)]. *)
Record voxels := Voxels {
  bx0 : R; bhx : R; bnx : nat; by0 : R; bhy : R; bny : nat; bz0 : R; bhz : R; bnz : nat }.

Definition voxel_grid (xmin xmax : R) (nx : nat) (ymin ymax : R) (ny : nat) (zmin zmax : R) (nz : nat) : voxels :=
  Voxels xmin ((xmax - xmin) / INR nx) nx ymin ((ymax - ymin) / INR ny) ny zmin ((zmax - zmin) / INR nz) nz.

Definition good_voxels (V : voxels) : Prop := 0 < bhx V /\ 0 < bhy V /\ 0 < bhz V.

(** Voxel centres along each axis. *)
Definition mid_x (V : voxels) (i : nat) : R := bx0 V + (INR i + / 2) * bhx V.
Definition mid_y (V : voxels) (j : nat) : R := by0 V + (INR j + / 2) * bhy V.
Definition mid_z (V : voxels) (k : nat) : R := bz0 V + (INR k + / 2) * bhz V.

(** The point lies in voxel [(i, j, k)]. *)
Definition in_voxel (V : voxels) (p : vec) (i j k : nat) : Prop :=
  (i < bnx V)%nat /\ (j < bny V)%nat /\ (k < bnz V)%nat /\
  bx0 V + INR i * bhx V <= vx p < bx0 V + INR (S i) * bhx V /\
  by0 V + INR j * bhy V <= vy p < by0 V + INR (S j) * bhy V /\
  bz0 V + INR k * bhz V <= vz p < bz0 V + INR (S k) * bhz V.

(** The point lies in the cube. *)
Definition in_cube (V : voxels) (p : vec) : Prop :=
  bx0 V <= vx p < bx0 V + INR (bnx V) * bhx V /\
  by0 V <= vy p < by0 V + INR (bny V) * bhy V /\
  bz0 V <= vz p < bz0 V + INR (bnz V) * bhz V.

(** A set of shells: [nr] radial bins on [[rmin, rmax]], each refined [b]
    times, on HEALPix maps of resolution [nside] refined [s] times, seen from
    the given centre and its images. *)
Record shell_set := ShellSet {
  ss_rmin : R; ss_rmax : R; ss_nr : nat; ss_b : nat; ss_nside : Z; ss_s : Z;
  ss_c : vec; ss_px : Z * Z; ss_py : Z * Z; ss_pz : Z * Z }.

Definition good_shells (G : shell_set) : Prop :=
  0 <= ss_rmin G < ss_rmax G /\ (1 <= ss_nr G)%nat /\ (1 <= ss_b G)%nat /\ (1 <= ss_nside G)%Z /\ (1 <= ss_s G)%Z.

(** Integers from [a] to [b]. *)
Definition zrange (p : Z * Z) : list Z := map (fun k => (fst p + Z.of_nat k)%Z) (seq 0 (Z.to_nat (snd p + 1 - fst p))).

(** The centre moved by whole cube lengths. *)
Definition images (V : voxels) (G : shell_set) : list vec :=
  flat_map (fun i => flat_map (fun j => map (fun k =>
    V3 (vx (ss_c G) + IZR i * (INR (bnx V) * bhx V)) (vy (ss_c G) + IZR j * (INR (bny V) * bhy V))
       (vz (ss_c G) + IZR k * (INR (bnz V) * bhz V)))
    (zrange (ss_pz G))) (zrange (ss_py G))) (zrange (ss_px G)).

(** Number of pixels of a HEALPix map. *)
Definition pixels_of (nside : Z) : nat := Z.to_nat (12 * nside ^ 2).

(** Edges and middles of the refined radial bins. *)
Definition shell_edge (G : shell_set) (k : nat) : R :=
  ss_rmin G + INR k * ((ss_rmax G - ss_rmin G) / INR (ss_nr G * ss_b G)).
Definition shell_mid (G : shell_set) (k : nat) : R :=
  ss_rmin G + (INR k + / 2) * ((ss_rmax G - ss_rmin G) / INR (ss_nr G * ss_b G)).

(** Volume weight of refined bin [a] of radial bin [j]. *)
Definition shell_weight (G : shell_set) (j a : nat) : R :=
  shell_edge G (S (j * ss_b G + a)) ^ 3 - shell_edge G (j * ss_b G + a) ^ 3.

(** Point at radius [r] in the direction [(theta, phi)] seen from [c]. *)
Definition seen_from (c : vec) (r : R) (ang : R * R) : vec :=
  V3 (r * cos (snd ang) * sin (fst ang) + vx c) (r * sin (snd ang) * sin (fst ang) + vy c) (r * cos (fst ang) + vz c).

(** [v] is the value read along a list of candidate points: at the last one in
    the cube, or zero. *)
Definition last_value (V : voxels) (f : list (list (list R))) (pts : list vec) (v : R) : Prop :=
  (exists m i j k, (m < length pts)%nat /\ in_voxel V (nth m pts (V3 0 0 0)) i j k /\ v = cell3 f i j k /\
     forall m', (m < m' < length pts)%nat -> ~ in_cube V (nth m' pts (V3 0 0 0))) \/
  ((forall p, In p pts -> ~ in_cube V p) /\ v = 0).

(** [shell] holds the values of the field at the pixel centres of one refined
    shell, [dirs q] being the direction of pixel [q]. *)
Definition sampled_shell (V : voxels) (G : shell_set) (dirs : nat -> R * R) (f : list (list (list R))) (k : nat) (shell : list R) : Prop :=
  length shell = pixels_of (ss_nside G * ss_s G) /\
  forall q, (q < pixels_of (ss_nside G * ss_s G))%nat ->
    last_value V f (map (fun c => seen_from c (shell_mid G k) (dirs q)) (images V G)) (nth q shell 0).

(** Mean of [v a] over [b] bins with weights [w a]. *)
Definition bins_mean (b : nat) (w v : nat -> R) : R := sum_upto b (fun a => v a * w a) / sum_upto b w.

(** The field [g] tabulated on a mesh given by its three coordinate arrays. *)
Definition tabulate (g : R -> R -> R -> R) (x y z : list (list (list R))) : list (list (list R)) :=
  map2 (fun a p => map2 (fun b q => map2 (fun s t => g (fst s) (snd s) t) (combine (fst b) (snd b)) q) (combine (fst a) (snd a)) p)
       (combine x y) z.

(** The field [g] tabulated with the x axis first. *)
Definition tabulate_ij (g : R -> R -> R -> R) (V : voxels) : list (list (list R)) :=
  map (fun i => map (fun j => map (fun k => g (mid_x V i) (mid_y V j) (mid_z V k)) (seq 0 (bnz V))) (seq 0 (bny V))) (seq 0 (bnx V)).

(** [v] is the value of the field [g] at the middle of the voxel holding the
    (single) candidate point, or zero. *)
Definition voxel_value (V : voxels) (g : R -> R -> R -> R) (p : vec) (v : R) : Prop :=
  (exists i j k, in_voxel V p i j k /\ v = g (mid_x V i) (mid_y V j) (mid_z V k)) \/ (~ in_cube V p /\ v = 0).

(** Same, with the middles of the wrong axes. *)
Definition swapped_value (V : voxels) (g : R -> R -> R -> R) (p : vec) (v : R) : Prop :=
  (exists i j k, in_voxel V p i j k /\ v = g (mid_x V j) (mid_y V i) (mid_z V k)) \/ (~ in_cube V p /\ v = 0).

(** No images: the centre alone. *)
Definition no_images (G : shell_set) : Prop := ss_px G = (0, 0)%Z /\ ss_py G = (0, 0)%Z /\ ss_pz G = (0, 0)%Z.
