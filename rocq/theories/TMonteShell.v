(** * Property theorems: Monte-Carlo shells from a cube *)

From Coq Require Import Reals ZArith List Bool Lia Lra Psatz.
From Flocq Require Import Core.Raux.
From Coquelicot Require Import Coquelicot.
From Verif Require Import Base BaseP Spec SpecGrid SpecRemap SpecDense SpecMonte SpecCube SpecRandoms SpecMonteShell
  MCoords MGrids MHealpixIndex MHealpixCoord MHealpixBoundary MRandoms MRandomsHealpix MDense MMonte MCube MMonteShell
  PPolarCoords PRemap2 PDense PMonte PCube PRandoms PHealpixIndex PHealpixCentre PHealpixArray PHealpixTiling PHealpixCoord PRandomsHealpix PMonteShell.
Import ListNotations.
Open Scope R_scope.

(** The calls of a user on a cube, after a set-up of the shells that returned
    [P].  The map may depend on the object (its coordinate arrays). *)
Definition user_mc_shells (xmin xmax : R) (nx : nat) (ymin ymax : R) (ny : nat) (zmin zmax : R) (nz : nat) (P : mc_shells) (mc : Z)
    (draws : nat -> nat -> list R * list R * list R) (field : cube_grid -> list (list (list R))) (w : option (list (list (list R))))
    : res (list (list num)) :=
  C <- setup_cube xmin xmax (Z.of_nat nx) ymin ymax (Z.of_nat ny) zmin zmax (Z.of_nat nz) ;;
  W <- shell_weights C P draws mc ;;
  shell_remap P (Some W) (field C) w.

(** A proper call: cube, shells, number of samples and draws. *)
Definition proper_shells (xmin xmax : R) (nx : nat) (ymin ymax : R) (ny : nat) (zmin zmax : R) (nz : nat) (P : mc_shells) (nr : nat) (nside : Z)
    (mc : Z) (draws : nat -> nat -> list R * list R * list R) : Prop :=
  (xmin < xmax /\ ymin < ymax /\ zmin < zmax) /\ ((1 <= nx)%nat /\ (1 <= ny)%nat /\ (1 <= nz)%nat) /\
  made_shells P nr nside /\ (1 <= nside)%Z /\ (1 <= mc)%Z /\ fair3 (Z.to_nat mc) draws.

(** [hit i j] lists the voxels of the samples of pixel [j] of shell [i] that are
    in the cube. *)
Definition sampled_voxels (V : voxels) (P : mc_shells) (nr : nat) (nside : Z) (draws : nat -> nat -> list R * list R * list R)
    (hit : nat -> nat -> list voxel) : Prop :=
  forall i j, (i < nr)%nat -> (j < pixels_of nside)%nat -> hits3 V (sample_points P draws i j) (hit i j).

(** In every shell two pixels hit different numbers of voxels. *)
Definition uneven (nr np : nat) (hit : nat -> nat -> list voxel) : Prop :=
  forall i, (i < nr)%nat -> exists j1 j2 k1 k2, (j1 < np)%nat /\ (j2 < np)%nat /\ distinct3 (hit i j1) k1 /\ distinct3 (hit i j2) k2 /\ k1 <> k2.

Lemma grid_good3 : forall xmin xmax nx ymin ymax ny zmin zmax nz, xmin < xmax -> ymin < ymax -> zmin < zmax ->
  (1 <= nx)%nat -> (1 <= ny)%nat -> (1 <= nz)%nat -> good_voxels (voxel_grid xmin xmax nx ymin ymax ny zmin zmax nz).
Proof.
  intros xmin xmax nx ymin ymax ny zmin zmax nz X Y Z Nx Ny Nz. unfold voxel_grid, good_voxels. cbn [bhx bhy bhz].
  pose proof (INR_pos nx Nx). pose proof (INR_pos ny Ny). pose proof (INR_pos nz Nz). repeat split; apply Rdiv_lt_0_compat; lra.
Qed.

Lemma shell_facts : forall xmin xmax nx ymin ymax ny zmin zmax nz P nr nside mc draws,
  proper_shells xmin xmax nx ymin ymax ny zmin zmax nz P nr nside mc draws ->
  setup_cube xmin xmax (Z.of_nat nx) ymin ymax (Z.of_nat ny) zmin zmax (Z.of_nat nz) = Ok (the_cube (voxel_grid xmin xmax nx ymin ymax ny zmin zmax nz)) /\
  good_voxels (voxel_grid xmin xmax nx ymin ymax ny zmin zmax nz) /\ good_mc_shells P nr /\ ms_nside P = nside /\ (1 <= ms_nside P)%Z /\ (0 <= mc)%Z /\
  (forall i j, good_draws (Z.to_nat mc) (draws i j)) /\ nside2npix (ms_nside P) = pixels_of nside.
Proof.
  intros xmin xmax nx ymin ymax ny zmin zmax nz P nr nside mc draws ((X & Y & Z) & (Nx & Ny & Nz) & HP & Hn & Hmc & Hd).
  destruct (made_shells_good _ _ _ HP) as [G E]. split; [now apply setup_cube_ok|]. split; [now apply grid_good3|]. split; [exact G|]. split; [exact E|].
  split; [lia|]. split; [lia|]. split; [intros; now apply fair_good|]. now rewrite E.
Qed.

(** Names for the facts about a call. *)
Ltac shell_call HC EB HV HP EN Hn Hmc Hd Enp Nx Ny Nz H1 :=
  destruct (shell_facts _ _ _ _ _ _ _ _ _ _ _ _ _ _ HC) as (EB & HV & HP & EN & Hn & Hmc & Hd & Enp);
  assert (Nx := proj1 (proj1 (proj2 HC))); assert (Ny := proj1 (proj2 (proj1 (proj2 HC)))); assert (Nz := proj2 (proj2 (proj1 (proj2 HC))));
  assert (H1 := proj1 (proj2 (proj2 (proj2 (proj2 HC))))).

(** ** C69 *)

(** The radii: [numr] shells of equal thickness; [numr] shells with edges in
    constant ratio; with [addzero] a ball and [numr]-1 such shells. *)
Theorem C69_lin_edges : forall rmin rmax nr nside c, 0 <= rmin < rmax -> (2 <= nr)%nat -> length c = 3%nat ->
  exists P, shells_lin rmin rmax (Z.of_nat nr) nside c = Ok P /\ uniform_edges (ms_redges P) rmin ((rmax - rmin) / INR nr) nr /\
  length (ms_rmid P) = nr /\ ms_nside P = nside /\ ms_center P = c.
Proof.
  intros rmin rmax nr nside c Hr Nr Lc. exists (lin_shells rmin rmax nr nside c). split; [now apply shells_lin_ok|]. unfold lin_shells, lin_edges. cbn [ms_redges ms_rmid ms_nside ms_center].
  split; [|split; [apply tab_length|split; reflexivity]]. split; [apply tab_length|]. intros i Hi. now rewrite tab_nth by lia.
Qed.
Print Assumptions C69_lin_edges.

Theorem C69_log_edges : forall rmin rmax nr nside c z, 0 < rmin < rmax -> (1 <= nr)%nat -> (z = true -> (2 <= nr)%nat) -> length c = 3%nat ->
  exists P, shells_log rmin rmax (Z.of_nat nr) nside c z = Ok P /\ length (ms_redges P) = S nr /\ length (ms_rmid P) = nr /\
  ms_nside P = nside /\ ms_center P = c /\
  forall i, (i <= nr)%nat -> nth i (ms_redges P) 0 =
    if z then match i with O => 0 | S i => geometric rmin rmax (nr - 1) i end else geometric rmin rmax nr i.
Proof.
  intros rmin rmax nr nside c z Hr Nr Hz Lc. exists (log_shells rmin rmax nr nside c z). split; [now apply shells_log_ok|]. unfold log_shells. cbn [ms_redges ms_rmid ms_nside ms_center].
  split; [now apply log_edges_length|]. split; [apply tab_length|]. split; [reflexivity|]. split; [reflexivity|]. intros i Hi. unfold log_edges. destruct z.
  - specialize (Hz eq_refl). destruct i as [|i]; [reflexivity|]. cbn [nth]. destruct nr as [|[|n]]; [lia|lia|]. now rewrite tab_nth by lia.
  - now rewrite tab_nth by lia.
Qed.
Print Assumptions C69_log_edges.

(** With one bin: the equal spacing cannot be set up; with [addzero] the outer
    radius is ignored. *)
Theorem C69_single_bin : forall rmin rmax nside c, 0 <= rmin < rmax -> length c = 3%nat -> shells_lin rmin rmax 1 nside c = Err IndexError.
Proof. exact shells_lin_single. Qed.
Print Assumptions C69_single_bin.

Theorem C69_one_ball : forall rmin rmax nside c, 0 < rmin < rmax -> length c = 3%nat ->
  exists P, shells_log rmin rmax 1 nside c true = Ok P /\ ms_redges P = [0; rmin].
Proof. intros. exists (log_shells rmin rmax 1 nside c true). split; [|reflexivity]. apply (shells_log_ok rmin rmax 1); auto. Qed.
Print Assumptions C69_one_ball.

(** What the set-ups accept. *)
Theorem C69_accepts : forall rmin rmax numr nside c z,
  ((exists P, shells_lin rmin rmax numr nside c = Ok P) <-> 0 <= rmin < rmax /\ (2 <= numr)%Z /\ length c = 3%nat) /\
  ((exists P, shells_log rmin rmax numr nside c z = Ok P) <-> 0 < rmin < rmax /\ (1 <= numr)%Z /\ length c = 3%nat).
Proof.
  intros rmin rmax numr nside c z. split; split.
  - intros [P H]. apply shells_lin_inv in H. destruct H as (nr & -> & Hr & Nr & Lc & _). split; [exact Hr|]. split; [lia|exact Lc].
  - intros (Hr & Hn & Lc). exists (lin_shells rmin rmax (Z.to_nat numr) nside c). rewrite <- (shells_lin_ok rmin rmax (Z.to_nat numr)) by (auto; lia). now rewrite Z2Nat.id by lia.
  - intros [P H]. apply shells_log_inv in H. destruct H as (nr & -> & Hr & Nr & Lc & _). split; [exact Hr|]. split; [lia|exact Lc].
  - intros (Hr & Hn & Lc). exists (log_shells rmin rmax (Z.to_nat numr) nside c z). rewrite <- (shells_log_ok rmin rmax (Z.to_nat numr)) by (auto; lia). now rewrite Z2Nat.id by lia.
Qed.
Print Assumptions C69_accepts.

(** Which samples are taken: [mc_size] for each pixel of each shell; every one
    between the radii of the shell, at the fraction of its volume that was drawn,
    in the direction of a point of the closed diamond of the pixel in the HEALPix
    plane, drawn evenly over its area. *)
Theorem C69_samples : forall P nr nside n draws i j, made_shells P nr nside -> (1 <= nside)%Z -> fair3 n draws -> (i < nr)%nat -> (j < pixels_of nside)%nat ->
  let '(ux, uy, ur) := draws i j in
  let a := nth i (ms_redges P) 0 in let b := nth (i + 1) (ms_redges P) 0 in
  length (sample_points P draws i j) = n /\
  exists xp yp, pix2xy (Z.of_nat j) nside = Ok (xp, yp) /\
  forall q, (q < n)%nat -> exists r theta phi x y m,
    let p := nth q (sample_points P draws i j) (V3 0 0 0) in let d := half_diag nside in let h := d - Rabs (x + 2 * PI * IZR m - xp) in
    p = seen_from (center_of P) r (theta, phi) /\ dist3 p (center_of P) = r /\
    a <= r <= b /\ shell_volume a r = nth q ur 0 * shell_volume a b /\
    xy2ang x y = (phi, Some theta) /\ 0 <= x < 2 * PI /\
    l1 (x + 2 * PI * IZR m) y xp yp <= d /\
    is_RInt (fun t => 2 * (d - Rabs (t - xp))) (xp - d) (x + 2 * PI * IZR m) (nth q ux 0 * (2 * d ^ 2)) /\
    0 <= h /\ y = (yp - h) + nth q uy 0 * (2 * h) /\
    (0 < nth q uy 0 -> 0 <= phi < 2 * PI /\ 0 < theta < PI /\ in_diamond nside xp yp (fst (ang2xy phi theta)) (snd (ang2xy phi theta))).
Proof.
  intros P nr nside n draws i j HP Hn Hd Hi Hj. destruct (made_shells_good _ _ _ HP) as [(_ & _ & _ & _ & He) EN]. specialize (Hd i j).
  pose proof (sample_length P draws i j) as SL. pose proof (sample_nth P draws i j) as SN. destruct (draws i j) as [[ux uy] ur] eqn:ED. cbv zeta.
  destruct Hd as ((L1 & L2 & L3) & U1 & U2 & U3). unfold dx, dy, dr in *. cbn [fst snd] in *. split; [congruence|].
  change (pixels_of nside) with (nside2npix nside) in Hj. pose proof (plane_ok nside j Hn Hj) as EP. destruct (plane_centre nside j) as [xp yp] eqn:EC. exists xp, yp. split; [exact EP|].
  intros q Hq. assert (V1 : 0 <= nth q ux 0 < 1) by (apply U1, nth_In; lia). assert (V2 : 0 <= nth q uy 0 < 1) by (apply U2, nth_In; lia). assert (V3 : 0 <= nth q ur 0 < 1) by (apply U3, nth_In; lia).
  rewrite (SN q xp yp) by (rewrite ?EN; auto; lia). set (a := nth i (ms_redges P) 0) in *. set (b := nth (i + 1) (ms_redges P) 0) in *. rewrite EN.
  assert (Hab : 0 <= a <= b) by (apply He; auto). destruct (radius_ok a b (nth q ur 0) Hab V3) as [R1 R2].
  pose proof (legal_small nside j Hj) as HL. pose proof (direction_ok nside _ xp yp _ _ Hn HL EP V1 V2) as HD.
  destruct (randoms_xy_spec nside (Z.of_nat j) xp yp ux uy Hn EP) as (xs & ys & E & _ & _ & HQ); [lia|auto|auto|].
  destruct (randoms_xy_elt ux uy (Z.of_nat j) nside xp yp) as (xs' & ys' & E' & _ & _ & HQ'); [lia|auto|]. rewrite E in E'. apply Ok_inj in E'. injection E' as <- <-.
  destruct (HQ q ltac:(lia)) as [B1 (m & C1 & C2 & C3 & C4)]. destruct (HQ' q ltac:(lia)) as [D1 D2].
  rewrite <- D1, <- D2 in HD.
  exists (radius a b (nth q ur 0)), (fst (direction nside xp yp (nth q ux 0) (nth q uy 0))), (snd (direction nside xp yp (nth q ux 0) (nth q uy 0))), (nth q xs 0), (nth q ys 0), m.
  split; [now destruct (direction _ _ _ _ _)|]. split; [apply seen_dist; lra|]. split; [exact R1|].
  split; [unfold shell_volume; rewrite R2; ring|]. split; [exact HD|]. split; [exact B1|]. split; [exact C1|]. split; [exact C2|]. split; [exact C3|]. split; [exact C4|].
  intros Hv. destruct (randoms_pixel_back nside _ xp yp (nth q ux 0) (nth q uy 0) Hn HL EP V1) as (phi & theta & F1 & F2 & F3 & F4); [lra|].
  rewrite <- D1, <- D2, HD in F1. injection F1 as <- <-. auto.
Qed.
Print Assumptions C69_samples.

(** The list of voxels hit exists and is unique. *)
Theorem C69_hits : forall V pts, good_voxels V -> (1 <= bnx V)%nat -> (1 <= bny V)%nat -> (1 <= bnz V)%nat -> exists! h, hits3 V pts h.
Proof.
  intros V pts HV Nx Ny Nz. destruct (hits_exist3 V pts HV Nx Ny Nz) as [h Hh]. exists h. split; auto.
  intros h' H'. revert h' H'. induction Hh as [|p q l h Hq H IH|p l h Ho H IH]; intros h' H'.
  - inversion H'; auto.
  - inversion H'; subst.
    + f_equal; [|now apply IH]. pose proof (bin3_in V HV p q Hq). pose proof (bin3_in V HV p q0 ltac:(assumption)). congruence.
    + exfalso. match goal with A : ~ in_closed3 V p |- _ => apply A end. now apply (counted_closed3 V p q).
  - inversion H'; subst; [|now apply IH]. exfalso. apply Ho. now apply (counted_closed3 V p q).
Qed.
Print Assumptions C69_hits.

(** The voxels hit are inside the arrays (no condition for arrays indexed
    [[y, x, z]] of the sizes of the cube). *)
Definition covered (a : list (list (list R))) (n1 n2 n3 nr np : nat) (hit : nat -> nat -> list voxel) : Prop :=
  shape3 a n1 n2 n3 /\ forall i j q, (i < nr)%nat -> (j < np)%nat -> In q (hit i j) -> (vj q < n1)%nat /\ (vi q < n2)%nat /\ (vk q < n3)%nat.

(** Whenever the calls succeed, every pixel of every shell is the (weighted)
    mean of the map over the voxels hit by its samples; the map is not checked for
    its shape and only has to reach the voxels hit. *)
Theorem C69_value_covered : forall xmin xmax nx ymin ymax ny zmin zmax nz P nr nside mc draws f w hit out n1 n2 n3,
  proper_shells xmin xmax nx ymin ymax ny zmin zmax nz P nr nside mc draws ->
  sampled_voxels (voxel_grid xmin xmax nx ymin ymax ny zmin zmax nz) P nr nside draws hit ->
  covered f n1 n2 n3 nr (pixels_of nside) hit -> (forall w', w = Some w' -> exists m1 m2 m3, covered w' m1 m2 m3 nr (pixels_of nside) hit) ->
  user_mc_shells xmin xmax nx ymin ymax ny zmin zmax nz P mc draws (fun _ => f) w = Ok out ->
  length out = nr /\ forall i, (i < nr)%nat -> length (nth i out []) = pixels_of nside /\
  forall j, (j < pixels_of nside)%nat -> nth j (nth i out []) None = mean3 f w (hit i j).
Proof.
  intros xmin xmax nx ymin ymax ny zmin zmax nz P nr nside mc draws f w hit out n1 n2 n3 HC Hh [Sf Cf] Hw E. shell_call HC EB HV HP EN Hn Hmc Hd Enp Nx Ny Nz H1.
  unfold user_mc_shells in E. rewrite EB in E. cbn [bind] in E. unfold sampled_voxels in Hh. rewrite <- Enp in *.
  set (V := voxel_grid xmin xmax nx ymin ymax ny zmin zmax nz) in *. set (np := nside2npix (ms_nside P)) in *. set (c := cnt3 V hit).
  pose proof (np_pos P Hn) as Np. fold np in Np. assert (Nr : (1 <= nr)%nat) by apply HP.
  assert (Ff : forall i j, (i < nr)%nat -> (j < np)%nat -> fits f (hit i j)) by (intros i j Hi Hj; exists n1, n2, n3; split; [exact Sf|intros q; now apply Cf]).
  assert (Fw : forall w', w = Some w' -> forall i j, (i < nr)%nat -> (j < np)%nat -> fits w' (hit i j)).
  { intros w' Ew i j Hi Hj. destruct (Hw w' Ew) as (m1 & m2 & m3 & [Sw Cw]). exists m1, m2, m3. split; [exact Sw|intros q; now apply Cw]. }
  assert (R : out = tab2 nr np (fun i j => mean3 f w (hit i j))).
  { destruct (count_cases c nr np) as [G|(i0 & Hi0 & Hrow)].
    - rewrite (shells_ragged V P nr mc draws hit HV Nx Ny Nz HP Hn Hmc Hd Hh G) in E. cbn [bind] in E.
      rewrite (shell_remap_arrays V P nr mc draws hit Nx Ny Nz HP Hh f w H1 Ff Fw) in E. apply Ok_inj in E. symmetry. exact E.
    - destruct (count_same c (c i0 0%nat) nr np) as [U|(i1 & j1 & Hi1 & Hj1 & Hne)].
      + assert (U' : forall i j, (i < nr)%nat -> (j < np)%nat -> cnt3 V hit i j = cnt3 V hit 0 0).
        { intros. transitivity (c i0 0%nat); [|symmetry]; apply U; auto; lia. }
        rewrite (shells_uniform V P nr mc draws hit HV Nx Ny Nz HP Hn Hmc Hd Hh U') in E. cbn [bind] in E.
        destruct (Nat.eq_dec (cnt3 V hit 0 0) 0) as [Z|Z].
        * destruct (shell_remap_zero V P nr mc draws hit Nx Ny Nz HP Hh f w (cnt3 V hit 0 0)) as [E0 E1]; [intros; rewrite U'; auto|].
          rewrite E0 in E. apply Ok_inj in E. subst out. apply tab2_ext. intros i j Hi Hj. rewrite E1 by auto. now destruct w.
        * rewrite (shell_remap_pos V P nr mc draws hit Nx Ny Nz HP Hn Hh f w (cnt3 V hit 0 0) H1) in E by lia. discriminate.
      + rewrite (shells_mixed V P nr mc draws hit HV Nx Ny Nz HP Hn Hmc Hd Hh i0 i1 j1 Hi0 Hrow Hi1 Hj1 Hne) in E. discriminate. }
  subst out. split; [apply tab2_length|]. intros i Hi. unfold tab2. rewrite tab_nth by auto. split; [apply tab_length|]. intros j Hj. now rewrite tab_nth.
Qed.
Print Assumptions C69_value_covered.

Lemma proper_covers : forall V P nr nside draws hit a, sampled_voxels V P nr nside draws hit -> shape3 a (bny V) (bnx V) (bnz V) ->
  covered a (bny V) (bnx V) (bnz V) nr (pixels_of nside) hit.
Proof. intros V P nr nside draws hit a Hh Ha. split; [exact Ha|]. intros i j q Hi Hj Hq. destruct (hits_in_grid3 V _ _ q (Hh i j Hi Hj) Hq) as (A & B & C). auto. Qed.

Theorem C69_value : forall xmin xmax nx ymin ymax ny zmin zmax nz P nr nside mc draws f w hit out,
  proper_shells xmin xmax nx ymin ymax ny zmin zmax nz P nr nside mc draws ->
  shape3 f ny nx nz -> (forall w', w = Some w' -> shape3 w' ny nx nz) ->
  sampled_voxels (voxel_grid xmin xmax nx ymin ymax ny zmin zmax nz) P nr nside draws hit ->
  user_mc_shells xmin xmax nx ymin ymax ny zmin zmax nz P mc draws (fun _ => f) w = Ok out ->
  length out = nr /\ forall i, (i < nr)%nat -> length (nth i out []) = pixels_of nside /\
  forall j, (j < pixels_of nside)%nat -> nth j (nth i out []) None = mean3 f w (hit i j).
Proof.
  intros xmin xmax nx ymin ymax ny zmin zmax nz P nr nside mc draws f w hit out HC Hf Hw Hh E.
  apply (C69_value_covered _ _ _ _ _ _ _ _ _ _ _ _ _ _ f w hit out ny nx nz HC Hh); auto.
  - exact (proper_covers _ _ _ _ _ _ _ Hh Hf).
  - intros w' Ew. exists ny, nx, nz. exact (proper_covers _ _ _ _ _ _ _ Hh (Hw w' Ew)).
Qed.
Print Assumptions C69_value.

(** The calls succeed if in every shell two pixels hit different numbers of
    voxels (and the arrays reach them) ... *)
Theorem C69_runs : forall xmin xmax nx ymin ymax ny zmin zmax nz P nr nside mc draws f w hit n1 n2 n3,
  proper_shells xmin xmax nx ymin ymax ny zmin zmax nz P nr nside mc draws ->
  sampled_voxels (voxel_grid xmin xmax nx ymin ymax ny zmin zmax nz) P nr nside draws hit ->
  covered f n1 n2 n3 nr (pixels_of nside) hit -> (forall w', w = Some w' -> exists m1 m2 m3, covered w' m1 m2 m3 nr (pixels_of nside) hit) ->
  uneven nr (pixels_of nside) hit ->
  exists out, user_mc_shells xmin xmax nx ymin ymax ny zmin zmax nz P mc draws (fun _ => f) w = Ok out.
Proof.
  intros xmin xmax nx ymin ymax ny zmin zmax nz P nr nside mc draws f w hit n1 n2 n3 HC Hh [Sf Cf] Hw Hu. shell_call HC EB HV HP EN Hn Hmc Hd Enp Nx Ny Nz H1.
  unfold user_mc_shells. rewrite EB. cbn [bind]. unfold sampled_voxels in Hh. unfold uneven in Hu. rewrite <- Enp in *. set (V := voxel_grid xmin xmax nx ymin ymax ny zmin zmax nz) in *.
  rewrite (shells_ragged V P nr mc draws hit HV Nx Ny Nz HP Hn Hmc Hd Hh).
  - cbn [bind]. rewrite (shell_remap_arrays V P nr mc draws hit Nx Ny Nz HP Hh f w H1); [eexists; reflexivity| |].
    + intros i j Hi Hj; exists n1, n2, n3; split; [exact Sf|intros q; now apply Cf].
    + intros w' Ew i j Hi Hj. destruct (Hw w' Ew) as (m1 & m2 & m3 & [Sw Cw]). exists m1, m2, m3. split; [exact Sw|intros q; now apply Cw].
  - intros i Hi. destruct (Hu i Hi) as (j1 & j2 & k1 & k2 & J1 & J2 & D1 & D2 & Hk).
    pose proof (cnt_distinct3 V P nr draws hit Hh i j1 Hi J1) as C1. pose proof (cnt_distinct3 V P nr draws hit Hh i j2 Hi J2) as C2.
    pose proof (distinct_unique3 _ _ _ C1 D1). pose proof (distinct_unique3 _ _ _ C2 D2).
    destruct (Nat.eq_dec (cnt3 V hit i j1) (cnt3 V hit i 0)); [exists j2|exists j1]; split; auto; congruence.
Qed.
Print Assumptions C69_runs.

(** ... or if no sample at all is in the cube; then every pixel is without data. *)
Theorem C69_empty : forall xmin xmax nx ymin ymax ny zmin zmax nz P nr nside mc draws f w hit,
  proper_shells xmin xmax nx ymin ymax ny zmin zmax nz P nr nside mc draws ->
  sampled_voxels (voxel_grid xmin xmax nx ymin ymax ny zmin zmax nz) P nr nside draws hit ->
  (forall i j, (i < nr)%nat -> (j < pixels_of nside)%nat -> hit i j = []) ->
  exists out, user_mc_shells xmin xmax nx ymin ymax ny zmin zmax nz P mc draws (fun _ => f) w = Ok out /\
  forall i j, (i < nr)%nat -> (j < pixels_of nside)%nat -> nth j (nth i out []) None = Some no_data.
Proof.
  intros xmin xmax nx ymin ymax ny zmin zmax nz P nr nside mc draws f w hit HC Hh He. shell_call HC EB HV HP EN Hn Hmc Hd Enp Nx Ny Nz H1.
  unfold user_mc_shells. rewrite EB. cbn [bind]. unfold sampled_voxels in Hh. rewrite <- Enp in *. set (V := voxel_grid xmin xmax nx ymin ymax ny zmin zmax nz) in *.
  pose proof (np_pos P Hn) as Np. assert (Nr : (1 <= nr)%nat) by apply HP.
  assert (C0 : forall i j, (i < nr)%nat -> (j < nside2npix (ms_nside P))%nat -> cnt3 V hit i j = 0%nat).
  { intros i j Hi Hj. unfold cnt3. rewrite He by auto. unfold touched3. rewrite filter_none; [reflexivity|]. intros. reflexivity. }
  rewrite (shells_uniform V P nr mc draws hit HV Nx Ny Nz HP Hn Hmc Hd Hh) by (intros; rewrite !C0; auto; lia). cbn [bind].
  destruct (shell_remap_zero V P nr mc draws hit Nx Ny Nz HP Hh f w (cnt3 V hit 0 0)) as [E0 _]; [auto|]. rewrite E0. eexists. split; [reflexivity|].
  intros i j Hi Hj. unfold tab2. now rewrite !tab_nth.
Qed.
Print Assumptions C69_empty.

(** In all other cases they raise: if all pixels of all shells hit the same
    positive number of voxels [remap] refuses its own index arrays ... *)
Theorem C69_equal_counts : forall xmin xmax nx ymin ymax ny zmin zmax nz P nr nside mc draws field w hit k,
  proper_shells xmin xmax nx ymin ymax ny zmin zmax nz P nr nside mc draws ->
  sampled_voxels (voxel_grid xmin xmax nx ymin ymax ny zmin zmax nz) P nr nside draws hit ->
  (1 <= k)%nat -> (forall i j, (i < nr)%nat -> (j < pixels_of nside)%nat -> distinct3 (hit i j) k) ->
  user_mc_shells xmin xmax nx ymin ymax ny zmin zmax nz P mc draws field w = Err IndexError.
Proof.
  intros xmin xmax nx ymin ymax ny zmin zmax nz P nr nside mc draws field w hit k HC Hh Hk Hc. shell_call HC EB HV HP EN Hn Hmc Hd Enp Nx Ny Nz H1.
  unfold user_mc_shells. rewrite EB. cbn [bind]. unfold sampled_voxels in Hh. rewrite <- Enp in *. set (V := voxel_grid xmin xmax nx ymin ymax ny zmin zmax nz) in *.
  pose proof (np_pos P Hn) as Np. assert (Nr : (1 <= nr)%nat) by apply HP.
  assert (C : forall i j, (i < nr)%nat -> (j < nside2npix (ms_nside P))%nat -> cnt3 V hit i j = k).
  { intros i j Hi Hj. exact (distinct_unique3 _ _ _ (cnt_distinct3 V P nr draws hit Hh i j Hi Hj) (Hc i j Hi Hj)). }
  rewrite (shells_uniform V P nr mc draws hit HV Nx Ny Nz HP Hn Hmc Hd Hh) by (intros; rewrite !C; auto; lia). cbn [bind].
  apply (shell_remap_pos V P nr mc draws hit Nx Ny Nz HP Hn Hh); auto. rewrite C; auto; lia.
Qed.
Print Assumptions C69_equal_counts.

(** ... and if the pixels of one shell hit equal numbers of voxels and some other
    pixel a different number, [get_weights] cannot store its arrays. *)
Theorem C69_mixed_counts : forall xmin xmax nx ymin ymax ny zmin zmax nz P nr nside mc draws field w hit k i0 i1 j1 k1,
  proper_shells xmin xmax nx ymin ymax ny zmin zmax nz P nr nside mc draws ->
  sampled_voxels (voxel_grid xmin xmax nx ymin ymax ny zmin zmax nz) P nr nside draws hit ->
  (i0 < nr)%nat -> (forall j, (j < pixels_of nside)%nat -> distinct3 (hit i0 j) k) ->
  (i1 < nr)%nat -> (j1 < pixels_of nside)%nat -> distinct3 (hit i1 j1) k1 -> k1 <> k ->
  user_mc_shells xmin xmax nx ymin ymax ny zmin zmax nz P mc draws field w = Err ValueError.
Proof.
  intros xmin xmax nx ymin ymax ny zmin zmax nz P nr nside mc draws field w hit k i0 i1 j1 k1 HC Hh H0 Hrow I1 J1 D1 Hk. shell_call HC EB HV HP EN Hn Hmc Hd Enp Nx Ny Nz H1.
  unfold user_mc_shells. rewrite EB. cbn [bind]. unfold sampled_voxels in Hh. rewrite <- Enp in *. set (V := voxel_grid xmin xmax nx ymin ymax ny zmin zmax nz) in *.
  pose proof (np_pos P Hn) as Np.
  assert (C : forall j, (j < nside2npix (ms_nside P))%nat -> cnt3 V hit i0 j = k).
  { intros j Hj. exact (distinct_unique3 _ _ _ (cnt_distinct3 V P nr draws hit Hh i0 j H0 Hj) (Hrow j Hj)). }
  pose proof (distinct_unique3 _ _ _ (cnt_distinct3 V P nr draws hit Hh i1 j1 I1 J1) D1) as C1.
  rewrite (shells_mixed V P nr mc draws hit HV Nx Ny Nz HP Hn Hmc Hd Hh i0 i1 j1); auto; [intros; rewrite !C; auto; lia|]. rewrite C by lia. congruence.
Qed.
Print Assumptions C69_mixed_counts.

(** A map that does not reach a voxel hit makes [remap] raise (a shorter axis
    alone does not). *)
Theorem C69_short : forall xmin xmax nx ymin ymax ny zmin zmax nz P nr nside mc draws f hit n1 n2 n3 i j q,
  proper_shells xmin xmax nx ymin ymax ny zmin zmax nz P nr nside mc draws ->
  sampled_voxels (voxel_grid xmin xmax nx ymin ymax ny zmin zmax nz) P nr nside draws hit -> uneven nr (pixels_of nside) hit ->
  shape3 f n1 n2 n3 -> (i < nr)%nat -> (j < pixels_of nside)%nat -> In q (hit i j) -> (n1 <= vj q \/ n2 <= vi q \/ n3 <= vk q)%nat ->
  user_mc_shells xmin xmax nx ymin ymax ny zmin zmax nz P mc draws (fun _ => f) None = Err IndexError.
Proof.
  intros xmin xmax nx ymin ymax ny zmin zmax nz P nr nside mc draws f hit n1 n2 n3 i j q HC Hh Hu Hf Hi Hj Hq Hbad. shell_call HC EB HV HP EN Hn Hmc Hd Enp Nx Ny Nz H1.
  unfold user_mc_shells. rewrite EB. cbn [bind]. unfold sampled_voxels in Hh. unfold uneven in Hu. rewrite <- Enp in *. set (V := voxel_grid xmin xmax nx ymin ymax ny zmin zmax nz) in *.
  rewrite (shells_ragged V P nr mc draws hit HV Nx Ny Nz HP Hn Hmc Hd Hh).
  - cbn [bind]. eapply (shell_remap_bad V P nr mc draws hit Nx Ny Nz HP Hh f None n1 n2 n3 i j q); eauto.
  - intros a Ha. destruct (Hu a Ha) as (j1 & j2 & k1 & k2 & J1 & J2 & D1 & D2 & Hk).
    pose proof (cnt_distinct3 V P nr draws hit Hh a j1 Ha J1) as C1. pose proof (cnt_distinct3 V P nr draws hit Hh a j2 Ha J2) as C2.
    pose proof (distinct_unique3 _ _ _ C1 D1). pose proof (distinct_unique3 _ _ _ C2 D2).
    destruct (Nat.eq_dec (cnt3 V hit a j1) (cnt3 V hit a 0)); [exists j2|exists j1]; split; auto; congruence.
Qed.
Print Assumptions C69_short.

(** Values stay within the range of the map (weights, if any, not negative) in
    every pixel with a sample in the cube; the others hold the no-data mark. *)
Theorem C69_bounds : forall xmin xmax nx ymin ymax ny zmin zmax nz P nr nside mc draws f w out lo hi,
  proper_shells xmin xmax nx ymin ymax ny zmin zmax nz P nr nside mc draws ->
  shape3 f ny nx nz -> (forall w', w = Some w' -> shape3 w' ny nx nz /\ forall i j k, (i < ny)%nat -> (j < nx)%nat -> (k < nz)%nat -> 0 <= cell3 w' i j k) ->
  (forall i j k, (i < ny)%nat -> (j < nx)%nat -> (k < nz)%nat -> lo <= cell3 f i j k <= hi) ->
  user_mc_shells xmin xmax nx ymin ymax ny zmin zmax nz P mc draws (fun _ => f) w = Ok out ->
  forall i j, (i < nr)%nat -> (j < pixels_of nside)%nat ->
  ((exists p, In p (sample_points P draws i j) /\ in_closed3 (voxel_grid xmin xmax nx ymin ymax ny zmin zmax nz) p) ->
     forall v, nth j (nth i out []) None = Some v -> lo <= v <= hi) /\
  ((forall p, In p (sample_points P draws i j) -> ~ in_closed3 (voxel_grid xmin xmax nx ymin ymax ny zmin zmax nz) p) ->
     nth j (nth i out []) None = Some no_data).
Proof.
  intros xmin xmax nx ymin ymax ny zmin zmax nz P nr nside mc draws f w out lo hi HC Hf Hw Hb E i j Hi Hj. shell_call HC EB HV HP EN Hn Hmc Hd Enp Nx Ny Nz H1.
  set (V := voxel_grid xmin xmax nx ymin ymax ny zmin zmax nz) in *. set (hit := fun i j => hits_of3 V (sample_points P draws i j)).
  assert (Hh : forall i j, hits3 V (sample_points P draws i j) (hit i j)) by (intros; now apply hits_of_ok3).
  destruct (C69_value _ _ _ _ _ _ _ _ _ _ _ _ _ _ f w hit out HC Hf (fun w' e => proj1 (Hw w' e)) (fun i j _ _ => Hh i j) E) as [_ H].
  destruct (H i Hi) as [_ H']. rewrite H' by auto. pose proof (hits3_nil_iff V _ _ HV (Hh i j)) as HN. split.
  - intros (p & Hp & Hin) v Ev. apply (mean_between3 f w (hit i j)); auto.
    + intros E0. apply (proj1 HN E0 p); auto.
    + intros q Hq. destruct (hits_in_grid3 V _ _ q (Hh i j) Hq) as (A & B & C). apply Hb; auto.
    + intros w' Ew q Hq. destruct (hits_in_grid3 V _ _ q (Hh i j) Hq) as (A & B & C). apply (Hw w' Ew); auto.
  - intros Hno. rewrite (proj2 HN Hno). now destruct w.
Qed.
Print Assumptions C69_bounds.

(** Without weights every pixel has a number; a constant map gives the constant
    in every pixel with a sample in the cube. *)
Theorem C69_constant : forall xmin xmax nx ymin ymax ny zmin zmax nz P nr nside mc draws k out,
  proper_shells xmin xmax nx ymin ymax ny zmin zmax nz P nr nside mc draws ->
  user_mc_shells xmin xmax nx ymin ymax ny zmin zmax nz P mc draws (fun _ => repeat (repeat (repeat k nz) nx) ny) None = Ok out ->
  forall i j p, (i < nr)%nat -> (j < pixels_of nside)%nat -> In p (sample_points P draws i j) ->
  in_closed3 (voxel_grid xmin xmax nx ymin ymax ny zmin zmax nz) p -> nth j (nth i out []) None = Some k.
Proof.
  intros xmin xmax nx ymin ymax ny zmin zmax nz P nr nside mc draws k out HC E i j p Hi Hj Hp Hin. assert (HC' := HC). shell_call HC' EB HV HP EN Hn Hmc Hd Enp Nx Ny Nz H1.
  assert (ER : repeat (repeat (repeat k nz) nx) ny = tab3 ny nx nz (fun _ _ _ => k)).
  { unfold tab3. rewrite (tab_ext _ ny _ (fun _ => repeat (repeat k nz) nx)) by (intros; apply tab2_const). unfold tab. rewrite <- (seq_length ny 0) at 1. generalize (seq 0 ny) as l. induction l as [|a l IH]; [reflexivity|]. cbn. now f_equal. }
  rewrite ER in E. set (f := tab3 ny nx nz (fun _ _ _ => k)) in *. assert (S : shape3 f ny nx nz) by apply tab3_shape.
  set (V := voxel_grid xmin xmax nx ymin ymax ny zmin zmax nz) in *. set (hit := fun i j => hits_of3 V (sample_points P draws i j)).
  assert (Hh : forall i j, hits3 V (sample_points P draws i j) (hit i j)) by (intros; now apply hits_of_ok3).
  destruct (C69_value _ _ _ _ _ _ _ _ _ _ _ _ _ _ f None hit out HC S ltac:(discriminate) (fun i j _ _ => Hh i j) E) as [_ H].
  destruct (H i Hi) as [_ H'].
  destruct (nth j (nth i out []) None) as [v|] eqn:Ev.
  - f_equal. assert (k <= v <= k); [|lra]. destruct (C69_bounds _ _ _ _ _ _ _ _ _ _ _ _ _ _ f None out k k HC S ltac:(discriminate)) with (i := i) (j := j) as [B _]; eauto.
    intros a b c Ha Hb Hc. unfold f. rewrite tab3_cell by auto. lra.
  - exfalso. rewrite H' in Ev by auto. cbn [mean3] in Ev. unfold plain_mean3 in Ev. destruct (hit i j); discriminate.
Qed.
Print Assumptions C69_constant.

(** A map tabulated on the coordinate arrays of the object ([x3d], [y3d],
    [z3d]): the mean of the field at the middles of the voxels hit.  (The dense
    remapper needs the other layout, [C62_transposed].) *)
Theorem C69_mesh : forall xmin xmax nx ymin ymax ny zmin zmax nz P nr nside mc draws g hit out,
  proper_shells xmin xmax nx ymin ymax ny zmin zmax nz P nr nside mc draws ->
  let V := voxel_grid xmin xmax nx ymin ymax ny zmin zmax nz in
  sampled_voxels V P nr nside draws hit ->
  user_mc_shells xmin xmax nx ymin ymax ny zmin zmax nz P mc draws (fun C => tabulate g (cu_x3d C) (cu_y3d C) (cu_z3d C)) None = Ok out ->
  forall i j, (i < nr)%nat -> (j < pixels_of nside)%nat -> nth j (nth i out []) None = plain_mean3 (at_middle V g) (hit i j).
Proof.
  intros xmin xmax nx ymin ymax ny zmin zmax nz P nr nside mc draws g hit out HC V Hh E i j Hi Hj. assert (HC' := HC). shell_call HC' EB HV HP EN Hn Hmc Hd Enp Nx Ny Nz H1. fold V in EB.
  set (f := tab3 ny nx nz (fun j i k => g (mid_x V i) (mid_y V j) (mid_z V k))). assert (S : shape3 f ny nx nz) by apply tab3_shape.
  assert (E' : user_mc_shells xmin xmax nx ymin ymax ny zmin zmax nz P mc draws (fun _ => f) None = Ok out).
  { rewrite <- E. unfold user_mc_shells. rewrite EB. cbn [bind]. now rewrite tabulate_cube. }
  destruct (C69_value _ _ _ _ _ _ _ _ _ _ _ _ _ _ f None hit out HC S ltac:(discriminate) Hh E') as [_ H]. destruct (H i Hi) as [_ H']. rewrite H' by auto. cbn [mean3].
  unfold plain_mean3. destruct (hit i j) as [|q0 h0] eqn:Eh; [reflexivity|]. rewrite <- Eh. do 3 f_equal. apply map_ext_in. intros q Hq.
  destruct (hits_in_grid3 V _ _ q (Hh i j Hi Hj) Hq) as (A & B & C). unfold stored_yxz, f, at_middle. now rewrite tab3_cell.
Qed.
Print Assumptions C69_mesh.

(** A map with the x axis first (equal numbers of voxels in x and y) is read
    with x and y exchanged. *)
Theorem C69_x_first : forall xmin xmax ymin ymax n zmin zmax nz P nr nside mc draws g hit out,
  proper_shells xmin xmax n ymin ymax n zmin zmax nz P nr nside mc draws ->
  let V := voxel_grid xmin xmax n ymin ymax n zmin zmax nz in
  sampled_voxels V P nr nside draws hit ->
  user_mc_shells xmin xmax n ymin ymax n zmin zmax nz P mc draws (fun _ => tabulate_ij g V) None = Ok out ->
  forall i j, (i < nr)%nat -> (j < pixels_of nside)%nat ->
  nth j (nth i out []) None = plain_mean3 (fun q => at_middle V g (vj q, vi q, vk q)) (hit i j).
Proof.
  intros xmin xmax ymin ymax n zmin zmax nz P nr nside mc draws g hit out HC V Hh E i j Hi Hj. assert (HC' := HC). shell_call HC' EB HV HP EN Hn Hmc Hd Enp Nx Ny Nz H1.
  change (tabulate_ij g V) with (tab3 n n nz (fun i j k => g (mid_x V i) (mid_y V j) (mid_z V k))) in E.
  set (f := tab3 n n nz (fun i j k => g (mid_x V i) (mid_y V j) (mid_z V k))) in *. assert (S : shape3 f n n nz) by apply tab3_shape.
  destruct (C69_value _ _ _ _ _ _ _ _ _ _ _ _ _ _ f None hit out HC S ltac:(discriminate) Hh E) as [_ H]. destruct (H i Hi) as [_ H']. rewrite H' by auto. cbn [mean3].
  unfold plain_mean3. destruct (hit i j) as [|q0 h0] eqn:Eh; [reflexivity|]. rewrite <- Eh. do 3 f_equal. apply map_ext_in. intros q Hq.
  destruct (hits_in_grid3 V _ _ q (Hh i j Hi Hj) Hq) as (A & B & C). unfold stored_yxz, f, at_middle. now rewrite tab3_cell.
Qed.
Print Assumptions C69_x_first.

(** No samples: every pixel is without data.  A negative number of samples, a
    reversed cube, a call of [remap] before [get_weights]: exceptions. *)
Theorem C69_no_samples : forall xmin xmax nx ymin ymax ny zmin zmax nz P nr nside draws f w,
  xmin < xmax -> ymin < ymax -> zmin < zmax -> (1 <= nx)%nat -> (1 <= ny)%nat -> (1 <= nz)%nat -> made_shells P nr nside -> (1 <= nside)%Z -> fair3 0 draws ->
  exists out, user_mc_shells xmin xmax nx ymin ymax ny zmin zmax nz P 0 draws (fun _ => f) w = Ok out /\
  forall i j, (i < nr)%nat -> (j < pixels_of nside)%nat -> nth j (nth i out []) None = Some no_data.
Proof.
  intros xmin xmax nx ymin ymax ny zmin zmax nz P nr nside draws f w X Y Z Nx Ny Nz HM Hn Hd. destruct (made_shells_good _ _ _ HM) as [HP EN].
  unfold user_mc_shells. rewrite setup_cube_ok by auto. cbn [bind]. set (V := voxel_grid xmin xmax nx ymin ymax ny zmin zmax nz).
  assert (HV : good_voxels V) by (now apply grid_good3). assert (Hn' : (1 <= ms_nside P)%Z) by lia.
  change (pixels_of nside) with (nside2npix nside). rewrite <- EN. pose proof (np_pos P Hn') as Np. assert (Nr : (1 <= nr)%nat) by apply HP.
  assert (Hg : forall i j, good_draws (Z.to_nat 0) (draws i j)) by (intros; now apply fair_good).
  assert (Hh : forall i j, (i < nr)%nat -> (j < nside2npix (ms_nside P))%nat -> hits3 V (sample_points P draws i j) []).
  { intros i j _ _. assert (E : sample_points P draws i j = []); [|rewrite E; constructor]. apply length_zero_iff_nil. rewrite sample_length.
    specialize (Hd i j). destruct (draws i j) as [[ux uy] ur]. apply Hd. }
  rewrite (shells_uniform V P nr 0 draws (fun _ _ => []) HV Nx Ny Nz HP Hn' ltac:(lia) Hg Hh) by reflexivity. cbn [bind].
  destruct (shell_remap_zero V P nr 0 draws (fun _ _ => []) Nx Ny Nz HP Hh f w (cnt3 V (fun _ _ => []) 0 0)) as [E0 _].
  { intros. unfold cnt3, touched3. rewrite filter_none; [reflexivity|]. intros. reflexivity. }
  rewrite E0. eexists. split; [reflexivity|]. intros i j Hi Hj. unfold tab2. now rewrite !tab_nth.
Qed.
Print Assumptions C69_no_samples.

Lemma first_pixel : forall C P nr nside draws mc e, made_shells P nr nside -> (1 <= nside)%Z ->
  pixel_weights C P (draws 0%nat 0%nat) mc 0 0 = Err e -> shell_weights C P draws mc = Err e.
Proof.
  intros C P nr nside draws mc e HM Hn E. destruct (made_shells_good _ _ _ HM) as [HP EN]. assert (Hn' : (1 <= ms_nside P)%Z) by lia. pose proof (np_pos P Hn') as Np.
  destruct HP as (Nr & _ & Lr & _). unfold shell_weights. rewrite Lr. set (np := nside2npix (ms_nside P)) in *.
  replace (seq 0 nr) with (0%nat :: seq 1 (nr - 1)) by (replace nr with (S (nr - 1)) by lia; cbn [Nat.sub seq]; now rewrite Nat.sub_0_r).
  replace (seq 0 np) with (0%nat :: seq 1 (np - 1)) by (replace np with (S (np - 1)) by lia; cbn [Nat.sub seq]; now rewrite Nat.sub_0_r).
  rewrite (mapM_first _ _ _ _ _ e); [reflexivity|]. now apply mapM_first.
Qed.

Theorem C69_negative : forall xmin xmax nx ymin ymax ny zmin zmax nz P nr nside mc draws field w,
  (1 <= nx)%nat -> (1 <= ny)%nat -> (1 <= nz)%nat -> made_shells P nr nside -> (1 <= nside)%Z -> (mc < 0)%Z ->
  user_mc_shells xmin xmax nx ymin ymax ny zmin zmax nz P mc draws field w = Err ValueError.
Proof.
  intros xmin xmax nx ymin ymax ny zmin zmax nz P nr nside mc draws field w Nx Ny Nz HM Hn Hmc. unfold user_mc_shells. rewrite setup_cube_ok by auto. cbn [bind].
  rewrite (first_pixel _ P nr nside draws mc ValueError HM Hn); [reflexivity|]. destruct (made_shells_good _ _ _ HM) as [(Nr & Le & _) _].
  unfold pixel_weights. destruct (draws 0%nat 0%nat) as [[ux uy] ur]. rewrite !(py_get_ok _ (ms_redges P) _ 0) by lia. cbn [bind].
  unfold random_sample. replace (mc <? 0)%Z with true by (symmetry; apply Z.ltb_lt; lia). reflexivity.
Qed.
Print Assumptions C69_negative.

Theorem C69_reversed : forall xmin xmax nx ymin ymax ny zmin zmax nz P nr nside mc draws field w,
  xmax < xmin -> (1 <= nx)%nat -> (1 <= ny)%nat -> (1 <= nz)%nat -> made_shells P nr nside -> (1 <= nside)%Z -> (0 <= mc)%Z -> fair3 (Z.to_nat mc) draws ->
  user_mc_shells xmin xmax nx ymin ymax ny zmin zmax nz P mc draws field w = Err ValueError.
Proof.
  intros xmin xmax nx ymin ymax ny zmin zmax nz P nr nside mc draws field w X Nx Ny Nz HM Hn Hmc Hd. unfold user_mc_shells. rewrite setup_cube_ok by auto. cbn [bind].
  rewrite (first_pixel _ P nr nside draws mc ValueError HM Hn); [reflexivity|]. destruct (made_shells_good _ _ _ HM) as [HP EN]. assert (Hn' : (1 <= ms_nside P)%Z) by lia.
  pose proof (np_pos P Hn') as Np. assert (HP' := HP). destruct HP' as (Nr & Le & _ & Lc & _).
  destruct (points_ok3 P nr draws (Z.to_nat mc) 0 0 HP Hn' ltac:(lia) ltac:(lia) (fair_good _ _ 0 0 Hd)) as (phis & thetas & E1 & _).
  unfold pixel_weights. unfold dx, dy, dr in *. destruct (draws 0%nat 0%nat) as [[ux uy] ur] eqn:ED. cbn [fst snd] in *.
  rewrite !(py_get_ok _ (ms_redges P) _ 0) by lia. cbn [bind].
  unfold randoms_sphere_r, random_sample. replace (mc <? 0)%Z with false by (symmetry; apply Z.ltb_ge; lia). cbn [bind].
  rewrite E1. cbn [bind]. rewrite !(py_get_ok _ (ms_center P) _ 0) by lia. cbn [bind the_cube cu_xedges cu_yedges cu_zedges voxel_grid bx0 bhx bnx by0 bhy bny bz0 bhz bnz].
  rewrite !(py_get_ok _ (tab _ _) 0 0) by (rewrite tab_length; lia). rewrite !(py_get_last _ (tab _ _) 0) by (rewrite tab_length; lia). cbn [bind].
  change (Z.to_nat 0) with 0%nat. rewrite !tab_length. cbn [Nat.sub]. rewrite !Nat.sub_0_r, !tab_nth by lia. unfold hist_edges at 1, outer_edges at 1.
  pose proof (INR_pos nx Nx) as Px. rewrite Rlt_bool_true; [reflexivity|]. cbn [INR]. replace (INR nx * ((xmax - xmin) / INR nx)) with (xmax - xmin) by (field; lra). lra.
Qed.
Print Assumptions C69_reversed.

Theorem C69_unset : forall P nr nside f w, made_shells P nr nside -> (1 <= nside)%Z -> shell_remap P None f w = Err TypeError.
Proof.
  intros P nr nside f w HM Hn. destruct (made_shells_good _ _ _ HM) as [HP EN]. assert (Hn' : (1 <= ms_nside P)%Z) by lia. pose proof (np_pos P Hn') as Np.
  destruct HP as (Nr & _ & Lr & _). unfold shell_remap. rewrite Lr. set (np := nside2npix (ms_nside P)) in *.
  replace (seq 0 nr) with (0%nat :: seq 1 (nr - 1)) by (replace nr with (S (nr - 1)) by lia; cbn [Nat.sub seq]; now rewrite Nat.sub_0_r).
  replace (seq 0 np) with (0%nat :: seq 1 (np - 1)) by (replace np with (S (np - 1)) by lia; cbn [Nat.sub seq]; now rewrite Nat.sub_0_r).
  apply mapM_first. now apply mapM_first.
Qed.
Print Assumptions C69_unset.

(** A proper call whose shells lie inside a cube of a single voxel raises
    whatever is drawn. *)
Theorem C69_refuted : exists P, shells_lin 0 1 2 1 [0; 0; 0] = Ok P /\ forall mc draws f w, (1 <= mc)%Z -> fair3 (Z.to_nat mc) draws ->
  proper_shells (-2) 2 1 (-2) 2 1 (-2) 2 1 P 2 1 mc draws /\
  user_mc_shells (-2) 2 1 (-2) 2 1 (-2) 2 1 P mc draws (fun _ => f) w = Err IndexError.
Proof.
  exists (lin_shells 0 1 2 1 [0; 0; 0]). split; [apply (shells_lin_ok 0 1 2); try lra; auto|]. set (P := lin_shells 0 1 2 1 [0; 0; 0]). intros mc draws f w Hmc Hd.
  assert (HM : made_shells P 2 1) by (left; exists 0, 1, [0; 0; 0]; apply (shells_lin_ok 0 1 2); try lra; auto).
  assert (HC : proper_shells (-2) 2 1 (-2) 2 1 (-2) 2 1 P 2 1 mc draws).
  { split; [lra|]. split; [lia|]. split; [exact HM|]. split; [lia|]. split; [lia|exact Hd]. }
  split; [exact HC|]. set (V := voxel_grid (-2) 2 1 (-2) 2 1 (-2) 2 1).
  assert (IN : forall i j p, (i < 2)%nat -> (j < pixels_of 1)%nat -> In p (sample_points P draws i j) -> counted_in3 V p (0, 0, 0)%nat).
  { intros i j p Hi Hj Hp. pose proof (C69_samples P 2 1 _ draws i j HM ltac:(lia) Hd Hi Hj) as S. destruct (draws i j) as [[ux uy] ur]. cbv zeta in S.
    destruct S as (L & xp & yp & _ & S). destruct (In_nth _ _ (V3 0 0 0) Hp) as (q & Hq & Eq). rewrite L in Hq. destruct (S q Hq) as (r & th & ph & x & y & m & Ep & _ & Hr & _).
    rewrite Eq in Ep. subst p. rewrite Ep.
    assert (R1 : 0 <= r <= 1).
    { revert Hr. unfold P, lin_shells, lin_edges. cbn [ms_redges]. rewrite !tab_nth by lia. change (INR 2) with 2. destruct i as [|[|i]]; [| |lia]; cbn [Nat.add INR]; lra. }
    pose proof (COS_bound ph). pose proof (SIN_bound ph). pose proof (COS_bound th). pose proof (SIN_bound th).
    assert (B : forall a, -1 <= a <= 1 -> -1 <= r * a <= 1) by (intros; nra).
    assert (B2 : forall a b, -1 <= a <= 1 -> -1 <= b <= 1 -> -1 <= r * a * b <= 1) by (intros a b Ha Hb; rewrite Rmult_assoc; apply B; nra).
    pose proof (B2 (cos ph) (sin th) ltac:(lra) ltac:(lra)). pose proof (B2 (sin ph) (sin th) ltac:(lra) ltac:(lra)). pose proof (B (cos th) ltac:(lra)).
    unfold counted_in3, V, voxel_grid, in_bin, seen_from, center_of, vi, vj, vk. cbn [bx0 bhx bnx by0 bhy bny bz0 bhz bnz fst snd vx vy vz P lin_shells ms_center nth]. cbn [INR].
    repeat split; try lia; try lra; left; lra. }
  assert (HH : forall l : list vec, (forall p, In p l -> counted_in3 V p (0, 0, 0)%nat) -> hits3 V l (map (fun _ => (0, 0, 0)%nat) l)).
  { induction l as [|p l IH]; intros H; [constructor|]. cbn [map]. constructor; [apply H; now left|apply IH; intros; apply H; now right]. }
  apply (C69_equal_counts _ _ _ _ _ _ _ _ _ _ 2 1 mc draws _ w (fun i j => map (fun _ => (0, 0, 0)%nat) (sample_points P draws i j)) 1 HC); [|lia|].
  - intros i j Hi Hj. apply HH. intros p Hp. now apply (IN i j).
  - intros i j Hi Hj. exists [(0, 0, 0)%nat]. split; [constructor; [intros []|constructor]|]. split; [reflexivity|].
    pose proof (C69_samples P 2 1 _ draws i j HM ltac:(lia) Hd Hi Hj) as S. destruct (draws i j) as [[ux uy] ur]. cbv zeta in S. destruct S as (L & _).
    intros q. split.
    + intros [<-|[]]. destruct (sample_points P draws i j) as [|p l]; [cbn in L; lia|]. now left.
    + intros Hq. apply in_map_iff in Hq. destruct Hq as (p & <- & _). now left.
Qed.
Print Assumptions C69_refuted.

(** ** The worked case: one shell of radii 1/2 to 1 around [(0, -1, 0)], two by
    two by one voxels, one sample in the middle of each pixel of [nside] 1. *)
Definition case3_draws (i j : nat) : list R * list R * list R := ([/ 2], [/ 2], [0]).
Definition case3_shells : mc_shells := log_shells (/ 2) 1 1 1 [0; -1; 0] false.
Definition case3_cube : voxels := voxel_grid (-2) 2 2 (-2) 2 2 (- / 4) (/ 4) 1.

Lemma case3_made : made_shells case3_shells 1 1.
Proof. right. exists (/ 2), 1, [0; -1; 0], false. apply (shells_log_ok (/ 2) 1 1); auto; lra. Qed.

Lemma case3_proper : proper_shells (-2) 2 2 (-2) 2 2 (- / 4) (/ 4) 1 case3_shells 1 1 1 case3_draws.
Proof.
  split; [lra|]. split; [lia|]. split; [exact case3_made|]. split; [lia|]. split; [lia|]. intros i j. cbn. repeat split; intros; repeat match goal with H : _ \/ _ |- _ => destruct H | H : False |- _ => destruct H end; subst; lra.
Qed.

Lemma case3_edges : nth 0 (ms_redges case3_shells) 0 = / 2 /\ nth 1 (ms_redges case3_shells) 0 = 1.
Proof.
  unfold case3_shells, log_shells, log_edges. cbn [ms_redges]. rewrite !tab_nth by lia. unfold geometric. cbn [INR]. split.
  - unfold Rdiv at 2. rewrite Rmult_0_l, Rpower_O by lra. ring.
  - replace (1 / 1) with 1 by field. rewrite Rpower_1 by lra. field.
Qed.

(** The sample of pixel [j] is in the direction of the middle of the pixel. *)
Lemma case3_point : forall j xp yp phi theta, (j < 12)%nat -> pix2xy (Z.of_nat j) 1 = Ok (xp, yp) -> 0 <= xp < 2 * PI -> xy2ang xp yp = (phi, Some theta) ->
  sample_points case3_shells case3_draws 0 j = [seen_from (V3 0 (-1) 0) (/ 2) (theta, phi)].
Proof.
  intros j xp yp phi theta Hj Exy Hx Ea. unfold sample_points, plane_centre. change (ms_nside case3_shells) with 1%Z. rewrite Exy. destruct case3_edges as [E0 E1].
  change (0 + 1)%nat with 1%nat. rewrite E0, E1. cbn [case3_draws dx dy dr fst snd length seq map nth]. f_equal. unfold center_of. cbn [case3_shells log_shells ms_center nth]. f_equal.
  - unfold radius. replace ((1 * 1 * 1 - / 2 * / 2 * / 2) * 0 + / 2 * / 2 * / 2) with (/ 2 * / 2 * / 2) by ring.
    assert (A : 0 <= / 2 * / 2 * / 2) by lra. pose proof (cbrt_cube _ A) as C. pose proof (cbrt_nonneg (/ 2 * / 2 * / 2)) as N.
    apply Rle_antisym; apply cube_le; lra.
  - unfold direction. assert (DX : draw_x xp (half_diag 1) (/ 2) = xp).
    { unfold draw_x. rewrite Rle_bool_true by lra. replace (2 * / 2) with 1 by field. rewrite sqrt_1. ring. }
    assert (DY : draw_y xp yp (half_diag 1) (/ 2) (/ 2) = yp) by (unfold draw_y; rewrite DX, Rle_bool_true by lra; field).
    rewrite DX, DY, Rmod_id by exact Hx. now rewrite Ea.
Qed.

Lemma case3_xrange : forall j xp yp, (j < 12)%nat -> pix2xy (Z.of_nat j) 1 = Ok (xp, yp) -> 0 <= xp < 2 * PI.
Proof.
  intros j xp yp Hj E. destruct (pix2xy_legal 1 (Z.of_nat j) ltac:(lia)) as (a & b & PA & E'); [unfold legal_pix; lia|].
  rewrite E in E'. apply Ok_inj in E'. injection E' as -> _. destruct PA as [L _]. pose proof (jd2_range 1 a b ltac:(lia) L) as J.
  assert (0 <= IZR (jd2 1 a b) <= 7) by (split; apply IZR_le; lia). unfold half_diag. pose proof PI_RGT_0. split.
  - apply Rmult_le_pos; [lra|]. apply Rlt_le, Rdiv_lt_0_compat; lra.
  - replace (IZR (jd2 1 a b) * (PI / (4 * 1))) with (IZR (jd2 1 a b) * PI / 4) by field. nra.
Qed.

Lemma case3_sample : forall j a b, (j < 12)%nat -> pixel_at 1 (Z.of_nat j) a b -> exists theta, 0 <= theta <= PI /\ cos theta = centre_z 1 a /\
  sample_points case3_shells case3_draws 0 j = [seen_from (V3 0 (-1) 0) (/ 2) (theta, centre_phi 1 a b)].
Proof.
  intros j a b Hj PA. destruct (pixel_centre 1 (Z.of_nat j) ltac:(lia)) as (a' & b' & x & y & theta & PA' & E & Ea & Ht & Ec); [unfold legal_pix; lia|].
  destruct (pixel_at_unique 1 _ _ _ _ _ ltac:(lia) PA PA') as [<- <-]. exists theta. split; [exact Ht|]. split; [exact Ec|].
  apply (case3_point j x y); auto. now apply (case3_xrange j x y).
Qed.

Lemma case3_hit4 : hits3 case3_cube (sample_points case3_shells case3_draws 0 4) [(1, 0, 0)%nat].
Proof.
  destruct (case3_sample 4 2 1) as (theta & Ht & Ec & ->); [lia|split; [unfold legal_ij; cbn; lia|reflexivity]|].
  assert (C0 : cos theta = 0) by (rewrite Ec; unfold centre_z; cbn; field).
  assert (T : theta = PI / 2) by (pose proof PI_RGT_0; apply cos_inj; try lra; rewrite cos_PI2; exact C0).
  constructor; [|constructor]. unfold counted_in3, case3_cube, voxel_grid, in_bin, seen_from, vi, vj, vk. cbn [bx0 bhx bnx by0 bhy bny bz0 bhz bnz fst snd vx vy vz].
  replace (centre_phi 1 2 1) with 0 by (unfold centre_phi; cbn; field). rewrite C0, T, cos_0, sin_0, sin_PI2. cbn [INR]. repeat split; try lia; try lra; left; lra.
Qed.

Lemma case3_hit0 : hits3 case3_cube (sample_points case3_shells case3_draws 0 0) [].
Proof.
  destruct (case3_sample 0 1 1) as (theta & Ht & Ec & ->); [lia|split; [unfold legal_ij; cbn; lia|reflexivity]|].
  assert (C0 : cos theta = 2 / 3) by (rewrite Ec; unfold centre_z; cbn; field).
  apply hits3_out; [|constructor]. unfold in_closed3, case3_cube, voxel_grid, seen_from. cbn [bz0 bhz bnz fst snd vx vy vz]. rewrite C0. cbn [INR]. lra.
Qed.

Definition case3_hit (i j : nat) : list voxel := hits_of3 case3_cube (sample_points case3_shells case3_draws i j).

Lemma case3_hits : sampled_voxels case3_cube case3_shells 1 1 case3_draws case3_hit.
Proof. intros i j _ _. apply hits_of_ok3; [apply grid_good3; lra || lia|cbn; lia|cbn; lia|cbn; lia]. Qed.

Lemma case3_known : case3_hit 0 4 = [(1, 0, 0)%nat] /\ case3_hit 0 0 = [].
Proof.
  assert (G : good_voxels case3_cube) by (apply grid_good3; lra || lia).
  assert (U : forall l h, hits3 case3_cube l h -> hits_of3 case3_cube l = h).
  { intros l h H. destruct (C69_hits case3_cube l G) as (h0 & _ & U); [cbn; lia|cbn; lia|cbn; lia|]. transitivity h0; [symmetry|]; apply U; auto. apply hits_of_ok3; auto; cbn; lia. }
  split; apply U; [exact case3_hit4|exact case3_hit0].
Qed.

Lemma case3_uneven : uneven 1 (pixels_of 1) case3_hit.
Proof.
  intros i Hi. replace i with 0%nat by lia. destruct case3_known as [K4 K0]. exists 4%nat, 0%nat, 1%nat, 0%nat. rewrite K4, K0.
  split; [cbn; lia|]. split; [cbn; lia|]. split; [|split; [|lia]].
  - exists [(1, 0, 0)%nat]. split; [constructor; [intros []|constructor]|]. split; [reflexivity|]. intros q. reflexivity.
  - exists []. split; [constructor|]. split; [reflexivity|]. intros q. reflexivity.
Qed.

Example C69_case : proper_shells (-2) 2 2 (-2) 2 2 (- / 4) (/ 4) 1 case3_shells 1 1 1 case3_draws /\
  sampled_voxels case3_cube case3_shells 1 1 case3_draws case3_hit /\ uneven 1 (pixels_of 1) case3_hit /\
  exists out, user_mc_shells (-2) 2 2 (-2) 2 2 (- / 4) (/ 4) 1 case3_shells 1 case3_draws
    (fun C => tabulate (fun x _ _ => x) (cu_x3d C) (cu_y3d C) (cu_z3d C)) None = Ok out /\
  nth 4 (nth 0 out []) None = Some 1 /\ nth 0 (nth 0 out []) None = Some no_data.
Proof.
  split; [exact case3_proper|]. split; [exact case3_hits|]. split; [exact case3_uneven|].
  set (V := case3_cube). set (f := tab3 2 2 1 (fun j i k => mid_x V i)).
  destruct (C69_runs _ _ _ _ _ _ _ _ _ _ _ _ _ _ f None case3_hit 2 2 1 case3_proper case3_hits) as [out E].
  - apply (proper_covers _ _ _ _ _ _ _ case3_hits). apply tab3_shape.
  - discriminate.
  - exact case3_uneven.
  - assert (E' : user_mc_shells (-2) 2 2 (-2) 2 2 (- / 4) (/ 4) 1 case3_shells 1 case3_draws (fun C => tabulate (fun x _ _ => x) (cu_x3d C) (cu_y3d C) (cu_z3d C)) None = Ok out).
    { rewrite <- E. unfold user_mc_shells. rewrite setup_cube_ok by lia. cbn [bind]. now rewrite tabulate_cube. }
    exists out. split; [exact E'|]. destruct case3_known as [K4 K0].
    rewrite !(C69_mesh _ _ _ _ _ _ _ _ _ _ _ _ _ _ _ case3_hit out case3_proper case3_hits E') by (cbn; lia). rewrite K4, K0. split; [|reflexivity].
    unfold plain_mean3, at_middle, mid_x, voxel_grid. cbn [map Rsum fold_right length INR bx0 bhx vi fst]. f_equal. field.
Qed.

(** The layout that is right for the dense remapper (x axis first) is wrong here:
    the x coordinate of the voxel of pixel 4 is 1, the value returned is -1. *)
Theorem C69_layout_refuted : exists out,
  user_mc_shells (-2) 2 2 (-2) 2 2 (- / 4) (/ 4) 1 case3_shells 1 case3_draws (fun _ => tabulate_ij (fun x _ _ => x) case3_cube) None = Ok out /\
  hits3 case3_cube (sample_points case3_shells case3_draws 0 4) [(1, 0, 0)%nat] /\ mid_x case3_cube 1 = 1 /\
  nth 4 (nth 0 out []) None = Some (-1).
Proof.
  destruct (C69_runs _ _ _ _ _ _ _ _ _ _ _ _ _ _ (tabulate_ij (fun x _ _ => x) case3_cube) None case3_hit 2 2 1 case3_proper case3_hits) as [out E].
  - apply (proper_covers _ _ _ _ _ _ _ case3_hits). apply (tab3_shape 2 2 1).
  - discriminate.
  - exact case3_uneven.
  - exists out. split; [exact E|]. split; [exact case3_hit4|]. destruct case3_known as [K4 _]. split; [unfold mid_x, case3_cube, voxel_grid; cbn [bx0 bhx INR]; field|].
    rewrite (C69_x_first _ _ _ _ _ _ _ _ _ _ _ _ _ _ case3_hit out case3_proper case3_hits E) by (cbn; lia). rewrite K4.
    unfold plain_mean3, at_middle, mid_x, voxel_grid. cbn [map Rsum fold_right length INR bx0 bhx vi vj vk fst snd]. f_equal. field.
Qed.
Print Assumptions C69_layout_refuted.
