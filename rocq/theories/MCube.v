(** * Model of [magpie/densegrid/cube2shell.py]

    healpy functions appear as arbitrary functions: [isnsideok],
    [pix2ang nside pix] (theta, phi), [ud_grade map nside].  [hp.nside2npix] is
    [12 nside^2]. *)

From Coq Require Import Reals ZArith List Bool.
From Flocq Require Import Core.Raux.
From Verif Require Import Base MCoords MGrids MDense.
Import ListNotations.
Open Scope R_scope.

(** [np.meshgrid(x, y, z)], default indexing: the first axis is [y]. *)
Definition meshgrid3 (x y z : list R) : list (list (list R)) * list (list (list R)) * list (list (list R)) :=
  (map (fun _ => map (fun a => map (fun _ => a) z) x) y,
   map (fun b => map (fun _ => map (fun _ => b) z) x) y,
   map (fun _ => map (fun _ => z) x) y).

Record cube_grid := CubeGrid {
  cu_xedges : list R; cu_yedges : list R; cu_zedges : list R;
  cu_xmid : list R; cu_ymid : list R; cu_zmid : list R; cu_dx : R; cu_dy : R; cu_dz : R;
  cu_x3d : list (list (list R)); cu_y3d : list (list (list R)); cu_z3d : list (list (list R)) }.

(** cube2shell.py:39-68, [setup_cube]; [numz] is not checked. *)
Definition setup_cube (xmin xmax : R) (numx : Z) (ymin ymax : R) (numy : Z) (zmin zmax : R) (numz : Z) : res cube_grid :=
  guard (0 <? numx)%Z ;;
  guard (0 <? numy)%Z ;;
  xe <- linspaceZ xmin xmax (numx + 1) ;;
  ye <- linspaceZ ymin ymax (numy + 1) ;;
  ze <- linspaceZ zmin zmax (numz + 1) ;;
  let xm := map2 (fun a b => / 2 * (a + b)) (tl xe) (removelast xe) in
  let ym := map2 (fun a b => / 2 * (a + b)) (tl ye) (removelast ye) in
  let zm := map2 (fun a b => / 2 * (a + b)) (tl ze) (removelast ze) in
  xe1 <- py_get xe 1 ;; xe0 <- py_get xe 0 ;;
  ye1 <- py_get ye 1 ;; ye0 <- py_get ye 0 ;;
  ze1 <- py_get ze 1 ;; ze0 <- py_get ze 0 ;;
  let '(x3, y3, z3) := meshgrid3 xm ym zm in
  Ok (CubeGrid xe ye ze xm ym zm (xe1 - xe0) (ye1 - ye0) (ze1 - ze0) x3 y3 z3).

Record shells := Shells {
  sh_rmid : list R; sh_nside : Z; sh_rebin_shell : Z; sh_rebin_r : nat;
  sh_centers : list (R * R * R); sh_rebin_redges : list R; sh_rebin_rmid : list R }.

(** [range(p[0], p[1] + 1)] *)
Definition py_range (p : Z * Z) : list Z :=
  map (fun k => (fst p + Z.of_nat k)%Z) (seq 0 (Z.to_nat (snd p + 1 - fst p))).

(** cube2shell.py:71-118, [setup_polar]; the three periodic ranges are pairs. *)
Definition setup_shells (isnsideok : Z -> bool) (C : cube_grid) (rmin rmax : R) (numr nside : Z) (center : list R)
    (rebin_shell rebin_r : Z) (periodicx periodicy periodicz : Z * Z) : res shells :=
  guard Rle_bool 0 rmin ;;
  guard Rlt_bool rmin rmax ;;
  guard (0 <? numr)%Z ;;
  guard (length center =? 3)%nat ;;
  guard (1 <=? rebin_shell)%Z ;;
  guard isnsideok nside ;;
  guard isnsideok (nside * rebin_shell)%Z ;;
  guard (1 <=? rebin_r)%Z ;;
  re <- linspaceZ rmin rmax (numr + 1) ;;
  let rm := map2 (fun a b => / 2 * (a + b)) (tl re) (removelast re) in
  rm1 <- py_get rm 1 ;; rm0 <- py_get rm 0 ;;
  c0 <- py_get center 0 ;; c1 <- py_get center 1 ;; c2 <- py_get center 2 ;;
  xl <- py_get (cu_xedges C) (-1) ;; x0 <- py_get (cu_xedges C) 0 ;;
  yl <- py_get (cu_yedges C) (-1) ;; y0 <- py_get (cu_yedges C) 0 ;;
  zl <- py_get (cu_zedges C) (-1) ;; z0 <- py_get (cu_zedges C) 0 ;;
  let centers :=
    flat_map (fun i => flat_map (fun j => map (fun k =>
      (c0 + IZR i * (xl - x0), c1 + IZR j * (yl - y0), c2 + IZR k * (zl - z0)))
      (py_range periodicz)) (py_range periodicy)) (py_range periodicx) in
  re0 <- py_get re 0 ;; rel <- py_get re (-1) ;;
  rre <- linspaceZ re0 rel (rebin_r * Z.of_nat (length rm) + 1) ;;
  let rrm := map2 (fun a b => / 2 * (a + b)) (tl rre) (removelast rre) in
  Ok (Shells rm nside rebin_shell (Z.to_nat rebin_r) centers rre rrm).

(** [hp.nside2npix] *)
Definition nside2npix (nside : Z) : nat := Z.to_nat (12 * nside ^ 2).

(** cube2shell.py:144-153 for one sample: the indices, if all are in range.  A
    non-finite quotient becomes a negative integer by [astype(int)]. *)
Definition sample_voxel (C : cube_grid) (x0 y0 z0 : R) (p : R * R * R) : option (Z * Z * Z) :=
  let '(x, y, z) := p in
  match option_map Zfloor (fdiv (x - x0) (cu_dx C)), option_map Zfloor (fdiv (y - y0) (cu_dy C)),
        option_map Zfloor (fdiv (z - z0) (cu_dz C)) with
  | Some xi, Some yi, Some zi =>
      if (0 <=? xi)%Z && (xi <? Z.of_nat (length (cu_xmid C)))%Z && (0 <=? yi)%Z && (yi <? Z.of_nat (length (cu_ymid C)))%Z
         && (0 <=? zi)%Z && (zi <? Z.of_nat (length (cu_zmid C)))%Z
      then Some (xi, yi, zi) else None
  | _, _, _ => None
  end.

(** [f[xind, yind, zind]] for one sample. *)
Definition read_voxel (f : list (list (list R))) (ind : Z * Z * Z) : res R :=
  let '(xi, yi, zi) := ind in
  a <- py_get f xi ;; b <- py_get a yi ;; py_get b zi.

(** cube2shell.py:142-154, one pass over the pixels for one centre. *)
Definition shell_pass (C : cube_grid) (x0 y0 z0 : R) (f : list (list (list R))) (r : R) (angs : list (R * R))
    (shell : list R) (center : R * R * R) : res (list R) :=
  let '(c0, c1, c2) := center in
  mapM (fun p : R * (R * R) =>
          let '(old, (theta, phi)) := p in
          match sample_voxel C x0 y0 z0 (sphere2cart r phi theta c0 c1 c2) with
          | Some ind => read_voxel f ind
          | None => Ok old
          end) (combine shell angs).

Definition fill_shell (C : cube_grid) (x0 y0 z0 : R) (f : list (list (list R))) (r : R) (angs : list (R * R))
    (centers : list (R * R * R)) (shell : list R) : res (list R) :=
  fold_left (fun acc c => s <- acc ;; shell_pass C x0 y0 z0 f r angs s c) centers (Ok shell).

(** cube2shell.py:121-167, [remap].  A down-graded map of the wrong length
    cannot be stored. *)
Definition cube_remap (pix2ang : Z -> Z -> R * R) (ud_grade : list R -> Z -> list R)
    (C : cube_grid) (S : shells) (f : list (list (list R))) : res (list (list num)) :=
  let npix := nside2npix (sh_nside S) in
  let fine := (sh_nside S * sh_rebin_shell S)%Z in
  let angs := map (fun q => pix2ang fine (Z.of_nat q)) (seq 0 (nside2npix fine)) in
  x0 <- py_get (cu_xedges C) 0 ;; y0 <- py_get (cu_yedges C) 0 ;; z0 <- py_get (cu_zedges C) 0 ;;
  rows <- mapM (fun r =>
      s <- fill_shell C x0 y0 z0 f r angs (sh_centers S) (repeat 0 (nside2npix fine)) ;;
      let row := ud_grade s (sh_nside S) in
      if (length row =? npix)%nat then Ok row else Err ValueError) (sh_rebin_rmid S) ;;
  let w := map2 (fun b a => b ^ 3 - a ^ 3) (tl (sh_rebin_redges S)) (removelast (sh_rebin_redges S)) in
  let rows := map2 (fun row wi => map (fun v => v * wi) row) rows w in
  let n := length (sh_rmid S) in
  wr <- reshape3 1 n (sh_rebin_r S) [w] ;;
  let wsum := nth 0 (sum_axis2 wr) [] in
  a <- reshape3 n (sh_rebin_r S) npix rows ;;
  let out := sum_axis1 npix a in
  Ok (map2 (fun row s => map (fun v => fdiv v s) row) out wsum).
