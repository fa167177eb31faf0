(** * Model of [magpie/montecarlo/cube2shell.py]

    [setup_cube] (39-68) has the body of the dense version and is
    [MCube.setup_cube].  A set-up call that raises is taken to leave no object
    behind.  Numbers drawn by [np.random.random_sample] are inputs.  The
    progress bar is left out. *)

From Coq Require Import Reals ZArith List Bool.
From Flocq Require Import Core.Raux.
From Verif Require Import Base MCoords MGrids MRandoms MRandomsHealpix MDense MMonte MCube.
Import ListNotations.
Open Scope R_scope.

Record mc_shells := McShells { ms_redges : list R; ms_rmid : list R; ms_nside : Z; ms_center : list R }.

(** cube2shell.py:71-95, [setup_polar_lin]; [nside] is not checked. *)
Definition shells_lin (rmin rmax : R) (numr nside : Z) (center : list R) : res mc_shells :=
  guard Rle_bool 0 rmin ;;
  guard Rlt_bool rmin rmax ;;
  guard (0 <? numr)%Z ;;
  guard (length center =? 3)%nat ;;
  re <- linspaceZ rmin rmax (numr + 1) ;;
  let rm := map2 (fun a b => / 2 * (a + b)) (tl re) (removelast re) in
  rm1 <- py_get rm 1 ;; rm0 <- py_get rm 0 ;;
  Ok (McShells re rm nside center).

(** cube2shell.py:98-128, [setup_polar_log]. *)
Definition shells_log (rmin rmax : R) (numr nside : Z) (center : list R) (addzero : bool) : res mc_shells :=
  guard Rlt_bool 0 rmin ;;
  guard Rlt_bool rmin rmax ;;
  guard (0 <? numr)%Z ;;
  guard (length center =? 3)%nat ;;
  re <- (if addzero then
           l <- logspaceZ (log10 rmin) (log10 rmax) numr ;; Ok (0 :: l)
         else logspaceZ (log10 rmin) (log10 rmax) (numr + 1)) ;;
  let rm := map2 (fun a b => / 2 * (a + b)) (tl re) (removelast re) in
  Ok (McShells re rm nside center).

(** ** [np.histogramdd] in three dimensions, see [MMonte.v] *)

Definition hist_bin3 (ex ey ez : list R) (p : option (R * R * R)) : option (nat * nat * nat) :=
  match p with
  | Some (x, y, z) =>
      match hist_bin ex x, hist_bin ey y, hist_bin ez z with
      | Some i, Some j, Some k => Some (i, j, k)
      | _, _, _ => None
      end
  | None => None
  end.

Definition is_bin3 (i j k : nat) (b : option (nat * nat * nat)) : bool :=
  match b with Some (a, c, e) => (a =? i)%nat && (c =? j)%nat && (e =? k)%nat | None => false end.

Definition histogram3 (ex ey ez : list R) (pts : list (option (R * R * R))) : list (list (list R)) :=
  let bins := map (hist_bin3 ex ey ez) pts in
  map (fun i => map (fun j => map (fun k => INR (length (filter (is_bin3 i j k) bins)))
    (seq 0 (length ez - 1))) (seq 0 (length ey - 1))) (seq 0 (length ex - 1)).

(** [H[i, j, k]] *)
Definition at3 (H : list (list (list R))) (c : nat * nat * nat) : R :=
  nth (snd c) (nth (snd (fst c)) (nth (fst (fst c)) H []) []) 0.

(** [np.where(H != 0.)], as index triples in row-major order. *)
Definition where3 (H : list (list (list R))) : list (nat * nat * nat) :=
  filter (fun c => negb (Req_bool (at3 H c) 0))
    (flat_map (fun i => flat_map (fun j => map (fun k => (i, j, k)) (seq 0 (length (nth j (nth i H []) []))))
      (seq 0 (length (nth i H [])))) (seq 0 (length H))).

(** ** Weights *)

(** One pixel of one shell: the four parallel arrays [ind_x], [ind_y], [ind_z],
    [ind_w]. *)
Record entry3 := Entry3 { t_x : nat; t_y : nat; t_z : nat; t_w : R }.

(** Cartesian point of a sample; NaN if one of its coordinates is. *)
Definition cart_point (c0 c1 c2 : R) (r : num) (ang : num * num) : option (R * R * R) :=
  match r, fst ang, snd ang with
  | Some r, Some phi, Some theta => Some (sphere2cart r phi theta c0 c1 c2)
  | _, _, _ => None
  end.

(** cube2shell.py:154-165, pixel [j] of shell [i].  [random_sample] is called
    inside the two functions that draw. *)
Definition pixel_weights (C : cube_grid) (P : mc_shells) (draws : list R * list R * list R) (mc_size : Z) (i j : nat)
  : res (list entry3) :=
  let '(ux, uy, ur) := draws in
  rmin <- py_get (ms_redges P) (Z.of_nat i) ;; rmax <- py_get (ms_redges P) (Z.of_nat (i + 1)) ;;
  ux <- random_sample mc_size ux ;;
  uy <- random_sample mc_size uy ;;
  '(phi_rand, theta_rand) <- randoms_healpix_pixel ux uy (Z.of_nat j) (ms_nside P) ;;
  r_rand <- randoms_sphere_r ur mc_size rmin rmax ;;
  c0 <- py_get (ms_center P) 0 ;; c1 <- py_get (ms_center P) 1 ;; c2 <- py_get (ms_center P) 2 ;;
  let pts := map2 (cart_point c0 c1 c2) r_rand (combine phi_rand theta_rand) in
  x0 <- py_get (cu_xedges C) 0 ;; x1 <- py_get (cu_xedges C) (-1) ;;
  y0 <- py_get (cu_yedges C) 0 ;; y1 <- py_get (cu_yedges C) (-1) ;;
  z0 <- py_get (cu_zedges C) 0 ;; z1 <- py_get (cu_zedges C) (-1) ;;
  ex <- hist_edges x0 x1 (length (cu_xedges C) - 1) ;;
  ey <- hist_edges y0 y1 (length (cu_yedges C) - 1) ;;
  ez <- hist_edges z0 z1 (length (cu_zedges C) - 1) ;;
  let H := histogram3 ex ey ez pts in
  Ok (map (fun c => Entry3 (snd (fst c)) (fst (fst c)) (snd c) (at3 H c / IZR mc_size)) (where3 H)).

(** [np.array(l, dtype=object)] of the arrays of the pixels of a shell, and of
    the shells; as in [MMonte.v]. *)
Inductive shell_row := RaggedShell (r : list (list entry3)) | UniformShell (k : nat) (r : list (list entry3)).
Definition make_shell (r : list (list entry3)) : shell_row :=
  let k := length (nth 0 r []) in
  if forallb (fun c => (length c =? k)%nat) r then UniformShell k r else RaggedShell r.

Inductive shell_obj := ShellArrays (a : list (list (list entry3))) | ShellNumbers (k : nat) (a : list (list (list entry3))).
Definition shell_cells (r : shell_row) : list (list entry3) := match r with RaggedShell r => r | UniformShell _ r => r end.
Definition ragged_shell (r : shell_row) : bool := match r with RaggedShell _ => true | UniformShell _ _ => false end.
Definition uniform_shell (k : nat) (r : shell_row) : bool :=
  match r with RaggedShell _ => false | UniformShell k' _ => (k' =? k)%nat end.
Definition stack_shells (rows : list shell_row) : res shell_obj :=
  if forallb ragged_shell rows then Ok (ShellArrays (map shell_cells rows))
  else match rows with
       | UniformShell k _ :: _ =>
           if forallb (uniform_shell k) rows then Ok (ShellNumbers k (map shell_cells rows)) else Err ValueError
       | _ => Err ValueError
       end.

(** cube2shell.py:131-178, [get_weights]; [mc_size] is not checked. *)
Definition shell_weights (C : cube_grid) (P : mc_shells) (draws : nat -> nat -> list R * list R * list R) (mc_size : Z)
  : res shell_obj :=
  rows <- mapM (fun i => mapM (fun j => pixel_weights C P (draws i j) mc_size i j) (seq 0 (nside2npix (ms_nside P))))
            (seq 0 (length (ms_rmid P))) ;;
  stack_shells (map make_shell rows).

(** ** Remapping *)

(** [hp.UNSEEN] *)
Definition unseen : R := - (16375 / 10000 * 10 ^ 30).

(** [a[ind_x, ind_y, ind_z]] entry by entry. *)
Definition read_entries3 (a : list (list (list R))) (c : list entry3) : res (list R) :=
  mapM (fun e => p <- py_get a (Z.of_nat (t_x e)) ;; row <- py_get p (Z.of_nat (t_y e)) ;; py_get row (Z.of_nat (t_z e))) c.

(** cube2shell.py:202-214 for one pixel stored as arrays. *)
Definition pixel_value (f : list (list (list R))) (w : option (list (list (list R)))) (c : list entry3) : res num :=
  let ws := map t_w c in
  match w with
  | None =>
      if negb (Req_bool (Rsum ws) 0) then
        fv <- read_entries3 f c ;;
        Ok (fdiv (Rsum (map2 Rmult ws fv)) (Rsum ws))
      else Ok (Some unseen)
  | Some w =>
      if negb (Req_bool (Rsum ws) 0) then
        wv <- read_entries3 w c ;;
        fv <- read_entries3 f c ;;
        Ok (fdiv (Rsum (map2 Rmult (map2 Rmult ws wv) fv)) (Rsum (map2 Rmult ws wv)))
      else Ok (Some unseen)
  end.

(** The same pixel stored as rows of arrays of type object, which are refused
    as indices. *)
Definition pixel_value_obj (c : list entry3) : res num :=
  if negb (Req_bool (Rsum (map t_w c)) 0) then Err IndexError else Ok (Some unseen).

(** cube2shell.py:181-216, [remap]; [W] is [None] before [get_weights].  Shapes
    are not checked. *)
Definition shell_remap (P : mc_shells) (W : option shell_obj) (f : list (list (list R))) (w : option (list (list (list R))))
  : res (list (list num)) :=
  mapM (fun i => mapM (fun j =>
      match W with
      | None => Err TypeError
      | Some (ShellArrays a) => r <- py_get a (Z.of_nat i) ;; c <- py_get r (Z.of_nat j) ;; pixel_value f w c
      | Some (ShellNumbers _ a) => r <- py_get a (Z.of_nat i) ;; c <- py_get r (Z.of_nat j) ;; pixel_value_obj c
      end) (seq 0 (nside2npix (ms_nside P)))) (seq 0 (length (ms_rmid P))).
