(** * Model of the [densegrid.Cube2Shell] object over sequences of calls

    Here a call that raises may leave a changed object behind.  Attributes that
    no method reads back ([x3d], [y3d], [z3d], [redges], [dr], [center]) are left
    out.  healpy functions are arbitrary, as in [MCube.v]. *)

From Coq Require Import Reals ZArith List Bool.
From Flocq Require Import Core.Raux.
From Verif Require Import Base MDense MCube.
Import ListNotations.
Open Scope R_scope.

(** cube2shell.py:14-37, the attributes; [None] as in Python. *)
Record cobj := CObj {
  a_xedges : option (list R); a_yedges : option (list R); a_zedges : option (list R);
  a_xmid : option (list R); a_ymid : option (list R); a_zmid : option (list R);
  a_dx : option R; a_dy : option R; a_dz : option R;
  a_rmid : option (list R); a_nside : option Z; a_rebin_shell : option Z; a_rebin_r : option Z;
  a_centers : option (list (R * R * R)); a_rebin_redges : option (list R); a_rebin_rmid : option (list R) }.

Definition fresh : cobj :=
  CObj None None None None None None None None None None None None None None None None.

Inductive call :=
| CCube (xmin xmax : R) (numx : Z) (ymin ymax : R) (numy : Z) (zmin zmax : R) (numz : Z)
| CPolar (rmin rmax : R) (numr nside : Z) (center : list R) (rebin_shell rebin_r : Z) (px py pz : Z * Z)
| CRemap (f : list (list (list R)))
| CClean.

Inductive value := VNone | VMap (f : list (list num)).

Definition mid_points (e : list R) : list R := map2 (fun a b => / 2 * (a + b)) (tl e) (removelast e).

(** Using [None] as an array or a number raises TypeError. *)
Definition need {A} (a : option A) : res A := match a with Some x => Ok x | None => Err TypeError end.

(** cube2shell.py:39-68, [setup_cube].  The third [linspace] (line 61) raises for
    [numz < -1] when the x and y edges are stored; [zedges[1]] (line 67) raises
    for [numz <= 0] when everything but [dz] is. *)
Definition cube_step (s : cobj) (xmin xmax : R) (numx : Z) (ymin ymax : R) (numy : Z) (zmin zmax : R) (numz : Z)
  : cobj * res value :=
  if negb (0 <? numx)%Z then (s, Err AssertionError) else
  if negb (0 <? numy)%Z then (s, Err AssertionError) else
  let xe := linspace xmin xmax (Z.to_nat (numx + 1)) in
  let ye := linspace ymin ymax (Z.to_nat (numy + 1)) in
  match linspaceZ zmin zmax (numz + 1) with
  | Err e =>
      (CObj (Some xe) (Some ye) (a_zedges s) (a_xmid s) (a_ymid s) (a_zmid s) (a_dx s) (a_dy s) (a_dz s)
         (a_rmid s) (a_nside s) (a_rebin_shell s) (a_rebin_r s) (a_centers s) (a_rebin_redges s) (a_rebin_rmid s), Err e)
  | Ok ze =>
      let width e := nth 1 e 0 - nth 0 e 0 in
      let stored dz :=
        CObj (Some xe) (Some ye) (Some ze) (Some (mid_points xe)) (Some (mid_points ye)) (Some (mid_points ze))
          (Some (width xe)) (Some (width ye)) dz
          (a_rmid s) (a_nside s) (a_rebin_shell s) (a_rebin_r s) (a_centers s) (a_rebin_redges s) (a_rebin_rmid s) in
      if (length ze <? 2)%nat then (stored (a_dz s), Err IndexError) else (stored (Some (width ze)), Ok VNone)
  end.

(** cube2shell.py:94-101, the assertions of [setup_polar]. *)
Definition polar_checks (isnsideok : Z -> bool) (rmin rmax : R) (numr nside : Z) (center : list R) (rebin_shell rebin_r : Z) : bool :=
  Rle_bool 0 rmin && Rlt_bool rmin rmax && (0 <? numr)%Z && (length center =? 3)%nat && (1 <=? rebin_shell)%Z &&
  isnsideok nside && isnsideok (nside * rebin_shell)%Z && (1 <=? rebin_r)%Z.

(** cube2shell.py:109-115: the edges are read in the innermost loop only. *)
Definition centers_of (s : cobj) (center : list R) (px py pz : Z * Z) : res (list (R * R * R)) :=
  match py_range px, py_range py, py_range pz with
  | [], _, _ | _, [], _ | _, _, [] => Ok []
  | _, _, _ =>
      c0 <- py_get center 0 ;; xe <- need (a_xedges s) ;; xl <- py_get xe (-1) ;; x0 <- py_get xe 0 ;;
      c1 <- py_get center 1 ;; ye <- need (a_yedges s) ;; yl <- py_get ye (-1) ;; y0 <- py_get ye 0 ;;
      c2 <- py_get center 2 ;; ze <- need (a_zedges s) ;; zl <- py_get ze (-1) ;; z0 <- py_get ze 0 ;;
      Ok (flat_map (fun i => flat_map (fun j => map (fun k =>
            (c0 + IZR i * (xl - x0), c1 + IZR j * (yl - y0), c2 + IZR k * (zl - z0)))
            (py_range pz)) (py_range py)) (py_range px))
  end.

(** cube2shell.py:71-118, [setup_polar]: [rmid[1]] (line 104) raises when [rmid]
    is stored, the loop of lines 110-115 when [nside] and the refinement factors
    are. *)
Definition polar_step (isnsideok : Z -> bool) (s : cobj) (rmin rmax : R) (numr nside : Z) (center : list R)
    (rebin_shell rebin_r : Z) (px py pz : Z * Z) : cobj * res value :=
  if negb (polar_checks isnsideok rmin rmax numr nside center rebin_shell rebin_r) then (s, Err AssertionError) else
  let re := linspace rmin rmax (Z.to_nat (numr + 1)) in
  let rm := mid_points re in
  let s1 := CObj (a_xedges s) (a_yedges s) (a_zedges s) (a_xmid s) (a_ymid s) (a_zmid s) (a_dx s) (a_dy s) (a_dz s)
              (Some rm) (a_nside s) (a_rebin_shell s) (a_rebin_r s) (a_centers s) (a_rebin_redges s) (a_rebin_rmid s) in
  if (length rm <? 2)%nat then (s1, Err IndexError) else
  let s2 := CObj (a_xedges s) (a_yedges s) (a_zedges s) (a_xmid s) (a_ymid s) (a_zmid s) (a_dx s) (a_dy s) (a_dz s)
              (Some rm) (Some nside) (Some rebin_shell) (Some rebin_r) (a_centers s) (a_rebin_redges s) (a_rebin_rmid s) in
  match centers_of s center px py pz with
  | Err e => (s2, Err e)
  | Ok cs =>
      let rre := linspace (nth 0 re 0) (last re 0) (Z.to_nat (rebin_r * Z.of_nat (length rm) + 1)) in
      (CObj (a_xedges s) (a_yedges s) (a_zedges s) (a_xmid s) (a_ymid s) (a_zmid s) (a_dx s) (a_dy s) (a_dz s)
         (Some rm) (Some nside) (Some rebin_shell) (Some rebin_r) (Some cs) (Some rre) (Some (mid_points rre)), Ok VNone)
  end.

(** cube2shell.py:144-153: the attributes of the cube, in the order they are
    read.  The mesh is not read. *)
Definition seen_cube (s : cobj) : res cube_grid :=
  xe <- need (a_xedges s) ;; x0 <- py_get xe 0 ;;
  ye <- need (a_yedges s) ;; y0 <- py_get ye 0 ;;
  ze <- need (a_zedges s) ;; z0 <- py_get ze 0 ;;
  dx <- need (a_dx s) ;; dy <- need (a_dy s) ;; dz <- need (a_dz s) ;;
  xm <- need (a_xmid s) ;; ym <- need (a_ymid s) ;; zm <- need (a_zmid s) ;;
  Ok (CubeGrid xe ye ze xm ym zm dx dy dz [] [] []).

(** Stands for the cube when the loop of line 142 has no passes. *)
Definition unread_cube : cube_grid := CubeGrid [0] [0] [0] [] [] [] 0 0 0 [] [] [].

(** cube2shell.py:121-167, [remap]. *)
Definition remap_of (pix2ang : Z -> Z -> R * R) (ud_grade : list R -> Z -> list R) (s : cobj) (f : list (list (list R)))
  : res (list (list num)) :=
  rrm <- need (a_rebin_rmid s) ;;
  nside <- need (a_nside s) ;;
  rs <- need (a_rebin_shell s) ;;
  cs <- need (a_centers s) ;;
  C <- match cs with [] => Ok unread_cube | _ :: _ => seen_cube s end ;;
  rre <- need (a_rebin_redges s) ;;
  rm <- need (a_rmid s) ;;
  rr <- need (a_rebin_r s) ;;
  cube_remap pix2ang ud_grade C (Shells rm nside rs (Z.to_nat rr) cs rre rrm) f.

(** One call: the object afterwards and the outcome.  [clean] is
    cube2shell.py:170-172. *)
Definition step (isnsideok : Z -> bool) (pix2ang : Z -> Z -> R * R) (ud_grade : list R -> Z -> list R) (s : cobj) (c : call)
  : cobj * res value :=
  match c with
  | CCube xmin xmax numx ymin ymax numy zmin zmax numz => cube_step s xmin xmax numx ymin ymax numy zmin zmax numz
  | CPolar rmin rmax numr nside center rs rr px py pz => polar_step isnsideok s rmin rmax numr nside center rs rr px py pz
  | CRemap f => (s, g <- remap_of pix2ang ud_grade s f ;; Ok (VMap g))
  | CClean => (fresh, Ok VNone)
  end.

(** The object after a sequence of calls; exceptions are caught by the caller. *)
Fixpoint run (isnsideok : Z -> bool) (pix2ang : Z -> Z -> R * R) (ud_grade : list R -> Z -> list R) (s : cobj) (h : list call) : cobj :=
  match h with [] => s | c :: t => run isnsideok pix2ang ud_grade (fst (step isnsideok pix2ang ud_grade s c)) t end.
