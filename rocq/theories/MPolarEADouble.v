(** * Equal-area polar grids of [magpie/grids/polar.py] in IEEE-754 binary64

    Edges and mid-points as in [MGridsDouble.v]. *)

From Coq Require Import Reals ZArith List Bool.
From Flocq Require Import Core IEEE754.BinarySingleNaN.
From Verif Require Import Base MGrids MDouble MGridsDouble.
Import ListNotations.
Open Scope R_scope.

(** polar.py:45-66, [polarEA_grid]; [2*np.pi] is [twopi]. *)
Definition polarEA_grid_d (nr : Z) (rmax : double) (base_nphi : Z) : res (list double * list double) :=
  redges <- get_xedges_d rmax nr None ;;
  let rmid := xedges2mid_d redges in
  rs <- mapM (fun i => mapM (fun _ => py_get rmid i) (py_range (base_nphi * (2 * i + 1)))) (py_range nr) ;;
  r <- np_concatenate rs ;;
  ps <- mapM (fun i => e <- get_xedges_d twopi (base_nphi * (2 * i + 1)) None ;; Ok (xedges2mid_d e))
             (py_range nr) ;;
  p <- np_concatenate ps ;;
  Ok (r, p).

(** polar.py:69-88, [polarEA_area], for a Python float [rmax]; the C function
    behind [x**2.] is the parameter [pow2]. *)
Definition polarEA_area_d (pow2 : double -> double) (nr : Z) (rmax : double) (base_nphi : Z) : res double :=
  if (nr =? 0)%Z then Err ZeroDivisionError else
  let area := dmul pi_d (pow2 (ddiv rmax (dint nr))) in
  if (base_nphi =? 0)%Z then Err ZeroDivisionError else
  Ok (ddiv area (dint base_nphi)).
