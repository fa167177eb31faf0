(** * Rotation of polar grids ([magpie/coords/polar.py]) in IEEE-754 binary64

    The grid and the edges are float arrays; an integer grid (whose rows would be
    truncated when they are overwritten) is not modelled. *)

From Coq Require Import Reals ZArith List Bool.
From Flocq Require Import Core IEEE754.BinarySingleNaN.
From Verif Require Import Base MDouble MRandomsDouble MPolarCoords.
Import ListNotations.
Open Scope R_scope.

(** polar.py:50, [int(np.floor(q))]: Python refuses NaN and infinities. *)
Definition int_floor_d (q : double) : res Z :=
  match q with
  | B754_nan => Err ValueError
  | B754_infinity _ => Err OverflowError
  | _ => Ok (Btrunc (floor_d q))
  end.

(** polar.py:58 and 61, [w*a + (1.-w)*b] on an element and on rows. *)
Definition mix_d (w a b : double) : double := dadd (dmul w a) (dmul (dsub one_d w) b).
Definition row_mix_d (w : double) (a b : list double) : list double := map2 (mix_d w) a b.

(** polar.py:30-64, [rotate_polar_grid]; rows of [f_polar] are phi bins.
    Returns the result and the contents of the caller's [f_polar] afterwards.
    [phi_shift/dp] is evaluated twice by the code, with the same result; the
    integer [ind_shift] is exactly the double [np.floor(phi_shift/dp)], so the
    subtraction of line 51 is one rounded difference of doubles. *)
Definition rotate_polar_grid_d (pedges : list double) (f_polar : list (list double)) (phi_shift : double)
  : res (list (list double) * list (list double)) :=
  guard dlt dzero phi_shift ;;
  guard dlt phi_shift twopi ;;
  p1 <- py_get pedges 1 ;;
  p0 <- py_get pedges 0 ;;
  let dp := dsub p1 p0 in
  let q := ddiv phi_shift dp in
  ind_shift <- int_floor_d q ;;
  let w := dsub q (floor_d q) in
  let alias := (ind_shift =? 0)%Z in
  let rot := map (fun row => map (fun _ => dzero) row) f_polar in
  let rot := if alias then f_polar
             else
               let rot := set_from rot (- ind_shift) (slice_to f_polar ind_shift) in
               set_to rot (- ind_shift) (slice_from f_polar ind_shift) in
  let rot := set_to rot (-1) (map2 (row_mix_d w) (slice_to rot (-1)) (slice_from rot 1)) in
  pl <- py_get pedges (-1) ;;
  last <- py_get rot (-1) ;;
  first <- py_get rot 0 ;;
  rot <- (if deq (dsub pl p0) twopi
          then py_set rot (-1) (row_mix_d w last first)
          else py_set rot (-1) (map (fun x => dmul x w) last)) ;;
  Ok (rot, if alias then rot else f_polar).
