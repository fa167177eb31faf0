(** * Model of [magpie/coords/polar.py] *)

From Coq Require Import Reals ZArith List Bool.
From Flocq Require Import Core.Raux.
From Verif Require Import Base.
Import ListNotations.
Open Scope R_scope.

(** Argument [rotate] of [rotate_polar]: a Python float or a numpy array. *)
Inductive float_or_array := PyFloat (x : R) | NdArray (l : list R).

(** polar.py:4-26, [rotate_polar].  [phi] is never read.  A Python float
    cannot be subscripted (TypeError at line 23); the truth value of an array
    comparison is an error unless it has one element (an empty one is false). *)
Definition rotate_polar (phi : list R) (rotate : float_or_array) : res (list R) :=
  match rotate with
  | PyFloat x =>
      guard Rlt_bool 0 x && Rlt_bool x (2 * PI) ;;
      Err TypeError
  | NdArray [x] =>
      guard Rlt_bool 0 x && Rlt_bool x (2 * PI) ;;
      let rot_phi := [x] in
      let cond := np_where (map (fun f => Rle_bool (2 * PI) f) rot_phi) in
      let rot_phi := put rot_phi cond (map (fun f => f - 2 * PI) (take 0 rot_phi cond)) in
      let cond := np_where (map (fun f => Rlt_bool f 0) rot_phi) in
      let rot_phi := put rot_phi cond (map (fun f => f + 2 * PI) (take 0 rot_phi cond)) in
      Ok rot_phi
  | NdArray [] => Err AssertionError
  | NdArray _ => Err ValueError
  end.

(** Slices [l[:k]] and [l[k:]] with a possibly negative [k]. *)
Definition slice_pos {A} (l : list A) (k : Z) : nat :=
  if (k <? 0)%Z then Z.to_nat (Z.max 0 (k + Z.of_nat (length l))) else Z.to_nat k.
Definition slice_to {A} (l : list A) (k : Z) : list A := firstn (slice_pos l k) l.
Definition slice_from {A} (l : list A) (k : Z) : list A := skipn (slice_pos l k) l.
(** [l[k:] = v] and [l[:k] = v] with [v] of the length of the slice. *)
Definition set_from {A} (l : list A) (k : Z) (v : list A) : list A :=
  firstn (slice_pos l k) l ++ v.
Definition set_to {A} (l : list A) (k : Z) (v : list A) : list A :=
  v ++ skipn (slice_pos l k) l.

(** [w*a + (1-w)*b] on rows. *)
Definition row_mix (w : R) (a b : list R) : list R := map2 (fun x y => w * x + (1 - w) * y) a b.

(** polar.py:30-64, [rotate_polar_grid]; rows of [f_polar] are phi bins.
    Returns the result and the contents of the caller's [f_polar] afterwards
    (the two are the same object when [ind_shift = 0]). *)
Definition rotate_polar_grid (pedges : list R) (f_polar : list (list R)) (phi_shift : R)
  : res (list (list R) * list (list R)) :=
  guard Rlt_bool 0 phi_shift ;;
  guard Rlt_bool phi_shift (2 * PI) ;;
  p1 <- py_get pedges 1 ;;
  p0 <- py_get pedges 0 ;;
  let dp := p1 - p0 in
  if Req_bool dp 0 then Err OverflowError else
  let ind_shift := Zfloor (phi_shift / dp) in
  let w := phi_shift / dp - IZR ind_shift in
  let alias := (ind_shift =? 0)%Z in
  let rot := map (fun row => map (fun _ => 0) row) f_polar in
  let rot := if alias then f_polar
             else
               let rot := set_from rot (- ind_shift) (slice_to f_polar ind_shift) in
               set_to rot (- ind_shift) (slice_from f_polar ind_shift) in
  let rot := set_to rot (-1) (map2 (row_mix w) (slice_to rot (-1)) (slice_from rot 1)) in
  pl <- py_get pedges (-1) ;;
  last <- py_get rot (-1) ;;
  first <- py_get rot 0 ;;
  rot <- (if Req_bool (pl - p0) (2 * PI)
          then py_set rot (-1) (row_mix w last first)
          else py_set rot (-1) (map (fun x => x * w) last)) ;;
  Ok (rot, if alias then rot else f_polar).
