(** * Boxes ([magpie/pixel/basic_shapes.py], [get_box]) in IEEE-754 binary64

    [int(steps/12)] is the integer quotient for [steps] below [2^53];
    [np.linspace(0., 1., 100)], the same for every corner, is computed once. *)

From Coq Require Import Reals ZArith List Bool.
From Flocq Require Import Core IEEE754.BinarySingleNaN.
From Verif Require Import Base MDouble MGridsDouble.
Import ListNotations.
Open Scope R_scope.

(** [v*np.ones(n)]. *)
Definition times_ones (v : double) (n : Z) : list double := repeat (dmul v (dint 1)) (Z.to_nat n).

(** [np.argmin]: the first NaN, else the first smallest entry. *)
Fixpoint argmin_from_d (l : list double) (i best : nat) (v : double) : nat :=
  match l with
  | [] => best
  | x :: l' => if is_nan v then best else if dlt x v || is_nan x then argmin_from_d l' (S i) i x else argmin_from_d l' (S i) best v
  end.
Definition argmin_d (l : list double) : nat :=
  match l with [] => 0%nat | x :: l' => argmin_from_d l' 1 0 x end.

(** basic_shapes.py:158-161 *)
Definition box_corners_d (xmin xmax ymin ymax zmin zmax : double) : list (double * double * double) :=
  [(xmin, ymin, zmin); (xmin, ymin, zmax); (xmin, ymax, zmin); (xmin, ymax, zmax);
   (xmax, ymin, zmin); (xmax, ymin, zmax); (xmax, ymax, zmin); (xmax, ymax, zmax)].

(** basic_shapes.py:165-173: is one of the samples [t] of the line from the
    centre to the corner strictly inside the box? *)
Definition remove_corner_d (xmin xmax ymin ymax zmin zmax c0 c1 c2 : double) (t : list double) (corner : double * double * double) : bool :=
  let '(xc, yc, zc) := corner in
  let xx := map (fun t => dadd (dmul t (dsub xc c0)) c0) t in
  let yy := map (fun t => dadd (dmul t (dsub yc c1)) c1) t in
  let zz := map (fun t => dadd (dmul t (dsub zc c2)) c2) t in
  let inx := map (fun v => dlt xmin v && dlt v xmax) xx in
  let iny := map (fun v => dlt ymin v && dlt v ymax) yy in
  let inz := map (fun v => dlt zmin v && dlt v zmax) zz in
  let condition := np_where (map2 andb (map2 andb inx iny) inz) in
  if (length condition =? 0)%nat then false else true.

(** basic_shapes.py:180-181; [v**2.] is [v*v]. *)
Definition corner_dist_d (corners : list (double * double * double)) (x y z : double) : list double :=
  map (fun c => let '(xc, yc, zc) := c in
    dsqrt (dadd (dadd (dmul (dsub xc x) (dsub xc x)) (dmul (dsub yc y) (dsub yc y))) (dmul (dsub zc z) (dsub zc z)))) corners.

(** basic_shapes.py:108-196, [get_box].  The three 2D arrays are given as the
    list of their common rows. *)
Definition get_box_d (xmin xmax ymin ymax zmin zmax : double) (steps : Z) (return_nearest : bool) (center : list double)
  : res (list (list double * list double * list double)) :=
  guard ((steps mod 12 =? 0)%Z && (0 <? steps)%Z) ;;
  let steps1 := (steps / 12)%Z in
  let xmin_arr := times_ones xmin steps1 in
  let xmax_arr := times_ones xmax steps1 in
  let ymin_arr := times_ones ymin steps1 in
  let ymax_arr := times_ones ymax steps1 in
  let zmin_arr := times_ones zmin steps1 in
  let zmax_arr := times_ones zmax steps1 in
  x_arr <- linspace_d xmin xmax steps1 ;;
  y_arr <- linspace_d ymin ymax steps1 ;;
  z_arr <- linspace_d zmin zmax steps1 ;;
  let x := [x_arr; x_arr; xmin_arr; xmax_arr; x_arr; x_arr; xmin_arr;
            xmax_arr; xmin_arr; xmax_arr; xmin_arr; xmax_arr] in
  let y := [ymin_arr; ymax_arr; y_arr; y_arr; ymin_arr; ymax_arr; y_arr;
            y_arr; ymin_arr; ymin_arr; ymax_arr; ymax_arr] in
  let z := [zmin_arr; zmin_arr; zmin_arr; zmin_arr; zmax_arr; zmax_arr;
            zmax_arr; zmax_arr; z_arr; z_arr; z_arr; z_arr] in
  let rows := combine (combine x y) z in
  if return_nearest then
    let corners := box_corners_d xmin xmax ymin ymax zmin zmax in
    t <- linspace_d dzero (dint 1) 100 ;;
    c0 <- py_get center 0 ;;
    c1 <- py_get center 1 ;;
    c2 <- py_get center 2 ;;
    let remove := map (remove_corner_d xmin xmax ymin ymax zmin zmax c0 c1 c2 t) corners in
    Ok (filter (fun row =>
      let '(rx, ry, rz) := row in
      let dist1 := corner_dist_d corners (nth 0 rx dzero) (nth 0 ry dzero) (nth 0 rz dzero) in
      let dist2 := corner_dist_d corners (last rx dzero) (last ry dzero) (last rz dzero) in
      let remove_corner1 := nth (argmin_d dist1) remove false in
      let remove_corner2 := nth (argmin_d dist2) remove false in
      negb (remove_corner1 || remove_corner2)) rows)
  else Ok rows.
