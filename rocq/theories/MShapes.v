(** * Model of [magpie/pixel/basic_shapes.py]

    [int(steps/4)] and [int(steps/12)] go through a float division in the
    code; the model divides integers (the same below 2^53). *)

From Coq Require Import Reals ZArith List Bool.
From Flocq Require Import Core.Raux.
From Verif Require Import Base MCoords.
Import ListNotations.
Open Scope R_scope.

(** basic_shapes.py:6-48, [get_square]. *)
Definition get_square (xmin xmax ymin ymax : R) (steps : Z) : res (list R * list R) :=
  guard ((steps mod 4 =? 0)%Z && (0 <? steps)%Z) ;;
  let steps1 := Z.to_nat (steps / 4) in
  let xx := linspace xmin xmax steps1 in
  let yy := repeat ymin steps1 in
  let x := xx in
  let y := yy in
  let xx := repeat xmax steps1 in
  let yy := linspace ymin ymax steps1 in
  let x := x ++ xx in
  let y := y ++ yy in
  let xx := linspace xmax xmin steps1 in
  let yy := repeat ymax steps1 in
  let x := x ++ xx in
  let y := y ++ yy in
  let xx := repeat xmin steps1 in
  let yy := linspace ymax ymin steps1 in
  let x := x ++ xx in
  let y := y ++ yy in
  Ok (x, y).

(** conversions.py:34-55, [polar2cart] on arrays ([center] a list). *)
Definition polar2cart_arr (r phi : list R) (center : list R) : res (list R * list R) :=
  c0 <- py_get center 0 ;;
  c1 <- py_get center 1 ;;
  let p := map2 (fun a b => polar2cart a b c0 c1) r phi in
  Ok (map fst p, map snd p).

(** basic_shapes.py:51-76, [get_arc]. *)
Definition get_arc (radius phimin phimax : R) (center : list R) (steps : Z) : res (list R * list R) :=
  phi <- linspaceZ phimin phimax steps ;;
  let r := repeat radius (Z.to_nat steps) in
  polar2cart_arr r phi center.

(** basic_shapes.py:79-105, [get_disc]. *)
Definition get_disc (rmin rmax phimin phimax : R) (center : list R) (steps : Z) : res (list R * list R) :=
  '(r, phi) <- get_square rmin rmax phimin phimax steps ;;
  polar2cart_arr r phi center.

(** [np.argmin]: first index of the smallest entry. *)
Fixpoint argmin_from (l : list R) (i best : nat) (v : R) : nat :=
  match l with
  | [] => best
  | x :: l' => if Rlt_bool x v then argmin_from l' (S i) i x else argmin_from l' (S i) best v
  end.
Definition np_argmin (l : list R) : nat :=
  match l with [] => 0%nat | x :: l' => argmin_from l' 1 0 x end.

(** basic_shapes.py:164-173: is one of the 100 samples of the line from the
    centre to the corner strictly inside the box? *)
Definition remove_corner (xmin xmax ymin ymax zmin zmax c0 c1 c2 : R) (corner : R * R * R) : bool :=
  let '(xc, yc, zc) := corner in
  let xx := map (fun t => t * (xc - c0) + c0) (linspace 0 1 100) in
  let yy := map (fun t => t * (yc - c1) + c1) (linspace 0 1 100) in
  let zz := map (fun t => t * (zc - c2) + c2) (linspace 0 1 100) in
  let inx := map (fun v => Rlt_bool xmin v && Rlt_bool v xmax) xx in
  let iny := map (fun v => Rlt_bool ymin v && Rlt_bool v ymax) yy in
  let inz := map (fun v => Rlt_bool zmin v && Rlt_bool v zmax) zz in
  let condition := np_where (map2 andb (map2 andb inx iny) inz) in
  if (length condition =? 0)%nat then false else true.

(** basic_shapes.py:158-161 *)
Definition box_corners (xmin xmax ymin ymax zmin zmax : R) : list (R * R * R) :=
  [(xmin, ymin, zmin); (xmin, ymin, zmax); (xmin, ymax, zmin); (xmin, ymax, zmax);
   (xmax, ymin, zmin); (xmax, ymin, zmax); (xmax, ymax, zmin); (xmax, ymax, zmax)].

(** basic_shapes.py:180-181 *)
Definition corner_dist (corners : list (R * R * R)) (x y z : R) : list R :=
  map (fun c => let '(xc, yc, zc) := c in
    sqrt ((xc - x) * (xc - x) + (yc - y) * (yc - y) + (zc - z) * (zc - z))) corners.

(** basic_shapes.py:108-196, [get_box].  The three 2D arrays are given as the
    list of their common rows. *)
Definition get_box (xmin xmax ymin ymax zmin zmax : R) (steps : Z) (return_nearest : bool) (center : list R)
  : res (list (list R * list R * list R)) :=
  guard ((steps mod 12 =? 0)%Z && (0 <? steps)%Z) ;;
  let steps1 := Z.to_nat (steps / 12) in
  let xmin_arr := repeat xmin steps1 in
  let xmax_arr := repeat xmax steps1 in
  let ymin_arr := repeat ymin steps1 in
  let ymax_arr := repeat ymax steps1 in
  let zmin_arr := repeat zmin steps1 in
  let zmax_arr := repeat zmax steps1 in
  let x_arr := linspace xmin xmax steps1 in
  let y_arr := linspace ymin ymax steps1 in
  let z_arr := linspace zmin zmax steps1 in
  let x := [x_arr; x_arr; xmin_arr; xmax_arr; x_arr; x_arr; xmin_arr;
            xmax_arr; xmin_arr; xmax_arr; xmin_arr; xmax_arr] in
  let y := [ymin_arr; ymax_arr; y_arr; y_arr; ymin_arr; ymax_arr; y_arr;
            y_arr; ymin_arr; ymin_arr; ymax_arr; ymax_arr] in
  let z := [zmin_arr; zmin_arr; zmin_arr; zmin_arr; zmax_arr; zmax_arr;
            zmax_arr; zmax_arr; z_arr; z_arr; z_arr; z_arr] in
  let rows := combine (combine x y) z in
  if return_nearest then
    let corners := box_corners xmin xmax ymin ymax zmin zmax in
    c0 <- py_get center 0 ;;
    c1 <- py_get center 1 ;;
    c2 <- py_get center 2 ;;
    let remove := map (remove_corner xmin xmax ymin ymax zmin zmax c0 c1 c2) corners in
    Ok (filter (fun row =>
      let '(rx, ry, rz) := row in
      let dist1 := corner_dist corners (nth 0 rx 0) (nth 0 ry 0) (nth 0 rz 0) in
      let dist2 := corner_dist corners (last rx 0) (last ry 0) (last rz 0) in
      let remove_corner1 := nth (np_argmin dist1) remove false in
      let remove_corner2 := nth (np_argmin dist2) remove false in
      negb (remove_corner1 || remove_corner2)) rows)
  else Ok rows.
