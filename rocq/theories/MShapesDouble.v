(** * Rectangles, arcs and discs ([magpie/pixel/basic_shapes.py]) in IEEE-754 binary64

    [int(steps/4)] is the integer quotient for [steps] below [2^53]. *)

From Coq Require Import Reals ZArith List Bool.
From Flocq Require Import Core IEEE754.BinarySingleNaN.
From Verif Require Import Base MDouble MGridsDouble MCoordsDouble.
Import ListNotations.
Open Scope R_scope.

(** [np.ones(n)*v]. *)
Definition ones_d (n : Z) (v : double) : list double := repeat (dmul (dint 1) v) (Z.to_nat n).

(** basic_shapes.py:6-48, [get_square]. *)
Definition get_square_d (xmin xmax ymin ymax : double) (steps : Z) : res (list double * list double) :=
  guard ((steps mod 4 =? 0)%Z && (0 <? steps)%Z) ;;
  let steps1 := (steps / 4)%Z in
  xx1 <- linspace_d xmin xmax steps1 ;;
  let yy1 := ones_d steps1 ymin in
  let xx2 := ones_d steps1 xmax in
  yy2 <- linspace_d ymin ymax steps1 ;;
  xx3 <- linspace_d xmax xmin steps1 ;;
  let yy3 := ones_d steps1 ymax in
  let xx4 := ones_d steps1 xmin in
  yy4 <- linspace_d ymax ymin steps1 ;;
  Ok (((xx1 ++ xx2) ++ xx3) ++ xx4, ((yy1 ++ yy2) ++ yy3) ++ yy4).

(** conversions.py:34-55, [polar2cart] on arrays; [center] is the pair [(c0, c1)]. *)
Definition polar2cart_arr_d (cos sin : double -> double) (r phi : list double) (c0 c1 : double) : list double * list double :=
  let p := map2 (fun a b => polar2cart_d cos sin a b c0 c1) r phi in
  (map fst p, map snd p).

(** basic_shapes.py:51-76, [get_arc]. *)
Definition get_arc_d (cos sin : double -> double) (radius phimin phimax c0 c1 : double) (steps : Z) : res (list double * list double) :=
  phi <- linspace_d phimin phimax steps ;;
  let r := ones_d steps radius in
  Ok (polar2cart_arr_d cos sin r phi c0 c1).

(** basic_shapes.py:79-105, [get_disc]. *)
Definition get_disc_d (cos sin : double -> double) (rmin rmax phimin phimax c0 c1 : double) (steps : Z) : res (list double * list double) :=
  '(r, phi) <- get_square_d rmin rmax phimin phimax steps ;;
  Ok (polar2cart_arr_d cos sin r phi c0 c1).
