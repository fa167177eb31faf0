(** * [xmid2edges] of [magpie/grids/cartesian.py] in IEEE-754 binary64 *)

From Coq Require Import Reals ZArith List Bool.
From Flocq Require Import Core IEEE754.BinarySingleNaN.
From Verif Require Import Base MDouble.
Import ListNotations.

(** cartesian.py:45-62, [xmid2edges]. *)
Definition xmid2edges_d (xmid : list double) : res (list double) :=
  x1 <- py_get xmid 1 ;;
  x0 <- py_get xmid 0 ;;
  let dx := dsub x1 x0 in
  x_last <- py_get xmid (-1) ;;
  Ok (map (fun x => dsub x dx) xmid ++ [dadd x_last dx]).
