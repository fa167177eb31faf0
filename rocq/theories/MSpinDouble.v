(** * [usphere_spin] of [magpie/coords/usphere.py] in IEEE-754 binary64 *)

From Coq Require Import Reals ZArith List Bool.
From Flocq Require Import Core IEEE754.BinarySingleNaN.
From Verif Require Import Base MDouble MRemapDouble MRotateDouble.

(** usphere.py:165-207, [usphere_spin] of a point. *)
Definition usphere_spin_d (L : library) (phi theta phi_center theta_center alpha : double) : res (double * double) :=
  guard within_d dzero phi_center twopi ;;
  guard within_d dzero theta_center pi_d ;;
  guard within_d dzero alpha twopi ;;
  q <- usphere_shift_d L phi theta phi_center theta_center phi_center dzero ;;
  new_phi <- phi_shift_d (fst q) alpha ;;
  usphere_shift_d L new_phi (snd q) phi_center dzero phi_center theta_center.
