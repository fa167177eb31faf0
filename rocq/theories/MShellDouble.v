(** * [randoms_sphere_r] of [magpie/randoms/sphere.py] in IEEE-754 binary64

    [x**y] of floats is the C library's [pow], an arbitrary function here;
    TShellDouble states what is assumed about it. *)

From Coq Require Import Reals ZArith.
From Flocq Require Import Core IEEE754.BinarySingleNaN.
From Verif Require Import MDouble.
Open Scope R_scope.

(** [3.] and [1./3.] *)
Definition three : double := dbl 3 0.
Definition third : double := ddiv (dbl 1 0) three.

(** sphere.py:24-28, one radius of [randoms_sphere_r]. *)
Definition randoms_sphere_r_d (pow : double -> double -> double) (u r_min r_max : double) : double :=
  pow (dadd (dmul (dsub (pow r_max three) (pow r_min three)) u) (pow r_min three)) third.
