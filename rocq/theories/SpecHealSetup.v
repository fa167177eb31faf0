(** * Specifications: grids drawn on the sphere

    Independent of the model files, see [Spec.v]. *)

From Coq Require Import Reals ZArith List Bool.
From Verif Require Import Base SpecSphere.
Import ListNotations.
Open Scope R_scope.

(** Right-handed rotations about the coordinate axes. *)
Definition turn_x (a : R) (v : vec) : vec :=
  V3 (vx v) (cos a * vy v - sin a * vz v) (sin a * vy v + cos a * vz v).
Definition turn_y (a : R) (v : vec) : vec :=
  V3 (cos a * vx v + sin a * vz v) (vy v) (- sin a * vx v + cos a * vz v).
Definition turn_z (a : R) (v : vec) : vec :=
  V3 (cos a * vx v - sin a * vy v) (sin a * vx v + cos a * vy v) (vz v).

(** Middle of cell [j] of [n] equal cells of [[a, b]]. *)
Definition centre (a b : R) (n : Z) (j : nat) : R := a + (INR j + / 2) * ((b - a) / IZR n).

(** The documented argument ranges of a ring grid (radii [a] to [b] in [na]
    rings, angles [c] to [d] in [nb] sectors, a centre of two coordinates). *)
Definition ring_args (a b : R) (na nb : Z) (c d : R) (center : list R) : Prop :=
  0 <= a < b /\ (0 < na)%Z /\ 0 <= c < d /\ d <= 2 * PI /\ (0 < nb)%Z /\ length center = 2%nat.

(** The documented argument ranges of a box; the height defaults to the width,
    at most [PI], the number of rows to the number of columns. *)
Definition box_args (xl : R) (xg : Z) (center : list R) (yl : option R) (yg : option Z) : Prop :=
  0 <= xl <= 2 * PI /\ (0 < xg)%Z /\ (forall l, yl = Some l -> 0 <= l <= PI) /\ (forall g, yg = Some g -> (0 < g)%Z) /\ length center = 2%nat.
Definition height (xl : R) (yl : option R) : R := match yl with Some l => l | None => Rmin xl PI end.
Definition rows (xg : Z) (yg : option Z) : Z := match yg with Some g => g | None => xg end.
