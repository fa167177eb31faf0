(** * Specifications: trigonometric functions of the C library

    Independent of the model files, see [Spec.v]. *)

From Coq Require Import Reals ZArith.
From Flocq Require Import Core IEEE754.BinarySingleNaN.
From Verif Require Import SpecDouble.
Open Scope R_scope.

(** Sine and cosine of an angle of size up to 8 are within [[-1, 1]] and
    accurate to [2^-52], one or two units in the last place. *)
Definition near_on_circle (exact : R -> R) (f : binary_float 53 1024 -> binary_float 53 1024) : Prop :=
  forall x, fin x -> Rabs (val x) <= 8 -> fin (f x) /\ -1 <= val (f x) <= 1 /\ Rabs (val (f x) - exact (val x)) <= b2 (-52).

(** [psi] is an angle of the point [(x, y)]. *)
Definition angle_of (x y psi : R) : Prop :=
  x = sqrt (x * x + y * y) * cos psi /\ y = sqrt (x * x + y * y) * sin psi.

(** [arctan2] is accurate to [2^-51], one unit in the last place of pi, as an
    angle of the point. *)
Definition near_arctan2 (f : binary_float 53 1024 -> binary_float 53 1024 -> binary_float 53 1024) : Prop :=
  forall y x, fin y -> fin x -> exists psi, angle_of (val x) (val y) psi /\ Rabs (val (f y x) - psi) <= b2 (-51).

(** So is [arccos]. *)
Definition near_arccos (f : binary_float 53 1024 -> binary_float 53 1024) : Prop :=
  forall q, fin q -> -1 <= val q <= 1 -> exists psi, 0 <= psi <= PI /\ cos psi = val q /\ Rabs (val (f q) - psi) <= b2 (-51).

(** [cos] never increases from 0 to [pi] (the double). *)
Definition cos_falls (f : binary_float 53 1024 -> binary_float 53 1024) : Prop :=
  forall x y, fin x -> fin y -> 0 <= val x <= val y -> val y <= tau / 2 -> val (f y) <= val (f x).

(** The limits [usphere_area] is documented to accept. *)
Definition patch (phi_min phi_max theta_min theta_max : binary_float 53 1024) : Prop :=
  fin phi_min /\ fin phi_max /\ fin theta_min /\ fin theta_max /\
  0 <= val phi_min < tau /\ 0 < val phi_max <= tau /\ val phi_min <> val phi_max /\
  0 <= val theta_min < tau / 2 /\ 0 < val theta_max <= tau / 2 /\ val theta_min <> val theta_max.
