(** * Specifications: rectangles in double precision

    Independent of the model files, see [Spec.v]. *)

From Coq Require Import Reals ZArith.
From Flocq Require Import Core IEEE754.BinarySingleNaN.
From Verif Require Import SpecDouble.
Open Scope R_scope.

(** The limits of a side: finite, in order, no overflow, and either equal or not
    absurdly close. *)
Definition span_ok (a b : binary_float 53 1024) : Prop :=
  fin a /\ fin b /\ Rabs (val a) <= b2 1021 /\ Rabs (val b) <= b2 1021 /\ (val a = val b \/ b2 (-960) <= val b - val a).

(** The larger of the limits. *)
Definition size (a b : binary_float 53 1024) : R := Rmax (Rabs (val a)) (Rabs (val b)).

(** The point is on the perimeter of the rectangle. *)
Definition on_perimeter (xmin xmax ymin ymax x y : R) : Prop :=
  (xmin <= x <= xmax /\ (y = ymin \/ y = ymax)) \/ ((x = xmin \/ x = xmax) /\ ymin <= y <= ymax).
