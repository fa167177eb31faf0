(** * Specifications: errors of rebinned values in double precision

    Independent of the model files, see [Spec.v]. *)

From Coq Require Import Reals ZArith.
From Flocq Require Import Core IEEE754.BinarySingleNaN.
From Verif Require Import SpecDouble.
Open Scope R_scope.

(** Zero, or of size between [2^lo] and [2^hi]. *)
Definition sized (lo hi : Z) (x : binary_float 53 1024) : Prop :=
  fin x /\ (val x = 0 \/ bpow radix2 lo <= Rabs (val x) <= bpow radix2 hi).

(** A result against the exact one; it is infinite or NaN where there is none. *)
Definition relative (err : R) (exact : option R) (x : binary_float 53 1024) : Prop :=
  match exact with Some v => fin x /\ Rabs (val x - v) <= err * v | None => is_finite x = false end.
