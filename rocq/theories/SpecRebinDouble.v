(** * Specifications: rebinning in double precision

    Independent of the model files, see [Spec.v]. *)

From Coq Require Import Reals ZArith List.
From Flocq Require Import Core IEEE754.BinarySingleNaN.
From Verif Require Import SpecDouble.
Import ListNotations.
Open Scope R_scope.

(** Zero, or neither tiny nor huge. *)
Definition tame (x : binary_float 53 1024) : Prop := fin x /\ (val x = 0 \/ bpow radix2 (-240) <= Rabs (val x) <= bpow radix2 300).

(** Finite entries of size at most [M]. *)
Definition at_most (M : R) (l : list (binary_float 53 1024)) : Prop := forall x, In x l -> fin x /\ Rabs (val x) <= M.

(** A result against the exact one, which has no value where [None]. *)
Definition close (err : R) (exact : option R) (x : binary_float 53 1024) : Prop :=
  match exact with Some v => fin x /\ Rabs (val x - v) <= err | None => is_nan x = true end.
