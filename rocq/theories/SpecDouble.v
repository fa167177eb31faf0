(** * Vocabulary of the double-precision properties *)

From Coq Require Import Reals ZArith.
From Flocq Require Import Core IEEE754.BinarySingleNaN.
Open Scope R_scope.

Notation b2 := (bpow radix2).

(** Value of a finite double. *)
Definition val (x : binary_float 53 1024) : R := B2R x.
Definition fin (x : binary_float 53 1024) : Prop := is_finite x = true.

(** The double nearest to [2 pi] (0x1.921fb54442d18p+2). *)
Definition tau : R := IZR 7074237752028440 * b2 (-50).

(** The C library: [arctan2] of finite numbers is within [[-pi, pi]]; [arccos]
    is within [[0, pi]] on [[-1, 1]] and NaN elsewhere; [cos] is within
    [[-1, 1]] ([pi] is the double). *)
Definition arctan2_ok (f : binary_float 53 1024 -> binary_float 53 1024 -> binary_float 53 1024) : Prop :=
  forall y x, fin y -> fin x -> fin (f y x) /\ - (tau / 2) <= val (f y x) <= tau / 2.
Definition arccos_ok (f : binary_float 53 1024 -> binary_float 53 1024) : Prop :=
  forall q, fin q -> (-1 <= val q <= 1 -> fin (f q) /\ 0 <= val (f q) <= tau / 2) /\ (1 < Rabs (val q) -> f q = B754_nan).
Definition cos_ok (f : binary_float 53 1024 -> binary_float 53 1024) : Prop :=
  forall x, fin x -> fin (f x) /\ -1 <= val (f x) <= 1.
