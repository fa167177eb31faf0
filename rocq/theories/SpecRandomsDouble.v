(** * Specifications: random numbers in double precision

    Independent of the model files, see [Spec.v]. *)

From Coq Require Import Reals ZArith List.
From Flocq Require Import Core IEEE754.BinarySingleNaN.
From Verif Require Import SpecDouble.
Open Scope R_scope.

(** The [k]-th of the [2^53] equally likely draws of [np.random.random_sample],
    the multiples of [2^-53] below 1. *)
Definition kth_draw (k : Z) (u : binary_float 53 1024) : Prop :=
  (0 <= k < 2 ^ 53)%Z /\ fin u /\ val u = IZR k * b2 (-53).

(** Finite and at least 0, or positive infinity. *)
Definition not_negative (x : binary_float 53 1024) : Prop := (fin x /\ 0 <= val x) \/ x = B754_infinity false.

(** [n] mid-points of bins, the first two between [2^-200] and [2^200] apart. *)
Definition mid_points (xmid : list (binary_float 53 1024)) (n : nat) : Prop :=
  let x i := nth i xmid (B754_zero false) in
  length xmid = n /\ (2 <= n)%nat /\ INR n <= b2 20 /\ fin (x 0%nat) /\ fin (x 1%nat) /\ fin (x (n - 1)%nat) /\
  Rabs (val (x 0%nat)) <= b2 500 /\ Rabs (val (x (n - 1)%nat)) <= b2 500 /\ val (x 1%nat) <= val (x (n - 1)%nat) /\
  b2 (-200) <= val (x 1%nat) - val (x 0%nat) <= b2 200.
