(** * Specifications: radial profiles in double precision

    Independent of the model files, see [Spec.v]. *)

From Coq Require Import Reals ZArith List.
From Flocq Require Import Core IEEE754.BinarySingleNaN.
From Verif Require Import SpecDouble.
Import ListNotations.
Open Scope R_scope.

(** [n] rows with [c] entries each. *)
Definition grid_d (f : list (list (binary_float 53 1024))) (n c : nat) : Prop :=
  length f = n /\ forall row, In row f -> length row = c.

(** The pixels of one ring. *)
Definition column_d (f : list (list (binary_float 53 1024))) (j : nat) : list (binary_float 53 1024) :=
  map (fun row => nth j row (B754_zero false)) f.

(** The [i]-th pixel of the [j]-th ring. *)
Definition pixel (f : list (list (binary_float 53 1024))) (i j : nat) : binary_float 53 1024 :=
  nth j (nth i f []) (B754_zero false).

(** Sum of the first [k] values. *)
Definition total (k : nat) (g : nat -> R) : R := fold_right Rplus 0 (map g (seq 0 k)).
