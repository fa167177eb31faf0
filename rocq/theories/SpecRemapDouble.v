(** * Vocabulary: grid remapping in binary64 *)

From Coq Require Import Reals ZArith List Bool.
From Flocq Require Import Core IEEE754.BinarySingleNaN.
From Verif Require Import SpecDouble SpecRemap.
Open Scope R_scope.

(** A grid of [n >= 1] cells of finite origin and length, all of whose
    coordinates are below [X] and whose cells are at least [X / 2^20] wide. *)
Definition grid_within (X : R) (o len : binary_float 53 1024) (n : nat) : Prop :=
  fin o /\ fin len /\ 0 < val len /\ Rabs (val o) + val len <= X /\ (1 <= n)%nat /\ X * b2 (-20) <= val len / INR n.

(** Scales for which no intermediate result over- or underflows. *)
Definition moderate (X : R) : Prop := b2 (-900) <= X <= b2 900.

(** Output cell [k] is not inside the phantom cell below the source grid, with
    a margin of [2^-48 X]. *)
Definition clear_below (X o1 len1 : R) (n1 : nat) (o2 len2 : R) (n2 k : nat) : Prop :=
  o1 <= o2 \/ o1 + b2 (-48) * X < edge o2 len2 n2 (S k) \/ edge o2 len2 n2 k < o1 - len1 / INR n1 - b2 (-48) * X.

(** Finite values of magnitude at most [M]. *)
Definition values_within (M : R) (f : list (binary_float 53 1024)) : Prop :=
  forall x, In x f -> fin x /\ Rabs (val x) <= M.
