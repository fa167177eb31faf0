(** * [np.sum] in IEEE-754 binary64

    numpy adds the entries of an axis one by one, in blocks or pairwise,
    depending on the memory layout and its version; the order depends on the
    shape of the array, not on its entries.  Here: an arbitrary bracketing of
    additions for every number of entries, with additional zeros anywhere. *)

From Coq Require Import Reals ZArith List Permutation.
From Flocq Require Import Core IEEE754.BinarySingleNaN.
From Verif Require Import MDouble.
Import ListNotations.

Inductive tree := Zero | Entry (k : nat) | Plus (a b : tree).

Fixpoint leaves (t : tree) : list nat :=
  match t with Zero => [] | Entry k => [k] | Plus a b => leaves a ++ leaves b end.

Fixpoint add_up (t : tree) (l : list double) : double :=
  match t with
  | Zero => dzero
  | Entry k => nth k l dzero
  | Plus a b => dadd (add_up a l) (add_up b l)
  end.

(** Every entry is added exactly once. *)
Definition order_ok (o : nat -> tree) : Prop := forall n, Permutation (leaves (o n)) (seq 0 n).

(** [np.sum] of one axis, [np.mean] of one axis. *)
Definition sum_d (o : nat -> tree) (l : list double) : double := add_up (o (length l)) l.
Definition mean_d (o : nat -> tree) (l : list double) : double := ddiv (sum_d o l) (dbl (Z.of_nat (length l)) 0).
