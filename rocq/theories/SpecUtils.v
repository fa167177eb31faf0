(** * Specification vocabulary for the utilities *)

From Coq Require Import Reals ZArith List Bool String Ascii.
From Verif Require Import Base.
Import ListNotations.

(** Number of line feeds in a string. *)
Fixpoint newlines (s : string) : nat :=
  match s with
  | EmptyString => 0
  | String c t => (if Ascii.eqb c "010"%char then 1 else 0) + newlines t
  end.

(** [n] copies of a character. *)
Fixpoint chars (c : ascii) (n : nat) : string :=
  match n with O => EmptyString | S k => String c (chars c k) end.
