(** * Vocabulary: grid remapping in binary64, two and three dimensions *)

From Coq Require Import Reals ZArith List Bool.
From Flocq Require Import Core IEEE754.BinarySingleNaN.
From Verif Require Import SpecDouble SpecRemap SpecRemapDouble MGrids.
Import ListNotations.
Open Scope R_scope.

(** One axis of a grid: origin, length and number of cells. *)
Record line := Line { lorg : binary_float 53 1024; llen : binary_float 53 1024; lcells : nat }.

Definition exact_side (s : line) : side := Side (val (lorg s)) (val (llen s)) (lcells s).
Definition line_within (X : R) (s : line) : Prop := grid_within X (lorg s) (llen s) (lcells s).
Definition line_clear (X : R) (s1 s2 : line) (k : nat) : Prop :=
  clear_below X (val (lorg s1)) (val (llen s1)) (lcells s1) (val (lorg s2)) (val (llen s2)) (lcells s2) k.

(** Cell [k] of [s2] lies inside cell [p] of [s1], by a margin of [2^-48 X]. *)
Definition line_inside (X : R) (s1 s2 : line) (k p : nat) : Prop :=
  (k < lcells s2)%nat /\ (p < lcells s1)%nat /\
  edge (val (lorg s1)) (val (llen s1)) (lcells s1) p + b2 (-48) * X <= edge (val (lorg s2)) (val (llen s2)) (lcells s2) k /\
  edge (val (lorg s2)) (val (llen s2)) (lcells s2) (S k) + b2 (-48) * X <= edge (val (lorg s1)) (val (llen s1)) (lcells s1) (S p).

(** Coordinates in units of the cells, and number of source cells met by an output cell. *)
Definition in_cells (X : R) (s1 s2 : line) : R := X / width (exact_side s1) + X / width (exact_side s2).
Definition met (s1 s2 : line) : R := 2 + width (exact_side s2) / width (exact_side s1).

(** The arguments of a call describe the given axes. *)
Definition call2 (x1 y1 x2 y2 : line) (boxsize : arg (binary_float 53 1024)) (ngridout : arg Z) (origin originout : arg (binary_float 53 1024))
  (boxsizeout : option (arg (binary_float 53 1024))) : Prop :=
  pair_arg boxsize (llen x1) (llen y1) /\ pair_arg origin (lorg x1) (lorg y1) /\ pair_arg originout (lorg x2) (lorg y2) /\
  pair_arg ngridout (Z.of_nat (lcells x2)) (Z.of_nat (lcells y2)) /\
  match boxsizeout with None => llen x2 = llen x1 /\ llen y2 = llen y1 | Some b => pair_arg b (llen x2) (llen y2) end.

Definition call3 (x1 y1 z1 x2 y2 z2 : line) (boxsize : arg (binary_float 53 1024)) (n : nat) (origin originout : arg (binary_float 53 1024))
  (boxsizeout : option (arg (binary_float 53 1024))) : Prop :=
  triple_arg boxsize (llen x1) (llen y1) (llen z1) /\ triple_arg origin (lorg x1) (lorg y1) (lorg z1) /\ triple_arg originout (lorg x2) (lorg y2) (lorg z2) /\
  lcells x2 = n /\ lcells y2 = n /\ lcells z2 = n /\
  match boxsizeout with None => llen x2 = llen x1 /\ llen y2 = llen y1 /\ llen z2 = llen z1 | Some b => triple_arg b (llen x2) (llen y2) (llen z2) end.

(** An array of [n] by [c] (by [d]) entries. *)
Definition array2 {A : Type} (f : list (list A)) (n c : nat) : Prop := length f = n /\ forall row, In row f -> length row = c.
Definition array3 {A : Type} (f : list (list (list A))) (n c d : nat) : Prop := length f = n /\ forall slab, In slab f -> array2 slab c d.
