(** * Specifications: gridded data

    Independent of the model files, see [Spec.v]. *)

From Coq Require Import Reals ZArith List Bool.
From Verif Require Import Base.
Import ListNotations.
Open Scope R_scope.

(** Entry of a 2D array given by its rows. *)
Definition cell (f : list (list R)) (i j : nat) : R := nth j (nth i f []) 0.

(** All rows have [c] entries. *)
Definition rect (f : list (list R)) (c : nat) : Prop :=
  forall i, (i < length f)%nat -> length (nth i f []) = c.

Definition cell3 (f : list (list (list R))) (i j k : nat) : R := nth k (nth j (nth i f []) []) 0.

(** [a] has the shape [n x c] (resp. [n x c x d]). *)
Definition shape2 (f : list (list R)) (n c : nat) : Prop := length f = n /\ rect f c.
Definition shape3 (f : list (list (list R))) (n c d : nat) : Prop :=
  length f = n /\ forall i, (i < n)%nat -> shape2 (nth i f []) c d.

(** [n]+1 equally spaced edges starting at [a] with spacing [h]. *)
Definition uniform_edges (l : list R) (a h : R) (n : nat) : Prop :=
  length l = S n /\ forall i, (i <= n)%nat -> nth i l 0 = a + INR i * h.

(** Sum of all entries of a 2D array. *)
Definition total (f : list (list R)) : R := Rsum (map Rsum f).

(** Column [j] (all angles at one radius, for a polar map). *)
Definition column (f : list (list R)) (j : nat) : list R := map (fun row => nth j row 0) f.

(** All entries of [l] lie in [[lo, hi]]. *)
Definition within (lo hi : R) (l : list R) : Prop := forall x, In x l -> lo <= x <= hi.

(** Length of the intersection of the intervals [[a,b]] and [[c,d]]. *)
Definition overlap (a b c d : R) : R := Rmax 0 (Rmin b d - Rmax a c).

(** Strictly increasing and non-decreasing lists. *)
Definition increasing (l : list R) : Prop := forall i j, (i < j < length l)%nat -> nth i l 0 < nth j l 0.
Definition nondecreasing (l : list R) : Prop := forall i j, (i <= j < length l)%nat -> nth i l 0 <= nth j l 0.
