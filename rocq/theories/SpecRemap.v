(** * Specifications: resampling between regular grids

    Independent of the model files, see [Spec.v]. *)

From Coq Require Import Reals ZArith List Bool.
From Verif Require Import Base SpecGrid MGrids.
Import ListNotations.
Open Scope R_scope.

(** Edge [i] of a regular grid of [n] cells on [[o, o+len]]. *)
Definition edge (o len : R) (n i : nat) : R := o + INR i * (len / INR n).

(** Fraction of cell [k] of the grid [(o2, len2, n2)] covered by cell [i] of
    the grid [(o1, len1, n1)]. *)
Definition frac (o1 len1 : R) (n1 : nat) (o2 len2 : R) (n2 k i : nat) : R :=
  overlap (edge o2 len2 n2 k) (edge o2 len2 n2 (S k)) (edge o1 len1 n1 i) (edge o1 len1 n1 (S i)) / (len2 / INR n2).

(** Sum over [i] below [n]. *)
Definition sum_upto (n : nat) (g : nat -> R) : R := Rsum (map g (seq 0 n)).

(** Average over output cell [k] of the piecewise constant field [f] on
    [(o1, len1)], taken to be zero outside. *)
Definition cell_average (o1 len1 : R) (f : list R) (o2 len2 : R) (n2 k : nat) : R :=
  sum_upto (length f) (fun i => frac o1 len1 (length f) o2 len2 n2 k i * nth i f 0).

(** Output cell [k] lies inside the phantom cell just below the source grid. *)
Definition just_below (o1 len1 : R) (n1 : nat) (o2 len2 : R) (n2 k : nat) : Prop :=
  o1 - len1 / INR n1 <= edge o2 len2 n2 k /\ edge o2 len2 n2 (S k) < o1.

(** One axis of a regular grid: origin, length, number of cells. *)
Record side := Side { org : R; ext : R; cells : nat }.

Definition proper (s : side) : Prop := 0 < ext s /\ (1 <= cells s)%nat.
Definition width (s : side) : R := ext s / INR (cells s).
Definition part (s1 s2 : side) (k i : nat) : R := frac (org s1) (ext s1) (cells s1) (org s2) (ext s2) (cells s2) k i.
(** [s] covers [t]. *)
Definition covers (s t : side) : Prop := org s <= org t /\ org t + ext t <= org s + ext s.
(** The first cell of [s2] is not inside the phantom cell just below [s1]. *)
Definition regular_start (s1 s2 : side) : Prop :=
  ~ just_below (org s1) (ext s1) (cells s1) (org s2) (ext s2) (cells s2) 0.

(** Averages over an output cell of a piecewise constant field, extended by zero. *)
Definition average2 (x1 y1 : side) (f : list (list R)) (x2 y2 : side) (k l : nat) : R :=
  sum_upto (cells x1) (fun i => sum_upto (cells y1) (fun j => part x1 x2 k i * part y1 y2 l j * cell f i j)).

Definition average3 (x1 y1 z1 : side) (f : list (list (list R))) (x2 y2 z2 : side) (k l m : nat) : R :=
  sum_upto (cells x1) (fun i => sum_upto (cells y1) (fun j => sum_upto (cells z1) (fun h =>
    part x1 x2 k i * part y1 y2 l j * part z1 z2 m h * cell3 f i j h))).

Definition total3 (f : list (list (list R))) : R := Rsum (map total f).

(** Weight attributed to source cell [i] by a list of (cell, weight) pairs. *)
Definition weight_of (b : list (Z * R)) (i : nat) : R :=
  Rsum (map snd (filter (fun pw => (fst pw =? Z.of_nat i)%Z) b)).

(** A scalar, or a sequence starting with the given values. *)
Definition pair_arg {A} (x : arg A) (a b : A) : Prop := (x = Sca a /\ b = a) \/ exists r, x = Seq (a :: b :: r).
Definition triple_arg {A} (x : arg A) (a b c : A) : Prop :=
  (x = Sca a /\ b = a /\ c = a) \/ exists r, x = Seq (a :: b :: c :: r).
