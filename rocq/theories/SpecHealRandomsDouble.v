(** * Specifications: random points of a diamond

    Independent of the model files, see [Spec.v]. *)

From Coq Require Import Reals List.
From Flocq Require Import IEEE754.BinarySingleNaN.
From Verif Require Import SpecRandomsDouble.
Open Scope R_scope.

(** A point of the diamond of half-diagonal [d] around the origin.  Its abscissa
    leaves the fraction [u] of the area to the left, its ordinate divides the
    vertical chord in the ratio [v : 1 - v]. *)
Definition drawn_across (d u : R) : R :=
  if Rle_lt_dec u (/ 2) then d * (sqrt (2 * u) - 1) else d * (1 - sqrt (2 * (1 - u))).
Definition drawn_up (d u v : R) : R := (2 * v - 1) * (d - Rabs (drawn_across d u)).

(** The cosine of the colatitude at height [y] of the HEALPix plane. *)
Definition cos_colat (y : R) : R :=
  if Rle_lt_dec (Rabs y) (PI / 4) then 8 * y / (3 * PI)
  else (if Rle_lt_dec 0 y then 1 else -1) * (1 - (2 - 4 * Rabs y / PI) ^ 2 / 3).

(** Every entry is a draw of [np.random.random_sample]. *)
Definition draws (l : list (binary_float 53 1024)) : Prop :=
  forall q, (q < length l)%nat -> exists k, kth_draw k (nth q l (B754_zero false)).
