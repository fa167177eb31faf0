(** * Specifications: errors of rebinned values

    Independent of the model files, see [Spec.v]. *)

From Coq Require Import Reals ZArith List Bool.
From Verif Require Import Base SpecGrid.
Import ListNotations.
Open Scope R_scope.

(** Length of bin [i] and the share of it that lies in the new bin [[a, b]]. *)
Definition bin_length (e : list R) (i : nat) : R := nth (S i) e 0 - nth i e 0.
Definition covered (e : list R) (a b : R) (i : nat) : R :=
  overlap a b (nth i e 0) (nth (S i) e 0) / bin_length e i.

(** Part of an old bin used for a new bin: its weight, its length and the
    number of the bin. *)
Record piece := Piece { share : R; extent : R; bin : nat }.

(** Error of the weighted mean of independent pieces: a piece of length [l] of
    a bin of length [L] and error [s] has variance [s^2 L / l]. *)
Definition propagated (e s : list R) (ps : list piece) : R :=
  sqrt (Rsum (map (fun p => (share p * nth (bin p) s 0) ^ 2 * (bin_length e (bin p) / extent p)) ps) /
        Rsum (map share ps) ^ 2).

(** The error of the mean over [[a, b]]: the pieces are the covered parts, each
    with its share as weight, so that a piece contributes [share * s^2]. *)
Definition mean_error (e s : list R) (n : nat) (a b : R) : R :=
  sqrt (Rsum (map (fun i => covered e a b i * nth i s 0 ^ 2) (seq 0 n)) /
        Rsum (map (covered e a b) (seq 0 n)) ^ 2).

(** Whole bins [p .. p+m-1]; the part of bin [q] below [b], weighed against
    the length of the bin before it. *)
Definition whole (e : list R) (p m : nat) : list piece := map (fun i => Piece 1 (bin_length e i) i) (seq p m).
Definition end_piece (e : list R) (b : R) (q : nat) : list piece :=
  if Rlt_dec (nth q e 0) b then [Piece ((b - nth q e 0) / bin_length e (q - 1)) (b - nth q e 0) q] else [].

(** Bin [0] in full when the new bin starts inside it ([p] is the first edge of
    the new bin), nothing otherwise. *)
Definition start_piece (e : list R) (p : nat) : list piece := if (p =? 1)%nat then whole e 0 1 else [].

(** The old edges inside the new bin [[a, b]] are those numbered [p .. q]. *)
Definition edges_inside (e : list R) (n : nat) (a b : R) (p q : nat) : Prop :=
  (p <= q <= n)%nat /\ forall i, (i <= n)%nat -> a <= nth i e 0 <= b <-> (p <= i <= q)%nat.
