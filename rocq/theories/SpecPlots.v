(** * Specifications: lines and labels on an orthographic picture

    Independent of the model files, see [Spec.v]. *)

From Coq Require Import Reals List.
From Verif Require Import Base SpecSphere SpecOrtho.
Import ListNotations.
Open Scope R_scope.

(** [n] steps of size [d] fit into [full], [n + 1] do not. *)
Definition whole_steps (n : nat) (full d : R) : Prop := INR n * d <= full < (INR n + 1) * d.

(** The direction [s] is drawn at [q] on the unit disc seen from above
    [(c0, c1)]: nowhere when it is on the far side. *)
Definition drawn (c0 c1 : R) (s : vec) (q : num * num) : Prop :=
  (0 <= dot (dir c0 c1) s -> q = (Some (dot (east c0) s), Some (dot (north c0 c1) s))) /\
  (dot (dir c0 c1) s < 0 -> q = (None, None)).

(** [pts] is the picture of the 100 directions [s 0, ..., s 99]. *)
Definition line_of (c0 c1 : R) (s : nat -> vec) (pts : list (num * num)) : Prop :=
  length pts = 100%nat /\ forall i, (i < 100)%nat -> drawn c0 c1 (s i) (nth i pts (None, None)).

(** A label for the direction [s] stands at [(x, y)], inside the frame. *)
Definition stands (c0 c1 xl xr yl yr : R) (s : vec) (x y : R) : Prop :=
  drawn c0 c1 s (Some x, Some y) /\ xl <= x <= xr /\ yl <= y <= yr.
