(** * Specifications: boxes in double precision

    Independent of the model files, see [Spec.v]. *)

From Coq Require Import Reals ZArith List.
From Flocq Require Import Core IEEE754.BinarySingleNaN.
From Verif Require Import SpecDouble SpecShapes SpecShapesDouble.
Open Scope R_scope.

(** A box with limits in double precision, and the box of their values. *)
Record dbox := DBox { dx0 : binary_float 53 1024; dx1 : binary_float 53 1024; dy0 : binary_float 53 1024;
  dy1 : binary_float 53 1024; dz0 : binary_float 53 1024; dz1 : binary_float 53 1024 }.

Definition values (D : dbox) : box := Box (val (dx0 D)) (val (dx1 D)) (val (dy0 D)) (val (dy1 D)) (val (dz0 D)) (val (dz1 D)).

Definition moderate (a : binary_float 53 1024) : Prop := fin a /\ Rabs (val a) <= b2 500.
Definition axis_ok (a b : binary_float 53 1024) : Prop := moderate a /\ moderate b /\ b2 (-500) <= val b - val a.
Definition dbox_ok (D : dbox) : Prop := axis_ok (dx0 D) (dx1 D) /\ axis_ok (dy0 D) (dy1 D) /\ axis_ok (dz0 D) (dz1 D).

(** The points are finite, exactly on the edge [e], close to equally spaced,
    and start and end exactly at its ends. *)
Definition close (D : dbox) (p q : R * R * R) : Prop :=
  let '(x, y, z) := p in let '(x', y', z') := q in
  Rabs (x - x') <= b2 (-49) * size (dx0 D) (dx1 D) /\ Rabs (y - y') <= b2 (-49) * size (dy0 D) (dy1 D) /\ Rabs (z - z') <= b2 (-49) * size (dz0 D) (dz1 D).

Definition row_ok (D : dbox) (m : nat) (e : edge) (row : list (binary_float 53 1024) * list (binary_float 53 1024) * list (binary_float 53 1024)) : Prop :=
  let '(rx, ry, rz) := row in
  length rx = m /\ length ry = m /\ length rz = m /\
  forall i d, (i < m)%nat ->
    let p := (val (nth i rx d), val (nth i ry d), val (nth i rz d)) in
    fin (nth i rx d) /\ fin (nth i ry d) /\ fin (nth i rz d) /\
    (exists t, 0 <= t <= 1 /\ p = edge_point (values D) e t) /\
    close D p (edge_point (values D) e (fraction m i)) /\
    (i = 0%nat -> p = edge_point (values D) e 0) /\
    (i = (m - 1)%nat -> (2 <= m)%nat -> p = edge_point (values D) e 1).

(** The samples of a line of sight as they are rounded. *)
Definition nearest_double (x : R) : R := round radix2 (FLT_exp (-1074) 53) ZnearestE x.
Definition sample (k : nat) : R := if Nat.eqb k 99 then 1 else nearest_double (INR k * nearest_double (1 / 99)).
Definition rounded_sight (c p : R) (k : nat) : R := nearest_double (nearest_double (sample k * nearest_double (p - c)) + c).

(** One of them is inside. *)
Definition struck (B : box) (c p : R * R * R) : Prop :=
  let '(cx, cy, cz) := c in let '(x, y, z) := p in
  exists k, (k < 100)%nat /\ inside B (rounded_sight cx x k, rounded_sight cy y k, rounded_sight cz z k).
