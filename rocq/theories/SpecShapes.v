(** * Specifications: outlines of plane figures and boxes, line of sight

    Independent of the model files, see [Spec.v]. *)

From Coq Require Import Reals ZArith List Bool.
From Verif Require Import Base.
Import ListNotations.
Open Scope R_scope.

(** The point at fraction [t] of the way from [a] to [b]. *)
Definition between2 (a b : R * R) (t : R) : R * R :=
  (fst a + t * (fst b - fst a), snd a + t * (snd b - snd a)).

(** Fraction of the way of sample [i] of [m] equally spaced ones that include
    both ends (a single sample sits at the start). *)
Definition fraction (m i : nat) : R := if (m <=? 1)%nat then 0 else INR i / INR (m - 1).

(** Corners of a rectangle in order of traversal. *)
Definition rect_corner (xmin xmax ymin ymax : R) (k : nat) : R * R :=
  match k with
  | 0%nat => (xmin, ymin)
  | 1%nat => (xmax, ymin)
  | 2%nat => (xmax, ymax)
  | 3%nat => (xmin, ymax)
  | _ => (xmin, ymin)
  end.

(** The twelve edges of a box: a direction and the sides of the other two
    axes. *)
Inductive axis := AX | AY | AZ.
Definition edge := (axis * bool * bool)%type.

Record box := Box { bx0 : R; bx1 : R; by0 : R; by1 : R; bz0 : R; bz1 : R }.

Definition side (lo hi : R) (b : bool) : R := if b then hi else lo.

Definition edge_point (B : box) (e : edge) (t : R) : R * R * R :=
  match e with
  | (AX, b, c) => (bx0 B + t * (bx1 B - bx0 B), side (by0 B) (by1 B) b, side (bz0 B) (bz1 B) c)
  | (AY, a, c) => (side (bx0 B) (bx1 B) a, by0 B + t * (by1 B - by0 B), side (bz0 B) (bz1 B) c)
  | (AZ, a, b) => (side (bx0 B) (bx1 B) a, side (by0 B) (by1 B) b, bz0 B + t * (bz1 B - bz0 B))
  end.

Definition inside (B : box) (p : R * R * R) : Prop :=
  let '(x, y, z) := p in bx0 B < x < bx1 B /\ by0 B < y < by1 B /\ bz0 B < z < bz1 B.

(** Point at fraction [t] of the line of sight from [c] to [p]. *)
Definition sight (c p : R * R * R) (t : R) : R * R * R :=
  let '(cx, cy, cz) := c in let '(x, y, z) := p in
  (cx + t * (x - cx), cy + t * (y - cy), cz + t * (z - cz)).

(** [p] is hidden behind the interior of the box. *)
Definition hidden (B : box) (c p : R * R * R) : Prop :=
  exists t, 0 <= t <= 1 /\ inside B (sight c p t).

(** The samples of an edge, by coordinate. *)
Definition edge_row (B : box) (m : nat) (e : edge) : list R * list R * list R :=
  let p := map (fun i => edge_point B e (fraction m i)) (seq 0 m) in
  (map (fun q => fst (fst q)) p, map (fun q => snd (fst q)) p, map snd p).

(** One of 100 equally spaced samples of the line of sight is inside. *)
Definition sampled_hidden (B : box) (c p : R * R * R) : Prop :=
  exists k, (k < 100)%nat /\ inside B (sight c p (INR k / 99)).
