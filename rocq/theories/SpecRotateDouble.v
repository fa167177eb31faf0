(** * Specifications: rotations of the sphere in double precision

    Independent of the model files, see [Spec.v]. *)

From Coq Require Import Reals ZArith List.
From Flocq Require Import Core IEEE754.BinarySingleNaN.
From Verif Require Import Base SpecDouble.
Open Scope R_scope.

Notation float := (binary_float 53 1024).

(** The float [x] is finite and within [e] of [X]. *)
Definition within (e : R) (x : float) (X : R) : Prop := fin x /\ Rabs (val x - X) <= e.

(** The same for each component of a vector. *)
Definition vwithin (e : R) (a : float * float * float) (A : vec) : Prop :=
  let '(a0, a1, a2) := a in within e a0 (vx A) /\ within e a1 (vy A) /\ within e a2 (vz A).

Definition vval (a : float * float * float) : vec := let '(a0, a1, a2) := a in V3 (val a0) (val a1) (val a2).

(** Finite components of size at most 2. *)
Definition tame (a : float * float * float) : Prop :=
  let '(a0, a1, a2) := a in (fin a0 /\ Rabs (val a0) <= 2) /\ (fin a1 /\ Rabs (val a1) <= 2) /\ (fin a2 /\ Rabs (val a2) <= 2).

Definition orthonormal (a b c : vec) : Prop :=
  dot a a = 1 /\ dot b b = 1 /\ dot c c = 1 /\ dot a b = 0 /\ dot a c = 0 /\ dot b c = 0.

(** Sums of three numbers in either order. *)
Definition sums_ok (add : float -> float -> float) (f : float -> float -> float -> float) : Prop :=
  forall a b c, f a b c = add (add a b) c \/ f a b c = add a (add b c).

(** Dot products and products with a matrix are accurate to [2^-47]. *)
Definition dots_ok (f : float * float * float -> float * float * float -> float) : Prop :=
  forall a b, tame a -> tame b -> within (b2 (-47)) (f a b) (dot (vval a) (vval b)).

Definition mdots_ok (f : (float * float * float) * (float * float * float) * (float * float * float) -> float * float * float -> float * float * float) : Prop :=
  forall r0 r1 r2 w, tame r0 -> tame r1 -> tame r2 -> tame w ->
    vwithin (b2 (-47)) (f (r0, r1, r2) w) (V3 (dot (vval r0) (vval w)) (dot (vval r1) (vval w)) (dot (vval r2) (vval w))).

(** The inverse of a matrix with columns within [e] of orthonormal ones is the
    transpose up to a multiple of [e] and [2^-45]. *)
Definition inverse_ok (f : (float * float * float) * (float * float * float) * (float * float * float) -> res ((float * float * float) * (float * float * float) * (float * float * float))) : Prop :=
  forall e r0 r1 r2 a b c, 0 <= e <= b2 (-10) -> orthonormal a b c ->
    vwithin e r0 (V3 (vx a) (vx b) (vx c)) -> vwithin e r1 (V3 (vy a) (vy b) (vy c)) -> vwithin e r2 (V3 (vz a) (vz b) (vz c)) ->
    exists s0 s1 s2, f (r0, r1, r2) = Ok (s0, s1, s2) /\
      vwithin (8 * e + b2 (-45)) s0 a /\ vwithin (8 * e + b2 (-45)) s1 b /\ vwithin (8 * e + b2 (-45)) s2 c.

(** NaN goes in, NaN comes out. *)
Definition nan : float := B754_nan.
Definition nan_through (arctan2 : float -> float -> float) (arccos : float -> float)
    (mdot : (float * float * float) * (float * float * float) * (float * float * float) -> float * float * float -> float * float * float) : Prop :=
  (forall x, arctan2 nan x = nan) /\ arccos nan = nan /\
  (forall a b c w, mdot ((a, nan, nan), (b, nan, nan), (c, nan, nan)) w = (nan, nan, nan)).
