(** * Specifications: directions and rotations of the sphere

    Independent of the model files, see [Spec.v]. *)

From Coq Require Import Reals ZArith List Bool.
From Verif Require Import Base.
Import ListNotations.

(** ** Directions and rotations of the unit sphere *)

Section Sphere.
Local Open Scope R_scope.

(** Unit vector with longitude [phi] and colatitude [theta]. *)
Definition dir (phi theta : R) : vec :=
  V3 (cos phi * sin theta) (sin phi * sin theta) (cos theta).

Definition ez : vec := V3 0 0 1.

(** Rotation of [v] through the angle [a] about the unit axis [n]
    (Rodrigues' formula). *)
Definition rodrigues (n : vec) (a : R) (v : vec) : vec :=
  vadd (vadd (vscale (cos a) v) (vscale (sin a) (cross n v)))
       (vscale ((1 - cos a) * dot n v) n).

(** Unit vector pointing east at longitude [phi]: the axis of the rotation
    along the meridian that increases the colatitude. *)
Definition east (phi : R) : vec := V3 (- sin phi) (cos phi) 0.

(** Angles equal modulo whole turns. *)
Definition same_angle (a b : R) : Prop := exists k : Z, a = b + 2 * PI * IZR k.

(** Accepted sky positions of the [usphere_*] functions. *)
Definition on_sky (phi theta : R) : Prop := 0 <= phi <= 2 * PI /\ 0 <= theta <= PI.

End Sphere.
