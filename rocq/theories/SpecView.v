(** * Specifications: pinhole camera

    Independent of the model files, see [Spec.v]. *)

From Coq Require Import Reals ZArith List Bool.
From Verif Require Import Base SpecSphere.
Import ListNotations.
Open Scope R_scope.

Definition vsub (a b : vec) : vec := V3 (vx a - vx b) (vy a - vy b) (vz a - vz b).
Definition vlen (a : vec) : R := sqrt (dot a a).

(** An orthonormal camera frame: line of sight, sideways and upwards. *)
Record frame := Frame { fwd : vec; side : vec; up : vec }.

Definition orthonormal (F : frame) : Prop :=
  dot (fwd F) (fwd F) = 1 /\ dot (side F) (side F) = 1 /\ dot (up F) (up F) = 1 /\
  dot (fwd F) (side F) = 0 /\ dot (fwd F) (up F) = 0 /\ dot (side F) (up F) = 0 /\
  cross (fwd F) (side F) = up F.

(** [F] looks from [camera] towards [point] with a level horizon: the sideways
    axis is horizontal and the upwards axis does not point down. *)
Definition looks (camera point : vec) (F : frame) : Prop :=
  orthonormal F /\
  vsub point camera = vscale (vlen (vsub point camera)) (fwd F) /\
  dot (side F) ez = 0 /\ 0 <= dot (up F) ez.

(** The frame turned through [s] about its line of sight. *)
Definition turned (F : frame) (s : R) : frame :=
  Frame (fwd F)
        (vadd (vscale (cos s) (side F)) (vscale (- sin s) (up F)))
        (vadd (vscale (sin s) (side F)) (vscale (cos s) (up F))).

(** Depth of a point, and its image on the plane at distance [display]. *)
Definition depth (camera : vec) (F : frame) (p : vec) : R := dot (fwd F) (vsub p camera).
Definition image (camera : vec) (F : frame) (display : R) (p : vec) : R * R :=
  (display * dot (side F) (vsub p camera) / depth camera F p,
   display * dot (up F) (vsub p camera) / depth camera F p).

(** Reflection of [p] through [camera]. *)
Definition mirrored (camera p : vec) : vec := vsub (vscale 2 camera) p.
