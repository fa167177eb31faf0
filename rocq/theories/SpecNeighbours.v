(** * Specifications: the HEALPix projection and neighbouring pixels

    Independent of the model files, see [Spec.v]. *)

From Coq Require Import Reals ZArith.
From Flocq Require Import Core.Raux.
From Verif Require Import Base Spec.
Local Open Scope R_scope.

(** The point of the unit sphere shown at the point [(x, y)] of the HEALPix
    plane (Gorski et al. 2005; Calabretta and Roukema 2007).  In the belt the
    map is cylindrical; in the caps each of the four triangles of a hemisphere
    has its apex, the pole, above the middle [facet_x x] of its base. *)
Definition facet_x (x : R) : R := (2 * IZR (Zfloor (x / (PI / 2))) + 1) * (PI / 4).

Definition cap_sigma (y : R) : R := 2 - 4 * Rabs y / PI.

Definition sky_z (y : R) : R :=
  if Rle_dec (Rabs y) (PI / 4) then 8 * y / (3 * PI)
  else if Rlt_dec 0 y then 1 - cap_sigma y ^ 2 / 3
  else - (1 - cap_sigma y ^ 2 / 3).

Definition sky_phi (x y : R) : R :=
  if Rle_dec (Rabs y) (PI / 4) then x
  else facet_x x + (x - facet_x x) / cap_sigma y.

Definition sky (x y : R) : vec :=
  V3 (sqrt (1 - sky_z y ^ 2) * cos (sky_phi x y))
     (sqrt (1 - sky_z y ^ 2) * sin (sky_phi x y))
     (sky_z y).

(** The four corners of the pixel (a diamond in the plane) with centre
    [(xc, yc)]. *)
Definition pixel_corner (nside : Z) (xc yc x y : R) : Prop :=
  (x = xc /\ (y = yc + half_diag nside \/ y = yc - half_diag nside)) \/
  (y = yc /\ (x = xc - half_diag nside \/ x = xc + half_diag nside)).

(** Two pixels, given by their centres, have a corner in common on the sphere. *)
Definition share_corner (nside : Z) (xp yp xq yq : R) : Prop :=
  exists x y x' y', pixel_corner nside xp yp x y /\ pixel_corner nside xq yq x' y' /\
    sky x y = sky x' y'.
