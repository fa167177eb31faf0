(** * Specifications

    Written from the published definitions, without reference to the model
    files.  Everything a theorem statement mentions is either a model
    function (an API entry point) or defined here. *)

From Coq Require Import Reals ZArith List Bool.
Import ListNotations.

(** ** HEALPix ring numbering (Gorski et al. 2005) *)

Section Healpix.
Local Open Scope Z_scope.

(** Number of pixels of ring [i], rings numbered 1 .. 4*nside-1 from the
    north pole: the caps grow by four pixels per ring, the belt is constant. *)
Definition ring_len (nside i : Z) : Z :=
  if i <? nside then 4 * i
  else if i <=? 3 * nside then 4 * nside
  else 4 * (4 * nside - i).

(** Number of pixels in the [k] northernmost rings. *)
Fixpoint pixels_in_rings (nside : Z) (k : nat) : Z :=
  match k with
  | O => 0
  | S k' => pixels_in_rings nside k' + ring_len nside (Z.of_nat k)
  end.

(** Legal ring and position-in-ring. *)
Definition legal_ij (nside i j : Z) : Prop :=
  1 <= i <= 4 * nside - 1 /\ 1 <= j <= ring_len nside i.

Definition legal_pix (nside p : Z) : Prop := 0 <= p < 12 * nside ^ 2.

(** [p] is the [j]-th pixel of ring [i] when pixels are numbered from 0 ring by
    ring, starting at the north pole. *)
Definition pixel_at (nside p i j : Z) : Prop :=
  legal_ij nside i j /\ p = pixels_in_rings nside (Z.to_nat (i - 1)) + j - 1.

End Healpix.

Section HealpixGeometry.
Local Open Scope R_scope.

(** Standard pixel centre (z = cos theta, phi) of the [j]-th pixel of ring [i]
    (Gorski et al. 2005; the belt offset is the one of the reference
    implementation: half a pixel on rings of the parity of nside). *)
Definition centre_z (nside i : Z) : R :=
  let n := IZR nside in
  if (i <? nside)%Z then 1 - IZR i ^ 2 / (3 * n ^ 2)
  else if (i <=? 3 * nside)%Z then 4 / 3 - 2 * IZR i / (3 * n)
  else - (1 - (4 * n - IZR i) ^ 2 / (3 * n ^ 2)).

Definition centre_phi (nside i j : Z) : R :=
  let n := IZR nside in
  if (i <? nside)%Z then (IZR j - / 2) * PI / (2 * IZR i)
  else if (i <=? 3 * nside)%Z then
    (IZR j - if Z.even (i + nside) then / 2 else 1) * PI / (2 * n)
  else (IZR j - / 2) * PI / (2 * (4 * n - IZR i)).

(** Half-diagonal of a pixel in the HEALPix plane, and the closed and open
    diamonds around a centre (L1 balls), with [x] taken modulo 2*pi. *)
Definition half_diag (nside : Z) : R := PI / (4 * IZR nside).

Definition l1 (x y x' y' : R) : R := Rabs (x - x') + Rabs (y - y').

Definition in_diamond (nside : Z) (xc yc x y : R) : Prop :=
  exists m : Z, l1 (x + 2 * PI * IZR m) y xc yc <= half_diag nside.
Definition in_open_diamond (nside : Z) (xc yc x y : R) : Prop :=
  exists m : Z, l1 (x + 2 * PI * IZR m) y xc yc < half_diag nside.

(** The region of the HEALPix plane covered by the sphere: the belt
    [|y| <= pi/4] and, above and below it, four triangles with apexes at
    [x = pi/4 + k*pi/2], [|y| = pi/2]. *)
Definition heal_region (x y : R) : Prop :=
  0 <= x < 2 * PI /\
  (Rabs y <= PI / 4 \/
   exists k : Z, (0 <= k <= 3)%Z /\
     Rabs (x - (2 * IZR k + 1) * (PI / 4)) <= PI / 2 - Rabs y).

End HealpixGeometry.

Section HealpixChart.
Local Open Scope R_scope.

(** Plane points that are canonical representatives of a direction off the
    poles: the belt, and the triangles without their apex and without their
    right edge (which is glued to the left edge of the next triangle). *)
Definition heal_chart (x y : R) : Prop :=
  0 <= x < 2 * PI /\
  (Rabs y <= PI / 4 \/
   (Rabs y < PI / 2 /\
    exists k : Z, (0 <= k <= 3)%Z /\
      - (PI / 2 - Rabs y) <= x - (2 * IZR k + 1) * (PI / 4) < PI / 2 - Rabs y)).

End HealpixChart.
