(** * Random points of a HEALPix pixel ([magpie/randoms/usphere.py]) in IEEE-754 binary64

    The centre [(xp, yp)] that [healpix_pix2xy] returns is an input, see
    [MIndexFloat.v]; so are the draws of [np.random.random_sample], two arrays of
    length [size].  The C library [arccos] is an arbitrary function. *)

From Coq Require Import Reals ZArith List Bool.
From Flocq Require Import Core IEEE754.BinarySingleNaN.
From Verif Require Import Base MDouble MGridsDouble MRemapDouble MHealCoordDouble.
Import ListNotations.
Open Scope R_scope.

(** [-x] *)
Definition opp_d : double -> double := @Bopp 53 1024.

(** pixel/healpix_boundary.py:6-19, [_healpix_get_delta]. *)
Definition delta_d (nside : Z) : double := ddiv pi_d (dint (4 * nside)).

(** randoms/usphere.py:137-138: a point of the left half of the pixel. *)
Definition left_x (xp delta ux : double) : double :=
  dadd xp (dmul delta (dsub (dsqrt (dmul (dint 2) ux)) (dint 1))).
Definition left_y (xp yp delta x uy : double) : double :=
  dadd (dmul (dmul (dint 2) (dadd (dsub x xp) delta)) uy)
       (dadd (dsub (dadd (opp_d x) xp) delta) yp).

(** randoms/usphere.py:140-141: a point of the right half. *)
Definition right_x (xp delta ux : double) : double :=
  dadd xp (dmul delta (dsub (dint 1) (dsqrt (dmul (dint 2) (dsub (dint 1) ux))))).
Definition right_y (xp yp delta x uy : double) : double :=
  dadd (dmul (dmul (dint 2) (dadd (dadd (opp_d x) xp) delta)) uy)
       (dadd (dsub (dsub x xp) delta) yp).

(** randoms/usphere.py:112-144, [_randoms_healpix_xy]. *)
Definition randoms_xy_d (ux uy : list double) (xp yp : double) (nside : Z) : list double * list double :=
  let delta := delta_d nside in
  let xrand := repeat dzero (length ux) in
  let yrand := repeat dzero (length ux) in
  let cond := np_where (map (fun u => dle u (dbl 1 (-1))) ux) in
  let xrand := put xrand cond (map (left_x xp delta) (take dzero ux cond)) in
  let yrand := put yrand cond (map2 (left_y xp yp delta) (take dzero xrand cond) (take dzero uy cond)) in
  let cond := np_where (map (fun u => dlt (dbl 1 (-1)) u) ux) in
  let xrand := put xrand cond (map (right_x xp delta) (take dzero ux cond)) in
  let yrand := put yrand cond (map2 (right_y xp yp delta) (take dzero xrand cond) (take dzero uy cond)) in
  let xrand := map (fun x => mod_d x twopi) xrand in
  (xrand, yrand).

(** randoms/usphere.py:147-168, [randoms_healpix_pixel]. *)
Definition randoms_pixel_d (arccos : double -> double) (ux uy : list double) (xp yp : double) (nside : Z)
  : list double * list double :=
  let xy := randoms_xy_d ux uy xp yp nside in
  xy2ang_arr_d arccos (fst xy) (snd xy).
