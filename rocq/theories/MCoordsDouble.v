(** * Latitudes, areas and cartesian coordinates in IEEE-754 binary64

    [magpie/coords/usphere_util.py] and the conversions to cartesian coordinates
    of [magpie/coords/conversions.py] on doubles; [np.cos] and [np.sin] are
    arbitrary functions. *)

From Coq Require Import ZArith List Bool.
From Flocq Require Import Core IEEE754.BinarySingleNaN.
From Verif Require Import Base MDouble MRemapDouble.

(** usphere_util.py:40-55 and 58-72, an element. *)
Definition sphere2lonlat_d (theta : double) : double := dsub (ddiv pi_d (dbl 2 0)) theta.
Definition lonlat2sphere_d (theta : double) : double := dsub (ddiv pi_d (dbl 2 0)) theta.

(** usphere_util.py:4-37, [usphere_area]. *)
Definition usphere_area_d (cos : double -> double) (phi_min phi_max theta_min theta_max : double) : res double :=
  guard dle dzero phi_min && dlt phi_min twopi ;;
  guard dlt dzero phi_max && dle phi_max twopi ;;
  guard negb (deq phi_min phi_max) ;;
  guard dle dzero theta_min && dlt theta_min pi_d ;;
  guard dlt dzero theta_max && dle theta_max pi_d ;;
  guard negb (deq theta_min theta_max) ;;
  Ok (dmul (dsub phi_max phi_min) (dsub (cos theta_min) (cos theta_max))).

(** conversions.py:34-55, an element of [polar2cart]. *)
Definition polar2cart_d (cos sin : double -> double) (r phi c0 c1 : double) : double * double :=
  (dadd (dmul r (cos phi)) c0, dadd (dmul r (sin phi)) c1).

(** conversions.py:97-124, an element of [sphere2cart]. *)
Definition sphere2cart_d (cos sin : double -> double) (r phi theta c0 c1 c2 : double) : double * double * double :=
  (dadd (dmul (dmul r (cos phi)) (sin theta)) c0,
   dadd (dmul (dmul r (sin phi)) (sin theta)) c1,
   dadd (dmul r (cos theta)) c2).
