(** * Angles, spherical coordinates and random positions in IEEE-754 binary64

    Numbers are binary64 data with infinities and NaN (Flocq's [binary_float],
    one NaN); [+ - * /] and [np.sqrt] round to nearest, ties to even.  [x**2.] is
    one correctly rounded product, as numpy evaluates it on arrays (for Python
    floats, which go through the C library, this is assumed).  [np.arctan2],
    [np.arccos] and [np.cos] of the C library are arbitrary functions; TDouble
    states what is assumed about them. *)

From Coq Require Import Reals ZArith List Bool.
From Flocq Require Import Core IEEE754.BinarySingleNaN.
From Verif Require Import Base.
Import ListNotations.
Open Scope R_scope.

Definition double := binary_float 53 1024.

Definition p53 : Prec_gt_0 53 := eq_refl.
Definition p1024 : Prec_lt_emax 53 1024 := eq_refl.

Definition dadd : double -> double -> double := @Bplus 53 1024 p53 p1024 mode_NE.
Definition dsub : double -> double -> double := @Bminus 53 1024 p53 p1024 mode_NE.
Definition dmul : double -> double -> double := @Bmult 53 1024 p53 p1024 mode_NE.
Definition ddiv : double -> double -> double := @Bdiv 53 1024 p53 p1024 mode_NE.
Definition dsqrt : double -> double := @Bsqrt 53 1024 p53 p1024 mode_NE.
Definition dlt : double -> double -> bool := @Bltb 53 1024.
Definition deq : double -> double -> bool := @Beqb 53 1024.
Definition dzero : double := @B754_zero 53 1024 false.

(** The double nearest to [m * 2^e]. *)
Definition dbl (m e : Z) : double := @binary_normalize 53 1024 p53 p1024 mode_NE m e false.

(** [np.pi] and [2.*np.pi]. *)
Definition pi_d : double := dbl 7074237752028440 (-51).
Definition twopi : double := dmul (dbl 2 0) pi_d.

(** [-2.*np.pi] *)
Definition mtwopi : double := dmul (dbl (-2) 0) pi_d.

Definition sq (x : double) : double := dmul x x.

(** conversions.py:25-30 and 80-90: [phi[phi < 0.] += 2.*np.pi]. *)
Definition wrap (phi : double) : double := if dlt phi dzero then dadd phi twopi else phi.

(** conversions.py:4-31, an element of the arrays of [cart2polar]. *)
Definition cart2polar_d (arctan2 : double -> double -> double) (x y c0 c1 : double) : double * double :=
  let r := dsqrt (dadd (sq (dsub x c0)) (sq (dsub y c1))) in
  (r, wrap (arctan2 (dsub y c1) (dsub x c0))).

(** conversions.py:58-94, an element of the arrays of [cart2sphere]. *)
Definition cart2sphere_d (arctan2 : double -> double -> double) (arccos : double -> double)
    (x y z c0 c1 c2 : double) : double * double * double :=
  let r := dsqrt (dadd (dadd (sq (dsub x c0)) (sq (dsub y c1))) (sq (dsub z c2))) in
  let phi := wrap (arctan2 (dsub y c1) (dsub x c0)) in
  let theta := if negb (deq r dzero) then arccos (ddiv (dsub z c2) r) else dzero in
  (r, phi, theta).

(** conversions.py:127-156, an element of [ortho2cart]; [r**2] and [r**2.] are
    the same product. *)
Definition ortho2cart_d (x y r fill_value : double) : double :=
  let xy := dadd (sq x) (sq y) in
  if dlt xy (sq r) then dsqrt (dsub (sq r) xy) else fill_value.

(** usphere.py:84-117, [usphere_phi_shift] on a scalar. *)
Definition phi_shift_d (phi dphi : double) : res double :=
  guard dlt mtwopi dphi && dlt dphi twopi ;;
  let s := dadd phi dphi in
  Ok (if dlt twopi s then dsub s twopi else if dlt s dzero then dadd s twopi else s).

(** The same on an array: two masked assignments, one after the other. *)
Definition phi_shift_arr_d (phi : list double) (dphi : double) : res (list double) :=
  guard dlt mtwopi dphi && dlt dphi twopi ;;
  let s := map (fun p => dadd p dphi) phi in
  let s := map (fun p => if dlt twopi p then dsub p twopi else p) s in
  Ok (map (fun p => if dlt p dzero then dadd p twopi else p) s).

(** randoms/polar.py:29-35, one point of [randoms_polar]. *)
Definition randoms_polar_d (ur uphi r_min r_max phi_min phi_max : double) : double * double :=
  (dsqrt (dadd (dmul (dsub (sq r_max) (sq r_min)) ur) (sq r_min)),
   dadd (dmul (dsub phi_max phi_min) uphi) phi_min).

(** randoms/usphere.py:40-44, one point of [randoms_usphere]. *)
Definition randoms_usphere_d (cos arccos : double -> double) (uphi utheta phi_min phi_max theta_min theta_max : double) : double * double :=
  (dadd phi_min (dmul (dsub phi_max phi_min) uphi),
   arccos (dsub (cos theta_min) (dmul (dsub (cos theta_min) (cos theta_max)) utheta))).
