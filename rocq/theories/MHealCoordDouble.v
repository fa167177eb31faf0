(** * The HEALPix projection ([magpie/coords/healpix.py]) in IEEE-754 binary64

    [np.cos] and [np.arccos] of the C library are arbitrary functions.  Powers
    [x**2] are one rounded product, see [MDouble.v]. *)

From Coq Require Import Reals ZArith List Bool.
From Flocq Require Import Core IEEE754.BinarySingleNaN.
From Verif Require Import Base MDouble MGridsDouble MRemapDouble MRandomsDouble.
Import ListNotations.
Open Scope R_scope.

(** [abs(x)] *)
Definition abs_d : double -> double := @Babs 53 1024.

(** [np.sign(x)] *)
Definition sign_d (x : double) : double :=
  match x with
  | B754_nan => B754_nan
  | _ => if dlt dzero x then one_d else if dlt x dzero then dint (-1) else dzero
  end.

(** [a % b] for a positive finite [b]: the C library [fmod] is exact; a negative
    remainder is moved up by one rounded addition.  Other [b] do not occur. *)
Definition mod_d (a b : double) : double :=
  match a, b with
  | B754_zero _, B754_finite false _ _ _ => dzero
  | B754_finite s ma ea _, B754_finite false mb eb _ =>
      let e := Z.min ea eb in
      let r := Z.rem (cond_Zopp s (Zpos ma) * 2 ^ (ea - e)) (Zpos mb * 2 ^ (eb - e)) in
      if (r =? 0)%Z then dzero else if (r <? 0)%Z then dadd (dbl r e) b else dbl r e
  | _, _ => B754_nan
  end.

(** [np.pi/4], [np.pi/2], [1/3], [2/3] *)
Definition quarter_pi : double := ddiv pi_d (dint 4).
Definition half_pi : double := ddiv pi_d (dint 2).
Definition one_third : double := ddiv (dint 1) (dint 3).
Definition two_thirds : double := ddiv (dint 2) (dint 3).

(** coords/healpix.py:23-24 and 39-40 *)
Definition belt_theta (arccos : double -> double) (healy : double) : double :=
  arccos (ddiv (dmul (dint 8) healy) (dmul (dint 3) pi_d)).

(** coords/healpix.py:27-29 and 43-45: [sigz] and [theta] of the polar caps. *)
Definition cap_sigz (healy : double) : double := ddiv (dmul (dint 4) healy) pi_d.
Definition cap_theta (arccos : double -> double) (sigz : double) : double :=
  arccos (dmul (sign_d sigz) (dsub (dint 1) (dmul one_third (sq (dsub (dint 2) (abs_d sigz)))))).

(** coords/healpix.py:30-31 and 46-47 *)
Definition cap_siga (sigz : double) : double := dsub (abs_d sigz) (dint 1).
Definition cap_k (healx : double) : double := floor_d (ddiv (dmul (dint 2) healx) pi_d).

(** coords/healpix.py:35 and 49 *)
Definition cap_phi (healx siga k : double) : double :=
  ddiv (dsub healx (dmul (dmul quarter_pi siga) (dadd (dmul (dint 2) k) (dint 1)))) (dsub (dint 1) siga).

(** coords/healpix.py:4-35 and 56, scalar branch of [healpix_xy2ang]. *)
Definition xy2ang_d (arccos : double -> double) (healx healy : double) : double * double :=
  if dle (abs_d healy) quarter_pi then (healx, belt_theta arccos healy)
  else
    let sigz := cap_sigz healy in
    let theta := cap_theta arccos sigz in
    let siga := cap_siga sigz in
    let k := cap_k healx in
    let phi := if deq siga one_d then dzero else cap_phi healx siga k in
    (phi, theta).

(** coords/healpix.py:36-56, array branch of [healpix_xy2ang]. *)
Definition xy2ang_arr_d (arccos : double -> double) (healx healy : list double) : list double * list double :=
  let phi := repeat dzero (length healx) in
  let theta := repeat dzero (length healx) in
  let cond := np_where (map (fun y => dle (abs_d y) quarter_pi) healy) in
  let theta := put theta cond (map (belt_theta arccos) (take dzero healy cond)) in
  let phi := put phi cond (take dzero healx cond) in
  let cond := np_where (map (fun y => dlt quarter_pi (abs_d y)) healy) in
  let sigz := map cap_sigz (take dzero healy cond) in
  let theta := put theta cond (map (cap_theta arccos) sigz) in
  let siga := map cap_siga sigz in
  let k := map cap_k (take dzero healx cond) in
  let phi :=
    if negb (existsb (fun s => deq s one_d) siga) then
      put phi cond (map2 (fun x sk => cap_phi x (fst sk) (snd sk)) (take dzero healx cond) (combine siga k))
    else
      let c1 := np_where (map (fun s => deq s one_d) siga) in
      let phi := put phi (take 0%nat cond c1) (map (fun _ => dzero) c1) in
      let c2 := np_where (map (fun s => negb (deq s one_d)) siga) in
      put phi (take 0%nat cond c2)
        (map2 (fun x sk => cap_phi x (fst sk) (snd sk)) (take dzero healx (take 0%nat cond c2))
              (combine (take dzero siga c2) (take dzero k c2))) in
  (phi, theta).

(** coords/healpix.py:80 and 93: [healy] of the belt. *)
Definition belt_y (cos : double -> double) (theta : double) : double :=
  dmul (ddiv (dmul (dint 3) pi_d) (dint 8)) (cos theta).

(** coords/healpix.py:82 and 95: [sigz] of the caps. *)
Definition cap_sigz_of (z : double) : double :=
  dmul (sign_d z) (dsub (dint 2) (dsqrt (dmul (dint 3) (dsub (dint 1) (abs_d z))))).

(** coords/healpix.py:83-85 and 96-98 *)
Definition cap_x (phi siga phit : double) : double := dsub phi (dmul siga (dsub phit quarter_pi)).

(** coords/healpix.py:86 and 99 *)
Definition cap_y (sigz : double) : double := ddiv (dmul pi_d sigz) (dint 4).

(** coords/healpix.py:59-86 and 100, scalar branch of [healpix_ang2xy]; with a NaN
    cosine neither branch is taken and [healx] is unbound. *)
Definition ang2xy_d (cos : double -> double) (phi theta : double) : res (double * double) :=
  let z := cos theta in
  if dle (abs_d z) two_thirds then Ok (phi, belt_y cos theta)
  else if dlt two_thirds (abs_d z) then
    let sigz := cap_sigz_of z in
    let phit := mod_d phi half_pi in
    let siga := cap_siga sigz in
    Ok (cap_x phi siga phit, cap_y sigz)
  else Err UnboundLocalError.

(** coords/healpix.py:87-100, array branch of [healpix_ang2xy]. *)
Definition ang2xy_arr_d (cos : double -> double) (phi theta : list double) : list double * list double :=
  let z := map cos theta in
  let healx := repeat dzero (length phi) in
  let healy := repeat dzero (length theta) in
  let cond := np_where (map (fun z => dle (abs_d z) two_thirds) z) in
  let healx := put healx cond (take dzero phi cond) in
  let healy := put healy cond (map (belt_y cos) (take dzero theta cond)) in
  let cond := np_where (map (fun z => dlt two_thirds (abs_d z)) z) in
  let sigz := map cap_sigz_of (take dzero z cond) in
  let phit := map (fun f => mod_d f half_pi) (take dzero phi cond) in
  let siga := map cap_siga sigz in
  let healx := put healx cond
                 (map2 (fun f st => cap_x f (fst st) (snd st)) (take dzero phi cond) (combine siga phit)) in
  let healy := put healy cond (map cap_y sigz) in
  (healx, healy).
