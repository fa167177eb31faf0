(** * Model of the HEALPix part of [magpie/randoms/usphere.py]

    The two [np.random.random_sample] draws are inputs [ux], [uy] (lists of
    numbers in [0,1)), the same length [size]. *)

From Coq Require Import Reals ZArith List Bool.
From Flocq Require Import Core.Raux.
From Verif Require Import Base MHealpixIndex MHealpixCoord MHealpixBoundary.
Import ListNotations.
Open Scope R_scope.

(** randoms/usphere.py:112-144, [_randoms_healpix_xy]. *)
Definition randoms_healpix_xy (ux uy : list R) (p nside : Z) : res (list R * list R) :=
  let delta := get_delta nside in
  'xyp <- pix2xy p nside ;;
  let '(xp, yp) := xyp in
  let xrand := repeat 0 (length ux) in
  let yrand := repeat 0 (length ux) in
  let cond := np_where (map (fun u => Rle_bool u (/ 2)) ux) in
  let xrand := put xrand cond
                 (map (fun u => xp + delta * (sqrt (2 * u) - 1)) (take 0 ux cond)) in
  let yrand := put yrand cond
                 (map2 (fun x u => 2 * (x - xp + delta) * u + (- x + xp - delta + yp))
                       (take 0 xrand cond) (take 0 uy cond)) in
  let cond := np_where (map (fun u => Rlt_bool (/ 2) u) ux) in
  let xrand := put xrand cond
                 (map (fun u => xp + delta * (1 - sqrt (2 * (1 - u)))) (take 0 ux cond)) in
  let yrand := put yrand cond
                 (map2 (fun x u => 2 * (- x + xp + delta) * u + (x - xp - delta + yp))
                       (take 0 xrand cond) (take 0 uy cond)) in
  let xrand := map (fun x => Rmod x (2 * PI)) xrand in
  Ok (xrand, yrand).

(** randoms/usphere.py:147-168, [randoms_healpix_pixel]. *)
Definition randoms_healpix_pixel (ux uy : list R) (p nside : Z)
  : res (list num * list num) :=
  'xy <- randoms_healpix_xy ux uy p nside ;;
  Ok (xy2ang_arr (fst xy) (snd xy)).
