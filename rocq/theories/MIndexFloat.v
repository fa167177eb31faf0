(** * Plane and star indices of [magpie/pixel/healpix_index.py] in binary64

    Conventions of [MHealpixFloat.v]: every operation on floats is rounded to
    nearest, integers are converted when they meet a float, [a/b] of two Python
    integers is one rounding, [np.floor] and the remainder of floats are exact
    before the final rounding.  The scalar branches, on Python integers. *)

From Coq Require Import Reals ZArith Bool.
From Flocq Require Import Core.
From Verif Require Import Base SpecDouble MHealpixFloat.
Open Scope R_scope.

(** healpix_index.py:108-125, [healpix_i2id]. *)
Definition i2id_fl (ringi nside : Z) : R := fl (fl (IZR nside) - fl (IZR ringi / 2)).

(** healpix_index.py:146-179 and 214, scalar branch of [healpix_j2jd]. *)
Definition j2jd_fl (ringi ringj nside : Z) : res R :=
  if (ringi <=? nside)%Z then
    let jlen := (4 * ringi)%Z in
    if (jlen =? 0)%Z then Err ZeroDivisionError else
    let k := IZR (Zfloor (fl (IZR (4 * (ringj - 1)) / IZR jlen))) in
    let x0 := fl (fl (IZR (Ztrunc (fl (IZR nside / 2)))) + fl (fl (IZR nside) * k)) in
    let x0 := if (nside mod 2 =? 0)%Z then fl (x0 - fl (/ 2 * fl (IZR (ringi - 1))))
              else fl (fl (x0 - fl (/ 2 * fl (IZR ringi))) + 1) in
    Ok (fl (x0 + fl (Rmod (fl (IZR (ringj - 1))) (fl (IZR jlen / 4)))))
  else if ((nside <? ringi) && (ringi <? 3 * nside))%Z then
    let x0 := if (nside mod 2 =? 0)%Z then fl (/ 2 * fl (IZR ((ringi + 1) mod 2)))
              else fl (/ 2 * fl (IZR (ringi mod 2))) in
    Ok (fl (fl (x0 + fl (IZR ringj)) - 1))
  else (* ringi >= 3*nside, the only case left *)
    let jlen := (4 * (4 * nside - ringi))%Z in
    if (jlen =? 0)%Z then Err ZeroDivisionError else
    let k := IZR (Zfloor (fl (IZR (4 * (ringj - 1)) / IZR jlen))) in
    let x0 := fl (fl (IZR (Ztrunc (fl (IZR nside / 2)))) + fl (fl (IZR nside) * k)) in
    let x0 := if (nside mod 2 =? 0)%Z then fl (x0 - fl (/ 2 * fl (IZR (4 * nside - ringi - 1))))
              else fl (fl (x0 - fl (/ 2 * fl (IZR (4 * nside - ringi)))) + 1) in
    Ok (fl (x0 + fl (Rmod (fl (IZR (ringj - 1))) (fl (IZR jlen / 4))))).

(** healpix_index.py:217-243, [healpix_ijd2ijs], one element. *)
Definition ijd2ijs_fl (idash jdash : R) (nside : Z) : Z * Z :=
  let istar := fl (fl (jdash - idash) + fl (IZR nside / 2)) in
  let jstar := fl (fl (jdash + idash) + fl (IZR nside / 2)) in
  let istar := Ztrunc (fl (istar - / 2)) in
  let jstar := Ztrunc (fl (jstar - / 2)) in
  (istar, jstar).

(** healpix_index.py:246-270, [healpix_ijs2ijd], one element. *)
Definition ijs2ijd_fl (istar jstar nside : Z) : R * R :=
  let istar := fl (fl (IZR istar) + / 2) in
  let jstar := fl (fl (IZR jstar) + / 2) in
  let jdash := fl (fl (fl (istar + jstar) - fl (IZR nside)) / 2) in
  let idash := fl (fl (jstar - istar) / 2) in
  (idash, jdash).

(** healpix_index.py:361-383, [healpix_ij2xy]; [np.pi] is [tau / 2]. *)
Definition ij2xy_fl (ringi ringj nside : Z) : res (R * R) :=
  jdash <- j2jd_fl ringi ringj nside ;;
  let idash := i2id_fl ringi nside in
  let healx := fl (fl (jdash * (tau / 2)) / fl (IZR (2 * nside))) in
  let healy := fl (fl (idash * (tau / 2)) / fl (IZR (2 * nside))) in
  Ok (healx, healy).

(** healpix_index.py:386-405, [healpix_pix2xy] (scalar). *)
Definition pix2xy_fl (p nside : Z) : res (R * R) :=
  'ij <- pix2ij_fl p nside ;;
  ij2xy_fl (fst ij) (snd ij) nside.
