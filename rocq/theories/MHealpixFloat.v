(** * [healpix_pix2ij] of [magpie/pixel/healpix_index.py] in binary64

    Every floating-point operation is rounded to nearest, ties to even, in
    IEEE-754 binary64 ([FLT_exp (-1074) 53]).  Python divides integers by [/]
    with one correct rounding; an integer combined with a float is first
    converted (rounded) to a float; [np.sqrt] is correctly rounded; [np.floor]
    is exact.  Overflow (integers beyond 2^1024) is not modelled. *)

From Coq Require Import Reals ZArith Bool.
From Flocq Require Import Core.
From Verif Require Import Base.
Open Scope R_scope.

(** Rounding to binary64. *)
Definition fl (x : R) : R := round radix2 (FLT_exp (-1074) 53) ZnearestE x.

(** [np.sqrt]; [None] is NaN. *)
Definition fsqrt (x : R) : option R := if Rlt_bool x 0 then None else Some (fl (sqrt x)).

(** [np.floor(np.sqrt(ph - np.sqrt(np.floor(ph)))) + 1] of
    healpix_index.py:25 and 37. *)
Definition cap_fl (ph : R) : option R :=
  match fsqrt (IZR (Zfloor ph)) with
  | None => None
  | Some s => match fsqrt (fl (ph - s)) with
              | None => None
              | Some t => Some (fl (IZR (Zfloor t) + 1))
              end
  end.

(** healpix_index.py:21-39, scalar branch of [healpix_pix2ij] on a
    Python integer. *)
Definition pix2ij_fl (p nside : Z) : res (Z * Z) :=
  if (p <=? 2 * nside * (nside + 1))%Z then
    let ph := fl (IZR (p + 1) / 2) in
    match cap_fl ph with
    | None => Err ValueError
    | Some i =>
        let j := fl (fl (IZR (p + 1)) - fl (fl (2 * i) * fl (i - 1))) in
        Ok (Ztrunc i, Ztrunc j)
    end
  else if ((2 * nside * (nside + 1) <? p) && (p <? 2 * nside * (5 * nside - 1)))%Z then
    let pd := (p - 2 * nside * (nside - 1))%Z in
    let i := fl (IZR (Zfloor (fl (IZR pd / IZR (4 * nside)))) + fl (IZR nside)) in
    let j := (pd mod (4 * nside) + 1)%Z in
    Ok (Ztrunc i, j)
  else if ((2 * nside * (5 * nside - 1) <=? p) && (p <=? 12 * nside ^ 2))%Z then
    let ph := fl (IZR (12 * nside ^ 2 - p) / 2) in
    match cap_fl ph with
    | None => Err ValueError
    | Some i =>
        let j := fl (fl (fl (fl (IZR p) + fl (fl (2 * i) * fl (i + 1))) + 1) - fl (IZR (12 * nside ^ 2))) in
        Ok (Ztrunc (fl (fl (IZR (4 * nside)) - i)), Ztrunc j)
    end
  else Err UnboundLocalError.
