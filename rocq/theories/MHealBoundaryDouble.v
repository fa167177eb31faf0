(** * Outlines of HEALPix pixels ([magpie/pixel/healpix_boundary.py]) in IEEE-754 binary64

    The centre [(xp, yp)] that [healpix_pix2xy] returns is an input, see
    [MIndexFloat.v]. *)

From Coq Require Import Reals ZArith List Bool.
From Flocq Require Import Core IEEE754.BinarySingleNaN.
From Verif Require Import Base MDouble MGridsDouble MHealRandomsDouble.
Import ListNotations.
Open Scope R_scope.

(** [x, y = x[::-1], y[::-1]] under [if reverse == True]. *)
Definition rev_if_d (reverse : bool) (xy : list double * list double) : list double * list double :=
  if reverse then (rev (fst xy), rev (snd xy)) else xy.

(** healpix_boundary.py:22-50, [_healpix_top_left]. *)
Definition top_left_d (xp yp : double) (nside steps : Z) (reverse : bool) : res (list double * list double) :=
  let delta := delta_d nside in
  x <- linspace_d (dsub xp delta) xp steps ;;
  let y := map (fun x => dadd (dadd (dsub x xp) delta) yp) x in
  Ok (rev_if_d reverse (x, y)).

(** healpix_boundary.py:53-81, [_healpix_top_right]. *)
Definition top_right_d (xp yp : double) (nside steps : Z) (reverse : bool) : res (list double * list double) :=
  let delta := delta_d nside in
  x <- linspace_d xp (dadd xp delta) steps ;;
  let y := map (fun x => dadd (dadd (dadd (opp_d x) xp) delta) yp) x in
  Ok (rev_if_d reverse (x, y)).

(** healpix_boundary.py:84-112, [_healpix_bot_left]. *)
Definition bot_left_d (xp yp : double) (nside steps : Z) (reverse : bool) : res (list double * list double) :=
  let delta := delta_d nside in
  x <- linspace_d (dsub xp delta) xp steps ;;
  let y := map (fun x => dadd (dsub (dadd (opp_d x) xp) delta) yp) x in
  Ok (rev_if_d reverse (x, y)).

(** healpix_boundary.py:115-143, [_healpix_bot_right]. *)
Definition bot_right_d (xp yp : double) (nside steps : Z) (reverse : bool) : res (list double * list double) :=
  let delta := delta_d nside in
  x <- linspace_d xp (dadd xp delta) steps ;;
  let y := map (fun x => dadd (dsub (dsub x xp) delta) yp) x in
  Ok (rev_if_d reverse (x, y)).

(** healpix_boundary.py:146-175, [healpix_boundary_top]; [int(steps/2)] is the integer
    quotient for [steps] below [2^53]. *)
Definition boundary_top_d (xp yp : double) (nside steps : Z) (reverse : bool) : res (list double * list double) :=
  let size_left := Z.quot steps 2 in
  let size_right := (steps - size_left)%Z in
  l <- top_left_d xp yp nside size_left false ;;
  r <- top_right_d xp yp nside size_right false ;;
  Ok (rev_if_d reverse (fst l ++ fst r, snd l ++ snd r)).

(** healpix_boundary.py:178-207, [healpix_boundary_bot]. *)
Definition boundary_bot_d (xp yp : double) (nside steps : Z) (reverse : bool) : res (list double * list double) :=
  let size_left := Z.quot steps 2 in
  let size_right := (steps - size_left)%Z in
  l <- bot_left_d xp yp nside size_left false ;;
  r <- bot_right_d xp yp nside size_right false ;;
  Ok (rev_if_d reverse (fst l ++ fst r, snd l ++ snd r)).

(** healpix_boundary.py:210-240, [healpix_boundary]. *)
Definition boundary_d (xp yp : double) (nside steps : Z) (reverse : bool) : res (list double * list double) :=
  let size_top := Z.quot steps 2 in
  let size_bot := (steps - size_top)%Z in
  t <- boundary_top_d xp yp nside size_top false ;;
  b <- boundary_bot_d xp yp nside size_bot true ;;
  Ok (rev_if_d reverse (fst t ++ fst b, snd t ++ snd b)).
