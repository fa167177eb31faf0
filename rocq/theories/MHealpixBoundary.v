(** * Model of [magpie/pixel/healpix_boundary.py]

    [steps] is a Python integer; numpy's [linspace] refuses a negative one. *)

From Coq Require Import Reals ZArith List Bool.
From Verif Require Import Base MHealpixIndex.
Import ListNotations.
Open Scope R_scope.

(** healpix_boundary.py:6-19, [_healpix_get_delta]. *)
Definition get_delta (nside : Z) : R := PI / (4 * IZR nside).

(** [x, y = x[::-1], y[::-1]] under [if reverse == True]. *)
Definition rev_if (reverse : bool) (xy : list R * list R) : list R * list R :=
  if reverse then (rev (fst xy), rev (snd xy)) else xy.

(** healpix_boundary.py:22-50, [_healpix_top_left]. *)
Definition top_left (p nside steps : Z) (reverse : bool) : res (list R * list R) :=
  'xyp <- pix2xy p nside ;;
  let '(xp, yp) := xyp in
  let delta := get_delta nside in
  x <- linspaceZ (xp - delta) xp steps ;;
  let y := map (fun x => x - xp + delta + yp) x in
  Ok (rev_if reverse (x, y)).

(** healpix_boundary.py:53-81, [_healpix_top_right]. *)
Definition top_right (p nside steps : Z) (reverse : bool) : res (list R * list R) :=
  'xyp <- pix2xy p nside ;;
  let '(xp, yp) := xyp in
  let delta := get_delta nside in
  x <- linspaceZ xp (xp + delta) steps ;;
  let y := map (fun x => - x + xp + delta + yp) x in
  Ok (rev_if reverse (x, y)).

(** healpix_boundary.py:84-112, [_healpix_bot_left]. *)
Definition bot_left (p nside steps : Z) (reverse : bool) : res (list R * list R) :=
  'xyp <- pix2xy p nside ;;
  let '(xp, yp) := xyp in
  let delta := get_delta nside in
  x <- linspaceZ (xp - delta) xp steps ;;
  let y := map (fun x => - x + xp - delta + yp) x in
  Ok (rev_if reverse (x, y)).

(** healpix_boundary.py:115-143, [_healpix_bot_right]. *)
Definition bot_right (p nside steps : Z) (reverse : bool) : res (list R * list R) :=
  'xyp <- pix2xy p nside ;;
  let '(xp, yp) := xyp in
  let delta := get_delta nside in
  x <- linspaceZ xp (xp + delta) steps ;;
  let y := map (fun x => x - xp - delta + yp) x in
  Ok (rev_if reverse (x, y)).

(** healpix_boundary.py:146-175, [healpix_boundary_top]. *)
Definition boundary_top (p nside steps : Z) (reverse : bool) : res (list R * list R) :=
  let size_left := Z.quot steps 2 in
  let size_right := (steps - size_left)%Z in
  l <- top_left p nside size_left false ;;
  r <- top_right p nside size_right false ;;
  Ok (rev_if reverse (fst l ++ fst r, snd l ++ snd r)).

(** healpix_boundary.py:178-207, [healpix_boundary_bot]. *)
Definition boundary_bot (p nside steps : Z) (reverse : bool) : res (list R * list R) :=
  let size_left := Z.quot steps 2 in
  let size_right := (steps - size_left)%Z in
  l <- bot_left p nside size_left false ;;
  r <- bot_right p nside size_right false ;;
  Ok (rev_if reverse (fst l ++ fst r, snd l ++ snd r)).

(** healpix_boundary.py:210-240, [healpix_boundary]. *)
Definition boundary (p nside steps : Z) (reverse : bool) : res (list R * list R) :=
  let size_top := Z.quot steps 2 in
  let size_bot := (steps - size_top)%Z in
  t <- boundary_top p nside size_top false ;;
  b <- boundary_bot p nside size_bot true ;;
  Ok (rev_if reverse (fst t ++ fst b, snd t ++ snd b)).
