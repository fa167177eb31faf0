(** * Averages of [magpie/densegrid/box2ring.py] in IEEE-754 binary64

    Which pixel each sample point falls on is arbitrary here; the averages over
    the refined bins are computed as by the code.  [np.sum] adds in an arbitrary
    order ([MSumDouble.v]). *)

From Coq Require Import Reals ZArith List.
From Flocq Require Import Core IEEE754.BinarySingleNaN.
From Verif Require Import Base MGrids MDouble MSumDouble.
Import ListNotations.

(** [a.reshape(n, b, c)] of a 2D array, row-major. *)
Definition reshape3_d (n b c : nat) (a : list (list double)) : res (list (list (list double))) :=
  let l := concat a in
  if (length l =? n * b * c)%nat then
    Ok (map (fun i => map (fun j => map (fun k => nth ((i * b + j) * c + k) l dzero) (seq 0 c)) (seq 0 b)) (seq 0 n))
  else Err ValueError.

(** [np.sum(a, axis=1)] of an array whose last axis has [c] entries,
    [np.mean(a, axis=2)]. *)
Definition sum_axis1_d (o : nat -> tree) (c : nat) (a : list (list (list double))) : list (list double) :=
  map (fun m => map (fun k => sum_d o (map (fun row => nth k row dzero) m)) (seq 0 c)) a.
Definition mean_axis2_d (o : nat -> tree) (a : list (list (list double))) : list (list double) := map (map (mean_d o)) a.

(** box2ring.py:150-168, the part of [_remap] after the pixels were found:
    [found] holds the map value of each sample, [None] for samples outside the
    box ([np.zeros] stays); [redges] are the refined radial edges, [npm] the
    number of refined angles, [n] by [m] the shape of the polar grid, [c] the
    number of refined radial bins. *)
Definition remap_means_d (o1 o2 : nat -> tree) (found : list (list (option double))) (redges : list double) (npm n m rr rp c : nat)
  : res (list (list double)) :=
  let highres := map (map (fun v => match v with Some x => x | None => dzero end)) found in
  let rbin_weights := map2 (fun b a => dsub (dmul b b) (dmul a a)) (tl redges) (removelast redges) in
  let weights2d := repeat rbin_weights npm in
  let highres := zip2 dmul highres weights2d in
  a <- reshape3_d n rr c highres ;;
  let fp := sum_axis1_d o1 c a in
  a <- reshape3_d n m rp fp ;;
  let fp := mean_axis2_d o2 a in
  a <- reshape3_d n rr c weights2d ;;
  let wp := sum_axis1_d o1 c a in
  a <- reshape3_d n m rp wp ;;
  let wp := mean_axis2_d o2 a in
  Ok (zip2 ddiv fp wp).

(** box2ring.py:196-213, [get_mask_in_bound]: the map is 1 everywhere; cells that
    are not finite become 0. *)
Definition mask_d (o1 o2 : nat -> tree) (found : list (list (option double))) (redges : list double) (npm n m rr rp c : nat)
  : res (list (list double)) :=
  let found := map (map (fun v => match v with Some _ => Some (dbl 1 0) | None => None end)) found in
  g <- remap_means_d o1 o2 found redges npm n m rr rp c ;;
  Ok (map (map (fun x => if is_finite x then x else dzero)) g).
