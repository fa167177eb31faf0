(** * Grid edges and mid-points of [magpie/grids/cartesian.py] and
      [magpie/grids/polar.py] in IEEE-754 binary64

    [np.linspace] is modelled by the operations of numpy's own source
    (numpy/core/function_base.py): [step = (stop - start)/div],
    [y = arange(num)*step + start], the last entry overwritten by [stop].
    Integers are converted to the nearest double before they meet a float. *)

From Coq Require Import Reals ZArith List Bool.
From Flocq Require Import Core IEEE754.BinarySingleNaN.
From Verif Require Import Base MDouble.
Import ListNotations.
Open Scope R_scope.

(** [float(z)] *)
Definition dint (z : Z) : double := dbl z 0.

(** [np.linspace(start, stop, num)]: a zero [step] (underflow) is handled by
    dividing first; negative [num] is refused. *)
Definition linspace_d (start stop : double) (num : Z) : res (list double) :=
  if (num <? 0)%Z then Err ValueError else
  let div := (num - 1)%Z in
  let delta := dsub stop start in
  let step := ddiv delta (dint div) in
  let y (i : nat) :=
    if (0 <? div)%Z then
      if deq step dzero then dmul (ddiv (dint (Z.of_nat i)) (dint div)) delta
      else dmul (dint (Z.of_nat i)) step
    else dmul (dint (Z.of_nat i)) delta in
  let y := map (fun i => dadd (y i) start) (seq 0 (Z.to_nat num)) in
  Ok (if (1 <? num)%Z then removelast y ++ [stop] else y).

(** cartesian.py:4-25, [get_xedges]. *)
Definition get_xedges_d (len : double) (ngrid : Z) (xmin : option double) : res (list double) :=
  let xmin := match xmin with None => dzero | Some x => x end in
  let xmax := dadd xmin len in
  linspace_d xmin xmax (ngrid + 1).

(** cartesian.py:28-42, [xedges2mid]. *)
Definition xedges2mid_d (xedges : list double) : list double :=
  map2 (fun a b => dmul (dbl 1 (-1)) (dadd a b)) (removelast xedges) (tl xedges).

(** cartesian.py:65-91, [grid1d] with [return_edges=True]. *)
Definition grid1d_d (len : double) (ngrid : Z) (xmin : option double) : res (list double * list double) :=
  xedges <- get_xedges_d len ngrid xmin ;;
  Ok (xedges2mid_d xedges, xedges).

(** polar.py:6-42 with cartesian.py:115-123: the mid-points [rmid] and [pmid]
    of [polargrid]. *)
Definition polargrid_d (nr nphi : Z) (rmin rmax phimin phimax : double) : res (list double * list double) :=
  redges <- get_xedges_d (dsub rmax rmin) nr (Some rmin) ;;
  pedges <- get_xedges_d (dsub phimax phimin) nphi (Some phimin) ;;
  Ok (xedges2mid_d redges, xedges2mid_d pedges).
