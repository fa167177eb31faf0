(** * [magpie/remap/grid2grid.py] and its Fortran kernels in IEEE-754 binary64

    As [MRemap.v], with every [real(kind=dp)] a double: [+ - * /] round to
    nearest, ties to even, one operation at a time (no fused multiply-add).
    [real(i)] of an integer is single precision, then converted.  Integers do
    not overflow; [int(floor(q))] of an infinity or NaN is taken to be 0 (the
    Fortran result is undefined; the theorems exclude it). *)

From Coq Require Import Reals ZArith List Bool.
From Flocq Require Import Core IEEE754.BinarySingleNaN.
From Verif Require Import Base MDouble MRemap.
Import ListNotations.
Open Scope R_scope.

Definition dle : double -> double -> bool := @Bleb 53 1024.

Definition p24 : Prec_gt_0 24 := eq_refl.
Definition p128 : Prec_lt_emax 24 128 := eq_refl.

(** [real(z)] of a default integer, as it enters double precision arithmetic. *)
Definition real4 (z : Z) : double :=
  match @binary_normalize 24 128 p24 p128 mode_NE z 0 false with
  | B754_finite s m e _ => dbl (cond_Zopp s (Zpos m)) e
  | _ => dzero
  end.

(** [floor(q)] *)
Definition dfloor (q : double) : Z := Zfloor (B2R q).

(** The six arguments describing one axis of both grids. *)
Record axis_d : Type := AxisD
  { a1min : double; a1max : double; n1 : Z; a2min : double; a2max : double; n2 : Z }.

(** remap_utils.f90:40-44, 230-234 *)
Definition dx1_d (a : axis_d) : double := ddiv (dsub (a1max a) (a1min a)) (real4 (n1 a)).
Definition dx2_d (a : axis_d) : double := ddiv (dsub (a2max a) (a2min a)) (real4 (n2 a)).

(** remap_utils.f90:2-48, [get_remap_pix_len]. *)
Definition get_remap_pix_len_d (a : axis_d) : Z := (dfloor (ddiv (dx2_d a) (dx1_d a)) + 2)%Z.

(** remap_utils.f90:51-82, [which_pix]. *)
Definition which_pix_d (xmin dx x : double) : Z := dfloor (ddiv (dsub x xmin) dx).

(** remap_utils.f90:243-265: entry [i] (from 0) when the output cell touches
    several source cells. *)
Definition entry_several_d (a : axis_d) (x2edge1 x2edge2 : double) (pix1 : Z) (i : nat) : Z * double :=
  let pix := (pix1 + Z.of_nat i)%Z in
  if ((0 <=? pix) && (pix <? n1 a))%Z then
    let x1edge1 := dadd (a1min a) (dmul (dx1_d a) (real4 pix)) in
    let x1edge2 := dadd (a1min a) (dmul (dx1_d a) (real4 (pix + 1))) in
    if dle x1edge1 x2edge1 && dle x2edge2 x1edge2
    then (pix, ddiv (dsub x2edge2 x2edge1) (dsub x2edge2 x2edge1))
    else if dlt x2edge1 x1edge1 && dle x2edge2 x1edge2 && dlt x1edge1 x2edge2
    then (pix, ddiv (dsub x2edge2 x1edge1) (dsub x2edge2 x2edge1))
    else if dle x1edge1 x2edge1 && dlt x2edge1 x1edge2 && dlt x1edge2 x2edge2
    then (pix, ddiv (dsub x1edge2 x2edge1) (dsub x2edge2 x2edge1))
    else if dlt x2edge1 x1edge1 && dlt x1edge2 x2edge2
    then (pix, ddiv (dsub x1edge2 x1edge1) (dsub x2edge2 x2edge1))
    else ((-1)%Z, dzero)
  else ((-1)%Z, dzero).

(** remap_utils.f90:267-279: entry [i] when it lies inside one source cell. *)
Definition entry_inside_d (a : axis_d) (pix1 : Z) (i : nat) : Z * double :=
  let pix := (pix1 + Z.of_nat i)%Z in
  if ((0 <=? pix) && (pix <? n1 a))%Z
  then (pix, if (i =? 0)%nat then dbl 1 0 else dzero)
  else ((-1)%Z, dzero).

(** [pix] and [weights], of length [pixlen]. *)
Definition buffers_d : Type := list (Z * double).

(** remap_utils.f90:183-282, [remap_1d_grid2grid_pixel]. *)
Definition remap_pixel_d (a : axis_d) (which2pix : Z) (pixlen : nat) (b : buffers_d) : buffers_d :=
  let x2edge1 := dadd (a2min a) (dmul (dx2_d a) (real4 which2pix)) in
  let x2edge2 := dadd (a2min a) (dmul (dx2_d a) (real4 (which2pix + 1))) in
  let pix1 := which_pix_d (a1min a) (dx1_d a) x2edge1 in
  let pix2 := which_pix_d (a1min a) (dx1_d a) x2edge2 in
  if negb (pix1 =? pix2)%Z then map (entry_several_d a x2edge1 x2edge2 pix1) (seq 0 pixlen)
  else if negb (pix1 =? -1)%Z then map (entry_inside_d a pix1) (seq 0 pixlen)
  else b.

(** [f1(p+1)] *)
Definition read_d (f1 : list double) (oob : Z -> double) (p : Z) : double :=
  if ((0 <=? p) && (p <? Z.of_nat (length f1)))%Z then nth (Z.to_nat p) f1 dzero else oob p.

(** remap_1d_grid2grid.f90:52-60 (also 2D:76-90, 3D:97-113). *)
Definition accumulate_d (f1 : list double) (oob : Z -> double) (b : buffers_d) : double :=
  fold_left (fun acc pw => if negb (fst pw =? -1)%Z then dadd acc (dmul (snd pw) (read_d f1 oob (fst pw))) else acc) b dzero.

(** remap_1d_grid2grid.f90:46-62, the loop over output cells. *)
Fixpoint remap_1d_loop_d (a : axis_d) (pixlen : nat) (f1 : list double) (oob : Z -> double) (cells : list nat) (b : buffers_d)
  : list double :=
  match cells with
  | [] => []
  | i :: cells' =>
      let b' := remap_pixel_d a (Z.of_nat i) pixlen b in
      accumulate_d f1 oob b' :: remap_1d_loop_d a pixlen f1 oob cells' b'
  end.

Definition remap_1d_grid2grid_d (a : axis_d) (pixlen : nat) (f1 : list double) (oob : Z -> double) (b : buffers_d) : list double :=
  remap_1d_loop_d a pixlen f1 oob (seq 0 (Z.to_nat (n2 a))) b.

(** Initial contents of the local arrays, given their lengths. *)
Definition memory_d : Type := nat -> buffers_d.

(** grid2grid.py:6-38, [grid2grid1D]: [originout + None] raises TypeError. *)
Definition grid2grid1D_d (oob : Z -> double) (mem : memory_d) (f1 : list double) (boxsize : double) (ngridout : Z)
  (origin originout : double) (boxsizeout : option double) : res (list double) :=
  match boxsizeout with
  | None => Err TypeError
  | Some boxsizeout =>
      let a := AxisD origin (dadd origin boxsize) (Z.of_nat (length f1))
                     originout (dadd originout boxsizeout) ngridout in
      let pixlen := Z.to_nat (get_remap_pix_len_d a) in
      Ok (remap_1d_grid2grid_d a pixlen f1 oob (mem pixlen))
  end.
