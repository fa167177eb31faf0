(** * Model of [magpie/remap/grid2grid.py] and the Fortran kernels
      [magpie/src/remap_utils.f90], [remap_1d_grid2grid.f90],
      [remap_2d_grid2grid.f90], [remap_3d_grid2grid.f90]

    Local Fortran arrays are explicit buffers: their initial contents are an
    input ([pix] and [weights] pairs), and a subroutine that does not assign
    its output arrays leaves them as they were.  Reading [f1] outside its
    bounds gives an arbitrary number [oob p].  Grid widths are meant to be
    non-zero (a zero width makes Fortran convert a NaN to an integer).
    [real(grid)] is single precision and exact below 2^24; here it is exact. *)

From Coq Require Import Reals ZArith List Bool.
From Flocq Require Import Core.Raux.
From Verif Require Import Base MGrids.
Import ListNotations.
Open Scope R_scope.

(** The six arguments describing one axis of both grids. *)
Record axis : Type := Axis
  { x1min : R; x1max : R; grid1 : Z; x2min : R; x2max : R; grid2 : Z }.

(** remap_utils.f90:40-44, 230-234 *)
Definition dx1 (a : axis) : R := (x1max a - x1min a) / IZR (grid1 a).
Definition dx2 (a : axis) : R := (x2max a - x2min a) / IZR (grid2 a).

(** remap_utils.f90:2-48, [get_remap_pix_len]. *)
Definition get_remap_pix_len (a : axis) : Z := (Zfloor (dx2 a / dx1 a) + 2)%Z.

(** remap_utils.f90:51-82, [which_pix]. *)
Definition which_pix (xmin dx x : R) : Z := Zfloor ((x - xmin) / dx).

(** remap_utils.f90:85-128, [pix1dto2d]. *)
Definition pix1dto2d (xpix ypix : list Z) (ygrid : Z) : list Z :=
  flat_map (fun xp => map (fun yp =>
    if negb (xp =? -1)%Z && negb (yp =? -1)%Z then (yp + ygrid * xp)%Z else (-1)%Z) ypix) xpix.

(** remap_utils.f90:131-180, [pix1dto3d]. *)
Definition pix1dto3d (xpix ypix zpix : list Z) (ygrid zgrid : Z) : list Z :=
  flat_map (fun xp => flat_map (fun yp => map (fun zp =>
    if negb (xp =? -1)%Z && negb (yp =? -1)%Z && negb (zp =? -1)%Z
    then (zp + zgrid * (yp + ygrid * xp))%Z else (-1)%Z) zpix) ypix) xpix.

(** remap_utils.f90:243-265: entry [i] (from 0) when the output cell touches
    several source cells. *)
Definition entry_several (a : axis) (x2edge1 x2edge2 : R) (pix1 : Z) (i : nat) : Z * R :=
  let pix := (pix1 + Z.of_nat i)%Z in
  if ((0 <=? pix) && (pix <? grid1 a))%Z then
    let x1edge1 := x1min a + dx1 a * IZR pix in
    let x1edge2 := x1min a + dx1 a * IZR (pix + 1) in
    if Rle_bool x1edge1 x2edge1 && Rle_bool x2edge2 x1edge2
    then (pix, (x2edge2 - x2edge1) / (x2edge2 - x2edge1))
    else if Rlt_bool x2edge1 x1edge1 && Rle_bool x2edge2 x1edge2 && Rlt_bool x1edge1 x2edge2
    then (pix, (x2edge2 - x1edge1) / (x2edge2 - x2edge1))
    else if Rle_bool x1edge1 x2edge1 && Rlt_bool x2edge1 x1edge2 && Rlt_bool x1edge2 x2edge2
    then (pix, (x1edge2 - x2edge1) / (x2edge2 - x2edge1))
    else if Rlt_bool x2edge1 x1edge1 && Rlt_bool x1edge2 x2edge2
    then (pix, (x1edge2 - x1edge1) / (x2edge2 - x2edge1))
    else ((-1)%Z, 0)
  else ((-1)%Z, 0).

(** remap_utils.f90:267-279: entry [i] when it lies inside one source cell. *)
Definition entry_inside (a : axis) (pix1 : Z) (i : nat) : Z * R :=
  let pix := (pix1 + Z.of_nat i)%Z in
  if ((0 <=? pix) && (pix <? grid1 a))%Z
  then (pix, if (i =? 0)%nat then 1 else 0)
  else ((-1)%Z, 0).

(** [pix] and [weights], of length [pixlen]. *)
Definition buffers : Type := list (Z * R).

(** remap_utils.f90:183-282, [remap_1d_grid2grid_pixel]: the new contents of
    the two output arrays; nothing is assigned when both edges are in cell -1. *)
Definition remap_1d_grid2grid_pixel (a : axis) (which2pix : Z) (pixlen : nat) (b : buffers) : buffers :=
  let x2edge1 := x2min a + dx2 a * IZR which2pix in
  let x2edge2 := x2min a + dx2 a * IZR (which2pix + 1) in
  let pix1 := which_pix (x1min a) (dx1 a) x2edge1 in
  let pix2 := which_pix (x1min a) (dx1 a) x2edge2 in
  if negb (pix1 =? pix2)%Z then map (entry_several a x2edge1 x2edge2 pix1) (seq 0 pixlen)
  else if negb (pix1 =? -1)%Z then map (entry_inside a pix1) (seq 0 pixlen)
  else b.

(** [f1(p+1)] *)
Definition read (f1 : list R) (oob : Z -> R) (p : Z) : R :=
  if ((0 <=? p) && (p <? Z.of_nat (length f1)))%Z then nth (Z.to_nat p) f1 0 else oob p.

(** remap_1d_grid2grid.f90:52-60 (also 2D:76-90, 3D:97-113): accumulation
    over the entries whose pixel is not -1. *)
Definition accumulate (f1 : list R) (oob : Z -> R) (b : buffers) : R :=
  fold_left (fun acc pw => if negb (fst pw =? -1)%Z then acc + snd pw * read f1 oob (fst pw) else acc) b 0.

(** remap_1d_grid2grid.f90:46-62, the loop over output cells. *)
Fixpoint remap_1d_loop (a : axis) (pixlen : nat) (f1 : list R) (oob : Z -> R) (cells : list nat) (b : buffers)
  : list R :=
  match cells with
  | [] => []
  | i :: cells' =>
      let b' := remap_1d_grid2grid_pixel a (Z.of_nat i) pixlen b in
      accumulate f1 oob b' :: remap_1d_loop a pixlen f1 oob cells' b'
  end.

Definition remap_1d_grid2grid (a : axis) (pixlen : nat) (f1 : list R) (oob : Z -> R) (b : buffers) : list R :=
  remap_1d_loop a pixlen f1 oob (seq 0 (Z.to_nat (grid2 a))) b.

(** remap_2d_grid2grid.f90:73-90: one output cell. *)
Definition entries_2d (ygrid : Z) (xb yb : buffers) : buffers :=
  combine (pix1dto2d (map fst xb) (map fst yb) ygrid)
          (flat_map (fun xw => map (fun yw => xw * yw) (map snd yb)) (map snd xb)).

(** remap_2d_grid2grid.f90:68-92, the inner loop; also returns the final [y] buffers. *)
Fixpoint remap_2d_inner (ay : axis) (ylen : nat) (f1 : list R) (oob : Z -> R) (xb : buffers) (cells : list nat)
  (yb : buffers) : list R * buffers :=
  match cells with
  | [] => ([], yb)
  | j :: cells' =>
      let yb' := remap_1d_grid2grid_pixel ay (Z.of_nat j) ylen yb in
      let v := accumulate f1 oob (entries_2d (grid1 ay) xb yb') in
      let '(vs, yb'') := remap_2d_inner ay ylen f1 oob xb cells' yb' in
      (v :: vs, yb'')
  end.

(** remap_2d_grid2grid.f90:63-93, the outer loop.  Cell [ii] is written at
    [ywhich2pix + y2grid*xwhich2pix + 1], which is the order of the loops. *)
Fixpoint remap_2d_outer (ax ay : axis) (xlen ylen : nat) (f1 : list R) (oob : Z -> R) (cells : list nat)
  (xb yb : buffers) : list R :=
  match cells with
  | [] => []
  | i :: cells' =>
      let xb' := remap_1d_grid2grid_pixel ax (Z.of_nat i) xlen xb in
      let '(vs, yb') := remap_2d_inner ay ylen f1 oob xb' (seq 0 (Z.to_nat (grid2 ay))) yb in
      vs ++ remap_2d_outer ax ay xlen ylen f1 oob cells' xb' yb'
  end.

Definition remap_2d_grid2grid (ax ay : axis) (xlen ylen : nat) (f1 : list R) (oob : Z -> R) (xb yb : buffers)
  : list R :=
  remap_2d_outer ax ay xlen ylen f1 oob (seq 0 (Z.to_nat (grid2 ax))) xb yb.

(** remap_3d_grid2grid.f90:94-113: one output cell. *)
Definition entries_3d (ygrid zgrid : Z) (xb yb zb : buffers) : buffers :=
  combine (pix1dto3d (map fst xb) (map fst yb) (map fst zb) ygrid zgrid)
          (flat_map (fun xw => flat_map (fun yw => map (fun zw => xw * yw * zw) (map snd zb)) (map snd yb))
                    (map snd xb)).

(** remap_3d_grid2grid.f90:89-115, the innermost loop. *)
Fixpoint remap_3d_inner (ay az : axis) (zlen : nat) (f1 : list R) (oob : Z -> R) (xb yb : buffers)
  (cells : list nat) (zb : buffers) : list R * buffers :=
  match cells with
  | [] => ([], zb)
  | k :: cells' =>
      let zb' := remap_1d_grid2grid_pixel az (Z.of_nat k) zlen zb in
      let v := accumulate f1 oob (entries_3d (grid1 ay) (grid1 az) xb yb zb') in
      let '(vs, zb'') := remap_3d_inner ay az zlen f1 oob xb yb cells' zb' in
      (v :: vs, zb'')
  end.

(** remap_3d_grid2grid.f90:84-116, the middle loop. *)
Fixpoint remap_3d_middle (ay az : axis) (ylen zlen : nat) (f1 : list R) (oob : Z -> R) (xb : buffers)
  (cells : list nat) (yb zb : buffers) : list R * buffers * buffers :=
  match cells with
  | [] => ([], yb, zb)
  | j :: cells' =>
      let yb' := remap_1d_grid2grid_pixel ay (Z.of_nat j) ylen yb in
      let '(vs, zb') := remap_3d_inner ay az zlen f1 oob xb yb' (seq 0 (Z.to_nat (grid2 az))) zb in
      let '(ws, yb'', zb'') := remap_3d_middle ay az ylen zlen f1 oob xb cells' yb' zb' in
      (vs ++ ws, yb'', zb'')
  end.

(** remap_3d_grid2grid.f90:79-117, the outer loop. *)
Fixpoint remap_3d_outer (ax ay az : axis) (xlen ylen zlen : nat) (f1 : list R) (oob : Z -> R)
  (cells : list nat) (xb yb zb : buffers) : list R :=
  match cells with
  | [] => []
  | i :: cells' =>
      let xb' := remap_1d_grid2grid_pixel ax (Z.of_nat i) xlen xb in
      let '(vs, yb', zb') := remap_3d_middle ay az ylen zlen f1 oob xb' (seq 0 (Z.to_nat (grid2 ay))) yb zb in
      vs ++ remap_3d_outer ax ay az xlen ylen zlen f1 oob cells' xb' yb' zb'
  end.

Definition remap_3d_grid2grid (ax ay az : axis) (xlen ylen zlen : nat) (f1 : list R) (oob : Z -> R)
  (xb yb zb : buffers) : list R :=
  remap_3d_outer ax ay az xlen ylen zlen f1 oob (seq 0 (Z.to_nat (grid2 ax))) xb yb zb.

(** [f.reshape(r, c)] of a flat array of [r*c] entries. *)
Fixpoint reshape {A} (l : list A) (r c : nat) : list (list A) :=
  match r with O => [] | S r' => firstn c l :: reshape (skipn c l) r' c end.

(** Initial contents of the local arrays, given their lengths. *)
Definition memory : Type := nat -> buffers.

(** grid2grid.py:6-38, [grid2grid1D]: [originout + None] raises TypeError. *)
Definition grid2grid1D (oob : Z -> R) (mem : memory) (f1 : list R) (boxsize : R) (ngridout : Z)
  (origin originout : R) (boxsizeout : option R) : res (list R) :=
  match boxsizeout with
  | None => Err TypeError
  | Some boxsizeout =>
      let a := Axis origin (origin + boxsize) (Z.of_nat (length f1))
                    originout (originout + boxsizeout) ngridout in
      let pixlen := Z.to_nat (get_remap_pix_len a) in
      Ok (remap_1d_grid2grid a pixlen f1 oob (mem pixlen))
  end.

(** grid2grid.py:67-84: a scalar or the first two entries. *)
Definition two {A} (x : arg A) : res (A * A) :=
  match x with
  | Sca a => Ok (a, a)
  | Seq l => a <- py_get l 0 ;; b <- py_get l 1 ;; Ok (a, b)
  end.

(** grid2grid.py:41-108, [grid2grid2D]. *)
Definition grid2grid2D (oob : Z -> R) (memx memy : memory) (f1 : list (list R)) (boxsize : arg R)
  (ngridout : arg Z) (origin originout : arg R) (boxsizeout : option (arg R)) : res (list (list R)) :=
  '(xbox, ybox) <- two boxsize ;;
  '(xboxout, yboxout) <- match boxsizeout with None => Ok (xbox, ybox) | Some b => two b end ;;
  '(xorigin, yorigin) <- two origin ;;
  '(xoriginout, yoriginout) <- two originout ;;
  let x1grid := Z.of_nat (length f1) in
  let y1grid := Z.of_nat (length (nth 0 f1 [])) in
  '(x2grid, y2grid) <- two ngridout ;;
  let ax := Axis xorigin (xorigin + xbox) x1grid xoriginout (xoriginout + xboxout) x2grid in
  let ay := Axis yorigin (yorigin + ybox) y1grid yoriginout (yoriginout + yboxout) y2grid in
  let xlen := Z.to_nat (get_remap_pix_len ax) in
  let ylen := Z.to_nat (get_remap_pix_len ay) in
  let f2 := remap_2d_grid2grid ax ay xlen ylen (concat f1) oob (memx xlen) (memy ylen) in
  Ok (reshape f2 (Z.to_nat x2grid) (Z.to_nat y2grid)).

(** grid2grid.py:141-162 *)
Definition three {A} (x : arg A) : res (A * A * A) :=
  match x with
  | Sca a => Ok (a, a, a)
  | Seq l => a <- py_get l 0 ;; b <- py_get l 1 ;; c <- py_get l 2 ;; Ok (a, b, c)
  end.

(** grid2grid.py:111-184, [grid2grid3D].  Line 174 unpacks three values into
    two names. *)
Definition grid2grid3D (oob : Z -> R) (memx memy memz : memory) (f1 : list (list (list R))) (boxsize : arg R)
  (ngridout : arg Z) (origin originout : arg R) (boxsizeout : option (arg R)) : res (list (list (list R))) :=
  '(xbox, ybox, zbox) <- three boxsize ;;
  '(xboxout, yboxout, zboxout) <- match boxsizeout with None => Ok (xbox, ybox, zbox) | Some b => three b end ;;
  '(xorigin, yorigin, zorigin) <- three origin ;;
  '(xoriginout, yoriginout, zoriginout) <- three originout ;;
  let x1grid := Z.of_nat (length f1) in
  let y1grid := Z.of_nat (length (nth 0 f1 [])) in
  let z1grid := Z.of_nat (length (nth 0 (nth 0 f1 []) [])) in
  '(x2grid, y2grid, z2grid) <- match ngridout with
     | Sca n => Ok (n, n, n)
     | Seq l => _ <- three ngridout ;; Err ValueError
     end ;;
  let ax := Axis xorigin (xorigin + xbox) x1grid xoriginout (xoriginout + xboxout) x2grid in
  let ay := Axis yorigin (yorigin + ybox) y1grid yoriginout (yoriginout + yboxout) y2grid in
  let az := Axis zorigin (zorigin + zbox) z1grid zoriginout (zoriginout + zboxout) z2grid in
  let xlen := Z.to_nat (get_remap_pix_len ax) in
  let ylen := Z.to_nat (get_remap_pix_len ay) in
  let zlen := Z.to_nat (get_remap_pix_len az) in
  let f2 := remap_3d_grid2grid ax ay az xlen ylen zlen (concat (concat f1)) oob (memx xlen) (memy ylen) (memz zlen) in
  Ok (map (fun m => reshape m (Z.to_nat y2grid) (Z.to_nat z2grid))
          (reshape f2 (Z.to_nat x2grid) (Z.to_nat y2grid * Z.to_nat z2grid))).
