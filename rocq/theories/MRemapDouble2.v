(** * [grid2grid2D] and [grid2grid3D] in IEEE-754 binary64

    As [MRemap.v], with the arithmetic of [MRemapDouble.v].  Products and sums
    are evaluated from left to right, one rounding each. *)

From Coq Require Import Reals ZArith List Bool.
From Verif Require Import Base MGrids MDouble MRemap MRemapDouble.
Import ListNotations.

(** remap_2d_grid2grid.f90:73-90: one output cell. *)
Definition entries_2d_d (ygrid : Z) (xb yb : buffers_d) : buffers_d :=
  combine (pix1dto2d (map fst xb) (map fst yb) ygrid)
          (flat_map (fun xw => map (fun yw => dmul xw yw) (map snd yb)) (map snd xb)).

(** remap_2d_grid2grid.f90:68-92, the inner loop; also returns the final [y] buffers. *)
Fixpoint remap_2d_inner_d (ay : axis_d) (ylen : nat) (f1 : list double) (oob : Z -> double) (xb : buffers_d) (cells : list nat)
  (yb : buffers_d) : list double * buffers_d :=
  match cells with
  | [] => ([], yb)
  | j :: cells' =>
      let yb' := remap_pixel_d ay (Z.of_nat j) ylen yb in
      let v := accumulate_d f1 oob (entries_2d_d (n1 ay) xb yb') in
      let '(vs, yb'') := remap_2d_inner_d ay ylen f1 oob xb cells' yb' in
      (v :: vs, yb'')
  end.

(** remap_2d_grid2grid.f90:63-93, the outer loop. *)
Fixpoint remap_2d_outer_d (ax ay : axis_d) (xlen ylen : nat) (f1 : list double) (oob : Z -> double) (cells : list nat)
  (xb yb : buffers_d) : list double :=
  match cells with
  | [] => []
  | i :: cells' =>
      let xb' := remap_pixel_d ax (Z.of_nat i) xlen xb in
      let '(vs, yb') := remap_2d_inner_d ay ylen f1 oob xb' (seq 0 (Z.to_nat (n2 ay))) yb in
      vs ++ remap_2d_outer_d ax ay xlen ylen f1 oob cells' xb' yb'
  end.

Definition remap_2d_grid2grid_d (ax ay : axis_d) (xlen ylen : nat) (f1 : list double) (oob : Z -> double) (xb yb : buffers_d)
  : list double :=
  remap_2d_outer_d ax ay xlen ylen f1 oob (seq 0 (Z.to_nat (n2 ax))) xb yb.

(** remap_3d_grid2grid.f90:94-113: one output cell. *)
Definition entries_3d_d (ygrid zgrid : Z) (xb yb zb : buffers_d) : buffers_d :=
  combine (pix1dto3d (map fst xb) (map fst yb) (map fst zb) ygrid zgrid)
          (flat_map (fun xw => flat_map (fun yw => map (fun zw => dmul (dmul xw yw) zw) (map snd zb)) (map snd yb))
                    (map snd xb)).

(** remap_3d_grid2grid.f90:89-115, the innermost loop. *)
Fixpoint remap_3d_inner_d (ay az : axis_d) (zlen : nat) (f1 : list double) (oob : Z -> double) (xb yb : buffers_d)
  (cells : list nat) (zb : buffers_d) : list double * buffers_d :=
  match cells with
  | [] => ([], zb)
  | k :: cells' =>
      let zb' := remap_pixel_d az (Z.of_nat k) zlen zb in
      let v := accumulate_d f1 oob (entries_3d_d (n1 ay) (n1 az) xb yb zb') in
      let '(vs, zb'') := remap_3d_inner_d ay az zlen f1 oob xb yb cells' zb' in
      (v :: vs, zb'')
  end.

(** remap_3d_grid2grid.f90:84-116, the middle loop. *)
Fixpoint remap_3d_middle_d (ay az : axis_d) (ylen zlen : nat) (f1 : list double) (oob : Z -> double) (xb : buffers_d)
  (cells : list nat) (yb zb : buffers_d) : list double * buffers_d * buffers_d :=
  match cells with
  | [] => ([], yb, zb)
  | j :: cells' =>
      let yb' := remap_pixel_d ay (Z.of_nat j) ylen yb in
      let '(vs, zb') := remap_3d_inner_d ay az zlen f1 oob xb yb' (seq 0 (Z.to_nat (n2 az))) zb in
      let '(ws, yb'', zb'') := remap_3d_middle_d ay az ylen zlen f1 oob xb cells' yb' zb' in
      (vs ++ ws, yb'', zb'')
  end.

(** remap_3d_grid2grid.f90:79-117, the outer loop. *)
Fixpoint remap_3d_outer_d (ax ay az : axis_d) (xlen ylen zlen : nat) (f1 : list double) (oob : Z -> double)
  (cells : list nat) (xb yb zb : buffers_d) : list double :=
  match cells with
  | [] => []
  | i :: cells' =>
      let xb' := remap_pixel_d ax (Z.of_nat i) xlen xb in
      let '(vs, yb', zb') := remap_3d_middle_d ay az ylen zlen f1 oob xb' (seq 0 (Z.to_nat (n2 ay))) yb zb in
      vs ++ remap_3d_outer_d ax ay az xlen ylen zlen f1 oob cells' xb' yb' zb'
  end.

Definition remap_3d_grid2grid_d (ax ay az : axis_d) (xlen ylen zlen : nat) (f1 : list double) (oob : Z -> double)
  (xb yb zb : buffers_d) : list double :=
  remap_3d_outer_d ax ay az xlen ylen zlen f1 oob (seq 0 (Z.to_nat (n2 ax))) xb yb zb.

(** grid2grid.py:41-108, [grid2grid2D]. *)
Definition grid2grid2D_d (oob : Z -> double) (memx memy : memory_d) (f1 : list (list double)) (boxsize : arg double)
  (ngridout : arg Z) (origin originout : arg double) (boxsizeout : option (arg double)) : res (list (list double)) :=
  '(xbox, ybox) <- two boxsize ;;
  '(xboxout, yboxout) <- match boxsizeout with None => Ok (xbox, ybox) | Some b => two b end ;;
  '(xorigin, yorigin) <- two origin ;;
  '(xoriginout, yoriginout) <- two originout ;;
  let x1grid := Z.of_nat (length f1) in
  let y1grid := Z.of_nat (length (nth 0 f1 [])) in
  '(x2grid, y2grid) <- two ngridout ;;
  let ax := AxisD xorigin (dadd xorigin xbox) x1grid xoriginout (dadd xoriginout xboxout) x2grid in
  let ay := AxisD yorigin (dadd yorigin ybox) y1grid yoriginout (dadd yoriginout yboxout) y2grid in
  let xlen := Z.to_nat (get_remap_pix_len_d ax) in
  let ylen := Z.to_nat (get_remap_pix_len_d ay) in
  let f2 := remap_2d_grid2grid_d ax ay xlen ylen (concat f1) oob (memx xlen) (memy ylen) in
  Ok (reshape f2 (Z.to_nat x2grid) (Z.to_nat y2grid)).

(** grid2grid.py:111-184, [grid2grid3D].  Line 174 unpacks three values into
    two names. *)
Definition grid2grid3D_d (oob : Z -> double) (memx memy memz : memory_d) (f1 : list (list (list double))) (boxsize : arg double)
  (ngridout : arg Z) (origin originout : arg double) (boxsizeout : option (arg double)) : res (list (list (list double))) :=
  '(xbox, ybox, zbox) <- three boxsize ;;
  '(xboxout, yboxout, zboxout) <- match boxsizeout with None => Ok (xbox, ybox, zbox) | Some b => three b end ;;
  '(xorigin, yorigin, zorigin) <- three origin ;;
  '(xoriginout, yoriginout, zoriginout) <- three originout ;;
  let x1grid := Z.of_nat (length f1) in
  let y1grid := Z.of_nat (length (nth 0 f1 [])) in
  let z1grid := Z.of_nat (length (nth 0 (nth 0 f1 []) [])) in
  '(x2grid, y2grid, z2grid) <- match ngridout with
     | Sca n => Ok (n, n, n)
     | Seq l => _ <- three ngridout ;; Err ValueError
     end ;;
  let ax := AxisD xorigin (dadd xorigin xbox) x1grid xoriginout (dadd xoriginout xboxout) x2grid in
  let ay := AxisD yorigin (dadd yorigin ybox) y1grid yoriginout (dadd yoriginout yboxout) y2grid in
  let az := AxisD zorigin (dadd zorigin zbox) z1grid zoriginout (dadd zoriginout zboxout) z2grid in
  let xlen := Z.to_nat (get_remap_pix_len_d ax) in
  let ylen := Z.to_nat (get_remap_pix_len_d ay) in
  let zlen := Z.to_nat (get_remap_pix_len_d az) in
  let f2 := remap_3d_grid2grid_d ax ay az xlen ylen zlen (concat (concat f1)) oob (memx xlen) (memy ylen) (memz zlen) in
  Ok (map (fun m => reshape m (Z.to_nat y2grid) (Z.to_nat z2grid))
          (reshape f2 (Z.to_nat x2grid) (Z.to_nat y2grid * Z.to_nat z2grid))).
