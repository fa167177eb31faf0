(** * Radial profiles in IEEE-754 binary64

    The functions of MGrids for polar pixel areas, radial means and cumulative
    profiles on doubles.  [np.sum(a, axis=0)] adds a column in an arbitrary order
    (MSumDouble); [np.cumsum] adds from the left. *)

From Coq Require Import ZArith List Bool.
From Verif Require Import Base MDouble MGridsDouble MSumDouble.
Import ListNotations.

(** [redges[1:]**2. - redges[:-1]**2.] times [np.pi]; polar2radial.py:16 and
    radial.py:22. *)
Definition ring_areas_d (redges : list double) : list double :=
  map2 (fun b a => dmul pi_d (dsub (sq b) (sq a))) (tl redges) (removelast redges).

(** polar2radial.py:4-18, [get_polar_area2d]. *)
Definition get_polar_area2d_d (redges pedges : list double) : res (list (list double)) :=
  p1 <- py_get pedges 1 ;;
  p0 <- py_get pedges 0 ;;
  let dp := dsub p1 p0 in
  let area := map (fun x => ddiv (dmul x dp) twopi) (ring_areas_d redges) in
  Ok (repeat area (length pedges - 1)).

(** polar2radial.py:21-37, [get_pixarea]. *)
Definition get_pixarea_d (xedges yedges : list double) : res double :=
  x1 <- py_get xedges 1 ;; x0 <- py_get xedges 0 ;;
  y1 <- py_get yedges 1 ;; y0 <- py_get yedges 0 ;;
  Ok (dmul (dsub x1 x0) (dsub y1 y0)).

(** [np.sum(a, axis=0)] of a rectangular array with [c] columns. *)
Definition sum_axis0_d (o : nat -> tree) (c : nat) (a : list (list double)) : list double :=
  map (fun j => sum_d o (map (fun row => nth j row dzero) a)) (seq 0 c).

(** Element-wise operations on 2D arrays of the same shape. *)
Definition zip2_d (f : double -> double -> double) (a b : list (list double)) : list (list double) :=
  map2 (map2 f) a b.

(** polar2radial.py:40-81, [polar2radial]; [f], [area2d], [sigma], [w] have
    the same shape with [c] columns.  The second component is present exactly
    when [sigma] is given. *)
Definition polar2radial_d (o : nat -> tree) (c : nat) (f area2d : list (list double)) (pixarea : double)
    (sigma w : option (list (list double))) : list double * option (list double) :=
  let n := dint (Z.of_nat (length f)) in
  match w with
  | None =>
      let f_radial := map (fun s => ddiv s n) (sum_axis0_d o c f) in
      let sigma_radial :=
        option_map (fun sigma =>
          map (fun s => dsqrt (ddiv s (sq n)))
            (sum_axis0_d o c (zip2_d dmul (map (map (fun a => ddiv pixarea a)) area2d) (map (map sq) sigma)))) sigma in
      (f_radial, sigma_radial)
  | Some w =>
      let sw := sum_axis0_d o c w in
      let f_radial := map2 ddiv (sum_axis0_d o c (zip2_d dmul f w)) sw in
      let sigma_radial :=
        option_map (fun sigma =>
          map2 (fun s sw => dsqrt (ddiv s (sq sw)))
            (sum_axis0_d o c (zip2_d dmul (map (map (fun a => ddiv pixarea a)) area2d) (map (map sq) (zip2_d dmul w sigma))))
            sw) sigma in
      (f_radial, sigma_radial)
  end.

(** [np.cumsum]. *)
Fixpoint cumsum_from_d (acc : double) (l : list double) : list double :=
  match l with [] => [] | a :: t => dadd acc a :: cumsum_from_d (dadd acc a) t end.
Definition cumsum_d (l : list double) : list double :=
  match l with [] => [] | a :: t => a :: cumsum_from_d a t end.

(** [a * b] of 1D arrays with numpy broadcasting of length-one operands. *)
Definition bmul_d (a b : list double) : res (list double) :=
  if (length a =? length b)%nat then Ok (map2 dmul a b)
  else match a, b with
       | [x], _ => Ok (map (fun y => dmul x y) b)
       | _, [y] => Ok (map (fun x => dmul x y) a)
       | _, _ => Err ValueError
       end.

(** [l[1:] = v] with broadcasting of a length-one [v]. *)
Definition set_tail_d (l v : list double) : res (list double) :=
  if (length v =? length (tl l))%nat then Ok (firstn 1 l ++ v)
  else match v with [x] => Ok (firstn 1 l ++ map (fun _ => x) (tl l)) | _ => Err ValueError end.

(** radial.py:4-35, [cumulative_radial]. *)
Definition cumulative_radial_d (redges f : list double) (sigma : option (list double))
  : res (list double * option (list double)) :=
  let area := ring_areas_d redges in
  f_area <- bmul_d area f ;;
  let zeros := repeat dzero (length redges) in
  cumulative_f <- set_tail_d zeros (cumsum_d f_area) ;;
  match sigma with
  | None => Ok (cumulative_f, None)
  | Some sigma =>
      a_s <- bmul_d area sigma ;;
      let var_area := map sq a_s in
      cumulative_var <- set_tail_d zeros (cumsum_d var_area) ;;
      Ok (cumulative_f, Some (map dsqrt cumulative_var))
  end.
