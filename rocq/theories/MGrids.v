(** * Model of [magpie/grids/cartesian.py], [magpie/grids/polar.py],
      [magpie/polar/polar2radial.py] and [magpie/polar/radial.py] *)

From Coq Require Import Reals ZArith List Bool.
From Flocq Require Import Core.Raux.
From Verif Require Import Base.
Import ListNotations.
Open Scope R_scope.

(** An argument that is a number or a list of numbers, as told apart by
    [np.isscalar]. *)
Inductive arg (A : Type) : Type := Sca (a : A) | Seq (l : list A).
Arguments Sca {A} a.
Arguments Seq {A} l.

(** [if np.isscalar(x) is True: x = [x, ..., x]] ([k] copies). *)
Definition as_seq {A} (k : nat) (a : arg A) : list A :=
  match a with Sca x => repeat x k | Seq l => l end.

(** cartesian.py:4-25, [get_xedges]. *)
Definition get_xedges (len : R) (ngrid : Z) (xmin : option R) : res (list R) :=
  let xmin := match xmin with None => 0 | Some x => x end in
  let xmax := xmin + len in
  linspaceZ xmin xmax (ngrid + 1).

(** cartesian.py:28-42, [xedges2mid]. *)
Definition xedges2mid (xedges : list R) : list R :=
  map2 (fun a b => / 2 * (a + b)) (removelast xedges) (tl xedges).

(** cartesian.py:45-62, [xmid2edges]. *)
Definition xmid2edges (xmid : list R) : res (list R) :=
  x1 <- py_get xmid 1 ;;
  x0 <- py_get xmid 0 ;;
  let dx := x1 - x0 in
  last <- py_get xmid (-1) ;;
  Ok (map (fun x => x - dx) xmid ++ [last + dx]).

(** cartesian.py:65-91, [grid1d] with [return_edges=True]; without it only the
    first component is returned. *)
Definition grid1d (len : R) (ngrid : Z) (xmin : option R) : res (list R * list R) :=
  xedges <- get_xedges len ngrid xmin ;;
  let xmid := xedges2mid xedges in
  Ok (xmid, xedges).

(** [np.meshgrid(x, y, indexing='ij')] and its 3D version. *)
Definition mesh2 (x y : list R) : list (list R) * list (list R) :=
  (map (fun a => map (fun _ => a) y) x, map (fun _ => map (fun b => b) y) x).
Definition mesh3 (x y z : list R)
  : list (list (list R)) * list (list (list R)) * list (list (list R)) :=
  (map (fun a => map (fun _ => map (fun _ => a) z) y) x,
   map (fun _ => map (fun b => map (fun _ => b) z) y) x,
   map (fun _ => map (fun _ => map (fun c => c) z) y) x).

(** cartesian.py:94-127, [grid2d] with [return1d=True]. *)
Definition grid2d (lengths : arg R) (ngrids : arg Z) (mins : list (option R))
  : res (list (list R) * list (list R) * list R * list R) :=
  let lengths := as_seq 2 lengths in
  let ngrids := as_seq 2 ngrids in
  l0 <- py_get lengths 0 ;; n0 <- py_get ngrids 0 ;; m0 <- py_get mins 0 ;;
  xedges <- get_xedges l0 n0 m0 ;;
  let xmid := xedges2mid xedges in
  l1 <- py_get lengths 1 ;; n1 <- py_get ngrids 1 ;; m1 <- py_get mins 1 ;;
  yedges <- get_xedges l1 n1 m1 ;;
  let ymid := xedges2mid yedges in
  let '(x2d, y2d) := mesh2 xmid ymid in
  Ok (x2d, y2d, xmid, ymid).

(** cartesian.py:130-165, [grid3d] with [return1d=True]. *)
Definition grid3d (lengths : arg R) (ngrids : arg Z) (mins : list (option R))
  : res (list (list (list R)) * list (list (list R)) * list (list (list R))
         * list R * list R * list R) :=
  let lengths := as_seq 3 lengths in
  let ngrids := as_seq 3 ngrids in
  l0 <- py_get lengths 0 ;; n0 <- py_get ngrids 0 ;; m0 <- py_get mins 0 ;;
  xedges <- get_xedges l0 n0 m0 ;;
  let xmid := xedges2mid xedges in
  l1 <- py_get lengths 1 ;; n1 <- py_get ngrids 1 ;; m1 <- py_get mins 1 ;;
  yedges <- get_xedges l1 n1 m1 ;;
  let ymid := xedges2mid yedges in
  l2 <- py_get lengths 2 ;; n2 <- py_get ngrids 2 ;; m2 <- py_get mins 2 ;;
  zedges <- get_xedges l2 n2 m2 ;;
  let zmid := xedges2mid zedges in
  let '(x3d, y3d, z3d) := mesh3 xmid ymid zmid in
  Ok (x3d, y3d, z3d, xmid, ymid, zmid).

(** polar.py:6-42, [polargrid] with [return1d=True]. *)
Definition polargrid (nr nphi : Z) (rmin rmax phimin phimax : R)
  : res (list (list R) * list (list R) * list R * list R) :=
  grid2d (Seq [rmax - rmin; phimax - phimin]) (Seq [nr; nphi]) [Some rmin; Some phimin].

(** [range(0, n)]. *)
Definition py_range (n : Z) : list Z := map Z.of_nat (seq 0 (Z.to_nat n)).

(** [np.concatenate] refuses an empty list of arrays. *)
Definition np_concatenate {A} (l : list (list A)) : res (list A) :=
  match l with [] => Err ValueError | _ => Ok (concat l) end.

(** polar.py:45-66, [polarEA_grid]. *)
Definition polarEA_grid (nr : Z) (rmax : R) (base_nphi : Z) : res (list R * list R) :=
  redges <- get_xedges rmax nr None ;;
  let rmid := xedges2mid redges in
  rs <- mapM (fun i => mapM (fun _ => py_get rmid i) (py_range (base_nphi * (2 * i + 1)))) (py_range nr) ;;
  r <- np_concatenate rs ;;
  ps <- mapM (fun i => e <- get_xedges (2 * PI) (base_nphi * (2 * i + 1)) None ;; Ok (xedges2mid e))
             (py_range nr) ;;
  p <- np_concatenate ps ;;
  Ok (r, p).

(** polar.py:69-88, [polarEA_area]; Python float division. *)
Definition polarEA_area (nr : Z) (rmax : R) (base_nphi : Z) : res R :=
  if (nr =? 0)%Z then Err ZeroDivisionError else
  let area := PI * (rmax / IZR nr) ^ 2 in
  if (base_nphi =? 0)%Z then Err ZeroDivisionError else
  Ok (area / IZR base_nphi).

(** polar.py:91-107, [polarEA_npix]. *)
Definition polarEA_npix (nr base_nphi : Z) : Z := (base_nphi * nr ^ 2)%Z.

(** polar2radial.py:4-18, [get_polar_area2d]. *)
Definition get_polar_area2d (redges pedges : list R) : res (list (list R)) :=
  p1 <- py_get pedges 1 ;;
  p0 <- py_get pedges 0 ;;
  let dp := p1 - p0 in
  let area := map2 (fun b a => PI * (b ^ 2 - a ^ 2) * dp / (2 * PI)) (tl redges) (removelast redges) in
  Ok (repeat area (length pedges - 1)).

(** polar2radial.py:21-37, [get_pixarea]. *)
Definition get_pixarea (xedges yedges : list R) : res R :=
  x1 <- py_get xedges 1 ;; x0 <- py_get xedges 0 ;;
  y1 <- py_get yedges 1 ;; y0 <- py_get yedges 0 ;;
  Ok ((x1 - x0) * (y1 - y0)).

(** [np.sum(a, axis=0)] of a rectangular array with [c] columns. *)
Definition nsum (l : list num) : num := fold_right nadd (Some 0) l.
Definition sum_axis0 (c : nat) (a : list (list num)) : list num :=
  map (fun j => nsum (map (fun row => nth j row None) a)) (seq 0 c).

(** Element-wise operations on 2D arrays of the same shape. *)
Definition zip2 {A B C} (f : A -> B -> C) (a : list (list A)) (b : list (list B)) : list (list C) :=
  map2 (map2 f) a b.
Definition lift2 (a : list (list R)) : list (list num) := map (map Some) a.

Definition nsqrt (x : num) : num := match x with Some a => np_sqrt a | None => None end.
Definition nsq (x : num) : num := nmul x x.

(** polar2radial.py:40-81, [polar2radial]; [f], [area2d], [sigma], [w] have
    the same shape with [c] columns.  The second component is present exactly
    when [sigma] is given. *)
Definition polar2radial (c : nat) (f area2d : list (list R)) (pixarea : R)
    (sigma w : option (list (list R))) : list num * option (list num) :=
  let n := INR (length f) in
  match w with
  | None =>
      let f_radial := map (fun s => ndiv s (Some n)) (sum_axis0 c (lift2 f)) in
      let sigma_radial :=
        option_map (fun sigma =>
          map (fun s => nsqrt (ndiv s (Some (n ^ 2))))
            (sum_axis0 c (zip2 (fun a s => nmul (fdiv pixarea a) (Some (s ^ 2))) area2d sigma))) sigma in
      (f_radial, sigma_radial)
  | Some w =>
      let sw := sum_axis0 c (lift2 w) in
      let f_radial := map2 ndiv (sum_axis0 c (zip2 (fun x y => Some (x * y)) f w)) sw in
      let sigma_radial :=
        option_map (fun sigma =>
          map2 (fun s sw => nsqrt (ndiv s (nsq sw)))
            (sum_axis0 c (zip2 nmul
               (map (map (fun a => fdiv pixarea a)) area2d)
               (zip2 (fun w s => Some ((w * s) ^ 2)) w sigma)))
            sw) sigma in
      (f_radial, sigma_radial)
  end.

(** [np.cumsum]. *)
Fixpoint cumsum_from (acc : R) (l : list R) : list R :=
  match l with [] => [] | a :: t => (acc + a) :: cumsum_from (acc + a) t end.
Definition cumsum (l : list R) : list R := cumsum_from 0 l.

(** [a * b] of 1D arrays with numpy broadcasting of length-one operands. *)
Definition bmul (a b : list R) : res (list R) :=
  if (length a =? length b)%nat then Ok (map2 Rmult a b)
  else match a, b with
       | [x], _ => Ok (map (fun y => x * y) b)
       | _, [y] => Ok (map (fun x => x * y) a)
       | _, _ => Err ValueError
       end.

(** [l[1:] = v] with broadcasting of a length-one [v]. *)
Definition set_tail (l v : list R) : res (list R) :=
  if (length v =? length (tl l))%nat then Ok (firstn 1 l ++ v)
  else match v with [x] => Ok (firstn 1 l ++ map (fun _ => x) (tl l)) | _ => Err ValueError end.

(** radial.py:4-35, [cumulative_radial]. *)
Definition cumulative_radial (redges f : list R) (sigma : option (list R))
  : res (list R * option (list num)) :=
  let area := map2 (fun b a => PI * (b ^ 2 - a ^ 2)) (tl redges) (removelast redges) in
  f_area <- bmul area f ;;
  let zeros := repeat 0 (length redges) in
  cumulative_f <- set_tail zeros (cumsum f_area) ;;
  match sigma with
  | None => Ok (cumulative_f, None)
  | Some sigma =>
      a_s <- bmul area sigma ;;
      let var_area := map (fun x => x ^ 2) a_s in
      cumulative_var <- set_tail zeros (cumsum var_area) ;;
      Ok (cumulative_f, Some (map np_sqrt cumulative_var))
  end.
