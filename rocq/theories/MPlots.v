(** * Model of [magpie/plots]

    Calls of matplotlib are recorded as values ([draw]); whether they go to the
    current or to a given axis, and the style arguments, are left out.  What was
    drawn before an exception is not kept. *)

From Coq Require Import String.
From Coq Require Import Reals ZArith List Bool.
From Flocq Require Import Core.Raux.
From Verif Require Import Base MCoords MUsphere MOrtho MHeal.
Import ListNotations.
Open Scope R_scope.

(** The attributes of the [Heal2Ortho] object that are read. *)
Record ortho_view := OrthoView { v_center : list R; v_radius : R; v_xedges : list R; v_yedges : list R }.

(** [plot], [imshow] with its extent, [text] with the position and the angle in
    degrees before it is rounded and formatted (the rotation is left out),
    [xlim], [ylim] and [axis('off')]. *)
Inductive draw :=
| Curve (points : list (num * num))
| Image (extent : R * R * R * R)
| Text (x y label : R)
| XLim (a b : R)
| YLim (a b : R)
| AxisOff.

(** Global names of ortho.py (lines 1-10) and of shapes.py (lines 1-4, 7, 32). *)
Definition ortho_globals : list string := ["np"; "plt"; "interpolate"; "plot_shapes"; "coords"; "pixel"; "PlotOrtho"]%string.
Definition shapes_globals : list string := ["numpy"; "plt"; "pixel"; "plot_box"; "plot_circle"]%string.

(** A global name. *)
Definition global (names : list string) (name : string) : res unit :=
  if existsb (String.eqb name) names then Ok tt else Err NameError.

(** shapes.py:7-29, [plot_box]; what [get_box] would return is arbitrary. *)
Definition plot_box (get_box : res (list (num * num))) : res (list draw) :=
  _ <- global shapes_globals "shapes" ;; p <- get_box ;; Ok [Curve p].

(** shapes.py:32-50, [plot_circle]. *)
Definition plot_circle (get_circle : res (list (num * num))) : res (list draw) :=
  _ <- global shapes_globals "shapes" ;; p <- get_circle ;; Ok [Curve p].

(** ortho.py:24-44, [imshow]. *)
Definition plot_imshow (v : ortho_view) : res (list draw) :=
  x0 <- py_get (v_xedges v) 0 ;; x1 <- py_get (v_xedges v) (-1) ;;
  y0 <- py_get (v_yedges v) 0 ;; y1 <- py_get (v_yedges v) (-1) ;;
  Ok [Image (x0, x1, y0, y1)].

(** [int(a/b)] for Python floats. *)
Definition int_div (a b : R) : res Z := if Req_bool b 0 then Err ZeroDivisionError else Ok (Ztrunc (a / b)).

(** ortho.py:69-74 and 131-134: the angles of the grid. *)
Definition grid_angles (full deg dangle : R) : res (list R) :=
  n <- int_div deg dangle ;;
  l <- linspaceZ 0 full (n + 1) ;;
  Ok (removelast l).

(** [self.heal2ortho.transform] of arrays, entry by entry. *)
Definition transform_all (v : ortho_view) (pts : list (R * R)) : res (list (num * num)) :=
  mapM (fun q => ortho_transform (v_center v) (fst q) (snd q)) pts.

(** ortho.py:48-94, [plot_grid]. *)
Definition plot_grid (v : ortho_view) (dtheta : R) (dphi : option R) : res (list draw) :=
  let dphi := match dphi with Some d => d | None => dtheta end in
  phi_grid <- grid_angles (2 * PI) 360 dphi ;;
  theta_grid <- grid_angles PI 180 dtheta ;;
  a <- mapM (fun p => c <- transform_all v (map (fun t => (p, t)) (linspace 0 PI 100)) ;; Ok (Curve c)) phi_grid ;;
  b <- mapM (fun t => c <- transform_all v (map (fun p => (p, t)) (linspace 0 (2 * PI) 100)) ;; Ok (Curve c)) theta_grid ;;
  Ok (a ++ b).

(** ortho.py:148 and 176: a label is written when its position is inside the
    edges; comparisons with NaN are false. *)
Definition label_at (v : ortho_view) (xy : num * num) (label : R) : res (list draw) :=
  x0 <- py_get (v_xedges v) 0 ;; x1 <- py_get (v_xedges v) (-1) ;;
  y0 <- py_get (v_yedges v) 0 ;; y1 <- py_get (v_yedges v) (-1) ;;
  match xy with
  | (Some x, Some y) =>
      Ok (if Rle_bool x0 x && Rle_bool x x1 && Rle_bool y0 y && Rle_bool y y1 then [Text x y label] else [])
  | _ => Ok []
  end.

Definition rad2deg (x : R) : R := x * (180 / PI).
Definition deg2rad (x : R) : R := x * (PI / 180).

(** ortho.py:131-186, [plot_labels] with [onsphere=True]. *)
Definition plot_labels_on (v : ortho_view) (dtheta : R) (dphi : option R) (lonlat : bool) (zeropoint shift : list R)
  : res (list draw) :=
  let dphi := match dphi with Some d => d | None => dtheta end in
  phi_grid <- grid_angles (2 * PI) 360 dphi ;;
  n <- int_div 180 dtheta ;;
  l <- linspaceZ 0 PI (n + 1) ;;
  let theta_grid := removelast (tl l) in
  _ <- ortho_transform (v_center v) 0 0 ;;
  a <- mapM (fun p =>
         z1 <- py_get zeropoint 1 ;; s0 <- py_get shift 0 ;;
         xy <- ortho_transform (v_center v) (p - deg2rad s0) z1 ;;
         label_at v xy (rad2deg p)) phi_grid ;;
  b <- mapM (fun t =>
         let label := if lonlat then PI / 2 - t else t in
         z0 <- py_get zeropoint 0 ;; s1 <- py_get shift 1 ;;
         let p := if Rlt_bool z0 0 then z0 + 2 * PI else if Rle_bool (2 * PI) z0 then z0 - 2 * PI else z0 in
         xy <- ortho_transform (v_center v) p (t - deg2rad s1) ;;
         label_at v xy (rad2deg label)) theta_grid ;;
  Ok (concat a ++ concat b).

(** ortho.py:131-137 and 187-316, [plot_labels] with [onsphere=False], the
    default.  [prep] is the outcome of lines 189-208 (or 189-217, 189-233) up to
    the first call of [coords.polar2lonlat], one of which is reached in each of
    the three branches; [rest] is the outcome of everything after it. *)
Definition plot_labels_off (v : ortho_view) (dtheta : R) (dphi : option R) (prep : res unit) (rest : res (list draw))
  : res (list draw) :=
  let dphi := match dphi with Some d => d | None => dtheta end in
  _ <- grid_angles (2 * PI) 360 dphi ;;
  n <- int_div 180 dtheta ;;
  _ <- linspaceZ 0 PI (n + 1) ;;
  _ <- ortho_transform (v_center v) 0 0 ;;
  _ <- prep ;;
  _ <- attribute coords_names "polar2lonlat" ;;
  rest.

(** ortho.py:340-349, [plot_polar_box]; the box [get_box] would return is
    arbitrary. *)
Definition plot_polar_box (v : ortho_view) (phi_min phi_max theta_min theta_max : R) (lonlat : bool)
    (get_box : R -> R -> R -> R -> res (list (R * R))) : res (list draw) :=
  let '(theta_min, theta_max) := if lonlat then (PI / 2 - theta_max, PI / 2 - theta_min) else (theta_min, theta_max) in
  _ <- global ortho_globals "shapes" ;;
  b <- get_box phi_min phi_max theta_min theta_max ;;
  c <- transform_all v b ;;
  Ok [Curve c].

(** ortho.py:376-395, [finalize]. *)
Definition finalize (v : ortho_view) (insphere outeredge : bool) (get_circle : res (list (num * num))) : res (list draw) :=
  a <- (if outeredge then plot_circle get_circle else Ok []) ;;
  x0 <- py_get (v_xedges v) 0 ;; x1 <- py_get (v_xedges v) (-1) ;;
  y0 <- py_get (v_yedges v) 0 ;; y1 <- py_get (v_yedges v) (-1) ;;
  Ok (a ++ [if insphere then XLim x1 x0 else XLim x0 x1; YLim y0 y1; AxisOff]).
