(** * Model of [magpie/densegrid/pointofview.py]

    One element of the coordinate arrays (all operations are element-wise;
    the element-wise agreement of the array branches of the [coords] functions
    is C15, C17 and C19).  The index array of line 72 is never used. *)

From Coq Require Import Reals ZArith List Bool.
From Flocq Require Import Core.Raux.
From Verif Require Import Base MCoords MUsphere.
Import ListNotations.
Open Scope R_scope.

(** pointofview.py:11-18, the attributes of a set-up object. *)
Record view := View {
  camera : vec; display : R;
  phi_point_towards : R; theta_point_towards : num; spin : R }.

(** pointofview.py:21-42, [PointOfView.setup]. *)
Definition pov_setup (cam point : vec) (disp spin : R) : view :=
  let '(_, p, t) := cart2sphere (vx point) (vy point) (vz point) (vx cam) (vy cam) (vz cam) in
  View cam disp p t spin.

(** [coords.sphere2cart] on possibly-NaN angles. *)
Definition sphere2cart_num (r : R) (phi theta : num) (c : vec) : option vec :=
  match phi, theta with
  | Some p, Some t => let '(x, y, z) := sphere2cart r p t (vx c) (vy c) (vz c) in Some (V3 x y z)
  | _, _ => None
  end.

(** The comparison [self.theta_point_towards != np.pi/2.] and the rotation
    guarded by it (pointofview.py:67-68 and 107-108).  A NaN colatitude would
    fail the range assertion of [usphere_rotate]. *)
Definition tilt_down (v : view) (phi theta : num) : res (num * num) :=
  match theta_point_towards v with
  | None => Err AssertionError
  | Some t => if negb (Req_bool t (PI / 2))
              then usphere_rotate phi theta (phi_point_towards v) (PI / 2) (phi_point_towards v) t
              else Ok (phi, theta)
  end.
Definition tilt_back (v : view) (phi theta : num) : res (num * num) :=
  match theta_point_towards v with
  | None => Err AssertionError
  | Some t => if negb (Req_bool t (PI / 2))
              then usphere_rotate phi theta (phi_point_towards v) t (phi_point_towards v) (PI / 2)
              else Ok (phi, theta)
  end.

(** pointofview.py:45-77, [PointOfView.transform]. *)
Definition pov_transform (v : view) (p : vec) : res (num * num * num) :=
  let '(r, phi, theta) := cart2sphere (vx p) (vy p) (vz p)
                            (vx (camera v)) (vy (camera v)) (vz (camera v)) in
  'a <- tilt_down v (Some phi) theta ;;
  let '(phi, theta) := a in
  phi <- usphere_phi_shift phi (- phi_point_towards v) ;;
  'a <- (if negb (Req_bool (spin v) 0) then usphere_spin phi theta 0 (PI / 2) (spin v)
         else Ok (phi, theta)) ;;
  let '(phi, theta) := a in
  match sphere2cart_num r phi theta (V3 0 0 0) with
  | None => Ok (None, None, None)
  | Some d =>
      let f := fdiv (display v) (vx d) in
      let bx := nmul (Some (vy d)) f in
      let by_ := nmul (Some (vz d)) f in
      let dist := sqrt (vx d ^ 2 + vy d ^ 2 + vz d ^ 2) in
      Ok (bx, by_, Some dist)
  end.

(** [b / f] with [f = display/dx]: for [dx = 0] (and [display <> 0]) the factor
    is infinite and the quotient is 0. *)
Definition over_factor (b disp dx : R) : num :=
  match fdiv disp dx with
  | Some f => fdiv b f
  | None => if Req_bool disp 0 then None else Some 0
  end.

(** pointofview.py:80-111, [PointOfView.reverse], on finite arguments;
    [display] is a numpy float (a Python float 0 would raise ZeroDivisionError). *)
Definition pov_reverse (v : view) (bx by_ dist : R) : res (option vec) :=
  let dx := match nmul (fdiv 1 (display v ^ 2)) (Some (bx ^ 2 + by_ ^ 2)) with
            | None => None
            | Some q => fdiv dist (sqrt (1 + q))
            end in
  let dy := match dx with Some dx => over_factor bx (display v) dx | None => None end in
  let dz := match dx with Some dx => over_factor by_ (display v) dx | None => None end in
  match dx, dy, dz with
  | Some dx, Some dy, Some dz =>
      let '(r, phi, theta) := cart2sphere dx dy dz 0 0 0 in
      'a <- (if negb (Req_bool (spin v) 0) then usphere_spin (Some phi) theta 0 (PI / 2) (- spin v)
             else Ok (Some phi, theta)) ;;
      let '(phi, theta) := a in
      phi <- usphere_phi_shift phi (phi_point_towards v) ;;
      'a <- tilt_back v phi theta ;;
      let '(phi, theta) := a in
      Ok (sphere2cart_num r phi theta (camera v))
  | _, _, _ =>
      (* NaN coordinates: the assertions on the parameters still run *)
      'a <- (if negb (Req_bool (spin v) 0) then usphere_spin None None 0 (PI / 2) (- spin v)
             else Ok (None, None)) ;;
      phi <- usphere_phi_shift (fst a) (phi_point_towards v) ;;
      'a <- tilt_back v phi (snd a) ;;
      Ok None
  end.
