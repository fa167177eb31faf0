(** * Model of [montecarlo.Box2Ring.polar2radial]
      ([magpie/montecarlo/box2ring.py])

    The map may hold NaN, as the results of [remap] do.  The caller's errors and
    weights are finite. *)

From Coq Require Import Reals ZArith List Bool.
From Flocq Require Import Core.Raux.
From Verif Require Import Base MGrids MDense MMonte.
Import ListNotations.
Open Scope R_scope.

(** [np.shape(f_polar) == np.shape(self.p2d)] *)
Definition same_shape_num (a : list (list num)) (b : list (list R)) : bool :=
  (length a =? length b)%nat && (length (nth 0 a []) =? length (nth 0 b []))%nat.

(** [f_polar[condition] = 0.] with [condition = np.where(m != 1.)] *)
Definition zero_where_num (m : list (list R)) (a : list (list num)) : list (list num) :=
  zip2 (fun v (x : num) => if negb (Req_bool v 1) then Some 0 else x) m a.

(** [polar.polar2radial] of a map with NaN: a column with a NaN has a NaN sum,
    with or without weights; the errors do not involve the map. *)
Definition is_nan (x : num) : bool := match x with None => true | Some _ => false end.
Definition polar2radial_num (c : nat) (f : list (list num)) (ar : list (list R)) (pa : R) (sigma w : option (list (list R)))
  : list num * option (list num) :=
  let '(r, s) := polar2radial c (map (map (fun x : num => match x with Some v => v | None => 0 end)) f) ar pa sigma w in
  (map2 (fun j v => if existsb (fun row => is_nan (nth j row (Some 0))) f then None else v) (seq 0 c) r, s).

(** box2ring.py:327-374, [polar2radial]: the result, the attributes and the
    contents of the caller's weight array afterwards.  [W] holds the stored
    index and weight arrays. *)
Definition mc_polar2radial (B : box_grid) (P : mc_polar) (W : option obj) (s : cache)
    (f_polar : list (list num)) (sigma w : option (list (list R)))
  : res ((list num * option (list num)) * cache * option (list (list R))) :=
  ar <- match area2d s with Some a => Ok a | None => get_polar_area2d (mc_redges P) (mc_pedges P) end ;;
  pa <- match pixarea s with Some a => Ok a | None => get_pixarea (xedges B) (yedges B) end ;;
  guard same_shape_num f_polar (mc_p2d P) ;;
  m <- match mask_in_bound s with Some m => Ok m | None => mc_mask B P W end ;;
  let s := Cache (Some ar) (Some pa) (Some m) in
  let c := length (nth 0 (mc_p2d P) []) in
  let '(f_polar, sigma, w', w_use) :=
    if negb (np_all m) then
      let f_polar := zero_where_num m f_polar in
      let sigma := option_map (zero_where m) sigma in
      match w with
      | Some w => let w := zip2 Rmult w m in (f_polar, sigma, Some w, Some w)
      | None => (f_polar, sigma, None, Some m)
      end
    else (f_polar, sigma, w, w) in
  match sigma with
  | None => Ok (polar2radial_num c f_polar ar pa None w_use, s, w')
  | Some sg =>
      guard same_shape sg (mc_p2d P) ;;
      Ok (polar2radial_num c f_polar ar pa (Some sg) w_use, s, w')
  end.
