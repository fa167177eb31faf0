(** * Model of [magpie/coords/usphere.py]

    Coordinates are [num]: the degenerate rotations produce NaN. *)

From Coq Require Import Reals ZArith List Bool.
From Flocq Require Import Core.Raux.
From Verif Require Import Base MCoords.
Import ListNotations.
Open Scope R_scope.

Definition in_range (lo x hi : R) : bool := Rle_bool lo x && Rle_bool x hi.

(** usphere.py:49-53: [coords.sphere2cart(1., phi, theta)] as a vector. *)
Definition s2c_vec (phi theta : R) : vec :=
  let '(x, y, z) := sphere2cart 1 phi theta 0 0 0 in V3 x y z.

(** usphere.py:46-67: the matrix [T.dot(Rn.dot(invT.dot(.)))]; [None] when the
    axis normalisation [n /= 0] makes every entry NaN. *)
Definition rotate_frame (u v : vec) : option (res (vec -> vec)) :=
  let n := cross u v in
  let norm := sqrt (dot n n) in
  if Req_bool norm 0 then None
  else
    let n := V3 (vx n / norm) (vy n / norm) (vz n / norm) in
    let t := cross n u in
    let alpha := atan2 (dot v t) (dot v u) in
    let Rn := M3 (V3 (cos alpha) (- sin alpha) 0) (V3 (sin alpha) (cos alpha) 0) (V3 0 0 1) in
    let T := M3 (V3 (vx u) (vx t) (vx n)) (V3 (vy u) (vy t) (vy n)) (V3 (vz u) (vz t) (vz n)) in
    Some (invT <- minv T ;; Ok (fun pos => mdot T (mdot Rn (mdot invT pos)))).

(** usphere.py:68-81: one point through the rotation; NaN in, NaN out. *)
Definition rotate_point (f : vec -> vec) (phi theta : num) : num * num :=
  match phi, theta with
  | Some p, Some t =>
      let q := f (s2c_vec p t) in
      let '(r, pn, tn) := cart2sphere (vx q) (vy q) (vz q) 0 0 0 in
      (Some pn, tn)
  | _, _ => (None, None)
  end.

(** usphere.py:6-45, the assertions and the frame of [usphere_rotate].
    [np.linalg.inv] of an all-NaN matrix does not raise. *)
Definition rotate_setup (phi_end theta_end phi_start theta_start : R)
  : res (option (vec -> vec)) :=
  guard negb (Req_bool phi_start phi_end) || negb (Req_bool theta_start theta_end) ;;
  guard in_range 0 phi_start (2 * PI) ;;
  guard in_range 0 phi_end (2 * PI) ;;
  guard in_range 0 theta_start PI ;;
  guard in_range 0 theta_end PI ;;
  match rotate_frame (s2c_vec phi_start theta_start) (s2c_vec phi_end theta_end) with
  | None => Ok None
  | Some r => f <- r ;; Ok (Some f)
  end.

(** usphere.py:6-81, [usphere_rotate], scalar coordinates. *)
Definition usphere_rotate (phi theta : num) (phi_end theta_end phi_start theta_start : R)
  : res (num * num) :=
  f <- rotate_setup phi_end theta_end phi_start theta_start ;;
  match f with
  | None => Ok (None, None)
  | Some f => Ok (rotate_point f phi theta)
  end.

(** usphere.py:6-81, [usphere_rotate], array coordinates (the loop of line 74
    applies the same matrices to every point; the array branch of
    [cart2sphere] is element-wise equal to the scalar one, see C15). *)
Definition usphere_rotate_arr (phi theta : list num) (phi_end theta_end phi_start theta_start : R)
  : res (list num * list num) :=
  f <- rotate_setup phi_end theta_end phi_start theta_start ;;
  let out := match f with
             | None => map2 (fun _ _ => (None, None)) phi theta
             | Some f => map2 (rotate_point f) phi theta
             end in
  Ok (map fst out, map snd out).

(** Comparisons and additions on possibly-NaN floats (a comparison with NaN is
    false). *)
Definition ngtb (x : num) (c : R) : bool := match x with Some a => Rlt_bool c a | None => false end.
Definition nltb (x : num) (c : R) : bool := match x with Some a => Rlt_bool a c | None => false end.
Definition naddc (x : num) (c : R) : num := nadd x (Some c).

(** usphere.py:84-117, scalar case of [usphere_phi_shift]. *)
Definition usphere_phi_shift (phi : num) (dphi : R) : res num :=
  guard Rlt_bool (- (2 * PI)) dphi && Rlt_bool dphi (2 * PI) ;;
  let phi_new := phi in
  let phi_new := naddc phi_new dphi in
  Ok (if ngtb phi_new (2 * PI) then naddc phi_new (- (2 * PI))
      else if nltb phi_new 0 then naddc phi_new (2 * PI)
      else phi_new).

(** usphere.py:84-117, array case: the new contents of the array object. *)
Definition usphere_phi_shift_arr (phi : list num) (dphi : R) : res (list num) :=
  guard Rlt_bool (- (2 * PI)) dphi && Rlt_bool dphi (2 * PI) ;;
  let phi_new := map (fun p => naddc p dphi) phi in
  let cond := np_where (map (fun p => ngtb p (2 * PI)) phi_new) in
  let phi_new := put phi_new cond (map (fun p => naddc p (- (2 * PI))) (take None phi_new cond)) in
  let cond := np_where (map (fun p => nltb p 0) phi_new) in
  let phi_new := put phi_new cond (map (fun p => naddc p (2 * PI)) (take None phi_new cond)) in
  Ok phi_new.

(** usphere.py:120-166, [usphere_shift], scalar coordinates. *)
Definition usphere_shift (phi theta : num) (phi_start theta_start phi_end theta_end : R)
  : res (num * num) :=
  guard in_range 0 phi_start (2 * PI) ;;
  guard in_range 0 phi_end (2 * PI) ;;
  guard in_range 0 theta_start PI ;;
  guard in_range 0 theta_end PI ;;
  new_phi <- usphere_phi_shift phi (phi_end - phi_start) ;;
  if negb (Req_bool theta_start theta_end)
  then usphere_rotate new_phi theta phi_end theta_end phi_end theta_start
  else Ok (new_phi, theta).

(** usphere.py:169-207, [usphere_spin], scalar coordinates. *)
Definition usphere_spin (phi theta : num) (phi_center theta_center alpha : R)
  : res (num * num) :=
  guard in_range 0 phi_center (2 * PI) ;;
  guard in_range 0 theta_center PI ;;
  guard in_range 0 alpha (2 * PI) ;;
  'p <- usphere_shift phi theta phi_center theta_center phi_center 0 ;;
  let '(new_phi, new_theta) := p in
  new_phi <- usphere_phi_shift new_phi alpha ;;
  usphere_shift new_phi new_theta phi_center 0 phi_center theta_center.

(** ** The same functions on array objects

    A store maps array identities (positions) to contents.  [phi_new = phi]
    binds the same object and [+=], [-=] write into it. *)
Definition store := list (list num).
Definition deref (h : store) (a : nat) : list num := nth a h [].
Definition alloc (h : store) (v : list num) : store * nat := (h ++ [v], length h).

(** usphere.py:84-117 on an array object: the object itself is returned. *)
Definition usphere_phi_shift_mem (h : store) (phi : nat) (dphi : R) : res (store * nat) :=
  v <- usphere_phi_shift_arr (deref h phi) dphi ;;
  Ok (set_nth h phi v, phi).

(** usphere.py:120-166 on array objects. *)
Definition usphere_shift_mem (h : store) (phi theta : nat)
    (phi_start theta_start phi_end theta_end : R) : res (store * nat * nat) :=
  guard in_range 0 phi_start (2 * PI) ;;
  guard in_range 0 phi_end (2 * PI) ;;
  guard in_range 0 theta_start PI ;;
  guard in_range 0 theta_end PI ;;
  'hp <- usphere_phi_shift_mem h phi (phi_end - phi_start) ;;
  let '(h, new_phi) := hp in
  if negb (Req_bool theta_start theta_end) then
    'pt <- usphere_rotate_arr (deref h new_phi) (deref h theta) phi_end theta_end phi_end theta_start ;;
    let '(h, a) := alloc h (fst pt) in
    let '(h, b) := alloc h (snd pt) in
    Ok (h, a, b)
  else Ok (h, new_phi, theta).

(** usphere.py:169-207 on array objects. *)
Definition usphere_spin_mem (h : store) (phi theta : nat)
    (phi_center theta_center alpha : R) : res (store * nat * nat) :=
  guard in_range 0 phi_center (2 * PI) ;;
  guard in_range 0 theta_center PI ;;
  guard in_range 0 alpha (2 * PI) ;;
  'q <- usphere_shift_mem h phi theta phi_center theta_center phi_center 0 ;;
  let '(h, new_phi, new_theta) := q in
  'q <- usphere_phi_shift_mem h new_phi alpha ;;
  let '(h, new_phi) := q in
  usphere_shift_mem h new_phi new_theta phi_center 0 phi_center theta_center.
