(** * Rotations of [magpie/coords/usphere.py] in IEEE-754 binary64

    Functions of the C library, of BLAS and of LAPACK are arbitrary: the order
    of the sums in [np.sum], [np.dot] and [np.linalg.inv] is not fixed. *)

From Coq Require Import Reals ZArith List Bool.
From Flocq Require Import Core IEEE754.BinarySingleNaN.
From Verif Require Import Base MDouble MRemapDouble MCoordsDouble MOneDDouble MHealRandomsDouble.
Import ListNotations.
Open Scope R_scope.

Definition dvec : Type := double * double * double.

(** The rows of a matrix. *)
Definition dmat : Type := dvec * dvec * dvec.

Record library := Library {
  l_cos : double -> double;
  l_sin : double -> double;
  l_arctan2 : double -> double -> double;
  l_arccos : double -> double;
  l_sum : double -> double -> double -> double;  (* np.sum of three numbers *)
  l_dot : dvec -> dvec -> double;                (* v.dot(w) *)
  l_mdot : dmat -> dvec -> dvec;                 (* M.dot(w) *)
  l_inv : dmat -> res dmat }.                    (* np.linalg.inv(M) *)

(** [np.cross] of 3-vectors (numpy/core/numeric.py): two products and a
    difference for every component. *)
Definition cross_d (a b : dvec) : dvec :=
  let '(a0, a1, a2) := a in
  let '(b0, b1, b2) := b in
  (dsub (dmul a1 b2) (dmul a2 b1), dsub (dmul a2 b0) (dmul a0 b2), dsub (dmul a0 b1) (dmul a1 b0)).

(** usphere.py:56-58: the axis [n] and the vector [t]. *)
Definition axes_d (L : library) (u v : dvec) : dvec * dvec :=
  let '(n0, n1, n2) := cross_d u v in
  let norm := dsqrt (l_sum L (sq n0) (sq n1) (sq n2)) in
  let n := (ddiv n0 norm, ddiv n1 norm, ddiv n2 norm) in
  (n, cross_d n u).

(** usphere.py:59-66: [Rn] and [T]. *)
Definition turn_d (L : library) (alpha : double) : dmat :=
  ((l_cos L alpha, opp_d (l_sin L alpha), dzero), (l_sin L alpha, l_cos L alpha, dzero), (dzero, dzero, done)).

Definition columns_d (u t n : dvec) : dmat :=
  let '(u0, u1, u2) := u in
  let '(t0, t1, t2) := t in
  let '(n0, n1, n2) := n in
  ((u0, t0, n0), (u1, t1, n1), (u2, t2, n2)).

(** usphere.py:46-67 and 76-79: the map of positions. *)
Definition frame_d (L : library) (u v : dvec) : res (dvec -> dvec) :=
  let '(n, t) := axes_d L u v in
  let alpha := l_arctan2 L (l_dot L v t) (l_dot L v u) in
  let Rn := turn_d L alpha in
  let T := columns_d u t n in
  invT <- l_inv L T ;;
  Ok (fun pos => l_mdot L T (l_mdot L Rn (l_mdot L invT pos))).

(** [coords.sphere2cart(1., phi, theta)]. *)
Definition on_sphere_d (L : library) (phi theta : double) : dvec :=
  sphere2cart_d (l_cos L) (l_sin L) done phi theta dzero dzero dzero.

Definition within_d (lo x hi : double) : bool := dle lo x && dle x hi.

(** usphere.py:33-67: the assertions and the matrices. *)
Definition rotate_setup_d (L : library) (phi_end theta_end phi_start theta_start : double) : res (dvec -> dvec) :=
  guard negb (deq phi_start phi_end) || negb (deq theta_start theta_end) ;;
  guard within_d dzero phi_start twopi ;;
  guard within_d dzero phi_end twopi ;;
  guard within_d dzero theta_start pi_d ;;
  guard within_d dzero theta_end pi_d ;;
  frame_d L (on_sphere_d L phi_start theta_start) (on_sphere_d L phi_end theta_end).

(** usphere.py:73-83, one point. *)
Definition rotate_point_d (L : library) (f : dvec -> dvec) (phi theta : double) : double * double :=
  let '(x, y, z) := f (on_sphere_d L phi theta) in
  let '(_, phi_new, theta_new) := cart2sphere_d (l_arctan2 L) (l_arccos L) x y z dzero dzero dzero in
  (phi_new, theta_new).

(** usphere.py:6-83, [usphere_rotate] of a point. *)
Definition usphere_rotate_d (L : library) (phi theta phi_end theta_end phi_start theta_start : double) : res (double * double) :=
  f <- rotate_setup_d L phi_end theta_end phi_start theta_start ;;
  Ok (rotate_point_d L f phi theta).

(** The same of arrays: every point goes through the same matrices. *)
Definition usphere_rotate_arr_d (L : library) (phi theta : list double) (phi_end theta_end phi_start theta_start : double)
  : res (list double * list double) :=
  f <- rotate_setup_d L phi_end theta_end phi_start theta_start ;;
  let out := map2 (rotate_point_d L f) phi theta in
  Ok (map fst out, map snd out).

(** usphere.py:120-162, [usphere_shift] of a point. *)
Definition usphere_shift_d (L : library) (phi theta phi_start theta_start phi_end theta_end : double) : res (double * double) :=
  guard within_d dzero phi_start twopi ;;
  guard within_d dzero phi_end twopi ;;
  guard within_d dzero theta_start pi_d ;;
  guard within_d dzero theta_end pi_d ;;
  new_phi <- phi_shift_d phi (dsub phi_end phi_start) ;;
  if negb (deq theta_start theta_end) then usphere_rotate_d L new_phi theta phi_end theta_end phi_end theta_start
  else Ok (new_phi, theta).
