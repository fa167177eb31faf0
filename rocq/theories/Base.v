(** * Common vocabulary of the model

    Exceptions as values, exact-real numerics and the numpy list primitives
    used by the model files [M*.v].  Definitions only; the lemmas about them
    are in [BaseP.v]. *)

From Coq Require Import Reals ZArith List Bool.
From Flocq Require Import Core.Raux.
Import ListNotations.
Open Scope R_scope.

(** ** Python exceptions

    Only the class of the exception is kept, not its message. *)
Inductive exc : Set :=
| AssertionError | TypeError | ValueError | IndexError | NameError
| AttributeError | UnboundLocalError | ZeroDivisionError | OverflowError | LinAlgError.

(** Outcome of a Python call: a value, or an uncaught exception. *)
Inductive res (A : Type) : Type :=
| Ok (a : A)
| Err (e : exc).
Arguments Ok {A} a.
Arguments Err {A} e.

Definition bind {A B} (x : res A) (f : A -> res B) : res B :=
  match x with Ok a => f a | Err e => Err e end.

(** [assert c] followed by the rest of the function. *)
Definition py_assert {A} (c : bool) (k : res A) : res A :=
  if c then k else Err AssertionError.

Notation "x <- e ;; k" := (bind e (fun x => k))
  (at level 61, e at next level, right associativity).
Notation "' x <- e ;; k" := (bind e (fun x => k))
  (at level 61, x pattern, e at next level, right associativity).
Notation "'guard' c ;; k" := (py_assert c k)
  (at level 61, c at next level, right associativity).

(** ** Numbers

    Floats are idealised as exact reals.  [num] adds one explicit value for
    "not a finite number" (NaN or +-inf, not told apart), which is what numpy
    yields for a zero denominator or the square root of a negative number. *)
Definition num := option R.

(** [x / y] on numpy floats. *)
Definition fdiv (x y : R) : num :=
  if Req_bool y 0 then None else Some (x / y).

(** Division, product and sum of possibly non-finite numbers. *)
Definition ndiv (x y : num) : num :=
  match x, y with Some a, Some b => fdiv a b | _, _ => None end.
Definition nmul (x y : num) : num :=
  match x, y with Some a, Some b => Some (a * b) | _, _ => None end.
Definition nadd (x y : num) : num :=
  match x, y with Some a, Some b => Some (a + b) | _, _ => None end.

(** [np.sqrt] on a float: NaN for a negative argument. *)
Definition np_sqrt (x : R) : num :=
  if Rlt_bool x 0 then None else Some (sqrt x).

(** [x % y] on floats with [y > 0] (Python / numpy floored modulo). *)
Definition Rmod (x y : R) : R := x - y * IZR (Zfloor (x / y)).

(** [np.arctan2 y x], value in (-pi, pi]; signed zeros are not represented. *)
Definition atan2 (y x : R) : R :=
  if Rlt_bool 0 x then atan (y / x)
  else if Rlt_bool x 0 then
    (if Rle_bool 0 y then atan (y / x) + PI else atan (y / x) - PI)
  else if Rlt_bool 0 y then PI / 2
  else if Rlt_bool y 0 then - (PI / 2)
  else 0.

(** [np.sign]. *)
Definition Rsign (x : R) : R :=
  if Rlt_bool 0 x then 1 else if Rlt_bool x 0 then -1 else 0.

(** ** Array primitives *)

Definition Rsum (l : list R) : R := fold_right Rplus 0 l.

(** [np.linspace(a, b, n)]. *)
Definition linspace (a b : R) (n : nat) : list R :=
  match n with
  | O => []
  | 1%nat => [a]
  | _ => map (fun i => a + INR i * ((b - a) / INR (n - 1))) (seq 0 n)
  end.

(** [np.linspace(a, b, n)] for a Python integer [n]: negative [n] is refused. *)
Definition linspaceZ (a b : R) (n : Z) : res (list R) :=
  if (n <? 0)%Z then Err ValueError else Ok (linspace a b (Z.to_nat n)).

(** [np.floor] and [np.arccos] of possibly non-finite floats. *)
Definition nfloor (x : num) : num :=
  match x with Some a => Some (IZR (Zfloor a)) | None => None end.
Definition np_arccos (x : R) : num :=
  if Rle_bool (-1) x && Rle_bool x 1 then Some (acos x) else None.

Fixpoint map2 {A B C} (f : A -> B -> C) (l : list A) (m : list B) : list C :=
  match l, m with
  | a :: l', b :: m' => f a b :: map2 f l' m'
  | _, _ => []
  end.

Fixpoint where_from (k : nat) (m : list bool) : list nat :=
  match m with
  | [] => []
  | true :: t => k :: where_from (S k) t
  | false :: t => where_from (S k) t
  end.

(** [np.where(mask)[0]]. *)
Definition np_where (m : list bool) : list nat := where_from 0 m.

(** Fancy indexing [l[idx]].  Only used with index lists obtained from
    [np_where] of a mask as long as [l], so the default [d] is never read. *)
Definition take {A} (d : A) (l : list A) (idx : list nat) : list A :=
  map (fun i => nth i l d) idx.

Fixpoint set_nth {A} (l : list A) (k : nat) (v : A) : list A :=
  match l, k with
  | [], _ => []
  | _ :: t, O => v :: t
  | a :: t, S k' => a :: set_nth t k' v
  end.

(** Fancy assignment [l[idx] = vals]; later entries win on repeated indices. *)
Fixpoint put {A} (l : list A) (idx : list nat) (vals : list A) : list A :=
  match idx, vals with
  | i :: idx', v :: vals' => put (set_nth l i v) idx' vals'
  | _, _ => l
  end.

(** Python subscript [l[k]] with a possibly negative [k]. *)
Definition py_get {A} (l : list A) (k : Z) : res A :=
  let n := Z.of_nat (length l) in
  let k' := if (k <? 0)%Z then (k + n)%Z else k in
  if (k' <? 0)%Z then Err IndexError
  else match nth_error l (Z.to_nat k') with
       | Some a => Ok a
       | None => Err IndexError
       end.

(** Subscript assignment [l[k] = v] with a possibly negative [k]. *)
Definition py_set {A} (l : list A) (k : Z) (v : A) : res (list A) :=
  let n := Z.of_nat (length l) in
  let k' := if (k <? 0)%Z then (k + n)%Z else k in
  if ((k' <? 0) || (n <=? k'))%Z then Err IndexError
  else Ok (set_nth l (Z.to_nat k') v).

Fixpoint mapM {A B} (f : A -> res B) (l : list A) : res (list B) :=
  match l with
  | [] => Ok []
  | a :: t => b <- f a ;; t' <- mapM f t ;; Ok (b :: t')
  end.

(** ** 3-vectors and 3x3 matrices (rows) *)
Record vec : Set := V3 { vx : R; vy : R; vz : R }.

(** [np.dot] and [np.cross] of 3-vectors. *)
Definition dot (a b : vec) : R := vx a * vx b + vy a * vy b + vz a * vz b.
Definition cross (a b : vec) : vec :=
  V3 (vy a * vz b - vz a * vy b) (vz a * vx b - vx a * vz b) (vx a * vy b - vy a * vx b).
Definition vscale (k : R) (a : vec) : vec := V3 (k * vx a) (k * vy a) (k * vz a).
Definition vadd (a b : vec) : vec := V3 (vx a + vx b) (vy a + vy b) (vz a + vz b).

Record mat : Set := M3 { row1 : vec; row2 : vec; row3 : vec }.

(** [M.dot(v)]. *)
Definition mdot (m : mat) (v : vec) : vec := V3 (dot (row1 m) v) (dot (row2 m) v) (dot (row3 m) v).

(** [np.linalg.inv] of a 3x3 matrix: adjugate over determinant (the exact
    inverse); a singular matrix raises LinAlgError. *)
Definition mcol1 (m : mat) : vec := V3 (vx (row1 m)) (vx (row2 m)) (vx (row3 m)).
Definition mcol2 (m : mat) : vec := V3 (vy (row1 m)) (vy (row2 m)) (vy (row3 m)).
Definition mcol3 (m : mat) : vec := V3 (vz (row1 m)) (vz (row2 m)) (vz (row3 m)).
Definition mdet (m : mat) : R := dot (mcol1 m) (cross (mcol2 m) (mcol3 m)).
Definition minv (m : mat) : res mat :=
  let d := mdet m in
  if Req_bool d 0 then Err LinAlgError
  else Ok (M3 (vscale (/ d) (cross (mcol2 m) (mcol3 m)))
              (vscale (/ d) (cross (mcol3 m) (mcol1 m)))
              (vscale (/ d) (cross (mcol1 m) (mcol2 m)))).
