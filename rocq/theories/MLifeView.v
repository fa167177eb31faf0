(** * Model of the [densegrid.PointOfView] object over sequences of calls

    The caller's Python lists are cells of a heap: [setup] keeps the list
    [camera] itself, not its contents, and later calls read it again.  The
    attribute [point] is never read back and left out.  Coordinates given to
    [transform] and [reverse] are single elements, as in MView. *)

From Coq Require Import Reals ZArith List Bool.
From Flocq Require Import Core.Raux.
From Verif Require Import Base MCoords MUsphere MView.
Import ListNotations.
Open Scope R_scope.

(** The caller's lists. *)
Definition heap := nat -> list R.
Definition write (H : heap) (a : nat) (l : list R) : heap := fun b => if (b =? a)%nat then l else H b.

(** pointofview.py:11-18, the attributes; [None] as in Python.
    [phi_point_towards], [theta_point_towards] and [spin] are always assigned
    together. *)
Record pobj := PObj { p_camera : option nat; p_display : option R; p_aim : option (R * num * R) }.

Definition fresh : pobj := PObj None None None.

(** [CWrite] is the caller changing the contents of a list. *)
Inductive call :=
| CSetup (camera point : nat) (display spin : R)
| CTransform (p : vec)
| CReverse (bx by_ dist : R)
| CClean
| CWrite (a : nat) (l : list R).

Inductive value := VNone | VImage (bx by_ dist : num) | VPoint (p : option vec).

(** [l[0], l[1], l[2]] *)
Definition vec3 (l : list R) : res vec :=
  x <- py_get l 0 ;; y <- py_get l 1 ;; z <- py_get l 2 ;; Ok (V3 x y z).

(** pointofview.py:21-42, [setup]: camera and display are stored before the
    lists are read. *)
Definition setup_step (H : heap) (s : pobj) (camera point : nat) (display spin : R) : pobj * res value :=
  match t <- vec3 (H point) ;; c <- vec3 (H camera) ;; Ok (pov_setup c t display spin) with
  | Err e => (PObj (Some camera) (Some display) (p_aim s), Err e)
  | Ok v => (PObj (Some camera) (Some display) (Some (phi_point_towards v, theta_point_towards v, spin)), Ok VNone)
  end.

(** pointofview.py:45-77, [transform]: the camera is read first; a missing
    direction fails the comparison [None >= 0.] of [usphere_rotate]. *)
Definition transform_of (H : heap) (s : pobj) (p : vec) : res value :=
  match p_camera s with
  | None => Err TypeError
  | Some a =>
      c <- vec3 (H a) ;;
      match p_display s, p_aim s with
      | Some d, Some (ph, th, sp) =>
          'q <- pov_transform (View c d ph th sp) p ;; Ok (VImage (fst (fst q)) (snd (fst q)) (snd q))
      | _, _ => Err TypeError
      end
  end.

(** pointofview.py:80-111, [reverse]: [None**2.] and [-None] are TypeErrors; the
    camera is read last. *)
Definition reverse_of (H : heap) (s : pobj) (bx by_ dist : R) : res value :=
  match p_display s, p_aim s, p_camera s with
  | Some d, Some (ph, th, sp), Some a =>
      match vec3 (H a) with
      | Ok c => q <- pov_reverse (View c d ph th sp) bx by_ dist ;; Ok (VPoint q)
      | Err e => _ <- pov_reverse (View (V3 0 0 0) d ph th sp) bx by_ dist ;; Err e
      end
  | _, _, _ => Err TypeError
  end.

(** One call: heap and object afterwards and the outcome.  [clean] is
    pointofview.py:114-116. *)
Definition step (w : heap * pobj) (c : call) : heap * pobj * res value :=
  let '(H, s) := w in
  match c with
  | CSetup cam pt d sp => let '(s', r) := setup_step H s cam pt d sp in (H, s', r)
  | CTransform p => (H, s, transform_of H s p)
  | CReverse bx by_ dist => (H, s, reverse_of H s bx by_ dist)
  | CClean => (H, fresh, Ok VNone)
  | CWrite a l => (write H a l, s, Ok VNone)
  end.

(** After a sequence of calls; exceptions are caught by the caller. *)
Fixpoint run (w : heap * pobj) (h : list call) : heap * pobj :=
  match h with [] => w | c :: t => run (fst (step w c)) t end.
