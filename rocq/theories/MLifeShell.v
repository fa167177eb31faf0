(** * Model of the [montecarlo.Cube2Shell] object over sequences of calls

    Here a call that raises may leave a changed object behind.  Attributes that
    no method reads back ([xmid], [ymid], [zmid], [dx], [dy], [dz], [x3d], [y3d],
    [z3d], [dr]) are left out. *)

From Coq Require Import Reals ZArith List Bool.
From Flocq Require Import Core.Raux.
From Verif Require Import Base MGrids MDense MMonte MCube MMonteShell.
Import ListNotations.
Open Scope R_scope.

(** cube2shell.py:14-36, the attributes; [None] as in Python.  [nside] and
    [center] are always stored together, and so are [redges] and [rmid], and
    [ind_xs], [ind_ys], [ind_zs], [ind_ws], which have the same nesting. *)
Record sobj := SObj {
  s_xedges : option (list R); s_yedges : option (list R); s_zedges : option (list R);
  s_radii : option (list R * list R); s_sky : option (Z * list R); s_weights : option shell_obj }.

Definition fresh : sobj := SObj None None None None None None.

Inductive call :=
| CCube (xmin xmax : R) (numx : Z) (ymin ymax : R) (numy : Z) (zmin zmax : R) (numz : Z)
| CLin (rmin rmax : R) (numr nside : Z) (center : list R)
| CLog (rmin rmax : R) (numr nside : Z) (center : list R) (addzero : bool)
| CWeights (draws : nat -> nat -> list R * list R * list R) (mc_size : Z)
| CRemap (f : list (list (list R))) (w : option (list (list (list R))))
| CClean.

Inductive value := VNone | VMap (f : list (list num)).

(** cube2shell.py:39-68, [setup_cube].  The third [linspace] (line 61) raises for
    [numz < -1] when the x and y edges are stored; [zedges[1]] (line 67) raises
    for [numz <= 0] when all edges are. *)
Definition cube_step (s : sobj) (xmin xmax : R) (numx : Z) (ymin ymax : R) (numy : Z) (zmin zmax : R) (numz : Z)
  : sobj * res value :=
  if negb (0 <? numx)%Z then (s, Err AssertionError) else
  if negb (0 <? numy)%Z then (s, Err AssertionError) else
  let xe := linspace xmin xmax (Z.to_nat (numx + 1)) in
  let ye := linspace ymin ymax (Z.to_nat (numy + 1)) in
  match linspaceZ zmin zmax (numz + 1) with
  | Err e => (SObj (Some xe) (Some ye) (s_zedges s) (s_radii s) (s_sky s) (s_weights s), Err e)
  | Ok ze =>
      (SObj (Some xe) (Some ye) (Some ze) (s_radii s) (s_sky s) (s_weights s),
       if (length ze <? 2)%nat then Err IndexError else Ok VNone)
  end.

(** cube2shell.py:71-95, [setup_polar_lin]: [rmid[1]] (line 93) raises when
    [redges] and [rmid] are stored. *)
Definition lin_step (s : sobj) (rmin rmax : R) (numr nside : Z) (center : list R) : sobj * res value :=
  if negb (Rle_bool 0 rmin && Rlt_bool rmin rmax && (0 <? numr)%Z && (length center =? 3)%nat) then (s, Err AssertionError) else
  let re := linspace rmin rmax (Z.to_nat (numr + 1)) in
  let rm := map2 (fun a b => / 2 * (a + b)) (tl re) (removelast re) in
  if (length rm <? 2)%nat then (SObj (s_xedges s) (s_yedges s) (s_zedges s) (Some (re, rm)) (s_sky s) (s_weights s), Err IndexError)
  else (SObj (s_xedges s) (s_yedges s) (s_zedges s) (Some (re, rm)) (Some (nside, center)) (s_weights s), Ok VNone).

(** cube2shell.py:98-128, [setup_polar_log]: only the assertions raise. *)
Definition log_step (s : sobj) (rmin rmax : R) (numr nside : Z) (center : list R) (addzero : bool) : sobj * res value :=
  match shells_log rmin rmax numr nside center addzero with
  | Ok P => (SObj (s_xedges s) (s_yedges s) (s_zedges s) (Some (ms_redges P, ms_rmid P)) (Some (ms_nside P, ms_center P)) (s_weights s), Ok VNone)
  | Err e => (s, Err e)
  end.

(** cube2shell.py:131-178, [get_weights] on the object.  Without radii
    [len(None)] raises; with radii but without [nside] or without all edges the
    first pixel raises, with [missing]. *)
Definition weights_of (missing : exc) (s : sobj) (draws : nat -> nat -> list R * list R * list R) (mc_size : Z) : res shell_obj :=
  match s_radii s with
  | None => Err TypeError
  | Some (re, rm) =>
      match s_sky s, s_xedges s, s_yedges s, s_zedges s with
      | Some (nside, center), Some xe, Some ye, Some ze =>
          shell_weights (CubeGrid xe ye ze [] [] [] 0 0 0 [] [] []) (McShells re rm nside center) draws mc_size
      | _, _, _, _ => Err missing
      end
  end.

(** cube2shell.py:181-216, [remap] on the object: reads [rmid], [nside] and the
    weights.  [hp.nside2npix(None)] raises, with [missing]. *)
Definition remap_of (missing : exc) (s : sobj) (f : list (list (list R))) (w : option (list (list (list R)))) : res (list (list num)) :=
  match s_radii s with
  | None => Err TypeError
  | Some (re, rm) =>
      match s_sky s with
      | None => Err missing
      | Some (nside, center) => shell_remap (McShells re rm nside center) (s_weights s) f w
      end
  end.

(** One call: the object afterwards and the outcome.  [clean] is
    cube2shell.py:219-221. *)
Definition step (missing : exc) (s : sobj) (c : call) : sobj * res value :=
  match c with
  | CCube xmin xmax numx ymin ymax numy zmin zmax numz => cube_step s xmin xmax numx ymin ymax numy zmin zmax numz
  | CLin rmin rmax numr nside center => lin_step s rmin rmax numr nside center
  | CLog rmin rmax numr nside center addzero => log_step s rmin rmax numr nside center addzero
  | CWeights draws mc_size =>
      match weights_of missing s draws mc_size with
      | Ok W => (SObj (s_xedges s) (s_yedges s) (s_zedges s) (s_radii s) (s_sky s) (Some W), Ok VNone)
      | Err e => (s, Err e)
      end
  | CRemap f w => (s, g <- remap_of missing s f w ;; Ok (VMap g))
  | CClean => (fresh, Ok VNone)
  end.

(** The object after a sequence of calls; exceptions are caught by the caller. *)
Fixpoint run (missing : exc) (s : sobj) (h : list call) : sobj :=
  match h with [] => s | c :: t => run missing (fst (step missing s c)) t end.
