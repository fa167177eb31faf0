(** * Model of the [montecarlo.Box2Ring] object over sequences of calls

    Here a call that raises may leave a changed object behind.  Attributes that
    no method reads back ([xmid], [ymid], [dx], [dy], [rmid], [pmid], [dr],
    [dp]) are left out. *)

From Coq Require Import Reals ZArith List Bool.
From Verif Require Import Base MGrids MDense MMonte MMonteRadial.
Import ListNotations.
Open Scope R_scope.

(** box2ring.py:45-70, the attributes.  [setup_box] stores all its attributes or
    none; the polar set-ups store [redges], [pedges] before the lines that may
    raise and the others after them, so the edges are kept apart from the rest.
    [ind_xs], [ind_ys], [ind_ws] have the same nesting and are stored together. *)
Record mobj := MObj { b_box : option box_grid; b_edges : option (list R * list R); b_polar : option mc_polar;
  b_weights : option obj; b_cache : cache }.

Definition fresh : mobj := MObj None None None None no_cache.

Inductive call :=
| CSetupBox (xmin xmax : R) (numx : Z) (ymin ymax : R) (numy : Z)
| CSetupLin (rmin rmax : R) (numr nump : Z) (pmin pmax : R) (center : list R) (phi_shift : R)
| CSetupLog (rmin rmax : R) (numr nump : Z) (pmin pmax : R) (center : list R) (phi_shift : R) (addzero : bool)
| CWeights (draws : nat -> nat -> list R * list R) (mc_size : Z)
| CRemap (f : list (list R)) (w : option (list (list R)))
| CMask
| CRotate (f_polar : list (list R)) (phi_shift : R)
| CRadial (f_polar : list (list num)) (sigma w : option (list (list R)))
| CClean.

(** What a call returns. *)
Inductive value := VNone | VMap (f : list (list num)) | VRadial (f : list num) (sigma : option (list num)).

(** box2ring.py:73-99, [setup_box]: only the assertions raise. *)
Definition setup_box_step (s : mobj) (xmin xmax : R) (numx : Z) (ymin ymax : R) (numy : Z) : mobj * res value :=
  match setup_box xmin xmax numx ymin ymax numy with
  | Ok B => (MObj (Some B) (b_edges s) (b_polar s) (b_weights s) (b_cache s), Ok VNone)
  | Err e => (s, Err e)
  end.

(** box2ring.py:102-144 and 147-195, the end of both polar set-ups: [made] is the
    outcome, [edges] the edges stored when a line after the assertions raises. *)
Definition polar_step (s : mobj) (made : res mc_polar) (edges : res (list R * list R)) : mobj * res value :=
  match made with
  | Ok P => (MObj (b_box s) (Some (mc_redges P, mc_pedges P)) (Some P) (b_weights s) (b_cache s), Ok VNone)
  | Err AssertionError => (s, Err AssertionError)
  | Err e =>
      match edges with
      | Ok ed => (MObj (b_box s) (Some ed) (b_polar s) (b_weights s) (b_cache s), Err e)
      | Err _ => (s, Err e)
      end
  end.

(** box2ring.py:134-135 and 184-189, the edges. *)
Definition lin_stored (rmin rmax : R) (numr nump : Z) (pmin pmax : R) : res (list R * list R) :=
  re <- linspaceZ rmin rmax (numr + 1) ;; pe <- linspaceZ pmin pmax (nump + 1) ;; Ok (re, pe).
Definition log_stored (rmin rmax : R) (numr nump : Z) (pmin pmax : R) (addzero : bool) : res (list R * list R) :=
  re <- (if addzero then l <- logspaceZ (log10 rmin) (log10 rmax) numr ;; Ok (0 :: l)
         else logspaceZ (log10 rmin) (log10 rmax) (numr + 1)) ;;
  pe <- linspaceZ pmin pmax (nump + 1) ;; Ok (re, pe).

(** The polar grid as the methods see it: the stored edges with the rest. *)
Definition seen_polar (s : mobj) : option mc_polar :=
  match b_edges s, b_polar s with
  | Some (re, pe), Some P => Some (McPolar re pe (mc_r2d P) (mc_p2d P) (mc_center P) (mc_shift P))
  | _, _ => None
  end.

(** box2ring.py:198-245, [get_weights] on the object.  Without a polar grid
    [len(None)] raises; without a box the first cell raises, with [nobox]. *)
Definition weights_of (nobox : exc) (s : mobj) (draws : nat -> nat -> list R * list R) (mc_size : Z) : res obj :=
  guard (1 <? mc_size)%Z ;;
  match seen_polar s, b_box s with
  | Some P, Some B => get_weights B P draws mc_size
  | None, _ => Err TypeError
  | Some _, None => Err nobox
  end.

(** box2ring.py:248-285, [remap]: the shape of a missing [x2d] is [()]; without a
    polar grid [len(None)] raises after the assertions. *)
Definition remap_of (s : mobj) (f : list (list R)) (w : option (list (list R))) : res (list (list num)) :=
  match b_box s with
  | None => Err AssertionError
  | Some B =>
      match seen_polar s with
      | Some P => mc_remap B P (b_weights s) f w
      | None =>
          guard same_shape f (x2d B) ;;
          guard (match w with Some w => same_shape w (x2d B) | None => true end) ;;
          Err TypeError
      end
  end.

(** box2ring.py:297-304, the computation of [get_mask_in_bound]. *)
Definition mask_of (s : mobj) : res (list (list R)) :=
  match b_box s, seen_polar s with
  | Some B, Some P => mc_mask B P (b_weights s)
  | _, _ => Err AssertionError
  end.

Definition set_weights (s : mobj) (W : obj) : mobj :=
  MObj (b_box s) (b_edges s) (b_polar s) (Some W) (b_cache s).
Definition set_cache (s : mobj) (c : cache) : mobj :=
  MObj (b_box s) (b_edges s) (b_polar s) (b_weights s) c.

Definition opt_shape (a : option (list (list R))) (b : list (list num)) : bool :=
  match a with Some a => same_shape_num b a | None => true end.

(** box2ring.py:348-349, 350-351 and 353-354: attributes computed on first use. *)
Definition area_of (s : mobj) : res (list (list R)) :=
  match area2d (b_cache s), b_edges s with
  | Some a, _ => Ok a
  | None, Some (re, pe) => get_polar_area2d re pe
  | None, None => Err TypeError
  end.
Definition pixarea_of (s : mobj) : res R :=
  match pixarea (b_cache s), b_box s with
  | Some a, _ => Ok a
  | None, Some B => get_pixarea (xedges B) (yedges B)
  | None, None => Err TypeError
  end.
Definition kept_mask (s : mobj) : res (list (list R)) :=
  match mask_in_bound (b_cache s) with Some m => Ok m | None => mask_of s end.

(** box2ring.py:327-374, [polar2radial].  The attributes computed on the way stay
    when a later line raises; [np.shape] of a missing [p2d] is [()].  [clash] is
    the arbitrary outcome when stored or given arrays do not have the shape of
    [f_polar].  The caller's weights afterwards are left out, see
    [mc_polar2radial]. *)
Definition radial_step (clash : res value) (s : mobj) (f_polar : list (list num)) (sigma w : option (list (list R)))
  : mobj * res value :=
  match area_of s with
  | Err e => (s, Err e)
  | Ok ar =>
    let s := set_cache s (Cache (Some ar) (pixarea (b_cache s)) (mask_in_bound (b_cache s))) in
    match pixarea_of s with
    | Err e => (s, Err e)
    | Ok pa =>
      let s := set_cache s (Cache (Some ar) (Some pa) (mask_in_bound (b_cache s))) in
      match seen_polar s with
      | None => (s, Err AssertionError)
      | Some P =>
        if negb (same_shape_num f_polar (mc_p2d P)) then (s, Err AssertionError) else
        match kept_mask s with
        | Err e => (s, Err e)
        | Ok m =>
          let s := set_cache s (Cache (Some ar) (Some pa) (Some m)) in
          if negb (same_shape_num f_polar ar && same_shape_num f_polar m && opt_shape sigma f_polar && opt_shape w f_polar)
          then (s, clash) else
          match b_box s with
          | None => (s, Err TypeError)
          | Some B =>
              (s, match mc_polar2radial B P (b_weights s) (b_cache s) f_polar sigma w with
                  | Ok ((r, sr), _, _) => Ok (VRadial r sr)
                  | Err e => Err e
                  end)
          end
        end
      end
    end
  end.

(** One call: the object afterwards and the outcome.  [rotate_polar]
    (box2ring.py:307-324) compares shapes, then calls [coords.rotate_polar] with
    three arguments where it takes two.  [clean] is box2ring.py:377-379. *)
Definition step (nobox : exc) (clash : res value) (s : mobj) (c : call) : mobj * res value :=
  match c with
  | CSetupBox xmin xmax numx ymin ymax numy => setup_box_step s xmin xmax numx ymin ymax numy
  | CSetupLin rmin rmax numr nump pmin pmax center shift =>
      polar_step s (setup_polar_lin rmin rmax numr nump pmin pmax center shift) (lin_stored rmin rmax numr nump pmin pmax)
  | CSetupLog rmin rmax numr nump pmin pmax center shift z =>
      polar_step s (setup_polar_log rmin rmax numr nump pmin pmax center shift z) (log_stored rmin rmax numr nump pmin pmax z)
  | CWeights draws mc => match weights_of nobox s draws mc with Ok W => (set_weights s W, Ok VNone) | Err e => (s, Err e) end
  | CRemap f w => (s, g <- remap_of s f w ;; Ok (VMap g))
  | CMask =>
      match mask_of s with
      | Ok m => (set_cache s (Cache (area2d (b_cache s)) (pixarea (b_cache s)) (Some m)), Ok VNone)
      | Err e => (s, Err e)
      end
  | CRotate f shift =>
      (s, match b_polar s with
          | Some P => guard same_shape f (mc_p2d P) ;; Err TypeError
          | None => Err AssertionError
          end)
  | CRadial f sigma w => radial_step clash s f sigma w
  | CClean => (fresh, Ok VNone)
  end.

(** The object after a sequence of calls; exceptions are caught by the caller. *)
Fixpoint run (nobox : exc) (clash : res value) (s : mobj) (h : list call) : mobj :=
  match h with [] => s | c :: t => run nobox clash (fst (step nobox clash s c)) t end.
