(** * Model of the [densegrid.Box2Ring] object over sequences of calls

    Here a call that raises may leave a changed object behind.  Attributes that
    no method reads back ([rmid], [pmid], [dr], [dp], [phi_shift],
    [rebin_rmid], [rebin_pedges]) are left out; refinement factors are natural
    numbers. *)

From Coq Require Import Reals ZArith List Bool.
From Verif Require Import Base MGrids MDense.
Import ListNotations.
Open Scope R_scope.

(** box2ring.py:12-43, the attributes.  [setup_box] stores all its attributes or
    none; [setup_polar] stores [redges], [pedges] before the lines that may raise
    and the others after them, so the edges are kept apart from the rest. *)
Record obj := Obj { o_box : option box_grid; o_edges : option (list R * list R); o_polar : option polar_grid; o_cache : cache }.

Definition fresh : obj := Obj None None None no_cache.

Inductive call :=
| CSetupBox (xmin xmax : R) (numx : Z) (ymin ymax : R) (numy : Z)
| CSetupPolar (rmin rmax : R) (numr nump : Z) (pmin pmax : R) (center : list R) (rebin_r rebin_p : nat) (phi_shift : R)
| CRemap (f : list (list R)) (w : option (list (list R)))
| CMask
| CRotate (f_polar : list (list R)) (phi_shift : R)
| CRadial (f_polar : list (list R)) (sigma w : option (list (list R)))
| CClean.

(** What a call returns. *)
Inductive value := VNone | VMap (f : list (list num)) | VRadial (f : list num) (sigma : option (list num)).

(** box2ring.py:46-72, [setup_box]: only the assertions raise. *)
Definition setup_box_step (s : obj) (xmin xmax : R) (numx : Z) (ymin ymax : R) (numy : Z) : obj * res value :=
  match setup_box xmin xmax numx ymin ymax numy with
  | Ok B => (Obj (Some B) (o_edges s) (o_polar s) (o_cache s), Ok VNone)
  | Err e => (s, Err e)
  end.

(** box2ring.py:75-133, [setup_polar]: the assertions of lines 102-111 raise
    before, [rmid[1]] and [pmid[1]] of lines 116-117 after the edges are stored. *)
Definition setup_polar_step (s : obj) (rmin rmax : R) (numr nump : Z) (pmin pmax : R) (center : list R)
    (rebin_r rebin_p : nat) (phi_shift : R) : obj * res value :=
  match setup_polar rmin rmax numr nump pmin pmax center (Z.of_nat rebin_r) (Z.of_nat rebin_p) phi_shift with
  | Ok P => (Obj (o_box s) (Some (redges P, pedges P)) (Some P) (o_cache s), Ok VNone)
  | Err AssertionError => (s, Err AssertionError)
  | Err e => (Obj (o_box s) (Some (linspace rmin rmax (Z.to_nat (numr + 1)), linspace pmin pmax (Z.to_nat (nump + 1))))
                  (o_polar s) (o_cache s), Err e)
  end.

(** box2ring.py:171-193, [remap]: a missing attribute is [None], which cannot be
    multiplied or indexed. *)
Definition remap_of (s : obj) (f : list (list R)) (w : option (list (list R))) : res (list (list num)) :=
  match o_box s, o_polar s with
  | Some B, Some P => remap B P f w
  | _, _ => Err TypeError
  end.

(** box2ring.py:207-213, the computation of [get_mask_in_bound]. *)
Definition mask_of (s : obj) : res (list (list R)) :=
  match o_box s, o_polar s with
  | Some B, Some P => get_mask_in_bound B P
  | _, _ => Err AssertionError
  end.

Definition set_area (s : obj) (a : list (list R)) : obj :=
  Obj (o_box s) (o_edges s) (o_polar s) (Cache (Some a) (pixarea (o_cache s)) (mask_in_bound (o_cache s))).
Definition set_pixarea (s : obj) (a : R) : obj :=
  Obj (o_box s) (o_edges s) (o_polar s) (Cache (area2d (o_cache s)) (Some a) (mask_in_bound (o_cache s))).
Definition set_mask (s : obj) (m : list (list R)) : obj :=
  Obj (o_box s) (o_edges s) (o_polar s) (Cache (area2d (o_cache s)) (pixarea (o_cache s)) (Some m)).

Definition opt_shape (a : option (list (list R))) (b : list (list R)) : bool :=
  match a with Some a => same_shape a b | None => true end.

(** box2ring.py:258-259, 260-261 and 263-264: attributes computed on first use. *)
Definition area_of (s : obj) : res (list (list R)) :=
  match area2d (o_cache s), o_edges s with
  | Some a, _ => Ok a
  | None, Some (re, pe) => get_polar_area2d re pe
  | None, None => Err TypeError
  end.
Definition pixarea_of (s : obj) : res R :=
  match pixarea (o_cache s), o_box s with
  | Some a, _ => Ok a
  | None, Some B => get_pixarea (xedges B) (yedges B)
  | None, None => Err TypeError
  end.
Definition kept_mask (s : obj) : res (list (list R)) :=
  match mask_in_bound (o_cache s) with Some m => Ok m | None => mask_of s end.

(** box2ring.py:235-282, [polar2radial].  The attributes computed on the way stay
    when a later line raises; [np.shape] of a missing [p2d] is [()].  [clash] is
    the arbitrary outcome when stored or given arrays do not have the shape of
    [f_polar].  The caller's weights afterwards are left out, see
    [polar2radial_method]. *)
Definition radial_step (clash : res value) (s : obj) (f_polar : list (list R)) (sigma w : option (list (list R))) : obj * res value :=
  match area_of s with
  | Err e => (s, Err e)
  | Ok ar =>
    let s := set_area s ar in
    match pixarea_of s with
    | Err e => (s, Err e)
    | Ok pa =>
      let s := set_pixarea s pa in
      match o_polar s with
      | None => (s, Err AssertionError)
      | Some P =>
        if negb (same_shape f_polar (p2d P)) then (s, Err AssertionError) else
        match kept_mask s with
        | Err e => (s, Err e)
        | Ok m =>
          let s := set_mask s m in
          if negb (same_shape ar f_polar && same_shape m f_polar && opt_shape sigma f_polar && opt_shape w f_polar)
          then (s, clash) else
          match o_box s with
          | None => (s, Err TypeError)
          | Some B =>
              (s, match polar2radial_method B P (o_cache s) f_polar sigma w with
                  | Ok (r, sr, _, _) => Ok (VRadial r sr)
                  | Err e => Err e
                  end)
          end
        end
      end
    end
  end.

(** One call: the object afterwards and the outcome.  [rotate_polar]
    (box2ring.py:216-232) without a polar grid compares shapes with [()].
    [clean] is box2ring.py:285-287. *)
Definition step (clash : res value) (s : obj) (c : call) : obj * res value :=
  match c with
  | CSetupBox xmin xmax numx ymin ymax numy => setup_box_step s xmin xmax numx ymin ymax numy
  | CSetupPolar rmin rmax numr nump pmin pmax center rr rp shift => setup_polar_step s rmin rmax numr nump pmin pmax center rr rp shift
  | CRemap f w => (s, g <- remap_of s f w ;; Ok (VMap g))
  | CMask => match mask_of s with Ok m => (set_mask s m, Ok VNone) | Err e => (s, Err e) end
  | CRotate f shift =>
      (s, match o_polar s with
          | Some P => _ <- rotate_polar P f shift ;; Ok VNone
          | None => Err AssertionError
          end)
  | CRadial f sigma w => radial_step clash s f sigma w
  | CClean => (fresh, Ok VNone)
  end.

(** The object after a sequence of calls; exceptions are caught by the caller. *)
Fixpoint run (clash : res value) (s : obj) (h : list call) : obj :=
  match h with [] => s | c :: t => run clash (fst (step clash s c)) t end.
