(** * Model of the [densegrid.Heal2Ortho] object over sequences of calls, and of
    [transform] on arrays

    As in MOrtho, [hp.ang2pix] is an arbitrary function of the angles, here one
    for every [nside].  Attributes that no method reads back ([xedges], [yedges],
    [xmid], [ymid], [dx], [dy], [y2d], [z2d], [radius], [rebin_xmid],
    [rebin_yedges], [rebin_ymid], [rebin_z2d]) are left out. *)

From Coq Require Import Reals ZArith List Bool.
From Flocq Require Import Core.Raux.
From Verif Require Import Base MCoords MUsphere MGrids MDense MOrtho.
Import ListNotations.
Open Scope R_scope.

(** healpy: [hp.isnsideok], [hp.ang2pix], and the exception of
    [hp.ang2pix(None, ...)] for valid angles. *)
Record healpy := Healpy { isnsideok : Z -> bool; ang2pix_of : Z -> R -> R -> Z; missing : exc }.

(** heal2ortho.py:14-41, the attributes; [None] as in Python.  The grid
    attributes and [center] are always stored together ([o_grid], whose pixel
    field is left empty); [rebin_pix] is separate. *)
Record oobj := OObj { o_nside : option Z; o_grid : option ortho; o_pix : option (list Z) }.

Definition fresh : oobj := OObj None None None.

(** Rebin factors are positive here; others are not modelled. *)
Inductive call :=
| CMap (nside : Z)
| CBox (x_length : R) (x_grid : Z) (center : list R) (y_length : option R) (y_grid : option Z)
       (rebin_x rebin_y : positive) (radius : R)
| CRemap (f : list R) (w : option (list R))
| CTransform (phi theta : R)
| CClean.

Inductive value := VNone | VPicture (g : list (list num)) | VPoint (x y : num).

(** heal2ortho.py:57-121, [setup_box] up to the pixels: the stored grid (without
    pixels) and the refined points.  Whatever raises here raises before line 94,
    that is before any of the stored attributes is assigned. *)
Definition grid_of (x_length : R) (x_grid : Z) (center : list R) (y_length : option R) (y_grid : option Z)
    (rebin_x rebin_y : positive) (radius : R) : res (ortho * list (R * R * R)) :=
  guard (0 <? x_grid)%Z ;;
  let y_length := match y_length with Some l => l | None => x_length end in
  let y_grid := match y_grid with Some g => g | None => x_grid end in
  guard (length center =? 2)%nat ;;
  xe <- linspaceZ (- x_length / 2) (x_length / 2) (x_grid + 1) ;;
  ye <- linspaceZ (- y_length / 2) (y_length / 2) (y_grid + 1) ;;
  let xm := map2 (fun a b => / 2 * (a + b)) (tl xe) (removelast xe) in
  let ym := map2 (fun a b => / 2 * (a + b)) (tl ye) (removelast ye) in
  xm1 <- py_get xm 1 ;; xm0 <- py_get xm 0 ;;
  ym1 <- py_get ym 1 ;; ym0 <- py_get ym 0 ;;
  let '(x2, y2) := meshgrid xm ym in
  let z2 := zip2 (fun x y => ortho2cart x y radius None) x2 y2 in
  let onsphere := map (map (fun z => if finite z then Some 1 else None)) z2 in
  xe0 <- py_get xe 0 ;; xel <- py_get xe (-1) ;;
  rxe <- linspaceZ xe0 xel (Z.pos rebin_x * Z.of_nat (length xm) + 1) ;;
  let rxm := map2 (fun a b => / 2 * (a + b)) (tl rxe) (removelast rxe) in
  ye0 <- py_get ye 0 ;; yel <- py_get ye (-1) ;;
  rye <- linspaceZ ye0 yel (Z.pos rebin_y * Z.of_nat (length ym) + 1) ;;
  let rym := map2 (fun a b => / 2 * (a + b)) (tl rye) (removelast rye) in
  let '(rx2, ry2) := meshgrid rxm rym in
  let rz2 := zip2 (fun x y => ortho2cart x y radius None) rx2 ry2 in
  let ronsphere := map (map (fun z => if finite z then 1 else 0)) rz2 in
  let rz2 := map (map (fun z => match z with Some z => z | None => 0 end)) rz2 in
  let xind := seq 0 (length rxe - 1) in
  let yind := seq 0 (length rye - 1) in
  let '(yind, xind) := meshgrid_ind xind yind in
  Ok (Ortho x2 onsphere center (Pos.to_nat rebin_x) (Pos.to_nat rebin_y) rxe rx2 ry2 ronsphere (concat xind) (concat yind) [],
      combine (combine (concat rx2) (concat ry2)) (concat rz2)).

(** heal2ortho.py:124-126: the pixels of the points.  The angles are computed
    (and may raise) before [nside] is looked at. *)
Definition pixels_of (H : healpy) (nside : option Z) (center : list R) (pts : list (R * R * R)) : res (list Z) :=
  c0 <- py_get center 0 ;;
  c1 <- py_get center 1 ;;
  let px a := mapM (fun p => ortho_pixel a c0 c1 (fst (fst p)) (snd (fst p)) (snd p)) pts in
  match nside with
  | Some n => px (ang2pix_of H n)
  | None => _ <- px (fun _ _ => 0%Z) ;; Err (missing H)
  end.

Definition with_pix (O : ortho) (pix : list Z) : ortho :=
  Ortho (o_x2d O) (o_onsphere O) (o_center O) (o_rebin_x O) (o_rebin_y O) (o_rebin_xedges O)
        (o_rebin_x2d O) (o_rebin_y2d O) (o_rebin_onsphere O) (o_rebin_xind O) (o_rebin_yind O) pix.

(** heal2ortho.py:57-126, [setup_box] on the object. *)
Definition box_step (H : healpy) (s : oobj) (x_length : R) (x_grid : Z) (center : list R) (y_length : option R) (y_grid : option Z)
    (rebin_x rebin_y : positive) (radius : R) : oobj * res value :=
  match grid_of x_length x_grid center y_length y_grid rebin_x rebin_y radius with
  | Err e => (s, Err e)
  | Ok (g, pts) =>
      match pixels_of H (o_nside s) center pts with
      | Err e => (OObj (o_nside s) (Some g) (o_pix s), Err e)
      | Ok pix => (OObj (o_nside s) (Some g) (Some pix), Ok VNone)
      end
  end.

(** heal2ortho.py:129-154, [_remap] on the object.  Line 143 stores
    [f[rebin_pix]] at [N] positions.  Without pixels [f[None]] has the shape
    [(1, len(f))], which fits the [N] positions when [len(f)] is [N] or 1; without
    a grid it must fit a single position, and line 144 then indexes [None]. *)
Definition remap0_of (s : oobj) (f : list R) : res (list (list num)) :=
  match o_grid s with
  | None => if (length f =? 1)%nat then Err TypeError else Err ValueError
  | Some g =>
      let N := length (o_rebin_xind g) in
      match o_pix s with
      | None =>
          if (length f =? N)%nat then ortho_remap0 (with_pix g (map Z.of_nat (seq 0 N))) f
          else if (length f =? 1)%nat then ortho_remap0 (with_pix g (repeat 0%Z N)) f
          else Err ValueError
      | Some pix =>
          _ <- mapM (py_get f) pix ;;
          if (length pix =? N)%nat then ortho_remap0 (with_pix g pix) f else Err ValueError
      end
  end.

(** heal2ortho.py:157-179, [remap] on the object, as [ortho_remap]. *)
Definition remap_of (s : oobj) (f : list R) (w : option (list R)) : res (list (list num)) :=
  match w with
  | None => remap0_of s f
  | Some w =>
      if (length f =? length w)%nat then
        a <- remap0_of s (map2 Rmult f w) ;;
        b <- remap0_of s w ;;
        Ok (zip2 ndiv a b)
      else Err ValueError
  end.

(** One call: the object afterwards and the outcome.  [setup_map] is
    heal2ortho.py:44-54, [transform] 182-199 (scalar angles), [clean] 202-204. *)
Definition step (H : healpy) (s : oobj) (c : call) : oobj * res value :=
  match c with
  | CMap n => if isnsideok H n then (OObj (Some n) (o_grid s) (o_pix s), Ok VNone) else (s, Err AssertionError)
  | CBox xl xg ct yl yg rx ry rad => box_step H s xl xg ct yl yg rx ry rad
  | CRemap f w => (s, g <- remap_of s f w ;; Ok (VPicture g))
  | CTransform phi theta =>
      (s, match o_grid s with
          | None => Err TypeError
          | Some g => 'p <- ortho_transform (o_center g) phi theta ;; Ok (VPoint (fst p) (snd p))
          end)
  | CClean => (fresh, Ok VNone)
  end.

(** The object after a sequence of calls; exceptions are caught by the caller. *)
Fixpoint run (H : healpy) (s : oobj) (h : list call) : oobj :=
  match h with [] => s | c :: t => run H (fst (step H s c)) t end.

(** heal2ortho.py:182-199, [transform] on array objects (see MUsphere for the
    store): the store afterwards and the two arrays returned.  [r] is an array of
    ones; a comparison with NaN is false. *)
Definition ortho_transform_mem (center : list R) (h : store) (phi theta : nat) : res (store * list num * list num) :=
  c0 <- py_get center 0 ;;
  c1 <- py_get center 1 ;;
  'q <- usphere_shift_mem h phi theta c0 c1 end_phi end_theta ;;
  let '(h, a, b) := q in
  let xyz := map2 (fun p t => match p, t with
                              | Some p, Some t => let '(x, y, z) := sphere2cart 1 p t 0 0 0 in (Some x, Some y, Some z)
                              | _, _ => (None, None, None)
                              end) (deref h a) (deref h b) in
  let x := map (fun q => fst (fst q)) xyz in
  let y := map (fun q => snd (fst q)) xyz in
  let cond := np_where (map (fun q => nltb (snd q) 0) xyz) in
  Ok (h, put x cond (map (fun _ => None) cond), put y cond (map (fun _ => None) cond)).
