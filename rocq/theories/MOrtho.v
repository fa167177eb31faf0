(** * Model of [magpie/densegrid/heal2ortho.py]

    [hp.ang2pix(nside, theta, phi)] is healpy code: it appears as an arbitrary
    function [ang2pix] of the angles; it refuses NaN angles with ValueError.
    Operations on whole 2D arrays are written entry by entry. *)

From Coq Require Import Reals ZArith List Bool.
From Flocq Require Import Core.Raux.
From Verif Require Import Base MCoords MUsphere MGrids MDense.
Import ListNotations.
Open Scope R_scope.

(** The attributes set by [setup_box] that [remap] and [transform] read. *)
Record ortho := Ortho {
  o_x2d : list (list R); o_onsphere : list (list num); o_center : list R;
  o_rebin_x : nat; o_rebin_y : nat; o_rebin_xedges : list R;
  o_rebin_x2d : list (list R); o_rebin_y2d : list (list R); o_rebin_onsphere : list (list R);
  o_rebin_xind : list nat; o_rebin_yind : list nat; o_rebin_pix : list Z }.

(** heal2ortho.py:27, [self.end_center]. *)
Definition end_phi : R := 3 * PI / 2.
Definition end_theta : R := 0.

(** [np.meshgrid] of index arrays. *)
Definition meshgrid_ind (x y : list nat) : list (list nat) * list (list nat) :=
  (map (fun _ => x) y, map (fun b => map (fun _ => b) x) y).

Definition finite (x : num) : bool := match x with Some _ => true | None => false end.

(** heal2ortho.py:123-126 for one point: the pixel of a point of the refined
    grid ([z] is 0 off the sphere, line 114). *)
Definition ortho_pixel (ang2pix : R -> R -> Z) (c0 c1 x y z : R) : res Z :=
  let '(_, phi, theta) := cart2sphere x y z 0 0 0 in
  'pt <- usphere_shift (Some phi) theta end_phi end_theta c0 c1 ;;
  match pt with
  | (Some p, Some t) => Ok (ang2pix t p)
  | _ => Err ValueError
  end.

(** heal2ortho.py:57-126, [Heal2Ortho.setup_box]. *)
Definition ortho_setup (ang2pix : R -> R -> Z) (x_length : R) (x_grid : Z) (center : list R)
    (y_length : option R) (y_grid : option Z) (rebin_x rebin_y : Z) (radius : R) : res ortho :=
  guard (0 <? x_grid)%Z ;;
  let y_length := match y_length with Some l => l | None => x_length end in
  let y_grid := match y_grid with Some g => g | None => x_grid end in
  guard (length center =? 2)%nat ;;
  xe <- linspaceZ (- x_length / 2) (x_length / 2) (x_grid + 1) ;;
  ye <- linspaceZ (- y_length / 2) (y_length / 2) (y_grid + 1) ;;
  let xm := map2 (fun a b => / 2 * (a + b)) (tl xe) (removelast xe) in
  let ym := map2 (fun a b => / 2 * (a + b)) (tl ye) (removelast ye) in
  xm1 <- py_get xm 1 ;; xm0 <- py_get xm 0 ;;
  ym1 <- py_get ym 1 ;; ym0 <- py_get ym 0 ;;
  let '(x2, y2) := meshgrid xm ym in
  let z2 := zip2 (fun x y => ortho2cart x y radius None) x2 y2 in
  let onsphere := map (map (fun z => if finite z then Some 1 else None)) z2 in
  xe0 <- py_get xe 0 ;; xel <- py_get xe (-1) ;;
  rxe <- linspaceZ xe0 xel (rebin_x * Z.of_nat (length xm) + 1) ;;
  let rxm := map2 (fun a b => / 2 * (a + b)) (tl rxe) (removelast rxe) in
  ye0 <- py_get ye 0 ;; yel <- py_get ye (-1) ;;
  rye <- linspaceZ ye0 yel (rebin_y * Z.of_nat (length ym) + 1) ;;
  let rym := map2 (fun a b => / 2 * (a + b)) (tl rye) (removelast rye) in
  let '(rx2, ry2) := meshgrid rxm rym in
  let rz2 := zip2 (fun x y => ortho2cart x y radius None) rx2 ry2 in
  let ronsphere := map (map (fun z => if finite z then 1 else 0)) rz2 in
  let rz2 := map (map (fun z => match z with Some z => z | None => 0 end)) rz2 in
  let xind := seq 0 (length rxe - 1) in
  let yind := seq 0 (length rye - 1) in
  let '(yind, xind) := meshgrid_ind xind yind in
  let xind := concat xind in
  let yind := concat yind in
  let xx := concat rx2 in
  let yy := concat ry2 in
  let zz := concat rz2 in
  c0 <- py_get center 0 ;;
  c1 <- py_get center 1 ;;
  pix <- mapM (fun p => ortho_pixel ang2pix c0 c1 (fst (fst p)) (snd (fst p)) (snd p)) (combine (combine xx yy) zz) ;;
  Ok (Ortho x2 onsphere center (Z.to_nat rebin_x) (Z.to_nat rebin_y) rxe rx2 ry2 ronsphere xind yind pix).

(** [a[xi, yi] = vals] for index arrays of valid positions. *)
Definition put2 (a : list (list R)) (xi yi : list nat) (vals : list R) : list (list R) :=
  fold_left (fun a p => set_nth a (fst (fst p)) (set_nth (nth (fst (fst p)) a []) (snd (fst p)) (snd p)))
            (combine (combine xi yi) vals) a.

(** [f_box[condition] /= weights_2d[condition]] with [weights_2d != 0], entry
    by entry (a NaN weight is also different from 0). *)
Definition divide_where (f : R) (w : num) : num :=
  match w with
  | None => None
  | Some w => if Req_bool w 0 then Some f else Some (f / w)
  end.

(** heal2ortho.py:129-154, [_remap]. *)
Definition ortho_remap0 (O : ortho) (f : list R) : res (list (list num)) :=
  let highres := map (map (fun _ => 0)) (o_rebin_x2d O) in
  vals <- mapM (py_get f) (o_rebin_pix O) ;;
  let highres := put2 highres (o_rebin_xind O) (o_rebin_yind O) vals in
  e1 <- py_get (o_rebin_xedges O) 1 ;; e0 <- py_get (o_rebin_xedges O) 0 ;;
  let weights := o_rebin_onsphere O in
  let highres := zip2 Rmult highres weights in
  let n := length (o_x2d O) in
  rx0 <- py_get (o_rebin_x2d O) 0 ;;
  a <- reshape3 n (o_rebin_x O) (length rx0) highres ;;
  let f_box := sum_axis1 (length rx0) a in
  x0 <- py_get (o_x2d O) 0 ;;
  a <- reshape3 n (length x0) (o_rebin_y O) f_box ;;
  let f_box := sum_axis2 a in
  ry0 <- py_get (o_rebin_y2d O) 0 ;;
  a <- reshape3 n (o_rebin_x O) (length ry0) weights ;;
  let w2 := sum_axis1 (length ry0) a in
  a <- reshape3 n (length x0) (o_rebin_y O) w2 ;;
  let w2 := mean_axis2 a in
  let f_box := zip2 divide_where f_box w2 in
  Ok (zip2 nmul f_box (o_onsphere O)).

(** heal2ortho.py:157-179, [remap]; maps of different lengths cannot be
    multiplied (length-1 broadcasting is not modelled). *)
Definition ortho_remap (O : ortho) (f : list R) (w : option (list R)) : res (list (list num)) :=
  match w with
  | None => ortho_remap0 O f
  | Some w =>
      if (length f =? length w)%nat then
        a <- ortho_remap0 O (map2 Rmult f w) ;;
        b <- ortho_remap0 O w ;;
        Ok (zip2 ndiv a b)
      else Err ValueError
  end.

(** heal2ortho.py:182-198, [transform], scalar angles. *)
Definition ortho_transform (center : list R) (phi theta : R) : res (num * num) :=
  c0 <- py_get center 0 ;;
  c1 <- py_get center 1 ;;
  'pt <- usphere_shift (Some phi) (Some theta) c0 c1 end_phi end_theta ;;
  match pt with
  | (Some p, Some t) =>
      let '(x, y, z) := sphere2cart 1 p t 0 0 0 in
      Ok (if Rlt_bool z 0 then (None, None) else (Some x, Some y))
  | _ => Ok (None, None)
  end.
