(** * Model of the HEALPix remappers [Heal2Ring] and [Heal2Polar] of
    [magpie/densegrid] and [magpie/montecarlo]

    healpy's [isnsideok] and [ang2pix] are inputs ([ang2pix] may raise).
    Points go through [usphere_spin] and [usphere_shift] one at a time.  A
    set-up call that raises is taken to leave no object behind.  [remap] of the
    dense classes is modelled to the end; what the Monte-Carlo [get_weights]
    does with the samples comes after a call that cannot succeed and is left
    out. *)

From Coq Require Import String.
From Coq Require Import Reals ZArith List Bool.
From Flocq Require Import Core.Raux.
From Verif Require Import Base MCoords MGrids MUsphere MDense MOrtho MCube.
Import ListNotations.
Open Scope R_scope.

(** ** Names of the sub-packages *)

(** coords/__init__.py:1-20: imported names and the modules they come from. *)
Definition coords_names : list string := [
  "conversions"; "cart2polar"; "polar2cart"; "cart2sphere"; "sphere2cart"; "ortho2cart";
  "healpix"; "healpix_xy2ang"; "healpix_ang2xy";
  "usphere_util"; "usphere_area"; "sphere2lonlat"; "lonlat2sphere";
  "polar"; "rotate_polar";
  "usphere"; "usphere_rotate"; "usphere_phi_shift"; "usphere_shift"; "usphere_spin"]%string.

(** randoms/__init__.py:1-23. *)
Definition randoms_names : list string := [
  "cart"; "randoms_1d"; "randoms_2d"; "randoms_3d";
  "pdf"; "pdf2cdf"; "randoms_cdf"; "randoms_pdf";
  "polar"; "randoms_polar";
  "sphere"; "randoms_sphere_r"; "randoms_sphere";
  "subsample"; "shuffle"; "random_draw"; "random_prob_draw"; "stochastic_integer_weights"; "stochastic_binary_weights";
  "usphere"; "randoms_usphere"; "_randoms_healpix_xy"; "randoms_healpix_pixel"]%string.

(** [module.name] *)
Definition attribute (module : list string) (name : string) : res unit :=
  if existsb (String.eqb name) module then Ok tt else Err AttributeError.

(** [coords.sky_area(...)]: the name, then the only function it could mean. *)
Definition sky_area (phi_min phi_max theta_min theta_max : R) : res R :=
  _ <- attribute coords_names "sky_area" ;; usphere_area phi_min phi_max theta_min theta_max.

(** ** Set-up *)

(** heal2ring.py:42-51, heal2polar.py:39-48 and the Monte-Carlo twins:
    [setup_map]. *)
Definition setup_map (isnsideok : Z -> bool) (nside : Z) : res Z := guard isnsideok nside ;; Ok nside.

Definition mid (e : list R) : list R := map2 (fun a b => / 2 * (a + b)) (tl e) (removelast e).

Record cap := Cap {
  cp_alpha_edges : list R; cp_beta_edges : list R; cp_alpha2d : list (list R); cp_beta2d : list (list R);
  cp_center : list R; cp_shift : R }.

(** montecarlo/heal2ring.py:44-86, [setup_polar_cap]; also lines 83-102 of
    densegrid/heal2ring.py. *)
Definition setup_polar_cap (alpha_min alpha_max : R) (num_alpha num_beta : Z) (beta_min beta_max : R)
    (center : list R) (beta_shift : R) : res cap :=
  guard Rle_bool 0 alpha_min ;;
  guard Rlt_bool alpha_min alpha_max ;;
  guard (0 <? num_alpha)%Z ;;
  guard Rle_bool 0 beta_min ;;
  guard Rlt_bool beta_min (2 * PI) ;;
  guard Rlt_bool beta_min beta_max ;;
  guard Rlt_bool 0 beta_max ;;
  guard Rle_bool beta_max (2 * PI) ;;
  guard (0 <? num_beta)%Z ;;
  guard (length center =? 2)%nat ;;
  ae <- linspaceZ alpha_min alpha_max (num_alpha + 1) ;;
  be <- linspaceZ beta_min beta_max (num_beta + 1) ;;
  am1 <- py_get (mid ae) 1 ;; am0 <- py_get (mid ae) 0 ;;
  bm1 <- py_get (mid be) 1 ;; bm0 <- py_get (mid be) 0 ;;
  let '(a2, b2) := meshgrid (mid ae) (mid be) in
  Ok (Cap ae be a2 b2 center beta_shift).

(** Fine grid of a dense object. *)
Record fine := Fine {
  fi_first : nat; fi_second : nat;
  fi_xedges : list R; fi_yedges : list R; fi_x2d : list (list R); fi_y2d : list (list R);
  fi_xind : list nat; fi_yind : list nat; fi_pix : list Z }.

(** A point of the fine grid: spin, shift, pixel. *)
Definition heal_pixel (ang2pix : R -> R -> res Z) (theta0 spin c0 c1 phi theta : R) : res Z :=
  'pt <- (if negb (Req_bool spin 0) then usphere_spin (Some phi) (Some theta) 0 theta0 spin
          else Ok (Some phi, Some theta)) ;;
  'pt <- usphere_shift (fst pt) (snd pt) 0 theta0 c0 c1 ;;
  match pt with
  | (Some p, Some t) => ang2pix t p
  | _ => Err ValueError
  end.

(** densegrid/heal2ring.py:54-119, [setup_polar_cap]. *)
Definition setup_ring (ang2pix : R -> R -> res Z) (alpha_min alpha_max : R) (num_alpha num_beta : Z) (beta_min beta_max : R)
    (center : list R) (beta_shift : R) (rebin_alpha rebin_beta : Z) : res (cap * fine) :=
  C <- setup_polar_cap alpha_min alpha_max num_alpha num_beta beta_min beta_max center beta_shift ;;
  let ae := cp_alpha_edges C in
  let be := cp_beta_edges C in
  ae0 <- py_get ae 0 ;; ael <- py_get ae (-1) ;;
  rae <- linspaceZ ae0 ael (rebin_alpha * Z.of_nat (length (mid ae)) + 1) ;;
  be0 <- py_get be 0 ;; bel <- py_get be (-1) ;;
  rbe <- linspaceZ be0 bel (rebin_beta * Z.of_nat (length (mid be)) + 1) ;;
  let '(ra2, rb2) := meshgrid (mid rae) (mid rbe) in
  rb0 <- py_get rb2 0 ;;
  let '(bind_, aind) := meshgrid_ind (seq 0 (length rb0)) (seq 0 (length rb2)) in
  c0 <- py_get center 0 ;;
  c1 <- py_get center 1 ;;
  pix <- mapM (fun p => heal_pixel ang2pix 0 beta_shift c0 c1 (fst p) (snd p)) (combine (concat rb2) (concat ra2)) ;;
  Ok (C, Fine (Z.to_nat rebin_alpha) (Z.to_nat rebin_beta) rae rbe ra2 rb2 (concat aind) (concat bind_) pix).

Record hbox := HBox {
  hb_xedges : list R; hb_yedges : list R; hb_x2d : list (list R); hb_y2d : list (list R);
  hb_center : list R; hb_alpha : R }.

(** montecarlo/heal2polar.py:43-88, [setup_box]; also lines 76-103 of
    densegrid/heal2polar.py. *)
Definition setup_hbox (x_length : R) (x_grid : Z) (center : list R) (alpha : R) (y_length : option R) (y_grid : option Z)
  : res hbox :=
  guard Rle_bool 0 x_length ;;
  guard Rle_bool x_length (2 * PI) ;;
  guard (0 <? x_grid)%Z ;;
  yl <- match y_length with
        | None => Ok (if Rlt_bool PI x_length then PI else x_length)
        | Some l => guard Rle_bool 0 l ;; guard Rle_bool l PI ;; Ok l
        end ;;
  yg <- match y_grid with
        | None => Ok x_grid
        | Some g => guard (0 <? g)%Z ;; Ok g
        end ;;
  guard (length center =? 2)%nat ;;
  xe <- linspaceZ (- x_length / 2) (x_length / 2) (x_grid + 1) ;;
  ye <- linspaceZ (- yl / 2) (yl / 2) (yg + 1) ;;
  xm1 <- py_get (mid xe) 1 ;; xm0 <- py_get (mid xe) 0 ;;
  ym1 <- py_get (mid ye) 1 ;; ym0 <- py_get (mid ye) 0 ;;
  let '(x2, y2) := meshgrid (mid xe) (mid ye) in
  Ok (HBox xe ye x2 y2 center alpha).

(** densegrid/heal2polar.py:51-120, [setup_box]. *)
Definition setup_hpolar (ang2pix : R -> R -> res Z) (x_length : R) (x_grid : Z) (center : list R) (alpha : R)
    (y_length : option R) (y_grid : option Z) (rebin_x rebin_y : Z) : res (hbox * fine) :=
  H <- setup_hbox x_length x_grid center alpha y_length y_grid ;;
  let xe := hb_xedges H in
  let ye := hb_yedges H in
  xe0 <- py_get xe 0 ;; xel <- py_get xe (-1) ;;
  rxe <- linspaceZ xe0 xel (rebin_x * Z.of_nat (length (mid xe)) + 1) ;;
  ye0 <- py_get ye 0 ;; yel <- py_get ye (-1) ;;
  rye <- linspaceZ ye0 yel (rebin_y * Z.of_nat (length (mid ye)) + 1) ;;
  let '(rx2, ry2) := meshgrid (mid rxe) (mid rye) in
  let '(yind, xind) := meshgrid_ind (seq 0 (length rxe - 1)) (seq 0 (length rye - 1)) in
  c0 <- py_get center 0 ;;
  c1 <- py_get center 1 ;;
  pix <- mapM (fun p => heal_pixel ang2pix (PI / 2) alpha c0 c1 (fst p) (PI / 2 - snd p)) (combine (concat rx2) (concat ry2)) ;;
  Ok (H, Fine (Z.to_nat rebin_x) (Z.to_nat rebin_y) rxe rye rx2 ry2 (concat xind) (concat yind) pix).

(** ** Dense remapping *)

(** densegrid/heal2ring.py:122-147, [Heal2Ring._remap]. *)
Definition ring_remap0 (O : cap * fine) (f : list R) : res (list (list num)) :=
  let '(C, F) := O in
  let highres := map (map (fun _ => 0)) (fi_x2d F) in
  vals <- mapM (py_get f) (fi_pix F) ;;
  let highres := put2 highres (fi_xind F) (fi_yind F) vals in
  b1 <- py_get (fi_yedges F) 1 ;; b0 <- py_get (fi_yedges F) 0 ;;
  area <- mapM (fun i => a0 <- py_get (fi_xedges F) (Z.of_nat i) ;; a1 <- py_get (fi_xedges F) (Z.of_nat i + 1) ;;
                         sky_area 0 (b1 - b0) a0 a1) (seq 0 (length (fi_xedges F) - 1)) ;;
  let '(w2, _) := meshgrid area (mid (fi_yedges F)) in
  let highres := zip2 Rmult highres w2 in
  let n := length (cp_alpha2d C) in
  rb0 <- py_get (fi_y2d F) 0 ;;
  a <- reshape3 n (fi_first F) (length rb0) highres ;;
  a0 <- py_get (cp_alpha2d C) 0 ;;
  a <- reshape3 n (length a0) (fi_second F) (sum_axis1 (length rb0) a) ;;
  b <- reshape3 n (fi_first F) (length rb0) w2 ;;
  b <- reshape3 n (length a0) (fi_second F) (sum_axis1 (length rb0) b) ;;
  Ok (zip2 ndiv (mean_axis2 a) (mean_axis2 b)).

(** densegrid/heal2polar.py:123-148, [Heal2Polar._remap]. *)
Definition hpolar_remap0 (O : hbox * fine) (f : list R) : res (list (list num)) :=
  let '(H, F) := O in
  let highres := map (map (fun _ => 0)) (fi_x2d F) in
  vals <- mapM (py_get f) (fi_pix F) ;;
  let highres := put2 highres (fi_xind F) (fi_yind F) vals in
  x1 <- py_get (fi_xedges F) 1 ;; x0 <- py_get (fi_xedges F) 0 ;;
  area <- mapM (fun i => y0 <- py_get (fi_yedges F) (Z.of_nat i) ;; y1 <- py_get (fi_yedges F) (Z.of_nat i + 1) ;;
                         sky_area 0 (x1 - x0) (y0 + PI / 2) (y1 + PI / 2)) (seq 0 (length (fi_yedges F) - 1)) ;;
  let '(_, w2) := meshgrid (mid (fi_xedges F)) area in
  let highres := zip2 Rmult highres w2 in
  let n := length (hb_x2d H) in
  rx0 <- py_get (fi_x2d F) 0 ;;
  a <- reshape3 n (fi_first F) (length rx0) highres ;;
  h0 <- py_get (hb_x2d H) 0 ;;
  a <- reshape3 n (length h0) (fi_second F) (sum_axis1 (length rx0) a) ;;
  ry0 <- py_get (fi_y2d F) 0 ;;
  b <- reshape3 n (fi_first F) (length ry0) w2 ;;
  b <- reshape3 n (length h0) (fi_second F) (sum_axis1 (length ry0) b) ;;
  Ok (zip2 ndiv (mean_axis2 a) (mean_axis2 b)).

(** heal2ring.py:150-172 and heal2polar.py:151-173, [remap] of the dense
    classes ([f*w] of maps of different lengths raises; length-1 broadcasting
    is not modelled). *)
Definition heal_remap {A} (remap0 : A -> list R -> res (list (list num))) (O : A) (f : list R) (w : option (list R))
  : res (list (list num)) :=
  match w with
  | None => remap0 O f
  | Some w =>
      if (length f =? length w)%nat then
        a <- remap0 O (map2 Rmult f w) ;;
        b <- remap0 O w ;;
        Ok (zip2 ndiv a b)
      else Err ValueError
  end.

(** ** Monte-Carlo weights and remapping *)

(** [randoms.randoms_sky(...)] for a cell, montecarlo/heal2ring.py:110 and
    montecarlo/heal2polar.py:114. *)
Definition randoms_sky : res unit := attribute randoms_names "randoms_sky".

(** montecarlo/heal2ring.py:89-126, [get_weights] up to the samples. *)
Definition cap_get_weights (C : cap) (mc_size : Z) : res unit :=
  guard (1 <? mc_size)%Z ;;
  a0 <- (match cp_alpha2d C with [] => Ok [] | r :: _ => Ok r end) ;;
  _ <- mapM (fun i => mapM (fun j =>
         _ <- py_get (cp_alpha_edges C) (Z.of_nat j) ;; _ <- py_get (cp_alpha_edges C) (Z.of_nat j + 1) ;;
         _ <- py_get (cp_beta_edges C) (Z.of_nat i) ;; _ <- py_get (cp_beta_edges C) (Z.of_nat i + 1) ;;
         randoms_sky) (seq 0 (length a0))) (seq 0 (length (cp_alpha2d C))) ;;
  Ok tt.

(** montecarlo/heal2polar.py:91-129, [get_weights] up to the samples. *)
Definition hbox_get_weights (H : hbox) (mc_size : Z) : res unit :=
  guard (1 <? mc_size)%Z ;;
  a0 <- (match hb_x2d H with [] => Ok [] | r :: _ => Ok r end) ;;
  _ <- mapM (fun i => mapM (fun j =>
         _ <- py_get (hb_xedges H) (Z.of_nat j) ;; _ <- py_get (hb_xedges H) (Z.of_nat j + 1) ;;
         _ <- py_get (hb_yedges H) (Z.of_nat i) ;; _ <- py_get (hb_yedges H) (Z.of_nat i + 1) ;;
         randoms_sky) (seq 0 (length a0))) (seq 0 (length (hb_x2d H))) ;;
  Ok tt.

(** montecarlo/heal2ring.py:146-148: [np.shape(w) == hp.nside2npix(nside)].  A
    tuple is never equal to a Python integer; when [nside] is a numpy integer
    so is the pixel count, and numpy compares element by element: the
    one-element array for a one-dimensional map. *)
Definition shape_is (numpy_int : bool) (w : list R) (npix : nat) : bool := numpy_int && (length w =? npix)%nat.

(** montecarlo/heal2ring.py:129-166 and montecarlo/heal2polar.py:132-169,
    [remap]: the weights [ind_ws] are still [None], because [get_weights]
    never ends, and are subscripted for the first cell ([grid2d] is [alpha2d],
    [x2d]). *)
Definition mc_heal_remap (grid2d : list (list R)) (nside : Z) (numpy_int : bool) (f : list R) (w : option (list R))
  : res (list (list num)) :=
  guard (length f =? nside2npix nside)%nat ;;
  guard (match w with None => true | Some w => shape_is numpy_int w (nside2npix nside) end) ;;
  mapM (fun row => mapM (fun _ => Err TypeError) row) grid2d.

(** ** Rotation and radial profile of the [Heal2Ring] classes *)

(** densegrid/heal2ring.py:175-191, montecarlo/heal2ring.py:169-185,
    [rotate_polar]: [coords.rotate_polar] takes two arguments, three are
    given. *)
Definition cap_rotate (C : cap) (f_polar : list (list R)) (beta_shift : R) : res (list (list R)) :=
  guard same_shape f_polar (cp_beta2d C) ;; Err TypeError.

(** densegrid/heal2ring.py:194-230, montecarlo/heal2ring.py:188-224,
    [polar2radial], first call on an object. *)
Definition cap_radial (pixarea : R) (C : cap) (f_polar : list (list R)) (sigma w : option (list (list R)))
  : res (list num * option (list num)) :=
  let be := cp_beta_edges C in
  let ae := cp_alpha_edges C in
  b1 <- py_get be 1 ;; b0 <- py_get be 0 ;;
  area <- mapM (fun i => a0 <- py_get ae (Z.of_nat i) ;; a1 <- py_get ae (Z.of_nat i + 1) ;; sky_area 0 (b1 - b0) a0 a1)
               (seq 0 (length ae - 1)) ;;
  let area2d := map (fun _ => area) (seq 0 (length be - 1)) in
  guard same_shape f_polar (cp_alpha2d C) ;;
  guard (match sigma with None => true | Some s => same_shape s (cp_alpha2d C) end) ;;
  Ok (polar2radial (length (nth 0 f_polar [])) f_polar area2d pixarea sigma w).
