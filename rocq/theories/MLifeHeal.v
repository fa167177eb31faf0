(** * Model of the [Heal2Ring] and [Heal2Polar] objects of [magpie/densegrid] and
    [magpie/montecarlo] over sequences of calls

    As in MHeal; [hp.ang2pix] is one function for every [nside].  Attributes
    that no method reads back ([alpha_mid], [beta_mid], [dalpha], [dbeta], [xmid],
    [ymid], [dx], [dy] and the mid points of the fine edges, which are the means
    of neighbouring edges) are left out. *)

From Coq Require Import Reals ZArith List Bool.
From Flocq Require Import Core.Raux.
From Verif Require Import Base MCoords MGrids MUsphere MDense MOrtho MCube MHeal.
Import ListNotations.
Open Scope R_scope.

(** healpy: [isnsideok], [ang2pix], [nside2pixarea], and the exceptions of
    [ang2pix], [nside2npix] and [nside2pixarea] when [nside] is [None]. *)
Record healpy := Healpy {
  isnsideok : Z -> bool; ang2pix_of : Z -> R -> R -> res Z; nside2pixarea : Z -> R;
  no_ang2pix : exc; no_npix : exc; no_pixarea : exc }.

(** The attributes; [None] as in Python.  densegrid/heal2ring.py:14-39,
    densegrid/heal2polar.py:14-36, montecarlo/heal2ring.py:15-31,
    montecarlo/heal2polar.py:14-30.  [h_nside] also says whether [nside] is a
    numpy integer; [h_edges] are the edges ([alpha], [beta] or [x], [y]), always
    stored together; [h_made] is the grid, centre, angle and (dense) fine grid,
    always stored together and later than the edges; [h_pix] is [rebin_pix].  The
    Monte-Carlo [ind_pixs] and [ind_ws] are always [None] (MHeal). *)
Record hobj (A : Type) := HObj {
  h_nside : option (Z * bool); h_edges : option (list R * list R); h_made : option A; h_pix : option (list Z);
  h_area : option (list (list R)); h_pixarea : option R }.
Arguments HObj {A}. Arguments h_nside {A}. Arguments h_edges {A}. Arguments h_made {A}. Arguments h_pix {A}.
Arguments h_area {A}. Arguments h_pixarea {A}.

Definition fresh {A} : hobj A := HObj None None None None None None.

Definition set_nside {A} (s : hobj A) (n : Z * bool) : hobj A := HObj (Some n) (h_edges s) (h_made s) (h_pix s) (h_area s) (h_pixarea s).
Definition set_edges {A} (s : hobj A) (e : list R * list R) : hobj A := HObj (h_nside s) (Some e) (h_made s) (h_pix s) (h_area s) (h_pixarea s).
Definition set_made {A} (s : hobj A) (m : A) : hobj A := HObj (h_nside s) (h_edges s) (Some m) (h_pix s) (h_area s) (h_pixarea s).
Definition set_pix {A} (s : hobj A) (p : list Z) : hobj A := HObj (h_nside s) (h_edges s) (h_made s) (Some p) (h_area s) (h_pixarea s).
Definition set_area {A} (s : hobj A) (a : list (list R)) : hobj A := HObj (h_nside s) (h_edges s) (h_made s) (h_pix s) (Some a) (h_pixarea s).
Definition set_pixarea {A} (s : hobj A) (a : R) : hobj A := HObj (h_nside s) (h_edges s) (h_made s) (h_pix s) (h_area s) (Some a).

(** Arguments of [setup_polar_cap] and [setup_box] common to both packages. *)
Record cap_arg := CapArg {
  a_alpha_min : R; a_alpha_max : R; a_num_alpha : Z; a_num_beta : Z; a_beta_min : R; a_beta_max : R; a_center : list R; a_shift : R }.
Record box_arg := BoxArg {
  b_x_length : R; b_x_grid : Z; b_center : list R; b_alpha : R; b_y_length : option R; b_y_grid : option Z }.

(** Calls on a [Heal2Ring]; the refinements matter to the dense class only and
    are positive (others are not modelled).  [get_weights] exists in the
    Monte-Carlo class only. *)
Inductive rcall :=
| RMap (nside : Z) (numpy_int : bool)
| RSetup (a : cap_arg) (rebin_alpha rebin_beta : positive)
| RWeights (mc_size : Z)
| RRemap (f : list R) (w : option (list R))
| RRotate (f_polar : list (list R)) (beta_shift : R)
| RRadial (f_polar : list (list R)) (sigma w : option (list (list R)))
| RClean.

(** Calls on a [Heal2Polar]. *)
Inductive pcall :=
| PMap (nside : Z) (numpy_int : bool)
| PSetup (a : box_arg) (rebin_x rebin_y : positive)
| PWeights (mc_size : Z)
| PRemap (f : list R) (w : option (list R))
| PClean.

Inductive value := VNone | VGrid (g : list (list num)) | VCells (g : list (list R)) | VRadial (p : list num * option (list num)).

(** [setup_map], as MHeal. *)
Definition map_step {A} (H : healpy) (s : hobj A) (n : Z) (np : bool) : hobj A * res value :=
  match setup_map (isnsideok H) n with
  | Err e => (s, Err e)
  | Ok n => (set_nside s (n, np), Ok VNone)
  end.

(** ** Set-up of the grids *)

(** montecarlo/heal2ring.py:67-78, densegrid/heal2ring.py:80-91: assertions and
    edges. *)
Definition cap_edges (a : cap_arg) : res (list R * list R) :=
  guard Rle_bool 0 (a_alpha_min a) ;;
  guard Rlt_bool (a_alpha_min a) (a_alpha_max a) ;;
  guard (0 <? a_num_alpha a)%Z ;;
  guard Rle_bool 0 (a_beta_min a) ;;
  guard Rlt_bool (a_beta_min a) (2 * PI) ;;
  guard Rlt_bool (a_beta_min a) (a_beta_max a) ;;
  guard Rlt_bool 0 (a_beta_max a) ;;
  guard Rle_bool (a_beta_max a) (2 * PI) ;;
  guard (0 <? a_num_beta a)%Z ;;
  guard (length (a_center a) =? 2)%nat ;;
  ae <- linspaceZ (a_alpha_min a) (a_alpha_max a) (a_num_alpha a + 1) ;;
  be <- linspaceZ (a_beta_min a) (a_beta_max a) (a_num_beta a + 1) ;;
  Ok (ae, be).

Definition cap_of (a : cap_arg) : res cap :=
  setup_polar_cap (a_alpha_min a) (a_alpha_max a) (a_num_alpha a) (a_num_beta a) (a_beta_min a) (a_beta_max a) (a_center a) (a_shift a).

(** montecarlo/heal2polar.py:63-81, densegrid/heal2polar.py:76-95. *)
Definition hbox_edges (a : box_arg) : res (list R * list R) :=
  guard Rle_bool 0 (b_x_length a) ;;
  guard Rle_bool (b_x_length a) (2 * PI) ;;
  guard (0 <? b_x_grid a)%Z ;;
  yl <- match b_y_length a with
        | None => Ok (if Rlt_bool PI (b_x_length a) then PI else b_x_length a)
        | Some l => guard Rle_bool 0 l ;; guard Rle_bool l PI ;; Ok l
        end ;;
  yg <- match b_y_grid a with
        | None => Ok (b_x_grid a)
        | Some g => guard (0 <? g)%Z ;; Ok g
        end ;;
  guard (length (b_center a) =? 2)%nat ;;
  xe <- linspaceZ (- b_x_length a / 2) (b_x_length a / 2) (b_x_grid a + 1) ;;
  ye <- linspaceZ (- yl / 2) (yl / 2) (yg + 1) ;;
  Ok (xe, ye).

Definition hbox_of (a : box_arg) : res hbox :=
  setup_hbox (b_x_length a) (b_x_grid a) (b_center a) (b_alpha a) (b_y_length a) (b_y_grid a).

(** densegrid/heal2ring.py:100-113: the fine grid (without pixels) and its
    points, longitude and colatitude. *)
Definition ring_fine (C : cap) (rebin_alpha rebin_beta : Z) : res (fine * list (R * R)) :=
  let ae := cp_alpha_edges C in
  let be := cp_beta_edges C in
  ae0 <- py_get ae 0 ;; ael <- py_get ae (-1) ;;
  rae <- linspaceZ ae0 ael (rebin_alpha * Z.of_nat (length (mid ae)) + 1) ;;
  be0 <- py_get be 0 ;; bel <- py_get be (-1) ;;
  rbe <- linspaceZ be0 bel (rebin_beta * Z.of_nat (length (mid be)) + 1) ;;
  let '(ra2, rb2) := meshgrid (mid rae) (mid rbe) in
  rb0 <- py_get rb2 0 ;;
  let '(bind_, aind) := meshgrid_ind (seq 0 (length rb0)) (seq 0 (length rb2)) in
  Ok (Fine (Z.to_nat rebin_alpha) (Z.to_nat rebin_beta) rae rbe ra2 rb2 (concat aind) (concat bind_) [],
      combine (concat rb2) (concat ra2)).

(** densegrid/heal2polar.py:104-116. *)
Definition hpolar_fine (B : hbox) (rebin_x rebin_y : Z) : res (fine * list (R * R)) :=
  let xe := hb_xedges B in
  let ye := hb_yedges B in
  xe0 <- py_get xe 0 ;; xel <- py_get xe (-1) ;;
  rxe <- linspaceZ xe0 xel (rebin_x * Z.of_nat (length (mid xe)) + 1) ;;
  ye0 <- py_get ye 0 ;; yel <- py_get ye (-1) ;;
  rye <- linspaceZ ye0 yel (rebin_y * Z.of_nat (length (mid ye)) + 1) ;;
  let '(rx2, ry2) := meshgrid (mid rxe) (mid rye) in
  let '(yind, xind) := meshgrid_ind (seq 0 (length rxe - 1)) (seq 0 (length rye - 1)) in
  Ok (Fine (Z.to_nat rebin_x) (Z.to_nat rebin_y) rxe rye rx2 ry2 (concat xind) (concat yind) [],
      map (fun p => (fst p, PI / 2 - snd p)) (combine (concat rx2) (concat ry2))).

(** densegrid/heal2ring.py:114-119, densegrid/heal2polar.py:117-120: the
    pixels of the points; the angles are computed (and may raise) before
    [nside] is looked at. *)
Definition pixels_of (H : healpy) (nside : option (Z * bool)) (theta0 spin : R) (center : list R) (pts : list (R * R)) : res (list Z) :=
  c0 <- py_get center 0 ;;
  c1 <- py_get center 1 ;;
  let px a := mapM (fun p => heal_pixel a theta0 spin c0 c1 (fst p) (snd p)) pts in
  match nside with
  | Some n => px (ang2pix_of H (fst n))
  | None => _ <- px (fun _ _ => Ok 0%Z) ;; Err (no_ang2pix H)
  end.

(** ** Dense classes *)

Definition with_pix (F : fine) (pix : list Z) : fine :=
  Fine (fi_first F) (fi_second F) (fi_xedges F) (fi_yedges F) (fi_x2d F) (fi_y2d F) (fi_xind F) (fi_yind F) pix.

(** densegrid/heal2ring.py:54-119, [setup_polar_cap] on the object. *)
Definition ring_step (H : healpy) (s : hobj (cap * fine)) (a : cap_arg) (ra rb : positive) : hobj (cap * fine) * res value :=
  match cap_edges a with
  | Err e => (s, Err e)
  | Ok ed =>
      let s := set_edges s ed in
      match C <- cap_of a ;; q <- ring_fine C (Z.pos ra) (Z.pos rb) ;; Ok (C, q) with
      | Err e => (s, Err e)
      | Ok (C, (F, pts)) =>
          let s := set_made s (C, F) in
          match pixels_of H (h_nside s) 0 (a_shift a) (a_center a) pts with
          | Err e => (s, Err e)
          | Ok pix => (set_pix s pix, Ok VNone)
          end
      end
  end.

(** densegrid/heal2polar.py:51-120, [setup_box] on the object. *)
Definition hpolar_step (H : healpy) (s : hobj (hbox * fine)) (a : box_arg) (rx ry : positive) : hobj (hbox * fine) * res value :=
  match hbox_edges a with
  | Err e => (s, Err e)
  | Ok ed =>
      let s := set_edges s ed in
      match B <- hbox_of a ;; q <- hpolar_fine B (Z.pos rx) (Z.pos ry) ;; Ok (B, q) with
      | Err e => (s, Err e)
      | Ok (B, (F, pts)) =>
          let s := set_made s (B, F) in
          match pixels_of H (h_nside s) (PI / 2) (b_alpha a) (b_center a) pts with
          | Err e => (s, Err e)
          | Ok pix => (set_pix s pix, Ok VNone)
          end
      end
  end.

(** [_remap] of the dense classes on the object, densegrid/heal2ring.py:135-136
    and densegrid/heal2polar.py:136-137: [f[rebin_pix]] is stored at [N]
    positions.  Without pixels [f[None]] has the shape [(1, len(f))], which fits
    when [len(f)] is [N] or 1; without a grid it must fit a single position, and
    the next line indexes [None].  [remap0] is [_remap] of a finished object. *)
Definition remap0_of {A} (remap0 : A * fine -> list R -> res (list (list num))) (s : hobj (A * fine)) (f : list R)
  : res (list (list num)) :=
  match h_made s with
  | None => if (length f =? 1)%nat then Err TypeError else Err ValueError
  | Some (C, F) =>
      let N := length (fi_xind F) in
      match h_pix s with
      | None =>
          if (length f =? N)%nat then remap0 (C, with_pix F (map Z.of_nat (seq 0 N))) f
          else if (length f =? 1)%nat then remap0 (C, with_pix F (repeat 0%Z N)) f
          else Err ValueError
      | Some pix =>
          _ <- mapM (py_get f) pix ;;
          if (length pix =? N)%nat then remap0 (C, with_pix F pix) f else Err ValueError
      end
  end.

(** ** Rotation and radial profile of the [Heal2Ring] classes *)

(** densegrid/heal2ring.py:175-191, montecarlo/heal2ring.py:169-185,
    [rotate_polar]; [np.shape(None)] is not the shape of a grid. *)
Definition rotate_of (grid : option cap) (f_polar : list (list R)) (beta_shift : R) : res (list (list R)) :=
  match grid with
  | None => Err AssertionError
  | Some C => cap_rotate C f_polar beta_shift
  end.

(** densegrid/heal2ring.py:217-219, montecarlo/heal2ring.py:211-213: areas of
    the cells from the edges. *)
Definition area_of (edges : option (list R * list R)) : res (list (list R)) :=
  match edges with
  | None => Err TypeError
  | Some (ae, be) =>
      b1 <- py_get be 1 ;; b0 <- py_get be 0 ;;
      area <- mapM (fun i => a0 <- py_get ae (Z.of_nat i) ;; a1 <- py_get ae (Z.of_nat i + 1) ;; sky_area 0 (b1 - b0) a0 a1)
                   (seq 0 (length ae - 1)) ;;
      Ok (map (fun _ => area) (seq 0 (length be - 1)))
  end.

(** densegrid/heal2ring.py:194-230, montecarlo/heal2ring.py:188-224,
    [polar2radial]: areas and pixel area are calculated once and kept. *)
Definition radial_step {A} (H : healpy) (grid : option cap) (s : hobj A) (f_polar : list (list R)) (sigma w : option (list (list R)))
  : hobj A * res value :=
  match match h_area s with Some a => Ok a | None => area_of (h_edges s) end with
  | Err e => (s, Err e)
  | Ok area2d =>
      let s := set_area s area2d in
      match match h_pixarea s with
            | Some a => Ok a
            | None => match h_nside s with Some n => Ok (nside2pixarea H (fst n)) | None => Err (no_pixarea H) end
            end with
      | Err e => (s, Err e)
      | Ok pixarea =>
          (set_pixarea s pixarea,
           match grid with
           | None => Err AssertionError
           | Some C =>
               guard same_shape f_polar (cp_alpha2d C) ;;
               guard (match sigma with None => true | Some e => same_shape e (cp_alpha2d C) end) ;;
               Ok (VRadial (polar2radial (length (nth 0 f_polar [])) f_polar area2d pixarea sigma w))
           end)
      end
  end.

(** ** Monte-Carlo classes *)

(** montecarlo/heal2ring.py:44-86, [setup_polar_cap] on the object. *)
Definition mc_ring_step (s : hobj cap) (a : cap_arg) : hobj cap * res value :=
  match cap_edges a with
  | Err e => (s, Err e)
  | Ok ed =>
      let s := set_edges s ed in
      match cap_of a with
      | Err e => (s, Err e)
      | Ok C => (set_made s C, Ok VNone)
      end
  end.

(** montecarlo/heal2polar.py:43-88, [setup_box] on the object. *)
Definition mc_hpolar_step (s : hobj hbox) (a : box_arg) : hobj hbox * res value :=
  match hbox_edges a with
  | Err e => (s, Err e)
  | Ok ed =>
      let s := set_edges s ed in
      match hbox_of a with
      | Err e => (s, Err e)
      | Ok B => (set_made s B, Ok VNone)
      end
  end.

(** montecarlo/heal2ring.py:102-110, montecarlo/heal2polar.py:105-114,
    [get_weights] up to the samples, for the grid [grid2d] and the edges on the
    object; [len(None)] is a TypeError.  The grid is only there when the edges
    are. *)
Definition weights_of (grid2d : option (list (list R))) (edges : option (list R * list R)) (mc_size : Z) : res unit :=
  guard (1 <? mc_size)%Z ;;
  match grid2d, edges with
  | Some g, Some (e0, e1) =>
      _ <- mapM (fun i => mapM (fun j =>
             _ <- py_get e0 (Z.of_nat j) ;; _ <- py_get e0 (Z.of_nat j + 1) ;;
             _ <- py_get e1 (Z.of_nat i) ;; _ <- py_get e1 (Z.of_nat i + 1) ;;
             randoms_sky) (seq 0 (length (nth 0 g [])))) (seq 0 (length g)) ;;
      Ok tt
  | _, _ => Err TypeError
  end.

(** montecarlo/heal2ring.py:129-166, montecarlo/heal2polar.py:132-169,
    [remap]; [len(None)] is a TypeError. *)
Definition mc_remap_of (H : healpy) (nside : option (Z * bool)) (grid2d : option (list (list R))) (f : list R) (w : option (list R))
  : res (list (list num)) :=
  match nside with
  | None => Err (no_npix H)
  | Some (n, np) =>
      match grid2d with
      | Some g => mc_heal_remap g n np f w
      | None =>
          guard (length f =? nside2npix n)%nat ;;
          guard (match w with None => true | Some w => shape_is np w (nside2npix n) end) ;;
          Err TypeError
      end
  end.

(** ** One call: the object afterwards and the outcome *)

Definition grid_val (r : res (list (list num))) : res value := g <- r ;; Ok (VGrid g).

(** densegrid/heal2ring.py *)
Definition dense_ring (H : healpy) (s : hobj (cap * fine)) (c : rcall) : hobj (cap * fine) * res value :=
  match c with
  | RMap n np => map_step H s n np
  | RSetup a ra rb => ring_step H s a ra rb
  | RWeights _ => (s, Err AttributeError)
  | RRemap f w => (s, grid_val (heal_remap (remap0_of ring_remap0) s f w))
  | RRotate f sh => (s, g <- rotate_of (option_map fst (h_made s)) f sh ;; Ok (VCells g))
  | RRadial f sg w => radial_step H (option_map fst (h_made s)) s f sg w
  | RClean => (fresh, Ok VNone)
  end.

(** montecarlo/heal2ring.py; [remap] and [get_weights] change nothing. *)
Definition mc_ring (H : healpy) (s : hobj cap) (c : rcall) : hobj cap * res value :=
  match c with
  | RMap n np => map_step H s n np
  | RSetup a _ _ => mc_ring_step s a
  | RWeights m => (s, _ <- weights_of (option_map cp_alpha2d (h_made s)) (h_edges s) m ;; Ok VNone)
  | RRemap f w => (s, grid_val (mc_remap_of H (h_nside s) (option_map cp_alpha2d (h_made s)) f w))
  | RRotate f sh => (s, g <- rotate_of (h_made s) f sh ;; Ok (VCells g))
  | RRadial f sg w => radial_step H (h_made s) s f sg w
  | RClean => (fresh, Ok VNone)
  end.

(** densegrid/heal2polar.py *)
Definition dense_polar (H : healpy) (s : hobj (hbox * fine)) (c : pcall) : hobj (hbox * fine) * res value :=
  match c with
  | PMap n np => map_step H s n np
  | PSetup a rx ry => hpolar_step H s a rx ry
  | PWeights _ => (s, Err AttributeError)
  | PRemap f w => (s, grid_val (heal_remap (remap0_of hpolar_remap0) s f w))
  | PClean => (fresh, Ok VNone)
  end.

(** montecarlo/heal2polar.py *)
Definition mc_polar (H : healpy) (s : hobj hbox) (c : pcall) : hobj hbox * res value :=
  match c with
  | PMap n np => map_step H s n np
  | PSetup a _ _ => mc_hpolar_step s a
  | PWeights m => (s, _ <- weights_of (option_map hb_x2d (h_made s)) (h_edges s) m ;; Ok VNone)
  | PRemap f w => (s, grid_val (mc_remap_of H (h_nside s) (option_map hb_x2d (h_made s)) f w))
  | PClean => (fresh, Ok VNone)
  end.

(** The object after a sequence of calls; exceptions are caught by the caller. *)
Fixpoint run {A B} (step : hobj A -> B -> hobj A * res value) (s : hobj A) (h : list B) : hobj A :=
  match h with [] => s | c :: t => run step (fst (step s c)) t end.
