(** * Model of [magpie/densegrid/box2ring.py]

    The object is modelled by the results of its set-up methods; a set-up call
    that raises is taken to leave no object behind. *)

From Coq Require Import Reals ZArith List Bool.
From Flocq Require Import Core.Raux.
From Verif Require Import Base MCoords MGrids MPolarCoords.
Import ListNotations.
Open Scope R_scope.

(** [np.meshgrid(x, y)] (default indexing: rows are [y]). *)
Definition meshgrid (x y : list R) : list (list R) * list (list R) :=
  (map (fun _ => x) y, map (fun b => map (fun _ => b) x) y).

(** [a.reshape(n, b, c)] of a 2D array, row-major. *)
Definition reshape3 (n b c : nat) (a : list (list R)) : res (list (list (list R))) :=
  let l := concat a in
  if (length l =? n * b * c)%nat then
    Ok (map (fun i => map (fun j => map (fun k => nth ((i * b + j) * c + k) l 0) (seq 0 c)) (seq 0 b)) (seq 0 n))
  else Err ValueError.

(** [np.sum(a, axis=1)] of an array whose last axis has [c] entries. *)
Definition sum_axis1 (c : nat) (a : list (list (list R))) : list (list R) :=
  map (fun m => map (fun k => Rsum (map (fun row => nth k row 0) m)) (seq 0 c)) a.

(** [np.sum(a, axis=2)] and [np.mean(a, axis=2)]. *)
Definition sum_axis2 (a : list (list (list R))) : list (list R) := map (map Rsum) a.
Definition mean_axis2 (a : list (list (list R))) : list (list num) :=
  map (map (fun row => fdiv (Rsum row) (INR (length row)))) a.

(** ** Set-up *)

Record box_grid := BoxGrid {
  xedges : list R; yedges : list R; xmid : list R; ymid : list R; dx : R; dy : R;
  x2d : list (list R); y2d : list (list R) }.

(** box2ring.py:46-72, [setup_box]. *)
Definition setup_box (xmin xmax : R) (numx : Z) (ymin ymax : R) (numy : Z) : res box_grid :=
  guard (0 <? numx)%Z ;;
  guard (0 <? numy)%Z ;;
  xe <- linspaceZ xmin xmax (numx + 1) ;;
  ye <- linspaceZ ymin ymax (numy + 1) ;;
  let xm := map2 (fun a b => / 2 * (a + b)) (tl xe) (removelast xe) in
  let ym := map2 (fun a b => / 2 * (a + b)) (tl ye) (removelast ye) in
  xe1 <- py_get xe 1 ;; xe0 <- py_get xe 0 ;;
  ye1 <- py_get ye 1 ;; ye0 <- py_get ye 0 ;;
  let '(x2, y2) := meshgrid xm ym in
  Ok (BoxGrid xe ye xm ym (xe1 - xe0) (ye1 - ye0) x2 y2).

Record polar_grid := PolarGrid {
  redges : list R; pedges : list R; r2d : list (list R); p2d : list (list R); center : list R;
  rebin_r : nat; rebin_p : nat;
  rebin_redges : list R; rebin_pmid : list R; rebin_r2d : list (list R); rebin_p2d : list (list R) }.

(** box2ring.py:128-133: shift and wrap one angle (the masked updates of the
    2D array, entry by entry). *)
Definition shift_phi (phi_shift p : R) : R :=
  if Req_bool phi_shift 0 then p else
  let p := p + phi_shift in
  let p := if Rlt_bool (2 * PI) p then p - 2 * PI else p in
  if Rlt_bool p 0 then p + 2 * PI else p.

(** box2ring.py:75-133, [setup_polar]. *)
Definition setup_polar (rmin rmax : R) (numr nump : Z) (pmin pmax : R) (center : list R)
    (rebin_r rebin_p : Z) (phi_shift : R) : res polar_grid :=
  guard Rle_bool 0 rmin ;;
  guard Rlt_bool rmin rmax ;;
  guard (0 <? numr)%Z ;;
  guard Rle_bool 0 pmin ;;
  guard Rlt_bool pmin (2 * PI) ;;
  guard Rlt_bool pmin pmax ;;
  guard Rlt_bool 0 pmax ;;
  guard Rle_bool pmax (2 * PI) ;;
  guard (0 <? nump)%Z ;;
  guard (length center =? 2)%nat ;;
  re <- linspaceZ rmin rmax (numr + 1) ;;
  pe <- linspaceZ pmin pmax (nump + 1) ;;
  let rm := map2 (fun a b => / 2 * (a + b)) (tl re) (removelast re) in
  let pm := map2 (fun a b => / 2 * (a + b)) (tl pe) (removelast pe) in
  rm1 <- py_get rm 1 ;; rm0 <- py_get rm 0 ;;
  pm1 <- py_get pm 1 ;; pm0 <- py_get pm 0 ;;
  let '(r2, p2) := meshgrid rm pm in
  re0 <- py_get re 0 ;; rel <- py_get re (-1) ;;
  rre <- linspaceZ re0 rel (rebin_r * Z.of_nat (length rm) + 1) ;;
  let rrm := map2 (fun a b => / 2 * (a + b)) (tl rre) (removelast rre) in
  pe0 <- py_get pe 0 ;; pel <- py_get pe (-1) ;;
  rpe <- linspaceZ pe0 pel (rebin_p * Z.of_nat (length pm) + 1) ;;
  let rpm := map2 (fun a b => / 2 * (a + b)) (tl rpe) (removelast rpe) in
  let '(rr2, rp2) := meshgrid rrm rpm in
  let rp2 := map (map (shift_phi phi_shift)) rp2 in
  Ok (PolarGrid re pe r2 p2 center (Z.to_nat rebin_r) (Z.to_nat rebin_p) rre rpm rr2 rp2).

(** ** Remapping *)

(** box2ring.py:151-159 for one sample: the pixel holding the point, if any.
    A non-finite quotient (zero pixel size) becomes a negative integer by
    [astype(int)] and is skipped. *)
Definition sample_pixel (x y x0 y0 dx dy : R) (nx ny : nat) : option (Z * Z) :=
  let xind := option_map Zfloor (fdiv (x - x0) dx) in
  let yind := option_map Zfloor (fdiv (y - y0) dy) in
  match xind, yind with
  | Some xi, Some yi =>
      if (0 <=? xi)%Z && (xi <? Z.of_nat nx)%Z && (0 <=? yi)%Z && (yi <? Z.of_nat ny)%Z
      then Some (xi, yi) else None
  | _, _ => None
  end.

Definition sample_value (f : list (list R)) (pix : option (Z * Z)) : res R :=
  match pix with
  | Some (xi, yi) => row <- py_get f yi ;; py_get row xi
  | None => Ok 0
  end.

(** box2ring.py:135-168, [_remap]. *)
Definition remap0 (B : box_grid) (P : polar_grid) (f : list (list R)) : res (list (list num)) :=
  c0 <- py_get (center P) 0 ;;
  c1 <- py_get (center P) 1 ;;
  x0 <- py_get (xedges B) 0 ;;
  y0 <- py_get (yedges B) 0 ;;
  let pts := zip2 (fun r p => polar2cart r p c0 c1) (rebin_r2d P) (rebin_p2d P) in
  highres <- mapM (fun row => mapM (fun xy =>
      sample_value f (sample_pixel (fst xy) (snd xy) x0 y0 (dx B) (dy B) (length (xmid B)) (length (ymid B)))) row) pts ;;
  let rbin_weights := map2 (fun b a => b ^ 2 - a ^ 2) (tl (rebin_redges P)) (removelast (rebin_redges P)) in
  let weights2d := map (fun _ => rbin_weights) (rebin_pmid P) in
  let highres := zip2 Rmult highres weights2d in
  let n := length (r2d P) in
  rp0 <- py_get (rebin_p2d P) 0 ;;
  let c := length rp0 in
  rr0 <- py_get (r2d P) 0 ;;
  let m := length rr0 in
  a <- reshape3 n (rebin_r P) c highres ;;
  let fp := sum_axis1 c a in
  a <- reshape3 n m (rebin_p P) fp ;;
  let fp := mean_axis2 a in
  a <- reshape3 n (rebin_r P) c weights2d ;;
  let wp := sum_axis1 c a in
  a <- reshape3 n m (rebin_p P) wp ;;
  let wp := mean_axis2 a in
  Ok (zip2 ndiv fp wp).

(** box2ring.py:171-193, [remap]; [w] has the shape of [f]. *)
Definition remap (B : box_grid) (P : polar_grid) (f : list (list R)) (w : option (list (list R)))
  : res (list (list num)) :=
  match w with
  | None => remap0 B P f
  | Some w =>
      a <- remap0 B P (zip2 Rmult f w) ;;
      b <- remap0 B P w ;;
      Ok (zip2 ndiv a b)
  end.

(** box2ring.py:196-213, [get_mask_in_bound]. *)
Definition get_mask_in_bound (B : box_grid) (P : polar_grid) : res (list (list R)) :=
  let mask := map (map (fun _ => 1)) (x2d B) in
  m <- remap B P mask None ;;
  Ok (map (map (fun v => match v with Some x => x | None => 0 end)) m).

(** box2ring.py:216-232, [rotate_polar]: [coords.rotate_polar] takes two
    arguments, three are given. *)
Definition rotate_polar (P : polar_grid) (f_polar : list (list R)) (phi_shift : R) : res (list (list R)) :=
  guard (length f_polar =? length (p2d P))%nat && (length (nth 0 f_polar []) =? length (nth 0 (p2d P) []))%nat ;;
  Err TypeError.

(** ** Radial profiles *)

(** The attributes that are computed on first use and kept. *)
Record cache := Cache { area2d : option (list (list R)); pixarea : option R; mask_in_bound : option (list (list R)) }.
Definition no_cache : cache := Cache None None None.

Definition same_shape (a b : list (list R)) : bool :=
  (length a =? length b)%nat && (length (nth 0 a []) =? length (nth 0 b []))%nat.

(** [m.all()] *)
Definition np_all (m : list (list R)) : bool := forallb (forallb (fun v => negb (Req_bool v 0))) m.

(** [a[np.where(m != 1.)] = 0.] *)
Definition zero_where (m a : list (list R)) : list (list R) :=
  zip2 (fun v x => if negb (Req_bool v 1) then 0 else x) m a.

(** box2ring.py:235-282, [polar2radial]: the result, the attributes and the
    contents of the caller's weight array afterwards. *)
Definition polar2radial_method (B : box_grid) (P : polar_grid) (s : cache)
    (f_polar : list (list R)) (sigma w : option (list (list R)))
  : res ((list num * option (list num)) * cache * option (list (list R))) :=
  ar <- match area2d s with Some a => Ok a | None => get_polar_area2d (redges P) (pedges P) end ;;
  pa <- match pixarea s with Some a => Ok a | None => get_pixarea (xedges B) (yedges B) end ;;
  guard same_shape f_polar (p2d P) ;;
  m <- match mask_in_bound s with Some m => Ok m | None => get_mask_in_bound B P end ;;
  let s := Cache (Some ar) (Some pa) (Some m) in
  let c := length (nth 0 (p2d P) []) in
  let '(f_polar, sigma, w', w_use) :=
    if negb (np_all m) then
      let f_polar := zero_where m f_polar in
      let sigma := option_map (zero_where m) sigma in
      match w with
      | Some w => let w := zip2 Rmult w m in (f_polar, sigma, Some w, Some w)
      | None => (f_polar, sigma, None, Some m)
      end
    else (f_polar, sigma, w, w) in
  match sigma with
  | None => Ok (polar2radial c f_polar ar pa None w_use, s, w')
  | Some sg =>
      guard same_shape sg (p2d P) ;;
      Ok (polar2radial c f_polar ar pa (Some sg) w_use, s, w')
  end.
