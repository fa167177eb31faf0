(** * Model of [magpie/randoms]: [cart.py], [pdf.py], [polar.py], [sphere.py],
      [subsample.py] and [usphere.py:randoms_usphere]

    Each call of [np.random.random_sample] is an input list of numbers in
    [0,1) whose length is the requested size; [np.argsort] is an input
    function (its default algorithm leaves the order of ties open). *)

From Coq Require Import Reals ZArith List Bool.
From Flocq Require Import Core.Raux.
From Verif Require Import Base MGrids.
Import ListNotations.
Open Scope R_scope.

(** [np.random.random_sample(size)] *)
Definition random_sample (size : Z) (u : list R) : res (list R) :=
  if (size <? 0)%Z then Err ValueError else Ok u.

(** randoms/cart.py:4-22, [randoms_1d]: the returned name [xrand] is bound
    nowhere (the local is [xrands]). *)
Definition randoms_1d (u : list R) (size : Z) (xmin xmax : R) : res (list R) :=
  us <- random_sample size u ;;
  let xrands := map (fun v => (xmax - xmin) * v + xmin) us in
  Err NameError.

(** randoms/cart.py:25-43, [randoms_2d]. *)
Definition randoms_2d (ux uy : list R) (size : Z) (mins maxs : list R) : res (list R * list R) :=
  m0 <- py_get mins 0 ;;
  m0' <- py_get mins 0 ;;
  xrands <- randoms_1d ux size m0 m0' ;;
  m1 <- py_get mins 1 ;;
  M1 <- py_get maxs 1 ;;
  yrands <- randoms_1d uy size m1 M1 ;;
  Ok (xrands, yrands).

(** randoms/cart.py:46-65, [randoms_3d]. *)
Definition randoms_3d (ux uy uz : list R) (size : Z) (mins maxs : list R) : res (list R * list R * list R) :=
  m0 <- py_get mins 0 ;;
  m0' <- py_get mins 0 ;;
  xrands <- randoms_1d ux size m0 m0' ;;
  m1 <- py_get mins 1 ;;
  M1 <- py_get maxs 1 ;;
  yrands <- randoms_1d uy size m1 M1 ;;
  m2 <- py_get mins 2 ;;
  M2 <- py_get maxs 2 ;;
  zrands <- randoms_1d uz size m2 M2 ;;
  Ok (xrands, yrands, zrands).

(** randoms/polar.py:4-35, [randoms_polar]. *)
Definition randoms_polar (ur uphi : list R) (size : Z) (r_min r_max phi_min phi_max : R)
  : res (list num * list R) :=
  u_r <- random_sample size ur ;;
  u_phi <- random_sample size uphi ;;
  let r := map (fun u => np_sqrt ((r_max * r_max - r_min * r_min) * u + r_min * r_min)) u_r in
  let phi := map (fun u => (phi_max - phi_min) * u + phi_min) u_phi in
  Ok (r, phi).

(** [x ** (1./3.)] for numpy floats: NaN for a negative base. *)
Definition cube_root (x : R) : num :=
  if Rlt_bool x 0 then None else if Req_bool x 0 then Some 0 else Some (Rpower x (1 / 3)).

(** randoms/sphere.py:6-28, [randoms_sphere_r]. *)
Definition randoms_sphere_r (ur : list R) (size : Z) (r_min r_max : R) : res (list num) :=
  u_r <- random_sample size ur ;;
  let cube x := x * x * x in
  Ok (map (fun u => cube_root ((cube r_max - cube r_min) * u + cube r_min)) u_r).

(** randoms/usphere.py:8-45, [randoms_usphere]. *)
Definition randoms_usphere (uphi utheta : list R) (size : Z) (phi_min phi_max theta_min theta_max : R)
  : res (list R * list num) :=
  u_phi <- random_sample size uphi ;;
  u_theta <- random_sample size utheta ;;
  let phi := map (fun u => phi_min + (phi_max - phi_min) * u) u_phi in
  let theta := map (fun u => np_arccos (cos theta_min - (cos theta_min - cos theta_max) * u)) u_theta in
  Ok (phi, theta).

(** randoms/sphere.py:31-70, [randoms_sphere]. *)
Definition randoms_sphere (ur uphi utheta : list R) (size : Z)
  (r_min r_max phi_min phi_max theta_min theta_max : R) : res (list num * list R * list num) :=
  r <- randoms_sphere_r ur size r_min r_max ;;
  '(phi, theta) <- randoms_usphere uphi utheta size phi_min phi_max theta_min theta_max ;;
  Ok (r, phi, theta).

(** [np.cumsum] with a starting value. *)
Fixpoint cumsum (acc : R) (l : list R) : list R :=
  match l with [] => [] | x :: l' => (acc + x) :: cumsum (acc + x) l' end.

(** [np.max] of a non-empty array. *)
Definition np_max (l : list R) : R := match l with [] => 0 | x :: l' => fold_left Rmax l' x end.

(** randoms/pdf.py:5-35, [pdf2cdf] with [return_normpdf=True] (the other form
    drops the last component).  [pdf] of another length than [xmid] is refused
    by the slice assignment (numpy would broadcast a [pdf] of length one; not
    modelled). *)
Definition pdf2cdf (xmid pdf : list R) : res (list R * list num * list num) :=
  x1 <- py_get xmid 1 ;;
  x0 <- py_get xmid 0 ;;
  let dx := x1 - x0 in
  xl <- py_get xmid (-1) ;;
  let x := linspace (x0 - / 2 * dx) (xl + / 2 * dx) (length xmid + 1) in
  if (length pdf =? length xmid)%nat then
    let cdf := 0 :: map (fun v => v * dx) (cumsum 0 pdf) in
    let m := np_max cdf in
    let normpdf := map (fun v => fdiv v m) pdf in
    Ok (x, map (fun v => fdiv v m) cdf, normpdf)
  else Err ValueError.

(** [np.interp(u, xs, ys)] for non-decreasing [xs] with [xs[0] <= u <= xs[-1]]. *)
Definition np_interp (xs ys : list R) (u : R) : R :=
  let j := (length (filter (fun x => Rle_bool x u) xs) - 1)%nat in
  if (j =? length xs - 1)%nat then nth j ys 0
  else if Req_bool (nth j xs 0) u then nth j ys 0
  else (nth (S j) ys 0 - nth j ys 0) / (nth (S j) xs 0 - nth j xs 0) * (u - nth j xs 0) + nth j ys 0.

(** [scipy.interpolate.interp1d(xs, ys, kind='linear')], which ends in
    [np.interp]; [xs] is sorted first (no change for non-decreasing [xs], the
    only case used here). *)
Definition interp1d_linear (xs ys : list R) : res (R -> num) :=
  if (length xs =? length ys)%nat then Ok (fun u => Some (np_interp xs ys u)) else Err ValueError.

(** randoms/pdf.py:38-62, [randoms_cdf].  The interpolator is an input:
    [interp1d_linear] for [kind='linear'], unspecified for the other kinds. *)
Definition randoms_cdf (interp1d : list R -> list R -> res (R -> num)) (u : list R) (x cdf : list R) (size : Z)
  : res (list num) :=
  c0 <- py_get cdf 0 ;;
  c1 <- (if Req_bool c0 0 then py_get cdf (-1) else Ok 0) ;;
  guard (Req_bool c0 0 && Req_bool c1 1) ;;
  u_r <- random_sample size u ;;
  interp_cdf <- interp1d cdf x ;;
  Ok (map interp_cdf u_r).

(** All entries finite. *)
Fixpoint finite (l : list num) : option (list R) :=
  match l with
  | [] => Some []
  | Some x :: l' => option_map (cons x) (finite l')
  | None :: _ => None
  end.

(** randoms/pdf.py:65-87, [randoms_pdf].  A NaN cdf fails the assertion (its
    first entry is 0/0 or the last one is not 1). *)
Definition randoms_pdf (interp1d : list R -> list R -> res (R -> num)) (u : list R) (xmid pdf : list R) (size : Z)
  : res (list num) :=
  '(x, cdf, _) <- pdf2cdf xmid pdf ;;
  match finite cdf with
  | Some c => randoms_cdf interp1d u x c size
  | None => Err AssertionError
  end.

(** randoms/subsample.py:4-14, [shuffle]. *)
Definition shuffle {A} (argsort : list R -> list nat) (d : A) (u : list R) (sample : list A) : list A :=
  take d sample (argsort u).

(** [l[:size]] *)
Definition head_slice {A} (l : list A) (size : Z) : list A :=
  firstn (Z.to_nat (if (size <? 0)%Z then Z.max 0 (Z.of_nat (length l) + size) else size)) l.

(** randoms/subsample.py:17-37, [random_draw]. *)
Definition random_draw {A} (argsort : list R -> list nat) (d : A) (u : list R) (sample : list A) (size : Z)
  : res (list A) :=
  guard (size <? Z.of_nat (length sample))%Z ;;
  Ok (take d sample (head_slice (argsort u) size)).

(** A scalar or an array of [n] entries. *)
Definition spread (p : arg R) (n : nat) : res (list R) :=
  match p with
  | Sca x => Ok (repeat x n)
  | Seq l => if (length l =? n)%nat then Ok l else Err ValueError
  end.

(** randoms/subsample.py:40-69, [random_prob_draw]; [u] is the first draw,
    [v n] the one of the final [shuffle] of [n] elements.  An array [prob] of another length
    than [sample] is refused (numpy would broadcast length one; not modelled);
    [any] of a scalar comparison raises TypeError. *)
Definition random_prob_draw {A} (argsort : list R -> list nat) (d : A) (u : list R) (v : nat -> list R) (sample : list A)
  (prob : arg R) (size : option Z) : res (list A) :=
  match size with
  | None =>
      p <- spread prob (length sample) ;;
      let cond := np_where (map2 Rle_bool u p) in
      let randsamp := take d sample cond in
      Ok (shuffle argsort d (v (length randsamp)) randsamp)
  | Some size =>
      guard (size <? Z.of_nat (length sample))%Z ;;
      p <- match prob with Sca _ => Err TypeError | Seq l => Ok l end ;;
      guard (negb (existsb (fun x => Rle_bool x 0) p)) ;;
      q <- spread (Seq p) (length sample) ;;
      let u_w := map2 Rdiv u q in
      let randsamp := take d sample (head_slice (argsort u_w) size) in
      Ok (shuffle argsort d (v (length randsamp)) randsamp)
  end.

(** randoms/subsample.py:86-91, scalar branch of [stochastic_integer_weights]. *)
Definition siw_scalar (u w : R) : Z :=
  let c := Zceil w in
  if Rlt_bool u (IZR c - w) then Zfloor w else c.

(** randoms/subsample.py:92-97, array branch. *)
Definition siw_array (u w : list R) : list Z :=
  let si := map Zceil w in
  let cond := np_where (map2 (fun a b => Rlt_bool a b) u (map2 (fun c x => IZR c - x) si w)) in
  put si cond (map Zfloor (take 0 w cond)).

(** randoms/subsample.py:100-123, [stochastic_binary_weights]. *)
Definition sbw_scalar (u w : R) : Z :=
  let si := siw_scalar u w in
  if (1 <? si)%Z then 1%Z else si.

Definition sbw_array (u w : list R) : list Z :=
  let si := siw_array u w in
  let cond := np_where (map (fun s => (1 <? s)%Z) si) in
  put si cond (repeat 1%Z (length cond)).
