(** * Tabulated distributions and stochastic weights in IEEE-754 binary64

    [magpie/randoms/pdf.py] and the weights of [magpie/randoms/subsample.py] on
    doubles.  Draws of [np.random.random_sample] are inputs. *)

From Coq Require Import ZArith List Bool.
From Flocq Require Import Core IEEE754.BinarySingleNaN.
From Verif Require Import Base MDouble MGridsDouble MRemapDouble MRadialDouble.
Import ListNotations.

(** [np.ceil] and [np.floor]. *)
Definition ceil_d : double -> double := @Bnearbyint 53 1024 p1024 mode_UP.
Definition floor_d : double -> double := @Bnearbyint 53 1024 p1024 mode_DN.

Definition one_d : double := dint 1.

(** [np.maximum(a, b)]: a NaN wins. *)
Definition max_d (a b : double) : double :=
  if is_nan a then a else if is_nan b then b else if dlt a b then b else a.

(** [np.max] of a non-empty array. *)
Definition np_max_d (l : list double) : double := match l with [] => dzero | x :: l' => fold_left max_d l' x end.

(** randoms/pdf.py:5-35, [pdf2cdf] with [return_normpdf=True] (the other form
    drops the last component).  A [pdf] of length one is broadcast by the slice
    assignment, any other length than that of [xmid] is refused. *)
Definition pdf2cdf_d (xmid pdf : list double) : res (list double * list double * list double) :=
  x1 <- py_get xmid 1 ;;
  x0 <- py_get xmid 0 ;;
  let dx := dsub x1 x0 in
  xl <- py_get xmid (-1) ;;
  x <- linspace_d (dsub x0 (dmul (dbl 1 (-1)) dx)) (dadd xl (dmul (dbl 1 (-1)) dx)) (Z.of_nat (length xmid) + 1) ;;
  cdf <- set_tail_d (repeat dzero (length x)) (map (fun c => dmul c dx) (cumsum_d pdf)) ;;
  let normpdf := map (fun v => ddiv v (np_max_d cdf)) pdf in
  Ok (x, map (fun c => ddiv c (np_max_d cdf)) cdf, normpdf).

(** [np.interp(u, xs, ys)] for non-decreasing [xs] with [xs[0] <= u], following
    numpy/core/src/multiarray/compiled_base.c. *)
Definition np_interp_d (xs ys : list double) (u : double) : double :=
  let j := (length (filter (fun x => dle x u) xs) - 1)%nat in
  let xj := nth j xs dzero in
  let yj := nth j ys dzero in
  if (j =? length xs - 1)%nat then yj
  else if deq xj u then yj
  else
    let xk := nth (S j) xs dzero in
    let yk := nth (S j) ys dzero in
    let slope := ddiv (dsub yk yj) (dsub xk xj) in
    let y := dadd (dmul slope (dsub u xj)) yj in
    if is_nan y then
      let y := dadd (dmul slope (dsub u xk)) yk in
      if is_nan y && deq yj yk then yj else y
    else y.

(** randoms/pdf.py:38-62, [randoms_cdf] with [kind='linear']:
    [interpolate.interp1d] sorts [cdf] (no change for non-decreasing [cdf], the
    only case used here) and ends in [np.interp]. *)
Definition randoms_cdf_d (u x cdf : list double) (size : Z) : res (list double) :=
  c0 <- py_get cdf 0 ;;
  c1 <- (if deq c0 dzero then py_get cdf (-1) else Ok dzero) ;;
  guard (deq c0 dzero && deq c1 one_d) ;;
  if (size <? 0)%Z then Err ValueError else
  if (length cdf =? length x)%nat then Ok (map (np_interp_d cdf x) u) else Err ValueError.

(** randoms/pdf.py:65-87, [randoms_pdf] with [kind='linear']. *)
Definition randoms_pdf_d (u xmid pdf : list double) (size : Z) : res (list double) :=
  '(x, cdf, _) <- pdf2cdf_d xmid pdf ;;
  randoms_cdf_d u x cdf size.

(** randoms/subsample.py:59, the selection of [random_prob_draw] without [size]. *)
Definition prob_kept_d (u prob : list double) : list nat := np_where (map2 dle u prob).

(** randoms/subsample.py:86-91, scalar branch of [stochastic_integer_weights]. *)
Definition siw_scalar_d (u w : double) : double :=
  let c := ceil_d w in
  if dlt u (dsub c w) then floor_d w else c.

(** randoms/subsample.py:92-97, array branch. *)
Definition siw_array_d (u w : list double) : list double :=
  let si := map ceil_d w in
  let cond := np_where (map2 dlt u (map2 dsub si w)) in
  put si cond (map floor_d (take dzero w cond)).

(** randoms/subsample.py:100-123, [stochastic_binary_weights]. *)
Definition sbw_scalar_d (u w : double) : double :=
  let si := siw_scalar_d u w in
  if dlt one_d si then one_d else si.

Definition sbw_array_d (u w : list double) : list double :=
  let si := siw_array_d u w in
  let cond := np_where (map (fun s => dlt one_d s) si) in
  put si cond (repeat one_d (length cond)).
