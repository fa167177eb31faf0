(** * Model of [magpie/montecarlo/box2ring.py]

    [setup_box] (73-99) has the body of the dense version and is
    [MDense.setup_box].  A set-up call that raises is taken to leave no object
    behind.  Numbers drawn by [np.random.random_sample] are inputs.

    [polar2radial] (327-374) is in [MMonteRadial.v]. *)

From Coq Require Import Reals ZArith List Bool.
From Flocq Require Import Core.Raux.
From Verif Require Import Base MCoords MGrids MPolarCoords MRandoms MDense.
Import ListNotations.
Open Scope R_scope.

Record mc_polar := McPolar {
  mc_redges : list R; mc_pedges : list R; mc_r2d : list (list R); mc_p2d : list (list R);
  mc_center : list R; mc_shift : R }.

(** box2ring.py:102-144, [setup_polar_lin]. *)
Definition setup_polar_lin (rmin rmax : R) (numr nump : Z) (pmin pmax : R) (center : list R) (phi_shift : R)
  : res mc_polar :=
  guard Rle_bool 0 rmin ;;
  guard Rlt_bool rmin rmax ;;
  guard (0 <? numr)%Z ;;
  guard Rle_bool 0 pmin ;;
  guard Rlt_bool pmin (2 * PI) ;;
  guard Rlt_bool pmin pmax ;;
  guard Rlt_bool 0 pmax ;;
  guard Rle_bool pmax (2 * PI) ;;
  guard (0 <? nump)%Z ;;
  guard (length center =? 2)%nat ;;
  re <- linspaceZ rmin rmax (numr + 1) ;;
  pe <- linspaceZ pmin pmax (nump + 1) ;;
  let rm := map2 (fun a b => / 2 * (a + b)) (tl re) (removelast re) in
  let pm := map2 (fun a b => / 2 * (a + b)) (tl pe) (removelast pe) in
  rm1 <- py_get rm 1 ;; rm0 <- py_get rm 0 ;;
  pm1 <- py_get pm 1 ;; pm0 <- py_get pm 0 ;;
  let '(r2, p2) := meshgrid rm pm in
  Ok (McPolar re pe r2 p2 center phi_shift).

(** [np.log10] of a positive number, [np.logspace(a, b, n)]. *)
Definition log10 (x : R) : R := ln x / ln 10.
Definition logspaceZ (a b : R) (n : Z) : res (list R) :=
  l <- linspaceZ a b n ;; Ok (map (Rpower 10) l).

(** box2ring.py:147-195, [setup_polar_log]. *)
Definition setup_polar_log (rmin rmax : R) (numr nump : Z) (pmin pmax : R) (center : list R) (phi_shift : R)
    (addzero : bool) : res mc_polar :=
  guard Rlt_bool 0 rmin ;;
  guard Rlt_bool rmin rmax ;;
  guard (0 <? numr)%Z ;;
  guard Rle_bool 0 pmin ;;
  guard Rlt_bool pmin (2 * PI) ;;
  guard Rlt_bool pmin pmax ;;
  guard Rlt_bool 0 pmax ;;
  guard Rle_bool pmax (2 * PI) ;;
  guard (0 <? nump)%Z ;;
  guard (length center =? 2)%nat ;;
  re <- (if addzero then
           l <- logspaceZ (log10 rmin) (log10 rmax) numr ;; Ok (0 :: l)
         else logspaceZ (log10 rmin) (log10 rmax) (numr + 1)) ;;
  pe <- linspaceZ pmin pmax (nump + 1) ;;
  let rm := map2 (fun a b => / 2 * (a + b)) (tl re) (removelast re) in
  let pm := map2 (fun a b => / 2 * (a + b)) (tl pe) (removelast pe) in
  pm1 <- py_get pm 1 ;; pm0 <- py_get pm 0 ;;
  let '(r2, p2) := meshgrid rm pm in
  Ok (McPolar re pe r2 p2 center phi_shift).

(** ** [np.histogramdd] with integer bin counts and a range per axis *)

(** numpy's choice of the outer edges. *)
Definition outer_edges (a b : R) : res (R * R) :=
  if Rlt_bool b a then Err ValueError
  else if Req_bool a b then Ok (a - / 2, b + / 2) else Ok (a, b).

Definition hist_edges (a b : R) (n : nat) : res (list R) :=
  '(a, b) <- outer_edges a b ;; Ok (linspace a b (S n)).

(** Bin of one coordinate: [searchsorted(edges, x, side='right')] is the number
    of edges not above [x] (the edges increase); the right end is put in the
    last bin; outliers have no bin. *)
Definition hist_bin (edges : list R) (x : R) : option nat :=
  let n := length (filter (fun e => Rle_bool e x) edges) in
  let n := if Req_bool x (last edges 0) then (n - 1)%nat else n in
  if (1 <=? n)%nat && (n <=? length edges - 1)%nat then Some (n - 1)%nat else None.

(** Bin of a point; a NaN coordinate is an outlier. *)
Definition hist_bin2 (ex ey : list R) (p : option (R * R)) : option (nat * nat) :=
  match p with
  | Some (x, y) =>
      match hist_bin ex x, hist_bin ey y with Some i, Some j => Some (i, j) | _, _ => None end
  | None => None
  end.

Definition is_bin (i j : nat) (b : option (nat * nat)) : bool :=
  match b with Some (a, c) => (a =? i)%nat && (c =? j)%nat | None => false end.

Definition histogram2 (ex ey : list R) (pts : list (option (R * R))) : list (list R) :=
  let bins := map (hist_bin2 ex ey) pts in
  map (fun i => map (fun j => INR (length (filter (is_bin i j) bins))) (seq 0 (length ey - 1))) (seq 0 (length ex - 1)).

(** [np.where(H != 0.)], as index pairs in row-major order. *)
Definition where2 (H : list (list R)) : list (nat * nat) :=
  flat_map (fun i => map (fun j => (i, j))
    (filter (fun j => negb (Req_bool (nth j (nth i H []) 0) 0)) (seq 0 (length (nth i H []))))) (seq 0 (length H)).

(** ** Weights *)

(** One polar cell: the three parallel arrays [ind_x], [ind_y], [ind_w]. *)
Definition entry : Type := nat * nat * R.
Definition e_x (e : entry) : nat := fst (fst e).
Definition e_y (e : entry) : nat := snd (fst e).
Definition e_w (e : entry) : R := snd e.

(** box2ring.py:219-234, one polar cell. *)
Definition cell_weights (B : box_grid) (P : mc_polar) (draws : list R * list R) (mc_size : Z) (i j : nat)
  : res (list entry) :=
  rmin <- py_get (mc_redges P) (Z.of_nat j) ;; rmax <- py_get (mc_redges P) (Z.of_nat (j + 1)) ;;
  pmin <- py_get (mc_pedges P) (Z.of_nat i) ;; pmax <- py_get (mc_pedges P) (Z.of_nat (i + 1)) ;;
  '(rrand, prand) <- randoms_polar (fst draws) (snd draws) mc_size rmin rmax pmin pmax ;;
  let prand := map (shift_phi (mc_shift P)) prand in
  c0 <- py_get (mc_center P) 0 ;;
  c1 <- py_get (mc_center P) 1 ;;
  let pts := map2 (fun r p => option_map (fun r => polar2cart r p c0 c1) r) rrand prand in
  x0 <- py_get (xedges B) 0 ;; x1 <- py_get (xedges B) (-1) ;;
  y0 <- py_get (yedges B) 0 ;; y1 <- py_get (yedges B) (-1) ;;
  ex <- hist_edges x0 x1 (length (xedges B) - 1) ;;
  ey <- hist_edges y0 y1 (length (yedges B) - 1) ;;
  let H := histogram2 ex ey pts in
  Ok (map (fun c => (snd c, fst c, nth (snd c) (nth (fst c) H []) 0 / IZR mc_size)) (where2 H)).

(** [np.array(l, dtype=object)] of the arrays of a row of cells: 1D array of
    arrays if their lengths differ, 2D array of numbers otherwise. *)
Inductive obj_row := RaggedRow (r : list (list entry)) | UniformRow (k : nat) (r : list (list entry)).
Definition make_row (r : list (list entry)) : obj_row :=
  let k := length (nth 0 r []) in
  if forallb (fun c => (length c =? k)%nat) r then UniformRow k r else RaggedRow r.

(** [np.array(rows, dtype=object)]: rows of equal shape are stacked; rows that
    agree in their first length only cannot be stored and raise. *)
Inductive obj := Arrays (a : list (list (list entry))) | Numbers (k : nat) (a : list (list (list entry))).
Definition row_cells (r : obj_row) : list (list entry) := match r with RaggedRow r => r | UniformRow _ r => r end.
Definition is_ragged (r : obj_row) : bool := match r with RaggedRow _ => true | UniformRow _ _ => false end.
Definition is_uniform (k : nat) (r : obj_row) : bool :=
  match r with RaggedRow _ => false | UniformRow k' _ => (k' =? k)%nat end.
Definition stack_rows (rows : list obj_row) : res obj :=
  if forallb is_ragged rows then Ok (Arrays (map row_cells rows))
  else match rows with
       | UniformRow k _ :: _ => if forallb (is_uniform k) rows then Ok (Numbers k (map row_cells rows)) else Err ValueError
       | _ => Err ValueError
       end.

(** box2ring.py:198-245, [get_weights]. *)
Definition get_weights (B : box_grid) (P : mc_polar) (draws : nat -> nat -> list R * list R) (mc_size : Z) : res obj :=
  guard (1 <? mc_size)%Z ;;
  rows <- mapM (fun i => mapM (fun j => cell_weights B P (draws i j) mc_size i j)
                  (seq 0 (length (nth 0 (mc_r2d P) [])))) (seq 0 (length (mc_r2d P))) ;;
  stack_rows (map make_row rows).

(** ** Remapping *)

(** [a[ind_x, ind_y]] entry by entry. *)
Definition read_entries (a : list (list R)) (c : list entry) : res (list R) :=
  mapM (fun e => row <- py_get a (Z.of_nat (e_x e)) ;; py_get row (Z.of_nat (e_y e))) c.

(** box2ring.py:271-282 for one cell stored as arrays. *)
Definition cell_value (f : list (list R)) (w : option (list (list R))) (c : list entry) : res num :=
  let ws := map e_w c in
  if Req_bool (Rsum ws) 0 then Ok None else
  match w with
  | None =>
      fv <- read_entries f c ;;
      Ok (fdiv (Rsum (map2 Rmult ws fv)) (Rsum ws))
  | Some w =>
      wv <- read_entries w c ;;
      fv <- read_entries f c ;;
      Ok (fdiv (Rsum (map2 Rmult (map2 Rmult ws wv) fv)) (Rsum (map2 Rmult ws wv)))
  end.

(** The same cell stored as rows of an array of numbers of type object: such an
    array is refused as an index. *)
Definition cell_value_obj (c : list entry) : res num :=
  if Req_bool (Rsum (map e_w c)) 0 then Ok None else Err IndexError.

(** box2ring.py:248-285, [remap]; [W] is [None] before [get_weights]. *)
Definition mc_remap (B : box_grid) (P : mc_polar) (W : option obj) (f : list (list R)) (w : option (list (list R)))
  : res (list (list num)) :=
  guard same_shape f (x2d B) ;;
  guard (match w with Some w => same_shape w (x2d B) | None => true end) ;;
  mapM (fun i => mapM (fun j =>
      match W with
      | None => Err TypeError
      | Some (Arrays a) => r <- py_get a (Z.of_nat i) ;; c <- py_get r (Z.of_nat j) ;; cell_value f w c
      | Some (Numbers _ a) => r <- py_get a (Z.of_nat i) ;; c <- py_get r (Z.of_nat j) ;; cell_value_obj c
      end) (seq 0 (length (nth 0 (mc_r2d P) [])))) (seq 0 (length (mc_r2d P))).

(** box2ring.py:288-305, [get_mask_in_bound]. *)
Definition mc_mask (B : box_grid) (P : mc_polar) (W : option obj) : res (list (list R)) :=
  m <- mc_remap B P W (map (map (fun _ => 1)) (x2d B)) None ;;
  Ok (map (map (fun v => match v with Some x => x | None => 0 end)) m).
