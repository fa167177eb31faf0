(** * [magpie/one_d/one_d.py] in IEEE-754 binary64

    As [MOneD.v], with every [+ - * /] and [np.sqrt] rounded to nearest and
    with infinities and NaN ([MDouble.v]).  Arrays are float arrays, so a zero
    denominator gives a non-finite value, not an exception.  [np.sum] adds in an
    arbitrary order fixed by the number of entries ([MSumDouble.v]). *)

From Coq Require Import Reals ZArith List Bool.
From Flocq Require Import IEEE754.BinarySingleNaN.
From Verif Require Import Base MGrids MUtils MOneD MDouble MRemapDouble MSumDouble.
Import ListNotations.

Definition dnan : double := @B754_nan 53 1024.
Definition done : double := dbl 1 0.

(** utils/check.py:3-11, [is_pos_monotonic]. *)
Definition is_pos_monotonic_d (arr : list double) : bool :=
  forallb (fun i => dle (nth i arr dnan) (nth (S i) arr dnan)) (seq 0 (length arr - 1)).

(** one_d.py:19, 72, 125: edges inside the closed new bin. *)
Definition edges_in_d (bin_edges : list double) (bin_min bin_max : double) : list nat :=
  np_where (map (fun x => dle bin_min x && dle x bin_max) bin_edges).

(** one_d.py:21, 74, 128: edges not below the new bin. *)
Definition edges_above_d (bin_edges : list double) (bin_min : double) : list nat :=
  np_where (map (fun x => dle bin_min x) bin_edges).

(** one_d.py:40-47, 94-101, 170-177: the weights, all one, and the indices
    before the first and last weights are altered. *)
Definition start_weights_d (nedges : Z) (condition : list nat) : res (list double * list Z) :=
  c0 <- zget condition 0 ;;
  cl <- zget condition (-1) ;;
  let w := repeat done (length condition + 1) in
  let index := map (fun c => (Z.of_nat c - 1)%Z) condition ++ [cl] in
  if (cl =? nedges - 1)%Z then Ok (removelast w, removelast index)
  else if (c0 =? 0)%Z then Ok (tl w, tl index)
  else Ok (w, index).

(** one_d.py:40-53 and 94-107: the weights and indices of the general case. *)
Definition general_weights_d (bin_edges : list double) (bin_min bin_max : double) (condition : list nat)
  : res (list double * list Z) :=
  let nedges := Z.of_nat (length bin_edges) in
  c0 <- zget condition 0 ;;
  cl <- zget condition (-1) ;;
  '(w, index) <- start_weights_d nedges condition ;;
  w <- (if negb (c0 =? 0)%Z
        then e0 <- py_get bin_edges c0 ;; em <- py_get bin_edges (c0 - 1) ;;
             py_set w 0 (ddiv (dsub e0 bin_min) (dsub e0 em))
        else Ok w) ;;
  w <- (if negb (cl =? nedges - 1)%Z
        then e0 <- py_get bin_edges cl ;; em <- py_get bin_edges (cl - 1) ;;
             py_set w (-1) (ddiv (dsub bin_max e0) (dsub e0 em))
        else Ok w) ;;
  Ok (w, index).

(** one_d.py:58-108, [_rebin_1d_single_bin]. *)
Definition rebin_1d_single_bin_d (o : nat -> tree) (bin_edges data : list double) (bin_min bin_max : double) : res double :=
  let nedges := Z.of_nat (length bin_edges) in
  let condition := edges_in_d bin_edges bin_min bin_max in
  match length condition with
  | O =>
      let condition1 := edges_above_d bin_edges bin_min in
      if negb (length condition1 =? 0)%nat && negb (length condition1 =? length bin_edges)%nat
      then c <- zget condition1 0 ;; py_get data (c - 1)
      else Ok dnan
  | 1%nat =>
      c <- zget condition 0 ;;
      if (0 <? c)%Z && (c <? nedges - 1)%Z then
        ec <- py_get bin_edges c ;;
        em <- py_get bin_edges (c - 1) ;;
        ep <- py_get bin_edges (c + 1) ;;
        let w1 := ddiv (dsub ec bin_min) (dsub ec em) in
        let w2 := ddiv (dsub bin_max ec) (dsub ep ec) in
        d1 <- py_get data (c - 1) ;;
        d2 <- py_get data c ;;
        Ok (ddiv (dadd (dmul w1 d1) (dmul w2 d2)) (dadd w1 w2))
      else if (c =? 0)%Z then py_get data 0
      else py_get data (-1)
  | _ =>
      '(w, index) <- general_weights_d bin_edges bin_min bin_max condition ;;
      d <- mapM (py_get data) index ;;
      Ok (ddiv (sum_d o (map2 dmul w d)) (sum_d o w))
  end.

(** one_d.py:126 *)
Definition bin_lengths_d (bin_edges : list double) : list double :=
  map2 dsub (tl bin_edges) (removelast bin_edges).

(** one_d.py:131-133, 157-159, 163-165. *)
Definition sigma_part_d (s len length : double) : double := dsqrt (dmul (sq s) (ddiv len length)).

(** one_d.py:111-195, [_rebin_1d_single_bin_sigma]. *)
Definition rebin_1d_single_bin_sigma_d (o : nat -> tree) (bin_edges sigma : list double) (bin_min bin_max : double) : res double :=
  let nedges := Z.of_nat (length bin_edges) in
  let condition := edges_in_d bin_edges bin_min bin_max in
  let lengths := bin_lengths_d bin_edges in
  match length condition with
  | O =>
      let condition1 := edges_above_d bin_edges bin_min in
      if negb (length condition1 =? 0)%nat && negb (length condition1 =? length bin_edges)%nat
      then c <- zget condition1 0 ;;
           s <- py_get sigma (c - 1) ;;
           l <- py_get lengths (c - 1) ;;
           Ok (sigma_part_d s l (dsub bin_max bin_min))
      else Ok dnan
  | 1%nat =>
      c <- zget condition 0 ;;
      if (0 <? c)%Z && (c <? nedges - 1)%Z then
        ec <- py_get bin_edges c ;;
        em <- py_get bin_edges (c - 1) ;;
        ep <- py_get bin_edges (c + 1) ;;
        let w1 := ddiv (dsub ec bin_min) (dsub ec em) in
        let w2 := ddiv (dsub bin_max ec) (dsub ep ec) in
        let l1 := dsub ec bin_min in
        let l2 := dsub bin_max ec in
        a <- (if negb (deq l1 dzero)
              then len <- py_get lengths (c - 1) ;; s <- py_get sigma (c - 1) ;;
                   Ok (dmul (ddiv len l1) (sq (dmul w1 s)))
              else Ok dzero) ;;
        a <- (if negb (deq l2 dzero)
              then len <- py_get lengths c ;; s <- py_get sigma c ;;
                   Ok (dadd a (dmul (ddiv len l2) (sq (dmul w2 s))))
              else Ok a) ;;
        Ok (dsqrt (ddiv a (sq (dadd w1 w2))))
      else if (c =? 0)%Z then
        e0 <- py_get bin_edges 0 ;;
        s <- py_get sigma 0 ;;
        l <- py_get lengths 0 ;;
        Ok (sigma_part_d s l (dsub bin_max e0))
      else
        el <- py_get bin_edges (-1) ;;
        s <- py_get sigma (-1) ;;
        l <- py_get lengths (-1) ;;
        Ok (sigma_part_d s l (dsub el bin_min))
  | _ =>
      '(w, index) <- start_weights_d nedges condition ;;
      length <- mapM (py_get lengths) index ;;
      i0 <- py_get index 0 ;;
      '(w, length) <-
        (if negb (i0 =? 0)%Z
         then e0 <- py_get bin_edges i0 ;; em <- py_get bin_edges (i0 - 1) ;;
              w <- py_set w 0 (ddiv (dsub e0 bin_min) (dsub e0 em)) ;;
              length <- py_set length 0 (dsub e0 bin_min) ;;
              Ok (w, length)
         else Ok (w, length)) ;;
      il <- py_get index (-1) ;;
      '(w, length) <-
        (if negb (il =? nedges - 1)%Z
         then e0 <- py_get bin_edges il ;; em <- py_get bin_edges (il - 1) ;;
              w <- py_set w (-1) (ddiv (dsub bin_max e0) (dsub e0 em)) ;;
              length <- py_set length (-1) (dsub bin_max e0) ;;
              Ok (w, length)
         else Ok (w, length)) ;;
      let condition2 := np_where (map (fun l => dlt dzero l) length) in
      let index := take 0%Z index condition2 in
      let w := take dnan w condition2 in
      let length := take dnan length condition2 in
      s <- mapM (py_get sigma) index ;;
      let new_sigma := map2 (fun a b => sq (dmul a b)) w s in
      l <- mapM (py_get lengths) index ;;
      let new_sigma := map2 dmul new_sigma (map2 ddiv l length) in
      Ok (dsqrt (ddiv (sum_d o new_sigma) (sq (sum_d o w))))
  end.

(** [[f(new_bin_edges[i], new_bin_edges[i+1]) for i in range(0, len(new_bin_edges)-1)]]. *)
Definition over_bins_d {A} (f : double -> double -> res A) (new_bin_edges : list double) : res (list A) :=
  mapM (fun i => f (nth i new_bin_edges dnan) (nth (S i) new_bin_edges dnan)) (seq 0 (length new_bin_edges - 1)).

(** one_d.py:198-238, [rebin_1d]; the second component is present exactly when
    [sigma] is given. *)
Definition rebin_1d_d (o : nat -> tree) (bin_edges data new_bin_edges : list double) (w sigma : option (list double))
  : res (list double * option (list double)) :=
  guard (Z.of_nat (length bin_edges) - 1 =? Z.of_nat (length data))%Z ;;
  guard (is_pos_monotonic_d bin_edges) ;;
  guard (is_pos_monotonic_d new_bin_edges) ;;
  guard (match w with Some w => (length data =? length w)%nat | None => true end) ;;
  guard (match sigma with Some s => (length data =? length s)%nat | None => true end) ;;
  data_new <- match w with
    | None => over_bins_d (rebin_1d_single_bin_d o bin_edges data) new_bin_edges
    | Some w =>
        num <- over_bins_d (rebin_1d_single_bin_d o bin_edges (map2 dmul data w)) new_bin_edges ;;
        den <- over_bins_d (rebin_1d_single_bin_d o bin_edges w) new_bin_edges ;;
        Ok (map2 ddiv num den)
    end ;;
  match sigma with
  | None => Ok (data_new, None)
  | Some sigma =>
      sigma_new <- match w with
        | None => over_bins_d (rebin_1d_single_bin_sigma_d o bin_edges sigma) new_bin_edges
        | Some w =>
            num <- over_bins_d (rebin_1d_single_bin_sigma_d o bin_edges (map2 dmul sigma w)) new_bin_edges ;;
            den <- over_bins_d (rebin_1d_single_bin_sigma_d o bin_edges w) new_bin_edges ;;
            Ok (map2 ddiv num den)
        end ;;
      Ok (data_new, Some sigma_new)
  end.
