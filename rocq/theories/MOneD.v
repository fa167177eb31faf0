(** * Model of [magpie/one_d/one_d.py]

    Arrays are float arrays, so division by zero gives a non-finite value
    ([None]) and not an exception. *)

From Coq Require Import Reals ZArith List Bool.
From Flocq Require Import Core.Raux.
From Verif Require Import Base MGrids MUtils.
Import ListNotations.
Open Scope R_scope.

(** one_d.py:19, 71, 125: edges inside the closed new bin. *)
Definition edges_in (bin_edges : list R) (bin_min bin_max : R) : list nat :=
  np_where (map (fun x => Rle_bool bin_min x && Rle_bool x bin_max) bin_edges).

(** one_d.py:21, 73, 128: edges not below the new bin. *)
Definition edges_above (bin_edges : list R) (bin_min : R) : list nat :=
  np_where (map (fun x => Rle_bool bin_min x) bin_edges).

(** Subscripts [condition[0]] and [condition[-1]]. *)
Definition zget (l : list nat) (k : Z) : res Z := i <- py_get l k ;; Ok (Z.of_nat i).

(** one_d.py:39-48, 88-97, 170-178: the weights, all one, and the indices
    before the first and last weights are altered. *)
Definition start_weights (nedges : Z) (condition : list nat) : res (list num * list Z) :=
  c0 <- zget condition 0 ;;
  cl <- zget condition (-1) ;;
  let w := repeat (Some 1) (length condition + 1) in
  let index := map (fun c => (Z.of_nat c - 1)%Z) condition ++ [cl] in
  if (cl =? nedges - 1)%Z then Ok (removelast w, removelast index)
  else if (c0 =? 0)%Z then Ok (tl w, tl index)
  else Ok (w, index).

(** one_d.py:39-54 and 88-103: the weights and indices of the general case. *)
Definition general_weights (bin_edges : list R) (bin_min bin_max : R) (condition : list nat)
  : res (list num * list Z) :=
  let nedges := Z.of_nat (length bin_edges) in
  c0 <- zget condition 0 ;;
  cl <- zget condition (-1) ;;
  '(w, index) <- start_weights nedges condition ;;
  w <- (if negb (c0 =? 0)%Z
        then e0 <- py_get bin_edges c0 ;; em <- py_get bin_edges (c0 - 1) ;;
             py_set w 0 (fdiv (e0 - bin_min) (e0 - em))
        else Ok w) ;;
  w <- (if negb (cl =? nedges - 1)%Z
        then e0 <- py_get bin_edges cl ;; em <- py_get bin_edges (cl - 1) ;;
             py_set w (-1) (fdiv (bin_max - e0) (e0 - em))
        else Ok w) ;;
  Ok (w, index).

(** Fancy assignment with possibly negative indices. *)
Fixpoint put_z {A} (l : list A) (idx : list Z) (vals : list A) : res (list A) :=
  match idx, vals with
  | i :: idx', v :: vals' => l' <- py_set l i v ;; put_z l' idx' vals'
  | _, _ => Ok l
  end.

(** one_d.py:6-55, [rebin_1d_single_bin_weights]; [None] is the NaN returned
    when no bin is found. *)
Definition rebin_1d_single_bin_weights (bin_edges : list R) (bin_min bin_max : R)
  : res (option (list num)) :=
  let nedges := Z.of_nat (length bin_edges) in
  if (nedges - 1 <? 0)%Z then Err ValueError else
  let weights := repeat (Some 0) (length bin_edges - 1) in
  let condition := edges_in bin_edges bin_min bin_max in
  match length condition with
  | O =>
      let condition1 := edges_above bin_edges bin_min in
      if negb (length condition1 =? 0)%nat && negb (length condition1 =? length bin_edges)%nat
      then c <- zget condition1 0 ;; w <- py_set weights (c - 1) (Some 1) ;; Ok (Some w)
      else Ok None
  | 1%nat =>
      c <- zget condition 0 ;;
      if (0 <? c)%Z && (c <? nedges - 1)%Z then
        ec <- py_get bin_edges c ;;
        em <- py_get bin_edges (c - 1) ;;
        w <- py_set weights c (fdiv (ec - bin_min) (ec - em)) ;;
        ep <- py_get bin_edges (c + 1) ;;
        w <- py_set w (c + 1) (fdiv (bin_max - ec) (ep - ec)) ;;
        Ok (Some w)
      else if (c =? 0)%Z then w <- py_set weights c (Some 1) ;; Ok (Some w)
      else if (c =? nedges - 1)%Z then w <- py_set weights c (Some 1) ;; Ok (Some w)
      else Ok (Some weights)
  | _ =>
      '(w, index) <- general_weights bin_edges bin_min bin_max condition ;;
      w <- put_z weights index w ;;
      Ok (Some w)
  end.

(** one_d.py:58-108, [_rebin_1d_single_bin]. *)
Definition rebin_1d_single_bin (bin_edges data : list R) (bin_min bin_max : R) : res num :=
  let nedges := Z.of_nat (length bin_edges) in
  let condition := edges_in bin_edges bin_min bin_max in
  match length condition with
  | O =>
      let condition1 := edges_above bin_edges bin_min in
      if negb (length condition1 =? 0)%nat && negb (length condition1 =? length bin_edges)%nat
      then c <- zget condition1 0 ;; d <- py_get data (c - 1) ;; Ok (Some d)
      else Ok None
  | 1%nat =>
      c <- zget condition 0 ;;
      if (0 <? c)%Z && (c <? nedges - 1)%Z then
        ec <- py_get bin_edges c ;;
        em <- py_get bin_edges (c - 1) ;;
        ep <- py_get bin_edges (c + 1) ;;
        let w1 := fdiv (ec - bin_min) (ec - em) in
        let w2 := fdiv (bin_max - ec) (ep - ec) in
        d1 <- py_get data (c - 1) ;;
        d2 <- py_get data c ;;
        Ok (ndiv (nadd (nmul w1 (Some d1)) (nmul w2 (Some d2))) (nadd w1 w2))
      else if (c =? 0)%Z then d <- py_get data 0 ;; Ok (Some d)
      else d <- py_get data (-1) ;; Ok (Some d)
  | _ =>
      '(w, index) <- general_weights bin_edges bin_min bin_max condition ;;
      d <- mapM (py_get data) index ;;
      Ok (ndiv (nsum (map2 (fun a b => nmul a (Some b)) w d)) (nsum w))
  end.

(** one_d.py:126 *)
Definition bin_lengths (bin_edges : list R) : list R :=
  map2 (fun b a => b - a) (tl bin_edges) (removelast bin_edges).

(** [sigma**2 * (len/length)], square-rooted. *)
Definition sigma_part (s len length : R) : num := nsqrt (nmul (Some (s ^ 2)) (fdiv len length)).

(** one_d.py:111-195, [_rebin_1d_single_bin_sigma]. *)
Definition rebin_1d_single_bin_sigma (bin_edges sigma : list R) (bin_min bin_max : R) : res num :=
  let nedges := Z.of_nat (length bin_edges) in
  let condition := edges_in bin_edges bin_min bin_max in
  let lengths := bin_lengths bin_edges in
  match length condition with
  | O =>
      let condition1 := edges_above bin_edges bin_min in
      if negb (length condition1 =? 0)%nat && negb (length condition1 =? length bin_edges)%nat
      then c <- zget condition1 0 ;;
           s <- py_get sigma (c - 1) ;;
           l <- py_get lengths (c - 1) ;;
           Ok (sigma_part s l (bin_max - bin_min))
      else Ok None
  | 1%nat =>
      c <- zget condition 0 ;;
      if (0 <? c)%Z && (c <? nedges - 1)%Z then
        ec <- py_get bin_edges c ;;
        em <- py_get bin_edges (c - 1) ;;
        ep <- py_get bin_edges (c + 1) ;;
        let w1 := fdiv (ec - bin_min) (ec - em) in
        let w2 := fdiv (bin_max - ec) (ep - ec) in
        let l1 := ec - bin_min in
        let l2 := bin_max - ec in
        a <- (if negb (Req_bool l1 0)
              then len <- py_get lengths (c - 1) ;; s <- py_get sigma (c - 1) ;;
                   Ok (nmul (fdiv len l1) (nsq (nmul w1 (Some s))))
              else Ok (Some 0)) ;;
        a <- (if negb (Req_bool l2 0)
              then len <- py_get lengths c ;; s <- py_get sigma c ;;
                   Ok (nadd a (nmul (fdiv len l2) (nsq (nmul w2 (Some s)))))
              else Ok a) ;;
        Ok (nsqrt (ndiv a (nsq (nadd w1 w2))))
      else if (c =? 0)%Z then
        e0 <- py_get bin_edges 0 ;;
        s <- py_get sigma 0 ;;
        l <- py_get lengths 0 ;;
        Ok (sigma_part s l (bin_max - e0))
      else
        el <- py_get bin_edges (-1) ;;
        s <- py_get sigma (-1) ;;
        l <- py_get lengths (-1) ;;
        Ok (sigma_part s l (el - bin_min))
  | _ =>
      '(w, index) <- start_weights nedges condition ;;
      length <- mapM (py_get lengths) index ;;
      i0 <- py_get index 0 ;;
      '(w, length) <-
        (if negb (i0 =? 0)%Z
         then e0 <- py_get bin_edges i0 ;; em <- py_get bin_edges (i0 - 1) ;;
              w <- py_set w 0 (fdiv (e0 - bin_min) (e0 - em)) ;;
              length <- py_set length 0 (e0 - bin_min) ;;
              Ok (w, length)
         else Ok (w, length)) ;;
      il <- py_get index (-1) ;;
      '(w, length) <-
        (if negb (il =? nedges - 1)%Z
         then e0 <- py_get bin_edges il ;; em <- py_get bin_edges (il - 1) ;;
              w <- py_set w (-1) (fdiv (bin_max - e0) (e0 - em)) ;;
              length <- py_set length (-1) (bin_max - e0) ;;
              Ok (w, length)
         else Ok (w, length)) ;;
      let condition2 := np_where (map (fun l => Rlt_bool 0 l) length) in
      let index := take 0%Z index condition2 in
      let w := take None w condition2 in
      let length := take 0 length condition2 in
      s <- mapM (py_get sigma) index ;;
      let new_sigma := map2 (fun a b => nsq (nmul a (Some b))) w s in
      l <- mapM (py_get lengths) index ;;
      let new_sigma := map2 nmul new_sigma (map2 fdiv l length) in
      Ok (nsqrt (ndiv (nsum new_sigma) (nsq (nsum w))))
  end.

(** [[f(new_bin_edges[i], new_bin_edges[i+1]) for i in range(0, len(new_bin_edges)-1)]]. *)
Definition over_bins {A} (f : R -> R -> res A) (new_bin_edges : list R) : res (list A) :=
  mapM (fun i => f (nth i new_bin_edges 0) (nth (S i) new_bin_edges 0)) (seq 0 (length new_bin_edges - 1)).

(** one_d.py:198-238, [rebin_1d]; the second component is present exactly when
    [sigma] is given. *)
Definition rebin_1d (bin_edges data new_bin_edges : list R) (w sigma : option (list R))
  : res (list num * option (list num)) :=
  guard (Z.of_nat (length bin_edges) - 1 =? Z.of_nat (length data))%Z ;;
  guard (is_pos_monotonic (map Some bin_edges)) ;;
  guard (is_pos_monotonic (map Some new_bin_edges)) ;;
  guard (match w with Some w => (length data =? length w)%nat | None => true end) ;;
  guard (match sigma with Some s => (length data =? length s)%nat | None => true end) ;;
  data_new <- match w with
    | None => over_bins (rebin_1d_single_bin bin_edges data) new_bin_edges
    | Some w =>
        num <- over_bins (rebin_1d_single_bin bin_edges (map2 Rmult data w)) new_bin_edges ;;
        den <- over_bins (rebin_1d_single_bin bin_edges w) new_bin_edges ;;
        Ok (map2 ndiv num den)
    end ;;
  match sigma with
  | None => Ok (data_new, None)
  | Some sigma =>
      sigma_new <- match w with
        | None => over_bins (rebin_1d_single_bin_sigma bin_edges sigma) new_bin_edges
        | Some w =>
            num <- over_bins (rebin_1d_single_bin_sigma bin_edges (map2 Rmult sigma w)) new_bin_edges ;;
            den <- over_bins (rebin_1d_single_bin_sigma bin_edges w) new_bin_edges ;;
            Ok (map2 ndiv num den)
        end ;;
      Ok (data_new, Some sigma_new)
  end.
