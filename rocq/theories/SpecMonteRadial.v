(** * Specifications: radial profile over the covered cells of a ring

    Independent of the model files, see [Spec.v]. *)

From Coq Require Import Reals ZArith List Bool.
From Verif Require Import Base SpecGrid SpecRemap SpecDense SpecMonte.
Import ListNotations.
Open Scope R_scope.

(** A polar map of the given shape, whose cells may have no value. *)
Definition ncell (f : list (list num)) (i j : nat) : num := nth j (nth i f []) None.
Definition nshape (f : list (list num)) (n c : nat) : Prop :=
  length f = n /\ forall i, (i < n)%nat -> length (nth i f []) = c.

(** Sum over the cells [i < n] of a ring that are covered. *)
Definition covered_sum (n : nat) (cov : nat -> bool) (g : nat -> R) : R :=
  sum_upto n (fun i => if cov i then g i else 0).

(** [r] is the mean of the values [v] over the covered cells with weights [w]:
    no value if a covered cell has none or if the weights add up to zero. *)
Definition covered_mean (n : nat) (cov : nat -> bool) (w : nat -> R) (v : nat -> num) (r : num) : Prop :=
  ((exists i, (i < n)%nat /\ cov i = true /\ v i = None) -> r = None) /\
  (forall u, (forall i, (i < n)%nat -> cov i = true -> v i = Some (u i)) ->
     (covered_sum n cov w = 0 -> r = None) /\
     (covered_sum n cov w <> 0 -> r = Some (covered_sum n cov (fun i => w i * u i) / covered_sum n cov w))).

(** [r] is the error of that mean for independent errors [s] of the cells, each
    of which holds [k] pixels. *)
Definition covered_error (n : nat) (cov : nat -> bool) (w s : nat -> R) (k : R) (r : num) : Prop :=
  (covered_sum n cov w = 0 -> r = None) /\
  (covered_sum n cov w <> 0 ->
     r = Some (sqrt (covered_sum n cov (fun i => (w i * s i) ^ 2 / k)) / Rabs (covered_sum n cov w))).

(** Weights of the caller, one everywhere if there are none. *)
Definition weight_at (w : option (list (list R))) (i j : nat) : R :=
  match w with Some w => cell w i j | None => 1 end.

(** Area of a polar cell between two radii and over an angle. *)
Definition sector_area (a b dphi : R) : R := (b ^ 2 - a ^ 2) * dphi / 2.

(** Whether at least one sample of the cell is in the box. *)
Definition has_hit (h : list (nat * nat)) : bool := match h with [] => false | _ => true end.

(** Average of the values that exist. *)
Definition finite_values (l : list num) : list R := flat_map (fun v => match v with Some x => [x] | None => [] end) l.
Definition finite_average (l : list num) : num :=
  match finite_values l with [] => None | x => Some (Rsum x / INR (length x)) end.
