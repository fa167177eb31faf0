(** * Model of [magpie/utils/check.py] and [magpie/utils/progress.py] *)

From Coq Require Import Reals ZArith List Bool String Ascii DecimalString.
From Flocq Require Import Core.Raux.
From Verif Require Import Base.
Import ListNotations.
Open Scope R_scope.

(** [a <= b] on floats (false if either is NaN). *)
Definition nle (a b : num) : bool :=
  match a, b with Some x, Some y => Rle_bool x y | _, _ => false end.

(** check.py:3-11, [is_pos_monotonic]. *)
Definition is_pos_monotonic (arr : list num) : bool :=
  forallb (fun i => nle (nth i arr None) (nth (S i) arr None)) (seq 0 (List.length arr - 1)).

(** Python [s * n]: the empty string for [n <= 0]. *)
Fixpoint str_rep (s : string) (n : nat) : string :=
  match n with O => EmptyString | S k => append s (str_rep s k) end.
Definition str_mul (s : string) (n : Z) : string := str_rep s (Z.to_nat n).

(** ["%d" % n]. *)
Definition dec (n : Z) : string := NilZero.string_of_int (Z.to_int n).

Definition nl : string := String "010" EmptyString.
Definition cr : string := String "013" EmptyString.

Open Scope string_scope.

(** progress.py:33-45: the drawn bar. *)
Definition bar_string (index length bar_length : Z)
    (marker_done marker_undone edge_left edge_right : string) : string :=
  let percentage := (IZR (index + 1) / IZR length) * 100 in
  let bar_counts := Ztrunc ((percentage / 100) * IZR bar_length) in
  let bar := edge_left in
  let bar := if negb (bar_counts =? 0)%Z && negb (bar_counts =? bar_length)%Z
             then bar ++ str_mul marker_done bar_counts ++ str_mul marker_undone (bar_length - bar_counts)
             else if (bar_counts =? 0)%Z then bar ++ str_mul marker_undone bar_length
             else bar ++ str_mul marker_done bar_length in
  bar ++ edge_right.

(** progress.py:53-58: the percentage. *)
Definition percentage_string (index length : Z) : string :=
  let percentage := (IZR (index + 1) / IZR length) * 100 in
  if Rlt_bool percentage 10 then "   " ++ dec (Ztrunc percentage) ++ "% "
  else if negb (Req_bool percentage 100) then "  " ++ dec (Ztrunc percentage) ++ "% "
  else " " ++ dec (Ztrunc percentage) ++ "% ".

(** progress.py:4-71, [progress_bar]: the strings handed to
    [sys.stdout.write], in order.  Float arithmetic is exact (idealised). *)
Definition progress_bar (index length : Z) (explanation : option string) (indexing : bool)
    (num_refresh : Z) (marker_done marker_undone bar_edges : string)
    (bar_edge_left bar_edge_right : option string) (bar_length : Z) : res (list string) :=
  if (length =? 0)%Z then Err ZeroDivisionError else
  let edge_left := match bar_edge_left with None => bar_edges | Some s => s end in
  let edge_right := match bar_edge_right with None => bar_edges | Some s => s end in
  let bar := bar_string index length bar_length marker_done marker_undone edge_left edge_right in
  let index_string := if indexing then "[" ++ dec (index + 1) ++ "/" ++ dec length ++ "]" else "" in
  let num_refresh := if (length <=? num_refresh)%Z then length else num_refresh in
  if (num_refresh =? 0)%Z then Err ZeroDivisionError else
  let refresh := Ztrunc (IZR length / IZR num_refresh) in
  let line := match explanation with
              | Some e => cr ++ e ++ " : " ++ bar ++ percentage_string index length ++ index_string
              | None => cr ++ bar ++ percentage_string index length ++ index_string
              end in
  if (refresh =? 0)%Z then Err ZeroDivisionError else
  if ((index + 1) mod refresh =? 0)%Z || (index + 1 =? length)%Z
  then Ok (line :: (if (index + 1 =? length)%Z then [line ++ nl] else []))
  else Ok [].
