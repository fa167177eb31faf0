(** * Specifications: Monte-Carlo sampling of a pixel map along a polar grid

    Independent of the model files, see [Spec.v]. *)

From Coq Require Import Reals ZArith List Bool.
From Verif Require Import Base SpecGrid SpecRemap SpecDense.
Import ListNotations.
Open Scope R_scope.

(** Position [x] is in bin [i] of [n] bins of width [h] from [o]; the last bin
    includes its upper end. *)
Definition in_bin (o h : R) (n : nat) (x : R) (i : nat) : Prop :=
  (i < n)%nat /\ o + INR i * h <= x /\ (x < o + INR (S i) * h \/ (S i = n /\ x = o + INR n * h)).

(** The point is counted in pixel [(i, j)] (column [i], row [j]). *)
Definition counted_in (V : pixels) (p : R * R) (q : nat * nat) : Prop :=
  in_bin (px0 V) (phx V) (pnx V) (fst p) (fst q) /\ in_bin (py0 V) (phy V) (pny V) (snd p) (snd q).

(** The point is in the closed box. *)
Definition in_closed (V : pixels) (p : R * R) : Prop :=
  px0 V <= fst p <= px0 V + INR (pnx V) * phx V /\ py0 V <= snd p <= py0 V + INR (pny V) * phy V.

(** [h] lists the pixels of those points that are in the box. *)
Inductive hits (V : pixels) : list (R * R) -> list (nat * nat) -> Prop :=
| hits_nil : hits V [] []
| hits_in : forall p q l h, counted_in V p q -> hits V l h -> hits V (p :: l) (q :: h)
| hits_out : forall p l h, ~ in_closed V p -> hits V l h -> hits V (p :: l) h.

(** Mean of the map (rows are y) over the listed pixels; no value for an empty
    list. *)
Definition value (f : list (list R)) (q : nat * nat) : R := cell f (snd q) (fst q).
Definition plain_mean (f : list (list R)) (h : list (nat * nat)) : num :=
  match h with [] => None | _ => Some (Rsum (map (value f) h) / INR (length h)) end.

(** Mean with the weights of a second map; no value if they add up to zero. *)
Definition weighted_mean (f w : list (list R)) (h : list (nat * nat)) : num :=
  let t := Rsum (map (value w) h) in
  if Req_EM_T t 0 then None else Some (Rsum (map (fun q => value w q * value f q) h) / t).

Definition mean_of (f : list (list R)) (w : option (list (list R))) (h : list (nat * nat)) : num :=
  match w with None => plain_mean f h | Some w => weighted_mean f w h end.

(** The list has [k] distinct entries. *)
Definition distinct (h : list (nat * nat)) (k : nat) : Prop :=
  exists m, NoDup m /\ length m = k /\ forall q, In q m <-> In q h.

(** Polar cells by their edges: [ar] and [ap] are the edges in radius and angle. *)
Record sectors := Sectors { se_r : list R; se_p : list R; se_c0 : R; se_c1 : R; se_shift : R }.

(** The sample of cell [(i, j)] for the uniform numbers [u] and [v]: uniform in
    area between the two radii, uniform in angle. *)
Definition drawn_r (a b u : R) : R := sqrt ((b * b - a * a) * u + a * a).
Definition drawn_point (S : sectors) (i j : nat) (uv : R * R) : R * R :=
  let r := drawn_r (nth j (se_r S) 0) (nth (j + 1) (se_r S) 0) (fst uv) in
  let p := (nth (i + 1) (se_p S) 0 - nth i (se_p S) 0) * snd uv + nth i (se_p S) 0 + se_shift S in
  (r * cos p + se_c0 S, r * sin p + se_c1 S).
Definition drawn_points (S : sectors) (draws : nat -> nat -> list R * list R) (i j : nat) : list (R * R) :=
  map (drawn_point S i j) (combine (fst (draws i j)) (snd (draws i j))).

(** Every cell gets [n] pairs of numbers in [[0, 1)]. *)
Definition fair (n : nat) (draws : nat -> nat -> list R * list R) : Prop :=
  forall i j, (length (fst (draws i j)) = n /\ length (snd (draws i j)) = n) /\
    (forall u, In u (fst (draws i j)) -> 0 <= u < 1) /\ (forall u, In u (snd (draws i j)) -> 0 <= u < 1).

(** The point lies in polar cell [(i, j)] turned by the shift. *)
Definition in_sector (S : sectors) (i j : nat) (p : R * R) : Prop :=
  exists r t, nth j (se_r S) 0 <= r <= nth (j + 1) (se_r S) 0 /\ nth i (se_p S) 0 <= t <= nth (i + 1) (se_p S) 0 /\
    p = (r * cos (t + se_shift S) + se_c0 S, r * sin (t + se_shift S) + se_c1 S).

(** [n]+1 values in constant ratio from [a] to [b]. *)
Definition geometric (a b : R) (n i : nat) : R := a * Rpower (b / a) (INR i / INR n).
