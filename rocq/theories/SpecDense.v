(** * Specifications: sampling a pixel map along a polar grid

    Independent of the model files, see [Spec.v]. *)

From Coq Require Import Reals ZArith List Bool.
From Verif Require Import Base SpecGrid SpecRemap.
Import ListNotations.
Open Scope R_scope.

(** A pixel grid: [nx] by [ny] pixels of size [hx] by [hy] from [(x0, y0)]. *)
Record pixels := Pixels { px0 : R; phx : R; pnx : nat; py0 : R; phy : R; pny : nat }.

(** [nx] by [ny] pixels on [[xmin, xmax]] x [[ymin, ymax]]. *)
Definition pixel_grid (xmin xmax : R) (nx : nat) (ymin ymax : R) (ny : nat) : pixels :=
  Pixels xmin ((xmax - xmin) / INR nx) nx ymin ((ymax - ymin) / INR ny) ny.

Definition good_pixels (P : pixels) : Prop := 0 < phx P /\ 0 < phy P.

(** The point lies in pixel [(i, j)] (column [i], row [j]). *)
Definition in_pixel (P : pixels) (x y : R) (i j : nat) : Prop :=
  (i < pnx P)%nat /\ (j < pny P)%nat /\
  px0 P + INR i * phx P <= x < px0 P + INR (S i) * phx P /\
  py0 P + INR j * phy P <= y < py0 P + INR (S j) * phy P.

(** The point lies in the box. *)
Definition in_box (P : pixels) (x y : R) : Prop :=
  px0 P <= x < px0 P + INR (pnx P) * phx P /\ py0 P <= y < py0 P + INR (pny P) * phy P.

(** [v] is the value at the point of the map [f] (rows are y), extended by zero. *)
Definition value_at (P : pixels) (f : list (list R)) (x y v : R) : Prop :=
  (exists i j, in_pixel P x y i j /\ v = cell f j i) \/ (~ in_box P x y /\ v = 0).

(** Weighted mean of [v a c] over a [b] by [b] block with weights [w c]. *)
Definition block_mean (b : nat) (w : nat -> R) (v : nat -> nat -> R) : R :=
  sum_upto b (fun a => sum_upto b (fun c => w c * v a c)) / sum_upto b (fun a => sum_upto b w).

(** A polar grid of [nr] radial and [np] angular bins about [(c0, c1)], turned
    by [shift], every bin refined [b] times in both directions. *)
Record rings := Rings {
  rg_rmin : R; rg_rmax : R; rg_nr : nat; rg_pmin : R; rg_pmax : R; rg_np : nat;
  rg_c0 : R; rg_c1 : R; rg_b : nat; rg_shift : R }.

(** What [setup_polar] accepts. *)
Definition good_rings (G : rings) : Prop :=
  0 <= rg_rmin G < rg_rmax G /\ 0 <= rg_pmin G < rg_pmax G /\ rg_pmax G <= 2 * PI /\ (1 <= rg_nr G)%nat /\ (1 <= rg_np G)%nat.

(** Edges of the refined radial bins. *)
Definition fine_edge (G : rings) (k : nat) : R :=
  rg_rmin G + INR k * ((rg_rmax G - rg_rmin G) / INR (rg_nr G * rg_b G)).

(** Ring area weight of refined bin [c] of radial bin [j]. *)
Definition ring_weight (G : rings) (j c : nat) : R :=
  fine_edge G (S (j * rg_b G + c)) ^ 2 - fine_edge G (j * rg_b G + c) ^ 2.

(** The sample point [(a, c)] of polar cell [(i, j)] (angle [i], radius [j]):
    the middle of a refined bin. *)
Definition sample_r (G : rings) (j c : nat) : R :=
  rg_rmin G + (INR (j * rg_b G + c) + / 2) * ((rg_rmax G - rg_rmin G) / INR (rg_nr G * rg_b G)).
Definition sample_phi (G : rings) (i a : nat) : R :=
  rg_pmin G + (INR (i * rg_b G + a) + / 2) * ((rg_pmax G - rg_pmin G) / INR (rg_np G * rg_b G)) + rg_shift G.
Definition sample_x (G : rings) (i j a c : nat) : R := sample_r G j c * cos (sample_phi G i a) + rg_c0 G.
Definition sample_y (G : rings) (i j a c : nat) : R := sample_r G j c * sin (sample_phi G i a) + rg_c1 G.

Definition sample_in (P : pixels) (G : rings) (i j a c : nat) : Prop :=
  in_box P (sample_x G i j a c) (sample_y G i j a c).

(** [v a c] are the values of the map at the samples of cell [(i, j)]. *)
Definition sampled (P : pixels) (G : rings) (f : list (list R)) (i j : nat) (v : nat -> nat -> R) : Prop :=
  forall a c, (a < rg_b G)%nat -> (c < rg_b G)%nat ->
    value_at P f (sample_x G i j a c) (sample_y G i j a c) (v a c).

(** Radial profile in which partly covered cells contribute nothing to the sum
    of values, but their share [m] of the weight to the normalisation. *)
Definition masked_profile (n : nat) (m w f : list (list R)) (j : nat) : num :=
  let total := sum_upto n (fun i => cell w i j * cell m i j) in
  let value := sum_upto n (fun i => if Req_EM_T (cell m i j) 1 then cell f i j * (cell w i j * cell m i j) else 0) in
  if Req_EM_T total 0 then None else Some (value / total).

(** Plain weighted mean of a ring. *)
Definition ring_mean (n : nat) (w f : list (list R)) (j : nat) : num :=
  let total := sum_upto n (fun i => cell w i j) in
  if Req_EM_T total 0 then None else Some (sum_upto n (fun i => cell f i j * cell w i j) / total).
