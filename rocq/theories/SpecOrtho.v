(** * Specifications: orthographic picture of the sky

    Independent of the model files, see [Spec.v]. *)

From Coq Require Import Reals ZArith List Bool.
From Verif Require Import Base SpecSphere SpecGrid SpecRemap.
Import ListNotations.
Open Scope R_scope.

(** Unit vector pointing north at longitude [p] and colatitude [t]. *)
Definition north (p t : R) : vec := V3 (- cos p * cos t) (- sin p * cos t) (sin t).

(** The sky direction [s] appears at [(x, y)] in the orthographic picture of a
    sphere of radius [rad] seen from above the point [(c0, c1)]: east to the
    right, north upwards, and only the visible hemisphere. *)
Definition appears (c0 c1 rad : R) (s : vec) (x y : R) : Prop :=
  dot s s = 1 /\ 0 < dot (dir c0 c1) s /\ rad * dot (east c0) s = x /\ rad * dot (north c0 c1) s = y.

(** A picture of [nx] by [ny] cells and size [lx] by [ly] centred on 0, each
    cell refined [b] times in both directions. *)
Record picture := Picture { pc_lx : R; pc_nx : nat; pc_ly : R; pc_ny : nat; pc_b : nat; pc_rad : R }.

(** Middle of column [j] (row [i]), and of its refined columns (rows). *)
Definition col_mid (Q : picture) (j : nat) : R := - (pc_lx Q / 2) + (INR j + / 2) * (pc_lx Q / INR (pc_nx Q)).
Definition row_mid (Q : picture) (i : nat) : R := - (pc_ly Q / 2) + (INR i + / 2) * (pc_ly Q / INR (pc_ny Q)).
Definition fine_col (Q : picture) (j c : nat) : R :=
  - (pc_lx Q / 2) + (INR (j * pc_b Q + c) + / 2) * (pc_lx Q / INR (pc_nx Q * pc_b Q)).
Definition fine_row (Q : picture) (i a : nat) : R :=
  - (pc_ly Q / 2) + (INR (i * pc_b Q + a) + / 2) * (pc_ly Q / INR (pc_ny Q * pc_b Q)).

Definition on_disc (rad x y : R) : Prop := x ^ 2 + y ^ 2 < rad ^ 2.

(** 1 on the disc, 0 off it. *)
Definition disc (rad x y : R) : R := if Rlt_dec (x ^ 2 + y ^ 2) (rad ^ 2) then 1 else 0.
Definition fine_disc (Q : picture) (i j a c : nat) : R := disc (pc_rad Q) (fine_col Q j c) (fine_row Q i a).

(** Sum of [v a c] over a [b] by [b] block. *)
Definition block_sum (b : nat) (v : nat -> nat -> R) : R := sum_upto b (fun a => sum_upto b (fun c => v a c)).

(** [v a c] are the values of the sky map [f] (a list indexed by [pix theta phi])
    in the directions seen at the refined positions of cell [(i, j)]. *)
Definition sky_samples (pix : R -> R -> Z) (c0 c1 : R) (Q : picture) (f : list R) (i j : nat) (v : nat -> nat -> R) : Prop :=
  forall a c, (a < pc_b Q)%nat -> (c < pc_b Q)%nat -> on_disc (pc_rad Q) (fine_col Q j c) (fine_row Q i a) ->
  exists p t, on_sky p t /\ appears c0 c1 (pc_rad Q) (dir p t) (fine_col Q j c) (fine_row Q i a) /\
    v a c = nth (Z.to_nat (pix t p)) f 0.

(** [pix] maps sky positions to entries of a map of [n] entries. *)
Definition indexes (pix : R -> R -> Z) (n : nat) : Prop := forall p t, on_sky p t -> (0 <= pix t p < Z.of_nat n)%Z.
