(** * Specifications: Monte-Carlo sampling of a cube along spherical shells

    Independent of the model files, see [Spec.v]. *)

From Coq Require Import Reals ZArith List Bool.
From Verif Require Import Base SpecGrid SpecRemap SpecMonte SpecCube.
Import ListNotations.
Open Scope R_scope.

(** A voxel: its numbers along x, y and z. *)
Definition voxel : Type := nat * nat * nat.
Definition vi (q : voxel) : nat := fst (fst q).
Definition vj (q : voxel) : nat := snd (fst q).
Definition vk (q : voxel) : nat := snd q.

(** The point is counted in the voxel. *)
Definition counted_in3 (V : voxels) (p : vec) (q : voxel) : Prop :=
  in_bin (bx0 V) (bhx V) (bnx V) (vx p) (vi q) /\ in_bin (by0 V) (bhy V) (bny V) (vy p) (vj q) /\
  in_bin (bz0 V) (bhz V) (bnz V) (vz p) (vk q).

(** The point is in the closed cube. *)
Definition in_closed3 (V : voxels) (p : vec) : Prop :=
  bx0 V <= vx p <= bx0 V + INR (bnx V) * bhx V /\ by0 V <= vy p <= by0 V + INR (bny V) * bhy V /\
  bz0 V <= vz p <= bz0 V + INR (bnz V) * bhz V.

(** [h] lists the voxels of those points that are in the cube. *)
Inductive hits3 (V : voxels) : list vec -> list voxel -> Prop :=
| hits3_nil : hits3 V [] []
| hits3_in : forall p q l h, counted_in3 V p q -> hits3 V l h -> hits3 V (p :: l) (q :: h)
| hits3_out : forall p l h, ~ in_closed3 V p -> hits3 V l h -> hits3 V (p :: l) h.

(** HEALPix's mark of a pixel without data. *)
Definition no_data : R := - (16375 / 10000 * 10 ^ 30).

(** Mean of the numbers [val q] over the listed voxels. *)
Definition plain_mean3 (val : voxel -> R) (h : list voxel) : num :=
  match h with [] => Some no_data | _ => Some (Rsum (map val h) / INR (length h)) end.

(** Mean with the weights [wt q]; no number if they add up to zero. *)
Definition weighted_mean3 (val wt : voxel -> R) (h : list voxel) : num :=
  match h with
  | [] => Some no_data
  | _ => let t := Rsum (map wt h) in
         if Req_EM_T t 0 then None else Some (Rsum (map (fun q => wt q * val q) h) / t)
  end.

(** Value stored for a voxel by an array whose axes are y, x, z. *)
Definition stored_yxz (f : list (list (list R))) (q : voxel) : R := cell3 f (vj q) (vi q) (vk q).

Definition mean3 (f : list (list (list R))) (w : option (list (list (list R)))) (h : list voxel) : num :=
  match w with
  | None => plain_mean3 (stored_yxz f) h
  | Some w => weighted_mean3 (stored_yxz f) (stored_yxz w) h
  end.

(** The list has [k] distinct entries. *)
Definition distinct3 (h : list voxel) (k : nat) : Prop :=
  exists m, NoDup m /\ length m = k /\ forall q, In q m <-> In q h.

(** Every pixel of every shell gets [n] triples of numbers in [[0, 1)]. *)
Definition fair3 (n : nat) (draws : nat -> nat -> list R * list R * list R) : Prop :=
  forall i j, let '(ux, uy, ur) := draws i j in
    (length ux = n /\ length uy = n /\ length ur = n) /\
    (forall u, In u ux -> 0 <= u < 1) /\ (forall u, In u uy -> 0 <= u < 1) /\ (forall u, In u ur -> 0 <= u < 1).

(** Field value at the middle of a voxel. *)
Definition at_middle (V : voxels) (g : R -> R -> R -> R) (q : voxel) : R := g (mid_x V (vi q)) (mid_y V (vj q)) (mid_z V (vk q)).

(** Distance of a point from a centre. *)
Definition dist3 (p c : vec) : R := sqrt ((vx p - vx c) ^ 2 + (vy p - vy c) ^ 2 + (vz p - vz c) ^ 2).
