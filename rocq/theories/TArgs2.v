(** * Theorems: refused and degenerate arguments of 1D weights and radii (C37, C49) *)

From Coq Require Import Reals ZArith List Bool Lia Lra.
From Flocq Require Import Core.Raux.
From Verif Require Import Base BaseP SpecRandoms MOneD MRandoms PRandoms TRandoms.
Import ListNotations.
Open Scope R_scope.

(** ** C37: no edges at all *)
Theorem C37_no_edges : forall bmin bmax, rebin_1d_single_bin_weights [] bmin bmax = Err ValueError.
Proof. reflexivity. Qed.
Print Assumptions C37_no_edges.

(** ** C49: radii between any limits

    [V] is the cube of the radius asked for by draw [i]: NaN exactly when it is
    negative, the non-negative cube root otherwise. *)
Theorem C49_sphere_any : forall ur size r_min r_max, draws size ur ->
  exists r, randoms_sphere_r ur size r_min r_max = Ok r /\ length r = length ur /\
    forall i, (i < length ur)%nat ->
      let V := (1 - nth i ur 0) * (r_min * r_min * r_min) + nth i ur 0 * (r_max * r_max * r_max) in
      (V < 0 -> nth i r (Some 0) = None) /\
      (0 <= V -> exists x, nth i r None = Some x /\ 0 <= x /\ x * x * x = V).
Proof.
  intros ur size a b Dr. unfold randoms_sphere_r. rewrite random_sample_ok by assumption. cbn [bind].
  eexists. split; [reflexivity|]. split; [apply map_length|]. intros i Hi. set (V := (1 - nth i ur 0) * (a * a * a) + nth i ur 0 * (b * b * b)).
  assert (EV : (b * b * b - a * a * a) * nth i ur 0 + a * a * a = V) by (unfold V; ring). clearbody V.
  split; intros HV.
  - rewrite (nth_map_lt _ _ _ _ i (Some 0) 0) by exact Hi. rewrite EV. unfold cube_root. now rewrite Rlt_bool_true by exact HV.
  - exists (cbrt V). split; [etransitivity; [exact (nth_map_lt _ _ _ _ i None 0 Hi)|]; rewrite EV; apply cube_root_ok; exact HV|]. split; [apply cbrt_nonneg|now apply cbrt_cube].
Qed.
Print Assumptions C49_sphere_any.

(** A ball cannot be asked for by a radius range that reaches below zero. *)
Theorem C49_negative_radius_refuted : exists u r_min r_max, draws 1 [u] /\ r_min <= r_max /\
  randoms_sphere_r [u] 1 r_min r_max = Ok [None].
Proof.
  exists 0, (-1), 1. assert (D : draws 1 [0]) by (split; [reflexivity|]; intros u [<- |[]]; lra).
  split; [exact D|]. split; [lra|]. destruct (C49_sphere_any [0] 1 (-1) 1 D) as (r & E & L & H). rewrite E.
  destruct r as [|x [|y r]]; cbn in L; try discriminate. destruct (H 0%nat) as [H1 _]; [cbn; lia|]. cbn in H1. rewrite H1 by lra. reflexivity.
Qed.
Print Assumptions C49_negative_radius_refuted.

Example C49_any_example : draws 1 [/ 2] /\ randoms_sphere_r [/ 2] 1 (-1) 1 = Ok [Some 0].
Proof.
  assert (D : draws 1 [/ 2]) by (split; [reflexivity|]; intros u [<- |[]]; lra). split; [exact D|].
  destruct (C49_sphere_any [/ 2] 1 (-1) 1 D) as (r & E & L & H). rewrite E.
  destruct r as [|x [|y r]]; cbn in L; try discriminate. destruct (H 0%nat) as [_ H1]; [cbn; lia|]. cbn in H1.
  destruct H1 as (x' & -> & H0 & H1); [lra|]. assert (x' * x' * x' = 0) by lra.
  destruct (Rmult_integral _ _ H2) as [H3|H3]; [destruct (Rmult_integral _ _ H3)|]; subst; auto.
Qed.
