(** * C17, C21, C22, C26: refused and undefined arguments of the rotations *)

From Coq Require Import Reals ZArith List Bool Lra Lia.
From Flocq Require Import Core.Raux.
From Verif Require Import Base BaseP SpecSphere MCoords MUsphere MPolarCoords PTrig PUsphere PHealSetup PPolarCoords.
Import ListNotations.
Open Scope R_scope.

(** A point with an undefined angle stays undefined. *)
Theorem C17_undefined : forall phi theta pe te ps ts, phi = None \/ theta = None ->
  on_sky ps ts -> on_sky pe te -> ps <> pe \/ ts <> te ->
  usphere_rotate phi theta pe te ps ts = Ok (None, None).
Proof.
  intros phi theta pe te ps ts H S E D. destruct (Classical_Prop.classic (cross (dir ps ts) (dir pe te) = V3 0 0 0)) as [C|C].
  - apply rotate_degenerate; [split; [exact D|auto]|exact C].
  - assert (N : nrm (cross (dir ps ts) (dir pe te)) <> 0).
    { intros Z. apply C. apply dot_zero. unfold nrm in Z. apply sqrt_eq_0; [apply dot_nonneg|exact Z]. }
    unfold usphere_rotate. rewrite rotate_setup_ok by (split; [exact D|auto]).
    destruct (rotate_frame_spec _ _ (dir_unit ps ts) (dir_unit pe te) N) as (f & -> & _). cbn [bind]. unfold rotate_point.
    destruct H as [-> | ->]; [reflexivity|]. now destruct phi.
Qed.
Print Assumptions C17_undefined.

Theorem C21_refused : forall phi theta ps ts pe te, ~ (on_sky ps ts /\ on_sky pe te /\ Rabs (pe - ps) < 2 * PI) ->
  usphere_shift phi theta ps ts pe te = Err AssertionError.
Proof. exact shift_refused. Qed.
Print Assumptions C21_refused.

Theorem C21_undefined : forall phi theta ps ts pe te, on_sky ps ts -> on_sky pe te -> Rabs (pe - ps) < 2 * PI ->
  (usphere_shift None theta ps ts pe te = Ok (None, if Req_bool ts te then theta else None)) /\
  (ts <> te -> usphere_shift phi None ps ts pe te = Ok (None, None)).
Proof.
  intros phi theta ps ts pe te [S1 S2] [E1 E2] D. apply Rabs_def2 in D. unfold usphere_shift. rewrite !in_range_t by assumption. cbn [py_assert].
  rewrite phi_shift_none by lra. cbn [bind]. split.
  - destruct (Req_bool_spec ts te) as [T|T]; [reflexivity|]. cbn [negb]. apply C17_undefined; auto; split; auto.
  - intros T. assert (P : exists x, usphere_phi_shift phi (pe - ps) = Ok x).
    { destruct phi; [eexists; apply phi_shift_ok; lra|eexists; apply phi_shift_none; lra]. }
    destruct P as [x ->]. cbn [bind]. rewrite Req_bool_false by exact T. cbn [negb]. apply C17_undefined; auto; split; auto.
Qed.
Print Assumptions C21_undefined.

Theorem C22_refused : forall phi theta pc tc a, ~ (on_sky pc tc /\ 0 <= a < 2 * PI) -> usphere_spin phi theta pc tc a = Err AssertionError.
Proof. exact spin_refused. Qed.
Print Assumptions C22_refused.

Example C21_refused_case : usphere_shift (Some 0) (Some 0) 7 0 0 0 = Err AssertionError.
Proof.
  apply C21_refused. intros ([[_ H] _] & _). pose proof PI_4. assert (2 * PI < 7) by (pose proof (PI_ineq 3); cbn in *; unfold tg_alt, PI_tg in *; cbn in *; lra). lra.
Qed.

(** Shifts outside (0, 2 pi) are refused, equal first edges raise. *)
Theorem C26_refused : forall pedges f phi_shift,
  (~ 0 < phi_shift < 2 * PI -> rotate_polar_grid pedges f phi_shift = Err AssertionError) /\
  (0 < phi_shift < 2 * PI -> (length pedges < 2)%nat -> rotate_polar_grid pedges f phi_shift = Err IndexError) /\
  (0 < phi_shift < 2 * PI -> forall a l, pedges = a :: a :: l -> rotate_polar_grid pedges f phi_shift = Err OverflowError).
Proof.
  intros pedges f phi_shift. unfold rotate_polar_grid, py_assert. split; [|split].
  - intros H. destruct (Rlt_bool_spec 0 phi_shift); [|reflexivity]. destruct (Rlt_bool_spec phi_shift (2 * PI)); [|reflexivity].
    exfalso. apply H. split; assumption.
  - intros [H0 H1] L. rewrite !Rlt_bool_true by assumption. cbn [bind].
    destruct pedges as [|a [|b l]]; [reflexivity|reflexivity|cbn [length] in L; lia].
  - intros [H0 H1] a l ->. rewrite !Rlt_bool_true by assumption. cbn [bind].
    change (py_get (a :: a :: l) 1) with (py_get ([a] ++ a :: l) (Z.of_nat (length [a]))).
    assert (G1 : py_get ([a] ++ a :: l) (Z.of_nat (length [a])) = Ok a).
    { rewrite (py_get_ok _ _ _ 0) by (cbn [app length]; lia). reflexivity. }
    assert (G0 : py_get (a :: a :: l) 0 = Ok a).
    { rewrite (py_get_ok _ _ _ 0) by (cbn [length]; lia). reflexivity. }
    rewrite G1. cbn [bind]. rewrite G0. cbn [bind]. rewrite Req_bool_true by ring. reflexivity.
Qed.
Print Assumptions C26_refused.
