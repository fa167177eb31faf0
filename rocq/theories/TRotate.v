(** * C25: the [rotate_polar] methods of the [Box2Ring] classes *)

From Coq Require Import Reals ZArith List Bool Lra Lia.
From Flocq Require Import Core.Raux.
From Verif Require Import Base BaseP MGrids MDense MMonte PDense PMonte TDense.
From Verif Require MLife MLifeMonte.
Import ListNotations.
Open Scope R_scope.

(** Dense grids, after any history of calls: the call raises and leaves the
    object as it was.  With rings set up it is a TypeError exactly for a map of
    the shape of the rings. *)
Theorem C25_dense_method : forall clash h f shift,
  let s := MLife.run clash MLife.fresh h in
  fst (MLife.step clash s (MLife.CRotate f shift)) = s /\
  (MLife.o_polar s = None -> snd (MLife.step clash s (MLife.CRotate f shift)) = Err AssertionError) /\
  (forall P, MLife.o_polar s = Some P ->
     snd (MLife.step clash s (MLife.CRotate f shift)) =
       if same_shape f (p2d P) then Err TypeError else Err AssertionError).
Proof.
  intros clash h f shift s. split; [reflexivity|]. split.
  - intros E. cbn [MLife.step snd]. now rewrite E.
  - intros P E. cbn [MLife.step snd]. rewrite E. unfold rotate_polar, same_shape.
    now destruct ((length f =? length (p2d P))%nat && (length (nth 0 f []) =? length (nth 0 (p2d P) []))%nat).
Qed.
Print Assumptions C25_dense_method.

(** Monte Carlo grids. *)
Theorem C25_monte_method : forall nobox clash h f shift,
  let s := MLifeMonte.run nobox clash MLifeMonte.fresh h in
  fst (MLifeMonte.step nobox clash s (MLifeMonte.CRotate f shift)) = s /\
  (MLifeMonte.b_polar s = None -> snd (MLifeMonte.step nobox clash s (MLifeMonte.CRotate f shift)) = Err AssertionError) /\
  (forall P, MLifeMonte.b_polar s = Some P ->
     snd (MLifeMonte.step nobox clash s (MLifeMonte.CRotate f shift)) =
       if same_shape f (mc_p2d P) then Err TypeError else Err AssertionError).
Proof.
  intros nobox clash h f shift s. split; [reflexivity|]. split.
  - intros E. cbn [MLifeMonte.step snd]. now rewrite E.
  - intros P E. cbn [MLifeMonte.step snd]. rewrite E. now destruct (same_shape f (mc_p2d P)).
Qed.
Print Assumptions C25_monte_method.

(** A correctly used object: two rings, two sectors, a two by two map. *)
Example C25_dense_case : forall clash,
  snd (MLife.step clash (MLife.run clash MLife.fresh [MLife.CSetupPolar 0 1 2 2 0 1 [0; 0] 1 1 0])
         (MLife.CRotate [[1; 2]; [3; 4]] (1 / 2))) = Err TypeError.
Proof.
  intros clash. pose proof PI2_1. pose proof PI_RGT_0.
  destruct (C25_dense_method clash [MLife.CSetupPolar 0 1 2 2 0 1 [0; 0] 1 1 0] [[1; 2]; [3; 4]] (1 / 2)) as (_ & _ & H1).
  destruct (MLife.o_polar (MLife.run clash MLife.fresh [MLife.CSetupPolar 0 1 2 2 0 1 [0; 0] 1 1 0])) as [P|] eqn:E;
    cbn [MLife.run MLife.step] in E; unfold MLife.setup_polar_step, setup_polar, py_assert, linspaceZ in E;
    rewrite !(Rle_bool_true 0 0), (Rlt_bool_true 0 1), (Rlt_bool_true 0 (2 * PI)), (Rle_bool_true 1 (2 * PI)) in E by lra;
    cbn in E; [|discriminate].
  rewrite (H1 _ eq_refl). inversion E. reflexivity.
Qed.
