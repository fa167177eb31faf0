(** * Theorems: [densegrid.Heal2Ortho] (C60, C66) *)

From Coq Require Import Reals ZArith List Bool Lra Lia Psatz.
From Flocq Require Import Core.Raux.
From Verif Require Import Base BaseP SpecSphere SpecGrid SpecRemap SpecOrtho MUsphere MGrids MDense MOrtho PTrig PUsphere PRemap2 PDense POrtho.
Import ListNotations.
Open Scope R_scope.

(** [setup_box] with the same refinement in both directions. *)
Definition set_up (pix : R -> R -> Z) (Q : picture) (c0 c1 : R) : res ortho :=
  ortho_setup pix (pc_lx Q) (Z.of_nat (pc_nx Q)) [c0; c1] (Some (pc_ly Q)) (Some (Z.of_nat (pc_ny Q)))
    (Z.of_nat (pc_b Q)) (Z.of_nat (pc_b Q)) (pc_rad Q).

(** Accepted pictures and centres. *)
Definition usable (Q : picture) (c0 c1 : R) : Prop :=
  (2 <= pc_nx Q)%nat /\ (2 <= pc_ny Q)%nat /\ (1 <= pc_b Q)%nat /\ 0 < pc_rad Q /\ on_sky c0 c1 /\ c1 < PI.

Lemma set_up_ok : forall pix Q c0 c1, usable Q c0 c1 ->
  set_up pix Q c0 c1 = Ok (the_ortho pix (pc_lx Q) (pc_ly Q) (pc_nx Q) (pc_ny Q) (pc_rad Q) c0 c1 (pc_b Q) (pc_b Q)).
Proof. intros pix Q c0 c1 (A & B & C & D & E & F). now apply ortho_setup_ok. Qed.

(** ** C60 *)

(** Exact value of every cell of an unweighted remap: the refinement factor
    times the mean of the sky over the visible samples; 0 without a visible
    sample, NaN when the centre of the cell is off the sphere. *)
Theorem C60_value : forall pix Q c0 c1 f, usable Q c0 c1 -> indexes pix (length f) ->
  exists O g, set_up pix Q c0 c1 = Ok O /\ ortho_remap O f None = Ok g /\ length g = pc_ny Q /\
  forall i j, (i < pc_ny Q)%nat -> (j < pc_nx Q)%nat -> length (nth i g []) = pc_nx Q /\
  exists v, sky_samples pix c0 c1 Q f i j v /\
    let total := block_sum (pc_b Q) (fine_disc Q i j) in
    (~ on_disc (pc_rad Q) (col_mid Q j) (row_mid Q i) -> nth j (nth i g []) None = None) /\
    (on_disc (pc_rad Q) (col_mid Q j) (row_mid Q i) ->
      (total = 0 -> nth j (nth i g []) None = Some 0) /\
      (total <> 0 -> nth j (nth i g []) None =
         Some (INR (pc_b Q) * (block_sum (pc_b Q) (fun a c => v a c * fine_disc Q i j a c) / total)))).
Proof.
  intros pix Q c0 c1 f HU HI. assert (HU' := HU). destruct HU' as (Nx & Ny & Hb & Hr & HS & Hc).
  do 2 eexists. split; [now apply set_up_ok|]. split; [unfold ortho_remap; now apply remap0_value|].
  split; [apply tab2_length|]. intros i j Hi Hj. unfold tab2. rewrite tab_nth by auto. split; [apply tab_length|].
  eexists. split; [now apply samples_ok|]. cbv zeta.
  change num with (option R). rewrite (tab_nth (option R)) by auto.
  unfold cell_value, Rltb, on_disc. destruct (Rlt_dec _ _) as [HD|HD]; split; intros H; try contradiction; auto.
  split; intros HT; destruct (Req_EM_T _ 0) as [Z|Z]; try contradiction; auto.
  f_equal.
  transitivity (sum_upto (pc_b Q) (fun _ => 0)); [|apply sum_zero; auto].
  unfold block_sum in *. 
  assert (P : forall a c, (a < pc_b Q)%nat -> (c < pc_b Q)%nat -> fine_disc Q i j a c = 0).
  { assert (N : forall a c, 0 <= fine_disc Q i j a c) by (intros; unfold fine_disc, disc; destruct (Rlt_dec _ _); lra).
    assert (Z1 : forall n g, (forall k, (k < n)%nat -> 0 <= g k) -> sum_upto n g = 0 -> forall k, (k < n)%nat -> g k = 0).
    { clear. induction n as [|n IH]; intros g Hg E k Hk; [lia|]. rewrite sum_S in E.
      assert (0 <= sum_upto n g). { rewrite <- (sum_zero n (fun _ => 0)) by auto. apply sum_le. intros. apply Hg. lia. }
      pose proof (Hg n ltac:(lia)). assert (sum_upto n g = 0) by lra. assert (g n = 0) by lra.
      destruct (Nat.eq_dec k n) as [->|]; [auto|]. apply IH; auto; lia. }
    intros a c Ha Hc'. apply (Z1 (pc_b Q) (fun c => fine_disc Q i j a c)); auto.
    apply (Z1 (pc_b Q) (fun a => sum_upto (pc_b Q) (fun c => fine_disc Q i j a c))); auto.
    intros k Hk. rewrite <- (sum_zero (pc_b Q) (fun _ => 0)) by auto. apply sum_le. intros. apply N. }
  apply sum_ext. intros a Ha. apply sum_zero. intros c Hc'. rewrite P by auto. ring.
Qed.
Print Assumptions C60_value.

(** A constant sky inside the disc comes back multiplied by the refinement factor. *)
Theorem C60_constant : forall pix Q c0 c1 k n, usable Q c0 c1 -> indexes pix n ->
  0 < pc_lx Q -> 0 < pc_ly Q -> pc_lx Q ^ 2 + pc_ly Q ^ 2 <= (2 * pc_rad Q) ^ 2 ->
  exists O, set_up pix Q c0 c1 = Ok O /\
    ortho_remap O (repeat k n) None = Ok (repeat (repeat (Some (INR (pc_b Q) * k)) (pc_nx Q)) (pc_ny Q)).
Proof.
  intros pix Q c0 c1 k n HU HI Lx Ly HB. assert (HU' := HU). destruct HU' as (Nx & Ny & Hb & Hr & HS & Hc).
  eexists. split; [now apply set_up_ok|]. unfold ortho_remap. rewrite remap0_value; auto; [|now rewrite repeat_length].
  f_equal. rewrite <- tab2_const. apply tab2_ext. intros i j Hi Hj.
  assert (In1 : forall l m q, 0 < l -> (q < m)%nat -> (fine l m q) ^ 2 < (l / 2) ^ 2).
  { intros l m q Hl Hq. unfold fine. assert (0 < INR m) by (apply lt_0_INR; lia).
    assert (0 <= INR q) by apply pos_INR. assert (INR q + 1 <= INR m) by (rewrite <- S_INR; apply le_INR; lia).
    assert (E : - (l / 2) + (INR q + / 2) * (l / INR m) = l / 2 * (2 * ((INR q + / 2) / INR m) - 1)) by (field; lra).
    rewrite E. set (u := (INR q + / 2) / INR m).
    assert (0 < u < 1).
    { unfold u. split; [apply Rmult_lt_0_compat; [lra|now apply Rinv_0_lt_compat]|].
      apply Rmult_lt_reg_r with (INR m); auto. unfold Rdiv. rewrite Rmult_assoc, Rinv_l; lra. }
    rewrite Rpow_mult_distr. assert ((2 * u - 1) ^ 2 < 1) by nra. assert (0 < (l / 2) ^ 2) by nra. nra. }
  assert (D : forall x y, x ^ 2 < (pc_lx Q / 2) ^ 2 -> y ^ 2 < (pc_ly Q / 2) ^ 2 -> x ^ 2 + y ^ 2 < pc_rad Q ^ 2) by (intros; nra).
  assert (F : forall a c, (a < pc_b Q)%nat -> (c < pc_b Q)%nat -> fine_disc Q i j a c = 1).
  { intros a c Ha Hc'. unfold fine_disc, disc. destruct (Rlt_dec _ _) as [_|N]; [reflexivity|]. exfalso. apply N.
    apply D.
    - apply (In1 (pc_lx Q) (pc_nx Q * pc_b Q)%nat (j * pc_b Q + c)%nat); auto. nia.
    - apply (In1 (pc_ly Q) (pc_ny Q * pc_b Q)%nat (i * pc_b Q + a)%nat); auto. nia. }
  assert (T : block_sum (pc_b Q) (fine_disc Q i j) = INR (pc_b Q) * INR (pc_b Q)).
  { unfold block_sum. transitivity (sum_upto (pc_b Q) (fun _ => INR (pc_b Q) * 1)).
    - apply sum_ext. intros a Ha. transitivity (sum_upto (pc_b Q) (fun _ => 1)); [apply sum_ext; intros; now apply F|].
      clear. induction (pc_b Q) as [|m IH]; [cbn; ring|]. rewrite sum_S, IH, S_INR. ring.
    - generalize (INR (pc_b Q)) at 1 2. intros x. clear. induction (pc_b Q) as [|m IH]; [cbn; ring|]. rewrite sum_S, IH, S_INR. ring. }
  pose proof (INR_pos (pc_b Q) Hb) as Pb.
  unfold cell_value, Rltb. destruct (Rlt_dec _ _) as [_|N].
  2:{ exfalso. apply N. apply D; [apply (In1 (pc_lx Q) (pc_nx Q) j)|apply (In1 (pc_ly Q) (pc_ny Q) i)]; auto. }
  destruct (Req_EM_T _ 0) as [Z|_]; [rewrite T in Z; nra|]. f_equal. f_equal.
  rewrite T.
  match goal with |- ?s / _ = _ => assert (V : s = k * (INR (pc_b Q) * INR (pc_b Q))) end.
  { rewrite <- T. unfold block_sum. rewrite <- sum_scal. apply sum_ext. intros a Ha. rewrite <- sum_scal. apply sum_ext. intros c Hc'.
    cbv beta. rewrite F by auto. f_equal.
    destruct (seen_pix_spec pix c0 c1 (pc_rad Q) (fine_col Q j c) (fine_row Q i a) HS Hc Hr) as (p & t & -> & S & _).
    pose proof (HI p t S). rewrite nth_repeat_lt; [reflexivity|lia]. }
  rewrite V. field. lra.
Qed.
Print Assumptions C60_constant.

Theorem C60_refuted : forall pix, indexes pix 12 -> exists Q c0 c1 O, usable Q c0 c1 /\
  set_up pix Q c0 c1 = Ok O /\ ortho_remap O (repeat 1 12) None = Ok [[Some 2; Some 2]; [Some 2; Some 2]].
Proof.
  intros pix HI. pose proof PI_RGT_0. set (Q := Picture 1 2 1 2 2 1).
  assert (HU : usable Q 0 0) by (unfold usable, on_sky; cbn; repeat split; try lia; lra).
  destruct (C60_constant pix Q 0 0 1 12 HU HI) as (O & E1 & E2); try (cbn; lra).
  exists Q, 0, 0, O. split; [auto|]. split; [auto|]. rewrite E2. cbn [repeat Q pc_nx pc_ny pc_b INR].
  replace ((1 + 1) * 1) with 2 by ring. reflexivity.
Qed.
Print Assumptions C60_refuted.

(** With a weight map the refinement factor cancels: the weighted mean over the
    visible samples. *)
Theorem C60_weighted : forall pix Q c0 c1 f w, usable Q c0 c1 -> indexes pix (length f) -> length w = length f ->
  exists O g, set_up pix Q c0 c1 = Ok O /\ ortho_remap O f (Some w) = Ok g /\
  forall i j, (i < pc_ny Q)%nat -> (j < pc_nx Q)%nat ->
  exists v u, sky_samples pix c0 c1 Q f i j v /\ sky_samples pix c0 c1 Q w i j u /\
    let total := block_sum (pc_b Q) (fun a c => u a c * fine_disc Q i j a c) in
    (~ on_disc (pc_rad Q) (col_mid Q j) (row_mid Q i) \/ total = 0 -> nth j (nth i g []) None = None) /\
    (on_disc (pc_rad Q) (col_mid Q j) (row_mid Q i) -> total <> 0 -> nth j (nth i g []) None =
         Some (block_sum (pc_b Q) (fun a c => v a c * u a c * fine_disc Q i j a c) / total)).
Proof.
  intros pix Q c0 c1 f w HU HI HL. assert (HU' := HU). destruct HU' as (Nx & Ny & Hb & Hr & HS & Hc).
  assert (LM : length (map2 Rmult f w) = length f) by (rewrite map2_length; lia).
  do 2 eexists. split; [now apply set_up_ok|]. split.
  { unfold ortho_remap. rewrite HL, Nat.eqb_refl. rewrite !remap0_value by (auto; rewrite ?LM, ?HL; auto). cbn [bind].
    rewrite tab2_zip2. reflexivity. }
  intros i j Hi Hj. do 2 eexists. split; [now apply samples_ok|]. split; [now apply samples_ok|].
  cbv zeta. unfold tab2. rewrite tab_nth by auto. change num with (option R). rewrite (tab_nth (option R)) by auto.
  pose proof (INR_pos (pc_b Q) Hb) as Pb.
  assert (EV : block_sum (pc_b Q) (fun a c => nth (Z.to_nat (seen_pix pix c0 c1 (pc_rad Q) (fine_col Q j c) (fine_row Q i a))) (map2 Rmult f w) 0 * fine_disc Q i j a c)
    = block_sum (pc_b Q) (fun a c => nth (Z.to_nat (seen_pix pix c0 c1 (pc_rad Q) (fine_col Q j c) (fine_row Q i a))) f 0 *
        nth (Z.to_nat (seen_pix pix c0 c1 (pc_rad Q) (fine_col Q j c) (fine_row Q i a))) w 0 * fine_disc Q i j a c)).
  { unfold block_sum. apply sum_ext. intros a Ha. apply sum_ext. intros c Hc'. f_equal.
    destruct (seen_pix_spec pix c0 c1 (pc_rad Q) (fine_col Q j c) (fine_row Q i a) HS Hc Hr) as (p & t & -> & S & _).
    pose proof (HI p t S). apply nth_map2; lia. }
  rewrite EV. set (V := block_sum _ (fun a c => _ * _ * fine_disc Q i j a c)).
  set (U := block_sum _ (fun a c => nth _ w 0 * fine_disc Q i j a c)).
  unfold cell_value, Rltb, on_disc. destruct (Rlt_dec _ _) as [HD|HD]; [|split; [auto|intros; contradiction]].
  set (T := block_sum _ (fine_disc Q i j)).
  assert (TU : T = 0 -> U = 0).
  { intros HT. unfold U, T, block_sum in *.
    assert (N : forall a c, 0 <= fine_disc Q i j a c) by (intros; unfold fine_disc, disc; destruct (Rlt_dec _ _); lra).
    assert (Z1 : forall n g, (forall k, (k < n)%nat -> 0 <= g k) -> sum_upto n g = 0 -> forall k, (k < n)%nat -> g k = 0).
    { clear. induction n as [|n IH]; intros g Hg E k Hk; [lia|]. rewrite sum_S in E.
      assert (0 <= sum_upto n g). { rewrite <- (sum_zero n (fun _ => 0)) by auto. apply sum_le. intros. apply Hg. lia. }
      pose proof (Hg n ltac:(lia)). assert (sum_upto n g = 0) by lra. assert (g n = 0) by lra.
      destruct (Nat.eq_dec k n) as [->|]; [auto|]. apply IH; auto; lia. }
    apply sum_zero. intros a Ha. apply sum_zero. intros c Hc'.
    rewrite (Z1 (pc_b Q) (fun c => fine_disc Q i j a c)); auto; [ring|].
    apply (Z1 (pc_b Q) (fun a => sum_upto (pc_b Q) (fun c => fine_disc Q i j a c))); auto.
    intros k Hk. rewrite <- (sum_zero (pc_b Q) (fun _ => 0)) by auto. apply sum_le. intros. apply N. }
  destruct (Req_EM_T T 0) as [ZT|ZT].
  - specialize (TU ZT). split; intros; [|contradiction]. cbn [ndiv]. rewrite TU. apply fdiv_0.
  - cbn [ndiv]. split.
    + intros [H|H]; [contradiction|]. rewrite H. unfold Rdiv. rewrite Rmult_0_l, Rmult_0_r. apply fdiv_0.
    + intros _ H. rewrite fdiv_ok.
      * f_equal. field. repeat split; auto; lra.
      * apply Rmult_integral_contrapositive. split; [lra|]. unfold Rdiv. apply Rmult_integral_contrapositive. split; [auto|].
        now apply Rinv_neq_0_compat.
Qed.
Print Assumptions C60_weighted.

(** Different refinement factors: the remap raises; one row or column: the
    set-up raises. *)
Theorem C60_unequal_refinement : forall pix lx ly nx ny rad c0 c1 rx ry f w,
  (2 <= nx)%nat -> (2 <= ny)%nat -> (1 <= rx)%nat -> (1 <= ry)%nat -> rx <> ry ->
  on_sky c0 c1 -> c1 < PI -> 0 < rad -> indexes pix (length f) ->
  exists O, ortho_setup pix lx (Z.of_nat nx) [c0; c1] (Some ly) (Some (Z.of_nat ny)) (Z.of_nat rx) (Z.of_nat ry) rad = Ok O /\
    ortho_remap O f w = Err ValueError.
Proof.
  intros pix lx ly nx ny rad c0 c1 rx ry f w Nx Ny Rx Ry HN HS Hc Hr HI.
  eexists. split; [now apply ortho_setup_ok|]. unfold ortho_remap. destruct w as [w|]; [|now apply ortho_unequal].
  destruct (Nat.eqb_spec (length f) (length w)) as [E|]; [|reflexivity].
  rewrite ortho_unequal; auto. rewrite map2_length, <- E, Nat.min_id. exact HI.
Qed.
Print Assumptions C60_unequal_refinement.

Theorem C60_single_bin : forall pix lx ly nx ny rad c rx ry, (1 <= nx)%nat -> (1 <= ny)%nat -> (nx = 1 \/ ny = 1)%nat -> length c = 2%nat ->
  ortho_setup pix lx (Z.of_nat nx) c (Some ly) (Some (Z.of_nat ny)) rx ry rad = Err IndexError.
Proof. exact ortho_single. Qed.
Print Assumptions C60_single_bin.

(** The y arguments default to the x arguments. *)
Theorem C60_defaults : forall pix lx nx c rx ry rad yl yg,
  ortho_setup pix lx nx c None yg rx ry rad = ortho_setup pix lx nx c (Some lx) yg rx ry rad /\
  ortho_setup pix lx nx c yl None rx ry rad = ortho_setup pix lx nx c yl (Some nx) rx ry rad.
Proof. intros. split; reflexivity. Qed.
Print Assumptions C60_defaults.

(** ** C66 *)

(** [transform] is the orthographic projection of the unit sphere. *)
Theorem C66_transform : forall c0 c1 p t, on_sky c0 c1 -> c1 < PI ->
  (0 <= dot (dir c0 c1) (dir p t) ->
     ortho_transform [c0; c1] p t = Ok (Some (dot (east c0) (dir p t)), Some (dot (north c0 c1) (dir p t)))) /\
  (dot (dir c0 c1) (dir p t) < 0 -> ortho_transform [c0; c1] p t = Ok (None, None)).
Proof.
  intros c0 c1 p t HS Hc. rewrite transform_ok by auto.
  split; intros H; destruct (Rlt_bool_spec (dot (dir c0 c1) (dir p t)) 0); auto; lra.
Qed.
Print Assumptions C66_transform.

(** Picture position [(x, y)] and sky direction: [transform] of the direction
    that is painted at [(x, y)] is [(x, y)] divided by the radius. *)
Theorem C66_agrees : forall c0 c1 rad p t x y, on_sky c0 c1 -> c1 < PI -> 0 < rad ->
  appears c0 c1 rad (dir p t) x y -> ortho_transform [c0; c1] p t = Ok (Some (x / rad), Some (y / rad)).
Proof.
  intros c0 c1 rad p t x y HS Hc Hr (_ & Hz & Hx & Hy).
  rewrite (proj1 (C66_transform c0 c1 p t HS Hc)) by lra. rewrite <- Hx, <- Hy. do 3 f_equal; field; lra.
Qed.
Print Assumptions C66_agrees.

(** The direction painted at a visible position is unique and exists. *)
Theorem C66_unique : forall c0 c1 rad s s' x y, 0 < rad ->
  appears c0 c1 rad s x y -> appears c0 c1 rad s' x y -> s = s'.
Proof.
  intros c0 c1 rad s s' x y Hr (U & Z & X & Y) (U' & Z' & X' & Y').
  assert (E1 : dot (east c0) s = dot (east c0) s') by (apply Rmult_eq_reg_l with rad; lra).
  assert (E2 : dot (north c0 c1) s = dot (north c0 c1) s') by (apply Rmult_eq_reg_l with rad; lra).
  assert (L : forall v, dot (to_pic c0 c1 v) (to_pic c0 c1 v) = dot v v) by (intros; apply to_pic_dot).
  assert (E3 : dot (dir c0 c1) s = dot (dir c0 c1) s').
  { pose proof (L s) as A. pose proof (L s') as B. rewrite U in A. rewrite U' in B. rewrite to_pic_coords in A. rewrite to_pic_coords in B.
    rewrite E1, E2 in A. unfold dot in A at 1. unfold dot in B at 1. cbn [vx vy vz] in A, B.
    set (a := dot (dir c0 c1) s) in *. set (b := dot (dir c0 c1) s') in *. assert (F : (a - b) * (a + b) = 0) by lra. clear - F Z Z'. apply Rmult_integral in F. lra. }
  assert (E : to_pic c0 c1 s = to_pic c0 c1 s') by (rewrite !to_pic_coords; congruence).
  assert (D : forall v w, dot v w = dot (to_pic c0 c1 v) (to_pic c0 c1 w)) by (intros; symmetry; apply to_pic_dot).
  assert (Q : forall w, dot s w = dot s' w) by (intros w; rewrite (D s w), (D s' w), E; reflexivity).
  pose proof (Q (V3 1 0 0)) as Q1. pose proof (Q (V3 0 1 0)) as Q2. pose proof (Q (V3 0 0 1)) as Q3.
  unfold dot in Q1, Q2, Q3. cbn [vx vy vz] in Q1, Q2, Q3. apply vec_ext; lra.
Qed.
Print Assumptions C66_unique.

(** The centre itself, and the failure for a centre at the south pole. *)
Theorem C66_centre : forall c0 c1, on_sky c0 c1 ->
  (c1 < PI -> ortho_transform [c0; c1] c0 c1 = Ok (Some 0, Some 0)) /\
  (c1 = PI -> forall p t, ortho_transform [c0; c1] p t = Ok (None, None)).
Proof.
  intros c0 c1 HS. split.
  - intros Hc. rewrite (proj1 (C66_transform c0 c1 c0 c1 HS Hc)) by (rewrite dir_unit; lra).
    rewrite <- north_cross. f_equal. f_equal; f_equal.
    + unfold dot, east, dir. cbn [vx vy vz]. ring.
    + rewrite dot_comm. apply dot_cross_l.
  - intros -> p t. destruct HS. now apply transform_antipole.
Qed.
Print Assumptions C66_centre.

(** User expectation: catalogue positions given to [transform] land on the
    pixels of the remapped picture.  For a radius other than 1 they do not: a
    direction painted at [x = 1] is reported at [x = 1/2]. *)
Theorem C66_radius_refuted : exists p t, on_sky p t /\ appears 0 (PI / 2) 2 (dir p t) 1 0 /\
  ortho_transform [0; PI / 2] p t = Ok (Some (1 / 2), Some (0 / 2)).
Proof.
  pose proof PI_RGT_0. exists (PI / 6), (PI / 2).
  assert (A : appears 0 (PI / 2) 2 (dir (PI / 6) (PI / 2)) 1 0).
  { unfold appears. split; [apply dir_unit|]. unfold dir, east, north, dot. cbn [vx vy vz].
    rewrite cos_0, sin_0, sin_PI2, cos_PI2, sin_PI6. pose proof (cos_gt_0 (PI / 6) ltac:(lra) ltac:(lra)). repeat split; lra. }
  split; [split; lra|]. split; [exact A|]. apply C66_agrees; auto; try lra. split; lra.
Qed.
Print Assumptions C66_radius_refuted.

(** Non-vacuity: the default 2x2 refinement of a unit picture towards (0, pi/2). *)
Example C60_case : usable (Picture 1 2 1 2 2 1) 0 (PI / 2) /\ indexes (fun _ _ => 5%Z) 12 /\
  on_disc 1 (col_mid (Picture 1 2 1 2 2 1) 0) (row_mid (Picture 1 2 1 2 2 1) 1) /\
  block_sum 2 (fine_disc (Picture 1 2 1 2 2 1) 0 0) = 4.
Proof.
  pose proof PI_RGT_0. split; [unfold usable, on_sky; cbn; repeat split; try lia; lra|].
  split; [intros p t _; lia|]. split; [unfold on_disc, col_mid, row_mid; cbn; lra|].
  unfold block_sum, sum_upto, fine_disc, disc, fine_col, fine_row. cbn [seq map Rsum fold_right pc_lx pc_ly pc_nx pc_ny pc_b pc_rad Nat.mul Nat.add INR].
  repeat destruct (Rlt_dec _ _); lra.
Qed.
