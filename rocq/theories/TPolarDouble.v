(** * C97: rotation of polar grids in double precision *)

From Coq Require Import Reals ZArith List Bool Lia Lra Psatz.
From Coq Require Import Floats.SpecFloat.
From Flocq Require Import Core IEEE754.BinarySingleNaN.
From Verif Require Import Base BaseP MHealpixFloat PHealpixFloat SpecDouble MDouble PDouble PSumDouble MGridsDouble PGridsDouble TGridsDouble MRandomsDouble PRandomsDouble MPolarCoords PPolarCoords MPolarDouble PPolarDouble.
Import ListNotations.
Open Scope R_scope.

Local Instance fexp_valid : Valid_exp (FLT_exp (-1074) 53).
Proof. apply FLT_exp_valid. reflexivity. Qed.
Local Existing Instance p53.

(** Rows of [c] numbers, all finite and not larger than 2^1021. *)
Definition plain (f : list (list double)) (c : nat) : Prop :=
  forall i, (i < length f)%nat -> length (nth i f []) = c /\
    forall j, (j < c)%nat -> fin (nth j (nth i f []) dzero) /\ Rabs (val (nth j (nth i f []) dzero)) <= b2 1021.

(** Entry [j] of row [i]. *)
Definition at_ (f : list (list double)) (i j : nat) : R := val (nth j (nth i f []) dzero).

(** Everything but a shift strictly between 0 and the double 2 pi is refused by
    the assertions; fewer than two edges, an undefined or a zero first bin and an
    overflowing number of bins raise. *)
Theorem C97_refused : forall pedges f s,
  (~ (fin s /\ 0 < val s < tau) -> rotate_polar_grid_d pedges f s = Err AssertionError) /\
  (fin s -> 0 < val s < tau ->
     ((length pedges < 2)%nat -> rotate_polar_grid_d pedges f s = Err IndexError) /\
     ((2 <= length pedges)%nat -> let dp := dsub (nth 1 pedges dzero) (nth 0 pedges dzero) in
        (dp = B754_nan -> rotate_polar_grid_d pedges f s = Err ValueError) /\
        (fin dp -> val dp = 0 -> rotate_polar_grid_d pedges f s = Err OverflowError) /\
        (fin dp -> 0 < val dp -> b2 1024 <= val s / val dp -> rotate_polar_grid_d pedges f s = Err OverflowError))).
Proof.
  intros pedges f s. destruct twopi_val as [Ft Vt]. split.
  - intros H. unfold rotate_polar_grid_d, py_assert.
    destruct (is_finite s) eqn:F.
    + rewrite (dlt_ok dzero s fin_zero F), (dlt_ok s twopi F Ft), Vt, val_zero.
      destruct (Rlt_bool_spec 0 (val s)); [|reflexivity]. destruct (Rlt_bool_spec (val s) tau); [|reflexivity].
      exfalso. apply H. split; [exact F|lra].
    + destruct s as [x|x| |x mm ee B]; try discriminate F; [|reflexivity]. destruct x; reflexivity.
  - intros Fs Hs. assert (G0 : dlt dzero s = true) by (rewrite (dlt_ok dzero s fin_zero Fs), val_zero; apply Rlt_bool_true; lra).
    assert (G1 : dlt s twopi = true) by (rewrite (dlt_ok s twopi Fs Ft), Vt; apply Rlt_bool_true; lra).
    split.
    + intros L. unfold rotate_polar_grid_d, py_assert. rewrite G0, G1. destruct pedges as [|a [|b l]]; [reflexivity|reflexivity|cbn in L; lia].
    + intros L dp. assert (St : forall e, int_floor_d (ddiv s dp) = Err e -> rotate_polar_grid_d pedges f s = Err e).
      { intros e He. unfold rotate_polar_grid_d, py_assert. rewrite G0, G1. rewrite (py_get_ok _ pedges 1 dzero) by lia. rewrite (py_get_ok _ pedges 0 dzero) by lia.
        change (Z.to_nat 1) with 1%nat. change (Z.to_nat 0) with 0%nat. cbn [bind]. fold dp. rewrite He. reflexivity. }
      split; [|split].
      * intros Hd. apply St. rewrite Hd. destruct s; reflexivity.
      * intros Fd Vd. apply St. destruct s as [x|x| |x mm ee B]; try discriminate Fs.
        { exfalso. cbn in Hs. lra. }
        destruct dp as [y|y| |y m2 e2 B2]; try discriminate Fd; [reflexivity|].
        exfalso. unfold val, B2R in Vd. apply eq_0_F2R in Vd. destruct y; discriminate Vd.
      * intros Fd Pd Big. apply St.
        pose proof (@Bdiv_correct 53 1024 p53 p1024 mode_NE s dp ltac:(fold (val dp); lra)) as C.
        rewrite Rlt_bool_false in C.
        -- change (Bdiv mode_NE s dp) with (ddiv s dp) in C. destruct (ddiv s dp); try discriminate C. reflexivity.
        -- apply Rle_trans with (2 := Rle_abs _). apply round_ge_generic; [typeclasses eauto|typeclasses eauto| |exact Big].
           apply generic_format_bpow. unfold FLT_exp. cbn. lia.
Qed.
Print Assumptions C97_refused.

Lemma step_fin : forall a b, fin a -> fin b -> Rabs (val a) <= b2 1022 -> Rabs (val b) <= b2 1022 ->
  fin (dsub a b) /\ val (dsub a b) = fl (val a - val b).
Proof.
  intros a b Fa Fb Ba Bb. apply dsub_ok; auto. apply Rle_lt_trans with (b2 1023); [|apply bpow_lt; lia].
  apply abs_round_le_generic; [typeclasses eauto|typeclasses eauto|apply fmt_b2; lia|].
  replace (b2 1023) with (2 * b2 1022) by (change 1023%Z with (1 + 1022)%Z; rewrite bpow_plus; reflexivity).
  pose proof (Rabs_triang (val a) (- val b)) as H. rewrite Rabs_Ropp in H. unfold Rminus. lra.
Qed.

(** The rotated grid.  With [x] the rounded quotient of the shift by the first
    bin, [m] its integer part and [w] the (exact) rest, every row but the last is
    the mixture [w], [1 - w] of rows [m] and [m + 1] further on, cyclically, up to
    four roundings; shifts by more bins than rows do not roll at all.  The last
    row is mixed with the new first row if the difference of the outer edges
    rounds to the double 2 pi, and only multiplied by [w] otherwise.  The caller's
    grid is overwritten exactly if [m = 0]. *)
Theorem C97_rotate : forall pedges f s c,
  let p k := nth k pedges dzero in let n := length f in let l := (length pedges - 1)%nat in
  (2 <= length pedges)%nat -> (2 <= n)%nat -> plain f c ->
  fin (p 0%nat) -> fin (p 1%nat) -> fin (p l) ->
  Rabs (val (p 0%nat)) <= b2 1022 -> Rabs (val (p 1%nat)) <= b2 1022 -> Rabs (val (p l)) <= b2 1022 ->
  fin s -> 0 < val s < tau ->
  let dp := fl (val (p 1%nat) - val (p 0%nat)) in 0 < dp -> val s / dp <= b2 1000 ->
  let x := fl (val s / dp) in let m := Z.to_nat (Zfloor x) in let w := x - INR m in
  let src i := if (m <=? n)%nat then ((i + m) mod n)%nat else i in
  0 <= w < 1 /\
  exists out caller,
    rotate_polar_grid_d pedges f s = Ok (out, caller) /\ length out = n /\
    (forall i, (i < n)%nat -> length (nth i out []) = c /\ forall j, (j < c)%nat -> fin (nth j (nth i out []) dzero)) /\
    (forall i j, (S i < n)%nat -> (j < c)%nat ->
       Rabs (at_ out i j - (w * at_ f (src i) j + (1 - w) * at_ f (src (S i)) j)) <=
         4 * b2 (-53) * (w * Rabs (at_ f (src i) j) + (1 - w) * Rabs (at_ f (src (S i)) j)) + b2 (-1073)) /\
    (fl (val (p l) - val (p 0%nat)) = tau -> forall j, (j < c)%nat ->
       Rabs (at_ out (n - 1) j - (w * at_ f (src (n - 1)%nat) j + (1 - w) * at_ out 0 j)) <=
         4 * b2 (-53) * (w * Rabs (at_ f (src (n - 1)%nat) j) + (1 - w) * Rabs (at_ out 0 j)) + b2 (-1073)) /\
    (fl (val (p l) - val (p 0%nat)) <> tau -> forall j, (j < c)%nat ->
       at_ out (n - 1) j = fl (at_ f (src (n - 1)%nat) j * w)) /\
    caller = (if (m =? 0)%nat then out else f).
Proof.
  intros pedges f s c p n l Hpe Hn Hf F0 F1 Fl B0 B1 Bl Fs Hs dp Hdp Hx x m w src.
  destruct twopi_val as [Ft Vt]. pose proof tau_bounds as T.
  destruct (step_fin (p 1%nat) (p 0%nat) F1 F0 B1 B0) as [FD VD]. fold dp in VD.
  destruct (step_fin (p l) (p 0%nat) Fl F0 Bl B0) as [FL VL].
  assert (X0 : 0 <= val s / dp) by (apply Rmult_le_pos; [lra|left; apply Rinv_0_lt_compat; lra]).
  assert (Xb : 0 <= x <= b2 1000).
  { split; [apply fl_ge; [apply fl_fmt, fmt_0|lra]|apply fl_le; [apply fl_fmt, fmt_b2; lia|lra]]. }
  destruct (ddiv_ok s (dsub (p 1%nat) (p 0%nat)) Fs) as [FQ VQ].
  { lra. }
  { rewrite VD. fold x. rewrite Rabs_pos_eq by lra. assert (b2 1000 < b2 1024) by (apply bpow_lt; lia). lra. }
  rewrite VD in VQ. fold x in VQ.
  assert (Mz : IZR (Zfloor x) = INR m).
  { unfold m. rewrite INR_IZR_INZ, Z2Nat.id; [reflexivity|]. apply Zfloor_lub. exact (proj1 Xb). }
  destruct (frac_ok (ddiv s (dsub (p 1%nat) (p 0%nat))) FQ ltac:(rewrite VQ; lra)) as (FW & VW & BW).
  rewrite VQ, Mz in VW. fold w in VW. set (wd := dsub (ddiv s (dsub (p 1%nat) (p 0%nat))) (floor_d (ddiv s (dsub (p 1%nat) (p 0%nat))))) in *.
  split; [rewrite <- VW; exact BW|].
  assert (G0 : dlt dzero s = true) by (rewrite (dlt_ok dzero s fin_zero Fs), val_zero; apply Rlt_bool_true; lra).
  assert (G1 : dlt s twopi = true) by (rewrite (dlt_ok s twopi Fs Ft), Vt; apply Rlt_bool_true; lra).
  destruct (grid_cells_d pedges f s c Hpe Hn (fun i Hi => proj1 (Hf i Hi)) G0 G1 FQ ltac:(fold (p 1%nat) (p 0%nat); rewrite VQ; lra))
    as (out & caller & R & Lo & Lr & Ci & Cl & Ca).
  fold (p 1%nat) (p 0%nat) in Ci, Cl, Ca. fold l in Cl. fold (p l) in Cl. rewrite VQ in Ci, Cl, Ca. fold n in Ci, Cl, Lo, Lr. fold m in Ci, Cl, Ca. fold wd in Ci, Cl.
  assert (Sl : forall i, (i < n)%nat -> (src i < n)%nat).
  { intros i Hi. unfold src. destruct (m <=? n)%nat; [apply Nat.mod_upper_bound; lia|exact Hi]. }
  assert (BB : b2 1021 <= b2 1022) by (apply bpow_le; lia).
  assert (Cf : forall i j, (i < n)%nat -> (j < c)%nat -> fin (dcell f (src i) j) /\ Rabs (val (dcell f (src i) j)) <= b2 1021).
  { intros i j Hi Hj. apply (Hf (src i) (Sl i Hi)). exact Hj. }
  assert (Ro : forall i j, (S i < n)%nat -> (j < c)%nat -> fin (dcell out i j) /\
    Rabs (val (dcell out i j) - (w * val (dcell f (src i) j) + (1 - w) * val (dcell f (src (S i)) j))) <=
         4 * b2 (-53) * (w * Rabs (val (dcell f (src i) j)) + (1 - w) * Rabs (val (dcell f (src (S i)) j))) + b2 (-1073)).
  { intros i j Hi Hj. rewrite (Ci i j Hi Hj). destruct (Cf i j ltac:(lia) Hj) as [Fa Ba]. destruct (Cf (S i) j Hi Hj) as [Fb Bb].
    destruct (mix_ok wd _ _ FW BW Fa Fb ltac:(lra) ltac:(lra)) as [M1 M2]. rewrite VW in M2. split; [exact M1|exact M2]. }
  assert (Bo : forall i j, (S i < n)%nat -> (j < c)%nat -> Rabs (val (dcell out i j)) <= b2 1022).
  { intros i j Hi Hj. destruct (Ro i j Hi Hj) as [_ M]. destruct (Cf i j ltac:(lia) Hj) as [_ Ba]. destruct (Cf (S i) j Hi Hj) as [_ Bb].
    replace (b2 1022) with (2 * b2 1021) by (change 1022%Z with (1 + 1021)%Z; rewrite bpow_plus; reflexivity).
    set (a := val (dcell f (src i) j)) in *. set (b := val (dcell f (src (S i)) j)) in *. set (o := val (dcell out i j)) in *.
    rewrite VW in BW. assert (W1 : w * Rabs a <= w * b2 1021) by (apply Rmult_le_compat_l; lra). assert (W2 : (1 - w) * Rabs b <= (1 - w) * b2 1021) by (apply Rmult_le_compat_l; lra).
    assert (S1 : Rabs (w * a + (1 - w) * b) <= b2 1021).
    { eapply Rle_trans; [apply Rabs_triang|]. rewrite !Rabs_mult, (Rabs_pos_eq w), (Rabs_pos_eq (1 - w)) by lra. lra. }
    pose proof (Rabs_triang (o - (w * a + (1 - w) * b)) (w * a + (1 - w) * b)) as Tr. replace (o - (w * a + (1 - w) * b) + (w * a + (1 - w) * b)) with o in Tr by ring.
    pose proof u_pos as U. unfold u in U. assert (b2 (-1073) <= / 2 * b2 1021).
    { replace (/ 2 * b2 1021) with (b2 1020) by (change 1021%Z with (1 + 1020)%Z; rewrite bpow_plus; change (b2 1) with 2; field). apply bpow_le. lia. }
    pose proof (bpow_gt_0 radix2 1021) as P21.
    assert (4 * b2 (-53) * (w * Rabs a + (1 - w) * Rabs b) <= / 2 * b2 1021).
    { apply Rle_trans with (4 * b2 (-53) * b2 1021); [apply Rmult_le_compat_l; lra|apply Rmult_le_compat_r; lra]. }
    lra. }
  assert (Lz : deq (dsub (p l) (p 0%nat)) twopi = Req_bool (fl (val (p l) - val (p 0%nat))) tau).
  { rewrite deq_ok by assumption. now rewrite VL, Vt. }
  rewrite Lz in Cl.
  exists out, caller. split; [exact R|]. split; [exact Lo|].
  assert (Lc : forall j, (j < c)%nat ->
    (fl (val (p l) - val (p 0%nat)) = tau -> fin (dcell out (n - 1) j) /\
       Rabs (val (dcell out (n - 1) j) - (w * val (dcell f (src (n - 1)%nat) j) + (1 - w) * val (dcell out 0 j))) <=
         4 * b2 (-53) * (w * Rabs (val (dcell f (src (n - 1)%nat) j)) + (1 - w) * Rabs (val (dcell out 0 j))) + b2 (-1073)) /\
    (fl (val (p l) - val (p 0%nat)) <> tau -> fin (dcell out (n - 1) j) /\
       val (dcell out (n - 1) j) = fl (val (dcell f (src (n - 1)%nat) j) * w))).
  { intros j Hj. rewrite (Cl j Hj). destruct (Cf (n - 1)%nat j ltac:(lia) Hj) as [Fa Ba]. fold (src (n - 1)%nat). split; intros Hc.
    - rewrite Req_bool_true by exact Hc. destruct (Ro 0%nat j ltac:(lia) Hj) as [Fo _].
      destruct (mix_ok wd _ _ FW BW Fa Fo ltac:(lra) (Bo 0%nat j ltac:(lia) Hj)) as [M1 M2]. rewrite VW in M2. split; [exact M1|exact M2].
    - rewrite Req_bool_false by exact Hc.
      destruct (dmul_ok (dcell f (src (n - 1)%nat) j) wd Fa FW) as [M1 M2].
      { apply Rle_lt_trans with (b2 1022); [|apply bpow_lt; lia]. apply abs_round_le_generic; [typeclasses eauto|typeclasses eauto|apply fmt_b2; lia|].
        rewrite Rabs_mult, (Rabs_pos_eq (val wd)) by lra. pose proof (Rabs_pos (val (dcell f (src (n - 1)%nat) j))).
        apply Rle_trans with (Rabs (val (dcell f (src (n - 1)%nat) j)) * 1); [apply Rmult_le_compat_l; lra|lra]. }
      rewrite VW in M2. split; [exact M1|exact M2]. }
  split; [|split; [|split; [|split; [|exact Ca]]]].
  - intros i Hi. split; [now apply Lr|]. intros j Hj. destruct (Nat.eq_dec i (n - 1)) as [->|Ne].
    + destruct (Lc j Hj) as [L1 L2]. destruct (Req_dec (fl (val (p l) - val (p 0%nat))) tau) as [Hc|Hc]; [apply L1, Hc|apply L2, Hc].
    + apply (Ro i j); [lia|exact Hj].
  - intros i j Hi Hj. apply (Ro i j Hi Hj).
  - intros Hc j Hj. apply (Lc j Hj). exact Hc.
  - intros Hc j Hj. apply (Lc j Hj). exact Hc.
Qed.
Print Assumptions C97_rotate.

(** The arguments of [C97_rotate] for the edges of the full circle. *)
Lemma circle_rotate : forall n pedges f s c, (2 <= n <= 2 ^ 50)%Z -> linspace_d dzero twopi (n + 1) = Ok pedges ->
  length f = Z.to_nat n -> plain f c -> fin s -> 0 < val s < tau ->
  let x := fl (val s / fl (tau / IZR n)) in let m := Z.to_nat (Zfloor x) in let w := x - INR m in
  let src i := if (m <=? Z.to_nat n)%nat then ((i + m) mod Z.to_nat n)%nat else i in
  0 <= w < 1 /\ 0 <= x /\
  exists out caller,
    rotate_polar_grid_d pedges f s = Ok (out, caller) /\ length out = Z.to_nat n /\
    (forall i j, (S i < Z.to_nat n)%nat -> (j < c)%nat ->
       Rabs (at_ out i j - (w * at_ f (src i) j + (1 - w) * at_ f (src (S i)) j)) <=
         4 * b2 (-53) * (w * Rabs (at_ f (src i) j) + (1 - w) * Rabs (at_ f (src (S i)) j)) + b2 (-1073)) /\
    (forall j, (j < c)%nat ->
       Rabs (at_ out (Z.to_nat n - 1) j - (w * at_ f (src (Z.to_nat n - 1)%nat) j + (1 - w) * at_ out 0 j)) <=
         4 * b2 (-53) * (w * Rabs (at_ f (src (Z.to_nat n - 1)%nat) j) + (1 - w) * Rabs (at_ out 0 j)) + b2 (-1073)) /\
    caller = (if (m =? 0)%nat then out else f).
Proof.
  intros n pedges f s c Hn E Lf Hf Fs Hs x m w src. pose proof tau_bounds as T. destruct twopi_val as [Ft Vt].
  destruct (circle_edges n Hn) as (e' & E' & L & Lb & Li). rewrite E in E'. apply Ok_inj in E'. subst e'.
  destruct (step_bounds n Hn) as ((S1 & S2) & _). pose proof (bpow_gt_0 radix2 (-50)) as P50.
  destruct (Li 0%nat ltac:(lia)) as [F0 V0]. destruct (Li 1%nat ltac:(lia)) as [F1 V1].
  rewrite Rmult_0_l, (fl_fmt 0 fmt_0) in V0. rewrite Rmult_1_l, (fl_fmt (fl _) (fmt_fl _)) in V1.
  assert (Le : (length pedges - 1)%nat = Z.to_nat n) by lia.
  assert (Sm : forall y, Rabs y <= 8 -> Rabs y <= b2 1022).
  { intros y Hy. apply Rle_trans with (1 := Hy). change 8 with (b2 3). apply bpow_le. lia. }
  assert (X0 : 0 <= val s / fl (tau / IZR n) <= b2 53).
  { split; [apply Rmult_le_pos; [lra|left; apply Rinv_0_lt_compat; lra]|].
    apply Rmult_le_reg_r with (fl (tau / IZR n)); [lra|]. replace (val s / fl (tau / IZR n) * fl (tau / IZR n)) with (val s) by (field; lra).
    apply Rle_trans with (b2 53 * b2 (-50)); [rewrite <- bpow_plus; cbn; lra|]. apply Rmult_le_compat_l; [apply bpow_ge_0|exact S1]. }
  assert (D : fl (val (nth 1 pedges dzero) - val (nth 0 pedges dzero)) = fl (tau / IZR n)) by (rewrite V0, V1, Rminus_0_r; apply fl_fmt, fmt_fl).
  pose proof (C97_rotate pedges f s c) as C. cbv zeta in C. rewrite Le, Lb, Lf, D, Vt, V0, V1, Rminus_0_r, (fl_fmt tau fmt_tau) in C.
  fold x in C. fold m in C. fold w in C.
  destruct C as (W & out & caller & R & Lo & _ & Ci & Cl & _ & Ca); auto; try lia; try lra.
  - rewrite Rabs_R0. apply bpow_ge_0.
  - apply Sm. rewrite Rabs_pos_eq; lra.
  - apply Sm. rewrite Rabs_pos_eq; lra.
  - apply Rle_trans with (b2 53); [lra|apply bpow_le; lia].
  - split; [exact W|]. split; [apply fl_ge; [apply fl_fmt, fmt_0|lra]|]. exists out, caller. split; [exact R|]. split; [exact Lo|]. split; [exact Ci|]. split; [apply Cl; reflexivity|exact Ca].
Qed.

(** The full circle, [pedges = np.linspace(0., 2.*np.pi, n + 1)]: every shift in
    (0, 2 pi) is accepted, the last row always wraps, and the shift in bins is the
    exact one up to three roundings. *)
Theorem C97_circle : forall n pedges f s c, (2 <= n <= 2 ^ 50)%Z -> linspace_d dzero twopi (n + 1) = Ok pedges ->
  length f = Z.to_nat n -> plain f c -> fin s -> 0 < val s < tau ->
  exists m w, 0 <= w < 1 /\ (m <= Z.to_nat n)%nat /\
  Rabs (INR m + w - IZR n * val s / tau) <= 3 * b2 (-53) * (IZR n * val s / tau) + b2 (-1075) /\
  exists out caller,
    rotate_polar_grid_d pedges f s = Ok (out, caller) /\ length out = Z.to_nat n /\
    (forall i j, (S i < Z.to_nat n)%nat -> (j < c)%nat ->
       let a := at_ f ((i + m) mod Z.to_nat n) j in let b := at_ f ((i + m + 1) mod Z.to_nat n) j in
       Rabs (at_ out i j - (w * a + (1 - w) * b)) <= 4 * b2 (-53) * (w * Rabs a + (1 - w) * Rabs b) + b2 (-1073)) /\
    (forall j, (j < c)%nat ->
       let a := at_ f ((Z.to_nat n - 1 + m) mod Z.to_nat n) j in let b := at_ out 0 j in
       Rabs (at_ out (Z.to_nat n - 1) j - (w * a + (1 - w) * b)) <= 4 * b2 (-53) * (w * Rabs a + (1 - w) * Rabs b) + b2 (-1073)) /\
    caller = (if (m =? 0)%nat then out else f).
Proof.
  intros n pedges f s c Hn E Lf Hf Fs Hs. pose proof tau_bounds as T. pose proof u_pos as U.
  destruct (circle_rotate n pedges f s c Hn E Lf Hf Fs Hs) as (W & X0 & out & caller & R & Lo & Ci & Cl & Ca).
  set (x := fl (val s / fl (tau / IZR n))) in *. set (m := Z.to_nat (Zfloor x)) in *. set (w := x - INR m) in *.
  destruct (step_bounds n Hn) as ((S1 & S2) & S3). pose proof (bpow_gt_0 radix2 (-50)) as P50. set (h := fl (tau / IZR n)) in *.
  assert (N2 : 2 <= IZR n) by (apply IZR_le; lia). assert (N3 : IZR n <= b2 50) by (change (b2 50) with (IZR (2 ^ 50)); apply IZR_le; lia).
  pose proof (bpow_gt_0 radix2 (-1075)) as P75.
  (* x against n s / tau *)
  set (y := IZR n * val s / tau). set (t := tau / IZR n) in *.
  assert (Tp : 0 < t) by (apply Rdiv_lt_0_compat; lra).
  assert (Ey : y = val s / t) by (unfold y, t; field; lra).
  assert (Yp : 0 < y) by (rewrite Ey; apply Rdiv_lt_0_compat; lra).
  assert (R1 : t / h <= 1 + 5 / 4 * u /\ 1 - 5 / 4 * u <= t / h).
  { apply Rabs_le_inv in S3. assert (h1 : t * (1 - u) <= h <= t * (1 + u)) by lra. clear S3.
    split; apply Rmult_le_reg_r with h; try lra; replace (t / h * h) with t by (field; lra).
    - apply Rle_trans with ((1 + 5 / 4 * u) * (t * (1 - u))); [|apply Rmult_le_compat_l; lra].
      replace ((1 + 5 / 4 * u) * (t * (1 - u))) with (t * (1 + u / 4 - 5 / 4 * u * u)) by field. rewrite <- (Rmult_1_r t) at 1. apply Rmult_le_compat_l; nra.
    - apply Rle_trans with ((1 - 5 / 4 * u) * (t * (1 + u))); [apply Rmult_le_compat_l; lra|].
      replace ((1 - 5 / 4 * u) * (t * (1 + u))) with (t * (1 - u / 4 - 5 / 4 * u * u)) by field. rewrite <- (Rmult_1_r t) at 2. apply Rmult_le_compat_l; nra. }
  assert (E1 : val s / h = y * (t / h)) by (rewrite Ey; field; lra).
  assert (E2 : Rabs (val s / h - y) <= 5 / 4 * u * y).
  { rewrite E1. replace (y * (t / h) - y) with (y * (t / h - 1)) by ring. rewrite Rabs_mult, (Rabs_pos_eq y) by lra. rewrite Rmult_comm.
    apply Rmult_le_compat_r; [lra|]. apply Rabs_le. lra. }
  assert (E3 : Rabs (x - val s / h) <= u * (val s / h) + b2 (-1075)).
  { unfold x. assert (P : 0 <= val s / h) by (left; apply Rdiv_lt_0_compat; lra). pose proof (fl_mixed (val s / h)) as F. rewrite (Rabs_pos_eq (val s / h)) in F by exact P. exact F. }
  assert (Ex : Rabs (x - y) <= 3 * u * y + b2 (-1075)).
  { replace (x - y) with ((x - val s / h) + (val s / h - y)) by ring. eapply Rle_trans; [apply Rabs_triang|].
    apply Rabs_le_inv in E2. assert (u * (val s / h) <= u * (y + 5 / 4 * u * y)) by (apply Rmult_le_compat_l; lra).
    assert (u * (u * y) <= u * (/ 1024 * y)) by (apply Rmult_le_compat_l; [lra|apply Rmult_le_compat_r; lra]).
    assert (Rabs (val s / h - y) <= 5 / 4 * u * y) by (apply Rabs_le; lra). lra. }
  assert (Hm : (m <= Z.to_nat n)%nat).
  { assert (Yn : y < IZR n).
    { unfold y. apply Rmult_lt_reg_r with tau; [lra|]. replace (IZR n * val s / tau * tau) with (IZR n * val s) by (field; lra). apply Rmult_lt_compat_l; lra. }
    assert (Xn : x < IZR n + 1).
    { apply Rabs_le_inv in Ex. assert (3 * u * y <= 3 * u * b2 50) by (apply Rmult_le_compat_l; lra).
      assert (3 * u * b2 50 = 3 / 8) by (unfold u; replace (3 * b2 (-53) * b2 50) with (3 * (b2 (-53) * b2 50)) by ring; rewrite <- bpow_plus; cbn; lra).
      assert (b2 (-1075) <= b2 (-2)) by (apply bpow_le; lia). change (b2 (-2)) with (/ 4) in *. lra. }
    assert (Z1 : (Zfloor x < n + 1)%Z).
    { apply lt_IZR. rewrite plus_IZR. apply Rle_lt_trans with (1 := Zfloor_lb x). exact Xn. }
    unfold m. lia. }
  exists m, w. split; [exact W|]. split; [exact Hm|].
  replace (INR m + w) with x by (unfold w; ring). split; [exact Ex|].
  rewrite (proj2 (Nat.leb_le _ _) Hm) in Ci, Cl.
  exists out, caller. split; [exact R|]. split; [exact Lo|]. split; [|split; [exact Cl|exact Ca]].
  intros i j Hi Hj. specialize (Ci i j Hi Hj). replace (i + m + 1)%nat with (S i + m)%nat by lia. exact Ci.
Qed.
Print Assumptions C97_circle.

(** User expectation: a rotation by the [k]th edge moves the rows by [k] bins.
    Violated: depending on how the division rounds, all rows move by [k + 1] or
    all by [k - 1] bins, up to roundings. *)
Theorem C97_edges : forall n pedges f k c, (2 <= n <= 2 ^ 50)%Z -> linspace_d dzero twopi (n + 1) = Ok pedges ->
  length f = Z.to_nat n -> plain f c -> (1 <= k < Z.to_nat n)%nat ->
  exists d out caller, (d = k + 1 \/ d = k - 1)%nat /\
    rotate_polar_grid_d pedges f (nth k pedges dzero) = Ok (out, caller) /\
    forall i j, (S i < Z.to_nat n)%nat -> (j < c)%nat ->
      let a := at_ f ((i + d) mod Z.to_nat n) j in let b := at_ f ((i + k) mod Z.to_nat n) j in
      Rabs (at_ out i j - a) <= 4 * b2 (-53) * (INR k + 1) * (Rabs a + Rabs b) + b2 (-1073).
Proof.
  intros n pedges f k c Hn E Lf Hf Hk. pose proof tau_bounds as T. pose proof u_pos as U.
  destruct (circle_edges n Hn) as (e' & E' & L & Lb & Li). rewrite E in E'. apply Ok_inj in E'. subst e'.
  destruct (Li k ltac:(lia)) as [Fk Vk]. destruct (step_bounds n Hn) as ((S1 & S2) & S3). pose proof (bpow_gt_0 radix2 (-50)) as P50. set (h := fl (tau / IZR n)) in *.
  assert (N2 : 2 <= IZR n) by (apply IZR_le; lia). assert (N3 : IZR n <= b2 50) by (change (b2 50) with (IZR (2 ^ 50)); apply IZR_le; lia).
  assert (K1 : 1 <= INR k) by (apply (le_INR 1); lia).
  assert (Kn : INR k <= IZR n - 1) by (rewrite INR_IZR_INZ, <- minus_IZR; apply IZR_le; lia).
  assert (Hh : fmt h) by apply fmt_fl.
  assert (KH : h <= INR k * h) by nra.
  assert (F : Rabs (fl (INR k * h) - INR k * h) <= u * (INR k * h)).
  { apply fl_rel. apply Rle_trans with (2 := KH). apply Rle_trans with (2 := S1). apply bpow_le. lia. }
  assert (s0 : h <= fl (INR k * h)) by (apply fl_ge; [apply fl_fmt, Hh|exact KH]).
  assert (Uv : u * b2 50 = / 8) by (unfold u; rewrite <- bpow_plus; reflexivity).
  assert (s1 : fl (INR k * h) < tau).
  { apply Rabs_le_inv in F, S3. assert (A : h * IZR n <= tau * (1 + u)).
    { replace (tau * (1 + u)) with ((tau / IZR n + u * (tau / IZR n)) * IZR n) by (field; lra). apply Rmult_le_compat_r; lra. }
    assert (B : INR k * h <= tau * (1 + u) - h) by nra.
    assert (C : tau / IZR n * (1 - u) <= h) by lra.
    assert (D : b2 (-50) * tau <= tau / IZR n).
    { unfold Rdiv. rewrite Rmult_comm. apply Rmult_le_compat_l; [lra|]. replace (b2 (-50)) with (/ b2 50) by (rewrite <- bpow_opp; reflexivity). apply Rinv_le; lra. }
    assert (G : b2 (-50) = 8 * u) by (unfold u; change 8 with (b2 3); rewrite <- bpow_plus; reflexivity). rewrite G in D.
    assert (D2 : 8 * u * tau * (1 - u) <= tau / IZR n * (1 - u)) by (apply Rmult_le_compat_r; lra).
    assert (H1 : INR k * h <= tau * (1 + u - 8 * u * (1 - u))) by lra.
    assert (H2 : fl (INR k * h) <= (1 + u) * (tau * (1 + u - 8 * u * (1 - u)))).
    { apply Rle_trans with ((1 + u) * (INR k * h)); [lra|apply Rmult_le_compat_l; lra]. }
    apply Rle_lt_trans with (1 := H2). replace ((1 + u) * (tau * (1 + u - 8 * u * (1 - u)))) with (tau * ((1 + u) * (1 - 7 * u + 8 * u * u))) by ring.
    rewrite <- (Rmult_1_r tau) at 2. apply Rmult_lt_compat_l; [lra|]. nra. }
  destruct (circle_rotate n pedges f (nth k pedges dzero) c Hn E Lf Hf Fk ltac:(rewrite Vk; lra)) as (W & X0 & out & caller & R & Lo & Ci & _ & _).
  rewrite Vk in W, X0, Ci. fold h in W, X0, Ci. set (x := fl (fl (INR k * h) / h)) in *.
  assert (Ex : Rabs (x - INR k) <= 3 * u * INR k).
  { assert (A : Rabs (fl (INR k * h) / h - INR k) <= u * INR k).
    { replace (fl (INR k * h) / h - INR k) with ((fl (INR k * h) - INR k * h) / h) by (field; lra). unfold Rdiv. rewrite Rabs_mult, (Rabs_pos_eq (/ h)) by (left; apply Rinv_0_lt_compat; lra).
      apply Rmult_le_reg_r with h; [lra|]. rewrite Rmult_assoc, Rinv_l by lra. lra. }
    assert (A1 : 1 <= fl (INR k * h) / h).
    { apply Rmult_le_reg_r with h; [lra|]. replace (fl (INR k * h) / h * h) with (fl (INR k * h)) by (field; lra). lra. }
    assert (B : Rabs (x - fl (INR k * h) / h) <= u * (fl (INR k * h) / h)).
    { apply fl_rel. apply Rle_trans with (2 := A1). change 1 with (b2 0). apply bpow_le. lia. }
    replace (x - INR k) with ((x - fl (INR k * h) / h) + (fl (INR k * h) / h - INR k)) by ring. eapply Rle_trans; [apply Rabs_triang|].
    apply Rabs_le_inv in A. assert (u * (fl (INR k * h) / h) <= u * (INR k + u * INR k)) by (apply Rmult_le_compat_l; lra).
    assert (u * (u * INR k) <= u * (1 * INR k)) by (apply Rmult_le_compat_l; [lra|apply Rmult_le_compat_r; lra]).
    assert (Rabs (fl (INR k * h) / h - INR k) <= u * INR k) by (apply Rabs_le; lra). lra. }
  assert (Sm : 3 * u * INR k <= 3 / 8).
  { assert (u * INR k <= u * b2 50) by (apply Rmult_le_compat_l; lra). lra. }
  apply Rabs_le_inv in Ex.
  assert (C : x < INR k \/ INR k <= x) by (destruct (Rlt_or_le x (INR k)); auto).
  assert (Close : forall a b w o, 0 <= w <= 1 -> 1 - w <= 3 * u * INR k -> Rabs (o - (w * a + (1 - w) * b)) <= 4 * b2 (-53) * (w * Rabs a + (1 - w) * Rabs b) + b2 (-1073) ->
            Rabs (o - a) <= 4 * b2 (-53) * (INR k + 1) * (Rabs a + Rabs b) + b2 (-1073)).
  { intros a b w o Ww H1 H2. change (b2 (-53)) with u in *. set (ti := b2 (-1073)) in *. clearbody ti. pose proof (Rabs_pos a) as Pa. pose proof (Rabs_pos b) as Pb.
    replace (o - a) with ((o - (w * a + (1 - w) * b)) + (1 - w) * (b - a)) by ring. eapply Rle_trans; [apply Rabs_triang|]. rewrite (Rabs_mult (1 - w)), (Rabs_pos_eq (1 - w)) by lra.
    assert (A : Rabs (b - a) <= Rabs a + Rabs b) by (pose proof (Rabs_triang b (- a)) as Q; rewrite Rabs_Ropp in Q; unfold Rminus; lra).
    assert (B : (1 - w) * Rabs (b - a) <= 3 * u * INR k * (Rabs a + Rabs b)) by (apply Rmult_le_compat; [lra|apply Rabs_pos|lra|lra]).
    assert (D : w * Rabs a + (1 - w) * Rabs b <= Rabs a + Rabs b).
    { assert (w * Rabs a <= 1 * Rabs a) by (apply Rmult_le_compat_r; lra). assert ((1 - w) * Rabs b <= 1 * Rabs b) by (apply Rmult_le_compat_r; lra). lra. }
    assert (G : 4 * u * (w * Rabs a + (1 - w) * Rabs b) <= 4 * u * (Rabs a + Rabs b)) by (apply Rmult_le_compat_l; lra).
    assert (I : 0 <= u * INR k * (Rabs a + Rabs b)) by (apply Rmult_le_pos; [apply Rmult_le_pos; lra|lra]). lra. }
  destruct C as [C|C].
  - assert (Zf : Zfloor x = Z.of_nat (k - 1)).
    { apply Zfloor_imp. rewrite plus_IZR, <- !INR_IZR_INZ. rewrite minus_INR by lia. cbn [INR]. lra. }
    rewrite Zf, Nat2Z.id in W, Ci. rewrite (proj2 (Nat.leb_le (k - 1) (Z.to_nat n)) ltac:(lia)) in Ci.
    exists (k - 1)%nat, out, caller. split; [now right|]. split; [exact R|]. intros i j Hi Hj a b. specialize (Ci i j Hi Hj).
    replace (S i + (k - 1))%nat with (i + k)%nat in Ci by lia. fold a b in Ci.
    assert (Q : 1 - (x - INR (k - 1)) <= 3 * u * INR k) by (rewrite minus_INR by lia; cbn [INR]; lra).
    exact (Close a b (x - INR (k - 1)) (at_ out i j) ltac:(lra) Q Ci).
  - assert (Zf : Zfloor x = Z.of_nat k).
    { apply Zfloor_imp. rewrite plus_IZR, <- !INR_IZR_INZ. lra. }
    rewrite Zf, Nat2Z.id in W, Ci. rewrite (proj2 (Nat.leb_le k (Z.to_nat n)) ltac:(lia)) in Ci.
    exists (k + 1)%nat, out, caller. split; [now left|]. split; [exact R|]. intros i j Hi Hj a b. specialize (Ci i j Hi Hj).
    replace (S i + k)%nat with (i + (k + 1))%nat in Ci by lia. fold a b in Ci. 
    apply (Close a b (1 - (x - INR k)) (at_ out i j)); [lra|lra|].
    replace (1 - (x - INR k)) with (1 - (x - INR k)) by reflexivity. set (w := x - INR k) in *.
    replace ((1 - w) * a + (1 - (1 - w)) * b) with (w * b + (1 - w) * a) by ring.
    replace ((1 - w) * Rabs a + (1 - (1 - w)) * Rabs b) with (w * Rabs b + (1 - w) * Rabs a) by ring. exact Ci.
Qed.
Print Assumptions C97_edges.


(** Sixteen rows 0, 1, ..., 15 around the circle.  The rotation by edge 8 (half a
    turn) puts 9 into the first row, the rotation by edge 11 puts 10 there. *)
Definition seen (r : res (list (list double) * list (list double))) (i : nat) : option spec_float :=
  match r with Ok (out, _) => Some (B2SF (nth 0 (nth i out []) dzero)) | Err _ => None end.
Definition ramp : list (list double) := map (fun i => [dint (Z.of_nat i)]) (seq 0 16).
Definition turned (k : nat) := e <- linspace_d dzero twopi (16 + 1) ;; rotate_polar_grid_d e ramp (nth k e dzero).

Lemma seen_val : forall r i m e, seen r i = Some (S754_finite false m e) ->
  exists out caller, r = Ok (out, caller) /\ at_ out i 0 = IZR (Zpos m) * b2 e.
Proof.
  intros [[out caller]|x] i m e H; [|discriminate H]. exists out, caller. split; [reflexivity|].
  unfold seen in H. injection H as H. unfold at_, val. rewrite <- SF2R_B2SF, H. reflexivity.
Qed.

Theorem C97_edges_refuted : exists pedges out8 out11 c8 c11,
  linspace_d dzero twopi (16 + 1) = Ok pedges /\ (forall i, (i < 16)%nat -> at_ ramp i 0 = INR i) /\
  rotate_polar_grid_d pedges ramp (nth 8 pedges dzero) = Ok (out8, c8) /\ at_ out8 0 0 = 9 /\
  rotate_polar_grid_d pedges ramp (nth 11 pedges dzero) = Ok (out11, c11) /\ 10 < at_ out11 0 0 < 10 + b2 (-48).
Proof.
  destruct (circle_edges 16 ltac:(lia)) as (e & E & _).
  assert (R : forall k, turned k = rotate_polar_grid_d e ramp (nth k e dzero)) by (intros k; unfold turned; rewrite E; reflexivity).
  destruct (seen_val (turned 8) 0 5066549580791808 (-49)) as (o8 & c8 & R8 & V8); [vm_compute; reflexivity|].
  destruct (seen_val (turned 11) 0 5629499534213121 (-49)) as (o11 & c11 & R11 & V11); [vm_compute; reflexivity|].
  exists e, o8, o11, c8, c11. split; [exact E|]. split; [|split; [rewrite <- R; exact R8|split; [|split; [rewrite <- R; exact R11|]]]].
  - intros i Hi. unfold at_, ramp. rewrite (nth_map_lt _ _ _ _ i [] 0%nat) by (rewrite seq_length; lia). rewrite seq_nth by lia. cbn [nth Nat.add].
    rewrite (proj2 (dint_ok (Z.of_nat i) ltac:(lia))). symmetry. apply INR_IZR_INZ.
  - rewrite V8. cbn. lra.
  - rewrite V11. cbn. lra.
Qed.
Print Assumptions C97_edges_refuted.

(** User expectation: a full circle wraps wherever it starts.  Violated: the edges
    of [get_xedges(2.*np.pi, 4, xmin)] starting at 1.717... span a double different
    from 2 pi, so a grid of ones rotated by 1 has 0.6366 in its last row. *)
Definition off := dbl 7732803308502805 (-52).
Definition ones4 : list (list double) := [[one_d]; [one_d]; [one_d]; [one_d]].
Definition turned1 := e <- get_xedges_d twopi 4 (Some off) ;; rotate_polar_grid_d e ones4 one_d.

Theorem C97_wrap_refuted : exists xmin pedges out caller,
  fin xmin /\ 1 < val xmin < 2 /\ get_xedges_d twopi 4 (Some xmin) = Ok pedges /\
  (forall i, (i < 4)%nat -> at_ ones4 i 0 = 1) /\
  rotate_polar_grid_d pedges ones4 one_d = Ok (out, caller) /\ at_ out 0 0 = 1 /\ at_ out 3 0 < 2 / 3.
Proof.
  destruct (seen_val turned1 0 4503599627370496 (-52)) as (o & c & R0 & V0); [vm_compute; reflexivity|].
  destruct (seen_val turned1 3 5734161139222658 (-53)) as (o' & c' & R3 & V3); [vm_compute; reflexivity|].
  rewrite R0 in R3. injection R3 as <- <-.
  assert (Fo : B2SF off = S754_finite false 7732803308502805 (-52)) by (vm_compute; reflexivity).
  assert (Vo : val off = IZR 7732803308502805 * b2 (-52)) by (unfold val; rewrite <- SF2R_B2SF, Fo; reflexivity).
  unfold turned1 in R0. destruct (get_xedges_d twopi 4 (Some off)) as [e|x] eqn:E; [|discriminate R0].
  exists off, e, o, c. split; [unfold fin; rewrite <- is_finite_SF_B2SF, Fo; reflexivity|]. split; [rewrite Vo; cbn; lra|]. split; [exact E|].
  split; [|split; [exact R0|split; [rewrite V0; cbn; lra|rewrite V3; cbn; lra]]].
  destruct one_ok as [_ V1]. intros i Hi. destruct i as [|[|[|[|i]]]]; try lia; exact V1.
Qed.
Print Assumptions C97_wrap_refuted.

(** The hypotheses of [C97_circle] and [C97_edges] hold for the ramp. *)
Example C97_example : exists pedges, linspace_d dzero twopi (16 + 1) = Ok pedges /\ length ramp = Z.to_nat 16 /\ plain ramp 1 /\
  fin one_d /\ 0 < val one_d < tau /\ (1 <= 8 < Z.to_nat 16)%nat.
Proof.
  destruct (circle_edges 16 ltac:(lia)) as (e & E & _). exists e. split; [exact E|]. split; [reflexivity|].
  destruct one_ok as [F1 V1]. pose proof tau_bounds. split; [|split; [exact F1|split; [lra|]]].
  - intros i Hi. change (length ramp) with 16%nat in Hi. unfold ramp. rewrite (nth_map_lt _ _ _ _ i [] 0%nat) by (rewrite seq_length; lia). rewrite seq_nth by lia. cbn [Nat.add].
    split; [reflexivity|]. intros j Hj. replace j with 0%nat by lia. cbn [nth]. destruct (dint_ok (Z.of_nat i) ltac:(lia)) as [F V]. split; [exact F|]. rewrite V.
    rewrite Rabs_pos_eq by (apply IZR_le; lia). apply Rle_trans with 16; [apply IZR_le; lia|]. change 16 with (b2 4). apply bpow_le. lia.
  - change (Z.to_nat 16) with 16%nat. lia.
Qed.
