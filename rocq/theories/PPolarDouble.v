(** * Proofs about [MPolarDouble.v] *)

From Coq Require Import Reals ZArith List Bool Lia Lra Psatz.
From Flocq Require Import Core IEEE754.BinarySingleNaN Plus_error Sterbenz.
From Verif Require Import Base BaseP MHealpixFloat PHealpixFloat SpecDouble MDouble PDouble PSumDouble MGridsDouble PGridsDouble TGridsDouble MRandomsDouble PRandomsDouble MPolarCoords PPolarCoords MPolarDouble.
Import ListNotations.
Open Scope R_scope.

Local Instance fexp_valid : Valid_exp (FLT_exp (-1074) 53).
Proof. apply FLT_exp_valid. reflexivity. Qed.
Local Instance fexp_mono : Monotone_exp (FLT_exp (-1074) 53).
Proof. apply FLT_exp_monotone. Qed.
Local Existing Instance p53.

Definition dcell (f : list (list double)) (i j : nat) : double := nth j (nth i f []) dzero.

(** The row roll of lines 52-54. *)
Lemma roll_rows_d : forall (z f : list (list double)) m, length z = length f -> (1 <= m <= length f)%nat ->
  let r := set_from z (- Z.of_nat m) (slice_to f (Z.of_nat m)) in
  set_to r (- Z.of_nat m) (slice_from f (Z.of_nat m)) = skipn m f ++ firstn m f.
Proof.
  intros z f m HL Hm r. unfold r, set_from, slice_to, slice_from, set_to.
  rewrite !slice_pos_neg by lia. rewrite !slice_pos_nn by lia. rewrite !Nat2Z.id.
  rewrite app_length, !firstn_length. f_equal.
  rewrite skipn_app. rewrite firstn_length.
  rewrite skipn_all2 by (rewrite firstn_length; lia). cbn [app].
  replace (Nat.min (length z - m) (length z) + Nat.min m (length f) - m
           - Nat.min (length z - m) (length z))%nat with 0%nat by lia.
  reflexivity.
Qed.

Lemma roll_rows_over_d : forall (z f : list (list double)) m, length z = length f -> (length f < m)%nat ->
  let r := set_from z (- Z.of_nat m) (slice_to f (Z.of_nat m)) in
  set_to r (- Z.of_nat m) (slice_from f (Z.of_nat m)) = f.
Proof.
  intros z f m HL Hm r. unfold r, set_from, slice_to, slice_from, set_to.
  rewrite !slice_pos_neg by lia. rewrite !slice_pos_nn by lia. rewrite !Nat2Z.id.
  rewrite (firstn_all2 f) by lia. rewrite (skipn_all2 f) by lia.
  replace (length z - m)%nat with 0%nat by lia. cbn [firstn app].
  replace (length f - m)%nat with 0%nat by lia. reflexivity.
Qed.

Lemma nth_roll_d : forall (f : list (list double)) m i, (m <= length f)%nat -> (i < length f)%nat ->
  nth i (skipn m f ++ firstn m f) [] = nth ((i + m) mod length f) f [].
Proof.
  intros f m i Hm Hi.
  destruct (Nat.lt_ge_cases (i + m) (length f)) as [H|H].
  - rewrite app_nth1 by (rewrite skipn_length; lia). rewrite nth_skipn.
    rewrite Nat.mod_small by lia. f_equal. lia.
  - rewrite app_nth2 by (rewrite skipn_length; lia). rewrite skipn_length.
    rewrite nth_firstn by lia.
    replace (i + m)%nat with ((i + m - length f) + 1 * length f)%nat by lia.
    rewrite Nat.mod_add by lia. rewrite Nat.mod_small by lia. f_equal. lia.
Qed.

(** Mixing of consecutive rows, lines 57-62. *)
Definition mixed_d (w : double) (rot : list (list double)) : list (list double) :=
  set_to rot (-1) (map2 (row_mix_d w) (slice_to rot (-1)) (slice_from rot 1)).

Lemma mixed_length_d : forall w rot, (1 <= length rot)%nat -> length (mixed_d w rot) = length rot.
Proof.
  intros w rot H. unfold mixed_d, set_to, slice_to, slice_from.
  rewrite (slice_pos_m1 _ rot), (slice_pos_nn _ rot 1) by lia.
  rewrite app_length, map2_length, firstn_length, !skipn_length. change (Z.to_nat 1) with 1%nat. lia.
Qed.

Lemma mixed_last_d : forall w rot, (1 <= length rot)%nat ->
  nth (length rot - 1) (mixed_d w rot) [] = nth (length rot - 1) rot [].
Proof.
  intros w rot H. unfold mixed_d, set_to, slice_to, slice_from.
  rewrite (slice_pos_m1 _ rot), (slice_pos_nn _ rot 1) by lia. change (Z.to_nat 1) with 1%nat.
  rewrite app_nth2; rewrite map2_length, firstn_length, skipn_length; [|lia].
  rewrite nth_skipn. f_equal. lia.
Qed.

Lemma mixed_nth_d : forall w rot i, (S i < length rot)%nat ->
  nth i (mixed_d w rot) [] = row_mix_d w (nth i rot []) (nth (S i) rot []).
Proof.
  intros w rot i H. unfold mixed_d, set_to, slice_to, slice_from.
  rewrite (slice_pos_m1 _ rot), (slice_pos_nn _ rot 1) by lia. change (Z.to_nat 1) with 1%nat.
  rewrite app_nth1; [|rewrite map2_length, firstn_length, skipn_length; lia].
  rewrite (nth_map2 _ _ _ _ _ _ i [] [] []); [|rewrite firstn_length; lia|rewrite skipn_length; lia].
  rewrite nth_firstn by lia. now rewrite nth_skipn.
Qed.

Lemma row_mix_nth_d : forall w a b j, (j < length a)%nat -> (j < length b)%nat ->
  nth j (row_mix_d w a b) dzero = mix_d w (nth j a dzero) (nth j b dzero).
Proof. intros. unfold row_mix_d. now rewrite (nth_map2 _ _ _ _ _ _ j dzero dzero dzero). Qed.


(** [int(np.floor(q))] and the fraction left over, for a finite [q >= 0]. *)
Lemma ddiv_fin : forall x y, fin x -> val y <> 0 -> fin (ddiv x y) -> val (ddiv x y) = fl (val x / val y).
Proof.
  intros x y Fx Hy Fq. unfold fl. pose proof (@Bdiv_correct 53 1024 p53 p1024 mode_NE x y Hy) as C.
  destruct (Rlt_bool _ _); [apply C|]. exfalso. unfold fin, ddiv in Fq.
  rewrite <- is_finite_SF_B2SF in Fq. rewrite C in Fq. unfold binary_overflow in Fq. cbn in Fq. discriminate.
Qed.

Lemma int_floor_ok : forall q, fin q -> int_floor_d q = Ok (Zfloor (val q)).
Proof.
  intros q F. destruct (floor_ok q F) as [Ff Vf].
  assert (T : Btrunc (floor_d q) = Zfloor (val q)).
  { assert (E : IZR (Btrunc (floor_d q)) = IZR (Zfloor (val q))); [|now apply eq_IZR].
    rewrite (Btrunc_correct 53 1024 p1024). fold (val (floor_d q)). rewrite Vf, fix_round. now rewrite Ztrunc_IZR. }
  unfold int_floor_d. destruct q; try discriminate F; now rewrite T.
Qed.

Lemma frac_ok : forall q, fin q -> 0 <= val q ->
  let w := dsub q (floor_d q) in fin w /\ val w = val q - IZR (Zfloor (val q)) /\ 0 <= val w < 1.
Proof.
  intros q F Hq w. destruct (floor_ok q F) as [Ff Vf].
  pose proof (Zfloor_lb (val q)) as L. pose proof (Zfloor_ub (val q)) as U.
  assert (E : fl (val q - val (floor_d q)) = val q - IZR (Zfloor (val q))).
  { rewrite Vf. apply fl_fmt. destruct (Z.eq_dec (Zfloor (val q)) 0) as [E|E]; [rewrite E, Rminus_0_r; apply fmt_val|].
    assert (P : (0 <= Zfloor (val q))%Z) by (apply Zfloor_lub; exact Hq).
    assert (P1 : 1 <= IZR (Zfloor (val q))) by (apply IZR_le; lia).
    apply sterbenz; [typeclasses eauto|typeclasses eauto|apply fmt_val|rewrite <- Vf; apply fmt_val|lra]. }
  destruct (dsub_ok q (floor_d q) F Ff) as [Fw Vw].
  { rewrite E. apply small_b2. rewrite Rabs_pos_eq; lra. }
  fold w in Fw, Vw. rewrite E in Vw. split; [exact Fw|]. split; [exact Vw|]. rewrite Vw. lra.
Qed.

(** One mixed element: relative error 4 * 2^-53 and two underflows. *)
Lemma mix_ok : forall w a b, fin w -> 0 <= val w < 1 -> fin a -> fin b -> Rabs (val a) <= b2 1022 -> Rabs (val b) <= b2 1022 ->
  fin (mix_d w a b) /\
  Rabs (val (mix_d w a b) - (val w * val a + (1 - val w) * val b)) <=
    4 * b2 (-53) * (val w * Rabs (val a) + (1 - val w) * Rabs (val b)) + b2 (-1073).
Proof.
  intros w a b Fw Hw Fa Fb Ba Bb. destruct one_ok as [F1 V1].
  pose proof u_pos as U. pose proof (bpow_gt_0 radix2 (-1075)) as P. pose proof (Rabs_pos (val a)) as Pa. pose proof (Rabs_pos (val b)) as Pb.
  assert (M : b2 1022 < b2 1024) by (apply bpow_lt; lia).
  (* first product *)
  assert (A0 : Rabs (fl (val w * val a)) <= b2 1022).
  { apply abs_round_le_generic; [typeclasses eauto|typeclasses eauto|apply fmt_b2; lia|]. rewrite Rabs_mult, (Rabs_pos_eq (val w)) by lra.
    apply Rle_trans with (1 * Rabs (val a)); [apply Rmult_le_compat_r; lra|lra]. }
  destruct (dmul_ok w a Fw Fa) as [FA VA]; [lra|].
  pose proof (fl_mixed (val w * val a)) as EA. rewrite Rabs_mult, (Rabs_pos_eq (val w)) in EA by lra.
  (* complement *)
  assert (N0 : 0 <= fl (1 - val w) <= 1).
  { split; [apply fl_ge; [apply fl_fmt, fmt_0|lra]|apply fl_le; [apply fl_fmt, fmt_1|lra]]. }
  destruct (dsub_ok one_d w F1 Fw) as [FV VV]; [rewrite V1; apply small_b2; rewrite Rabs_pos_eq; lra|]. rewrite V1 in VV.
  pose proof (add_err 1 (- val w) fmt_1 (fmt_opp _ (fmt_val w))) as EV. change (1 + - val w) with (1 - val w) in EV. rewrite (Rabs_pos_eq (1 - val w)) in EV by lra.
  (* second product *)
  assert (B0 : Rabs (fl (val (dsub one_d w) * val b)) <= b2 1022).
  { apply abs_round_le_generic; [typeclasses eauto|typeclasses eauto|apply fmt_b2; lia|]. rewrite VV, Rabs_mult, (Rabs_pos_eq (fl (1 - val w))) by lra.
    apply Rle_trans with (1 * Rabs (val b)); [apply Rmult_le_compat_r; lra|lra]. }
  destruct (dmul_ok (dsub one_d w) b FV Fb) as [FB VB]; [lra|].
  pose proof (fl_mixed (val (dsub one_d w) * val b)) as EB. rewrite VV in EB, VB. rewrite Rabs_mult, (Rabs_pos_eq (fl (1 - val w))) in EB by lra.
  set (A := fl (val w * val a)) in *. set (V := fl (1 - val w)) in *. rewrite VV in B0. set (B := fl (V * val b)) in *.
  (* sum *)
  assert (FmA : fmt A) by (rewrite <- VA; apply fmt_val). assert (FmB : fmt B) by (rewrite <- VB; apply fmt_val).
  pose proof (add_err A B FmA FmB) as ES.
  assert (S0 : Rabs (fl (A + B)) <= b2 1023).
  { apply abs_round_le_generic; [typeclasses eauto|typeclasses eauto|apply fmt_b2; lia|]. pose proof (Rabs_triang A B).
    replace (b2 1023) with (2 * b2 1022) by (change 1023%Z with (1 + 1022)%Z; rewrite bpow_plus; reflexivity). lra. }
  destruct (dadd_ok (dmul w a) (dmul (dsub one_d w) b) FA FB) as [FS VS].
  { rewrite VA, VB. assert (b2 1023 < b2 1024) by (apply bpow_lt; lia). lra. }
  rewrite VA, VB in VS. unfold mix_d. split; [exact FS|]. rewrite VS.
  replace (b2 (-1073)) with (4 * b2 (-1075)) by (change (-1073)%Z with (2 + -1075)%Z; rewrite bpow_plus; reflexivity).
  change (b2 (-53)) with u. set (e := b2 (-1075)) in *. clearbody e.
  set (x := val w) in *. set (y := val b) in *. set (z := val a) in *. set (ww := 1 - x) in *. assert (W : 0 <= ww) by (unfold ww; lra).
  (* the product (1-w) b *)
  assert (EB2 : Rabs (B - ww * y) <= (2 * u + u * u) * (ww * Rabs y) + e).
  { replace (B - ww * y) with ((B - V * y) + (V - ww) * y) by ring. eapply Rle_trans; [apply Rabs_triang|].
    rewrite (Rabs_mult (V - ww)). assert (V <= ww + u * ww) by (apply Rabs_le_inv in EV; lra).
    assert (V * Rabs y <= (ww + u * ww) * Rabs y) by (apply Rmult_le_compat_r; lra).
    assert (Rabs (V - ww) * Rabs y <= u * ww * Rabs y) by (apply Rmult_le_compat_r; lra).
    assert (u * (V * Rabs y) <= u * ((ww + u * ww) * Rabs y)) by (apply Rmult_le_compat_l; lra). lra. }
  set (p := x * Rabs z) in *. set (q := ww * Rabs y) in *.
  assert (Hp : 0 <= p) by (apply Rmult_le_pos; lra). assert (Hq : 0 <= q) by (apply Rmult_le_pos; lra).
  assert (EA2 : Rabs (A - x * z) <= (2 * u + u * u) * p + e).
  { assert (0 <= u * p) by (apply Rmult_le_pos; lra). assert (0 <= u * u * p) by (apply Rmult_le_pos; [apply Rmult_le_pos; lra|lra]). lra. }
  assert (TA : Rabs (A + B - (x * z + ww * y)) <= (2 * u + u * u) * (p + q) + 2 * e).
  { replace (A + B - (x * z + ww * y)) with ((A - x * z) + (B - ww * y)) by ring. eapply Rle_trans; [apply Rabs_triang|]. lra. }
  assert (MA : Rabs (x * z + ww * y) <= p + q).
  { eapply Rle_trans; [apply Rabs_triang|]. rewrite !Rabs_mult, (Rabs_pos_eq x), (Rabs_pos_eq ww) by lra. unfold p, q. lra. }
  assert (MS : Rabs (A + B) <= (1 + 2 * u + u * u) * (p + q) + 2 * e).
  { replace (A + B) with ((A + B - (x * z + ww * y)) + (x * z + ww * y)) by ring. eapply Rle_trans; [apply Rabs_triang|]. lra. }
  replace (fl (A + B) - (x * z + ww * y)) with ((fl (A + B) - (A + B)) + (A + B - (x * z + ww * y))) by ring.
  eapply Rle_trans; [apply Rabs_triang|].
  assert (u * Rabs (A + B) <= u * ((1 + 2 * u + u * u) * (p + q) + 2 * e)) by (apply Rmult_le_compat_l; lra).
  assert (X1 : u * (1 + 2 * u + u * u) + (2 * u + u * u) <= 4 * u) by nra.
  assert (X2 : (u * (1 + 2 * u + u * u) + (2 * u + u * u)) * (p + q) <= 4 * u * (p + q)) by (apply Rmult_le_compat_r; lra).
  assert (X3 : u * e <= e) by nra. nra.
Qed.

Section GridD.
Variables (pedges : list double) (f : list (list double)) (s : double) (c : nat).
Hypothesis Hpe : (2 <= length pedges)%nat.
Hypothesis Hn : (2 <= length f)%nat.
Hypothesis Hc : forall i, (i < length f)%nat -> length (nth i f []) = c.
Hypothesis Hs0 : dlt dzero s = true.
Hypothesis Hs1 : dlt s twopi = true.
Let q := ddiv s (dsub (nth 1 pedges dzero) (nth 0 pedges dzero)).
Hypothesis Fq : fin q.
Hypothesis Pq : 0 <= val q.
Let m := Z.to_nat (Zfloor (val q)).
Let w := dsub q (floor_d q).

Definition src_row (n m i : nat) : nat := if (m <=? n)%nat then ((i + m) mod n)%nat else i.

Definition rolled_d : list (list double) :=
  if (m =? 0)%nat then f else if (m <=? length f)%nat then skipn m f ++ firstn m f else f.

Lemma rolled_length_d : length rolled_d = length f.
Proof.
  unfold rolled_d. destruct (m =? 0)%nat; [reflexivity|].
  destruct (Nat.leb_spec m (length f)); [|reflexivity].
  rewrite app_length, skipn_length, firstn_length. lia.
Qed.

Lemma rolled_nth_d : forall i, (i < length f)%nat -> nth i rolled_d [] = nth (src_row (length f) m i) f [].
Proof.
  intros i Hi. unfold rolled_d, src_row. destruct (Nat.eqb_spec m 0) as [->|Hm0].
  - cbn [Nat.leb]. rewrite Nat.add_0_r, Nat.mod_small by lia. reflexivity.
  - destruct (Nat.leb_spec m (length f)); [|reflexivity]. apply nth_roll_d; lia.
Qed.

Lemma src_row_lt : forall n k i, (i < n)%nat -> (src_row n k i < n)%nat.
Proof.
  intros n k i Hi. unfold src_row. destruct (k <=? n)%nat; [|exact Hi].
  apply Nat.mod_upper_bound. lia.
Qed.

Definition final_last_d : list double :=
  let x := nth (length f - 1) (mixed_d w rolled_d) [] in
  if deq (dsub (nth (length pedges - 1) pedges dzero) (nth 0 pedges dzero)) twopi
  then row_mix_d w x (nth 0 (mixed_d w rolled_d) []) else map (fun v => dmul v w) x.

Lemma grid_run_d : rotate_polar_grid_d pedges f s =
  let out := set_nth (mixed_d w rolled_d) (length f - 1) final_last_d in
  Ok (out, if (m =? 0)%nat then out else f).
Proof.
  unfold rotate_polar_grid_d, py_assert. rewrite Hs0, Hs1.
  rewrite (py_get_ok _ pedges 1 dzero) by lia. rewrite (py_get_ok _ pedges 0 dzero) by lia.
  change (Z.to_nat 1) with 1%nat. change (Z.to_nat 0) with 0%nat. cbn [bind]. fold q.
  rewrite (int_floor_ok q Fq). cbn [bind]. fold w.
  assert (Pm : (0 <= Zfloor (val q))%Z) by (apply Zfloor_lub; exact Pq).
  assert (Em : Zfloor (val q) = Z.of_nat m) by (unfold m; lia). rewrite Em.
  set (rot := if (Z.of_nat m =? 0)%Z then f else _).
  assert (Er : rot = rolled_d).
  { unfold rot, rolled_d. destruct (Z.eqb_spec (Z.of_nat m) 0) as [E|E].
    - replace (m =? 0)%nat with true by (symmetry; apply Nat.eqb_eq; lia). reflexivity.
    - replace (m =? 0)%nat with false by (symmetry; apply Nat.eqb_neq; lia).
      destruct (Nat.leb_spec m (length f)).
      + apply roll_rows_d; [now rewrite map_length|lia].
      + apply roll_rows_over_d; [now rewrite map_length|lia]. }
  rewrite Er. clear rot Er. fold (mixed_d w rolled_d).
  pose proof rolled_length_d as LR. pose proof (mixed_length_d w rolled_d) as LM.
  rewrite LR in LM. specialize (LM ltac:(lia)).
  rewrite (py_get_last _ pedges dzero) by lia. cbn [bind].
  rewrite (py_get_last _ (mixed_d w rolled_d) []) by lia. cbn [bind].
  rewrite (py_get_ok _ (mixed_d w rolled_d) 0 []) by lia. cbn [bind].
  rewrite !py_set_last by lia. rewrite LM. change (Z.to_nat 0) with 0%nat.
  assert (Ez : (Z.of_nat m =? 0)%Z = (m =? 0)%nat).
  { destruct (Z.eqb_spec (Z.of_nat m) 0); destruct (Nat.eqb_spec m 0); lia || reflexivity. }
  rewrite Ez. unfold final_last_d.
  destruct (deq (dsub (nth (length pedges - 1) pedges dzero) (nth 0 pedges dzero)) twopi); reflexivity.
Qed.

Lemma rolled_row_len_d : forall i, (i < length f)%nat -> length (nth i rolled_d []) = c.
Proof. intros i Hi. rewrite rolled_nth_d by exact Hi. apply Hc, src_row_lt, Hi. Qed.

Lemma grid_cells_d : exists out caller,
  rotate_polar_grid_d pedges f s = Ok (out, caller) /\
  length out = length f /\ (forall i, (i < length f)%nat -> length (nth i out []) = c) /\
  (forall i j, (S i < length f)%nat -> (j < c)%nat ->
     dcell out i j = mix_d w (dcell f (src_row (length f) m i) j) (dcell f (src_row (length f) m (S i)) j)) /\
  (forall j, (j < c)%nat ->
     dcell out (length f - 1) j =
     if deq (dsub (nth (length pedges - 1) pedges dzero) (nth 0 pedges dzero)) twopi
     then mix_d w (dcell f (src_row (length f) m (length f - 1)) j) (dcell out 0 j)
     else dmul (dcell f (src_row (length f) m (length f - 1)) j) w) /\
  caller = (if (m =? 0)%nat then out else f).
Proof.
  rewrite grid_run_d. cbv zeta.
  set (out := set_nth (mixed_d w rolled_d) (length f - 1) final_last_d).
  pose proof rolled_length_d as LR. pose proof (mixed_length_d w rolled_d) as LM.
  rewrite LR in LM. specialize (LM ltac:(lia)).
  assert (Hrow : forall i, (S i < length f)%nat ->
            nth i out [] = row_mix_d w (nth i rolled_d []) (nth (S i) rolled_d [])).
  { intros i Hi. unfold out. rewrite nth_set_nth.
    replace (i =? length f - 1)%nat with false by (symmetry; apply Nat.eqb_neq; lia).
    cbn [andb]. apply mixed_nth_d. rewrite LR. lia. }
  assert (HL : nth (length f - 1) out [] = final_last_d).
  { unfold out. rewrite nth_set_nth, LM, Nat.eqb_refl.
    replace (length f - 1 <? length f)%nat with true by (symmetry; apply Nat.ltb_lt; lia). reflexivity. }
  pose proof (mixed_last_d w rolled_d) as ML. rewrite LR in ML. specialize (ML ltac:(lia)).
  assert (Hl : length (nth (length f - 1) rolled_d []) = c) by (apply rolled_row_len_d; lia).
  assert (M0 : nth 0 (mixed_d w rolled_d) [] = nth 0 out []).
  { rewrite Hrow by lia. apply mixed_nth_d. lia. }
  assert (L0 : length (nth 0 out []) = c).
  { rewrite Hrow by lia. unfold row_mix_d. rewrite map2_length, !rolled_row_len_d by lia. lia. }
  exists out, (if (m =? 0)%nat then out else f). split; [reflexivity|].
  split; [unfold out; rewrite length_set_nth; exact LM|]. split; [|split; [|split; [|reflexivity]]].
  - intros i Hi. destruct (Nat.eq_dec i (length f - 1)) as [->|Ne].
    + rewrite HL. unfold final_last_d. rewrite ML, M0. destruct (deq _ _); [unfold row_mix_d; rewrite map2_length; lia|rewrite map_length; lia].
    + rewrite Hrow by lia. unfold row_mix_d. rewrite map2_length, !rolled_row_len_d by lia. lia.
  - intros i j Hi Hj. unfold dcell. rewrite Hrow by exact Hi.
    rewrite row_mix_nth_d by (rewrite rolled_row_len_d; lia).
    now rewrite !rolled_nth_d by lia.
  - intros j Hj. unfold dcell at 1. rewrite HL. unfold final_last_d. rewrite ML, M0.
    destruct (deq (dsub (nth (length pedges - 1) pedges dzero) (nth 0 pedges dzero)) twopi).
    + rewrite row_mix_nth_d by lia. rewrite rolled_nth_d by lia. reflexivity.
    + rewrite (nth_map_lt _ _ _ _ j dzero dzero) by lia. rewrite rolled_nth_d by lia. reflexivity.
Qed.
End GridD.

(** ** Edges of the full circle, [np.linspace(0., 2.*np.pi, n + 1)] *)

Lemma step_bounds : forall n, (2 <= n <= 2 ^ 50)%Z -> let h := fl (tau / IZR n) in
  b2 (-50) <= h <= 4 /\ Rabs (h - tau / IZR n) <= u * (tau / IZR n).
Proof.
  intros n Hn h. pose proof tau_bounds as T. assert (N2 : 2 <= IZR n) by (apply IZR_le; lia).
  assert (N3 : IZR n <= b2 50) by (change (b2 50) with (IZR (2 ^ 50)); apply IZR_le; lia).
  assert (L : b2 (-50) <= tau / IZR n).
  { apply Rmult_le_reg_r with (IZR n); [lra|]. replace (tau / IZR n * IZR n) with tau by (field; lra).
    apply Rle_trans with (b2 (-50) * b2 50); [apply Rmult_le_compat_l; [apply bpow_ge_0|exact N3]|]. rewrite <- bpow_plus. cbn. lra. }
  assert (U : tau / IZR n <= 4).
  { apply Rmult_le_reg_r with (IZR n); [lra|]. replace (tau / IZR n * IZR n) with tau by (field; lra). nra. }
  split; [split|].
  - apply fl_ge; [apply fl_fmt, fmt_b2; lia|exact L].
  - apply fl_le; [apply fl_fmt; change 4 with (b2 2); apply fmt_b2; lia|exact U].
  - unfold h. apply fl_rel. apply Rle_trans with (2 := L). apply bpow_le. lia.
Qed.

Lemma circle_edges : forall n, (2 <= n <= 2 ^ 50)%Z -> exists e,
  linspace_d dzero twopi (n + 1) = Ok e /\ length e = S (Z.to_nat n) /\ nth (Z.to_nat n) e dzero = twopi /\
  forall i, (i < Z.to_nat n)%nat -> fin (nth i e dzero) /\ val (nth i e dzero) = fl (INR i * fl (tau / IZR n)).
Proof.
  intros n Hn. destruct (linspace_shape dzero twopi n) as (e & E & L & Lb & Li); [lia|]. exists e. split; [exact E|]. split; [exact L|]. split; [exact Lb|].
  destruct twopi_val as [Ft Vt]. pose proof tau_bounds as T. destruct (step_bounds n Hn) as ((S1 & S2) & _). pose proof (bpow_gt_0 radix2 (-50)) as P50.
  assert (N2 : 2 <= IZR n) by (apply IZR_le; lia). assert (N3 : IZR n <= b2 50) by (change (b2 50) with (IZR (2 ^ 50)); apply IZR_le; lia).
  destruct (dint_ok n) as [FN VN]; [lia|].
  destruct (dsub_ok twopi dzero Ft fin_zero) as [FD VD].
  { rewrite Vt, val_zero, Rminus_0_r, (fl_fmt _ fmt_tau). apply small_b2. rewrite Rabs_pos_eq; lra. }
  rewrite Vt, val_zero, Rminus_0_r, (fl_fmt _ fmt_tau) in VD.
  destruct (ddiv_ok (dsub twopi dzero) (dint n) FD) as [FS VS]; [lra|rewrite VD, VN; apply small_b2; rewrite Rabs_pos_eq; lra|]. rewrite VD, VN in VS.
  intros i Hi. rewrite (Li i Hi). rewrite deq_ok by (auto; apply fin_zero). rewrite VS, val_zero, Req_bool_false by lra.
  destruct (dint_ok (Z.of_nat i)) as [FI VI]; [lia|].
  assert (I0 : 0 <= IZR (Z.of_nat i) <= b2 50) by (split; [apply IZR_le; lia|change (b2 50) with (IZR (2 ^ 50)); apply IZR_le; lia]).
  assert (Pb : 0 <= IZR (Z.of_nat i) * fl (tau / IZR n) <= b2 52).
  { split; [apply Rmult_le_pos; lra|]. replace (b2 52) with (b2 50 * 4) by (change 4 with (b2 2); rewrite <- bpow_plus; reflexivity). apply Rmult_le_compat; lra. }
  assert (Fb : 0 <= fl (IZR (Z.of_nat i) * fl (tau / IZR n)) <= b2 52).
  { split; [apply fl_ge; [apply fl_fmt, fmt_0|lra]|apply fl_le; [apply fl_fmt, fmt_b2; lia|lra]]. }
  assert (B : b2 52 < b2 1024) by (apply bpow_lt; lia).
  destruct (dmul_ok (dint (Z.of_nat i)) (ddiv (dsub twopi dzero) (dint n)) FI FS) as [FM VM].
  { rewrite VI, VS, Rabs_pos_eq by lra. lra. }
  rewrite VI, VS in VM.
  assert (Z0 : fl (val (dmul (dint (Z.of_nat i)) (ddiv (dsub twopi dzero) (dint n))) + val dzero) = fl (IZR (Z.of_nat i) * fl (tau / IZR n))).
  { rewrite val_zero, Rplus_0_r, (fl_fmt _ (fmt_val _)). exact VM. }
  destruct (dadd_ok _ dzero FM fin_zero) as [FA VA]; [rewrite Z0, Rabs_pos_eq by lra; lra|].
  split; [exact FA|]. rewrite INR_IZR_INZ, <- Z0. exact VA.
Qed.

(** The quotient [phi_shift/dp] for these edges. *)
Lemma circle_quotient : forall n e s, (2 <= n <= 2 ^ 50)%Z -> linspace_d dzero twopi (n + 1) = Ok e ->
  fin s -> 0 < val s < tau ->
  let dp := dsub (nth 1 e dzero) (nth 0 e dzero) in
  fin dp /\ val dp = fl (tau / IZR n) /\ fin (ddiv s dp) /\ val (ddiv s dp) = fl (val s / fl (tau / IZR n)) /\ 0 <= val (ddiv s dp) /\
  deq (dsub (nth (length e - 1) e dzero) (nth 0 e dzero)) twopi = true.
Proof.
  intros n e s Hn E Fs Hs dp. destruct (circle_edges n Hn) as (e' & E' & L & Lb & Li). rewrite E in E'. apply Ok_inj in E'. subst e'.
  destruct (step_bounds n Hn) as ((S1 & S2) & _). pose proof (bpow_gt_0 radix2 (-50)) as P50. pose proof tau_bounds as T.
  destruct (Li 0%nat ltac:(lia)) as [F0 V0]. destruct (Li 1%nat ltac:(lia)) as [F1 V1].
  rewrite Rmult_0_l, (fl_fmt 0 fmt_0) in V0. rewrite Rmult_1_l, (fl_fmt (fl _) (fmt_fl _)) in V1.
  assert (D0 : fl (val (nth 1 e dzero) - val (nth 0 e dzero)) = fl (tau / IZR n)).
  { rewrite V1, V0, Rminus_0_r. apply fl_fmt, fmt_fl. }
  destruct (dsub_ok _ _ F1 F0) as [FD VD]; [rewrite D0; apply small_b2; rewrite Rabs_pos_eq; lra|]. fold dp in FD, VD. rewrite D0 in VD.
  split; [exact FD|]. split; [exact VD|].
  assert (Q : 0 <= val s / fl (tau / IZR n) <= b2 53).
  { split; [apply Rmult_le_pos; [lra|left; apply Rinv_0_lt_compat; lra]|].
    apply Rmult_le_reg_r with (fl (tau / IZR n)); [lra|]. replace (val s / fl (tau / IZR n) * fl (tau / IZR n)) with (val s) by (field; lra).
    apply Rle_trans with (b2 53 * b2 (-50)); [rewrite <- bpow_plus; cbn; lra|]. apply Rmult_le_compat_l; [apply bpow_ge_0|exact S1]. }
  assert (Q' : 0 <= fl (val s / fl (tau / IZR n)) <= b2 53).
  { split; [apply fl_ge; [apply fl_fmt, fmt_0|lra]|apply fl_le; [apply fl_fmt, fmt_b2; lia|lra]]. }
  destruct (ddiv_ok s dp Fs) as [FQ VQ]; [lra|rewrite VD, Rabs_pos_eq by lra; assert (b2 53 < b2 1024) by (apply bpow_lt; lia); lra|].
  rewrite VD in VQ. split; [exact FQ|]. split; [exact VQ|]. split; [rewrite VQ; lra|].
  rewrite L. replace (S (Z.to_nat n) - 1)%nat with (Z.to_nat n) by lia. rewrite Lb. destruct twopi_val as [Ft Vt].
  assert (D1 : fl (val twopi - val (nth 0 e dzero)) = tau) by (rewrite Vt, V0, Rminus_0_r; apply fl_fmt, fmt_tau).
  destruct (dsub_ok _ _ Ft F0) as [FE VE]; [rewrite D1; apply small_b2; rewrite Rabs_pos_eq; lra|].
  rewrite deq_ok by assumption. rewrite VE, D1, Vt. apply Req_bool_true. reflexivity.
Qed.
