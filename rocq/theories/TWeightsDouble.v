(** * Theorems: stochastic weights and probabilistic draws in double precision (C94) *)

From Coq Require Import Reals ZArith List Bool Lia Lra Psatz.
From Flocq Require Import Core IEEE754.BinarySingleNaN.
From Verif Require Import Base BaseP MHealpixFloat PHealpixFloat SpecDouble MDouble PDouble MGridsDouble PGridsDouble MRemapDouble
  MSumDouble PSumDouble MRadialDouble SpecRandomsDouble MRandomsDouble PRandomsDouble.
Import ListNotations.
Open Scope R_scope.

(** ** Lemmas *)

Lemma draw_range : forall k u, kth_draw k u -> fin u /\ 0 <= val u < 1.
Proof.
  intros k u (Hk & F & V). split; [exact F|]. rewrite V. pose proof (bpow_gt_0 radix2 (-53)) as P. assert (0 <= IZR k) by (apply IZR_le; lia). assert (IZR k < IZR (2 ^ 53)) by (apply IZR_lt; lia).
  split; [apply Rmult_le_pos; lra|]. apply Rlt_le_trans with (IZR (2 ^ 53) * b2 (-53)); [apply Rmult_lt_compat_r; lra|]. change (IZR (2 ^ 53)) with (b2 53). rewrite <- bpow_plus. change (b2 (53 + -53)) with 1. lra.
Qed.

Lemma siw_draw : forall k u w, kth_draw k u -> fin w -> fin (siw_scalar_d u w) /\
  val (siw_scalar_d u w) = IZR (if (k <? Zceil (need (val w) * b2 53))%Z then Zfloor (val w) else Zceil (val w)).
Proof.
  intros k u w K Fw. destruct (siw_ok u w) as [F V]; [apply K|exact Fw|]. split; [exact F|]. rewrite V, (below_threshold k u _ K). now destruct (k <? _)%Z.
Qed.

Lemma sbw_cap : forall u w, fin (siw_scalar_d u w) -> fin (sbw_scalar_d u w) /\ val (sbw_scalar_d u w) = Rmin 1 (val (siw_scalar_d u w)).
Proof.
  intros u w F. unfold sbw_scalar_d. cbv zeta. destruct one_ok as [F1 V1]. rewrite dlt_ok by auto. rewrite V1. destruct (Rlt_bool_spec 1 (val (siw_scalar_d u w))) as [L|L]; split; auto; [rewrite V1, Rmin_left; lra|rewrite Rmin_right; lra].
Qed.

Lemma siw_generic : forall (A : Type) (d : A) (ceil floor : A -> A) (sub : A -> A -> A) (lt : A -> A -> bool) u w i, length u = length w -> (i < length w)%nat ->
  nth i (put (map ceil w) (np_where (map2 lt u (map2 sub (map ceil w) w))) (map floor (take d w (np_where (map2 lt u (map2 sub (map ceil w) w)))))) d =
  if lt (nth i u d) (sub (ceil (nth i w d)) (nth i w d)) then floor (nth i w d) else ceil (nth i w d).
Proof.
  intros A d ceil floor sub lt u w i HL Hi. unfold take. rewrite map_map.
  assert (LM : length (map2 sub (map ceil w) w) = length w) by (rewrite map2_length, map_length; lia).
  rewrite (nth_put_where _ _ (map ceil w) (fun k => floor (nth k w d))) by (rewrite ?map2_length, ?map_length; lia).
  rewrite (nth_map2 _ _ _ lt u (map2 sub (map ceil w) w) i d d false) by lia.
  rewrite (nth_map2 _ _ _ sub (map ceil w) w i d d d) by (rewrite ?map_length; lia).
  rewrite (nth_map_lt _ _ ceil w i d d) by exact Hi. reflexivity.
Qed.

Lemma sbw_generic : forall (A : Type) (d c : A) (p : A -> bool) l i, (i < length l)%nat ->
  nth i (put l (np_where (map p l)) (repeat c (length (np_where (map p l))))) d = if p (nth i l d) then c else nth i l d.
Proof.
  intros A d c p l i Hi. replace (repeat c (length (np_where (map p l)))) with (map (fun _ : nat => c) (np_where (map p l))).
  2: { generalize (np_where (map p l)). induction l0 as [|a l' IH]; [reflexivity|]. cbn [map length repeat]. now rewrite IH. }
  rewrite (nth_put_where _ _ l (fun _ => c)) by (rewrite ?map_length; lia). now rewrite (nth_map_lt _ _ p l i false d) by exact Hi.
Qed.

Lemma kept_generic : forall (A : Type) (d : A) (le : A -> A -> bool) u p i, length u = length p -> (i < length p)%nat ->
  In i (np_where (map2 le u p)) <-> le (nth i u d) (nth i p d) = true.
Proof.
  intros A d le u p i HL Hi. rewrite in_np_where, map2_length, (nth_map2 _ _ _ le u p i d d false) by lia. split; [tauto|]. intros H. split; [lia|exact H].
Qed.

(** ** Integer weights *)

(** The weight is rounded down by the first [a] of the [2^53] draws and up by
    the others; [a] is the fraction missing to the next integer up to
    [1.5 * 2^-53]. *)
Theorem C94_frequency : forall w, fin w -> exists a, (0 <= a <= 2 ^ 53)%Z /\
  (forall k u, kth_draw k u -> fin (siw_scalar_d u w) /\ val (siw_scalar_d u w) = IZR (if (k <? a)%Z then Zfloor (val w) else Zceil (val w))) /\
  Rabs (IZR a * b2 (-53) - (IZR (Zceil (val w)) - val w)) <= 3 * b2 (-54).
Proof.
  intros w Fw. exists (Zceil (need (val w) * b2 53)). destruct (threshold_range (need (val w)) (need_range (val w))) as [R1 R2].
  split; [exact R1|]. split; [intros k u K; now apply siw_draw|]. pose proof (need_err (val w)) as E. apply Rabs_le_inv in E. assert (B : b2 (-53) = 2 * b2 (-54)) by (change (-53)%Z with (1 + -54)%Z; rewrite bpow_plus; reflexivity).
  apply Rabs_le. lra.
Qed.
Print Assumptions C94_frequency.

(** The mean over all draws is the weight up to [1.5 * 2^-53]. *)
Theorem C94_mean : forall w, fin w -> exists a, (0 <= a <= 2 ^ 53)%Z /\
  (forall k u, kth_draw k u -> val (siw_scalar_d u w) = IZR (if (k <? a)%Z then Zfloor (val w) else Zceil (val w))) /\
  Rabs ((IZR a * IZR (Zfloor (val w)) + (IZR (2 ^ 53) - IZR a) * IZR (Zceil (val w))) / IZR (2 ^ 53) - val w) <= 3 * b2 (-54).
Proof.
  intros w Fw. destruct (C94_frequency w Fw) as (a & Ra & H & E). exists a. split; [exact Ra|]. split; [intros k u K; now apply (H k u K)|].
  assert (P : b2 53 * b2 (-53) = 1) by (rewrite <- bpow_plus; reflexivity). change (IZR (2 ^ 53)) with (b2 53). pose proof (bpow_gt_0 radix2 53) as P53.
  assert (I : / b2 53 = b2 (-53)) by (symmetry; apply (bpow_opp radix2 53)). unfold Rdiv. rewrite I. set (F := IZR (Zfloor (val w))) in *. set (C := IZR (Zceil (val w))) in *.
  destruct (Req_dec (val w) F) as [EQ|NE].
  - assert (CF : C = F) by (unfold C, F; rewrite EQ at 1; unfold F; now rewrite Zceil_IZR). rewrite CF. replace ((IZR a * F + (b2 53 - IZR a) * F) * b2 (-53) - val w) with 0 by (rewrite EQ; replace ((IZR a * F + (b2 53 - IZR a) * F) * b2 (-53)) with (F * (b2 53 * b2 (-53))) by ring; rewrite P; ring).
    rewrite Rabs_R0. apply Rmult_le_pos; [lra|apply bpow_ge_0].
  - assert (CF : C = F + 1) by (unfold C, F; rewrite Zceil_floor_neq by (intros Q; apply NE; unfold F; now rewrite Q); rewrite plus_IZR; reflexivity).
    replace ((IZR a * F + (b2 53 - IZR a) * C) * b2 (-53) - val w) with (- (IZR a * b2 (-53) - (C - val w))); [rewrite Rabs_Ropp; exact E|]. rewrite CF.
    replace ((IZR a * F + (b2 53 - IZR a) * (F + 1)) * b2 (-53)) with ((F + 1) * (b2 53 * b2 (-53)) - IZR a * b2 (-53)) by ring. rewrite P. ring.
Qed.
Print Assumptions C94_mean.

(** Integers, infinities and NaN are returned as they are, bit for bit. *)
Theorem C94_unchanged : forall k u w, kth_draw k u -> (fin w -> exists z, val w = IZR z) -> siw_scalar_d u w = w.
Proof. intros k u w K H. destruct (draw_range k u K) as [F R]. apply siw_integer; auto. lra. Qed.
Print Assumptions C94_unchanged.

(** So are all weights of size [2^52] and more. *)
Theorem C94_large : forall k u w, kth_draw k u -> fin w -> b2 52 <= Rabs (val w) -> siw_scalar_d u w = w.
Proof. intros k u w K F H. apply (C94_unchanged k u w K). intros _. now apply large_integer. Qed.
Print Assumptions C94_large.

(** For one draw, a larger weight never gives a smaller integer; for one
    weight, a larger draw never does. *)
Theorem C94_monotone : forall k k' u u' w w', kth_draw k u -> kth_draw k' u' -> (k <= k')%Z -> fin w -> fin w' -> val w <= val w' ->
  val (siw_scalar_d u w) <= val (siw_scalar_d u' w').
Proof.
  intros k k' u u' w w' K K' Hk Fw Fw' H. destruct (draw_range k u K) as [F R]. apply Rle_trans with (val (siw_scalar_d u w')); [now apply siw_mono|].
  destruct (siw_draw k u w' K Fw') as [_ ->]. destruct (siw_draw k' u' w' K' Fw') as [_ ->]. apply IZR_le. assert (FC : (Zfloor (val w') <= Zceil (val w'))%Z) by (apply le_IZR; pose proof (Zfloor_lb (val w')); pose proof (Zceil_ub (val w')); lra).
  destruct (Z.ltb_spec k (Zceil (need (val w') * b2 53))); destruct (Z.ltb_spec k' (Zceil (need (val w') * b2 53))); lia.
Qed.
Print Assumptions C94_monotone.

(** A positive weight of at most [2^-54] becomes 0 for every draw. *)
Theorem C94_tiny : forall k u w, kth_draw k u -> fin w -> 0 < val w <= b2 (-54) -> val (siw_scalar_d u w) = 0.
Proof.
  intros k u w K Fw H. destruct (tiny_need _ H) as (E1 & E2 & E3). destruct (draw_range k u K) as [Fu Ru]. destruct (siw_ok u w Fu Fw) as [_ ->]. rewrite E3, Rlt_bool_true, E1 by lra. reflexivity.
Qed.
Print Assumptions C94_tiny.

(** "Every positive weight is rounded up by some draw" fails, at [2^-60]. *)
Theorem C94_positive_refuted : exists w, fin w /\ 0 < val w /\ forall k u, kth_draw k u -> val (siw_scalar_d u w) = 0.
Proof.
  assert (Q : B2SF (dbl 1 (-60)) = SpecFloat.S754_finite false 4503599627370496 (-112)) by (vm_compute; reflexivity).
  assert (F : fin (dbl 1 (-60))) by (unfold fin; rewrite <- is_finite_SF_B2SF, Q; reflexivity).
  assert (V : val (dbl 1 (-60)) = b2 (-60)) by (unfold val; rewrite <- SF2R_B2SF, Q; unfold SF2R, F2R; cbn [Fnum Fexp cond_Zopp]; change (IZR 4503599627370496) with (b2 52); rewrite <- bpow_plus; reflexivity).
  exists (dbl 1 (-60)). split; [exact F|]. rewrite V. split; [apply bpow_gt_0|]. intros k u K. apply (C94_tiny k u _ K F). rewrite V. split; [apply bpow_gt_0|apply bpow_le; lia].
Qed.
Print Assumptions C94_positive_refuted.

(** ** Binary weights *)

(** The integer weight capped at one; 0 or 1 for weights that are not negative. *)
Theorem C94_binary : forall k u w, kth_draw k u -> fin w -> fin (sbw_scalar_d u w) /\ val (sbw_scalar_d u w) = Rmin 1 (val (siw_scalar_d u w)) /\
  (0 <= val w -> val (sbw_scalar_d u w) = 0 \/ val (sbw_scalar_d u w) = 1).
Proof.
  intros k u w K Fw. destruct (siw_draw k u w K Fw) as [F V]. destruct (sbw_cap u w F) as [F' V']. split; [exact F'|]. split; [exact V'|]. intros P. rewrite V', V.
  set (z := if (k <? _)%Z then _ else _). assert (Z0 : (0 <= z)%Z).
  { unfold z. destruct (k <? _)%Z; [apply Zfloor_lub; exact P|apply le_IZR; apply Rle_trans with (1 := P); apply Zceil_ub]. }
  destruct (Z.eq_dec z 0) as [->|N]; [left; rewrite Rmin_right; cbn; lra|right]. apply Rmin_left. apply IZR_le. lia.
Qed.
Print Assumptions C94_binary.

Theorem C94_binary_nonfinite : forall k u, kth_draw k u -> sbw_scalar_d u (B754_infinity false) = one_d /\ sbw_scalar_d u (B754_infinity true) = B754_infinity true /\ sbw_scalar_d u B754_nan = B754_nan.
Proof. intros k u K. unfold sbw_scalar_d. rewrite !(C94_unchanged k u _ K) by discriminate. repeat split; reflexivity. Qed.
Print Assumptions C94_binary_nonfinite.

(** ** Arrays *)

(** Arrays are treated entry by entry, whatever the entries. *)
Theorem C94_array : forall u w, length u = length w ->
  length (siw_array_d u w) = length w /\ length (sbw_array_d u w) = length w /\
  forall i, (i < length w)%nat -> nth i (siw_array_d u w) dzero = siw_scalar_d (nth i u dzero) (nth i w dzero) /\ nth i (sbw_array_d u w) dzero = sbw_scalar_d (nth i u dzero) (nth i w dzero).
Proof.
  intros u w HL. assert (L : length (siw_array_d u w) = length w) by (unfold siw_array_d; rewrite length_put; apply map_length).
  assert (V : forall i, (i < length w)%nat -> nth i (siw_array_d u w) dzero = siw_scalar_d (nth i u dzero) (nth i w dzero)).
  { intros i Hi. exact (siw_generic double dzero ceil_d floor_d dsub dlt u w i HL Hi). }
  split; [exact L|]. split; [unfold sbw_array_d; rewrite length_put; exact L|]. intros i Hi. split; [now apply V|].
  refine (eq_trans (sbw_generic double dzero one_d (fun x => dlt one_d x) (siw_array_d u w) i _) _); [rewrite L; exact Hi|]. cbv beta. rewrite V by exact Hi. reflexivity.
Qed.
Print Assumptions C94_array.

(** ** Probabilistic draws *)

(** An entry of probability [p] is kept by the draws of numbers 0 to
    [floor (2^53 p)], one more than its share; by all from 1 on, by none below 0
    and for NaN. *)
Theorem C94_kept : forall u prob i k, length u = length prob -> (i < length prob)%nat -> kth_draw k (nth i u dzero) ->
  let p := nth i prob dzero in
  (fin p -> (In i (prob_kept_d u prob) <-> (k <= Zfloor (val p * b2 53))%Z)) /\ (is_nan p = true -> ~ In i (prob_kept_d u prob)).
Proof.
  intros u prob i k HL Hi K p. assert (E : In i (prob_kept_d u prob) <-> dle (nth i u dzero) p = true).
  { exact (kept_generic double dzero dle u prob i HL Hi). }
  split.
  - intros Fp. rewrite E. destruct K as (Hk & Fu & Vu). unfold dle. rewrite Bleb_correct by assumption. change (B2R (nth i u dzero)) with (val (nth i u dzero)). change (B2R p) with (val p). rewrite Vu.
    assert (I : b2 (-53) * b2 53 = 1) by (rewrite <- bpow_plus; reflexivity). pose proof (bpow_gt_0 radix2 53) as P53.
    destruct (Rle_bool_spec (IZR k * b2 (-53)) (val p)) as [L|L]; split; intros H; auto; [|discriminate|].
    + apply Zfloor_lub. apply Rmult_le_compat_r with (r := b2 53) in L; [|lra]. rewrite Rmult_assoc, I in L. lra.
    + exfalso. apply IZR_le in H. pose proof (Zfloor_lb (val p * b2 53)) as LB. apply Rmult_lt_compat_r with (r := b2 53) in L; [|lra]. rewrite Rmult_assoc, I in L. lra.
  - intros N. rewrite E. clearbody p. destruct p; try discriminate. destruct (nth i u dzero); discriminate.
Qed.
Print Assumptions C94_kept.

(** "An entry of probability 0 is never drawn" fails: the draw 0 keeps it. *)
Theorem C94_zero_probability_refuted : exists u prob, kth_draw 0 (nth 0 u dzero) /\ length u = length prob /\ val (nth 0 prob dzero) = 0 /\ In 0%nat (prob_kept_d u prob).
Proof.
  exists [dzero], [dzero]. split; [|repeat split; now left]. split; [lia|]. split; [reflexivity|]. cbn [nth]. rewrite val_zero. ring.
Qed.
Print Assumptions C94_zero_probability_refuted.

(** Draws 1/4 and 3/4, weight 5/2. *)
Example C94_example : kth_draw (2 ^ 51) (dbl 1 (-2)) /\ kth_draw (3 * 2 ^ 51) (dbl 3 (-2)) /\
  val (siw_scalar_d (dbl 1 (-2)) (dbl 5 (-1))) = 2 /\ val (siw_scalar_d (dbl 3 (-2)) (dbl 5 (-1))) = 3 /\ val (sbw_scalar_d (dbl 3 (-2)) (dbl 5 (-1))) = 1 /\
  siw_array_d [dbl 1 (-2); dbl 3 (-2)] [dbl 5 (-1); dbl 5 (-1)] = [dint 2; dint 3] /\
  prob_kept_d [dbl 1 (-2); dbl 3 (-2); dbl 3 (-2)] [dbl 1 (-1); dbl 1 (-1); dint 1] = [0%nat; 2%nat].
Proof.
  assert (S : forall (x : double) s m e, B2SF x = SpecFloat.S754_finite s m e -> val x = F2R (Float radix2 (cond_Zopp s (Zpos m)) e) /\ fin x).
  { intros x s m e H. split; [unfold val; rewrite <- SF2R_B2SF, H; reflexivity|unfold fin; rewrite <- is_finite_SF_B2SF, H; reflexivity]. }
  assert (E1 : siw_scalar_d (dbl 1 (-2)) (dbl 5 (-1)) = dint 2) by (apply B2SF_inj; vm_compute; reflexivity).
  assert (E2 : siw_scalar_d (dbl 3 (-2)) (dbl 5 (-1)) = dint 3) by (apply B2SF_inj; vm_compute; reflexivity).
  assert (E3 : sbw_scalar_d (dbl 3 (-2)) (dbl 5 (-1)) = dint 1) by (apply B2SF_inj; vm_compute; reflexivity).
  rewrite E1, E2, E3. destruct (dint_ok 2 ltac:(lia)) as [_ ->]. destruct (dint_ok 3 ltac:(lia)) as [_ ->]. destruct (dint_ok 1 ltac:(lia)) as [_ ->].
  assert (P : b2 51 * b2 (-53) = / 4) by (rewrite <- bpow_plus; reflexivity).
  split; [|split].
  - split; [lia|]. destruct (S (dbl 1 (-2)) false 4503599627370496%positive (-54)%Z) as [V F]; [vm_compute; reflexivity|]. split; [exact F|]. rewrite V. unfold F2R. cbn [Fnum Fexp cond_Zopp]. change (IZR (2 ^ 51)) with (b2 51). rewrite P. change (IZR 4503599627370496) with (b2 52). rewrite <- bpow_plus. reflexivity.
  - split; [lia|]. destruct (S (dbl 3 (-2)) false 6755399441055744%positive (-53)%Z) as [V F]; [vm_compute; reflexivity|]. split; [exact F|]. rewrite V. reflexivity.
  - repeat split; try reflexivity.
    apply (f_equal2 (fun a b => [a; b])); [exact E1|exact E2].
Qed.
