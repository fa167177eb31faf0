(** * Lemmas: one output value of the grid remapping in binary64 *)

From Coq Require Import Reals ZArith List Bool Lia Lra Psatz.
From Flocq Require Import Core IEEE754.BinarySingleNaN.
From Verif Require Import Base BaseP MHealpixFloat PHealpixFloat SpecDouble SpecGrid SpecRemap SpecRemapDouble MDouble PDouble MGridsDouble PGridsDouble PSumDouble PRemap PRemap2
  MRemap MRemapDouble PRemapDouble PRemapDouble2 PRemapDouble3.
Import ListNotations.
Open Scope R_scope.

Local Existing Instance p53.

Lemma sum_Rabs : forall n g, Rabs (sum_upto n g) <= sum_upto n (fun i => Rabs (g i)).
Proof.
  intros n g. induction n as [|n IH]; [rewrite !sum_0, Rabs_R0; lra|]. rewrite !sum_S. apply Rle_trans with (1 := Rabs_triang _ _). lra.
Qed.
Lemma sum_sub : forall n g h, sum_upto n g - sum_upto n h = sum_upto n (fun i => g i - h i).
Proof. intros n g h. induction n as [|n IH]; [rewrite !sum_0; ring|]. rewrite !sum_S, <- IH. ring. Qed.

Section Result.
  Variable X : R.
  Hypothesis HX : b2 (-900) <= X <= b2 900.
  Variables (o1 B1 : double) (f1 : list double) (o2 B2 : double) (m : nat).
  Notation N := (length f1).
  Hypothesis G1 : good X o1 B1 N.
  Hypothesis G2 : good X o2 B2 m.
  Variables (oob : Z -> double) (M : R).
  Hypothesis HM : b2 (-900) <= M <= b2 900.
  Hypothesis Hf : forall x, In x f1 -> fin x /\ Rabs (val x) <= M.
  Notation L := (LZ o1 B1 N o2 B2 m).
  Notation e := (unit_of X).
  Notation w1 := (w1 B1 N).
  Notation w2 := (w2 B2 m).
  Notation ratio := (ratio X B2 m).

  Lemma L_size : (2 <= L)%Z /\ IZR L <= 2 + (1 + / 64) * (w2 / w1) /\ IZR L * u <= / 1024.
  Proof.
    destruct (L_bounds X HX o1 B1 N o2 B2 m G1 G2) as (A & _ & C).
    destruct (w1_pos X HX o1 B1 N G1) as [P1 W1]. destruct (w2_pos X HX o2 B2 m G2) as [P2 W2]. pose proof (e_pos X HX) as E.
    destruct (step_ok X HX o1 B1 N G1) as (_ & _ & S). fold (d1 o1 B1 N) in S. fold w1 in S. apply Rabs_le_inv in S.
    assert (A' : 2 <= IZR L) by (apply (IZR_le 2); exact A).
    assert (I : w2 / w1 * w1 = w2) by (field; lra).
    assert (K : IZR L <= 2 + (1 + / 64) * (w2 / w1)).
    { apply Rmult_le_reg_r with w1; [exact P1|]. replace ((2 + (1 + / 64) * (w2 / w1)) * w1) with (2 * w1 + (1 + / 64) * w2) by (field; lra).
      assert ((IZR L - 2) * (w1 * (1 - / 1024)) <= (IZR L - 2) * val (d1 o1 B1 N)) by (apply Rmult_le_compat_l; lra). nra. }
    split; [exact A|]. split; [exact K|].
    destruct G1 as (_ & _ & _ & _ & _ & HW). fold w1 in HW. pose proof (X_pos X HX) as PX.
    assert (Q : w2 / w1 <= b2 20).
    { apply Rmult_le_reg_r with w1; [exact P1|]. rewrite I. assert (T : b2 20 * (X * b2 (-20)) = X) by (rewrite (Rmult_comm X), <- Rmult_assoc, <- bpow_plus; change (b2 (20 + -20)) with 1; ring).
      apply Rle_trans with X; [lra|]. rewrite <- T at 1. apply Rmult_le_compat_l; [apply bpow_ge_0|exact HW]. }
    assert (IZR L <= b2 21) by (change (b2 21) with 2097152; change (b2 20) with 1048576 in Q; lra).
    apply Rle_trans with (b2 21 * u); [apply Rmult_le_compat_r; [pose proof u_pos; lra|assumption]|]. unfold u. rewrite <- bpow_plus. change (/ 1024) with (b2 (-10)). apply bpow_le. lia.
  Qed.

  Lemma dev_size : 36 * (IZR L + 2) * ratio <= u * (37 * (X / w1) + 144 * (X / w2)) /\ u * (37 * (X / w1) + 144 * (X / w2)) <= / 1024 /\ 1 <= X / w2 /\ 1 <= X / w1.
  Proof.
    destruct L_size as (_ & K & _). destruct (w1_pos X HX o1 B1 N G1) as [P1 W1]. destruct (w2_pos X HX o2 B2 m G2) as [P2 W2]. pose proof (e_pos X HX) as E. pose proof u_pos as U.
    destruct (ratio_pos X HX o2 B2 m G2) as [R0 _].
    assert (RE : ratio = u * (X / w2)) by (unfold PRemapDouble2.ratio, unit_of; field; lra).
    assert (XW1 : X / w1 <= / (u * 2 ^ 33)).
    { apply Rmult_le_reg_r with (u * 2 ^ 33 * w1); [nra|]. replace (/ (u * 2 ^ 33) * (u * 2 ^ 33 * w1)) with w1 by (field; lra). replace (X / w1 * (u * 2 ^ 33 * w1)) with (u * X * 2 ^ 33) by (field; lra). unfold unit_of in *. lra. }
    assert (XW2 : X / w2 <= / (u * 2 ^ 33)).
    { apply Rmult_le_reg_r with (u * 2 ^ 33 * w2); [nra|]. replace (/ (u * 2 ^ 33) * (u * 2 ^ 33 * w2)) with w2 by (field; lra). replace (X / w2 * (u * 2 ^ 33 * w2)) with (u * X * 2 ^ 33) by (field; lra). unfold unit_of in *. lra. }
    assert (O1 : 1 <= X / w1) by (apply Rmult_le_reg_r with w1; [lra|]; replace (X / w1 * w1) with X by (field; lra); lra).
    assert (O2 : 1 <= X / w2) by (apply Rmult_le_reg_r with w2; [lra|]; replace (X / w2 * w2) with X by (field; lra); lra).
    split; [|split; [|split; assumption]].
    - rewrite RE. replace (u * (37 * (X / w1) + 144 * (X / w2))) with ((37 * (w2 / w1) + 144) * (u * (X / w2))) by (field; lra).
      rewrite RE in R0. apply Rmult_le_compat_r; [lra|]. assert (0 < w2 / w1) by (apply Rdiv_lt_0_compat; lra). lra.
    - apply Rle_trans with (u * (181 * / (u * 2 ^ 33))); [apply Rmult_le_compat_l; lra|]. replace (u * (181 * / (u * 2 ^ 33))) with (181 / 2 ^ 33) by (field; lra). lra.
  Qed.

  Lemma reals_in : forall k bd, fair X o1 B1 N o2 B2 m k bd -> forall pw, In pw (reals bd) -> (fst pw = -1 \/ 0 <= fst pw < Z.of_nat N)%Z.
  Proof.
    intros k bd (_ & H & _) pw Hin. unfold reals in Hin. apply in_map_iff in Hin. destruct Hin as (q & <- & Hq). destruct (H q Hq) as (_ & _ & R). exact R.
  Qed.

  Lemma parts_le1 : forall k, sum_upto N (part (s1 o1 B1 N) (s2 o2 B2 m) k) <= 1.
  Proof.
    intros k. pose proof G1 as (_ & _ & A1 & _ & A2 & _). pose proof G2 as (_ & _ & C1 & _ & C2 & _). apply (frac_sum_le1 (val o1) (val B1) N (val o2) (val B2) m); assumption.
  Qed.

  Lemma fair_sum : forall k bd, fair X o1 B1 N o2 B2 m k bd -> wsum (fun _ => 1) (reals bd) <= 2.
  Proof.
    intros k bd F. rewrite (wsum_weights N _ _ (reals_in k bd F)). destruct F as (_ & _ & D). destruct dev_size as (D1 & D2 & _). unfold deviation in D.
    pose proof (parts_le1 k) as P.
    assert (sum_upto N (fun i => weight_of (reals bd) i * 1) <= sum_upto N (part (s1 o1 B1 N) (s2 o2 B2 m) k) + sum_upto N (fun i => Rabs (weight_of (reals bd) i - part (s1 o1 B1 N) (s2 o2 B2 m) k i))).
    { rewrite <- sum_plus. apply sum_le. intros i _. pose proof (Rle_abs (weight_of (reals bd) i - part (s1 o1 B1 N) (s2 o2 B2 m) k i)). lra. }
    lra.
  Qed.

  Definition exact_cell (k : nat) : R := sum_upto N (fun i => part (s1 o1 B1 N) (s2 o2 B2 m) k i * val (nth i f1 dzero)).

  Lemma fair_result : forall k bd, fair X o1 B1 N o2 B2 m k bd ->
    fin (accumulate_d f1 oob bd) /\ Rabs (val (accumulate_d f1 oob bd) - exact_cell k) <= b2 (-45) * (X / w1 + X / w2) * M.
  Proof.
    intros k bd F. pose proof (fair_sum k bd F) as SW. pose proof (reals_in k bd F) as RI. destruct F as (HL & HE & HD). destruct L_size as (L2 & LK & LU).
    assert (EL : INR (length bd) = IZR L) by (rewrite HL, INR_IZR_INZ, Z2Nat.id by lia; reflexivity).
    destruct (accumulate_ok f1 oob M HM Hf bd) as [A B].
    - intros pw Hpw. exact (HE pw Hpw).
    - exact SW.
    - rewrite EL. exact LU.
    - split; [exact A|]. rewrite EL in B. rewrite (wsum_weights N _ _ RI) in B.
      assert (PM : 0 < M) by exact (X_pos M HM). destruct dev_size as (D1 & _ & O2 & O1). pose proof u_pos as U.
      assert (C : Rabs (sum_upto N (fun i => weight_of (reals bd) i * source f1 (Z.of_nat i)) - exact_cell k) <= u * (37 * (X / w1) + 144 * (X / w2)) * M).
      { unfold exact_cell. rewrite sum_sub. apply Rle_trans with (1 := sum_Rabs _ _).
        apply Rle_trans with (deviation o1 B1 N o2 B2 m bd k * M); [|apply Rmult_le_compat_r; lra].
        unfold deviation. rewrite <- sum_scal_r. apply sum_le. intros i Hi. unfold source. rewrite Nat2Z.id.
        replace (weight_of (reals bd) i * val (nth i f1 dzero) - part (s1 o1 B1 N) (s2 o2 B2 m) k i * val (nth i f1 dzero)) with ((weight_of (reals bd) i - part (s1 o1 B1 N) (s2 o2 B2 m) k i) * val (nth i f1 dzero)) by ring.
        rewrite Rabs_mult. apply Rmult_le_compat_l; [apply Rabs_pos|]. apply Hf. apply nth_In. exact Hi. }
      destruct (w1_pos X HX o1 B1 N G1) as [P1 W1]. destruct (w2_pos X HX o2 B2 m G2) as [P2 W2].
      assert (WW : w2 / w1 <= X / w1) by (apply Rmult_le_compat_r; [left; apply Rinv_0_lt_compat; lra|lra]).
      assert (B' : 8 * IZR L * u * M <= u * (9 * (X / w1) + 16 * (X / w2)) * M).
      { apply Rmult_le_compat_r; [lra|]. rewrite (Rmult_comm _ u). apply Rmult_le_compat_l; lra. }
      assert (E : b2 (-45) = 256 * u) by (unfold u; change 256 with (b2 8); rewrite <- bpow_plus; reflexivity). rewrite E.
      replace (val (accumulate_d f1 oob bd) - exact_cell k) with ((val (accumulate_d f1 oob bd) - sum_upto N (fun i => weight_of (reals bd) i * source f1 (Z.of_nat i))) + (sum_upto N (fun i => weight_of (reals bd) i * source f1 (Z.of_nat i)) - exact_cell k)) by ring.
      apply Rle_trans with (1 := Rabs_triang _ _).
      assert (u * (37 * (X / w1) + 144 * (X / w2)) * M + u * (9 * (X / w1) + 16 * (X / w2)) * M <= 256 * u * (X / w1 + X / w2) * M).
      { rewrite <- Rmult_plus_distr_r. apply Rmult_le_compat_r; [lra|]. rewrite <- Rmult_plus_distr_l, (Rmult_comm 256), Rmult_assoc. apply Rmult_le_compat_l; lra. }
      lra.
  Qed.

  (** The loop: output [k] comes from the buffers of pixel [k]. *)
  Lemma loop_nth : forall a L f cells bd k, (k < length cells)%nat -> exists bd', nth k (remap_1d_loop_d a L f oob cells bd) dzero = accumulate_d f oob (remap_pixel_d a (Z.of_nat (nth k cells 0%nat)) L bd').
  Proof.
    intros a L' f cells. induction cells as [|c cells IH]; intros bd k Hk; [cbn in Hk; lia|]. destruct k as [|k].
    - exists bd. reflexivity.
    - cbn [remap_1d_loop_d nth]. apply IH. cbn in Hk. lia.
  Qed.
  Lemma loop_length : forall a L f cells bd, length (remap_1d_loop_d a L f oob cells bd) = length cells.
  Proof. intros a L' f cells. induction cells as [|c cells IH]; intros bd; [reflexivity|]. cbn. now rewrite IH. Qed.
End Result.
