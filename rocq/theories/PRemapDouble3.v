(** * Lemmas: rounded accumulation of the grid remapping in binary64 *)

From Coq Require Import Reals ZArith List Bool Lia Lra Psatz.
From Flocq Require Import Core IEEE754.BinarySingleNaN.
From Verif Require Import Base BaseP MHealpixFloat PHealpixFloat SpecDouble SpecGrid SpecRemap MDouble PDouble MGridsDouble PGridsDouble PSumDouble PRemap PRemap2
  MRemap MRemapDouble PRemapDouble PRemapDouble2.
Import ListNotations.
Open Scope R_scope.

Local Existing Instance p53.

Lemma weight_cons : forall p w bd i, weight_of ((p, w) :: bd) i = (if (p =? Z.of_nat i)%Z then w else 0) + weight_of bd i.
Proof. intros. unfold weight_of. cbn [filter fst]. destruct (p =? Z.of_nat i)%Z; cbn [map snd]; [reflexivity|ring]. Qed.

Lemma wsum_weights : forall N g bd, (forall pw, In pw bd -> (fst pw = -1 \/ 0 <= fst pw < Z.of_nat N)%Z) ->
  wsum g bd = sum_upto N (fun i => weight_of bd i * g (Z.of_nat i)).
Proof.
  intros N g bd. induction bd as [|[p w] bd IH]; intros H.
  - rewrite sum_zero; [reflexivity|]. intros i _. unfold weight_of. cbn. ring.
  - change (wsum g ((p, w) :: bd)) with ((if (p =? -1)%Z then 0 else w * g p) + wsum g bd). rewrite IH by (intros pw Hpw; apply H; now right).
    specialize (H (p, w) (or_introl eq_refl)). cbn [fst] in H.
    rewrite (sum_ext N (fun i => weight_of ((p, w) :: bd) i * g (Z.of_nat i)) (fun i => (if (p =? Z.of_nat i)%Z then w else 0) * g (Z.of_nat i) + weight_of bd i * g (Z.of_nat i)))
      by (intros i _; rewrite weight_cons; ring).
    rewrite sum_plus. f_equal. destruct H as [-> |H].
    + rewrite sum_zero; [reflexivity|]. intros i _. replace (-1 =? Z.of_nat i)%Z with false by (symmetry; apply Z.eqb_neq; lia). ring.
    + replace (p =? -1)%Z with false by (symmetry; apply Z.eqb_neq; lia).
      rewrite (sum_one N (Z.to_nat p)).
      * rewrite Z2Nat.id, Z.eqb_refl by lia. reflexivity.
      * lia.
      * intros i _ NE. replace (p =? Z.of_nat i)%Z with false by (symmetry; apply Z.eqb_neq; lia). ring.
Qed.

(** ** Rounded accumulation *)

Section Accumulate.
  Variables (f1 : list double) (oob : Z -> double) (M : R).
  Hypothesis HM : b2 (-900) <= M <= b2 900.
  Hypothesis Hf : forall x, In x f1 -> fin x /\ Rabs (val x) <= M.
  Definition source (p : Z) : R := val (nth (Z.to_nat p) f1 dzero).
  Notation N := (length f1).
  Definition proper_entry (pw : Z * double) : Prop := fin (snd pw) /\ 0 <= val (snd pw) <= 1 /\ (fst pw = -1 \/ 0 <= fst pw < Z.of_nat N)%Z.

  Lemma read_ok : forall p, (0 <= p < Z.of_nat N)%Z -> fin (read_d f1 oob p) /\ val (read_d f1 oob p) = source p /\ Rabs (source p) <= M.
  Proof.
    intros p H. unfold read_d, source. replace ((0 <=? p) && (p <? Z.of_nat N))%Z with true by (symmetry; apply andb_true_intro; split; [apply Z.leb_le|apply Z.ltb_lt]; lia).
    assert (I : In (nth (Z.to_nat p) f1 dzero) f1) by (apply nth_In; lia). destruct (Hf _ I) as [A B]. auto.
  Qed.

  Lemma small_M : forall x, Rabs x <= 8 * M -> Rabs (fl x) < b2 1024.
  Proof.
    intros x H. apply (flX_small M HM x H).
  Qed.

  Lemma tiny_M : b2 (-1075) <= u * M.
  Proof. pose proof (tiny_e M HM) as T. pose proof (e_pos M HM) as E. unfold unit_of in *. lra. Qed.

  Lemma M_pos : 0 < M. Proof. exact (X_pos M HM). Qed.

  Lemma fold_err : forall bd acc s n W, (forall pw, In pw bd -> proper_entry pw) -> fin acc -> 0 <= W ->
    Rabs (val acc - s) <= 8 * INR n * u * M -> Rabs s <= W * M -> W + wsum (fun _ => 1) (reals bd) <= 2 -> INR (n + length bd) * u <= / 1024 ->
    let r := fold_left (fun acc pw => if negb (fst pw =? -1)%Z then dadd acc (dmul (snd pw) (read_d f1 oob (fst pw))) else acc) bd acc in
    fin r /\ Rabs (val r - (s + wsum source (reals bd))) <= 8 * INR (n + length bd) * u * M.
  Proof.
    induction bd as [|[p w] bd IH]; intros acc s n W Hb Fa HW Ea Es Hw Hn; cbv zeta; cbn [fold_left].
    - change (wsum source (reals [])) with 0. rewrite Rplus_0_r. cbn [length]. rewrite Nat.add_0_r. auto.
    - pose proof (Hb (p, w) (or_introl eq_refl)) as (Fw & Iw & Pw). cbn [fst snd] in Fw, Iw, Pw. cbn [fst snd].
      assert (Hb' : forall pw, In pw bd -> proper_entry pw) by (intros pw H; apply Hb; now right).
      change (reals ((p, w) :: bd)) with ((p, val w) :: reals bd) in *.
      change (wsum source ((p, val w) :: reals bd)) with ((if (p =? -1)%Z then 0 else val w * source p) + wsum source (reals bd)).
      change (wsum (fun _ => 1) ((p, val w) :: reals bd)) with ((if (p =? -1)%Z then 0 else val w * 1) + wsum (fun _ => 1) (reals bd)) in Hw.
      cbn [length] in Hn |- *. rewrite Nat.add_succ_r in Hn |- *.
      pose proof M_pos as PM. pose proof u_pos as U. pose proof tiny_M as T.
      assert (PS : forall l, (forall pw, In pw l -> proper_entry pw) -> 0 <= wsum (fun _ => 1) (reals l)).
      { induction l as [|[q v] l IHl]; intros Hl; [apply Rle_refl|]. change (wsum (fun _ => 1) (reals ((q, v) :: l))) with ((if (q =? -1)%Z then 0 else val v * 1) + wsum (fun _ => 1) (reals l)).
        pose proof (Hl (q, v) (or_introl eq_refl)) as (_ & Iv & _). cbn [snd] in Iv. specialize (IHl ltac:(intros pw H; apply Hl; now right)). destruct (q =? -1)%Z; lra. }
      specialize (PS bd Hb').
      assert (SM : INR (n + length bd) <= INR (S (n + length bd))) by (apply le_INR; lia).
      destruct (Z.eqb_spec p (-1)) as [E|NE]; cbn [negb].
      + destruct (IH acc s n W Hb' Fa HW Ea Es) as [A B]; [lra|nra|]. split; [exact A|]. rewrite Rplus_0_l. apply Rle_trans with (1 := B).
        apply Rmult_le_compat_r; [lra|]. apply Rmult_le_compat_r; lra.
      + destruct Pw as [Pw|Pw]; [contradiction|]. destruct (read_ok p Pw) as (Fr & Er & Br).
        assert (WF : Rabs (val w * source p) <= val w * M) by (rewrite Rabs_mult, (Rabs_pos_eq (val w)) by lra; apply Rmult_le_compat_l; lra).
        assert (WM : val w * M <= M) by nra.
        destruct (dmul_ok w (read_d f1 oob p) Fw Fr) as [F1 V1]; [rewrite Er; apply small_M; lra|]. rewrite Er in V1.
        pose proof (fl_mixed (val w * source p)) as E1. rewrite <- V1 in E1. set (pr := dmul w (read_d f1 oob p)) in *.
        assert (UM : u * Rabs (val w * source p) <= u * M) by (apply Rmult_le_compat_l; lra).
        assert (E2 : Rabs (val pr - val w * source p) <= 2 * (u * M)) by lra.
        assert (NU : INR n * u <= / 1024) by (apply Rle_trans with (2 := Hn); apply Rmult_le_compat_r; [lra|apply le_INR; lia]).
        assert (NM : 8 * INR n * u * M <= / 128 * M) by (replace (8 * INR n * u * M) with (8 * (INR n * u) * M) by ring; apply Rmult_le_compat_r; lra).
        assert (W2 : W <= 2) by lra. assert (SW : Rabs s <= 2 * M) by (apply Rle_trans with (1 := Es); apply Rmult_le_compat_r; lra).
        assert (uM : u * M <= / 1024 * M) by (apply Rmult_le_compat_r; lra).
        assert (B4 : Rabs (val acc + val pr) <= 4 * M).
        { apply Rabs_le_inv in Ea, E2, SW, WF. apply Rabs_le. lra. }
        destruct (dadd_ok acc pr Fa F1) as [F2 V2]; [apply small_M; lra|].
        pose proof (add_err (val acc) (val pr) (fmt_val _) (fmt_val _)) as E3. rewrite <- V2 in E3.
        assert (E4 : Rabs (val (dadd acc pr) - (val acc + val pr)) <= 4 * (u * M)).
        { apply Rle_trans with (1 := E3). replace (4 * (u * M)) with (u * (4 * M)) by ring. apply Rmult_le_compat_l; lra. }
        destruct (IH (dadd acc pr) (s + val w * source p) (S n) (W + val w)) as [A B]; try assumption; try lra.
        * rewrite S_INR. apply Rabs_le_inv in Ea, E2, E4. apply Rabs_le.
          assert (8 * (INR n + 1) * u * M = 8 * INR n * u * M + 8 * (u * M)) by ring. assert (0 < u * M) by nra. lra.
        * apply Rle_trans with (1 := Rabs_triang _ _). lra.
        * split; [exact A|]. rewrite <- Rplus_assoc. exact B.
  Qed.

  Lemma accumulate_ok : forall bd, (forall pw, In pw bd -> proper_entry pw) -> wsum (fun _ => 1) (reals bd) <= 2 -> INR (length bd) * u <= / 1024 ->
    fin (accumulate_d f1 oob bd) /\ Rabs (val (accumulate_d f1 oob bd) - wsum source (reals bd)) <= 8 * INR (length bd) * u * M.
  Proof.
    intros bd Hb Hw Hn. pose proof M_pos. destruct (fold_err bd dzero 0 0 0 Hb fin_zero (Rle_refl 0)) as [A B].
    - rewrite val_zero, Rminus_diag_eq, Rabs_R0 by reflexivity. cbn [INR]. lra.
    - rewrite Rabs_R0. lra.
    - lra.
    - exact Hn.
    - split; [exact A|]. rewrite Rplus_0_l in B. exact B.
  Qed.
End Accumulate.
