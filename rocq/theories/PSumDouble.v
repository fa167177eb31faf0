(** * Proofs about [MSumDouble.v]: rounding errors of sums *)

From Coq Require Import Reals ZArith List Bool Lia Lra Psatz Permutation.
From Flocq Require Import Core IEEE754.BinarySingleNaN Plus_error Relative.
From Verif Require Import Base BaseP MHealpixFloat PHealpixFloat SpecDouble MDouble PDouble MGridsDouble PGridsDouble MSumDouble.
Import ListNotations.
Open Scope R_scope.

Local Existing Instance p53.
Local Instance fexp_valid : Valid_exp (FLT_exp (-1074) 53).
Proof. apply FLT_exp_valid. reflexivity. Qed.
Local Instance fexp_mono : Monotone_exp (FLT_exp (-1074) 53).
Proof. apply FLT_exp_monotone. Qed.

Definition u := b2 (-53).
Lemma u_pos : 0 < u <= / 1024. Proof. exact u_small. Qed.

(** One rounded addition. *)
Lemma add_err : forall a b, fmt a -> fmt b -> Rabs (fl (a + b) - (a + b)) <= u * Rabs (a + b).
Proof.
  intros a b Fa Fb. destruct (Rle_or_lt (Rabs (a + b)) (b2 (-1021))) as [L|L].
  - assert (F : fmt (a + b)) by (apply FLT_format_plus_small; auto with typeclass_instances). rewrite (fl_fmt _ F), Rminus_diag_eq, Rabs_R0 by reflexivity.
    apply Rmult_le_pos; [apply bpow_ge_0|apply Rabs_pos].
  - assert (H : forall x, b2 (-1022) <= x -> Rabs (fl x - x) <= u * Rabs x).
    { intros x Hx. pose proof (fl_rel x Hx) as E. pose proof (bpow_gt_0 radix2 (-1022)). rewrite (Rabs_pos_eq x) by lra. exact E. }
    assert (L' : b2 (-1022) <= Rabs (a + b)) by (apply Rle_trans with (b2 (-1021)); [apply bpow_le; lia|lra]).
    destruct (Rle_or_lt 0 (a + b)) as [S|S].
    + rewrite Rabs_pos_eq in L' by exact S. now apply H.
    + rewrite Rabs_left in L' by exact S. specialize (H _ L'). rewrite fl_opp in H. rewrite Rabs_Ropp in H.
      replace (fl (a + b) - (a + b)) with (- (- fl (a + b) - - (a + b))) by ring. now rewrite Rabs_Ropp.
Qed.

(** Rounding any number: relative or absolute. *)
Lemma fl_mixed : forall x, Rabs (fl x - x) <= u * Rabs x + b2 (-1075).
Proof.
  intros x. pose proof (bpow_gt_0 radix2 (-1075)) as P. pose proof u_pos as U. pose proof (Rabs_pos x) as A.
  destruct (Rle_or_lt (b2 (-1022)) (Rabs x)) as [L|L].
  - assert (H : forall x, b2 (-1022) <= x -> Rabs (fl x - x) <= u * Rabs x).
    { intros y Hy. pose proof (fl_rel y Hy) as E. pose proof (bpow_gt_0 radix2 (-1022)). rewrite (Rabs_pos_eq y) by lra. exact E. }
    destruct (Rle_or_lt 0 x) as [S|S].
    + specialize (H x). rewrite Rabs_pos_eq in L by exact S. specialize (H L). lra.
    + rewrite Rabs_left in L by exact S. specialize (H _ L). rewrite fl_opp, Rabs_Ropp in H.
      replace (fl x - x) with (- (- fl x - - x)) by ring. rewrite Rabs_Ropp. lra.
  - assert (E : Rabs (fl x - x) <= b2 (-1021 - 54)) by (apply fl_err; [apply Rlt_trans with (1 := L); apply bpow_lt; lia|lia]).
    change (-1021 - 54)%Z with (-1075)%Z in E. nra.
Qed.

Definition vals (x : nat -> R) (t : tree) : R := Rsum (map x (leaves t)).
Definition mags (x : nat -> R) (t : tree) : R := Rsum (map (fun k => Rabs (x k)) (leaves t)).

Lemma mags_pos : forall x t, 0 <= mags x t.
Proof. intros. apply Rsum_nonneg. intros y H. apply in_map_iff in H. destruct H as (k & <- & _). apply Rabs_pos. Qed.

Lemma vals_le : forall x t, Rabs (vals x t) <= mags x t.
Proof.
  intros x t. unfold vals, mags. induction (leaves t) as [|k l IH]; cbn [map Rsum fold_right]; [rewrite Rabs_R0; lra|].
  apply Rle_trans with (1 := Rabs_triang _ _). apply Rplus_le_compat_l. exact IH.
Qed.

Lemma pow_ge_1 : forall n, 1 <= (1 + u) ^ n.
Proof. intros n. pose proof u_pos. apply pow_R1_Rle. lra. Qed.

Lemma pow_mono : forall n m, (n <= m)%nat -> (1 + u) ^ n <= (1 + u) ^ m.
Proof. intros n m H. pose proof u_pos. apply Rle_pow; [lra|exact H]. Qed.

(** Any sum: every entry contributes with at most one rounding per addition. *)
Lemma add_up_err : forall l t, (forall k, In k (leaves t) -> fin (nth k l dzero)) ->
  let x := fun k => val (nth k l dzero) in
  (1 + u) ^ (length (leaves t) - 1) * mags x t <= b2 1020 ->
  fin (add_up t l) /\ Rabs (val (add_up t l) - vals x t) <= ((1 + u) ^ (length (leaves t) - 1) - 1) * mags x t.
Proof.
  intros l t F x. unfold x. clear x. set (x := fun k => val (nth k l dzero)). pose proof u_pos as U.
  induction t as [|k|a IHa b IHb]; intros B.
  - cbn [add_up leaves length]. split; [apply fin_zero|]. unfold vals, mags. cbn [leaves map Rsum fold_right]. rewrite val_zero, Rminus_diag_eq, Rabs_R0 by reflexivity. lra.
  - cbn [add_up leaves length]. split; [apply F; now left|]. unfold vals, mags. cbn [leaves map Rsum fold_right]. unfold x. rewrite Rplus_0_r, Rminus_diag_eq, Rabs_R0 by reflexivity. cbn [Nat.sub pow]. lra.
  - cbn [add_up leaves] in *. rewrite app_length in *. set (n := length (leaves a)) in *. set (m := length (leaves b)) in *.
    assert (Ev : vals x (Plus a b) = vals x a + vals x b) by (unfold vals; cbn [leaves]; rewrite map_app; apply Rsum_app).
    assert (Em : mags x (Plus a b) = mags x a + mags x b) by (unfold mags; cbn [leaves]; rewrite map_app; apply Rsum_app).
    pose proof (mags_pos x a) as Pa. pose proof (mags_pos x b) as Pb. pose proof (vals_le x a) as Va. pose proof (vals_le x b) as Vb.
    pose proof (pow_mono (n - 1) (n + m - 1) ltac:(lia)) as Qa. pose proof (pow_mono (m - 1) (n + m - 1) ltac:(lia)) as Qb.
    pose proof (pow_ge_1 (n - 1)) as Ga. pose proof (pow_ge_1 (m - 1)) as Gb. pose proof (pow_ge_1 (n + m - 1)) as Gn.
    destruct IHa as [Fa Ea]; [intros k Hk; apply F, in_or_app; now left|rewrite Em in B; nra|].
    destruct IHb as [Fb Eb]; [intros k Hk; apply F, in_or_app; now right|rewrite Em in B; nra|].
    set (sa := add_up a l) in *. set (sb := add_up b l) in *.
    assert (Aa : Rabs (val sa) <= (1 + u) ^ (n - 1) * mags x a).
    { replace (val sa) with ((val sa - vals x a) + vals x a) by ring. apply Rle_trans with (1 := Rabs_triang _ _). lra. }
    assert (Ab : Rabs (val sb) <= (1 + u) ^ (m - 1) * mags x b).
    { replace (val sb) with ((val sb - vals x b) + vals x b) by ring. apply Rle_trans with (1 := Rabs_triang _ _). lra. }
    pose proof (add_err (val sa) (val sb) (fmt_val _) (fmt_val _)) as E. pose proof (Rabs_triang (val sa) (val sb)) as T.
    assert (Z : Rabs (val sa + val sb) <= b2 1020) by (rewrite Em in B; nra).
    destruct (dadd_ok sa sb Fa Fb) as [Fs Vs].
    { apply Rle_lt_trans with (2 * b2 1020).
      - replace (fl (val sa + val sb)) with ((fl (val sa + val sb) - (val sa + val sb)) + (val sa + val sb)) by ring.
        apply Rle_trans with (1 := Rabs_triang _ _). pose proof (Rabs_pos (val sa + val sb)). nra.
      - change 2 with (b2 1). rewrite <- bpow_plus. apply bpow_lt. lia. }
    split; [exact Fs|]. rewrite Vs, Ev, Em.
    assert (Main : Rabs (fl (val sa + val sb) - (vals x a + vals x b)) <=
                   u * ((1 + u) ^ (n - 1) * mags x a + (1 + u) ^ (m - 1) * mags x b) + ((1 + u) ^ (n - 1) - 1) * mags x a + ((1 + u) ^ (m - 1) - 1) * mags x b).
    { replace (fl (val sa + val sb) - (vals x a + vals x b)) with ((fl (val sa + val sb) - (val sa + val sb)) + ((val sa - vals x a) + (val sb - vals x b))) by ring.
      apply Rle_trans with (1 := Rabs_triang _ _). pose proof (Rabs_triang (val sa - vals x a) (val sb - vals x b)). nra. }
    destruct (Nat.eq_dec n 0) as [N0|N0]; [|destruct (Nat.eq_dec m 0) as [M0|M0]].
    + assert (Za : mags x a = 0) by (unfold mags; destruct (leaves a); [reflexivity|discriminate]).
      assert (Zs : val sa = 0) by (rewrite Za, Rmult_0_r in Aa; pose proof (Rabs_pos (val sa)); destruct (Req_dec (val sa) 0) as [|D]; [assumption|apply Rabs_pos_lt in D; lra]).
      rewrite Zs, Rplus_0_l, fl_fmt by apply fmt_val. replace (vals x a) with 0 by (rewrite Za in Va; pose proof (Rabs_pos (vals x a)); destruct (Req_dec (vals x a) 0) as [|D]; [congruence|apply Rabs_pos_lt in D; lra]).
      rewrite Rplus_0_l, Za, Rplus_0_l. replace (n + m - 1)%nat with (m - 1)%nat by lia. exact Eb.
    + assert (Zb : mags x b = 0) by (unfold mags; destruct (leaves b); [reflexivity|discriminate]).
      assert (Zs : val sb = 0) by (rewrite Zb, Rmult_0_r in Ab; pose proof (Rabs_pos (val sb)); destruct (Req_dec (val sb) 0) as [|D]; [assumption|apply Rabs_pos_lt in D; lra]).
      rewrite Zs, Rplus_0_r, fl_fmt by apply fmt_val. replace (vals x b) with 0 by (rewrite Zb in Vb; pose proof (Rabs_pos (vals x b)); destruct (Req_dec (vals x b) 0) as [|D]; [congruence|apply Rabs_pos_lt in D; lra]).
      rewrite Rplus_0_r, Zb, Rplus_0_r. replace (n + m - 1)%nat with (n - 1)%nat by lia. exact Ea.
    + apply Rle_trans with (1 := Main).
      pose proof (pow_mono (S (n - 1)) (n + m - 1) ltac:(lia)) as Ra. pose proof (pow_mono (S (m - 1)) (n + m - 1) ltac:(lia)) as Rb. cbn [pow] in Ra, Rb.
      apply Rle_trans with ((((1 + u) * (1 + u) ^ (n - 1)) - 1) * mags x a + (((1 + u) * (1 + u) ^ (m - 1)) - 1) * mags x b); [right; ring|]. nra.
Qed.

Lemma Rsum_perm : forall (f : nat -> R) l l', Permutation l l' -> Rsum (map f l) = Rsum (map f l').
Proof. intros f l l' P. induction P; cbn [map Rsum fold_right]; unfold Rsum in *; try lra. Qed.

(** Sum of all entries. *)
Lemma sum_d_err : forall o l, order_ok o -> (forall y, In y l -> fin y) ->
  let n := length l in let tot := Rsum (map val l) in let mag := Rsum (map (fun y => Rabs (val y)) l) in
  (1 + u) ^ (n - 1) * mag <= b2 1020 ->
  fin (sum_d o l) /\ Rabs (val (sum_d o l) - tot) <= ((1 + u) ^ (n - 1) - 1) * mag.
Proof.
  intros o l O F n tot mag B. unfold sum_d. fold n. pose proof (O n) as P. pose proof (Permutation_length P) as L. rewrite seq_length in L.
  assert (Q : forall (f : double -> R), Rsum (map (fun k => f (nth k l dzero)) (leaves (o n))) = Rsum (map f l)).
  { intros f. rewrite (Rsum_perm _ _ _ P). f_equal. rewrite <- (map_map (fun k => nth k l dzero) f). f_equal.
    apply (nth_ext _ _ dzero dzero); [now rewrite map_length, seq_length|]. intros i Hi. rewrite map_length, seq_length in Hi.
    rewrite (nth_indep _ dzero (nth 0 l dzero)) by now rewrite map_length, seq_length. rewrite (map_nth (fun k => nth k l dzero)). now rewrite seq_nth. }
  set (x := fun k => val (nth k l dzero)).
  assert (Qm : mags x (o n) = mag) by exact (Q (fun y => Rabs (val y))). assert (Qv : vals x (o n) = tot) by exact (Q val).
  destruct (add_up_err l (o n)) as [Fs E].
  - intros k Hk. apply F, nth_In. apply (Permutation_in _ P) in Hk. apply in_seq in Hk. change (k < n)%nat. lia.
  - rewrite L. change ((1 + u) ^ (n - 1) * mags x (o n) <= b2 1020). rewrite Qm. exact B.
  - split; [exact Fs|]. rewrite L in E. change (Rabs (val (add_up (o n) l) - vals x (o n)) <= ((1 + u) ^ (n - 1) - 1) * mags x (o n)) in E. rewrite Qm, Qv in E. exact E.
Qed.

(** The same entries in a larger array: rounded sums keep the order. *)
Lemma add_up_mono : forall l l' t, (forall k, In k (leaves t) -> fin (nth k l dzero) /\ fin (nth k l' dzero) /\ val (nth k l dzero) <= val (nth k l' dzero)) ->
  (1 + u) ^ (length (leaves t) - 1) * mags (fun k => val (nth k l dzero)) t <= b2 1020 ->
  (1 + u) ^ (length (leaves t) - 1) * mags (fun k => val (nth k l' dzero)) t <= b2 1020 ->
  val (add_up t l) <= val (add_up t l').
Proof.
  intros l l' t. pose proof u_pos as U. induction t as [|k|a IHa b IHb]; intros F B B'.
  - apply Rle_refl.
  - apply F. now left.
  - cbn [add_up leaves] in *. rewrite app_length in *. set (n := length (leaves a)) in *. set (m := length (leaves b)) in *.
    assert (Em : forall x, mags x (Plus a b) = mags x a + mags x b) by (intros; unfold mags; cbn [leaves]; rewrite map_app; apply Rsum_app).
    rewrite Em in B, B'.
    pose proof (pow_mono (n - 1) (n + m - 1) ltac:(lia)) as Qa. pose proof (pow_mono (m - 1) (n + m - 1) ltac:(lia)) as Qb.
    pose proof (pow_ge_1 (n - 1)) as Ga. pose proof (pow_ge_1 (m - 1)) as Gb.
    pose proof (mags_pos (fun k => val (nth k l dzero)) a). pose proof (mags_pos (fun k => val (nth k l dzero)) b).
    pose proof (mags_pos (fun k => val (nth k l' dzero)) a). pose proof (mags_pos (fun k => val (nth k l' dzero)) b).
    assert (Fa : forall k, In k (leaves a) -> fin (nth k l dzero) /\ fin (nth k l' dzero) /\ val (nth k l dzero) <= val (nth k l' dzero)) by (intros; apply F, in_or_app; now left).
    assert (Fb : forall k, In k (leaves b) -> fin (nth k l dzero) /\ fin (nth k l' dzero) /\ val (nth k l dzero) <= val (nth k l' dzero)) by (intros; apply F, in_or_app; now right).
    assert (Ba : forall z, z = l \/ z = l' -> (1 + u) ^ (n - 1) * mags (fun k => val (nth k z dzero)) a <= b2 1020) by (intros z [-> | ->]; nra).
    assert (Bb : forall z, z = l \/ z = l' -> (1 + u) ^ (m - 1) * mags (fun k => val (nth k z dzero)) b <= b2 1020) by (intros z [-> | ->]; nra).
    specialize (IHa Fa (Ba l (or_introl eq_refl)) (Ba l' (or_intror eq_refl))). specialize (IHb Fb (Bb l (or_introl eq_refl)) (Bb l' (or_intror eq_refl))).
    assert (K : forall z, z = l \/ z = l' -> fin (dadd (add_up a z) (add_up b z)) /\ val (dadd (add_up a z) (add_up b z)) = fl (val (add_up a z) + val (add_up b z))).
    { intros z Hz.
      destruct (add_up_err z a) as [F1 E1]; [intros k Hk; destruct Hz as [-> | ->]; now apply Fa|now apply Ba|].
      destruct (add_up_err z b) as [F2 E2]; [intros k Hk; destruct Hz as [-> | ->]; now apply Fb|now apply Bb|].
      apply dadd_ok; [exact F1|exact F2|]. fold n in E1. fold m in E2.
      set (xa := fun k => val (nth k z dzero)) in *. pose proof (vals_le xa a) as Va. pose proof (vals_le xa b) as Vb.
      pose proof (mags_pos xa a). pose proof (mags_pos xa b).
      assert (BZ : (1 + u) ^ (n + m - 1) * (mags xa a + mags xa b) <= b2 1020) by (destruct Hz; subst z; assumption).
      assert (A1 : Rabs (val (add_up a z)) <= (1 + u) ^ (n - 1) * mags xa a).
      { replace (val (add_up a z)) with ((val (add_up a z) - vals xa a) + vals xa a) by ring. apply Rle_trans with (1 := Rabs_triang _ _). lra. }
      assert (A2 : Rabs (val (add_up b z)) <= (1 + u) ^ (m - 1) * mags xa b).
      { replace (val (add_up b z)) with ((val (add_up b z) - vals xa b) + vals xa b) by ring. apply Rle_trans with (1 := Rabs_triang _ _). lra. }
      pose proof (Rabs_triang (val (add_up a z)) (val (add_up b z))) as T.
      assert (Z : Rabs (val (add_up a z) + val (add_up b z)) <= b2 1020) by nra.
      apply Rle_lt_trans with (b2 1020); [|apply bpow_lt; lia]. apply Rabs_le_inv in Z. apply Rabs_le.
      split; [apply fl_ge|apply fl_le]; try lra; [rewrite fl_opp; f_equal|]; apply fl_fmt, fmt_b2; lia. }
    rewrite (proj2 (K l (or_introl eq_refl))), (proj2 (K l' (or_intror eq_refl))). apply fl_mono. lra.
Qed.

(** Roundings add up. *)
Lemma pow_lin : forall n, INR n * u <= / 4 -> (1 + u) ^ n <= 1 + 2 * (INR n * u).
Proof.
  intros n. pose proof u_pos as U. induction n as [|n IH]; intros H; [cbn [pow INR]; lra|]. rewrite S_INR in *. cbn [pow].
  specialize (IH ltac:(nra)). pose proof (pos_INR n). assert (0 <= INR n * u) by nra. nra.
Qed.

Lemma Rsum_entries : forall o l (f : double -> R), order_ok o ->
  Rsum (map (fun k => f (nth k l dzero)) (leaves (o (length l)))) = Rsum (map f l).
Proof.
  intros o l f O. rewrite (Rsum_perm _ _ _ (O (length l))). f_equal. rewrite <- (map_map (fun k => nth k l dzero) f). f_equal.
  apply (nth_ext _ _ dzero dzero); [now rewrite map_length, seq_length|]. intros i Hi. rewrite map_length, seq_length in Hi.
  rewrite (nth_indep _ dzero (nth 0 l dzero)) by now rewrite map_length, seq_length. rewrite (map_nth (fun k => nth k l dzero)). now rewrite seq_nth.
Qed.

Lemma sum_d_mono : forall o l l', order_ok o -> length l' = length l ->
  (forall k, (k < length l)%nat -> fin (nth k l dzero) /\ fin (nth k l' dzero) /\ val (nth k l dzero) <= val (nth k l' dzero)) ->
  (1 + u) ^ (length l - 1) * Rsum (map (fun y => Rabs (val y)) l) <= b2 1020 ->
  (1 + u) ^ (length l - 1) * Rsum (map (fun y => Rabs (val y)) l') <= b2 1020 ->
  val (sum_d o l) <= val (sum_d o l').
Proof.
  intros o l l' O E F B B'. unfold sum_d. rewrite E. pose proof (O (length l)) as P. pose proof (Permutation_length P) as L. rewrite seq_length in L.
  apply add_up_mono.
  - intros k Hk. apply F. apply (Permutation_in _ P) in Hk. apply in_seq in Hk. lia.
  - rewrite L. unfold mags. rewrite (Rsum_entries o l (fun y => Rabs (val y)) O). exact B.
  - rewrite L. unfold mags. rewrite <- E. rewrite (Rsum_entries o l' (fun y => Rabs (val y)) O). rewrite E. exact B'.
Qed.
