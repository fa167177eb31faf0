(** * How far [np.pi] is from pi *)

From Coq Require Import Reals ZArith QArith Qreals Machin Lia Lra.
From Flocq Require Import Core.
From Verif Require Import SpecDouble.
Open Scope R_scope.

(** Machin's series for [pi/4] with rational terms. *)
Definition qterm (n : nat) : Q :=
  let m := Pos.of_succ_nat (2 * n) in
  let s := if Nat.even n then 1%Z else (-1)%Z in
  Qplus (Qmake (2 * s) (3 ^ m * m)) (Qmake s (7 ^ m * m)).
Fixpoint qsum (n : nat) : Q :=
  match n with O => qterm 0 | S k => Qplus (qsum k) (qterm n) end.

Lemma pow_inv_pos : forall a m, (/ IZR (Zpos a)) ^ Pos.to_nat m = / IZR (Zpos (a ^ m)).
Proof.
  intros a m. rewrite pow_inv. f_equal. rewrite pow_IZR. f_equal. rewrite positive_nat_Z. now rewrite <- Pos2Z.inj_pow.
Qed.

Lemma qterm_ok : forall n, tg_alt PI_2_3_7_tg n = Q2R (qterm n).
Proof.
  intros n. unfold tg_alt, PI_2_3_7_tg, Ratan_seq, qterm. rewrite Q2R_plus. unfold Q2R. cbn [Qnum Qden].
  set (m := Pos.of_succ_nat (2 * n)). replace (2 * n + 1)%nat with (Pos.to_nat m) by (unfold m; rewrite SuccNat2Pos.id_succ; lia).
  rewrite (pow_inv_pos 3), (pow_inv_pos 7). rewrite INR_IZR_INZ, positive_nat_Z. rewrite !Pos2Z.inj_mul, !mult_IZR.
  assert (P1 : IZR (Zpos m) <> 0) by (apply not_0_IZR; lia). assert (P3 : IZR (Zpos (3 ^ m)) <> 0) by (apply not_0_IZR; lia).
  assert (P7 : IZR (Zpos (7 ^ m)) <> 0) by (apply not_0_IZR; lia).
  assert (S : (-1) ^ n = IZR (if Nat.even n then 1 else -1)).
  { destruct (Nat.even n) eqn:E.
    - apply Nat.even_spec in E. destruct E as [k ->]. apply pow_1_even.
    - assert (O : Nat.odd n = true) by (unfold Nat.odd; now rewrite E). apply Nat.odd_spec in O. destruct O as [k ->]. rewrite Nat.add_1_r. apply pow_1_odd. }
  rewrite S. set (s := if Nat.even n then 1%Z else (-1)%Z). field. auto.
Qed.

Lemma qsum_ok : forall n, sum_f_R0 (tg_alt PI_2_3_7_tg) n = Q2R (qsum n).
Proof.
  induction n as [|n IH]; cbn [sum_f_R0 qsum]; [apply qterm_ok|]. now rewrite IH, qterm_ok, Q2R_plus.
Qed.

(** [np.pi] is below pi by less than [2^-52]. *)
Lemma pi_accuracy : 0 < PI - tau / 2 < b2 (-52).
Proof.
  pose proof (PI_2_3_7_ineq 8) as [L U]. rewrite qsum_ok in L, U.
  assert (T : tau / 2 = Q2R (7074237752028440 # 2 ^ 51)).
  { unfold tau, Q2R. cbn [Qnum Qden]. change (-50)%Z with (-51 + 1)%Z. rewrite bpow_plus. change (b2 1) with 2. change (b2 (-51)) with (/ IZR (Zpos (2 ^ 51))). field. apply not_0_IZR. lia. }
  assert (B : b2 (-52) = Q2R (1 # 2 ^ 52)).
  { unfold Q2R. cbn [Qnum Qden]. change (b2 (-52)) with (/ IZR (Zpos (2 ^ 52))). ring. }
  assert (F : 4 = Q2R 4) by (unfold Q2R; cbn; field).
  assert (A1 : tau / 2 < 4 * Q2R (qsum 17)).
  { rewrite T, F, <- Q2R_mult. apply Qlt_Rlt. vm_compute. reflexivity. }
  assert (A2 : 4 * Q2R (qsum 16) < tau / 2 + b2 (-52)).
  { rewrite T, B, F, <- Q2R_mult, <- Q2R_plus. apply Qlt_Rlt. vm_compute. reflexivity. }
  change (S (2 * 8)) with 17%nat in L. change (2 * 8)%nat with 16%nat in U. lra.
Qed.
