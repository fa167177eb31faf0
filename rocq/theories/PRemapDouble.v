(** * Lemmas: edges and cell numbers of the grid remapping in binary64 *)

From Coq Require Import Reals ZArith List Bool Lia Lra Psatz.
From Flocq Require Import Core IEEE754.BinarySingleNaN.
From Verif Require Import Base MHealpixFloat PHealpixFloat SpecDouble SpecRemap MDouble PDouble MGridsDouble PGridsDouble PSumDouble MRemap MRemapDouble.
Import ListNotations.
Open Scope R_scope.

Local Existing Instance p53.
Local Instance fexp24 : Valid_exp (FLT_exp (-149) 24).
Proof. apply FLT_exp_valid. reflexivity. Qed.

(** ** Integers *)

Lemma real4_ok : forall z, (0 <= z <= 2 ^ 24)%Z -> fin (real4 z) /\ val (real4 z) = IZR z.
Proof.
  intros z Hz. unfold real4.
  pose proof (@binary_normalize_correct 24 128 p24 p128 mode_NE z 0 false) as C. cbv zeta in C.
  assert (R : round radix2 (SpecFloat.fexp 24 128) (round_mode mode_NE) (F2R (Float radix2 z 0)) = IZR z).
  { replace (F2R (Float radix2 z 0)) with (IZR z) by (unfold F2R; cbn [Fnum Fexp bpow]; ring).
    apply round_generic; [apply valid_rnd_N|]. change (SpecFloat.fexp 24 128) with (FLT_exp (-149) 24).
    destruct (Z.eq_dec z (2 ^ 24)) as [->|N].
    - apply generic_format_FLT. exists (Float radix2 1 24); cbn [Fnum Fexp]; [unfold F2R; cbn [Fnum Fexp]; change (bpow radix2 24) with (IZR (2 ^ 24)); ring|reflexivity|lia].
    - apply generic_format_FLT. exists (Float radix2 z 0); cbn [Fnum Fexp]; [unfold F2R; cbn [Fnum Fexp bpow]; ring| |lia].
      change (Z.pow (Zaux.radix_val radix2) 24) with (2 ^ 24)%Z. lia. }
  rewrite R in C. rewrite Rlt_bool_true in C.
  2:{ rewrite Rabs_pos_eq by (apply IZR_le; lia). apply Rle_lt_trans with (IZR (2 ^ 24)); [apply IZR_le; lia|]. change (IZR (2 ^ 24)) with (bpow radix2 24). apply bpow_lt. lia. }
  destruct C as (C1 & C2 & _). destruct (binary_normalize 24 128 p24 p128 mode_NE z 0 false) as [s|s| |s m e B]; try discriminate C2.
  - cbn [B2R] in C1. rewrite <- C1. split; [apply fin_zero|apply val_zero].
  - cbn [B2R] in C1.
    pose proof (@binary_normalize_correct 53 1024 p53 p1024 mode_NE (cond_Zopp s (Zpos m)) e false) as D. cbv zeta in D.
    change (round radix2 (SpecFloat.fexp 53 1024) (round_mode mode_NE)) with fl in D. rewrite C1 in D.
    assert (F : fl (IZR z) = IZR z).
    { apply fl_fmt. apply generic_format_FLT. exists (Float radix2 z 0); cbn [Fnum Fexp]; [unfold F2R; cbn [Fnum Fexp bpow]; ring| |lia].
      change (Z.pow (Zaux.radix_val radix2) 53) with (2 ^ 53)%Z. lia. }
    rewrite F, Rlt_bool_true in D.
    2:{ rewrite Rabs_pos_eq by (apply IZR_le; lia). apply Rle_lt_trans with (IZR (2 ^ 24)); [apply IZR_le; lia|]. change (IZR (2 ^ 24)) with (bpow radix2 24). apply bpow_lt. lia. }
    destruct D as (D1 & D2 & _). unfold fin, val, dbl. split; [exact D2|exact D1].
Qed.

Lemma real4_nat : forall p : nat, (Z.of_nat p <= 2 ^ 24)%Z -> fin (real4 (Z.of_nat p)) /\ val (real4 (Z.of_nat p)) = INR p.
Proof. intros p H. rewrite INR_IZR_INZ. apply real4_ok. lia. Qed.

Section Scale.
  Variable X : R.
  Hypothesis HX : b2 (-900) <= X <= b2 900.
  Definition unit_of : R := u * X.
  Notation e := unit_of.

  Lemma X_pos : 0 < X. Proof. pose proof (bpow_gt_0 radix2 (-900)). lra. Qed.
  Lemma e_pos : 0 < e. Proof. unfold unit_of. pose proof X_pos. pose proof u_pos. nra. Qed.
  Lemma e_small : e * 2 ^ 30 <= X * b2 (-23).
  Proof.
    unfold unit_of, u. replace (2 ^ 30) with (b2 30) by (rewrite bpow_powerRZ; reflexivity || (cbn; lra)).
    pose proof X_pos. replace (b2 (-53) * X * b2 30) with (X * (b2 (-53) * b2 30)) by ring. rewrite <- bpow_plus. apply Req_le. reflexivity.
  Qed.

  Lemma tiny_e : b2 (-1075) <= / 1024 * e.
  Proof.
    unfold unit_of, u. apply Rle_trans with (b2 (-10) * (b2 (-53) * b2 (-900))).
    - rewrite <- !bpow_plus. apply bpow_le. lia.
    - change (b2 (-10)) with (/ 1024). apply Rmult_le_compat_l; [lra|]. apply Rmult_le_compat_l; [apply bpow_ge_0|lra].
  Qed.

  Lemma flX : forall x c, Rabs x <= c * X -> Rabs (fl x - x) <= (c + / 1024) * e.
  Proof.
    intros x c H. pose proof (fl_mixed x) as M. pose proof tiny_e as T. pose proof u_pos as U.
    assert (u * Rabs x <= u * (c * X)) by (apply Rmult_le_compat_l; lra). unfold unit_of in *. lra.
  Qed.

  Lemma flX_small : forall x, Rabs x <= 8 * X -> Rabs (fl x) < b2 1024.
  Proof.
    intros x H. pose proof (flX x 8 H) as F. pose proof X_pos. pose proof u_pos as U.
    assert (e <= X) by (unfold unit_of; nra).
    assert (Rabs (fl x) <= 32 * X) by (pose proof (Rabs_triang (fl x - x) x) as T; replace (fl x - x + x) with (fl x) in T by ring; lra).
    apply Rle_lt_trans with (1 := H2). apply Rle_lt_trans with (b2 5 * b2 900); [change (b2 5) with 32; lra|]. rewrite <- bpow_plus. apply bpow_lt. lia.
  Qed.

  Lemma addX : forall x y c, fin x -> fin y -> Rabs (val x + val y) <= c * X -> c <= 8 ->
    fin (dadd x y) /\ Rabs (val (dadd x y) - (val x + val y)) <= (c + / 1024) * e.
  Proof.
    intros x y c Fx Fy H Hc. pose proof X_pos. destruct (dadd_ok x y Fx Fy) as [A B]; [apply flX_small; nra|]. split; [exact A|]. rewrite B. now apply flX.
  Qed.
  Lemma subX : forall x y c, fin x -> fin y -> Rabs (val x - val y) <= c * X -> c <= 8 ->
    fin (dsub x y) /\ Rabs (val (dsub x y) - (val x - val y)) <= (c + / 1024) * e.
  Proof.
    intros x y c Fx Fy H Hc. pose proof X_pos. destruct (dsub_ok x y Fx Fy) as [A B]; [apply flX_small; nra|]. split; [exact A|]. rewrite B. now apply flX.
  Qed.
  Lemma mulX : forall x y c, fin x -> fin y -> Rabs (val x * val y) <= c * X -> c <= 8 ->
    fin (dmul x y) /\ Rabs (val (dmul x y) - (val x * val y)) <= (c + / 1024) * e.
  Proof.
    intros x y c Fx Fy H Hc. pose proof X_pos. destruct (dmul_ok x y Fx Fy) as [A B]; [apply flX_small; nra|]. split; [exact A|]. rewrite B. now apply flX.
  Qed.

  (** ** One grid: origin [o], length [B], [n] cells *)

  Definition good (o B : double) (n : nat) : Prop :=
    fin o /\ fin B /\ 0 < val B /\ Rabs (val o) + val B <= X /\ (1 <= n)%nat /\ X * b2 (-20) <= val B / INR n.

  Definition step_d (o B : double) (n : nat) : double := ddiv (dsub (dadd o B) o) (real4 (Z.of_nat n)).
  Definition edge_d (o B : double) (n p : nat) : double := dadd o (dmul (step_d o B n) (real4 (Z.of_nat p))).

  Lemma few : forall o B n, good o B n -> 1 <= INR n <= b2 20.
  Proof.
    intros o B n (_ & _ & HB & HS & Hn & HW). pose proof X_pos. pose proof (Rabs_pos (val o)).
    assert (1 <= INR n) by (change 1 with (INR 1); apply le_INR; exact Hn). split; [assumption|].
    assert (E : val B = val B / INR n * INR n) by (field; lra).
    assert (X * b2 (-20) * INR n <= X) by (apply Rle_trans with (val B); [rewrite E; apply Rmult_le_compat_r; lra|lra]).
    assert (Q : b2 (-20) * b2 20 = 1) by (rewrite <- bpow_plus; reflexivity).
    pose proof (bpow_gt_0 radix2 20). pose proof (bpow_gt_0 radix2 (-20)).
    assert (b2 (-20) * INR n <= 1) by (apply Rmult_le_reg_l with X; lra). nra.
  Qed.

  Lemma few_Z : forall o B n, good o B n -> (Z.of_nat n <= 2 ^ 20)%Z.
  Proof. intros o B n G. destruct (few o B n G) as [_ H]. rewrite INR_IZR_INZ in H. change (b2 20) with (IZR (2 ^ 20)) in H. now apply le_IZR. Qed.

  Lemma wide : forall o B n, good o B n -> e * 2 ^ 33 <= val B / INR n <= X.
  Proof.
    intros o B n G. pose proof (few o B n G) as [F _]. destruct G as (_ & _ & HB & HS & Hn & HW). pose proof e_small as S. pose proof X_pos. split.
    - replace (b2 (-20)) with (8 * b2 (-23)) in HW by (change 8 with (b2 3); rewrite <- bpow_plus; reflexivity). replace (2 ^ 33) with (8 * 2 ^ 30) by ring. lra.
    - apply Rle_trans with (val B); [|pose proof (Rabs_pos (val o)); lra]. apply Rmult_le_reg_r with (INR n); [lra|]. unfold Rdiv. rewrite Rmult_assoc, Rinv_l by lra. nra.
  Qed.

  Lemma step_ok : forall o B n, good o B n -> fin (step_d o B n) /\
    (forall p : nat, (p <= n)%nat -> Rabs (INR p * val (step_d o B n) - INR p * (val B / INR n)) <= 4 * e) /\
    Rabs (val (step_d o B n) - val B / INR n) <= 4 * e.
  Proof.
    intros o B n G. pose proof (few o B n G) as [N1 N2]. pose proof (few_Z o B n G) as NZ. pose proof (wide o B n G) as [W1 W2].
    destruct G as (Fo & FB & HB & HS & Hn & HW). pose proof e_pos as E. pose proof X_pos as PX. pose proof u_pos as U.
    assert (EX : e <= / 1024 * X) by (unfold unit_of; nra).
    pose proof (Rabs_pos (val o)) as Po.
    destruct (addX o B 1 Fo FB) as [A1 A2]; [apply Rle_trans with (1 := Rabs_triang _ _); rewrite (Rabs_pos_eq (val B)); lra|lra|].
    set (hi := dadd o B) in *. apply Rabs_le_inv in A2.
    destruct (subX hi o 2 A1 Fo) as [S1 _]; [apply Rabs_le; lra|lra|].
    assert (S2 : Rabs (val (dsub hi o) - (val hi - val o)) <= (1 + / 512) * e).
    { destruct (dsub_ok hi o A1 Fo) as [_ V]; [apply flX_small; apply Rabs_le; lra|]. rewrite V.
      replace (1 + / 512) with (1 + / 1024 + / 1024) by lra. apply flX. apply Rabs_le. lra. }
    set (box := dsub hi o) in *. apply Rabs_le_inv in S2.
    destruct (real4_nat n ltac:(lia)) as [R1 R2].
    assert (BX : val box - val B <= (2 + / 256) * e /\ - ((2 + / 256) * e) <= val box - val B) by lra.
    assert (Q : Rabs (val box / val (real4 (Z.of_nat n))) <= 2 * X).
    { rewrite R2. unfold Rdiv. rewrite Rabs_mult, (Rabs_pos_eq (/ INR n)) by (left; apply Rinv_0_lt_compat; lra).
      assert (/ INR n <= 1) by (rewrite <- Rinv_1; apply Rinv_le_contravar; lra). assert (0 < / INR n) by (apply Rinv_0_lt_compat; lra).
      assert (Rabs (val box) <= 2 * X) by (apply Rabs_le; lra). pose proof (Rabs_pos (val box)). nra. }
    destruct (ddiv_ok box (real4 (Z.of_nat n)) S1) as [D1 D2]; [rewrite R2; lra|apply flX_small; lra|].
    assert (D3 : val (step_d o B n) = fl (val box / val (real4 (Z.of_nat n)))) by exact D2. clear D2. split; [exact D1|].
    assert (M : forall p : nat, (p <= n)%nat -> Rabs (INR p * val (step_d o B n) - INR p * (val B / INR n)) <= 4 * e).
    { intros p Hp. rewrite D3, R2. assert (P : 0 <= INR p <= INR n) by (split; [apply pos_INR|apply le_INR; exact Hp]).
      pose proof (fl_mixed (val box / INR n)) as F. pose proof tiny_e as T.
      assert (WB : val B / INR n <= val B) by (apply Rmult_le_reg_r with (INR n); [lra|]; unfold Rdiv; rewrite Rmult_assoc, Rinv_l by lra; nra).
      assert (PB : 0 <= val box <= (1 + / 256) * X) by (split; lra).
      assert (PQ : 0 <= val box / INR n) by (apply Rmult_le_pos; [lra|left; apply Rinv_0_lt_compat; lra]).
      rewrite (Rabs_pos_eq (val box / INR n)) in F by exact PQ. apply Rabs_le_inv in F.
      set (s := fl (val box / INR n)) in *.
      assert (I : INR n * (val box / INR n) = val box) by (field; lra).
      assert (I2 : INR n * (val B / INR n) = val B) by (field; lra).
      set (q := val box / INR n) in *. set (r := val B / INR n) in *.
      (* p (s - q) <= u p q + p tiny <= u box + 2^20 tiny *)
      assert (T2 : INR p * b2 (-1075) <= / 1024 * e).
      { apply Rle_trans with (b2 20 * b2 (-1075)); [apply Rmult_le_compat_r; [apply bpow_ge_0|lra]|].
        apply Rle_trans with (b2 (-10) * (b2 (-53) * b2 (-900))); [rewrite <- !bpow_plus; apply bpow_le; lia|].
        change (b2 (-10)) with (/ 1024). apply Rmult_le_compat_l; [lra|]. unfold unit_of, u. apply Rmult_le_compat_l; [apply bpow_ge_0|lra]. }
      assert (T3 : INR p * (u * q) <= (1 + / 256) * e).
      { apply Rle_trans with (u * (INR n * q)); [|rewrite I; unfold unit_of; nra]. replace (INR p * (u * q)) with (u * (INR p * q)) by ring.
        apply Rmult_le_compat_l; [lra|]. apply Rmult_le_compat_r; [exact PQ|lra]. }
      assert (K1 : INR p * (s - q) <= (1 + / 128) * e) by (apply Rle_trans with (INR p * (u * q + b2 (-1075))); [apply Rmult_le_compat_l; lra|rewrite Rmult_plus_distr_l; lra]).
      assert (K2 : - ((1 + / 128) * e) <= INR p * (s - q)).
      { apply Rle_trans with (INR p * - (u * q + b2 (-1075))); [rewrite <- Ropp_mult_distr_r, Rmult_plus_distr_l; lra|apply Rmult_le_compat_l; lra]. }
      (* p (q - r) bounded by box - B *)
      assert (K3 : - ((2 + / 256) * e) <= INR p * (q - r) <= (2 + / 256) * e).
      { assert (J : INR n * (q - r) = val box - val B) by lra. assert (PN : 0 < INR n) by lra. clear -J P BX E PN.
        destruct (Rle_or_lt 0 (q - r)); split; nra. }
      apply Rabs_le. lra. }
    split; [exact M|]. specialize (M 1%nat Hn). cbn [INR] in M. rewrite !Rmult_1_l in M. exact M.
  Qed.

  Lemma edge_ok : forall o B n p, good o B n -> (p <= n)%nat ->
    fin (edge_d o B n p) /\ Rabs (val (edge_d o B n p) - edge (val o) (val B) n p) <= 7 * e /\ Rabs (edge (val o) (val B) n p) <= X.
  Proof.
    intros o B n p G Hp. pose proof (few o B n G) as [N1 N2]. pose proof (few_Z o B n G) as NZ. destruct (step_ok o B n G) as (S1 & S2 & _).
    destruct G as (Fo & FB & HB & HS & Hn & HW). pose proof e_pos as E. pose proof X_pos as PX. pose proof u_pos as U.
    assert (EX : e <= / 1024 * X) by (unfold unit_of; nra). pose proof (Rabs_pos (val o)) as Po.
    specialize (S2 p Hp). destruct (real4_nat p ltac:(lia)) as [R1 R2].
    assert (P : 0 <= INR p <= INR n) by (split; [apply pos_INR|apply le_INR; exact Hp]).
    assert (PW : 0 <= INR p * (val B / INR n) <= val B).
    { assert (0 < / INR n) by (apply Rinv_0_lt_compat; lra). split; [apply Rmult_le_pos; [lra|apply Rmult_le_pos; lra]|].
      apply Rle_trans with (INR n * (val B / INR n)); [apply Rmult_le_compat_r; [apply Rmult_le_pos; lra|lra]|]. apply Req_le. field. lra. }
    assert (AE : Rabs (edge (val o) (val B) n p) <= X).
    { unfold edge. apply Rle_trans with (1 := Rabs_triang _ _). rewrite (Rabs_pos_eq (INR p * _)) by lra. lra. }
    apply Rabs_le_inv in S2. unfold edge_d.
    destruct (mulX (step_d o B n) (real4 (Z.of_nat p)) (1 + / 128) S1 R1) as [M1 M2]; [rewrite R2, Rmult_comm; apply Rabs_le; lra|lra|].
    rewrite R2, (Rmult_comm (val _) (INR p)) in M2. apply Rabs_le_inv in M2. set (m := dmul _ _) in *.
    unfold edge in *. apply Rabs_le_inv in AE.
    destruct (addX o m (1 + / 64) Fo M1) as [A1 A2]; [apply Rabs_le; lra|lra|]. apply Rabs_le_inv in A2.
    split; [exact A1|]. split; apply Rabs_le; lra.
  Qed.

  Lemma step_pos : forall o B n, good o B n -> val B / INR n / 2 <= val (step_d o B n) <= 2 * (val B / INR n) /\ X * b2 (-21) <= val (step_d o B n).
  Proof.
    intros o B n G. destruct (step_ok o B n G) as (_ & _ & S). pose proof (wide o B n G) as [W _]. destruct G as (_ & _ & _ & _ & _ & HW). pose proof e_pos. apply Rabs_le_inv in S.
    replace (b2 (-21)) with (b2 (-20) / 2) by (change (-20)%Z with (1 + -21)%Z; rewrite bpow_plus; change (b2 1) with 2; field). lra.
  Qed.

  (** ** The number of the cell that contains a point *)

  Lemma which_ok : forall o B n x, good o B n -> fin x -> Rabs (val x) <= 2 * X ->
    let P := which_pix_d o (step_d o B n) x in
    IZR P * val (step_d o B n) <= val x - val o + 7 * e /\ val x - val o - 7 * e <= (IZR P + 1) * val (step_d o B n) /\
    (val o <= val x -> (0 <= P)%Z) /\ (Z.abs P <= 2 ^ 24)%Z.
  Proof.
    intros o B n x G Fx Bx P. destruct (step_ok o B n G) as (S1 & _ & _). destruct (step_pos o B n G) as [S2 S3]. pose proof (wide o B n G) as [W V].
    destruct G as (Fo & FB & HB & HS & Hn & HW). pose proof e_pos as E. pose proof X_pos as PX. pose proof u_pos as U.
    assert (EX : e <= / 1024 * X) by (unfold unit_of; nra). pose proof (Rabs_pos (val o)) as Po.
    set (d := step_d o B n) in *. assert (Pd : 0 < val d) by (pose proof (bpow_gt_0 radix2 (-21)); nra).
    assert (L : Rabs (val x - val o) <= 3 * X) by (apply Rle_trans with (1 := Rabs_triang _ _); rewrite Rabs_Ropp; lra).
    destruct (subX x o 3 Fx Fo L) as [A1 A2]; [lra|].
    assert (A3 : 0 <= val x - val o -> 0 <= val (dsub x o)).
    { intros H. destruct (dsub_ok x o Fx Fo) as [_ ->]; [apply flX_small; lra|]. apply fl_ge; [apply fl_fmt, fmt_0|exact H]. }
    set (s := dsub x o) in *. apply Rabs_le_inv in A2. apply Rabs_le_inv in L.
    assert (Q : Rabs (val s / val d) <= b2 23).
    { unfold Rdiv. rewrite Rabs_mult, (Rabs_pos_eq (/ val d)) by (left; apply Rinv_0_lt_compat; lra). apply Rmult_le_reg_r with (val d); [exact Pd|].
      rewrite Rmult_assoc, Rinv_l, Rmult_1_r by lra. apply Rle_trans with (4 * X); [apply Rabs_le; lra|].
      apply Rle_trans with (b2 23 * (X * b2 (-21))); [|apply Rmult_le_compat_l; [apply bpow_ge_0|exact S3]].
      replace (b2 23 * (X * b2 (-21))) with (X * (b2 23 * b2 (-21))) by ring. rewrite <- bpow_plus. change (b2 (23 + -21)) with 4. lra. }
    assert (FQ : Rabs (fl (val s / val d)) <= b2 23).
    { apply abs_round_le_generic; auto with typeclass_instances. apply (fmt_b2 23); lia. }
    destruct (ddiv_ok s d A1) as [D1 D2]; [lra|apply Rle_lt_trans with (1 := FQ); apply bpow_lt; lia|].
    unfold P, which_pix_d, dfloor. fold s. change (B2R (ddiv s d)) with (val (ddiv s d)). rewrite D2.
    set (q := fl (val s / val d)) in *.
    pose proof (fl_mixed (val s / val d)) as F. fold q in F.
    assert (K : Rabs (q * val d - val s) <= u * Rabs (val s) + b2 (-1075) * val d).
    { replace (q * val d - val s) with ((q - val s / val d) * val d) by (field; lra). rewrite Rabs_mult, (Rabs_pos_eq (val d)) by lra.
      apply Rle_trans with ((u * Rabs (val s / val d) + b2 (-1075)) * val d); [apply Rmult_le_compat_r; lra|]. rewrite Rmult_plus_distr_r. apply Rplus_le_compat_r.
      rewrite Rmult_assoc. apply Req_le. f_equal. unfold Rdiv. rewrite Rabs_mult, (Rabs_pos_eq (/ val d)) by (left; apply Rinv_0_lt_compat; lra). field. lra. }
    assert (SX : Rabs (val s) <= (3 + / 64) * X) by (apply Rabs_le; lra).
    assert (TD : b2 (-1075) * val d <= / 1024 * e).
    { change (b2 (-1075)) with (b2 (-53 + -1022)). rewrite bpow_plus. fold u. unfold unit_of. rewrite Rmult_assoc.
      replace (/ 1024 * (u * X)) with (u * (/ 1024 * X)) by ring. apply Rmult_le_compat_l; [lra|].
      apply Rle_trans with (b2 (-11) * (2 * X)); [|change (b2 (-11)) with (/ 2048); lra].
      apply Rmult_le_compat; [apply bpow_ge_0|lra|apply bpow_le; lia|lra]. }
    assert (US : u * Rabs (val s) <= (3 + / 64) * e) by (unfold unit_of; replace ((3 + / 64) * (u * X)) with (u * ((3 + / 64) * X)) by ring; apply Rmult_le_compat_l; lra).
    apply Rabs_le_inv in K. pose proof (Zfloor_lb q) as Z1. pose proof (Zfloor_ub q) as Z2.
    split; [|split; [|split]].
    - apply Rle_trans with (q * val d); [apply Rmult_le_compat_r; lra|lra].
    - apply Rle_trans with (q * val d); [lra|apply Rmult_le_compat_r; lra].
    - intros H. apply Zfloor_lub. change (IZR 0) with 0. apply fl_ge; [apply fl_fmt, fmt_0|]. apply Rmult_le_pos; [apply A3; lra|left; apply Rinv_0_lt_compat; lra].
    - apply Rabs_le_inv in FQ. change (b2 23) with (IZR (2 ^ 23)) in FQ.
      assert (- 2 ^ 23 <= Zfloor q)%Z by (apply Zfloor_lub; rewrite opp_IZR; lra).
      assert (Zfloor q <= 2 ^ 23)%Z by (apply le_IZR; lra). lia.
  Qed.

  (** ** The number of weights *)

  Lemma len_ok : forall o1 B1 k1 o2 B2 k2, good o1 B1 k1 -> good o2 B2 k2 ->
    let d1 := val (step_d o1 B1 k1) in let d2 := val (step_d o2 B2 k2) in
    let L := (dfloor (ddiv (step_d o2 B2 k2) (step_d o1 B1 k1)) + 2)%Z in
    (2 <= L)%Z /\ d1 + d2 - 2 * e <= IZR L * d1 /\ (IZR L - 2) * d1 <= d2 + 2 * e.
  Proof.
    intros o1 B1 k1 o2 B2 k2 G1 G2 d1 d2 L. destruct (step_ok _ _ _ G1) as (F1 & _ & _). destruct (step_ok _ _ _ G2) as (F2 & _ & _).
    destruct (step_pos _ _ _ G1) as [S1 T1]. destruct (step_pos _ _ _ G2) as [S2 T2]. pose proof (wide _ _ _ G1) as [W1 V1]. pose proof (wide _ _ _ G2) as [W2 V2].
    set (D1 := step_d o1 B1 k1) in *. set (D2 := step_d o2 B2 k2) in *. fold d1 in S1, T1. fold d2 in S2, T2.
    pose proof e_pos as E. pose proof X_pos as PX. pose proof u_pos as U. pose proof (bpow_gt_0 radix2 (-21)) as P21.
    assert (Pd1 : 0 < d1) by nra. assert (Pd2 : 0 < d2) by nra.
    assert (Q : 0 <= d2 / d1 <= b2 23).
    { split; [apply Rmult_le_pos; [lra|left; apply Rinv_0_lt_compat; lra]|]. apply Rmult_le_reg_r with d1; [exact Pd1|]. unfold Rdiv. rewrite Rmult_assoc, Rinv_l, Rmult_1_r by lra.
      apply Rle_trans with (b2 23 * (X * b2 (-21))); [|apply Rmult_le_compat_l; [apply bpow_ge_0|exact T1]].
      replace (b2 23 * (X * b2 (-21))) with (X * (b2 23 * b2 (-21))) by ring. rewrite <- bpow_plus. change (b2 (23 + -21)) with 4. lra. }
    assert (FQ : 0 <= fl (d2 / d1) <= b2 23) by (split; [apply fl_ge; [apply fl_fmt, fmt_0|lra]|apply fl_le; [apply fl_fmt, (fmt_b2 23); lia|lra]]).
    destruct (ddiv_ok D2 D1 F2) as [R1 R2]; [fold d1; lra|fold d1 d2; rewrite Rabs_pos_eq by lra; apply Rle_lt_trans with (1 := proj2 FQ); apply bpow_lt; lia|].
    fold d1 d2 in R2. unfold L, dfloor. change (B2R (ddiv D2 D1)) with (val (ddiv D2 D1)). rewrite R2. set (q := fl (d2 / d1)) in *.
    pose proof (fl_mixed (d2 / d1)) as F. fold q in F. rewrite (Rabs_pos_eq (d2 / d1)) in F by lra. apply Rabs_le_inv in F.
    assert (K : d2 - 2 * e <= q * d1 <= d2 + 2 * e).
    { assert (I : d2 / d1 * d1 = d2) by (field; lra). set (r := d2 / d1) in *. 
      assert (TD : b2 (-1075) * d1 <= / 1024 * e /\ u * d2 <= (1 + / 64) * e).
      { split.
        - change (b2 (-1075)) with (b2 (-53 + -1022)). rewrite bpow_plus. fold u. unfold unit_of. rewrite Rmult_assoc.
          replace (/ 1024 * (u * X)) with (u * (/ 1024 * X)) by ring. apply Rmult_le_compat_l; [lra|].
          apply Rle_trans with (b2 (-11) * (2 * X)); [|change (b2 (-11)) with (/ 2048); lra].
          apply Rmult_le_compat; [apply bpow_ge_0|lra|apply bpow_le; lia|lra].
        - unfold unit_of. replace ((1 + / 64) * (u * X)) with (u * ((1 + / 64) * X)) by ring. apply Rmult_le_compat_l; [lra|].
          destruct (step_ok _ _ _ G2) as (_ & _ & S4). fold D2 d2 in S4. apply Rabs_le_inv in S4. assert (e <= / 1024 * X) by (unfold unit_of; nra). lra. }
      assert ((q - r) * d1 <= u * d2 + b2 (-1075) * d1) by (apply Rle_trans with ((u * r + b2 (-1075)) * d1); [apply Rmult_le_compat_r; lra|rewrite <- I; lra]).
      assert (- (u * d2 + b2 (-1075) * d1) <= (q - r) * d1) by (apply Rle_trans with (- (u * r + b2 (-1075)) * d1); [rewrite <- I; lra|apply Rmult_le_compat_r; lra]).
      lra. }
    pose proof (Zfloor_lb q) as Z1. pose proof (Zfloor_ub q) as Z2. rewrite plus_IZR. split; [|split].
    - assert (0 <= Zfloor q)%Z by (apply Zfloor_lub; change (IZR 0) with 0; lra). lia.
    - apply Rle_trans with ((q + 1) * d1); [lra|apply Rmult_le_compat_r; lra].
    - apply Rle_trans with (q * d1); [apply Rmult_le_compat_r; lra|lra].
  Qed.
End Scale.
