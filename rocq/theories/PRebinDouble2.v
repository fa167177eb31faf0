(** * [MOneDDouble.v]: rounding errors of the weights and of the weighted mean *)

From Coq Require Import Reals ZArith List Bool Lia Lra Psatz.
From Flocq Require Import Core IEEE754.BinarySingleNaN.
From Verif Require Import Base BaseP SpecGrid SpecRemap MGrids MHealpixFloat PHealpixFloat SpecDouble MDouble PDouble
  MGridsDouble PGridsDouble MSumDouble PSumDouble PDense PDenseDouble PRemap2 PRadial SpecRebinDouble MOneDDouble PRebinDouble.
Import ListNotations.
Open Scope R_scope.

Local Existing Instance p53.
Local Instance fexp_valid : Valid_exp (FLT_exp (-1074) 53).
Proof. apply FLT_exp_valid. reflexivity. Qed.

Lemma multiple : forall x, fmt x -> x = 0 \/ b2 (-240) <= Rabs x -> exists m, x = IZR m * b2 (-292).
Proof.
  intros x F [->|H]; [exists 0%Z; ring|].
  set (c := cexp radix2 (FLT_exp (-1074) 53) x). assert (E : (-292 <= c)%Z).
  { assert (M : (-240 < mag radix2 x)%Z) by (apply mag_gt_bpow; exact H). unfold c, cexp, FLT_exp. lia. }
  exists (Ztrunc (scaled_mantissa radix2 (FLT_exp (-1074) 53) x) * 2 ^ (c + 292))%Z.
  unfold fmt, generic_format in F. rewrite F at 1. unfold F2R. cbn [Fnum Fexp]. fold c. rewrite mult_IZR.
  change (IZR (2 ^ (c + 292))) with (IZR (Zpower radix2 (c + 292))). rewrite IZR_Zpower by lia. rewrite Rmult_assoc, <- bpow_plus. do 2 f_equal. lia.
Qed.

Lemma gap : forall x y, tame x -> tame y -> val y < val x -> b2 (-300) <= val x - val y <= b2 301.
Proof.
  intros x y [Fx Hx] [Fy Hy] L. pose proof (bpow_gt_0 radix2 300) as P. split.
  - destruct (multiple (val x) (fmt_val x) ltac:(tauto)) as (p & Ep). destruct (multiple (val y) (fmt_val y) ltac:(tauto)) as (q & Eq).
    rewrite Ep, Eq, <- Rmult_minus_distr_r, <- minus_IZR. rewrite Ep, Eq in L. pose proof (bpow_gt_0 radix2 (-292)) as P2.
    assert (1 <= p - q)%Z. { apply Rmult_lt_reg_r in L; [|exact P2]. apply lt_IZR in L. lia. }
    apply Rle_trans with (1 * b2 (-292)); [rewrite Rmult_1_l; apply bpow_le; lia|]. apply Rmult_le_compat_r; [lra|]. now apply (IZR_le 1).
  - change 301%Z with (1 + 300)%Z. rewrite bpow_plus. change (b2 1) with 2.
    assert (Bx : Rabs (val x) <= b2 300) by (destruct Hx as [-> |]; [rewrite Rabs_R0; lra|lra]).
    assert (By : Rabs (val y) <= b2 300) by (destruct Hy as [-> |]; [rewrite Rabs_R0; lra|lra]).
    apply Rabs_le_inv in Bx. apply Rabs_le_inv in By. lra.
Qed.

(** A rounded weight. *)
Definition near (w : double) (W : R) : Prop :=
  fin w /\ Rabs (val w - W) <= 4 * u * W /\ (W = 0 \/ b2 (-601) <= W <= b2 601).

Lemma near_pos : forall w W, near w W -> 0 <= W.
Proof. intros w W (_ & _ & [-> |[H _]]); [lra|]. pose proof (bpow_gt_0 radix2 (-601)). lra. Qed.

Lemma near_one : near done 1.
Proof.
  destruct (dint_ok 1 ltac:(lia)) as [F V]. change (dint 1) with done in *. split; [exact F|]. split.
  - rewrite V, Rminus_diag_eq, Rabs_R0 by reflexivity. pose proof u_pos. lra.
  - right. change 1 with (b2 0). split; apply bpow_le; lia.
Qed.

Lemma sub_rel : forall x y, tame x -> tame y -> val y <= val x ->
  fin (dsub x y) /\ Rabs (val (dsub x y) - (val x - val y)) <= u * (val x - val y).
Proof.
  intros x y Hx Hy L. pose proof (proj1 Hx) as Fx. pose proof (proj1 Hy) as Fy. pose proof u_pos as U.
  pose proof (add_err (val x) (- val y) (fmt_val x) (fmt_opp _ (fmt_val y))) as E.
  change (val x + - val y) with (val x - val y) in E. rewrite (Rabs_pos_eq (val x - val y)) in E by lra.
  assert (B : val x - val y <= b2 301).
  { destruct (Rle_lt_or_eq_dec _ _ L) as [Q|Q]; [now apply gap|]. rewrite Q, Rminus_diag_eq by reflexivity. apply bpow_ge_0. }
  destruct (dsub_ok x y Fx Fy) as [F V].
  - apply Rle_lt_trans with (b2 301); [apply fl_big; [lia|rewrite Rabs_pos_eq by lra; exact B]|apply bpow_lt; lia].
  - split; [exact F|]. rewrite V. exact E.
Qed.

Lemma weight_near : forall a b c d, tame a -> tame b -> tame c -> tame d -> val b <= val a -> val d < val c ->
  near (ddiv (dsub a b) (dsub c d)) ((val a - val b) / (val c - val d)).
Proof.
  intros a b c d Ha Hb Hc Hd L1 L2. pose proof u_pos as U.
  destruct (sub_rel a b Ha Hb L1) as [FN EN]. destruct (sub_rel c d Hc Hd ltac:(lra)) as [FD ED].
  pose proof (gap c d Hc Hd L2) as [D1 D2]. pose proof (bpow_gt_0 radix2 (-300)) as P3.
  set (N := val a - val b) in *. set (D := val c - val d) in *. apply Rabs_le_inv in ED. apply Rabs_le_inv in EN.
  assert (PD : 0 < val (dsub c d)) by nra.
  destruct (Rle_lt_or_eq_dec _ _ L1) as [Q|Q].
  - pose proof (gap a b Ha Hb Q) as [N1 N2]. fold N in N1, N2.
    set (W := N / D). set (q := val (dsub a b) / val (dsub c d)).
    assert (PW : 0 < W) by (apply Rdiv_lt_0_compat; lra).
    assert (W1 : b2 (-601) <= W <= b2 601).
    { split.
      - apply (Rmult_le_reg_r D); [lra|]. unfold W. replace (N / D * D) with N by (field; lra).
        apply Rle_trans with (b2 (-601) * b2 301); [apply Rmult_le_compat_l; [apply bpow_ge_0|exact D2]|]. rewrite <- bpow_plus. exact N1.
      - apply (Rmult_le_reg_r D); [lra|]. unfold W. replace (N / D * D) with N by (field; lra).
        apply Rle_trans with (1 := N2). change 301%Z with (601 + -300)%Z. rewrite bpow_plus. apply Rmult_le_compat_l; [apply bpow_ge_0|exact D1]. }
    assert (EW : N = W * D) by (unfold W; field; lra).
    assert (Eq : Rabs (q - W) <= (2 * u + 4 * u * u) * W).
    { unfold q. replace (val (dsub a b) / val (dsub c d) - W) with ((val (dsub a b) - N + W * (D - val (dsub c d))) / val (dsub c d)) by (rewrite EW; field; lra).
      unfold Rdiv. rewrite Rabs_mult, (Rabs_pos_eq (/ _)) by (left; now apply Rinv_0_lt_compat).
      apply (Rmult_le_reg_r (val (dsub c d))); [exact PD|]. rewrite Rmult_assoc, Rinv_l, Rmult_1_r by lra.
      apply Rle_trans with (2 * u * (W * D)).
      - apply Rabs_le. assert (0 <= W * D) by nra. assert (- (u * (W * D)) <= W * (D - val (dsub c d)) <= u * (W * D)) by nra. rewrite EW in EN. lra.
      - assert (H : (1 - u) * D <= val (dsub c d)) by lra.
        apply Rle_trans with ((2 * u + 4 * u * u) * W * ((1 - u) * D)); [|apply Rmult_le_compat_l; [nra|exact H]].
        replace ((2 * u + 4 * u * u) * W * ((1 - u) * D)) with ((W * D) * (2 * u * (1 + u - 2 * u * u))) by ring.
        replace (2 * u * (W * D)) with ((W * D) * (2 * u)) by ring. apply Rmult_le_compat_l; nra. }
    assert (Hq : 0 <= q <= 2 * W) by (apply Rabs_le_inv in Eq; nra).
    destruct (ddiv_ok (dsub a b) (dsub c d) FN ltac:(lra)) as [F V].
    { fold q. apply Rle_lt_trans with (b2 602); [apply fl_big; [lia|]|apply bpow_lt; lia]. rewrite Rabs_pos_eq by lra.
      change 602%Z with (1 + 601)%Z. rewrite bpow_plus. change (b2 1) with 2. lra. }
    split; [exact F|]. split; [|right; exact W1]. rewrite V. fold q.
    assert (Hm : b2 (-1022) <= q).
    { apply Rle_trans with (b2 (-602)); [apply bpow_le; lia|]. apply Rabs_le_inv in Eq. change (-602)%Z with (-1 + -601)%Z. rewrite bpow_plus. change (b2 (-1)) with (/ 2). nra. }
    pose proof (fl_rel q Hm) as E. change (b2 (-53)) with u in E.
    replace (fl q - W) with ((fl q - q) + (q - W)) by ring. apply Rle_trans with (1 := Rabs_triang _ _). apply Rabs_le_inv in Eq as Eq2.
    assert (q <= (1 + 2 * u + 4 * u * u) * W) by lra.
    apply Rle_trans with (u * ((1 + 2 * u + 4 * u * u) * W) + (2 * u + 4 * u * u) * W);
      [|apply Rle_trans with ((3 * u + 6 * (u * u) + 4 * (u * (u * u))) * W); [right; ring|]; assert (u * u <= / 1024 * u) by nra; assert (u * (u * u) <= u * u) by nra; apply Rmult_le_compat_r; lra].
    apply Rplus_le_compat; [|exact Eq]. apply Rle_trans with (1 := E). apply Rmult_le_compat_l; lra.
  - assert (ZN : N = 0) by (unfold N; lra). assert (Z : val (dsub a b) = 0) by (rewrite ZN in EN; lra).
    rewrite ZN. assert (Zw : 0 / D = 0) by (unfold Rdiv; ring). rewrite Zw.
    destruct (ddiv_ok (dsub a b) (dsub c d) FN ltac:(lra)) as [F V].
    { rewrite Z. replace (0 / val (dsub c d)) with 0 by (unfold Rdiv; ring). rewrite (fl_fmt 0 fmt_0), Rabs_R0. apply bpow_gt_0. }
    split; [exact F|]. split; [|now left]. rewrite V, Z. replace (0 / val (dsub c d)) with 0 by (unfold Rdiv; ring). rewrite (fl_fmt 0 fmt_0), Rminus_0_r, Rabs_R0. lra.
Qed.

(** ** The weighted mean *)

(** One weighted entry. *)
Lemma entry_err : forall w x W y Y h, near w W -> fin x -> b2 (-300) <= Y <= b2 300 -> 0 <= h <= / 1024 ->
  Rabs (val x - y) <= h * Y -> Rabs y <= Y ->
  fin (dmul w x) /\ Rabs (val (dmul w x) - W * y) <= (7 * u + 2 * h) * (W * Y) /\ Rabs (W * y) <= W * Y.
Proof.
  intros w x W y Y h Hw Fx HY Hh E B. pose proof u_pos as U. pose proof (near_pos w W Hw) as PW. destruct Hw as (Fw & Ew & Hw).
  pose proof (bpow_gt_0 radix2 (-300)) as P3. pose proof (bpow_gt_0 radix2 (-601)) as P6.
  assert (U2 : u <= / 1048576) by (unfold u; change (/ 1048576) with (b2 (-20)); apply bpow_le; lia).
  assert (Bx : Rabs (val x) <= (1 + h) * Y).
  { replace (val x) with ((val x - y) + y) by ring. apply Rle_trans with (1 := Rabs_triang _ _). lra. }
  assert (Bw : Rabs (val w) <= (1 + 4 * u) * W).
  { replace (val w) with ((val w - W) + W) by ring. apply Rle_trans with (1 := Rabs_triang _ _). rewrite (Rabs_pos_eq W) by exact PW. lra. }
  assert (Bp : Rabs (val w * val x) <= (1 + 4 * u) * (1 + h) * (W * Y)).
  { rewrite Rabs_mult. apply Rle_trans with ((1 + 4 * u) * W * ((1 + h) * Y)); [|right; ring]. apply Rmult_le_compat; try apply Rabs_pos; assumption. }
  assert (PWY : 0 <= W * Y) by (apply Rmult_le_pos; lra).
  assert (Ep : Rabs (val w * val x - W * y) <= (4 * u * (1 + h) + h) * (W * Y)).
  { replace (val w * val x - W * y) with ((val w - W) * val x + W * (val x - y)) by ring. apply Rle_trans with (1 := Rabs_triang _ _).
    rewrite !Rabs_mult, (Rabs_pos_eq W) by exact PW.
    apply Rle_trans with (4 * u * W * ((1 + h) * Y) + W * (h * Y)); [|right; ring].
    apply Rplus_le_compat; [apply Rmult_le_compat; try apply Rabs_pos; assumption|apply Rmult_le_compat_l; assumption]. }
  assert (Bq : Rabs (W * y) <= W * Y) by (rewrite Rabs_mult, (Rabs_pos_eq W) by exact PW; apply Rmult_le_compat_l; assumption).
  assert (Big : W * Y <= b2 901).
  { change 901%Z with (601 + 300)%Z. rewrite bpow_plus. apply Rmult_le_compat; try lra. destruct Hw as [-> |]; [apply bpow_ge_0|lra]. }
  assert (C2 : (1 + 4 * u) * (1 + h) <= 2) by nra.
  destruct (dmul_ok w x Fw Fx) as [F V].
  { apply Rle_lt_trans with (b2 902); [apply fl_big; [lia|]|apply bpow_lt; lia]. apply Rle_trans with (1 := Bp).
    change 902%Z with (1 + 901)%Z. rewrite bpow_plus. change (b2 1) with 2. apply Rmult_le_compat; nra. }
  split; [exact F|]. split; [|exact Bq]. rewrite V.
  destruct Hw as [Z|[W1 _]].
  - subst W. assert (Zw : val w = 0) by (rewrite Rmult_0_r in Bw; pose proof (Rabs_pos (val w)); destruct (Req_dec (val w) 0) as [|D]; [assumption|apply Rabs_pos_lt in D; lra]).
    rewrite Zw, !Rmult_0_l, (fl_fmt 0 fmt_0), Rminus_0_r, Rabs_R0. lra.
  - assert (Tiny : b2 (-1075) <= u * (W * Y)).
    { apply Rle_trans with (u * (b2 (-601) * b2 (-300))); [unfold u; rewrite <- !bpow_plus; apply bpow_le; lia|].
      apply Rmult_le_compat_l; [lra|]. apply Rmult_le_compat; lra. }
    replace (fl (val w * val x) - W * y) with ((fl (val w * val x) - val w * val x) + (val w * val x - W * y)) by ring.
    apply Rle_trans with (1 := Rabs_triang _ _). pose proof (fl_mixed (val w * val x)) as Ef.
    assert (A : u * Rabs (val w * val x) <= u * (2 * (W * Y))).
    { apply Rmult_le_compat_l; [lra|]. apply Rle_trans with (1 := Bp). apply Rmult_le_compat_r; lra. }
    assert ((4 * u * (1 + h) + h) * (W * Y) <= (4 * u + 2 * h) * (W * Y)) by (apply Rmult_le_compat_r; nra).
    replace ((7 * u + 2 * h) * (W * Y)) with (3 * (u * (W * Y)) + (4 * u + 2 * h) * (W * Y)) by ring. lra.
Qed.

Section Mean.
Variables (o : nat -> tree) (m : nat) (w x : nat -> double) (W y Y : nat -> R) (h : R).
Hypothesis O : order_ok o.
Hypothesis Hm : (1 <= m)%nat.
Hypothesis Hm20 : INR m <= b2 20.
Hypothesis Hh : 0 <= h <= / 1048576.
Hypothesis Hw : forall i, (i < m)%nat -> near (w i) (W i).
Hypothesis Hx : forall i, (i < m)%nat -> fin (x i) /\ Rabs (val (x i) - y i) <= h * Y i /\ Rabs (y i) <= Y i /\ b2 (-300) <= Y i <= b2 300.
Hypothesis HW : 0 < sum_upto m W.

Let Om := sum_upto m W.
Let S := sum_upto m (fun i => W i * y i).
Let T := sum_upto m (fun i => W i * Y i).

Lemma small_gain : forall c, 0 <= c <= / 65536 -> (1 + c) * (1 + u) ^ (m - 1) <= 1 + (2 * INR m * u + c + c * / 65536).
Proof.
  intros c Hc. pose proof u_pos as U. pose proof (INR_b m Hm) as B1.
  assert (N : INR (m - 1) = INR m - 1) by (rewrite minus_INR by lia; reflexivity).
  assert (BU : INR m * u <= / 1048576) by (rewrite Rmult_comm; apply Rle_trans with (2 := u20 m Hm); apply Rmult_le_compat_l; lra).
  pose proof (pow_lin (m - 1)) as G. rewrite N in G. specialize (G ltac:(nra)). set (g := (1 + u) ^ (m - 1)) in *.
  assert (g <= 1 + 2 * (INR m * u)) by nra. nra.
Qed.

Lemma T_range : b2 (-300) * Om <= T <= b2 300 * Om.
Proof.
  unfold T, Om. rewrite <- !sum_scal. split; apply sum_le; intros i Hi; pose proof (near_pos _ _ (Hw i Hi)); destruct (Hx i Hi) as (_ & _ & _ & H1 & H2); rewrite (Rmult_comm _ (W i)); now apply Rmult_le_compat_l.
Qed.

Lemma Om_range : b2 (-601) <= Om <= b2 621.
Proof.
  unfold Om. split.
  - assert (K : exists i, (i < m)%nat /\ W i <> 0).
    { clear - HW Hw. induction m as [|k IH]; [rewrite sum_0 in HW; lra|]. destruct (Req_dec (W k) 0) as [Z|Z]; [|exists k; split; [lia|exact Z]].
      rewrite sum_S, Z, Rplus_0_r in HW. destruct IH as (i & Hi & Ni); [intros; apply Hw; lia|exact HW|]. exists i. split; [lia|exact Ni]. }
    destruct K as (i & Hi & Ni). destruct (Hw i Hi) as (_ & _ & [Z|[H _]]); [contradiction|]. apply Rle_trans with (1 := H).
    clear - Hi Hw. induction m as [|k IH]; [lia|]. rewrite sum_S. pose proof (near_pos _ _ (Hw k ltac:(lia))).
    destruct (Nat.eq_dec i k) as [-> |D].
    + assert (0 <= sum_upto k W). { replace 0 with (sum_upto k (fun _ => 0)) by (rewrite sum_const; ring). apply sum_le. intros j Hj. apply (near_pos (w j)), Hw. lia. } lra.
    + specialize (IH ltac:(intros; apply Hw; lia) ltac:(lia)). lra.
  - apply Rle_trans with (sum_upto m (fun _ => b2 601)).
    + apply sum_le. intros i Hi. destruct (Hw i Hi) as (_ & _ & [-> |[_ H]]); [apply bpow_ge_0|exact H].
    + rewrite sum_const. change 621%Z with (20 + 601)%Z. rewrite bpow_plus. apply Rmult_le_compat_r; [apply bpow_ge_0|exact Hm20].
Qed.

Lemma mean_bound : Rabs (S / Om) <= T / Om.
Proof.
  unfold Rdiv. rewrite Rabs_mult, (Rabs_pos_eq (/ Om)) by (left; now apply Rinv_0_lt_compat). apply Rmult_le_compat_r; [left; now apply Rinv_0_lt_compat|].
  unfold S, T. apply Rle_trans with (1 := sum_abs _ _). apply sum_le. intros i Hi. rewrite Rabs_mult, Rabs_pos_eq by (apply (near_pos (w i)), Hw, Hi).
  apply Rmult_le_compat_l; [apply (near_pos (w i)), Hw, Hi|]. now apply Hx.
Qed.

Lemma mean_range : b2 (-300) <= T / Om <= b2 300.
Proof.
  destruct T_range as [T1 T2]. fold Om in HW. split; apply (Rmult_le_reg_r Om); try exact HW; replace (T / Om * Om) with T by (field; lra); assumption.
Qed.

Lemma mean_err : let q := ddiv (sum_d o (tab m (fun i => dmul (w i) (x i)))) (sum_d o (tab m w)) in
  fin q /\ Rabs (val q - S / Om) <= ((6 * INR m + 24) * u + 8 * h) * (T / Om).
Proof.
  intros q. pose proof u_pos as U. pose proof (INR_b m Hm) as B1. pose proof T_range as [T1 T2]. pose proof Om_range as [O1 O2].
  pose proof mean_bound as MB. pose proof mean_range as [MR1 MR2]. pose proof (pow_ge_1 (m - 1)) as G1.
  assert (BU : INR m * u <= / 1048576) by (rewrite Rmult_comm; apply Rle_trans with (2 := u20 m Hm); apply Rmult_le_compat_l; lra).
  assert (U2 : u <= / 1048576) by nra.
  fold Om in HW. pose proof (bpow_gt_0 radix2 (-300)) as P3.
  set (cn := 7 * u + 2 * h). set (cd := 4 * u).
  pose proof (small_gain cn ltac:(unfold cn; lra)) as Gn. pose proof (small_gain cd ltac:(unfold cd; lra)) as Gd.
  set (g := (1 + u) ^ (m - 1)) in *.
  assert (PT : 0 < T) by nra.
  assert (TB : T <= b2 921). { apply Rle_trans with (1 := T2). change 921%Z with (300 + 621)%Z. rewrite bpow_plus. apply Rmult_le_compat_l; [apply bpow_ge_0|exact O2]. }
  assert (B922 : 2 * b2 921 <= b2 1020) by (change 2 with (b2 1); rewrite <- bpow_plus; apply bpow_le; lia).
  assert (B622 : 2 * b2 621 <= b2 1020) by (change 2 with (b2 1); rewrite <- bpow_plus; apply bpow_le; lia).
  assert (Sn : (1 + cn) * g <= 2) by (unfold cn in *; lra). assert (Sd : (1 + cd) * g <= 2) by (unfold cd in *; lra).
  assert (Zn : 0 <= (1 + cn) * g) by (apply Rmult_le_pos; unfold cn; lra). assert (Zd : 0 <= (1 + cd) * g) by (apply Rmult_le_pos; unfold cd; lra).
  destruct (sum_approx o m (fun i => dmul (w i) (x i)) (fun i => W i * y i) (fun i => W i * Y i) (1 + cn) O ltac:(unfold cn; lra)) as [Fn En].
  { intros i Hi. destruct (Hx i Hi) as (X1 & X2 & X3 & X4). destruct (entry_err (w i) (x i) (W i) (y i) (Y i) h (Hw i Hi) X1 X4 ltac:(lra) X2 X3) as (A & B & C).
    split; [exact A|]. split; [|exact C]. unfold cn. replace (1 + (7 * u + 2 * h) - 1) with (7 * u + 2 * h) by ring. exact B. }
  { fold T g. apply Rle_trans with (2 * b2 921); [|exact B922]. apply Rmult_le_compat; lra. }
  destruct (sum_approx o m w W W (1 + cd) O ltac:(unfold cd; lra)) as [Fd Ed].
  { intros i Hi. pose proof (near_pos _ _ (Hw i Hi)). destruct (Hw i Hi) as (A & B & _). split; [exact A|]. rewrite (Rabs_pos_eq (W i)) by assumption.
    split; [|lra]. unfold cd. replace (1 + 4 * u - 1) with (4 * u) by ring. exact B. }
  { fold Om g. apply Rle_trans with (2 * b2 621); [|exact B622]. apply Rmult_le_compat; lra. }
  fold S T g in En. fold Om g in Ed.
  set (e := (2 * INR m + 8) * u + 3 * h).
  assert (En' : Rabs (val (sum_d o (tab m (fun i => dmul (w i) (x i)))) - S) <= e * T).
  { apply Rle_trans with (1 := En). apply Rmult_le_compat_r; [lra|]. unfold e, cn in *. lra. }
  assert (Ed' : Rabs (val (sum_d o (tab m w)) - Om) <= e * Om).
  { apply Rle_trans with (1 := Ed). apply Rmult_le_compat_r; [lra|]. unfold e, cd in *. lra. }
  clear En Ed. set (n := sum_d o (tab m (fun i => dmul (w i) (x i)))) in *. set (d := sum_d o (tab m w)) in *.
  assert (He : 0 <= e <= / 65536) by (unfold e; nra).
  set (mu := S / Om) in *. set (tt := T / Om) in *.
  assert (ES : S = mu * Om) by (unfold mu; field; lra). assert (ET : T = tt * Om) by (unfold tt; field; lra).
  rewrite ES, ET in En'. apply Rabs_le_inv in Ed' as Ed2.
  assert (Dd : Om * (1 - e) <= val d <= Om * (1 + e)) by lra. assert (Pd : 0 < val d) by nra. assert (Ptt : 0 < tt) by lra.
  assert (Eq : Rabs (val n / val d - mu) <= 2 * e * tt * (1 + 2 * e)).
  { replace (val n / val d - mu) with ((val n - mu * Om + mu * (Om - val d)) / val d) by (field; lra).
    unfold Rdiv. rewrite Rabs_mult, (Rabs_pos_eq (/ val d)) by (left; apply Rinv_0_lt_compat; lra).
    apply Rle_trans with (2 * e * (tt * Om) * / val d).
    - apply Rmult_le_compat_r; [left; apply Rinv_0_lt_compat; lra|]. apply Rle_trans with (1 := Rabs_triang _ _). rewrite Rabs_mult, (Rabs_minus_sym Om).
      assert (Rabs mu * Rabs (val d - Om) <= tt * (e * Om)) by (apply Rmult_le_compat; try apply Rabs_pos; lra). lra.
    - apply (Rmult_le_reg_r (val d)); [exact Pd|]. rewrite Rmult_assoc, Rinv_l, Rmult_1_r by lra.
      replace (2 * e * (tt * Om)) with (2 * e * tt * Om) by ring. rewrite (Rmult_assoc (2 * e * tt)). apply Rmult_le_compat_l; [apply Rmult_le_pos; lra|]. nra. }
  assert (Qb : Rabs (val n / val d) <= 2 * tt).
  { replace (val n / val d) with ((val n / val d - mu) + mu) by ring. apply Rle_trans with (1 := Rabs_triang _ _).
    assert (2 * e * tt * (1 + 2 * e) <= tt) by (replace (2 * e * tt * (1 + 2 * e)) with (2 * e * (1 + 2 * e) * tt) by ring; rewrite <- (Rmult_1_l tt) at 2; apply Rmult_le_compat_r; nra). lra. }
  assert (Big : 2 * tt <= b2 301) by (change 301%Z with (1 + 300)%Z; rewrite bpow_plus; change (b2 1) with 2; lra).
  destruct (ddiv_ok n d Fn ltac:(lra)) as [Fq Vq].
  - apply Rle_lt_trans with (b2 301); [apply fl_big; [lia|lra]|apply bpow_lt; lia].
  - split; [exact Fq|]. unfold q. rewrite Vq. pose proof (fl_mixed (val n / val d)) as Em.
    assert (Tiny : b2 (-1075) <= u * tt). { apply Rle_trans with (u * b2 (-300)); [unfold u; rewrite <- bpow_plus; apply bpow_le; lia|apply Rmult_le_compat_l; lra]. }
    replace (fl (val n / val d) - mu) with ((fl (val n / val d) - val n / val d) + (val n / val d - mu)) by ring. apply Rle_trans with (1 := Rabs_triang _ _).
    assert (A1 : u * Rabs (val n / val d) <= u * (2 * tt)) by (apply Rmult_le_compat_l; lra).
    assert (A2 : 2 * e * tt * (1 + 2 * e) <= 2 * e * tt * (1 + / 32768)) by (apply Rmult_le_compat_l; [apply Rmult_le_pos; lra|lra]).
    assert (A3 : (2 * e * (1 + / 32768) + 3 * u) * tt <= ((6 * INR m + 24) * u + 8 * h) * tt).
    { apply Rmult_le_compat_r; [lra|]. unfold e. nra. }
    lra.
Qed.

End Mean.
