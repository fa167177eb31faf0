(** * Lemmas: stochastic weights in double precision *)

From Coq Require Import Reals ZArith List Bool Lia Lra Psatz.
From Flocq Require Import Core IEEE754.BinarySingleNaN.
From Verif Require Import Base BaseP MHealpixFloat PHealpixFloat SpecDouble MDouble PDouble MGridsDouble PGridsDouble MRemapDouble
  MSumDouble PSumDouble MRadialDouble SpecRandomsDouble MRandomsDouble.
Import ListNotations.
Open Scope R_scope.

Lemma one_ok : fin one_d /\ val one_d = 1.
Proof. unfold one_d. destruct (dint_ok 1 ltac:(lia)) as [F V]. auto. Qed.

Lemma fix_round : forall (r : R -> Z) x, round radix2 (FIX_exp 0) r x = IZR (r x).
Proof.
  intros r x. unfold round, F2R, scaled_mantissa, cexp, FIX_exp. cbn [Fnum Fexp]. change (bpow radix2 (- 0)) with 1. change (bpow radix2 0) with 1. now rewrite !Rmult_1_r.
Qed.

Lemma ceil_ok : forall w, fin w -> fin (ceil_d w) /\ val (ceil_d w) = IZR (Zceil (val w)).
Proof. intros w F. destruct (@Bnearbyint_correct 53 1024 p1024 mode_UP w) as (V & Fi & _). split; [unfold fin, ceil_d; rewrite Fi; exact F|]. refine (eq_trans V _). apply fix_round. Qed.

Lemma floor_ok : forall w, fin w -> fin (floor_d w) /\ val (floor_d w) = IZR (Zfloor (val w)).
Proof. intros w F. destruct (@Bnearbyint_correct 53 1024 p1024 mode_DN w) as (V & Fi & _). split; [unfold fin, floor_d; rewrite Fi; exact F|]. refine (eq_trans V _). apply fix_round. Qed.

Lemma ceil_gap : forall x, 0 <= IZR (Zceil x) - x < 1.
Proof. intros x. pose proof (Zceil_ub x). pose proof (Zceil_lb x). lra. Qed.

(** The threshold of a draw. *)
Definition need (w : R) : R := fl (IZR (Zceil w) - w).

Lemma need_range : forall w, 0 <= need w <= 1.
Proof.
  intros w. pose proof (ceil_gap w) as G. unfold need. split; [rewrite <- (fl_fmt 0 fmt_0)|rewrite <- (fl_fmt 1 fmt_1)]; apply fl_mono; lra.
Qed.

Lemma need_err : forall w, Rabs (need w - (IZR (Zceil w) - w)) <= b2 (-54).
Proof. intros w. pose proof (ceil_gap w) as G. unfold need. change (-54)%Z with (0 - 54)%Z. apply fl_err; [|lia]. change (b2 0) with 1. rewrite Rabs_pos_eq; lra. Qed.

Lemma need_ok : forall w, fin w -> fin (dsub (ceil_d w) w) /\ val (dsub (ceil_d w) w) = need (val w).
Proof.
  intros w F. destruct (ceil_ok w F) as [Fc Vc]. destruct (dsub_ok (ceil_d w) w Fc F) as [F1 V1].
  - rewrite Vc. change (fl (IZR (Zceil (val w)) - val w)) with (need (val w)). pose proof (need_range (val w)). rewrite Rabs_pos_eq by lra. apply Rle_lt_trans with 1; [lra|]. change 1 with (b2 0). apply bpow_lt. lia.
  - rewrite Vc in V1. auto.
Qed.

Lemma siw_ok : forall u w, fin u -> fin w -> fin (siw_scalar_d u w) /\
  val (siw_scalar_d u w) = if Rlt_bool (val u) (need (val w)) then IZR (Zfloor (val w)) else IZR (Zceil (val w)).
Proof.
  intros u w Fu Fw. unfold siw_scalar_d. cbv zeta. destruct (need_ok w Fw) as [Fn Vn]. rewrite dlt_ok by auto. rewrite Vn. destruct (ceil_ok w Fw), (floor_ok w Fw). destruct (Rlt_bool (val u) (need (val w))); auto.
Qed.

(** Draws below a threshold. *)
Lemma below_threshold : forall k u t, kth_draw k u -> Rlt_bool (val u) t = (k <? Zceil (t * b2 53))%Z.
Proof.
  intros k u t (Hk & Fu & Vu). assert (I : b2 (-53) * b2 53 = 1) by (rewrite <- bpow_plus; reflexivity). pose proof (bpow_gt_0 radix2 53) as P. pose proof (bpow_gt_0 radix2 (-53)) as P'.
  destruct (Z.ltb_spec k (Zceil (t * b2 53))) as [L|L].
  - apply Rlt_bool_true. rewrite Vu. apply Rmult_lt_reg_r with (b2 53); [exact P|]. rewrite Rmult_assoc, I, Rmult_1_r. pose proof (Zceil_lb (t * b2 53)) as C. assert (Q : IZR k <= IZR (Zceil (t * b2 53) - 1)) by (apply IZR_le; lia). rewrite minus_IZR in Q. lra.
  - apply Rlt_bool_false. rewrite Vu. apply Rmult_le_reg_r with (b2 53); [exact P|]. rewrite (Rmult_assoc (IZR k)), I, Rmult_1_r. apply Rle_trans with (1 := Zceil_ub (t * b2 53)). apply IZR_le. exact L.
Qed.

Lemma threshold_range : forall t, 0 <= t <= 1 -> (0 <= Zceil (t * b2 53) <= 2 ^ 53)%Z /\ t <= IZR (Zceil (t * b2 53)) * b2 (-53) < t + b2 (-53).
Proof.
  intros t H. assert (I : b2 53 * b2 (-53) = 1) by (rewrite <- bpow_plus; reflexivity). pose proof (bpow_gt_0 radix2 53) as P. pose proof (bpow_gt_0 radix2 (-53)) as P'. split; [split|split].
  - apply le_IZR. apply Rle_trans with (t * b2 53); [apply Rmult_le_pos; lra|apply Zceil_ub].
  - apply Zceil_glb. change (IZR (2 ^ 53)) with (b2 53). rewrite <- (Rmult_1_l (b2 53)) at 2. apply Rmult_le_compat_r; lra.
  - replace t with (t * b2 53 * b2 (-53)) at 1 by (rewrite Rmult_assoc, I; ring). apply Rmult_le_compat_r; [lra|apply Zceil_ub].
  - replace t with (t * b2 53 * b2 (-53)) at 2 by (rewrite Rmult_assoc, I; ring). pose proof (Zceil_lb (t * b2 53)). nra.
Qed.

Lemma integer_same : forall w, fin w -> (exists z, val w = IZR z) -> ceil_d w = w.
Proof.
  intros w F (z & E). destruct (ceil_ok w F) as [Fc Vc]. rewrite E, Zceil_IZR, <- E in Vc. destruct (@Bnearbyint_correct 53 1024 p1024 mode_UP w) as (_ & _ & S).
  apply B2R_Bsign_inj; auto. apply S. unfold fin, ceil_d in Fc. destruct (Bnearbyint mode_UP w); try discriminate; reflexivity.
Qed.

Lemma siw_integer : forall u w, fin u -> 0 <= val u -> (fin w -> exists z, val w = IZR z) -> siw_scalar_d u w = w.
Proof.
  intros u w Fu Pu H. destruct (is_finite w) eqn:F.
  - destruct (H F) as (z & E). destruct (need_ok w F) as [Fn Vn]. unfold siw_scalar_d. cbv zeta. rewrite dlt_ok by auto. rewrite Vn. unfold need. rewrite E, Zceil_IZR, Rminus_diag_eq, (fl_fmt 0 fmt_0) by reflexivity.
    rewrite Rlt_bool_false by lra. apply integer_same; [exact F|]. now exists z.
  - unfold siw_scalar_d. cbv zeta. destruct w as [s|s| |s m e B]; try discriminate; [|destruct u as [?|[|]| |? ? ? ?]; reflexivity].
    change (ceil_d (B754_infinity s)) with (B754_infinity s : double). assert (N : dsub (B754_infinity s) (B754_infinity s) = B754_nan) by (destruct s; reflexivity). rewrite N. destruct u as [?|[|]| |? ? ? ?]; reflexivity.
Qed.

(** Beyond [2^52] all doubles are integers. *)
Lemma large_integer : forall w, fin w -> b2 52 <= Rabs (val w) -> exists z, val w = IZR z.
Proof.
  intros w F H. pose proof (fmt_val w) as FM. unfold fmt, generic_format in FM. set (c := cexp radix2 (FLT_exp (-1074) 53) (val w)) in *.
  assert (C : (0 <= c)%Z). { assert (M : (52 < mag radix2 (val w))%Z) by (apply mag_gt_bpow; exact H). unfold c, cexp, FLT_exp. lia. }
  exists (Ztrunc (scaled_mantissa radix2 (FLT_exp (-1074) 53) (val w)) * 2 ^ c)%Z. rewrite FM at 1. unfold F2R. cbn [Fnum Fexp]. fold c. rewrite mult_IZR. f_equal. exact (eq_sym (IZR_Zpower radix2 c C)).
Qed.

(** Weights of at most [2^-54]. *)
Lemma tiny_need : forall w, 0 < w <= b2 (-54) -> Zfloor w = 0%Z /\ Zceil w = 1%Z /\ need w = 1.
Proof.
  intros w H. assert (S : b2 (-54) < 1) by (change 1 with (b2 0); apply bpow_lt; lia).
  assert (FL : Zfloor w = 0%Z) by (apply Zfloor_imp; cbn; lra). assert (CE : Zceil w = 1%Z) by (apply Zceil_imp; cbn; lra).
  repeat split; auto. unfold need. rewrite CE. apply Rle_antisym; [rewrite <- (fl_fmt 1 fmt_1) at 2; apply fl_mono; lra|].
  assert (T : fl (1 - b2 (-54)) = 1).
  { set (x := dsub one_d (dbl 1 (-54))). destruct one_ok as [F1 V1].
    assert (E : B2SF x = B2SF one_d) by (vm_compute; reflexivity). apply B2SF_inj in E.
    assert (D : fin (dbl 1 (-54)) /\ val (dbl 1 (-54)) = b2 (-54)).
    { assert (Q : B2SF (dbl 1 (-54)) = SpecFloat.S754_finite false 4503599627370496 (-106)) by (vm_compute; reflexivity).
      split; [unfold fin; rewrite <- is_finite_SF_B2SF, Q; reflexivity|]. unfold val. rewrite <- SF2R_B2SF, Q. unfold SF2R, F2R. cbn [Fnum Fexp cond_Zopp]. change (IZR 4503599627370496) with (b2 52). rewrite <- bpow_plus. reflexivity. }
    destruct D as [FD VD]. destruct (dsub_ok one_d (dbl 1 (-54)) F1 FD) as [_ V].
    - apply small_b2. rewrite V1, VD. apply Rle_trans with 1; [|lra]. apply abs_round_le_generic; auto with typeclass_instances; [apply FLT_exp_valid; reflexivity|exact fmt_1|]. rewrite Rabs_pos_eq; pose proof (bpow_gt_0 radix2 (-54)); lra.
    - fold x in V. rewrite E, V1, VD in V. auto. }
  rewrite <- T at 1. apply fl_mono. lra.
Qed.

(** Monotony in the weight. *)
Lemma siw_mono : forall u w w', fin u -> 0 <= val u < 1 -> fin w -> fin w' -> val w <= val w' -> val (siw_scalar_d u w) <= val (siw_scalar_d u w').
Proof.
  intros u w w' Fu Hu Fw Fw' H. destruct (siw_ok u w Fu Fw) as [_ ->]. destruct (siw_ok u w' Fu Fw') as [_ ->].
  pose proof (Zfloor_le _ _ H) as LF. pose proof (Zceil_le _ _ H) as LC. assert (FC : forall x, IZR (Zfloor x) <= IZR (Zceil x)) by (intros x; pose proof (Zfloor_lb x); pose proof (Zceil_ub x); lra).
  apply IZR_le in LF, LC. destruct (Rlt_bool_spec (val u) (need (val w))) as [A|A]; destruct (Rlt_bool_spec (val u) (need (val w'))) as [B|B]; try lra; [pose proof (FC (val w')); lra|].
  (* the ceiling of [w] against the floor of [w'] *)
  destruct (Z.eq_dec (Zceil (val w)) (Zceil (val w'))) as [E|N].
  - exfalso. unfold need in *. rewrite <- E in B. assert (fl (IZR (Zceil (val w)) - val w') <= fl (IZR (Zceil (val w)) - val w)) by (apply fl_mono; lra). lra.
  - apply IZR_le. assert (K : (Zceil (val w) <= Zceil (val w') - 1)%Z) by (apply le_IZR in LC; lia). apply Z.le_trans with (1 := K). apply Zfloor_lub. rewrite minus_IZR. pose proof (Zceil_lb (val w')). lra.
Qed.
