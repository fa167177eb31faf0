(** * Proofs about [MHealRandomsDouble.v]: the longitude *)

From Coq Require Import Reals ZArith List Bool Lia Lra Psatz.
From Flocq Require Import Core IEEE754.BinarySingleNaN Sterbenz.
From Verif Require Import Base BaseP Spec MHealpixIndex PHealpixIndex PHealpixCentre PHealpixTiling MHealpixFloat PHealpixFloat SpecDouble SpecCoordsDouble SpecHealRandomsDouble MDouble PDouble PPiDouble PSumDouble MGridsDouble PGridsDouble MRemapDouble PRemapDouble2 MRandomsDouble PRandomsDouble PLibmDouble PTripDouble MHealCoordDouble PHealCoordDouble PHealCoordDouble2 PHealCoordDouble4 PHealRandomsDouble3.
From Verif Require PRebinDouble4.
Import ListNotations.
Open Scope R_scope.

Local Instance fexp_valid : Valid_exp (FLT_exp (-1074) 53).
Proof. apply FLT_exp_valid. reflexivity. Qed.
Local Instance fexp_mono : Monotone_exp (FLT_exp (-1074) 53).
Proof. apply FLT_exp_monotone. Qed.
Local Existing Instance p53.

(** A point of a pixel is in the belt or in the triangle of the pixel's facet. *)
Lemma facet_of : forall n i j a b, (1 <= n)%Z -> legal_ij n i j -> Rabs a + Rabs b <= 1 ->
  let x := (IZR (jd2 n i j) + a) * half_diag n in let y := (IZR (id2 n i) + b) * half_diag n in
  Rabs y <= PI / 4 \/ exists k : Z, (0 <= k <= 3)%Z /\ Rabs (x - (2 * IZR k + 1) * (PI / 4)) <= PI / 2 - Rabs y.
Proof.
  intros n i j a b Hn L Hab x y. unfold x, y. clear x y. pose proof PI_RGT_0 as HPI.
  assert (Hn' : 1 <= IZR n) by (apply IZR_le; auto). set (d := half_diag n). assert (Hd : 0 < d) by (unfold d, half_diag; apply Rdiv_lt_0_compat; lra).
  assert (E2 : PI = 4 * IZR n * d) by (unfold d, half_diag; field; lra).
  pose proof (Rabs_pos a) as Pa. pose proof (Rabs_pos b) as Pb. assert (Bb : -1 <= b <= 1) by (split; [pose proof (Rle_abs (- b)) as Q; rewrite Rabs_Ropp in Q|pose proof (Rle_abs b)]; lra). pose proof (Rle_abs b) as Bb1. pose proof (Rle_abs (- b)) as Bb2. rewrite Rabs_Ropp in Bb2.
  destruct (Rle_dec (Rabs ((IZR (id2 n i) + b) * d)) (PI / 4)) as [B|B]; [left; exact B|right].
  apply Rnot_le_lt in B. rewrite Rabs_mult, (Rabs_pos_eq d) in B |- * by lra.
  assert (B' : IZR n < Rabs (IZR (id2 n i) + b)) by (apply Rmult_lt_reg_r with d; lra). clear B.
  destruct (ring_len_cap n i j Hn L) as [C1 [_ C2]].
  assert (KEY : exists k ii : Z, (0 <= k <= 3)%Z /\
     Rabs (IZR (id2 n i) + b) <= 2 * IZR n - IZR ii + Rabs b /\
     Rabs (IZR (jd2 n i j) - (2 * IZR k + 1) * IZR n) <= IZR ii - 1).
  { unfold id2 in *. rewrite minus_IZR, mult_IZR in B' |- *.
    destruct (Rle_dec 0 (2 * IZR n - IZR i + b)) as [P|P].
    - rewrite Rabs_pos_eq in B' |- * by auto.
      assert (i <= n)%Z by (apply Z.lt_succ_r; apply lt_IZR; unfold Z.succ; rewrite plus_IZR; lra).
      destruct L as [L1 _]. destruct (cap_facet n i j ltac:(lia) (C1 H)) as [F1 [F2 F3]].
      exists ((j - 1) / i)%Z, i. split; [auto|]. split; [lra|].
      unfold jd2. replace (i <=? n)%Z with true by (symmetry; apply Z.leb_le; lia).
      rewrite <- (mult_IZR 2), <- (plus_IZR _ 1), <- mult_IZR, <- minus_IZR, <- abs_IZR, <- (minus_IZR i 1). apply IZR_le. nia.
    - apply Rnot_le_lt in P. rewrite Rabs_left in B' |- * by auto.
      assert (3 * n <= i)%Z by (apply Z.lt_succ_r; apply lt_IZR; unfold Z.succ; rewrite plus_IZR, mult_IZR; lra).
      destruct L as [L1 _]. destruct (cap_facet n (4 * n - i) j ltac:(lia) (C2 H)) as [F1 [F2 F3]].
      exists ((j - 1) / (4 * n - i))%Z, (4 * n - i)%Z. split; [auto|]. split; [rewrite minus_IZR, mult_IZR; lra|].
      unfold jd2. replace (i <=? n)%Z with false by (symmetry; apply Z.leb_gt; lia). replace (i <? 3 * n)%Z with false by (symmetry; apply Z.ltb_ge; lia). cbv zeta.
      rewrite <- (mult_IZR 2), <- (plus_IZR _ 1), <- mult_IZR, <- minus_IZR, <- abs_IZR, <- (minus_IZR (4 * n - i) 1). apply IZR_le. nia. }
  destruct KEY as [k [ii [Hk [KY KX]]]]. exists k. split; [exact Hk|]. set (J := IZR (jd2 n i j)) in *. set (I := IZR (id2 n i)) in *.
  assert (E3 : (2 * IZR k + 1) * (PI / 4) = (2 * IZR k + 1) * IZR n * d) by (rewrite E2; field). rewrite E3. replace ((J + a) * d - (2 * IZR k + 1) * IZR n * d) with (((J - (2 * IZR k + 1) * IZR n) + a) * d) by ring. rewrite Rabs_mult, (Rabs_pos_eq d) by lra. replace (PI / 2) with (2 * IZR n * d) by (rewrite E2; field). rewrite <- Rmult_minus_distr_r.
  apply Rmult_le_compat_r; [lra|]. eapply Rle_trans; [apply Rabs_triang|]. lra.
Qed.

Lemma above_two : forall s, fmt s -> 2 < s -> 2 + 4 * u <= s.
Proof.
  intros s Fs Hs. assert (H : succ radix2 (FLT_exp (-1074) 53) 2 <= s) by (apply succ_le_lt; [typeclasses eauto|change (fmt (b2 1)); apply fmt_b2; lia|exact Fs|exact Hs]).
  rewrite succ_eq_pos in H by lra. change 2 with (b2 1) in H at 2. rewrite ulp_bpow in H. unfold FLT_exp in H. change (b2 (Z.max (1 + 1 - 53) (-1074))) with (b2 (-51)) in H. rewrite b51_u in H. exact H.
Qed.

Lemma gap_two : forall s, fmt s -> s <> 2 -> 2 * u <= Rabs (2 - s).
Proof.
  intros s Fs N. pose proof u_tiny as U. destruct (Rlt_or_le s 2) as [L|L].
  - pose proof (below_two s Fs L) as K. assert (B52 : b2 (-52) = 2 * u) by (unfold u; change (-52)%Z with (1 + -53)%Z; rewrite bpow_plus; reflexivity). rewrite B52 in K. rewrite Rabs_pos_eq; lra.
  - pose proof (above_two s Fs ltac:(lra)). rewrite Rabs_left1; lra.
Qed.

Lemma siga_wide : forall g sg s, fin g -> sg = 1 \/ sg = -1 -> 1 <= s <= 2.05 -> val g = sg * s -> fmt s /\ fin (cap_siga g) /\ val (cap_siga g) = s - 1.
Proof.
  intros g sg s Fg Hs I Vg. destruct (Rle_or_lt s 2) as [L|L]; [apply (siga_ok g sg s Fg Hs ltac:(lra) Vg)|]. destruct (int_ok 1 ltac:(lia)) as [F1 V1].
  destruct (abs_ok g Fg) as [Fa Va]. assert (Va' : val (abs_d g) = s) by (rewrite Va, Vg, Rabs_mult, (Rabs_pos_eq s) by lra; destruct Hs as [-> | ->]; [rewrite Rabs_R1|rewrite Rabs_left by lra]; ring). clear Va.
  assert (Fs : fmt s) by (rewrite <- Va'; apply fmt_val). split; [exact Fs|]. destruct (sub_near (abs_d g) (dint 1) Fa F1) as (Fd & Vd & _); [rewrite V1, Va', Rabs_pos_eq; lra|].
  split; [exact Fd|]. change (cap_siga g) with (dsub (abs_d g) (dint 1)). rewrite Vd, V1, Va'. apply fl_fmt.
  (* a multiple of 2^-51 below 2^2 *)
  assert (X : cexp radix2 (FLT_exp (-1074) 53) s = (-51)%Z). { unfold cexp. assert (M : mag radix2 s = 2%Z :> Z) by (apply mag_unique; rewrite Rabs_pos_eq by lra; change (b2 (2 - 1)) with 2; change (b2 2) with 4; lra). rewrite M. reflexivity. }
  unfold fmt, generic_format in Fs. rewrite X in Fs. set (z := Ztrunc (scaled_mantissa radix2 (FLT_exp (-1074) 53) s)) in Fs. unfold F2R in Fs. cbn [Fnum Fexp] in Fs.
  assert (E : s - 1 = IZR (z - 2 ^ 51) * b2 (-51)). { rewrite minus_IZR, Rmult_minus_distr_r. rewrite <- Fs. change (IZR (2 ^ 51)) with (b2 51). rewrite <- bpow_plus. reflexivity. }
  rewrite E. assert (ZB : (Z.abs (z - 2 ^ 51) <= 2 ^ 53)%Z). { apply le_IZR. rewrite abs_IZR. apply Rmult_le_reg_r with (b2 (-51)); [apply bpow_gt_0|]. rewrite <- (Rabs_pos_eq (b2 (-51))) at 1 by apply bpow_ge_0. rewrite <- Rabs_mult, <- E. change (IZR (2 ^ 53)) with (b2 53). rewrite <- bpow_plus. change (b2 (53 + -51)) with 4. rewrite Rabs_pos_eq; lra. }
  destruct (dbl_ok (z - 2 ^ 51) (-51) ZB ltac:(lia)) as [_ V]. rewrite <- V. apply fmt_val.
Qed.

Lemma cap_phi_wide : forall x g sg s, fin x -> 0 <= val x <= 8 -> fin g -> sg = 1 \/ sg = -1 -> 1 <= s <= 2.05 -> s <> 2 -> val g = sg * s ->
  exists (k : Z) x', (0 <= k <= 5)%Z /\ IZR k * (PI / 2) - 32 * u <= val x <= (IZR k + 1) * (PI / 2) + 32 * u /\ Rabs (x' - val x) <= 64 * u /\
    fin (cap_phi x (cap_siga g) (cap_k x)) /\ (2 - s) * (val (cap_phi x (cap_siga g) (cap_k x)) - (2 * IZR k + 1) * (PI / 4)) = x' - (2 * IZR k + 1) * (PI / 4).
Proof.
  intros x g sg s Fx Hx Fg Hs I Ns Vg. destruct pi_u as (A & B & C). pose proof e0_small as E. pose proof u_tiny as U. destruct (int_ok 2 ltac:(lia)) as [F2 V2]. destruct (int_ok 1 ltac:(lia)) as [F1 V1]. destruct quarter_val as [Fqp Vqp].
  destruct (siga_wide g sg s Fg Hs I Vg) as (Fs & Fa & Va). destruct (cap_k_ok x Fx Hx) as (k & Ik & Fk & Vk & Bk). rewrite b48 in Bk.
  set (a := cap_siga g) in *. set (kd := cap_k x) in *. assert (K5 : 0 <= IZR k <= 5) by (split; [apply (IZR_le 0)|apply (IZR_le k 5)]; lia).
  destruct (mul_near (dint 2) kd F2 Fk) as (Fm & Vm & _); [rewrite V2, Vk, Rabs_pos_eq; lra|]. assert (Vm' : val (dmul (dint 2) kd) = 2 * IZR k) by (rewrite Vm, V2, Vk; apply fl_fmt, PRebinDouble4.fmt_double; rewrite <- Vk; apply fmt_val).
  destruct (add_near (dmul (dint 2) kd) (dint 1) Fm F1) as (Fn & Vn & _); [rewrite Vm', V1, Rabs_pos_eq; lra|]. assert (Vn' : val (dadd (dmul (dint 2) kd) (dint 1)) = 2 * IZR k + 1).
  { rewrite Vn, Vm', V1. destruct (int_ok (2 * k + 1) ltac:(lia)) as [_ Vo]. replace (2 * IZR k + 1) with (IZR (2 * k + 1)) by (rewrite plus_IZR, mult_IZR; ring). rewrite <- Vo. apply fl_fmt, fmt_val. }
  clear Vm Vn. set (n := dadd (dmul (dint 2) kd) (dint 1)) in *. clear Vm' Fm.
  assert (PA : 0 <= tau / 8 * (s - 1) <= 0.83). { split; [apply Rmult_le_pos; lra|]. apply Rle_trans with (0.7875 * 1.05); [apply Rmult_le_compat; lra|lra]. } destruct (mul_near quarter_pi a Fqp Fa) as (Fp & _ & Ep); [rewrite Vqp, Va, Rabs_pos_eq; lra|]. rewrite Vqp, Va, (Rabs_pos_eq (tau / 8 * (s - 1))) in Ep by lra. set (p := dmul quarter_pi a) in *.
  assert (Ep' : Rabs (val p - PI / 4 * (s - 1)) <= 1.4 * u).
  { replace (val p - PI / 4 * (s - 1)) with ((val p - tau / 8 * (s - 1)) + (tau / 2 - PI) * ((s - 1) / 4)) by field. eapply Rle_trans; [apply Rabs_triang|]. rewrite (Rabs_mult (tau / 2 - PI)), (Rabs_pos_eq ((s - 1) / 4)) by lra. assert (Rabs (tau / 2 - PI) * ((s - 1) / 4) <= 2 * u * 0.27) by (apply Rmult_le_compat; try apply Rabs_pos; lra). assert (u * (tau / 8 * (s - 1)) <= u * 0.83) by (apply Rmult_le_compat_l; lra). lra. }
  assert (Ep2 := Rabs_le_inv _ _ Ep'). set (v := PI / 4 * (s - 1)) in *. assert (Hv : 0 <= v <= 0.83) by (unfold v; split; [apply Rmult_le_pos; lra|apply Rle_trans with (0.7875 * 1.05); [apply Rmult_le_compat; lra|lra]]). set (nn := 2 * IZR k + 1) in *. assert (N1 : 1 <= nn <= 11) by (unfold nn; lra).
  assert (Epn : Rabs (val p * nn - v * nn) <= 15.4 * u). { replace (val p * nn - v * nn) with ((val p - v) * nn) by ring. rewrite Rabs_mult, (Rabs_pos_eq nn) by lra. replace (15.4 * u) with (1.4 * u * 11) by lra. apply Rmult_le_compat; try apply Rabs_pos; lra. }
  assert (Epn2 := Rabs_le_inv _ _ Epn). assert (Hvn : 0 <= v * nn <= 9.13) by (split; [apply Rmult_le_pos; lra|apply Rle_trans with (0.83 * 11); [apply Rmult_le_compat; lra|lra]]).
  destruct (mul_near p n Fp Fn) as (Fr & _ & Er); [rewrite Vn'; apply Rabs_le; lra|]. rewrite Vn' in Er. set (r := dmul p n) in *.
  assert (Er' : Rabs (val r - v * nn) <= 25 * u). { replace (val r - v * nn) with ((val r - val p * nn) + (val p * nn - v * nn)) by ring. eapply Rle_trans; [apply Rabs_triang|]. assert (Rabs (val p * nn) <= 9.14) by (apply Rabs_le; lra). assert (u * Rabs (val p * nn) <= u * 9.14) by (apply Rmult_le_compat_l; lra). lra. }
  assert (Er2 := Rabs_le_inv _ _ Er').
  destruct (sub_near x r Fx Fr) as (Ft & _ & Et); [apply Rabs_le; lra|]. set (t := dsub x r) in *. assert (Bt : Rabs (val x - val r) <= 9.2) by (apply Rabs_le; lra). assert (Et' : Rabs (val t - (val x - val r)) <= 9.2 * u) by (assert (u * Rabs (val x - val r) <= u * 9.2) by (apply Rmult_le_compat_l; lra); lra). assert (Et2 := Rabs_le_inv _ _ Et'). assert (Bt2 := Rabs_le_inv _ _ Bt).
  destruct (sub_near (dint 1) a F1 Fa) as (Fd & Vd & _); [rewrite V1, Va; apply Rabs_le; lra|]. rewrite V1, Va in Vd. replace (1 - (s - 1)) with (2 - s) in Vd by ring. rewrite fl_fmt in Vd by (apply sterbenz; [typeclasses eauto|typeclasses eauto|change (fmt (b2 1)); apply fmt_b2; lia|exact Fs|lra]).
  set (d := dsub (dint 1) a) in *. pose proof (gap_two s Fs Ns) as D1. assert (D2 : Rabs (2 - s) <= 1) by (apply Rabs_le; lra). set (w := 2 - s) in *. assert (NW : w <> 0) by (unfold w; lra). assert (IW : / Rabs w <= b2 53). { replace (b2 53) with (/ u) by (unfold u; rewrite <- bpow_opp; reflexivity). apply Rinv_le; lra. } assert (IP : 0 < / Rabs w) by (apply Rinv_0_lt_compat; lra). assert (AW : Rabs w * / Rabs w = 1) by (apply Rinv_r; lra).
  assert (QB : Rabs (val t / w) <= b2 60).
  { unfold Rdiv. rewrite Rabs_mult, Rabs_Rinv by exact NW. replace (b2 60) with (128 * b2 53) by (change 60%Z with (7 + 53)%Z; rewrite bpow_plus; reflexivity). apply Rmult_le_compat; [apply Rabs_pos|lra|apply Rabs_le; lra|exact IW]. }
  destruct (ddiv_ok t d Ft) as [Ff Vf]; [rewrite Vd; exact NW| |].
  { rewrite Vd. apply Rle_lt_trans with (b2 60); [|apply bpow_lt; lia]. apply abs_round_le_generic; [typeclasses eauto|typeclasses eauto|apply fmt_b2; lia|exact QB]. }
  rewrite Vd in Vf. pose proof (fl_mixed (val t / w)) as M. change (b2 (-53)) with u in M. change (cap_phi x a kd) with (ddiv t d). rewrite <- Vf in M. set (f := val (ddiv t d)) in *.
  assert (EF : Rabs (f * w - val t) <= 9.4 * u).
  { replace (f * w - val t) with ((f - val t / w) * w) by (field; exact NW). rewrite Rabs_mult. apply Rle_trans with ((u * Rabs (val t / w) + e0) * Rabs w); [apply Rmult_le_compat_r; [apply Rabs_pos|lra]|].
    unfold Rdiv. rewrite Rabs_mult, Rabs_Rinv by exact NW. replace ((u * (Rabs (val t) * / Rabs w) + e0) * Rabs w) with (u * Rabs (val t) * (Rabs w * / Rabs w) + e0 * Rabs w) by ring. rewrite AW, Rmult_1_r.
    assert (Rabs (val t) <= 9.21) by (apply Rabs_le; lra). assert (u * Rabs (val t) <= u * 9.21) by (apply Rmult_le_compat_l; lra). assert (e0 * Rabs w <= e0 * 1) by (apply Rmult_le_compat_l; lra). lra. }
  assert (EF2 := Rabs_le_inv _ _ EF). exists k, (f * w + v * nn). split; [exact Ik|]. split; [exact Bk|]. split; [apply Rabs_le; split; lra|]. split; [exact Ff|]. unfold v, nn, w. field.
Qed.
