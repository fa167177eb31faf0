(** * Proofs about [MHealRandomsDouble.v]: the remainder, arrays, centres *)

From Coq Require Import Reals ZArith List Bool Lia Lra Psatz.
From Flocq Require Import Core IEEE754.BinarySingleNaN.
From Verif Require Import Base BaseP Spec MHealpixIndex MHealpixFloat MIndexFloat PHealpixIndex PHealpixCentre PHealpixFloat SpecDouble SpecCoordsDouble SpecRandomsDouble SpecHealRandomsDouble MDouble PDouble PPiDouble PSumDouble MGridsDouble PGridsDouble MRemapDouble PRemapDouble2 MRandomsDouble PRandomsDouble PLibmDouble PTripDouble MHealCoordDouble PHealCoordDouble PHealCoordDouble2 PHealCoordDouble3 MHealRandomsDouble PHealRandomsDouble THealpixFloat THealpix TIndexFloat.
Import ListNotations.
Open Scope R_scope.

(** ** The remainder by [2 np.pi] *)

Lemma twopi_form : exists H, twopi = B754_finite false 7074237752028440 (-50) H.
Proof.
  assert (S : B2SF twopi = SpecFloat.S754_finite false 7074237752028440 (-50)) by (vm_compute; reflexivity).
  destruct twopi as [s|s| |s m e H]; try discriminate S. injection S as -> -> ->. exists H. reflexivity.
Qed.

Lemma mod_neg : forall a, fin a -> -1 <= val a < 0 -> fin (mod_d a twopi) /\ val (mod_d a twopi) = fl (val a + tau).
Proof.
  intros a Fa Ba. destruct twopi_val as [Ft Vt]. destruct twopi_form as [Hb Eb]. pose proof tau_bounds as TB.
  destruct a as [sa|sa| |sa ma ea Ha]; try discriminate Fa; [change (val (B754_zero sa : double)) with 0 in Ba; lra|].
  destruct sa. 2:{ exfalso. assert (V : val (B754_finite false ma ea Ha : double) = IZR (Zpos ma) * b2 ea) by reflexivity. rewrite V in Ba. assert (0 <= IZR (Zpos ma) * b2 ea) by (apply Rmult_le_pos; [apply IZR_le; lia|apply bpow_ge_0]). lra. }
  assert (Va : val (B754_finite true ma ea Ha : double) = - (IZR (Zpos ma) * b2 ea)). { unfold val, B2R, F2R. cbn [Fnum Fexp cond_Zopp]. rewrite opp_IZR. ring. }
  destruct (mant_bound _ _ Ha) as [A1 A2]. set (a := B754_finite true ma ea Ha : double) in *.
  set (e := Z.min ea (-50)). set (A := (Zpos ma * 2 ^ (ea - e))%Z). set (B := (7074237752028440 * 2 ^ (-50 - e))%Z).
  assert (VA : val a = - (IZR A * b2 e)). { rewrite Va. unfold A. rewrite mult_IZR, (IZR_Zpower radix2) by (unfold e; lia). rewrite Rmult_assoc, <- bpow_plus. replace (ea - e + e)%Z with ea by lia. reflexivity. }
  assert (VB : tau = IZR B * b2 e). { unfold tau, B. rewrite mult_IZR, (IZR_Zpower radix2) by (unfold e; lia). rewrite Rmult_assoc, <- bpow_plus. replace (-50 - e + e)%Z with (-50)%Z by lia. reflexivity. }
  pose proof (bpow_gt_0 radix2 e) as Pe. assert (AP : (0 < A)%Z) by (unfold A; apply Z.mul_pos_pos; [lia|apply Z.pow_pos_nonneg; unfold e; lia]).
  assert (AB : (A < B)%Z). { apply lt_IZR. apply Rmult_lt_reg_r with (b2 e); [exact Pe|]. lra. }
  assert (A53 : (A <= 2 ^ 53)%Z).
  { destruct (Z_le_gt_dec ea (-50)) as [C|C].
    - unfold A, e. rewrite Z.min_l by lia. rewrite Z.sub_diag, Z.mul_1_r. lia.
    - assert (E : e = (-50)%Z) by (unfold e; lia). apply le_IZR. apply Rle_trans with (b2 50); [|change (b2 50) with (IZR (2 ^ 50)); apply IZR_le; lia]. apply Rmult_le_reg_r with (b2 e); [exact Pe|]. rewrite E at 2. rewrite <- bpow_plus. change (b2 (50 + -50)) with 1. lra. }
  assert (R : Z.rem (- A) B = (- A)%Z) by (rewrite Z.rem_opp_l by lia; rewrite Z.rem_small by lia; reflexivity).
  assert (M : mod_d a twopi = dadd (dbl (- A) e) twopi).
  { rewrite Eb at 1. unfold mod_d, a. cbn [cond_Zopp]. fold e. change (Z.neg ma * 2 ^ (ea - e))%Z with (- Z.pos ma * 2 ^ (ea - e))%Z. rewrite Z.mul_opp_l. fold A B. rewrite R.
    rewrite (proj2 (Z.eqb_neq (- A) 0)) by lia. rewrite (proj2 (Z.ltb_lt (- A) 0)) by lia. rewrite <- Eb. reflexivity. }
  destruct (dbl_ok (- A) e ltac:(lia) ltac:(unfold e; lia)) as [Fd Vd]. assert (Vd' : val (dbl (- A) e) = val a) by (rewrite Vd, VA, opp_IZR; ring).
  rewrite M. destruct (add_near (dbl (- A) e) twopi Fd Ft) as (F & V & _); [rewrite Vd', Vt; apply Rabs_le; lra|]. split; [exact F|]. rewrite V, Vd', Vt. reflexivity.
Qed.

Lemma mod_tau : forall a, fin a -> -1 <= val a <= 8 ->
  exists k : Z, (-1 <= k <= 1)%Z /\ fin (mod_d a twopi) /\ 0 <= val (mod_d a twopi) <= tau /\ Rabs (val (mod_d a twopi) + 2 * PI * IZR k - val a) <= 11 * u.
Proof.
  intros a Fa Ba. pose proof tau_bounds as TB. destruct twopi_val as [Ft Vt]. destruct pi_u as (A & B & C). pose proof u_tiny as U.
  destruct (Rlt_or_le (val a) 0) as [N|N].
  - destruct (mod_neg a Fa ltac:(lra)) as [F V]. exists (-1)%Z. split; [lia|]. split; [exact F|]. split.
    + rewrite V. split; [apply fl_ge; [apply fl_fmt, fmt_0|lra]|]. apply fl_le; [|lra]. rewrite <- Vt. apply fl_fmt, fmt_val.
    + pose proof (add_err (val a) tau (fmt_val a) ltac:(rewrite <- Vt; apply fmt_val)) as Er. rewrite <- V in Er. assert (u * Rabs (val a + tau) <= u * 6.3) by (apply Rmult_le_compat_l; [lra|rewrite Rabs_pos_eq; lra]). apply Rabs_le_inv in Er, A. apply Rabs_le. lra.
  - destruct twopi_form as [Hb Eb]. destruct (mod_ok a _ _ Hb Fa N ltac:(lia)) as (k & K0 & F & V & I). rewrite <- Eb, Vt in *. exists k.
    assert (K1 : (k <= 1)%Z). { assert (IZR k * tau < 2 * tau) by lra. apply Rmult_lt_reg_r in H; [|lra]. apply lt_IZR in H. lia. }
    split; [lia|]. split; [exact F|]. split; [lra|]. rewrite V. assert (KR : 0 <= IZR k <= 1) by (split; [apply (IZR_le 0)|apply (IZR_le k 1)]; lia). replace (val a - IZR k * tau + 2 * PI * IZR k - val a) with (IZR k * (2 * (PI - tau / 2))) by field. rewrite Rabs_mult, (Rabs_pos_eq (IZR k)) by lra.
    apply Rle_trans with (1 * (4 * u)); [|lra]. apply Rmult_le_compat; [lra|apply Rabs_pos|lra|]. apply Rabs_le_inv in A. apply Rabs_le. lra.
Qed.

(** ** The arrays *)

Lemma length_randoms_xy_d : forall ux uy xp yp n, length (fst (randoms_xy_d ux uy xp yp n)) = length ux /\ length (snd (randoms_xy_d ux uy xp yp n)) = length ux.
Proof. intros. unfold randoms_xy_d. cbn [fst snd]. rewrite map_length, !length_put, !repeat_length. auto. Qed.

Lemma randoms_xy_nth : forall ux uy xp yp n q, length ux = length uy -> (q < length ux)%nat -> fin (nth q ux dzero) ->
  nth q (fst (randoms_xy_d ux uy xp yp n)) dzero = mod_d (point_x xp n (nth q ux dzero)) twopi /\
  nth q (snd (randoms_xy_d ux uy xp yp n)) dzero = point_y xp yp n (nth q ux dzero) (nth q uy dzero).
Proof.
  intros ux uy xp yp n q Hl Hq HN. unfold randoms_xy_d. cbn [fst snd]. set (dl := delta_d n). set (H := dbl 1 (-1)).
  set (m1 := map (fun w => dle w H) ux). set (m2 := map (fun w => dlt H w) ux).
  assert (N1 : nth q m1 false = dle (nth q ux dzero) H) by (unfold m1; rewrite nth_map_lt with (d' := dzero) by auto; auto).
  assert (N2 : nth q m2 false = negb (dle (nth q ux dzero) H)).
  { unfold m2. rewrite nth_map_lt with (d' := dzero) by auto. destruct half_ok as [Fh _]. etransitivity; [exact (dlt_ok H _ Fh HN)|]. etransitivity; [apply Rlt_bool_negb|]. f_equal. symmetry. exact (dle_ok _ H HN Fh). }
  assert (M1 : length m1 = length ux) by (unfold m1; rewrite map_length; auto).
  assert (M2 : length m2 = length ux) by (unfold m2; rewrite map_length; auto).
  unfold take. rewrite !map_map.
  set (h1 := fun k => left_x xp dl (nth k ux dzero)). set (h2 := fun k => right_x xp dl (nth k ux dzero)).
  set (x1 := put (repeat dzero (length ux)) (np_where m1) (map h1 (np_where m1))). assert (Lx1 : length x1 = length ux) by (unfold x1; rewrite length_put, repeat_length; auto).
  set (x2 := put x1 (np_where m2) (map h2 (np_where m2))). assert (Lx2 : length x2 = length ux) by (unfold x2; rewrite length_put; auto).
  assert (X1 : nth q x1 dzero = if nth q m1 false then h1 q else dzero) by (unfold x1; rewrite nth_put_where by (rewrite repeat_length; auto); rewrite nth_repeat_lt by auto; auto).
  assert (X2 : nth q x2 dzero = if nth q m2 false then h2 q else nth q x1 dzero) by (unfold x2; rewrite nth_put_where by lia; auto).
  split.
  - rewrite nth_map_lt with (d' := dzero) by (rewrite Lx2; auto). f_equal. rewrite X2, X1, N1, N2. unfold point_x, h1, h2. fold dl H. destruct (dle (nth q ux dzero) H); reflexivity.
  - rewrite !map2_map_map. rewrite nth_put_where by (rewrite ?length_put, ?repeat_length; lia). rewrite nth_put_where by (rewrite ?length_put, ?repeat_length; lia).
    rewrite X2, X1, N1, N2, nth_repeat_lt by auto. unfold point_y, h1, h2. fold dl H. destruct (dle (nth q ux dzero) H); reflexivity.
Qed.

(** ** The centres *)

(** [healpix_pix2xy] of [MIndexFloat.v] returns doubles. *)
Definition centre_d (k n : Z) : double := ddiv (dmul (dbl k (-1)) pi_d) (dint (2 * n)).

Lemma centre_val : forall k n, (1 <= n <= 2 ^ 48)%Z -> (Z.abs k <= 8 * n)%Z ->
  fin (centre_d k n) /\ val (centre_d k n) = fl (fl (IZR k / 2 * (tau / 2)) / fl (IZR (2 * n))).
Proof.
  intros k n Hn Hk. destruct (dbl_ok k (-1) ltac:(lia) ltac:(lia)) as [Fk Vk]. change (b2 (-1)) with (/ 2) in Vk. destruct pi_val as [Fp Vp]. destruct (dint_ok (2 * n) ltac:(lia)) as [Fn Vn]. pose proof tau_bounds as TB.
  assert (N : 1 <= IZR n) by (apply IZR_le; lia). assert (K : Rabs (IZR k) <= 8 * IZR n) by (rewrite <- abs_IZR, <- mult_IZR; apply IZR_le; lia).
  assert (B : Rabs (IZR k / 2 * (tau / 2)) <= b2 60).
  { unfold Rdiv at 1. rewrite !Rabs_mult, (Rabs_pos_eq (/ 2)), (Rabs_pos_eq (tau / 2)) by lra. apply Rle_trans with (8 * IZR (2 ^ 48) * / 2 * 4).
    - apply Rmult_le_compat; [apply Rmult_le_pos; [apply Rabs_pos|lra]|lra| |lra]. apply Rmult_le_compat_r; [lra|]. apply Rle_trans with (1 := K). apply Rmult_le_compat_l; [lra|]. apply IZR_le; lia.
    - change (IZR (2 ^ 48)) with (b2 48). replace (8 * b2 48 * / 2 * 4) with (b2 4 * b2 48) by (change (b2 4) with 16; field). rewrite <- bpow_plus. apply bpow_le. lia. }
  destruct (dmul_ok (dbl k (-1)) pi_d Fk Fp) as [Fm Vm].
  { rewrite Vk, Vp. apply Rle_lt_trans with (b2 60); [|apply bpow_lt; lia]. apply abs_round_le_generic; [apply FLT_exp_valid; reflexivity|auto with typeclass_instances|apply fmt_b2; lia|exact B]. }
  rewrite Vk, Vp in Vm. fold (IZR k / 2) in Vm. set (m := dmul (dbl k (-1)) pi_d) in *.
  assert (Bm : Rabs (val m) <= b2 60) by (rewrite Vm; apply abs_round_le_generic; [apply FLT_exp_valid; reflexivity|auto with typeclass_instances|apply fmt_b2; lia|exact B]).
  assert (V2 : val (dint (2 * n)) = 2 * IZR n) by (rewrite Vn, mult_IZR; reflexivity).
  destruct (ddiv_ok m (dint (2 * n)) Fm) as [Fq Vq]; [rewrite V2; lra| |].
  { apply Rle_lt_trans with (b2 60); [|apply bpow_lt; lia]. apply abs_round_le_generic; [apply FLT_exp_valid; reflexivity|auto with typeclass_instances|apply fmt_b2; lia|].
    rewrite V2. unfold Rdiv. rewrite Rabs_mult, (Rabs_pos_eq (/ (2 * IZR n))) by (apply Rlt_le, Rinv_0_lt_compat; lra). rewrite <- (Rmult_1_r (b2 60)). apply Rmult_le_compat; [apply Rabs_pos|apply Rlt_le, Rinv_0_lt_compat; lra|exact Bm|]. rewrite <- Rinv_1. apply Rinv_le; lra. }
  split; [exact Fq|]. unfold centre_d. fold m. rewrite Vq, Vm, Vn. rewrite (fl_int (2 * n)) by lia. reflexivity.
Qed.

Lemma centres_exist : forall n p, (1 <= n <= 27397078)%Z -> legal_pix n p ->
  exists i j, pixel_at n p i j /\ pix2xy_fl p n = Ok (val (centre_d (jd2 n i j) n), val (centre_d (id2 n i) n)) /\ fin (centre_d (jd2 n i j) n) /\ fin (centre_d (id2 n i) n).
Proof.
  intros n p Hn Hp. destruct (C02_exact n p Hn Hp) as (i & j & E & P). exists i, j. split; [exact P|]. destruct P as [Hl _].
  pose proof (jd2_range n i j ltac:(lia) Hl) as B. assert (Bi : (Z.abs (id2 n i) <= 2 * n - 1)%Z) by (destruct Hl; unfold id2; lia).
  destruct (centre_val (jd2 n i j) n ltac:(lia) ltac:(lia)) as [F1 V1]. destruct (centre_val (id2 n i) n ltac:(lia) ltac:(lia)) as [F2 V2].
  split; [|auto]. rewrite V1, V2. unfold pix2xy_fl. rewrite E. cbn [bind fst snd]. unfold ij2xy_fl. rewrite j2jd_fl_legal by (auto; lia). cbn [bind].
  rewrite i2id_fl_ok by (destruct Hl; lia). rewrite i2id_id2. reflexivity.
Qed.
