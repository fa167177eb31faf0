(** * Proofs about [MBoxDouble.v] *)

From Coq Require Import Reals ZArith List Bool Lia Lra.
From Flocq Require Import Core IEEE754.BinarySingleNaN.
From Verif Require Import Base BaseP SpecShapes SpecShapesDouble SpecBoxDouble MHealpixFloat PHealpixFloat SpecDouble MDouble PDouble MGridsDouble PGridsDouble TGridsDouble MShapes PShapes MShapesDouble PShapesDouble PShapesDouble2 MBoxDouble.
Import ListNotations.
Open Scope R_scope.

Lemma nd_fl : forall x, nearest_double x = fl x.
Proof. reflexivity. Qed.

(** ** Rows *)

Lemma axis_span : forall a b, axis_ok a b -> span_ok a b.
Proof.
  intros a b ((Fa & Ba) & (Fb & Bb) & D). split; [exact Fa|]. split; [exact Fb|]. assert (b2 500 <= b2 1021) by (apply bpow_le; lia). split; [lra|]. split; [lra|]. right. apply Rle_trans with (2 := D). apply bpow_le. lia.
Qed.

Lemma axis_lt : forall a b, axis_ok a b -> val a < val b.
Proof. intros a b (_ & _ & D). pose proof (bpow_gt_0 radix2 (-500)). lra. Qed.

Definition dside (lo hi : double) (b : bool) : double := if b then hi else lo.

Definition row_d (D : dbox) (xa ya za : list double) (m : Z) (e : edge) : list double * list double * list double :=
  match e with
  | (AX, b, c) => (xa, times_ones (dside (dy0 D) (dy1 D) b) m, times_ones (dside (dz0 D) (dz1 D) c) m)
  | (AY, a, c) => (times_ones (dside (dx0 D) (dx1 D) a) m, ya, times_ones (dside (dz0 D) (dz1 D) c) m)
  | (AZ, a, b) => (times_ones (dside (dx0 D) (dx1 D) a) m, times_ones (dside (dy0 D) (dy1 D) b) m, za)
  end.

Lemma times_ones_ok : forall m v, fin v -> length (times_ones v m) = Z.to_nat m /\ forall i d, (i < Z.to_nat m)%nat -> fin (nth i (times_ones v m) d) /\ val (nth i (times_ones v m) d) = val v.
Proof.
  intros m v F. unfold times_ones. split; [apply repeat_length|]. intros i d Hi. rewrite nth_repeat_lt by exact Hi. destruct (dint_ok 1 ltac:(lia)) as [F1 V1].
  destruct (dmul_ok v (dint 1) F F1) as [A B]; [rewrite V1, Rmult_1_r, (fl_fmt _ (fmt_val v)); apply val_lt|]. split; [exact A|]. rewrite B, V1, Rmult_1_r. apply fl_fmt, fmt_val.
Qed.

Lemma side_on : forall a b m l i d, axis_ok a b -> side_ok a b m l -> (i < m)%nat -> fin (nth i l d) /\
  (exists t, 0 <= t <= 1 /\ val (nth i l d) = val a + t * (val b - val a) /\ (i = 0%nat -> t = 0) /\ (i = (m - 1)%nat -> (2 <= m)%nat -> t = 1)) /\
  Rabs (val (nth i l d) - (val a + fraction m i * (val b - val a))) <= b2 (-49) * size a b.
Proof.
  intros a b m l i d A (L & L0 & L1 & I) Hi. rewrite (nth_indep l d dzero) by lia. destruct (I i Hi) as (F & B & E). pose proof (axis_lt a b A) as Lt. rewrite Rmin_left, Rmax_right in B by lra. split; [exact F|]. split; [|apply Rle_trans with (1 := E), err_size].
  set (v := val (nth i l dzero)) in *. exists ((v - val a) / (val b - val a)). split; [split; [apply Rmult_le_pos; [lra|left; apply Rinv_0_lt_compat; lra]|apply Rmult_le_reg_r with (val b - val a); [lra|]; unfold Rdiv; rewrite Rmult_assoc, Rinv_l by lra; lra]|].
  split; [field; lra|]. split; [intros ->; unfold v; rewrite L0; unfold Rdiv; ring|]. intros -> H2. unfold v. rewrite (L1 H2). field. lra.
Qed.

Lemma val_dside : forall lo hi b, val (dside lo hi b) = side (val lo) (val hi) b.
Proof. intros lo hi []; reflexivity. Qed.

Lemma row_d_ok : forall D xa ya za m e, dbox_ok D -> side_ok (dx0 D) (dx1 D) (Z.to_nat m) xa -> side_ok (dy0 D) (dy1 D) (Z.to_nat m) ya -> side_ok (dz0 D) (dz1 D) (Z.to_nat m) za ->
  row_ok D (Z.to_nat m) e (row_d D xa ya za m e).
Proof.
  intros D xa ya za m e (Ax & Ay & Az) Sx Sy Sz. pose proof (proj1 Sx) as Lx. pose proof (proj1 Sy) as Ly. pose proof (proj1 Sz) as Lz.
  assert (FS : forall a b s, axis_ok a b -> fin (dside a b s)) by (intros a b [] (H1 & H2 & _); [apply H2|apply H1]).
  assert (ZS : forall a b (s : bool), 0 <= b2 (-49) * size a b) by (intros a b _; apply Rmult_le_pos; [apply bpow_ge_0|]; apply Rle_trans with (Rabs (val a)); [apply Rabs_pos|apply Rmax_l]).
  destruct e as [[[] u] v]; cbn [row_d row_ok].
  - destruct (times_ones_ok m _ (FS _ _ u Ay)) as [L1 O1]. destruct (times_ones_ok m _ (FS _ _ v Az)) as [L2 O2]. split; [exact Lx|]. split; [exact L1|]. split; [exact L2|]. intros i d Hi. destruct (O1 i d Hi) as [F1 V1]. destruct (O2 i d Hi) as [F2 V2]. destruct (side_on _ _ _ _ i d Ax Sx Hi) as (F & (t & T1 & T2 & T3 & T4) & E). cbv zeta. change (@nth (binary_float 53 1024)) with (@nth double). rewrite V1, V2, !val_dside.
    split; [exact F|]. split; [exact F1|]. split; [exact F2|]. unfold edge_point, values, close; cbn [bx0 bx1 by0 by1 bz0 bz1]. split; [exists t; split; [exact T1|rewrite T2; reflexivity]|]. split; [split; [exact E|]; split; match goal with |- Rabs (?a - ?a) <= _ => unfold Rminus; rewrite Rplus_opp_r, Rabs_R0 end; apply ZS; exact true|].
    split; [intro H0; rewrite T2, (T3 H0); reflexivity|]. intros H1 H2. rewrite T2, (T4 H1 H2). reflexivity.
  - destruct (times_ones_ok m _ (FS _ _ u Ax)) as [L1 O1]. destruct (times_ones_ok m _ (FS _ _ v Az)) as [L2 O2]. split; [exact L1|]. split; [exact Ly|]. split; [exact L2|]. intros i d Hi. destruct (O1 i d Hi) as [F1 V1]. destruct (O2 i d Hi) as [F2 V2]. destruct (side_on _ _ _ _ i d Ay Sy Hi) as (F & (t & T1 & T2 & T3 & T4) & E). cbv zeta. change (@nth (binary_float 53 1024)) with (@nth double). rewrite V1, V2, !val_dside.
    split; [exact F1|]. split; [exact F|]. split; [exact F2|]. unfold edge_point, values, close; cbn [bx0 bx1 by0 by1 bz0 bz1]. split; [exists t; split; [exact T1|rewrite T2; reflexivity]|]. split; [split; [|split; [exact E|]]; match goal with |- Rabs (?a - ?a) <= _ => unfold Rminus; rewrite Rplus_opp_r, Rabs_R0 end; apply ZS; exact true|].
    split; [intro H0; rewrite T2, (T3 H0); reflexivity|]. intros H1 H2. rewrite T2, (T4 H1 H2). reflexivity.
  - destruct (times_ones_ok m _ (FS _ _ u Ax)) as [L1 O1]. destruct (times_ones_ok m _ (FS _ _ v Ay)) as [L2 O2]. split; [exact L1|]. split; [exact L2|]. split; [exact Lz|]. intros i d Hi. destruct (O1 i d Hi) as [F1 V1]. destruct (O2 i d Hi) as [F2 V2]. destruct (side_on _ _ _ _ i d Az Sz Hi) as (F & (t & T1 & T2 & T3 & T4) & E). cbv zeta. change (@nth (binary_float 53 1024)) with (@nth double). rewrite V1, V2, !val_dside.
    split; [exact F1|]. split; [exact F2|]. split; [exact F|]. unfold edge_point, values, close; cbn [bx0 bx1 by0 by1 bz0 bz1]. split; [exists t; split; [exact T1|rewrite T2; reflexivity]|]. split; [split; [|split; [|exact E]]; match goal with |- Rabs (?a - ?a) <= _ => unfold Rminus; rewrite Rplus_opp_r, Rabs_R0 end; apply ZS; exact true|].
    split; [intro H0; rewrite T2, (T3 H0); reflexivity|]. intros H1 H2. rewrite T2, (T4 H1 H2). reflexivity.
Qed.

Lemma steps12z : forall m, (1 <= m)%Z -> ((12 * m) mod 12 =? 0)%Z && (0 <? 12 * m)%Z = true /\ (12 * m / 12)%Z = m.
Proof. intros m Hm. rewrite Z.mul_comm, Z.mod_mul, Z.div_mul by lia. replace (0 <? m * 12)%Z with true by (symmetry; apply Z.ltb_lt; lia). split; reflexivity. Qed.

(** ** The nearest corner *)

Lemma argmin_from_zero : forall l pre best (v : double), (best < length pre)%nat -> nth best pre dzero = v ->
  (forall x : double, In x (pre ++ l) -> fin x) -> (forall x, In x pre -> val v <= val x) ->
  let j := argmin_from_d l (length pre) best v in (j < length (pre ++ l))%nat /\ forall x, In x (pre ++ l) -> val (nth j (pre ++ l) dzero) <= val x.
Proof.
  induction l as [|a l IH]; intros pre best v Hb Hv Hf Hm; cbn [argmin_from_d].
  - rewrite app_nil_r. split; [exact Hb|]. intros x Hx. rewrite Hv. now apply Hm.
  - assert (NN : forall x : double, fin x -> is_nan x = false) by (intros [s|s| |s m0 e0 B0] HF; (reflexivity || discriminate HF)).
    assert (Fv : fin v) by (rewrite <- Hv; apply Hf, in_or_app; left; apply nth_In; exact Hb). assert (Fa : fin a) by (apply Hf, in_or_app; right; now left). rewrite (NN v Fv), (NN a Fa), orb_false_r, dlt_ok by assumption.
    revert Hf. replace (pre ++ a :: l) with ((pre ++ [a]) ++ l) by (rewrite <- app_assoc; reflexivity). intro Hf.
    assert (HL : S (length pre) = length (pre ++ [a])) by (rewrite app_length; cbn; lia). rewrite HL.
    destruct (Rlt_bool_spec (val a) (val v)) as [L|L].
    + apply IH; [lia|rewrite app_nth2, Nat.sub_diag by lia; reflexivity|exact Hf|].
      intros x Hx. apply in_app_iff in Hx. destruct Hx as [Hx|[<-|[]]]; [specialize (Hm x Hx)|]; lra.
    + apply IH; [lia|rewrite app_nth1 by lia; exact Hv|exact Hf|].
      intros x Hx. apply in_app_iff in Hx. destruct Hx as [Hx|[<-|[]]]; [now apply Hm|lra].
Qed.

Lemma argmin_d_ok : forall l, l <> [] -> (forall x : double, In x l -> fin x) -> (argmin_d l < length l)%nat /\ forall x, In x l -> val (nth (argmin_d l) l dzero) <= val x.
Proof.
  intros [|a l] H F; [congruence|]. unfold argmin_d. apply (argmin_from_zero l [a] 0 a); cbn; try lia; try reflexivity; try exact F.
  intros x [<-|[]]. lra.
Qed.

(** Equal or well apart. *)
Definition apart (a x : double) : Prop := val a = val x \/ b2 (-500) <= Rabs (val a - val x).

Lemma sq_ok : forall a x, moderate a -> moderate x -> apart a x -> let q := dmul (dsub a x) (dsub a x) in
  fin q /\ 0 <= val q <= b2 1002 /\ (val a = val x -> val q = 0) /\ (val a <> val x -> b2 (-1000) <= val q).
Proof.
  intros a x (Fa & Ba) (Fx & Bx) Ap q. assert (E : b2 501 = 2 * b2 500) by (change 501%Z with (1 + 500)%Z; rewrite bpow_plus; reflexivity).
  assert (B : Rabs (fl (val a - val x)) <= b2 501) by (apply fl_abs_le; [apply fmt_b2; lia|]; apply Rle_trans with (1 := Rabs_triang _ _); rewrite Rabs_Ropp; lra).
  destruct (dsub_ok a x Fa Fx) as [Fd Vd]; [apply Rle_lt_trans with (1 := B); apply bpow_lt; lia|]. set (d := dsub a x) in *. rewrite <- Vd in B.
  assert (S : Rabs (val d * val d) <= b2 1002) by (rewrite Rabs_mult; change 1002%Z with (501 + 501)%Z; rewrite bpow_plus; apply Rmult_le_compat; try apply Rabs_pos; exact B). assert (S' : Rabs (fl (val d * val d)) <= b2 1002) by (apply fl_abs_le; [apply fmt_b2; lia|exact S]).
  destruct (dmul_ok d d Fd Fd) as [Fq Vq]; [apply Rle_lt_trans with (1 := S'); apply bpow_lt; lia|]. fold q in Fq, Vq. rewrite <- Vq in S'. split; [exact Fq|].
  assert (P : 0 <= val q) by (rewrite Vq; apply fl_ge; [apply fl_fmt, fmt_0|]; apply (Rle_0_sqr (val d))). split; [rewrite Rabs_pos_eq in S' by exact P; lra|]. split.
  - intros H. rewrite Vq, Vd, H. unfold Rminus. rewrite Rplus_opp_r, (fl_fmt 0 fmt_0), Rmult_0_l. apply fl_fmt, fmt_0.
  - intros H. destruct Ap as [Ap|Ap]; [contradiction|]. assert (Bd : b2 (-500) <= Rabs (val d)).
    { rewrite Vd. destruct (Rle_or_lt 0 (val a - val x)) as [G|G].
      - rewrite (Rabs_pos_eq (val a - val x)) in Ap by exact G. apply Rle_trans with (fl (val a - val x)); [apply fl_ge; [apply fl_fmt, fmt_b2; lia|exact Ap]|apply Rle_abs].
      - rewrite Rabs_left in Ap by exact G. apply Rle_trans with (- fl (val a - val x)); [rewrite <- fl_opp; apply fl_ge; [apply fl_fmt, fmt_b2; lia|exact Ap]|rewrite <- Rabs_Ropp; apply Rle_abs]. }
    rewrite Vq. apply fl_ge; [apply fl_fmt, fmt_b2; lia|]. change (-1000)%Z with (-500 + -500)%Z. rewrite bpow_plus. rewrite <- (Rabs_pos_eq (val d * val d)) by apply (Rle_0_sqr (val d)). rewrite Rabs_mult. apply Rmult_le_compat; try apply bpow_ge_0; exact Bd.
Qed.

Lemma sum_ok : forall p q e, fin p -> fin q -> (0 <= e < 1020)%Z -> 0 <= val p <= b2 e -> 0 <= val q <= b2 e -> let s := dadd p q in
  fin s /\ 0 <= val s <= b2 (e + 1) /\ val p <= val s /\ val q <= val s /\ (val p = 0 -> val q = 0 -> val s = 0).
Proof.
  intros p q e Fp Fq He Bp Bq s. assert (E : b2 (e + 1) = b2 e * 2) by (rewrite bpow_plus; reflexivity). assert (B : Rabs (fl (val p + val q)) <= b2 (e + 1)) by (apply fl_abs_le; [apply fmt_b2; lia|]; rewrite Rabs_pos_eq; lra).
  destruct (dadd_ok p q Fp Fq) as [Fs Vs]; [apply Rle_lt_trans with (1 := B); apply bpow_lt; lia|]. fold s in Fs, Vs. rewrite <- Vs in B. split; [exact Fs|].
  assert (P1 : val p <= val s) by (rewrite Vs; apply fl_ge; [apply fl_fmt, fmt_val|lra]). assert (P2 : val q <= val s) by (rewrite Vs; apply fl_ge; [apply fl_fmt, fmt_val|lra]). rewrite Rabs_pos_eq in B by lra. split; [lra|]. split; [exact P1|]. split; [exact P2|]. intros H1 H2. rewrite Vs, H1, H2, Rplus_0_l. apply fl_fmt, fmt_0.
Qed.

Lemma dist_ok : forall a b c x y z, moderate a -> moderate b -> moderate c -> moderate x -> moderate y -> moderate z -> apart a x -> apart b y -> apart c z ->
  let r := dsqrt (dadd (dadd (dmul (dsub a x) (dsub a x)) (dmul (dsub b y) (dsub b y))) (dmul (dsub c z) (dsub c z))) in
  fin r /\ 0 <= val r /\ (val a = val x -> val b = val y -> val c = val z -> val r = 0) /\ (val r = 0 -> val a = val x /\ val b = val y /\ val c = val z).
Proof.
  intros a b c x y z Ma Mb Mc Mx My Mz Aa Ab Ac r. destruct (sq_ok a x Ma Mx Aa) as (F1 & B1 & Z1 & N1). destruct (sq_ok b y Mb My Ab) as (F2 & B2 & Z2 & N2). destruct (sq_ok c z Mc Mz Ac) as (F3 & B3 & Z3 & N3).
  set (p := dmul (dsub a x) (dsub a x)) in *. set (q := dmul (dsub b y) (dsub b y)) in *. set (w := dmul (dsub c z) (dsub c z)) in *. destruct (sum_ok p q 1002 F1 F2 ltac:(lia) B1 B2) as (F4 & B4 & P4 & Q4 & Z4). set (s := dadd p q) in *.
  assert (B3' : 0 <= val w <= b2 1003) by (split; [lra|apply Rle_trans with (b2 1002); [lra|apply bpow_le; lia]]). destruct (sum_ok s w 1003 F4 F3 ltac:(lia) B4 B3') as (F5 & B5 & P5 & Q5 & Z5). set (v := dadd s w) in *. destruct (dsqrt_ok v F5 (proj1 B5)) as [Fr Vr]. fold r in Fr, Vr. split; [exact Fr|].
  split; [rewrite Vr; apply fl_ge; [apply fl_fmt, fmt_0|apply sqrt_pos]|]. split.
  - intros H1 H2 H3. rewrite Vr, (Z5 (Z4 (Z1 H1) (Z2 H2)) (Z3 H3)), sqrt_0. apply fl_fmt, fmt_0.
  - intros H. assert (Small : val v < b2 (-1000)). { destruct (Rlt_or_le (val v) (b2 (-1000))) as [L|L]; [exact L|]. exfalso. assert (S : b2 (-500) <= sqrt (val v)). { rewrite <- (sqrt_square (b2 (-500))) by apply bpow_ge_0. rewrite <- bpow_plus. apply sqrt_le_1_alt. exact L. } assert (b2 (-500) <= val r) by (rewrite Vr; apply fl_ge; [apply fl_fmt, fmt_b2; lia|exact S]). pose proof (bpow_gt_0 radix2 (-500)). lra. }
    split; [|split].
    + destruct (Req_dec (val a) (val x)) as [K|K]; [exact K|]. specialize (N1 K). lra.
    + destruct (Req_dec (val b) (val y)) as [K|K]; [exact K|]. specialize (N2 K). lra.
    + destruct (Req_dec (val c) (val z)) as [K|K]; [exact K|]. specialize (N3 K). lra.
Qed.

Definition vals (c : double * double * double) : R * R * R := let '(x, y, z) := c in (val x, val y, val z).

(** Corners of a box: one limit on each axis. *)
Definition limit (a b x : double) : Prop := moderate x /\ (val x = val a \/ val x = val b).

Lemma limit_apart : forall a b x y, axis_ok a b -> limit a b x -> limit a b y -> apart x y.
Proof.
  intros a b x y (_ & _ & D) (_ & Hx) (_ & Hy). unfold apart. destruct Hx as [-> | ->], Hy as [-> | ->]; [left; reflexivity| | |left; reflexivity]; right.
  - rewrite Rabs_minus_sym. apply Rle_trans with (1 := D), Rle_abs.
  - apply Rle_trans with (1 := D), Rle_abs.
Qed.

Lemma corners_limit : forall D c, dbox_ok D -> In c (box_corners_d (dx0 D) (dx1 D) (dy0 D) (dy1 D) (dz0 D) (dz1 D)) ->
  let '(x, y, z) := c in limit (dx0 D) (dx1 D) x /\ limit (dy0 D) (dy1 D) y /\ limit (dz0 D) (dz1 D) z.
Proof.
  intros D c (Ax & Ay & Az) I. assert (L0 : forall a b, axis_ok a b -> limit a b a) by (intros a b (M & _); split; [exact M|left; reflexivity]). assert (L1 : forall a b, axis_ok a b -> limit a b b) by (intros a b (_ & M & _); split; [exact M|right; reflexivity]).
  unfold box_corners_d in I. cbn [In] in I. repeat (destruct I as [<-|I]; [auto|]). destruct I.
Qed.

Lemma nearest_corner_d : forall D x y z, dbox_ok D -> let corners := box_corners_d (dx0 D) (dx1 D) (dy0 D) (dy1 D) (dz0 D) (dz1 D) in
  moderate x -> moderate y -> moderate z -> In (vals (x, y, z)) (map vals corners) ->
  let i := argmin_d (corner_dist_d corners x y z) in (i < length corners)%nat /\ vals (nth i corners (dzero, dzero, dzero)) = vals (x, y, z).
Proof.
  intros D x y z HD corners Mx My Mz Hin i. apply in_map_iff in Hin. destruct Hin as ([[a b] c] & Ev & Ic).
  set (f := fun c : double * double * double => let '(xc, yc, zc) := c in dsqrt (dadd (dadd (dmul (dsub xc x) (dsub xc x)) (dmul (dsub yc y) (dsub yc y))) (dmul (dsub zc z) (dsub zc z)))).
  injection Ev as E1 E2 E3. destruct (corners_limit D (a, b, c) HD Ic) as (La & Lb & Lc). destruct HD as (Ax & Ay & Az).
  assert (Lx : limit (dx0 D) (dx1 D) x) by (split; [exact Mx|rewrite <- E1; apply La]). assert (Ly : limit (dy0 D) (dy1 D) y) by (split; [exact My|rewrite <- E2; apply Lb]). assert (Lz : limit (dz0 D) (dz1 D) z) by (split; [exact Mz|rewrite <- E3; apply Lc]).
  assert (Df : forall q, In q corners -> fin (f q) /\ 0 <= val (f q) /\ (vals q = vals (x, y, z) -> val (f q) = 0) /\ (val (f q) = 0 -> vals q = vals (x, y, z))).
  { intros [[a' b'] c'] I. destruct (corners_limit D (a', b', c') (conj Ax (conj Ay Az)) I) as (La' & Lb' & Lc').
    destruct (dist_ok a' b' c' x y z (proj1 La') (proj1 Lb') (proj1 Lc') Mx My Mz (limit_apart _ _ _ _ Ax La' Lx) (limit_apart _ _ _ _ Ay Lb' Ly) (limit_apart _ _ _ _ Az Lc' Lz)) as (D1 & D2 & D3 & D4).
    split; [exact D1|]. split; [exact D2|]. split; [intros H; injection H as H1 H2 H3; exact (D3 H1 H2 H3)|]. intros H. destruct (D4 H) as (H1 & H2 & H3). cbn [vals]. rewrite H1, H2, H3. reflexivity. }
  assert (NE : corner_dist_d corners x y z <> []) by discriminate. assert (AF : forall v : double, In v (corner_dist_d corners x y z) -> fin v) by (intros v Hv; apply in_map_iff in Hv; destruct Hv as (q & <- & Iq); apply (Df q Iq)).
  destruct (argmin_d_ok _ NE AF) as [L M]. fold i in L, M. unfold corner_dist_d in L. rewrite map_length in L. split; [exact L|].
  pose proof (M (f (a, b, c)) (in_map f _ _ Ic)) as M1. unfold corner_dist_d in M1. fold f in M1. rewrite (nth_map_lt _ _ f corners i dzero (dzero, dzero, dzero)) in M1 by exact L.
  destruct (Df (a, b, c) Ic) as (_ & _ & Z0 & _). rewrite Z0 in M1 by (cbn [vals]; rewrite E1, E2, E3; reflexivity). destruct (Df (nth i corners (dzero, dzero, dzero)) (nth_In _ _ L)) as (_ & P & _ & Q). apply Q. lra.
Qed.

(** ** Lines of sight *)

Lemma samples_ok : exists t, linspace_d dzero (dint 1) 100 = Ok t /\ length t = 100%nat /\
  forall k, (k < 100)%nat -> fin (nth k t dzero) /\ val (nth k t dzero) = sample k /\ 0 <= sample k <= 1.
Proof.
  destruct (dint_ok 1 ltac:(lia)) as [F1 V1]. assert (F0 : fin dzero) by reflexivity. assert (V0 : val dzero = 0) by reflexivity.
  assert (G : span_ok dzero (dint 1)). { split; [exact F0|]. split; [exact F1|]. rewrite V0, V1, Rabs_R0, Rabs_R1. split; [apply bpow_ge_0|]. split; [change 1 with (b2 0); apply bpow_le; lia|]. right. rewrite Rminus_0_r. change 1 with (b2 0). apply bpow_le. lia. }
  destruct (side_up dzero (dint 1) 100 G ltac:(lia)) as (t & E & (L & _ & _ & I)). change (Z.to_nat 100) with 100%nat in *. exists t. split; [exact E|]. split; [exact L|].
  destruct (linspace_shape dzero (dint 1) 99 ltac:(lia)) as (t' & E' & _ & Last & N). change (99 + 1)%Z with 100%Z in E'. assert (Q : t' = t) by (rewrite E in E'; apply Ok_inj in E'; symmetry; exact E'). subst t'. change (Z.to_nat 99) with 99%nat in *. clear E E'.
  intros k Hk. destruct (I k Hk) as (F & B & _). rewrite V0, V1, Rmin_left, Rmax_right in B by lra. split; [exact F|].
  assert (V : val (nth k t dzero) = sample k); [|rewrite <- V; split; [reflexivity|exact B]]. unfold sample. destruct (Nat.eqb_spec k 99) as [->|H9]; [exact (eq_trans (f_equal val Last) V1)|].
  specialize (N k ltac:(lia)). destruct (dint_ok 99 ltac:(lia)) as [F9 V9]. destruct (dint_ok (Z.of_nat k) ltac:(lia)) as [Fk Vk]. rewrite <- INR_IZR_INZ in Vk.
  destruct (dsub_ok (dint 1) dzero F1 F0) as [Fs Vs]; [rewrite V0, V1, Rminus_0_r, (fl_fmt 1) by (apply (fmt_b2 0); lia); rewrite Rabs_R1; change 1 with (b2 0); apply bpow_lt; lia|]. rewrite V0, V1, Rminus_0_r, (fl_fmt 1) in Vs by (apply (fmt_b2 0); lia).
  assert (B1 : Rabs (fl (1 / 99)) <= 1) by (apply fl_abs_le; [apply (fmt_b2 0); lia|]; rewrite Rabs_pos_eq; lra). assert (L24 : 1 < b2 1024) by (change 1 with (b2 0); apply bpow_lt; lia).
  destruct (ddiv_ok (dsub (dint 1) dzero) (dint 99) Fs) as [Fd Vd]; [rewrite V9; lra|rewrite Vs, V9; lra|]. rewrite Vs, V9 in Vd.
  assert (KB : INR k <= 98) by (replace 98 with (INR 98) by (rewrite INR_IZR_INZ; reflexivity); apply le_INR; lia). pose proof (pos_INR k) as KP.
  assert (BM : Rabs (fl (INR k * fl (1 / 99))) <= b2 7). { apply fl_abs_le; [apply fmt_b2; lia|]. rewrite Rabs_mult. change (b2 7) with 128. rewrite <- (Rmult_1_r 128). apply Rmult_le_compat; try apply Rabs_pos; [rewrite Rabs_pos_eq; lra|exact B1]. }
  destruct (dmul_ok (dint (Z.of_nat k)) (ddiv (dsub (dint 1) dzero) (dint 99)) Fk Fd) as [Fm Vm]; [rewrite Vk, Vd; apply Rle_lt_trans with (1 := BM); apply bpow_lt; lia|]. rewrite Vk, Vd in Vm.
  destruct (dadd_ok _ dzero Fm F0) as [Fa Va]; [rewrite V0, Rplus_0_r, (fl_fmt _ (fmt_val _)), Vm; apply Rle_lt_trans with (1 := BM); apply bpow_lt; lia|]. rewrite V0, Rplus_0_r, (fl_fmt _ (fmt_val _)), Vm in Va.
  replace (deq (ddiv (dsub (dint 1) dzero) (dint 99)) dzero) with false in N by (vm_compute; reflexivity). exact (eq_trans (f_equal val N) Va).
Qed.

Lemma sight_ok : forall t c p k, fin t -> val t = sample k -> 0 <= sample k <= 1 -> moderate c -> moderate p ->
  let v := dadd (dmul t (dsub p c)) c in fin v /\ val v = rounded_sight (val c) (val p) k.
Proof.
  intros t c p k Ft Vt Bt (Fc & Bc) (Fp & Bp) v. assert (E : b2 501 = 2 * b2 500) by (change 501%Z with (1 + 500)%Z; rewrite bpow_plus; reflexivity). assert (E2 : b2 502 = 2 * b2 501) by (change 502%Z with (1 + 501)%Z; rewrite bpow_plus; reflexivity). pose proof (bpow_gt_0 radix2 500) as P5.
  assert (B : Rabs (fl (val p - val c)) <= b2 501) by (apply fl_abs_le; [apply fmt_b2; lia|]; apply Rle_trans with (1 := Rabs_triang _ _); rewrite Rabs_Ropp; lra).
  destruct (dsub_ok p c Fp Fc) as [Fd Vd]; [apply Rle_lt_trans with (1 := B); apply bpow_lt; lia|]. rewrite <- Vd in B.
  assert (B' : Rabs (fl (val t * val (dsub p c))) <= b2 501). { apply fl_abs_le; [apply fmt_b2; lia|]. rewrite Rabs_mult, <- (Rmult_1_l (b2 501)). apply Rmult_le_compat; try apply Rabs_pos; [rewrite Vt, Rabs_pos_eq; lra|exact B]. }
  destruct (dmul_ok t (dsub p c) Ft Fd) as [Fm Vm]; [apply Rle_lt_trans with (1 := B'); apply bpow_lt; lia|]. rewrite <- Vm in B'.
  destruct (dadd_ok _ c Fm Fc) as [Fv Vv]; [apply Rle_lt_trans with (b2 502); [apply fl_abs_le; [apply fmt_b2; lia|]; apply Rle_trans with (1 := Rabs_triang _ _); lra|apply bpow_lt; lia]|].
  fold v in Fv, Vv. split; [exact Fv|]. rewrite Vv, Vm, Vd, Vt. reflexivity.
Qed.

Lemma remove_ok : forall D c0 c1 c2 t q, dbox_ok D -> moderate c0 -> moderate c1 -> moderate c2 -> linspace_d dzero (dint 1) 100 = Ok t -> In q (box_corners_d (dx0 D) (dx1 D) (dy0 D) (dy1 D) (dz0 D) (dz1 D)) ->
  remove_corner_d (dx0 D) (dx1 D) (dy0 D) (dy1 D) (dz0 D) (dz1 D) c0 c1 c2 t q = true <-> struck (values D) (val c0, val c1, val c2) (vals q).
Proof.
  intros D c0 c1 c2 t [[x y] z] HD M0 M1 M2 Et I. destruct samples_ok as (t' & Et' & Lt & Vt). assert (Q : t' = t) by (rewrite Et in Et'; apply Ok_inj in Et'; symmetry; exact Et'). subst t'. clear Et Et'. destruct (corners_limit D (x, y, z) HD I) as ((Mx & _) & (My & _) & (Mz & _)). destruct HD as (((Fx0 & _) & (Fx1 & _) & _) & ((Fy0 & _) & (Fy1 & _) & _) & ((Fz0 & _) & (Fz1 & _) & _)).
  unfold remove_corner_d, struck. cbn [vals].
  set (inx := map _ (map (fun t => dadd (dmul t (dsub x c0)) c0) t)). set (iny := map _ (map (fun t => dadd (dmul t (dsub y c1)) c1) t)). set (inz := map _ (map (fun t => dadd (dmul t (dsub z c2)) c2) t)).
  assert (Lx : length inx = 100%nat) by (unfold inx; rewrite !map_length; exact Lt). assert (Ly : length iny = 100%nat) by (unfold iny; rewrite !map_length; exact Lt). assert (Lz : length inz = 100%nat) by (unfold inz; rewrite !map_length; exact Lt).
  assert (LM : length (map2 andb (map2 andb inx iny) inz) = 100%nat) by (rewrite !map2_length; lia).
  assert (V : forall k, (k < 100)%nat -> nth k (map2 andb (map2 andb inx iny) inz) false = true <-> inside (values D) (rounded_sight (val c0) (val x) k, rounded_sight (val c1) (val y) k, rounded_sight (val c2) (val z) k)).
  { intros k Hk. rewrite (nth_map2 _ _ _ _ _ inz k false false false) by (rewrite ?map2_length; lia). rewrite (nth_map2 _ _ _ _ inx iny k false false false) by lia.
    unfold inx, iny, inz. rewrite !map_map. rewrite !(nth_map_lt _ _ _ t k false dzero) by lia. destruct (Vt k Hk) as (Ft & Vk & Bk).
    destruct (sight_ok _ c0 x k Ft Vk Bk M0 Mx) as [G0 W0]. destruct (sight_ok _ c1 y k Ft Vk Bk M1 My) as [G1 W1]. destruct (sight_ok _ c2 z k Ft Vk Bk M2 Mz) as [G2 W2].
    rewrite !dlt_ok by assumption. rewrite W0, W1, W2. unfold inside, values. cbn [bx0 bx1 by0 by1 bz0 bz1]. rewrite !andb_true_iff.
    assert (Q : forall a b, Rlt_bool a b = true <-> a < b). { intros a b. destruct (Rlt_bool_spec a b); split; intros; try assumption; try discriminate; try reflexivity; lra. }
    rewrite !Q. tauto. }
  clearbody inx iny inz. set (cond := map2 andb (map2 andb inx iny) inz) in *.
  destruct (np_where cond) as [|i w] eqn:E.
  - cbn [length Nat.eqb]. split; [discriminate|]. intros (k & Hk & Hin). pose proof (proj1 (np_where_empty cond) E k) as F. rewrite LM in F. specialize (F Hk). apply V in Hin; [|exact Hk]. congruence.
  - cbn [length Nat.eqb]. split; [|reflexivity]. intros _. assert (J : In i (np_where cond)) by (rewrite E; now left). apply in_np_where in J. destruct J as [J1 J2]. rewrite LM in J1. exists i. split; [exact J1|]. apply V; assumption.
Qed.
