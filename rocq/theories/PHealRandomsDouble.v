(** * Proofs about [MHealRandomsDouble.v]: one point *)

From Coq Require Import Reals ZArith List Bool Lia Lra Psatz.
From Flocq Require Import Core IEEE754.BinarySingleNaN Plus_error Sterbenz.
From Verif Require Import Base BaseP Spec MHealpixFloat PHealpixFloat SpecDouble SpecCoordsDouble SpecRandomsDouble SpecHealRandomsDouble MDouble PDouble PPiDouble PSumDouble MGridsDouble PGridsDouble MRemapDouble PRemapDouble2 MRandomsDouble PRandomsDouble PLibmDouble PTripDouble MHealCoordDouble PHealCoordDouble PHealCoordDouble2 MHealRandomsDouble.
From Verif Require PRebinDouble4.
Import ListNotations.
Open Scope R_scope.

Local Instance fexp_valid : Valid_exp (FLT_exp (-1074) 53).
Proof. apply FLT_exp_valid. reflexivity. Qed.
Local Instance fexp_mono : Monotone_exp (FLT_exp (-1074) 53).
Proof. apply FLT_exp_monotone. Qed.
Local Existing Instance p53.

Lemma opp_ok : forall x, fin x -> fin (opp_d x) /\ val (opp_d x) = - val x.
Proof. intros x F. split; [unfold fin, opp_d; rewrite is_finite_Bopp; exact F|unfold val, opp_d; apply B2R_Bopp]. Qed.

(** [-x + y] is minus [x - y]. *)
Lemma flip_ok : forall x y, fin x -> fin y -> Rabs (val x - val y) <= 512 ->
  fin (dadd (opp_d x) y) /\ val (dadd (opp_d x) y) = - val (dsub x y).
Proof.
  intros x y Fx Fy H. destruct (opp_ok x Fx) as [Fo Vo]. destruct (sub_near x y Fx Fy H) as (_ & Vs & _).
  destruct (add_near (opp_d x) y Fo Fy) as (F & V & _); [rewrite Vo; replace (- val x + val y) with (- (val x - val y)) by ring; now rewrite Rabs_Ropp|].
  split; [exact F|]. rewrite V, Vs, Vo. replace (- val x + val y) with (- (val x - val y)) by ring. apply fl_opp.
Qed.

Lemma two_ok : forall x, fin x -> Rabs (val x) <= 200 -> fin (dmul (dint 2) x) /\ val (dmul (dint 2) x) = 2 * val x.
Proof.
  intros x F H. destruct (int_ok 2 ltac:(lia)) as [F2 V2]. destruct (mul_near (dint 2) x F2 F) as (Fm & Vm & _); [rewrite V2, Rabs_mult, (Rabs_pos_eq 2); lra|].
  split; [exact Fm|]. rewrite Vm, V2. apply fl_fmt. apply PRebinDouble4.fmt_double, fmt_val.
Qed.

(** The half-diagonal. *)
Lemma delta_ok : forall n, (1 <= n <= 2 ^ 50)%Z -> fin (delta_d n) /\ 0 < val (delta_d n) <= 0.8 /\ Rabs (val (delta_d n) - half_diag n) <= 2 * u.
Proof.
  intros n Hn. destruct pi_u as (A & B & C). destruct pi_val as [Fp Vp]. pose proof e0_small as E. pose proof u_tiny as U. destruct (dint_ok (4 * n) ltac:(lia)) as [F4 V4].
  assert (N : 1 <= IZR n <= IZR (2 ^ 50)) by (split; apply IZR_le; lia). assert (V4' : val (dint (4 * n)) = 4 * IZR n) by (rewrite V4, mult_IZR; reflexivity). set (h := tau / 2 / (4 * IZR n)). unfold half_diag. set (d := PI / (4 * IZR n)).
  assert (Eh : h * IZR n = tau / 8) by (unfold h; field; lra). assert (Ed : d * IZR n = PI / 4) by (unfold d; field; lra).
  assert (H1 : b2 (-60) <= h <= 0.79).
  { split; apply Rnot_lt_le; intro K.
    - assert (h * IZR n < b2 (-60) * IZR (2 ^ 50)). { apply Rle_lt_trans with (h * IZR (2 ^ 50)); [apply Rmult_le_compat_l; [|lra]|apply Rmult_lt_compat_r; [apply IZR_lt; lia|exact K]]. apply Rmult_le_reg_r with (IZR n); lra. }
      change (IZR (2 ^ 50)) with (b2 50) in H. rewrite <- bpow_plus in H. change (b2 (-60 + 50)) with (/ 1024) in H. lra.
    - assert (0.79 * 1 <= h * IZR n) by (apply Rmult_le_compat; lra). lra. }
  assert (HD : Rabs (h - d) <= u / 2).
  { replace (h - d) with ((tau / 2 - PI) / 4 * / IZR n) by (unfold h, d; field; lra). rewrite Rabs_mult, (Rabs_pos_eq (/ IZR n)) by (apply Rlt_le, Rinv_0_lt_compat; lra).
    unfold Rdiv. rewrite Rabs_mult, (Rabs_pos_eq (/ 4)) by lra. replace (u * / 2) with (2 * u * / 4 * 1) by field. apply Rmult_le_compat; [apply Rmult_le_pos; [apply Rabs_pos|lra]|apply Rlt_le, Rinv_0_lt_compat; lra|apply Rmult_le_compat_r; lra|rewrite <- Rinv_1; apply Rinv_le; lra]. }
  destruct (div_near pi_d (dint (4 * n)) Fp) as (F & V & Er); [rewrite V4'; lra|rewrite Vp, V4'; fold h; rewrite Rabs_pos_eq; [lra|pose proof (bpow_gt_0 radix2 (-60)); lra]|]. rewrite Vp, V4' in V, Er. fold h in V, Er. fold (delta_d n) in F, V, Er.
  pose proof (bpow_gt_0 radix2 (-60)) as P6. rewrite (Rabs_pos_eq h) in Er by lra. split; [exact F|]. assert (UH : u * h <= u * 0.79) by (apply Rmult_le_compat_l; lra).
  split.
  - split.
    + rewrite V. apply Rlt_le_trans with (b2 (-60)); [exact P6|]. apply fl_ge; [apply fl_fmt, fmt_b2; lia|lra].
    + apply Rabs_le_inv in Er. lra.
  - replace (val (delta_d n) - d) with ((val (delta_d n) - h) + (h - d)) by ring. eapply Rle_trans; [apply Rabs_triang|]. lra.
Qed.

(** The step across: [xp + delta * t]. *)
Lemma across_ok : forall xp dl t, fin xp -> Rabs (val xp) <= 6.3 -> fin dl -> 0 < val dl <= 0.8 -> fin t -> Rabs (val t) <= 1 ->
  let x := dadd xp (dmul dl t) in
  fin x /\ Rabs (val x - (val xp + val dl * val t)) <= 9 * u /\
  fin (dsub x xp) /\ Rabs (val (dsub x xp) - val dl * val t) <= 10 * u /\ fin (dadd (opp_d x) xp) /\ val (dadd (opp_d x) xp) = - val (dsub x xp).
Proof.
  intros xp dl t Fx Bx Fd Bd Ft Bt x. pose proof e0_small as E. pose proof u_tiny as U. set (m := val dl * val t) in *. assert (Bm : Rabs m <= 0.8) by (unfold m; rewrite Rabs_mult, (Rabs_pos_eq (val dl)) by lra; replace 0.8 with (0.8 * 1) by ring; apply Rmult_le_compat; try apply Rabs_pos; lra).
  destruct (mul_near dl t Fd Ft) as (Fm & _ & Em); [fold m; lra|]. fold m in Em. assert (Em' : Rabs (val (dmul dl t) - m) <= 0.9 * u) by (assert (u * Rabs m <= u * 0.8) by (apply Rmult_le_compat_l; lra); lra). clear Em.
  set (mm := val (dmul dl t)) in *. assert (Bmm : Rabs mm <= 0.81). { replace mm with ((mm - m) + m) by ring. eapply Rle_trans; [apply Rabs_triang|]. lra. }
  assert (B1 : Rabs (val xp + mm) <= 7.11) by (eapply Rle_trans; [apply Rabs_triang|]; lra).
  destruct (add_near xp (dmul dl t) Fx Fm) as (Fs & _ & Es); [fold mm; lra|]. fold mm in Es. fold x in Fs, Es. assert (Es' : Rabs (val x - (val xp + mm)) <= 7.11 * u) by (assert (u * Rabs (val xp + mm) <= u * 7.11) by (apply Rmult_le_compat_l; lra); lra). clear Es.
  assert (EX : Rabs (val x - (val xp + m)) <= 8.01 * u). { replace (val x - (val xp + m)) with ((val x - (val xp + mm)) + (mm - m)) by ring. eapply Rle_trans; [apply Rabs_triang|]. lra. }
  assert (D : Rabs (val x - val xp) <= 0.82). { replace (val x - val xp) with ((val x - (val xp + m)) + m) by ring. eapply Rle_trans; [apply Rabs_triang|]. lra. }
  destruct (sub_near x xp Fs Fx) as (Fg & _ & Eg); [lra|]. destruct (flip_ok x xp Fs Fx) as [Fo Vo]; [lra|]. assert (Eg' : Rabs (val (dsub x xp) - (val x - val xp)) <= 0.82 * u) by (assert (u * Rabs (val x - val xp) <= u * 0.82) by (apply Rmult_le_compat_l; lra); lra). clear Eg.
  split; [exact Fs|]. split; [lra|]. split; [exact Fg|]. split; [|split; assumption]. replace (val (dsub x xp) - m) with ((val (dsub x xp) - (val x - val xp)) + (val x - (val xp + m))) by ring. eapply Rle_trans; [apply Rabs_triang|]. lra.
Qed.

(** The step up: [2 (g + delta) v + (g' - delta + yp)] with [g' = -g]. *)
Lemma up_ok : forall yp dl g g' v, fin yp -> Rabs (val yp) <= 1.6 -> fin dl -> 0 < val dl <= 0.8 -> fin g -> Rabs (val g) <= 0.82 -> fin g' -> val g' = - val g -> fin v -> 0 <= val v <= 1 ->
  let y := dadd (dmul (dmul (dint 2) (dadd g dl)) v) (dadd (dsub g' dl) yp) in
  fin y /\ Rabs (val y - (val yp + (2 * val v - 1) * (val g + val dl))) <= 20 * u.
Proof.
  intros yp dl g g' v Fy By Fd Bd Fg Bg Fg' Vg' Fv Bv y. pose proof e0_small as E. pose proof u_tiny as U. set (h := val g + val dl). assert (Bh : Rabs h <= 1.62) by (apply Rabs_le_inv in Bg; apply Rabs_le; unfold h; lra).
  destruct (add_near g dl Fg Fd) as (F1 & _ & E1); [fold h; lra|]. fold h in E1. set (hd := dadd g dl) in *. assert (E1' : Rabs (val hd - h) <= 1.62 * u) by (assert (u * Rabs h <= u * 1.62) by (apply Rmult_le_compat_l; lra); lra). clear E1.
  assert (B1 : Rabs (val hd) <= 1.63). { replace (val hd) with ((val hd - h) + h) by ring. eapply Rle_trans; [apply Rabs_triang|]. lra. }
  destruct (two_ok hd F1 ltac:(lra)) as [F2 V2]. set (h2 := dmul (dint 2) hd) in *. assert (B2 : Rabs (val h2 * val v) <= 3.26). { rewrite V2, !Rabs_mult, (Rabs_pos_eq 2), (Rabs_pos_eq (val v)) by lra. replace 3.26 with (2 * 1.63 * 1) by lra. apply Rmult_le_compat; try lra. apply Rmult_le_pos; [lra|apply Rabs_pos]. }
  destruct (mul_near h2 v F2 Fv) as (F3 & _ & E3); [lra|]. set (a := dmul h2 v) in *. assert (E3' : Rabs (val a - 2 * val hd * val v) <= 3.27 * u) by (rewrite <- V2; assert (u * Rabs (val h2 * val v) <= u * 3.26) by (apply Rmult_le_compat_l; lra); lra). clear E3.
  assert (Bw : Rabs (val g' - val dl) <= 1.62) by (rewrite Vg'; replace (- val g - val dl) with (- h) by (unfold h; ring); now rewrite Rabs_Ropp).
  destruct (sub_near g' dl Fg' Fd) as (F4 & _ & E4); [lra|]. set (w := dsub g' dl) in *. assert (E4' : Rabs (val w - - h) <= 1.62 * u) by (replace (- h) with (val g' - val dl) by (rewrite Vg'; unfold h; ring); assert (u * Rabs (val g' - val dl) <= u * 1.62) by (apply Rmult_le_compat_l; lra); lra). clear E4.
  assert (Bw2 : Rabs (val w) <= 1.63). { replace (val w) with ((val w - - h) + - h) by ring. eapply Rle_trans; [apply Rabs_triang|]. rewrite Rabs_Ropp. lra. }
  assert (B5 : Rabs (val w + val yp) <= 3.23) by (eapply Rle_trans; [apply Rabs_triang|]; lra).
  destruct (add_near w yp F4 Fy) as (F5 & _ & E5); [lra|]. set (b := dadd w yp) in *. assert (E5' : Rabs (val b - (val w + val yp)) <= 3.23 * u) by (assert (u * Rabs (val w + val yp) <= u * 3.23) by (apply Rmult_le_compat_l; lra); lra). clear E5.
  assert (Ba : Rabs (val a) <= 3.27). { replace (val a) with ((val a - 2 * val hd * val v) + 2 * val hd * val v) by ring. rewrite V2 in B2. eapply Rle_trans; [apply Rabs_triang|]. lra. }
  assert (Bb : Rabs (val b) <= 3.24). { replace (val b) with ((val b - (val w + val yp)) + (val w + val yp)) by ring. eapply Rle_trans; [apply Rabs_triang|]. lra. }
  assert (B6 : Rabs (val a + val b) <= 6.51) by (eapply Rle_trans; [apply Rabs_triang|]; lra).
  destruct (add_near a b F3 F5) as (F6 & _ & E6); [lra|]. fold y in F6, E6. assert (E6' : Rabs (val y - (val a + val b)) <= 6.51 * u) by (assert (u * Rabs (val a + val b) <= u * 6.51) by (apply Rmult_le_compat_l; lra); lra). clear E6.
  split; [exact F6|]. assert (EV : Rabs (2 * val v * (val hd - h)) <= 3.24 * u). { rewrite Rabs_mult, (Rabs_pos_eq (2 * val v)) by lra. replace (3.24 * u) with (2 * (1.62 * u)) by lra. apply Rmult_le_compat; [lra|apply Rabs_pos|lra|lra]. }
  replace (val y - (val yp + (2 * val v - 1) * h)) with ((val y - (val a + val b)) + ((val a - 2 * val hd * val v) + (2 * val v * (val hd - h) + ((val b - (val w + val yp)) + (val w - - h))))) by ring.
  apply Rabs_le_inv in E6', E3', EV, E5', E4'. apply Rabs_le. lra.
Qed.

(** The square roots of the draws. *)
Lemma root_range : forall x, 0 <= x <= 1 -> 0 <= sqrt x <= 1.
Proof. intros x H. split; [apply sqrt_pos|]. rewrite <- sqrt_1. apply sqrt_le_1; lra. Qed.

Lemma root_ok : forall w, fin w -> 0 <= val w <= 1 -> fin (dsqrt w) /\ 0 <= val (dsqrt w) <= 1 /\ Rabs (val (dsqrt w) - sqrt (val w)) <= u + e0.
Proof.
  intros w F B. destruct (dsqrt_ok w F (proj1 B)) as [Fs Vs]. assert (S : 0 <= sqrt (val w) <= 1) by (apply root_range; lra). pose proof u_tiny as U.
  split; [exact Fs|]. rewrite Vs. split; [split; [apply fl_ge; [apply fl_fmt, fmt_0|lra]|apply fl_le; [apply fl_fmt, fmt_1|lra]]|].
  pose proof (fl_mixed (sqrt (val w))) as M. rewrite (Rabs_pos_eq (sqrt (val w))) in M by lra. assert (u * sqrt (val w) <= u * 1) by (apply Rmult_le_compat_l; lra). fold e0 in *. lra.
Qed.

Lemma left_t : forall k w, kth_draw k w -> val w <= / 2 ->
  let t := dsub (dsqrt (dmul (dint 2) w)) (dint 1) in fin t /\ -1 <= val t <= 0 /\ Rabs (val t - (sqrt (2 * val w) - 1)) <= 3 * u.
Proof.
  intros k w (Hk & Fw & Vw) Hw t. pose proof e0_small as E. pose proof u_tiny as U. destruct (int_ok 1 ltac:(lia)) as [F1 V1].
  assert (W0 : 0 <= val w) by (rewrite Vw; apply Rmult_le_pos; [apply IZR_le; lia|apply bpow_ge_0]). destruct (two_ok w Fw) as [F2 V2]; [rewrite Rabs_pos_eq; lra|].
  destruct (root_ok _ F2 ltac:(lra)) as (Fr & Br & Er). rewrite V2 in Er. set (r := dsqrt (dmul (dint 2) w)) in *.
  destruct (sub_near r (dint 1) Fr F1) as (Ft & Vt & Et); [rewrite V1; apply Rabs_le; lra|]. rewrite V1 in Vt, Et. fold t in Ft, Vt, Et. split; [exact Ft|]. split.
  - rewrite Vt. split; [apply fl_ge; [apply fl_fmt, fmt_opp, fmt_1|lra]|apply fl_le; [apply fl_fmt, fmt_0|lra]].
  - assert (u * Rabs (val r - 1) <= u * 1) by (apply Rmult_le_compat_l; [lra|apply Rabs_le; lra]). apply Rabs_le_inv in Er, Et. apply Rabs_le. lra.
Qed.

Lemma right_t : forall k w, kth_draw k w -> / 2 < val w ->
  let t := dsub (dint 1) (dsqrt (dmul (dint 2) (dsub (dint 1) w))) in fin t /\ 0 <= val t <= 1 /\ Rabs (val t - (1 - sqrt (2 * (1 - val w)))) <= 3 * u.
Proof.
  intros k w (Hk & Fw & Vw) Hw t. pose proof e0_small as E. pose proof u_tiny as U. destruct (int_ok 1 ltac:(lia)) as [F1 V1].
  assert (W1 : val w <= 1). { rewrite Vw. apply Rle_trans with (b2 53 * b2 (-53)); [apply Rmult_le_compat_r; [apply bpow_ge_0|change (b2 53) with (IZR (2 ^ 53)); apply IZR_le; lia]|rewrite <- bpow_plus; apply Rle_refl]. }
  destruct (sub_near (dint 1) w F1 Fw) as (Fs & Vs & _); [rewrite V1, Rabs_pos_eq; lra|]. rewrite V1, fl_fmt in Vs by (apply sterbenz; [typeclasses eauto|typeclasses eauto|apply fmt_1|apply fmt_val|lra]). set (c := dsub (dint 1) w) in *.
  destruct (two_ok c Fs) as [F2 V2]; [rewrite Vs, Rabs_pos_eq; lra|].
  destruct (root_ok _ F2 ltac:(lra)) as (Fr & Br & Er). rewrite V2, Vs in Er. set (r := dsqrt (dmul (dint 2) c)) in *.
  destruct (sub_near (dint 1) r F1 Fr) as (Ft & Vt & Et); [rewrite V1; apply Rabs_le; lra|]. rewrite V1 in Vt, Et. fold t in Ft, Vt, Et. split; [exact Ft|]. split.
  - rewrite Vt. split; [apply fl_ge; [apply fl_fmt, fmt_0|lra]|apply fl_le; [apply fl_fmt, fmt_1|lra]].
  - assert (u * Rabs (1 - val r) <= u * 1) by (apply Rmult_le_compat_l; [lra|apply Rabs_le; lra]). apply Rabs_le_inv in Er, Et. apply Rabs_le. lra.
Qed.

(** One point, before the remainder. *)
Definition point_x (xp : double) (n : Z) (a : double) : double :=
  if dle a (dbl 1 (-1)) then left_x xp (delta_d n) a else right_x xp (delta_d n) a.
Definition point_y (xp yp : double) (n : Z) (a b : double) : double :=
  if dle a (dbl 1 (-1)) then left_y xp yp (delta_d n) (left_x xp (delta_d n) a) b else right_y xp yp (delta_d n) (right_x xp (delta_d n) a) b.

Lemma draw_range : forall k w, kth_draw k w -> fin w /\ 0 <= val w < 1.
Proof.
  intros k w (Hk & Fw & Vw). split; [exact Fw|]. rewrite Vw. split; [apply Rmult_le_pos; [apply IZR_le; lia|apply bpow_ge_0]|].
  apply Rlt_le_trans with (b2 53 * b2 (-53)); [apply Rmult_lt_compat_r; [apply bpow_gt_0|change (b2 53) with (IZR (2 ^ 53)); apply IZR_lt; lia]|rewrite <- bpow_plus; apply Rle_refl].
Qed.

Lemma across_range : forall d w, 0 <= d -> 0 <= w <= 1 -> Rabs (drawn_across d w) <= d.
Proof.
  intros d w Hd Hw. unfold drawn_across. destruct (Rle_lt_dec w (/ 2)).
  - assert (S : 0 <= sqrt (2 * w) <= 1) by (apply root_range; lra). rewrite Rabs_mult, (Rabs_pos_eq d), Rabs_left1 by lra. rewrite <- (Rmult_1_r d) at 2. apply Rmult_le_compat_l; lra.
  - assert (S : 0 <= sqrt (2 * (1 - w)) <= 1) by (apply root_range; lra). rewrite Rabs_mult, (Rabs_pos_eq d), Rabs_pos_eq by lra. rewrite <- (Rmult_1_r d) at 2. apply Rmult_le_compat_l; lra.
Qed.

Lemma scale_near : forall dl d t te, 0 < dl <= 0.8 -> Rabs (dl - d) <= 2 * u -> Rabs (t - te) <= 3 * u -> Rabs te <= 1 -> Rabs (dl * t - d * te) <= 4.4 * u.
Proof.
  intros dl d t te Hd E1 E2 B. replace (dl * t - d * te) with (dl * (t - te) + (dl - d) * te) by ring. eapply Rle_trans; [apply Rabs_triang|]. rewrite !Rabs_mult, (Rabs_pos_eq dl) by lra. pose proof u_pos as U.
  assert (dl * Rabs (t - te) <= 0.8 * (3 * u)) by (apply Rmult_le_compat; try apply Rabs_pos; lra). assert (Rabs (dl - d) * Rabs te <= 2 * u * 1) by (apply Rmult_le_compat; try apply Rabs_pos; lra). lra.
Qed.

Lemma point_ok : forall xp yp n i j a b, fin xp -> Rabs (val xp) <= 6.3 -> fin yp -> Rabs (val yp) <= 1.6 -> (1 <= n <= 2 ^ 50)%Z -> kth_draw i a -> kth_draw j b ->
  fin (point_x xp n a) /\ fin (point_y xp yp n a b) /\
  Rabs (val (point_x xp n a) - (val xp + drawn_across (half_diag n) (val a))) <= 14 * u /\
  Rabs (val (point_y xp yp n a b) - (val yp + drawn_up (half_diag n) (val a) (val b))) <= 37 * u.
Proof.
  intros xp yp n i j a b Fx Bx Fy By Hn Ha Hb. pose proof u_tiny as U. destruct (delta_ok n Hn) as (Fd & Bd & Ed). destruct (draw_range _ _ Ha) as [Fa Ra]. destruct (draw_range _ _ Hb) as [Fb Rb]. destruct half_ok as [Fh Vh].
  set (d := half_diag n) in *. set (dl := delta_d n) in *. assert (D0 : 0 < d <= 0.81) by (unfold d in *; split; [unfold half_diag; apply Rdiv_lt_0_compat; [apply PI_RGT_0|apply Rmult_lt_0_compat; [lra|apply IZR_lt; lia]]|apply Rabs_le_inv in Ed; lra]).
  assert (Eb : dle a (dbl 1 (-1)) = Rle_bool (val a) (/ 2)) by (etransitivity; [exact (dle_ok _ _ Fa Fh)|]; rewrite Vh; reflexivity). unfold point_x, point_y. rewrite Eb. fold dl. unfold drawn_up, drawn_across. destruct (Rle_bool_spec (val a) (/ 2)) as [L|L]; destruct (Rle_lt_dec (val a) (/ 2)) as [L'|L']; try lra; clear L'.
  - destruct (left_t i a Ha L) as (Ft & Bt & Et). assert (S : 0 <= sqrt (2 * val a) <= 1) by (apply root_range; lra). set (te := sqrt (2 * val a) - 1) in *. set (t := dsub (dsqrt (dmul (dint 2) a)) (dint 1)) in *.
    destruct (across_ok xp dl t Fx Bx Fd Bd Ft ltac:(apply Rabs_le; lra)) as (FX & EX & Fg & Eg & Fo & Vo). change (dadd xp (dmul dl t)) with (left_x xp dl a) in *. set (x := left_x xp dl a) in *.
    pose proof (scale_near (val dl) d (val t) te Bd Ed Et ltac:(apply Rabs_le; unfold te; lra)) as Sc. assert (P1 : -0.81 <= d * te <= 0). { assert (0 <= d * - te <= 0.81 * 1) by (split; [apply Rmult_le_pos; unfold te; lra|apply Rmult_le_compat; unfold te; lra]). lra. }
    set (g := dsub x xp) in *. assert (Gd : Rabs (val g - d * te) <= 14.4 * u) by (apply Rabs_le_inv in Eg, Sc; apply Rabs_le; lra). assert (Bg : Rabs (val g) <= 0.82) by (apply Rabs_le_inv in Gd; apply Rabs_le; lra).
    destruct (up_ok yp dl g (dadd (opp_d x) xp) b Fy By Fd Bd Fg Bg Fo Vo Fb ltac:(lra)) as [FY EY]. change (dadd (dmul (dmul (dint 2) (dadd g dl)) b) (dadd (dsub (dadd (opp_d x) xp) dl) yp)) with (left_y xp yp dl x b) in *.
    split; [exact FX|]. split; [exact FY|]. split; [apply Rabs_le_inv in EX, Sc; apply Rabs_le; lra|]. rewrite (Rabs_left1 (d * te)) by lra.
    assert (K : Rabs ((2 * val b - 1) * ((val g - d * te) + (val dl - d))) <= 1 * (16.4 * u)). { rewrite Rabs_mult. apply Rmult_le_compat; try apply Rabs_pos; [apply Rabs_le; lra|]. eapply Rle_trans; [apply Rabs_triang|]. lra. }
    replace (val (left_y xp yp dl x b) - (val yp + (2 * val b - 1) * (d - - (d * te)))) with ((val (left_y xp yp dl x b) - (val yp + (2 * val b - 1) * (val g + val dl))) + (2 * val b - 1) * ((val g - d * te) + (val dl - d))) by ring. eapply Rle_trans; [apply Rabs_triang|]. lra.
  - destruct (right_t i a Ha L) as (Ft & Bt & Et). assert (S : 0 <= sqrt (2 * (1 - val a)) <= 1) by (apply root_range; lra). set (te := 1 - sqrt (2 * (1 - val a))) in *. set (t := dsub (dint 1) (dsqrt (dmul (dint 2) (dsub (dint 1) a)))) in *.
    destruct (across_ok xp dl t Fx Bx Fd Bd Ft ltac:(apply Rabs_le; lra)) as (FX & EX & Fg & Eg & Fo & Vo). change (dadd xp (dmul dl t)) with (right_x xp dl a) in *. set (x := right_x xp dl a) in *.
    pose proof (scale_near (val dl) d (val t) te Bd Ed Et ltac:(apply Rabs_le; unfold te; lra)) as Sc. assert (P1 : 0 <= d * te <= 0.81). { assert (0 <= d * te <= 0.81 * 1) by (split; [apply Rmult_le_pos; unfold te; lra|apply Rmult_le_compat; unfold te; lra]). lra. }
    set (g := dsub x xp) in *. assert (Gd : Rabs (val g - d * te) <= 14.4 * u) by (apply Rabs_le_inv in Eg, Sc; apply Rabs_le; lra). assert (Bg : Rabs (val g) <= 0.82) by (apply Rabs_le_inv in Gd; apply Rabs_le; lra).
    set (o := dadd (opp_d x) xp) in *. assert (Bo : Rabs (val o) <= 0.82) by (rewrite Vo, Rabs_Ropp; exact Bg).
    destruct (up_ok yp dl o g b Fy By Fd Bd Fo Bo Fg ltac:(rewrite Vo; ring) Fb ltac:(lra)) as [FY EY]. change (dadd (dmul (dmul (dint 2) (dadd o dl)) b) (dadd (dsub g dl) yp)) with (right_y xp yp dl x b) in *.
    split; [exact FX|]. split; [exact FY|]. split; [apply Rabs_le_inv in EX, Sc; apply Rabs_le; lra|]. rewrite (Rabs_pos_eq (d * te)) by lra. rewrite Vo in EY.
    assert (K : Rabs ((2 * val b - 1) * (- (val g - d * te) + (val dl - d))) <= 1 * (16.4 * u)). { rewrite Rabs_mult. apply Rmult_le_compat; try apply Rabs_pos; [apply Rabs_le; lra|]. eapply Rle_trans; [apply Rabs_triang|]. rewrite Rabs_Ropp. lra. }
    replace (val (right_y xp yp dl x b) - (val yp + (2 * val b - 1) * (d - d * te))) with ((val (right_y xp yp dl x b) - (val yp + (2 * val b - 1) * (- val g + val dl))) + (2 * val b - 1) * (- (val g - d * te) + (val dl - d))) by ring. eapply Rle_trans; [apply Rabs_triang|]. lra.
Qed.
