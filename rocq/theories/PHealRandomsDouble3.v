(** * Proofs about [MHealRandomsDouble.v]: the colatitude *)

From Coq Require Import Reals ZArith List Bool Lia Lra Psatz.
From Flocq Require Import Core IEEE754.BinarySingleNaN Sterbenz.
From Verif Require Import Base BaseP Spec MHealpixFloat PHealpixFloat SpecDouble SpecCoordsDouble SpecHealRandomsDouble MDouble PDouble PPiDouble PSumDouble MGridsDouble PGridsDouble MRemapDouble PRemapDouble2 MRandomsDouble PRandomsDouble PLibmDouble PTripDouble MHealCoordDouble PHealCoordDouble PHealCoordDouble2 PHealCoordDouble4.
Import ListNotations.
Open Scope R_scope.

Local Instance fexp_valid : Valid_exp (FLT_exp (-1074) 53).
Proof. apply FLT_exp_valid. reflexivity. Qed.
Local Instance fexp_mono : Monotone_exp (FLT_exp (-1074) 53).
Proof. apply FLT_exp_monotone. Qed.
Local Existing Instance p53.

(** Heights up to a little beyond the pole. *)
Lemma sigz_wide : forall y, fin y -> tau / 8 < Rabs (val y) <= 1.6 ->
  exists sg s, (sg = 1 \/ sg = -1) /\ 1 <= s <= 2.05 /\ fin (cap_sigz y) /\ val (cap_sigz y) = sg * s /\ val y = sg * Rabs (val y) /\
    Rabs (s - 4 * Rabs (val y) / PI) <= 4 * u.
Proof.
  intros y Fy Hy. destruct pi_u as (A & B & C). destruct pi_val as [Fp Vp]. destruct (int_ok 4 ltac:(lia)) as [F4 V4]. pose proof e0_small as E. pose proof u_tiny as U. set (v := Rabs (val y)) in *.
  destruct (mul_near (dint 4) y F4 Fy) as (Fm & Vm & _); [rewrite V4, Rabs_mult, (Rabs_pos_eq 4); fold v; lra|]. rewrite V4, fl_fmt in Vm by apply quad_fmt, fmt_val.
  set (m := dmul (dint 4) y) in *. set (q := 4 * v / (tau / 2)) in *. assert (Eq : q * (tau / 2) = 4 * v) by (unfold q; field; lra).
  assert (Q0 : 1 <= q <= 2.04). { split; apply Rnot_lt_le; intro N; [assert (q * (tau / 2) < 1 * (tau / 2)) by (apply Rmult_lt_compat_r; lra)|assert (2.04 * 3.14 <= q * (tau / 2)) by (apply Rmult_le_compat; lra)]; lra. }
  assert (Hs : exists sg, (sg = 1 \/ sg = -1) /\ val y = sg * v). { unfold v, Rabs. destruct (Rcase_abs (val y)); [exists (-1)|exists 1]; split; auto; ring. }
  destruct Hs as (sg & Hs & Vy). assert (Em : val m / val pi_d = sg * q) by (rewrite Vm, Vp, Vy; unfold q; field; lra). assert (Aq : Rabs (sg * q) <= 3) by (destruct Hs as [-> | ->]; apply Rabs_le; lra).
  destruct (div_near m pi_d Fm) as (Fz & Vz & _); [rewrite Vp; lra|rewrite Em; lra|]. rewrite Em in Vz. change (cap_sigz y) with (ddiv m pi_d).
  assert (Vz' : val (ddiv m pi_d) = sg * fl q). { rewrite Vz. destruct Hs as [-> | ->]; [now rewrite !Rmult_1_l|]. replace (-1 * q) with (- q) by ring. rewrite fl_opp. ring. }
  pose proof (fl_mixed q) as M. change (b2 (-53)) with u in M. rewrite (Rabs_pos_eq q) in M by lra. assert (M' : u * q <= u * 2.04) by (apply Rmult_le_compat_l; lra).
  exists sg, (fl q). split; [exact Hs|]. split; [split; [apply fl_ge; [apply fl_fmt, fmt_1|lra]|apply Rabs_le_inv in M; lra]|]. split; [exact Fz|]. split; [exact Vz'|]. split; [exact Vy|].
  set (r := 4 * v / PI). assert (R1 : r * PI = 4 * v) by (unfold r; field; lra). assert (Z : (q - r) * PI = - q * (tau / 2 - PI)) by (replace (- q * (tau / 2 - PI)) with (q * PI - q * (tau / 2)) by ring; rewrite Eq, <- R1; ring).
  assert (Z2 : Rabs (q - r) * PI <= 4.08 * u). { rewrite <- (Rabs_pos_eq PI) by lra. rewrite <- Rabs_mult, Z, Rabs_mult, Rabs_Ropp, (Rabs_pos_eq q) by lra. replace (4.08 * u) with (2.04 * (2 * u)) by lra. apply Rmult_le_compat; try apply Rabs_pos; lra. }
  assert (X : Rabs (q - r) <= 1.4 * u). { apply Rnot_lt_le. intro N. assert (1.4 * u * 3.14 <= Rabs (q - r) * PI) by (apply Rmult_le_compat; lra). lra. }
  replace (fl q - r) with ((fl q - q) + (q - r)) by ring. eapply Rle_trans; [apply Rabs_triang|]. lra.
Qed.

(** The cosine handed to [arccos]. *)
Lemma cap_cos : forall arccos g sg s, fin g -> sg = 1 \/ sg = -1 -> 1 <= s <= 2.05 -> val g = sg * s ->
  exists c, fin c /\ -1 <= val c <= 1 /\ cap_theta arccos g = arccos c /\ Rabs (val c - sg * (1 - (2 - s) * (2 - s) / 3)) <= 3 * u.
Proof.
  intros arccos g sg s Fg Hs I Vg. pose proof e0_small as E. pose proof u_tiny as U. destruct (int_ok 2 ltac:(lia)) as [F2 V2]. destruct (int_ok 1 ltac:(lia)) as [F1 V1]. destruct third_val as [Ft Et].
  destruct (abs_ok g Fg) as [Fa Va]. assert (Va' : val (abs_d g) = s) by (rewrite Va, Vg, Rabs_mult, (Rabs_pos_eq s) by lra; destruct Hs as [-> | ->]; [rewrite Rabs_R1|rewrite Rabs_left by lra]; ring). clear Va.
  assert (Fs : fmt s) by (rewrite <- Va'; apply fmt_val).
  destruct (sub_near (dint 2) (abs_d g) F2 Fa) as (Fd & Vd & _); [rewrite V2, Va'; apply Rabs_le; lra|]. rewrite V2, Va', fl_fmt in Vd by (apply sterbenz; [typeclasses eauto|typeclasses eauto|change (fmt (b2 1)); apply fmt_b2; lia|exact Fs|lra]).
  set (d := dsub (dint 2) (abs_d g)) in *. set (dd := (2 - s) * (2 - s)). assert (D1 : Rabs (2 - s) <= 1) by (apply Rabs_le; lra). assert (Hdd : 0 <= dd <= 1). { split; [apply Rle_0_sqr|]. unfold dd. rewrite <- (Rabs_pos_eq ((2 - s) * (2 - s))) by apply Rle_0_sqr. rewrite Rabs_mult. replace 1 with (1 * 1) by ring. apply Rmult_le_compat; try apply Rabs_pos; lra. }
  destruct (mul_near d d Fd Fd) as (Fq & Vq & Eq); [rewrite Vd; fold dd; rewrite Rabs_pos_eq; lra|]. rewrite Vd in Vq, Eq. fold dd in Vq, Eq. rewrite (Rabs_pos_eq dd) in Eq by lra. fold (sq d) in Fq, Vq, Eq. set (q := sq d) in *.
  assert (Q0 : 0 <= val q <= 1) by (rewrite Vq; split; [apply fl_ge; [apply fl_fmt, fmt_0|lra]|apply fl_le; [apply fl_fmt, fmt_1|lra]]). assert (Eq' : Rabs (val q - dd) <= 1.001 * u) by (assert (u * dd <= u * 1) by (apply Rmult_le_compat_l; lra); lra). clear Eq.
  assert (T3 : 0 < val one_third <= 0.34) by (apply Rabs_le_inv in Et; lra). assert (P : 0 <= val one_third * val q <= 0.34) by (split; [apply Rmult_le_pos; lra|replace 0.34 with (0.34 * 1) by ring; apply Rmult_le_compat; lra]).
  destruct (mul_near one_third q Ft Fq) as (Fm & Vm & Em); [rewrite Rabs_pos_eq; lra|]. set (m := dmul one_third q) in *. rewrite (Rabs_pos_eq _ (proj1 P)) in Em.
  assert (X : Rabs (val one_third * val q - dd / 3) <= 1.34 * u). { replace (val one_third * val q - dd / 3) with ((val one_third - / 3) * val q + (val q - dd) * / 3) by field. eapply Rle_trans; [apply Rabs_triang|]. rewrite !Rabs_mult, (Rabs_pos_eq (val q)), (Rabs_pos_eq (/ 3)) by lra.
    assert (Rabs (val one_third - / 3) * val q <= u * 1) by (apply Rmult_le_compat; try apply Rabs_pos; lra). lra. }
  assert (Em' : Rabs (val m - dd / 3) <= 1.7 * u). { assert (u * (val one_third * val q) <= u * 0.34) by (apply Rmult_le_compat_l; lra). apply Rabs_le_inv in Em, X. apply Rabs_le. lra. } clear Em X.
  assert (M0 : 0 <= val m <= 0.35) by (split; [rewrite Vm; apply fl_ge; [apply fl_fmt, fmt_0|lra]|apply Rabs_le_inv in Em'; lra]).
  destruct (sub_near (dint 1) m F1 Fm) as (Fz & Vz & Ez); [rewrite V1; apply Rabs_le; lra|]. rewrite V1 in Vz, Ez. set (z := dsub (dint 1) m) in *.
  assert (Z1 : 0 <= val z <= 1) by (rewrite Vz; split; [apply fl_ge; [apply fl_fmt, fmt_0|lra]|apply fl_le; [apply fl_fmt, fmt_1|lra]]).
  assert (Ez' : Rabs (val z - (1 - dd / 3)) <= 3 * u). { assert (u * Rabs (1 - val m) <= u * 1) by (apply Rmult_le_compat_l; [lra|apply Rabs_le; lra]). apply Rabs_le_inv in Ez, Em'. apply Rabs_le. lra. }
  assert (Ng : val g <> 0) by (rewrite Vg; destruct Hs as [-> | ->]; intro; lra). destruct (sign_ok g Fg Ng) as [Fsg Vsg]. assert (Vsg' : val (sign_d g) = sg) by (rewrite Vsg, Vg; destruct Hs as [-> | ->]; [rewrite Rlt_bool_false|rewrite Rlt_bool_true]; lra).
  destruct (mul_near (sign_d g) z Fsg Fz) as (Fc & Vc & _); [rewrite Vsg'; destruct Hs as [-> | ->]; apply Rabs_le; lra|]. rewrite Vsg' in Vc. set (c := dmul (sign_d g) z) in *.
  assert (Vc' : val c = sg * val z). { rewrite Vc. apply fl_fmt. destruct Hs as [-> | ->]; [rewrite Rmult_1_l; apply fmt_val|]. replace (-1 * val z) with (- val z) by ring. apply fmt_opp, fmt_val. }
  exists c. split; [exact Fc|]. split; [rewrite Vc'; destruct Hs as [-> | ->]; lra|]. split; [reflexivity|]. rewrite Vc'. fold dd. replace (sg * val z - sg * (1 - dd / 3)) with (sg * (val z - (1 - dd / 3))) by ring. rewrite Rabs_mult. replace (Rabs sg) with 1 by (destruct Hs as [-> | ->]; unfold Rabs; destruct Rcase_abs; lra). lra.
Qed.

(** ** The exact profile *)

Definition cap_of (s : R) : R := 1 - (2 - s) * (2 - s) / 3.

Lemma cap_of_lip : forall s t, 0.99 <= s <= 2.05 -> 0.99 <= t <= 2.05 -> Rabs (cap_of s - cap_of t) <= 0.7 * Rabs (s - t).
Proof.
  intros s t Hs Ht. replace (cap_of s - cap_of t) with ((4 - s - t) / 3 * (s - t)) by (unfold cap_of; field). rewrite Rabs_mult. apply Rmult_le_compat_r; [apply Rabs_pos|]. apply Rabs_le. lra.
Qed.

(** [cos_colat] through [s = 4 |y| / pi]. *)
Lemma colat_profile : forall y sg, sg = 1 \/ sg = -1 -> y = sg * Rabs y ->
  cos_colat y = sg * (if Rle_lt_dec (4 * Rabs y / PI) 1 then 2 / 3 * (4 * Rabs y / PI) else cap_of (4 * Rabs y / PI)).
Proof.
  intros y sg Hs Vy. destruct pi_u as (_ & _ & C). unfold cos_colat, cap_of. set (v := Rabs y) in *. assert (V0 : 0 <= v) by apply Rabs_pos.
  assert (Eq : 4 * v / PI * PI = 4 * v) by (field; lra). set (s := 4 * v / PI) in *.
  destruct (Rle_lt_dec v (PI / 4)) as [L|L]; destruct (Rle_lt_dec s 1) as [M|M].
  - rewrite Vy. replace v with (s * PI / 4) by lra. field. lra.
  - exfalso. assert (1 * PI < s * PI) by (apply Rmult_lt_compat_r; lra). lra.
  - exfalso. assert (s * PI <= 1 * PI) by (apply Rmult_le_compat_r; lra). lra.
  - destruct (Rle_lt_dec 0 y) as [P|P]; destruct Hs as [-> | ->]; try lra; field.
Qed.

(** The two profiles nearly agree next to the border. *)
Lemma border : forall s, cap_of s - 2 / 3 * s = - ((1 - s) * (1 - s) / 3).
Proof. intros s. unfold cap_of. field. Qed.

Definition profile (s : R) : R := if Rle_lt_dec s 1 then 2 / 3 * s else cap_of s.

Lemma profile_lip : forall s t, 0 <= s <= 2.05 -> 0 <= t <= 2.05 -> Rabs (profile s - profile t) <= 0.7 * Rabs (s - t).
Proof.
  assert (W : forall s t, 0 <= s <= t -> t <= 2.05 -> Rabs (profile s - profile t) <= 0.7 * (t - s)).
  { intros s t Hs Ht. unfold profile. destruct (Rle_lt_dec s 1) as [L|L]; destruct (Rle_lt_dec t 1) as [M|M].
    - apply Rabs_le. lra.
    - pose proof (cap_of_lip 1 t ltac:(lra) ltac:(lra)) as K. replace (cap_of 1) with (2 / 3) in K by (unfold cap_of; field). rewrite (Rabs_left1 (1 - t)) in K by lra. apply Rabs_le_inv in K. apply Rabs_le. lra.
    - lra.
    - pose proof (cap_of_lip s t ltac:(lra) ltac:(lra)) as K. rewrite (Rabs_left1 (s - t)) in K by lra. lra. }
  intros s t Hs Ht. destruct (Rle_or_lt s t) as [L|L].
  - rewrite (Rabs_left1 (s - t)) by lra. pose proof (W s t ltac:(lra) ltac:(lra)). lra.
  - rewrite (Rabs_pos_eq (s - t)), Rabs_minus_sym by lra. apply W; lra.
Qed.

Lemma colat_signed : forall y, exists sg, (sg = 1 \/ sg = -1) /\ y = sg * Rabs y /\ cos_colat y = sg * profile (4 * Rabs y / PI).
Proof.
  intros y. assert (Hs : exists sg, (sg = 1 \/ sg = -1) /\ y = sg * Rabs y). { unfold Rabs. destruct (Rcase_abs y); [exists (-1)|exists 1]; split; auto; ring. }
  destruct Hs as (sg & Hs & Vy). exists sg. split; [exact Hs|]. split; [exact Vy|]. apply colat_profile; assumption.
Qed.

Lemma height_range : forall y, Rabs y <= 1.6 -> 0 <= 4 * Rabs y / PI <= 2.05.
Proof.
  intros y H. destruct pi_u as (_ & _ & C). pose proof (Rabs_pos y) as P. assert (E : 4 * Rabs y / PI * PI = 4 * Rabs y) by (field; lra). set (s := 4 * Rabs y / PI) in *.
  split; apply Rnot_lt_le; intro N; [assert (s * PI < 0 * PI) by (apply Rmult_lt_compat_r; lra)|assert (2.05 * 3.14 <= s * PI) by (apply Rmult_le_compat; lra)]; lra.
Qed.

Lemma colat_lip : forall y z, Rabs y <= 1.6 -> Rabs z <= 1.6 -> Rabs (cos_colat y - cos_colat z) <= 0.9 * Rabs (y - z).
Proof.
  intros y z Hy Hz. destruct pi_u as (_ & _ & C). destruct (colat_signed y) as (a & Ha & Vy & ->). destruct (colat_signed z) as (b & Hb & Vz & ->). pose proof (height_range y Hy) as Ry. pose proof (height_range z Hz) as Rz.
  pose proof (Rabs_pos y) as Py. pose proof (Rabs_pos z) as Pz. set (v := Rabs y) in *. set (w := Rabs z) in *. set (s := 4 * v / PI) in *. set (t := 4 * w / PI) in *.
  assert (F : 4 * / PI <= 1.28) by (apply Rmult_le_reg_r with PI; [lra|]; rewrite Rmult_assoc, Rinv_l by lra; lra). assert (F0 : 0 < 4 * / PI) by (apply Rmult_lt_0_compat; [lra|apply Rinv_0_lt_compat; lra]).
  assert (K : forall r, 0 <= r -> 0.7 * (4 * / PI * r) <= 0.9 * r). { intros r Hr. assert (4 * / PI * r <= 1.28 * r) by (apply Rmult_le_compat_r; lra). lra. }
  assert (P0 : forall r, 0 <= r <= 2.05 -> Rabs (profile r) <= 0.7 * r). { intros r Hr. pose proof (profile_lip r 0 Hr ltac:(lra)) as L. replace (profile 0) with 0 in L by (unfold profile; destruct (Rle_lt_dec 0 1); lra). rewrite !Rminus_0_r, (Rabs_pos_eq r) in L by lra. exact L. }
  assert (D : forall sg, sg = 1 \/ sg = -1 -> Rabs (sg * profile s - sg * profile t) <= 0.9 * Rabs (sg * v - sg * w)).
  { intros sg Hsg. rewrite <- !Rmult_minus_distr_l, !Rabs_mult. replace (Rabs sg) with 1 by (destruct Hsg as [-> | ->]; unfold Rabs; destruct Rcase_abs; lra). rewrite !Rmult_1_l. eapply Rle_trans; [apply profile_lip; assumption|].
    replace (s - t) with (4 * / PI * (v - w)) by (unfold s, t; field; lra). rewrite Rabs_mult, (Rabs_pos_eq (4 * / PI)) by lra. apply K, Rabs_pos. }
  assert (O : Rabs (profile s + profile t) <= 0.9 * (v + w)). { eapply Rle_trans; [apply Rabs_triang|]. pose proof (P0 s Ry). pose proof (P0 t Rz). pose proof (K v Py). pose proof (K w Pz). replace (4 * / PI * v) with s in * by (unfold s; field; lra). replace (4 * / PI * w) with t in * by (unfold t; field; lra). lra. }
  rewrite Vy, Vz. destruct Ha as [-> | ->]; destruct Hb as [-> | ->].
  - apply (D 1). auto.
  - replace (1 * profile s - -1 * profile t) with (profile s + profile t) by ring. replace (1 * v - -1 * w) with (v + w) by ring. rewrite (Rabs_pos_eq (v + w)) by lra. exact O.
  - replace (-1 * profile s - 1 * profile t) with (- (profile s + profile t)) by ring. replace (-1 * v - 1 * w) with (- (v + w)) by ring. rewrite !Rabs_Ropp, (Rabs_pos_eq (v + w)) by lra. exact O.
  - apply (D (-1)). auto.
Qed.

(** The colatitude that [healpix_xy2ang] returns. *)
Lemma colat_ok : forall arccos x y, near_arccos arccos -> fin y -> Rabs (val y) <= 1.6 ->
  Rabs (cos (val (snd (xy2ang_d arccos x y))) - cos_colat (val y)) <= 34 * u.
Proof.
  intros arccos x y HA Fy Hy. destruct pi_u as (A & B & C). pose proof u_tiny as U. destruct (abs_ok y Fy) as [Fa Va]. destruct quarter_val as [Fq Vq]. pose proof (height_range _ Hy) as HR.
  assert (Es : 4 * Rabs (val y) / PI * PI = 4 * Rabs (val y)) by (field; lra).
  unfold xy2ang_d. assert (Eb : dle (abs_d y) quarter_pi = Rle_bool (Rabs (val y)) (tau / 8)) by (etransitivity; [exact (dle_ok _ _ Fa Fq)|]; rewrite Va, Vq; reflexivity). rewrite Eb. destruct (Rle_bool_spec (Rabs (val y)) (tau / 8)) as [L|L]; cbn [snd].
  - destruct (belt_back arccos y HA Fy L) as (psi & _ & Cp & D). rewrite b48 in D. pose proof (Rle_trans _ _ _ (cos_lip _ _) D) as K. rewrite Cp in K. set (th := cos (val (belt_theta arccos y))) in *.
    destruct (colat_signed (val y)) as (sg & Hs & Vy & ->). set (v := Rabs (val y)) in *. set (s := 4 * v / PI) in *. replace (8 * val y / (3 * PI)) with (sg * (2 / 3 * s)) in K by (rewrite Vy; unfold s; field; lra).
    assert (S1 : s <= 1 + 2 * u). { apply Rnot_lt_le. intro N. assert ((1 + 2 * u) * PI < s * PI) by (apply Rmult_lt_compat_r; lra). assert (2 * u * 3.14 <= 2 * u * PI) by (apply Rmult_le_compat_l; lra). apply Rabs_le_inv in A. lra. }
    assert (Q : Rabs (profile s - 2 / 3 * s) <= 1.4 * u). { unfold profile. destruct (Rle_lt_dec s 1) as [M|M]; [rewrite Rminus_eq_0, Rabs_R0; lra|]. rewrite border, Rabs_Ropp, Rabs_pos_eq by (apply Rmult_le_pos; [apply Rle_0_sqr|lra]). replace ((1 - s) * (1 - s)) with ((s - 1) * (s - 1)) by ring. assert ((s - 1) * (s - 1) <= 1 * (2 * u)) by (apply Rmult_le_compat; lra). lra. }
    assert (Q' : Rabs (sg * profile s - sg * (2 / 3 * s)) <= 1.4 * u). { rewrite <- Rmult_minus_distr_l, Rabs_mult. replace (Rabs sg) with 1 by (destruct Hs as [-> | ->]; unfold Rabs; destruct Rcase_abs; lra). lra. }
    apply Rabs_le_inv in K, Q'. apply Rabs_le. lra.
  - destruct (sigz_wide y Fy ltac:(lra)) as (sg & s & Hs & I & Fg & Vg & Vy & Ed). destruct (cap_cos arccos _ sg s Fg Hs I Vg) as (c & Fc & Bc & Ec & Cc). rewrite Ec. destruct (HA c Fc Bc) as (psi & _ & Cp & D). rewrite b51_u in D. pose proof (Rle_trans _ _ _ (cos_lip _ _) D) as K. rewrite Cp in K. set (th := cos (val (arccos c))) in *.
    rewrite (colat_profile (val y) sg Hs Vy). fold (profile (4 * Rabs (val y) / PI)). set (r := 4 * Rabs (val y) / PI) in *. fold (cap_of s) in Cc.
    assert (R1 : 1 - 2 * u <= r). { apply Rnot_lt_le. intro N. assert (r * PI < (1 - 2 * u) * PI) by (apply Rmult_lt_compat_r; lra). assert (2 * u * 3.14 <= 2 * u * PI) by (apply Rmult_le_compat_l; lra). apply Rabs_le_inv in A. lra. }
    assert (Q : Rabs (profile r - cap_of r) <= 1.4 * u). { unfold profile. destruct (Rle_lt_dec r 1) as [M|M]; [|rewrite Rminus_eq_0, Rabs_R0; lra]. rewrite Rabs_minus_sym, border, Rabs_Ropp, Rabs_pos_eq by (apply Rmult_le_pos; [apply Rle_0_sqr|lra]). assert ((1 - r) * (1 - r) <= 1 * (2 * u)) by (apply Rmult_le_compat; lra). lra. }
    pose proof (cap_of_lip s r ltac:(lra) ltac:(lra)) as L2. assert (T : Rabs (cap_of s - profile r) <= 4.2 * u). { apply Rabs_le_inv in Q, L2. apply Rabs_le. lra. }
    assert (T' : Rabs (sg * cap_of s - sg * profile r) <= 4.2 * u). { rewrite <- Rmult_minus_distr_l, Rabs_mult. replace (Rabs sg) with 1 by (destruct Hs as [-> | ->]; unfold Rabs; destruct Rcase_abs; lra). lra. }
    apply Rabs_le_inv in K, T', Cc. apply Rabs_le. lra.
Qed.
