(** * Theorems: random positions in double precision (C82) *)

From Coq Require Import Reals ZArith List Bool Lia Lra Psatz.
From Flocq Require Import Core IEEE754.BinarySingleNaN Plus_error Relative Sterbenz.
From Verif Require Import Base MHealpixFloat PHealpixFloat SpecDouble MDouble PDouble TDouble.
Import ListNotations.
Open Scope R_scope.

Local Existing Instance p53.
Local Instance fexp_valid : Valid_exp (FLT_exp (-1074) 53).
Proof. apply FLT_exp_valid. reflexivity. Qed.
Local Instance fexp_mono : Monotone_exp (FLT_exp (-1074) 53).
Proof. apply FLT_exp_monotone. Qed.

(** A draw of [np.random.random_sample]. *)
Definition draw (u : double) : Prop := fin u /\ 0 <= val u < 1.

Lemma big : forall x y z, fin y -> fin z -> Rmin (val y) (val z) <= x <= Rmax (val y) (val z) -> Rabs x < b2 1024.
Proof.
  intros x y z Fy Fz H. pose proof (abs_B2R_lt_emax 53 1024 y) as A. pose proof (abs_B2R_lt_emax 53 1024 z) as B.
  change (B2R y) with (val y) in A. change (B2R z) with (val z) in B. apply Rabs_def2 in A. apply Rabs_def2 in B.
  unfold Rmin, Rmax in H. destruct (Rle_dec (val y) (val z)); apply Rabs_def1; lra.
Qed.

(** The steps [(b - a) * u] and [(b - a) * u + a] in doubles. *)
Lemma lerp_d : forall a b u, fin a -> fin b -> fin (dsub b a) -> draw u ->
  let p := dmul (dsub b a) u in
  val (dsub b a) = fl (val b - val a) /\ fin p /\ val p = fl (fl (val b - val a) * val u) /\
  fin (dadd p a) /\ fin (dadd a p) /\ val (dadd p a) = fl (val p + val a) /\ val (dadd a p) = fl (val p + val a) /\
  Rmin (val a) (val b) <= val (dadd p a) <= Rmax (val a) (val b).
Proof.
  intros a b u Fa Fb Fd [Fu Hu] p. pose proof (dsub_fin b a Fb Fa Fd) as Ov. destruct (dsub_ok b a Fb Fa Ov) as [_ D].
  destruct (lerp (val a) (val b) (val u)) as [L1 L2]; auto using fmt_val.
  destruct (dmul_ok (dsub b a) u Fd Fu) as [P1 P2]; [rewrite D; apply Rle_lt_trans with (1 := L1); exact Ov|]. fold p in P1, P2. rewrite D in P2.
  rewrite <- P2 in L2. assert (O2 : Rabs (fl (val p + val a)) < b2 1024) by (apply (big _ a b); auto).
  destruct (dadd_ok p a P1 Fa O2) as [A1 A2]. destruct (dadd_ok a p Fa P1) as [B1 B2]; [rewrite Rplus_comm; exact O2|]. rewrite Rplus_comm in B2.
  rewrite A2. auto 10.
Qed.

(** ** Longitudes *)

(** Longitudes of both generators stay between the limits, limits included,
    whichever is the larger; from 0 upwards the upper limit is never drawn. *)
Theorem C82_longitude : forall cos arccos ur uphi utheta r_min r_max a b theta_min theta_max,
  fin a -> fin b -> fin (dsub b a) -> draw uphi ->
  forall phi, phi = snd (randoms_polar_d ur uphi r_min r_max a b) \/ phi = fst (randoms_usphere_d cos arccos uphi utheta a b theta_min theta_max) ->
  fin phi /\ Rmin (val a) (val b) <= val phi <= Rmax (val a) (val b) /\ (val a = 0 -> b2 (-1021) <= val b -> val phi < val b).
Proof.
  intros cos arccos ur u ut r0 r1 a b t0 t1 Fa Fb Fd Du phi Hphi. destruct (lerp_d a b u Fa Fb Fd Du) as (D & P1 & P2 & A1 & A2 & V1 & V2 & R).
  cbn [randoms_polar_d randoms_usphere_d fst snd] in Hphi. set (p := dmul (dsub b a) u) in *.
  assert (E : fin phi /\ val phi = fl (val p + val a)) by (destruct Hphi as [-> | ->]; auto). destruct E as [F E]. split; [exact F|].
  rewrite E. rewrite V1 in R. split; [exact R|]. intros Z B. rewrite Z, Rplus_0_r, P2, Z, Rminus_0_r.
  rewrite (fl_fmt (val b)) by apply fmt_val. rewrite fl_fmt by apply fmt_fl. destruct Du as [Fu Hu]. apply scaled_lt; auto using fmt_val.
Qed.
Print Assumptions C82_longitude.

(** "Longitudes are below the upper limit" fails in general: one draw gives
    exactly [phi_max] (1 to 2, the largest draw). *)
Theorem C82_upper_limit_refuted : exists u a b, draw u /\ fin a /\ fin b /\ val a < val b /\
  forall ur r_min r_max cos arccos utheta theta_min theta_max,
  snd (randoms_polar_d ur u r_min r_max a b) = b /\ fst (randoms_usphere_d cos arccos u utheta a b theta_min theta_max) = b.
Proof.
  exists (dbl 9007199254740991 (-53)), (dbl 1 0), (dbl 2 0).
  destruct (val_pos_dbl (dbl 9007199254740991 (-53)) 9007199254740991 (-53) ltac:(vm_compute; reflexivity)) as [F V].
  destruct (val_pos_dbl (dbl 1 0) 4503599627370496 (-52) ltac:(vm_compute; reflexivity)) as [F1 V1].
  destruct (val_pos_dbl (dbl 2 0) 4503599627370496 (-51) ltac:(vm_compute; reflexivity)) as [F2 V2].
  assert (P : forall e, 0 < b2 e) by (intros; apply bpow_gt_0).
  split; [split; [exact F|]|].
  { rewrite V. split; [apply Rmult_le_pos; [apply IZR_le; discriminate|left; apply P]|].
    apply Rmult_lt_reg_r with (b2 53); [apply P|]. rewrite Rmult_assoc, <- bpow_plus. change (b2 (-53 + 53)) with 1. rewrite Rmult_1_r, Rmult_1_l.
    change (b2 53) with (IZR 9007199254740992). apply IZR_lt. reflexivity. }
  split; [exact F1|]. split; [exact F2|]. split.
  { rewrite V1, V2. apply Rmult_lt_compat_l; [apply IZR_lt; reflexivity|]. apply bpow_lt. lia. }
  intros. cbn [randoms_polar_d randoms_usphere_d fst snd]. split; apply B2SF_inj; vm_compute; reflexivity.
Qed.
Print Assumptions C82_upper_limit_refuted.

(** ** Radii *)

(** The radius stays between its limits, limits included. *)
Theorem C82_radius : forall ur uphi r_min r_max a b, fin r_min -> fin r_max -> draw ur ->
  (val r_min = 0 \/ b2 (-511) <= val r_min) -> val r_min <= val r_max -> b2 (-511) <= val r_max <= b2 511 ->
  let r := fst (randoms_polar_d ur uphi r_min r_max a b) in fin r /\ val r_min <= val r <= val r_max.
Proof.
  intros ur uphi r0 r1 a b F0 F1 Du H0 H01 H1 r. pose proof (bpow_gt_0 radix2 (-511)) as PB. assert (P0 : 0 <= val r0) by lra.
  destruct (sq_ok r0 F0) as (S1 & S2 & S3); [rewrite Rabs_pos_eq by lra; lra|]. destruct (sq_ok r1 F1) as (T1 & T2 & T3); [rewrite Rabs_pos_eq by lra; lra|].
  assert (M : val (sq r0) <= val (sq r1)) by (rewrite S2, T2; apply fl_mono; nra).
  assert (Fd : fin (dsub (sq r1) (sq r0))).
  { apply dsub_ok; auto. rewrite Rabs_pos_eq by (apply fl_ge; [apply fl_fmt, fmt_0|lra]).
    apply Rle_lt_trans with (b2 1022); [|apply bpow_lt; lia]. apply fl_le; [apply fl_fmt, fmt_b2; lia|lra]. }
  destruct (lerp_d (sq r0) (sq r1) ur S1 T1 Fd Du) as (D & _ & _ & A1 & _ & _ & _ & R). rewrite Rmin_left, Rmax_right in R by lra.
  cbn [randoms_polar_d fst] in r. set (v := dadd _ (sq r0)) in *. destruct (dsqrt_ok v A1 ltac:(lra)) as [Q1 Q2]. split; [exact Q1|].
  unfold r. rewrite Q2. split.
  - destruct H0 as [Z|H0]; [rewrite Z; apply fl_ge; [apply fl_fmt, fmt_0|apply sqrt_pos]|].
    rewrite <- (sqrt_of_square (val r0)) by (auto; apply fmt_val). apply fl_mono, sqrt_le_1_alt. rewrite <- S2. lra.
  - rewrite <- (sqrt_of_square (val r1)) by (lra || apply fmt_val). apply fl_mono, sqrt_le_1_alt. rewrite <- T2. lra.
Qed.
Print Assumptions C82_radius.

(** The limits on the sizes are needed: squares underflow or overflow. *)
Theorem C82_tiny_radius_refuted : exists r0, fin r0 /\ 0 < val r0 /\ forall uphi a b,
  let r := fst (randoms_polar_d dzero uphi r0 r0 a b) in fin r /\ val r < val r0.
Proof.
  exists (dbl 3 (-538)). destruct (val_pos_dbl (dbl 3 (-538)) 6755399441055744 (-589) ltac:(vm_compute; reflexivity)) as [F V].
  split; [exact F|]. split; [rewrite V; apply Rmult_lt_0_compat; [apply IZR_lt; reflexivity|apply bpow_gt_0]|]. intros u a b. cbn [randoms_polar_d fst].
  set (r := dsqrt _). destruct (val_pos_dbl r 6369051672525773 (-589) ltac:(vm_compute; reflexivity)) as [Fr Vr]. split; [exact Fr|].
  rewrite Vr, V. apply Rmult_lt_compat_r; [apply bpow_gt_0|apply IZR_lt; reflexivity].
Qed.
Print Assumptions C82_tiny_radius_refuted.

Theorem C82_huge_radius_refuted : exists r1 u, fin r1 /\ draw u /\ forall uphi a b,
  fst (randoms_polar_d u uphi dzero r1 a b) = B754_infinity false.
Proof.
  exists (dbl 1 512), (dbl 1 (-1)). split; [reflexivity|].
  destruct (val_pos_dbl (dbl 1 (-1)) 4503599627370496 (-53) ltac:(vm_compute; reflexivity)) as [F V]. split.
  { split; [exact F|]. rewrite V. change (IZR 4503599627370496) with (b2 52). rewrite <- bpow_plus. change (b2 (52 + -53)) with (/ 2). lra. }
  intros. cbn [randoms_polar_d fst]. apply B2SF_inj. vm_compute. reflexivity.
Qed.
Print Assumptions C82_huge_radius_refuted.

(** ** Colatitudes *)

(** The colatitude is a number in [[0, pi]], never NaN, whatever the limits: the
    cosine of the new point never leaves [[-1, 1]]. *)
Theorem C82_colatitude : forall cos arccos uphi utheta a b theta_min theta_max, cos_ok cos -> arccos_ok arccos ->
  fin theta_min -> fin theta_max -> draw utheta ->
  let theta := snd (randoms_usphere_d cos arccos uphi utheta a b theta_min theta_max) in
  fin theta /\ 0 <= val theta <= tau / 2 /\
  exists c, theta = arccos c /\ fin c /\ Rmin (val (cos theta_min)) (val (cos theta_max)) <= val c <= Rmax (val (cos theta_min)) (val (cos theta_max)).
Proof.
  intros cos arccos up ut a b t0 t1 HC HA F0 F1 [Fu Hu] theta. destruct (HC t0 F0) as [C1 C2]. destruct (HC t1 F1) as [D1 D2].
  cbn [randoms_usphere_d snd] in theta. set (c0 := cos t0) in *. set (c1 := cos t1) in *.
  assert (two : forall x, Rabs x <= 2 -> Rabs (fl x) < b2 1024).
  { intros x Hx. apply small_b2. apply Rabs_le_inv in Hx. apply Rle_trans with 2; [|lra]. apply Rabs_le.
    split; [apply fl_ge|apply fl_le]; try lra; [replace (-2) with (- (2)) by ring|]; apply fl_fmt; try apply fmt_opp; apply (fmt_b2 1); lia. }
  destruct (dsub_ok c0 c1 C1 D1) as [S1 S2]; [apply two, Rabs_le; lra|].
  destruct (lerp (- val c0) (- val c1) (val ut)) as [L1 L2]; auto using fmt_val, fmt_opp.
  replace (- val c1 - - val c0) with (val c0 - val c1) in L1, L2 by ring.
  assert (B2' : Rabs (fl (val c0 - val c1)) <= 2).
  { apply Rabs_le. split; [apply fl_ge|apply fl_le]; try lra; [replace (-2) with (- (2)) by ring|]; apply fl_fmt; try apply fmt_opp; apply (fmt_b2 1); lia. }
  destruct (dmul_ok (dsub c0 c1) ut S1 Fu) as [P1 P2]; [rewrite S2; apply small_b2; lra|]. rewrite S2 in P2. rewrite <- P2 in L2.
  set (p := dmul (dsub c0 c1) ut) in *.
  assert (L3 : Rmin (val c0) (val c1) <= fl (val c0 - val p) <= Rmax (val c0) (val c1)).
  { replace (val p + - val c0) with (- (val c0 - val p)) in L2 by ring. rewrite fl_opp in L2.
    unfold Rmin, Rmax in *. destruct (Rle_dec (- val c0) (- val c1)), (Rle_dec (val c0) (val c1)); lra. }
  assert (L4 : -1 <= fl (val c0 - val p) <= 1) by (unfold Rmin, Rmax in L3; destruct (Rle_dec (val c0) (val c1)); lra).
  destruct (dsub_ok c0 p C1 P1) as [Q1 Q2]; [apply small_b2, Rabs_le; lra|]. set (c := dsub c0 p) in *. rewrite <- Q2 in L3, L4.
  destruct (proj1 (HA c Q1) L4) as [R1 R2]. split; [exact R1|]. split; [exact R2|]. exists c. auto.
Qed.
Print Assumptions C82_colatitude.

(** Non-vacuity: half draws on the upper half of a ring of radii 1/2 to 1. *)
Example C82_example : draw (dbl 1 (-1)) /\ fin (dsub pi_d dzero) /\ cos_ok (fun _ => dzero) /\
  val (dbl 1 (-1)) = b2 (-1) /\ b2 (-511) <= val (dbl 1 (-1)) <= b2 511 /\
  B2SF (snd (randoms_polar_d dzero (dbl 1 (-1)) (dbl 1 (-1)) (dbl 1 0) dzero pi_d)) = B2SF (ddiv pi_d (dbl 2 0)).
Proof.
  destruct (val_pos_dbl (dbl 1 (-1)) 4503599627370496 (-53) ltac:(vm_compute; reflexivity)) as [F V].
  assert (V' : val (dbl 1 (-1)) = b2 (-1)) by (rewrite V; change (IZR 4503599627370496) with (b2 52); rewrite <- bpow_plus; reflexivity).
  split; [split; [exact F|rewrite V'; change (b2 (-1)) with (/ 2); lra]|]. split; [vm_compute; reflexivity|].
  split; [intros x _; rewrite val_zero; split; [apply fin_zero|lra]|]. split; [exact V'|]. split; [rewrite V'; split; apply bpow_le; lia|].
  vm_compute. reflexivity.
Qed.
