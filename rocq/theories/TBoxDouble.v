(** * Theorems: boxes in double precision *)

From Coq Require Import Reals ZArith List Bool Lia Lra Classical_Prop.
From Flocq Require Import Core IEEE754.BinarySingleNaN.
From Verif Require Import Base BaseP SpecShapes SpecShapesDouble SpecBoxDouble MHealpixFloat PHealpixFloat SpecDouble MDouble PDouble MGridsDouble PGridsDouble TGridsDouble MShapes PShapes MShapesDouble PShapesDouble PShapesDouble2 PLibmDouble MBoxDouble PBoxDouble.
Import ListNotations.
Open Scope R_scope.

(** Each of the twelve edges once, the points exactly on it, the ends exact. *)
Theorem C102_edges : forall D m center, dbox_ok D -> (1 <= m <= 2 ^ 50)%Z -> exists rows es,
  get_box_d (dx0 D) (dx1 D) (dy0 D) (dy1 D) (dz0 D) (dz1 D) (12 * m) false center = Ok rows /\
  Forall2 (row_ok D (Z.to_nat m)) es rows /\ NoDup es /\ forall e, In e es.
Proof.
  intros D m center HD Hm. pose proof HD as (Ax & Ay & Az). destruct (side_up _ _ m (axis_span _ _ Ax) Hm) as (xa & Ex & Sx). destruct (side_up _ _ m (axis_span _ _ Ay) Hm) as (ya & Ey & Sy). destruct (side_up _ _ m (axis_span _ _ Az) Hm) as (za & Ez & Sz).
  exists (map (row_d D xa ya za m) all_edges), all_edges. split; [|split; [|split; [apply all_edges_NoDup|apply all_edges_full]]].
  - unfold get_box_d, py_assert. destruct (steps12z m ltac:(lia)) as [-> ->]. cbn [bind]. rewrite Ex. cbn [bind]. rewrite Ey. cbn [bind]. rewrite Ez. reflexivity.
  - assert (F : forall l, Forall2 (row_ok D (Z.to_nat m)) l (map (row_d D xa ya za m) l)) by (induction l as [|e l IH]; cbn [map]; constructor; [apply row_d_ok; assumption|exact IH]). apply F.
Qed.
Print Assumptions C102_edges.

Theorem C102_refused : forall D steps nearest center, (steps mod 12 <> 0)%Z \/ (steps <= 0)%Z ->
  get_box_d (dx0 D) (dx1 D) (dy0 D) (dy1 D) (dz0 D) (dz1 D) steps nearest center = Err AssertionError.
Proof.
  intros D steps nearest center H. unfold get_box_d, py_assert. destruct (Z.eqb_spec (steps mod 12) 0); [|reflexivity].
  destruct (Z.ltb_spec 0 steps); [|reflexivity]. exfalso. destruct H; lia.
Qed.
Print Assumptions C102_refused.

Lemma last_dbl : forall (l : list double) m, length l = m -> last l dzero = nth (m - 1) l dzero.
Proof. intros l m <-. destruct l as [|a l] using rev_ind; [reflexivity|rewrite last_last, app_length; cbn; rewrite app_nth2 by lia; replace (_ - _)%nat with 0%nat by lia; reflexivity]. Qed.

Lemma Forall2_filter : forall A B (P : A -> B -> Prop) (f : B -> A) (t : B -> bool) (l : list B), (forall e, In e l -> P (f e) e) -> Forall2 P (map f (filter t l)) (filter t l).
Proof. intros A B P f t l. induction l as [|e l IH]; intros H; cbn; [constructor|]. destruct (t e); cbn; [constructor; [apply H; now left|]|]; apply IH; intros e' I; apply H; now right. Qed.

Lemma keep_iff : forall (p q : bool) (A B : Prop), (p = true <-> A) -> (q = true <-> B) -> negb (p || q) = true <-> ~ A /\ ~ B.
Proof. intros [] [] A B H1 H2; cbn; intuition congruence. Qed.

(** With [return_nearest] an edge is kept exactly when none of the rounded
    samples of the lines of sight to its two ends is inside the box. *)
Theorem C102_nearest : forall D m c0 c1 c2, dbox_ok D -> (1 <= m <= 2 ^ 50)%Z -> moderate c0 -> moderate c1 -> moderate c2 -> exists rows kept,
  get_box_d (dx0 D) (dx1 D) (dy0 D) (dy1 D) (dz0 D) (dz1 D) (12 * m) true [c0; c1; c2] = Ok rows /\
  Forall2 (fun row e => row_ok D (Z.to_nat m) e row) rows kept /\ NoDup kept /\
  forall e, In e kept <-> ~ struck (values D) (val c0, val c1, val c2) (edge_point (values D) e 0) /\
                          ~ struck (values D) (val c0, val c1, val c2) (edge_point (values D) e (fraction (Z.to_nat m) (Z.to_nat m - 1))).
Proof.
  intros D m c0 c1 c2 HD Hm M0 M1 M2. pose proof HD as (Ax & Ay & Az). destruct (side_up _ _ m (axis_span _ _ Ax) Hm) as (xa & Ex & Sx). destruct (side_up _ _ m (axis_span _ _ Ay) Hm) as (ya & Ey & Sy). destruct (side_up _ _ m (axis_span _ _ Az) Hm) as (za & Ez & Sz).
  destruct samples_ok as (t & Et & _ & _). set (M := Z.to_nat m) in *. assert (HM : (1 <= M)%nat) by (unfold M; lia).
  set (corners := box_corners_d (dx0 D) (dx1 D) (dy0 D) (dy1 D) (dz0 D) (dz1 D)). set (rc := remove_corner_d (dx0 D) (dx1 D) (dy0 D) (dy1 D) (dz0 D) (dz1 D) c0 c1 c2 t).
  set (keep := fun row : list double * list double * list double => let '(rx, ry, rz) := row in
      negb (nth (argmin_d (corner_dist_d corners (nth 0 rx dzero) (nth 0 ry dzero) (nth 0 rz dzero))) (map rc corners) false
         || nth (argmin_d (corner_dist_d corners (last rx dzero) (last ry dzero) (last rz dzero))) (map rc corners) false)).
  set (f := row_d D xa ya za m). assert (RO : forall e, row_ok D M e (f e)) by (intro e; apply row_d_ok; assumption).
  exists (map f (filter (fun e => keep (f e)) all_edges)), (filter (fun e => keep (f e)) all_edges). split; [|split; [apply Forall2_filter; intros e _; apply RO|split; [apply NoDup_filter, all_edges_NoDup|]]].
  - unfold get_box_d, py_assert. destruct (steps12z m ltac:(lia)) as [-> ->]. cbn [bind]. rewrite Ex. cbn [bind]. rewrite Ey. cbn [bind]. rewrite Ez. cbn [bind]. rewrite Et. cbn [bind].
    change (py_get [c0; c1; c2] 0) with (Ok c0). change (py_get [c0; c1; c2] 1) with (Ok c1). change (py_get [c0; c1; c2] 2) with (Ok c2). cbn [bind].
    f_equal. rewrite <- filter_map. reflexivity.
  - intros e. rewrite filter_In. specialize (RO e). unfold keep. destruct (f e) as [[rx ry] rz]. destruct RO as (Lx & Ly & Lz & I). rewrite (last_dbl rx M Lx), (last_dbl ry M Ly), (last_dbl rz M Lz).
    destruct (I 0%nat dzero ltac:(lia)) as (Fx & Fy & Fz & _ & _ & P0 & _). specialize (P0 eq_refl). destruct (I (M - 1)%nat dzero ltac:(lia)) as (Gx & Gy & Gz & _ & _ & P1' & P1). specialize (P1 eq_refl).
    assert (T : fraction M (M - 1) = 0 \/ fraction M (M - 1) = 1) by (destruct (Nat.eq_dec M 1) as [->|Hm1]; [left; reflexivity|right; apply fraction_last; lia]).
    assert (P1e : (val (nth (M - 1) rx dzero), val (nth (M - 1) ry dzero), val (nth (M - 1) rz dzero)) = edge_point (values D) e (fraction M (M - 1))). { destruct (Nat.eq_dec M 1) as [E1|E1]; [rewrite E1 in *; change (fraction 1 (1 - 1)) with 0; apply P1'; reflexivity|]. rewrite fraction_last by lia. apply P1. lia. }
    assert (K : forall (x y z : double) q, q = 0 \/ q = 1 -> fin x -> fin y -> fin z -> (val x, val y, val z) = edge_point (values D) e q ->
      nth (argmin_d (corner_dist_d corners x y z)) (map rc corners) false = true <-> struck (values D) (val c0, val c1, val c2) (edge_point (values D) e q)).
    { intros x y z q Hq Fx' Fy' Fz' Eq. pose proof (edge_end_corner (values D) e q Hq) as J. rewrite <- Eq in J. change (In (vals (x, y, z)) (map vals corners)) in J.
      assert (Mo : moderate x /\ moderate y /\ moderate z). { apply in_map_iff in J. destruct J as ([[a b] c] & Ev & Ic). destruct (corners_limit D (a, b, c) HD Ic) as (((_ & Ba) & _) & ((_ & Bb) & _) & ((_ & Bc) & _)). injection Ev as E1 E2 E3. rewrite E1 in Ba. rewrite E2 in Bb. rewrite E3 in Bc. repeat split; assumption. }
      destruct Mo as (Mx & My & Mz). destruct (nearest_corner_d D x y z HD Mx My Mz J) as [L N]. fold corners in L, N. set (j := argmin_d (corner_dist_d corners x y z)) in *.
      rewrite (nth_map_lt _ _ rc corners _ false (dzero, dzero, dzero)) by exact L. pose proof (remove_ok D c0 c1 c2 t _ HD M0 M1 M2 Et (nth_In corners (dzero, dzero, dzero) L)) as R. rewrite (eq_trans N Eq) in R. exact R. }
    pose proof (K _ _ _ 0 (or_introl eq_refl) Fx Fy Fz P0) as K0. pose proof (K _ _ _ _ T Gx Gy Gz P1e) as K1. pose proof (keep_iff _ _ _ _ K0 K1) as KI. split; [intros [_ H]; exact (proj1 KI H)|]. intros H. split; [apply all_edges_full|exact (proj2 KI H)].
Qed.
Print Assumptions C102_nearest.

(** ** Seen from the default centre, the origin *)

Lemma seen_origin : forall p k, (k < 100)%nat -> fl p = p -> (0 <= p -> rounded_sight 0 p k <= p) /\ (p <= 0 -> p <= rounded_sight 0 p k).
Proof.
  intros p k Hk Fp. destruct samples_ok as (t & _ & _ & V). destruct (V k Hk) as (_ & _ & B). unfold rounded_sight. change nearest_double with fl. rewrite Rminus_0_r, Rplus_0_r, Fp. rewrite (fl_fmt (fl (sample k * p))) by apply fmt_fl. split; intros H.
  - apply fl_le; [exact Fp|]. rewrite <- (Rmult_1_l p) at 2. apply Rmult_le_compat_r; lra.
  - apply fl_ge; [exact Fp|]. assert ((1 - sample k) * - p >= 0) by (apply Rle_ge, Rmult_le_pos; lra). lra.
Qed.

Lemma axis_t : forall lo hi p, lo < hi -> p = lo /\ lo < 0 \/ p = hi /\ 0 < hi -> exists t0, 0 <= t0 < 1 /\ forall t, t0 < t < 1 -> lo < 0 + t * (p - 0) < hi.
Proof.
  intros lo hi p L [[-> H]|[-> H]].
  - exists (Rmax 0 (hi / lo)). assert (Q : hi / lo < 1) by (apply Rmult_lt_reg_r with (- lo); [lra|]; replace (hi / lo * - lo) with (- hi) by (field; lra); lra). split; [split; [apply Rmax_l|apply Rmax_lub_lt; lra]|].
    intros t [T1 T2]. pose proof (Rmax_l 0 (hi / lo)). pose proof (Rmax_r 0 (hi / lo)). assert (A : 0 < (1 - t) * - lo) by (apply Rmult_lt_0_compat; lra). assert (B : (t - hi / lo) * - lo > 0) by (apply Rmult_lt_0_compat; lra). replace ((t - hi / lo) * - lo) with (hi - t * lo) in B by (field; lra). lra.
  - exists (Rmax 0 (lo / hi)). assert (Q : lo / hi < 1) by (apply Rmult_lt_reg_r with hi; [lra|]; replace (lo / hi * hi) with lo by (field; lra); lra). split; [split; [apply Rmax_l|apply Rmax_lub_lt; lra]|].
    intros t [T1 T2]. pose proof (Rmax_l 0 (lo / hi)). pose proof (Rmax_r 0 (lo / hi)). assert (A : 0 < (1 - t) * hi) by (apply Rmult_lt_0_compat; lra). assert (B : (t - lo / hi) * hi > 0) by (apply Rmult_lt_0_compat; lra). replace ((t - lo / hi) * hi) with (t * hi - lo) in B by (field; lra). lra.
Qed.

Lemma struck_hidden : forall D e q, dbox_ok D -> q = 0 \/ q = 1 -> struck (values D) (0, 0, 0) (edge_point (values D) e q) -> hidden (values D) (0, 0, 0) (edge_point (values D) e q).
Proof.
  intros D e q HD Hq S. pose proof (edge_end_corner (values D) e q Hq) as J. destruct (edge_point (values D) e q) as [[x y] z]. change (In (x, y, z) (map vals (box_corners_d (dx0 D) (dx1 D) (dy0 D) (dy1 D) (dz0 D) (dz1 D)))) in J.
  apply in_map_iff in J. destruct J as ([[a b] c] & Ev & Ic). destruct (corners_limit D (a, b, c) HD Ic) as ((_ & La) & (_ & Lb) & (_ & Lc)). injection Ev as <- <- <-. destruct S as (k & Hk & (I1 & I2 & I3)). cbn [values bx0 bx1 by0 by1 bz0 bz1] in *. destruct HD as (Ax & Ay & Az).
  assert (G : forall lo hi v, axis_ok lo hi -> val v = val lo \/ val v = val hi -> val lo < rounded_sight 0 (val v) k < val hi -> val v = val lo /\ val lo < 0 \/ val v = val hi /\ 0 < val hi).
  { intros lo hi v A Hv HI. destruct (seen_origin (val v) k Hk (fl_fmt _ (fmt_val v))) as [U W]. destruct Hv as [Hv|Hv]; rewrite Hv in *.
    - left. split; [reflexivity|]. destruct (Rlt_or_le (val lo) 0) as [N|N]; [exact N|]. specialize (U N). lra.
    - right. split; [reflexivity|]. destruct (Rlt_or_le 0 (val hi)) as [N|N]; [exact N|]. specialize (W N). lra. }
  destruct (axis_t _ _ _ (axis_lt _ _ Ax) (G _ _ _ Ax La I1)) as (tx & Tx & Hx). destruct (axis_t _ _ _ (axis_lt _ _ Ay) (G _ _ _ Ay Lb I2)) as (ty & Ty & Hy). destruct (axis_t _ _ _ (axis_lt _ _ Az) (G _ _ _ Az Lc I3)) as (tz & Tz & Hz).
  set (s := Rmax tx (Rmax ty tz)). assert (S1 : s < 1) by (apply Rmax_lub_lt; [lra|apply Rmax_lub_lt; lra]). assert (S2 : tx <= s) by apply Rmax_l. assert (S3 : ty <= s) by (apply Rle_trans with (2 := Rmax_r _ _), Rmax_l). assert (S4 : tz <= s) by (apply Rle_trans with (2 := Rmax_r _ _), Rmax_r).
  exists ((s + 1) / 2). split; [lra|]. unfold sight, inside. cbn [values bx0 bx1 by0 by1 bz0 bz1]. split; [apply Hx; lra|]. split; [apply Hy; lra|apply Hz; lra].
Qed.

(** Rounding never removes an edge in plain view: what is removed is hidden. *)
Theorem C102_origin : forall D m c0 c1 c2, dbox_ok D -> (1 <= m <= 2 ^ 50)%Z -> fin c0 -> fin c1 -> fin c2 -> val c0 = 0 -> val c1 = 0 -> val c2 = 0 -> exists rows kept,
  get_box_d (dx0 D) (dx1 D) (dy0 D) (dy1 D) (dz0 D) (dz1 D) (12 * m) true [c0; c1; c2] = Ok rows /\
  Forall2 (fun row e => row_ok D (Z.to_nat m) e row) rows kept /\ NoDup kept /\
  forall e s, ~ In e kept -> 0 < s < 1 -> hidden (values D) (0, 0, 0) (edge_point (values D) e s).
Proof.
  intros D m c0 c1 c2 HD Hm F0 F1 F2 V0 V1 V2. assert (Mo : forall c, fin c -> val c = 0 -> moderate c) by (intros c F V; split; [exact F|]; rewrite V, Rabs_R0; apply bpow_ge_0).
  destruct (C102_nearest D m c0 c1 c2 HD Hm (Mo _ F0 V0) (Mo _ F1 V1) (Mo _ F2 V2)) as (rows & kept & E & F & ND & K). exists rows, kept. split; [exact E|]. split; [exact F|]. split; [exact ND|]. rewrite V0, V1, V2 in K.
  intros e s Hn Hs. set (M := Z.to_nat m) in *. assert (T : fraction M (M - 1) = 0 \/ fraction M (M - 1) = 1) by (destruct (Nat.eq_dec M 1) as [->|Hm1]; [left; reflexivity|right; apply fraction_last; unfold M in *; lia]).
  destruct (Classical_Prop.classic (struck (values D) (0, 0, 0) (edge_point (values D) e 0))) as [H0|H0].
  - apply (hidden_end_edge _ _ e 0); auto. apply struck_hidden; auto.
  - destruct (Classical_Prop.classic (struck (values D) (0, 0, 0) (edge_point (values D) e (fraction M (M - 1))))) as [H1|H1].
    + apply (hidden_end_edge _ _ e (fraction M (M - 1))); auto. apply struck_hidden; auto.
    + exfalso. apply Hn, K. now split.
Qed.
Print Assumptions C102_origin.

Lemma seen_start : forall c p, fl c = c -> rounded_sight c p 0 = c.
Proof. intros c p Fc. unfold rounded_sight, sample. cbn [Nat.eqb INR]. change nearest_double with fl. rewrite Rmult_0_l, (fl_fmt 0 fmt_0), Rmult_0_l, (fl_fmt 0 fmt_0), Rplus_0_l. exact Fc. Qed.

(** From inside everything is removed. *)
Theorem C102_inside : forall D m c0 c1 c2, dbox_ok D -> (1 <= m <= 2 ^ 50)%Z -> moderate c0 -> moderate c1 -> moderate c2 -> inside (values D) (val c0, val c1, val c2) ->
  get_box_d (dx0 D) (dx1 D) (dy0 D) (dy1 D) (dz0 D) (dz1 D) (12 * m) true [c0; c1; c2] = Ok [].
Proof.
  intros D m c0 c1 c2 HD Hm M0 M1 M2 Hin. destruct (C102_nearest D m c0 c1 c2 HD Hm M0 M1 M2) as (rows & kept & E & F & _ & K). rewrite E. destruct F as [|row e rows kept _ _]; [reflexivity|]. exfalso. destruct (proj1 (K e) (or_introl eq_refl)) as [N _]. apply N.
  destruct (edge_point (values D) e 0) as [[x y] z]. exists 0%nat. split; [lia|]. rewrite !seen_start by (apply fl_fmt, fmt_val). exact Hin.
Qed.
Print Assumptions C102_inside.

(** ** Elsewhere rounding removes edges in plain view *)

(** The double 0.1. *)
Definition tenth : double := dbl 3602879701896397 (-55).
Definition cube : dbox := DBox tenth (dint 1) tenth (dint 1) tenth (dint 1).

Lemma cube_ok : dbox_ok cube /\ moderate (dint (-1)) /\ val tenth = IZR 3602879701896397 * b2 (-55).
Proof.
  destruct (dbl_ok 3602879701896397 (-55) ltac:(lia) ltac:(lia)) as [Ft Vt]. destruct (dint_ok 1 ltac:(lia)) as [F1 V1]. destruct (dint_ok (-1) ltac:(lia)) as [Fm Vm]. fold tenth in Ft, Vt.
  assert (B : 1 <= b2 500) by (change 1 with (b2 0); apply bpow_le; lia). assert (C : b2 (-500) <= / 2) by (change (/ 2) with (b2 (-1)); apply bpow_le; lia).
  assert (T : 0 < val tenth < / 4). { rewrite Vt. change (b2 (-55)) with (/ IZR (Zpos (2 ^ 55))). assert (0 < IZR (Zpos (2 ^ 55))) by (apply IZR_lt; lia). split; [apply Rmult_lt_0_compat; [apply IZR_lt; lia|apply Rinv_0_lt_compat; assumption]|]. apply Rmult_lt_reg_r with (IZR (Zpos (2 ^ 55))); [assumption|]. rewrite Rmult_assoc, Rinv_l by lra. apply Rmult_lt_reg_l with 4; [lra|]. replace (4 * (/ 4 * IZR (Zpos (2 ^ 55)))) with (IZR (Zpos (2 ^ 55))) by field. rewrite Rmult_1_r, <- mult_IZR. apply IZR_lt. lia. }
  assert (A : axis_ok tenth (dint 1)). { split; [split; [exact Ft|rewrite Rabs_pos_eq; lra]|]. split; [split; [exact F1|rewrite V1, Rabs_R1; exact B]|]. rewrite V1. lra. }
  split; [split; [exact A|split; exact A]|]. split; [|exact Vt]. split; [exact Fm|]. rewrite Vm. replace (-1) with (- (1)) by ring. rewrite Rabs_Ropp, Rabs_R1. exact B.
Qed.

Lemma corner_seen : forall B c e s, edge_point B e 0 = (bx0 B, by0 B, bz0 B) -> c < bx0 B -> c < by0 B -> c < bz0 B -> bx0 B < bx1 B -> by0 B < by1 B -> bz0 B < bz1 B ->
  ~ hidden B (c, c, c) (edge_point B e s).
Proof.
  intros [x0 x1 y0 y1 z0 z1] c e s He C1 C2 C3 L1 L2 L3 (t & Ht & HI). cbn [bx0 bx1 by0 by1 bz0 bz1] in *. unfold edge_point, sight, inside, side in *. cbn [bx0 bx1 by0 by1 bz0 bz1] in *.
  assert (T : forall w, c < w -> t * (w - c) <= 1 * (w - c)) by (intros w Hw; apply Rmult_le_compat_r; lra). pose proof (T x0 C1). pose proof (T y0 C2). pose proof (T z0 C3).
  destruct e as [[[] []] v]; pose proof (f_equal (fun q => fst (fst q)) He); pose proof (f_equal (fun q => snd (fst q)) He); pose proof (f_equal snd He); cbn [fst snd] in *; lra.
Qed.

(** User expectation: an edge that is not hidden is kept.  Seen from
    (-1, -1, -1), the three edges of the cube from 0.1 to 1 that meet in the
    corner nearest to the viewer are removed. *)
Theorem C102_visible_refuted : exists D c m rows kept, dbox_ok D /\ moderate c /\ (1 <= m)%Z /\
  get_box_d (dx0 D) (dx1 D) (dy0 D) (dy1 D) (dz0 D) (dz1 D) (12 * m) true [c; c; c] = Ok rows /\
  Forall2 (fun row e => row_ok D (Z.to_nat m) e row) rows kept /\
  forall e, edge_point (values D) e 0 = (val (dx0 D), val (dy0 D), val (dz0 D)) -> 
    ~ In e kept /\ forall s, 0 <= s <= 1 -> ~ hidden (values D) (val c, val c, val c) (edge_point (values D) e s).
Proof.
  destruct cube_ok as (HD & Mc & Vt). destruct (C102_nearest cube 10 (dint (-1)) (dint (-1)) (dint (-1)) HD ltac:(lia) Mc Mc Mc) as (rows & kept & E & F & _ & K). exists cube, (dint (-1)), 10%Z, rows, kept. split; [exact HD|]. split; [exact Mc|]. split; [lia|]. split; [exact E|]. split; [exact F|].
  intros e He. destruct (dint_ok 1 ltac:(lia)) as [F1 V1]. destruct (dint_ok (-1) ltac:(lia)) as [Fm Vm]. assert (Mt : moderate tenth) by apply HD. pose proof (axis_lt _ _ (proj1 HD)) as LT. cbn [cube dx0 dx1] in LT. rewrite V1 in LT. assert (P : 0 < val tenth) by (rewrite Vt; apply Rmult_lt_0_compat; [apply IZR_lt; lia|apply bpow_gt_0]). split.
  - intros I. apply K in I. destruct I as [N _]. apply N. rewrite He. exists 99%nat. split; [lia|]. cbn [cube values bx0 bx1 by0 by1 bz0 bz1 dx0 dx1 dy0 dy1 dz0 dz1].
    assert (S : val tenth < rounded_sight (val (dint (-1))) (val tenth) 99 < val (dint 1)).
    { destruct (sight_ok (dint 1) (dint (-1)) tenth 99 F1 V1 ltac:(unfold sample; cbn [Nat.eqb]; lra) Mc Mt) as [Fv Vv]. rewrite <- Vv. set (v := dadd _ _) in *.
      assert (A : dlt tenth v = true) by (vm_compute; reflexivity). assert (B : dlt v (dint 1) = true) by (vm_compute; reflexivity). rewrite dlt_ok in A by (apply Mt || assumption). rewrite dlt_ok in B by assumption. split; [destruct (Rlt_bool_spec (val tenth) (val v)); [assumption|discriminate]|destruct (Rlt_bool_spec (val v) (val (dint 1))); [assumption|discriminate]]. }
    split; [exact S|split; exact S].
  - intros s _. apply corner_seen; [exact He|rewrite Vm; apply Rlt_trans with (2 := P); lra|rewrite Vm; apply Rlt_trans with (2 := P); lra|rewrite Vm; apply Rlt_trans with (2 := P); lra|exact (axis_lt _ _ (proj1 HD))|exact (axis_lt _ _ (proj1 HD))|exact (axis_lt _ _ (proj1 HD))].
Qed.
Print Assumptions C102_visible_refuted.

(** The hypotheses hold, e.g., for this cube; seen from the origin the edges at
    its near corner are kept. *)
Example C102_example : dbox_ok cube /\ (match get_box_d tenth (dint 1) tenth (dint 1) tenth (dint 1) 24 true [dzero; dzero; dzero] with Ok rows => length rows | Err _ => 0%nat end) = 9%nat.
Proof. split; [apply cube_ok|]. vm_compute. reflexivity. Qed.
