(** * Theorems: [plots.ortho], [plots.shapes] (C74) *)

From Coq Require Import Reals ZArith List Bool Lra Lia.
From Flocq Require Import Core.Raux.
From Verif Require Import Base BaseP SpecSphere SpecOrtho SpecPlots MUsphere MOrtho MHeal MPlots PTrig PUsphere PDense POrtho PPolarCoords.
Import ListNotations.
Open Scope R_scope.

(** Number of lines. *)
Lemma int_div_steps : forall full d n, 0 <= full -> 0 < d -> whole_steps n full d -> int_div full d = Ok (Z.of_nat n).
Proof.
  intros full d n Hf Hd [A B]. unfold int_div. rewrite Req_bool_false by lra. f_equal.
  assert (0 <= full / d) by (apply Rle_mult_inv_pos; lra). rewrite Ztrunc_floor by auto.
  apply Zfloor_imp. rewrite plus_IZR, <- INR_IZR_INZ.
  split; [apply Rmult_le_reg_r with d|apply Rmult_lt_reg_r with d]; auto; unfold Rdiv; rewrite Rmult_assoc, Rinv_l; lra.
Qed.

Lemma grid_angles_ok : forall full deg d n, 0 <= deg -> 0 < d -> whole_steps n deg d ->
  grid_angles full deg d = Ok (tab n (fun i => INR i * (full / INR n))).
Proof.
  intros full deg d n Hf Hd Hs. unfold grid_angles. rewrite (int_div_steps _ _ n) by auto. cbn [bind].
  destruct n as [|n].
  - reflexivity.
  - rewrite linspace_Z by lia. cbn [bind]. rewrite seq_S_removelast. f_equal. apply tab_ext. intros. rewrite Rminus_0_r. ring.
Qed.

Lemma drawn_transform : forall c0 c1 p t, on_sky c0 c1 -> c1 < PI ->
  exists q, ortho_transform [c0; c1] p t = Ok q /\ drawn c0 c1 (dir p t) q.
Proof.
  intros c0 c1 p t HS Hc. eexists. split; [now apply transform_ok|].
  split; intros H; destruct (Rlt_bool_spec (dot (dir c0 c1) (dir p t)) 0); auto; lra.
Qed.

Lemma drawn_unique : forall c0 c1 s q q', drawn c0 c1 s q -> drawn c0 c1 s q' -> q = q'.
Proof.
  intros c0 c1 s q q' [A B] [A' B']. destruct (Rle_or_lt 0 (dot (dir c0 c1) s)) as [H|H].
  - now rewrite A, A'.
  - now rewrite B, B'.
Qed.

Lemma mapM_all : forall A B (f : A -> res B) (P : nat -> B -> Prop) n (g : nat -> A) d,
  (forall i, (i < n)%nat -> exists b, f (g i) = Ok b /\ P i b) ->
  exists l, mapM f (tab n g) = Ok l /\ length l = n /\ forall i, (i < n)%nat -> P i (nth i l d).
Proof.
  intros A B f P n. induction n as [|n IH]; intros g d H.
  - exists []. repeat split. intros; lia.
  - destruct (IH g d) as (l & E & L & Q); [intros; apply H; lia|]. destruct (H n ltac:(lia)) as (b & Eb & Pb).
    exists (l ++ [b]). split; [|split].
    + unfold tab in *. rewrite seq_S, map_app. cbn [map Nat.add].
      assert (X : forall l1 l2 r, mapM f l1 = Ok l2 -> f r = Ok b -> mapM f (l1 ++ [r]) = Ok (l2 ++ [b])).
      { clear. induction l1 as [|x l1 IH]; intros l2 r E1 E2; cbn [app mapM] in *.
        - injection E1 as <-. rewrite E2. reflexivity.
        - destruct (f x) as [y|]; [|discriminate]. cbn [bind] in *. destruct (mapM f l1) as [m|] eqn:E; [|discriminate].
          cbn [bind] in *. injection E1 as <-. rewrite (IH m r eq_refl E2). reflexivity. }
      now apply X.
    + rewrite app_length, L. cbn. lia.
    + intros i Hi. destruct (Nat.eq_dec i n) as [->|N].
      * rewrite app_nth2 by lia. rewrite L, Nat.sub_diag. exact Pb.
      * rewrite app_nth1 by lia. apply Q. lia.
Qed.

Lemma line_ok : forall v c0 c1 (s : nat -> R * R), v_center v = [c0; c1] -> on_sky c0 c1 -> c1 < PI ->
  exists pts, transform_all v (tab 100 s) = Ok pts /\ line_of c0 c1 (fun i => dir (fst (s i)) (snd (s i))) pts.
Proof.
  intros v c0 c1 s Hv HS Hc. unfold transform_all. rewrite Hv.
  destruct (mapM_all _ _ (fun q => ortho_transform [c0; c1] (fst q) (snd q))
    (fun i q => drawn c0 c1 (dir (fst (s i)) (snd (s i))) q) 100 s (None, None)) as (l & E & L & Q).
  - intros. now apply drawn_transform.
  - exists l. split; [auto|]. split; auto.
Qed.

(** ** C74: the grid lines *)

(** [plot_grid]: as many meridians as whole steps of [dphi] fit into 360
    degrees, then as many parallels as steps of [dtheta] fit into 180. *)
Theorem C74_grid : forall v c0 c1 dtheta dphi N M, v_center v = [c0; c1] -> on_sky c0 c1 -> c1 < PI ->
  0 < dtheta -> 0 < dphi -> whole_steps N 360 dphi -> whole_steps M 180 dtheta ->
  exists ds, plot_grid v dtheta (Some dphi) = Ok ds /\ length ds = (N + M)%nat /\
  (forall k, (k < N)%nat -> exists pts, nth k ds AxisOff = Curve pts /\
     line_of c0 c1 (fun i => dir (2 * PI * INR k / INR N) (PI * INR i / 99)) pts) /\
  (forall k, (k < M)%nat -> exists pts, nth (N + k) ds AxisOff = Curve pts /\
     line_of c0 c1 (fun i => dir (2 * PI * INR i / 99) (PI * INR k / INR M)) pts).
Proof.
  intros v c0 c1 dt dp N M Hv HS Hc Ht Hp HN HM. unfold plot_grid.
  rewrite (grid_angles_ok (2 * PI) 360 dp N), (grid_angles_ok PI 180 dt M) by (auto; lra). cbn [bind].
  assert (E99 : INR 99 = 99) by (rewrite INR_IZR_INZ; reflexivity).
  rewrite !(linspace_tab _ _ 99) by lia. rewrite !E99.
  destruct (mapM_all _ _ (fun p => c <- transform_all v (map (fun t => (p, t)) (tab 100 (fun i => 0 + INR i * ((PI - 0) / 99)))) ;; Ok (Curve c))
    (fun k d => exists pts, d = Curve pts /\ line_of c0 c1 (fun i => dir (2 * PI * INR k / INR N) (PI * INR i / 99)) pts)
    N (fun i => INR i * (2 * PI / INR N)) AxisOff) as (a & Ea & La & Qa).
  { intros k Hk. rewrite tab_map. edestruct line_ok as (pts & E & L); [exact Hv|exact HS|exact Hc|]. rewrite E. cbn [bind].
    eexists. split; [reflexivity|]. exists pts. split; [reflexivity|]. destruct L as [L1 L2]. split; [auto|].
    intros i Hi. specialize (L2 i Hi). cbn [fst snd] in L2.
    replace (2 * PI * INR k / INR N) with (INR k * (2 * PI / INR N)) by (unfold Rdiv; ring).
    replace (PI * INR i / 99) with (0 + INR i * ((PI - 0) / 99)) by lra. exact L2. }
  destruct (mapM_all _ _ (fun t => c <- transform_all v (map (fun p => (p, t)) (tab 100 (fun i => 0 + INR i * ((2 * PI - 0) / 99)))) ;; Ok (Curve c))
    (fun k d => exists pts, d = Curve pts /\ line_of c0 c1 (fun i => dir (2 * PI * INR i / 99) (PI * INR k / INR M)) pts)
    M (fun i => INR i * (PI / INR M)) AxisOff) as (b & Eb & Lb & Qb).
  { intros k Hk. rewrite tab_map. edestruct line_ok as (pts & E & L); [exact Hv|exact HS|exact Hc|]. rewrite E. cbn [bind].
    eexists. split; [reflexivity|]. exists pts. split; [reflexivity|]. destruct L as [L1 L2]. split; [auto|].
    intros i Hi. specialize (L2 i Hi). cbn [fst snd] in L2.
    replace (PI * INR k / INR M) with (INR k * (PI / INR M)) by (unfold Rdiv; ring).
    replace (2 * PI * INR i / 99) with (0 + INR i * ((2 * PI - 0) / 99)) by lra. exact L2. }
  cbv beta in Ea, Eb. rewrite Ea. cbn [bind]. rewrite Eb. cbn [bind]. exists (a ++ b). split; [auto|]. split; [rewrite app_length; lia|]. split.
  - intros k Hk. rewrite app_nth1 by lia. auto.
  - intros k Hk. rewrite app_nth2 by lia. replace (N + k - length a)%nat with k by lia. auto.
Qed.
Print Assumptions C74_grid.

(** Without [dphi] the spacing [dtheta] is used for the meridians as well. *)
Theorem C74_default : forall v dtheta lonlat z s prep rest,
  plot_grid v dtheta None = plot_grid v dtheta (Some dtheta) /\
  plot_labels_on v dtheta None lonlat z s = plot_labels_on v dtheta (Some dtheta) lonlat z s /\
  plot_labels_off v dtheta None prep rest = plot_labels_off v dtheta (Some dtheta) prep rest.
Proof. intros. repeat split. Qed.
Print Assumptions C74_default.

(** The lines are [dphi] degrees apart exactly when [dphi] divides 360. *)
Theorem C74_spacing : forall N d, (1 <= N)%nat -> 0 < d -> whole_steps N 360 d ->
  d <= 360 / INR N < d + d / INR N /\ (360 / INR N = d <-> INR N * d = 360).
Proof.
  intros N d HN Hd [A B]. assert (HP := INR_pos N HN).
  assert (E : INR N * (360 / INR N) = 360) by (field; lra).
  split; [split|split].
  - apply Rmult_le_reg_l with (INR N); lra.
  - apply Rmult_lt_reg_l with (INR N); auto. rewrite E. replace (INR N * (d + d / INR N)) with ((INR N + 1) * d) by (field; lra). lra.
  - intros <-. lra.
  - intros H. apply Rmult_eq_reg_l with (INR N); lra.
Qed.
Print Assumptions C74_spacing.

(** User expectation: [plot_grid(dphi=100.)] draws lines 100 degrees apart.
    Violated: three meridians 120 degrees apart. *)
Theorem C74_spacing_refuted : forall v c0 c1 dtheta M, v_center v = [c0; c1] -> on_sky c0 c1 -> c1 < PI ->
  0 < dtheta -> whole_steps M 180 dtheta ->
  exists ds, plot_grid v dtheta (Some 100) = Ok ds /\ length ds = (3 + M)%nat /\
  exists pts, nth 1 ds AxisOff = Curve pts /\ line_of c0 c1 (fun i => dir (120 * (PI / 180)) (PI * INR i / 99)) pts.
Proof.
  intros v c0 c1 dt M Hv HS Hc Ht HM.
  destruct (C74_grid v c0 c1 dt 100 3 M Hv HS Hc Ht) as (ds & E & L & Q & _); auto; [lra|split; cbn; lra|].
  exists ds. split; [auto|]. split; [auto|]. destruct (Q 1%nat ltac:(lia)) as (pts & E1 & E2). exists pts. split; [auto|].
  replace (120 * (PI / 180)) with (2 * PI * INR 1 / INR 3) by (cbn; field). exact E2.
Qed.
Print Assumptions C74_spacing_refuted.

(** Spacings that are not positive. *)
Theorem C74_refused : forall v dtheta dphi lonlat z s,
  plot_grid v dtheta (Some 0) = Err ZeroDivisionError /\
  plot_labels_on v dtheta (Some 0) lonlat z s = Err ZeroDivisionError /\
  (- 180 <= dphi < 0 -> plot_grid v dtheta (Some dphi) = Err ValueError /\
     plot_labels_on v dtheta (Some dphi) lonlat z s = Err ValueError).
Proof.
  intros v dt dp lonlat z s.
  assert (Z0 : grid_angles (2 * PI) 360 0 = Err ZeroDivisionError) by (unfold grid_angles, int_div; rewrite Req_bool_true by auto; reflexivity).
  unfold plot_grid, plot_labels_on. rewrite Z0. split; [reflexivity|]. split; [reflexivity|]. intros H.
  assert (V : grid_angles (2 * PI) 360 dp = Err ValueError).
  { unfold grid_angles, int_div. rewrite Req_bool_false by lra. cbn [bind].
    assert (L : 360 / dp <= -2).
    { apply Rmult_le_reg_r with (- dp); [lra|]. replace (360 / dp * - dp) with (- 360) by (field; lra). lra. }
    assert (T : (Ztrunc (360 / dp) <= -2)%Z).
    { rewrite Ztrunc_ceil by lra. apply Zceil_glb. exact L. }
    unfold linspaceZ. replace (Ztrunc (360 / dp) + 1 <? 0)%Z with true; [reflexivity|]. symmetry. apply Z.ltb_lt. lia. }
  rewrite V. split; reflexivity.
Qed.
Print Assumptions C74_refused.

(** ** C74: the labels *)

Lemma dir_wrap : forall z0 t, dir (if Rlt_bool z0 0 then z0 + 2 * PI else if Rle_bool (2 * PI) z0 then z0 - 2 * PI else z0) t = dir z0 t.
Proof.
  intros z0 t. destruct (Rlt_bool z0 0); [|destruct (Rle_bool (2 * PI) z0)]; auto; unfold dir.
  - now rewrite cos_2PI_shift, sin_2PI_shift.
  - rewrite <- (cos_2PI_shift (z0 - 2 * PI)), <- (sin_2PI_shift (z0 - 2 * PI)). now replace (z0 - 2 * PI + 2 * PI) with z0 by ring.
Qed.

Lemma label_stands : forall v c0 c1 xl xr yl yr p t l,
  v_center v = [c0; c1] -> on_sky c0 c1 -> c1 < PI ->
  py_get (v_xedges v) 0 = Ok xl -> py_get (v_xedges v) (-1) = Ok xr ->
  py_get (v_yedges v) 0 = Ok yl -> py_get (v_yedges v) (-1) = Ok yr ->
  exists ts, (xy <- ortho_transform (v_center v) p t ;; label_at v xy l) = Ok ts /\
  forall d, In d ts <-> exists x y, d = Text x y l /\ stands c0 c1 xl xr yl yr (dir p t) x y.
Proof.
  intros v c0 c1 xl xr yl yr p t l Hv HS Hc X0 X1 Y0 Y1. rewrite Hv.
  destruct (drawn_transform c0 c1 p t HS Hc) as ([qx qy] & E & D). rewrite E. cbn [bind].
  unfold label_at. rewrite X0. cbn [bind]. rewrite X1. cbn [bind]. rewrite Y0. cbn [bind]. rewrite Y1. cbn [bind].
  assert (U : forall x y, stands c0 c1 xl xr yl yr (dir p t) x y -> (qx, qy) = (Some x, Some y)) by (intros x y [S _]; eapply drawn_unique; eauto).
  destruct qx as [x|], qy as [y|];
    try (exists []; split; [reflexivity|]; intros d; split; [intros []|intros (x' & y' & _ & S); apply U in S; discriminate]).
  eexists. split; [reflexivity|]. intros d. split.
  - intros I. destruct (Rle_bool_spec xl x), (Rle_bool_spec x xr), (Rle_bool_spec yl y), (Rle_bool_spec y yr); cbn [andb] in I; try contradiction.
    destruct I as [<- | []]. exists x, y. split; [auto|]. repeat split; auto; apply D.
  - intros (x' & y' & -> & S). assert (W := U _ _ S). injection W as <- <-. destruct S as (_ & [? ?] & ? & ?).
    rewrite !Rle_bool_true by auto. left; auto.
Qed.

(** On-sphere labels: exactly the grid angles in degrees, each at the picture of
    the direction with that longitude (or colatitude) shifted back by [shift] and
    at the zero-point of the other coordinate, if that is visible and inside the
    frame. *)
Theorem C74_labels : forall v c0 c1 xl xr yl yr dtheta dphi lonlat z0 z1 s0 s1 N M,
  v_center v = [c0; c1] -> on_sky c0 c1 -> c1 < PI ->
  py_get (v_xedges v) 0 = Ok xl -> py_get (v_xedges v) (-1) = Ok xr ->
  py_get (v_yedges v) 0 = Ok yl -> py_get (v_yedges v) (-1) = Ok yr ->
  0 < dtheta -> 0 < dphi -> whole_steps N 360 dphi -> whole_steps M 180 dtheta ->
  exists ds, plot_labels_on v dtheta (Some dphi) lonlat [z0; z1] [s0; s1] = Ok ds /\
  forall d, In d ds <->
    (exists k x y, (k < N)%nat /\ d = Text x y (360 * INR k / INR N) /\
       stands c0 c1 xl xr yl yr (dir (2 * PI * INR k / INR N - s0 * (PI / 180)) z1) x y) \/
    (exists k x y, (1 <= k < M)%nat /\ d = Text x y (if lonlat then 90 - 180 * INR k / INR M else 180 * INR k / INR M) /\
       stands c0 c1 xl xr yl yr (dir z0 (PI * INR k / INR M - s1 * (PI / 180))) x y).
Proof.
  intros v c0 c1 xl xr yl yr dt dp lonlat z0 z1 s0 s1 N M Hv HS Hc X0 X1 Y0 Y1 Ht Hp HN HM. unfold plot_labels_on.
  assert (P0 := PI_RGT_0).
  rewrite (grid_angles_ok (2 * PI) 360 dp N), (int_div_steps 180 dt M) by (auto; lra). cbn [bind].
  assert (TG : exists tg, linspaceZ 0 PI (Z.of_nat M + 1) = Ok tg /\ removelast (tl tg) = tab (M - 1) (fun i => INR (S i) * (PI / INR M))).
  { destruct M as [|M]; [exists [0]; split; reflexivity|]. eexists. split; [apply linspace_Z; lia|].
    rewrite seq_S_tl. replace (S M - 1)%nat with M by lia. rewrite seq_S_removelast. apply tab_ext. intros. rewrite Rminus_0_r. ring. }
  destruct TG as (tg & Etg & Rtg). rewrite Etg. cbn [bind]. rewrite Rtg.
  destruct (drawn_transform c0 c1 0 0 HS Hc) as (q0 & E0 & _). replace (ortho_transform (v_center v) 0 0) with (Ok q0) by (rewrite Hv; auto). cbn [bind].
  destruct (mapM_all _ _ (fun p => z1 <- py_get [z0; z1] 1 ;; s0 <- py_get [s0; s1] 0 ;;
         xy <- ortho_transform (v_center v) (p - deg2rad s0) z1 ;; label_at v xy (rad2deg p))
    (fun k ts => forall d, In d ts <-> exists x y, d = Text x y (360 * INR k / INR N) /\
       stands c0 c1 xl xr yl yr (dir (2 * PI * INR k / INR N - s0 * (PI / 180)) z1) x y)
    N (fun i => INR i * (2 * PI / INR N)) []) as (a & Ea & La & Qa).
  { intros k Hk. change (py_get [z0; z1] 1) with (Ok z1). change (py_get [s0; s1] 0) with (Ok s0). cbn [bind].
    edestruct (label_stands v c0 c1 xl xr yl yr) as (ts & E & I); eauto. exists ts. split; [exact E|]. intros d. rewrite I.
    unfold deg2rad, rad2deg. assert (INR N <> 0) by (apply not_0_INR; lia).
    replace (2 * PI * INR k / INR N) with (INR k * (2 * PI / INR N)) by (unfold Rdiv; ring).
    replace (INR k * (2 * PI / INR N) * (180 / PI)) with (360 * INR k / INR N) by (field; lra). reflexivity. }
  cbv beta in Ea. rewrite Ea. cbn [bind].
  destruct (mapM_all _ _ (fun t => z0 <- py_get [z0; z1] 0 ;; s1 <- py_get [s0; s1] 1 ;;
         xy <- ortho_transform (v_center v) (if Rlt_bool z0 0 then z0 + 2 * PI else if Rle_bool (2 * PI) z0 then z0 - 2 * PI else z0) (t - deg2rad s1) ;;
         label_at v xy (rad2deg (if lonlat then PI / 2 - t else t)))
    (fun k ts => forall d, In d ts <-> exists x y, d = Text x y (if lonlat then 90 - 180 * INR (S k) / INR M else 180 * INR (S k) / INR M) /\
       stands c0 c1 xl xr yl yr (dir z0 (PI * INR (S k) / INR M - s1 * (PI / 180))) x y)
    (M - 1)%nat (fun i => INR (S i) * (PI / INR M)) []) as (b & Eb & Lb & Qb).
  { intros k Hk. change (py_get [z0; z1] 0) with (Ok z0). change (py_get [s0; s1] 1) with (Ok s1). cbn [bind].
    edestruct (label_stands v c0 c1 xl xr yl yr) as (ts & E & I); eauto. exists ts. split; [exact E|]. intros d. rewrite I.
    rewrite dir_wrap. unfold deg2rad, rad2deg. assert (INR M <> 0) by (apply not_0_INR; lia). set (K := INR (S k)).
    replace (PI * K / INR M) with (K * (PI / INR M)) by (unfold Rdiv; ring).
    replace ((if lonlat then PI / 2 - K * (PI / INR M) else K * (PI / INR M)) * (180 / PI))
      with (if lonlat then 90 - 180 * K / INR M else 180 * K / INR M) by (destruct lonlat; field; lra). reflexivity. }
  cbv beta in Eb. rewrite Eb. cbn [bind]. eexists. split; [reflexivity|]. intros d. rewrite in_app_iff, !in_concat.
  split; (intros [H|H]; [left|right]).
  - destruct H as (ts & I1 & I2). apply (In_nth _ _ []) in I1. destruct I1 as (k & Hk & <-). apply Qa in I2; [|lia].
    destruct I2 as (x & y & A & B). exists k, x, y. split; [lia|]. auto.
  - destruct H as (ts & I1 & I2). apply (In_nth _ _ []) in I1. destruct I1 as (k & Hk & <-). apply Qb in I2; [|lia].
    destruct I2 as (x & y & A & B). exists (S k), x, y. split; [lia|]. auto.
  - destruct H as (k & x & y & Hk & A & B). exists (nth k a []). split; [apply nth_In; lia|]. apply Qa; [lia|]. exists x, y. auto.
  - destruct H as (k & x & y & Hk & A & B). exists (nth (k - 1) b []). split; [apply nth_In; lia|]. apply Qb; [lia|].
    replace (S (k - 1)) with k by lia. exists x, y. auto.
Qed.
Print Assumptions C74_labels.

(** ** C74: names that do not exist *)

(** User expectation: [plot_labels], with its default arguments, writes labels
    on the axes.  Violated for every map, spacing and frame: it never returns,
    whatever the calculation before the missing function gives. *)
Theorem C74_labels_default_refuted : forall v dtheta dphi prep rest ds,
  plot_labels_off v dtheta dphi prep rest <> Ok ds.
Proof.
  intros v dt dp prep rest ds. unfold plot_labels_off.
  destruct (grid_angles _ _ _); [|discriminate]. cbn [bind]. destruct (int_div _ _); [|discriminate]. cbn [bind].
  destruct (linspaceZ _ _ _); [|discriminate]. cbn [bind]. destruct (ortho_transform _ _ _); [|discriminate]. cbn [bind].
  destruct prep; cbn [bind]; discriminate.
Qed.
Print Assumptions C74_labels_default_refuted.

(** On a set-up view it is an AttributeError, once the preparation succeeds. *)
Theorem C74_labels_default_error : forall v c0 c1 dtheta dphi N M rest, v_center v = [c0; c1] -> on_sky c0 c1 -> c1 < PI ->
  0 < dtheta -> 0 < dphi -> whole_steps N 360 dphi -> whole_steps M 180 dtheta ->
  plot_labels_off v dtheta (Some dphi) (Ok tt) rest = Err AttributeError.
Proof.
  intros v c0 c1 dt dp N M rest Hv HS Hc Ht Hp HN HM. unfold plot_labels_off.
  rewrite (grid_angles_ok _ _ _ N), (int_div_steps _ _ M) by (auto; lra). cbn [bind].
  unfold linspaceZ. replace (Z.of_nat M + 1 <? 0)%Z with false by (symmetry; apply Z.ltb_ge; lia). cbn [bind].
  rewrite Hv. destruct (drawn_transform c0 c1 0 0 HS Hc) as (q0 & E0 & _). rewrite E0. reflexivity.
Qed.
Print Assumptions C74_labels_default_error.

(** User expectation: [plot_box], [plot_circle], [PlotOrtho.plot_polar_box] and
    [PlotOrtho.finalize] with the default outer edge draw something.  Violated
    for all arguments: the module [shapes] they use was never imported. *)
Theorem C74_names_refuted : forall v get gets a b c d lonlat insphere,
  plot_box get = Err NameError /\ plot_circle get = Err NameError /\
  plot_polar_box v a b c d lonlat gets = Err NameError /\
  finalize v insphere true get = Err NameError.
Proof. intros. repeat split. unfold plot_polar_box. destruct lonlat; reflexivity. Qed.
Print Assumptions C74_names_refuted.

(** [finalize] without the outer edge, and [imshow]: the frame is that of the
    map; seen from inside, the x axis is reversed. *)
Theorem C74_frame : forall v insphere get, (1 <= length (v_xedges v))%nat -> (1 <= length (v_yedges v))%nat ->
  let xl := hd 0 (v_xedges v) in let xr := last (v_xedges v) 0 in
  let yl := hd 0 (v_yedges v) in let yr := last (v_yedges v) 0 in
  finalize v insphere false get = Ok [if insphere then XLim xr xl else XLim xl xr; YLim yl yr; AxisOff] /\
  plot_imshow v = Ok [Image (xl, xr, yl, yr)].
Proof.
  intros v insphere get HX HY. unfold finalize, plot_imshow.
  assert (H0 : forall l : list R, (1 <= length l)%nat -> py_get l 0 = Ok (hd 0 l)).
  { intros l H. destruct l as [|x l]; [cbn in H; lia|]. rewrite (py_get_ok _ _ _ 0) by (cbn [length]; lia). reflexivity. }
  assert (H1 : forall l : list R, (1 <= length l)%nat -> py_get l (-1) = Ok (last l 0)).
  { intros l H. rewrite (py_get_last _ _ 0) by auto. f_equal. destruct (exists_last (l := l)) as (m & x & ->); [intros ->; cbn in H; lia|].
    rewrite last_last, app_length. cbn [length]. rewrite app_nth2 by lia. now replace (length m + 1 - 1 - length m)%nat with 0%nat by lia. }
  rewrite !H0, !H1 by auto. split; reflexivity.
Qed.
Print Assumptions C74_frame.

(** Non-vacuity: a view of the whole disc, a grid of 90 degree steps; the
    meridian through the centre is seen as the vertical line [x = 0]. *)
Example C74_example : exists v, v_center v = [0; PI / 2] /\ on_sky 0 (PI / 2) /\ PI / 2 < PI /\
  whole_steps 4 360 90 /\ whole_steps 2 180 90 /\
  py_get (v_xedges v) 0 = Ok (-1) /\ py_get (v_xedges v) (-1) = Ok 1 /\
  stands 0 (PI / 2) (-1) 1 (-1) 1 (dir (2 * PI * INR 0 / INR 4 - 0 * (PI / 180)) (PI / 2)) 0 0.
Proof.
  pose proof PI_RGT_0. exists (OrthoView [0; PI / 2] 1 [-1; 1] [-1; 1]).
  split; [reflexivity|]. split; [split; lra|]. split; [lra|].
  split; [split; cbn; lra|]. split; [split; cbn; lra|]. split; [reflexivity|]. split; [reflexivity|].
  replace (2 * PI * INR 0 / INR 4 - 0 * (PI / 180)) with 0 by (cbn; lra).
  split; [|lra]. unfold drawn, dir, east, north, dot. cbn [vx vy vz]. rewrite cos_0, sin_0, sin_PI2, cos_PI2.
  split; intros; [f_equal; f_equal; lra|lra].
Qed.
