(** * Rotations of the sphere: [usphere_rotate], [usphere_shift], [usphere_spin] *)

From Coq Require Import Reals ZArith List Bool Lra Lia Psatz.
From Flocq Require Import Core.Raux.
From Verif Require Import Base BaseP SpecSphere MCoords MUsphere PHealpixCentre PTrig PCoords.
Import ListNotations.
Open Scope R_scope.

(** ** Vector algebra *)

Ltac vec3 := unfold rodrigues, mdot, mdet, mcol1, mcol2, mcol3, cross, dot, vadd, vscale in *;
             cbn [vx vy vz row1 row2 row3] in *.

Lemma vec_ext : forall a b, vx a = vx b -> vy a = vy b -> vz a = vz b -> a = b.
Proof. intros [x y z] [x' y' z']; cbn. now intros -> -> ->. Qed.

Lemma cross_self : forall a, cross a a = V3 0 0 0.
Proof. intros a. apply vec_ext; vec3; ring. Qed.

Lemma lagrange : forall a b, dot (cross a b) (cross a b) = dot a a * dot b b - dot a b ^ 2.
Proof. intros. vec3. ring. Qed.

Lemma lagrange4 : forall n v w,
  dot (cross n v) (cross n w) = dot n n * dot v w - dot n v * dot n w.
Proof. intros. vec3. ring. Qed.

Lemma dot_cross_l : forall a b, dot a (cross a b) = 0.
Proof. intros. vec3. ring. Qed.
Lemma dot_cross_r : forall a b, dot b (cross a b) = 0.
Proof. intros. vec3. ring. Qed.

Lemma dot_comm : forall a b, dot a b = dot b a.
Proof. intros. vec3. ring. Qed.

Lemma dot_nonneg : forall a, 0 <= dot a a.
Proof. intros. vec3. nra. Qed.

Lemma dot_zero : forall a, dot a a = 0 -> a = V3 0 0 0.
Proof. intros [x y z] H. vec3. apply vec_ext; cbn; nra. Qed.

(** Matrix times adjugate. *)
Lemma minv_right : forall m i v, minv m = Ok i -> mdot m (mdot i v) = v.
Proof.
  intros [[a b c] [d e f] [g h k]] i [x y z] H. unfold minv in H.
  destruct (Req_bool_spec (mdet (M3 (V3 a b c) (V3 d e f) (V3 g h k))) 0) as [E|E]; [discriminate|].
  apply Ok_inj in H. subst i. vec3. apply vec_ext; cbn [vx vy vz]; field; exact E.
Qed.

(** ** Rodrigues rotations *)

Lemma rod_dot : forall n a v w, dot n n = 1 ->
  dot (rodrigues n a v) (rodrigues n a w) = dot v w.
Proof.
  intros n a v w Hn.
  assert (E : dot (rodrigues n a v) (rodrigues n a w) =
    cos a ^ 2 * dot v w + 2 * cos a * (1 - cos a) * dot n v * dot n w
    + sin a ^ 2 * (dot n n * dot v w - dot n v * dot n w)
    + (1 - cos a) ^ 2 * dot n v * dot n w * dot n n).
  { vec3. ring. }
  rewrite E, Hn. pose proof (sc1 a). 
  replace (sin a ^ 2) with (1 - cos a ^ 2) by lra. ring.
Qed.

Lemma rod_axis : forall n a, dot n n = 1 -> rodrigues n a n = n.
Proof.
  intros n a Hn. unfold rodrigues. rewrite Hn, cross_self.
  apply vec_ext; vec3; ring.
Qed.

Lemma rod_dot_axis : forall n a v, dot n n = 1 -> dot n (rodrigues n a v) = dot n v.
Proof. intros n a v Hn. rewrite <- (rod_axis n a Hn) at 1. now apply rod_dot. Qed.

Lemma rod_cross_axis : forall n a v, dot n n = 1 ->
  cross n (rodrigues n a v) =
  vadd (vscale (cos a) (cross n v)) (vscale (sin a) (vadd (vscale (dot n v) n) (vscale (-1) v))).
Proof.
  intros n a v Hn.
  assert (E : cross n (rodrigues n a v) =
   vadd (vscale (cos a) (cross n v))
        (vscale (sin a) (vadd (vscale (dot n v) n) (vscale (- dot n n) v)))).
  { apply vec_ext; vec3; ring. }
  rewrite E, Hn. reflexivity.
Qed.

Lemma rod_comp : forall n a b v, dot n n = 1 ->
  rodrigues n b (rodrigues n a v) = rodrigues n (a + b) v.
Proof.
  intros n a b v Hn. unfold rodrigues at 1.
  rewrite rod_dot_axis, rod_cross_axis by exact Hn.
  unfold rodrigues. rewrite cos_plus, sin_plus.
  apply vec_ext; vec3; ring.
Qed.

Lemma rod_0 : forall n v, rodrigues n 0 v = v.
Proof. intros. unfold rodrigues. rewrite cos_0, sin_0. apply vec_ext; vec3; ring. Qed.

Lemma rod_neg : forall n a v, rodrigues (vscale (-1) n) a v = rodrigues n (- a) v.
Proof. intros. unfold rodrigues. rewrite cos_neg, sin_neg. apply vec_ext; vec3; ring. Qed.

Lemma rod_inv : forall n a v, dot n n = 1 -> rodrigues n (- a) (rodrigues n a v) = v.
Proof.
  intros n a v Hn. rewrite rod_comp by exact Hn. replace (a + - a) with 0 by ring. apply rod_0.
Qed.

(** A linear map preserving dot and cross products commutes with rotations. *)
Record rotation (f : vec -> vec) : Prop := {
  rot_add : forall v w, f (vadd v w) = vadd (f v) (f w);
  rot_scale : forall k v, f (vscale k v) = vscale k (f v);
  rot_dot : forall v w, dot (f v) (f w) = dot v w;
  rot_cross : forall v w, f (cross v w) = cross (f v) (f w) }.

Lemma rot_equivariant : forall f n a v, rotation f ->
  f (rodrigues n a v) = rodrigues (f n) a (f v).
Proof.
  intros f n a v [Ha Hs Hd Hc]. unfold rodrigues.
  now rewrite !Ha, !Hs, Hc, Hd.
Qed.

Lemma rod_add : forall n a v w,
  rodrigues n a (vadd v w) = vadd (rodrigues n a v) (rodrigues n a w).
Proof. intros. apply vec_ext; vec3; ring. Qed.
Lemma rod_scale : forall n a k v, rodrigues n a (vscale k v) = vscale k (rodrigues n a v).
Proof. intros. apply vec_ext; vec3; ring. Qed.

Lemma rod_cross : forall n a v w, dot n n = 1 ->
  rodrigues n a (cross v w) = cross (rodrigues n a v) (rodrigues n a w).
Proof.
  intros n a v w Hn. pose proof (sc1 a) as Hsc.
  assert (E : cross (rodrigues n a v) (rodrigues n a w) =
    vadd (vscale (cos a ^ 2 + cos a * (1 - cos a) * dot n n) (cross v w))
      (vadd (vscale (cos a * sin a + sin a * (1 - cos a) * dot n n) (cross n (cross v w)))
            (vscale ((sin a ^ 2 - cos a * (1 - cos a)) * dot n (cross v w)) n))).
  { apply vec_ext; vec3; ring. }
  rewrite E, Hn. replace (sin a ^ 2) with (1 - cos a ^ 2) by lra.
  unfold rodrigues. apply vec_ext; vec3; ring.
Qed.

Lemma rod_rotation : forall n a, dot n n = 1 -> rotation (rodrigues n a).
Proof.
  intros n a Hn. split; intros.
  - apply rod_add.
  - apply rod_scale.
  - now apply rod_dot.
  - now apply rod_cross.
Qed.

(** ** The frame of [usphere_rotate] *)

Definition nrm (v : vec) : R := sqrt (dot v v).
Definition unit_of (v : vec) : vec := vscale (/ nrm v) v.

Section Frame.
Variables u v : vec.
Hypothesis Hu : dot u u = 1.
Hypothesis Hv : dot v v = 1.

Lemma nrm_cross_sq : nrm (cross u v) ^ 2 = 1 - dot u v ^ 2.
Proof.
  unfold nrm. rewrite <- Rsqr_pow2, Rsqr_sqrt by apply dot_nonneg. rewrite lagrange, Hu, Hv. ring.
Qed.

Lemma dot_range : -1 <= dot u v <= 1.
Proof.
  pose proof nrm_cross_sq as E. assert (0 <= nrm (cross u v) ^ 2) by nra. split; nra.
Qed.

Lemma sin_acos_dot : sin (acos (dot u v)) = nrm (cross u v).
Proof.
  rewrite sin_acos by (apply dot_range). unfold nrm. f_equal.
  rewrite lagrange, Hu, Hv. unfold Rsqr. ring.
Qed.

Hypothesis Hs : nrm (cross u v) <> 0.

Let s := nrm (cross u v).
Let c := dot u v.
Let n := unit_of (cross u v).
Let t := cross n u.

Lemma s_pos : 0 < s.
Proof. unfold s. assert (0 <= nrm (cross u v)) by apply sqrt_pos. lra. Qed.

Lemma n_unit : dot n n = 1.
Proof.
  unfold n, unit_of. fold s.
  replace (dot (vscale (/ s) (cross u v)) (vscale (/ s) (cross u v)))
    with (/ s * / s * dot (cross u v) (cross u v)) by (vec3; ring).
  replace (dot (cross u v) (cross u v)) with (s ^ 2).
  - pose proof s_pos. field. lra.
  - unfold s, nrm. now rewrite <- Rsqr_pow2, Rsqr_sqrt by apply dot_nonneg.
Qed.

Lemma n_u : dot n u = 0.
Proof.
  unfold n, unit_of. replace (dot (vscale (/ nrm (cross u v)) (cross u v)) u)
    with (/ nrm (cross u v) * dot u (cross u v)) by (vec3; ring).
  rewrite dot_cross_l. ring.
Qed.

Lemma t_unit : dot t t = 1.
Proof. unfold t. rewrite lagrange, n_unit, Hu, n_u. ring. Qed.

Lemma cross_t_n : cross t n = u.
Proof.
  assert (E : cross t n = vadd (vscale (dot n n) u) (vscale (- dot n u) n))
    by (unfold t; apply vec_ext; vec3; ring).
  rewrite E, n_unit, n_u. apply vec_ext; vec3; ring.
Qed.

Lemma cross_u_t : cross u t = n.
Proof.
  assert (E : cross u t = vadd (vscale (dot u u) n) (vscale (- dot n u) u))
    by (unfold t; apply vec_ext; vec3; ring).
  rewrite E, Hu, n_u. apply vec_ext; vec3; ring.
Qed.

Lemma v_t : dot v t = s.
Proof.
  assert (E : dot v t = / s * dot (cross u v) (cross u v))
    by (unfold t, n, unit_of; fold s; vec3; ring).
  rewrite E. replace (dot (cross u v) (cross u v)) with (s ^ 2).
  - pose proof s_pos. field. lra.
  - unfold s, nrm. now rewrite <- Rsqr_pow2, Rsqr_sqrt by apply dot_nonneg.
Qed.

Lemma alpha_cs : cos (atan2 (dot v t) (dot v u)) = c /\ sin (atan2 (dot v t) (dot v u)) = s.
Proof.
  rewrite v_t. replace (dot v u) with c by apply dot_comm.
  destruct (atan2_spec s c) as (H1 & H2 & _).
  replace (c ^ 2 + s ^ 2) with 1 in H1, H2.
  - rewrite sqrt_1 in H1, H2. lra.
  - pose proof nrm_cross_sq. fold s c in H. lra.
Qed.

Definition frameT : mat :=
  M3 (V3 (vx u) (vx t) (vx n)) (V3 (vy u) (vy t) (vy n)) (V3 (vz u) (vz t) (vz n)).

Lemma frameT_det : mdet frameT = 1.
Proof.
  unfold mdet, frameT, mcol1, mcol2, mcol3; cbn [row1 row2 row3 vx vy vz].
  change (dot u (cross t n) = 1). rewrite cross_t_n. exact Hu.
Qed.

Lemma frameT_inv : exists i, minv frameT = Ok i.
Proof.
  unfold minv. rewrite frameT_det. destruct (Req_bool_spec 1 0); [lra|]. eexists; reflexivity.
Qed.

Lemma frameT_apply : forall q,
  mdot frameT q = vadd (vadd (vscale (vx q) u) (vscale (vy q) t)) (vscale (vz q) n).
Proof. intros q. unfold frameT. apply vec_ext; vec3; ring. Qed.

Lemma rod_frame : forall q a,
  rodrigues n a (mdot frameT q) =
  mdot frameT (mdot (M3 (V3 (cos a) (- sin a) 0) (V3 (sin a) (cos a) 0) (V3 0 0 1)) q).
Proof.
  intros q a. rewrite !frameT_apply, !rod_add, !rod_scale, rod_axis by apply n_unit.
  assert (E1 : rodrigues n a u = vadd (vscale (cos a) u) (vscale (sin a) t)).
  { unfold rodrigues. rewrite n_u. unfold t. apply vec_ext; vec3; ring. }
  assert (E2 : rodrigues n a t = vadd (vscale (cos a) t) (vscale (- sin a) u)).
  { unfold rodrigues. replace (dot n t) with 0 by (symmetry; unfold t; apply dot_cross_l).
    assert (W : cross n t = vscale (-1) u).
    { transitivity (vscale (-1) (cross t n)); [|now rewrite cross_t_n].
      generalize t. intros t'. apply vec_ext; vec3; ring. }
    rewrite W. generalize t. intros t'. apply vec_ext; vec3; ring. }
  rewrite E1, E2. clear E1 E2. clearbody t n.
  apply vec_ext; vec3; ring.
Qed.

Lemma rotate_frame_spec : exists f, rotate_frame u v = Some (Ok f) /\
  forall p, f p = rodrigues n (acos (dot u v)) p.
Proof.
  unfold rotate_frame. fold (nrm (cross u v)).
  destruct (Req_bool_spec (nrm (cross u v)) 0) as [E|_]; [contradiction|].
  assert (En : V3 (vx (cross u v) / nrm (cross u v)) (vy (cross u v) / nrm (cross u v))
                  (vz (cross u v) / nrm (cross u v)) = n).
  { unfold n, unit_of, vscale, Rdiv. f_equal; ring. }
  rewrite En. fold t. fold frameT.
  destruct frameT_inv as [i Hi]. rewrite Hi. cbn [bind].
  eexists. split; [reflexivity|]. intros p. cbv beta.
  rewrite <- rod_frame.
  destruct alpha_cs as [Hc Hsn].
  rewrite (minv_right _ _ p Hi).
  unfold rodrigues. rewrite Hc, Hsn, cos_acos by apply dot_range.
  rewrite sin_acos_dot. reflexivity.
Qed.

Lemma rod_start_end : rodrigues n (acos (dot u v)) u = v.
Proof.
  unfold rodrigues. rewrite n_u, cos_acos, sin_acos_dot by apply dot_range.
  fold s c t.
  assert (E : vscale s t = vadd (vscale (dot u u) v) (vscale (- c) u)).
  { unfold t, n, unit_of. fold s. pose proof s_pos.
    assert (forall w, vscale s (cross (vscale (/ s) w) u) = cross w u) as W.
    { intros w. apply vec_ext; vec3; field; lra. }
    rewrite W. unfold c. apply vec_ext; vec3; ring. }
  rewrite E, Hu. apply vec_ext; vec3; ring.
Qed.
End Frame.

Lemma rotate_frame_degenerate : forall u v, nrm (cross u v) = 0 -> rotate_frame u v = None.
Proof.
  intros u v H. unfold rotate_frame. fold (nrm (cross u v)). rewrite H.
  destruct (Req_bool_spec 0 0); [reflexivity|lra].
Qed.

(** ** [usphere_rotate] *)

Lemma s2c_dir : forall p t, s2c_vec p t = dir p t.
Proof. intros. unfold s2c_vec, sphere2cart, dir. apply vec_ext; cbn; ring. Qed.

Lemma dir_unit : forall p t, dot (dir p t) (dir p t) = 1.
Proof.
  intros. unfold dir, dot; cbn [vx vy vz].
  replace (cos p * sin t * (cos p * sin t) + sin p * sin t * (sin p * sin t) + cos t * cos t)
    with (sin t ^ 2 * (sin p ^ 2 + cos p ^ 2) + cos t ^ 2) by ring.
  rewrite sc1, Rmult_1_r. apply sc1.
Qed.

Lemma in_range_t : forall a x b, a <= x <= b -> in_range a x b = true.
Proof. intros. unfold in_range. now rewrite !Rle_bool_t by lra. Qed.

Definition unit_num (q : num * num) (w : vec) : Prop :=
  exists p t, q = (Some p, Some t) /\ 0 <= p < 2 * PI /\ 0 <= t <= PI /\ dir p t = w.

Lemma rotate_point_spec : forall f p t, dot (f (dir p t)) (f (dir p t)) = 1 ->
  unit_num (rotate_point f (Some p) (Some t)) (f (dir p t)).
Proof.
  intros f p t H. unfold rotate_point. rewrite s2c_dir.
  destruct (cart2sphere_spec (vx (f (dir p t))) (vy (f (dir p t))) (vz (f (dir p t))) 0 0 0)
    as (r & g & h & E & Hr & Hg & Hh & Hb).
  rewrite E. exists g, h. split; [reflexivity|]. split; [exact Hg|]. split; [exact Hh|].
  assert (Er : r = 1).
  { unfold cart2sphere in E. injection E as E1 _ _. rewrite <- E1.
    rewrite !Rminus_0_r. unfold dot in H. transitivity (sqrt 1); [apply (f_equal sqrt); etransitivity; [|exact H]; ring|apply sqrt_1]. }
  subst r. unfold sphere2cart in Hb. injection Hb as B1 B2 B3.
  apply vec_ext; [rewrite <- B1|rewrite <- B2|rewrite <- B3]; unfold dir; cbn [vx vy vz]; ring.
Qed.

Definition accepted (pe te ps ts : R) : Prop :=
  (ps <> pe \/ ts <> te) /\ on_sky ps ts /\ on_sky pe te.

Lemma rotate_setup_ok : forall pe te ps ts, accepted pe te ps ts ->
  rotate_setup pe te ps ts =
  match rotate_frame (dir ps ts) (dir pe te) with
  | None => Ok None
  | Some r => f <- r ;; Ok (Some f)
  end.
Proof.
  intros pe te ps ts (H1 & [H2 H3] & [H4 H5]). unfold rotate_setup, py_assert.
  rewrite !in_range_t by assumption. rewrite !s2c_dir.
  assert (E : negb (Req_bool ps pe) || negb (Req_bool ts te) = true).
  { destruct (Req_bool_spec ps pe); [|reflexivity].
    destruct (Req_bool_spec ts te); [|reflexivity]. tauto. }
  rewrite E. reflexivity.
Qed.

Lemma rotate_spec : forall pe te ps ts p t, accepted pe te ps ts ->
  cross (dir ps ts) (dir pe te) <> V3 0 0 0 ->
  exists q, usphere_rotate (Some p) (Some t) pe te ps ts = Ok q /\
    unit_num q (rodrigues (unit_of (cross (dir ps ts) (dir pe te)))
                          (acos (dot (dir ps ts) (dir pe te))) (dir p t)).
Proof.
  intros pe te ps ts p t HA HN.
  assert (Hs : nrm (cross (dir ps ts) (dir pe te)) <> 0).
  { intros E. apply HN. apply dot_zero. unfold nrm in E. apply sqrt_eq_0; [apply dot_nonneg|exact E]. }
  unfold usphere_rotate. rewrite rotate_setup_ok by exact HA.
  destruct (rotate_frame_spec _ _ (dir_unit ps ts) (dir_unit pe te) Hs) as (f & E & Hf).
  rewrite E. cbn [bind]. eexists. split; [reflexivity|].
  rewrite <- Hf. apply rotate_point_spec.
  rewrite Hf, rod_dot; [apply dir_unit|].
  apply n_unit; assumption.
Qed.

Lemma rotate_degenerate : forall pe te ps ts phi theta, accepted pe te ps ts ->
  cross (dir ps ts) (dir pe te) = V3 0 0 0 ->
  usphere_rotate phi theta pe te ps ts = Ok (None, None).
Proof.
  intros pe te ps ts phi theta HA HN. unfold usphere_rotate. rewrite rotate_setup_ok by exact HA.
  rewrite rotate_frame_degenerate; [reflexivity|].
  unfold nrm. rewrite HN. unfold dot; cbn [vx vy vz].
  replace (0 * 0 + 0 * 0 + 0 * 0) with 0 by ring. apply sqrt_0.
Qed.

(** ** [usphere_phi_shift] *)

Definition phi_norm (x : R) : R :=
  if Rlt_bool (2 * PI) x then x - 2 * PI else if Rlt_bool x 0 then x + 2 * PI else x.

Lemma phi_shift_ok : forall p d, - (2 * PI) < d < 2 * PI ->
  usphere_phi_shift (Some p) d = Ok (Some (phi_norm (p + d))).
Proof.
  intros p d H. unfold usphere_phi_shift, py_assert. rewrite !Rlt_bool_t by lra. cbn.
  unfold phi_norm. destruct (Rlt_bool (2 * PI) (p + d)); [reflexivity|].
  destruct (Rlt_bool (p + d) 0); reflexivity.
Qed.

Lemma phi_shift_none : forall d, - (2 * PI) < d < 2 * PI ->
  usphere_phi_shift None d = Ok None.
Proof. intros d H. unfold usphere_phi_shift, py_assert. now rewrite !Rlt_bool_t by lra. Qed.

Lemma phi_shift_err : forall p d, ~ (- (2 * PI) < d < 2 * PI) ->
  usphere_phi_shift p d = Err AssertionError.
Proof.
  intros p d H. unfold usphere_phi_shift, py_assert.
  destruct (Rlt_bool_spec (- (2 * PI)) d); [|reflexivity].
  destruct (Rlt_bool_spec d (2 * PI)); [|reflexivity]. exfalso. apply H. lra.
Qed.

Lemma phi_norm_same : forall x, same_angle (phi_norm x) x.
Proof.
  intros x. unfold phi_norm.
  destruct (Rlt_bool (2 * PI) x); [exists (-1)%Z; lra|].
  destruct (Rlt_bool x 0); [exists 1%Z; lra|exists 0%Z; lra].
Qed.

Lemma phi_norm_range : forall p d, 0 <= p <= 2 * PI -> - (2 * PI) < d < 2 * PI ->
  0 <= phi_norm (p + d) <= 2 * PI.
Proof.
  intros p d Hp Hd. unfold phi_norm.
  destruct (Rlt_bool_spec (2 * PI) (p + d)); [lra|].
  destruct (Rlt_bool_spec (p + d) 0); lra.
Qed.

Lemma phi_norm_id : forall x, 0 <= x <= 2 * PI -> phi_norm x = x.
Proof. intros x H. unfold phi_norm. now rewrite !Rlt_bool_f by lra. Qed.

Lemma dir_phi_norm : forall x t, dir (phi_norm x) t = dir x t.
Proof.
  intros x t. unfold dir, phi_norm.
  destruct (Rlt_bool (2 * PI) x).
  - rewrite <- (cos_2PI_shift (x - 2 * PI)), <- (sin_2PI_shift (x - 2 * PI)).
    replace (x - 2 * PI + 2 * PI) with x by ring. reflexivity.
  - destruct (Rlt_bool x 0); [|reflexivity]. now rewrite cos_2PI_shift, sin_2PI_shift.
Qed.

Lemma dir_add : forall x d t, dir (x + d) t = rodrigues ez d (dir x t).
Proof.
  intros. unfold dir, ez. rewrite cos_plus, sin_plus. apply vec_ext; vec3; ring.
Qed.

Lemma ez_unit : dot ez ez = 1.
Proof. unfold ez. vec3. ring. Qed.

(** ** Rotation along a meridian *)

Lemma east_unit : forall p, dot (east p) (east p) = 1.
Proof. intros p. unfold east. vec3. pose proof (sc1 p). lra. Qed.

Lemma meridian_cross : forall p a b, cross (dir p a) (dir p b) = vscale (sin (b - a)) (east p).
Proof.
  intros p a b. unfold east. rewrite sin_minus. pose proof (sc1 p) as E.
  apply vec_ext; unfold dir; vec3; try ring. 
Qed.

Lemma meridian_dot : forall p a b, dot (dir p a) (dir p b) = cos (b - a).
Proof.
  intros p a b. rewrite cos_minus. pose proof (sc1 p) as E. unfold dir; vec3.
  replace (cos p * sin a * (cos p * sin b) + sin p * sin a * (sin p * sin b) + cos a * cos b)
    with (sin a * sin b * (sin p ^ 2 + cos p ^ 2) + cos a * cos b) by ring.
  rewrite E. ring.
Qed.

Lemma nrm_scale : forall k w, dot w w = 1 -> nrm (vscale k w) = Rabs k.
Proof.
  intros k w H. unfold nrm.
  replace (dot (vscale k w) (vscale k w)) with (k * k * dot w w) by (vec3; ring).
  rewrite H, Rmult_1_r. replace (k * k) with (Rsqr k) by reflexivity. apply sqrt_Rsqr_abs.
Qed.

Lemma meridian_rot : forall p a b w, 0 <= a <= PI -> 0 <= b <= PI -> a <> b -> Rabs (b - a) < PI ->
  rodrigues (unit_of (cross (dir p a) (dir p b))) (acos (dot (dir p a) (dir p b))) w
  = rodrigues (east p) (b - a) w.
Proof.
  intros p a b w Ha Hb Hab Hd. rewrite meridian_cross, meridian_dot. unfold unit_of.
  rewrite nrm_scale by apply east_unit.
  destruct (Rle_or_lt a b) as [H|H].
  - assert (Hd' : Rabs (b - a) = b - a) by (apply Rabs_pos_eq; lra).
    rewrite acos_cos by lra.
    assert (0 < sin (b - a)) by (apply sin_gt_0; lra).
    rewrite Rabs_pos_eq by lra.
    replace (vscale (/ sin (b - a)) (vscale (sin (b - a)) (east p))) with (east p);
      [reflexivity|].
    apply vec_ext; unfold vscale; cbn [vx vy vz]; field; lra.
  - assert (Hd' : Rabs (b - a) = a - b) by (rewrite Rabs_minus_sym; apply Rabs_pos_eq; lra).
    replace (b - a) with (- (a - b)) by ring. rewrite cos_neg, acos_cos by lra.
    assert (0 < sin (a - b)) by (apply sin_gt_0; lra).
    rewrite sin_neg, Rabs_Ropp, Rabs_pos_eq by lra.
    replace (vscale (/ sin (a - b)) (vscale (- sin (a - b)) (east p))) with (vscale (-1) (east p)).
    + apply rod_neg.
    + apply vec_ext; unfold vscale; cbn [vx vy vz]; field; lra.
Qed.

Lemma meridian_nondeg : forall p a b, 0 <= a <= PI -> 0 <= b <= PI -> a <> b -> Rabs (b - a) < PI ->
  cross (dir p a) (dir p b) <> V3 0 0 0.
Proof.
  intros p a b Ha Hb Hab Hd E. rewrite meridian_cross in E.
  assert (N : nrm (vscale (sin (b - a)) (east p)) = 0).
  { rewrite E. unfold nrm. unfold dot; cbn [vx vy vz].
    replace (0 * 0 + 0 * 0 + 0 * 0) with 0 by ring. apply sqrt_0. }
  rewrite nrm_scale in N by apply east_unit.
  apply Rabs_def2 in Hd. destruct Hd as [Hd1 Hd2].
  assert (sin (b - a) <> 0).
  { destruct (Rle_or_lt a b).
    - assert (0 < sin (b - a)) by (apply sin_gt_0; lra). lra.
    - replace (b - a) with (- (a - b)) by ring. rewrite sin_neg.
      assert (0 < sin (a - b)) by (apply sin_gt_0; lra). lra. }
  apply Rabs_no_R0 in H. contradiction.
Qed.

(** ** [usphere_shift] *)

Definition dir_num (q : num * num) (w : vec) : Prop :=
  exists p t, q = (Some p, Some t) /\ dir p t = w.

Lemma unit_num_dir : forall q w, unit_num q w -> dir_num q w.
Proof. intros q w (p & t & E & _ & _ & H). now exists p, t. Qed.

Lemma shift_spec : forall p t ps ts pe te,
  on_sky ps ts -> on_sky pe te -> Rabs (te - ts) < PI -> Rabs (pe - ps) < 2 * PI ->
  exists q, usphere_shift (Some p) (Some t) ps ts pe te = Ok q /\
    dir_num q (rodrigues (east pe) (te - ts) (rodrigues ez (pe - ps) (dir p t))) /\
    (0 <= p <= 2 * PI -> 0 <= t <= PI -> exists p' t', q = (Some p', Some t') /\ on_sky p' t').
Proof.
  intros p t ps ts pe te [H1 H2] [H3 H4] Hd Hp. unfold usphere_shift, py_assert.
  rewrite !in_range_t by assumption. apply Rabs_def2 in Hp. destruct Hp as [Hp1 Hp2].
  rewrite phi_shift_ok by lra. cbn [bind].
  rewrite <- dir_add. replace (dir (p + (pe - ps)) t) with (dir (phi_norm (p + (pe - ps))) t)
    by apply dir_phi_norm.
  destruct (Req_bool_spec ts te) as [E|E]; cbn [negb].
  - eexists. split; [reflexivity|]. subst te. replace (ts - ts) with 0 by ring. rewrite rod_0.
    split.
    + exists (phi_norm (p + (pe - ps))), t. auto.
    + intros Hpp Htt. exists (phi_norm (p + (pe - ps))), t. split; [reflexivity|].
      split; [|exact Htt]. apply phi_norm_range; lra.
  - destruct (rotate_spec pe te pe ts (phi_norm (p + (pe - ps))) t) as (q & Hq & Hu).
    + split; [right; exact E|]. repeat split; lra.
    + now apply meridian_nondeg.
    + exists q. split; [exact Hq|]. rewrite meridian_rot in Hu by (auto; lra).
      split; [now apply unit_num_dir|]. intros _ _.
      destruct Hu as (p' & t' & -> & Hp' & Ht' & _). exists p', t'. split; [reflexivity|].
      split; lra.
Qed.

Lemma shift_degenerate : forall phi theta ps ts pe te,
  on_sky ps ts -> on_sky pe te -> Rabs (te - ts) = PI -> Rabs (pe - ps) < 2 * PI ->
  usphere_shift phi theta ps ts pe te = Ok (None, None).
Proof.
  intros phi theta ps ts pe te [H1 H2] [H3 H4] Hd Hp. unfold usphere_shift, py_assert.
  rewrite !in_range_t by assumption. apply Rabs_def2 in Hp. destruct Hp as [Hp1 Hp2].
  pose proof PI_pos as HP.
  assert (Hne : ts <> te) by (intros ->; rewrite Rminus_diag_eq, Rabs_R0 in Hd; lra).
  assert (E : exists x, usphere_phi_shift phi (pe - ps) = Ok x).
  { destruct phi; [eexists; apply phi_shift_ok; lra|eexists; apply phi_shift_none; lra]. }
  destruct E as [x ->]. cbn [bind].
  destruct (Req_bool_spec ts te) as [E|_]; [contradiction|]. cbn [negb].
  apply rotate_degenerate.
  - split; [right; exact Hne|]. repeat split; lra.
  - rewrite meridian_cross.
    assert (S : sin (te - ts) = 0).
    { unfold Rabs in Hd. destruct (Rcase_abs (te - ts)).
      - replace (te - ts) with (- PI) by lra. rewrite sin_neg, sin_PI. ring.
      - rewrite Hd. apply sin_PI. }
    rewrite S. apply vec_ext; vec3; ring.
Qed.

Lemma shift_full_turn : forall phi theta ps ts pe te,
  on_sky ps ts -> on_sky pe te -> Rabs (pe - ps) = 2 * PI ->
  usphere_shift phi theta ps ts pe te = Err AssertionError.
Proof.
  intros phi theta ps ts pe te [H1 H2] [H3 H4] Hp. unfold usphere_shift, py_assert.
  rewrite !in_range_t by assumption.
  rewrite phi_shift_err; [reflexivity|].
  unfold Rabs in Hp. destruct (Rcase_abs (pe - ps)); lra.
Qed.

(** ** [usphere_spin] *)

Lemma dir_north : forall p, dir p 0 = ez.
Proof. intros p. unfold dir, ez. rewrite sin_0, cos_0. apply vec_ext; cbn; ring. Qed.

Lemma east_turn : forall p t, rodrigues (east p) t ez = dir p t.
Proof.
  intros p t. unfold rodrigues, east, ez, dir. apply vec_ext; vec3; ring.
Qed.

Lemma spin_spec : forall p t pc tc a,
  on_sky pc tc -> tc < PI -> 0 <= a < 2 * PI ->
  exists q, usphere_spin (Some p) (Some t) pc tc a = Ok q /\
    dir_num q (rodrigues (dir pc tc) a (dir p t)) /\
    (0 <= p <= 2 * PI -> 0 <= t <= PI -> exists p' t', q = (Some p', Some t') /\ on_sky p' t').
Proof.
  intros p t pc tc a Hc Hlt Ha. destruct Hc as [Hpc Htc]. pose proof PI_pos as HP.
  unfold usphere_spin, py_assert. rewrite !in_range_t by (assumption || lra).
  destruct (shift_spec p t pc tc pc 0) as (q1 & E1 & (p1 & t1 & Eq1 & D1) & R1).
  { split; assumption. } { split; lra. }
  { rewrite Rabs_minus_sym, Rminus_0_r, Rabs_pos_eq; lra. }
  { rewrite Rminus_diag_eq by reflexivity. rewrite Rabs_R0. lra. }
  rewrite E1. cbn [bind]. subst q1. rewrite phi_shift_ok by lra. cbn [bind].
  destruct (shift_spec (phi_norm (p1 + a)) t1 pc 0 pc tc) as (q2 & E2 & (p2 & t2 & Eq2 & D2) & R2).
  { split; lra. } { split; assumption. }
  { rewrite Rminus_0_r, Rabs_pos_eq; lra. }
  { rewrite Rminus_diag_eq by reflexivity. rewrite Rabs_R0. lra. }
  exists q2. split; [exact E2|]. split.
  - exists p2, t2. split; [exact Eq2|]. rewrite D2.
    rewrite !(Rminus_diag_eq pc pc) in * by reflexivity. rewrite rod_0 in *.
    rewrite dir_phi_norm, dir_add, D1.
    replace (0 - tc) with (- tc) by ring. rewrite Rminus_0_r.
    rewrite (rot_equivariant (rodrigues (east pc) tc)) by (apply rod_rotation, east_unit).
    rewrite east_turn. f_equal.
    replace tc with (- - tc) at 1 by ring. apply rod_inv, east_unit.
  - intros Hp Ht. destruct (R1 Hp Ht) as (p1' & t1' & Eq & [S1 S2]). injection Eq as -> ->.
    apply R2; [|exact S2]. apply phi_norm_range; lra.
Qed.

Lemma spin_full_turn : forall phi theta pc tc, on_sky pc tc ->
  usphere_spin phi theta pc tc (2 * PI) = Err AssertionError.
Proof.
  intros phi theta pc tc [Hpc Htc]. pose proof PI_pos as HP.
  unfold usphere_spin, py_assert. rewrite !in_range_t by (assumption || lra).
  assert (E : exists q, usphere_shift phi theta pc tc pc 0 = Ok q).
  { assert (E0 : exists x, usphere_phi_shift phi (pc - pc) = Ok x).
    { rewrite Rminus_diag_eq by reflexivity.
      destruct phi; [eexists; apply phi_shift_ok; lra|eexists; apply phi_shift_none; lra]. }
    unfold usphere_shift, py_assert. rewrite !in_range_t by (assumption || lra).
    destruct E0 as [x ->]. cbn [bind].
    destruct (Req_bool_spec tc 0) as [E|E]; cbn [negb]; [eexists; reflexivity|].
    unfold usphere_rotate.
    rewrite rotate_setup_ok by (split; [right; exact E|repeat split; lra]).
    destruct (Req_dec (nrm (cross (dir pc tc) (dir pc 0))) 0) as [Z|Z].
    - rewrite rotate_frame_degenerate by exact Z. cbn. eexists; reflexivity.
    - destruct (rotate_frame_spec _ _ (dir_unit pc tc) (dir_unit pc 0) Z) as (f & Ef & _).
      rewrite Ef. cbn. eexists; reflexivity. }
  destruct E as [[x y] ->]. cbn [bind]. rewrite phi_shift_err by lra. reflexivity.
Qed.

Lemma spin_south : forall phi theta pc a, 0 <= pc <= 2 * PI -> 0 <= a < 2 * PI ->
  usphere_spin phi theta pc PI a = Ok (None, None).
Proof.
  intros phi theta pc a Hpc Ha. pose proof PI_pos as HP.
  unfold usphere_spin, py_assert. rewrite !in_range_t by (assumption || lra).
  rewrite shift_degenerate.
  - cbn [bind]. rewrite phi_shift_none by lra. cbn [bind].
    apply shift_degenerate; try (split; lra).
    + rewrite Rminus_0_r, Rabs_pos_eq; lra.
    + rewrite Rminus_diag_eq by reflexivity. rewrite Rabs_R0. lra.
  - split; lra.
  - split; lra.
  - rewrite Rabs_minus_sym, Rminus_0_r, Rabs_pos_eq; lra.
  - rewrite Rminus_diag_eq by reflexivity. rewrite Rabs_R0. lra.
Qed.
