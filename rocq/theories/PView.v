(** * Proofs: pinhole camera *)

From Coq Require Import Reals ZArith List Bool Lra Lia Psatz.
From Flocq Require Import Core.Raux.
From Verif Require Import Base BaseP SpecSphere MCoords MUsphere PTrig PCoords PUsphere SpecView MView.
Import ListNotations.
Open Scope R_scope.

Definition frame_of (ph th : R) : frame :=
  Frame (dir ph th) (east ph) (V3 (- cos ph * cos th) (- sin ph * cos th) (sin th)).

Lemma up_cross : forall ph th, cross (dir ph th) (east ph) = up (frame_of ph th).
Proof.
  intros. unfold frame_of, up, east. pose proof (sc1 ph) as E.
  apply vec_ext; unfold dir, cross; cbn [vx vy vz]; try ring.
  replace (cos ph * sin th * cos ph - sin ph * sin th * - sin ph) with (sin th * (sin ph ^ 2 + cos ph ^ 2)) by ring.
  rewrite E. ring.
Qed.

Lemma frame_ortho : forall ph th, orthonormal (frame_of ph th).
Proof.
  intros. pose proof (sc1 ph) as E1. pose proof (sc1 th) as E2.
  unfold orthonormal. cbn [fwd side frame_of].
  split; [apply dir_unit|]. split; [apply east_unit|].
  rewrite <- up_cross.
  assert (F : dot (dir ph th) (east ph) = 0) by (unfold dir, east, dot; cbn [vx vy vz]; ring).
  split.
  { rewrite lagrange, dir_unit, east_unit, F. ring. }
  split; [exact F|]. split; [apply dot_cross_l|]. split; [apply dot_cross_r|reflexivity].
Qed.

(** Rotation into the camera frame. *)
Definition into (ph th : R) (w : vec) : vec := rodrigues ez (- ph) (rodrigues (east ph) (PI / 2 - th) w).
Definition outof (ph th : R) (w : vec) : vec := rodrigues (east ph) (th - PI / 2) (rodrigues ez ph w).

Lemma rodrigues_dot_ext : forall n a, dot n n = 1 -> forall v w, dot (rodrigues n a v) (rodrigues n a w) = dot v w.
Proof. intros. now apply rod_dot. Qed.

Lemma into_dot : forall ph th v w, dot (into ph th v) (into ph th w) = dot v w.
Proof. intros. unfold into. rewrite !rod_dot; auto using ez_unit, east_unit. Qed.

Lemma outof_into : forall ph th w, outof ph th (into ph th w) = w.
Proof.
  intros. unfold outof, into. replace ph with (- - ph) at 2 by ring. rewrite rod_inv by apply ez_unit.
  replace (th - PI / 2) with (- (PI / 2 - th)) by ring. apply rod_inv, east_unit.
Qed.

Lemma into_outof : forall ph th w, into ph th (outof ph th w) = w.
Proof.
  intros. unfold outof, into. replace (PI / 2 - th) with (- (th - PI / 2)) by ring.
  rewrite rod_inv by apply east_unit. apply rod_inv, ez_unit.
Qed.

Lemma into_fwd : forall ph th, into ph th (dir ph th) = V3 1 0 0.
Proof.
  intros. unfold into. rewrite <- (east_turn ph th), rod_comp by apply east_unit.
  replace (th + (PI / 2 - th)) with (PI / 2) by ring. rewrite east_turn, <- dir_add.
  replace (ph + - ph) with 0 by ring. unfold dir. rewrite cos_0, sin_0, sin_PI2, cos_PI2.
  apply vec_ext; cbn [vx vy vz]; ring.
Qed.

Lemma into_side : forall ph th, into ph th (east ph) = V3 0 1 0.
Proof.
  intros. unfold into. rewrite rod_axis by apply east_unit.
  replace (east ph) with (dir (ph + PI / 2) (PI / 2)).
  - rewrite <- dir_add. replace (ph + PI / 2 + - ph) with (PI / 2) by ring. unfold dir. rewrite sin_PI2, cos_PI2.
    apply vec_ext; cbn [vx vy vz]; ring.
  - unfold dir, east. rewrite cos_plus, sin_plus, sin_PI2, cos_PI2. apply vec_ext; cbn [vx vy vz]; ring.
Qed.

Lemma into_up : forall ph th, into ph th (up (frame_of ph th)) = V3 0 0 1.
Proof.
  intros. rewrite <- up_cross. unfold into. rewrite !rod_cross; auto using ez_unit, east_unit.
  fold (into ph th (dir ph th)). fold (into ph th (east ph)). rewrite into_fwd, into_side.
  apply vec_ext; unfold cross; cbn [vx vy vz]; ring.
Qed.

Lemma into_coords : forall ph th w, into ph th w =
  V3 (dot (fwd (frame_of ph th)) w) (dot (side (frame_of ph th)) w) (dot (up (frame_of ph th)) w).
Proof.
  intros. rewrite <- !(into_dot ph th _ w), into_up. cbn [fwd side frame_of]. rewrite into_fwd, into_side.
  apply vec_ext; unfold dot; cbn [vx vy vz]; ring.
Qed.

Lemma into_scale : forall ph th k w, into ph th (vscale k w) = vscale k (into ph th w).
Proof. intros. unfold into. now rewrite !rod_scale. Qed.
Lemma outof_scale : forall ph th k w, outof ph th (vscale k w) = vscale k (outof ph th w).
Proof. intros. unfold outof. now rewrite !rod_scale. Qed.

(** ** The tilts *)

Definition aimed (v : view) (ph th : R) : Prop :=
  phi_point_towards v = ph /\ theta_point_towards v = Some th /\ 0 <= ph < 2 * PI /\ 0 <= th <= PI.

Lemma tilt_down_spec : forall v ph th p t, aimed v ph th ->
  exists q, tilt_down v (Some p) (Some t) = Ok q /\
    dir_num q (rodrigues (east ph) (PI / 2 - th) (dir p t)).
Proof.
  intros v ph th p t (<- & E & Hp & Ht). unfold tilt_down. rewrite E. pose proof PI_RGT_0.
  destruct (Req_bool_spec th (PI / 2)) as [->|N]; cbn [negb].
  - eexists. split; [reflexivity|]. exists p, t. split; [reflexivity|]. rewrite Rminus_diag_eq, rod_0; reflexivity.
  - assert (Rabs (PI / 2 - th) < PI) by (apply Rabs_def1; lra).
    destruct (rotate_spec (phi_point_towards v) (PI / 2) (phi_point_towards v) th p t) as (q & Hq & Hu).
    + split; [right; exact N|]. repeat split; lra.
    + apply meridian_nondeg; auto; lra.
    + exists q. split; [exact Hq|]. rewrite meridian_rot in Hu by (auto; lra). now apply unit_num_dir.
Qed.

Lemma tilt_back_spec : forall v ph th p t, aimed v ph th ->
  exists q, tilt_back v (Some p) (Some t) = Ok q /\
    dir_num q (rodrigues (east ph) (th - PI / 2) (dir p t)).
Proof.
  intros v ph th p t (<- & E & Hp & Ht). unfold tilt_back. rewrite E. pose proof PI_RGT_0.
  destruct (Req_bool_spec th (PI / 2)) as [->|N]; cbn [negb].
  - eexists. split; [reflexivity|]. exists p, t. split; [reflexivity|]. rewrite Rminus_diag_eq, rod_0; reflexivity.
  - assert (Rabs (th - PI / 2) < PI) by (apply Rabs_def1; lra).
    destruct (rotate_spec (phi_point_towards v) th (phi_point_towards v) (PI / 2) p t) as (q & Hq & Hu).
    + split; [right; auto|]. repeat split; lra.
    + apply meridian_nondeg; auto; lra.
    + exists q. split; [exact Hq|]. rewrite meridian_rot in Hu by (auto; lra). now apply unit_num_dir.
Qed.

Lemma phi_shift_dir : forall p d t, - (2 * PI) < d < 2 * PI ->
  exists p', usphere_phi_shift (Some p) d = Ok (Some p') /\ dir p' t = rodrigues ez d (dir p t).
Proof.
  intros. exists (phi_norm (p + d)). split; [now apply phi_shift_ok|]. now rewrite dir_phi_norm, dir_add.
Qed.

Lemma s2c_num : forall r p t c, sphere2cart_num r (Some p) (Some t) c = Some (vadd (vscale r (dir p t)) c).
Proof.
  intros. unfold sphere2cart_num, sphere2cart, dir. f_equal. apply vec_ext; unfold vadd, vscale; cbn [vx vy vz]; ring.
Qed.

Lemma c2s_dir : forall p c, exists r f t,
  cart2sphere (vx p) (vy p) (vz p) (vx c) (vy c) (vz c) = (r, f, Some t) /\ r = vlen (vsub p c) /\
  0 <= f < 2 * PI /\ 0 <= t <= PI /\ vscale r (dir f t) = vsub p c.
Proof.
  intros p c. destruct (cart2sphere_spec (vx p) (vy p) (vz p) (vx c) (vy c) (vz c)) as (r & f & t & E & Hr & Hf & Ht & Hb).
  exists r, f, t. split; [exact E|]. split.
  { unfold cart2sphere in E. injection E as E1 _ _. rewrite <- E1. unfold vlen, dot, vsub. cbn [vx vy vz]. f_equal. ring. }
  split; [auto|]. split; [auto|]. unfold sphere2cart in Hb. injection Hb as B1 B2 B3.
  apply vec_ext; unfold vscale, dir, vsub; cbn [vx vy vz]; lra.
Qed.

Lemma c2s_dir0 : forall x y z, exists r f t,
  cart2sphere x y z 0 0 0 = (r, f, Some t) /\
  0 <= f < 2 * PI /\ 0 <= t <= PI /\ vscale r (dir f t) = V3 x y z.
Proof.
  intros. destruct (c2s_dir (V3 x y z) (V3 0 0 0)) as (r & f & t & E & _ & Hf & Ht & Hb).
  exists r, f, t. split; [exact E|]. split; [auto|]. split; [auto|]. rewrite Hb. apply vec_ext; unfold vsub; cbn [vx vy vz]; ring.
Qed.

(** ** Set-up *)

Lemma setup_aimed : forall c p D s, exists ph th,
  aimed (pov_setup c p D s) ph th /\ camera (pov_setup c p D s) = c /\ display (pov_setup c p D s) = D /\
  spin (pov_setup c p D s) = s /\ looks c p (frame_of ph th).
Proof.
  intros. destruct (c2s_dir p c) as (r & f & t & E & Hr & Hf & Ht & Hb).
  exists f, t. unfold pov_setup. rewrite E. cbn [camera display spin]. unfold aimed. cbn [phi_point_towards theta_point_towards].
  repeat split; try lra; try apply frame_ortho.
  - cbn [fwd frame_of]. now rewrite <- Hr, Hb.
  - cbn [side frame_of]. unfold east, ez, dot. cbn [vx vy vz]. ring.
  - cbn [up frame_of]. unfold ez, dot. cbn [vx vy vz]. pose proof (sin_ge_0 t ltac:(lra) ltac:(lra)). lra.
Qed.

(** ** Transform *)

(** Coordinates in the camera frame turned through [s]. *)
Definition seen (ph th s : R) (d : vec) : vec :=
  let F := turned (frame_of ph th) s in V3 (dot (fwd F) d) (dot (side F) d) (dot (up F) d).

Lemma seen_0 : forall ph th d, seen ph th 0 d = into ph th d.
Proof.
  intros. rewrite into_coords. unfold seen, turned. cbn [fwd side up]. rewrite cos_0, sin_0.
  apply vec_ext; unfold dot, vadd, vscale; cbn [vx vy vz]; ring.
Qed.

Lemma seen_rod : forall ph th s d, seen ph th s d = rodrigues (dir 0 (PI / 2)) s (into ph th d).
Proof.
  intros. rewrite into_coords. unfold seen, turned. cbn [fwd side up].
  replace (dir 0 (PI / 2)) with (V3 1 0 0).
  - unfold rodrigues. apply vec_ext; unfold dot, cross, vadd, vscale; cbn [vx vy vz]; ring.
  - unfold dir. rewrite cos_0, sin_0, sin_PI2, cos_PI2. apply vec_ext; cbn [vx vy vz]; ring.
Qed.

Lemma seen_len : forall ph th s d, dot (seen ph th s d) (seen ph th s d) = dot d d.
Proof. intros. rewrite seen_rod, rod_dot by apply dir_unit. apply into_dot. Qed.

Definition view_of (D : R) (v : vec) : num * num * num :=
  (if Req_EM_T (vx v) 0 then None else Some (D * vy v / vx v),
   if Req_EM_T (vx v) 0 then None else Some (D * vz v / vx v),
   Some (vlen v)).

Lemma transform_spec : forall v ph th p, aimed v ph th -> 0 <= spin v < 2 * PI ->
  pov_transform v p = Ok (view_of (display v) (seen ph th (spin v) (vsub p (camera v)))).
Proof.
  intros v ph th p HA Hs. pose proof PI_RGT_0 as HPI. assert (HA' := HA). destruct HA' as (E1 & E2 & Hp & Ht).
  unfold pov_transform. destruct (c2s_dir p (camera v)) as (r & f & t & E & Hr & Hf & Htt & Hb). rewrite E.
  destruct (tilt_down_spec v ph th f t HA) as (q & -> & p1 & t1 & -> & D1). cbn [bind].
  rewrite E1. destruct (phi_shift_dir p1 (- ph) t1) as (p2 & -> & D2); [lra|]. cbn [bind].
  rewrite D1 in D2. fold (into ph th (dir f t)) in D2.
  assert (S : exists p3 t3, (if negb (Req_bool (spin v) 0) then usphere_spin (Some p2) (Some t1) 0 (PI / 2) (spin v)
         else Ok (Some p2, Some t1)) = Ok (Some p3, Some t3) /\ dir p3 t3 = seen ph th (spin v) (dir f t)).
  { destruct (Req_bool_spec (spin v) 0) as [->|N]; cbn [negb].
    - exists p2, t1. split; [reflexivity|]. now rewrite seen_0.
    - destruct (spin_spec p2 t1 0 (PI / 2) (spin v)) as (q & -> & (p3 & t3 & -> & D3) & _).
      { split; lra. } { lra. } { lra. }
      exists p3, t3. split; [reflexivity|]. now rewrite D3, D2, seen_rod. }
  destruct S as (p3 & t3 & ES & D3).
  match goal with |- context [bind ?X _] => replace X with (@Ok (num * num) (Some p3, Some t3)) by (symmetry; exact ES) end.
  cbn [bind]. rewrite s2c_num, D3.
  assert (Sc : vadd (vscale r (seen ph th (spin v) (dir f t))) (V3 0 0 0) = seen ph th (spin v) (vsub p (camera v))).
  { rewrite <- Hb, !seen_rod, into_scale, rod_scale. apply vec_ext; unfold vadd; cbn [vx vy vz]; ring. }
  rewrite Sc. set (d := seen ph th (spin v) (vsub p (camera v))). cbv zeta. unfold view_of, fdiv, vlen.
  f_equal. f_equal; [f_equal|].
  - destruct (Req_bool_spec (vx d) 0); destruct (Req_EM_T (vx d) 0); cbn [nmul]; [reflexivity|tauto|tauto|f_equal; field; auto].
  - destruct (Req_bool_spec (vx d) 0); destruct (Req_EM_T (vx d) 0); cbn [nmul]; [reflexivity|tauto|tauto|f_equal; field; auto].
  - f_equal. f_equal. unfold dot. ring.
Qed.

Lemma transform_bad_spin : forall v ph th p, aimed v ph th -> (spin v < 0 \/ 2 * PI <= spin v) ->
  pov_transform v p = Err AssertionError.
Proof.
  intros v ph th p HA Hs. pose proof PI_RGT_0 as HPI. assert (HA' := HA). destruct HA' as (E1 & E2 & Hp & Ht).
  unfold pov_transform. destruct (c2s_dir p (camera v)) as (r & f & t & E & Hr & Hf & Htt & Hb). rewrite E.
  destruct (tilt_down_spec v ph th f t HA) as (q & -> & p1 & t1 & -> & D1). cbn [bind].
  rewrite E1. destruct (phi_shift_dir p1 (- ph) t1) as (p2 & -> & D2); [lra|]. cbn [bind].
  destruct (Req_bool_spec (spin v) 0) as [Z|N]; cbn [negb]; [lra|].
  destruct (Req_EM_T (spin v) (2 * PI)) as [->|N2].
  { rewrite spin_full_turn; [reflexivity|split; lra]. }
  unfold usphere_spin, py_assert. rewrite (in_range_t 0 0) by lra. rewrite (in_range_t 0 (PI / 2)) by lra.
  unfold in_range. destruct (Rle_bool_spec 0 (spin v)); [|reflexivity]. destruct (Rle_bool_spec (spin v) (2 * PI)); [lra|reflexivity].
Qed.

(** ** Reverse *)

Definition screen_vec (D bx by_ dist : R) : vec :=
  let dx := dist / sqrt (1 + (bx ^ 2 + by_ ^ 2) / D ^ 2) in V3 dx (bx * dx / D) (by_ * dx / D).

Lemma root_pos : forall D bx by_, D <> 0 -> 0 < 1 + (bx ^ 2 + by_ ^ 2) / D ^ 2.
Proof.
  intros. assert (0 < D ^ 2) by (rewrite <- Rsqr_pow2; now apply Rsqr_pos_lt).
  assert (0 <= (bx ^ 2 + by_ ^ 2) / D ^ 2); [|lra].
  apply Rmult_le_pos; [nra|]. left. now apply Rinv_0_lt_compat.
Qed.

Lemma reverse_spec : forall v ph th bx by_ dist, aimed v ph th -> spin v = 0 -> display v <> 0 ->
  pov_reverse v bx by_ dist =
  Ok (Some (vadd (outof ph th (screen_vec (display v) bx by_ dist)) (camera v))).
Proof.
  intros v ph th bx by_ dist HA Hs HD. pose proof PI_RGT_0 as HPI. assert (HA' := HA). destruct HA' as (E1 & E2 & Hp & Ht).
  unfold pov_reverse. set (D := display v) in *.
  assert (HD2 : 0 < D ^ 2) by (rewrite <- Rsqr_pow2; now apply Rsqr_pos_lt).
  pose proof (root_pos D bx by_ HD) as HR. pose proof (sqrt_lt_R0 _ HR) as HS.
  set (dx := dist / sqrt (1 + (bx ^ 2 + by_ ^ 2) / D ^ 2)).
  assert (X : match nmul (fdiv 1 (D ^ 2)) (Some (bx ^ 2 + by_ ^ 2)) with
              | None => None | Some q => fdiv dist (sqrt (1 + q)) end = Some dx).
  { unfold fdiv at 1. destruct (Req_bool_spec (D ^ 2) 0) as [Z|_]; [lra|]. cbn [nmul].
    replace (1 / D ^ 2 * (bx ^ 2 + by_ ^ 2)) with ((bx ^ 2 + by_ ^ 2) / D ^ 2) by (field; auto).
    unfold fdiv. destruct (Req_bool_spec (sqrt (1 + (bx ^ 2 + by_ ^ 2) / D ^ 2)) 0) as [Z|_]; [lra|]. reflexivity. }
  rewrite X. cbv zeta.
  assert (O : forall b, over_factor b D dx = Some (b * dx / D)).
  { intros b. unfold over_factor, fdiv. destruct (Req_bool_spec dx 0) as [Z|N].
    - destruct (Req_bool_spec D 0); [tauto|]. rewrite Z. f_equal. field. auto.
    - destruct (Req_bool_spec (D / dx) 0) as [Z|N'].
      + exfalso. apply HD. apply (Rmult_eq_compat_r dx) in Z. unfold Rdiv in Z. rewrite Rmult_assoc, Rinv_l, Rmult_0_l in Z by auto. lra.
      + f_equal. field. auto. }
  rewrite !O. destruct (c2s_dir0 dx (bx * dx / D) (by_ * dx / D)) as (r & f & t & -> & Hf & Htt & Hb).
  rewrite Hs. destruct (Req_bool_spec 0 0) as [_|N]; [|tauto]. cbn [negb bind].
  rewrite E1. destruct (phi_shift_dir f ph t) as (p2 & -> & D2); [lra|]. cbn [bind].
  destruct (tilt_back_spec v ph th p2 t HA) as (q & -> & p1 & t1 & -> & D1). cbn [bind].
  rewrite s2c_num, D1, D2. fold (outof ph th (dir f t)). rewrite <- outof_scale, Hb. reflexivity.
Qed.

Lemma reverse_spin : forall v bx by_ dist, 0 < spin v -> pov_reverse v bx by_ dist = Err AssertionError.
Proof.
  intros v bx by_ dist Hs. pose proof PI_RGT_0.
  assert (A : forall p t, usphere_spin p t 0 (PI / 2) (- spin v) = Err AssertionError).
  { intros. unfold usphere_spin, py_assert. rewrite (in_range_t 0 0) by lra. rewrite (in_range_t 0 (PI / 2)) by lra.
    unfold in_range. now destruct (Rle_bool_spec 0 (- spin v)); [lra|]. }
  unfold pov_reverse. destruct (Req_bool_spec (spin v) 0); [lra|]. cbn [negb]. cbv zeta.
  repeat match goal with |- context [match ?x with Some _ => _ | None => _ end] => destruct x end; try (rewrite A; reflexivity).
  all: destruct (cart2sphere _ _ _ _ _ _) as [[? ?] ?]; rewrite A; reflexivity.
Qed.

(** The screen coordinates of [d] determine it up to its sign. *)
Lemma screen_back : forall D d, D <> 0 -> vx d <> 0 ->
  screen_vec D (D * vy d / vx d) (D * vz d / vx d) (vlen d) = vscale (Rabs (vx d) / vx d) d.
Proof.
  intros D d HD Hx. unfold screen_vec. cbv zeta.
  assert (H2 : 0 < vx d ^ 2) by (rewrite <- Rsqr_pow2; now apply Rsqr_pos_lt).
  assert (Hl : 0 < dot d d) by (unfold dot; nra).
  assert (E : 1 + ((D * vy d / vx d) ^ 2 + (D * vz d / vx d) ^ 2) / D ^ 2 = dot d d / (vx d) ^ 2).
  { unfold dot. field. auto. }
  rewrite E. rewrite sqrt_div by lra. replace (vx d ^ 2) with (Rsqr (vx d)) by (unfold Rsqr; ring). rewrite sqrt_Rsqr_abs.
  pose proof (sqrt_lt_R0 _ Hl) as HS. pose proof (Rabs_pos_lt _ Hx) as HA. unfold vlen.
  replace (sqrt (dot d d) / (sqrt (dot d d) / Rabs (vx d))) with (Rabs (vx d)) by (field; lra).
  apply vec_ext; unfold vscale; cbn [vx vy vz]; field; auto.
Qed.

Lemma screen_forth : forall D bx by_ dist, D <> 0 -> 0 < dist ->
  view_of D (screen_vec D bx by_ dist) = (Some bx, Some by_, Some dist) /\ 0 < vx (screen_vec D bx by_ dist).
Proof.
  intros D bx by_ dist HD Hd. unfold screen_vec, view_of. cbv zeta. cbn [vx vy vz].
  pose proof (root_pos D bx by_ HD) as HR. pose proof (sqrt_lt_R0 _ HR) as HS.
  set (s := sqrt _) in *. assert (0 < dist / s) by (apply Rmult_lt_0_compat; [auto|now apply Rinv_0_lt_compat]).
  split; [|auto]. destruct (Req_EM_T (dist / s) 0); [lra|]. f_equal; [f_equal|]; f_equal.
  - field. lra.
  - field. lra.
  - unfold vlen, dot. cbn [vx vy vz].
    replace (dist / s * (dist / s) + bx * (dist / s) / D * (bx * (dist / s) / D) + by_ * (dist / s) / D * (by_ * (dist / s) / D))
      with ((dist / s) ^ 2 * (1 + (bx ^ 2 + by_ ^ 2) / D ^ 2)) by (field; lra).
    rewrite <- (sqrt_sqrt (1 + (bx ^ 2 + by_ ^ 2) / D ^ 2)) by lra. fold s.
    replace ((dist / s) ^ 2 * (s * s)) with (dist ^ 2) by (field; lra). apply sqrt_pow2. lra.
Qed.
