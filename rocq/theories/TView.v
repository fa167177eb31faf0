(** * Theorems: [densegrid.PointOfView] (C61) *)

From Coq Require Import Reals ZArith List Bool Lra Lia Psatz.
From Flocq Require Import Core.Raux.
From Verif Require Import Base BaseP SpecSphere SpecView MView PTrig PUsphere PView.
Import ListNotations.
Open Scope R_scope.

(** The transform is the pinhole projection of the level frame looking at the
    target, turned through the spin; points in the camera plane have no image. *)
Theorem C61_projection : forall cam point D s, 0 <= s < 2 * PI ->
  exists F, looks cam point F /\ orthonormal (turned F s) /\
  forall p, exists bx by_,
    pov_transform (pov_setup cam point D s) p = Ok (bx, by_, Some (vlen (vsub p cam))) /\
    (depth cam F p = 0 -> bx = None /\ by_ = None) /\
    (depth cam F p <> 0 -> bx = Some (fst (image cam (turned F s) D p)) /\ by_ = Some (snd (image cam (turned F s) D p))).
Proof.
  intros cam point D s Hs. destruct (setup_aimed cam point D s) as (ph & th & HA & E1 & E2 & E3 & HL).
  exists (frame_of ph th). split; [exact HL|]. split.
  { destruct (frame_ortho ph th) as (A1 & A2 & A3 & A4 & A5 & A6 & A7). set (F := frame_of ph th) in *.
    assert (B : forall a b c d u v, dot (vadd (vscale a u) (vscale b v)) (vadd (vscale c u) (vscale d v))
      = a * c * dot u u + (a * d + b * c) * dot u v + b * d * dot v v) by (intros; unfold dot, vadd, vscale; cbn [vx vy vz]; ring).
    assert (B1 : forall a b u v w, dot w (vadd (vscale a u) (vscale b v)) = a * dot w u + b * dot w v)
      by (intros; unfold dot, vadd, vscale; cbn [vx vy vz]; ring).
    pose proof (sc1 s) as S. unfold orthonormal, turned. cbn [fwd side up].
    split; [exact A1|]. split; [rewrite B, A2, A3, A6; lra|]. split; [rewrite B, A2, A3, A6; lra|].
    split; [rewrite B1, A4, A5; ring|]. split; [rewrite B1, A4, A5; ring|]. split; [rewrite B, A2, A3, A6; ring|].
    assert (C : cross (fwd F) (vadd (vscale (cos s) (side F)) (vscale (- sin s) (up F)))
      = vadd (vscale (cos s) (cross (fwd F) (side F))) (vscale (- sin s) (cross (fwd F) (up F))))
      by (apply vec_ext; unfold cross, vadd, vscale; cbn [vx vy vz]; ring).
    assert (C2 : cross (fwd F) (up F) = vscale (-1) (side F)).
    { rewrite <- A7. transitivity (vadd (vscale (dot (fwd F) (side F)) (fwd F)) (vscale (- dot (fwd F) (fwd F)) (side F))).
      - apply vec_ext; unfold cross, dot, vadd, vscale; cbn [vx vy vz]; ring.
      - rewrite A1, A4. apply vec_ext; unfold vadd, vscale; cbn [vx vy vz]; ring. }
    rewrite C, C2, A7. apply vec_ext; unfold vadd, vscale; cbn [vx vy vz]; ring. }
  intros p. rewrite (transform_spec _ ph th p HA) by (rewrite E3; lra). rewrite E1, E2, E3.
  unfold view_of, image. change (vx (seen ph th s (vsub p cam))) with (depth cam (frame_of ph th) p).
  do 2 eexists. split; [unfold vlen; rewrite seen_len; reflexivity|].
  split; intros H; destruct (Req_EM_T (depth cam (frame_of ph th) p) 0) as [Z|Z]; try contradiction; split; reflexivity.
Qed.
Print Assumptions C61_projection.

(** The frame is determined by the geometry unless the view is vertical. *)
Theorem C61_frame_unique : forall cam point F G, looks cam point F -> looks cam point G ->
  cross (vsub point cam) ez <> V3 0 0 0 -> F = G.
Proof.
  intros cam point F G HF HG HN. set (d := vsub point cam) in *.
  assert (K : forall H, looks cam point H ->
    fwd H = vscale (/ vlen d) d /\ side H = vscale (/ sqrt (vx (fwd H) ^ 2 + vy (fwd H) ^ 2)) (cross ez (fwd H)) /\
    up H = cross (fwd H) (side H)).
  { intros H ((A1 & A2 & A3 & A4 & A5 & A6 & A7) & B1 & B2 & B3). fold d in B1.
    assert (Ld : vlen d <> 0).
    { intros Z. apply HN. rewrite B1, Z. apply vec_ext; unfold cross, vscale; cbn [vx vy vz]; ring. }
    split; [|split; [|now symmetry]].
    - rewrite B1 at 2. apply vec_ext; unfold vscale; cbn [vx vy vz]; field; auto.
    - destruct (fwd H) as [f1 f2 f3] eqn:Ef. destruct (side H) as [s1 s2 s3] eqn:Es.
      unfold ez, dot in *. cbn [vx vy vz] in *. assert (s3 = 0) by lra. subst s3.
      rewrite <- A7 in B3. unfold cross in B3. cbn [vx vy vz] in B3.
      set (u := f1 * s2 - f2 * s1).
      assert (Hu : 0 <= u) by (unfold u; lra).
      assert (Eu : u ^ 2 = f1 ^ 2 + f2 ^ 2).
      { assert (E : u ^ 2 + (f1 * s1 + f2 * s2) ^ 2 = (f1 ^ 2 + f2 ^ 2) * (s1 * s1 + s2 * s2 + 0 * 0)) by (unfold u; ring).
        rewrite A2 in E. assert (f1 * s1 + f2 * s2 = 0) by lra. rewrite H0 in E. lra. }
      rewrite <- Eu, sqrt_pow2 by exact Hu.
      assert (Hu0 : u <> 0).
      { intros Z. apply HN. rewrite B1. assert (f1 = 0 /\ f2 = 0) as [-> ->] by (rewrite Z in Eu; split; nra).
        apply vec_ext; unfold cross, vscale; cbn [vx vy vz]; ring. }
      assert (Q1 : u * s1 = - f2) .
      { assert (u * s1 = s2 * (f1 * s1 + f2 * s2) - f2 * (s1 * s1 + s2 * s2 + 0 * 0)) by (unfold u; ring).
        rewrite A2 in H0. assert (f1 * s1 + f2 * s2 = 0) by lra. rewrite H1 in H0. lra. }
      assert (Q2 : u * s2 = f1).
      { assert (u * s2 = f1 * (s1 * s1 + s2 * s2 + 0 * 0) - s1 * (f1 * s1 + f2 * s2)) by (unfold u; ring).
        rewrite A2 in H0. assert (f1 * s1 + f2 * s2 = 0) by lra. rewrite H1 in H0. lra. }
      apply vec_ext; unfold cross, vscale; cbn [vx vy vz]; apply Rmult_eq_reg_l with u; auto.
      + rewrite Q1. field. auto.
      + rewrite Q2. field. auto.
      + field. auto. }
  destruct (K F HF) as (F1 & F2 & F3). destruct (K G HG) as (G1 & G2 & G3).
  rewrite F1 in F2. rewrite G1 in G2. rewrite <- G2 in F2. rewrite F1, F2, <- G1 in F3. rewrite <- G3 in F3.
  destruct F as [a1 a2 a3], G as [b1 b2 b3]. cbn [fwd side up] in *. congruence.
Qed.
Print Assumptions C61_frame_unique.

(** The target appears in the middle of the picture. *)
Theorem C61_target : forall cam point D s, point <> cam -> 0 <= s < 2 * PI ->
  pov_transform (pov_setup cam point D s) point = Ok (Some 0, Some 0, Some (vlen (vsub point cam))).
Proof.
  intros cam point D s HN Hs. destruct (C61_projection cam point D s Hs) as (F & HL & HO & HP).
  destruct (HP point) as (bx & by_ & -> & _ & H).
  destruct HL as ((A1 & A2 & A3 & A4 & A5 & A6 & A7) & B1 & _).
  destruct HO as (_ & _ & _ & O4 & O5 & _ & _). cbn [fwd turned] in O4, O5.
  assert (Hl : vlen (vsub point cam) <> 0).
  { intros Z. apply HN. unfold vlen in Z. apply sqrt_eq_0 in Z; [|apply dot_nonneg]. apply dot_zero in Z.
    unfold vsub in Z. injection Z as Z1 Z2 Z3. apply vec_ext; lra. }
  assert (Dp : depth cam F point = vlen (vsub point cam)).
  { unfold depth. rewrite B1 at 1. transitivity (vlen (vsub point cam) * dot (fwd F) (fwd F)).
    - unfold dot, vscale. cbn [vx vy vz]. ring. - rewrite A1. ring. }
  destruct H as [-> ->]; [now rewrite Dp|].
  assert (Z : forall w, dot (fwd F) w = 0 -> dot w (vsub point cam) = 0).
  { intros w Hw. rewrite B1. transitivity (vlen (vsub point cam) * dot (fwd F) w).
    - unfold dot, vscale. cbn [vx vy vz]. ring. - rewrite Hw. ring. }
  unfold image. cbn [fst snd]. rewrite !Z by assumption.
  unfold Rdiv. rewrite Rmult_0_r, Rmult_0_l. reflexivity.
Qed.
Print Assumptions C61_target.

(** Without spin [reverse] recovers exactly the points in front of the camera;
    a point behind the camera comes back as its mirror image. *)
Theorem C61_round_trip : forall cam point D, D <> 0 ->
  exists F, looks cam point F /\
  forall p, depth cam F p <> 0 ->
  exists bx by_ dist, pov_transform (pov_setup cam point D 0) p = Ok (Some bx, Some by_, Some dist) /\
    (0 < depth cam F p -> pov_reverse (pov_setup cam point D 0) bx by_ dist = Ok (Some p)) /\
    (depth cam F p < 0 -> pov_reverse (pov_setup cam point D 0) bx by_ dist = Ok (Some (mirrored cam p))).
Proof.
  intros cam point D HD. pose proof PI_RGT_0. destruct (setup_aimed cam point D 0) as (ph & th & HA & E1 & E2 & E3 & HL).
  exists (frame_of ph th). split; [exact HL|]. intros p Hp.
  rewrite (transform_spec _ ph th p HA) by (rewrite E3; lra). rewrite E1, E2, E3.
  set (d := seen ph th 0 (vsub p cam)). change (depth cam (frame_of ph th) p) with (vx d) in *.
  unfold view_of. destruct (Req_EM_T (vx d) 0) as [Z|_]; [contradiction|].
  do 3 eexists. split; [reflexivity|].
  rewrite !(reverse_spec _ ph th _ _ _ HA) by (auto; now rewrite E2). rewrite E1, E2, screen_back by auto.
  assert (Od : outof ph th d = vsub p cam) by (unfold d; rewrite seen_0; apply outof_into).
  rewrite !outof_scale, !Od. split; intros Hs.
  - rewrite Rabs_pos_eq by lra. do 2 f_equal. apply vec_ext; unfold vadd, vscale, vsub; cbn [vx vy vz]; field; auto.
  - rewrite Rabs_left by lra. do 2 f_equal. unfold mirrored. apply vec_ext; unfold vadd, vscale, vsub; cbn [vx vy vz]; field; auto.
Qed.
Print Assumptions C61_round_trip.

(** Every picture position and positive distance is hit: [transform] undoes
    [reverse], which always lands in front of the camera. *)
Theorem C61_reverse_first : forall cam point D, D <> 0 ->
  exists F, looks cam point F /\
  forall bx by_ dist, 0 < dist ->
  exists p, pov_reverse (pov_setup cam point D 0) bx by_ dist = Ok (Some p) /\ 0 < depth cam F p /\
    pov_transform (pov_setup cam point D 0) p = Ok (Some bx, Some by_, Some dist).
Proof.
  intros cam point D HD. pose proof PI_RGT_0. destruct (setup_aimed cam point D 0) as (ph & th & HA & E1 & E2 & E3 & HL).
  exists (frame_of ph th). split; [exact HL|]. intros bx by_ dist Hd.
  rewrite (reverse_spec _ ph th _ _ _ HA) by (auto; now rewrite E2). rewrite E1, E2.
  eexists. split; [reflexivity|]. rewrite (transform_spec _ ph th _ HA) by (rewrite E3; lra). rewrite E1, E2, E3.
  destruct (screen_forth D bx by_ dist HD Hd) as [S1 S2]. set (q := screen_vec D bx by_ dist) in *.
  replace (vsub (vadd (outof ph th q) cam) cam) with (outof ph th q)
    by (apply vec_ext; unfold vsub, vadd; cbn [vx vy vz]; ring).
  rewrite seen_0, into_outof. split; [|now rewrite S1].
  unfold depth. replace (vsub (vadd (outof ph th q) cam) cam) with (outof ph th q)
    by (apply vec_ext; unfold vsub, vadd; cbn [vx vy vz]; ring).
  assert (X : vx (into ph th (outof ph th q)) = dot (fwd (frame_of ph th)) (outof ph th q)) by now rewrite into_coords.
  rewrite <- X, into_outof. exact S2.
Qed.
Print Assumptions C61_reverse_first.

(** No spin other than zero can be used in both directions. *)
Theorem C61_spin : forall cam point D s,
  (0 < s -> forall bx by_ dist, pov_reverse (pov_setup cam point D s) bx by_ dist = Err AssertionError) /\
  (s < 0 \/ 2 * PI <= s -> forall p, pov_transform (pov_setup cam point D s) p = Err AssertionError).
Proof.
  intros cam point D s. destruct (setup_aimed cam point D s) as (ph & th & HA & E1 & E2 & E3 & HL). split.
  - intros Hs bx by_ dist. apply reverse_spin. now rewrite E3.
  - intros Hs p. apply (transform_bad_spin _ ph th p HA). now rewrite E3.
Qed.
Print Assumptions C61_spin.

(** The documented use (set a spin, transform, reverse) always ends in an
    exception, already for the target itself. *)
Theorem C61_spin_refuted : exists cam point D s bx by_ dist,
  pov_transform (pov_setup cam point D s) point = Ok (Some bx, Some by_, Some dist) /\
  pov_reverse (pov_setup cam point D s) bx by_ dist = Err AssertionError.
Proof.
  pose proof PI2_1. exists (V3 0 0 0), (V3 1 0 0), 1, 1, 0, 0, (vlen (vsub (V3 1 0 0) (V3 0 0 0))). split.
  - apply C61_target; [intros E; injection E; lra|]. lra.
  - apply C61_spin. lra.
Qed.
Print Assumptions C61_spin_refuted.

(** A camera at the origin looking along x: (2, 1, 0) appears at 1/2 on the unit
    plane, (-2, 1, 0) comes back as (2, -1, 0). *)
Example C61_case : exists F, looks (V3 0 0 0) (V3 5 0 0) F /\ depth (V3 0 0 0) F (V3 2 1 0) = 2 /\
  image (V3 0 0 0) F 1 (V3 2 1 0) = (/ 2, 0) /\
  (exists bx by_ dist, pov_transform (pov_setup (V3 0 0 0) (V3 5 0 0) 1 0) (V3 (-2) 1 0) = Ok (Some bx, Some by_, Some dist) /\
     pov_reverse (pov_setup (V3 0 0 0) (V3 5 0 0) 1 0) bx by_ dist = Ok (Some (V3 2 (-1) 0))).
Proof.
  assert (L : looks (V3 0 0 0) (V3 5 0 0) (Frame (V3 1 0 0) (V3 0 1 0) (V3 0 0 1))).
  { unfold looks, orthonormal, ez, vlen, vsub, vscale, dot, cross. cbn [fwd side up vx vy vz].
    replace ((5 - 0) * (5 - 0) + (0 - 0) * (0 - 0) + (0 - 0) * (0 - 0)) with (5 ^ 2) by ring. rewrite sqrt_pow2 by lra.
    repeat split; try lra; apply vec_ext; cbn [vx vy vz]; ring. }
  exists (Frame (V3 1 0 0) (V3 0 1 0) (V3 0 0 1)). split; [exact L|].
  split; [unfold depth, dot, vsub; cbn; lra|]. split; [unfold image, depth, dot, vsub; cbn; f_equal; field|].
  destruct (C61_round_trip (V3 0 0 0) (V3 5 0 0) 1 ltac:(lra)) as (F & HL & H).
  assert (EF : F = Frame (V3 1 0 0) (V3 0 1 0) (V3 0 0 1)).
  { apply (C61_frame_unique (V3 0 0 0) (V3 5 0 0)); auto. unfold cross, vsub, ez. cbn [vx vy vz]. intros E. injection E. lra. }
  subst F. assert (Dn : depth (V3 0 0 0) (Frame (V3 1 0 0) (V3 0 1 0) (V3 0 0 1)) (V3 (-2) 1 0) = -2) by (unfold depth, dot, vsub; cbn; ring).
  destruct (H (V3 (-2) 1 0) ltac:(rewrite Dn; lra)) as (bx & by_ & dist & T & _ & B).
  exists bx, by_, dist. split; [exact T|]. rewrite B by (rewrite Dn; lra). do 2 f_equal.
  unfold mirrored. apply vec_ext; unfold vsub, vscale; cbn [vx vy vz]; ring.
Qed.
