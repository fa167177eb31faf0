(** * Corollaries in the form stated by [TCoords.v] *)

From Coq Require Import Reals ZArith List Bool Lra Lia Psatz.
From Coquelicot Require Import Coquelicot.
From Flocq Require Import Core.Raux.
From Verif Require Import Base BaseP SpecSphere SpecGrid MCoords MUsphere MPolarCoords.
From Verif Require Import PHealpixCentre PTrig PCoords PUsphere PUsphereArr PPolarCoords.
Import ListNotations.
Open Scope R_scope.

Lemma opp_dir_eq : forall u v, u = v \/ u = vscale (-1) v -> v = u \/ v = vscale (-1) u.
Proof.
  intros u v [->| ->]; [now left|right]. apply vec_ext; vec3; ring.
Qed.

Lemma nonparallel : forall ps ts pe te,
  dir ps ts <> dir pe te -> dir ps ts <> vscale (-1) (dir pe te) ->
  cross (dir ps ts) (dir pe te) <> V3 0 0 0.
Proof.
  intros ps ts pe te H1 H2 E. destruct (parallel_units _ _ (dir_unit ps ts) (dir_unit pe te) E); auto.
Qed.

Lemma nonparallel_accepted : forall ps ts pe te, on_sky ps ts -> on_sky pe te ->
  dir ps ts <> dir pe te -> accepted pe te ps ts.
Proof.
  intros ps ts pe te H1 H2 H. split; [|split; assumption].
  destruct (Req_dec ps pe) as [->|]; [|now left].
  destruct (Req_dec ts te) as [->|]; [contradiction|now right].
Qed.

Lemma nrm_nz : forall w, w <> V3 0 0 0 -> nrm w <> 0.
Proof.
  intros w H E. apply H. apply dot_zero. apply sqrt_eq_0; [apply dot_nonneg|exact E].
Qed.

Lemma rotate_is_rotation : forall pe te ps ts,
  on_sky ps ts -> on_sky pe te ->
  dir ps ts <> dir pe te -> dir ps ts <> vscale (-1) (dir pe te) ->
  exists n a, dot n n = 1 /\ 0 < a < PI /\
    cos a = dot (dir ps ts) (dir pe te) /\
    cross (dir ps ts) (dir pe te) = vscale (sin a) n /\
    forall p t, exists p' t',
      usphere_rotate (Some p) (Some t) pe te ps ts = Ok (Some p', Some t') /\
      0 <= p' < 2 * PI /\ 0 <= t' <= PI /\ dir p' t' = rodrigues n a (dir p t).
Proof.
  intros pe te ps ts Hs He H1 H2.
  pose proof (nonparallel ps ts pe te H1 H2) as HN. pose proof (nrm_nz _ HN) as Hz.
  pose proof (dir_unit ps ts) as Hu. pose proof (dir_unit pe te) as Hv.
  exists (unit_of (cross (dir ps ts) (dir pe te))), (acos (dot (dir ps ts) (dir pe te))).
  pose proof (dot_range _ _ Hu Hv) as HR.
  pose proof (nrm_cross_sq _ _ Hu Hv) as HQ.
  assert (0 < nrm (cross (dir ps ts) (dir pe te)))
    by (assert (0 <= nrm (cross (dir ps ts) (dir pe te))) by apply sqrt_pos; lra).
  split; [now apply n_unit|]. split; [|split; [|split]].
  - apply acos_bound_lt. nra.
  - apply cos_acos. exact HR.
  - rewrite sin_acos_dot by assumption. unfold unit_of.
    generalize (cross (dir ps ts) (dir pe te)) H. intros w Hw.
    apply vec_ext; unfold vscale; cbn [vx vy vz]; field; lra.
  - intros p t. destruct (rotate_spec pe te ps ts p t) as (q & Eq & p' & t' & -> & Hp & Ht & D).
    + now apply nonparallel_accepted.
    + exact HN.
    + exists p', t'. auto.
Qed.

Lemma rotate_isometry : forall pe te ps ts p1 t1 p2 t2 p1' t1' p2' t2',
  usphere_rotate (Some p1) (Some t1) pe te ps ts = Ok (Some p1', Some t1') ->
  usphere_rotate (Some p2) (Some t2) pe te ps ts = Ok (Some p2', Some t2') ->
  dot (dir p1' t1') (dir p2' t2') = dot (dir p1 t1) (dir p2 t2).
Proof.
  intros pe te ps ts p1 t1 p2 t2 p1' t1' p2' t2' E1 E2.
  assert (HA : accepted pe te ps ts).
  { unfold usphere_rotate in E1. unfold rotate_setup, py_assert in E1.
    destruct (Req_bool_spec ps pe) as [Ep|Ep]; destruct (Req_bool_spec ts te) as [Et|Et]; cbn in E1;
      try discriminate;
    unfold in_range in E1;
    destruct (Rle_bool_spec 0 ps); try discriminate; destruct (Rle_bool_spec ps (2 * PI)); try discriminate;
    destruct (Rle_bool_spec 0 pe); try discriminate; destruct (Rle_bool_spec pe (2 * PI)); try discriminate;
    destruct (Rle_bool_spec 0 ts); try discriminate; destruct (Rle_bool_spec ts PI); try discriminate;
    destruct (Rle_bool_spec 0 te); try discriminate; destruct (Rle_bool_spec te PI); try discriminate;
    (split; [tauto|repeat split; assumption]). }
  assert (HN : cross (dir ps ts) (dir pe te) <> V3 0 0 0).
  { intros Z. rewrite rotate_degenerate in E1 by assumption. discriminate. }
  destruct (rotate_spec pe te ps ts p1 t1 HA HN) as (q1 & F1 & a1 & b1 & -> & _ & _ & D1).
  destruct (rotate_spec pe te ps ts p2 t2 HA HN) as (q2 & F2 & a2 & b2 & -> & _ & _ & D2).
  rewrite E1 in F1. rewrite E2 in F2. injection F1 as -> ->. injection F2 as -> ->.
  rewrite D1, D2. apply rod_dot. apply n_unit; try apply dir_unit. now apply nrm_nz.
Qed.

Lemma dir_inj : forall p t p' t', 0 <= p < 2 * PI -> 0 < t < PI -> 0 <= p' < 2 * PI -> 0 <= t' <= PI ->
  dir p' t' = dir p t -> p' = p /\ t' = t.
Proof.
  intros p t p' t' Hp Ht Hp' Ht' E.
  pose proof (f_equal vx E) as Ex; pose proof (f_equal vy E) as Ey; pose proof (f_equal vz E) as Ez.
  cbn in Ex, Ey, Ez.
  assert (t' = t) by (apply cos_inj; lra). subst t'.
  assert (Hs : 0 < sin t) by (apply sin_gt_0; lra).
  split; [|reflexivity]. apply angle_unique; try assumption.
  - apply Rmult_eq_reg_r with (sin t); lra.
  - apply Rmult_eq_reg_r with (sin t); lra.
Qed.

Lemma rotate_start_end : forall pe te ps ts,
  on_sky ps ts -> on_sky pe te ->
  dir ps ts <> dir pe te -> dir ps ts <> vscale (-1) (dir pe te) ->
  exists p' t', usphere_rotate (Some ps) (Some ts) pe te ps ts = Ok (Some p', Some t') /\
    dir p' t' = dir pe te /\
    (pe < 2 * PI -> 0 < te < PI -> p' = pe /\ t' = te).
Proof.
  intros pe te ps ts Hs He H1 H2.
  pose proof (nonparallel ps ts pe te H1 H2) as HN.
  destruct (rotate_spec pe te ps ts ps ts) as (q & Eq & p' & t' & -> & Hp & Ht & D);
    [now apply nonparallel_accepted|exact HN|].
  exists p', t'. rewrite rod_start_end in D by (try apply dir_unit; now apply nrm_nz).
  split; [exact Eq|]. split; [exact D|]. intros Hlt Hte. destruct He as [He1 He2].
  apply dir_inj; auto; lra.
Qed.

Lemma rotate_back : forall pe te ps ts p t p' t',
  on_sky ps ts -> on_sky pe te ->
  dir ps ts <> dir pe te -> dir ps ts <> vscale (-1) (dir pe te) ->
  usphere_rotate (Some p) (Some t) pe te ps ts = Ok (Some p', Some t') ->
  exists p'' t'', usphere_rotate (Some p') (Some t') ps ts pe te = Ok (Some p'', Some t'') /\
    dir p'' t'' = dir p t /\
    (0 <= p < 2 * PI -> 0 < t < PI -> p'' = p /\ t'' = t).
Proof.
  intros pe te ps ts p t p' t' Hs He H1 H2 E.
  pose proof (nonparallel ps ts pe te H1 H2) as HN.
  destruct (rotate_spec pe te ps ts p t) as (q & Eq & p1 & t1 & -> & Hp & Ht & D);
    [now apply nonparallel_accepted|exact HN|].
  rewrite E in Eq. injection Eq as -> ->.
  assert (H1' : dir pe te <> dir ps ts) by auto.
  assert (H2' : dir pe te <> vscale (-1) (dir ps ts)).
  { intros Z. apply H2. rewrite Z. apply vec_ext; vec3; ring. }
  pose proof (nonparallel pe te ps ts H1' H2') as HN'.
  destruct (rotate_spec ps ts pe te p1 t1) as (q & Eq & p2 & t2 & -> & Hp2 & Ht2 & D2);
    [now apply nonparallel_accepted|exact HN'|].
  exists p2, t2. split; [exact Eq|].
  assert (X : dir p2 t2 = dir p t).
  { rewrite D2, D. rewrite (dot_comm (dir pe te)).
    assert (C : cross (dir pe te) (dir ps ts) = vscale (-1) (cross (dir ps ts) (dir pe te)))
      by (apply vec_ext; vec3; ring).
    rewrite C. unfold unit_of at 1.
    assert (NN : nrm (vscale (-1) (cross (dir ps ts) (dir pe te))) = nrm (cross (dir ps ts) (dir pe te))).
    { unfold nrm. f_equal. vec3. ring. }
    rewrite NN.
    replace (vscale (/ nrm (cross (dir ps ts) (dir pe te))) (vscale (-1) (cross (dir ps ts) (dir pe te))))
      with (vscale (-1) (unit_of (cross (dir ps ts) (dir pe te))))
      by (unfold unit_of; generalize (cross (dir ps ts) (dir pe te)); intros w;
          apply vec_ext; unfold vscale; cbn [vx vy vz]; ring).
    rewrite rod_neg. apply rod_inv. apply n_unit; try apply dir_unit. now apply nrm_nz. }
  split; [exact X|]. intros Hpp Htt. apply dir_inj; auto; lra.
Qed.

(** ** Sky area as an integral *)

Lemma area_integral : forall p0 p1 t0 t1 a, usphere_area p0 p1 t0 t1 = Ok a ->
  is_RInt (fun _ => RInt sin t0 t1) p0 p1 a.
Proof.
  intros p0 p1 t0 t1 a H. apply area_inv in H. destruct H as [_ ->].
  assert (E : is_RInt sin t0 t1 (cos t0 - cos t1)).
  { replace (cos t0 - cos t1) with (minus (- cos t1) (- cos t0))
      by (unfold minus, plus, opp; cbn; ring).
    apply (is_RInt_derive (fun x => - cos x) sin).
    - intros x _. auto_derive; [exact I|ring].
    - intros x _. apply continuous_sin. }
  rewrite (is_RInt_unique _ _ _ _ E).
  exact (is_RInt_const p0 p1 (cos t0 - cos t1)).
Qed.
