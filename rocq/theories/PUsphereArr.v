(** * Array and array-object versions of the sphere transforms *)

From Coq Require Import Reals ZArith List Bool Lra Lia Psatz.
From Flocq Require Import Core.Raux.
From Verif Require Import Base BaseP SpecSphere MCoords MUsphere PHealpixCentre PTrig PCoords PUsphere.
Import ListNotations.
Open Scope R_scope.

Lemma parallel_units : forall u v, dot u u = 1 -> dot v v = 1 -> cross u v = V3 0 0 0 ->
  u = v \/ u = vscale (-1) v.
Proof.
  intros u v Hu Hv Hc.
  assert (E : dot u v ^ 2 = 1).
  { pose proof (lagrange u v) as L. rewrite Hc, Hu, Hv in L. unfold dot in L at 1; cbn in L. lra. }
  assert (D : dot u v = 1 \/ dot u v = -1) by (destruct (Rle_or_lt 0 (dot u v)); [left|right]; nra).
  destruct D as [D|D]; [left|right].
  - assert (Z : vadd u (vscale (-1) v) = V3 0 0 0).
    { apply dot_zero. transitivity (dot u u - 2 * dot u v + dot v v); [vec3; ring|lra]. }
    pose proof (f_equal vx Z); pose proof (f_equal vy Z); pose proof (f_equal vz Z).
    unfold vadd, vscale in *; cbn [vx vy vz] in *. apply vec_ext; lra.
  - assert (Z : vadd u v = V3 0 0 0).
    { apply dot_zero. transitivity (dot u u + 2 * dot u v + dot v v); [vec3; ring|lra]. }
    pose proof (f_equal vx Z); pose proof (f_equal vy Z); pose proof (f_equal vz Z).
    unfold vadd, vscale in *; cbn [vx vy vz] in *. apply vec_ext; cbn [vx vy vz]; lra.
Qed.

Lemma cross_parallel : forall u v, u = v \/ u = vscale (-1) v -> cross u v = V3 0 0 0.
Proof. intros u v [->| ->]; apply vec_ext; vec3; ring. Qed.

(** ** Arrays *)

Lemma nth_map2_pair : forall A (g : A -> A -> A * A) l m q d,
  length l = length m -> (q < length l)%nat ->
  (nth q (map fst (map2 g l m)) d, nth q (map snd (map2 g l m)) d) = g (nth q l d) (nth q m d).
Proof.
  intros A g l m q d HL Hq.
  rewrite (nth_map_lt _ _ fst _ q d (d, d)) by (rewrite map2_length; lia).
  rewrite (nth_map_lt _ _ snd _ q d (d, d)) by (rewrite map2_length; lia).
  rewrite (nth_map2 _ _ _ g l m q d d (d, d)) by lia.
  symmetry. apply surjective_pairing.
Qed.

Lemma rotate_arr_nth : forall phi theta pe te ps ts a b q,
  length phi = length theta -> (q < length phi)%nat ->
  usphere_rotate_arr phi theta pe te ps ts = Ok (a, b) ->
  length a = length phi /\ length b = length phi /\
  usphere_rotate (nth q phi None) (nth q theta None) pe te ps ts
  = Ok (nth q a None, nth q b None).
Proof.
  intros phi theta pe te ps ts a b q HL Hq H. unfold usphere_rotate_arr, usphere_rotate in *.
  destruct (rotate_setup pe te ps ts) as [o|e]; [|discriminate]. cbn [bind] in *.
  apply Ok_inj in H.
  set (g := match o with Some f => rotate_point f | None => fun _ _ => (None, None) end).
  assert (E : (match o with
               | Some f => map2 (rotate_point f) phi theta
               | None => map2 (fun _ _ : num => (None, None)) phi theta end) = map2 g phi theta)
    by (unfold g; destruct o; reflexivity).
  rewrite E in H. injection H as Ha Hb. subst a b. rewrite !map_length, map2_length.
  split; [lia|]. split; [lia|].
  transitivity (Ok (g (nth q phi None) (nth q theta None))).
  - unfold g. destruct o; reflexivity.
  - f_equal. symmetry. exact (nth_map2_pair num g phi theta q None HL Hq).
Qed.

Lemma rotate_arr_err : forall phi theta pe te ps ts e,
  usphere_rotate_arr phi theta pe te ps ts = Err e <->
  (forall p t, usphere_rotate p t pe te ps ts = Err e).
Proof.
  intros. unfold usphere_rotate_arr, usphere_rotate.
  destruct (rotate_setup pe te ps ts) as [o|e']; cbn [bind].
  - split; [discriminate|]. intros H. specialize (H None None). destruct o; discriminate.
  - split; [|intros H; specialize (H None None); now injection H as ->]. intros H _ _. injection H as ->. reflexivity.
Qed.

(** Element-wise effect of the array branch of [usphere_phi_shift]. *)
Definition shift1 (d : R) (x : num) : num :=
  match x with Some a => Some (phi_norm (a + d)) | None => None end.

Lemma shift1_scalar : forall x d, - (2 * PI) < d < 2 * PI ->
  usphere_phi_shift x d = Ok (shift1 d x).
Proof. intros [a|] d H; [now apply phi_shift_ok|now apply phi_shift_none]. Qed.

Lemma phi_shift_arr_ok : forall phi d, - (2 * PI) < d < 2 * PI ->
  usphere_phi_shift_arr phi d = Ok (map (shift1 d) phi).
Proof.
  intros phi d H. unfold usphere_phi_shift_arr, py_assert. rewrite !Rlt_bool_t by lra.
  cbn [andb]. f_equal. unfold take.
  set (l0 := map (fun p => naddc p d) phi).
  set (c1 := map (fun p => ngtb p (2 * PI)) l0).
  set (l1 := put l0 (np_where c1) _).
  set (c2 := map (fun p => nltb p 0) l1).
  assert (L0 : length l0 = length phi) by (unfold l0; apply map_length).
  assert (L1 : length l1 = length phi) by (unfold l1; rewrite length_put; exact L0).
  apply (list_ext num _ _ None).
  - rewrite length_put, map_length. exact L1.
  - intros q Hq. rewrite length_put in Hq. rewrite L1 in Hq.
    rewrite map_map.
    refine (eq_trans (nth_put_where num c2 l1 (fun i => naddc (@nth num i l1 None) (2 * PI)) q None _ _) _);
      [unfold c2; apply map_length|unfold num in *; lia|].
    unfold c2 at 1. rewrite (nth_map_lt num _ _ l1 q false None) by lia.
    assert (E1 : @nth num q l1 None =
      (if ngtb (@nth num q l0 None) (2 * PI) then naddc (@nth num q l0 None) (- (2 * PI)) else @nth num q l0 None)).
    { unfold l1. rewrite map_map.
      refine (eq_trans (nth_put_where num c1 l0 (fun i => naddc (@nth num i l0 None) (- (2 * PI))) q None _ _) _);
        [unfold c1; apply map_length|unfold num in *; lia|].
      unfold c1 at 1. rewrite (nth_map_lt num _ _ l0 q false None) by lia. reflexivity. }
    rewrite E1.
    assert (E0 : @nth num q l0 None = naddc (@nth num q phi None) d).
    { unfold l0. exact (nth_map_lt num num (fun p => naddc p d) phi q None None Hq). }
    rewrite E0. rewrite (nth_map_lt num num _ phi q None None) by exact Hq.
    destruct (@nth num q phi None) as [a|]; cbn; [|reflexivity].
    unfold phi_norm. destruct (Rlt_bool_spec (2 * PI) (a + d)) as [Hg|Hg]; cbn.
    + rewrite Rlt_bool_f by lra. reflexivity.
    + destruct (Rlt_bool (a + d) 0); reflexivity.
Qed.

Lemma phi_shift_arr_err : forall phi d, ~ (- (2 * PI) < d < 2 * PI) ->
  usphere_phi_shift_arr phi d = Err AssertionError.
Proof.
  intros p d H. unfold usphere_phi_shift_arr, py_assert.
  destruct (Rlt_bool_spec (- (2 * PI)) d); [|reflexivity].
  destruct (Rlt_bool_spec d (2 * PI)); [|reflexivity]. exfalso. apply H. lra.
Qed.

(** ** Array objects *)

Lemma deref_set : forall h a v, (a < length h)%nat -> deref (set_nth h a v) a = v.
Proof.
  intros h a v H. unfold deref. rewrite nth_set_nth. rewrite Nat.eqb_refl.
  cbn [andb]. destruct (Nat.ltb_spec a (length h)); [reflexivity|lia].
Qed.

Lemma deref_other : forall h a v b, b <> a -> deref (set_nth h a v) b = deref h b.
Proof.
  intros h a v b H. unfold deref. rewrite nth_set_nth.
  destruct (Nat.eqb_spec b a); [contradiction|reflexivity].
Qed.

Lemma deref_app : forall h v a, (a < length h)%nat -> deref (h ++ [v]) a = deref h a.
Proof. intros h v a H. unfold deref. now rewrite app_nth1. Qed.

Lemma phi_shift_mem_ok : forall h a d, - (2 * PI) < d < 2 * PI ->
  usphere_phi_shift_mem h a d = Ok (set_nth h a (map (shift1 d) (deref h a)), a).
Proof.
  intros h a d Hd. unfold usphere_phi_shift_mem. rewrite phi_shift_arr_ok by exact Hd. reflexivity.
Qed.

Lemma shift1_changes : forall d x p, d <> 0 -> - (2 * PI) < d < 2 * PI ->
  x = Some p -> shift1 d x <> x.
Proof.
  intros d x p Hd Hr -> E. cbn in E. injection E as E. unfold phi_norm in E.
  destruct (Rlt_bool (2 * PI) (p + d)); [lra|]. destruct (Rlt_bool (p + d) 0); lra.
Qed.

Lemma shift_mem_spec : forall h phi theta ps ts pe te r,
  (phi < length h)%nat -> 
  usphere_shift_mem h phi theta ps ts pe te = Ok r ->
  let '(h', a, b) := r in
  deref h' phi = map (shift1 (pe - ps)) (deref h phi) /\
  (forall k, (k < length h)%nat -> k <> phi -> deref h' k = deref h k) /\
  (length h <= length h')%nat /\
  (ts = te -> a = phi /\ b = theta /\ length h' = length h) /\
  (ts <> te -> (length h <= a)%nat /\ (length h <= b)%nat).
Proof.
  intros h phi theta ps ts pe te r Hphi E. unfold usphere_shift_mem, py_assert in E.
  destruct (in_range 0 ps (2 * PI)); [|discriminate].
  destruct (in_range 0 pe (2 * PI)); [|discriminate].
  destruct (in_range 0 ts PI); [|discriminate].
  destruct (in_range 0 te PI); [|discriminate].
  destruct (Rlt_dec (- (2 * PI)) (pe - ps)) as [H1|H1]; [destruct (Rlt_dec (pe - ps) (2 * PI)) as [H2|H2]|].
  2, 3: exfalso; unfold usphere_phi_shift_mem in E; rewrite phi_shift_arr_err in E by lra; discriminate.
  rewrite phi_shift_mem_ok in E by lra. cbn [bind] in E.
  set (h1 := set_nth h phi _) in *.
  assert (L1 : length h1 = length h) by (unfold h1; apply length_set_nth).
  destruct (Req_bool_spec ts te) as [Et|Et]; cbn [negb] in E.
  - apply Ok_inj in E. subst r. split; [apply deref_set; exact Hphi|].
    split; [intros k _ Hk; apply deref_other; exact Hk|]. split; [lia|].
    split; [intros _; auto|intros; contradiction].
  - destruct (usphere_rotate_arr (deref h1 phi) (deref h1 theta) pe te pe ts) as [pt|e];
      [|discriminate].
    unfold alloc in E. cbn [bind fst snd] in E. apply Ok_inj in E. subst r.
    assert (D : forall k, (k < length h)%nat ->
      deref ((h1 ++ [fst pt]) ++ [snd pt]) k = deref h1 k).
    { intros k Hk. rewrite deref_app by (rewrite app_length; lia). apply deref_app. lia. }
    split; [rewrite D by exact Hphi; apply deref_set; exact Hphi|].
    split; [intros k Hk Hn; rewrite D by exact Hk; apply deref_other; exact Hn|].
    rewrite !app_length. cbn [length]. split; [lia|]. split; [intros; contradiction|]. intros _; lia.
Qed.

Lemma map_shift1_0_id : forall l, Forall (fun x => match x with Some p => 0 <= p <= 2 * PI | None => True end) l ->
  map (shift1 0) l = l.
Proof.
  induction 1 as [|x l Hx Hl IH]; [reflexivity|]. cbn [map]. rewrite IH. f_equal.
  destruct x as [p|]; [|reflexivity]. cbn. rewrite Rplus_0_r. now rewrite phi_norm_id.
Qed.

Lemma shift_mem_inrange : forall h phi theta ps ts pe te r,
  usphere_shift_mem h phi theta ps ts pe te = Ok r -> - (2 * PI) < pe - ps < 2 * PI.
Proof.
  intros h phi theta ps ts pe te r E. unfold usphere_shift_mem, py_assert in E.
  destruct (in_range 0 ps (2 * PI)); [|discriminate].
  destruct (in_range 0 pe (2 * PI)); [|discriminate].
  destruct (in_range 0 ts PI); [|discriminate].
  destruct (in_range 0 te PI); [|discriminate].
  destruct (Rlt_dec (- (2 * PI)) (pe - ps)) as [H1|H1]; [destruct (Rlt_dec (pe - ps) (2 * PI)) as [H2|H2]|].
  - lra.
  - exfalso; unfold usphere_phi_shift_mem in E; rewrite phi_shift_arr_err in E by lra; discriminate.
  - exfalso; unfold usphere_phi_shift_mem in E; rewrite phi_shift_arr_err in E by lra; discriminate.
Qed.

Lemma phi_shift_mem_inv : forall h a d r, usphere_phi_shift_mem h a d = Ok r ->
  - (2 * PI) < d < 2 * PI /\ r = (set_nth h a (map (shift1 d) (deref h a)), a).
Proof.
  intros h a d r E.
  destruct (Rlt_dec (- (2 * PI)) d) as [H1|H1]; [destruct (Rlt_dec d (2 * PI)) as [H2|H2]|].
  - split; [lra|]. rewrite phi_shift_mem_ok in E by lra. now apply Ok_inj in E.
  - exfalso; unfold usphere_phi_shift_mem in E; rewrite phi_shift_arr_err in E by lra; discriminate.
  - exfalso; unfold usphere_phi_shift_mem in E; rewrite phi_shift_arr_err in E by lra; discriminate.
Qed.

(** Effect of [usphere_spin] on the caller's array. *)
Lemma spin_mem_spec : forall h phi theta pc tc al r,
  (phi < length h)%nat -> (theta < length h)%nat -> phi <> theta ->
  Forall (fun x => match x with Some p => 0 <= p <= 2 * PI | None => True end) (deref h phi) ->
  usphere_spin_mem h phi theta pc tc al = Ok r ->
  let '(h', a, b) := r in
  deref h' theta = deref h theta /\
  (tc = 0 -> a = phi /\ deref h' phi = map (shift1 al) (deref h phi)) /\
  (tc <> 0 -> (length h <= a)%nat /\ (length h <= b)%nat /\ deref h' phi = deref h phi).
Proof.
  intros h phi theta pc tc al r Hp Ht Hpt Hf E. unfold usphere_spin_mem, py_assert in E.
  destruct (in_range 0 pc (2 * PI)); [|discriminate].
  destruct (in_range 0 tc PI); [|discriminate].
  destruct (Rle_bool_spec 0 al) as [Ha|Ha]; unfold in_range in E.
  2: rewrite Rle_bool_f in E by exact Ha; discriminate.
  rewrite (Rle_bool_t 0 al) in E by exact Ha. cbn [andb] in E.
  destruct (Rle_bool al (2 * PI)); [|discriminate].
  destruct (usphere_shift_mem h phi theta pc tc pc 0) as [q1|] eqn:E1; [|discriminate].
  cbn [bind] in E. pose proof (shift_mem_spec _ _ _ _ _ _ _ _ Hp E1) as S1.
  destruct q1 as [[h1 a1] b1]. destruct S1 as (P1 & O1 & L1 & T1 & N1).
  rewrite Rminus_diag_eq in P1 by reflexivity. rewrite map_shift1_0_id in P1 by exact Hf.
  destruct (usphere_phi_shift_mem h1 a1 al) as [q2|] eqn:E2; [|discriminate].
  cbn [bind] in E. apply phi_shift_mem_inv in E2. destruct E2 as [Hal ->].
  set (h2 := set_nth h1 a1 (map (shift1 al) (deref h1 a1))) in *.
  assert (L2 : length h2 = length h1) by (unfold h2; apply length_set_nth).
  destruct (Req_dec tc 0) as [Z|Z].
  - destruct (T1 Z) as (-> & -> & LL). 
    assert (Hp2 : (phi < length h2)%nat) by lia.
    pose proof (shift_mem_spec _ _ _ _ _ _ _ _ Hp2 E) as S2.
    destruct r as [[h' a] b]. destruct S2 as (P2 & O2 & _ & T2 & _).
    split.
    + rewrite O2 by (try lia; auto). unfold h2. rewrite deref_other by auto.
      apply O1; auto.
    + split; [|intros; contradiction]. intros _. destruct (T2 (eq_sym Z)) as (-> & _ & _).
      split; [reflexivity|]. rewrite P2, Rminus_diag_eq by reflexivity.
      unfold h2. rewrite deref_set by lia. rewrite P1.
      rewrite map_shift1_0_id; [reflexivity|].
      clear - Hf Ha Hal. induction Hf as [|x l Hx Hl IH]; [constructor|]. cbn [map]. constructor; [|exact IH].
      destruct x as [p|]; [|exact I]. cbn. apply phi_norm_range; lra.
  - destruct (N1 Z) as [G1 G2].
    assert (Hp2 : (a1 < length h2)%nat).
    { clear - E1 Z L2 Hp. unfold usphere_shift_mem, py_assert in E1.
      repeat match type of E1 with context [in_range ?a ?b ?c] => destruct (in_range a b c); [|discriminate] end.
      destruct (usphere_phi_shift_mem h phi (pc - pc)) as [q|] eqn:E3; [|discriminate].
      apply phi_shift_mem_inv in E3. destruct E3 as [_ ->]. cbn [bind] in E1.
      destruct (Req_bool_spec tc 0); [contradiction|]. cbn [negb] in E1.
      destruct (usphere_rotate_arr _ _ _ _ _ _) as [pt|]; [|discriminate]. cbn [bind] in E1.
      unfold alloc in E1. apply Ok_inj in E1. injection E1 as F1 F2 F3.
      rewrite L2, <- F1, <- F2, !app_length. cbn [length]. lia. }
    pose proof (shift_mem_spec _ _ _ _ _ _ _ _ Hp2 E) as S2.
    destruct r as [[h' a] b]. destruct S2 as (P2 & O2 & _ & _ & N2).
    assert (Z' : 0 <> tc) by auto. destruct (N2 Z') as [M1 M2].
    split.
    + rewrite O2 by lia. unfold h2. rewrite deref_other by lia. apply O1; auto.
    + split; [intros; contradiction|]. intros _.
      split; [lia|]. split; [lia|]. rewrite O2 by lia. unfold h2. rewrite deref_other by lia. exact P1.
Qed.
