(** * Theorems: the [densegrid.PointOfView] object over sequences of calls (C83) *)

From Coq Require Import Reals ZArith List Bool Lia Lra Psatz.
From Flocq Require Import Core.Raux.
From Verif Require Import Base BaseP SpecSphere SpecView MCoords MUsphere MView MLifeView PTrig PUsphere PView TView.
Import ListNotations.
Open Scope R_scope.

(** ** Specification *)

(** Contents of the caller's list [a] after the calls [h]: the last [CWrite]. *)
Fixpoint contents (H : heap) (h : list call) (a : nat) : list R :=
  match h with
  | [] => H a
  | CWrite b l :: t => contents (fun c => if Nat.eq_dec c b then l else H c) t a
  | _ :: t => contents H t a
  end.

(** The list holds (at least) three numbers, the first three are [v]. *)
Definition holds (l : list R) (v : vec) : Prop := exists more, l = vx v :: vy v :: vz v :: more.
Definition short (l : list R) : Prop := (length l < 3)%nat.

Definition is_setup (c : call) : Prop := match c with CSetup _ _ _ _ => True | _ => False end.

(** [CSetup cam pt D s] is the last set-up call since the last [clean]; [h1] are
    the calls before it. *)
Definition setup_in_force (h1 : list call) (cam pt : nat) (D s : R) (h : list call) : Prop :=
  exists h2, h = h1 ++ CSetup cam pt D s :: h2 /\ ~ In CClean h2 /\ forall c, In c h2 -> ~ is_setup c.

(** What the object does, as an outcome of [transform] or [reverse]. *)
Definition outcome (H : heap) (h : list call) (c : call) : res value := snd (step (run (H, fresh) h) c).

Definition image_of (r : res (num * num * num)) : res value := 'q <- r ;; Ok (VImage (fst (fst q)) (snd (fst q)) (snd q)).
Definition point_of (r : res (option vec)) : res value := q <- r ;; Ok (VPoint q).

(** ** Lemmas *)

Lemma run_app : forall h h' w, run w (h ++ h') = run (run w h) h'.
Proof. intros h. induction h as [|c h IH]; intros; cbn [app run]; auto. Qed.

Lemma vec3_holds : forall l v, holds l v -> vec3 l = Ok v.
Proof. intros l [x y z] [more ->]. reflexivity. Qed.

Lemma vec3_short : forall l, short l -> vec3 l = Err IndexError.
Proof. intros [|a [|b [|c l]]] H; cbn in H; try reflexivity. unfold short in H. cbn in H. lia. Qed.

Lemma short_or_holds : forall l, short l \/ exists v, holds l v.
Proof.
  intros [|a [|b [|c l]]]; try (left; unfold short; cbn; lia). right. exists (V3 a b c), l. reflexivity.
Qed.

Lemma contents_ext : forall h H H' a, (forall b, H b = H' b) -> contents H h a = contents H' h a.
Proof.
  induction h as [|c h IH]; intros H H' a E; [apply E|]. destruct c; cbn [contents]; auto.
  apply IH. intros b. destruct (Nat.eq_dec b a0); auto.
Qed.

Lemma heap_run : forall h H s a, fst (run (H, s) h) a = contents H h a.
Proof.
  induction h as [|c h IH]; intros H s a; [reflexivity|]. destruct c; cbn [run step contents fst]; auto.
  - destruct (setup_step H s camera point display spin) as [s' r]. cbn [fst]. apply IH.
  - rewrite IH. apply contents_ext. intros b. unfold write. destruct (Nat.eqb_spec b a0), (Nat.eq_dec b a0); congruence.
Qed.

Lemma keep : forall h H s, ~ In CClean h -> (forall c, In c h -> ~ is_setup c) -> snd (run (H, s) h) = s.
Proof.
  induction h as [|c h IH]; intros H s N1 N2; [reflexivity|]. destruct c; cbn [run step fst].
  - destruct (N2 _ (or_introl eq_refl)). exact I.
  - apply IH; [intros I; apply N1; now right|intros c I; apply N2; now right].
  - apply IH; [intros I; apply N1; now right|intros c I; apply N2; now right].
  - destruct (N1 (or_introl eq_refl)).
  - apply IH; [intros I; apply N1; now right|intros c I; apply N2; now right].
Qed.

Lemma in_force_state : forall H h1 cam pt D s h, setup_in_force h1 cam pt D s h ->
  snd (run (H, fresh) h) = fst (setup_step (fst (run (H, fresh) h1)) (snd (run (H, fresh) h1)) cam pt D s).
Proof.
  intros H h1 cam pt D s h (h2 & -> & N1 & N2). rewrite run_app. destruct (run (H, fresh) h1) as [H1 s1]. cbn [run step fst snd].
  destruct (setup_step H1 s1 cam pt D s) as [s' r]. cbn [fst]. now rewrite keep.
Qed.

Lemma outcome_transform : forall H h p, outcome H h (CTransform p) = transform_of (fst (run (H, fresh) h)) (snd (run (H, fresh) h)) p.
Proof. intros. unfold outcome. destruct (run (H, fresh) h) as [H' s']. reflexivity. Qed.
Lemma outcome_reverse : forall H h bx by_ d, outcome H h (CReverse bx by_ d) = reverse_of (fst (run (H, fresh) h)) (snd (run (H, fresh) h)) bx by_ d.
Proof. intros. unfold outcome. destruct (run (H, fresh) h) as [H' s']. reflexivity. Qed.

Lemma setup_fields : forall c t D s, pov_setup c t D s = View c D (phi_point_towards (pov_setup c t D s)) (theta_point_towards (pov_setup c t D s)) s.
Proof. intros. unfold pov_setup. destruct (cart2sphere _ _ _ _ _ _) as [[r p] th]. reflexivity. Qed.

(** A view moved to another place, direction and all else kept. *)
Definition carried (v : view) (c : vec) : view := View c (display v) (phi_point_towards v) (theta_point_towards v) (spin v).

Lemma transform_carried : forall v c p, pov_transform (carried v c) p = pov_transform v (vadd (vsub p c) (camera v)).
Proof.
  intros v c p. unfold pov_transform. cbn [camera carried].
  replace (cart2sphere (vx (vadd (vsub p c) (camera v))) (vy (vadd (vsub p c) (camera v))) (vz (vadd (vsub p c) (camera v))) (vx (camera v)) (vy (camera v)) (vz (camera v)))
    with (cart2sphere (vx p) (vy p) (vz p) (vx c) (vy c) (vz c)).
  - reflexivity.
  - unfold cart2sphere, vadd, vsub. cbn [vx vy vz].
    replace (vx p - vx c + vx (camera v) - vx (camera v)) with (vx p - vx c) by ring.
    replace (vy p - vy c + vy (camera v) - vy (camera v)) with (vy p - vy c) by ring.
    replace (vz p - vz c + vz (camera v) - vz (camera v)) with (vz p - vz c) by ring. reflexivity.
Qed.

(** ** C83: what a view depends on *)

(** The set-up in force, the camera list as it is now and the two lists as they
    were at the set-up determine every picture: the view of the set-up, carried
    to where the camera list now is. *)
Theorem C83_view : forall H h1 cam pt D s h c t c', setup_in_force h1 cam pt D s h ->
  holds (contents H h1 cam) c -> holds (contents H h1 pt) t -> holds (contents H h cam) c' ->
  (forall p, outcome H h (CTransform p) = image_of (pov_transform (pov_setup c t D s) (vadd (vsub p c') c))) /\
  (forall bx by_ dist, outcome H h (CReverse bx by_ dist) = point_of (pov_reverse (carried (pov_setup c t D s) c') bx by_ dist)).
Proof.
  intros H h1 cam pt D s h c t c' HF Hc Ht Hc'. rewrite <- (heap_run h1 H fresh) in Hc, Ht. rewrite <- (heap_run h H fresh) in Hc'.
  assert (S : snd (run (H, fresh) h) = PObj (Some cam) (Some D) (Some (phi_point_towards (pov_setup c t D s), theta_point_towards (pov_setup c t D s), s))).
  { rewrite (in_force_state H h1 cam pt D s h HF). unfold setup_step. rewrite (vec3_holds _ _ Ht), (vec3_holds _ _ Hc). reflexivity. }
  split.
  - intros p. rewrite outcome_transform, S. unfold transform_of. cbn [p_camera p_display p_aim]. rewrite (vec3_holds _ _ Hc'). cbn [bind].
    assert (E : View c' D (phi_point_towards (pov_setup c t D s)) (theta_point_towards (pov_setup c t D s)) s = carried (pov_setup c t D s) c')
      by (rewrite setup_fields; reflexivity).
    rewrite E, transform_carried. replace (camera (pov_setup c t D s)) with c by (rewrite setup_fields; reflexivity). reflexivity.
  - intros bx by_ dist. rewrite outcome_reverse, S. unfold reverse_of. cbn [p_camera p_display p_aim]. rewrite (vec3_holds _ _ Hc').
    assert (E : View c' D (phi_point_towards (pov_setup c t D s)) (theta_point_towards (pov_setup c t D s)) s = carried (pov_setup c t D s) c')
      by (rewrite setup_fields; reflexivity).
    rewrite E. reflexivity.
Qed.
Print Assumptions C83_view.

(** A camera list that has become too short: neither call returns. *)
Theorem C83_camera_shortened : forall H h1 cam pt D s h c t, setup_in_force h1 cam pt D s h ->
  holds (contents H h1 cam) c -> holds (contents H h1 pt) t -> short (contents H h cam) ->
  (forall p, outcome H h (CTransform p) = Err IndexError) /\
  (forall bx by_ dist v, outcome H h (CReverse bx by_ dist) <> Ok v) /\
  (D <> 0 -> s = 0 -> forall bx by_ dist, outcome H h (CReverse bx by_ dist) = Err IndexError).
Proof.
  intros H h1 cam pt D s h c t HF Hc Ht Hc'. rewrite <- (heap_run h1 H fresh) in Hc, Ht. rewrite <- (heap_run h H fresh) in Hc'.
  assert (S : snd (run (H, fresh) h) = PObj (Some cam) (Some D) (Some (phi_point_towards (pov_setup c t D s), theta_point_towards (pov_setup c t D s), s))).
  { rewrite (in_force_state H h1 cam pt D s h HF). unfold setup_step. rewrite (vec3_holds _ _ Ht), (vec3_holds _ _ Hc). reflexivity. }
  split; [|split].
  - intros p. rewrite outcome_transform, S. unfold transform_of. cbn [p_camera p_display p_aim]. rewrite (vec3_short _ Hc'). reflexivity.
  - intros bx by_ d v. rewrite outcome_reverse, S. unfold reverse_of. cbn [p_camera p_display p_aim]. rewrite (vec3_short _ Hc').
    destruct (pov_reverse _ _ _ _); discriminate.
  - intros HD Hs bx by_ d. rewrite outcome_reverse, S. unfold reverse_of. cbn [p_camera p_display p_aim]. rewrite (vec3_short _ Hc').
    destruct (setup_aimed c t D s) as (ph & th & HA & _). rewrite (reverse_spec _ ph th); auto.
Qed.
Print Assumptions C83_camera_shortened.

(** As long as the caller leaves the camera list alone, the object is the view
    of C61, whatever happens to the list of the target. *)
Theorem C83_undisturbed : forall H h1 cam pt D s h2 c t, ~ In CClean h2 -> (forall x, In x h2 -> ~ is_setup x) ->
  (forall a l, In (CWrite a l) h2 -> a <> cam) -> holds (contents H h1 cam) c -> holds (contents H h1 pt) t ->
  let h := h1 ++ CSetup cam pt D s :: h2 in
  (forall p, outcome H h (CTransform p) = image_of (pov_transform (pov_setup c t D s) p)) /\
  (forall bx by_ dist, outcome H h (CReverse bx by_ dist) = point_of (pov_reverse (pov_setup c t D s) bx by_ dist)).
Proof.
  intros H h1 cam pt D s h2 c t N1 N2 N3 Hc Ht h.
  assert (E : contents H h cam = contents H h1 cam).
  { unfold h. clear - N3. revert H. induction h1 as [|x h1 IH]; intros H; cbn [app].
    - cbn [contents]. revert H N3. induction h2 as [|y h2 IH2]; intros H N3; [reflexivity|]. cbn [contents].
      destruct y; try (apply IH2; intros a' l' I; apply (N3 a' l'); now right).
      rewrite IH2 by (intros a' l' I; apply (N3 a' l'); now right). destruct (Nat.eq_dec cam a) as [->|]; [|reflexivity].
      destruct (N3 a l (or_introl eq_refl) eq_refl).
    - destruct x; cbn [contents]; apply IH. }
  destruct (C83_view H h1 cam pt D s h c t c) as [A B]; auto; [exists h2; auto| |].
  { rewrite E. exact Hc. }
  split.
  - intros p. rewrite A. do 2 f_equal. apply vec_ext; unfold vadd, vsub; cbn [vx vy vz]; ring.
  - intros bx by_ dist. rewrite B. do 2 f_equal.
Qed.
Print Assumptions C83_undisturbed.

(** [clean] makes the object as new; the calls of the object never touch the
    caller's lists; [transform] and [reverse] change nothing at all. *)
Theorem C83_clean : forall H h h', run (H, fresh) (h ++ CClean :: h') = run (fst (run (H, fresh) h), fresh) h'.
Proof. intros. rewrite run_app. destruct (run (H, fresh) h) as [H' s']. reflexivity. Qed.
Print Assumptions C83_clean.

Theorem C83_reading : forall w c, match c with CTransform _ | CReverse _ _ _ => fst (step w c) = w | CWrite _ _ => True | _ => fst (fst (step w c)) = fst w end.
Proof. intros [H s] c. destruct c; try reflexivity; try exact I. cbn [step]. destruct (setup_step _ _ _ _ _ _). reflexivity. Qed.
Print Assumptions C83_reading.

(** Without a set-up since the last [clean] both calls raise TypeError. *)
Theorem C83_not_set_up : forall H h, (forall h1 h2 c, h = h1 ++ c :: h2 -> is_setup c -> In CClean h2) ->
  (forall p, outcome H h (CTransform p) = Err TypeError) /\ (forall bx by_ d, outcome H h (CReverse bx by_ d) = Err TypeError).
Proof.
  intros H h N. assert (S : snd (run (H, fresh) h) = fresh).
  { induction h as [|c h IH] using rev_ind; [reflexivity|]. rewrite run_app.
    assert (K : c = CClean \/ ~ is_setup c /\ c <> CClean).
    { destruct c; try (right; split; [intros []|discriminate]); [|now left]. exfalso. exact (N h [] _ eq_refl I). }
    destruct K as [->|[K1 K2]]; [destruct (run (H, fresh) h); reflexivity|].
    rewrite (surjective_pairing (run (H, fresh) h)), keep; [|intros [E|[]]; congruence|intros x [<- |[]]; exact K1].
    apply IH. intros h1 h2 x E X. specialize (N h1 (h2 ++ [c]) x). rewrite E, <- app_assoc in N. specialize (N eq_refl X).
    apply in_app_or in N. destruct N as [N|[N|[]]]; [exact N|congruence]. }
  split; intros; [rewrite outcome_transform|rewrite outcome_reverse]; rewrite S; reflexivity.
Qed.
Print Assumptions C83_not_set_up.

(** A set-up with a list that is too short raises IndexError; a first one leaves
    an object on which both calls raise, whatever is written into the lists
    afterwards. *)
Theorem C83_short : forall H h cam pt D s, short (contents H h cam) \/ short (contents H h pt) ->
  outcome H h (CSetup cam pt D s) = Err IndexError.
Proof.
  intros H h cam pt D s HS. unfold outcome. rewrite (surjective_pairing (run (H, fresh) h)). cbn [step]. rewrite <- !(heap_run h H fresh) in HS.
  unfold setup_step. destruct (short_or_holds (fst (run (H, fresh) h) pt)) as [K|[t K]].
  - rewrite (vec3_short _ K). reflexivity.
  - rewrite (vec3_holds _ _ K). cbn [bind]. destruct HS as [HS|HS]; [rewrite (vec3_short _ HS); reflexivity|].
    destruct K as [m K]. rewrite K in HS. unfold short in HS. cbn in HS. lia.
Qed.
Print Assumptions C83_short.

Theorem C83_first_short : forall H h0 cam pt D s h, setup_in_force h0 cam pt D s h ->
  (forall c, In c h0 -> ~ is_setup c) -> short (contents H h0 cam) \/ short (contents H h0 pt) ->
  (forall p, outcome H h (CTransform p) = Err TypeError \/ outcome H h (CTransform p) = Err IndexError) /\
  (forall bx by_ d, outcome H h (CReverse bx by_ d) = Err TypeError).
Proof.
  intros H h0 cam pt D s h HF N HS.
  assert (S0 : snd (run (H, fresh) h0) = fresh).
  { destruct (C83_not_set_up H h0) as [_ _].
    - intros h1 h2 c E X. exfalso. apply (N c); [rewrite E; apply in_or_app; right; now left|exact X].
    - clear - N. assert (G : forall h w, snd w = fresh -> (forall c, In c h -> ~ is_setup c) -> snd (run w h) = fresh).
      { induction h as [|c h IH]; intros [H' s'] E N'; [exact E|]. cbn [run]. apply IH; [|intros c' I; apply N'; now right].
        destruct c; try exact E; [destruct (N' _ (or_introl eq_refl)); exact I|reflexivity]. }
      apply G; auto. }
  assert (S : snd (run (H, fresh) h) = PObj (Some cam) (Some D) None).
  { rewrite (in_force_state H h0 cam pt D s h HF), S0. rewrite <- !(heap_run h0 H fresh) in HS. unfold setup_step.
    destruct (short_or_holds (fst (run (H, fresh) h0) pt)) as [K|[t K]]; [rewrite (vec3_short _ K); reflexivity|].
    rewrite (vec3_holds _ _ K). cbn [bind]. destruct HS as [HS|HS]; [rewrite (vec3_short _ HS); reflexivity|].
    destruct K as [m K]. rewrite K in HS. unfold short in HS. cbn in HS. lia. }
  split; intros; [rewrite outcome_transform|rewrite outcome_reverse]; rewrite S; [|reflexivity].
  unfold transform_of. cbn [p_camera p_display p_aim].
  destruct (short_or_holds (fst (run (H, fresh) h) cam)) as [K|[c K]]; [rewrite (vec3_short _ K); now right|rewrite (vec3_holds _ _ K); now left].
Qed.
Print Assumptions C83_first_short.

(** A later one: camera and display of the refused set-up, direction and spin of
    the one before; with a camera list that stays too short the calls raise. *)
Theorem C83_half_done : forall H h1 cam pt D s h cam' pt' D' s' h2 c t c', setup_in_force h1 cam pt D s h ->
  holds (contents H h1 cam) c -> holds (contents H h1 pt) t ->
  short (contents H h cam') \/ short (contents H h pt') ->
  ~ In CClean h2 -> (forall x, In x h2 -> ~ is_setup x) ->
  let g := h ++ CSetup cam' pt' D' s' :: h2 in
  (holds (contents H g cam') c' -> forall p, outcome H g (CTransform p) = image_of (pov_transform (pov_setup c t D' s) (vadd (vsub p c') c))) /\
  (holds (contents H g cam') c' -> forall bx by_ d, outcome H g (CReverse bx by_ d) = point_of (pov_reverse (carried (pov_setup c t D' s) c') bx by_ d)) /\
  (short (contents H g cam') -> forall p, outcome H g (CTransform p) = Err IndexError).
Proof.
  intros H h1 cam pt D s h cam' pt' D' s' h2 c t c' HF Hc Ht HS N1 N2 g.
  rewrite <- (heap_run h1 H fresh) in Hc, Ht. rewrite <- !(heap_run h H fresh) in HS.
  assert (S0 : snd (run (H, fresh) h) = PObj (Some cam) (Some D) (Some (phi_point_towards (pov_setup c t D s), theta_point_towards (pov_setup c t D s), s))).
  { rewrite (in_force_state H h1 cam pt D s h HF). unfold setup_step. rewrite (vec3_holds _ _ Ht), (vec3_holds _ _ Hc). reflexivity. }
  assert (S : snd (run (H, fresh) g) = PObj (Some cam') (Some D') (Some (phi_point_towards (pov_setup c t D s), theta_point_towards (pov_setup c t D s), s))).
  { rewrite (in_force_state H h cam' pt' D' s' g) by (exists h2; auto). rewrite S0. unfold setup_step.
    destruct (short_or_holds (fst (run (H, fresh) h) pt')) as [K|[t' K]]; [rewrite (vec3_short _ K); reflexivity|].
    rewrite (vec3_holds _ _ K). cbn [bind]. destruct HS as [HS|HS]; [rewrite (vec3_short _ HS); reflexivity|].
    destruct K as [m K]. rewrite K in HS. unfold short in HS. cbn in HS. lia. }
  assert (E : View c' D' (phi_point_towards (pov_setup c t D s)) (theta_point_towards (pov_setup c t D s)) s = carried (pov_setup c t D' s) c').
  { unfold pov_setup, carried. destruct (cart2sphere _ _ _ _ _ _) as [[r ph] th]. reflexivity. }
  split; [|split].
  - intros K p. rewrite <- (heap_run g H fresh) in K. rewrite outcome_transform, S. unfold transform_of. cbn [p_camera p_display p_aim].
    rewrite (vec3_holds _ _ K). cbn [bind].
    rewrite E, transform_carried. replace (camera (pov_setup c t D' s)) with c by (rewrite setup_fields; reflexivity). reflexivity.
  - intros K bx by_ d. rewrite <- (heap_run g H fresh) in K. rewrite outcome_reverse, S. unfold reverse_of. cbn [p_camera p_display p_aim].
    rewrite (vec3_holds _ _ K), E. reflexivity.
  - intros K p. rewrite <- (heap_run g H fresh) in K. rewrite outcome_transform, S. unfold transform_of. cbn [p_camera p_display p_aim].
    rewrite (vec3_short _ K). reflexivity.
Qed.
Print Assumptions C83_half_done.

(** ** Expectations that fail *)

Definition lists (a b : list R) : heap := fun n => match n with 0%nat => a | 1%nat => b | _ => [] end.

Lemma x_view : forall p, vx p <> 0 ->
  pov_transform (pov_setup (V3 0 0 0) (V3 1 0 0) 1 0) p = Ok (Some (vy p / vx p), Some (vz p / vx p), Some (vlen p)).
Proof.
  intros p Hp. pose proof PI_RGT_0. destruct (C61_projection (V3 0 0 0) (V3 1 0 0) 1 0 ltac:(lra)) as (F & HL & _ & HP).
  assert (G : looks (V3 0 0 0) (V3 1 0 0) (Frame (V3 1 0 0) (V3 0 1 0) (V3 0 0 1))).
  { unfold looks, orthonormal, dot, cross, ez, vlen, vsub, vscale, dot. cbn [fwd side up vx vy vz].
    replace ((1 - 0) * (1 - 0) + (0 - 0) * (0 - 0) + (0 - 0) * (0 - 0)) with 1 by ring. rewrite sqrt_1.
    repeat split; try ring; try lra; apply vec_ext; cbn [vx vy vz]; ring. }
  assert (FE : F = Frame (V3 1 0 0) (V3 0 1 0) (V3 0 0 1)).
  { apply (C61_frame_unique (V3 0 0 0) (V3 1 0 0)); auto. unfold cross, vsub, ez. cbn [vx vy vz]. intros E. injection E. lra. }
  subst F. destruct (HP p) as (bx & by_ & -> & _ & I).
  assert (Dp : depth (V3 0 0 0) (Frame (V3 1 0 0) (V3 0 1 0) (V3 0 0 1)) p = vx p) by (unfold depth, dot, vsub; cbn [fwd vx vy vz]; ring).
  destruct I as [-> ->]; [now rewrite Dp|]. unfold image. rewrite sin_0, cos_0 || idtac. unfold turned. rewrite ?sin_0, ?cos_0.
  assert (Dq : forall a b, depth (V3 0 0 0) (Frame (V3 1 0 0) a b) p = vx p) by (intros; unfold depth, dot, vsub; cbn [fwd vx vy vz]; ring).
  cbn [fwd side up fst snd]. rewrite !Dq. replace (vsub p (V3 0 0 0)) with p by (apply vec_ext; unfold vsub; cbn [vx vy vz]; ring).
  unfold dot, vadd, vscale. cbn [vx vy vz]. do 2 f_equal. f_equal; f_equal; field; exact Hp.
Qed.

Lemma x_image : forall p a b d, vx p <> 0 -> vy p / vx p = a -> vz p / vx p = b -> dot p p = d ->
  image_of (pov_transform (pov_setup (V3 0 0 0) (V3 1 0 0) 1 0) p) = Ok (VImage (Some a) (Some b) (Some (sqrt d))).
Proof. intros p a b d Hp <- <- <-. rewrite x_view by exact Hp. reflexivity. Qed.

(** "The view belongs to the set-up": changing the list that was given as
    camera moves the camera, without turning it: the target leaves the middle. *)
Theorem C83_camera_list_refuted : exists H cam pt t a l,
  holds (H pt) t /\ outcome H [CSetup cam pt 1 0] (CTransform t) = Ok (VImage (Some 0) (Some 0) (Some 1)) /\
  outcome H [CSetup cam pt 1 0; CWrite a l] (CTransform t) = Ok (VImage (Some (-1)) (Some 0) (Some (sqrt 2))).
Proof.
  exists (lists [0; 0; 0] [1; 0; 0]), 0%nat, 1%nat, (V3 1 0 0), 0%nat, [0; 1; 0].
  assert (Hc : holds (contents (lists [0; 0; 0] [1; 0; 0]) [] 0) (V3 0 0 0)) by (exists []; reflexivity).
  assert (Ht : holds (contents (lists [0; 0; 0] [1; 0; 0]) [] 1) (V3 1 0 0)) by (exists []; reflexivity).
  split; [exact Ht|]. split.
  - destruct (C83_view (lists [0; 0; 0] [1; 0; 0]) [] 0 1 1 0 [CSetup 0 1 1 0] (V3 0 0 0) (V3 1 0 0) (V3 0 0 0)) as [A _]; auto.
    { exists []. split; [reflexivity|]. split; [intros []|intros c []]. }
    rewrite A. etransitivity; [apply (x_image _ 0 0 1); unfold dot, vadd, vsub; cbn [vx vy vz]; try field; lra|now rewrite sqrt_1].
  - destruct (C83_view (lists [0; 0; 0] [1; 0; 0]) [] 0 1 1 0 [CSetup 0 1 1 0; CWrite 0 [0; 1; 0]] (V3 0 0 0) (V3 1 0 0) (V3 0 1 0)) as [A _]; auto.
    { exists [CWrite 0 [0; 1; 0]]. split; [reflexivity|]. split; [intros [E|[]]; discriminate|intros c [<- |[]] []]. }
    { exists []. reflexivity. }
    rewrite A. apply x_image; unfold dot, vadd, vsub; cbn [vx vy vz]; try field; lra.
Qed.
Print Assumptions C83_camera_list_refuted.

(** "A set-up that raises leaves the object as it was": the display of the
    refused set-up is used from then on. *)
Theorem C83_refused_setup_refuted : exists H p,
  outcome H [CSetup 0 1 1 0] (CTransform p) = Ok (VImage (Some 1) (Some 0) (Some (sqrt 2))) /\
  outcome H [CSetup 0 1 1 0] (CSetup 0 2 0 0) = Err IndexError /\
  outcome H [CSetup 0 1 1 0; CSetup 0 2 0 0] (CTransform p) = Ok (VImage (Some 0) (Some 0) (Some (sqrt 2))).
Proof.
  exists (lists [0; 0; 0] [1; 0; 0]), (V3 1 1 0). set (H := lists [0; 0; 0] [1; 0; 0]).
  assert (Hc : holds (contents H [] 0) (V3 0 0 0)) by (exists []; reflexivity).
  assert (Ht : holds (contents H [] 1) (V3 1 0 0)) by (exists []; reflexivity).
  assert (SF : setup_in_force [] 0 1 1 0 [CSetup 0 1 1 0]) by (exists []; split; [reflexivity|]; split; [intros []|intros c []]).
  split.
  { destruct (C83_view H [] 0 1 1 0 [CSetup 0 1 1 0] (V3 0 0 0) (V3 1 0 0) (V3 0 0 0)) as [A _]; auto.
    rewrite A. apply x_image; unfold dot, vadd, vsub; cbn [vx vy vz]; try field; lra. }
  split; [apply C83_short; right; cbn; unfold short; cbn; lia|].
  destruct (C83_half_done H [] 0 1 1 0 [CSetup 0 1 1 0] 0 2 0 0 [] (V3 0 0 0) (V3 1 0 0) (V3 0 0 0)) as [A _]; auto.
  { right. unfold short. cbn. lia. }
  cbn [app] in A. rewrite A by (exists []; reflexivity). pose proof PI_RGT_0.
  destruct (C61_projection (V3 0 0 0) (V3 1 0 0) 0 0 ltac:(lra)) as (F & HL & HO & HP).
  set (q := vadd _ _). destruct (HP q) as (bx & by_ & -> & _ & I).
  assert (HF : fwd F = V3 1 0 0).
  { destruct HL as (_ & B & _). unfold vlen, dot, vsub, vscale in B. cbn [vx vy vz] in B.
    replace ((1 - 0) * (1 - 0) + (0 - 0) * (0 - 0) + (0 - 0) * (0 - 0)) with 1 in B by ring. rewrite sqrt_1 in B. injection B as B1 B2 B3. apply vec_ext; cbn [vx vy vz]; lra. }
  destruct I as [-> ->]; [unfold depth, dot, q, vadd, vsub; rewrite HF; cbn [vx vy vz]; lra|].
  unfold image. cbn [fst snd image_of bind]. unfold Rdiv. rewrite !Rmult_0_l. unfold image_of. cbn [bind fst snd]. do 2 f_equal.
  unfold vlen, q, dot, vadd, vsub. cbn [vx vy vz]. do 2 f_equal. ring.
Qed.
Print Assumptions C83_refused_setup_refuted.

Example C83_example : holds (lists [0; 0; 0] [1; 0; 0] 1%nat) (V3 1 0 0) /\ setup_in_force [CClean] 0 1 1 0 [CClean; CSetup 0 1 1 0; CTransform (V3 1 2 3)] /\
  contents (lists [0; 0; 0] [1; 0; 0]) [CWrite 0 [5]] 0 = [5].
Proof.
  split; [exists []; reflexivity|]. split; [|reflexivity]. exists [CTransform (V3 1 2 3)]. split; [reflexivity|].
  split; [intros [E|[]]; discriminate|intros c [<- |[]] []].
Qed.
