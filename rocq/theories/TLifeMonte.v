(** * Theorems: the [montecarlo.Box2Ring] object over sequences of calls (C76) *)

From Coq Require Import Reals ZArith List Bool Lia Lra.
From Flocq Require Import Core.Raux.
From Verif Require Import Base BaseP SpecGrid SpecRemap SpecDense SpecMonte SpecMonteRadial MGrids MRandoms MDense MMonte MMonteRadial MLifeMonte
  PPolarCoords PRemap2 PRadial PDense PMonte PMonteRadial TMonte TMonteRadial.
Import ListNotations.
Open Scope R_scope.

(** ** Specification *)

(** [setup_box] call [c] would produce the box [B]; likewise for the rings. *)
Definition makes_box (c : call) (B : box_grid) : Prop :=
  match c with CSetupBox a b n a' b' n' => setup_box a b n a' b' n' = Ok B | _ => False end.
Definition makes_rings (c : call) (P : mc_polar) : Prop :=
  match c with
  | CSetupLin a b n n' p q ct sh => setup_polar_lin a b n n' p q ct sh = Ok P
  | CSetupLog a b n n' p q ct sh z => setup_polar_log a b n n' p q ct sh z = Ok P
  | _ => False
  end.

(** A set-up call of rings that passes the assertions and fails later. *)
Definition half_done (c : call) : Prop :=
  exists e, e <> AssertionError /\
  match c with
  | CSetupLin a b n n' p q ct sh => setup_polar_lin a b n n' p q ct sh = Err e
  | CSetupLog a b n n' p q ct sh z => setup_polar_log a b n n' p q ct sh z = Err e
  | _ => False
  end.

(** The last successful set-up since the last [clean], whatever else was called. *)
Definition in_force {A} (makes : call -> A -> Prop) (h : list call) (a : A) : Prop :=
  exists h1 c h2, h = h1 ++ c :: h2 /\ makes c a /\ ~ In CClean h2 /\ forall c' a', In c' h2 -> ~ makes c' a'.
Definition box_in_force : list call -> box_grid -> Prop := in_force makes_box.
Definition rings_in_force : list call -> mc_polar -> Prop := in_force makes_rings.

(** ... and no set-up of rings failed half-way since. *)
Definition whole_rings (h : list call) (P : mc_polar) : Prop :=
  exists h1 c h2, h = h1 ++ c :: h2 /\ makes_rings c P /\ ~ In CClean h2 /\
    forall c', In c' h2 -> (forall P', ~ makes_rings c' P') /\ ~ half_done c'.

(** ** Lemmas *)

Lemma run_app : forall e z h h' s, run e z s (h ++ h') = run e z (run e z s h) h'.
Proof. intros e z h. induction h as [|c h IH]; intros; cbn [app run]; auto. Qed.

Lemma run_snoc : forall e z h c s, run e z s (h ++ [c]) = fst (step e z (run e z s h) c).
Proof. intros. now rewrite run_app. Qed.

Lemma radial_frame : forall z s f sg w, let s' := fst (radial_step z s f sg w) in
  b_box s' = b_box s /\ b_polar s' = b_polar s /\ b_edges s' = b_edges s /\ b_weights s' = b_weights s.
Proof.
  intros z s f sg w. unfold radial_step.
  destruct (area_of s) as [ar|]; [|cbn; auto]. destruct (pixarea_of _) as [pa|]; [|cbn; auto].
  destruct (seen_polar (set_cache (set_cache s _) _)) as [P|] eqn:EP; [|cbn; auto].
  destruct (negb (same_shape_num f (mc_p2d P))); [cbn; auto|].
  destruct (kept_mask _) as [m|]; [|cbn; auto].
  destruct (negb (_ && _ && _ && _)); [cbn; auto|].
  destruct (b_box (set_cache _ (Cache _ _ (Some m)))); cbn; auto.
Qed.

Lemma polar_frame : forall s m ed, let s' := fst (polar_step s m ed) in
  b_box s' = b_box s /\ b_weights s' = b_weights s /\ b_cache s' = b_cache s.
Proof. intros s [P|[]] [?|?]; cbn; auto. Qed.

Lemma step_box : forall e z s c B, b_box (fst (step e z s c)) = Some B <->
  makes_box c B \/ (c <> CClean /\ (forall B', ~ makes_box c B') /\ b_box s = Some B).
Proof.
  assert (K : forall (c : call) (x y : option box_grid) (B : box_grid), c <> CClean -> (forall B', ~ makes_box c B') -> x = y ->
    (x = Some B <-> makes_box c B \/ (c <> CClean /\ (forall B', ~ makes_box c B') /\ y = Some B))).
  { intros c x y B N M ->. split; [intros H; right; auto|intros [H|(_ & _ & H)]; [now elim (M B)|exact H]]. }
  intros e z s c B. destruct c; try (apply K; [discriminate|intros ? H; exact H|]); cbn [step].
  - unfold setup_box_step. cbn [makes_box]. destruct (setup_box xmin xmax numx ymin ymax numy) as [B0|e0]; cbn [fst b_box].
    + split; [intros [= ->]; left; auto|intros [[= ->]|(_ & N & _)]; [auto|exfalso; eapply N; reflexivity]].
    + split; [intros H; right; repeat split; [discriminate|discriminate|exact H]|intros [H|(_ & _ & H)]; [discriminate|exact H]].
  - apply polar_frame.
  - apply polar_frame.
  - destruct (weights_of _ _ _ _); reflexivity.
  - reflexivity.
  - destruct (mask_of s); reflexivity.
  - reflexivity.
  - apply radial_frame.
  - cbn [fst fresh b_box]. split; [discriminate|intros [[]|(N & _)]; now elim N].
Qed.

Lemma polar_step_polar : forall s m ed P, b_polar (fst (polar_step s m ed)) = Some P <->
  m = Ok P \/ ((forall P', m <> Ok P') /\ b_polar s = Some P).
Proof.
  intros s m ed P. destruct m as [P0|e].
  - cbn. split; [intros [= ->]; auto|intros [[= ->]|(N & _)]; [auto|now elim (N P0)]].
  - assert (E : b_polar (fst (polar_step s (Err e) ed)) = b_polar s) by (cbn; destruct e, ed; reflexivity).
    rewrite E. split; [intros H; right; split; [discriminate|exact H]|intros [H|(_ & H)]; [discriminate|exact H]].
Qed.

Lemma step_polar : forall e z s c P, b_polar (fst (step e z s c)) = Some P <->
  makes_rings c P \/ (c <> CClean /\ (forall P', ~ makes_rings c P') /\ b_polar s = Some P).
Proof.
  assert (K : forall (c : call) (x y : option mc_polar) (P : mc_polar), c <> CClean -> (forall P', ~ makes_rings c P') -> x = y ->
    (x = Some P <-> makes_rings c P \/ (c <> CClean /\ (forall P', ~ makes_rings c P') /\ y = Some P))).
  { intros c x y P N M ->. split; [intros H; right; auto|intros [H|(_ & _ & H)]; [now elim (M P)|exact H]]. }
  intros e z s c P. destruct c; try (apply K; [discriminate|intros ? H; exact H|]); cbn [step].
  - unfold setup_box_step. destruct (setup_box _ _ _ _ _ _); reflexivity.
  - rewrite polar_step_polar. cbn [makes_rings]. split; [intros [?|(? & ?)]; [auto|right; repeat split; auto; discriminate]|intros [?|(_ & ? & ?)]; auto].
  - rewrite polar_step_polar. cbn [makes_rings]. split; [intros [?|(? & ?)]; [auto|right; repeat split; auto; discriminate]|intros [?|(_ & ? & ?)]; auto].
  - destruct (weights_of _ _ _ _); reflexivity.
  - reflexivity.
  - destruct (mask_of s); reflexivity.
  - reflexivity.
  - apply radial_frame.
  - cbn [fst fresh b_polar]. split; [discriminate|intros [[]|(N & _)]; now elim N].
Qed.

(** A general fact about "last call that makes something". *)
Section Last.
Variables (A : Type) (makes : call -> A -> Prop) (e : exc) (z : res value) (get : mobj -> option A).
Hypothesis Hf : get fresh = None.
Hypothesis Hs : forall s c a, get (fst (step e z s c)) = Some a <->
  makes c a \/ (c <> CClean /\ (forall a', ~ makes c a') /\ get s = Some a).
Lemma last_made : forall h a, get (run e z fresh h) = Some a <-> in_force makes h a.
Proof.
  intros h. induction h as [|c h IH] using rev_ind; intros a.
  - cbn [run]. rewrite Hf. split; [discriminate|]. intros ([|? ?] & ? & ? & E & _); discriminate.
  - rewrite run_snoc, Hs, IH. split.
    + intros [M|(N & M & h1 & c1 & h2 & -> & Q1 & Q2 & Q3)].
      * exists h, c, []. repeat split; auto; intros ? ? [].
      * exists h1, c1, (h2 ++ [c]). rewrite <- app_assoc. split; [reflexivity|]. split; [auto|]. split.
        { rewrite in_app_iff. intros [?|[?|[]]]; [contradiction|congruence]. }
        intros c' a' I. apply in_app_iff in I. destruct I as [I|[<- | []]]; [eapply Q3; eauto|apply M].
    + intros (h1 & c1 & h2 & E & Q1 & Q2 & Q3). destruct h2 as [|d h2] using rev_ind.
      * apply app_inj_tail in E. destruct E as [-> ->]. left; auto.
      * clear IHh2. rewrite app_comm_cons, app_assoc in E. apply app_inj_tail in E. destruct E as [-> ->]. right.
        split; [intros ->; apply Q2; apply in_app_iff; right; left; auto|].
        split; [intros a'; apply Q3; apply in_app_iff; right; left; auto|].
        exists h1, c1, h2. split; [auto|]. split; [auto|]. split; [intros I; apply Q2; apply in_app_iff; auto|].
        intros c' a' I. apply Q3. apply in_app_iff; auto.
Qed.
End Last.

Lemma run_box : forall e z h B, b_box (run e z fresh h) = Some B <-> box_in_force h B.
Proof. intros e z h B. apply (last_made _ makes_box e z b_box eq_refl (step_box e z)). Qed.

Lemma run_polar : forall e z h P, b_polar (run e z fresh h) = Some P <-> rings_in_force h P.
Proof. intros e z h P. apply (last_made _ makes_rings e z b_polar eq_refl (step_polar e z)). Qed.

(** Edges: kept by every call but the set-ups of rings that pass their assertions. *)
Lemma polar_step_edges : forall s m ed, (forall P, m <> Ok P) -> (forall e, m = Err e -> e = AssertionError) ->
  b_edges (fst (polar_step s m ed)) = b_edges s.
Proof. intros s [P|e] ed H1 H2; [now elim (H1 P)|]. rewrite (H2 e eq_refl). reflexivity. Qed.

Lemma exc_assert : forall e : exc, {e = AssertionError} + {e <> AssertionError}.
Proof. intros []; (left; reflexivity) || (right; discriminate). Qed.

Lemma step_edges : forall e z s c, c <> CClean -> (forall P, ~ makes_rings c P) -> ~ half_done c -> b_edges (fst (step e z s c)) = b_edges s.
Proof.
  intros e z s c N M H. destruct c; cbn [step].
  - unfold setup_box_step. destruct (setup_box _ _ _ _ _ _); reflexivity.
  - apply polar_step_edges; [exact M|]. intros e0 E. destruct (exc_assert e0) as [|D]; [auto|]. elim H. exists e0. split; [exact D|exact E].
  - apply polar_step_edges; [exact M|]. intros e0 E. destruct (exc_assert e0) as [|D]; [auto|]. elim H. exists e0. split; [exact D|exact E].
  - destruct (weights_of _ _ _ _); reflexivity.
  - reflexivity.
  - destruct (mask_of s); reflexivity.
  - reflexivity.
  - apply radial_frame.
  - now elim N.
Qed.

Lemma step_made : forall e z s c P, makes_rings c P -> fst (step e z s c) = MObj (b_box s) (Some (mc_redges P, mc_pedges P)) (Some P) (b_weights s) (b_cache s) /\
  snd (step e z s c) = Ok VNone.
Proof. intros e z s c P H. destruct c; cbn [makes_rings] in H; try contradiction; cbn [step]; rewrite H; auto. Qed.

Lemma mc_polar_eta : forall P, McPolar (mc_redges P) (mc_pedges P) (mc_r2d P) (mc_p2d P) (mc_center P) (mc_shift P) = P.
Proof. intros []. reflexivity. Qed.

Lemma whole_in_force : forall h P, whole_rings h P -> rings_in_force h P.
Proof. intros h P (h1 & c & h2 & E & M & N & H). exists h1, c, h2. repeat split; auto. intros c' P' I. now apply H. Qed.

Lemma run_whole : forall e z h P, whole_rings h P -> seen_polar (run e z fresh h) = Some P.
Proof.
  intros e z h P H. pose proof (proj2 (run_polar e z h P) (whole_in_force h P H)) as EP.
  destruct H as (h1 & c & h2 & -> & M & N & H). unfold seen_polar. rewrite EP.
  assert (EE : b_edges (run e z fresh (h1 ++ c :: h2)) = Some (mc_redges P, mc_pedges P)).
  { change (c :: h2) with ([c] ++ h2). rewrite app_assoc, run_app. 
    assert (Q : forall h3 s, ~ In CClean h3 -> (forall c', In c' h3 -> (forall P', ~ makes_rings c' P') /\ ~ half_done c') ->
      b_edges (run e z s h3) = b_edges s).
    { induction h3 as [|d h3 IH]; intros s N' H'; [reflexivity|]. cbn [run]. rewrite IH; [|intros I; apply N'; now right|intros; apply H'; now right].
      destruct (H' d (or_introl eq_refl)). apply step_edges; auto. intros ->. apply N'. now left. }
    rewrite Q by auto. rewrite run_snoc, (proj1 (step_made e z _ c P M)). reflexivity. }
  rewrite EE. now rewrite mc_polar_eta.
Qed.

(** ** C76 *)

(** After any calls, [clean] gives back a new object. *)
Theorem C76_clean : forall e z h h' c, step e z (run e z fresh (h ++ CClean :: h')) c = step e z (run e z fresh h') c.
Proof. intros. now rewrite run_app. Qed.
Print Assumptions C76_clean.

(** Every call that raises, other than [polar2radial], leaves the object as it
    was, except a set-up of rings failing after its assertions. *)
Theorem C76_refused : forall e z s c s' e', (forall f sg w, c <> CRadial f sg w) -> ~ half_done c -> step e z s c = (s', Err e') -> s' = s.
Proof.
  intros e z s c s' e' HN HH E. destruct c; cbn [step] in E.
  - unfold setup_box_step in E. destruct (setup_box _ _ _ _ _ _); congruence.
  - destruct (setup_polar_lin _ _ _ _ _ _ _ _) as [P|e0] eqn:E0; cbn [polar_step] in E; [congruence|].
    destruct (exc_assert e0) as [->|D]; [congruence|]. elim HH. exists e0. split; auto.
  - destruct (setup_polar_log _ _ _ _ _ _ _ _ _) as [P|e0] eqn:E0; cbn [polar_step] in E; [congruence|].
    destruct (exc_assert e0) as [->|D]; [congruence|]. elim HH. exists e0. split; auto.
  - destruct (weights_of _ _ _ _); congruence.
  - congruence.
  - destruct (mask_of s); congruence.
  - congruence.
  - now elim (HN f_polar sigma w).
  - congruence.
Qed.
Print Assumptions C76_refused.

(** The stored weights come from one call of [get_weights] since the last
    [clean], made for the box and the rings in force at that call; later calls
    of [get_weights] all raised. *)
Theorem C76_weights : forall e z h W, b_weights (run e z fresh h) = Some W ->
  exists h1 draws mc h2 B P, h = h1 ++ CWeights draws mc :: h2 /\ ~ In CClean h2 /\
    box_in_force h1 B /\ seen_polar (run e z fresh h1) = Some P /\
    (exists P', rings_in_force h1 P' /\ mc_r2d P = mc_r2d P' /\ mc_center P = mc_center P' /\ mc_shift P = mc_shift P') /\
    (forall P', whole_rings h1 P' -> P = P') /\
    get_weights B P draws mc = Ok W /\
    forall h3 d m h4, h2 = h3 ++ CWeights d m :: h4 -> exists e', snd (step e z (run e z fresh (h1 ++ CWeights draws mc :: h3)) (CWeights d m)) = Err e'.
Proof.
  intros e z h. induction h as [|c h IH] using rev_ind; intros W H; [discriminate|]. rewrite run_snoc in H.
  assert (K : c <> CClean -> (forall d m, c = CWeights d m -> exists e', snd (step e z (run e z fresh h) c) = Err e') -> b_weights (run e z fresh h) = Some W ->
    exists h1 draws mc h2 B P, h ++ [c] = h1 ++ CWeights draws mc :: h2 /\ ~ In CClean h2 /\
    box_in_force h1 B /\ seen_polar (run e z fresh h1) = Some P /\
    (exists P', rings_in_force h1 P' /\ mc_r2d P = mc_r2d P' /\ mc_center P = mc_center P' /\ mc_shift P = mc_shift P') /\
    (forall P', whole_rings h1 P' -> P = P') /\
    get_weights B P draws mc = Ok W /\
    forall h3 d m h4, h2 = h3 ++ CWeights d m :: h4 -> exists e', snd (step e z (run e z fresh (h1 ++ CWeights draws mc :: h3)) (CWeights d m)) = Err e').
  { intros N HW HS. destruct (IH W HS) as (h1 & draws & mc & h2 & B & P & -> & Q2 & Q3 & Q4 & Q5 & Q6 & Q7 & Q8).
    exists h1, draws, mc, (h2 ++ [c]), B, P. split; [now rewrite <- app_assoc|]. split; [rewrite in_app_iff; intros [?|[?|[]]]; [contradiction|congruence]|].
    do 5 (split; [assumption|]). intros h3 d m h4 E. destruct h4 as [|x h4] using rev_ind.
    - apply app_inj_tail in E. destruct E as [-> ->]. now apply (HW d m).
    - clear IHh4. rewrite app_comm_cons, app_assoc in E. apply app_inj_tail in E. destruct E as [-> ->]. now apply (Q8 h3 d m h4). }
  destruct c; cbn [step] in H.
  - apply K; [discriminate|discriminate|]. revert H. unfold setup_box_step. destruct (setup_box _ _ _ _ _ _); auto.
  - apply K; [discriminate|discriminate|]. rewrite (proj1 (proj2 (polar_frame _ _ _))) in H. exact H.
  - apply K; [discriminate|discriminate|]. rewrite (proj1 (proj2 (polar_frame _ _ _))) in H. exact H.
  - destruct (weights_of e (run e z fresh h) draws mc_size) as [W'|e'] eqn:EW; cbn [fst] in H.
    + injection H as ->. unfold weights_of in EW. apply assert_inv in EW. destruct EW as [_ EW].
      destruct (seen_polar (run e z fresh h)) as [P|] eqn:EP; [|discriminate]. destruct (b_box (run e z fresh h)) as [B|] eqn:EB; [|discriminate].
      exists h, draws, mc_size, [], B, P. split; [reflexivity|]. split; [intros []|]. split; [now apply (run_box e z)|]. split; [assumption|].
      split; [|split; [|split; [assumption|intros [|? ?] ? ? ? E; discriminate]]].
      * unfold seen_polar in EP. destruct (b_edges _) as [[re pe]|]; [|discriminate]. destruct (b_polar (run e z fresh h)) as [P'|] eqn:EP'; [|discriminate].
        injection EP as <-. exists P'. split; [now apply (run_polar e z)|]. auto.
      * intros P' HP'. apply (run_whole e z) in HP'. congruence.
    + apply K; [discriminate| |exact H]. intros d m [= <- <-]. exists e'. cbn [step]. now rewrite EW.
  - now apply K.
  - apply K; [discriminate|discriminate|]. revert H. destruct (mask_of (run e z fresh h)); auto.
  - now apply K.
  - apply K; [discriminate|discriminate|]. rewrite (proj2 (proj2 (proj2 (radial_frame _ _ _ _ _)))) in H. exact H.
  - discriminate.
Qed.
Print Assumptions C76_weights.

Lemma remap_polar_shape : forall B P P' W f w, length (mc_r2d P) = length (mc_r2d P') -> length (nth 0 (mc_r2d P) []) = length (nth 0 (mc_r2d P') []) ->
  mc_remap B P W f w = mc_remap B P' W f w.
Proof. intros B P P' W f w E1 E2. unfold mc_remap. now rewrite E1, E2. Qed.

Lemma made_calls : forall c P, makes_rings c P -> exists nr np, made P nr np.
Proof.
  intros c P H. destruct c; cbn [makes_rings] in H; try contradiction.
  - destruct (setup_lin_inv _ _ _ _ _ _ _ _ _ H) as (nr & np & _ & _ & -> & -> & _). exists nr, np. left. eauto 10.
  - destruct (setup_log_inv _ _ _ _ _ _ _ _ _ _ H) as (nr & np & _ & _ & -> & -> & _). exists nr, np. right. eauto 10.
Qed.

Lemma in_force_made : forall h P, rings_in_force h P -> exists nr np, made P nr np.
Proof. intros h P (h1 & c & h2 & _ & M & _). eapply made_calls; eauto. Qed.

Lemma remap_nonempty : forall B P f w, (exists nr np, made P nr np) -> mc_remap B P None f w = Err AssertionError \/ mc_remap B P None f w = Err TypeError.
Proof.
  intros B P f w (nr & np & HM). destruct (made_good _ _ _ HM) as [(N1 & N2 & [L1 L2] & _) _]. specialize (L2 0%nat ltac:(lia)).
  unfold mc_remap. unfold py_assert. destruct (same_shape f (x2d B)); [|auto]. destruct (match w with Some _ => _ | None => _ end); [|auto]. right.
  rewrite L1, L2. destruct np; [lia|]. destruct nr; [lia|]. reflexivity.
Qed.

Lemma run_seen : forall e z h P, rings_in_force h P -> exists P', seen_polar (run e z fresh h) = Some P' /\ mc_r2d P' = mc_r2d P /\ mc_p2d P' = mc_p2d P.
Proof.
  assert (K : forall e z h P, b_polar (run e z fresh h) = Some P -> exists re pe, b_edges (run e z fresh h) = Some (re, pe)).
  { intros e z h. induction h as [|c h IH] using rev_ind; intros P H; [discriminate|]. rewrite run_snoc in *.
    set (s := run e z fresh h) in *. clearbody s. destruct c; cbn [step] in *.
    - revert H. unfold setup_box_step. destruct (setup_box _ _ _ _ _ _); cbn; eauto.
    - revert H. destruct (setup_polar_lin _ _ _ _ _ _ _ _) as [|[]], (lin_stored _ _ _ _ _ _) as [[]|]; cbn; eauto.
    - revert H. destruct (setup_polar_log _ _ _ _ _ _ _ _ _) as [|[]], (log_stored _ _ _ _ _ _ _) as [[]|]; cbn; eauto.
    - revert H. destruct (weights_of _ _ _ _); cbn; eauto.
    - eauto.
    - revert H. destruct (mask_of s); cbn; eauto.
    - eauto.
    - destruct (radial_frame z s f_polar sigma w) as (_ & E1 & E2 & _). rewrite E1 in H. rewrite E2. eauto.
    - discriminate. }
  intros e z h P H. apply (run_polar e z) in H. destruct (K _ _ _ _ H) as (re & pe & E). unfold seen_polar. rewrite E, H. eexists. split; [reflexivity|]. auto.
Qed.

Lemma remap_seen : forall e z h B P f w, box_in_force h B -> rings_in_force h P ->
  snd (step e z (run e z fresh h) (CRemap f w)) = (g <- mc_remap B P (b_weights (run e z fresh h)) f w ;; Ok (VMap g)).
Proof.
  intros e z h B P f w HB HP. apply (run_box e z) in HB. destruct (run_seen e z h P HP) as (P' & E & E1 & _).
  cbn [step snd]. unfold remap_of. rewrite HB, E. rewrite (remap_polar_shape B P' P) by (now rewrite E1). reflexivity.
Qed.

(** What [remap] returns after any history: the map read with the weights of the
    last successful [get_weights], made for the grids in force back then. *)
Theorem C76_remap : forall e z h f w g, snd (step e z (run e z fresh h) (CRemap f w)) = Ok (VMap g) ->
  exists h1 draws mc h2 B0 P0 W B P, h = h1 ++ CWeights draws mc :: h2 /\ ~ In CClean h2 /\
    box_in_force h1 B0 /\ (forall P', whole_rings h1 P' -> P0 = P') /\ get_weights B0 P0 draws mc = Ok W /\
    (forall h3 d m h4, h2 = h3 ++ CWeights d m :: h4 -> exists e', snd (step e z (run e z fresh (h1 ++ CWeights draws mc :: h3)) (CWeights d m)) = Err e') /\
    box_in_force h B /\ rings_in_force h P /\ mc_remap B P (Some W) f w = Ok g.
Proof.
  intros e z h f w g H.
  assert (HB : exists B, box_in_force h B).
  { cbn [step snd] in H. unfold remap_of in H. destruct (b_box (run e z fresh h)) as [B|] eqn:EB; [|discriminate]. exists B. now apply (run_box e z). }
  destruct HB as [B HB].
  assert (HP : exists P, rings_in_force h P).
  { cbn [step snd] in H. unfold remap_of in H. apply (run_box e z) in HB. rewrite HB in H. destruct (b_polar (run e z fresh h)) as [P|] eqn:EP; [exists P; now apply (run_polar e z)|].
    exfalso. unfold seen_polar in H. rewrite EP in H. destruct (b_edges _) as [[]|]; unfold py_assert in H;
      destruct (same_shape f (x2d B)); try discriminate; destruct (match w with Some _ => _ | None => _ end); discriminate. }
  destruct HP as [P HP]. rewrite (remap_seen e z h B P f w HB HP) in H.
  destruct (b_weights (run e z fresh h)) as [W|] eqn:EW.
  - destruct (C76_weights e z h W EW) as (h1 & draws & mc & h2 & B0 & P0 & Q1 & Q2 & Q3 & _ & _ & Q6 & Q7 & Q8).
    exists h1, draws, mc, h2, B0, P0, W, B, P. do 8 (split; [assumption|]).
    destruct (mc_remap B P (Some W) f w); cbn [bind] in H; congruence.
  - exfalso. destruct (remap_nonempty B P f w (in_force_made h P HP)) as [E|E]; rewrite E in H; discriminate.
Qed.
Print Assumptions C76_remap.

(** Without [get_weights] since the last [clean], [remap] always raises. *)
Theorem C76_no_weights : forall e z h f w, (forall h1 d m h2, h = h1 ++ CWeights d m :: h2 -> In CClean h2) ->
  exists e', snd (step e z (run e z fresh h) (CRemap f w)) = Err e'.
Proof.
  intros e z h f w H. destruct (snd (step e z (run e z fresh h) (CRemap f w))) as [v|e'] eqn:E; [|eauto]. exfalso.
  assert (V : exists g, v = VMap g). { cbn [step snd] in E. destruct (remap_of _ f w) as [g|]; [|discriminate]. cbn [bind] in E. injection E as <-. eauto. }
  destruct V as [g ->]. destruct (C76_remap e z h f w g E) as (h1 & d & m & h2 & _ & _ & _ & _ & _ & -> & N & _). apply N. eapply H. reflexivity.
Qed.
Print Assumptions C76_no_weights.

(** Calls that change no grid and no weights. *)
Definition reading (c : call) : Prop :=
  match c with CRemap _ _ | CMask | CRotate _ _ | CRadial _ _ _ => True | _ => False end.

Lemma reading_frame : forall e z c s, reading c -> let s' := fst (step e z s c) in
  b_box s' = b_box s /\ b_polar s' = b_polar s /\ b_edges s' = b_edges s /\ b_weights s' = b_weights s.
Proof.
  intros e z c s H. destruct c; try contradiction; cbn [step].
  - auto.
  - destruct (mask_of s); cbn; auto.
  - auto.
  - apply radial_frame.
Qed.

Lemma readings_frame : forall e z rs s, (forall c, In c rs -> reading c) -> let s' := run e z s rs in
  b_box s' = b_box s /\ b_polar s' = b_polar s /\ b_edges s' = b_edges s /\ b_weights s' = b_weights s.
Proof.
  intros e z rs. induction rs as [|c rs IH]; intros s H; [cbn; auto|]. cbn [run].
  destruct (IH (fst (step e z s c))) as (A & B & C & D); [intros; apply H; now right|].
  destruct (reading_frame e z c s) as (A' & B' & C' & D'); [apply H; now left|]. rewrite A, B, C, D. auto.
Qed.

(** After any history, both set-ups (in either order), a successful
    [get_weights] and then any remaps, masks, rotations and profiles, [remap] is
    that of a newly prepared object, see C63. *)
Theorem C76_ready : forall e z h rs xmin xmax nx ymin ymax ny cp P draws mc f w,
  makes_rings cp P -> (1 <= nx)%nat -> (1 <= ny)%nat -> (forall c, In c rs -> reading c) ->
  let cb := CSetupBox xmin xmax (Z.of_nat nx) ymin ymax (Z.of_nat ny) in
  forall h', h' = [cb; cp] \/ h' = [cp; cb] ->
  (exists B W, user_object xmin xmax nx ymin ymax ny P mc draws = Ok (B, W)) ->
  snd (step e z (run e z fresh (h ++ h')) (CWeights draws mc)) = Ok VNone /\
  snd (step e z (run e z fresh (h ++ h' ++ CWeights draws mc :: rs)) (CRemap f w)) =
    (g <- user_remap xmin xmax nx ymin ymax ny P mc draws f w ;; Ok (VMap g)).
Proof.
  intros e z h rs xmin xmax nx ymin ymax ny cp P draws mc f w HP Nx Ny Hr cb h' Hh (B & W & EO).
  unfold user_object in EO. unfold user_remap. destruct (setup_box xmin xmax (Z.of_nat nx) ymin ymax (Z.of_nat ny)) as [B'|] eqn:EB; [|discriminate]. cbn [bind] in EO |- *.
  destruct (get_weights B' P draws mc) as [W'|] eqn:EW; [|discriminate]. cbn [bind] in EO |- *.
  assert (EO' : (B', W') = (B, W)) by (apply Ok_inj in EO; exact EO). injection EO' as -> ->. clear EO.
  assert (ES : let s := run e z fresh (h ++ h') in b_box s = Some B /\ seen_polar s = Some P).
  { rewrite run_app. set (s0 := run e z fresh h). clearbody s0.
    assert (SB : forall s, fst (step e z s cb) = MObj (Some B) (b_edges s) (b_polar s) (b_weights s) (b_cache s)).
    { intros s. unfold cb. cbn [step]. unfold setup_box_step. now rewrite EB. }
    destruct Hh as [-> | ->]; cbn [run]; rewrite ?SB, ?(proj1 (step_made e z _ cp P HP)); unfold seen_polar; cbn [b_box b_edges b_polar];
      rewrite ?SB, ?(proj1 (step_made e z _ cp P HP)); cbn [b_box b_edges b_polar]; now rewrite mc_polar_eta. }
  cbv zeta in ES. destruct ES as [E1 E2].
  assert (ST : step e z (run e z fresh (h ++ h')) (CWeights draws mc) = (set_weights (run e z fresh (h ++ h')) W, Ok VNone)).
  { cbn [step]. unfold weights_of. rewrite E1, E2, EW.
    assert (Hm : (1 <? mc)%Z = true) by (unfold get_weights in EW; apply assert_inv in EW; apply EW). rewrite Hm. reflexivity. }
  split; [now rewrite ST|]. rewrite app_assoc, run_app. cbn [run]. rewrite ST. cbn [fst].
  destruct (readings_frame e z rs (set_weights (run e z fresh (h ++ h')) W) Hr) as (R1 & R2 & R3 & R4).
  cbn [step snd]. unfold remap_of. rewrite R1. unfold seen_polar. rewrite R2, R3, R4. cbn [set_weights b_box b_edges b_polar b_weights].
  rewrite E1. unfold seen_polar in E2. rewrite E2. reflexivity.
Qed.
Print Assumptions C76_ready.

(** User expectation: [remap] uses the rings set up last.  Violated: until
    [get_weights] is called again, new rings of the same numbers of bins are
    ignored, whatever their radii, angles, centre and shift ... *)
Theorem C76_new_rings : forall e z h c P P' f w, rings_in_force h P -> makes_rings c P' -> (exists B, box_in_force h B) ->
  length (mc_r2d P) = length (mc_r2d P') -> length (nth 0 (mc_r2d P) []) = length (nth 0 (mc_r2d P') []) ->
  snd (step e z (run e z fresh h) c) = Ok VNone /\
  snd (step e z (run e z fresh (h ++ [c])) (CRemap f w)) = snd (step e z (run e z fresh h) (CRemap f w)).
Proof.
  intros e z h c P P' f w HP HC [B HB] E1 E2. split; [apply (step_made e z _ c P' HC)|].
  rewrite (remap_seen e z h B P f w HB HP). rewrite run_snoc. pose proof (proj2 (run_box e z h B) HB) as EB.
  cbn [step snd]. unfold remap_of. rewrite (proj1 (step_made e z _ c P' HC)). unfold seen_polar. cbn [b_box b_edges b_polar b_weights].
  rewrite EB, mc_polar_eta. now rewrite (remap_polar_shape B P' P).
Qed.
Print Assumptions C76_new_rings.

(** ... and so is a new box of the same numbers of pixels. *)
Theorem C76_new_box : forall e z h c B B' f w, box_in_force h B -> makes_box c B' ->
  length (x2d B) = length (x2d B') -> length (nth 0 (x2d B) []) = length (nth 0 (x2d B') []) ->
  snd (step e z (run e z fresh h) c) = Ok VNone /\
  snd (step e z (run e z fresh (h ++ [c])) (CRemap f w)) = snd (step e z (run e z fresh h) (CRemap f w)).
Proof.
  intros e z h c B B' f w HB HC E1 E2. rewrite run_snoc. pose proof (proj2 (run_box e z h B) HB) as EB. set (s := run e z fresh h) in *. clearbody s.
  destruct c; try contradiction. cbn [makes_box] in HC. cbn [step]. unfold setup_box_step. rewrite HC. cbn [fst snd]. split; [reflexivity|].
  unfold remap_of. cbn [b_box b_weights]. rewrite EB. change (seen_polar (MObj (Some B') (b_edges s) (b_polar s) (b_weights s) (b_cache s))) with (seen_polar s).
  destruct (seen_polar s); unfold mc_remap, same_shape; rewrite <- E1, <- E2; reflexivity.
Qed.
Print Assumptions C76_new_box.

Definition lin_call (rmin rmax : R) (nr np : nat) (c0 c1 : R) : call :=
  CSetupLin rmin rmax (Z.of_nat nr) (Z.of_nat np) 0 (2 * PI) [c0; c1] 0.
Definition case_history : list call :=
  [CSetupBox (- (3 / 4)) (3 / 4) 1 (- / 4) (/ 4) 1; lin_call 0 2 2 2 0 0; CWeights case_draws 2].
Definition far_polar : mc_polar := lin_polar 0 2 2 2 0 (2 * PI) 100 100 0.

Lemma far_made : setup_polar_lin 0 2 (Z.of_nat 2) (Z.of_nat 2) 0 (2 * PI) [100; 100] 0 = Ok far_polar.
Proof. pose proof PI_RGT_0. apply setup_lin_ok; try lra; lia. Qed.
Lemma case_made : setup_polar_lin 0 2 (Z.of_nat 2) (Z.of_nat 2) 0 (2 * PI) [0; 0] 0 = Ok case_polar.
Proof. pose proof PI_RGT_0. apply setup_lin_ok; try lra; lia. Qed.

Lemma object_of_remap : forall xmin xmax nx ymin ymax ny P mc draws f w out, user_remap xmin xmax nx ymin ymax ny P mc draws f w = Ok out ->
  exists B W, user_object xmin xmax nx ymin ymax ny P mc draws = Ok (B, W).
Proof.
  intros xmin xmax nx ymin ymax ny P mc draws f w out E. unfold user_remap, user_object in *.
  destruct (setup_box _ _ _ _ _ _) as [B|]; [|discriminate]. cbn [bind] in *. destruct (get_weights _ _ _ _) as [W|]; [|discriminate]. cbn [bind]. eauto.
Qed.

(** A worked case: the rings are moved a hundred units away from the box and the
    inner cells still get the value of the pixel; only after [get_weights] they
    get none, whatever is drawn. *)
Theorem C76_stale_refuted : forall e z v, exists g,
  let h := case_history ++ [lin_call 0 2 2 2 100 100] in
  rings_in_force h far_polar /\
  snd (step e z (run e z fresh h) (CRemap [[v]] None)) = Ok (VMap g) /\
  nth 0 (nth 0 g []) None = Some v /\
  forall draws mc, (1 < mc)%Z -> fair (Z.to_nat mc) draws -> exists g',
    snd (step e z (run e z fresh (h ++ [CWeights draws mc])) (CRemap [[v]] None)) = Ok (VMap g') /\
    forall i j, (i < 2)%nat -> (j < 2)%nat -> nth j (nth i g' []) (Some 0) = None.
Proof.
  intros e z v. destruct C63_case as (HC & HS & HR & _).
  assert (Sv : shape2 [[v]] 1 1) by (split; [reflexivity|]; intros [|i] Hi; [reflexivity|cbn in Hi; lia]).
  destruct (HR _ Sv) as [g EG].
  assert (M0 : makes_rings (lin_call 0 2 2 2 0 0) case_polar) by exact case_made.
  assert (M1 : makes_rings (lin_call 0 2 2 2 100 100) far_polar) by exact far_made.
  destruct (C76_ready e z [] [] (- (3 / 4)) (3 / 4) 1 (- / 4) (/ 4) 1 _ _ case_draws 2 [[v]] None M0 ltac:(lia) ltac:(lia) ltac:(intros ? []) _ (or_introl eq_refl)
    (object_of_remap _ _ _ _ _ _ _ _ _ _ _ _ EG)) as [_ E1].
  cbn [app] in E1. fold case_history in E1. rewrite EG in E1. cbn [bind] in E1.
  assert (RB : box_in_force case_history (the_box case_box)).
  { apply (run_box e z). unfold case_history. cbn [run]. 
    assert (K : forall s, b_box (fst (step e z s (CWeights case_draws 2))) = b_box s) by (intros s; cbn [step]; destruct (weights_of e s case_draws 2); reflexivity).
    rewrite K. rewrite (proj1 (step_made e z _ _ _ M0)). cbn [b_box step]. unfold setup_box_step.
    change 1%Z with (Z.of_nat 1). rewrite setup_box_ok by lia. reflexivity. }
  assert (RP : rings_in_force case_history case_polar).
  { exists [CSetupBox (- (3 / 4)) (3 / 4) 1 (- / 4) (/ 4) 1], (lin_call 0 2 2 2 0 0), [CWeights case_draws 2]. split; [reflexivity|]. split; [exact M0|].
    split; [intros [?|[]]; discriminate|]. intros c' P' [<-|[]] []. }
  destruct (C76_new_rings e z case_history _ _ _ [[v]] None RP M1 (ex_intro _ _ RB)) as [_ E2]; [reflexivity|reflexivity|].
  exists g. cbv zeta. split.
  { exists case_history, (lin_call 0 2 2 2 100 100), []. split; [reflexivity|]. split; [exact M1|]. split; [intros []|intros ? ? []]. }
  split; [rewrite E2; exact E1|]. split.
  { destruct (C63_value _ _ _ _ _ _ _ _ _ _ _ _ None case_hit g HC Sv ltac:(discriminate) HS EG) as [_ H]. destruct (H 0%nat ltac:(lia)) as [_ H0].
    rewrite H0 by lia. unfold mean_of, plain_mean, case_hit, SpecMonte.value, cell. cbn [map Rsum fold_right length nth fst snd INR]. unfold Rsum. cbn [fold_right]. f_equal. field. }
  intros draws mc Hmc Hd.
  assert (HM : made far_polar 2 2) by (left; exists 0, 2, 0, (2 * PI), [100; 100], 0; exact far_made).
  assert (HC' : proper_call (- (3 / 4)) (3 / 4) 1 (- / 4) (/ 4) 1 far_polar 2 2 mc draws) by (do 6 (split; [lra || lia || auto|]); exact Hd).
  assert (HS' : sampled_pixels case_box far_polar 2 2 draws (fun _ _ => [])).
  { intros i j Hi Hj. destruct (C63_samples far_polar 2 2 _ draws i j HM Hd Hi Hj) as [_ In]. revert In. generalize (drawn_points (sectors_of far_polar) draws i j) as l.
    induction l as [|p l IH]; intros In; [constructor|]. apply hits_out; [|apply IH; intros; apply In; now right].
    destruct (In p (or_introl eq_refl)) as (r & t & Hr & _ & ->). apply case_out. left.
    assert (R : 0 <= r <= 2).
    { cbn [far_polar lin_polar sectors_of se_r mc_redges] in Hr. rewrite !tab_nth in Hr by lia. replace (j + 1)%nat with (S j) in Hr by lia. rewrite (S_INR j) in Hr.
      assert (0 <= INR j <= 1) by (destruct j as [|[|j]]; cbn; lra || lia). replace (INR 2) with 2 in Hr by (cbn; ring). lra. }
    pose proof (COS_bound (t + se_shift (sectors_of far_polar))). change (se_c0 (sectors_of far_polar)) with 100. nra. }
  destruct (C63_empty _ _ _ _ _ _ _ _ _ _ _ [[v]] None (fun _ _ => []) HC' Sv ltac:(discriminate) HS' ltac:(auto)) as [g' EG'].
  exists g'.
  assert (RS : snd (step e z (run e z fresh ((case_history ++ [lin_call 0 2 2 2 100 100]) ++ [CWeights draws mc])) (CRemap [[v]] None)) = Ok (VMap g')).
  { destruct (object_of_remap _ _ _ _ _ _ _ _ _ _ _ _ EG') as (B & W & EO).
    assert (EB : b_box (run e z fresh (case_history ++ [lin_call 0 2 2 2 100 100])) = Some (the_box case_box)).
    { rewrite run_snoc, (proj1 (step_made e z _ _ _ M1)). cbn [b_box]. now apply (run_box e z). }
    assert (EP : seen_polar (run e z fresh (case_history ++ [lin_call 0 2 2 2 100 100])) = Some far_polar).
    { rewrite run_snoc, (proj1 (step_made e z _ _ _ M1)). reflexivity. }
    unfold user_object in EO. unfold user_remap in EG'. rewrite setup_box_ok in EO, EG' by lia. cbn [bind] in EO, EG'.
    match type of EO with bind (get_weights ?b _ _ _) _ = _ => change b with (the_box case_box) in EO, EG' end.
    destruct (get_weights (the_box case_box) far_polar draws mc) as [W'|] eqn:EW; [|discriminate]. cbn [bind] in EG'.
    assert (ST : fst (step e z (run e z fresh (case_history ++ [lin_call 0 2 2 2 100 100])) (CWeights draws mc)) =
       set_weights (run e z fresh (case_history ++ [lin_call 0 2 2 2 100 100])) W').
    { cbn [step]. unfold weights_of. rewrite EB, EP, EW. replace (1 <? mc)%Z with true by (symmetry; apply Z.ltb_lt; lia). reflexivity. }
    rewrite run_snoc, ST. cbn [step snd]. unfold remap_of, seen_polar. cbn [set_weights b_box b_edges b_polar b_weights]. rewrite EB. unfold seen_polar in EP. rewrite EP, EG'. reflexivity. }
  split; [exact RS|]. intros i j Hi Hj.
  destruct (C63_value _ _ _ _ _ _ _ _ _ _ _ _ None _ g' HC' Sv ltac:(discriminate) HS' EG') as [_ H]. destruct (H i Hi) as [L H0].
  transitivity (nth j (nth i g' []) None); [apply nth_indep; rewrite L; exact Hj|]. rewrite H0 by auto. reflexivity.
Qed.
Print Assumptions C76_stale_refuted.

(** A linear set-up of a single ring or a single sector raises after its edges
    are stored: the other attributes stay, and [remap] goes on as before. *)
Theorem C76_half_done : forall e z s rmin rmax nr np pmin pmax c0 c1 sh,
  0 <= rmin < rmax -> 0 <= pmin < pmax -> pmax <= 2 * PI -> (1 <= nr)%nat -> (1 <= np)%nat -> (nr = 1 \/ np = 1)%nat ->
  let c := CSetupLin rmin rmax (Z.of_nat nr) (Z.of_nat np) pmin pmax [c0; c1] sh in
  half_done c /\ exists s', step e z s c = (s', Err IndexError) /\
    b_edges s' = Some (linspace rmin rmax (S nr), linspace pmin pmax (S np)) /\
    b_box s' = b_box s /\ b_polar s' = b_polar s /\ b_weights s' = b_weights s /\ b_cache s' = b_cache s /\
    (seen_polar s <> None -> forall f w, snd (step e z s' (CRemap f w)) = snd (step e z s (CRemap f w))).
Proof.
  intros e z s rmin rmax nr np pmin pmax c0 c1 sh Hr Hp Hm Nr Np H1 c.
  pose proof (setup_lin_single rmin rmax nr np pmin pmax c0 c1 sh Hr Hp Hm Nr Np H1) as E.
  split; [exists IndexError; split; [discriminate|exact E]|].
  eexists. unfold c. cbn [step]. rewrite E. unfold lin_stored, linspaceZ. replace (Z.of_nat nr + 1 <? 0)%Z with false by (symmetry; apply Z.ltb_ge; lia).
  replace (Z.of_nat np + 1 <? 0)%Z with false by (symmetry; apply Z.ltb_ge; lia). cbn [bind polar_step]. split; [reflexivity|]. cbn [b_edges b_box b_polar b_weights b_cache].
  replace (Z.to_nat (Z.of_nat nr + 1)) with (S nr) by lia. replace (Z.to_nat (Z.of_nat np + 1)) with (S np) by lia.
  repeat split. intros HS f w. cbn [snd]. unfold remap_of, seen_polar in *. cbn [b_edges b_box b_polar b_weights] in *.
  destruct (b_edges s) as [[re pe]|]; [|now elim HS]. destruct (b_polar s) as [P|]; [|now elim HS]. destruct (b_box s) as [B|]; [|reflexivity].
  now rewrite (remap_polar_shape B _ (McPolar re pe (mc_r2d P) (mc_p2d P) (mc_center P) (mc_shift P))).
Qed.
Print Assumptions C76_half_done.

Lemma mapM_either : forall A B (f : A -> res B) e l, (forall x, In x l -> f x = Err e \/ exists v, f x = Ok v) ->
  mapM f l = Err e \/ (exists v, mapM f l = Ok v) /\ forall x, In x l -> f x <> Err e.
Proof.
  intros A B f e l. induction l as [|a l IH]; intros H; [right; split; [exists []; reflexivity|intros ? []]|]. cbn [mapM].
  destruct (H a (or_introl eq_refl)) as [E|[v E]]; rewrite E; [left; reflexivity|]. cbn [bind].
  destruct IH as [->|[[v' ->] Q]]; [intros; apply H; now right|left; reflexivity|right]. cbn [bind]. split; [eauto|].
  intros x [<- |I]; [rewrite E; discriminate|auto].
Qed.

Lemma py_get_either : forall A (l : list A) k, py_get l k = Err IndexError \/ exists v, py_get l k = Ok v.
Proof. intros A l k. unfold py_get. destruct (_ <? 0)%Z; [auto|]. destruct (nth_error l _); eauto. Qed.

Lemma cell_either : forall V P d mc i j, good_pixels V -> (1 <= pnx V)%nat -> (1 <= pny V)%nat -> (1 < mc)%Z ->
  cell_weights (the_box V) P d mc i j = Err IndexError \/ exists v, cell_weights (the_box V) P d mc i j = Ok v.
Proof.
  intros V P d mc i j HV Nx Ny Hmc. unfold cell_weights.
  do 4 (match goal with |- bind (py_get ?l ?k) _ = _ \/ _ => destruct (py_get_either _ l k) as [E|[? E]]; rewrite E; clear E; cbn [bind]; [auto|] end).
  unfold randoms_polar, random_sample. replace (mc <? 0)%Z with false by (symmetry; apply Z.ltb_ge; lia). cbn [bind].
  do 2 (match goal with |- bind (py_get ?l ?k) _ = _ \/ _ => destruct (py_get_either _ l k) as [E|[? E]]; rewrite E; clear E; cbn [bind]; [auto|] end).
  cbn [the_box xedges yedges].
  rewrite !(py_get_ok _ (tab _ _) 0 0) by (rewrite tab_length; lia). rewrite !(py_get_last _ (tab _ _) 0) by (rewrite tab_length; lia). cbn [bind].
  change (Z.to_nat 0) with 0%nat. rewrite !tab_length. cbn [Nat.sub]. rewrite !Nat.sub_0_r, !tab_nth by lia.
  destruct HV as [Hx Hy]. replace (px0 V + INR 0 * phx V) with (px0 V) by (cbn [INR]; ring). replace (py0 V + INR 0 * phy V) with (py0 V) by (cbn [INR]; ring).
  rewrite !hist_edges_ok by auto. cbn [bind]. right. eexists. reflexivity.
Qed.

(** After such a set-up on an object with rings, [get_weights] raises until the
    rings are set up again: the stored edges do not match the other attributes. *)
Theorem C76_half_done_weights : forall e z h xmin xmax nx ymin ymax ny P n m rmin rmax nr np pmin pmax c0 c1 sh draws mc,
  box_in_force h (the_box (pixel_grid xmin xmax nx ymin ymax ny)) -> xmin < xmax -> ymin < ymax -> (1 <= nx)%nat -> (1 <= ny)%nat ->
  rings_in_force h P -> made P n m -> (nr < n \/ np < m)%nat ->
  0 <= rmin < rmax -> 0 <= pmin < pmax -> pmax <= 2 * PI -> (1 <= nr)%nat -> (1 <= np)%nat -> (nr = 1 \/ np = 1)%nat -> (1 < mc)%Z ->
  let c := CSetupLin rmin rmax (Z.of_nat nr) (Z.of_nat np) pmin pmax [c0; c1] sh in
  snd (step e z (run e z fresh (h ++ [c])) (CWeights draws mc)) = Err IndexError.
Proof.
  intros e z h xmin xmax nx ymin ymax ny P n m rmin rmax nr np pmin pmax c0 c1 sh draws mc HB Hx Hy Nx Ny HP HM Hn Hr Hp Hm Nr Np H1 Hmc c.
  destruct (C76_half_done e z (run e z fresh h) rmin rmax nr np pmin pmax c0 c1 sh Hr Hp Hm Nr Np H1) as (_ & s' & E & E1 & E2 & E3 & _).
  rewrite run_snoc. unfold c. rewrite E. cbn [fst step]. unfold weights_of, seen_polar. rewrite E1, E2, E3, (proj2 (run_box e z h _) HB), (proj2 (run_polar e z h _) HP).
  replace (1 <? mc)%Z with true by (symmetry; apply Z.ltb_lt; lia). cbn [py_assert].
  destruct (made_good _ _ _ HM) as [(N1 & N2 & [L1 L2] & _) _]. specialize (L2 0%nat ltac:(lia)).
  set (V := pixel_grid xmin xmax nx ymin ymax ny). set (Q := McPolar _ _ _ _ _ _).
  assert (HV : good_pixels V) by (now apply good_grid).
  unfold get_weights. replace (1 <? mc)%Z with true by (symmetry; apply Z.ltb_lt; lia). cbn [py_assert].
  set (row := fun i => mapM (fun j => cell_weights (the_box V) Q (draws i j) mc i j) (seq 0 (length (nth 0 (mc_r2d Q) [])))).
  assert (RE : forall i, row i = Err IndexError \/ exists v, row i = Ok v).
  { intros i. unfold row. destruct (mapM_either _ _ (fun j => cell_weights (the_box V) Q (draws i j) mc i j) IndexError (seq 0 (length (nth 0 (mc_r2d Q) [])))) as [A|[A _]]; auto.
    intros j _. now apply cell_either. }
  assert (LR : length (mc_redges Q) = S nr) by (cbn [Q mc_redges]; unfold linspace; destruct nr; [lia|]; cbn [length]; rewrite map_length, seq_length; reflexivity).
  assert (LP : length (mc_pedges Q) = S np) by (cbn [Q mc_pedges]; unfold linspace; destruct np; [lia|]; cbn [length]; rewrite map_length, seq_length; reflexivity).
  assert (OUT : forall (l : list R) k, (length l <= k)%nat -> py_get l (Z.of_nat k) = Err IndexError).
  { intros l k Hk. unfold py_get. replace (Z.of_nat k <? 0)%Z with false by (symmetry; apply Z.ltb_ge; lia). replace (Z.of_nat k <? 0)%Z with false by (symmetry; apply Z.ltb_ge; lia).
    rewrite Nat2Z.id. now rewrite (proj2 (nth_error_None l k)). }
  assert (BAD : exists i, In i (seq 0 (length (mc_r2d Q))) /\ row i = Err IndexError).
  { cbn [Q mc_r2d] in *. destruct Hn as [Hn|Hn].
    - exists 0%nat. split; [apply in_seq; lia|]. unfold row. cbn [Q mc_r2d]. rewrite L2.
      destruct (mapM_either _ _ (fun j => cell_weights (the_box V) Q (draws 0%nat j) mc 0 j) IndexError (seq 0 n)) as [A|[_ A]]; [intros j _; now apply cell_either|exact A|].
      exfalso. apply (A nr); [apply in_seq; lia|]. unfold cell_weights. destruct (py_get_either _ (mc_redges Q) (Z.of_nat nr)) as [->|[? ->]]; [reflexivity|]. cbn [bind].
      rewrite (OUT (mc_redges Q) (nr + 1)%nat) by lia. reflexivity.
    - exists np. split; [apply in_seq; lia|]. unfold row. cbn [Q mc_r2d]. rewrite L2.
      destruct (mapM_either _ _ (fun j => cell_weights (the_box V) Q (draws np j) mc np j) IndexError (seq 0 n)) as [A|[_ A]]; [intros j _; now apply cell_either|exact A|].
      exfalso. apply (A 0%nat); [apply in_seq; lia|]. unfold cell_weights.
      destruct (py_get_either _ (mc_redges Q) (Z.of_nat 0)) as [->|[? ->]]; [reflexivity|]. cbn [bind].
      destruct (py_get_either _ (mc_redges Q) (Z.of_nat (0 + 1))) as [->|[? ->]]; [reflexivity|]. cbn [bind].
      destruct (py_get_either _ (mc_pedges Q) (Z.of_nat np)) as [->|[? ->]]; [reflexivity|]. cbn [bind].
      rewrite (OUT (mc_pedges Q) (np + 1)%nat) by lia. reflexivity. }
  destruct BAD as (i0 & I0 & B0).
  destruct (mapM_either _ _ row IndexError (seq 0 (length (mc_r2d Q)))) as [A|[_ A]]; [intros i _; apply RE| |now elim (A i0 I0)].
  match goal with |- context [bind ?m (fun rows => stack_rows _)] => change m with (mapM row (seq 0 (length (mc_r2d Q)))) end. rewrite A. reflexivity.
Qed.
Print Assumptions C76_half_done_weights.

Lemma radial_cache : forall z s f sg w, let c := b_cache (fst (radial_step z s f sg w)) in
  (forall m, mask_in_bound c = Some m -> mask_in_bound (b_cache s) = Some m \/ mask_of s = Ok m) /\
  (forall a, pixarea c = Some a -> pixarea (b_cache s) = Some a \/ exists B, b_box s = Some B /\ get_pixarea (xedges B) (yedges B) = Ok a) /\
  (forall a, area2d c = Some a -> area2d (b_cache s) = Some a \/ exists re pe, b_edges s = Some (re, pe) /\ get_polar_area2d re pe = Ok a).
Proof.
  intros z s f sg w. unfold radial_step.
  destruct (area_of s) as [ar|] eqn:EA; [|cbn; auto].
  assert (A' : forall a, Some ar = Some a -> area2d (b_cache s) = Some a \/ exists re pe, b_edges s = Some (re, pe) /\ get_polar_area2d re pe = Ok a).
  { intros a [= <-]. unfold area_of in EA. destruct (area2d (b_cache s)); [left; congruence|]. destruct (b_edges s) as [[re pe]|]; [|discriminate]. right. eauto. }
  destruct (pixarea_of _) as [pa|] eqn:EP; [|cbn; auto].
  assert (B' : forall a, Some pa = Some a -> pixarea (b_cache s) = Some a \/ exists B, b_box s = Some B /\ get_pixarea (xedges B) (yedges B) = Ok a).
  { intros a [= <-]. unfold pixarea_of in EP. cbn in EP. destruct (pixarea (b_cache s)); [left; congruence|]. destruct (b_box s) as [B|]; [|discriminate]. right. eauto. }
  destruct (seen_polar (set_cache (set_cache s _) _)) as [P|]; [|cbn; auto].
  destruct (negb (same_shape_num f (mc_p2d P))); [cbn; auto|].
  destruct (kept_mask _) as [m|] eqn:EM; [|cbn; auto].
  assert (C' : forall a, Some m = Some a -> mask_in_bound (b_cache s) = Some a \/ mask_of s = Ok a).
  { intros a [= <-]. unfold kept_mask in EM. cbn in EM. destruct (mask_in_bound (b_cache s)); [left; congruence|]. right. exact EM. }
  destruct (negb (_ && _ && _ && _)); [cbn; auto|].
  destruct (b_box (set_cache _ (Cache _ _ (Some m)))); cbn; auto.
Qed.

(** The attributes kept by the object for [polar2radial] were computed at some
    point since the last [clean], from what the object held at that point. *)
Theorem C76_provenance : forall e z h,
  (forall m, mask_in_bound (b_cache (run e z fresh h)) = Some m ->
     exists h1 h2 B P W, h = h1 ++ h2 /\ ~ In CClean h2 /\ box_in_force h1 B /\ rings_in_force h1 P /\
       b_weights (run e z fresh h1) = Some W /\ mc_mask B P (Some W) = Ok m) /\
  (forall a, pixarea (b_cache (run e z fresh h)) = Some a ->
     exists h1 h2 B, h = h1 ++ h2 /\ ~ In CClean h2 /\ box_in_force h1 B /\ get_pixarea (xedges B) (yedges B) = Ok a) /\
  (forall a, area2d (b_cache (run e z fresh h)) = Some a ->
     exists h1 h2 re pe, h = h1 ++ h2 /\ ~ In CClean h2 /\ b_edges (run e z fresh h1) = Some (re, pe) /\ get_polar_area2d re pe = Ok a).
Proof.
  intros e z h. induction h as [|c h IH] using rev_ind; [repeat split; intros; discriminate|].
  destruct IH as (I1 & I2 & I3). rewrite run_snoc. set (s := run e z fresh h) in *.
  set (Q1 := fun m h1 => exists B P W, box_in_force h1 B /\ rings_in_force h1 P /\ b_weights (run e z fresh h1) = Some W /\ mc_mask B P (Some W) = Ok m).
  set (Q2 := fun a h1 => exists B, box_in_force h1 B /\ get_pixarea (xedges B) (yedges B) = Ok a).
  set (Q3 := fun a h1 => exists re pe, b_edges (run e z fresh h1) = Some (re, pe) /\ get_polar_area2d re pe = Ok a).
  set (some := fun (Q : list call -> Prop) h => exists h1 h2, h = h1 ++ h2 /\ ~ In CClean h2 /\ Q h1).
  assert (J1 : forall m, mask_in_bound (b_cache s) = Some m -> some (Q1 m) h).
  { intros m H. destruct (I1 m H) as (h1 & h2 & B & P & W & A1 & A2 & A3). exists h1, h2. split; [auto|]. split; [auto|]. exists B, P, W. auto. }
  assert (J2 : forall m, pixarea (b_cache s) = Some m -> some (Q2 m) h).
  { intros m H. destruct (I2 m H) as (h1 & h2 & B & A1 & A2 & A3). exists h1, h2. split; [auto|]. split; [auto|]. exists B. auto. }
  assert (J3 : forall m, area2d (b_cache s) = Some m -> some (Q3 m) h).
  { intros m H. destruct (I3 m H) as (h1 & h2 & B & P & A1 & A2 & A3). exists h1, h2. split; [auto|]. split; [auto|]. exists B, P. auto. }
  clear I1 I2 I3.
  cut ((forall m, mask_in_bound (b_cache (fst (step e z s c))) = Some m -> some (Q1 m) (h ++ [c])) /\
       (forall a, pixarea (b_cache (fst (step e z s c))) = Some a -> some (Q2 a) (h ++ [c])) /\
       (forall a, area2d (b_cache (fst (step e z s c))) = Some a -> some (Q3 a) (h ++ [c]))).
  { intros (A1 & A2 & A3). split; [|split].
    - intros m H. destruct (A1 m H) as (h1 & h2 & X1 & X2 & B & P & W & X3). exists h1, h2, B, P, W. auto.
    - intros m H. destruct (A2 m H) as (h1 & h2 & X1 & X2 & B & X3). exists h1, h2, B. auto.
    - intros m H. destruct (A3 m H) as (h1 & h2 & X1 & X2 & B & P & X3). exists h1, h2, B, P. auto. }
  assert (K : forall Q, c <> CClean -> some Q h -> some Q (h ++ [c])).
  { intros Q N (h1 & h2 & -> & A & B). exists h1, (h2 ++ [c]). split; [now rewrite app_assoc|]. split; [|auto].
    rewrite in_app_iff. intros [?|[?|[]]]; [contradiction|congruence]. }
  assert (K0 : forall Q : list call -> Prop, c <> CClean -> Q h -> some Q (h ++ [c])).
  { intros Q N H. exists h, [c]. split; [reflexivity|]. split; [|exact H]. intros [?|[]]; congruence. }
  assert (M1 : forall m, mask_of s = Ok m -> Q1 m h).
  { intros m H. unfold mask_of in H. destruct (b_box s) as [B|] eqn:EB; [|discriminate]. destruct (seen_polar s) as [P'|] eqn:ES; [|discriminate].
    assert (EP : exists P, b_polar s = Some P). { unfold seen_polar in ES. destruct (b_edges s) as [[]|], (b_polar s) as [P|]; try discriminate; eauto. }
    destruct EP as [P EP]. apply run_polar in EP. apply run_box in EB. destruct (run_seen e z h P EP) as (P'' & ES' & R1 & _). fold s in ES'. rewrite ES in ES'. injection ES' as <-.
    unfold mc_mask in H. rewrite (remap_polar_shape B P' P) in H by now rewrite R1.
    destruct (b_weights s) as [W|] eqn:EW.
    - exists B, P, W. unfold mc_mask. auto.
    - exfalso. destruct (remap_nonempty B P (map (map (fun _ => 1)) (x2d B)) None (in_force_made h P EP)) as [E|E]; rewrite E in H; discriminate. }
  assert (M2 : forall a, (exists B, b_box s = Some B /\ get_pixarea (xedges B) (yedges B) = Ok a) -> Q2 a h).
  { intros a (B & H & H'). apply run_box in H. exists B. auto. }
  assert (M3 : forall a, (exists re pe, b_edges s = Some (re, pe) /\ get_polar_area2d re pe = Ok a) -> Q3 a h).
  { intros a (re & pe & H & H'). exists re, pe. auto. }
  assert (SAME : c <> CClean -> b_cache (fst (step e z s c)) = b_cache s ->
     (forall m, mask_in_bound (b_cache (fst (step e z s c))) = Some m -> some (Q1 m) (h ++ [c])) /\
     (forall a, pixarea (b_cache (fst (step e z s c))) = Some a -> some (Q2 a) (h ++ [c])) /\
     (forall a, area2d (b_cache (fst (step e z s c))) = Some a -> some (Q3 a) (h ++ [c]))).
  { intros N E. rewrite E. split; [|split]; intros; apply K; auto. }
  clearbody s some Q1 Q2 Q3.
  destruct c; cbn [step] in *.
  - apply SAME; [discriminate|]. unfold setup_box_step. destruct (setup_box _ _ _ _ _ _); reflexivity.
  - apply SAME; [discriminate|]. apply polar_frame.
  - apply SAME; [discriminate|]. apply polar_frame.
  - apply SAME; [discriminate|]. destruct (weights_of _ _ _ _); reflexivity.
  - apply SAME; [discriminate|reflexivity].
  - destruct (mask_of s) as [m0|e0] eqn:EM; [|apply SAME; [discriminate|reflexivity]]. cbn [fst set_cache b_cache mask_in_bound pixarea area2d].
    split; [|split]; intros; [apply K0; [discriminate|apply M1; congruence]|apply K; [discriminate|auto]|apply K; [discriminate|auto]].
  - apply SAME; [discriminate|reflexivity].
  - destruct (radial_cache z s f_polar sigma w) as (R1 & R2 & R3). split; [|split]; intros a H.
    + destruct (R1 a H); [apply K|apply K0]; auto; discriminate.
    + destruct (R2 a H); [apply K|apply K0]; auto; discriminate.
    + destruct (R3 a H); [apply K|apply K0]; auto; discriminate.
  - cbn [fst fresh b_cache no_cache mask_in_bound pixarea area2d]. repeat split; intros; discriminate.
Qed.
Print Assumptions C76_provenance.

(** After any history, [clean], both set-ups, [get_weights] and any remaps,
    [polar2radial] is that of a newly prepared object, see C70. *)
Theorem C76_radial : forall e z h rs xmin xmax nx ymin ymax ny cp P nr np draws mc f sigma w,
  makes_rings cp P -> proper_call xmin xmax nx ymin ymax ny P nr np mc draws ->
  (exists m, user_mask xmin xmax nx ymin ymax ny P mc draws = Ok m) ->
  (forall c, In c rs -> exists g u, c = CRemap g u) ->
  nshape f np nr -> (forall s, sigma = Some s -> shape2 s np nr) -> (forall u, w = Some u -> shape2 u np nr) ->
  exists B W, user_object xmin xmax nx ymin ymax ny P mc draws = Ok (B, W) /\
  snd (step e z (run e z fresh (h ++ [CClean; CSetupBox xmin xmax (Z.of_nat nx) ymin ymax (Z.of_nat ny); cp; CWeights draws mc] ++ rs)) (CRadial f sigma w)) =
  match mc_polar2radial B P (Some W) no_cache f sigma w with Ok ((r, sr), _, _) => Ok (VRadial r sr) | Err e' => Err e' end.
Proof.
  intros e z h rs xmin xmax nx ymin ymax ny cp P nr np draws mc f sigma w HP HC HMk HR Sf Ss Sw.
  destruct (call_facts _ _ _ _ _ _ _ _ _ _ _ HC) as (EB & HV & _ & _). assert (HC' := HC). destruct HC' as (_ & _ & Nx & Ny & HM & Hmc & _).
  set (V := pixel_grid xmin xmax nx ymin ymax ny) in *. set (hit := fun i j => hits_of V (drawn_points (sectors_of P) draws i j)).
  assert (Hh : sampled_pixels V P nr np draws hit) by (intros i j _ _; now apply hits_of_ok).
  destruct (object_facts _ _ _ _ _ _ _ _ _ _ _ _ HC Hh HMk) as (B & W & EO & EM & EA & EP). exists B, W. split; [exact EO|].
  destruct (made_more _ _ _ HM) as (SP & Np & Nr & _).
  unfold user_object in EO. rewrite EB in EO. cbn [bind] in EO. destruct (get_weights (the_box V) P draws mc) as [W'|] eqn:EW; [|discriminate]. cbn [bind] in EO.
  assert (EO' : (the_box V, W') = (B, W)) by (apply Ok_inj in EO; exact EO). injection EO' as <- ->. clear EO.
  rewrite app_assoc, run_app.
  assert (EQ : forall s, run e z s rs = s).
  { clear - HR. induction rs as [|c rs IH]; intros s; [reflexivity|]. cbn [run].
    destruct (HR c (or_introl eq_refl)) as (g & u & ->). cbn [step fst]. apply IH. intros c I. apply HR. now right. }
  rewrite EQ, run_app. cbn [run]. change (fst (step e z (run e z fresh h) CClean)) with fresh.
  assert (S1 : fst (step e z fresh (CSetupBox xmin xmax (Z.of_nat nx) ymin ymax (Z.of_nat ny))) = MObj (Some (the_box V)) None None None no_cache).
  { cbn [step]. unfold setup_box_step. rewrite EB. reflexivity. }
  rewrite S1, (proj1 (step_made e z _ cp P HP)). cbn [b_box b_edges b_polar b_weights b_cache].
  assert (S2 : fst (step e z (MObj (Some (the_box V)) (Some (mc_redges P, mc_pedges P)) (Some P) None no_cache) (CWeights draws mc)) =
     MObj (Some (the_box V)) (Some (mc_redges P, mc_pedges P)) (Some P) (Some W) no_cache).
  { cbn [step]. unfold weights_of, seen_polar. cbn [b_edges b_polar b_box]. rewrite mc_polar_eta, EW.
    assert (Hm : (1 <? mc)%Z = true) by (unfold get_weights in EW; apply assert_inv in EW; apply EW). rewrite Hm. reflexivity. }
  rewrite S2. cbn [step]. unfold radial_step, area_of, pixarea_of, kept_mask, mask_of, seen_polar.
  cbn [b_cache no_cache area2d b_edges]. rewrite EA. cbn [set_cache b_cache b_box b_polar b_edges b_weights pixarea mask_in_bound area2d]. rewrite EP.
  cbn [set_cache b_cache b_box b_polar b_edges b_weights pixarea mask_in_bound area2d]. rewrite mc_polar_eta, EM.
  set (m := cov_mask np nr (fun i j => has_hit (hit i j))) in *. set (ar := tab2 np nr (fun _ j => ring_area P j)) in *.
  assert (NP : (1 <= np)%nat) by lia.
  rewrite (same_shape_num_ok f (mc_p2d P) np nr NP Sf SP). cbn [negb].
  rewrite (same_shape_num_ok f ar np nr NP Sf) by apply tab2_shape. cbn [no_cache pixarea mask_in_bound]. rewrite (same_shape_num_ok f m np nr NP Sf) by apply tab2_shape.
  assert (O1 : opt_shape sigma f = true) by (destruct sigma; [apply (same_shape_num_ok f _ np nr NP); auto|reflexivity]).
  assert (O2 : opt_shape w f = true) by (destruct w; [apply (same_shape_num_ok f _ np nr NP); auto|reflexivity]).
  rewrite O1, O2. cbn [negb andb set_cache b_box b_cache b_weights b_edges b_polar snd].
  rewrite (call_fresh (the_box V) P (Some W) f sigma w _ _ _ EA EP EM). reflexivity.
Qed.
Print Assumptions C76_radial.

(** The hypotheses above are met by a box of one pixel, four sectors and two
    draws per sector. *)
Example C76_example : forall e z, exists W B,
  whole_rings case_history case_polar /\ box_in_force case_history B /\
  b_weights (run e z fresh case_history) = Some W /\
  (forall c, In c [CMask; CRadial [[Some 1; Some 1]; [None; Some 2]] None None] -> reading c) /\
  (exists B' W', user_object (- (3 / 4)) (3 / 4) 1 (- / 4) (/ 4) 1 case_polar 2 case_draws = Ok (B', W')) /\
  proper_call (- (3 / 4)) (3 / 4) 1 (- / 4) (/ 4) 1 case_polar 2 2 2 case_draws /\
  (exists m, user_mask (- (3 / 4)) (3 / 4) 1 (- / 4) (/ 4) 1 case_polar 2 case_draws = Ok m) /\
  snd (step e z (run e z fresh (case_history ++ [lin_call 0 5 2 1 0 0])) (CWeights case_draws 2)) = Err IndexError.
Proof.
  intros e z. pose proof PI_RGT_0. destruct C63_case as (HC & HS & HR & HM).
  assert (S1 : shape2 [[1]] 1 1) by (split; [reflexivity|]; intros [|i] Hi; [reflexivity|cbn in Hi; lia]).
  destruct (HR _ S1) as [g EG]. destruct (object_of_remap _ _ _ _ _ _ _ _ _ _ _ _ EG) as (B & W & EO).
  assert (M0 : makes_rings (lin_call 0 2 2 2 0 0) case_polar) by exact case_made.
  assert (RP : whole_rings case_history case_polar).
  { exists [CSetupBox (- (3 / 4)) (3 / 4) 1 (- / 4) (/ 4) 1], (lin_call 0 2 2 2 0 0), [CWeights case_draws 2]. split; [reflexivity|]. split; [exact M0|].
    split; [intros [?|[]]; discriminate|]. intros c' [<-|[]]. split; [intros P' H1; exact H1|intros (e0 & _ & H1); exact H1]. }
  assert (RB : box_in_force case_history (the_box case_box)).
  { exists [], (CSetupBox (- (3 / 4)) (3 / 4) 1 (- / 4) (/ 4) 1), [lin_call 0 2 2 2 0 0; CWeights case_draws 2]. split; [reflexivity|].
    split; [cbn [makes_box]; change 1%Z with (Z.of_nat 1); now rewrite setup_box_ok by lia|].
    split; [intros [?|[?|[]]]; discriminate|]. intros c' B' [<-|[<-|[]]] H1; exact H1. }
  exists W, (the_box case_box). split; [exact RP|]. split; [exact RB|]. split; [|split; [|split; [eauto|split; [exact HC|split; [exact HM|]]]]].
  - unfold user_object in EO. change (setup_box (- (3 / 4)) (3 / 4) (Z.of_nat 1) (- / 4) (/ 4) (Z.of_nat 1)) with (setup_box (- (3 / 4)) (3 / 4) 1 (- / 4) (/ 4) 1) in EO.
    destruct (setup_box (- (3 / 4)) (3 / 4) 1 (- / 4) (/ 4) 1) as [B'|] eqn:EB; [|discriminate]. cbn [bind] in EO.
    destruct (get_weights B' case_polar case_draws 2) as [W'|] eqn:EW; [|discriminate]. cbn [bind] in EO.
    assert (EO' : (B', W') = (B, W)) by (apply Ok_inj in EO; exact EO). injection EO' as -> ->.
    unfold case_history. cbn [run]. rewrite (proj1 (step_made e z _ _ _ M0)). cbn [step]. unfold setup_box_step. rewrite EB.
    unfold weights_of, seen_polar. cbn [fst b_box b_edges b_polar]. rewrite mc_polar_eta, EW. reflexivity.
  - intros c' [<-|[<-|[]]]; exact I.
  - apply (C76_half_done_weights e z case_history (- (3 / 4)) (3 / 4) 1 (- / 4) (/ 4) 1 case_polar 2 2 0 5 2 1 0 (2 * PI) 0 0 0 case_draws 2); try lra; try lia.
    + exact RB.
    + now apply whole_in_force.
    + apply HC.
Qed.
