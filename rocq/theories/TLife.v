(** * Theorems: the [densegrid.Box2Ring] object over sequences of calls (C75) *)

From Coq Require Import Reals ZArith List Bool Lia Lra.
From Flocq Require Import Core.Raux.
From Verif Require Import Base BaseP SpecGrid SpecRemap SpecDense MGrids MDense MLife PPolarCoords PGrids PRemap2 PRadial PDense TDense TDense2.
Import ListNotations.
Open Scope R_scope.

(** ** Specification *)

(** [setup_box] call [c] would produce the box [B]; likewise for the rings. *)
Definition makes_box (c : call) (B : box_grid) : Prop :=
  match c with CSetupBox a b n a' b' n' => setup_box a b n a' b' n' = Ok B | _ => False end.
Definition makes_rings (c : call) (P : polar_grid) : Prop :=
  match c with
  | CSetupPolar a b n n' p q ct rr rp sh => setup_polar a b n n' p q ct (Z.of_nat rr) (Z.of_nat rp) sh = Ok P
  | _ => False
  end.

(** The last successful set-up since the last [clean], whatever else was called. *)
Definition box_in_force (h : list call) (B : box_grid) : Prop :=
  exists h1 c h2, h = h1 ++ c :: h2 /\ makes_box c B /\ ~ In CClean h2 /\ forall c' B', In c' h2 -> ~ makes_box c' B'.
Definition rings_in_force (h : list call) (P : polar_grid) : Prop :=
  exists h1 c h2, h = h1 ++ c :: h2 /\ makes_rings c P /\ ~ In CClean h2 /\ forall c' P', In c' h2 -> ~ makes_rings c' P'.

(** ** Lemmas *)

Lemma run_app : forall z h h' s, run z s (h ++ h') = run z (run z s h) h'.
Proof. intros z h. induction h as [|c h IH]; intros; cbn [app run]; auto. Qed.

Lemma radial_frame : forall z s f sg w, o_box (fst (radial_step z s f sg w)) = o_box s /\
  o_polar (fst (radial_step z s f sg w)) = o_polar s /\ o_edges (fst (radial_step z s f sg w)) = o_edges s.
Proof.
  intros z s f sg w. unfold radial_step.
  destruct (area_of s) as [ar|]; [|auto]. destruct (pixarea_of _) as [pa|]; [|auto].
  destruct (o_polar (set_pixarea _ pa)) as [P|] eqn:EP; [|auto].
  destruct (negb (same_shape f (p2d P))); [auto|].
  destruct (kept_mask _) as [m|]; [|auto].
  destruct (negb (_ && _ && _ && _)); [auto|].
  destruct (o_box (set_mask _ m)); auto.
Qed.

(** The attributes after [polar2radial]: the old ones or newly computed ones. *)
Lemma radial_cache : forall z s f sg w, let c := o_cache (fst (radial_step z s f sg w)) in
  (forall m, mask_in_bound c = Some m -> mask_in_bound (o_cache s) = Some m \/ mask_of s = Ok m) /\
  (forall a, pixarea c = Some a -> pixarea (o_cache s) = Some a \/ exists B, o_box s = Some B /\ get_pixarea (xedges B) (yedges B) = Ok a) /\
  (forall a, area2d c = Some a -> area2d (o_cache s) = Some a \/ exists re pe, o_edges s = Some (re, pe) /\ get_polar_area2d re pe = Ok a).
Proof.
  intros z s f sg w. unfold radial_step.
  destruct (area_of s) as [ar|] eqn:EA; [|cbn; auto].
  assert (A : area2d (o_cache s) = Some ar \/ exists re pe, o_edges s = Some (re, pe) /\ get_polar_area2d re pe = Ok ar).
  { unfold area_of in EA. destruct (area2d (o_cache s)); [left; congruence|]. destruct (o_edges s) as [[re pe]|]; [|discriminate]. right. eauto. }
  assert (A' : forall a, Some ar = Some a -> area2d (o_cache s) = Some a \/ exists re pe, o_edges s = Some (re, pe) /\ get_polar_area2d re pe = Ok a)
    by (intros a [= <-]; exact A).
  destruct (pixarea_of (set_area s ar)) as [pa|] eqn:EP; [|cbn; auto].
  assert (B' : forall a, Some pa = Some a -> pixarea (o_cache s) = Some a \/ exists B, o_box s = Some B /\ get_pixarea (xedges B) (yedges B) = Ok a).
  { intros a [= <-]. unfold pixarea_of in EP. cbn in EP. destruct (pixarea (o_cache s)); [left; congruence|]. destruct (o_box s) as [B|]; [|discriminate]. right. eauto. }
  destruct (o_polar (set_pixarea _ pa)) as [P|]; [|cbn; auto].
  destruct (negb (same_shape f (p2d P))); [cbn; auto|].
  destruct (kept_mask (set_pixarea (set_area s ar) pa)) as [m|] eqn:EM; [|cbn; auto].
  assert (C' : forall a, Some m = Some a -> mask_in_bound (o_cache s) = Some a \/ mask_of s = Ok a).
  { intros a [= <-]. unfold kept_mask in EM. cbn in EM. destruct (mask_in_bound (o_cache s)); [left; congruence|]. right. exact EM. }
  destruct (negb (_ && _ && _ && _)); [cbn; auto|].
  destruct (o_box (set_mask _ m)); cbn; auto.
Qed.

Lemma step_box : forall z s c B, o_box (fst (step z s c)) = Some B <->
  makes_box c B \/ (c <> CClean /\ (forall B', ~ makes_box c B') /\ o_box s = Some B).
Proof.
  intros z s c B. destruct c; cbn [step makes_box]; try
    (cbn [fst]; split; [intros H; right; repeat split; [discriminate|auto|exact H]|intros [[]|(_ & _ & H)]; exact H]).
  - unfold setup_box_step. destruct (setup_box xmin xmax numx ymin ymax numy) as [B0|e]; cbn [fst o_box].
    + split; [intros [= ->]; left; auto|intros [[= ->]|(_ & N & _)]; [auto|exfalso; eapply N; reflexivity]].
    + split; [intros H; right; repeat split; [discriminate|discriminate|exact H]|intros [H|(_ & _ & H)]; [discriminate|exact H]].
  - assert (E : o_box (fst (setup_polar_step s rmin rmax numr nump pmin pmax center rebin_r rebin_p phi_shift)) = o_box s)
      by (unfold setup_polar_step; destruct (setup_polar _ _ _ _ _ _ _ _ _ _) as [|[]]; reflexivity).
    rewrite E. split; [intros H; right; repeat split; [discriminate|auto|exact H]|intros [[]|(_ & _ & H)]; exact H].
  - assert (E : o_box (fst (match mask_of s with Ok m => (set_mask s m, Ok VNone) | Err e => (s, Err e) end)) = o_box s)
      by (destruct (mask_of s); reflexivity).
    rewrite E. split; [intros H; right; repeat split; [discriminate|auto|exact H]|intros [[]|(_ & _ & H)]; exact H].
  - rewrite (proj1 (radial_frame z s f_polar sigma w)).
    split; [intros H; right; repeat split; [discriminate|auto|exact H]|intros [[]|(_ & _ & H)]; exact H].
  - cbn [fst fresh o_box]. split; [discriminate|intros [[]|(N & _)]; now elim N].
Qed.

Lemma step_polar : forall z s c P, o_polar (fst (step z s c)) = Some P <->
  makes_rings c P \/ (c <> CClean /\ (forall P', ~ makes_rings c P') /\ o_polar s = Some P).
Proof.
  intros z s c P. destruct c; cbn [step makes_rings]; try
    (cbn [fst]; split; [intros H; right; repeat split; [discriminate|auto|exact H]|intros [[]|(_ & _ & H)]; exact H]).
  - assert (E : o_polar (fst (setup_box_step s xmin xmax numx ymin ymax numy)) = o_polar s)
      by (unfold setup_box_step; destruct (setup_box _ _ _ _ _ _); reflexivity).
    rewrite E. split; [intros H; right; repeat split; [discriminate|auto|exact H]|intros [[]|(_ & _ & H)]; exact H].
  - unfold setup_polar_step. destruct (setup_polar _ _ _ _ _ _ _ _ _ _) as [P0|e].
    + cbn [fst o_polar]. split; [intros [= ->]; left; auto|intros [[= ->]|(_ & N & _)]; [auto|exfalso; eapply N; reflexivity]].
    + assert (E : o_polar (fst (match e with AssertionError => (s, Err AssertionError) | _ =>
         (Obj (o_box s) (Some (linspace rmin rmax (Z.to_nat (numr + 1)), linspace pmin pmax (Z.to_nat (nump + 1)))) (o_polar s) (o_cache s), @Err value e) end)) = o_polar s)
        by (destruct e; reflexivity).
      assert (E' : forall (X Y : obj * res value), fst X = fst Y -> o_polar (fst X) = o_polar (fst Y)) by (intros ? ? ->; auto).
      etransitivity; [|split; [intros H; right; repeat split; [discriminate|discriminate|exact H]|intros [H|(_ & _ & H)]; [discriminate|exact H]]].
      rewrite <- E. destruct e; reflexivity.
  - assert (E : o_polar (fst (match mask_of s with Ok m => (set_mask s m, Ok VNone) | Err e => (s, Err e) end)) = o_polar s)
      by (destruct (mask_of s); reflexivity).
    rewrite E. split; [intros H; right; repeat split; [discriminate|auto|exact H]|intros [[]|(_ & _ & H)]; exact H].
  - rewrite (proj1 (proj2 (radial_frame z s f_polar sigma w))).
    split; [intros H; right; repeat split; [discriminate|auto|exact H]|intros [[]|(_ & _ & H)]; exact H].
  - cbn [fst fresh o_polar]. split; [discriminate|intros [[]|(N & _)]; now elim N].
Qed.

Lemma run_snoc : forall z h c s, run z s (h ++ [c]) = fst (step z (run z s h) c).
Proof. intros. now rewrite run_app. Qed.

(** A general fact about "last call that makes something". *)
Section Last.
Variables (A : Type) (makes : call -> A -> Prop) (z : res value) (get : obj -> option A).
Hypothesis Hf : get fresh = None.
Hypothesis Hs : forall s c a, get (fst (step z s c)) = Some a <->
  makes c a \/ (c <> CClean /\ (forall a', ~ makes c a') /\ get s = Some a).
Lemma last_made : forall h a, get (run z fresh h) = Some a <->
  exists h1 c h2, h = h1 ++ c :: h2 /\ makes c a /\ ~ In CClean h2 /\ forall c' a', In c' h2 -> ~ makes c' a'.
Proof.
  intros h. induction h as [|c h IH] using rev_ind; intros a.
  - cbn [run]. rewrite Hf. split; [discriminate|]. intros ([|? ?] & ? & ? & E & _); discriminate.
  - rewrite run_snoc, Hs, IH. split.
    + intros [M|(N & M & h1 & c1 & h2 & -> & Q1 & Q2 & Q3)].
      * exists h, c, []. repeat split; auto; intros ? ? [].
      * exists h1, c1, (h2 ++ [c]). rewrite <- app_assoc. split; [reflexivity|]. split; [auto|]. split.
        { rewrite in_app_iff. intros [?|[?|[]]]; [contradiction|congruence]. }
        intros c' a' I. apply in_app_iff in I. destruct I as [I|[<- | []]]; [eapply Q3; eauto|apply M].
    + intros (h1 & c1 & h2 & E & Q1 & Q2 & Q3). destruct h2 as [|d h2] using rev_ind.
      * apply app_inj_tail in E. destruct E as [-> ->]. left; auto.
      * clear IHh2. rewrite app_comm_cons, app_assoc in E. apply app_inj_tail in E. destruct E as [-> ->]. right.
        split; [intros ->; apply Q2; apply in_app_iff; right; left; auto|].
        split; [intros a'; apply Q3; apply in_app_iff; right; left; auto|].
        exists h1, c1, h2. split; [auto|]. split; [auto|]. split; [intros I; apply Q2; apply in_app_iff; auto|].
        intros c' a' I. apply Q3. apply in_app_iff; auto.
Qed.
End Last.

Lemma run_box : forall z h B, o_box (run z fresh h) = Some B <-> box_in_force h B.
Proof. intros z h B. apply (last_made _ makes_box z o_box eq_refl (step_box z)). Qed.

Lemma run_polar : forall z h P, o_polar (run z fresh h) = Some P <-> rings_in_force h P.
Proof. intros z h P. apply (last_made _ makes_rings z o_polar eq_refl (step_polar z)). Qed.

(** ** C75 *)

(** After any calls, [clean] gives back a new object: every later sequence of
    calls goes as on a new object. *)
Theorem C75_clean : forall z h h' c, step z (run z fresh (h ++ CClean :: h')) c = step z (run z fresh h') c.
Proof. intros. now rewrite run_app. Qed.
Print Assumptions C75_clean.

(** After any sequence of calls, successful or not, [remap] depends on the last
    successful set-up of the box and of the rings only, and changes nothing. *)
Theorem C75_remap : forall z h f w,
  fst (step z (run z fresh h) (CRemap f w)) = run z fresh h /\
  (forall B P, box_in_force h B -> rings_in_force h P ->
     snd (step z (run z fresh h) (CRemap f w)) = (g <- remap B P f w ;; Ok (VMap g))) /\
  ((forall B, ~ box_in_force h B) \/ (forall P, ~ rings_in_force h P) ->
     snd (step z (run z fresh h) (CRemap f w)) = Err TypeError).
Proof.
  intros z h f w. split; [reflexivity|]. cbn [step snd]. unfold remap_of. split.
  - intros B P HB HP. apply (run_box z) in HB. apply (run_polar z) in HP. now rewrite HB, HP.
  - intros [H|H].
    + destruct (o_box (run z fresh h)) as [B|] eqn:E; [|reflexivity]. apply run_box in E. now elim (H B).
    + destruct (o_polar (run z fresh h)) as [P|] eqn:E; [apply run_polar in E; now elim (H P)|]. destruct (o_box _); reflexivity.
Qed.
Print Assumptions C75_remap.

(** There is at most one box and one ring system in force. *)
Theorem C75_in_force_unique : forall h B B' P P', (box_in_force h B -> box_in_force h B' -> B = B') /\
  (rings_in_force h P -> rings_in_force h P' -> P = P').
Proof.
  intros h B B' P P'. split; intros H H'.
  - apply (run_box (Ok VNone)) in H. apply (run_box (Ok VNone)) in H'. congruence.
  - apply (run_polar (Ok VNone)) in H. apply (run_polar (Ok VNone)) in H'. congruence.
Qed.
Print Assumptions C75_in_force_unique.

(** Set-up calls refused by their assertions leave the object as it was. *)
Theorem C75_refused : forall z s c s', (forall f sg w, c <> CRadial f sg w) -> step z s c = (s', Err AssertionError) -> s' = s.
Proof.
  intros z s c s' HN E. destruct c; cbn [step] in E.
  - unfold setup_box_step in E. destruct (setup_box _ _ _ _ _ _); congruence.
  - unfold setup_polar_step in E. destruct (setup_polar _ _ _ _ _ _ _ _ _ _) as [|[]]; congruence.
  - congruence.
  - destruct (mask_of s); congruence.
  - congruence.
  - now elim (HN f_polar sigma w).
  - congruence.
Qed.
Print Assumptions C75_refused.

(** [setup_box] works exactly for positive numbers of pixels. *)
Theorem C75_box_args : forall z s xmin xmax numx ymin ymax numy, let c := CSetupBox xmin xmax numx ymin ymax numy in
  ((0 < numx)%Z /\ (0 < numy)%Z -> snd (step z s c) = Ok VNone) /\
  ((numx <= 0)%Z \/ (numy <= 0)%Z -> step z s c = (s, Err AssertionError)).
Proof.
  intros z s xmin xmax numx ymin ymax numy. cbn zeta. cbn [step]. unfold setup_box_step. split.
  - intros [Hx Hy]. rewrite <- (Z2Nat.id numx), <- (Z2Nat.id numy) by lia. rewrite setup_box_ok by lia. reflexivity.
  - intros H. unfold setup_box, py_assert. destruct (Z.ltb_spec 0 numx); [|reflexivity]. destruct (Z.ltb_spec 0 numy); [|reflexivity]. exfalso. lia.
Qed.
Print Assumptions C75_box_args.

(** The stored mask, pixel area and cell areas were computed at some earlier
    point since the last [clean]: from the box and rings in force there. *)
Theorem C75_provenance : forall z h,
  (forall m, mask_in_bound (o_cache (run z fresh h)) = Some m ->
     exists h1 h2 B P, h = h1 ++ h2 /\ ~ In CClean h2 /\ box_in_force h1 B /\ rings_in_force h1 P /\ get_mask_in_bound B P = Ok m) /\
  (forall a, pixarea (o_cache (run z fresh h)) = Some a ->
     exists h1 h2 B, h = h1 ++ h2 /\ ~ In CClean h2 /\ box_in_force h1 B /\ get_pixarea (xedges B) (yedges B) = Ok a) /\
  (forall a, area2d (o_cache (run z fresh h)) = Some a ->
     exists h1 h2 re pe, h = h1 ++ h2 /\ ~ In CClean h2 /\ o_edges (run z fresh h1) = Some (re, pe) /\ get_polar_area2d re pe = Ok a).
Proof.
  intros z h. induction h as [|c h IH] using rev_ind; [repeat split; intros; discriminate|].
  destruct IH as (I1 & I2 & I3). rewrite run_snoc. set (s := run z fresh h) in *.
  assert (K : forall Q : list call -> Prop, c <> CClean ->
     (exists h1 h2, h = h1 ++ h2 /\ ~ In CClean h2 /\ Q h1) -> exists h1 h2, h ++ [c] = h1 ++ h2 /\ ~ In CClean h2 /\ Q h1).
  { intros Q N (h1 & h2 & -> & A & B). exists h1, (h2 ++ [c]). split; [now rewrite app_assoc|]. split; [|auto].
    rewrite in_app_iff. intros [?|[?|[]]]; [contradiction|congruence]. }
  assert (K1 : forall m, c <> CClean -> mask_in_bound (o_cache s) = Some m -> 
     exists h1 h2 B P, h ++ [c] = h1 ++ h2 /\ ~ In CClean h2 /\ box_in_force h1 B /\ rings_in_force h1 P /\ get_mask_in_bound B P = Ok m).
  { intros m N H. destruct (I1 m H) as (h1 & h2 & B & P & X). destruct (K (fun h1 => exists B P, box_in_force h1 B /\ rings_in_force h1 P /\ get_mask_in_bound B P = Ok m) N) as (h1' & h2' & U & V & B' & P' & W).
    - exists h1, h2. destruct X as (? & ? & ?). eauto.
    - exists h1', h2', B', P'. tauto. }
  assert (K2 : forall a, c <> CClean -> pixarea (o_cache s) = Some a -> 
     exists h1 h2 B, h ++ [c] = h1 ++ h2 /\ ~ In CClean h2 /\ box_in_force h1 B /\ get_pixarea (xedges B) (yedges B) = Ok a).
  { intros m N H. destruct (I2 m H) as (h1 & h2 & B & X). destruct (K (fun h1 => exists B, box_in_force h1 B /\ get_pixarea (xedges B) (yedges B) = Ok m) N) as (h1' & h2' & U & V & B' & W).
    - exists h1, h2. destruct X as (? & ? & ?). eauto.
    - exists h1', h2', B'. tauto. }
  assert (K3 : forall a, c <> CClean -> area2d (o_cache s) = Some a -> 
     exists h1 h2 re pe, h ++ [c] = h1 ++ h2 /\ ~ In CClean h2 /\ o_edges (run z fresh h1) = Some (re, pe) /\ get_polar_area2d re pe = Ok a).
  { intros m N H. destruct (I3 m H) as (h1 & h2 & re & pe & X). destruct (K (fun h1 => exists re pe, o_edges (run z fresh h1) = Some (re, pe) /\ get_polar_area2d re pe = Ok m) N) as (h1' & h2' & U & V & B' & P' & W).
    - exists h1, h2. destruct X as (? & ? & ?). eauto.
    - exists h1', h2', B', P'. tauto. }
  (* attributes computed by this call *)
  assert (M1 : forall m, c <> CClean -> mask_of s = Ok m ->
     exists h1 h2 B P, h ++ [c] = h1 ++ h2 /\ ~ In CClean h2 /\ box_in_force h1 B /\ rings_in_force h1 P /\ get_mask_in_bound B P = Ok m).
  { intros m N H. unfold mask_of in H. destruct (o_box s) as [B|] eqn:EB; [|discriminate]. destruct (o_polar s) as [P|] eqn:EP; [|discriminate].
    apply run_box in EB. apply run_polar in EP. exists h, [c], B, P. repeat split; auto. intros [?|[]]; congruence. }
  assert (M2 : forall a B, c <> CClean -> o_box s = Some B -> get_pixarea (xedges B) (yedges B) = Ok a ->
     exists h1 h2 B, h ++ [c] = h1 ++ h2 /\ ~ In CClean h2 /\ box_in_force h1 B /\ get_pixarea (xedges B) (yedges B) = Ok a).
  { intros a B N H H'. apply run_box in H. exists h, [c], B. repeat split; auto. intros [?|[]]; congruence. }
  assert (M3 : forall a re pe, c <> CClean -> o_edges s = Some (re, pe) -> get_polar_area2d re pe = Ok a ->
     exists h1 h2 re pe, h ++ [c] = h1 ++ h2 /\ ~ In CClean h2 /\ o_edges (run z fresh h1) = Some (re, pe) /\ get_polar_area2d re pe = Ok a).
  { intros a re pe N H H'. exists h, [c], re, pe. repeat split; auto. intros [?|[]]; congruence. }
  clear K. clearbody s.
  destruct c; cbn [step].
  - unfold setup_box_step. destruct (setup_box _ _ _ _ _ _); cbn [fst o_cache]; repeat split; intros; first [apply K1|apply K2|apply K3]; auto; discriminate.
  - assert (E : o_cache (fst (setup_polar_step s rmin rmax numr nump pmin pmax center rebin_r rebin_p phi_shift)) = o_cache s)
      by (unfold setup_polar_step; destruct (setup_polar _ _ _ _ _ _ _ _ _ _) as [|[]]; reflexivity).
    rewrite E. repeat split; intros; first [apply K1|apply K2|apply K3]; auto; discriminate.
  - cbn [fst]. repeat split; intros; first [apply K1|apply K2|apply K3]; auto; discriminate.
  - destruct (mask_of s) as [m0|e] eqn:EM; cbn [fst set_mask o_cache mask_in_bound pixarea area2d]; repeat split; intros.
    + apply M1; [discriminate|congruence].
    + apply K2; auto; discriminate.
    + apply K3; auto; discriminate.
    + apply K1; auto; discriminate.
    + apply K2; auto; discriminate.
    + apply K3; auto; discriminate.
  - cbn [fst]. repeat split; intros; first [apply K1|apply K2|apply K3]; auto; discriminate.
  - set (c := CRadial f_polar sigma w) in *. assert (N : c <> CClean) by (unfold c; discriminate).
    destruct (radial_cache z s f_polar sigma w) as (R1 & R2 & R3). repeat split.
    + intros m H. destruct (R1 m H); [now apply K1|now apply M1].
    + intros a H. destruct (R2 a H) as [|(B & ? & ?)]; [now apply K2|eapply M2; eauto].
    + intros a H. destruct (R3 a H) as [|(re & pe & ? & ?)]; [now apply K3|eapply M3; eauto].
  - cbn [fst fresh o_cache no_cache mask_in_bound pixarea area2d]. repeat split; intros; discriminate.
Qed.
Print Assumptions C75_provenance.

Definition setup_box_call (xmin xmax : R) (nx : nat) (ymin ymax : R) (ny : nat) : call :=
  CSetupBox xmin xmax (Z.of_nat nx) ymin ymax (Z.of_nat ny).
Definition setup_rings_call (G : rings) : call :=
  CSetupPolar (rg_rmin G) (rg_rmax G) (Z.of_nat (rg_nr G)) (Z.of_nat (rg_np G)) (rg_pmin G) (rg_pmax G)
    [rg_c0 G; rg_c1 G] (rg_b G) (rg_b G) (rg_shift G).

Lemma ready : forall z s xmin xmax nx ymin ymax ny G, usable xmin xmax nx ymin ymax ny G ->
  exists B P, set_up xmin xmax nx ymin ymax ny G = Ok (B, P) /\
    run z s [setup_box_call xmin xmax nx ymin ymax ny; setup_rings_call G] = Obj (Some B) (Some (redges P, pedges P)) (Some P) (o_cache s) /\
    step z s (setup_box_call xmin xmax nx ymin ymax ny) = (Obj (Some B) (o_edges s) (o_polar s) (o_cache s), Ok VNone) /\
    (forall s', step z s' (setup_rings_call G) = (Obj (o_box s') (Some (redges P, pedges P)) (Some P) (o_cache s'), Ok VNone)) /\
    P = the_rings G (rg_b G) (rg_b G).
Proof.
  intros z s xmin xmax nx ymin ymax ny G (Hx & Hy & Nx & Ny & HG & Hr & Hp & Hb).
  pose proof (setup_polar_ok G (rg_b G) (rg_b G) HG Hr Hp Hb Hb) as E2. unfold setup_rings in E2.
  pose proof (setup_box_ok xmin xmax nx ymin ymax ny Nx Ny) as E1.
  do 2 eexists. split; [now apply dense_setup_ok|].
  assert (S1 : forall s', step z s' (setup_box_call xmin xmax nx ymin ymax ny) =
     (Obj (Some (the_box (pixel_grid xmin xmax nx ymin ymax ny))) (o_edges s') (o_polar s') (o_cache s'), Ok VNone)).
  { intros s'. cbn [step setup_box_call]. unfold setup_box_step. rewrite E1. reflexivity. }
  assert (S2 : forall s', step z s' (setup_rings_call G) =
     (let P := the_rings G (rg_b G) (rg_b G) in Obj (o_box s') (Some (redges P, pedges P)) (Some P) (o_cache s'), Ok VNone)).
  { intros s'. cbn [step setup_rings_call]. unfold setup_polar_step. rewrite E2. reflexivity. }
  split; [cbn [run]; rewrite S1, S2; reflexivity|]. split; [apply S1|]. split; [apply S2|reflexivity].
Qed.

Lemma mask_shape : forall xmin xmax nx ymin ymax ny G B P, usable xmin xmax nx ymin ymax ny G -> set_up xmin xmax nx ymin ymax ny G = Ok (B, P) ->
  exists m, get_mask_in_bound B P = Ok m /\ shape2 m (rg_np G) (rg_nr G) /\ shape2 (p2d P) (rg_np G) (rg_nr G).
Proof.
  intros xmin xmax nx ymin ymax ny G B P HU E. destruct (fresh_object _ _ _ _ _ _ _ HU) as (B' & P' & m & E1 & E2 & S1 & S2 & _).
  rewrite E in E1. apply Ok_inj in E1. injection E1 as <- <-. eauto.
Qed.

(** After any history, [clean] and both set-ups (then any number of remaps),
    [polar2radial] is that of a newly prepared object, see C59. *)
Theorem C75_radial : forall z h rs xmin xmax nx ymin ymax ny G f sigma w, usable xmin xmax nx ymin ymax ny G ->
  (forall c, In c rs -> exists g u, c = CRemap g u) ->
  shape2 f (rg_np G) (rg_nr G) -> (forall s, sigma = Some s -> shape2 s (rg_np G) (rg_nr G)) ->
  (forall u, w = Some u -> shape2 u (rg_np G) (rg_nr G)) ->
  exists B P, set_up xmin xmax nx ymin ymax ny G = Ok (B, P) /\
  snd (step z (run z fresh (h ++ [CClean; setup_box_call xmin xmax nx ymin ymax ny; setup_rings_call G] ++ rs)) (CRadial f sigma w)) =
  match polar2radial_method B P no_cache f sigma w with Ok (r, sr, _, _) => Ok (VRadial r sr) | Err e => Err e end.
Proof.
  intros z h rs xmin xmax nx ymin ymax ny G f sigma w HU HR Sf Ss Sw.
  destruct (ready z fresh _ _ _ _ _ _ _ HU) as (B & P & E & ER & _ & _ & EP). exists B, P. split; [exact E|].
  rewrite run_app. change (run z (run z fresh h) ([CClean; setup_box_call xmin xmax nx ymin ymax ny; setup_rings_call G] ++ rs))
    with (run z fresh ([setup_box_call xmin xmax nx ymin ymax ny; setup_rings_call G] ++ rs)).
  rewrite run_app, ER.
  assert (EQ : forall s, run z s rs = s).
  { clear - HR. induction rs as [|c rs IH]; intros s; [reflexivity|]. cbn [run].
    destruct (HR c (or_introl eq_refl)) as (g & u & ->). cbn [step fst]. apply IH. intros c I. apply HR. now right. }
  rewrite EQ. clear ER EQ. cbn [step snd fresh o_cache].
  destruct (mask_shape _ _ _ _ _ _ _ _ _ HU E) as (m & Em & Sm & Sp).
  assert (HU' := HU). destruct HU' as (Hx & Hy & Nx & Ny & HG & Hr & Hp & Hb).
  assert (HA : exists ar, get_polar_area2d (redges P) (pedges P) = Ok ar /\ shape2 ar (rg_np G) (rg_nr G)).
  { destruct (area2d_spec (redges P) (pedges P)) as (ar & Ea & Sa & _); subst P; cbn [pedges redges the_rings] in *; rewrite ?tab_length in *; [lia|].
    exists ar. split; [exact Ea|]. now replace (S (rg_np G) - 1)%nat with (rg_np G) in Sa by lia; replace (S (rg_nr G) - 1)%nat with (rg_nr G) in Sa by lia. }
  assert (HPx : exists pa, get_pixarea (xedges B) (yedges B) = Ok pa).
  { unfold set_up in E. rewrite dense_setup_ok in E by auto. apply Ok_inj in E. injection E as <- _.
    unfold get_pixarea. cbn [xedges yedges the_box pnx pny pixel_grid].
    rewrite !(py_get_ok _ (tab _ _) _ 0) by (rewrite tab_length; cbn; lia). cbn [bind]. eexists. reflexivity. }
  destruct HA as (ar & EA & SA), HPx as (pa & EPx).
  unfold radial_step, area_of, pixarea_of, kept_mask, mask_of. cbn [o_cache no_cache area2d o_edges]. rewrite EA.
  cbn [set_area o_cache no_cache pixarea o_box o_edges o_polar]. rewrite EPx.
  cbn [set_area set_pixarea o_cache pixarea area2d o_box o_edges o_polar mask_in_bound no_cache].
  assert (NP : (1 <= rg_np G)%nat) by lia.
  rewrite (same_shape_ok f (p2d P) _ _ NP Sf Sp). cbn [negb]. rewrite Em.
  rewrite (same_shape_ok ar f _ _ NP SA Sf), (same_shape_ok m f _ _ NP Sm Sf).
  assert (O1 : opt_shape sigma f = true) by (destruct sigma; [apply (same_shape_ok _ f (rg_np G) (rg_nr G) NP); auto|reflexivity]).
  assert (O2 : opt_shape w f = true) by (destruct w; [apply (same_shape_ok _ f (rg_np G) (rg_nr G) NP); auto|reflexivity]).
  rewrite O1, O2. cbn [negb andb set_mask o_box o_cache snd area2d pixarea].
  unfold polar2radial_method. cbn [no_cache area2d pixarea mask_in_bound]. rewrite EA. cbn [bind]. rewrite EPx. cbn [bind].
  rewrite (same_shape_ok f (p2d P) _ _ NP Sf Sp). cbn [py_assert]. rewrite Em. reflexivity.
Qed.
Print Assumptions C75_radial.

(** A set-up of a single ring or a single sector, on any object. *)
Theorem C75_half_done : forall z s rmin rmax numr nump pmin pmax c0 c1 rr rp sh,
  0 <= rmin < rmax -> 0 <= pmin < pmax -> pmax <= 2 * PI -> (1 <= numr)%nat -> (1 <= nump)%nat -> (numr = 1 \/ nump = 1)%nat ->
  let c := CSetupPolar rmin rmax (Z.of_nat numr) (Z.of_nat nump) pmin pmax [c0; c1] rr rp sh in
  exists s', step z s c = (s', Err IndexError) /\
    o_edges s' = Some (linspace rmin rmax (S numr), linspace pmin pmax (S nump)) /\
    o_box s' = o_box s /\ o_polar s' = o_polar s /\ o_cache s' = o_cache s /\
    forall f w, snd (step z s' (CRemap f w)) = snd (step z s (CRemap f w)).
Proof.
  intros z s rmin rmax numr nump pmin pmax c0 c1 rr rp sh Hr Hp Hm Nr Np H1 c.
  pose proof (setup_polar_single (Rings rmin rmax numr pmin pmax nump c0 c1 rr sh) (Z.of_nat rr) (Z.of_nat rp)) as E.
  unfold setup_rings in E. cbn [rg_rmin rg_rmax rg_nr rg_np rg_pmin rg_pmax rg_c0 rg_c1 rg_shift] in E.
  assert (E' := E ltac:(unfold good_rings; cbn; auto) H1). clear E.
  eexists. unfold c. cbn [step]. unfold setup_polar_step. rewrite E'. split; [reflexivity|].
  replace (Z.to_nat (Z.of_nat numr + 1)) with (S numr) by lia. replace (Z.to_nat (Z.of_nat nump + 1)) with (S nump) by lia.
  repeat split.
Qed.
Print Assumptions C75_half_done.

(** User expectation: after a set-up that raises, the object is as before.
    Violated: the edges reported by the object are those of the refused single
    ring, while [remap] goes on with the old rings. *)
Theorem C75_half_done_refuted : exists h c s' z, 
  step z (run z fresh h) c = (s', Err IndexError) /\
  o_edges (run z fresh h) <> o_edges s' /\ o_edges s' = Some ([0; 5], [0; PI; 2 * PI]) /\
  (exists P, rings_in_force h P /\ length (r2d P) = 2%nat /\ length (nth 0 (r2d P) []) = 2%nat) /\
  forall f w, snd (step z s' (CRemap f w)) = snd (step z (run z fresh h) (CRemap f w)).
Proof.
  pose proof PI_RGT_0. set (G := Rings 0 1 2 0 (2 * PI) 2 0 0 1 0). set (z := Ok VNone : res value).
  assert (HU : usable (-1) 1 1 (-1) 1 1 G) by (unfold usable, good_rings, G; cbn; repeat split; try lia; lra).
  destruct (ready z fresh _ _ _ _ _ _ _ HU) as (B & P & E & ER & _ & _ & EP).
  exists [setup_box_call (-1) 1 1 (-1) 1 1; setup_rings_call G].
  destruct (C75_half_done z (run z fresh [setup_box_call (-1) 1 1 (-1) 1 1; setup_rings_call G]) 0 5 1 2 0 (2 * PI) 0 0 2%nat 2%nat 0) as (s' & E1 & E2 & _ & _ & _ & E3); try lra; try lia.
  assert (Q : o_edges s' = Some ([0; 5], [0; PI; 2 * PI])).
  { rewrite E2. unfold linspace. cbn [seq map Nat.sub INR].
    repeat match goal with |- Some _ = Some _ => f_equal | |- (_, _) = (_, _) => f_equal | |- _ :: _ = _ :: _ => f_equal end; try reflexivity; field. }
  eexists _, s', z. split; [exact E1|]. split; [|split; [exact Q|split; [|exact E3]]].
  - rewrite Q, ER, EP. cbn [o_edges redges pedges the_rings]. intros X. apply (f_equal (option_map (fun p => length (fst p)))) in X.
    cbn [option_map fst] in X. rewrite tab_length in X. discriminate.
  - exists P. split; [apply (run_polar z); rewrite ER; reflexivity|]. rewrite EP. cbn [r2d the_rings].
    rewrite tab2_length. split; [reflexivity|]. unfold tab2. rewrite (tab_nth (list R)) by (cbn; lia). apply tab_length.
Qed.
Print Assumptions C75_half_done_refuted.

(** User expectation: a call of [polar2radial] that is refused (map of the wrong
    shape) leaves no trace.  Violated: it fixes the pixel area, and profiles
    after a later [setup_box] go on with the area of the old box. *)
Theorem C75_refused_radial_refuted : exists h f c' z,
  snd (step z (run z fresh h) (CRadial f None None)) = Err AssertionError /\
  snd (step z (run z fresh (h ++ [CRadial f None None])) c') = Ok VNone /\
  exists B, box_in_force (h ++ [CRadial f None None; c']) B /\ get_pixarea (xedges B) (yedges B) = Ok 16 /\
  pixarea (o_cache (run z fresh (h ++ [CRadial f None None; c']))) = Some 4.
Proof.
  pose proof PI_RGT_0. set (G := Rings 0 1 2 0 (2 * PI) 2 0 0 1 0). set (z := Ok VNone : res value).
  assert (HU : usable (-1) 1 1 (-1) 1 1 G) by (unfold usable, good_rings, G; cbn; repeat split; try lia; lra).
  assert (HU2 : usable (-2) 2 1 (-2) 2 1 G) by (unfold usable, good_rings, G; cbn; repeat split; try lia; lra).
  destruct (ready z fresh _ _ _ _ _ _ _ HU) as (B & P & E & ER & EB & _ & EP).
  set (h := [setup_box_call (-1) 1 1 (-1) 1 1; setup_rings_call G]) in *.
  assert (B1 : get_pixarea (xedges B) (yedges B) = Ok 4).
  { unfold set_up in E. rewrite dense_setup_ok in E by (try apply HU; apply HU || lia). apply Ok_inj in E. injection E as <- _.
    unfold get_pixarea. cbn [xedges yedges the_box pnx pny pixel_grid].
    rewrite !(py_get_ok _ (tab _ _) _ 0) by (rewrite tab_length; cbn; lia). cbn [bind]. change (Z.to_nat 1) with 1%nat. change (Z.to_nat 0) with 0%nat.
    rewrite !tab_nth by (cbn; lia). cbn [px0 phx py0 phy pixel_grid INR]. f_equal. field. }
  exists h, [], (setup_box_call (-2) 2 1 (-2) 2 1), z.
  assert (A : step z (run z fresh h) (CRadial [] None None) = (Obj (Some B) (Some (redges P, pedges P)) (Some P)
     (o_cache (fst (step z (run z fresh h) (CRadial [] None None)))), Err AssertionError) /\
     pixarea (o_cache (fst (step z (run z fresh h) (CRadial [] None None)))) = Some 4).
  { rewrite ER. cbn [step fresh o_cache]. unfold radial_step, area_of, pixarea_of. cbn [o_cache no_cache area2d o_edges].
    assert (HA : exists ar, get_polar_area2d (redges P) (pedges P) = Ok ar).
    { subst P. unfold get_polar_area2d. cbn [pedges redges the_rings].
      rewrite !(py_get_ok _ (tab _ _) _ 0) by (rewrite tab_length; cbn; lia). cbn [bind]. eexists. reflexivity. }
    destruct HA as (ar & ->). cbn [set_area o_cache no_cache pixarea o_box]. rewrite B1. cbn [set_area set_pixarea o_polar o_box o_edges o_cache pixarea area2d].
    assert (S0 : same_shape [] (p2d P) = false) by (subst P; reflexivity). rewrite S0. cbn [negb fst o_cache pixarea]. split; reflexivity. }
  destruct A as [A1 A2].
  destruct (ready z (run z fresh (h ++ [CRadial [] None None])) _ _ _ _ _ _ _ HU2) as (B' & P' & E' & _ & EB' & _).
  split; [rewrite A1; reflexivity|]. split; [rewrite EB'; reflexivity|]. exists B'.
  change [CRadial [] None None; setup_box_call (-2) 2 1 (-2) 2 1] with ([CRadial [] None None] ++ [setup_box_call (-2) 2 1 (-2) 2 1]).
  rewrite app_assoc. split; [|split].
  - apply (run_box z). rewrite run_snoc, EB'. reflexivity.
  - unfold set_up in E'. rewrite dense_setup_ok in E' by (try apply HU2; apply HU2 || lia). apply Ok_inj in E'. injection E' as <- _.
    unfold get_pixarea. cbn [xedges yedges the_box pnx pny pixel_grid].
    rewrite !(py_get_ok _ (tab _ _) _ 0) by (rewrite tab_length; cbn; lia). cbn [bind]. change (Z.to_nat 1) with 1%nat. change (Z.to_nat 0) with 0%nat.
    rewrite !tab_nth by (cbn; lia). cbn [px0 phx py0 phy pixel_grid INR]. f_equal. field.
  - rewrite run_snoc, EB'. cbn [fst o_cache]. rewrite run_snoc. exact A2.
Qed.
Print Assumptions C75_refused_radial_refuted.

(** Non-vacuity: a history with a failing call in which both set-ups are in force. *)
Example C75_example : exists B P, box_in_force [setup_box_call (-1) 1 1 (-1) 1 1; CMask; setup_rings_call (Rings 0 1 2 0 (2 * PI) 2 0 0 1 0)] B /\
  rings_in_force [setup_box_call (-1) 1 1 (-1) 1 1; CMask; setup_rings_call (Rings 0 1 2 0 (2 * PI) 2 0 0 1 0)] P /\
  step (Ok VNone) fresh CMask = (fresh, Err AssertionError).
Proof.
  pose proof PI_RGT_0. set (G := Rings 0 1 2 0 (2 * PI) 2 0 0 1 0).
  assert (HU : usable (-1) 1 1 (-1) 1 1 G) by (unfold usable, good_rings, G; cbn; repeat split; try lia; lra).
  destruct (ready (Ok VNone) fresh _ _ _ _ _ _ _ HU) as (B & P & _ & _ & EB & EP & _). exists B, P.
  split; [|split; [|reflexivity]].
  - apply (run_box (Ok VNone)). cbn [run]. rewrite EB. cbn [fst step mask_of o_box o_polar fresh]. change (step (Ok VNone) ?s (setup_rings_call G)) with (step (Ok VNone) s (setup_rings_call G)).
    rewrite EP. reflexivity.
  - apply (run_polar (Ok VNone)). cbn [run]. rewrite EP. reflexivity.
Qed.
