(** * Theorems: the [montecarlo.Cube2Shell] object over sequences of calls (C78) *)

From Coq Require Import Reals ZArith List Bool Lia Lra.
From Flocq Require Import Core.Raux.
From Verif Require PGrids.
From Verif Require Import Base BaseP SpecGrid SpecRemap SpecMonte SpecCube SpecMonteShell MGrids MDense MMonte MCube MMonteShell MLifeShell
  PPolarCoords PRemap2 PHealpixBoundary PDense PMonte PCube PMonteShell TMonteShell.
Import ListNotations.
Open Scope R_scope.

(** ** Specification *)

(** The call is a [setup_cube] that makes the cube [C]; the call is a
    [setup_cube] which the assertions let pass. *)
Definition makes_cube (c : call) (C : cube_grid) : Prop :=
  match c with CCube a b n a' b' n' a'' b'' n'' => setup_cube a b n a' b' n' a'' b'' n'' = Ok C | _ => False end.
Definition cube_call (c : call) : Prop :=
  match c with CCube _ _ n _ _ n' _ _ _ => (0 < n)%Z /\ (0 < n')%Z | _ => False end.

(** Likewise for the shells. *)
Definition makes_shells (c : call) (P : mc_shells) : Prop :=
  match c with
  | CLin rmin rmax numr nside ct => shells_lin rmin rmax numr nside ct = Ok P
  | CLog rmin rmax numr nside ct z => shells_log rmin rmax numr nside ct z = Ok P
  | _ => False
  end.
Definition shells_call (c : call) : Prop :=
  match c with
  | CLin rmin rmax numr nside ct => 0 <= rmin < rmax /\ (0 < numr)%Z /\ length ct = 3%nat
  | CLog rmin rmax numr nside ct z => 0 < rmin < rmax /\ (0 < numr)%Z /\ length ct = 3%nat
  | _ => False
  end.

(** The last [setup_cube] since the last [clean], not counting refused ones, made
    [C]; likewise for the shells. *)
Definition cube_in_force (h : list call) (C : cube_grid) : Prop :=
  exists h1 c h2, h = h1 ++ c :: h2 /\ makes_cube c C /\ ~ In CClean h2 /\ forall c', In c' h2 -> ~ cube_call c'.
Definition shells_in_force (h : list call) (P : mc_shells) : Prop :=
  exists h1 c h2, h = h1 ++ c :: h2 /\ makes_shells c P /\ ~ In CClean h2 /\ forall c', In c' h2 -> ~ shells_call c'.

Definition is_weights (c : call) : Prop := match c with CWeights _ _ => True | _ => False end.

(** The last successful [get_weights] since the last [clean], made for the cube
    and the shells in force back then, gave [W]. *)
Definition weights_in_force (e : exc) (h : list call) (W : shell_obj) : Prop :=
  exists h1 draws mc h2 C P, h = h1 ++ CWeights draws mc :: h2 /\ cube_in_force h1 C /\ shells_in_force h1 P /\
    shell_weights C P draws mc = Ok W /\ ~ In CClean h2 /\
    forall h3 c h4, h2 = h3 ++ c :: h4 -> is_weights c ->
      exists e', snd (step e (run e fresh (h1 ++ CWeights draws mc :: h3)) c) = Err e'.

(** ** Lemmas *)

Lemma run_app : forall e h h' s, run e s (h ++ h') = run e (run e s h) h'.
Proof. intros e h. induction h as [|c h IH]; intros; cbn [app run]; auto. Qed.

Definition has_cube (s : sobj) (C : cube_grid) : Prop :=
  s_xedges s = Some (cu_xedges C) /\ s_yedges s = Some (cu_yedges C) /\ s_zedges s = Some (cu_zedges C).
Definition has_shells (s : sobj) (P : mc_shells) : Prop :=
  s_radii s = Some (ms_redges P, ms_rmid P) /\ s_sky s = Some (ms_nside P, ms_center P).

Lemma cube_made : forall e s c C, makes_cube c C -> has_cube (fst (step e s c)) C /\ snd (step e s c) = Ok VNone.
Proof.
  intros e s c C H. destruct c as [a b n a' b' n' a'' b'' n''| | | | |]; cbn [makes_cube] in H; try contradiction. cbn [step].
  unfold setup_cube, py_assert in H. unfold cube_step.
  destruct (Z.ltb_spec 0 n) as [H1|]; [|discriminate]. destruct (Z.ltb_spec 0 n') as [H2|]; [|discriminate]. cbn [negb].
  rewrite !linspaceZ_ok in H by lia. cbn [bind] in H.
  destruct (linspaceZ a'' b'' (n'' + 1)) as [ze|] eqn:EZ; [|discriminate]. cbn [bind] in H.
  rewrite !(py_get_ok _ (linspace _ _ _) _ 0) in H by (rewrite length_linspace; lia). cbn [bind] in H.
  destruct (Nat.ltb_spec (length ze) 2) as [HL|HL].
  { exfalso. destruct ze as [|z0 [|z1 t]]; cbn in HL; try lia; cbn in H; discriminate. }
  rewrite !(py_get_ok _ ze _ 0) in H by lia. cbn [bind] in H. destruct (meshgrid3 _ _ _) as [[x3 y3] z3]. apply Ok_inj in H. subst C.
  cbn [fst snd]. repeat split.
Qed.

Lemma shells_made : forall e s c P, makes_shells c P -> has_shells (fst (step e s c)) P /\ snd (step e s c) = Ok VNone.
Proof.
  intros e s c P H. destruct c as [|rmin rmax numr nside ct|rmin rmax numr nside ct z| | |]; cbn [makes_shells] in H; try contradiction; cbn [step].
  - unfold shells_lin, py_assert in H. unfold lin_step.
    destruct (Rle_bool 0 rmin); [|discriminate]. destruct (Rlt_bool rmin rmax); [|discriminate].
    destruct (Z.ltb_spec 0 numr) as [H1|]; [|discriminate]. destruct (length ct =? 3)%nat; [|discriminate]. cbn [andb negb].
    rewrite linspaceZ_ok in H by lia. cbn [bind] in H. set (re := linspace _ _ _) in *. set (rm := map2 _ _ _) in *.
    destruct (Nat.ltb_spec (length rm) 2) as [HL|HL].
    { exfalso. destruct rm as [|r0 [|r1 t]]; cbn in HL; try lia; cbn in H; discriminate. }
    rewrite !(py_get_ok _ rm _ 0) in H by lia. cbn [bind] in H. apply Ok_inj in H. subst P. repeat split.
  - unfold log_step. rewrite H. repeat split.
Qed.

Lemma cube_quiet : forall e s c, c <> CClean -> ~ cube_call c ->
  let s' := fst (step e s c) in s_xedges s' = s_xedges s /\ s_yedges s' = s_yedges s /\ s_zedges s' = s_zedges s.
Proof.
  intros e s c Hc Hn. cbn zeta. destruct c as [a b n a' b' n' a'' b'' n''|rmin rmax numr nside ct|rmin rmax numr nside ct z|d mc|f w|]; cbn [step].
  - unfold cube_step. cbn [cube_call] in Hn. destruct (Z.ltb_spec 0 n); [|now repeat split]. destruct (Z.ltb_spec 0 n'); [|now repeat split].
    exfalso. apply Hn. lia.
  - unfold lin_step. destruct (negb _); [now repeat split|]. destruct (_ <? 2)%nat; now repeat split.
  - unfold log_step. destruct (shells_log _ _ _ _ _ _); now repeat split.
  - destruct (weights_of _ _ _ _); now repeat split.
  - now repeat split.
  - now destruct Hc.
Qed.

Lemma lin_checks : forall rmin rmax numr (ct : list R),
  Rle_bool 0 rmin && Rlt_bool rmin rmax && (0 <? numr)%Z && (length ct =? 3)%nat = true <-> 0 <= rmin < rmax /\ (0 < numr)%Z /\ length ct = 3%nat.
Proof.
  intros. rewrite !andb_true_iff, Z.ltb_lt, Nat.eqb_eq.
  assert (A : Rle_bool 0 rmin = true <-> 0 <= rmin) by (destruct (Rle_bool_spec 0 rmin); split; intros; try discriminate; auto; lra).
  assert (B : Rlt_bool rmin rmax = true <-> rmin < rmax) by (destruct (Rlt_bool_spec rmin rmax); split; intros; try discriminate; auto; lra).
  rewrite A, B. tauto.
Qed.

Lemma log_ok : forall rmin rmax numr nside ct z P, shells_log rmin rmax numr nside ct z = Ok P -> shells_call (CLog rmin rmax numr nside ct z).
Proof. intros rmin rmax numr nside ct z P H. apply shells_log_inv in H. destruct H as (nr & -> & Hr & Nr & L & _). cbn. split; [exact Hr|]. split; [lia|exact L]. Qed.

Lemma log_err : forall rmin rmax numr nside ct z e, shells_log rmin rmax numr nside ct z = Err e -> e = AssertionError.
Proof.
  intros rmin rmax numr nside ct z e H. unfold shells_log, py_assert in H.
  destruct (Rlt_bool 0 rmin); [|congruence]. destruct (Rlt_bool rmin rmax); [|congruence].
  destruct (Z.ltb_spec 0 numr) as [H1|]; [|congruence]. destruct (length ct =? 3)%nat; [|congruence].
  unfold logspaceZ in H. destruct z; rewrite linspaceZ_ok in H by lia; discriminate.
Qed.

Lemma shells_quiet : forall e s c, c <> CClean -> ~ shells_call c ->
  let s' := fst (step e s c) in s_radii s' = s_radii s /\ s_sky s' = s_sky s.
Proof.
  intros e s c Hc Hn. cbn zeta. destruct c as [a b n a' b' n' a'' b'' n''|rmin rmax numr nside ct|rmin rmax numr nside ct z|d mc|f w|]; cbn [step].
  - unfold cube_step. destruct (negb _); [now split|]. destruct (negb _); [now split|]. destruct (linspaceZ _ _ _); now split.
  - unfold lin_step. destruct (_ && _ && _ && _) eqn:E; [|now split]. apply lin_checks in E. exfalso. apply Hn. exact E.
  - unfold log_step. destruct (shells_log _ _ _ _ _ _) eqn:E; [|now split]. exfalso. apply Hn. now apply log_ok in E.
  - destruct (weights_of _ _ _ _); now split.
  - now split.
  - now destruct Hc.
Qed.

Lemma weights_quiet : forall e s c, c <> CClean -> (is_weights c -> exists e', snd (step e s c) = Err e') -> s_weights (fst (step e s c)) = s_weights s.
Proof.
  intros e s c Hc Hn. destruct c as [a b n a' b' n' a'' b'' n''|rmin rmax numr nside ct|rmin rmax numr nside ct z|d mc|f w|]; cbn [step].
  - unfold cube_step. destruct (negb _); [reflexivity|]. destruct (negb _); [reflexivity|]. destruct (linspaceZ _ _ _); reflexivity.
  - unfold lin_step. destruct (negb _); [reflexivity|]. destruct (_ <? 2)%nat; reflexivity.
  - unfold log_step. destruct (shells_log _ _ _ _ _ _); reflexivity.
  - cbn [step] in Hn. destruct (weights_of _ _ _ _); [|reflexivity]. destruct (Hn I) as [e' Q]. discriminate.
  - reflexivity.
  - now destruct Hc.
Qed.

Lemma force_cube : forall e h s C, cube_in_force h C -> has_cube (run e s h) C.
Proof.
  intros e h s C (h1 & c & h2 & -> & H & H1 & H2). rewrite run_app. cbn [run].
  assert (K := proj1 (cube_made e (run e s h1) c C H)). revert K. generalize (fst (step e (run e s h1) c)). clear H.
  induction h2 as [|a h2 IH]; intros s' K; [exact K|]. cbn [run]. apply IH; [intros Q; apply H1; now right|intros; apply H2; now right|].
  destruct (cube_quiet e s' a) as (A & B & D); [intros ->; apply H1; now left|apply H2; now left|]. unfold has_cube in *. now rewrite A, B, D.
Qed.

Lemma force_shells : forall e h s P, shells_in_force h P -> has_shells (run e s h) P.
Proof.
  intros e h s P (h1 & c & h2 & -> & H & H1 & H2). rewrite run_app. cbn [run].
  assert (K := proj1 (shells_made e (run e s h1) c P H)). revert K. generalize (fst (step e (run e s h1) c)). clear H.
  induction h2 as [|a h2 IH]; intros s' K; [exact K|]. cbn [run]. apply IH; [intros Q; apply H1; now right|intros; apply H2; now right|].
  destruct (shells_quiet e s' a) as (A & B); [intros ->; apply H1; now left|apply H2; now left|]. unfold has_shells in *. now rewrite A, B.
Qed.

Lemma weights_have : forall e s C P draws mc, has_cube s C -> has_shells s P -> weights_of e s draws mc = shell_weights C P draws mc.
Proof.
  intros e s C P draws mc (A & B & D) (E & F). unfold weights_of. rewrite A, B, D, E, F. destruct C, P. reflexivity.
Qed.

Lemma remap_have : forall e s P f w, has_shells s P -> remap_of e s f w = shell_remap P (s_weights s) f w.
Proof. intros e s P f w (E & F). unfold remap_of. rewrite E, F. destruct P. reflexivity. Qed.

Lemma force_weights : forall e h W, weights_in_force e h W -> s_weights (run e fresh h) = Some W.
Proof.
  intros e h W (h1 & d & mc & h2 & C & P & -> & HC & HP & HW & N1 & N2).
  assert (K : s_weights (run e fresh (h1 ++ [CWeights d mc])) = Some W).
  { rewrite run_app. cbn [run step]. rewrite (weights_have e _ C P) by (now apply force_cube || now apply force_shells). rewrite HW. reflexivity. }
  induction h2 as [|a h2 IH] using rev_ind; [exact K|].
  change (h1 ++ CWeights d mc :: h2 ++ [a]) with (h1 ++ (CWeights d mc :: h2) ++ [a]). rewrite app_assoc, run_app. cbn [run].
  rewrite weights_quiet.
  - apply IH; [intros Q; apply N1; apply in_or_app; now left|]. intros h3 c h4 E Wc. apply (N2 h3 c (h4 ++ [a])); [now rewrite E, <- app_assoc|exact Wc].
  - intros ->. apply N1. apply in_or_app. right. now left.
  - intros Wa. destruct (N2 h2 a [] eq_refl Wa) as [e' Q]. exists e'. exact Q.
Qed.

(** ** C78 *)

Theorem C78_clean : forall e h h' c, step e (run e fresh (h ++ CClean :: h')) c = step e (run e fresh h') c.
Proof. intros. rewrite run_app. reflexivity. Qed.
Print Assumptions C78_clean.

(** Calls refused by an assertion, calls of [get_weights] that raise and all
    calls of [remap] change nothing. *)
Theorem C78_refused : forall e s c s' v, step e s c = (s', v) ->
  v = Err AssertionError \/ (exists d mc e', c = CWeights d mc /\ v = Err e') \/ (exists f w, c = CRemap f w) -> s' = s.
Proof.
  intros e s c s' v H Hv.
  destruct c as [a b n a' b' n' a'' b'' n''|rmin rmax numr nside ct|rmin rmax numr nside ct z|d mc|f w|]; cbn [step] in H.
  - destruct Hv as [Hv|[(x & y & z & Hv & _)|(x & y & Hv)]]; [|discriminate|discriminate]. subst v. unfold cube_step in H.
    destruct (negb (0 <? n)%Z); [now inversion H|]. destruct (negb (0 <? n')%Z); [now inversion H|].
    unfold linspaceZ in H. destruct (n'' + 1 <? 0)%Z; [discriminate|]. destruct (_ <? 2)%nat; discriminate.
  - destruct Hv as [Hv|[(x & y & z & Hv & _)|(x & y & Hv)]]; [|discriminate|discriminate]. subst v. unfold lin_step in H.
    destruct (negb _); [now inversion H|]. destruct (_ <? 2)%nat; discriminate.
  - unfold log_step in H. destruct (shells_log _ _ _ _ _ _); inversion H; [|reflexivity]. subst.
    destruct Hv as [Hv|[(x & y & u & Hv & _)|(x & y & Hv)]]; discriminate.
  - destruct (weights_of _ _ _ _); inversion H; [|reflexivity]. subst.
    destruct Hv as [Hv|[(x & y & u & _ & Hv)|(x & y & Hv)]]; discriminate.
  - inversion H. reflexivity.
  - inversion H. subst. destruct Hv as [Hv|[(x & y & u & Hv & _)|(x & y & Hv)]]; discriminate.
Qed.
Print Assumptions C78_refused.

(** [get_weights] samples the cube and the shells in force. *)
Theorem C78_weights : forall e h C P draws mc, cube_in_force h C -> shells_in_force h P ->
  snd (step e (run e fresh h) (CWeights draws mc)) = (W <- shell_weights C P draws mc ;; Ok VNone).
Proof.
  intros e h C P draws mc HC HP. cbn [step]. rewrite (weights_have e _ C P) by (now apply force_cube || now apply force_shells).
  destruct (shell_weights C P draws mc); reflexivity.
Qed.
Print Assumptions C78_weights.

(** [remap] uses the weights of the last successful [get_weights]; of the shells
    in force it uses their number and [nside], of the cube in force nothing. *)
Theorem C78_remap : forall e h P W f w, shells_in_force h P -> weights_in_force e h W ->
  step e (run e fresh h) (CRemap f w) = (run e fresh h, g <- shell_remap P (Some W) f w ;; Ok (VMap g)).
Proof.
  intros e h P W f w HP HW. cbn [step]. rewrite (remap_have e _ P) by now apply force_shells. now rewrite (force_weights e h W HW).
Qed.
Print Assumptions C78_remap.

(** Whatever [remap] returns was made with stored weights, and these come from a
    successful [get_weights] since the last [clean]. *)
Theorem C78_stored : forall e h W, s_weights (run e fresh h) = Some W ->
  exists h1 draws mc h2, h = h1 ++ CWeights draws mc :: h2 /\ ~ In CClean h2 /\
    snd (step e (run e fresh h1) (CWeights draws mc)) = Ok VNone /\
    (forall C P, cube_in_force h1 C -> shells_in_force h1 P -> shell_weights C P draws mc = Ok W) /\
    forall h3 c h4, h2 = h3 ++ c :: h4 -> is_weights c -> exists e', snd (step e (run e fresh (h1 ++ CWeights draws mc :: h3)) c) = Err e'.
Proof.
  intros e h W. induction h as [|c h IH] using rev_ind; [discriminate|]. rewrite run_app. cbn [run]. intros H.
  assert (NC : c <> CClean) by (intros ->; discriminate).
  assert (D : is_weights c /\ (exists v, snd (step e (run e fresh h) c) = Ok v) \/ (is_weights c -> exists e', snd (step e (run e fresh h) c) = Err e')).
  { destruct (snd (step e (run e fresh h) c)) eqn:Q; [|right; intros _; now eexists]. destruct c; cbn [is_weights]; try (right; intros []; fail). left. split; [exact I|now eexists]. }
  destruct D as [[Wc [v Q]]|D].
  - destruct c as [| | |d mc| |]; cbn [is_weights] in Wc; try contradiction. exists h, d, mc, []. split; [reflexivity|]. split; [intros []|].
    cbn [step] in *. destruct (weights_of e (run e fresh h) d mc) as [W'|] eqn:E; [|discriminate]. cbn [fst snd s_weights] in *. inversion H. subst W'.
    split; [reflexivity|]. split.
    + intros C P HC HP. now rewrite <- (weights_have e (run e fresh h) C P) by (now apply force_cube || now apply force_shells).
    + intros h3 c h4 Q'. destruct h3; discriminate.
  - rewrite weights_quiet in H by auto. destruct (IH H) as (h1 & d & mc & h2 & E & N & O & S & L). exists h1, d, mc, (h2 ++ [c]).
    split; [now rewrite E, <- app_assoc|]. split; [intros Q; apply in_app_or in Q; destruct Q as [Q|[Q|[]]]; auto|]. split; [exact O|]. split; [exact S|].
    intros h3 c' h4 Q Wc. destruct h4 as [|x h4] using rev_ind.
    + apply app_inj_tail in Q. destruct Q as [-> ->]. rewrite <- E. now apply D.
    + change (h3 ++ c' :: h4 ++ [x]) with (h3 ++ (c' :: h4) ++ [x]) in Q. rewrite app_assoc in Q. apply app_inj_tail in Q. destruct Q as [Q _]. now apply (L h3 c' h4).
Qed.
Print Assumptions C78_stored.

Lemma makes_made : forall c P, makes_shells c P -> exists nr, made_shells P nr (ms_nside P) /\ length (ms_rmid P) = nr.
Proof.
  intros c P H. destruct c as [|rmin rmax numr nside ct|rmin rmax numr nside ct z| | |]; cbn [makes_shells] in H; try contradiction.
  - assert (H' := H). apply shells_lin_inv in H. destruct H as (nr & -> & _ & _ & _ & E). exists nr. split; [left; exists rmin, rmax, ct; rewrite E; rewrite E in H'; exact H'|].
    rewrite E. apply tab_length.
  - assert (H' := H). apply shells_log_inv in H. destruct H as (nr & -> & _ & _ & _ & E). exists nr. split; [right; exists rmin, rmax, ct, z; rewrite E; rewrite E in H'; exact H'|].
    rewrite E. apply tab_length.
Qed.

(** Without a successful [get_weights] since the last [clean]: TypeError. *)
Theorem C78_no_weights : forall e h P f w, shells_in_force h P -> (1 <= ms_nside P)%Z ->
  (forall h1 draws mc h2, h = h1 ++ CWeights draws mc :: h2 -> snd (step e (run e fresh h1) (CWeights draws mc)) = Ok VNone -> In CClean h2) ->
  snd (step e (run e fresh h) (CRemap f w)) = Err TypeError.
Proof.
  intros e h P f w HP Hn H. cbn [step snd]. rewrite (remap_have e _ P) by now apply force_shells.
  destruct (s_weights (run e fresh h)) as [W|] eqn:E.
  - destruct (C78_stored e h W E) as (h1 & d & mc & h2 & Eh & N & O & _). destruct (N (H h1 d mc h2 Eh O)).
  - destruct HP as (h1 & c & h2 & _ & M & _). destruct (makes_made c P M) as (nr & Hm & _). now rewrite (C69_unset P nr (ms_nside P) f w Hm Hn).
Qed.
Print Assumptions C78_no_weights.

(** After any history, both set-ups (in either order), a successful
    [get_weights] and any remaps: as on a new object, see C69. *)
Theorem C78_ready : forall e h rs xmin xmax nx ymin ymax ny zmin zmax nz cp P W draws mc f w,
  makes_shells cp P -> (1 <= nx)%nat -> (1 <= ny)%nat -> (1 <= nz)%nat ->
  shell_weights (the_cube (voxel_grid xmin xmax nx ymin ymax ny zmin zmax nz)) P draws mc = Ok W ->
  (forall c, In c rs -> exists f' w', c = CRemap f' w') ->
  let cb := CCube xmin xmax (Z.of_nat nx) ymin ymax (Z.of_nat ny) zmin zmax (Z.of_nat nz) in
  forall h', h' = [cb; cp] \/ h' = [cp; cb] ->
  snd (step e (run e fresh (h ++ h' ++ CWeights draws mc :: rs)) (CRemap f w)) =
    (g <- user_mc_shells xmin xmax nx ymin ymax ny zmin zmax nz P mc draws (fun _ => f) w ;; Ok (VMap g)).
Proof.
  intros e h rs xmin xmax nx ymin ymax ny zmin zmax nz cp P W draws mc f w MP Nx Ny Nz HW Hr cb h' Hh.
  set (C := the_cube (voxel_grid xmin xmax nx ymin ymax ny zmin zmax nz)) in *.
  assert (MC : makes_cube cb C) by (apply setup_cube_ok; auto).
  assert (NP : cp <> CClean /\ ~ cube_call cp) by (destruct cp; cbn in *; try contradiction; split; [discriminate|auto|discriminate|auto]).
  assert (FC : cube_in_force (h ++ h') C).
  { destruct Hh as [-> | ->].
    - exists h, cb, [cp]. split; [reflexivity|]. split; [exact MC|]. split; [intros [Q|[]]; now apply (proj1 NP)|intros c [<- |[]]; apply NP].
    - exists (h ++ [cp]), cb, []. split; [now rewrite <- app_assoc|]. split; [exact MC|]. split; [intros []|intros c []]. }
  assert (FP : shells_in_force (h ++ h') P).
  { destruct Hh as [-> | ->].
    - exists (h ++ [cb]), cp, []. split; [now rewrite <- app_assoc|]. split; [exact MP|]. split; [intros []|intros c []].
    - exists h, cp, [cb]. split; [reflexivity|]. split; [exact MP|]. split; [intros [Q|[]]; discriminate|intros c [<- |[]] []]. }
  assert (FW : weights_in_force e (h ++ h' ++ CWeights draws mc :: rs) W).
  { exists (h ++ h'), draws, mc, rs, C, P. split; [now rewrite <- app_assoc|]. split; [exact FC|]. split; [exact FP|]. split; [exact HW|].
    split; [intros Q; destruct (Hr _ Q) as (? & ? & ?); discriminate|]. intros h3 c h4 Q Wc. exfalso. destruct (Hr c) as (? & ? & ->); [rewrite Q; apply in_or_app; right; now left|destruct Wc]. }
  assert (FP' : shells_in_force (h ++ h' ++ CWeights draws mc :: rs) P).
  { destruct FP as (h1 & c & h2 & E & M & N1 & N2). exists h1, c, (h2 ++ CWeights draws mc :: rs). split; [rewrite app_assoc, E, <- app_assoc; reflexivity|]. split; [exact M|].
    split.
    - intros Q. apply in_app_or in Q. destruct Q as [Q|[Q|Q]]; [auto|discriminate|destruct (Hr _ Q) as (? & ? & ?); discriminate].
    - intros c' Q. apply in_app_or in Q. destruct Q as [Q|[<- |Q]]; [auto|intros []|destruct (Hr _ Q) as (? & ? & ->); intros []]. }
  rewrite (C78_remap e _ P W f w FP' FW). cbn [snd]. unfold user_mc_shells. rewrite setup_cube_ok by auto. cbn [bind]. fold C. now rewrite HW.
Qed.
Print Assumptions C78_ready.

(** User expectation: [remap] uses the cube set up last.  Violated: any call of
    [setup_cube], successful or not, is ignored by [remap] until [get_weights] is
    called again. *)
Theorem C78_new_cube : forall e s xmin xmax numx ymin ymax numy zmin zmax numz f w,
  snd (step e (fst (step e s (CCube xmin xmax numx ymin ymax numy zmin zmax numz))) (CRemap f w)) = snd (step e s (CRemap f w)).
Proof.
  intros. cbn [step]. unfold cube_step. destruct (negb _); [reflexivity|]. destruct (negb _); [reflexivity|]. destruct (linspaceZ _ _ _); reflexivity.
Qed.
Print Assumptions C78_new_cube.

Lemma mapM_prefix : forall A B (g : A -> res B) l l' r, mapM g (l ++ l') = Ok r -> mapM g l = Ok (firstn (length l) r).
Proof.
  intros A B g l. induction l as [|a l IH]; intros l' r H; [reflexivity|]. cbn [app mapM length] in *.
  destruct (g a) as [y|]; [|discriminate]. cbn [bind] in *. destruct (mapM g (l ++ l')) as [ys|] eqn:E; [|discriminate]. cbn [bind] in H. apply Ok_inj in H. subst r.
  rewrite (IH l' ys E). reflexivity.
Qed.

Lemma remap_prefix : forall P P' W f w g, ms_nside P = ms_nside P' -> (length (ms_rmid P') <= length (ms_rmid P))%nat ->
  shell_remap P W f w = Ok g -> shell_remap P' W f w = Ok (firstn (length (ms_rmid P')) g).
Proof.
  intros P P' W f w g En L H. unfold shell_remap in *. rewrite En in H.
  replace (length (ms_rmid P)) with (length (ms_rmid P') + (length (ms_rmid P) - length (ms_rmid P')))%nat in H by lia.
  rewrite seq_app in H. apply mapM_prefix in H. rewrite seq_length in H. exact H.
Qed.

(** New shells of the same [nside] are ignored as well, but for their number:
    as many shells of the old map are returned, ... *)
Theorem C78_new_shells : forall e h c P P' f w g, shells_in_force h P -> makes_shells c P' -> ms_nside P = ms_nside P' ->
  (length (ms_rmid P') <= length (ms_rmid P))%nat ->
  snd (step e (run e fresh h) (CRemap f w)) = Ok (VMap g) ->
  snd (step e (run e fresh h) c) = Ok VNone /\
  snd (step e (run e fresh (h ++ [c])) (CRemap f w)) = Ok (VMap (firstn (length (ms_rmid P')) g)).
Proof.
  intros e h c P P' f w g HP M En L H. destruct (shells_made e (run e fresh h) c P' M) as [K O]. split; [exact O|].
  rewrite run_app. cbn [run step snd]. cbn [step snd] in H. rewrite (remap_have e _ P') by exact K.
  rewrite (remap_have e _ P) in H by now apply force_shells. destruct (shell_remap P _ f w) as [g'|] eqn:E; [|discriminate]. cbn [bind] in H. inversion H. subst g'.
  assert (EW : s_weights (fst (step e (run e fresh h) c)) = s_weights (run e fresh h)).
  { apply weights_quiet; destruct c; cbn in M; try contradiction; try discriminate; intros []. }
  rewrite EW, (remap_prefix P P' _ f w g En L E). reflexivity.
Qed.
Print Assumptions C78_new_shells.

(** ... even after a set-up of a single shell which raised.  That set-up leaves
    the object with the new shell, but around the old centre. *)
Theorem C78_single_shell : forall e h P C rmin rmax nside ct f w draws mc, shells_in_force h P -> cube_in_force h C ->
  0 <= rmin < rmax -> length ct = 3%nat -> let c := CLin rmin rmax 1 nside ct in
  snd (step e (run e fresh h) c) = Err IndexError /\
  (forall g, snd (step e (run e fresh h) (CRemap f w)) = Ok (VMap g) -> snd (step e (run e fresh (h ++ [c])) (CRemap f w)) = Ok (VMap (firstn 1 g))) /\
  snd (step e (run e fresh (h ++ [c])) (CWeights draws mc)) =
    (W <- shell_weights C (McShells [rmin; rmax] [(rmin + rmax) / 2] (ms_nside P) (ms_center P)) draws mc ;; Ok VNone).
Proof.
  intros e h P C rmin rmax nside ct f w draws mc HP HC Hr L c.
  assert (KP := force_shells e h fresh P HP). assert (KC := force_cube e h fresh C HC). rewrite run_app. cbn [run]. set (s := run e fresh h) in *. clearbody s.
  assert (LN : linspace rmin rmax (Z.to_nat (1 + 1)) = [rmin; rmax]).
  { change (Z.to_nat (1 + 1)) with 2%nat. unfold linspace. cbn. f_equal; [field|]. f_equal. field. }
  assert (E : step e s c = (SObj (s_xedges s) (s_yedges s) (s_zedges s) (Some ([rmin; rmax], [(rmin + rmax) / 2])) (s_sky s) (s_weights s), Err IndexError)).
  { unfold c. cbn [step]. unfold lin_step. rewrite (proj2 (lin_checks rmin rmax 1 ct)) by (split; [exact Hr|split; [lia|exact L]]). cbn [negb]. rewrite LN. cbn [tl removelast map2 combine length Nat.ltb Nat.leb map].
    cbn. replace (/ 2 * (rmax + rmin)) with ((rmin + rmax) / 2) by field. reflexivity. }
  rewrite E. cbn [fst snd]. split; [reflexivity|]. destruct KP as (R1 & R2). destruct KC as (X & Y & Z).
  set (P1 := McShells [rmin; rmax] [(rmin + rmax) / 2] (ms_nside P) (ms_center P)).
  set (s1 := SObj _ _ _ _ _ _).
  assert (K1 : has_shells s1 P1) by (split; [reflexivity|exact R2]). assert (K2 : has_cube s1 C) by (repeat split; assumption). split.
  - intros g H. cbn [step snd] in *. rewrite (remap_have e s1 P1 f w K1). rewrite (remap_have e s P f w) in H by (split; assumption).
    destruct (shell_remap P _ f w) as [g'|] eqn:Q; [|discriminate]. cbn [bind] in H. inversion H. subst g'.
    change (s_weights s1) with (s_weights s). rewrite (remap_prefix P P1 _ f w g); [reflexivity|reflexivity| |exact Q]. cbn [P1 ms_rmid length].
    destruct HP as (h1 & c' & h2 & _ & M & _). destruct (makes_made c' P M) as (nr & Hm & En). rewrite En. destruct (made_shells_good _ _ _ Hm) as [(N & _) _]. exact N.
  - cbn [step]. rewrite (weights_have e s1 C P1 _ _ K2 K1). destruct (shell_weights C P1 draws mc); reflexivity.
Qed.
Print Assumptions C78_single_shell.

(** Which arguments the set-ups accept.  [setup_cube] does not check [numz]. *)
Theorem C78_args : forall e s,
  (forall xmin xmax numx ymin ymax numy zmin zmax numz, let c := CCube xmin xmax numx ymin ymax numy zmin zmax numz in
     (~ cube_call c <-> snd (step e s c) = Err AssertionError) /\
     (cube_call c -> (1 <= numz)%Z -> snd (step e s c) = Ok VNone)) /\
  (forall rmin rmax numr nside ct, let c := CLin rmin rmax numr nside ct in
     (~ shells_call c <-> snd (step e s c) = Err AssertionError) /\
     (shells_call c -> (2 <= numr)%Z -> snd (step e s c) = Ok VNone)) /\
  (forall rmin rmax numr nside ct z, let c := CLog rmin rmax numr nside ct z in
     (~ shells_call c <-> snd (step e s c) = Err AssertionError) /\
     (shells_call c -> snd (step e s c) = Ok VNone)).
Proof.
  intros e s. split; [|split].
  - intros xmin xmax numx ymin ymax numy zmin zmax numz. cbn zeta. cbn [step cube_call]. unfold cube_step.
    destruct (Z.ltb_spec 0 numx); [|split; [split; [reflexivity|lia]|lia]]. destruct (Z.ltb_spec 0 numy); [|split; [split; [reflexivity|lia]|lia]].
    cbn [negb]. split.
    + split; [lia|]. intros Q. exfalso. unfold linspaceZ in Q. destruct (_ <? 0)%Z; [discriminate|]. destruct (_ <? 2)%nat; discriminate.
    + intros _ Nz. rewrite linspaceZ_ok by lia. rewrite length_linspace. destruct (Nat.ltb_spec (Z.to_nat (numz + 1)) 2); [lia|reflexivity].
  - intros rmin rmax numr nside ct. cbn zeta. cbn [step shells_call]. unfold lin_step. rewrite <- lin_checks.
    destruct (_ && _ && _ && _) eqn:K; cbn [negb].
    + split; [split; [intros Q; now destruct Q|destruct (_ <? 2)%nat; discriminate]|]. intros _ Nr.
      rewrite map2_length, PGrids.length_tl, PGrids.length_removelast, length_linspace.
      destruct (Nat.ltb_spec (Nat.min (Z.to_nat (numr + 1) - 1) (Z.to_nat (numr + 1) - 1)) 2); [lia|reflexivity].
    + split; [split; [reflexivity|discriminate]|discriminate].
  - intros rmin rmax numr nside ct z. cbn zeta. cbn [step]. unfold log_step.
    destruct (shells_log _ _ _ _ _ _) as [P|x] eqn:E; cbn [snd].
    + apply log_ok in E. split; [split; [intros Q; now destruct Q|discriminate]|reflexivity].
    + assert (N : ~ shells_call (CLog rmin rmax numr nside ct z)).
      { intros (Hr & Nr & L). destruct (proj2 (proj2 (C69_accepts rmin rmax numr nside ct z))) as [P Q]; [split; [exact Hr|split; [lia|exact L]]|congruence]. }
      apply log_err in E. subst x. split; [tauto|]. intros Q. now destruct N.
Qed.
Print Assumptions C78_args.

(** The case of C69: a cube of 2 x 2 x 1 voxels, one shell with 12 pixels. *)
Definition old_cube : call := CCube (-2) 2 2 (-2) 2 2 (- / 4) (/ 4) 1.
Definition far_cube : call := CCube 98 102 2 (-2) 2 2 (- / 4) (/ 4) 1.
Definition one_shell : call := CLog (/ 2) 1 1 1 [0; -1; 0] false.

Lemma one_shell_made : makes_shells one_shell case3_shells.
Proof. unfold makes_shells, one_shell. apply (shells_log_ok (/ 2) 1 1 1 [0; -1; 0] false); [lra|lia|reflexivity]. Qed.

Lemma user_weights : forall xmin xmax nx ymin ymax ny zmin zmax nz P mc draws f w out, (1 <= nx)%nat -> (1 <= ny)%nat -> (1 <= nz)%nat ->
  user_mc_shells xmin xmax nx ymin ymax ny zmin zmax nz P mc draws (fun _ => f) w = Ok out ->
  exists W, shell_weights (the_cube (voxel_grid xmin xmax nx ymin ymax ny zmin zmax nz)) P draws mc = Ok W.
Proof.
  intros xmin xmax nx ymin ymax ny zmin zmax nz P mc draws f w out Nx Ny Nz H. unfold user_mc_shells in H. rewrite setup_cube_ok in H by auto. cbn [bind] in H.
  destruct (shell_weights _ _ _ _) as [W|]; [now exists W|discriminate].
Qed.

Lemma far_proper : proper_shells 98 102 2 (-2) 2 2 (- / 4) (/ 4) 1 case3_shells 1 1 1 case3_draws.
Proof. destruct case3_proper as (_ & A). split; [lra|exact A]. Qed.

Lemma far_hits : sampled_voxels (voxel_grid 98 102 2 (-2) 2 2 (- / 4) (/ 4) 1) case3_shells 1 1 case3_draws (fun _ _ => []).
Proof.
  intros i j Hi Hj. set (V := voxel_grid 98 102 2 (-2) 2 2 (- / 4) (/ 4) 1). assert (G : good_voxels V) by (apply grid_good3; lra || lia).
  assert (H : hits3 V (sample_points case3_shells case3_draws i j) (hits_of3 V (sample_points case3_shells case3_draws i j))) by (apply hits_of_ok3; auto; cbn; lia).
  assert (E : hits_of3 V (sample_points case3_shells case3_draws i j) = []); [|now rewrite E in H].
  apply (hits3_nil_iff V _ _ G H). intros p Hp Hc. destruct far_proper as (_ & _ & HM & Hn & Hmc & Hd). replace i with 0%nat in * by lia.
  pose proof (C69_samples _ _ _ _ _ 0 j HM Hn Hd Hi Hj) as Q. destruct (case3_draws 0 j) as [[ux uy] ur]. cbv zeta in Q. destruct Q as (L & xp & yp & _ & Q).
  destruct (In_nth _ _ (V3 0 0 0) Hp) as (q & Hq & Eq). destruct (Q q) as (r & theta & phi & x & y & m & Q1 & Q2 & Q3 & _); [lia|]. rewrite Eq in Q2.
  destruct case3_edges as [E0 E1]. change (0 + 1)%nat with 1%nat in Q3. rewrite E0, E1 in Q3.
  destruct Hc as [Hx _]. cbn [V voxel_grid bx0] in Hx.
  assert (vx p <= 1); [|lra]. unfold dist3 in Q2. change (center_of case3_shells) with (V3 0 (-1) 0) in Q2. cbn [vx vy vz] in Q2.
  apply Rsqr_incr_0_var; [|lra]. rewrite <- (sqrt_sqrt (Rsqr (vx p))) by apply Rle_0_sqr. unfold Rsqr at 3. 
  assert (sqrt (vx p)² <= 1); [|pose proof (sqrt_pos (vx p)²); nra].
  apply Rle_trans with r; [|lra]. rewrite <- Q2. apply sqrt_le_1_alt. unfold Rsqr. pose proof (pow2_ge_0 (vy p - -1)). pose proof (pow2_ge_0 (vz p - 0)). lra.
Qed.

(** User expectation: after a new [setup_cube] the object maps the new cube.
    Violated: a cube moved far away from the shell still gives the values of the
    old place; after a new [get_weights] no pixel has data. *)
Theorem C78_stale_refuted : forall e, exists f out out', let h := [old_cube; one_shell; CWeights case3_draws 1] in
  snd (step e (run e fresh h) (CRemap f None)) = Ok (VMap out) /\ nth 4 (nth 0 out []) None = Some 1 /\
  snd (step e (run e fresh h) far_cube) = Ok VNone /\
  snd (step e (run e fresh (h ++ [far_cube])) (CRemap f None)) = Ok (VMap out) /\
  snd (step e (run e fresh (h ++ [far_cube; CWeights case3_draws 1])) (CRemap f None)) = Ok (VMap out') /\
  forall j, (j < 12)%nat -> nth j (nth 0 out' []) None = Some no_data.
Proof.
  intros e. destruct C69_case as (_ & _ & _ & out & E & E4 & _).
  set (C := the_cube case3_cube). set (f := tabulate (fun x _ _ => x) (cu_x3d C) (cu_y3d C) (cu_z3d C)).
  assert (E' : user_mc_shells (-2) 2 2 (-2) 2 2 (- / 4) (/ 4) 1 case3_shells 1 case3_draws (fun _ => f) None = Ok out).
  { rewrite <- E. unfold user_mc_shells. rewrite setup_cube_ok by lia. cbn [bind]. unfold f, C, case3_cube. reflexivity. }
  destruct (C69_empty _ _ _ _ _ _ _ _ _ _ _ _ _ _ f None _ far_proper far_hits (fun _ _ _ _ => eq_refl)) as (out' & F & F0).
  destruct (user_weights (-2) 2 2 (-2) 2 2 (- / 4) (/ 4) 1 case3_shells 1 case3_draws f None out) as (W & HW); [lia|lia|lia|exact E'|].
  destruct (user_weights 98 102 2 (-2) 2 2 (- / 4) (/ 4) 1 case3_shells 1 case3_draws f None out') as (W' & HW'); [lia|lia|lia|exact F|].
  exists f, out, out'. intros h.
  assert (R : snd (step e (run e fresh h) (CRemap f None)) = Ok (VMap out)).
  { pose proof (C78_ready e [] [] (-2) 2 2 (-2) 2 2 (- / 4) (/ 4) 1 one_shell case3_shells W case3_draws 1 f None one_shell_made ltac:(lia) ltac:(lia) ltac:(lia) HW
      ltac:(intros c []) _ (or_introl eq_refl)) as Q. rewrite E' in Q. exact Q. }
  split; [exact R|]. split; [exact E4|]. split.
  - apply (C78_args e (run e fresh h)); [cbn; lia|lia].
  - split; [rewrite run_app; exact (eq_trans (C78_new_cube e (run e fresh h) 98 102 2 (-2) 2 2 (- / 4) (/ 4) 1 f None) R)|]. split; [|intros j Hj; apply F0; [lia|exact Hj]].
    assert (FC : cube_in_force (h ++ [far_cube]) (the_cube (voxel_grid 98 102 2 (-2) 2 2 (- / 4) (/ 4) 1))).
    { exists h, far_cube, []. split; [reflexivity|]. split; [apply (setup_cube_ok 98 102 2 (-2) 2 2 (- / 4) (/ 4) 1); lia|]. split; [intros []|intros c []]. }
    assert (FP : shells_in_force (h ++ [far_cube]) case3_shells).
    { exists [old_cube], one_shell, [CWeights case3_draws 1; far_cube]. split; [reflexivity|]. split; [exact one_shell_made|].
      split; [intros [Q|[Q|[]]]; discriminate|]. intros c [<- |[<- |[]]] []. }
    assert (FP' : shells_in_force (h ++ [far_cube; CWeights case3_draws 1]) case3_shells).
    { exists [old_cube], one_shell, [CWeights case3_draws 1; far_cube; CWeights case3_draws 1]. split; [reflexivity|]. split; [exact one_shell_made|].
      split; [intros [Q|[Q|[Q|[]]]]; discriminate|]. intros c [<- |[<- |[<- |[]]]] []. }
    rewrite (C78_remap e _ case3_shells W' f None FP').
    + cbn [snd]. unfold user_mc_shells in F. rewrite setup_cube_ok in F by lia. cbn [bind] in F. rewrite HW' in F. cbn [bind] in F. now rewrite F.
    + exists (h ++ [far_cube]), case3_draws, 1%Z, [], (the_cube (voxel_grid 98 102 2 (-2) 2 2 (- / 4) (/ 4) 1)), case3_shells.
      split; [now rewrite <- app_assoc|]. split; [exact FC|]. split; [exact FP|]. split; [exact HW'|]. split; [intros []|]. intros [|] ? ? Q; discriminate.
Qed.
Print Assumptions C78_stale_refuted.

(** The hypotheses of the theorems above are met. *)
Example C78_example : forall e, exists W, let h := [old_cube; one_shell; CWeights case3_draws 1; CLin 1 0 2 1 [0; 0; 0]; CWeights case3_draws (-1)] in
  cube_in_force h (the_cube case3_cube) /\ shells_in_force h case3_shells /\ (1 <= ms_nside case3_shells)%Z /\ weights_in_force e h W.
Proof.
  intros e. destruct C69_case as (_ & _ & _ & out & E & _).
  assert (H : exists W, shell_weights (the_cube case3_cube) case3_shells case3_draws 1 = Ok W).
  { unfold user_mc_shells in E. rewrite setup_cube_ok in E by lia. cbn [bind] in E. unfold case3_cube. destruct (shell_weights _ _ _ _) as [W|]; [now exists W|discriminate]. }
  destruct H as [W HW]. exists W. intros h.
  assert (N : ~ shells_call (CLin 1 0 2 1 [0; 0; 0])) by (intros (Q & _); lra).
  assert (MC : makes_cube old_cube (the_cube case3_cube)) by (apply (setup_cube_ok (-2) 2 2 (-2) 2 2 (- / 4) (/ 4) 1); lia).
  assert (FC : cube_in_force [old_cube; one_shell] (the_cube case3_cube)).
  { exists [], old_cube, [one_shell]. split; [reflexivity|]. split; [exact MC|]. split; [intros [Q|[]]; discriminate|intros c [<- |[]] []]. }
  assert (FP : shells_in_force [old_cube; one_shell] case3_shells).
  { exists [old_cube], one_shell, []. split; [reflexivity|]. split; [exact one_shell_made|]. split; [intros []|intros c []]. }
  split; [|split; [|split; [cbn; lia|]]].
  - exists [], old_cube, (tl h). split; [reflexivity|]. split; [exact MC|]. split; [intros [Q|[Q|[Q|[Q|[]]]]]; discriminate|].
    intros c [<- |[<- |[<- |[<- |[]]]]] [].
  - exists [old_cube], one_shell, (tl (tl h)). split; [reflexivity|]. split; [exact one_shell_made|]. split; [intros [Q|[Q|[Q|[]]]]; discriminate|].
    intros c [<- |[<- |[<- |[]]]]; [intros []|exact N|intros []].
  - exists [old_cube; one_shell], case3_draws, 1%Z, [CLin 1 0 2 1 [0; 0; 0]; CWeights case3_draws (-1)], (the_cube case3_cube), case3_shells.
    split; [reflexivity|]. split; [exact FC|]. split; [exact FP|]. split; [exact HW|]. split; [intros [Q|[Q|[]]]; discriminate|].
    intros h3 c h4 Q Wc. destruct h3 as [|c1 [|c2 [|]]]; cbn [app] in Q; inversion Q; subst; [destruct Wc|].
    + cbn [app]. set (hh := [old_cube; one_shell; CWeights case3_draws 1; CLin 1 0 2 1 [0; 0; 0]]).
      assert (FC' : cube_in_force hh (the_cube case3_cube)).
      { exists [], old_cube, (tl hh). split; [reflexivity|]. split; [exact MC|]. split; [intros [U|[U|[U|[]]]]; discriminate|intros c [<- |[<- |[<- |[]]]] []]. }
      assert (FP' : shells_in_force hh case3_shells).
      { exists [old_cube], one_shell, (tl (tl hh)). split; [reflexivity|]. split; [exact one_shell_made|]. split; [intros [U|[U|[]]]; discriminate|].
        intros c [<- |[<- |[]]]; [intros []|exact N]. }
      rewrite (C78_weights e hh _ _ case3_draws (-1) FC' FP'). 
      assert (X : exists x, shell_weights (the_cube case3_cube) case3_shells case3_draws (-1) = Err x).
      { exists ValueError. apply (first_pixel _ case3_shells 1 1 case3_draws (-1) ValueError case3_made); [lia|]. unfold pixel_weights, case3_draws.
        rewrite !(py_get_ok _ (ms_redges case3_shells) _ 0) by (cbn; lia). reflexivity. }
      destruct X as [x ->]. now exists x.
Qed.
