(** * Theorems: stored edges and exceptions of the [densegrid.Box2Ring] object (C75) *)

From Coq Require Import Reals ZArith List Bool Lia Lra.
From Flocq Require Import Core.Raux.
From Verif Require PGrids.
From Verif Require Import Base BaseP SpecGrid SpecDense MGrids MDense MLife PPolarCoords PHealpixBoundary PDense PMonte PHeal TDense TSetups TLife.
Import ListNotations.
Open Scope R_scope.

(** ** Specification *)

(** [n + 1] equally spaced edges from [a] to [b]. *)
Definition equal_edges (a b : R) (n : Z) (l : list R) : Prop :=
  length l = Z.to_nat (n + 1) /\ forall i, (i < length l)%nat -> nth i l 0 = a + INR i * ((b - a) / IZR n).

(** A [setup_polar] with sensible arguments, which may still raise, leaves these
    edges on the object. *)
Definition leaves_edges (c : call) (ed : list R * list R) : Prop :=
  match c with
  | CSetupPolar rmin rmax numr nump pmin pmax center _ _ _ =>
      sensible_rings rmin rmax numr nump pmin pmax center /\ equal_edges rmin rmax numr (fst ed) /\ equal_edges pmin pmax nump (snd ed)
  | _ => False
  end.

(** The last such call since the last [clean]. *)
Definition edges_in_force (h : list call) (ed : list R * list R) : Prop :=
  exists h1 c h2, h = h1 ++ c :: h2 /\ leaves_edges c ed /\ ~ In CClean h2 /\ forall c' ed', In c' h2 -> ~ leaves_edges c' ed'.

Definition no_box (h : list call) : Prop := forall B, ~ box_in_force h B.
Definition no_rings (h : list call) : Prop := forall P, ~ rings_in_force h P.
Definition no_edges (h : list call) : Prop := forall ed, ~ edges_in_force h ed.

(** ** Lemmas *)

Lemma equal_linspace : forall a b n, (1 <= n)%Z -> equal_edges a b n (linspace a b (Z.to_nat (n + 1))).
Proof.
  intros a b n Hn. split; [apply length_linspace|]. intros i Hi. rewrite length_linspace in Hi.
  rewrite nth_linspace by lia. replace (Z.to_nat (n + 1) - 1)%nat with (Z.to_nat n) by lia.
  rewrite INR_IZR_INZ with (n := Z.to_nat n), Z2Nat.id by lia. field. apply IZR_neq. lia.
Qed.

Lemma equal_unique : forall a b n l l', equal_edges a b n l -> equal_edges a b n l' -> l = l'.
Proof.
  intros a b n l l' [L V] [L' V']. apply (nth_ext _ _ 0 0); [congruence|]. intros i Hi. rewrite V, V' by congruence. reflexivity.
Qed.

Lemma made_edges : forall rmin rmax numr nump pmin pmax center rr rp sh P,
  setup_polar rmin rmax numr nump pmin pmax center (Z.of_nat rr) (Z.of_nat rp) sh = Ok P ->
  redges P = linspace rmin rmax (Z.to_nat (numr + 1)) /\ pedges P = linspace pmin pmax (Z.to_nat (nump + 1)).
Proof.
  intros rmin rmax numr nump pmin pmax center rr rp sh P E. unfold setup_polar, py_assert in E.
  repeat match type of E with (if ?b then _ else _) = _ => destruct b eqn:?; [|discriminate] end.
  repeat match goal with H : (_ <? _)%Z = true |- _ => apply Z.ltb_lt in H end.
  rewrite !linspaceZ_ok in E by lia. cbn [bind] in E.

  repeat (cbv zeta in E; match type of E with
          | bind _ _ = _ => let x := fresh "x" in let Ex := fresh "Ex" in apply bind_inv in E; destruct E as (x & Ex & E)
          | (let '(_, _) := ?m in _) = _ => destruct m
          end). apply Ok_inj in E. subst P. split; reflexivity.
Qed.

Lemma setup_cases : forall rmin rmax numr nump pmin pmax center rr rp sh,
  let out := setup_polar rmin rmax numr nump pmin pmax center (Z.of_nat rr) (Z.of_nat rp) sh in
  (~ sensible_rings rmin rmax numr nump pmin pmax center /\ out = Err AssertionError) \/
  (sensible_rings rmin rmax numr nump pmin pmax center /\ (out = Err IndexError \/ exists P, out = Ok P)).
Proof.
  intros. destruct (C58_args rmin rmax numr nump pmin pmax center (Z.of_nat rr) (Z.of_nat rp) sh) as (A1 & A2 & A3); try lia.
  fold out in A1, A2, A3. destruct (Classical_Prop.classic (sensible_rings rmin rmax numr nump pmin pmax center)) as [Y|N]; [|auto].
  right. split; [exact Y|]. destruct (Z.eq_dec numr 1) as [H|H]; [left; apply A2; auto|].
  destruct (Z.eq_dec nump 1) as [H'|H']; [left; apply A2; auto|]. right. apply A3; [exact Y|]. destruct Y as (_ & ? & _ & _ & ? & _). lia.
Qed.

Lemma polar_edges : forall s rmin rmax numr nump pmin pmax center rr rp sh,
  let s' := fst (setup_polar_step s rmin rmax numr nump pmin pmax center rr rp sh) in
  (sensible_rings rmin rmax numr nump pmin pmax center ->
   o_edges s' = Some (linspace rmin rmax (Z.to_nat (numr + 1)), linspace pmin pmax (Z.to_nat (nump + 1)))) /\
  (~ sensible_rings rmin rmax numr nump pmin pmax center -> s' = s).
Proof.
  intros. unfold setup_polar_step in s'. destruct (setup_cases rmin rmax numr nump pmin pmax center rr rp sh) as [[N E]|[Y [E|[P E]]]]; cbn zeta in E.
  - unfold s'. rewrite E. split; [contradiction|reflexivity].
  - unfold s'. rewrite E. split; [reflexivity|contradiction].
  - unfold s'. rewrite E. destruct (made_edges _ _ _ _ _ _ _ _ _ _ _ E) as [-> ->]. split; [reflexivity|contradiction].
Qed.

Lemma step_edges : forall z s c ed, o_edges (fst (step z s c)) = Some ed <->
  leaves_edges c ed \/ (c <> CClean /\ (forall ed', ~ leaves_edges c ed') /\ o_edges s = Some ed).
Proof.
  intros z s c ed.
  assert (K : forall x, c <> CClean -> (forall ed', ~ leaves_edges c ed') -> x = o_edges s ->
    (x = Some ed <-> leaves_edges c ed \/ (c <> CClean /\ (forall ed', ~ leaves_edges c ed') /\ o_edges s = Some ed))).
  { intros x N M ->. split; [intros H; right; auto|intros [H|(_ & _ & H)]; [now elim (M ed)|exact H]]. }
  destruct c; try (apply K; [discriminate|intros ? H; exact H|]); cbn [step].
  - unfold setup_box_step. destruct (setup_box _ _ _ _ _ _); reflexivity.
  - destruct (polar_edges s rmin rmax numr nump pmin pmax center rebin_r rebin_p phi_shift) as [A B]. cbn zeta in A, B.
    destruct (Classical_Prop.classic (sensible_rings rmin rmax numr nump pmin pmax center)) as [Y|N].
    + rewrite (A Y). destruct Y as (Y1 & Y2 & Y3 & Y4 & Y5 & Y6).
      pose proof (equal_linspace rmin rmax numr Y2) as E1. pose proof (equal_linspace pmin pmax nump Y5) as E2. split.
      * intros [= <-]. left. cbn. unfold sensible_rings. auto 10.
      * intros [(_ & H1 & H2)|(_ & H & _)].
        -- destruct ed as [re pe]. cbn [fst snd] in H1, H2. now rewrite (equal_unique _ _ _ _ _ E1 H1), (equal_unique _ _ _ _ _ E2 H2).
        -- exfalso. eapply (H (_, _)). cbn. split; [unfold sensible_rings; auto 10|]. split; [exact E1|exact E2].
    + rewrite (B N). apply K; [discriminate| |reflexivity]. intros ed' (Y & _). contradiction.
  - reflexivity.
  - destruct (mask_of s); reflexivity.
  - reflexivity.
  - apply radial_frame.
  - cbn [fst fresh o_edges]. split; [discriminate|intros [[]|(N & _)]; now elim N].
Qed.

Lemma run_edges : forall z h ed, o_edges (run z fresh h) = Some ed <-> edges_in_force h ed.
Proof. intros z h ed. apply (last_made _ leaves_edges z o_edges eq_refl (step_edges z)). Qed.

Lemma none_box : forall z h, no_box h -> o_box (run z fresh h) = None.
Proof. intros z h H. destruct (o_box _) as [B|] eqn:E; [|reflexivity]. apply run_box in E. now elim (H B). Qed.
Lemma none_polar : forall z h, no_rings h -> o_polar (run z fresh h) = None.
Proof. intros z h H. destruct (o_polar _) as [B|] eqn:E; [|reflexivity]. apply run_polar in E. now elim (H B). Qed.
Lemma none_edges : forall z h, no_edges h -> o_edges (run z fresh h) = None.
Proof. intros z h H. destruct (o_edges _) as [B|] eqn:E; [|reflexivity]. apply run_edges in E. now elim (H B). Qed.

(** A box that was made has a pixel area; edges that were left have cell areas. *)
Lemma made_pixarea : forall c B, makes_box c B -> exists a, get_pixarea (xedges B) (yedges B) = Ok a.
Proof.
  intros c B H. destruct c; cbn [makes_box] in H; try contradiction. unfold setup_box, py_assert in H.
  destruct (Z.ltb_spec 0 numx); [|discriminate]. destruct (Z.ltb_spec 0 numy); [|discriminate].
  rewrite !linspaceZ_ok in H by lia. cbn [bind] in H.
  repeat (cbv zeta in H; match type of H with
          | bind _ _ = _ => let x := fresh "x" in let Ex := fresh "Ex" in apply bind_inv in H; destruct H as (x & Ex & H)
          | (let '(_, _) := ?m in _) = _ => destruct m
          end). apply Ok_inj in H. subst B. cbn [xedges yedges]. unfold get_pixarea.
  rewrite !(py_get_ok _ (linspace _ _ _) _ 0) by (rewrite length_linspace; lia). cbn [bind]. eauto.
Qed.
Lemma made_area : forall c ed, leaves_edges c ed -> exists a, get_polar_area2d (fst ed) (snd ed) = Ok a.
Proof.
  intros c [re pe] H. destruct c; cbn [leaves_edges] in H; try contradiction. destruct H as ((_ & _ & _ & _ & N & _) & _ & [L _]). cbn [fst snd] in *.
  destruct (PGrids.area2d_spec re pe) as (a & E & _); [lia|]. eauto.
Qed.

Lemma cached_from : forall z h,
  (area2d (o_cache (run z fresh h)) <> None -> exists ed, o_edges (run z fresh h) = Some ed) /\
  (pixarea (o_cache (run z fresh h)) <> None -> exists B, o_box (run z fresh h) = Some B).
Proof.
  intros z h. induction h as [|c h [IA IP]] using rev_ind; [split; intros H; now elim H|]. rewrite run_snoc. set (s := run z fresh h) in *. clearbody s.
  destruct c; cbn [step].
  - unfold setup_box_step. destruct (setup_box _ _ _ _ _ _); cbn [fst o_cache o_edges o_box]; eauto.
  - pose proof (step_edges z s (CSetupPolar rmin rmax numr nump pmin pmax center rebin_r rebin_p phi_shift)) as SE. cbn [step] in SE.
    assert (EB : o_box (fst (setup_polar_step s rmin rmax numr nump pmin pmax center rebin_r rebin_p phi_shift)) = o_box s /\
                 o_cache (fst (setup_polar_step s rmin rmax numr nump pmin pmax center rebin_r rebin_p phi_shift)) = o_cache s)
      by (unfold setup_polar_step; destruct (setup_polar _ _ _ _ _ _ _ _ _ _) as [|[]]; split; reflexivity).
    destruct EB as [-> ->]. split; [|exact IP]. intros H. destruct (IA H) as [ed E].
    destruct (Classical_Prop.classic (exists ed', leaves_edges (CSetupPolar rmin rmax numr nump pmin pmax center rebin_r rebin_p phi_shift) ed')) as [[ed' Y]|N].
    + exists ed'. apply SE. now left.
    + exists ed. apply SE. right. split; [discriminate|]. split; [|exact E]. intros ed' Y. apply N. eauto.
  - cbn [fst]. auto.
  - destruct (mask_of s); cbn [fst set_mask o_cache o_edges o_box area2d pixarea]; auto.
  - cbn [fst]. auto.
  - destruct (radial_frame z s f_polar sigma w) as (-> & _ & ->). destruct (radial_cache z s f_polar sigma w) as (_ & R2 & R3). cbv zeta in R2, R3. split.
    + intros H. destruct (area2d (o_cache (fst (radial_step z s f_polar sigma w)))) as [a|]; [|now elim H].
      destruct (R3 a eq_refl) as [E|(re & pe & E & _)]; [|eauto]. apply IA. now rewrite E.
    + intros H. destruct (pixarea (o_cache (fst (radial_step z s f_polar sigma w)))) as [a|]; [|now elim H].
      destruct (R2 a eq_refl) as [E|(B & E & _)]; [|eauto]. apply IP. now rewrite E.
  - cbn [fst fresh o_cache no_cache area2d pixarea]. split; intros H; now elim H.
Qed.

Lemma area_ok : forall z h ed, edges_in_force h ed -> exists a, area_of (run z fresh h) = Ok a.
Proof.
  intros z h ed H. unfold area_of. destruct (area2d _) as [a|]; [eauto|]. rewrite (proj2 (run_edges z h ed) H).
  destruct H as (h1 & c & h2 & _ & M & _). destruct (made_area c ed M) as [a E]. destruct ed. eauto.
Qed.
Lemma pixarea_ok : forall z h B ar, box_in_force h B -> exists a, pixarea_of (set_area (run z fresh h) ar) = Ok a.
Proof.
  intros z h B ar H. unfold pixarea_of. cbn [set_area o_cache pixarea o_box]. destruct (pixarea _) as [a|]; [eauto|]. rewrite (proj2 (run_box z h B) H).
  destruct H as (h1 & c & h2 & _ & M & _). exact (made_pixarea c B M).
Qed.

(** ** C75 *)

(** The edges on the object are those of the last [setup_polar] with sensible
    arguments since the last [clean], whether it raised or not. *)
Theorem C75_edges : forall z h re pe, o_edges (run z fresh h) = Some (re, pe) <-> edges_in_force h (re, pe).
Proof. intros. apply run_edges. Qed.
Print Assumptions C75_edges.

(** Arguments that are not sensible are refused on every object, without a trace. *)
Theorem C75_rings_refused : forall z s rmin rmax numr nump pmin pmax center rr rp sh, ~ sensible_rings rmin rmax numr nump pmin pmax center ->
  step z s (CSetupPolar rmin rmax numr nump pmin pmax center rr rp sh) = (s, Err AssertionError).
Proof.
  intros. cbn [step]. unfold setup_polar_step.
  now rewrite (proj1 (C58_args rmin rmax numr nump pmin pmax center (Z.of_nat rr) (Z.of_nat rp) sh (Nat2Z.is_nonneg _) (Nat2Z.is_nonneg _))).
Qed.
Print Assumptions C75_rings_refused.

(** Without a box or rings in force, each method raises, and which exception
    depends on what is missing.  Only [polar2radial] leaves anything behind: the
    areas it calculated. *)
Theorem C75_missing : forall z h,
  (no_box h \/ no_rings h -> step z (run z fresh h) CMask = (run z fresh h, Err AssertionError)) /\
  (no_rings h -> forall f sh, step z (run z fresh h) (CRotate f sh) = (run z fresh h, Err AssertionError)) /\
  (forall f sg w, no_edges h -> step z (run z fresh h) (CRadial f sg w) = (run z fresh h, Err TypeError)) /\
  (forall f sg w, no_box h -> snd (step z (run z fresh h) (CRadial f sg w)) = Err TypeError) /\
  (forall f sg w B ed, box_in_force h B -> edges_in_force h ed -> no_rings h ->
     snd (step z (run z fresh h) (CRadial f sg w)) = Err AssertionError) /\
  (forall f sg w B ed P, box_in_force h B -> edges_in_force h ed -> rings_in_force h P -> same_shape f (p2d P) = false ->
     snd (step z (run z fresh h) (CRadial f sg w)) = Err AssertionError).
Proof.
  intros z h. destruct (cached_from z h) as [CA CP]. split; [|split; [|split; [|split; [|split]]]].
  - intros H. cbn [step]. unfold mask_of. destruct H as [H|H]; [rewrite (none_box z h H)|rewrite (none_polar z h H)]; [reflexivity|].
    destruct (o_box _); reflexivity.
  - intros H f sh. cbn [step]. now rewrite (none_polar z h H).
  - intros f sg w H. cbn [step]. unfold radial_step, area_of. pose proof (none_edges z h H) as E. rewrite E.
    destruct (area2d _) as [a|]; [|reflexivity]. destruct CA as [ed E']; [discriminate|]. congruence.
  - intros f sg w H. cbn [step]. unfold radial_step. pose proof (none_box z h H) as E.
    destruct (Classical_Prop.classic (exists ed, edges_in_force h ed)) as [[ed Y]|N].
    + destruct (area_ok z h ed Y) as [a ->]. unfold pixarea_of. cbn [set_area o_cache o_box pixarea]. rewrite E.
      destruct (pixarea _) as [p|]; [|reflexivity]. destruct CP as [B E']; [discriminate|]. congruence.
    + unfold area_of. rewrite (none_edges z h) by (intros ed Y; apply N; eauto).
      destruct (area2d _) as [a|]; [|reflexivity]. destruct CA as [ed E']; [discriminate|]. apply run_edges in E'. elim N; eauto.
  - intros f sg w B ed HB HE HR. cbn [step]. unfold radial_step. destruct (area_ok z h ed HE) as [a ->]. destruct (pixarea_ok z h B a HB) as [p ->].
    cbn [set_area set_pixarea o_polar]. rewrite (none_polar z h HR). reflexivity.
  - intros f sg w B ed P HB HE HR HS. cbn [step]. unfold radial_step. destruct (area_ok z h ed HE) as [a ->]. destruct (pixarea_ok z h B a HB) as [p ->].
    cbn [set_area set_pixarea o_polar]. rewrite (proj2 (run_polar z h P) HR), HS. reflexivity.
Qed.
Print Assumptions C75_missing.

(** A history with a box, edges and no rings: one ring only was asked for. *)
Example C75_missing_example : let c := CSetupPolar 0 1 1 4 0 (2 * PI) [0; 0] 2 2 0 in
  let h := [CSetupBox 0 1 2 0 1 2; CMask; c] in
  (exists B, box_in_force h B) /\ (exists ed, edges_in_force h ed) /\ no_rings h /\
  snd (step (Ok VNone) (run (Ok VNone) fresh h) (CRadial [[0]] None None)) = Err AssertionError.
Proof.
  intros c h. pose proof PI_RGT_0. set (z := Ok VNone : res value).
  assert (S : sensible_rings 0 1 1 4 0 (2 * PI) [0; 0]) by (unfold sensible_rings; cbn; repeat split; try lra; lia).
  assert (HB : exists B, box_in_force h B).
  { pose proof (proj1 (C75_box_args z fresh 0 1 2 0 1 2)) as Q. cbn [step] in Q. unfold setup_box_step in Q.
    destruct (setup_box 0 1 2 0 1 2) as [B|] eqn:E; [|discriminate Q; lia]. exists B, [], (CSetupBox 0 1 2 0 1 2), [CMask; c].
    split; [reflexivity|]. split; [exact E|]. split; [intros [I|[I|[]]]; discriminate|]. intros c' B' [<- |[<- |[]]] []. }
  assert (HE : exists ed, edges_in_force h ed).
  { exists (linspace 0 1 (Z.to_nat (1 + 1)), linspace 0 (2 * PI) (Z.to_nat (4 + 1))), [CSetupBox 0 1 2 0 1 2; CMask], c, [].
    split; [reflexivity|]. split; [|split; [intros []|intros ? ? []]]. split; [exact S|]. split; apply equal_linspace; lia. }
  assert (HR : no_rings h).
  { intros P HP. apply (run_polar z) in HP. unfold h in HP. cbn [run] in HP. apply (step_polar z) in HP.
    destruct HP as [M|(_ & _ & HP)].
    - cbn [c makes_rings] in M. rewrite (proj1 (proj2 (C58_args 0 1 1 4 0 (2 * PI) [0; 0] (Z.of_nat 2) (Z.of_nat 2) 0 ltac:(lia) ltac:(lia))) S) in M; [discriminate|now left].
    - apply (step_polar z) in HP. destruct HP as [[]|(_ & _ & HP)]. apply (step_polar z) in HP. destruct HP as [[]|(_ & _ & HP)]. discriminate. }
  split; [exact HB|]. split; [exact HE|]. split; [exact HR|]. destruct HB as [B HB], HE as [ed HE].
  destruct (C75_missing z h) as (_ & _ & _ & _ & T & _). exact (T _ _ _ B ed HB HE HR).
Qed.
Print Assumptions C75_missing_example.
