(** * Theorems: stored edges and exceptions of the [montecarlo.Box2Ring] object (C76) *)

From Coq Require Import Reals ZArith List Bool Lia Lra.
From Flocq Require Import Core.Raux.
From Verif Require PGrids TLife TLifeErrors.
From Verif Require Import Base BaseP SpecGrid SpecMonte MGrids MDense MMonte MMonteRadial MLifeMonte PPolarCoords PHealpixBoundary PDense PMonte PHeal TSetups TLifeMonte.
Import ListNotations.
Open Scope R_scope.

(** ** Specification *)

Notation equal_edges := TLifeErrors.equal_edges.

(** [n + 1] radii: [n] logarithmic bins from [a] to [b], or a central disc of
    radius [a] and [n - 1] logarithmic bins. *)
Definition log_radii (a b : R) (n : Z) (addzero : bool) (l : list R) : Prop :=
  length l = Z.to_nat (n + 1) /\
  if addzero then nth 0 l 0 = 0 /\ nth 1 l 0 = a /\ (forall i, (1 <= i < Z.to_nat n)%nat -> nth (S i) l 0 = geometric a b (Z.to_nat n - 1) i)
  else forall i, (i < length l)%nat -> nth i l 0 = geometric a b (Z.to_nat n) i.

(** A set-up of rings with sensible arguments, which may still raise, leaves these
    edges on the object. *)
Definition leaves_edges (c : call) (ed : list R * list R) : Prop :=
  match c with
  | CSetupLin rmin rmax numr nump pmin pmax center _ =>
      sensible_rings rmin rmax numr nump pmin pmax center /\ equal_edges rmin rmax numr (fst ed) /\ equal_edges pmin pmax nump (snd ed)
  | CSetupLog rmin rmax numr nump pmin pmax center _ addzero =>
      (0 < rmin /\ sensible_rings rmin rmax numr nump pmin pmax center) /\
      log_radii rmin rmax numr addzero (fst ed) /\ equal_edges pmin pmax nump (snd ed)
  | _ => False
  end.

Definition edges_in_force : list call -> list R * list R -> Prop := in_force leaves_edges.
Definition no_box (h : list call) : Prop := forall B, ~ box_in_force h B.
Definition no_rings (h : list call) : Prop := forall P, ~ rings_in_force h P.
Definition no_edges (h : list call) : Prop := forall ed, ~ edges_in_force h ed.

(** ** Lemmas *)

Lemma log_radii_ok : forall a b n z, 0 < a < b -> (1 <= n)%Z -> log_radii a b n z (log_edges a b (Z.to_nat n) z).
Proof.
  intros a b n z H Hn. unfold log_radii. rewrite log_edges_length by lia. split; [lia|]. unfold log_edges. destruct z.
  - split; [reflexivity|]. destruct (Z.to_nat n) as [|[|k]] eqn:EK; [lia| |].
    + split; [reflexivity|]. intros i Hi. lia.
    + split.
      * cbn [nth]. rewrite tab_nth by lia. unfold geometric. cbn [INR]. unfold Rdiv at 2. rewrite Rmult_0_l, Rpower_O; [ring|]. apply Rdiv_lt_0_compat; lra.
      * intros i Hi. cbn [nth]. rewrite tab_nth by lia. reflexivity.
  - intros i Hi. rewrite tab_nth by lia. reflexivity.
Qed.

Lemma log_radii_unique : forall a b n z l l', (1 <= n)%Z -> log_radii a b n z l -> log_radii a b n z l' -> l = l'.
Proof.
  intros a b n z l l' Hn [L V] [L' V']. apply (nth_ext _ _ 0 0); [congruence|]. intros i Hi. destruct z.
  - destruct V as (V0 & V1 & V), V' as (V0' & V1' & V'). destruct i as [|[|i]]; [congruence|congruence|]. rewrite V, V' by lia. reflexivity.
  - rewrite V, V' by congruence. reflexivity.
Qed.

Lemma log_stored_ok : forall rmin rmax numr nump pmin pmax z, 0 < rmin < rmax -> (1 <= numr)%Z -> (1 <= nump)%Z ->
  log_stored rmin rmax numr nump pmin pmax z = Ok (log_edges rmin rmax (Z.to_nat numr) z, linspace pmin pmax (Z.to_nat (nump + 1))).
Proof.
  intros rmin rmax numr nump pmin pmax z H Hr Hp. unfold log_stored. pose proof (log_redges_ok rmin rmax (Z.to_nat numr) z H ltac:(lia)) as E.
  rewrite Z2Nat.id in E by lia. rewrite E. cbn [bind]. rewrite linspaceZ_ok by lia. reflexivity.
Qed.

Lemma lin_made : forall rmin rmax numr nump pmin pmax center sh P, setup_polar_lin rmin rmax numr nump pmin pmax center sh = Ok P ->
  mc_redges P = linspace rmin rmax (Z.to_nat (numr + 1)) /\ mc_pedges P = linspace pmin pmax (Z.to_nat (nump + 1)).
Proof.
  intros rmin rmax numr nump pmin pmax center sh P E. unfold setup_polar_lin, py_assert in E.
  repeat match type of E with (if ?b then _ else _) = _ => destruct b eqn:?; [|discriminate] end.
  repeat match goal with H : (_ <? _)%Z = true |- _ => apply Z.ltb_lt in H end.
  rewrite !linspaceZ_ok in E by lia. cbn [bind] in E.
  repeat (cbv zeta in E; match type of E with
          | bind _ _ = _ => let x := fresh "x" in let Ex := fresh "Ex" in apply bind_inv in E; destruct E as (x & Ex & E)
          | (let '(_, _) := ?m in _) = _ => destruct m
          end). apply Ok_inj in E. subst P. split; reflexivity.
Qed.

Lemma log_made : forall rmin rmax numr nump pmin pmax center sh z P, setup_polar_log rmin rmax numr nump pmin pmax center sh z = Ok P ->
  log_stored rmin rmax numr nump pmin pmax z = Ok (mc_redges P, mc_pedges P).
Proof.
  intros rmin rmax numr nump pmin pmax center sh z P E. unfold setup_polar_log, py_assert in E. unfold log_stored.
  repeat match type of E with (if ?b then _ else _) = _ => destruct b; [|discriminate] end.
  apply bind_inv in E. destruct E as (re & -> & E). apply bind_inv in E. destruct E as (pe & -> & E). cbn [bind].
  repeat (cbv zeta in E; match type of E with
          | bind _ _ = _ => let x := fresh "x" in let Ex := fresh "Ex" in apply bind_inv in E; destruct E as (x & Ex & E)
          | (let '(_, _) := ?m in _) = _ => destruct m
          end). apply Ok_inj in E. subst P. reflexivity.
Qed.

(** A set-up leaves its edges exactly for sensible arguments. *)
Lemma lin_edges : forall s rmin rmax numr nump pmin pmax center sh,
  let t := polar_step s (setup_polar_lin rmin rmax numr nump pmin pmax center sh) (lin_stored rmin rmax numr nump pmin pmax) in
  (sensible_rings rmin rmax numr nump pmin pmax center ->
   b_edges (fst t) = Some (linspace rmin rmax (Z.to_nat (numr + 1)), linspace pmin pmax (Z.to_nat (nump + 1)))) /\
  (~ sensible_rings rmin rmax numr nump pmin pmax center -> t = (s, Err AssertionError)).
Proof.
  intros. destruct (C63_args rmin rmax numr nump pmin pmax center sh) as (A1 & A2 & A3).
  split; [|intros N; unfold t; now rewrite (A1 N)]. intros Y. destruct (setup_polar_lin rmin rmax numr nump pmin pmax center sh) as [P|e] eqn:E.
  - cbn. now destruct (lin_made _ _ _ _ _ _ _ _ _ E) as [-> ->].
  - assert (e = IndexError) as ->.
    { destruct Y as (Y1 & Y2 & Y3 & Y4 & Y5 & Y6). destruct (Z.eq_dec numr 1) as [H|H]; [injection (A2 ltac:(unfold sensible_rings; auto 10) (or_introl H)); auto|].
      destruct (Z.eq_dec nump 1) as [H'|H']; [injection (A2 ltac:(unfold sensible_rings; auto 10) (or_intror H')); auto|].
      destruct A3 as [P E']; [unfold sensible_rings; auto 10|lia|discriminate]. }
    destruct Y as (_ & Y2 & _ & _ & Y5 & _). cbn. unfold lin_stored. rewrite !linspaceZ_ok by lia. reflexivity.
Qed.

Lemma log_edges_left : forall s rmin rmax numr nump pmin pmax center sh z,
  let t := polar_step s (setup_polar_log rmin rmax numr nump pmin pmax center sh z) (log_stored rmin rmax numr nump pmin pmax z) in
  let ok := 0 < rmin /\ sensible_rings rmin rmax numr nump pmin pmax center in
  (ok -> b_edges (fst t) = Some (log_edges rmin rmax (Z.to_nat numr) z, linspace pmin pmax (Z.to_nat (nump + 1)))) /\
  (~ ok -> t = (s, Err AssertionError)).
Proof.
  intros. destruct (C67_args rmin rmax numr nump pmin pmax center sh z) as (A1 & A2 & A3). fold ok in A1, A2, A3.
  split; [|intros N; unfold t; now rewrite (A1 N)]. intros Y. assert (Y' := Y). destruct Y' as (Y0 & Y1 & Y2 & Y3 & Y4 & Y5 & Y6).
  pose proof (log_stored_ok rmin rmax numr nump pmin pmax z ltac:(lra) Y2 Y5) as ES.
  destruct (setup_polar_log rmin rmax numr nump pmin pmax center sh z) as [P|e] eqn:E.
  - cbn. apply log_made in E. rewrite ES in E. apply Ok_inj in E. now injection E as <- <-.
  - assert (e = IndexError) as ->.
    { destruct (Z.eq_dec nump 1) as [H'|H']; [injection (A2 Y H'); auto|]. destruct A3 as [P E']; [exact Y|lia|discriminate]. }
    unfold t. rewrite ES. reflexivity.
Qed.

Lemma step_edges : forall e z s c ed, b_edges (fst (step e z s c)) = Some ed <->
  leaves_edges c ed \/ (c <> CClean /\ (forall ed', ~ leaves_edges c ed') /\ b_edges s = Some ed).
Proof.
  intros e z s c ed.
  assert (K : forall x, c <> CClean -> (forall ed', ~ leaves_edges c ed') -> x = b_edges s ->
    (x = Some ed <-> leaves_edges c ed \/ (c <> CClean /\ (forall ed', ~ leaves_edges c ed') /\ b_edges s = Some ed))).
  { intros x N M ->. split; [intros H; right; auto|intros [H|(_ & _ & H)]; [now elim (M ed)|exact H]]. }
  destruct c; try (apply K; [discriminate|intros ? H; exact H|]); cbn [step].
  - unfold setup_box_step. destruct (setup_box _ _ _ _ _ _); reflexivity.
  - destruct (lin_edges s rmin rmax numr nump pmin pmax center phi_shift) as [A B]. cbv zeta in A, B.
    destruct (Classical_Prop.classic (sensible_rings rmin rmax numr nump pmin pmax center)) as [Y|N].
    + rewrite (A Y). pose proof Y as (_ & Y2 & _ & _ & Y5 & _).
      pose proof (TLifeErrors.equal_linspace rmin rmax numr Y2) as E1. pose proof (TLifeErrors.equal_linspace pmin pmax nump Y5) as E2. split.
      * intros [= <-]. left. cbn. auto.
      * intros [(_ & H1 & H2)|(_ & H & _)].
        -- destruct ed as [re pe]. cbn [fst snd] in H1, H2. now rewrite (TLifeErrors.equal_unique _ _ _ _ _ E1 H1), (TLifeErrors.equal_unique _ _ _ _ _ E2 H2).
        -- exfalso. eapply (H (_, _)). cbn. split; [exact Y|]. split; [exact E1|exact E2].
    + rewrite (B N). apply K; [discriminate| |reflexivity]. intros ed' (Y & _). contradiction.
  - destruct (log_edges_left s rmin rmax numr nump pmin pmax center phi_shift addzero) as [A B]. cbv zeta in A, B.
    destruct (Classical_Prop.classic (0 < rmin /\ sensible_rings rmin rmax numr nump pmin pmax center)) as [Y|N].
    + rewrite (A Y). pose proof Y as (Y0 & Y1 & Y2 & _ & _ & Y5 & _).
      pose proof (log_radii_ok rmin rmax numr addzero ltac:(lra) Y2) as E1. pose proof (TLifeErrors.equal_linspace pmin pmax nump Y5) as E2. split.
      * intros [= <-]. left. cbn. auto.
      * intros [(_ & H1 & H2)|(_ & H & _)].
        -- destruct ed as [re pe]. cbn [fst snd] in H1, H2. now rewrite (log_radii_unique _ _ _ _ _ _ Y2 E1 H1), (TLifeErrors.equal_unique _ _ _ _ _ E2 H2).
        -- exfalso. eapply (H (_, _)). cbn. split; [exact Y|]. split; [exact E1|exact E2].
    + rewrite (B N). apply K; [discriminate| |reflexivity]. intros ed' (Y & _). contradiction.
  - destruct (weights_of _ _ _ _); reflexivity.
  - reflexivity.
  - destruct (mask_of s); reflexivity.
  - reflexivity.
  - apply radial_frame.
  - cbn [fst fresh b_edges]. split; [discriminate|intros [[]|(N & _)]; now elim N].
Qed.

Lemma run_edges : forall e z h ed, b_edges (run e z fresh h) = Some ed <-> edges_in_force h ed.
Proof. intros e z h ed. apply (last_made _ leaves_edges e z b_edges eq_refl (step_edges e z)). Qed.

Lemma none_box : forall e z h, no_box h -> b_box (run e z fresh h) = None.
Proof. intros e z h H. destruct (b_box _) as [B|] eqn:E; [|reflexivity]. apply run_box in E. now elim (H B). Qed.
Lemma none_polar : forall e z h, no_rings h -> b_polar (run e z fresh h) = None.
Proof. intros e z h H. destruct (b_polar _) as [B|] eqn:E; [|reflexivity]. apply run_polar in E. now elim (H B). Qed.
Lemma none_seen : forall e z h, no_rings h -> seen_polar (run e z fresh h) = None.
Proof. intros e z h H. unfold seen_polar. rewrite (none_polar e z h H). now destruct (b_edges _) as [[? ?]|]. Qed.
Lemma none_edges : forall e z h, no_edges h -> b_edges (run e z fresh h) = None.
Proof. intros e z h H. destruct (b_edges _) as [B|] eqn:E; [|reflexivity]. apply run_edges in E. now elim (H B). Qed.

Lemma made_pixarea : forall c B, makes_box c B -> exists a, get_pixarea (xedges B) (yedges B) = Ok a.
Proof.
  intros c B H. destruct c; cbn [makes_box] in H; try contradiction.
  exact (TLifeErrors.made_pixarea (MLife.CSetupBox xmin xmax numx ymin ymax numy) B H).
Qed.
Lemma made_area : forall c ed, leaves_edges c ed -> exists a, get_polar_area2d (fst ed) (snd ed) = Ok a.
Proof.
  intros c [re pe] H. cbn [fst snd] in *. assert (L : (2 <= length pe)%nat).
  { destruct c; cbn [leaves_edges] in H; try contradiction; cbn [fst snd] in H.
    - destruct H as ((_ & _ & _ & _ & N & _) & _ & [L _]). lia.
    - destruct H as ((_ & _ & _ & _ & _ & N & _) & _ & [L _]). lia. }
  destruct (PGrids.area2d_spec re pe L) as (a & E & _). eauto.
Qed.

Lemma kept_edges : forall e z s c, c <> CClean -> b_edges s <> None -> b_edges (fst (step e z s c)) <> None.
Proof.
  intros e z s c Hc H. destruct (Classical_Prop.classic (exists ed', leaves_edges c ed')) as [[ed' Y]|N].
  - rewrite (proj2 (step_edges e z s c ed')) by (now left). discriminate.
  - destruct (b_edges s) as [ed|] eqn:E; [|now elim H]. rewrite (proj2 (step_edges e z s c ed)); [discriminate|]. right. split; [exact Hc|]. split; [|exact E].
    intros ed' Y. apply N. eauto.
Qed.

Lemma rings_leave : forall c P, makes_rings c P -> exists ed, leaves_edges c ed.
Proof.
  intros c P M. destruct c; cbn [makes_rings] in M; try contradiction.
  - destruct (lin_edges fresh rmin rmax numr nump pmin pmax center phi_shift) as [_ B]. cbv zeta in B. rewrite M in B. cbn [polar_step] in B.
    destruct (Classical_Prop.classic (sensible_rings rmin rmax numr nump pmin pmax center)) as [Y|N]; [|discriminate (B N)].
    eexists (_, _). cbn. pose proof Y as (_ & Y2 & _ & _ & Y5 & _). split; [exact Y|]. split; apply TLifeErrors.equal_linspace; assumption.
  - destruct (log_edges_left fresh rmin rmax numr nump pmin pmax center phi_shift addzero) as [_ B]. cbv zeta in B. rewrite M in B. cbn [polar_step] in B.
    destruct (Classical_Prop.classic (0 < rmin /\ sensible_rings rmin rmax numr nump pmin pmax center)) as [Y|N]; [|discriminate (B N)].
    eexists (_, _). cbn. pose proof Y as (Y0 & Y1 & Y2 & _ & _ & Y5 & _). split; [exact Y|]. split; [apply log_radii_ok; [lra|assumption]|apply TLifeErrors.equal_linspace; assumption].
Qed.

(** The rings and the stored areas are only there with edges, the pixel area only
    with a box. *)
Lemma stored_from : forall e z h, let s := run e z fresh h in
  (b_polar s <> None -> b_edges s <> None) /\ (area2d (b_cache s) <> None -> b_edges s <> None) /\ (pixarea (b_cache s) <> None -> b_box s <> None).
Proof.
  intros e z h. cbv zeta. induction h as [|c h (I1 & I2 & I3)] using rev_ind; [repeat split; intros H; now elim H|]. rewrite run_snoc. set (s := run e z fresh h) in *. clearbody s.
  destruct (Classical_Prop.classic (c = CClean)) as [->|HC]; [repeat split; intros H; now elim H|].
  split; [|split].
  - intros H. destruct (b_polar (fst (step e z s c))) as [P|] eqn:E; [|now elim H]. apply step_polar in E. destruct E as [M|(_ & _ & E)].
    + destruct (rings_leave c P M) as [ed L]. rewrite (proj2 (step_edges e z s c ed)) by (now left). discriminate.
    + apply kept_edges; [exact HC|]. apply I1. rewrite E. discriminate.
  - intros H. destruct (area2d (b_cache (fst (step e z s c)))) as [a|] eqn:E; [|now elim H]. clear H.
    assert (Q : area2d (b_cache s) <> None \/ b_edges s <> None).
    { destruct c; cbn [step] in E.
      - left. unfold setup_box_step in E. destruct (setup_box _ _ _ _ _ _); cbn in E; rewrite E; discriminate.
      - left. rewrite (proj2 (proj2 (polar_frame s _ _))) in E. rewrite E. discriminate.
      - left. rewrite (proj2 (proj2 (polar_frame s _ _))) in E. rewrite E. discriminate.
      - left. destruct (weights_of _ _ _ _); cbn in E; rewrite E; discriminate.
      - left. cbn in E. rewrite E. discriminate.
      - left. destruct (mask_of s); cbn in E; rewrite E; discriminate.
      - left. cbn in E. rewrite E. discriminate.
      - destruct (radial_cache z s f_polar sigma w) as (_ & _ & R3). cbv zeta in R3. destruct (R3 a E) as [E'|(re & pe & E' & _)]; [left|right]; rewrite E'; discriminate.
      - now elim HC. }
    apply kept_edges; [exact HC|]. tauto.
  - intros H. destruct (pixarea (b_cache (fst (step e z s c)))) as [a|] eqn:E; [|now elim H]. clear H.
    assert (Q : pixarea (b_cache s) <> None \/ b_box s <> None).
    { destruct c; cbn [step] in E.
      - left. unfold setup_box_step in E. destruct (setup_box _ _ _ _ _ _); cbn in E; rewrite E; discriminate.
      - left. rewrite (proj2 (proj2 (polar_frame s _ _))) in E. rewrite E. discriminate.
      - left. rewrite (proj2 (proj2 (polar_frame s _ _))) in E. rewrite E. discriminate.
      - left. destruct (weights_of _ _ _ _); cbn in E; rewrite E; discriminate.
      - left. cbn in E. rewrite E. discriminate.
      - left. destruct (mask_of s); cbn in E; rewrite E; discriminate.
      - left. cbn in E. rewrite E. discriminate.
      - destruct (radial_cache z s f_polar sigma w) as (_ & R2 & _). cbv zeta in R2. destruct (R2 a E) as [E'|(B & E' & _)]; [left|right]; rewrite E'; discriminate.
      - now elim HC. }
    assert (QB : b_box s <> None) by tauto. destruct (b_box s) as [B|] eqn:EB; [|now elim QB].
    destruct (Classical_Prop.classic (exists B', makes_box c B')) as [[B' Y]|N].
    + rewrite (proj2 (step_box e z s c B')) by (now left). discriminate.
    + rewrite (proj2 (step_box e z s c B)); [discriminate|]. right. split; [exact HC|]. split; [|exact EB]. intros B' Y. apply N. eauto.
Qed.

Lemma area_ok : forall e z h ed, edges_in_force h ed -> exists a, area_of (run e z fresh h) = Ok a.
Proof.
  intros e z h ed H. unfold area_of. destruct (area2d _) as [a|]; [eauto|]. rewrite (proj2 (run_edges e z h ed) H).
  destruct H as (h1 & c & h2 & _ & M & _). destruct (made_area c ed M) as [a E]. destruct ed. eauto.
Qed.
Lemma pixarea_ok : forall e z h B k, box_in_force h B -> pixarea k = pixarea (b_cache (run e z fresh h)) ->
  exists a, pixarea_of (set_cache (run e z fresh h) k) = Ok a.
Proof.
  intros e z h B k H HK. unfold pixarea_of. cbn [set_cache b_cache b_box]. destruct (pixarea k) as [a|]; [eauto|]. rewrite (proj2 (run_box e z h B) H).
  destruct H as (h1 & c & h2 & _ & M & _). exact (made_pixarea c B M).
Qed.
Lemma rings_edges : forall e z h P, rings_in_force h P -> exists re pe,
  seen_polar (run e z fresh h) = Some (McPolar re pe (mc_r2d P) (mc_p2d P) (mc_center P) (mc_shift P)) /\ edges_in_force h (re, pe).
Proof.
  intros e z h P H. apply (run_polar e z) in H. destruct (stored_from e z h) as (I1 & _). cbv zeta in I1. unfold seen_polar. rewrite H in *.
  destruct (b_edges (run e z fresh h)) as [[re pe]|] eqn:E; [|now elim I1]. exists re, pe. split; [reflexivity|]. now apply (run_edges e z).
Qed.

(** ** C76 *)

(** The edges on the object are those of the last set-up of rings with sensible
    arguments since the last [clean], whether it raised or not. *)
Theorem C76_edges : forall e z h re pe, b_edges (run e z fresh h) = Some (re, pe) <-> edges_in_force h (re, pe).
Proof. intros. apply run_edges. Qed.
Print Assumptions C76_edges.

(** Arguments that are not sensible are refused on every object, without a trace;
    a single sector is an IndexError of both set-ups, a single ring of the linear
    one. *)
Theorem C76_rings_refused : forall e z s rmin rmax numr nump pmin pmax center sh addzero,
  let ok := sensible_rings rmin rmax numr nump pmin pmax center in
  let lin := CSetupLin rmin rmax numr nump pmin pmax center sh in
  let log := CSetupLog rmin rmax numr nump pmin pmax center sh addzero in
  (~ ok -> step e z s lin = (s, Err AssertionError)) /\
  (~ (0 < rmin /\ ok) -> step e z s log = (s, Err AssertionError)) /\
  (ok -> numr = 1%Z \/ nump = 1%Z -> snd (step e z s lin) = Err IndexError) /\
  (0 < rmin /\ ok -> nump = 1%Z -> snd (step e z s log) = Err IndexError).
Proof.
  intros. unfold lin, log. cbn [step]. split; [|split; [|split]].
  - apply lin_edges.
  - apply log_edges_left.
  - intros Y N. rewrite (proj1 (proj2 (C63_args rmin rmax numr nump pmin pmax center sh)) Y N). cbn [polar_step]. destruct (lin_stored _ _ _ _ _ _); reflexivity.
  - intros Y N. rewrite (proj1 (proj2 (C67_args rmin rmax numr nump pmin pmax center sh addzero)) Y N). cbn [polar_step]. destruct (log_stored _ _ _ _ _ _ _); reflexivity.
Qed.
Print Assumptions C76_rings_refused.

(** Without a box or rings in force, each method raises, and which exception
    depends on what is missing. *)
Theorem C76_missing : forall e z h, let s := run e z fresh h in
  (forall d mc, (mc <= 1)%Z -> step e z s (CWeights d mc) = (s, Err AssertionError)) /\
  (forall d mc, (1 < mc)%Z -> no_rings h -> step e z s (CWeights d mc) = (s, Err TypeError)) /\
  (forall d mc P, (1 < mc)%Z -> rings_in_force h P -> no_box h -> step e z s (CWeights d mc) = (s, Err e)) /\
  (forall f w, no_box h -> step e z s (CRemap f w) = (s, Err AssertionError)) /\
  (forall f w B, box_in_force h B -> no_rings h ->
     step e z s (CRemap f w) = (s, Err (if same_shape f (x2d B) && match w with Some w => same_shape w (x2d B) | None => true end
                                        then TypeError else AssertionError))) /\
  (no_box h \/ no_rings h -> step e z s CMask = (s, Err AssertionError)) /\
  (forall f sh, no_rings h -> step e z s (CRotate f sh) = (s, Err AssertionError)) /\
  (forall f sh P, rings_in_force h P -> step e z s (CRotate f sh) = (s, Err (if same_shape f (mc_p2d P) then TypeError else AssertionError))).
Proof.
  intros e z h s. split; [|split; [|split; [|split; [|split; [|split; [|split]]]]]].
  - intros d mc H. cbn [step]. unfold weights_of. now rewrite (proj2 (Z.ltb_ge 1 mc) H).
  - intros d mc H N. cbn [step]. unfold weights_of, s. rewrite (proj2 (Z.ltb_lt 1 mc) H), (none_seen e z h N). reflexivity.
  - intros d mc P H HP N. cbn [step]. unfold weights_of, s. destruct (rings_edges e z h P HP) as (re & pe & -> & _).
    rewrite (proj2 (Z.ltb_lt 1 mc) H), (none_box e z h N). reflexivity.
  - intros f w N. cbn [step]. unfold remap_of, s. now rewrite (none_box e z h N).
  - intros f w B HB N. cbn [step]. unfold remap_of, s. rewrite (proj2 (run_box e z h B) HB), (none_seen e z h N).
    destruct (same_shape f (x2d B)); [|reflexivity]. cbn [py_assert andb]. destruct (match w with Some w => same_shape w (x2d B) | None => true end); reflexivity.
  - intros H. cbn [step]. unfold mask_of, s. destruct H as [H|H]; [now rewrite (none_box e z h H)|rewrite (none_seen e z h H)]. destruct (b_box _); reflexivity.
  - intros f sh H. cbn [step]. unfold s. now rewrite (none_polar e z h H).
  - intros f sh P H. cbn [step]. unfold s. rewrite (proj2 (run_polar e z h P) H). destruct (same_shape f (mc_p2d P)); reflexivity.
Qed.
Print Assumptions C76_missing.

(** The same for [polar2radial]. *)
Theorem C76_radial_missing : forall e z h f sg w,
  (no_edges h -> step e z (run e z fresh h) (CRadial f sg w) = (run e z fresh h, Err TypeError)) /\
  (no_box h -> snd (step e z (run e z fresh h) (CRadial f sg w)) = Err TypeError) /\
  (forall B ed, box_in_force h B -> edges_in_force h ed -> no_rings h ->
     snd (step e z (run e z fresh h) (CRadial f sg w)) = Err AssertionError) /\
  (forall B P, box_in_force h B -> rings_in_force h P -> same_shape_num f (mc_p2d P) = false ->
     snd (step e z (run e z fresh h) (CRadial f sg w)) = Err AssertionError).
Proof.
  intros e z h f sg w. destruct (stored_from e z h) as (_ & CA & CP). cbv zeta in CA, CP. cbn [step]. unfold radial_step.
  assert (NE : no_edges h -> area_of (run e z fresh h) = Err TypeError).
  { intros H. unfold area_of. pose proof (none_edges e z h H) as E. rewrite E in *. destruct (area2d _) as [a|]; [|reflexivity]. now elim CA. }
  split; [|split; [|split]].
  - intros H. now rewrite (NE H).
  - intros H. destruct (Classical_Prop.classic (exists ed, edges_in_force h ed)) as [[ed Y]|N].
    + destruct (area_ok e z h ed Y) as [a ->]. unfold pixarea_of. cbn [set_cache b_cache b_box pixarea]. rewrite (none_box e z h H) in *.
      destruct (pixarea _) as [p|]; [now elim CP|reflexivity].
    + rewrite NE; [reflexivity|]. intros ed Y. apply N. eauto.
  - intros B ed HB HE HR. destruct (area_ok e z h ed HE) as [a ->].
    edestruct (pixarea_ok e z h B (Cache (Some a) (pixarea (b_cache (run e z fresh h))) (mask_in_bound (b_cache (run e z fresh h)))) HB eq_refl) as [p Ep]. cbv zeta. rewrite Ep.
    unfold seen_polar. cbn [set_cache b_edges b_polar]. rewrite (none_polar e z h HR). destruct (b_edges _) as [[? ?]|]; reflexivity.
  - intros B P HB HP HS. destruct (rings_edges e z h P HP) as (re & pe & ES & HE). destruct (area_ok e z h _ HE) as [a ->].
    edestruct (pixarea_ok e z h B (Cache (Some a) (pixarea (b_cache (run e z fresh h))) (mask_in_bound (b_cache (run e z fresh h)))) HB eq_refl) as [p Ep]. cbv zeta. rewrite Ep.
    unfold seen_polar in *. cbn [set_cache b_edges b_polar]. rewrite ES. cbn [mc_p2d]. rewrite HS. reflexivity.
Qed.
Print Assumptions C76_radial_missing.

(** A history with a box, logarithmic edges and no rings: one sector only was
    asked for. *)
Example C76_missing_example : forall e z, let c := CSetupLog 1 4 2 1 0 1 [0; 0] 0 false in
  let h := [CMask; CSetupBox 0 1 2 0 1 2; c] in
  (exists B, box_in_force h B) /\ edges_in_force h ([1; 2; 4], [0; 1]) /\ no_rings h /\
  snd (step e z (run e z fresh h) (CRadial [[Some 0]] None None)) = Err AssertionError.
Proof.
  intros e z c h. pose proof PI2_1.
  assert (S : 0 < 1 /\ sensible_rings 1 4 2 1 0 1 [0; 0]) by (unfold sensible_rings; cbn; repeat split; try lra; lia).
  assert (HB : exists B, box_in_force h B).
  { pose proof (proj1 (TLife.C75_box_args (Ok MLife.VNone) MLife.fresh 0 1 2 0 1 2)) as Q. cbn [MLife.step] in Q. unfold MLife.setup_box_step in Q.
    destruct (setup_box 0 1 2 0 1 2) as [B|] eqn:E; [|discriminate Q; lia]. exists B, [CMask], (CSetupBox 0 1 2 0 1 2), [c].
    split; [reflexivity|]. split; [exact E|]. split; [intros [I|[]]; discriminate|]. intros c' B' [<- |[]] []. }
  assert (HE : edges_in_force h ([1; 2; 4], [0; 1])).
  { exists [CMask; CSetupBox 0 1 2 0 1 2], c, []. split; [reflexivity|]. split; [|split; [intros []|intros ? ? []]]. split; [exact S|]. cbn [fst snd]. split.
    - split; [reflexivity|]. intros i Hi. cbn [length] in Hi. change (Z.to_nat 2) with 2%nat. unfold geometric. replace (4 / 1) with 4 by field. rewrite Rmult_1_l.
      destruct i as [|[|[|i]]]; [| | |lia]; cbn [nth INR].
      + replace (0 / (1 + 1)) with 0 by field. rewrite Rpower_O; lra.
      + replace (1 / (1 + 1)) with (/ 2) by field. rewrite Rpower_sqrt by lra. replace 4 with (2 * 2) by ring. rewrite sqrt_square; lra.
      + replace ((1 + 1) / (1 + 1)) with 1 by field. rewrite Rpower_1; lra.
    - split; [reflexivity|]. intros i Hi. cbn [length] in Hi. destruct i as [|[|i]]; [| |lia]; cbn [nth INR]; lra. }
  assert (HR : no_rings h).
  { intros P HP. apply (run_polar e z) in HP. unfold h in HP. cbn [run] in HP. apply (step_polar e z) in HP. destruct HP as [M|(_ & _ & HP)].
    - cbn [c makes_rings] in M. rewrite (proj1 (proj2 (C67_args 1 4 2 1 0 1 [0; 0] 0 false)) S eq_refl) in M. discriminate.
    - apply (step_polar e z) in HP. destruct HP as [[]|(_ & _ & HP)]. apply (step_polar e z) in HP. destruct HP as [[]|(_ & _ & HP)]. discriminate. }
  split; [exact HB|]. split; [exact HE|]. split; [exact HR|]. destruct HB as [B HB].
  destruct (C76_radial_missing e z h [[Some 0]] None None) as (_ & _ & T & _). exact (T B _ HB HE HR).
Qed.
Print Assumptions C76_missing_example.
