(** * Theorems: exceptions of the [montecarlo.Cube2Shell] object (C78) *)

From Coq Require Import Reals ZArith List Bool Lia Lra.
From Flocq Require Import Core.Raux.
From Verif Require PGrids.
From Verif Require Import Base BaseP MGrids MDense MMonte MCube MMonteShell MLifeShell PHealpixBoundary PDense PMonteShell TMonteShell TLifeShell.
Import ListNotations.
Open Scope R_scope.

(** ** Specification *)

(** Some call with property [Q] since the last [clean]. *)
Definition since_clean (Q : call -> Prop) (h : list call) : Prop := exists h1 c h2, h = h1 ++ c :: h2 /\ Q c /\ ~ In CClean h2.

(** A set-up of shells with sensible arguments (which may still raise); a
    successful one; a [setup_cube] let pass by the assertions. *)
Definition shells_tried : list call -> Prop := since_clean shells_call.
Definition shells_made_once : list call -> Prop := since_clean (fun c => exists P, makes_shells c P).
Definition cube_tried : list call -> Prop := since_clean cube_call.

(** ** Lemmas *)

Lemma since_snoc : forall Q h c, ~ Q CClean -> (since_clean Q (h ++ [c]) <-> c <> CClean /\ (Q c \/ since_clean Q h)).
Proof.
  intros Q h c HQ. split.
  - intros (h1 & d & h2 & E & Hd & N). destruct h2 as [|x h2 _] using rev_ind.
    + apply app_inj_tail in E. destruct E as [-> ->]. split; [intros ->; auto|auto].
    + rewrite app_comm_cons, app_assoc in E. apply app_inj_tail in E. destruct E as [-> ->]. split.
      * intros ->. apply N. apply in_or_app. right. now left.
      * right. exists h1, d, h2. repeat split; auto. intros I. apply N. apply in_or_app. now left.
  - intros [HC [H|(h1 & d & h2 & -> & Hd & N)]].
    + exists h, c, []. repeat split; auto.
    + exists h1, d, (h2 ++ [c]). split; [now rewrite <- app_assoc|]. split; [exact Hd|]. intros I. apply in_app_or in I. destruct I as [I|[I|[]]]; congruence || contradiction.
Qed.

Lemma run_since : forall e (Q : call -> Prop) (A : Type) (get : sobj -> option A), get fresh = None -> ~ Q CClean ->
  (forall s c, Q c -> get (fst (step e s c)) <> None) -> (forall s c, c <> CClean -> ~ Q c -> get (fst (step e s c)) = get s) ->
  (forall s, get (fst (step e s CClean)) = None) ->
  forall h, get (run e fresh h) <> None <-> since_clean Q h.
Proof.
  intros e Q A get HF HQ H1 H2 H3 h. induction h as [|c h IH] using rev_ind.
  - cbn [run]. rewrite HF. split; [intros H; now elim H|]. intros ([|? ?] & ? & ? & E & _); discriminate.
  - rewrite run_app, since_snoc by exact HQ. cbn [run]. destruct (Classical_Prop.classic (c = CClean)) as [->|HC].
    + rewrite H3. split; [intros H; now elim H|intros [N _]; now elim N].
    + destruct (Classical_Prop.classic (Q c)) as [Y|N].
      * split; [auto|intros _; now apply H1].
      * rewrite (H2 _ _ HC N), IH. tauto.
Qed.

Lemma radii_tried : forall e h, s_radii (run e fresh h) <> None <-> shells_tried h.
Proof.
  intros e. apply run_since; try reflexivity; [intros []| |].
  - intros s c Y. destruct c as [|rmin rmax numr nside ct|rmin rmax numr nside ct z| | |]; cbn [shells_call] in Y; try contradiction; cbn [step].
    + unfold lin_step. rewrite (proj2 (lin_checks rmin rmax numr ct) Y). cbn [negb]. destruct (_ <? 2)%nat; discriminate.
    + unfold log_step. destruct (proj2 (proj2 (C69_accepts rmin rmax numr nside ct z))) as [P ->]; [split; [tauto|split; [lia|tauto]]|]. discriminate.
  - intros s c HC N. destruct c as [a b n a' b' n' a'' b'' n''|rmin rmax numr nside ct|rmin rmax numr nside ct z|d mc|f w|]; cbn [step].
    + unfold cube_step. destruct (negb _); [reflexivity|]. destruct (negb _); [reflexivity|]. destruct (linspaceZ _ _ _); reflexivity.
    + unfold lin_step. destruct (_ && _ && _ && _) eqn:E; [|reflexivity]. apply lin_checks in E. now elim N.
    + unfold log_step. destruct (shells_log _ _ _ _ _ _) eqn:E; [|reflexivity]. apply log_ok in E. now elim N.
    + destruct (weights_of _ _ _ _); reflexivity.
    + reflexivity.
    + now elim HC.
Qed.

Lemma sky_made : forall e h, s_sky (run e fresh h) <> None <-> shells_made_once h.
Proof.
  intros e. apply run_since; try reflexivity; [intros (P & [])| |].
  - intros s c [P Y]. destruct (shells_made e s c P Y) as [[_ E] _]. rewrite E. discriminate.
  - intros s c HC N. destruct c as [a b n a' b' n' a'' b'' n''|rmin rmax numr nside ct|rmin rmax numr nside ct z|d mc|f w|]; cbn [step].
    + unfold cube_step. destruct (negb _); [reflexivity|]. destruct (negb _); [reflexivity|]. destruct (linspaceZ _ _ _); reflexivity.
    + unfold lin_step. destruct (_ && _ && _ && _) eqn:E; [|reflexivity]. cbn [negb]. destruct (Nat.ltb_spec (length (map2 (fun a b => / 2 * (a + b)) (tl (linspace rmin rmax (Z.to_nat (numr + 1)))) (removelast (linspace rmin rmax (Z.to_nat (numr + 1)))))) 2) as [L|L]; [reflexivity|].
      elim N. apply lin_checks in E. destruct (C69_accepts rmin rmax numr nside ct false) as (T & _). apply T. repeat split; try tauto.
      rewrite map2_length, PGrids.length_tl, PGrids.length_removelast, length_linspace in L. lia.
    + unfold log_step. destruct (shells_log _ _ _ _ _ _) as [P|] eqn:E; [|reflexivity]. elim N. exists P. exact E.
    + destruct (weights_of _ _ _ _); reflexivity.
    + reflexivity.
    + now elim HC.
Qed.

Lemma cube_there : forall e h, s_xedges (run e fresh h) <> None <-> cube_tried h.
Proof.
  intros e. apply run_since; try reflexivity; [intros []| |].
  - intros s c Y. destruct c; cbn [cube_call] in Y; try contradiction. cbn [step]. unfold cube_step. destruct Y as [Y1 Y2]. apply Z.ltb_lt in Y1, Y2. rewrite Y1, Y2. cbn [negb].
    destruct (linspaceZ _ _ _); discriminate.
  - intros s c HC N. apply cube_quiet; assumption.
Qed.

(** ** C78 *)

(** Before any set-up of shells with sensible arguments [get_weights] and [remap]
    raise TypeError; after one that raised, or without a cube, they raise what the
    missing attribute gives ([e]).  Nothing changes. *)
Theorem C78_missing : forall e h draws mc f w, let s := run e fresh h in
  (~ shells_tried h -> step e s (CWeights draws mc) = (s, Err TypeError) /\ step e s (CRemap f w) = (s, Err TypeError)) /\
  (shells_tried h -> ~ shells_made_once h -> step e s (CWeights draws mc) = (s, Err e) /\ step e s (CRemap f w) = (s, Err e)) /\
  (shells_tried h -> ~ cube_tried h -> step e s (CWeights draws mc) = (s, Err e)).
Proof.
  intros e h draws mc f w s. pose proof (radii_tried e h) as RT. pose proof (sky_made e h) as SM. pose proof (cube_there e h) as CT. fold s in RT, SM, CT.
  cbn [step]. unfold weights_of, remap_of. split; [|split].
  - intros N. destruct (s_radii s) as [[re rm]|]; [elim N; apply RT; discriminate|]. split; reflexivity.
  - intros Y N. destruct (s_radii s) as [[re rm]|]; [|apply RT in Y; now elim Y]. destruct (s_sky s) as [[n ct]|]; [elim N; apply SM; discriminate|]. split; reflexivity.
  - intros Y N. destruct (s_radii s) as [[re rm]|]; [|apply RT in Y; now elim Y]. destruct (s_xedges s); [elim N; apply CT; discriminate|].
    destruct (s_sky s) as [[n ct]|]; reflexivity.
Qed.
Print Assumptions C78_missing.

(** A [setup_cube] with a bad number of cells along [z] raises after storing the
    edges along [x] and [y]; a single linear shell raises after storing its radii. *)
Theorem C78_half_done : forall e s,
  (forall xmin xmax numx ymin ymax numy zmin zmax numz, (1 <= numx)%Z -> (1 <= numy)%Z -> (numz <= 0)%Z ->
     let t := step e s (CCube xmin xmax numx ymin ymax numy zmin zmax numz) in
     snd t = Err (if (numz <? -1)%Z then ValueError else IndexError) /\
     s_xedges (fst t) = Some (linspace xmin xmax (Z.to_nat (numx + 1))) /\ s_yedges (fst t) = Some (linspace ymin ymax (Z.to_nat (numy + 1))) /\
     s_zedges (fst t) = (if (numz <? -1)%Z then s_zedges s else Some (if (numz =? 0)%Z then [zmin] else []))) /\
  (forall rmin rmax nside ct, 0 <= rmin < rmax -> length ct = 3%nat ->
     let t := step e s (CLin rmin rmax 1 nside ct) in
     snd t = Err IndexError /\ s_radii (fst t) = Some ([rmin; rmax], [/ 2 * (rmax + rmin)]) /\ s_sky (fst t) = s_sky s).
Proof.
  intros e s. split.
  - intros xmin xmax numx ymin ymax numy zmin zmax numz Hx Hy Hz. cbv zeta. cbn [step]. unfold cube_step.
    rewrite (proj2 (Z.ltb_lt 0 numx)), (proj2 (Z.ltb_lt 0 numy)) by lia. cbn [negb]. unfold linspaceZ.
    destruct (Z.ltb_spec numz (-1)) as [H|H].
    + rewrite (proj2 (Z.ltb_lt (numz + 1) 0)) by lia. repeat split.
    + rewrite (proj2 (Z.ltb_ge (numz + 1) 0)) by lia. rewrite length_linspace. rewrite (proj2 (Nat.ltb_lt _ 2)) by lia.
      cbn [fst snd s_xedges s_yedges s_zedges]. repeat split. destruct (Z.eqb_spec numz 0) as [->|]; [reflexivity|]. replace numz with (-1)%Z by lia. reflexivity.
  - intros rmin rmax nside ct Hr L. cbv zeta. cbn [step]. unfold lin_step. rewrite (proj2 (lin_checks rmin rmax 1 ct)) by (repeat split; (lra || lia || auto)).
    cbn [negb]. change (Z.to_nat (1 + 1)) with 2%nat. assert (E : linspace rmin rmax 2 = [rmin; rmax]).
    { unfold linspace. cbn [seq map Nat.sub INR]. f_equal; [field|]. f_equal. field. }
    rewrite E. cbn [tl removelast map2 length Nat.ltb Nat.leb fst snd s_radii s_sky]. repeat split.
Qed.
Print Assumptions C78_half_done.

(** One linear shell only: radii but no [nside]. *)
Example C78_missing_example : forall e, let h := [CCube 0 1 2 0 1 2 0 1 2; CLin 0 1 1 4 [0; 0; 0]] in
  shells_tried h /\ cube_tried h /\ ~ shells_made_once h /\ forall f w, snd (step e (run e fresh h) (CRemap f w)) = Err e.
Proof.
  intros e h. assert (T : shells_tried h).
  { exists [CCube 0 1 2 0 1 2 0 1 2], (CLin 0 1 1 4 [0; 0; 0]), []. split; [reflexivity|]. split; [|intros []]. cbn. repeat split; (lra || lia). }
  assert (N : ~ shells_made_once h).
  { intros Y. apply (sky_made e) in Y. apply Y. unfold h. cbn [run]. rewrite (proj2 (proj2 (proj2 (C78_half_done e _) 0 1 4%Z [0; 0; 0] ltac:(lra) eq_refl))). reflexivity. }
  split; [exact T|]. split; [|split; [exact N|]].
  - exists [], (CCube 0 1 2 0 1 2 0 1 2), [CLin 0 1 1 4 [0; 0; 0]]. split; [reflexivity|]. split; [cbn; lia|]. intros [I|[]]; discriminate.
  - intros f w. destruct (C78_missing e h (fun _ _ => ([], [], [])) 1 f w) as (_ & A & _). destruct (A T N) as [_ ->]. reflexivity.
Qed.
Print Assumptions C78_missing_example.
