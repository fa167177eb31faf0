(** * Theorems: the [densegrid.Cube2Shell] object over sequences of calls (C77) *)

From Coq Require Import Reals ZArith List Bool Lia Lra.
From Flocq Require Import Core.Raux.
From Verif Require PGrids.
From Verif Require Import Base BaseP SpecGrid SpecRemap SpecCube MCoords MDense MCube MLifeCube PPolarCoords PRemap2 PHealpixBoundary PDense PCube TCube.
Import ListNotations.
Open Scope R_scope.

(** ** Specification *)

(** The call is a [setup_cube] that makes the cube [C]; the call is a
    [setup_cube] which the assertions let pass. *)
Definition makes_cube (c : call) (C : cube_grid) : Prop :=
  match c with CCube a b n a' b' n' a'' b'' n'' => setup_cube a b n a' b' n' a'' b'' n'' = Ok C | _ => False end.
Definition cube_call (c : call) : Prop :=
  match c with CCube _ _ n _ _ n' _ _ _ => (0 < n)%Z /\ (0 < n')%Z | _ => False end.

(** Likewise for [setup_polar], on an object with the cube [C]. *)
Definition makes_shells (ok : Z -> bool) (C : cube_grid) (c : call) (S : shells) : Prop :=
  match c with
  | CPolar rmin rmax numr nside ct rs rr px py pz => setup_shells ok C rmin rmax numr nside ct rs rr px py pz = Ok S
  | _ => False
  end.
Definition shells_call (ok : Z -> bool) (c : call) : Prop :=
  match c with
  | CPolar rmin rmax numr nside ct rs rr px py pz =>
      0 <= rmin < rmax /\ (0 < numr)%Z /\ length ct = 3%nat /\ (1 <= rs)%Z /\ ok nside = true /\ ok (nside * rs)%Z = true /\ (1 <= rr)%Z
  | _ => False
  end.

(** The last [setup_cube] since the last [clean], not counting refused ones, made
    [C]. *)
Definition cube_in_force (h : list call) (C : cube_grid) : Prop :=
  exists h1 c h2, h = h1 ++ c :: h2 /\ makes_cube c C /\ ~ In CClean h2 /\ forall c', In c' h2 -> ~ cube_call c'.

(** The last [setup_polar] since the last [clean], not counting refused ones,
    made [S] when [C] was in force. *)
Definition shells_in_force (ok : Z -> bool) (h : list call) (C : cube_grid) (S : shells) : Prop :=
  exists h1 c h2, h = h1 ++ c :: h2 /\ cube_in_force h1 C /\ makes_shells ok C c S /\ ~ In CClean h2 /\
    forall c', In c' h2 -> ~ shells_call ok c'.

(** ** Lemmas *)

Section Calls.
Variables (ok : Z -> bool) (pix2ang : Z -> Z -> R * R) (ud : list R -> Z -> list R).
Notation step := (step ok pix2ang ud).
Notation run := (run ok pix2ang ud).

Lemma run_app : forall h h' s, run s (h ++ h') = run (run s h) h'.
Proof. intros h. induction h as [|c h IH]; intros; cbn [app MLifeCube.run]; auto. Qed.

Lemma flat_nil : forall (A B : Type) (g : A -> list B) l, (forall x, g x = []) -> flat_map g l = [].
Proof. intros A B g l H. induction l as [|a l IH]; cbn [flat_map]; [reflexivity|now rewrite H, IH]. Qed.

Definition has_cube (s : cobj) (C : cube_grid) : Prop :=
  a_xedges s = Some (cu_xedges C) /\ a_yedges s = Some (cu_yedges C) /\ a_zedges s = Some (cu_zedges C) /\
  a_xmid s = Some (cu_xmid C) /\ a_ymid s = Some (cu_ymid C) /\ a_zmid s = Some (cu_zmid C) /\
  a_dx s = Some (cu_dx C) /\ a_dy s = Some (cu_dy C) /\ a_dz s = Some (cu_dz C) /\
  (2 <= length (cu_xedges C))%nat /\ (2 <= length (cu_yedges C))%nat /\ (2 <= length (cu_zedges C))%nat.

Definition has_shells (s : cobj) (S : shells) : Prop :=
  exists rr, a_rmid s = Some (sh_rmid S) /\ a_nside s = Some (sh_nside S) /\ a_rebin_shell s = Some (sh_rebin_shell S) /\
    a_rebin_r s = Some rr /\ sh_rebin_r S = Z.to_nat rr /\ a_centers s = Some (sh_centers S) /\
    a_rebin_redges s = Some (sh_rebin_redges S) /\ a_rebin_rmid s = Some (sh_rebin_rmid S).

Lemma cube_step_makes : forall s c C, makes_cube c C -> has_cube (fst (step s c)) C /\ snd (step s c) = Ok VNone.
Proof.
  intros s c C H. destruct c as [a b n a' b' n' a'' b'' n''| | |]; cbn [makes_cube] in H; try contradiction. cbn [MLifeCube.step].
  unfold setup_cube, py_assert in H. unfold cube_step.
  destruct (Z.ltb_spec 0 n) as [H1|]; [|discriminate]. destruct (Z.ltb_spec 0 n') as [H2|]; [|discriminate]. cbn [negb].
  rewrite !linspaceZ_ok in H by lia. cbn [bind] in H.
  destruct (linspaceZ a'' b'' (n'' + 1)) as [ze|] eqn:EZ; [|discriminate]. cbn [bind] in H.
  rewrite !(py_get_ok _ (linspace _ _ _) _ 0) in H by (rewrite length_linspace; lia). cbn [bind] in H.
  destruct (Nat.ltb_spec (length ze) 2) as [HL|HL].
  { exfalso. destruct ze as [|z0 [|z1 t]]; cbn in HL; try lia; cbn in H; discriminate. }
  rewrite !(py_get_ok _ ze _ 0) in H by lia. cbn [bind] in H. destruct (meshgrid3 _ _ _) as [[x3 y3] z3]. apply Ok_inj in H. subst C.
  cbn [fst snd]. split; [|reflexivity]. unfold has_cube. cbn. rewrite !length_linspace. repeat split; auto; lia.
Qed.

Lemma cube_step_quiet : forall s c, c <> CClean -> ~ cube_call c ->
  let s' := fst (step s c) in
  a_xedges s' = a_xedges s /\ a_yedges s' = a_yedges s /\ a_zedges s' = a_zedges s /\
  a_xmid s' = a_xmid s /\ a_ymid s' = a_ymid s /\ a_zmid s' = a_zmid s /\ a_dx s' = a_dx s /\ a_dy s' = a_dy s /\ a_dz s' = a_dz s.
Proof.
  intros s c Hc Hn. cbn zeta. destruct c as [a b n a' b' n' a'' b'' n''|rmin rmax numr nside ct rs rr px py pz|f|]; cbn [MLifeCube.step].
  - unfold cube_step. cbn [cube_call] in Hn. destruct (Z.ltb_spec 0 n) as [H1|]; [|now repeat split]. destruct (Z.ltb_spec 0 n') as [H2|]; [|now repeat split].
    exfalso. apply Hn. lia.
  - unfold polar_step. destruct (negb _); [now repeat split|]. destruct (_ <? 2)%nat; [now repeat split|].
    destruct (centers_of _ _ _ _ _); now repeat split.
  - now repeat split.
  - now destruct Hc.
Qed.

Lemma checks_spec : forall rmin rmax numr nside ct rs rr,
  polar_checks ok rmin rmax numr nside ct rs rr = true <->
  0 <= rmin < rmax /\ (0 < numr)%Z /\ length ct = 3%nat /\ (1 <= rs)%Z /\ ok nside = true /\ ok (nside * rs)%Z = true /\ (1 <= rr)%Z.
Proof.
  intros. unfold polar_checks. rewrite !andb_true_iff, !Z.leb_le, Z.ltb_lt, Nat.eqb_eq.
  assert (A : Rle_bool 0 rmin = true <-> 0 <= rmin) by (destruct (Rle_bool_spec 0 rmin); split; intros; try discriminate; auto; lra).
  assert (B : Rlt_bool rmin rmax = true <-> rmin < rmax) by (destruct (Rlt_bool_spec rmin rmax); split; intros; try discriminate; auto; lra).
  rewrite A, B. tauto.
Qed.

Lemma polar_step_quiet : forall s c, c <> CClean -> ~ shells_call ok c ->
  let s' := fst (step s c) in
  a_rmid s' = a_rmid s /\ a_nside s' = a_nside s /\ a_rebin_shell s' = a_rebin_shell s /\ a_rebin_r s' = a_rebin_r s /\
  a_centers s' = a_centers s /\ a_rebin_redges s' = a_rebin_redges s /\ a_rebin_rmid s' = a_rebin_rmid s.
Proof.
  intros s c Hc Hn. cbn zeta. destruct c as [a b n a' b' n' a'' b'' n''|rmin rmax numr nside ct rs rr px py pz|f|]; cbn [MLifeCube.step].
  - unfold cube_step. destruct (negb _); [now repeat split|]. destruct (negb _); [now repeat split|].
    destruct (linspaceZ _ _ _); [|now repeat split]. destruct (_ <? 2)%nat; now repeat split.
  - unfold polar_step. destruct (polar_checks _ _ _ _ _ _ _ _) eqn:E; [|now repeat split].
    apply checks_spec in E. exfalso. apply Hn. exact E.
  - now repeat split.
  - now destruct Hc.
Qed.

Lemma polar_step_makes : forall s c C S, has_cube s C -> makes_shells ok C c S -> has_shells (fst (step s c)) S /\ snd (step s c) = Ok VNone.
Proof.
  intros s c C S HC H. destruct c as [|rmin rmax numr nside ct rs rr px py pz| |]; cbn [makes_shells] in H; try contradiction. cbn [MLifeCube.step].
  unfold setup_shells, py_assert in H. unfold polar_step, polar_checks.
  destruct (Rle_bool 0 rmin); [|discriminate]. destruct (Rlt_bool rmin rmax); [|discriminate].
  destruct (Z.ltb_spec 0 numr) as [H1|]; [|discriminate]. destruct (Nat.eqb_spec (length ct) 3) as [H2|]; [|discriminate].
  destruct (1 <=? rs)%Z; [|discriminate]. destruct (ok nside); [|discriminate]. destruct (ok (nside * rs)); [|discriminate].
  destruct (Z.leb_spec 1 rr) as [H3|]; [|discriminate]. cbn [andb negb].
  rewrite linspaceZ_ok in H by lia. cbn [bind] in H. fold (mid_points (linspace rmin rmax (Z.to_nat (numr + 1)))) in H.
  set (re := linspace rmin rmax (Z.to_nat (numr + 1))) in *. set (rm := mid_points re) in *.
  assert (Lre : length re = Z.to_nat (numr + 1)) by apply length_linspace.
  destruct (Nat.ltb_spec (length rm) 2) as [HL|HL].
  { exfalso. destruct rm as [|r0 [|r1 t]]; cbn in HL; try lia; cbn in H; discriminate. }
  rewrite !(py_get_ok _ rm _ 0) in H by lia. cbn [bind] in H.
  destruct ct as [|c0 [|c1 [|c2 [|]]]]; cbn [length] in H2; try lia.
  change (py_get [c0; c1; c2] 0) with (Ok c0) in H. change (py_get [c0; c1; c2] 1) with (Ok c1) in H. change (py_get [c0; c1; c2] 2) with (Ok c2) in H.
  destruct HC as (X1 & X2 & X3 & _ & _ & _ & _ & _ & _ & L1 & L2 & L3). cbn [bind] in H.
  rewrite !(py_get_last _ (cu_xedges C) 0), !(py_get_last _ (cu_yedges C) 0), !(py_get_last _ (cu_zedges C) 0),
    !(py_get_ok _ (cu_xedges C) 0 0), !(py_get_ok _ (cu_yedges C) 0 0), !(py_get_ok _ (cu_zedges C) 0 0) in H by lia. cbn [bind] in H.
  rewrite (py_get_ok _ re 0 0), (py_get_last _ re 0) in H by lia. cbn [bind] in H. rewrite linspaceZ_ok in H by nia. cbn [bind] in H.
  apply Ok_inj in H.
  assert (CS : centers_of s [c0; c1; c2] px py pz = Ok (sh_centers S)).
  { rewrite <- H. cbn [sh_centers]. unfold centers_of.
    destruct (py_range px) as [|ix tx]; [reflexivity|]. destruct (py_range py) as [|iy ty].
    { f_equal. symmetry. apply flat_nil. reflexivity. }
    destruct (py_range pz) as [|iz tz].
    { f_equal. symmetry. apply flat_nil. intros i. apply flat_nil. reflexivity. }
    change (py_get [c0; c1; c2] 0) with (Ok c0). change (py_get [c0; c1; c2] 1) with (Ok c1). change (py_get [c0; c1; c2] 2) with (Ok c2).
    rewrite X1, X2, X3. cbn [need bind].
    rewrite !(py_get_last _ (cu_xedges C) 0), !(py_get_last _ (cu_yedges C) 0), !(py_get_last _ (cu_zedges C) 0),
      !(py_get_ok _ (cu_xedges C) 0 0), !(py_get_ok _ (cu_yedges C) 0 0), !(py_get_ok _ (cu_zedges C) 0 0) by lia. reflexivity. }
  rewrite CS. cbn [fst snd]. split; [|reflexivity]. exists rr. rewrite <- H. cbn.
  assert (LL : last re 0 = nth (length re - 1) re 0).
  { destruct (exists_last (l := re)) as (l' & z & E); [intros E; rewrite E in Lre; cbn in Lre; lia|]. rewrite E, last_last, app_length. cbn [length].
    rewrite app_nth2 by lia. replace (length l' + 1 - 1 - length l')%nat with 0%nat by lia. reflexivity. }
  rewrite LL. repeat split; reflexivity.
Qed.

Lemma keep_cube : forall h s C, has_cube s C -> ~ In CClean h -> (forall c, In c h -> ~ cube_call c) -> has_cube (run s h) C.
Proof.
  intros h. induction h as [|c h IH]; intros s C H H1 H2; [exact H|]. cbn [MLifeCube.run]. apply IH; [|intros Q; apply H1; now right|intros; apply H2; now right].
  destruct (cube_step_quiet s c) as (A & B & D & E & F & G & I & J & K); [intros ->; apply H1; now left|apply H2; now left|].
  unfold has_cube in *. now rewrite A, B, D, E, F, G, I, J, K.
Qed.

Lemma keep_shells : forall h s S, has_shells s S -> ~ In CClean h -> (forall c, In c h -> ~ shells_call ok c) -> has_shells (run s h) S.
Proof.
  intros h. induction h as [|c h IH]; intros s S H H1 H2; [exact H|]. cbn [MLifeCube.run]. apply IH; [|intros Q; apply H1; now right|intros; apply H2; now right].
  destruct (polar_step_quiet s c) as (A & B & D & E & F & G & I); [intros ->; apply H1; now left|apply H2; now left|].
  unfold has_shells in *. now rewrite A, B, D, E, F, G, I.
Qed.

Lemma force_cube : forall h s C, cube_in_force h C -> has_cube (run s h) C.
Proof.
  intros h s C (h1 & c & h2 & -> & H & H1 & H2). rewrite run_app. cbn [MLifeCube.run]. apply keep_cube; auto. now apply cube_step_makes.
Qed.

Lemma force_shells : forall h s C S, shells_in_force ok h C S -> has_shells (run s h) S.
Proof.
  intros h s C S (h1 & c & h2 & -> & HC & H & H1 & H2). rewrite run_app. cbn [MLifeCube.run]. apply keep_shells; auto.
  apply (polar_step_makes _ _ C); [now apply force_cube|exact H].
Qed.

Lemma seen_ok : forall s C, has_cube s C -> seen_cube s =
  Ok (CubeGrid (cu_xedges C) (cu_yedges C) (cu_zedges C) (cu_xmid C) (cu_ymid C) (cu_zmid C) (cu_dx C) (cu_dy C) (cu_dz C) [] [] []).
Proof.
  intros s C (A & B & D & E & F & G & I & J & K & L1 & L2 & L3). unfold seen_cube. rewrite A, B, D, E, F, G, I, J, K. cbn [need bind].
  rewrite !(py_get_ok _ _ 0 0) by lia. reflexivity.
Qed.

(** Only these parts of the cube and the sampled shells matter. *)
Lemma remap_same : forall C C' S f f' x0 y0 z0 x0' y0' z0',
  py_get (cu_xedges C) 0 = Ok x0 -> py_get (cu_yedges C) 0 = Ok y0 -> py_get (cu_zedges C) 0 = Ok z0 ->
  py_get (cu_xedges C') 0 = Ok x0' -> py_get (cu_yedges C') 0 = Ok y0' -> py_get (cu_zedges C') 0 = Ok z0' ->
  (forall r angs, let s := repeat 0 (length angs) in fill_shell C x0 y0 z0 f r angs (sh_centers S) s = fill_shell C' x0' y0' z0' f' r angs (sh_centers S) s) ->
  cube_remap pix2ang ud C S f = cube_remap pix2ang ud C' S f'.
Proof.
  intros C C' S f f' x0 y0 z0 x0' y0' z0' A B D A' B' D' H. unfold cube_remap. rewrite A, B, D, A', B', D'. cbn [bind].
  set (angs := map _ _). assert (L : nside2npix (sh_nside S * sh_rebin_shell S) = length angs).
  { unfold angs. now rewrite map_length, seq_length. }
  assert (E : forall l, mapM (fun r => s <- fill_shell C x0 y0 z0 f r angs (sh_centers S) (repeat 0 (nside2npix (sh_nside S * sh_rebin_shell S))) ;;
        (if (length (ud s (sh_nside S)) =? nside2npix (sh_nside S))%nat then Ok (ud s (sh_nside S)) else Err ValueError)) l =
      mapM (fun r => s <- fill_shell C' x0' y0' z0' f' r angs (sh_centers S) (repeat 0 (nside2npix (sh_nside S * sh_rebin_shell S))) ;;
        (if (length (ud s (sh_nside S)) =? nside2npix (sh_nside S))%nat then Ok (ud s (sh_nside S)) else Err ValueError)) l).
  { intros l. induction l as [|r l IH]; [reflexivity|]. cbn [mapM]. rewrite L at 1 2. cbn zeta in H. rewrite (H r angs), <- L, IH. reflexivity. }
  cbv zeta. rewrite E. reflexivity.
Qed.

Lemma remap_force : forall s C S f, has_cube s C -> has_shells s S -> remap_of pix2ang ud s f = cube_remap pix2ang ud C S f.
Proof.
  intros s C S f HC (rr & A & B & D & E & E' & F & G & I). unfold remap_of. rewrite A, B, D, E, F, G, I. cbn [need bind].
  destruct S as [rm ns rs rb cs rre rrm]. cbn [sh_rmid sh_nside sh_rebin_shell sh_rebin_r sh_centers sh_rebin_redges sh_rebin_rmid] in *. rewrite <- E'.
  assert (HC' := HC). destruct HC' as (_ & _ & _ & _ & _ & _ & _ & _ & _ & L1 & L2 & L3).
  destruct cs as [|c cs].
  - cbn [bind]. symmetry. apply (remap_same C unread_cube _ f f (nth 0 (cu_xedges C) 0) (nth 0 (cu_yedges C) 0) (nth 0 (cu_zedges C) 0) 0 0 0);
      try (rewrite (py_get_ok _ _ 0 0) by lia; reflexivity); try reflexivity.
  - rewrite (seen_ok s C HC). cbn [bind]. destruct C. reflexivity.
Qed.

End Calls.

(** ** C77 *)

(** What [remap] uses: the cube in force now, and shells whose centres were
    placed with the cube in force when they were set up. *)
Theorem C77_remap : forall ok pix2ang ud h C C0 S f, cube_in_force h C -> shells_in_force ok h C0 S ->
  step ok pix2ang ud (run ok pix2ang ud fresh h) (CRemap f) =
    (run ok pix2ang ud fresh h, g <- cube_remap pix2ang ud C S f ;; Ok (VMap g)).
Proof.
  intros ok pix2ang ud h C C0 S f HC HS. cbn [step]. f_equal.
  rewrite (remap_force pix2ang ud _ C S f); [reflexivity|now apply force_cube|exact (force_shells ok pix2ang ud h _ C0 S HS)].
Qed.
Print Assumptions C77_remap.

(** [clean] makes the object as new for every later call. *)
Theorem C77_clean : forall ok pix2ang ud h h' c,
  step ok pix2ang ud (run ok pix2ang ud fresh (h ++ CClean :: h')) c = step ok pix2ang ud (run ok pix2ang ud fresh h') c.
Proof. intros. rewrite run_app. reflexivity. Qed.
Print Assumptions C77_clean.

(** Calls refused by an assertion, and all calls of [remap], change nothing. *)
Theorem C77_refused : forall ok pix2ang ud s c s' v, step ok pix2ang ud s c = (s', v) ->
  v = Err AssertionError \/ (exists f, c = CRemap f) -> s' = s.
Proof.
  intros ok pix2ang ud s c s' v H Hv.
  destruct c as [a b n a' b' n' a'' b'' n''|rmin rmax numr nside ct rs rr px py pz|f|]; cbn [step] in H.
  - destruct Hv as [Hv|[f Hv]]; [|discriminate]. subst v. unfold cube_step in H.
    destruct (negb (0 <? n)%Z); [now inversion H|]. destruct (negb (0 <? n')%Z); [now inversion H|].
    unfold linspaceZ in H. destruct (n'' + 1 <? 0)%Z; [discriminate|]. destruct (_ <? 2)%nat; discriminate.
  - destruct Hv as [Hv|[f Hv]]; [|discriminate]. subst v. unfold polar_step in H.
    destruct (negb _); [now inversion H|]. destruct (_ <? 2)%nat; [discriminate|].
    destruct (centers_of s ct px py pz) as [cs|e] eqn:E; [discriminate|]. inversion H. subst e. exfalso. clear H H1.
    unfold centers_of in E. destruct (py_range px); [discriminate|]. destruct (py_range py); [discriminate|]. destruct (py_range pz); [discriminate|].
    assert (PG : forall A (l : list A) k, py_get l k <> Err AssertionError).
    { intros A x k Q. destruct (py_get_or A x k) as [[y Hy]|Hy]; rewrite Hy in Q; discriminate. }
    assert (ND : forall A (x : option A), need x <> Err AssertionError) by (intros A [x|]; discriminate).
    repeat match type of E with bind ?m _ = _ =>
      let Q := fresh "Q" in destruct m eqn:Q; cbn [bind] in E; [|inversion E; subst; first [now apply PG in Q|now apply ND in Q]] end. discriminate.
  - inversion H. reflexivity.
  - inversion H. subst. destruct Hv as [Hv|[f Hv]]; discriminate.
Qed.
Print Assumptions C77_refused.

(** No [setup_polar] has succeeded since the last [clean]: TypeError. *)
Theorem C77_unset : forall ok pix2ang ud h f,
  (forall h1 c h2, h = h1 ++ c :: h2 -> shells_call ok c -> snd (step ok pix2ang ud (run ok pix2ang ud fresh h1) c) = Ok VNone -> In CClean h2) ->
  snd (step ok pix2ang ud (run ok pix2ang ud fresh h) (CRemap f)) = Err TypeError.
Proof.
  intros ok pix2ang ud h f H.
  assert (N : a_rebin_rmid (run ok pix2ang ud fresh h) = None).
  { induction h as [|c h IH] using rev_ind; [reflexivity|]. rewrite run_app. cbn [run].
    destruct (Classical_Prop.classic (c = CClean)) as [-> |NC]; [reflexivity|].
    assert (IH' : a_rebin_rmid (run ok pix2ang ud fresh h) = None).
    { apply IH. intros h1 c' h2 E S1 S2. specialize (H h1 c' (h2 ++ [c])). rewrite E, <- app_assoc in H. specialize (H eq_refl S1 S2).
      apply in_app_or in H. destruct H as [H|[H|[]]]; [exact H|now subst]. }
    destruct (Classical_Prop.classic (shells_call ok c)) as [SC|SC].
    - specialize (H h c [] eq_refl SC). destruct c as [|rmin rmax numr nside ct rs rr px py pz| |]; cbn [shells_call] in SC; try contradiction.
      cbn [step] in *. unfold polar_step in *. destruct (negb _); [exact IH'|]. destruct (_ <? 2)%nat; [exact IH'|].
      destruct (centers_of _ ct px py pz); [|exact IH']. destruct (H eq_refl).
    - destruct (polar_step_quiet ok pix2ang ud (run ok pix2ang ud fresh h) c NC SC) as (_ & _ & _ & _ & _ & _ & E). now rewrite E. }
  cbn [step snd]. unfold remap_of. rewrite N. reflexivity.
Qed.
Print Assumptions C77_unset.

(** Side lengths of a cube. *)
Definition sides (C : cube_grid) : R * R * R :=
  let side e := nth (length e - 1) e 0 - nth 0 e 0 in (side (cu_xedges C), side (cu_yedges C), side (cu_zedges C)).

Lemma makes_size : forall c C, makes_cube c C -> (2 <= length (cu_xedges C))%nat /\ (2 <= length (cu_yedges C))%nat /\ (2 <= length (cu_zedges C))%nat.
Proof. intros c C H. destruct (cube_step_makes (fun _ => true) (fun _ _ => (0, 0)) (fun m _ => m) fresh c C H) as [K _]. unfold has_cube in K. tauto. Qed.

Lemma force_size : forall h C, cube_in_force h C -> (2 <= length (cu_xedges C))%nat /\ (2 <= length (cu_yedges C))%nat /\ (2 <= length (cu_zedges C))%nat.
Proof. intros h C (h1 & c & h2 & _ & H & _). exact (makes_size c C H). Qed.

Lemma shells_sides : forall ok c C C' S, sides C = sides C' ->
  (2 <= length (cu_xedges C))%nat -> (2 <= length (cu_yedges C))%nat -> (2 <= length (cu_zedges C))%nat ->
  (2 <= length (cu_xedges C'))%nat -> (2 <= length (cu_yedges C'))%nat -> (2 <= length (cu_zedges C'))%nat ->
  makes_shells ok C c S -> makes_shells ok C' c S.
Proof.
  intros ok c C C' S E L1 L2 L3 L1' L2' L3' H. destruct c as [|rmin rmax numr nside ct rs rr px py pz| |]; cbn [makes_shells] in *; try contradiction.
  rewrite <- H. unfold setup_shells. unfold sides in E. cbn zeta in E. inversion E as [[E1 E2 E3]].
  rewrite !(py_get_last _ (cu_xedges _) 0), !(py_get_last _ (cu_yedges _) 0), !(py_get_last _ (cu_zedges _) 0),
    !(py_get_ok _ (cu_xedges _) 0 0), !(py_get_ok _ (cu_yedges _) 0 0), !(py_get_ok _ (cu_zedges _) 0 0) by lia.
  cbn [bind]. change (Z.to_nat 0) with 0%nat. rewrite E1, E2, E3. reflexivity.
Qed.

Lemma force_snoc : forall h c C, cube_in_force h C -> c <> CClean -> ~ cube_call c -> cube_in_force (h ++ [c]) C.
Proof.
  intros h c C (h1 & c1 & h2 & -> & H & H1 & H2) Hc Hn. exists h1, c1, (h2 ++ [c]). rewrite <- app_assoc. split; [reflexivity|]. split; [exact H|].
  split; [intros Q|intros c' Q]; apply in_app_or in Q; destruct Q as [Q|[Q|[]]]; subst; auto.
Qed.

(** Replacing the cube by one with the same side lengths: as if the shells were
    set up again. *)
Theorem C77_same_sides : forall ok pix2ang ud h1 c h2 C C0 S f, cube_in_force h1 C0 -> makes_shells ok C0 c S ->
  ~ In CClean h2 -> (forall c', In c' h2 -> ~ shells_call ok c') -> cube_in_force (h1 ++ c :: h2) C -> sides C0 = sides C ->
  let h := h1 ++ c :: h2 in
  snd (step ok pix2ang ud (run ok pix2ang ud fresh h) (CRemap f)) = snd (step ok pix2ang ud (run ok pix2ang ud fresh (h ++ [c])) (CRemap f)).
Proof.
  intros ok pix2ang ud h1 c h2 C C0 S f H0 HS N1 N2 HC E h.
  assert (Hc : c <> CClean /\ ~ cube_call c) by (destruct c; cbn in *; try contradiction; split; [discriminate|auto]). destruct Hc as [Hc Hn].
  destruct (force_size _ _ H0) as (L1 & L2 & L3). destruct (force_size _ _ HC) as (L1' & L2' & L3').
  assert (HS' := shells_sides ok c C0 C S E L1 L2 L3 L1' L2' L3' HS).
  rewrite (C77_remap ok pix2ang ud h C C0 S f), (C77_remap ok pix2ang ud (h ++ [c]) C C S f); auto.
  - now apply force_snoc.
  - exists h, c, []. repeat split; auto.
  - exists h1, c, h2. repeat split; auto.
Qed.
Print Assumptions C77_same_sides.

(** ** Set-ups that raise half-way *)

(** A map of zeros on the cube [C]. *)
Definition zeros (C : cube_grid) : list (list (list R)) :=
  repeat (repeat (repeat 0 (length (cu_zmid C))) (length (cu_ymid C))) (length (cu_xmid C)).

Lemma fill_keep : forall C x0 y0 z0 f r angs cs n, n = length angs ->
  (forall p, sample_voxel C x0 y0 z0 p = None \/ exists i, sample_voxel C x0 y0 z0 p = Some i /\ read_voxel f i = Ok 0) ->
  fill_shell C x0 y0 z0 f r angs cs (repeat 0 n) = Ok (repeat 0 n).
Proof.
  intros C x0 y0 z0 f r angs cs n -> H. unfold fill_shell. induction cs as [|[[c0 c1] c2] cs IH]; [reflexivity|]. cbn [fold_left bind].
  assert (P : shell_pass C x0 y0 z0 f r angs (repeat 0 (length angs)) (c0, c1, c2) = Ok (repeat 0 (length angs))).
  { unfold shell_pass. clear IH. induction angs as [|[th ph] angs IH]; [reflexivity|]. cbn [length repeat combine mapM].
    destruct (H (sphere2cart r ph th c0 c1 c2)) as [-> |(i & -> & E)]; rewrite ?E; cbn [bind]; rewrite IH; reflexivity. }
  rewrite P. exact IH.
Qed.

Lemma read_zeros : forall C x0 y0 z0 p, sample_voxel C x0 y0 z0 p = None \/ exists i, sample_voxel C x0 y0 z0 p = Some i /\ read_voxel (zeros C) i = Ok 0.
Proof.
  intros C x0 y0 z0 [[x y] z]. unfold sample_voxel.
  destruct (option_map Zfloor _) as [xi|]; [|now left]. destruct (option_map Zfloor _) as [yi|]; [|now left]. destruct (option_map Zfloor _) as [zi|]; [|now left].
  destruct (_ && _) eqn:E; [|now left]. right. exists (xi, yi, zi). split; [reflexivity|].
  rewrite !andb_true_iff, !Z.leb_le, !Z.ltb_lt in E. destruct E as (((((A & B) & D) & F) & G) & I).
  assert (RP : forall T (v d : T) n k, (0 <= k < Z.of_nat n)%Z -> py_get (repeat v n) k = Ok v).
  { intros T v d n k Hk. rewrite (py_get_ok _ _ k v) by (rewrite repeat_length; lia). f_equal.
    assert (Q : In (nth (Z.to_nat k) (repeat v n) v) (repeat v n)) by (apply nth_In; rewrite repeat_length; lia). now apply repeat_spec in Q. }
  unfold read_voxel, zeros. rewrite RP by (exact [] || lia). cbn [bind]. rewrite RP by (exact [] || lia). cbn [bind]. apply RP; [exact 0|lia].
Qed.

(** [setup_cube] with [numz = 0] raises, but replaces the cube by one without
    voxels: later maps are those of a field of zeros. *)
Theorem C77_no_layers : forall ok pix2ang ud h C C0 S f xmin xmax numx ymin ymax numy zmin zmax,
  cube_in_force h C -> shells_in_force ok h C0 S -> (0 < numx)%Z -> (0 < numy)%Z ->
  let c := CCube xmin xmax numx ymin ymax numy zmin zmax 0 in
  snd (step ok pix2ang ud (run ok pix2ang ud fresh h) c) = Err IndexError /\
  snd (step ok pix2ang ud (run ok pix2ang ud fresh (h ++ [c])) (CRemap f)) = snd (step ok pix2ang ud (run ok pix2ang ud fresh h) (CRemap (zeros C))).
Proof.
  intros ok pix2ang ud h C C0 S f xmin xmax numx ymin ymax numy zmin zmax HC HS Nx Ny c.
  rewrite (C77_remap ok pix2ang ud h C C0 S) by auto. cbn [snd]. rewrite run_app. cbn [run].
  assert (KC := force_cube ok pix2ang ud h fresh C HC). assert (KS := force_shells ok pix2ang ud h fresh C0 S HS).
  set (s := run ok pix2ang ud fresh h) in *. clearbody s. destruct (force_size _ _ HC) as (L1 & L2 & L3).
  unfold c. cbn [step]. unfold cube_step. replace (0 <? numx)%Z with true by (symmetry; apply Z.ltb_lt; lia).
  replace (0 <? numy)%Z with true by (symmetry; apply Z.ltb_lt; lia). cbn [negb]. rewrite linspaceZ_ok by lia.
  rewrite length_linspace. change (Z.to_nat (0 + 1)) with 1%nat. cbn [Nat.ltb Nat.leb fst snd]. split; [reflexivity|]. f_equal.
  destruct KS as (rr & A & B & D & E & E' & F & G & I).
  destruct KC as (_ & _ & _ & _ & _ & _ & _ & _ & K & _).
  set (xe := linspace xmin xmax _). set (ye := linspace ymin ymax _). set (ze := linspace zmin zmax 1).
  assert (Lx : (1 <= length xe)%nat) by (unfold xe; rewrite length_linspace; lia).
  assert (Ly : (1 <= length ye)%nat) by (unfold ye; rewrite length_linspace; lia).
  assert (Lz : (1 <= length ze)%nat) by (unfold ze; rewrite length_linspace; lia).
  assert (Mz : mid_points ze = []) by (apply length_zero_iff_nil; unfold mid_points, ze, linspace; reflexivity).
  unfold remap_of. cbn [a_rmid a_nside a_rebin_shell a_rebin_r a_centers a_rebin_redges a_rebin_rmid]. rewrite A, B, D, E, F, G, I. cbn [need bind].
  rewrite <- E'. replace (Shells (sh_rmid S) (sh_nside S) (sh_rebin_shell S) (sh_rebin_r S) (sh_centers S) (sh_rebin_redges S) (sh_rebin_rmid S)) with S by (destruct S; reflexivity).
  set (C1 := CubeGrid xe ye ze (mid_points xe) (mid_points ye) (mid_points ze) (nth 1 xe 0 - nth 0 xe 0) (nth 1 ye 0 - nth 0 ye 0) (cu_dz C) [] [] []).
  assert (SC : match sh_centers S with [] => Ok unread_cube | _ :: _ => seen_cube
     (CObj (Some xe) (Some ye) (Some ze) (Some (mid_points xe)) (Some (mid_points ye)) (Some (mid_points ze)) (Some (nth 1 xe 0 - nth 0 xe 0)) (Some (nth 1 ye 0 - nth 0 ye 0)) (a_dz s)
        (a_rmid s) (a_nside s) (a_rebin_shell s) (a_rebin_r s) (a_centers s) (a_rebin_redges s) (a_rebin_rmid s)) end =
     Ok (match sh_centers S with [] => unread_cube | _ :: _ => C1 end)).
  { destruct (sh_centers S); [reflexivity|]. unfold seen_cube. cbn [a_xedges a_yedges a_zedges a_xmid a_ymid a_zmid a_dx a_dy a_dz need bind]. rewrite K. cbn [need bind].
    rewrite !(py_get_ok _ _ 0 0) by lia. reflexivity. }
  rewrite A, B, D, E, F, G, I in SC. rewrite SC. cbn [bind]. clear SC. destruct (sh_centers S) as [|ct cs] eqn:EC.
  - apply (remap_same pix2ang ud unread_cube C S f (zeros C) 0 0 0 (nth 0 (cu_xedges C) 0) (nth 0 (cu_yedges C) 0) (nth 0 (cu_zedges C) 0));
      try (rewrite (py_get_ok _ _ 0 0) by lia; reflexivity); try reflexivity. intros. rewrite EC. reflexivity.
  - apply (remap_same pix2ang ud C1 C S f (zeros C) (nth 0 xe 0) (nth 0 ye 0) (nth 0 ze 0) (nth 0 (cu_xedges C) 0) (nth 0 (cu_yedges C) 0) (nth 0 (cu_zedges C) 0));
      try (rewrite (py_get_ok _ _ 0 0) by (cbn [C1 cu_xedges cu_yedges cu_zedges]; lia); reflexivity).
    intros r angs. cbn zeta. rewrite !fill_keep; auto.
    + intros p. apply read_zeros.
    + intros [[x y] z]. left. unfold sample_voxel.
      destruct (option_map Zfloor _) as [xi|]; [|reflexivity]. destruct (option_map Zfloor _) as [yi|]; [|reflexivity]. destruct (option_map Zfloor _) as [zi|]; [|reflexivity].
      cbn [C1 cu_xmid cu_ymid cu_zmid]. rewrite Mz. cbn [length]. destruct (_ && _) eqn:Q; [|reflexivity].
      rewrite !andb_true_iff, !Z.leb_le, !Z.ltb_lt in Q. exfalso. lia.
Qed.
Print Assumptions C77_no_layers.

(** ... with [numz = -1] there is no cube left, ... *)
Theorem C77_no_edges : forall ok pix2ang ud h C0 S f xmin xmax numx ymin ymax numy zmin zmax,
  shells_in_force ok h C0 S -> sh_centers S <> [] -> (0 < numx)%Z -> (0 < numy)%Z ->
  let c := CCube xmin xmax numx ymin ymax numy zmin zmax (-1) in
  snd (step ok pix2ang ud (run ok pix2ang ud fresh h) c) = Err IndexError /\
  snd (step ok pix2ang ud (run ok pix2ang ud fresh (h ++ [c])) (CRemap f)) = Err IndexError.
Proof.
  intros ok pix2ang ud h C0 S f xmin xmax numx ymin ymax numy zmin zmax HS Hc Nx Ny c.
  rewrite run_app. cbn [run]. assert (KS := force_shells ok pix2ang ud h fresh C0 S HS).
  set (s := run ok pix2ang ud fresh h) in *. clearbody s.
  unfold c. cbn [step]. unfold cube_step. replace (0 <? numx)%Z with true by (symmetry; apply Z.ltb_lt; lia).
  replace (0 <? numy)%Z with true by (symmetry; apply Z.ltb_lt; lia). cbn [negb]. rewrite linspaceZ_ok by lia.
  rewrite length_linspace. change (Z.to_nat (-1 + 1)) with 0%nat. cbn [Nat.ltb Nat.leb fst snd]. split; [reflexivity|].
  destruct KS as (rr & A & B & D & E & E' & F & G & I).
  unfold remap_of. cbn [a_rmid a_nside a_rebin_shell a_rebin_r a_centers a_rebin_redges a_rebin_rmid]. rewrite A, B, D, E, F, G, I. cbn [need bind].
  destruct (sh_centers S); [now destruct Hc|]. unfold seen_cube. cbn [a_xedges a_yedges a_zedges need bind].
  rewrite !(py_get_ok _ (linspace _ _ (Z.to_nat (_ + 1))) 0 0) by (rewrite length_linspace; lia). cbn [bind]. reflexivity.
Qed.
Print Assumptions C77_no_edges.

Lemma fill_ext : forall C C' x0 y0 z0 f r angs cs s, (forall p, sample_voxel C x0 y0 z0 p = sample_voxel C' x0 y0 z0 p) ->
  fill_shell C x0 y0 z0 f r angs cs s = fill_shell C' x0 y0 z0 f r angs cs s.
Proof.
  intros C C' x0 y0 z0 f r angs cs s H. unfold fill_shell. generalize (Ok s). induction cs as [|[[c0 c1] c2] cs IH]; intros a; [reflexivity|]. cbn [fold_left].
  assert (P : forall l, shell_pass C x0 y0 z0 f r angs l (c0, c1, c2) = shell_pass C' x0 y0 z0 f r angs l (c0, c1, c2)).
  { intros l. unfold shell_pass. generalize (combine l angs). intros w. induction w as [|[o [t u]] w IW]; [reflexivity|]. cbn [mapM]. now rewrite H, IW. }
  destruct a as [l|e]; cbn [bind]; [rewrite P|]; apply IH.
Qed.

(** ... and with [numz <= -2] the old cube is left at the new corner in x and y. *)
Theorem C77_moved : forall ok pix2ang ud h V C0 S f xmin xmax numx ymin ymax numy zmin zmax numz,
  cube_in_force h (the_cube V) -> shells_in_force ok h C0 S -> (0 < numx)%Z -> (0 < numy)%Z -> (numz <= -2)%Z ->
  let c := CCube xmin xmax numx ymin ymax numy zmin zmax numz in
  let V' := Voxels xmin (bhx V) (bnx V) ymin (bhy V) (bny V) (bz0 V) (bhz V) (bnz V) in
  snd (step ok pix2ang ud (run ok pix2ang ud fresh h) c) = Err ValueError /\
  snd (step ok pix2ang ud (run ok pix2ang ud fresh (h ++ [c])) (CRemap f)) = (g <- cube_remap pix2ang ud (the_cube V') S f ;; Ok (VMap g)).
Proof.
  intros ok pix2ang ud h V C0 S f xmin xmax numx ymin ymax numy zmin zmax numz HC HS Nx Ny Nz c V'.
  rewrite run_app. cbn [run].
  assert (KC := force_cube ok pix2ang ud h fresh _ HC). assert (KS := force_shells ok pix2ang ud h fresh C0 S HS).
  set (s := run ok pix2ang ud fresh h) in *. clearbody s. destruct (force_size _ _ HC) as (L1 & L2 & L3).
  unfold c. cbn [step]. unfold cube_step. replace (0 <? numx)%Z with true by (symmetry; apply Z.ltb_lt; lia).
  replace (0 <? numy)%Z with true by (symmetry; apply Z.ltb_lt; lia). cbn [negb]. rewrite linspaceZ_err by lia.
  cbn [fst snd]. split; [reflexivity|]. f_equal.
  destruct KS as (rr & A & B & D & E & E' & F & G & I).
  destruct KC as (_ & _ & K3 & K4 & K5 & K6 & K7 & K8 & K9 & _).
  set (xe := linspace xmin xmax _). set (ye := linspace ymin ymax _).
  assert (Lx : (1 <= length xe)%nat) by (unfold xe; rewrite length_linspace; lia).
  assert (Ly : (1 <= length ye)%nat) by (unfold ye; rewrite length_linspace; lia).
  assert (X0 : nth 0 xe 0 = xmin) by (unfold xe; rewrite nth_linspace by lia; cbn [INR]; field; apply not_0_INR; lia).
  assert (Y0 : nth 0 ye 0 = ymin) by (unfold ye; rewrite nth_linspace by lia; cbn [INR]; field; apply not_0_INR; lia).
  unfold remap_of. cbn [a_rmid a_nside a_rebin_shell a_rebin_r a_centers a_rebin_redges a_rebin_rmid]. rewrite A, B, D, E, F, G, I. cbn [need bind].
  rewrite <- E'. replace (Shells (sh_rmid S) (sh_nside S) (sh_rebin_shell S) (sh_rebin_r S) (sh_centers S) (sh_rebin_redges S) (sh_rebin_rmid S)) with S by (destruct S; reflexivity).
  cbn [the_cube cu_xedges cu_yedges cu_zedges] in L1, L2, L3. rewrite tab_length in L1, L2, L3.
  destruct (sh_centers S) as [|ct cs] eqn:EC.
  - cbn [bind]. apply (remap_same pix2ang ud unread_cube (the_cube V') S f f 0 0 0
      (nth 0 (cu_xedges (the_cube V')) 0) (nth 0 (cu_yedges (the_cube V')) 0) (nth 0 (cu_zedges (the_cube V')) 0)); try reflexivity.
    intros. rewrite EC. reflexivity.
  - unfold seen_cube. cbn [a_xedges a_yedges a_zedges a_xmid a_ymid a_zmid a_dx a_dy a_dz need bind]. rewrite K3, K4, K5, K6, K7, K8, K9. cbn [need bind].
    rewrite (py_get_ok _ xe 0 0), (py_get_ok _ ye 0 0), (py_get_ok _ (cu_zedges _) 0 0) by (cbn [the_cube cu_zedges]; rewrite ?tab_length; lia). cbn [bind].
    change (Z.to_nat 0) with 0%nat.
    apply (remap_same pix2ang ud _ (the_cube V') S f f xmin ymin (bz0 V) xmin ymin (bz0 V)).
    + cbn [cu_xedges]. rewrite (py_get_ok _ xe 0 0) by lia. change (Z.to_nat 0) with 0%nat. now rewrite X0.
    + cbn [cu_yedges]. rewrite (py_get_ok _ ye 0 0) by lia. change (Z.to_nat 0) with 0%nat. now rewrite Y0.
    + cbn [cu_zedges the_cube]. rewrite (py_get_ok _ _ 0 0) by (rewrite tab_length; lia). change (Z.to_nat 0) with 0%nat. rewrite tab_nth by lia. f_equal. cbn [INR]. ring.
    + cbn [cu_xedges the_cube V' bx0 bhx bnx]. rewrite (py_get_ok _ _ 0 0) by (rewrite tab_length; lia). change (Z.to_nat 0) with 0%nat. rewrite tab_nth by lia. f_equal. cbn [INR]. ring.
    + cbn [cu_yedges the_cube V' by0 bhy bny]. rewrite (py_get_ok _ _ 0 0) by (rewrite tab_length; lia). change (Z.to_nat 0) with 0%nat. rewrite tab_nth by lia. f_equal. cbn [INR]. ring.
    + cbn [cu_zedges the_cube V' bz0 bhz bnz]. rewrite (py_get_ok _ _ 0 0) by (rewrite tab_length; lia). change (Z.to_nat 0) with 0%nat. rewrite tab_nth by lia. f_equal. cbn [INR]. ring.
    + intros r angs. cbn zeta. apply fill_ext. intros [[x y] z]. unfold sample_voxel.
      cbn [the_cube V' cu_xmid cu_ymid cu_zmid cu_dx cu_dy cu_dz bhx bhy bhz bnx bny bnz]. rewrite !tab_length. reflexivity.
Qed.
Print Assumptions C77_moved.

Lemma made_sizes : forall ok C c S, makes_shells ok C c S ->
  (2 <= length (sh_rmid S))%nat /\ (1 <= sh_rebin_r S)%nat /\ length (sh_rebin_redges S) = (length (sh_rmid S) * sh_rebin_r S + 1)%nat.
Proof.
  intros ok C c S H. destruct c as [|rmin rmax numr nside ct rs rr px py pz| |]; cbn [makes_shells] in H; try contradiction.
  unfold setup_shells, py_assert in H.
  destruct (Rle_bool 0 rmin); [|discriminate]. destruct (Rlt_bool rmin rmax); [|discriminate].
  destruct (Z.ltb_spec 0 numr) as [H1|]; [|discriminate]. destruct (Nat.eqb_spec (length ct) 3) as [H2|]; [|discriminate].
  destruct (1 <=? rs)%Z; [|discriminate]. destruct (ok nside); [|discriminate]. destruct (ok (nside * rs)%Z); [|discriminate].
  destruct (Z.leb_spec 1 rr) as [H3|]; [|discriminate].
  rewrite linspaceZ_ok in H by lia. cbn [bind] in H.
  set (re := linspace rmin rmax (Z.to_nat (numr + 1))) in *. set (rm := map2 _ (tl re) _) in *.
  assert (L : (2 <= length rm)%nat).
  { destruct rm as [|r0 [|r1 t]]; cbn [length]; [discriminate|discriminate|lia]. }
  clearbody rm.
  do 13 match type of H with bind ?m _ = _ => destruct m; cbn [bind] in H; [|discriminate] end.
  rewrite linspaceZ_ok in H by nia. cbn [bind] in H.
  apply Ok_inj in H. subst S. cbn [sh_rmid sh_rebin_r sh_rebin_redges]. rewrite length_linspace. nia.
Qed.

(** A set-up of a single shell raises, but replaces the shells kept for the
    final averaging: whatever could be remapped before now raises, until the
    shells are set up again. *)
Theorem C77_single_shell : forall ok pix2ang ud h C C0 S f g rmin rmax nside ct rs rr px py pz,
  cube_in_force h C -> shells_in_force ok h C0 S ->
  let c := CPolar rmin rmax 1 nside ct rs rr px py pz in
  shells_call ok c ->
  snd (step ok pix2ang ud (run ok pix2ang ud fresh h) c) = Err IndexError /\
  (snd (step ok pix2ang ud (run ok pix2ang ud fresh h) (CRemap f)) = Ok (VMap g) ->
   snd (step ok pix2ang ud (run ok pix2ang ud fresh (h ++ [c])) (CRemap f)) = Err ValueError).
Proof.
  intros ok pix2ang ud h C C0 S f g rmin rmax nside ct rs rr px py pz HC HS c Hc.
  rewrite (C77_remap ok pix2ang ud h C C0 S) by auto. rewrite run_app. cbn [run snd].
  assert (KC := force_cube ok pix2ang ud h fresh C HC). assert (KS := force_shells ok pix2ang ud h fresh C0 S HS).
  assert (MS : exists c0, makes_shells ok C0 c0 S) by (destruct HS as (h1 & c0 & h2 & _ & _ & H & _); now exists c0).
  destruct MS as (c0 & MS). destruct (made_sizes _ _ _ _ MS) as (N1 & N2 & N3).
  set (s := run ok pix2ang ud fresh h) in *. clearbody s.
  unfold c. cbn [step]. unfold polar_step. cbn [shells_call c] in Hc. apply (checks_spec ok pix2ang ud) in Hc. rewrite Hc. cbn [negb].
  set (re := linspace rmin rmax (Z.to_nat (1 + 1))). assert (LR : length (mid_points re) = 1%nat) by reflexivity.
  rewrite LR. cbn [Nat.ltb Nat.leb fst snd]. split; [reflexivity|]. intros OK.
  set (s1 := CObj _ _ _ _ _ _ _ _ _ _ _ _ _ _ _ _).
  assert (KS1 : has_shells s1 (Shells (mid_points re) (sh_nside S) (sh_rebin_shell S) (sh_rebin_r S) (sh_centers S) (sh_rebin_redges S) (sh_rebin_rmid S))).
  { destruct KS as (r & A & B & D & E & E' & F & G & I). exists r. unfold s1.
    cbn [a_rmid a_nside a_rebin_shell a_rebin_r a_centers a_rebin_redges a_rebin_rmid sh_rmid sh_nside sh_rebin_shell sh_rebin_r sh_centers sh_rebin_redges sh_rebin_rmid].
    repeat split; auto. }
  assert (KC1 : has_cube s1 C) by exact KC.
  rewrite (remap_force pix2ang ud s1 C _ f KC1 KS1). clear s1 KC1 KS1 KC KS.
  unfold cube_remap in *. cbn [sh_rmid sh_nside sh_rebin_shell sh_rebin_r sh_centers sh_rebin_redges sh_rebin_rmid].
  destruct (py_get (cu_xedges C) 0); [|discriminate]. destruct (py_get (cu_yedges C) 0); [|discriminate]. destruct (py_get (cu_zedges C) 0); [|discriminate].
  cbn [bind] in *. destruct (mapM _ (sh_rebin_rmid S)) as [rows|]; [|discriminate]. cbn [bind]. rewrite LR.
  unfold reshape3 at 1. set (w := map2 _ _ _).
  assert (LW : length w = (length (sh_rmid S) * sh_rebin_r S)%nat).
  { unfold w. rewrite map2_length, PGrids.length_removelast, PGrids.length_tl. lia. }
  replace (length (concat [w])) with (length w) by (cbn [concat]; now rewrite app_nil_r).
  destruct (Nat.eqb_spec (length w) (1 * 1 * sh_rebin_r S)) as [Q|Q]; [exfalso; nia|]. reflexivity.
Qed.
Print Assumptions C77_single_shell.

(** ** Stale images *)

(** Two cubes of one voxel, with sides 1 and 2, and shells of radius up to 1/4
    seen from (-3/2, 1, 1), to be moved by one cube length in x. *)
Definition small : voxels := voxel_grid 0 1 1 0 1 1 0 1 1.
Definition large : voxels := voxel_grid 0 2 1 0 2 1 0 2 1.
Definition moved_shells : shell_set := ShellSet 0 (/ 4) 2 1 1 1 (V3 (- (3 / 2)) 1 1) (1, 1)%Z (0, 0)%Z (0, 0)%Z.
Definition fixed_shells (x : R) : shell_set := ShellSet 0 (/ 4) 2 1 1 1 (V3 x 1 1) (0, 0)%Z (0, 0)%Z (0, 0)%Z.

Definition cube_of (L : R) : call := CCube 0 L 1 0 L 1 0 L 1.
Definition shells_of : call := CPolar 0 (/ 4) 2 1 [- (3 / 2); 1; 1] 1 1 (1, 1)%Z (0, 0)%Z (0, 0)%Z.

Lemma small_images : the_shells small moved_shells = the_shells large (fixed_shells (- / 2)).
Proof.
  assert (Z0 : zrange (0, 0)%Z = [0%Z]) by reflexivity. assert (Z1 : zrange (1, 1)%Z = [1%Z]) by reflexivity.
  unfold the_shells. f_equal. unfold images, moved_shells, fixed_shells, small, large, voxel_grid.
  cbn [ss_c ss_px ss_py ss_pz bnx bny bnz bhx bhy bhz vx vy vz]. rewrite Z0, Z1. cbn [flat_map map app vx vy vz INR].
  assert (TR : forall a a' b b' c c' : R, a = a' -> b = b' -> c = c' -> [(a, b, c)] = [(a', b', c')]) by (intros; subst; reflexivity).
  apply TR; field.
Qed.

Lemma large_images : the_shells large moved_shells = the_shells large (fixed_shells (/ 2)).
Proof.
  assert (Z0 : zrange (0, 0)%Z = [0%Z]) by reflexivity. assert (Z1 : zrange (1, 1)%Z = [1%Z]) by reflexivity.
  unfold the_shells. f_equal. unfold images, moved_shells, fixed_shells, small, large, voxel_grid.
  cbn [ss_c ss_px ss_py ss_pz bnx bny bnz bhx bhy bhz vx vy vz]. rewrite Z0, Z1. cbn [flat_map map app vx vy vz INR].
  assert (TR : forall a a' b b' c c' : R, a = a' -> b = b' -> c = c' -> [(a, b, c)] = [(a', b', c')]) by (intros; subst; reflexivity).
  apply TR; field.
Qed.

Lemma large_good : good_voxels large.
Proof. unfold good_voxels, large, voxel_grid. cbn. lra. Qed.
Lemma fixed_good : forall x, good_shells (fixed_shells x).
Proof. intros. unfold good_shells, fixed_shells. cbn. repeat split; try lra; lia. Qed.

Lemma near : forall c r ang, 0 <= r -> let p := seen_from c r ang in
  vx c - r <= vx p <= vx c + r /\ vy c - r <= vy p <= vy c + r /\ vz c - r <= vz p <= vz c + r.
Proof.
  intros [a b d] r [t u] Hr. unfold seen_from. cbn [vx vy vz fst snd].
  pose proof (COS_bound u). pose proof (SIN_bound u). pose proof (COS_bound t). pose proof (SIN_bound t).
  assert (A : -1 <= cos u * sin t <= 1) by (split; nra). assert (B : -1 <= sin u * sin t <= 1) by (split; nra). split; [|split]; nra.
Qed.

Lemma fixed_mid : forall x k, (k < 2)%nat -> 0 < shell_mid (fixed_shells x) k < / 4.
Proof. intros x k Hk. unfold shell_mid, fixed_shells. cbn [ss_rmin ss_rmax ss_nr ss_b]. destruct k as [|[|k]]; [| |lia]; cbn; lra. Qed.

Lemma fixed_remap : forall pix2ang ud x v, (forall m, length (ud m 1%Z) = 12%nat) -> (forall m, length m = 12%nat -> ud m 1%Z = m) ->
  x = - / 2 /\ v = 0 \/ x = / 2 /\ v = 1 ->
  cube_remap pix2ang ud (the_cube large) (the_shells large (fixed_shells x)) [[[1]]] = Ok (tab2 2 12 (fun _ _ => Some v)).
Proof.
  intros pix2ang ud x v Hl Hud Hx. rewrite cube_remap_ok; try exact large_good; try apply fixed_good; try (cbn; lia); try exact Hl.
  2:{ apply (tab3_shape 1 1 1 (fun _ _ _ => 1)). }
  f_equal. change (ss_nr (fixed_shells x)) with 2%nat. change (pixels_of (ss_nside (fixed_shells x))) with 12%nat. apply tab2_ext. intros j q Hj Hq. f_equal.
  change (ss_b (fixed_shells x)) with 1%nat. change (ss_nside (fixed_shells x)) with 1%Z. change (ss_s (fixed_shells x)) with 1%Z.
  set (dirs := fun q => pix2ang (1 * 1)%Z (Z.of_nat q)). set (sh := shell_of large (fixed_shells x) dirs [[[1]]] (j * 1 + 0)).
  assert (SS : sampled_shell large (fixed_shells x) dirs [[[1]]] (j * 1 + 0) sh) by (apply shell_of_sampled; exact large_good).
  destruct SS as [Ls Hs]. change (pixels_of _) with 12%nat in Ls, Hs. specialize (Hs q Hq).
  rewrite (images_single large (fixed_shells x)) in Hs by (repeat split). cbn [map] in Hs.
  apply last_single in Hs.
  assert (W := shell_weight_pos (fixed_shells x) j 0 (fixed_good x)).
  assert (K : forall w u, 0 < w 0%nat -> bins_mean 1 w u = u 0%nat).
  { intros w u Hw. unfold bins_mean. rewrite !sum_S. unfold sum_upto. cbn. field. lra. }
  rewrite K by exact W. cbv beta. change (shell_of _ _ _ _ _) with sh. rewrite Hud by exact Ls. clear K W.
  replace (j * 1 + 0)%nat with j in Hs by lia. pose proof (fixed_mid x j Hj) as M.
    pose proof (near (ss_c (fixed_shells x)) (shell_mid (fixed_shells x) j) (dirs q) ltac:(lra)) as NR. cbn zeta in NR.
    set (p := seen_from _ _ _) in *. change (vx (ss_c (fixed_shells x))) with x in NR. change (vy (ss_c (fixed_shells x))) with 1 in NR. change (vz (ss_c (fixed_shells x))) with 1 in NR.
    destruct Hx as [[-> ->]|[-> ->]].
    + destruct Hs as [(i & k & l & Hv & _)|[_ Hv]]; [|exact Hv]. exfalso. apply in_voxel_cube in Hv; [|exact large_good]. unfold in_cube in Hv.
      change (bx0 large) with 0 in Hv. lra.
    + destruct Hs as [(i & k & l & Hv & E)|[Ho _]].
      * destruct Hv as (Hi & Hk & Hll & _). change (bnx large) with 1%nat in Hi. change (bny large) with 1%nat in Hk. change (bnz large) with 1%nat in Hll.
        assert (i = 0%nat) by lia. assert (k = 0%nat) by lia. assert (l = 0%nat) by lia. subst. exact E.
      * exfalso. apply Ho. unfold in_cube, large, voxel_grid. cbn [bx0 by0 bz0 bhx bhy bhz bnx bny bnz INR]. lra.
Qed.

(** User expectation: after a new [setup_cube] the images of the centre are those
    of the new cube.  Violated: the shells lie in the large cube, whose only
    voxel has the value 1, and [remap] returns zeros, ... until [setup_polar] is
    repeated.  [ud_grade] to the same resolution is taken to return its
    argument. *)
Theorem C77_stale_refuted : forall ok pix2ang ud, ok 1%Z = true ->
  (forall m, length (ud m 1%Z) = 12%nat) -> (forall m, length m = 12%nat -> ud m 1%Z = m) ->
  let h := [cube_of 1; shells_of; cube_of 2] in
  cube_in_force h (the_cube large) /\
  (exists g, snd (step ok pix2ang ud (run ok pix2ang ud fresh h) (CRemap [[[1]]])) = Ok (VMap g) /\
     forall i j, (i < 2)%nat -> (j < 12)%nat -> nth j (nth i g []) None = Some 0) /\
  (exists g, snd (step ok pix2ang ud (run ok pix2ang ud fresh (h ++ [shells_of])) (CRemap [[[1]]])) = Ok (VMap g) /\
     forall i j, (i < 2)%nat -> (j < 12)%nat -> nth j (nth i g []) None = Some 1).
Proof.
  intros ok pix2ang ud Ho Hl Hud h.
  assert (M1 : makes_cube (cube_of 1) (the_cube small)) by (apply (setup_cube_ok 0 1 1 0 1 1 0 1 1); lia).
  assert (M2 : makes_cube (cube_of 2) (the_cube large)) by (apply (setup_cube_ok 0 2 1 0 2 1 0 2 1); lia).
  assert (GM : good_shells moved_shells) by (unfold good_shells, moved_shells; cbn; repeat split; try lra; lia).
  assert (S1 : makes_shells ok (the_cube small) shells_of (the_shells small moved_shells)) by (apply (setup_shells_ok ok small moved_shells GM); auto).
  assert (S2 : makes_shells ok (the_cube large) shells_of (the_shells large moved_shells)) by (apply (setup_shells_ok ok large moved_shells GM); auto).
  assert (F1 : cube_in_force [cube_of 1] (the_cube small)).
  { exists [], (cube_of 1), []. split; [reflexivity|]. split; [exact M1|]. split; [intros []|intros c []]. }
  assert (F2 : cube_in_force h (the_cube large)).
  { exists [cube_of 1; shells_of], (cube_of 2), []. split; [reflexivity|]. split; [exact M2|]. split; [intros []|intros c []]. }
  assert (G1 : shells_in_force ok h (the_cube small) (the_shells small moved_shells)).
  { exists [cube_of 1], shells_of, [cube_of 2]. split; [reflexivity|]. split; [exact F1|]. split; [exact S1|].
    split; [intros [Q|[]]; discriminate|intros c [<- |[]] []]. }
  split; [exact F2|]. split.
  - rewrite (C77_remap ok pix2ang ud h _ _ _ _ F2 G1), small_images, (fixed_remap pix2ang ud (- / 2) 0) by auto. cbn [bind snd].
    eexists. split; [reflexivity|]. intros i j Hi Hj. unfold tab2. now rewrite !tab_nth.
  - assert (F3 : cube_in_force (h ++ [shells_of]) (the_cube large)) by (apply force_snoc; [exact F2|discriminate|intros []]).
    assert (G2 : shells_in_force ok (h ++ [shells_of]) (the_cube large) (the_shells large moved_shells)).
    { exists h, shells_of, []. split; [reflexivity|]. split; [exact F2|]. split; [exact S2|]. split; [intros []|intros c []]. }
    rewrite (C77_remap ok pix2ang ud _ _ _ _ _ F3 G2), large_images, (fixed_remap pix2ang ud (/ 2) 1) by auto. cbn [bind snd].
    eexists. split; [reflexivity|]. intros i j Hi Hj. unfold tab2. now rewrite !tab_nth.
Qed.
Print Assumptions C77_stale_refuted.

(** The hypotheses above are met: a cube of side 1, shells, and a cube of side 1
    elsewhere; a refused call and a single shell in between. *)
Example C77_example : forall ok ud, ok 1%Z = true -> exists C C0 S,
  let h1 := [cube_of 1] in let h2 := [CCube 5 6 0 5 6 1 5 6 1; CCube 5 6 1 5 6 1 5 6 1] in
  cube_in_force h1 C0 /\ makes_shells ok C0 shells_of S /\ ~ In CClean h2 /\ (forall c', In c' h2 -> ~ shells_call ok c') /\
  cube_in_force (h1 ++ shells_of :: h2) C /\ sides C0 = sides C /\ sh_centers S <> [] /\
  shells_in_force ok (h1 ++ shells_of :: h2) C0 S /\
  shells_call ok (CPolar 0 1 1 1 [0; 0; 0] 1 1 (0, 0)%Z (0, 0)%Z (0, 0)%Z) /\
  (forall k, snd (step ok (fun _ _ => (0, 0)) ud (run ok (fun _ _ => (0, 0)) ud fresh [cube_of 1; CPolar 0 1 1 k [0; 0; 0] 1 1 (0, 0)%Z (0, 0)%Z (0, 0)%Z]) (CRemap [[[1]]])) = Err TypeError).
Proof.
  intros ok ud Ho. exists (the_cube (voxel_grid 5 6 1 5 6 1 5 6 1)), (the_cube small), (the_shells small moved_shells). cbn zeta.
  assert (M1 : makes_cube (cube_of 1) (the_cube small)) by (apply (setup_cube_ok 0 1 1 0 1 1 0 1 1); lia).
  assert (M2 : makes_cube (CCube 5 6 1 5 6 1 5 6 1) (the_cube (voxel_grid 5 6 1 5 6 1 5 6 1))) by (apply (setup_cube_ok 5 6 1 5 6 1 5 6 1); lia).
  assert (GM : good_shells moved_shells) by (unfold good_shells, moved_shells; cbn; repeat split; try lra; lia).
  assert (S1 : makes_shells ok (the_cube small) shells_of (the_shells small moved_shells)) by (apply (setup_shells_ok ok small moved_shells GM); auto).
  assert (F1 : cube_in_force [cube_of 1] (the_cube small)).
  { exists [], (cube_of 1), []. split; [reflexivity|]. split; [exact M1|]. split; [intros []|intros c []]. }
  assert (N1 : ~ In CClean [CCube 5 6 0 5 6 1 5 6 1; CCube 5 6 1 5 6 1 5 6 1]) by (intros [Q|[Q|[]]]; discriminate).
  assert (N2 : forall c', In c' [CCube 5 6 0 5 6 1 5 6 1; CCube 5 6 1 5 6 1 5 6 1] -> ~ shells_call ok c') by (intros c [<- |[<- |[]]] []).
  split; [exact F1|]. split; [exact S1|]. split; [exact N1|]. split; [exact N2|]. split.
  { exists [cube_of 1; shells_of; CCube 5 6 0 5 6 1 5 6 1], (CCube 5 6 1 5 6 1 5 6 1), []. split; [reflexivity|]. split; [exact M2|]. split; [intros []|intros c []]. }
  split. { unfold sides, the_cube, small, voxel_grid. cbn. f_equal; [f_equal|]; field. }
  split; [discriminate|]. split. { exists [cube_of 1], shells_of, [CCube 5 6 0 5 6 1 5 6 1; CCube 5 6 1 5 6 1 5 6 1]. split; [reflexivity|]. auto. }
  split. { cbn. rewrite Ho. repeat split; auto; lra || lia. }
  intros k. apply C77_unset. intros h1 c h2 E SC SO. exfalso. destruct h1 as [|a [|b h1]]; cbn [app] in E; inversion E; subst.
  - destruct SC.
  - cbn [run] in SO. apply (checks_spec ok (fun _ _ => (0, 0)) ud) in SC. cbn [step] in SO. unfold polar_step in SO. rewrite SC in SO. cbn [negb] in SO.
    destruct (_ <? 2)%nat eqn:Q; [discriminate|]. cbn in Q. discriminate.
  - destruct h1; discriminate.
Qed.

(** Exactly the documented arguments get past the assertions (the number of
    voxels in z is not among them). *)
Theorem C77_args : forall ok pix2ang ud s,
  (forall xmin xmax numx ymin ymax numy zmin zmax numz, let c := CCube xmin xmax numx ymin ymax numy zmin zmax numz in
     (~ cube_call c <-> snd (step ok pix2ang ud s c) = Err AssertionError) /\
     (cube_call c -> (1 <= numz)%Z -> snd (step ok pix2ang ud s c) = Ok VNone)) /\
  (forall rmin rmax numr nside ct rs rr px py pz, let c := CPolar rmin rmax numr nside ct rs rr px py pz in
     (~ shells_call ok c -> snd (step ok pix2ang ud s c) = Err AssertionError) /\
     (shells_call ok c -> (2 <= numr)%Z -> (exists C, has_cube s C) -> snd (step ok pix2ang ud s c) = Ok VNone)).
Proof.
  intros ok pix2ang ud s. split.
  - intros xmin xmax numx ymin ymax numy zmin zmax numz. cbn zeta. cbn [step cube_call]. unfold cube_step.
    destruct (Z.ltb_spec 0 numx); [|split; [split; [reflexivity|lia]|lia]]. destruct (Z.ltb_spec 0 numy); [|split; [split; [reflexivity|lia]|lia]].
    cbn [negb]. split.
    + split; [lia|]. intros Q. exfalso. unfold linspaceZ in Q. destruct (_ <? 0)%Z; [discriminate|]. destruct (_ <? 2)%nat; discriminate.
    + intros _ Nz. rewrite linspaceZ_ok by lia. rewrite length_linspace. destruct (Nat.ltb_spec (Z.to_nat (numz + 1)) 2); [lia|reflexivity].
  - intros rmin rmax numr nside ct rs rr px py pz. cbn zeta. cbn [step shells_call]. unfold polar_step.
    rewrite <- (checks_spec ok pix2ang ud). destruct (polar_checks _ _ _ _ _ _ _ _) eqn:K; cbn [negb].
    + split; [intros Q; now destruct Q|]. intros _ Nr (C & HC). apply (checks_spec ok pix2ang ud) in K. destruct K as (_ & _ & L & _).
      set (re := linspace _ _ _). assert (LM : length (mid_points re) = Z.to_nat numr).
      { unfold mid_points, re. rewrite map2_length, PGrids.length_tl, PGrids.length_removelast, length_linspace. lia. }
      destruct (Nat.ltb_spec (length (mid_points re)) 2); [lia|].
      destruct ct as [|c0 [|c1 [|c2 [|]]]]; cbn [length] in L; try lia.
      destruct HC as (X1 & X2 & X3 & _ & _ & _ & _ & _ & _ & L1 & L2 & L3).
      assert (CS : exists cs, centers_of s [c0; c1; c2] px py pz = Ok cs); [|destruct CS as (cs & ->); reflexivity].
      unfold centers_of. destruct (py_range px); [now eexists|]. destruct (py_range py); [now eexists|]. destruct (py_range pz); [now eexists|].
      change (py_get [c0; c1; c2] 0) with (Ok c0). change (py_get [c0; c1; c2] 1) with (Ok c1). change (py_get [c0; c1; c2] 2) with (Ok c2).
      rewrite X1, X2, X3. cbn [need bind].
      rewrite !(py_get_last _ (cu_xedges C) 0), !(py_get_last _ (cu_yedges C) 0), !(py_get_last _ (cu_zedges C) 0),
        !(py_get_ok _ (cu_xedges C) 0 0), !(py_get_ok _ (cu_yedges C) 0 0), !(py_get_ok _ (cu_zedges C) 0 0) by lia. cbn [bind]. now eexists.
    + split; [reflexivity|discriminate].
Qed.
Print Assumptions C77_args.
