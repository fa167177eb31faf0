(** * Theorems: exceptions of the [Heal2Ring] and [Heal2Polar] objects (C84) *)

From Coq Require Import Reals ZArith List Bool Lia Lra.
From Flocq Require Import Core.Raux.
From Verif Require THealSetup PHealSetup.
From Verif Require Import Base BaseP SpecSphere SpecGrid SpecHealSetup MCoords MGrids MUsphere MDense MOrtho MCube MHeal MLifeHeal
  PHealpixBoundary PPolarCoords PDense PMonte PHeal TLifeHeal.
Import ListNotations.
Open Scope R_scope.

(** ** Specification *)

(** Since the last [clean] there was a set-up with acceptable arguments and at
    least two cells each way, whether it raised later or not. *)
Definition ring_grid (h : list rcall) : Prop :=
  exists h1 a ra rb h2, h = h1 ++ RSetup a ra rb :: h2 /\ accepted a /\ (2 <= a_num_alpha a)%Z /\ (2 <= a_num_beta a)%Z /\ ~ In RClean h2.
Definition accepted_box (a : box_arg) : Prop := box_args (b_x_length a) (b_x_grid a) (b_center a) (b_y_length a) (b_y_grid a).
Definition polar_grid (h : list pcall) : Prop :=
  exists h1 a rx ry h2, h = h1 ++ PSetup a rx ry :: h2 /\ accepted_box a /\ (2 <= b_x_grid a)%Z /\ (2 <= rows (b_x_grid a) (b_y_grid a))%Z /\ ~ In PClean h2.

(** ** Lemmas *)

Definition grids_cap (a : cap_arg) : Prop := accepted a /\ (2 <= a_num_alpha a)%Z /\ (2 <= a_num_beta a)%Z.
Definition grids_box (a : box_arg) : Prop := accepted_box a /\ (2 <= b_x_grid a)%Z /\ (2 <= rows (b_x_grid a) (b_y_grid a))%Z.

Lemma cap_made : forall a, (exists C, cap_of a = Ok C) <-> grids_cap a.
Proof.
  intros a. destruct (THealSetup.C72_ring_args (a_alpha_min a) (a_alpha_max a) (a_num_alpha a) (a_num_beta a) (a_beta_min a) (a_beta_max a) (a_center a) (a_shift a)) as (A1 & A2 & A3).
  unfold grids_cap, accepted, cap_of. set (Q := ring_args _ _ _ _ _ _ _) in *. split.
  - intros [C E]. destruct (Classical_Prop.classic Q) as [Y|N]; [|rewrite (A1 N) in E; discriminate].
    split; [exact Y|]. assert (P : (0 < a_num_alpha a)%Z /\ (0 < a_num_beta a)%Z) by (unfold Q, ring_args in Y; tauto).
    destruct (Z.eq_dec (a_num_alpha a) 1) as [H|H]; [rewrite A2 in E by auto; discriminate|].
    destruct (Z.eq_dec (a_num_beta a) 1) as [H'|H']; [rewrite A2 in E by auto; discriminate|]. lia.
  - intros (Y & N1 & N2). destruct (A3 Y N1 N2) as (C & E & _). eauto.
Qed.
Lemma box_made : forall a, (exists B, hbox_of a = Ok B) <-> grids_box a.
Proof.
  intros a. destruct (THealSetup.C72_box_args (b_x_length a) (b_x_grid a) (b_center a) (b_alpha a) (b_y_length a) (b_y_grid a)) as (A1 & A2 & A3).
  unfold grids_box, accepted_box, hbox_of. set (Q := box_args _ _ _ _ _) in *. split.
  - intros [C E]. destruct (Classical_Prop.classic Q) as [Y|N]; [|rewrite (A1 N) in E; discriminate].
    split; [exact Y|]. assert (P : (0 < b_x_grid a)%Z /\ (0 < rows (b_x_grid a) (b_y_grid a))%Z).
    { destruct Y as (_ & P & _ & G & _). split; [exact P|]. unfold rows. destruct (b_y_grid a); [now apply G|exact P]. }
    destruct (Z.eq_dec (b_x_grid a) 1) as [H|H]; [rewrite A2 in E by auto; discriminate|].
    destruct (Z.eq_dec (rows (b_x_grid a) (b_y_grid a)) 1) as [H'|H']; [rewrite A2 in E by auto; discriminate|]. lia.
  - intros (Y & N1 & N2). destruct (A3 Y N1 N2) as (C & E & _). eauto.
Qed.

Lemma ring_fine_ok : forall a C ra rb, cap_of a = Ok C -> exists q, ring_fine C (Z.pos ra) (Z.pos rb) = Ok q.
Proof.
  intros a C ra rb HC. unfold cap_of in HC. destruct (cap_inv _ _ _ _ _ _ _ _ _ HC) as (Na & Nb & La & Lb & _). unfold ring_fine. cbv zeta.
  rewrite (py_get_ok _ (cp_alpha_edges C) _ 0), (py_get_last _ (cp_alpha_edges C) 0) by lia. cbn [bind].
  rewrite mid_length, linspaceZ_ok by lia. cbn [bind].
  rewrite (py_get_ok _ (cp_beta_edges C) _ 0), (py_get_last _ (cp_beta_edges C) 0) by lia. cbn [bind].
  rewrite mid_length, linspaceZ_ok by lia. cbn [bind].
  match goal with |- context [meshgrid ?u (mid ?v)] => set (x := u); set (y := v) end.
  assert (Ly : (1 <= length (mid y))%nat) by (rewrite mid_length; unfold y; rewrite length_linspace; nia).
  assert (L2 : (1 <= length (snd (meshgrid x (mid y))))%nat) by (unfold meshgrid; cbn [snd]; now rewrite map_length).
  clearbody x y. destruct (meshgrid x (mid y)) as [ra2 rb2]. cbn [snd] in L2.
  rewrite (py_get_ok _ rb2 _ []) by lia. cbn [bind]. destruct (meshgrid_ind _ _). eauto.
Qed.
Lemma hpolar_fine_ok : forall a B rx ry, hbox_of a = Ok B -> exists q, hpolar_fine B (Z.pos rx) (Z.pos ry) = Ok q.
Proof.
  intros a B rx ry HC. unfold hbox_of in HC. destruct (hbox_inv _ _ _ _ _ _ _ HC) as (Nx & g & _ & Ng & La & Lb & _). unfold hpolar_fine. cbv zeta.
  rewrite (py_get_ok _ (hb_xedges B) _ 0), (py_get_last _ (hb_xedges B) 0) by lia. cbn [bind].
  rewrite mid_length, linspaceZ_ok by lia. cbn [bind].
  rewrite (py_get_ok _ (hb_yedges B) _ 0), (py_get_last _ (hb_yedges B) 0) by lia. cbn [bind].
  rewrite mid_length, linspaceZ_ok by lia. cbn [bind]. destruct (meshgrid _ _). destruct (meshgrid_ind _ _). eauto.
Qed.

(** A grid is there exactly when some set-up made one since the last [clean]. *)
Section Grid.
Context {A C Arg : Type} (step : hobj A -> C -> hobj A * res value) (clean : C) (made : Arg -> Prop) (setup : C -> option Arg).
Hypothesis setup_clean : setup clean = None.
Hypothesis on_clean : forall s, h_made (fst (step s clean)) = None.
Hypothesis on_made : forall s c a, setup c = Some a -> made a -> h_made (fst (step s c)) <> None.
Hypothesis on_other : forall s c, c <> clean -> (forall a, setup c = Some a -> ~ made a) -> h_made (fst (step s c)) = h_made s.
Lemma grid_since : forall h, h_made (run step fresh h) <> None <-> exists h1 c a h2, h = h1 ++ c :: h2 /\ setup c = Some a /\ made a /\ ~ In clean h2.
Proof.
  intros h. induction h as [|c h IH] using rev_ind.
  - split; [intros N; now elim N|]. intros ([|? ?] & ? & ? & ? & E & _); discriminate.
  - rewrite run_app. cbn [run]. split.
    + intros H. destruct (Classical_Prop.classic (c = clean)) as [->|NC]; [rewrite on_clean in H; now elim H|].
      destruct (Classical_Prop.classic (exists a, setup c = Some a /\ made a)) as [(a & Ea & Ma)|N].
      * exists h, c, a, []. auto.
      * rewrite on_other in H by (auto; intros a Ea Ma; apply N; eauto). apply IH in H. destruct H as (h1 & d & a & h2 & -> & Ha & Hm & Hc).
        exists h1, d, a, (h2 ++ [c]). split; [now rewrite <- app_assoc|]. split; [exact Ha|]. split; [exact Hm|]. intros I. apply in_app_or in I. destruct I as [I|[I|[]]]; auto.
    + intros (h1 & d & a & h2 & E & Ha & Hm & Hc). destruct h2 as [|x h2 _] using rev_ind.
      * apply app_inj_tail in E. destruct E as [-> ->]. now apply (on_made _ _ a).
      * rewrite app_comm_cons, app_assoc in E. apply app_inj_tail in E. destruct E as [-> <-].
        assert (NC : c <> clean) by (intros ->; apply Hc; apply in_or_app; right; now left).
        destruct (Classical_Prop.classic (exists a, setup c = Some a /\ made a)) as [(a' & Ea & Ma)|N]; [now apply (on_made _ _ a')|].
        rewrite on_other by (auto; intros a' Ea Ma; apply N; eauto). apply IH. exists h1, d, a, h2. split; [reflexivity|]. repeat split; auto.
        intros I. apply Hc. apply in_or_app. now left.
Qed.
End Grid.

Definition ring_setup (c : rcall) : option cap_arg := match c with RSetup a _ _ => Some a | _ => None end.
Definition polar_setup (c : pcall) : option box_arg := match c with PSetup a _ _ => Some a | _ => None end.

Lemma ring_since : forall h, (exists h1 c a h2, h = h1 ++ c :: h2 /\ ring_setup c = Some a /\ grids_cap a /\ ~ In RClean h2) <-> ring_grid h.
Proof.
  intros h. split.
  - intros (h1 & c & a & h2 & -> & E & (G1 & G2 & G3) & N). destruct c; try discriminate. injection E as ->. exists h1, a, rebin_alpha, rebin_beta, h2. auto 10.
  - intros (h1 & a & ra & rb & h2 & -> & G1 & G2 & G3 & N). exists h1, (RSetup a ra rb), a, h2. unfold grids_cap. auto 10.
Qed.
Lemma polar_since : forall h, (exists h1 c a h2, h = h1 ++ c :: h2 /\ polar_setup c = Some a /\ grids_box a /\ ~ In PClean h2) <-> polar_grid h.
Proof.
  intros h. split.
  - intros (h1 & c & a & h2 & -> & E & (G1 & G2 & G3) & N). destruct c; try discriminate. injection E as ->. exists h1, a, rebin_x, rebin_y, h2. auto 10.
  - intros (h1 & a & ra & rb & h2 & -> & G1 & G2 & G3 & N). exists h1, (PSetup a ra rb), a, h2. unfold grids_box. auto 10.
Qed.

Lemma map_made : forall A H (s : hobj A) n np, h_made (fst (map_step H s n np)) = h_made s.
Proof. intros. unfold map_step. destruct (setup_map _ _); reflexivity. Qed.
Lemma radial_made : forall A H g (s : hobj A) f sg w, h_made (fst (radial_step H g s f sg w)) = h_made s.
Proof.
  intros. unfold radial_step. destruct (match h_area s with Some _ => _ | None => _ end); [|reflexivity].
  destruct (match h_pixarea _ with Some _ => _ | None => _ end); reflexivity.
Qed.

Lemma dense_ring_grid : forall H h, h_made (run (dense_ring H) fresh h) <> None <-> ring_grid h.
Proof.
  intros H h. rewrite <- ring_since. apply grid_since.
  - reflexivity.
  - intros s c a E G. destruct c; try discriminate. injection E as ->. apply cap_made in G. destruct G as [C EC]. cbn [dense_ring]. unfold ring_step.
    pose proof EC as EC'. rewrite cap_split in EC'. destruct (cap_edges a) as [ed|]; [|discriminate]. rewrite EC. cbn [bind].
    destruct (ring_fine_ok a C rebin_alpha rebin_beta EC) as [[F pts] EF]. rewrite EF. cbn [bind]. destruct (pixels_of _ _ _ _ _ _); discriminate.
  - intros s c NC NG. destruct c as [n np|a ra rb|m|f w|f sh|f sg w|]; cbn [dense_ring fst]; try reflexivity; [apply map_made| |apply radial_made|now elim NC].
    unfold ring_step. destruct (cap_edges a); [|reflexivity]. destruct (cap_of a) as [C|] eqn:EC; [|reflexivity]. elim (NG a eq_refl). apply cap_made. eauto.
Qed.
Lemma mc_ring_grid : forall H h, h_made (run (mc_ring H) fresh h) <> None <-> ring_grid h.
Proof.
  intros H h. rewrite <- ring_since. apply grid_since.
  - reflexivity.
  - intros s c a E G. destruct c; try discriminate. injection E as ->. apply cap_made in G. destruct G as [C EC]. cbn [mc_ring]. unfold mc_ring_step.
    pose proof EC as EC'. rewrite cap_split in EC'. destruct (cap_edges a) as [ed|]; [|discriminate]. rewrite EC. discriminate.
  - intros s c NC NG. destruct c as [n np|a ra rb|m|f w|f sh|f sg w|]; cbn [mc_ring fst]; try reflexivity; [apply map_made| |apply radial_made|now elim NC].
    unfold mc_ring_step. destruct (cap_edges a); [|reflexivity]. destruct (cap_of a) as [C|] eqn:EC; [|reflexivity]. elim (NG a eq_refl). apply cap_made. eauto.
Qed.
Lemma dense_polar_grid : forall H h, h_made (run (dense_polar H) fresh h) <> None <-> polar_grid h.
Proof.
  intros H h. rewrite <- polar_since. apply grid_since.
  - reflexivity.
  - intros s c a E G. destruct c; try discriminate. injection E as ->. apply box_made in G. destruct G as [C EC]. cbn [dense_polar]. unfold hpolar_step.
    pose proof EC as EC'. rewrite hbox_split in EC'. destruct (hbox_edges a) as [ed|]; [|discriminate]. rewrite EC. cbn [bind].
    destruct (hpolar_fine_ok a C rebin_x rebin_y EC) as [[F pts] EF]. rewrite EF. cbn [bind]. destruct (pixels_of _ _ _ _ _ _); discriminate.
  - intros s c NC NG. destruct c as [n np|a ra rb|m|f w|]; cbn [dense_polar fst]; try reflexivity; [apply map_made| |now elim NC].
    unfold hpolar_step. destruct (hbox_edges a); [|reflexivity]. destruct (hbox_of a) as [C|] eqn:EC; [|reflexivity]. elim (NG a eq_refl). apply box_made. eauto.
Qed.
Lemma mc_polar_grid : forall H h, h_made (run (mc_polar H) fresh h) <> None <-> polar_grid h.
Proof.
  intros H h. rewrite <- polar_since. apply grid_since.
  - reflexivity.
  - intros s c a E G. destruct c; try discriminate. injection E as ->. apply box_made in G. destruct G as [C EC]. cbn [mc_polar]. unfold mc_hpolar_step.
    pose proof EC as EC'. rewrite hbox_split in EC'. destruct (hbox_edges a) as [ed|]; [|discriminate]. rewrite EC. discriminate.
  - intros s c NC NG. destruct c as [n np|a ra rb|m|f w|]; cbn [mc_polar fst]; try reflexivity; [apply map_made| |now elim NC].
    unfold mc_hpolar_step. destruct (hbox_edges a); [|reflexivity]. destruct (hbox_of a) as [C|] eqn:EC; [|reflexivity]. elim (NG a eq_refl). apply box_made. eauto.
Qed.

Lemma mc_ring_nside : forall H h n, ring_map H h n -> exists np, h_nside (run (mc_ring H) fresh h) = Some (n, np).
Proof.
  intros H h n (h1 & h2 & np & -> & OK & NC & NM). exists np. rewrite run_app. cbn [run]. rewrite run_nside.
  { cbn [mc_ring]. unfold map_step, setup_map. rewrite OK. reflexivity. }
  intros c Hc s. destruct c as [m p|a ra rb|m|f w|f sh|f sg w|]; cbn [mc_ring fst]; try reflexivity; [| | |contradiction].
  - unfold map_step, setup_map. rewrite (NM m p Hc). reflexivity.
  - unfold mc_ring_step. destruct (cap_edges a); [|reflexivity]. destruct (cap_of a); reflexivity.
  - unfold radial_step. destruct (match h_area s with Some _ => _ | None => _ end); [|reflexivity].
    destruct (match h_pixarea _ with Some _ => _ | None => _ end); reflexivity.
Qed.
Lemma mc_polar_nside : forall H h n, polar_map H h n -> exists np, h_nside (run (mc_polar H) fresh h) = Some (n, np).
Proof.
  intros H h n (h1 & h2 & np & -> & OK & NC & NM). exists np. rewrite run_app. cbn [run]. rewrite run_nside.
  { cbn [mc_polar]. unfold map_step, setup_map. rewrite OK. reflexivity. }
  intros c Hc s. destruct c as [m p|a ra rb|m|f w|]; cbn [mc_polar fst]; try reflexivity; [| |contradiction].
  - unfold map_step, setup_map. rewrite (NM m p Hc). reflexivity.
  - unfold mc_hpolar_step. destruct (hbox_edges a); [|reflexivity]. destruct (hbox_of a); reflexivity.
Qed.

(** [remap] without a grid, both dense classes. *)
Lemma remap_missing : forall A (remap0 : A * fine -> list R -> res (list (list num))) s f w, h_made s = None ->
  grid_val (heal_remap (remap0_of remap0) s f w) =
  Err (if (length f =? 1)%nat && match w with Some w => (length w =? 1)%nat | None => true end then TypeError else ValueError).
Proof.
  intros A remap0 s f w E. unfold heal_remap. destruct w as [w|].
  - destruct (Nat.eqb_spec (length f) (length w)) as [EL|NL].
    + unfold remap0_of at 1. rewrite E, map2_length. rewrite <- EL, Nat.min_id. destruct (length f =? 1)%nat; reflexivity.
    + cbn [grid_val bind]. destruct (Nat.eqb_spec (length f) 1); [|reflexivity]. destruct (Nat.eqb_spec (length w) 1); [congruence|reflexivity].
  - unfold remap0_of. rewrite E, andb_true_r. destruct (length f =? 1)%nat; reflexivity.
Qed.

Lemma rotate_some : forall C f sh, exists e, (g <- rotate_of (Some C) f sh ;; Ok (VCells g)) = Err e.
Proof. intros. cbn. unfold cap_rotate. destruct (same_shape _ _); cbn; eauto. Qed.

(** [remap] of the Monte-Carlo classes. *)
Lemma mc_remap_missing : forall A (grid : A -> list (list R)) H (s : hobj A) n np f w, inv (fun a => grid_good (grid a)) s -> h_nside s = Some (n, np) ->
  grid_val (mc_remap_of H (h_nside s) (option_map grid (h_made s)) f w) =
  Err (if (length f =? nside2npix n)%nat && match w with Some w => np && (length w =? nside2npix n)%nat | None => true end then TypeError else AssertionError).
Proof.
  intros A grid H s n np f w (_ & _ & IM) E. rewrite E. unfold mc_remap_of, grid_val.
  destruct (h_made s) as [C|]; cbn [option_map].
  - destruct IM as (a & b & S & Na & Nb). unfold mc_heal_remap. destruct (length f =? nside2npix n)%nat; [|reflexivity]. cbn [py_assert andb].
    change (match w with Some w0 => np && (length w0 =? nside2npix n)%nat | None => true end) with (match w with None => true | Some w0 => shape_is np w0 (nside2npix n) end).
    destruct (match w with None => true | Some w0 => shape_is np w0 (nside2npix n) end); [|reflexivity]. cbn [py_assert]. destruct S as [S1 S2].
    specialize (S2 0%nat ltac:(lia)). destruct (grid C) as [|r0 rt]; [cbn in S1; lia|]. cbn [nth] in S2. destruct r0; [cbn in S2; lia|]. reflexivity.
  - destruct (length f =? nside2npix n)%nat; [|reflexivity]. cbn [py_assert andb].
    change (match w with Some w0 => np && (length w0 =? nside2npix n)%nat | None => true end) with (match w with None => true | Some w0 => shape_is np w0 (nside2npix n) end).
    destruct (match w with None => true | Some w0 => shape_is np w0 (nside2npix n) end); reflexivity.
Qed.

(** ** C84 *)

(** Dense classes: there is no [get_weights]; before a grid is made, [remap] raises
    TypeError for a map of one pixel and ValueError for others, [rotate_polar] an
    AssertionError. *)
Theorem C84_dense_missing : forall H,
  (forall h m, outcome (dense_ring H) h (RWeights m) = Err AttributeError) /\
  (forall h m, outcome (dense_polar H) h (PWeights m) = Err AttributeError) /\
  (forall h f w, ~ ring_grid h -> outcome (dense_ring H) h (RRemap f w) =
     Err (if (length f =? 1)%nat && match w with Some w => (length w =? 1)%nat | None => true end then TypeError else ValueError)) /\
  (forall h f w, ~ polar_grid h -> outcome (dense_polar H) h (PRemap f w) =
     Err (if (length f =? 1)%nat && match w with Some w => (length w =? 1)%nat | None => true end then TypeError else ValueError)) /\
  (forall h f sh, ~ ring_grid h -> outcome (dense_ring H) h (RRotate f sh) = Err AssertionError).
Proof.
  intros H. split; [reflexivity|]. split; [reflexivity|].
  assert (N1 : forall h, ~ ring_grid h -> h_made (run (dense_ring H) fresh h) = None).
  { intros h N. destruct (h_made _) eqn:E; [|reflexivity]. elim N. apply (dense_ring_grid H). rewrite E. discriminate. }
  assert (N2 : forall h, ~ polar_grid h -> h_made (run (dense_polar H) fresh h) = None).
  { intros h N. destruct (h_made _) eqn:E; [|reflexivity]. elim N. apply (dense_polar_grid H). rewrite E. discriminate. }
  unfold outcome. cbn [dense_ring dense_polar snd]. split; [|split].
  - intros h f w N. apply remap_missing. now apply N1.
  - intros h f w N. apply remap_missing. now apply N2.
  - intros h f sh N. rewrite (N1 h N). reflexivity.
Qed.
Print Assumptions C84_dense_missing.

(** Monte-Carlo classes: [get_weights] raises AttributeError once a grid was made
    and TypeError before, for sensible numbers of samples; [remap] raises TypeError
    for maps of the right length and AssertionError for others, grid or not. *)
Theorem C84_mc_missing : forall H,
  (forall h m, (m <= 1)%Z -> outcome (mc_ring H) h (RWeights m) = Err AssertionError) /\
  (forall h m, (m <= 1)%Z -> outcome (mc_polar H) h (PWeights m) = Err AssertionError) /\
  (forall h m, (1 < m)%Z -> (ring_grid h -> outcome (mc_ring H) h (RWeights m) = Err AttributeError) /\
                            (~ ring_grid h -> outcome (mc_ring H) h (RWeights m) = Err TypeError)) /\
  (forall h m, (1 < m)%Z -> (polar_grid h -> outcome (mc_polar H) h (PWeights m) = Err AttributeError) /\
                            (~ polar_grid h -> outcome (mc_polar H) h (PWeights m) = Err TypeError)) /\
  (forall h n f, ring_map H h n -> outcome (mc_ring H) h (RRemap f None) = Err (if (length f =? Z.to_nat (12 * n ^ 2))%nat then TypeError else AssertionError)) /\
  (forall h n f, polar_map H h n -> outcome (mc_polar H) h (PRemap f None) = Err (if (length f =? Z.to_nat (12 * n ^ 2))%nat then TypeError else AssertionError)) /\
  (forall h f sh, ~ ring_grid h -> outcome (mc_ring H) h (RRotate f sh) = Err AssertionError).
Proof.
  intros H. pose proof (fun h => inv_run _ _ (mc_ring H) cap_good (mc_ring_inv H) h fresh (inv_fresh _ _)) as I1.
  pose proof (fun h => inv_run _ _ (mc_polar H) hbox_good (mc_polar_inv H) h fresh (inv_fresh _ _)) as I2.
  unfold outcome. cbn [mc_ring mc_polar snd]. split; [|split; [|split; [|split; [|split; [|split]]]]].
  - intros h m Hm. rewrite (weights_inv _ cp_alpha2d _ m (I1 h)). now rewrite (proj2 (Z.ltb_ge 1 m) Hm).
  - intros h m Hm. rewrite (weights_inv _ hb_x2d _ m (I2 h)). now rewrite (proj2 (Z.ltb_ge 1 m) Hm).
  - intros h m Hm. rewrite (weights_inv _ cp_alpha2d _ m (I1 h)), (proj2 (Z.ltb_lt 1 m) Hm). pose proof (mc_ring_grid H h) as G. split; intros Y.
    + apply G in Y. destruct (h_made _); [reflexivity|now elim Y].
    + destruct (h_made _); [elim Y; apply G; discriminate|reflexivity].
  - intros h m Hm. rewrite (weights_inv _ hb_x2d _ m (I2 h)), (proj2 (Z.ltb_lt 1 m) Hm). pose proof (mc_polar_grid H h) as G. split; intros Y.
    + apply G in Y. destruct (h_made _); [reflexivity|now elim Y].
    + destruct (h_made _); [elim Y; apply G; discriminate|reflexivity].
  - intros h n f M. destruct (mc_ring_nside H h n M) as [np E]. rewrite (mc_remap_missing _ cp_alpha2d H _ n np f None (I1 h) E). unfold nside2npix. now rewrite andb_true_r.
  - intros h n f M. destruct (mc_polar_nside H h n M) as [np E]. rewrite (mc_remap_missing _ hb_x2d H _ n np f None (I2 h) E). unfold nside2npix. now rewrite andb_true_r.
  - intros h f sh Y. pose proof (mc_ring_grid H h) as G. destruct (h_made _); [elim Y; apply G; discriminate|reflexivity].
Qed.
Print Assumptions C84_mc_missing.

(** A grid that is made on an object with a history, and one that is not (a
    single ring). *)
Example C84_missing_example :
  let H := Healpy (fun n => (0 <? n)%Z) (fun _ _ _ => Ok 0%Z) (fun _ => 1) TypeError TypeError TypeError in
  let h := [RMap 1 false; RSetup (CapArg 0 1 1 2 0 (2 * PI) [0; 0] 0) 1 1] in
  let h' := h ++ [RSetup (CapArg 0 1 2 2 0 (2 * PI) [0; 0] 0) 1 1] in
  ~ ring_grid h /\ ring_grid h' /\ outcome (mc_ring H) h (RWeights 5) = Err TypeError /\ outcome (mc_ring H) h' (RWeights 5) = Err AttributeError /\
  outcome (dense_ring H) h (RRemap [1; 2] None) = Err ValueError.
Proof.
  intros H h h'. pose proof PI_RGT_0.
  assert (N : ~ ring_grid h).
  { intros (h1 & a & ra & rb & h2 & E & _ & Na & _). destruct h1 as [|c1 [|c2 [|? ?]]]; try discriminate E; injection E; intros; subst; cbn in Na; lia. }
  assert (Y : ring_grid h').
  { exists h, (CapArg 0 1 2 2 0 (2 * PI) [0; 0] 0), 1%positive, 1%positive, []. split; [reflexivity|]. split; [|repeat split; cbn; (lia || auto)].
    unfold accepted, ring_args. cbn. repeat split; try lra; lia. }
  split; [exact N|]. split; [exact Y|]. destruct (C84_mc_missing H) as (_ & _ & M & _). destruct (C84_dense_missing H) as (_ & _ & D & _).
  split; [apply M; [lia|exact N]|]. split; [apply M; [lia|exact Y]|]. exact (D h [1; 2] None N).
Qed.
Print Assumptions C84_missing_example.
