(** * Theorems: the [Heal2Ring] and [Heal2Polar] objects over sequences of calls (C84) *)

From Coq Require Import Reals ZArith List Bool Lia Lra.
From Flocq Require Import Core.Raux.
From Verif Require THeal PHealSetup.
From Verif Require Import Base BaseP SpecSphere SpecGrid SpecHealSetup MCoords MGrids MUsphere MDense MOrtho MCube MHeal MLifeHeal
  PHealpixBoundary PPolarCoords PDense PMonte PHeal.
Import ListNotations.
Open Scope R_scope.

(** ** Specification *)

(** Calls that are to produce something from a map or a grid. *)
Definition ring_work (c : rcall) : Prop := match c with RWeights _ | RRemap _ _ | RRotate _ _ | RRadial _ _ _ => True | _ => False end.
Definition polar_work (c : pcall) : Prop := match c with PWeights _ | PRemap _ _ => True | _ => False end.

(** The outcome of call [c] after the calls [h] on a new object. *)
Definition outcome {A B} (step : hobj A -> B -> hobj A * res value) (h : list B) (c : B) : res value := snd (step (run step fresh h) c).

(** The [nside] of the last accepted [setup_map] since the last [clean]. *)
Definition ring_map (H : healpy) (h : list rcall) (n : Z) : Prop :=
  exists h1 h2 np, h = h1 ++ RMap n np :: h2 /\ isnsideok H n = true /\ ~ In RClean h2 /\ forall m p, In (RMap m p) h2 -> isnsideok H m = false.
Definition polar_map (H : healpy) (h : list pcall) (n : Z) : Prop :=
  exists h1 h2 np, h = h1 ++ PMap n np :: h2 /\ isnsideok H n = true /\ ~ In PClean h2 /\ forall m p, In (PMap m p) h2 -> isnsideok H m = false.

(** A [setup_polar_cap] with acceptable arguments (which may still raise) since
    the last [clean]. *)
Definition accepted (a : cap_arg) : Prop :=
  ring_args (a_alpha_min a) (a_alpha_max a) (a_num_alpha a) (a_num_beta a) (a_beta_min a) (a_beta_max a) (a_center a).
Definition tried (h : list rcall) : Prop := exists h1 a ra rb h2, h = h1 ++ RSetup a ra rb :: h2 /\ accepted a /\ ~ In RClean h2.

(** ** Lemmas *)

Lemma run_app : forall A B (step : hobj A -> B -> hobj A * res value) h h' s, run step s (h ++ h') = run step (run step s h) h'.
Proof. intros A B step h. induction h as [|c h IH]; intros; cbn [app run]; auto. Qed.

(** What holds at all times: no areas, edges of at least one cell, and the grid
    only with edges. *)
Definition inv {A} (good : A -> Prop) (s : hobj A) : Prop :=
  h_area s = None /\
  match h_edges s with None => h_made s = None | Some (e0, e1) => (2 <= length e0)%nat /\ (2 <= length e1)%nat end /\
  match h_made s with None => True | Some m => good m end.

Definition fine_good {A} (m : A * fine) : Prop := (2 <= length (fi_xedges (snd m)))%nat /\ (2 <= length (fi_yedges (snd m)))%nat.
Definition grid_good (g : list (list R)) : Prop := exists n m, shape2 g n m /\ (1 <= n)%nat /\ (1 <= m)%nat.

Lemma inv_fresh : forall A (good : A -> Prop), inv good fresh.
Proof. intros. repeat split. Qed.

Lemma inv_run : forall A B (step : hobj A -> B -> hobj A * res value) good, (forall s c, inv good s -> inv good (fst (step s c))) ->
  forall h s, inv good s -> inv good (run step s h).
Proof. intros A B step good I h. induction h as [|c h IH]; intros s Hs; cbn [run]; auto. Qed.

Lemma edges_len : forall a b n l, (0 < n)%Z -> linspaceZ a b (n + 1) = Ok l -> (2 <= length l)%nat.
Proof. intros a b n l Hn E. apply linspaceZ_length in E. lia. Qed.

Lemma cap_edges_len : forall a e0 e1, cap_edges a = Ok (e0, e1) -> (2 <= length e0)%nat /\ (2 <= length e1)%nat.
Proof.
  intros a e0 e1 H. unfold cap_edges in H. do 10 (apply assert_inv in H; let E := fresh "E" in destruct H as [E H]).
  apply Z.ltb_lt in E1, E7. apply bind_inv in H. destruct H as (ae & Ha & H). apply bind_inv in H. destruct H as (be & Hb & H).
  injection H as <- <-. split; [exact (edges_len _ _ _ _ E1 Ha)|exact (edges_len _ _ _ _ E7 Hb)].
Qed.
Lemma hbox_edges_len : forall a e0 e1, hbox_edges a = Ok (e0, e1) -> (2 <= length e0)%nat /\ (2 <= length e1)%nat.
Proof.
  intros a e0 e1 H. unfold hbox_edges in H. do 3 (apply assert_inv in H; let E := fresh "E" in destruct H as [E H]).
  apply Z.ltb_lt in E1. apply bind_inv in H. destruct H as (l & _ & H). apply bind_inv in H. destruct H as (g & Eg & H).
  assert (Pg : (0 < g)%Z). { destruct (b_y_grid a) as [g'|]; [|now injection Eg as <-]. apply assert_inv in Eg. destruct Eg as [P Eg]. injection Eg as <-. now apply Z.ltb_lt. }
  apply assert_inv in H. destruct H as [_ H]. apply bind_inv in H. destruct H as (ae & Ha & H). apply bind_inv in H. destruct H as (be & Hb & H).
  injection H as <- <-. split; [exact (edges_len _ _ _ _ E1 Ha)|exact (edges_len _ _ _ _ Pg Hb)].
Qed.

Lemma linspace_pos : forall a b p n l, (1 <= n)%nat -> linspaceZ a b (Z.pos p * Z.of_nat n + 1) = Ok l -> (2 <= length l)%nat.
Proof. intros a b p n l Hn E. apply linspaceZ_length in E. destruct E as [_ ->]. nia. Qed.

Lemma ring_fine_good : forall a C ra rb F pts, cap_of a = Ok C -> ring_fine C (Z.pos ra) (Z.pos rb) = Ok (F, pts) -> fine_good (C, F).
Proof.
  intros a C ra rb F pts HC H. unfold cap_of in HC. destruct (cap_inv _ _ _ _ _ _ _ _ _ HC) as (Na & Nb & La & Lb & _). unfold ring_fine in H. cbv zeta in H.
  apply bind_inv in H. destruct H as (x1 & _ & H). apply bind_inv in H. destruct H as (x2 & _ & H).
  apply bind_inv in H. destruct H as (rae & Ha & H). apply bind_inv in H. destruct H as (x3 & _ & H). apply bind_inv in H. destruct H as (x4 & _ & H).
  apply bind_inv in H. destruct H as (rbe & Hb & H). rewrite mid_length in Ha, Hb. apply linspace_pos in Ha; [|lia]. apply linspace_pos in Hb; [|lia].
  destruct (meshgrid (mid rae) (mid rbe)) as [ra2 rb2]. apply bind_inv in H. destruct H as (rb0 & _ & H). destruct (meshgrid_ind _ _) as [bi ai].
  injection H as <- _. split; [exact Ha|exact Hb].
Qed.
Lemma hpolar_fine_good : forall a B rx ry F pts, hbox_of a = Ok B -> hpolar_fine B (Z.pos rx) (Z.pos ry) = Ok (F, pts) -> fine_good (B, F).
Proof.
  intros a B rx ry F pts HC H. unfold hbox_of in HC. destruct (hbox_inv _ _ _ _ _ _ _ HC) as (Nx & g & _ & Ng & La & Lb & _). unfold hpolar_fine in H. cbv zeta in H.
  apply bind_inv in H. destruct H as (x1 & _ & H). apply bind_inv in H. destruct H as (x2 & _ & H).
  apply bind_inv in H. destruct H as (rae & Ha & H). apply bind_inv in H. destruct H as (x3 & _ & H). apply bind_inv in H. destruct H as (x4 & _ & H).
  apply bind_inv in H. destruct H as (rbe & Hb & H). rewrite mid_length in Ha, Hb. apply linspace_pos in Ha; [|lia]. apply linspace_pos in Hb; [|lia].
  destruct (meshgrid (mid rae) (mid rbe)) as [ra2 rb2]. destruct (meshgrid_ind _ _) as [bi ai]. injection H as <- _. split; [exact Ha|exact Hb].
Qed.

Lemma inv_map : forall A (good : A -> Prop) H s n np, inv good s -> inv good (fst (map_step H s n np)).
Proof. intros A good H s n np I. unfold map_step. destruct (setup_map _ _); exact I. Qed.

Lemma areas_first : forall (g : R -> R -> res R) ae, (2 <= length ae)%nat -> (forall a b, g a b = Err AttributeError) ->
  mapM (fun i => a0 <- py_get ae (Z.of_nat i) ;; a1 <- py_get ae (Z.of_nat i + 1) ;; g a0 a1) (seq 0 (length ae - 1)) = Err AttributeError :> res (list R).
Proof.
  intros g ae L Hg. replace (length ae - 1)%nat with (S (length ae - 2)) by lia. cbn [seq]. apply mapM_first.
  rewrite !(py_get_ok _ ae _ 0) by lia. cbn [bind]. apply Hg.
Qed.

Lemma area_raises : forall e0 e1, (2 <= length e0)%nat -> (2 <= length e1)%nat -> area_of (Some (e0, e1)) = Err AttributeError.
Proof.
  intros e0 e1 L0 L1. unfold area_of. rewrite !(py_get_ok _ e1 _ 0) by lia. cbn [bind].
  rewrite (areas_first (fun a b => sky_area 0 _ a b) e0 L0); [reflexivity|]. intros. apply sky_area_raises.
Qed.

(** [polar2radial] raises and changes nothing. *)
Lemma radial_raises : forall A (good : A -> Prop) H g s f sg w, inv good s ->
  radial_step H g s f sg w = (s, Err (match h_edges s with None => TypeError | Some _ => AttributeError end)).
Proof.
  intros A good H g s f sg w (IA & IE & _). unfold radial_step. rewrite IA. destruct (h_edges s) as [[e0 e1]|]; [|reflexivity].
  destruct IE as [L0 L1]. now rewrite area_raises.
Qed.

Lemma ring_remap_err : forall (C : cap) F f v, fine_good (C, F) -> ring_remap0 (C, F) f <> Ok v.
Proof.
  intros C F f v [Lx Ly] E. cbn [snd] in Lx, Ly. unfold ring_remap0 in E. apply bind_inv in E. destruct E as (vals & _ & E). cbv zeta in E.
  apply bind_inv in E. destruct E as (b1 & _ & E). apply bind_inv in E. destruct E as (b0 & _ & E). apply bind_inv in E. destruct E as (ar & Ea & _).
  rewrite (areas_first (fun a b => sky_area 0 (b1 - b0) a b) (fi_xedges F) Lx) in Ea; [discriminate|]. intros. apply sky_area_raises.
Qed.
Lemma polar_remap_err : forall (B : hbox) F f v, fine_good (B, F) -> hpolar_remap0 (B, F) f <> Ok v.
Proof.
  intros C F f v [Lx Ly] E. cbn [snd] in Lx, Ly. unfold hpolar_remap0 in E. apply bind_inv in E. destruct E as (vals & _ & E). cbv zeta in E.
  apply bind_inv in E. destruct E as (b1 & _ & E). apply bind_inv in E. destruct E as (b0 & _ & E). apply bind_inv in E. destruct E as (ar & Ea & _).
  rewrite (areas_first (fun a b => sky_area 0 (b1 - b0) (a + PI / 2) (b + PI / 2)) (fi_yedges F) Ly) in Ea; [discriminate|]. intros. apply sky_area_raises.
Qed.

Lemma remap_err : forall A (remap0 : A * fine -> list R -> res (list (list num))) s f w v,
  (forall C F f v, fine_good (C, F) -> remap0 (C, F) f <> Ok v) -> inv fine_good s -> grid_val (heal_remap (remap0_of remap0) s f w) <> Ok v.
Proof.
  intros A remap0 s f w v HR (_ & _ & IM) E. unfold grid_val in E. apply bind_inv in E. destruct E as (g & E & _).
  assert (R0 : forall f' v', remap0_of remap0 s f' <> Ok v').
  { intros f' v' E'. unfold remap0_of in E'. destruct (h_made s) as [[C F]|]; [|destruct (_ =? _)%nat; discriminate]. cbv zeta in E'.
    assert (HF : forall p, fine_good (C, with_pix F p)) by (intros p; exact IM).
    destruct (h_pix s) as [pix|].
    - apply bind_inv in E'. destruct E' as (x & _ & E'). destruct (_ =? _)%nat; [exact (HR _ _ _ _ (HF _) E')|discriminate].
    - destruct (_ =? _)%nat; [exact (HR _ _ _ _ (HF _) E')|]. destruct (_ =? _)%nat; [exact (HR _ _ _ _ (HF _) E')|discriminate]. }
  unfold heal_remap in E. destruct w as [w|]; [|exact (R0 _ _ E)]. destruct (_ =? _)%nat; [|discriminate].
  apply bind_inv in E. destruct E as (a & Ea & _). exact (R0 _ _ Ea).
Qed.

Lemma rotate_err : forall g f sh v, rotate_of g f sh <> Ok v.
Proof. intros [C|] f sh v; cbn [rotate_of]; [|discriminate]. unfold cap_rotate. destruct (same_shape _ _); discriminate. Qed.

(** ** Set-ups keep the invariant *)

Lemma dense_ring_inv : forall H s c, inv fine_good s -> inv fine_good (fst (dense_ring H s c)).
Proof.
  intros H s c I. destruct c as [n np|a ra rb|m|f w|f sh|f sg w|]; cbn [dense_ring fst]; auto using inv_map, inv_fresh.
  - unfold ring_step. destruct (cap_edges a) as [[e0 e1]|e] eqn:EE; [|exact I]. apply cap_edges_len in EE. destruct I as (IA & IE & IM).
    destruct (cap_of a) as [C|e] eqn:EC; cbn [bind]; [|split; [exact IA|]; split; [exact EE|exact IM]].
    destruct (ring_fine C (Z.pos ra) (Z.pos rb)) as [[F pts]|e] eqn:EF; cbn [bind]; [|split; [exact IA|]; split; [exact EE|exact IM]].
    pose proof (ring_fine_good _ _ _ _ _ _ EC EF) as G. destruct (pixels_of _ _ _ _ _ _); (split; [exact IA|]; split; [exact EE|exact G]).
  - rewrite (radial_raises _ fine_good); auto.
Qed.
Lemma dense_polar_inv : forall H s c, inv fine_good s -> inv fine_good (fst (dense_polar H s c)).
Proof.
  intros H s c I. destruct c as [n np|a ra rb|m|f w|]; cbn [dense_polar fst]; auto using inv_map, inv_fresh.
  unfold hpolar_step. destruct (hbox_edges a) as [[e0 e1]|e] eqn:EE; [|exact I]. apply hbox_edges_len in EE. destruct I as (IA & IE & IM).
  destruct (hbox_of a) as [C|e] eqn:EC; cbn [bind]; [|split; [exact IA|]; split; [exact EE|exact IM]].
  destruct (hpolar_fine C (Z.pos ra) (Z.pos rb)) as [[F pts]|e] eqn:EF; cbn [bind]; [|split; [exact IA|]; split; [exact EE|exact IM]].
  pose proof (hpolar_fine_good _ _ _ _ _ _ EC EF) as G. destruct (pixels_of _ _ _ _ _ _); (split; [exact IA|]; split; [exact EE|exact G]).
Qed.
Definition cap_good (C : cap) : Prop := grid_good (cp_alpha2d C).
Definition hbox_good (B : hbox) : Prop := grid_good (hb_x2d B).
Lemma mc_ring_inv : forall H s c, inv cap_good s -> inv cap_good (fst (mc_ring H s c)).
Proof.
  intros H s c I. destruct c as [n np|a ra rb|m|f w|f sh|f sg w|]; cbn [mc_ring fst]; auto using inv_map, inv_fresh.
  - unfold mc_ring_step. destruct (cap_edges a) as [[e0 e1]|e] eqn:EE; [|exact I]. apply cap_edges_len in EE. destruct I as (IA & IE & IM).
    destruct (cap_of a) as [C|e] eqn:EC; [|split; [exact IA|]; split; [exact EE|exact IM]].
    split; [exact IA|]. split; [exact EE|]. unfold cap_of in EC. destruct (cap_inv _ _ _ _ _ _ _ _ _ EC) as (Na & Nb & _ & _ & S & _).
    cbn. exists (Z.to_nat (a_num_beta a)), (Z.to_nat (a_num_alpha a)). split; [exact S|lia].
  - rewrite (radial_raises _ cap_good); auto.
Qed.
Lemma mc_polar_inv : forall H s c, inv hbox_good s -> inv hbox_good (fst (mc_polar H s c)).
Proof.
  intros H s c I. destruct c as [n np|a ra rb|m|f w|]; cbn [mc_polar fst]; auto using inv_map, inv_fresh.
  unfold mc_hpolar_step. destruct (hbox_edges a) as [[e0 e1]|e] eqn:EE; [|exact I]. apply hbox_edges_len in EE. destruct I as (IA & IE & IM).
  destruct (hbox_of a) as [C|e] eqn:EC; [|split; [exact IA|]; split; [exact EE|exact IM]].
  split; [exact IA|]. split; [exact EE|]. unfold hbox_of in EC. destruct (hbox_inv _ _ _ _ _ _ _ EC) as (Nx & g & _ & Ng & _ & _ & S & _).
  cbn. exists (Z.to_nat g), (Z.to_nat (b_x_grid a)). split; [exact S|lia].
Qed.

Lemma weights_err : forall g e0 e1 m, grid_good g -> (2 <= length e0)%nat -> (2 <= length e1)%nat ->
  weights_of (Some g) (Some (e0, e1)) m = Err (if (1 <? m)%Z then AttributeError else AssertionError).
Proof.
  intros g e0 e1 m (n & k & [S1 S2] & N & K) L0 L1. unfold weights_of. destruct (1 <? m)%Z; [|reflexivity]. cbn [py_assert].
  rewrite (S2 0%nat), S1 by lia. destruct n as [|n]; [lia|]. destruct k as [|k]; [lia|]. cbn [seq].
  rewrite (mapM_first _ _ _ _ _ AttributeError); [reflexivity|]. apply mapM_first.
  rewrite !(py_get_ok _ e0 _ 0), !(py_get_ok _ e1 _ 0) by lia. reflexivity.
Qed.

Lemma weights_inv : forall A (grid : A -> list (list R)) s m, inv (fun a => grid_good (grid a)) s ->
  weights_of (option_map grid (h_made s)) (h_edges s) m =
  Err (if (1 <? m)%Z then match h_made s with None => TypeError | Some _ => AttributeError end else AssertionError).
Proof.
  intros A grid s m (_ & IE & IM). destruct (h_made s) as [C|] eqn:EM; cbn [option_map].
  - destruct (h_edges s) as [[e0 e1]|]; [|discriminate]. destruct IE as [L0 L1]. now apply weights_err.
  - unfold weights_of. destruct (1 <? m)%Z; reflexivity.
Qed.

Lemma mc_remap_err : forall A (grid : A -> list (list R)) H s f w v, inv (fun a => grid_good (grid a)) s ->
  mc_remap_of H (h_nside s) (option_map grid (h_made s)) f w <> Ok v.
Proof.
  intros A grid H s f w v (_ & _ & IM) E. unfold mc_remap_of in E. destruct (h_nside s) as [[n np]|]; [|discriminate].
  destruct (h_made s) as [C|]; cbn [option_map] in E.
  - destruct IM as (a & b & S & Na & Nb). rewrite (THeal.no_weights _ a b) in E by auto. discriminate.
  - destruct (_ =? _)%nat; [|discriminate]. cbn [py_assert] in E. destruct (match w with None => true | Some w => _ end); discriminate.
Qed.

(** ** C84 *)

(** No sequence of calls, successful or raising, ends with a result. *)
Theorem C84_dense_ring : forall H h c v, ring_work c -> outcome (dense_ring H) h c <> Ok v.
Proof.
  intros H h c v W E. unfold outcome in E. pose proof (inv_run _ _ (dense_ring H) fine_good (dense_ring_inv H) h fresh (inv_fresh _ _)) as I.
  set (s := run _ _ h) in *. clearbody s. destruct c as [n np|a ra rb|m|f w|f sh|f sg w|]; try (destruct W); cbn [dense_ring snd] in E.
  - discriminate.
  - exact (remap_err _ _ _ _ _ _ ring_remap_err I E).
  - apply bind_inv in E. destruct E as (g & E & _). exact (rotate_err _ _ _ _ E).
  - rewrite (radial_raises _ fine_good) in E by exact I. discriminate.
Qed.
Print Assumptions C84_dense_ring.

Theorem C84_dense_polar : forall H h c v, polar_work c -> outcome (dense_polar H) h c <> Ok v.
Proof.
  intros H h c v W E. unfold outcome in E. pose proof (inv_run _ _ (dense_polar H) fine_good (dense_polar_inv H) h fresh (inv_fresh _ _)) as I.
  set (s := run _ _ h) in *. clearbody s. destruct c as [n np|a ra rb|m|f w|]; try (destruct W); cbn [dense_polar snd] in E.
  - discriminate.
  - exact (remap_err _ _ _ _ _ _ polar_remap_err I E).
Qed.
Print Assumptions C84_dense_polar.

Theorem C84_mc_ring : forall H h c v, ring_work c -> outcome (mc_ring H) h c <> Ok v.
Proof.
  intros H h c v W E. unfold outcome in E. pose proof (inv_run _ _ (mc_ring H) cap_good (mc_ring_inv H) h fresh (inv_fresh _ _)) as I.
  set (s := run _ _ h) in *. clearbody s. destruct c as [n np|a ra rb|m|f w|f sh|f sg w|]; try (destruct W); cbn [mc_ring snd] in E.
  - rewrite (weights_inv _ cp_alpha2d s m I) in E. discriminate.
  - unfold grid_val in E. apply bind_inv in E. destruct E as (g & E & _). exact (mc_remap_err _ cp_alpha2d _ _ _ _ _ I E).
  - apply bind_inv in E. destruct E as (g & E & _). exact (rotate_err _ _ _ _ E).
  - rewrite (radial_raises _ cap_good) in E by exact I. discriminate.
Qed.
Print Assumptions C84_mc_ring.

Theorem C84_mc_polar : forall H h c v, polar_work c -> outcome (mc_polar H) h c <> Ok v.
Proof.
  intros H h c v W E. unfold outcome in E. pose proof (inv_run _ _ (mc_polar H) hbox_good (mc_polar_inv H) h fresh (inv_fresh _ _)) as I.
  set (s := run _ _ h) in *. clearbody s. destruct c as [n np|a ra rb|m|f w|]; try (destruct W); cbn [mc_polar snd] in E.
  - rewrite (weights_inv _ hb_x2d s m I) in E. discriminate.
  - unfold grid_val in E. apply bind_inv in E. destruct E as (g & E & _). exact (mc_remap_err _ hb_x2d _ _ _ _ _ I E).
Qed.
Print Assumptions C84_mc_polar.

(** Nor does such a call leave a trace on the object. *)
Theorem C84_no_trace : forall H h,
  (forall c, ring_work c -> fst (dense_ring H (run (dense_ring H) fresh h) c) = run (dense_ring H) fresh h /\
                            fst (mc_ring H (run (mc_ring H) fresh h) c) = run (mc_ring H) fresh h) /\
  (forall h' c, polar_work c -> fst (dense_polar H (run (dense_polar H) fresh h') c) = run (dense_polar H) fresh h' /\
                                fst (mc_polar H (run (mc_polar H) fresh h') c) = run (mc_polar H) fresh h').
Proof.
  intros H h. split.
  - intros c W. pose proof (inv_run _ _ (dense_ring H) fine_good (dense_ring_inv H) h fresh (inv_fresh _ _)) as I.
    pose proof (inv_run _ _ (mc_ring H) cap_good (mc_ring_inv H) h fresh (inv_fresh _ _)) as I'.
    destruct c as [n np|a ra rb|m|f w|f sh|f sg w|]; try (destruct W); cbn [dense_ring mc_ring fst]; auto.
    rewrite (radial_raises _ fine_good), (radial_raises _ cap_good) by assumption. auto.
  - intros h' c W. destruct c; try (destruct W); cbn [dense_polar mc_polar fst]; auto.
Qed.
Print Assumptions C84_no_trace.

(** ** Set-ups behave as on a new object *)

Lemma cap_split : forall a, cap_of a = (_ <- cap_edges a ;; cap_of a).
Proof.
  intros a. unfold cap_edges, cap_of, setup_polar_cap, py_assert.
  repeat match goal with |- context [if ?b then _ else _] => destruct b; [|reflexivity] end.
  destruct (linspaceZ (a_alpha_min a) (a_alpha_max a) (a_num_alpha a + 1)); [|reflexivity]. cbn [bind].
  destruct (linspaceZ (a_beta_min a) (a_beta_max a) (a_num_beta a + 1)); reflexivity.
Qed.
Lemma hbox_split : forall a, hbox_of a = (_ <- hbox_edges a ;; hbox_of a).
Proof.
  intros a. unfold hbox_edges, hbox_of, setup_hbox, py_assert.
  destruct (Rle_bool 0 (b_x_length a)); [|reflexivity]. destruct (Rle_bool (b_x_length a) (2 * PI)); [|reflexivity].
  destruct (0 <? b_x_grid a)%Z; [|reflexivity]. set (l := match b_y_length a with None => _ | Some l => _ end). destruct l as [l|]; [|reflexivity]. cbn [bind].
  set (g := match b_y_grid a with None => _ | Some l => _ end). destruct g as [g|]; [|reflexivity]. cbn [bind].
  destruct (length (b_center a) =? 2)%nat; [|reflexivity].
  destruct (linspaceZ (- b_x_length a / 2) _ _); [|reflexivity]. cbn [bind]. destruct (linspaceZ (- l / 2) _ _); reflexivity.
Qed.

Definition ring_alone (pix : R -> R -> res Z) (a : cap_arg) (ra rb : positive) : res value :=
  _ <- setup_ring pix (a_alpha_min a) (a_alpha_max a) (a_num_alpha a) (a_num_beta a) (a_beta_min a) (a_beta_max a) (a_center a) (a_shift a) (Z.pos ra) (Z.pos rb) ;;
  Ok VNone.
Definition polar_alone (pix : R -> R -> res Z) (a : box_arg) (rx ry : positive) : res value :=
  _ <- setup_hpolar pix (b_x_length a) (b_x_grid a) (b_center a) (b_alpha a) (b_y_length a) (b_y_grid a) (Z.pos rx) (Z.pos ry) ;; Ok VNone.

Lemma ring_alone_split : forall pix a ra rb, ring_alone pix a ra rb =
  ('q <- (C <- cap_of a ;; q <- ring_fine C (Z.pos ra) (Z.pos rb) ;; Ok (C, q)) ;;
   c0 <- py_get (a_center a) 0 ;; c1 <- py_get (a_center a) 1 ;;
   _ <- mapM (fun p => heal_pixel pix 0 (a_shift a) c0 c1 (fst p) (snd p)) (snd (snd q)) ;; Ok VNone).
Proof.
  intros. unfold ring_alone, setup_ring, ring_fine. fold (cap_of a). destruct (cap_of a) as [C|]; [|reflexivity]. cbn [bind]. cbv zeta.
  destruct (py_get (cp_alpha_edges C) 0) as [x0|]; [|reflexivity]. cbn [bind]. destruct (py_get (cp_alpha_edges C) (-1)) as [x1|]; [|reflexivity]. cbn [bind].
  destruct (linspaceZ x0 x1 _) as [rae|]; [|reflexivity]. cbn [bind].
  destruct (py_get (cp_beta_edges C) 0) as [y0|]; [|reflexivity]. cbn [bind]. destruct (py_get (cp_beta_edges C) (-1)) as [y1|]; [|reflexivity]. cbn [bind].
  destruct (linspaceZ y0 y1 _) as [rbe|]; [|reflexivity]. cbn [bind]. destruct (meshgrid (mid rae) (mid rbe)) as [ra2 rb2].
  destruct (py_get rb2 0) as [r0|]; [|reflexivity]. cbn [bind]. destruct (meshgrid_ind _ _) as [bi ai]. cbn [bind fst snd].
  destruct (py_get (a_center a) 0) as [c0|]; [|reflexivity]. cbn [bind]. destruct (py_get (a_center a) 1) as [c1|]; [|reflexivity]. cbn [bind].
  destruct (mapM _ _); reflexivity.
Qed.
Lemma mapM_map : forall A B C (g : B -> res C) (k : A -> B) l, mapM g (map k l) = mapM (fun x => g (k x)) l.
Proof. intros. induction l as [|x l IH]; [reflexivity|]. cbn [map mapM]. now rewrite IH. Qed.
Lemma polar_alone_split : forall pix a rx ry, polar_alone pix a rx ry =
  ('q <- (B <- hbox_of a ;; q <- hpolar_fine B (Z.pos rx) (Z.pos ry) ;; Ok (B, q)) ;;
   c0 <- py_get (b_center a) 0 ;; c1 <- py_get (b_center a) 1 ;;
   _ <- mapM (fun p => heal_pixel pix (PI / 2) (b_alpha a) c0 c1 (fst p) (snd p)) (snd (snd q)) ;; Ok VNone).
Proof.
  intros. unfold polar_alone, setup_hpolar, hpolar_fine. fold (hbox_of a). destruct (hbox_of a) as [C|]; [|reflexivity]. cbn [bind]. cbv zeta.
  destruct (py_get (hb_xedges C) 0) as [x0|]; [|reflexivity]. cbn [bind]. destruct (py_get (hb_xedges C) (-1)) as [x1|]; [|reflexivity]. cbn [bind].
  destruct (linspaceZ x0 x1 _) as [rae|]; [|reflexivity]. cbn [bind].
  destruct (py_get (hb_yedges C) 0) as [y0|]; [|reflexivity]. cbn [bind]. destruct (py_get (hb_yedges C) (-1)) as [y1|]; [|reflexivity]. cbn [bind].
  destruct (linspaceZ y0 y1 _) as [rbe|]; [|reflexivity]. cbn [bind]. destruct (meshgrid (mid rae) (mid rbe)) as [ra2 rb2].
  destruct (meshgrid_ind _ _) as [bi ai]. cbn [bind fst snd].
  destruct (py_get (b_center a) 0) as [c0|]; [|reflexivity]. cbn [bind]. destruct (py_get (b_center a) 1) as [c1|]; [|reflexivity]. cbn [bind].
  rewrite mapM_map. cbn [fst snd]. destruct (mapM _ _); reflexivity.
Qed.

Lemma ring_step_out : forall H s a ra rb n np, h_nside s = Some (n, np) -> snd (ring_step H s a ra rb) = ring_alone (ang2pix_of H n) a ra rb.
Proof.
  intros H s a ra rb n np Hn. rewrite ring_alone_split, cap_split. unfold ring_step. destruct (cap_edges a) as [ed|]; [|reflexivity]. cbn [bind].
  destruct (cap_of a) as [C|]; [|reflexivity]. cbn [bind]. destruct (ring_fine _ _ _) as [[F pts]|]; [|reflexivity]. cbn [bind fst snd].
  unfold pixels_of. cbn [set_made set_edges h_nside]. rewrite Hn. cbn [fst].
  destruct (py_get (a_center a) 0) as [c0|]; [|reflexivity]. cbn [bind]. destruct (py_get (a_center a) 1) as [c1|]; [|reflexivity]. cbn [bind]. cbv zeta.
  destruct (mapM _ _); reflexivity.
Qed.
Lemma hpolar_step_out : forall H s a ra rb n np, h_nside s = Some (n, np) -> snd (hpolar_step H s a ra rb) = polar_alone (ang2pix_of H n) a ra rb.
Proof.
  intros H s a ra rb n np Hn. rewrite polar_alone_split, hbox_split. unfold hpolar_step. destruct (hbox_edges a) as [ed|]; [|reflexivity]. cbn [bind].
  destruct (hbox_of a) as [C|]; [|reflexivity]. cbn [bind]. destruct (hpolar_fine _ _ _) as [[F pts]|]; [|reflexivity]. cbn [bind fst snd].
  unfold pixels_of. cbn [set_made set_edges h_nside]. rewrite Hn. cbn [fst].
  destruct (py_get (b_center a) 0) as [c0|]; [|reflexivity]. cbn [bind]. destruct (py_get (b_center a) 1) as [c1|]; [|reflexivity]. cbn [bind]. cbv zeta.
  destruct (mapM _ _); reflexivity.
Qed.

(** [nside] only changes with [setup_map] and [clean]. *)
Lemma dense_ring_nside : forall H s c, c <> RClean -> (forall n np, c = RMap n np -> isnsideok H n = false) -> h_nside (fst (dense_ring H s c)) = h_nside s.
Proof.
  intros H s c NC NM. destruct c as [n np|a ra rb|m|f w|f sh|f sg w|]; cbn [dense_ring fst]; try reflexivity; [| | |congruence].
  - unfold map_step, setup_map. rewrite (NM n np eq_refl). reflexivity.
  - unfold ring_step. destruct (cap_edges a); [|reflexivity]. destruct (bind (cap_of a) _) as [[C [F pts]]|]; [|reflexivity].
    destruct (pixels_of _ _ _ _ _ _); reflexivity.
  - unfold radial_step. destruct (match h_area s with Some _ => _ | None => _ end); [|reflexivity].
    destruct (match h_pixarea _ with Some _ => _ | None => _ end); reflexivity.
Qed.
Lemma dense_polar_nside : forall H s c, c <> PClean -> (forall n np, c = PMap n np -> isnsideok H n = false) -> h_nside (fst (dense_polar H s c)) = h_nside s.
Proof.
  intros H s c NC NM. destruct c as [n np|a ra rb|m|f w|]; cbn [dense_polar fst]; try reflexivity; [| |congruence].
  - unfold map_step, setup_map. rewrite (NM n np eq_refl). reflexivity.
  - unfold hpolar_step. destruct (hbox_edges a); [|reflexivity]. destruct (bind (hbox_of a) _) as [[C [F pts]]|]; [|reflexivity].
    destruct (pixels_of _ _ _ _ _ _); reflexivity.
Qed.

Lemma run_nside : forall A B (step : hobj A -> B -> hobj A * res value) h s, (forall c, In c h -> forall s, h_nside (fst (step s c)) = h_nside s) ->
  h_nside (run step s h) = h_nside s.
Proof.
  intros A B step h. induction h as [|c h IH]; intros s Hc; [reflexivity|]. cbn [run]. rewrite IH by (intros; apply Hc; now right). apply Hc. now left.
Qed.

(** A set-up of the dense classes answers exactly as on a new object with the
    [nside] in force, whatever was called before; those of the Monte-Carlo
    classes do not even look at [nside]. *)
Theorem C84_setup : forall H n,
  (forall h a ra rb, ring_map H h n -> outcome (dense_ring H) h (RSetup a ra rb) = ring_alone (ang2pix_of H n) a ra rb) /\
  (forall h a rx ry, polar_map H h n -> outcome (dense_polar H) h (PSetup a rx ry) = polar_alone (ang2pix_of H n) a rx ry) /\
  (forall h a ra rb, outcome (mc_ring H) h (RSetup a ra rb) =
     (_ <- setup_polar_cap (a_alpha_min a) (a_alpha_max a) (a_num_alpha a) (a_num_beta a) (a_beta_min a) (a_beta_max a) (a_center a) (a_shift a) ;; Ok VNone)) /\
  (forall h a rx ry, outcome (mc_polar H) h (PSetup a rx ry) =
     (_ <- setup_hbox (b_x_length a) (b_x_grid a) (b_center a) (b_alpha a) (b_y_length a) (b_y_grid a) ;; Ok VNone)).
Proof.
  intros H n. split; [|split; [|split]].
  - intros h a ra rb (h1 & h2 & np & -> & OK & NC & NM). unfold outcome. cbn [dense_ring]. apply (ring_step_out _ _ _ _ _ n np). rewrite run_app. cbn [run].
    rewrite run_nside. { cbn [dense_ring]. unfold map_step, setup_map. rewrite OK. reflexivity. }
    intros c Hc s. apply dense_ring_nside; [intros ->; auto|]. intros m p ->. exact (NM _ _ Hc).
  - intros h a ra rb (h1 & h2 & np & -> & OK & NC & NM). unfold outcome. cbn [dense_polar]. apply (hpolar_step_out _ _ _ _ _ n np). rewrite run_app. cbn [run].
    rewrite run_nside. { cbn [dense_polar]. unfold map_step, setup_map. rewrite OK. reflexivity. }
    intros c Hc s. apply dense_polar_nside; [intros ->; auto|]. intros m p ->. exact (NM _ _ Hc).
  - intros h a ra rb. unfold outcome. cbn [mc_ring]. set (s := run _ _ h). clearbody s. fold (cap_of a). rewrite cap_split. unfold mc_ring_step.
    destruct (cap_edges a); [|reflexivity]. cbn [bind]. destruct (cap_of a); reflexivity.
  - intros h a rx ry. unfold outcome. cbn [mc_polar]. set (s := run _ _ h). clearbody s. fold (hbox_of a). rewrite hbox_split. unfold mc_hpolar_step.
    destruct (hbox_edges a); [|reflexivity]. cbn [bind]. destruct (hbox_of a); reflexivity.
Qed.
Print Assumptions C84_setup.

(** [clean] makes every object as new. *)
Theorem C84_clean : forall H,
  (forall h h', run (dense_ring H) fresh (h ++ RClean :: h') = run (dense_ring H) fresh h') /\
  (forall h h', run (mc_ring H) fresh (h ++ RClean :: h') = run (mc_ring H) fresh h') /\
  (forall h h', run (dense_polar H) fresh (h ++ PClean :: h') = run (dense_polar H) fresh h') /\
  (forall h h', run (mc_polar H) fresh (h ++ PClean :: h') = run (mc_polar H) fresh h').
Proof. intros H. repeat split; intros; rewrite run_app; reflexivity. Qed.
Print Assumptions C84_clean.

(** ** Which exception *)

Lemma cap_edges_iff : forall a, (exists e, cap_edges a = Ok e) <-> accepted a.
Proof.
  intros a. unfold accepted. split.
  - intros [e E]. destruct (Classical_Prop.classic (ring_args (a_alpha_min a) (a_alpha_max a) (a_num_alpha a) (a_num_beta a) (a_beta_min a) (a_beta_max a) (a_center a))) as [Y|N]; [exact Y|].
    unfold cap_edges in E. rewrite (PHealSetup.cap_refused _ _ _ _ _ _ _ _ _ N) in E. discriminate.
  - intros Y. unfold cap_edges. rewrite (PHealSetup.cap_guards _ _ _ _ _ _ _ _ _ Y). destruct Y as (_ & Pa & _ & _ & Pb & _).
    rewrite !linspaceZ_ok by lia. cbn [bind]. eauto.
Qed.

Definition tracks {A} (step : hobj A -> rcall -> hobj A * res value) (s : hobj A) (c : rcall) : Prop :=
  h_edges (fst (step s c)) <> None <-> match c with RClean => False | RSetup a _ _ => accepted a \/ h_edges s <> None | _ => h_edges s <> None end.

Lemma edges_tried : forall A (step : hobj A -> rcall -> hobj A * res value), (forall s c, tracks step s c) ->
  forall h, h_edges (run step fresh h) <> None <-> tried h.
Proof.
  intros A step T h. induction h as [|c h IH] using rev_ind.
  - split; [intros N; now contradiction N|]. intros (h1 & a & ra & rb & h2 & E & _). destruct h1; discriminate.
  - rewrite run_app. cbn [run]. pose proof (T (run step fresh h) c) as T'. unfold tracks in T'. rewrite T'. clear T T'.
    assert (K : c <> RClean -> tried h -> tried (h ++ [c])).
    { intros NC (h1 & a & ra & rb & h2 & -> & Ha & Hc). exists h1, a, ra, rb, (h2 ++ [c]). split; [now rewrite <- app_assoc|]. split; [exact Ha|].
      intros Hi. apply in_app_or in Hi. destruct Hi as [Hi|[Hi|[]]]; auto. }
    assert (B : tried (h ++ [c]) -> (exists a ra rb, c = RSetup a ra rb /\ accepted a) \/ (c <> RClean /\ tried h)).
    { intros (h1 & a & ra & rb & h2 & E & Ha & Hc). destruct h2 as [|x h2 _] using rev_ind.
      - apply app_inj_tail in E. destruct E as [-> ->]. left. eauto.
      - right. rewrite app_comm_cons, app_assoc in E. apply app_inj_tail in E. destruct E as [-> ->]. split.
        + intros ->. apply Hc. apply in_or_app. right. now left.
        + exists h1, a, ra, rb, h2. split; [reflexivity|]. split; [exact Ha|]. intros Hi. apply Hc. apply in_or_app. now left. }
    assert (S : forall a ra rb, c = RSetup a ra rb -> accepted a -> tried (h ++ [c])).
    { intros a ra rb -> Ha. exists h, a, ra, rb, []. auto. }
    destruct c as [n np|a ra rb|m|f w|f sh|f sg w|];
      cbv beta iota; try (rewrite IH; split; [apply K; discriminate|]; intros W; destruct (B W) as [(a' & ra' & rb' & E & _)|[_ W']]; [discriminate E|exact W']).
    + rewrite IH. split.
      * intros [Ha|W]; [exact (S _ _ _ eq_refl Ha)|apply K; [discriminate|exact W]].
      * intros W. destruct (B W) as [(a' & ra' & rb' & E & Ha)|[_ W']]; [|now right]. injection E as <- <- <-. now left.
    + split; [intros []|]. intros W. destruct (B W) as [(a' & ra' & rb' & E & _)|[W' _]]; [discriminate E|now apply W'].
Qed.

Lemma radial_edges : forall A H g (s : hobj A) f sg w, h_edges (fst (radial_step H g s f sg w)) = h_edges s.
Proof.
  intros. unfold radial_step. destruct (match h_area s with Some _ => _ | None => _ end); [|reflexivity].
  destruct (match h_pixarea _ with Some _ => _ | None => _ end); reflexivity.
Qed.
Lemma map_edges : forall A H (s : hobj A) n np, h_edges (fst (map_step H s n np)) = h_edges s.
Proof. intros. unfold map_step. destruct (setup_map _ _); reflexivity. Qed.

Lemma setup_tracks : forall a (e e' : option (list R * list R)), (forall x, cap_edges a = Ok x -> e' = Some x) -> ((forall x, cap_edges a <> Ok x) -> e' = e) ->
  (e' <> None <-> accepted a \/ e <> None).
Proof.
  intros a e e' HY HN. rewrite <- cap_edges_iff. destruct (cap_edges a) as [x|er] eqn:EE.
  - rewrite (HY x eq_refl). split; [eauto|discriminate].
  - rewrite HN by discriminate. split; [auto|]. intros [[y Hy]|N]; [discriminate|exact N].
Qed.

Lemma dense_tracks : forall H s c, tracks (dense_ring H) s c.
Proof.
  intros H s c. unfold tracks. destruct c as [n np|a ra rb|m|f w|f sh|f sg w|]; cbn [dense_ring fst]; try tauto.
  - now rewrite map_edges.
  - apply setup_tracks; unfold ring_step.
    + intros x ->. destruct (bind (cap_of a) _) as [[C [F pts]]|]; [|reflexivity]. destruct (pixels_of _ _ _ _ _ _); reflexivity.
    + intros N. destruct (cap_edges a) as [x|]; [now contradiction (N x)|reflexivity].
  - now rewrite radial_edges.
Qed.
Lemma mc_tracks : forall H s c, tracks (mc_ring H) s c.
Proof.
  intros H s c. unfold tracks. destruct c as [n np|a ra rb|m|f w|f sh|f sg w|]; cbn [mc_ring fst]; try tauto.
  - now rewrite map_edges.
  - apply setup_tracks; unfold mc_ring_step.
    + intros x ->. destruct (cap_of a); reflexivity.
    + intros N. destruct (cap_edges a) as [x|]; [now contradiction (N x)|reflexivity].
  - now rewrite radial_edges.
Qed.

(** [polar2radial] raises AttributeError (the missing [coords.sky_area]) once
    acceptable arguments were given, and TypeError before. *)
Theorem C84_profile : forall H h f sg w,
  (tried h -> outcome (dense_ring H) h (RRadial f sg w) = Err AttributeError /\ outcome (mc_ring H) h (RRadial f sg w) = Err AttributeError) /\
  (~ tried h -> outcome (dense_ring H) h (RRadial f sg w) = Err TypeError /\ outcome (mc_ring H) h (RRadial f sg w) = Err TypeError).
Proof.
  intros H h f sg w. unfold outcome. cbn [dense_ring mc_ring].
  rewrite (radial_raises _ fine_good) by (apply inv_run; [apply dense_ring_inv|apply inv_fresh]).
  rewrite (radial_raises _ cap_good) by (apply inv_run; [apply mc_ring_inv|apply inv_fresh]). cbn [snd].
  pose proof (edges_tried _ _ (dense_tracks H) h) as D. pose proof (edges_tried _ _ (mc_tracks H) h) as M.
  split; intros T.
  - apply D in T as TD. apply M in T as TM. destruct (h_edges (run (dense_ring H) fresh h)); [|now contradiction TD].
    destruct (h_edges (run (mc_ring H) fresh h)); [auto|now contradiction TM].
  - destruct (h_edges (run (dense_ring H) fresh h)); [contradiction T; apply D; discriminate|].
    destruct (h_edges (run (mc_ring H) fresh h)); [contradiction T; apply M; discriminate|auto].
Qed.
Print Assumptions C84_profile.

(** A set-up that works, on an object with a history, for which [remap] of a
    map long enough then raises. *)
Example C84_example :
  let H := Healpy (fun n => (0 <? n)%Z) (fun _ _ _ => Ok 0%Z) (fun _ => 1) TypeError TypeError TypeError in
  let a := CapArg 0 1 2 2 0 (2 * PI) [0; 0] 0 in
  let h := [RRemap [1] None; RMap 0 false; RClean; RMap 1 false; RRadial [] None None] in
  ring_map H h 1 /\ tried (h ++ [RSetup a 1 1]) /\ ring_work (RRemap [1] None) /\
  outcome (dense_ring H) h (RSetup a 1 1) = Ok VNone.
Proof.
  intros H a h. pose proof PI_RGT_0.
  assert (M : ring_map H h 1).
  { exists [RRemap [1] None; RMap 0 false; RClean], [RRadial [] None None], false. split; [reflexivity|]. split; [reflexivity|]. split.
    - intros [E|[]]; discriminate.
    - intros m p [E|[]]; discriminate. }
  split; [exact M|]. split.
  { exists h, a, 1%positive, 1%positive, []. split; [reflexivity|]. split; [|intros []]. unfold accepted, ring_args. cbn. repeat split; try lra; lia. }
  split; [exact I|]. rewrite (proj1 (C84_setup H 1) h a 1 1 M)%positive. unfold ring_alone.
  destruct THeal.C64_case as [(C & F & E & _) _]. cbn [a a_alpha_min a_alpha_max a_num_alpha a_num_beta a_beta_min a_beta_max a_center a_shift].
  change (ang2pix_of H 1) with (fun _ _ : R => Ok 0%Z). rewrite E. reflexivity.
Qed.
Print Assumptions C84_example.
