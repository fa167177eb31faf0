(** * Theorems: [remap] of the dense [Heal2Ring] and [Heal2Polar] objects once a grid is made (C84) *)

From Coq Require Import Reals ZArith List Bool Lia Lra.
From Flocq Require Import Core.Raux.
From Verif Require PHealSetup THeal.
From Verif Require Import Base BaseP SpecSphere SpecGrid SpecHealSetup MCoords MGrids MUsphere MDense MOrtho MCube MHeal MLifeHeal
  PHealpixBoundary PPolarCoords PDense PRemap2 POrtho PMonte PHeal TLifeHeal TLifeErrors4.
Import ListNotations.
Open Scope R_scope.

(** ** Specification *)

(** Set-ups whose arguments make a grid, with the number of refined cells. *)
Definition ring_cells (c : rcall) (N : nat) : Prop :=
  match c with
  | RSetup a ra rb => accepted a /\ (2 <= a_num_alpha a)%Z /\ (2 <= a_num_beta a)%Z /\ Z.of_nat N = (Z.pos ra * a_num_alpha a * (Z.pos rb * a_num_beta a))%Z
  | _ => False
  end.
Definition polar_cells (c : pcall) (N : nat) : Prop :=
  match c with
  | PSetup a rx ry => accepted_box a /\ (2 <= b_x_grid a)%Z /\ (2 <= rows (b_x_grid a) (b_y_grid a))%Z /\
                      Z.of_nat N = (Z.pos rx * b_x_grid a * (Z.pos ry * rows (b_x_grid a) (b_y_grid a)))%Z
  | _ => False
  end.

Section History.
Context {A Call : Type} (step : hobj A -> Call -> hobj A * res value) (clean : Call) (cells : Call -> nat -> Prop).

(** The last grid since the last [clean] has [N] refined cells. *)
Definition grid_last (h : list Call) (N : nat) : Prop :=
  exists h1 c h2, h = h1 ++ c :: h2 /\ cells c N /\ ~ In clean h2 /\ forall d M, In d h2 -> ~ cells d M.

(** The last set-up that succeeded since the last [clean] had [N] refined cells;
    no set-up succeeded since the last [clean]. *)
Definition success_last (h : list Call) (N : nat) : Prop :=
  exists h1 c h2, h = h1 ++ c :: h2 /\ cells c N /\ outcome step h1 c = Ok VNone /\ ~ In clean h2 /\
    forall k1 d k2 M, h2 = k1 ++ d :: k2 -> cells d M -> outcome step (h1 ++ c :: k1) d <> Ok VNone.
Definition no_success (h : list Call) : Prop :=
  forall h1 c h2 N, h = h1 ++ c :: h2 -> cells c N -> outcome step h1 c = Ok VNone -> In clean h2.
End History.

(** Positions of an array, from either end. *)
Definition position (f : list R) (k : Z) : Prop := (- Z.of_nat (length f) <= k < Z.of_nat (length f))%Z.

(** ** Lemmas *)

Lemma position_get : forall f k, position f k -> exists x, py_get f k = Ok x.
Proof.
  intros f k [H1 H2]. unfold py_get. set (k' := if (k <? 0)%Z then (k + Z.of_nat (length f))%Z else k).
  assert (B : (0 <= k' < Z.of_nat (length f))%Z) by (unfold k'; destruct (Z.ltb_spec k 0); lia). clearbody k'.
  destruct (Z.ltb_spec k' 0); [lia|]. destruct (nth_error f (Z.to_nat k')) eqn:E; [eauto|]. apply nth_error_None in E. lia.
Qed.
Lemma positions_get : forall f l, (forall k, In k l -> position f k) -> exists vs, mapM (py_get f) l = Ok vs.
Proof. intros f l H. apply PHealSetup.mapM_all. intros k Hk. apply position_get. auto. Qed.

Lemma mapM_len : forall A B (f : A -> res B) l l', mapM f l = Ok l' -> length l' = length l.
Proof.
  intros A B f l. induction l as [|a l IH]; intros l' E; cbn [mapM] in E; [now injection E as <-|].
  destruct (f a) as [b|]; [|discriminate]. cbn [bind] in E. destruct (mapM f l) as [bs|] eqn:Es; [|discriminate]. injection E as <-. cbn [length]. now rewrite (IH bs).
Qed.
Lemma mapM_in : forall A B (f : A -> res B) l l' y, mapM f l = Ok l' -> In y l' -> exists x, In x l /\ f x = Ok y.
Proof.
  intros A B f l. induction l as [|a l IH]; intros l' y E; cbn [mapM] in E; [injection E as <-; intros []|].
  destruct (f a) as [b|] eqn:Ea; [|discriminate]. cbn [bind] in E. destruct (mapM f l) as [bs|] eqn:Es; [|discriminate]. injection E as <-.
  intros [<- |Hy]; [exists a; cbn; auto|]. destruct (IH bs y eq_refl Hy) as (x & Hx & Ex). exists x. cbn. auto.
Qed.

Lemma ring_fine_count : forall a C ra rb F pts, cap_of a = Ok C -> ring_fine C (Z.pos ra) (Z.pos rb) = Ok (F, pts) ->
  Z.of_nat (length (fi_xind F)) = (Z.pos ra * a_num_alpha a * (Z.pos rb * a_num_beta a))%Z /\ length pts = length (fi_xind F).
Proof.
  intros a C ra rb F pts HC H. unfold cap_of in HC. destruct (cap_inv _ _ _ _ _ _ _ _ _ HC) as (Na & Nb & La & Lb & _). unfold ring_fine in H. cbv zeta in H.
  apply bind_inv in H. destruct H as (x1 & _ & H). apply bind_inv in H. destruct H as (x2 & _ & H).
  apply bind_inv in H. destruct H as (rae & Ha & H). apply bind_inv in H. destruct H as (x3 & _ & H). apply bind_inv in H. destruct H as (x4 & _ & H).
  apply bind_inv in H. destruct H as (rbe & Hb & H). rewrite mid_length in Ha, Hb. rewrite La in Ha. rewrite Lb in Hb.
  apply linspaceZ_length in Ha, Hb. destruct Ha as [_ Ha], Hb as [_ Hb].
  pose proof (mesh_x_shape (mid rae) (mid rbe)) as Sx. pose proof (mesh_y_shape (mid rae) (mid rbe)) as Sy.
  destruct (meshgrid (mid rae) (mid rbe)) as [ra2 rb2]. cbn [fst snd] in Sx, Sy. rewrite !mid_length in Sx, Sy.
  apply bind_inv in H. destruct H as (rb0 & Hr & H). apply (py_get_some _ _ 0) in Hr. destruct Hr as [L0 Hr]. specialize (Hr []).
  pose proof (length_concat_rect _ _ _ Sx) as Cx. pose proof (length_concat_rect _ _ _ Sy) as Cy. destruct Sy as [Ly Sy]. specialize (Sy 0%nat ltac:(lia)). rewrite Hr in Sy.
  rewrite meshgrid_ind_tab in H. injection H as <- <-. cbn [fi_xind]. rewrite combine_length, Cx, Cy, PHealSetup.flat_length, Ly, Sy. split; nia.
Qed.
Lemma hpolar_fine_count : forall a B rx ry F pts, hbox_of a = Ok B -> hpolar_fine B (Z.pos rx) (Z.pos ry) = Ok (F, pts) ->
  Z.of_nat (length (fi_xind F)) = (Z.pos rx * b_x_grid a * (Z.pos ry * rows (b_x_grid a) (b_y_grid a)))%Z /\ length pts = length (fi_xind F).
Proof.
  intros a B rx ry F pts HC H. unfold hbox_of in HC. destruct (hbox_inv _ _ _ _ _ _ _ HC) as (Nx & g & Eg & Ng & La & Lb & _). fold (rows (b_x_grid a) (b_y_grid a)) in Eg. subst g.
  unfold hpolar_fine in H. cbv zeta in H.
  apply bind_inv in H. destruct H as (x1 & _ & H). apply bind_inv in H. destruct H as (x2 & _ & H).
  apply bind_inv in H. destruct H as (rae & Ha & H). apply bind_inv in H. destruct H as (x3 & _ & H). apply bind_inv in H. destruct H as (x4 & _ & H).
  apply bind_inv in H. destruct H as (rbe & Hb & H). rewrite mid_length in Ha, Hb. rewrite La in Ha. rewrite Lb in Hb.
  apply linspaceZ_length in Ha, Hb. destruct Ha as [_ Ha], Hb as [_ Hb].
  pose proof (mesh_x_shape (mid rae) (mid rbe)) as Sx. pose proof (mesh_y_shape (mid rae) (mid rbe)) as Sy.
  destruct (meshgrid (mid rae) (mid rbe)) as [ra2 rb2]. cbn [fst snd] in Sx, Sy. rewrite !mid_length in Sx, Sy.
  pose proof (length_concat_rect _ _ _ Sx) as Cx. pose proof (length_concat_rect _ _ _ Sy) as Cy.
  rewrite meshgrid_ind_tab in H. injection H as <- <-. cbn [fi_xind]. rewrite map_length, combine_length, Cx, Cy, PHealSetup.flat_length. split; nia.
Qed.

Lemma pixels_from : forall H n th sp c pts pix, pixels_of H n th sp c pts = Ok pix ->
  length pix = length pts /\ forall k, In k pix -> exists m t p, ang2pix_of H m t p = Ok k.
Proof.
  intros H n th sp c pts pix E. unfold pixels_of in E. apply bind_inv in E. destruct E as (c0 & _ & E). apply bind_inv in E. destruct E as (c1 & _ & E). cbv zeta in E.
  destruct n as [[n np]|]; [|apply bind_inv in E; destruct E as (x & _ & E); discriminate]. cbn [fst] in E. split; [exact (mapM_len _ _ _ _ _ E)|].
  intros k Hk. destruct (mapM_in _ _ _ _ _ _ E Hk) as (p & _ & Ep). unfold heal_pixel in Ep.
  apply bind_inv in Ep. destruct Ep as (q & _ & Ep). apply bind_inv in Ep. destruct Ep as ([[u|] [v|]] & _ & Ep); try discriminate. eauto.
Qed.

Lemma ring_remap_attr : forall (C : cap) F f, fine_good (C, F) -> (forall k, In k (fi_pix F) -> position f k) -> ring_remap0 (C, F) f = Err AttributeError.
Proof.
  intros C F f [Lx Ly] P. cbn [snd] in Lx, Ly. unfold ring_remap0. destruct (positions_get f _ P) as [vs ->]. cbn [bind]. cbv zeta.
  rewrite !(py_get_ok _ (fi_yedges F) _ 0) by lia. cbn [bind].
  rewrite (areas_first (fun a b => sky_area 0 _ a b) (fi_xedges F) Lx); [reflexivity|]. intros. apply sky_area_raises.
Qed.
Lemma polar_remap_attr : forall (B : hbox) F f, fine_good (B, F) -> (forall k, In k (fi_pix F) -> position f k) -> hpolar_remap0 (B, F) f = Err AttributeError.
Proof.
  intros C F f [Lx Ly] P. cbn [snd] in Lx, Ly. unfold hpolar_remap0. destruct (positions_get f _ P) as [vs ->]. cbn [bind]. cbv zeta.
  rewrite !(py_get_ok _ (fi_xedges F) _ 0) by lia. cbn [bind].
  rewrite (areas_first (fun a b => sky_area 0 _ (a + PI / 2) (b + PI / 2)) (fi_yedges F) Ly); [reflexivity|]. intros. apply sky_area_raises.
Qed.

(** The object after a history, for both classes. *)
Section Class.
Context {A Call : Type} (step : hobj (A * MHeal.fine) -> Call -> hobj (A * MHeal.fine) * res value) (clean : Call) (cells : Call -> nat -> Prop)
  (remap0 : A * MHeal.fine -> list R -> res (list (list num))) (pixel : Z -> Prop).
Hypothesis on_clean : forall s, fst (step s clean) = fresh.
Hypothesis on_grid : forall s c N, cells c N -> exists C F, h_made (fst (step s c)) = Some (C, F) /\ fine_good (C, F) /\ length (fi_xind F) = N.
Hypothesis on_other : forall s c, c <> clean -> (forall N, ~ cells c N) -> h_made (fst (step s c)) = h_made s.
Hypothesis on_pix : forall s c N, cells c N -> snd (step s c) = Ok VNone -> exists l, h_pix (fst (step s c)) = Some l /\ length l = N /\ forall k, In k l -> pixel k.
Hypothesis off_pix : forall s c, c <> clean -> (forall N, cells c N -> snd (step s c) <> Ok VNone) -> h_pix (fst (step s c)) = h_pix s.
Hypothesis remap_attr : forall C F f, fine_good (C, F) -> (forall k, In k (fi_pix F) -> position f k) -> remap0 (C, F) f = Err AttributeError.

Lemma kept : forall X (fld : hobj (A * MHeal.fine) -> X) h2 s,
  (forall k1 c k2, h2 = k1 ++ c :: k2 -> fld (fst (step (run step s k1) c)) = fld (run step s k1)) -> fld (run step s h2) = fld s.
Proof.
  intros X fld h2 s. induction h2 as [|c h IH] using rev_ind; intros K; [reflexivity|]. rewrite run_app. cbn [run].
  rewrite (K h c []) by reflexivity. apply IH. intros k1 d k2 ->. apply (K k1 d (k2 ++ [c])). now rewrite <- app_assoc.
Qed.

Lemma grid_there : forall h N, grid_last clean cells h N -> exists C F, h_made (run step fresh h) = Some (C, F) /\ fine_good (C, F) /\ length (fi_xind F) = N.
Proof.
  intros h N (h1 & c & h2 & -> & Hc & NC & NG). rewrite run_app. cbn [run]. rewrite (kept _ h_made); [now apply on_grid|].
  intros k1 d k2 ->. apply on_other; [intros ->; apply NC; apply in_or_app; right; now left|]. intros M. apply NG. apply in_or_app. right. now left.
Qed.
Lemma pix_there : forall h N, success_last step clean cells h N -> exists l, h_pix (run step fresh h) = Some l /\ length l = N /\ forall k, In k l -> pixel k.
Proof.
  intros h N (h1 & c & h2 & -> & Hc & E & NC & NG). rewrite run_app. cbn [run]. rewrite (kept _ h_pix); [now apply on_pix|].
  intros k1 d k2 E2. apply off_pix; [intros ->; apply NC; rewrite E2; apply in_or_app; right; now left|].
  intros M HM. pose proof (NG k1 d k2 M E2 HM) as G. unfold outcome in G. rewrite run_app in G. cbn [run] in G. exact G.
Qed.
Lemma pix_not_there : forall h, no_success step clean cells h -> h_pix (run step fresh h) = None.
Proof.
  intros h. induction h as [|c h IH] using rev_ind; intros NS; [reflexivity|]. rewrite run_app. cbn [run].
  destruct (Classical_Prop.classic (c = clean)) as [->|NC]; [now rewrite on_clean|]. rewrite off_pix; [|exact NC|].
  - apply IH. intros h1 d h2 N -> Hd Ed. specialize (NS h1 d (h2 ++ [c]) N ltac:(now rewrite <- app_assoc) Hd Ed). apply in_app_or in NS. destruct NS as [NS|[NS|[]]]; [exact NS|congruence].
  - intros N Hc E. exact (NS h c [] N eq_refl Hc E).
Qed.

Lemma remap_made : forall h N f w, grid_last clean cells h N ->
  let out := grid_val (heal_remap (remap0_of remap0) (run step fresh h) f w) in
  (match w with Some w => length w <> length f | None => False end -> out = Err ValueError) /\
  (match w with Some w => length w = length f | None => True end ->
   (no_success step clean cells h -> out = Err (if (length f =? N)%nat || (length f =? 1)%nat then AttributeError else ValueError)) /\
   (forall M, success_last step clean cells h M -> (forall k, pixel k -> position f k) -> out = Err (if (M =? N)%nat then AttributeError else ValueError))).
Proof.
  intros h N f w HG. destruct (grid_there h N HG) as (C & F & EM & GF & LN). set (s := run step fresh h) in *. cbv zeta.
  assert (GP : forall l, fine_good (C, with_pix F l)) by (intros l; exact GF).
  split.
  { destruct w as [w|]; [|tauto]. intros L. unfold heal_remap. destruct (Nat.eqb_spec (length f) (length w)); [congruence|reflexivity]. }
  intros L.
  assert (R : forall e, (forall f', length f' = length f -> remap0_of remap0 s f' = Err e) -> grid_val (heal_remap (remap0_of remap0) s f w) = Err e).
  { intros e He. unfold heal_remap. destruct w as [w|]; [|now rewrite He]. rewrite L, Nat.eqb_refl. rewrite He; [reflexivity|]. rewrite map2_length, L. apply Nat.min_id. }
  split.
  - intros NS. apply R. intros f' Lf. unfold remap0_of. rewrite EM. cbv zeta. rewrite LN. unfold s. rewrite (pix_not_there h NS), <- Lf.
    destruct (Nat.eqb_spec (length f') N) as [E|E]; cbn [orb].
    + apply remap_attr; [apply GP|]. cbn [with_pix fi_pix]. intros k Hk. apply in_map_iff in Hk. destruct Hk as (j & <- & Hj). apply in_seq in Hj. unfold position. lia.
    + destruct (Nat.eqb_spec (length f') 1); [|reflexivity]. apply remap_attr; [apply GP|]. cbn [with_pix fi_pix]. intros k Hk. apply repeat_spec in Hk. subst k. unfold position. lia.
  - intros M HS HP. destruct (pix_there h M HS) as (l & El & Ll & Pl). fold s in El. apply R. intros f' Lf. unfold remap0_of. rewrite EM. cbv zeta. rewrite LN, El, Ll.
    assert (P' : forall k, In k l -> position f' k) by (intros k Hk; unfold position; rewrite Lf; apply HP; auto).
    destruct (positions_get f' l P') as [vs ->]. cbn [bind]. destruct (M =? N)%nat; [|reflexivity]. apply remap_attr; [apply GP|exact P'].
Qed.
End Class.

Lemma radial_pix : forall A H g (s : hobj A) f sg w, h_pix (fst (radial_step H g s f sg w)) = h_pix s.
Proof.
  intros. unfold radial_step. destruct (match h_area s with Some _ => _ | None => _ end); [|reflexivity].
  destruct (match h_pixarea _ with Some _ => _ | None => _ end); reflexivity.
Qed.

(** A set-up on any object: nothing, or the grid without pixels, or both. *)
Lemma ring_effect : forall H (s : hobj (cap * MHeal.fine)) a ra rb,
  (grids_cap a /\ exists C F, h_made (fst (ring_step H s a ra rb)) = Some (C, F) /\ fine_good (C, F) /\
     Z.of_nat (length (fi_xind F)) = (Z.pos ra * a_num_alpha a * (Z.pos rb * a_num_beta a))%Z /\
     ((snd (ring_step H s a ra rb) <> Ok VNone /\ h_pix (fst (ring_step H s a ra rb)) = h_pix s) \/
      exists l, snd (ring_step H s a ra rb) = Ok VNone /\ h_pix (fst (ring_step H s a ra rb)) = Some l /\ length l = length (fi_xind F) /\ forall k, In k l -> exists m t p, ang2pix_of H m t p = Ok k)) \/
  (~ grids_cap a /\ h_made (fst (ring_step H s a ra rb)) = h_made s /\ h_pix (fst (ring_step H s a ra rb)) = h_pix s).
Proof.
  intros H s a ra rb. destruct (cap_of a) as [C|e] eqn:EC.
  - left. assert (G : grids_cap a) by (apply cap_made; eauto). split; [exact G|]. pose proof EC as EC'. rewrite cap_split in EC'.
    destruct (ring_fine_ok a C ra rb EC) as [[F pts] EF]. destruct (ring_fine_count _ _ _ _ _ _ EC EF) as [N1 N2]. pose proof (ring_fine_good _ _ _ _ _ _ EC EF) as GF.
    unfold ring_step. destruct (cap_edges a) as [ed|]; [|discriminate]. rewrite EC. cbn [bind]. rewrite EF. cbn [bind]. exists C, F.
    destruct (pixels_of _ _ _ _ _ _) as [l|e] eqn:EP; (split; [reflexivity|]; split; [exact GF|]; split; [exact N1|]).
    + right. exists l. apply pixels_from in EP. destruct EP as [L P]. split; [reflexivity|]. split; [reflexivity|]. split; [congruence|exact P].
    + left. split; [discriminate|reflexivity].
  - right. assert (G : ~ grids_cap a) by (intros G; apply cap_made in G; destruct G as [C E']; congruence). split; [exact G|].
    unfold ring_step. destruct (cap_edges a); [|split; reflexivity]. rewrite EC. split; reflexivity.
Qed.
Lemma hpolar_effect : forall H (s : hobj (hbox * MHeal.fine)) a rx ry,
  (grids_box a /\ exists C F, h_made (fst (hpolar_step H s a rx ry)) = Some (C, F) /\ fine_good (C, F) /\
     Z.of_nat (length (fi_xind F)) = (Z.pos rx * b_x_grid a * (Z.pos ry * rows (b_x_grid a) (b_y_grid a)))%Z /\
     ((snd (hpolar_step H s a rx ry) <> Ok VNone /\ h_pix (fst (hpolar_step H s a rx ry)) = h_pix s) \/
      exists l, snd (hpolar_step H s a rx ry) = Ok VNone /\ h_pix (fst (hpolar_step H s a rx ry)) = Some l /\ length l = length (fi_xind F) /\ forall k, In k l -> exists m t p, ang2pix_of H m t p = Ok k)) \/
  (~ grids_box a /\ h_made (fst (hpolar_step H s a rx ry)) = h_made s /\ h_pix (fst (hpolar_step H s a rx ry)) = h_pix s).
Proof.
  intros H s a ra rb. destruct (hbox_of a) as [C|e] eqn:EC.
  - left. assert (G : grids_box a) by (apply box_made; eauto). split; [exact G|]. pose proof EC as EC'. rewrite hbox_split in EC'.
    destruct (hpolar_fine_ok a C ra rb EC) as [[F pts] EF]. destruct (hpolar_fine_count _ _ _ _ _ _ EC EF) as [N1 N2]. pose proof (hpolar_fine_good _ _ _ _ _ _ EC EF) as GF.
    unfold hpolar_step. destruct (hbox_edges a) as [ed|]; [|discriminate]. rewrite EC. cbn [bind]. rewrite EF. cbn [bind]. exists C, F.
    destruct (pixels_of _ _ _ _ _ _) as [l|e] eqn:EP; (split; [reflexivity|]; split; [exact GF|]; split; [exact N1|]).
    + right. exists l. apply pixels_from in EP. destruct EP as [L P]. split; [reflexivity|]. split; [reflexivity|]. split; [congruence|exact P].
    + left. split; [discriminate|reflexivity].
  - right. assert (G : ~ grids_box a) by (intros G; apply box_made in G; destruct G as [C E']; congruence). split; [exact G|].
    unfold hpolar_step. destruct (hbox_edges a); [|split; reflexivity]. rewrite EC. split; reflexivity.
Qed.

Lemma map_pix : forall A H (s : hobj A) n np, h_pix (fst (map_step H s n np)) = h_pix s.
Proof. intros. unfold map_step. destruct (setup_map _ _); reflexivity. Qed.

(** ** C84 *)

(** [remap] of the dense classes once a grid is made.  A weight of another length
    is a ValueError.  When no set-up succeeded ([ang2pix] raised, or there is no
    map), maps of the length of the fine grid or of length one get as far as the
    AttributeError and others raise ValueError; otherwise the pixels of the last
    set-up that succeeded are used, which fit the grid or raise ValueError. *)
Theorem C84_dense_remap : forall H N f w,
  (forall h, grid_last RClean ring_cells h N ->
    (match w with Some w => length w <> length f | None => False end -> outcome (dense_ring H) h (RRemap f w) = Err ValueError) /\
    (match w with Some w => length w = length f | None => True end ->
     (no_success (dense_ring H) RClean ring_cells h ->
        outcome (dense_ring H) h (RRemap f w) = Err (if (length f =? N)%nat || (length f =? 1)%nat then AttributeError else ValueError)) /\
     (forall M, success_last (dense_ring H) RClean ring_cells h M -> (forall n t p k, ang2pix_of H n t p = Ok k -> position f k) ->
        outcome (dense_ring H) h (RRemap f w) = Err (if (M =? N)%nat then AttributeError else ValueError)))) /\
  (forall h, grid_last PClean polar_cells h N ->
    (match w with Some w => length w <> length f | None => False end -> outcome (dense_polar H) h (PRemap f w) = Err ValueError) /\
    (match w with Some w => length w = length f | None => True end ->
     (no_success (dense_polar H) PClean polar_cells h ->
        outcome (dense_polar H) h (PRemap f w) = Err (if (length f =? N)%nat || (length f =? 1)%nat then AttributeError else ValueError)) /\
     (forall M, success_last (dense_polar H) PClean polar_cells h M -> (forall n t p k, ang2pix_of H n t p = Ok k -> position f k) ->
        outcome (dense_polar H) h (PRemap f w) = Err (if (M =? N)%nat then AttributeError else ValueError)))).
Proof.
  intros H N f w. split; intros h HG.
  - assert (Q := remap_made (dense_ring H) RClean ring_cells ring_remap0 (fun k => exists n t p, ang2pix_of H n t p = Ok k)).
    destruct (Q ltac:(reflexivity)) with (h := h) (N := N) (f := f) (w := w) as [Q1 Q2]; auto using ring_remap_attr.
    + intros s c M HM. destruct c as [n np|a ra rb|m|f0 w0|f0 sh|f0 sg w0|]; try contradiction. destruct HM as (H1 & H2 & H3 & H4).
      cbn [dense_ring]. destruct (ring_effect H s a ra rb) as [(_ & C & F & E1 & E2 & E3 & _)|(G & _)]; [|elim G; split; auto]. exists C, F. repeat split; try apply E2; auto. lia.
    + intros s c NC NG. destruct c as [n np|a ra rb|m|f0 w0|f0 sh|f0 sg w0|]; cbn [dense_ring fst]; try reflexivity; [apply map_made| |apply radial_made|now elim NC].
      destruct (ring_effect H s a ra rb) as [((G1 & G2 & G3) & C & F & _ & _ & E3 & _)|(_ & E & _)]; [|exact E]. elim (NG (length (fi_xind F))). cbn [ring_cells]. auto.
    + intros s c M HM E. destruct c as [n np|a ra rb|m|f0 w0|f0 sh|f0 sg w0|]; try contradiction. destruct HM as (H1 & H2 & H3 & H4). cbn [dense_ring] in E |- *.
      destruct (ring_effect H s a ra rb) as [(_ & C & F & _ & _ & E3 & [[E4 _]|(l & E7 & E4 & E5 & E6)])|(G & _)]; [contradiction| |elim G; split; auto]. exists l. split; [exact E4|]. split; [lia|exact E6].
    + intros s c NC NG. destruct c as [n np|a ra rb|m|f0 w0|f0 sh|f0 sg w0|]; cbn [dense_ring fst] in *; try reflexivity; [apply map_pix| |apply radial_pix|now elim NC].
      destruct (ring_effect H s a ra rb) as [((G1 & G2 & G3) & C & F & _ & _ & E3 & [[_ E4]|(l & E7 & E4 & E5 & E6)])|(_ & _ & E)]; [exact E4| |exact E].
      now elim (NG (length (fi_xind F)) ltac:(cbn [ring_cells]; auto)).
    + split; [exact Q1|]. intros L. destruct (Q2 L) as [Q3 Q4]. split; [exact Q3|]. intros M HM HP. apply Q4; [exact HM|]. intros k (n & t & p & E). eauto.
  - assert (Q := remap_made (dense_polar H) PClean polar_cells hpolar_remap0 (fun k => exists n t p, ang2pix_of H n t p = Ok k)).
    destruct (Q ltac:(reflexivity)) with (h := h) (N := N) (f := f) (w := w) as [Q1 Q2]; auto using polar_remap_attr.
    + intros s c M HM. destruct c as [n np|a ra rb|m|f0 w0|]; try contradiction. destruct HM as (H1 & H2 & H3 & H4).
      cbn [dense_polar]. destruct (hpolar_effect H s a ra rb) as [(_ & C & F & E1 & E2 & E3 & _)|(G & _)]; [|elim G; split; auto]. exists C, F. repeat split; try apply E2; auto. lia.
    + intros s c NC NG. destruct c as [n np|a ra rb|m|f0 w0|]; cbn [dense_polar fst]; try reflexivity; [apply map_made| |now elim NC].
      destruct (hpolar_effect H s a ra rb) as [((G1 & G2 & G3) & C & F & _ & _ & E3 & _)|(_ & E & _)]; [|exact E]. elim (NG (length (fi_xind F))). cbn [polar_cells]. auto.
    + intros s c M HM E. destruct c as [n np|a ra rb|m|f0 w0|]; try contradiction. destruct HM as (H1 & H2 & H3 & H4). cbn [dense_polar] in E |- *.
      destruct (hpolar_effect H s a ra rb) as [(_ & C & F & _ & _ & E3 & [[E4 _]|(l & E7 & E4 & E5 & E6)])|(G & _)]; [contradiction| |elim G; split; auto]. exists l. split; [exact E4|]. split; [lia|exact E6].
    + intros s c NC NG. destruct c as [n np|a ra rb|m|f0 w0|]; cbn [dense_polar fst] in *; try reflexivity; [apply map_pix| |now elim NC].
      destruct (hpolar_effect H s a ra rb) as [((G1 & G2 & G3) & C & F & _ & _ & E3 & [[_ E4]|(l & E7 & E4 & E5 & E6)])|(_ & _ & E)]; [exact E4| |exact E].
      now elim (NG (length (fi_xind F)) ltac:(cbn [polar_cells]; auto)).
    + split; [exact Q1|]. intros L. destruct (Q2 L) as [Q3 Q4]. split; [exact Q3|]. intros M HM HP. apply Q4; [exact HM|]. intros k (n & t & p & E). eauto.
Qed.
Print Assumptions C84_dense_remap.

(** A grid of four cells without a map; a set-up of four cells that succeeds
    followed by one of eight that [ang2pix] refuses. *)
Example C84_remap_example :
  let H := Healpy (fun n => (0 <? n)%Z) (fun n _ _ => if (n <? 5)%Z then Ok 0%Z else Err ValueError) (fun _ => 1) TypeError TypeError TypeError in
  let a := CapArg 0 1 2 2 0 (2 * PI) [0; 0] 0 in
  let h := [RSetup a 1 1] in
  let h' := [RMap 1 false; RSetup a 1 1; RMap 8 false; RSetup a 2 1] in
  grid_last RClean ring_cells h 4 /\ no_success (dense_ring H) RClean ring_cells h /\
  outcome (dense_ring H) h (RRemap [1; 2; 3; 4] None) = Err AttributeError /\ outcome (dense_ring H) h (RRemap [1; 2] None) = Err ValueError /\
  grid_last RClean ring_cells h' 8 /\ success_last (dense_ring H) RClean ring_cells h' 4 /\ outcome (dense_ring H) h' (RRemap [1; 2] None) = Err ValueError.
Proof.
  intros H a h h'. pose proof PI_RGT_0.
  assert (AC : accepted a) by (unfold accepted, ring_args, a; cbn; repeat split; try lra; lia).
  assert (G : grid_last RClean ring_cells h 4).
  { exists [], (RSetup a 1 1), []. split; [reflexivity|]. split; [|split; [tauto|intros d M []]]. cbn [ring_cells]. split; [exact AC|cbn; lia]. }
  assert (NS : no_success (dense_ring H) RClean ring_cells h).
  { intros h1 c h2 N E _ E'. destruct h1 as [|d [|? ?]]; try discriminate E. injection E as <- <-. exfalso. unfold outcome in E'. cbn [run dense_ring] in E'.
    unfold MLifeHeal.ring_step in E'. destruct (cap_edges a); [|discriminate]. destruct (bind (cap_of a) _) as [[C [F pts]]|]; [|discriminate].
    destruct (pixels_of H _ _ _ _ _) eqn:EP; [|discriminate]. unfold pixels_of in EP. cbn [set_made set_edges h_nside fresh] in EP.
    apply bind_inv in EP. destruct EP as (c0 & _ & EP). apply bind_inv in EP. destruct EP as (c1 & _ & EP). apply bind_inv in EP. destruct EP as (x & _ & EP). discriminate. }
  split; [exact G|]. split; [exact NS|].
  destruct (C84_dense_remap H 4 [1; 2; 3; 4] None) as [D _]. destruct (D h G) as [_ D1]. destruct (D1 Logic.I) as [D2 _]. split; [exact (D2 NS)|].
  destruct (C84_dense_remap H 4 [1; 2] None) as [D' _]. destruct (D' h G) as [_ D1']. destruct (D1' Logic.I) as [D2' _]. split; [exact (D2' NS)|].
  assert (G' : grid_last RClean ring_cells h' 8).
  { exists [RMap 1 false; RSetup a 1 1; RMap 8 false], (RSetup a 2 1), []. split; [reflexivity|]. split; [|split; [tauto|intros d M []]]. cbn [ring_cells]. split; [exact AC|cbn; lia]. }
  assert (S' : success_last (dense_ring H) RClean ring_cells h' 4).
  { exists [RMap 1 false], (RSetup a 1 1), [RMap 8 false; RSetup a 2 1]. split; [reflexivity|]. split; [cbn [ring_cells]; split; [exact AC|cbn; lia]|]. split; [|split].
    - rewrite (proj1 (C84_setup H 1) [RMap 1 false] a 1 1)%positive.
      + unfold ring_alone. destruct THeal.C64_case as [(C & F & E & _) _]. cbn [a a_alpha_min a_alpha_max a_num_alpha a_num_beta a_beta_min a_beta_max a_center a_shift].
        change (ang2pix_of H 1) with (fun _ _ : R => Ok 0%Z). rewrite E. reflexivity.
      + exists [], [], false. repeat split; cbn; tauto.
    - intros [E|[E|[]]]; discriminate.
    - intros k1 d k2 M E HM. destruct k1 as [|d1 [|d2 [|? ?]]]; try discriminate E; injection E; intros; subst; [contradiction|]. clear E HM.
      rewrite (proj1 (C84_setup H 8) _ a 2 1)%positive.
      + rewrite ring_alone_split. destruct (cap_of a) as [C|] eqn:EC; [|discriminate]. cbn [bind]. destruct (ring_fine C _ _) as [[F pts]|] eqn:EF; [|discriminate]. cbn [bind fst snd].
        destruct (ring_fine_count _ _ _ _ _ _ EC EF) as [N1 N2]. destruct (py_get (a_center a) 0) as [c0|]; [|discriminate]. destruct (py_get (a_center a) 1) as [c1|]; [|discriminate]. cbn [bind].
        destruct (mapM _ _) as [l|] eqn:EM; [|discriminate]. exfalso. pose proof (mapM_len _ _ _ _ _ EM) as Ll. destruct l as [|y l]; [cbn in *; lia|].
        destruct (mapM_in _ _ _ _ _ y EM ltac:(now left)) as (x & _ & Ex). unfold heal_pixel in Ex.
        apply bind_inv in Ex. destruct Ex as (q & _ & Ex). apply bind_inv in Ex. destruct Ex as ([[u|] [v|]] & _ & Ex); discriminate.
      + exists [RMap 1 false; RSetup a 1 1], [], false. repeat split; cbn; tauto. }
  split; [exact G'|]. split; [exact S'|].
  destruct (C84_dense_remap H 8 [1; 2] None) as [K _]. destruct (K h' G') as [_ K1]. destruct (K1 Logic.I) as [_ K2]. apply (K2 4%nat S').
  intros n t p k E. cbn in E. destruct (n <? 5)%Z; [|discriminate]. injection E as <-. unfold position. cbn. lia.
Qed.
Print Assumptions C84_remap_example.
