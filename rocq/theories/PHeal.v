(** * Lemmas for the HEALPix remappers *)

From Coq Require Import Reals ZArith List Bool Lia Lra.
From Flocq Require Import Core.Raux.
From Verif Require Import Base BaseP SpecGrid MCoords MUsphere MDense MOrtho MCube MHeal PPolarCoords PDense PMonte.
Import ListNotations.
Open Scope R_scope.

Lemma sky_area_raises : forall a b c d, sky_area a b c d = Err AttributeError.
Proof. reflexivity. Qed.

Lemma bind_inv : forall A B (x : res A) (k : A -> res B) b, bind x k = Ok b -> exists a, x = Ok a /\ k a = Ok b.
Proof. intros A B [a|e] k b H; [exists a; auto|discriminate]. Qed.

Lemma linspaceZ_length : forall a b n l, linspaceZ a b n = Ok l -> (0 <= n)%Z /\ length l = Z.to_nat n.
Proof.
  intros a b n l H. unfold linspaceZ in H. destruct (n <? 0)%Z eqn:E; [discriminate|]. apply Z.ltb_ge in E. injection H as <-.
  split; [auto|apply length_linspace].
Qed.

Lemma mid_length : forall e, length (mid e) = (length e - 1)%nat.
Proof.
  intros e. unfold mid. rewrite map2_length. assert (T : length (tl e) = (length e - 1)%nat) by (destruct e; cbn [tl length]; lia).
  rewrite T, removelast_firstn_len, firstn_length. lia.
Qed.

Lemma py_get_some : forall A (l : list A) k x, py_get l (Z.of_nat k) = Ok x -> (k < length l)%nat /\ forall d, nth k l d = x.
Proof.
  intros A l k x H. destruct (Nat.lt_ge_cases k (length l)) as [L|L].
  - split; [auto|]. intros d. rewrite (py_get_ok A l (Z.of_nat k) d) in H by lia. rewrite Nat2Z.id in H. now injection H.
  - unfold py_get in H. replace (Z.of_nat k <? 0)%Z with false in H by (symmetry; apply Z.ltb_ge; lia).
    replace (Z.of_nat k <? 0)%Z with false in H by (symmetry; apply Z.ltb_ge; lia). rewrite Nat2Z.id, (proj2 (nth_error_None l k) L) in H. discriminate.
Qed.

Lemma mesh_x_shape : forall x y, shape2 (fst (meshgrid x y)) (length y) (length x).
Proof.
  intros x y. unfold meshgrid. cbn [fst]. split; [apply map_length|].
  induction y as [|b y IH]; intros i Hi; [cbn in Hi; lia|]. destruct i as [|i]; [reflexivity|]. cbn [map nth]. apply IH. cbn in Hi. lia.
Qed.
Lemma mesh_y_shape : forall x y, shape2 (snd (meshgrid x y)) (length y) (length x).
Proof.
  intros x y. unfold meshgrid. cbn [snd]. split; [apply map_length|].
  induction y as [|b y IH]; intros i Hi; [cbn in Hi; lia|]. destruct i as [|i]; [apply map_length|]. cbn [map nth]. apply IH. cbn in Hi. lia.
Qed.

(** What a successful set-up of a polar cap leaves. *)
Lemma cap_inv : forall a b na nb c d ctr s C, setup_polar_cap a b na nb c d ctr s = Ok C ->
  (2 <= na)%Z /\ (2 <= nb)%Z /\ length (cp_alpha_edges C) = S (Z.to_nat na) /\ length (cp_beta_edges C) = S (Z.to_nat nb) /\
  shape2 (cp_alpha2d C) (Z.to_nat nb) (Z.to_nat na) /\ shape2 (cp_beta2d C) (Z.to_nat nb) (Z.to_nat na) /\ length ctr = 2%nat.
Proof.
  intros a b na nb c d ctr s C H. unfold setup_polar_cap in H. do 10 (apply assert_inv in H; let E := fresh "E" in destruct H as [E H]).
  apply Z.ltb_lt in E1, E7. apply Nat.eqb_eq in E8.
  apply bind_inv in H. destruct H as (ae & Ha & H). apply bind_inv in H. destruct H as (be & Hb & H).
  apply linspaceZ_length in Ha, Hb. destruct Ha as [_ La], Hb as [_ Lb].
  apply bind_inv in H. destruct H as (x1 & G1 & H). apply bind_inv in H. destruct H as (x2 & _ & H).
  apply bind_inv in H. destruct H as (x3 & G3 & H). apply bind_inv in H. destruct H as (x4 & _ & H).
  apply (py_get_some _ _ 1) in G1, G3. destruct G1 as [G1 _], G3 as [G3 _]. rewrite mid_length in G1, G3.
  pose proof (mesh_x_shape (mid ae) (mid be)) as Sx. pose proof (mesh_y_shape (mid ae) (mid be)) as Sy.
  destruct (meshgrid (mid ae) (mid be)) as [a2 b2]. cbn [fst snd] in Sx, Sy. injection H as <-. cbn [cp_alpha_edges cp_beta_edges cp_alpha2d cp_beta2d].
  rewrite !mid_length in Sx, Sy. rewrite La, Lb in *. replace (Z.to_nat (na + 1)) with (S (Z.to_nat na)) in * by lia.
  replace (Z.to_nat (nb + 1)) with (S (Z.to_nat nb)) in * by lia. cbn [Nat.sub] in *. rewrite !Nat.sub_0_r in *.
  repeat split; try lia; try apply Sx; try apply Sy.
Qed.

Lemma hbox_inv : forall xl xg ctr al yl yg H, setup_hbox xl xg ctr al yl yg = Ok H ->
  (2 <= xg)%Z /\ exists g, g = match yg with Some g => g | None => xg end /\ (2 <= g)%Z /\
  length (hb_xedges H) = S (Z.to_nat xg) /\ length (hb_yedges H) = S (Z.to_nat g) /\ shape2 (hb_x2d H) (Z.to_nat g) (Z.to_nat xg) /\ length ctr = 2%nat.
Proof.
  intros xl xg ctr al yl yg H E. unfold setup_hbox in E. do 3 (apply assert_inv in E; let F := fresh "F" in destruct E as [F E]).
  apply Z.ltb_lt in F1. apply bind_inv in E. destruct E as (l & _ & E). apply bind_inv in E. destruct E as (g & Eg & E).
  assert (Eg' : g = match yg with Some g => g | None => xg end /\ (0 < g)%Z).
  { destruct yg as [g'|]; [|injection Eg as <-; auto]. apply assert_inv in Eg. destruct Eg as [P Eg]. injection Eg as <-. split; [auto|now apply Z.ltb_lt]. }
  destruct Eg' as [-> Pg]. clear Eg. apply assert_inv in E. destruct E as [Ec E]. apply Nat.eqb_eq in Ec.
  apply bind_inv in E. destruct E as (xe & Hx & E). apply bind_inv in E. destruct E as (ye & Hy & E).
  apply linspaceZ_length in Hx, Hy. destruct Hx as [_ Lx], Hy as [_ Ly].
  apply bind_inv in E. destruct E as (x1 & G1 & E). apply bind_inv in E. destruct E as (x2 & _ & E).
  apply bind_inv in E. destruct E as (x3 & G3 & E). apply bind_inv in E. destruct E as (x4 & _ & E).
  apply (py_get_some _ _ 1) in G1, G3. destruct G1 as [G1 _], G3 as [G3 _]. rewrite mid_length in G1, G3.
  pose proof (mesh_x_shape (mid xe) (mid ye)) as Sx.
  destruct (meshgrid (mid xe) (mid ye)) as [a2 b2]. cbn [fst snd] in Sx. injection E as <-. cbn [hb_xedges hb_yedges hb_x2d].
  rewrite !mid_length in Sx. rewrite Lx, Ly in *. set (g := match yg with Some g => g | None => xg end) in *.
  replace (Z.to_nat (xg + 1)) with (S (Z.to_nat xg)) in * by lia. replace (Z.to_nat (g + 1)) with (S (Z.to_nat g)) in * by lia.
  cbn [Nat.sub] in *. rewrite !Nat.sub_0_r in *. split; [lia|]. exists g. repeat split; try lia; apply Sx.
Qed.

(** What a successful dense set-up leaves. *)
Lemma ring_inv : forall p a b na nb c d ctr s ra rb C F, setup_ring p a b na nb c d ctr s ra rb = Ok (C, F) ->
  setup_polar_cap a b na nb c d ctr s = Ok C /\ (0 <= ra)%Z /\ (1 <= rb)%Z /\
  length (fi_xedges F) = S (Z.to_nat (ra * na)) /\ length (fi_yedges F) = S (Z.to_nat (rb * nb)) /\
  shape2 (fi_x2d F) (Z.to_nat (rb * nb)) (Z.to_nat (ra * na)) /\ shape2 (fi_y2d F) (Z.to_nat (rb * nb)) (Z.to_nat (ra * na)) /\
  fi_first F = Z.to_nat ra /\ fi_second F = Z.to_nat rb.
Proof.
  intros p a b na nb c d ctr s ra rb C F H. unfold setup_ring in H. apply bind_inv in H. destruct H as (C' & HC & H).
  destruct (cap_inv _ _ _ _ _ _ _ _ _ HC) as (Na & Nb & La & Lb & _ & _ & _).
  apply bind_inv in H. destruct H as (x1 & _ & H). apply bind_inv in H. destruct H as (x2 & _ & H).
  apply bind_inv in H. destruct H as (rae & Ha & H). apply bind_inv in H. destruct H as (x3 & _ & H). apply bind_inv in H. destruct H as (x4 & _ & H).
  apply bind_inv in H. destruct H as (rbe & Hb & H). rewrite mid_length in Ha, Hb. rewrite La in Ha. rewrite Lb in Hb.
  replace (Z.of_nat (S (Z.to_nat na) - 1)) with na in Ha by lia. replace (Z.of_nat (S (Z.to_nat nb) - 1)) with nb in Hb by lia.
  apply linspaceZ_length in Ha, Hb. destruct Ha as [Pa La'], Hb as [Pb Lb'].
  pose proof (mesh_x_shape (mid rae) (mid rbe)) as Sx. pose proof (mesh_y_shape (mid rae) (mid rbe)) as Sy.
  destruct (meshgrid (mid rae) (mid rbe)) as [ra2 rb2]. cbn [fst snd] in Sx, Sy. rewrite !mid_length, La', Lb' in Sx, Sy.
  assert (Ra : (0 <= ra)%Z) by nia. assert (Rb : (0 <= rb)%Z) by nia.
  replace (Z.to_nat (ra * na + 1) - 1)%nat with (Z.to_nat (ra * na)) in * by nia. replace (Z.to_nat (rb * nb + 1) - 1)%nat with (Z.to_nat (rb * nb)) in * by nia.
  apply bind_inv in H. destruct H as (rb0 & Hr & H). apply (py_get_some _ _ 0) in Hr. destruct Hr as [Hr _]. destruct Sy as [Sy1 Sy2]. rewrite Sy1 in Hr.
  apply bind_inv in H. destruct H as (c0 & _ & H). apply bind_inv in H. destruct H as (c1 & _ & H). apply bind_inv in H. destruct H as (pix & _ & H).
  apply (f_equal (fun r => match r with Ok q => q | Err _ => (C, F) end)) in H. cbv beta iota in H.
  pose proof (f_equal fst H) as H1. pose proof (f_equal snd H) as H2. cbn [fst snd] in H1, H2. subst C' F. cbn [fi_xedges fi_yedges fi_x2d fi_y2d fi_first fi_second].
  split; [exact HC|]. repeat split; auto; try nia; try apply Sx.
Qed.

Lemma hpolar_inv : forall p xl xg ctr al yl yg rx ry H F, setup_hpolar p xl xg ctr al yl yg rx ry = Ok (H, F) ->
  setup_hbox xl xg ctr al yl yg = Ok H /\ (0 <= rx)%Z /\ (0 <= ry)%Z /\
  length (fi_xedges F) = S (Z.to_nat (rx * xg)) /\ length (fi_yedges F) = S (Z.to_nat (ry * match yg with Some g => g | None => xg end)) /\
  shape2 (fi_x2d F) (Z.to_nat (ry * match yg with Some g => g | None => xg end)) (Z.to_nat (rx * xg)).
Proof.
  intros p xl xg ctr al yl yg rx ry H0 F H. unfold setup_hpolar in H. apply bind_inv in H. destruct H as (H' & HH & H).
  destruct (hbox_inv _ _ _ _ _ _ _ HH) as (Nx & g & Eg & Ng & Lx & Ly & _ & _). rewrite <- Eg.
  apply bind_inv in H. destruct H as (x1 & _ & H). apply bind_inv in H. destruct H as (x2 & _ & H).
  apply bind_inv in H. destruct H as (rxe & Ha & H). apply bind_inv in H. destruct H as (x3 & _ & H). apply bind_inv in H. destruct H as (x4 & _ & H).
  apply bind_inv in H. destruct H as (rye & Hb & H). rewrite mid_length in Ha, Hb. rewrite Lx in Ha. rewrite Ly in Hb.
  replace (Z.of_nat (S (Z.to_nat xg) - 1)) with xg in Ha by lia. replace (Z.of_nat (S (Z.to_nat g) - 1)) with g in Hb by lia.
  apply linspaceZ_length in Ha, Hb. destruct Ha as [Pa La'], Hb as [Pb Lb'].
  pose proof (mesh_x_shape (mid rxe) (mid rye)) as Sx.
  destruct (meshgrid (mid rxe) (mid rye)) as [rx2 ry2]. cbn [fst] in Sx. rewrite !mid_length, La', Lb' in Sx.
  assert (Ra : (0 <= rx)%Z) by nia. assert (Rb : (0 <= ry)%Z) by nia.
  replace (Z.to_nat (rx * xg + 1) - 1)%nat with (Z.to_nat (rx * xg)) in * by nia. replace (Z.to_nat (ry * g + 1) - 1)%nat with (Z.to_nat (ry * g)) in * by nia.
  apply bind_inv in H. destruct H as (c0 & _ & H). apply bind_inv in H. destruct H as (c1 & _ & H). apply bind_inv in H. destruct H as (pix & _ & H).
  apply (f_equal (fun r => match r with Ok q => q | Err _ => (H0, F) end)) in H. cbv beta iota in H.
  pose proof (f_equal fst H) as H1. pose proof (f_equal snd H) as H2. cbn [fst snd] in H1, H2. subst H' F. cbn [fi_xedges fi_yedges fi_x2d].
  split; [exact HH|]. repeat split; auto; try nia; try apply Sx.
Qed.

(** The area list cannot be computed once there is a cell. *)
Lemma areas_raise : forall (e : list R) (g : R -> R -> res R) n, length e = S n -> (1 <= n)%nat -> (forall a b, g a b = Err AttributeError) ->
  mapM (fun i => a0 <- py_get e (Z.of_nat i) ;; a1 <- py_get e (Z.of_nat i + 1) ;; g a0 a1) (seq 0 (length e - 1)) = Err AttributeError.
Proof.
  intros e g n L N Hg. rewrite L. replace (S n - 1)%nat with n by lia. destruct n as [|n]; [lia|]. cbn [seq]. apply mapM_first.
  rewrite !(py_get_ok _ e _ 0) by lia. cbn [bind]. apply Hg.
Qed.

Lemma ring_remap0_never : forall p a b na nb c d ctr s ra rb O f out, setup_ring p a b na nb c d ctr s ra rb = Ok O -> ring_remap0 O f <> Ok out.
Proof.
  intros p a b na nb c d ctr s ra rb [C F] f out H E. destruct (ring_inv _ _ _ _ _ _ _ _ _ _ _ _ _ H) as (HC & Ra & Rb & Lx & Ly & Sx & Sy & Ff & Fs).
  destruct (cap_inv _ _ _ _ _ _ _ _ _ HC) as (Na & Nb & _ & _ & [SA1 SA2] & _ & _).
  unfold ring_remap0 in E. apply bind_inv in E. destruct E as (vals & _ & E). apply bind_inv in E. destruct E as (b1 & _ & E). apply bind_inv in E. destruct E as (b0 & _ & E).
  destruct (Z.eq_dec ra 0) as [Z0|Z0].
  - apply bind_inv in E. destruct E as (area & _ & E).
    destruct (meshgrid area (mid (fi_yedges F))) as [w2 w2'] eqn:Em. apply bind_inv in E. destruct E as (rb0 & Gr & E).
    apply (py_get_some _ _ 0) in Gr. destruct Gr as [Gr Er]. destruct Sy as [Sy1 Sy2]. pose proof (Sy2 0%nat Gr) as Lr. rewrite Er in Lr.
    rewrite Z0 in Lr. cbn [Z.mul Z.to_nat] in Lr. apply bind_inv in E. destruct E as (x3 & _ & E). apply bind_inv in E. destruct E as (a0 & Ga & E).
    apply (py_get_some _ _ 0) in Ga. destruct Ga as [Ga Ea]. pose proof (SA2 0%nat Ga) as La. rewrite Ea in La.
    apply bind_inv in E. destruct E as (x5 & G5 & _). unfold reshape3 in G5. rewrite Lr in G5. unfold sum_axis1 in G5. cbn [seq map] in G5.
    assert (Z1 : forall (l : list (list (list R))), length (concat (map (fun _ => @nil R) l)) = 0%nat) by (induction l; auto).
    rewrite Z1 in G5. rewrite SA1, La, Fs in G5. 
    destruct (0 =? Z.to_nat nb * Z.to_nat na * Z.to_nat rb)%nat eqn:Q; [|discriminate]. apply Nat.eqb_eq in Q. nia.
  - rewrite (areas_raise (fi_xedges F) _ (Z.to_nat (ra * na))) in E; [discriminate|exact Lx|nia|reflexivity].
Qed.

Lemma hpolar_remap0_never : forall p xl xg ctr al yl yg rx ry O f out, setup_hpolar p xl xg ctr al yl yg rx ry = Ok O -> hpolar_remap0 O f <> Ok out.
Proof.
  intros p xl xg ctr al yl yg rx ry [H0 F] f out H E. destruct (hpolar_inv _ _ _ _ _ _ _ _ _ _ _ H) as (HH & Rx & Ry & Lx & Ly & [Sx1 Sx2]).
  destruct (hbox_inv _ _ _ _ _ _ _ HH) as (Nx & g & Eg & Ng & _). rewrite <- Eg in *.
  unfold hpolar_remap0 in E. apply bind_inv in E. destruct E as (vals & _ & E). apply bind_inv in E. destruct E as (b1 & _ & E). apply bind_inv in E. destruct E as (b0 & _ & E).
  destruct (Z.eq_dec ry 0) as [Z0|Z0].
  - apply bind_inv in E. destruct E as (area & _ & E).
    destruct (meshgrid (mid (fi_xedges F)) area) as [w2' w2] eqn:Em. apply bind_inv in E. destruct E as (rx0 & Gr & E).
    apply (py_get_some _ _ 0) in Gr. destruct Gr as [Gr _]. rewrite Sx1, Z0 in Gr. cbn [Z.mul Z.to_nat] in Gr. lia.
  - rewrite (areas_raise (fi_yedges F) (fun y0 y1 => sky_area 0 (b1 - b0) (y0 + PI / 2) (y1 + PI / 2)) (Z.to_nat (ry * g))) in E; [discriminate|exact Ly|nia|reflexivity].
Qed.

(** The values at the pixels can be read from a long enough map. *)
Lemma read_pixels : forall (f : list R) pix, (forall k, In k pix -> (0 <= k < Z.of_nat (length f))%Z) -> exists v, mapM (py_get f) pix = Ok v.
Proof.
  intros f pix. induction pix as [|k pix IH]; intros H; [exists []; reflexivity|]. cbn [mapM]. rewrite (py_get_ok _ f k 0) by (apply H; now left). cbn [bind].
  destruct IH as [v Ev]; [intros; apply H; now right|]. rewrite Ev. cbn [bind]. eexists. reflexivity.
Qed.

Lemma ring_remap0_raises : forall p a b na nb c d ctr s ra rb O f, setup_ring p a b na nb c d ctr s ra rb = Ok O -> (1 <= ra)%Z ->
  (forall k, In k (fi_pix (snd O)) -> (0 <= k < Z.of_nat (length f))%Z) -> ring_remap0 O f = Err AttributeError.
Proof.
  intros p a b na nb c d ctr s ra rb [C F] f H Ra Hp. destruct (ring_inv _ _ _ _ _ _ _ _ _ _ _ _ _ H) as (HC & _ & Rb & Lx & Ly & _).
  destruct (cap_inv _ _ _ _ _ _ _ _ _ HC) as (Na & Nb & _). destruct (read_pixels f (fi_pix F) Hp) as [v Ev]. unfold ring_remap0. rewrite Ev. cbn [bind].
  rewrite !(py_get_ok _ (fi_yedges F) _ 0) by nia. cbn [bind]. rewrite (areas_raise (fi_xedges F) _ (Z.to_nat (ra * na))); [reflexivity|exact Lx|nia|reflexivity].
Qed.

Lemma hpolar_remap0_raises : forall p xl xg ctr al yl yg rx ry O f, setup_hpolar p xl xg ctr al yl yg rx ry = Ok O -> (1 <= rx)%Z -> (1 <= ry)%Z ->
  (forall k, In k (fi_pix (snd O)) -> (0 <= k < Z.of_nat (length f))%Z) -> hpolar_remap0 O f = Err AttributeError.
Proof.
  intros p xl xg ctr al yl yg rx ry [H0 F] f H Rx Ry Hp. destruct (hpolar_inv _ _ _ _ _ _ _ _ _ _ _ H) as (HH & _ & _ & Lx & Ly & _).
  destruct (hbox_inv _ _ _ _ _ _ _ HH) as (Nx & g & Eg & Ng & _). rewrite <- Eg in *. destruct (read_pixels f (fi_pix F) Hp) as [v Ev]. unfold hpolar_remap0. rewrite Ev. cbn [bind].
  rewrite !(py_get_ok _ (fi_xedges F) _ 0) by nia. cbn [bind].
  rewrite (areas_raise (fi_yedges F) (fun y0 y1 => sky_area 0 _ (y0 + PI / 2) (y1 + PI / 2)) (Z.to_nat (ry * g))); [reflexivity|exact Ly|nia|reflexivity].
Qed.
