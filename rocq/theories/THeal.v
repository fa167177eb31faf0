(** * Property theorems: the HEALPix remappers cannot run *)

From Coq Require Import Reals ZArith List Bool Lia Lra.
From Flocq Require Import Core.Raux.
From Verif Require Import Base BaseP SpecGrid MCoords MUsphere MDense MOrtho MCube MHeal PHealpixBoundary PPolarCoords PDense PMonte PHeal.
Import ListNotations.
Open Scope R_scope.

(** ** C64: dense classes *)

(** No sequence of set-up and remap ends with a result, whatever the
    arguments and whatever healpy answers. *)
Theorem C64_ring : forall isnsideok ang2pix nside alpha_min alpha_max num_alpha num_beta beta_min beta_max center beta_shift rebin_alpha rebin_beta f w out,
  (n <- setup_map isnsideok nside ;;
   O <- setup_ring (ang2pix n) alpha_min alpha_max num_alpha num_beta beta_min beta_max center beta_shift rebin_alpha rebin_beta ;;
   heal_remap ring_remap0 O f w) <> Ok out.
Proof.
  intros. intros E. apply bind_inv in E. destruct E as (n & _ & E). apply bind_inv in E. destruct E as (O & HO & E). unfold heal_remap in E.
  destruct w as [w|].
  - destruct (length f =? length w)%nat; [|discriminate]. apply bind_inv in E. destruct E as (a & Ea & _). exact (ring_remap0_never _ _ _ _ _ _ _ _ _ _ _ _ _ _ HO Ea).
  - exact (ring_remap0_never _ _ _ _ _ _ _ _ _ _ _ _ _ _ HO E).
Qed.
Print Assumptions C64_ring.

Theorem C64_polar : forall isnsideok ang2pix nside x_length x_grid center alpha y_length y_grid rebin_x rebin_y f w out,
  (n <- setup_map isnsideok nside ;;
   O <- setup_hpolar (ang2pix n) x_length x_grid center alpha y_length y_grid rebin_x rebin_y ;;
   heal_remap hpolar_remap0 O f w) <> Ok out.
Proof.
  intros. intros E. apply bind_inv in E. destruct E as (n & _ & E). apply bind_inv in E. destruct E as (O & HO & E). unfold heal_remap in E.
  destruct w as [w|].
  - destruct (length f =? length w)%nat; [|discriminate]. apply bind_inv in E. destruct E as (a & Ea & _). exact (hpolar_remap0_never _ _ _ _ _ _ _ _ _ _ _ _ HO Ea).
  - exact (hpolar_remap0_never _ _ _ _ _ _ _ _ _ _ _ _ HO E).
Qed.
Print Assumptions C64_polar.

(** On an object that was set up, with maps of the right length, the error is
    the missing name [coords.sky_area]. *)
Theorem C64_ring_error : forall ang2pix alpha_min alpha_max num_alpha num_beta beta_min beta_max center beta_shift rebin_alpha rebin_beta O f w,
  setup_ring ang2pix alpha_min alpha_max num_alpha num_beta beta_min beta_max center beta_shift rebin_alpha rebin_beta = Ok O -> (1 <= rebin_alpha)%Z ->
  (forall k, In k (fi_pix (snd O)) -> (0 <= k < Z.of_nat (length f))%Z) -> (forall w', w = Some w' -> length w' = length f) ->
  heal_remap ring_remap0 O f w = Err AttributeError.
Proof.
  intros p a b na nb c d ctr s ra rb O f w HO Ra Hp Hw. unfold heal_remap. destruct w as [w|].
  - pose proof (Hw w eq_refl) as L. rewrite L, Nat.eqb_refl. rewrite (ring_remap0_raises _ _ _ _ _ _ _ _ _ _ _ _ _ HO Ra); [reflexivity|].
    rewrite map2_length, L, Nat.min_id. exact Hp.
  - exact (ring_remap0_raises _ _ _ _ _ _ _ _ _ _ _ _ _ HO Ra Hp).
Qed.
Print Assumptions C64_ring_error.

Theorem C64_polar_error : forall ang2pix x_length x_grid center alpha y_length y_grid rebin_x rebin_y O f w,
  setup_hpolar ang2pix x_length x_grid center alpha y_length y_grid rebin_x rebin_y = Ok O -> (1 <= rebin_x)%Z -> (1 <= rebin_y)%Z ->
  (forall k, In k (fi_pix (snd O)) -> (0 <= k < Z.of_nat (length f))%Z) -> (forall w', w = Some w' -> length w' = length f) ->
  heal_remap hpolar_remap0 O f w = Err AttributeError.
Proof.
  intros p xl xg ctr al yl yg rx ry O f w HO Rx Ry Hp Hw. unfold heal_remap. destruct w as [w|].
  - pose proof (Hw w eq_refl) as L. rewrite L, Nat.eqb_refl. rewrite (hpolar_remap0_raises _ _ _ _ _ _ _ _ _ _ _ HO Rx Ry); [reflexivity|].
    rewrite map2_length, L, Nat.min_id. exact Hp.
  - exact (hpolar_remap0_raises _ _ _ _ _ _ _ _ _ _ _ HO Rx Ry Hp).
Qed.
Print Assumptions C64_polar_error.

(** ** C64: Monte-Carlo classes *)

(** On an object that was set up, [get_weights] raises: the missing name
    [randoms.randoms_sky], unless the number of samples is refused first. *)
Theorem C64_ring_weights : forall alpha_min alpha_max num_alpha num_beta beta_min beta_max center beta_shift C mc,
  setup_polar_cap alpha_min alpha_max num_alpha num_beta beta_min beta_max center beta_shift = Ok C ->
  cap_get_weights C mc = Err (if (1 <? mc)%Z then AttributeError else AssertionError).
Proof.
  intros a b na nb c d ctr s C mc H. destruct (cap_inv _ _ _ _ _ _ _ _ _ H) as (Na & Nb & La & Lb & [S1 S2] & _). unfold cap_get_weights.
  destruct (1 <? mc)%Z; [|reflexivity]. cbn [py_assert]. destruct (cp_alpha2d C) as [|r l] eqn:EA; [cbn in S1; lia|]. cbn [bind].
  pose proof (S2 0%nat) as S3. cbn [nth length] in S3. rewrite S3 by lia. rewrite S1.
  replace (seq 0 (Z.to_nat nb)) with (0%nat :: seq 1 (Z.to_nat nb - 1)) by (replace (Z.to_nat nb) with (S (Z.to_nat nb - 1)) by lia; cbn [Nat.sub seq]; now rewrite Nat.sub_0_r).
  replace (seq 0 (Z.to_nat na)) with (0%nat :: seq 1 (Z.to_nat na - 1)) by (replace (Z.to_nat na) with (S (Z.to_nat na - 1)) by lia; cbn [Nat.sub seq]; now rewrite Nat.sub_0_r).
  rewrite (mapM_first _ _ _ _ _ AttributeError); [reflexivity|]. apply mapM_first.
  rewrite !(py_get_ok _ (cp_alpha_edges C) _ 0), !(py_get_ok _ (cp_beta_edges C) _ 0) by lia. reflexivity.
Qed.
Print Assumptions C64_ring_weights.

Theorem C64_polar_weights : forall x_length x_grid center alpha y_length y_grid H mc,
  setup_hbox x_length x_grid center alpha y_length y_grid = Ok H ->
  hbox_get_weights H mc = Err (if (1 <? mc)%Z then AttributeError else AssertionError).
Proof.
  intros xl xg ctr al yl yg H mc E. destruct (hbox_inv _ _ _ _ _ _ _ E) as (Nx & g & _ & Ng & Lx & Ly & [S1 S2] & _). unfold hbox_get_weights.
  destruct (1 <? mc)%Z; [|reflexivity]. cbn [py_assert]. destruct (hb_x2d H) as [|r l] eqn:EA; [cbn in S1; lia|]. cbn [bind].
  pose proof (S2 0%nat) as S3. cbn [nth length] in S3. rewrite S3 by lia. rewrite S1.
  replace (seq 0 (Z.to_nat g)) with (0%nat :: seq 1 (Z.to_nat g - 1)) by (replace (Z.to_nat g) with (S (Z.to_nat g - 1)) by lia; cbn [Nat.sub seq]; now rewrite Nat.sub_0_r).
  replace (seq 0 (Z.to_nat xg)) with (0%nat :: seq 1 (Z.to_nat xg - 1)) by (replace (Z.to_nat xg) with (S (Z.to_nat xg - 1)) by lia; cbn [Nat.sub seq]; now rewrite Nat.sub_0_r).
  rewrite (mapM_first _ _ _ _ _ AttributeError); [reflexivity|]. apply mapM_first.
  rewrite !(py_get_ok _ (hb_xedges H) _ 0), !(py_get_ok _ (hb_yedges H) _ 0) by lia. reflexivity.
Qed.
Print Assumptions C64_polar_weights.

(** [remap] raises too: on a map of the wrong length, on any weight map when
    [nside] is a Python integer, and otherwise because there are no weights. *)
Lemma no_weights : forall grid2d (n m : nat) nside np f w, shape2 grid2d n m -> (1 <= n)%nat -> (1 <= m)%nat ->
  mc_heal_remap grid2d nside np f w =
  Err (if (length f =? nside2npix nside)%nat && (match w with None => true | Some w' => np && (length w' =? nside2npix nside)%nat end)
       then TypeError else AssertionError).
Proof.
  intros grid2d n m nside np f w [S1 S2] N M. unfold mc_heal_remap, shape_is. destruct (length f =? nside2npix nside)%nat; [|reflexivity].
  destruct (match w with None => true | Some w' => np && (length w' =? nside2npix nside)%nat end); [|reflexivity]. cbn [py_assert andb].
  destruct grid2d as [|r l]; [cbn in S1; lia|]. pose proof (S2 0%nat) as S3. cbn [nth length] in S3. destruct r as [|x r]; [cbn in S3; lia|]. reflexivity.
Qed.

Theorem C64_mc_remap : forall nside np f w,
  (forall alpha_min alpha_max num_alpha num_beta beta_min beta_max center beta_shift C,
     setup_polar_cap alpha_min alpha_max num_alpha num_beta beta_min beta_max center beta_shift = Ok C ->
     mc_heal_remap (cp_alpha2d C) nside np f w =
     Err (if (length f =? nside2npix nside)%nat && (match w with None => true | Some w' => np && (length w' =? nside2npix nside)%nat end)
          then TypeError else AssertionError)) /\
  (forall x_length x_grid center alpha y_length y_grid H,
     setup_hbox x_length x_grid center alpha y_length y_grid = Ok H ->
     mc_heal_remap (hb_x2d H) nside np f w =
     Err (if (length f =? nside2npix nside)%nat && (match w with None => true | Some w' => np && (length w' =? nside2npix nside)%nat end)
          then TypeError else AssertionError)).
Proof.
  intros nside np f w. split.
  - intros a b na nb c d ctr s C H. destruct (cap_inv _ _ _ _ _ _ _ _ _ H) as (Na & Nb & _ & _ & S & _). apply (no_weights _ (Z.to_nat nb) (Z.to_nat na)); auto; lia.
  - intros xl xg ctr al yl yg H E. destruct (hbox_inv _ _ _ _ _ _ _ E) as (Nx & g & _ & Ng & _ & _ & S & _). apply (no_weights _ (Z.to_nat g) (Z.to_nat xg)); auto; lia.
Qed.
Print Assumptions C64_mc_remap.

(** ** C64: radial profile and rotation of both [Heal2Ring] classes *)
Theorem C64_profile : forall alpha_min alpha_max num_alpha num_beta beta_min beta_max center beta_shift C pixarea f sigma w,
  setup_polar_cap alpha_min alpha_max num_alpha num_beta beta_min beta_max center beta_shift = Ok C ->
  cap_radial pixarea C f sigma w = Err AttributeError.
Proof.
  intros a b na nb c d ctr s C pa f sg w H. destruct (cap_inv _ _ _ _ _ _ _ _ _ H) as (Na & Nb & La & Lb & _). unfold cap_radial.
  rewrite !(py_get_ok _ (cp_beta_edges C) _ 0) by lia. cbn [bind]. rewrite (areas_raise (cp_alpha_edges C) _ (Z.to_nat na)); [reflexivity|exact La|lia|reflexivity].
Qed.
Print Assumptions C64_profile.

Theorem C64_rotate : forall alpha_min alpha_max num_alpha num_beta beta_min beta_max center beta_shift C f shift,
  setup_polar_cap alpha_min alpha_max num_alpha num_beta beta_min beta_max center beta_shift = Ok C ->
  shape2 f (Z.to_nat num_beta) (Z.to_nat num_alpha) -> cap_rotate C f shift = Err TypeError.
Proof.
  intros a b na nb c d ctr s C f shift H Hf. destruct (cap_inv _ _ _ _ _ _ _ _ _ H) as (_ & Nb & _ & _ & _ & Sb & _). unfold cap_rotate.
  rewrite (same_shape_ok f _ (Z.to_nat nb) (Z.to_nat na)); auto. lia.
Qed.
Print Assumptions C64_rotate.

(** ** Sensible calls do reach these errors *)
Lemma still_pixel : forall t0 phi theta, 0 <= t0 <= PI -> heal_pixel (fun _ _ => Ok 0%Z) t0 0 0 t0 phi theta = Ok 0%Z.
Proof.
  intros t0 phi theta H. pose proof PI_RGT_0. unfold heal_pixel. rewrite Req_bool_true by reflexivity. cbn [negb bind fst snd]. unfold usphere_shift, in_range.
  rewrite !(Rle_bool_true 0 0), !(Rle_bool_true 0 (2 * PI)), (Rle_bool_true 0 t0), (Rle_bool_true t0 PI) by lra. cbn [andb py_assert].
  unfold usphere_phi_shift. rewrite Rlt_bool_true, Rlt_bool_true by lra. cbn [andb py_assert bind]. rewrite (Req_bool_true t0) by reflexivity. cbn [negb bind naddc nadd].
  destruct (ngtb _ _); [reflexivity|]. destruct (nltb _ _); reflexivity.
Qed.

Lemma pixels_zero : forall A (g : A -> res Z) l, (forall x, g x = Ok 0%Z) -> mapM g l = Ok (repeat 0%Z (length l)).
Proof. intros A g l H. induction l as [|a l IH]; [reflexivity|]. cbn [mapM]. rewrite H. cbn [bind]. rewrite IH. reflexivity. Qed.

Lemma cap_sample : exists C, setup_polar_cap 0 1 2 2 0 (2 * PI) [0; 0] 0 = Ok C.
Proof.
  pose proof PI_RGT_0. unfold setup_polar_cap. rewrite !Rle_bool_true, !Rlt_bool_true by lra. cbn [Z.ltb Z.compare Pos.compare py_assert length Nat.eqb].
  eexists. reflexivity.
Qed.

Lemma hbox_sample : exists H, setup_hbox 1 2 [0; PI / 2] 0 None None = Ok H.
Proof.
  pose proof PI2_1. unfold setup_hbox. rewrite !Rle_bool_true by lra. cbn [Z.ltb Z.compare Pos.compare py_assert length Nat.eqb bind]. eexists. reflexivity.
Qed.

Lemma ring_setup_runs : forall p a b na nb c d c0 c1 s ra rb C, setup_polar_cap a b na nb c d [c0; c1] s = Ok C -> (1 <= ra)%Z -> (1 <= rb)%Z ->
  (forall phi theta, heal_pixel p 0 s c0 c1 phi theta = Ok 0%Z) ->
  exists F, setup_ring p a b na nb c d [c0; c1] s ra rb = Ok (C, F) /\ forall k, In k (fi_pix F) -> k = 0%Z.
Proof.
  intros p a b na nb c d c0 c1 s ra rb C E Ra Rb Hp. destruct (cap_inv _ _ _ _ _ _ _ _ _ E) as (Na & Nb & La & Lb & _). unfold setup_ring. rewrite E. cbn [bind]. cbv zeta.
  rewrite (py_get_ok _ (cp_alpha_edges C) 0 0), (py_get_ok _ (cp_beta_edges C) 0 0) by lia.
  rewrite (py_get_last _ (cp_alpha_edges C) 0), (py_get_last _ (cp_beta_edges C) 0) by lia. cbn [bind].
  rewrite !mid_length. rewrite !linspaceZ_ok by nia. cbn [bind].
  match goal with |- context [meshgrid (mid ?u) (mid ?v)] => pose proof (mesh_y_shape (mid u) (mid v)) as S; destruct (meshgrid (mid u) (mid v)) as [ra2 rb2] end.
  cbn [snd] in S. rewrite !mid_length, !length_linspace in S. destruct S as [S1 S2].
  rewrite (py_get_ok _ rb2 0 []) by nia. cbn [bind]. destruct (meshgrid_ind _ _) as [bi ai].
  rewrite !(py_get_ok _ [c0; c1] _ 0) by (cbn; lia). cbn [bind].
  rewrite (pixels_zero _ (fun q => heal_pixel p 0 s (nth (Z.to_nat 0) [c0; c1] 0) (nth (Z.to_nat 1) [c0; c1] 0) (fst q) (snd q))) by (intros; apply Hp).
  cbn [bind]. eexists. split; [reflexivity|]. cbn [fi_pix]. intros k Hk. apply repeat_spec in Hk. auto.
Qed.

Lemma hpolar_setup_runs : forall p xl xg c0 c1 al yl yg rx ry H, setup_hbox xl xg [c0; c1] al yl yg = Ok H -> (1 <= rx)%Z -> (1 <= ry)%Z ->
  (forall phi theta, heal_pixel p (PI / 2) al c0 c1 phi theta = Ok 0%Z) ->
  exists F, setup_hpolar p xl xg [c0; c1] al yl yg rx ry = Ok (H, F) /\ forall k, In k (fi_pix F) -> k = 0%Z.
Proof.
  intros p xl xg c0 c1 al yl yg rx ry H E Rx Ry Hp. destruct (hbox_inv _ _ _ _ _ _ _ E) as (Nx & g & _ & Ng & La & Lb & _). unfold setup_hpolar. rewrite E. cbn [bind]. cbv zeta.
  rewrite (py_get_ok _ (hb_xedges H) 0 0), (py_get_ok _ (hb_yedges H) 0 0) by lia.
  rewrite (py_get_last _ (hb_xedges H) 0), (py_get_last _ (hb_yedges H) 0) by lia. cbn [bind].
  rewrite !mid_length. rewrite !linspaceZ_ok by nia. cbn [bind].
  destruct (meshgrid _ _) as [rx2 ry2]. destruct (meshgrid_ind _ _) as [yi xi].
  rewrite !(py_get_ok _ [c0; c1] _ 0) by (cbn; lia). cbn [bind].
  rewrite (pixels_zero _ (fun q => heal_pixel p (PI / 2) al (nth (Z.to_nat 0) [c0; c1] 0) (nth (Z.to_nat 1) [c0; c1] 0) (fst q) (PI / 2 - snd q))) by (intros; apply Hp).
  cbn [bind]. eexists. split; [reflexivity|]. cbn [fi_pix]. intros k Hk. apply repeat_spec in Hk. auto.
Qed.

Example C64_case : (exists C F, setup_ring (fun _ _ => Ok 0%Z) 0 1 2 2 0 (2 * PI) [0; 0] 0 1 1 = Ok (C, F) /\ forall k, In k (fi_pix F) -> k = 0%Z) /\
  (exists H F, setup_hpolar (fun _ _ => Ok 0%Z) 1 2 [0; PI / 2] 0 None None 1 1 = Ok (H, F) /\ forall k, In k (fi_pix F) -> k = 0%Z).
Proof.
  pose proof PI_RGT_0. split.
  - destruct cap_sample as [C E]. exists C. apply ring_setup_runs; auto; try lia. intros. apply still_pixel. lra.
  - destruct hbox_sample as [H0 E]. exists H0. apply hpolar_setup_runs; auto; try lia. intros. apply still_pixel. lra.
Qed.

Theorem C64_refuted : exists O f, setup_ring (fun _ _ => Ok 0%Z) 0 1 2 2 0 (2 * PI) [0; 0] 0 1 1 = Ok O /\ length f = nside2npix 1 /\
  heal_remap ring_remap0 O f None = Err AttributeError.
Proof.
  destruct C64_case as [(C & F & E & Hp) _]. exists (C, F), (repeat 1 12). split; [exact E|]. split; [reflexivity|].
  apply (C64_ring_error _ _ _ _ _ _ _ _ _ _ _ _ _ None E); [lia| |discriminate]. intros k Hk. cbn [snd] in Hk. rewrite (Hp k Hk). cbn. lia.
Qed.
Print Assumptions C64_refuted.
