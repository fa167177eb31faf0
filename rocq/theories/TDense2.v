(** * Radial profiles from the dense remapping: [densegrid.Box2Ring.polar2radial] *)

From Coq Require Import Reals ZArith List Bool Lia Lra Psatz.
From Flocq Require Import Core.Raux.
From Verif Require Import Base BaseP SpecGrid SpecRemap SpecDense MGrids MDense PRemap2 PRadial PDense TDense.
Import ListNotations.
Open Scope R_scope.

Section Fresh.
Variables (xmin xmax : R) (nx : nat) (ymin ymax : R) (ny : nat) (G : rings).

(** The usual preconditions of both set-up calls. *)
Definition usable : Prop :=
  xmin < xmax /\ ymin < ymax /\ (1 <= nx)%nat /\ (1 <= ny)%nat /\
  good_rings G /\ (2 <= rg_nr G)%nat /\ (2 <= rg_np G)%nat /\ (1 <= rg_b G)%nat.

Definition set_up : res (box_grid * polar_grid) :=
  dense_setup xmin xmax nx ymin ymax ny G (Z.of_nat (rg_b G)) (Z.of_nat (rg_b G)).
End Fresh.

Lemma fresh_object : forall xmin xmax nx ymin ymax ny G, usable xmin xmax nx ymin ymax ny G ->
  exists B P m, set_up xmin xmax nx ymin ymax ny G = Ok (B, P) /\ get_mask_in_bound B P = Ok m /\
    shape2 m (rg_np G) (rg_nr G) /\ shape2 (p2d P) (rg_np G) (rg_nr G) /\
    forall f sigma w, exists ar pa, polar2radial_method B P no_cache f sigma w = polar2radial_method B P (Cache (Some ar) (Some pa) (Some m)) f sigma w.
Proof.
  intros xmin xmax nx ymin ymax ny G (Hx & Hy & Nx & Ny & HG & Hr & Hp & Hb).
  pose proof (good_grid xmin xmax nx ymin ymax ny Hx Hy Nx Ny) as HP.
  do 3 eexists. split; [now apply dense_setup_ok|]. split; [now apply mask_ok|]. split; [apply tab2_shape|].
  split; [apply tab2_shape|]. intros f sigma w. now apply method_fresh.
Qed.

(** ** C59 *)

(** Whenever some cell lies completely outside the box: the profile divides by
    the weight of partly covered cells without adding their values, the
    caller's weight array is multiplied by the mask, and a second identical
    call therefore works with weights already multiplied once. *)
Theorem C59_masked_calls : forall xmin xmax nx ymin ymax ny G, usable xmin xmax nx ymin ymax ny G ->
  exists B P m, set_up xmin xmax nx ymin ymax ny G = Ok (B, P) /\ get_mask_in_bound B P = Ok m /\
  ((exists i j, (i < rg_np G)%nat /\ (j < rg_nr G)%nat /\ cell m i j = 0) ->
   forall f w sigma, shape2 f (rg_np G) (rg_nr G) -> shape2 w (rg_np G) (rg_nr G) ->
     (forall s, sigma = Some s -> shape2 s (rg_np G) (rg_nr G)) ->
   exists r1 sr1 s w1 r2 sr2 w2,
     polar2radial_method B P no_cache f sigma (Some w) = Ok (r1, sr1, s, Some w1) /\
     polar2radial_method B P s f sigma (Some w1) = Ok (r2, sr2, s, Some w2) /\
     (forall i j, (i < rg_np G)%nat -> (j < rg_nr G)%nat ->
        cell w1 i j = cell w i j * cell m i j /\ cell w2 i j = cell w i j * cell m i j * cell m i j) /\
     length r1 = rg_nr G /\ length r2 = rg_nr G /\
     forall j, (j < rg_nr G)%nat ->
       nth j r1 None = masked_profile (rg_np G) m w f j /\ nth j r2 None = masked_profile (rg_np G) m w1 f j).
Proof.
  intros xmin xmax nx ymin ymax ny G HU. destruct (fresh_object _ _ _ _ _ _ _ HU) as (B & P & m & E1 & E2 & Sm & Sp & HF).
  destruct HU as (Hx & Hy & Nx & Ny & HG & Hr & Hp & Hb).
  exists B, P, m. split; [auto|]. split; [auto|]. intros HZ f w sigma Sf Sw Ss.
  destruct (HF f sigma (Some w)) as (ar & pa & E).
  destruct (method_masked B P ar pa m f sigma w (rg_np G) (rg_nr G)) as (r1 & sr1 & A1 & A2 & A3); auto; try lia.
  assert (Sw1 : shape2 (zip2 Rmult w m) (rg_np G) (rg_nr G)) by now apply zip2_shape.
  destruct (method_masked B P ar pa m f sigma (zip2 Rmult w m) (rg_np G) (rg_nr G)) as (r2 & sr2 & B1 & B2 & B3); auto; try lia.
  rewrite E. do 7 eexists. split; [exact A1|]. split; [exact B1|]. split.
  - intros i j Hi Hj. rewrite (zip2_tab Rmult _ m (rg_np G) (rg_nr G) Sw1 Sm), tab2_cell by auto.
    rewrite (zip2_tab Rmult w m (rg_np G) (rg_nr G) Sw Sm), tab2_cell by auto. auto.
  - split; [auto|]. split; [auto|]. auto.
Qed.
Print Assumptions C59_masked_calls.

(** Without caller weights the mask itself is the weight and nothing leaks. *)
Theorem C59_masked_without_weights : forall xmin xmax nx ymin ymax ny G, usable xmin xmax nx ymin ymax ny G ->
  exists B P m, set_up xmin xmax nx ymin ymax ny G = Ok (B, P) /\ get_mask_in_bound B P = Ok m /\
  ((exists i j, (i < rg_np G)%nat /\ (j < rg_nr G)%nat /\ cell m i j = 0) ->
   forall f, shape2 f (rg_np G) (rg_nr G) ->
   exists r s, polar2radial_method B P no_cache f None None = Ok (r, None, s, None) /\
     polar2radial_method B P s f None None = Ok (r, None, s, None) /\ length r = rg_nr G /\
     forall j, (j < rg_nr G)%nat -> nth j r None = masked_profile (rg_np G) m (repeat (repeat 1 (rg_nr G)) (rg_np G)) f j).
Proof.
  intros xmin xmax nx ymin ymax ny G HU. destruct (fresh_object _ _ _ _ _ _ _ HU) as (B & P & m & E1 & E2 & Sm & Sp & HF).
  destruct HU as (Hx & Hy & Nx & Ny & HG & Hr & Hp & Hb).
  exists B, P, m. split; [auto|]. split; [auto|]. intros HZ f Sf.
  destruct (HF f None None) as (ar & pa & E).
  destruct (method_masked_none B P ar pa m f (rg_np G) (rg_nr G)) as (r1 & A1 & A2 & A3); auto; try lia.
  rewrite E. do 2 eexists. split; [exact A1|]. split; [exact A1|]. auto.
Qed.
Print Assumptions C59_masked_without_weights.

(** When no cell is completely outside, nothing is masked, however small the
    covered fractions: the plain (weighted) ring mean, weights untouched. *)
Theorem C59_unmasked : forall xmin xmax nx ymin ymax ny G, usable xmin xmax nx ymin ymax ny G ->
  exists B P m, set_up xmin xmax nx ymin ymax ny G = Ok (B, P) /\ get_mask_in_bound B P = Ok m /\
  ((forall i j, (i < rg_np G)%nat -> (j < rg_nr G)%nat -> cell m i j <> 0) ->
   forall f w sigma, shape2 f (rg_np G) (rg_nr G) -> (forall u, w = Some u -> shape2 u (rg_np G) (rg_nr G)) ->
     (forall s, sigma = Some s -> shape2 s (rg_np G) (rg_nr G)) ->
   exists r sr s, polar2radial_method B P no_cache f sigma w = Ok (r, sr, s, w) /\
     polar2radial_method B P s f sigma w = Ok (r, sr, s, w) /\ length r = rg_nr G /\
     forall j, (j < rg_nr G)%nat ->
       nth j r None = ring_mean (rg_np G) (match w with Some u => u | None => repeat (repeat 1 (rg_nr G)) (rg_np G) end) f j).
Proof.
  intros xmin xmax nx ymin ymax ny G HU. destruct (fresh_object _ _ _ _ _ _ _ HU) as (B & P & m & E1 & E2 & Sm & Sp & HF).
  destruct HU as (Hx & Hy & Nx & Ny & HG & Hr & Hp & Hb).
  exists B, P, m. split; [auto|]. split; [auto|]. intros HA f w sigma Sf Sw Ss.
  destruct (HF f sigma w) as (ar & pa & E).
  destruct (method_plain B P ar pa m f sigma w (rg_np G) (rg_nr G)) as (r1 & sr1 & A1 & A2 & A3); auto; try lia.
  rewrite E. do 3 eexists. split; [exact A1|]. split; [exact A1|]. auto.
Qed.
Print Assumptions C59_unmasked.

(** *** A concrete object

    Two by two polar cells out to radius 2, refined twice, on the box
    [[-4/5, 4/5]] x [[-1/5, 4/5]]: the inner upper cell is inside, a quarter of
    the inner lower one is, the outer cells are not. *)

Definition wit : rings := demo_rings 2 2.

Lemma cos_quarter : exists q, cos (PI / 4) = q /\ sin (PI / 4) = q /\ 0.7 < q < 0.71.
Proof.
  exists (/ sqrt 2). rewrite cos_PI4, sin_PI4. unfold Rdiv. rewrite Rmult_1_l. split; [auto|]. split; [auto|].
  assert (0 < sqrt 2) by (apply sqrt_lt_R0; lra). assert (sqrt 2 * sqrt 2 = 2) by (apply sqrt_sqrt; lra).
  assert (Hq : / sqrt 2 * sqrt 2 = 1) by (apply Rinv_l; lra). assert (0 < / sqrt 2) by (now apply Rinv_0_lt_compat).
  set (q := / sqrt 2) in *. set (r := sqrt 2) in *. assert (q * q = / 2) by nra. nra.
Qed.

Lemma wit_phi : forall i a, (i < 2)%nat -> (a < 2)%nat ->
  cos (sample_phi wit i a) = (if (a =? i)%nat then 1 else -1) * cos (PI / 4) /\
  sin (sample_phi wit i a) = (if (i =? 0)%nat then 1 else -1) * sin (PI / 4).
Proof.
  intros i a Hi Ha. unfold sample_phi, wit, demo_rings. cbn [rg_pmin rg_b rg_pmax rg_np rg_shift].
  assert (E : forall k, 0 + (INR k + / 2) * ((2 * PI - 0) / INR (2 * 2)) + 0 = PI / 4 + INR k * (PI / 2)).
  { intros. replace (INR (2 * 2)) with 4 by (cbn; lra). field. }
  rewrite E. destruct i as [|[|i]], a as [|[|a]]; try lia; cbn [Nat.mul Nat.add Nat.eqb INR].
  - replace (PI / 4 + 0 * (PI / 2)) with (PI / 4) by ring. split; ring.
  - replace (PI / 4 + 1 * (PI / 2)) with (PI - PI / 4) by field. rewrite Rtrigo_facts.cos_pi_minus, Rtrigo_facts.sin_pi_minus. split; ring.
  - replace (PI / 4 + (1 + 1) * (PI / 2)) with (PI / 4 + PI) by field. rewrite neg_cos, neg_sin. split; ring.
  - replace (PI / 4 + (1 + 1 + 1) * (PI / 2)) with (- (PI / 4) + 2 * PI) by field.
    rewrite cos_plus, sin_plus, cos_2PI, sin_2PI, cos_neg, sin_neg. split; ring.
Qed.

Lemma wit_r : forall j c, sample_r wit j c = (INR (j * 2 + c) + / 2) / 2.
Proof. intros. unfold sample_r, wit, demo_rings. cbn [rg_rmin rg_b rg_rmax rg_nr]. replace (INR (2 * 2)) with 4 by (cbn; lra). field. Qed.

Lemma wit_weight : forall j c, ring_weight wit j c = (2 * INR (j * 2 + c) + 1) / 4.
Proof.
  intros. unfold ring_weight, fine_edge, wit, demo_rings. cbn [rg_rmin rg_b rg_rmax rg_nr]. rewrite S_INR.
  replace (INR (2 * 2)) with 4 by (cbn; lra). field.
Qed.

Lemma wit_usable : forall x0 x1 y0 y1, x0 < x1 -> y0 < y1 -> usable x0 x1 1 y0 y1 1 wit.
Proof.
  intros. unfold usable. split; [auto|]. split; [auto|]. split; [lia|]. split; [lia|]. split; [apply demo_good; lra|]. cbn. lia.
Qed.

Lemma wit_mask : exists B P, set_up (-4 / 5) (4 / 5) 1 (-1 / 5) (4 / 5) 1 wit = Ok (B, P) /\
  get_mask_in_bound B P = Ok [[1; 0]; [/ 4; 0]].
Proof.
  destruct cos_quarter as (q & C & S & Q).
  assert (Gw : good_rings wit) by (apply demo_good; lra).
  assert (In1 : forall i j a c, (i < 2)%nat -> (a < 2)%nat ->
    (sample_in (pixel_grid (-4 / 5) (4 / 5) 1 (-1 / 5) (4 / 5) 1) wit i j a c <->
     -4 / 5 <= (INR (j * 2 + c) + / 2) / 2 * ((if (a =? i)%nat then 1 else -1) * q) < 4 / 5 /\
     -1 / 5 <= (INR (j * 2 + c) + / 2) / 2 * ((if (i =? 0)%nat then 1 else -1) * q) < 4 / 5)).
  { intros i j a c Hi Ha. unfold sample_in. rewrite in_box_grid by lia. unfold sample_x, sample_y.
    destruct (wit_phi i a Hi Ha) as [-> ->]. rewrite wit_r, C, S. cbn [rg_c0 rg_c1 wit demo_rings]. rewrite !Rplus_0_r. tauto. }
  destruct (C58_mask (-4 / 5) (4 / 5) 1 (-1 / 5) (4 / 5) 1 wit 1) as (B & P & m & g & E1 & E2 & _ & Sm & H); auto; try lra; try (cbn; lia).
  exists B, P. split; [exact E1|]. rewrite E2. f_equal.
  rewrite (tab2_of_shape m 2 2 Sm). unfold tab2, tab. cbn [seq map].
  assert (M00 : cell m 0 0 = 1).
  { apply (H 0 0)%nat; [cbn; lia..|]. intros a c Ha Hc. cbn in Ha, Hc. apply In1; [lia..|].
    destruct a as [|[|a]], c as [|[|c]]; try lia; cbn; lra. }
  assert (M01 : cell m 0 1 = 0).
  { apply (H 0 1)%nat; [cbn; lia..|]. intros a c Ha Hc D. cbn in Ha, Hc. apply In1 in D; [|lia..].
    destruct a as [|[|a]], c as [|[|c]]; try lia; cbn in D; lra. }
  assert (M11 : cell m 1 1 = 0).
  { apply (H 1 1)%nat; [cbn; lia..|]. intros a c Ha Hc D. cbn in Ha, Hc. apply In1 in D; [|lia..].
    destruct a as [|[|a]], c as [|[|c]]; try lia; cbn in D; lra. }
  assert (M10 : cell m 1 0 = / 4).
  { set (Px := pixel_grid (-4 / 5) (4 / 5) 1 (-1 / 5) (4 / 5) 1) in *.
    assert (HP : good_pixels Px) by (apply good_grid; try lra; lia).
    unfold set_up in *. change (rg_b wit) with 2%nat in E1. 
    pose proof (mask_ok Px wit HP Gw ltac:(cbn; lia)) as EM. change (rg_b wit) with 2%nat in EM.
    rewrite (dense_setup_ok (-4 / 5) (4 / 5) 1 (-1 / 5) (4 / 5) 1 wit 2 2) in E1 by (auto; cbn; lia).
    apply Ok_inj in E1. injection E1 as <- <-. fold Px in E2. rewrite EM in E2. apply Ok_inj in E2. subst m. rewrite tab2_cell by (cbn; lia).
    assert (Vin : forall a, (a < 2)%nat -> read_at Px (ones 1 1) (sample_x wit 1 0 a 0) (sample_y wit 1 0 a 0) = 1).
    { intros a Ha. apply (read_ones Px); auto. apply In1; [lia..|]. destruct a as [|[|a]]; try lia; cbn; lra. }
    assert (Vout : forall a, (a < 2)%nat -> read_at Px (ones 1 1) (sample_x wit 1 0 a 1) (sample_y wit 1 0 a 1) = 0).
    { intros a Ha. apply (read_ones Px); auto. intros D. apply In1 in D; [|lia..]. destruct a as [|[|a]]; try lia; cbn in D; lra. }
    unfold block_mean, sum_upto. cbn [seq map Rsum fold_right]. change (pny Px) with 1%nat. change (pnx Px) with 1%nat.
    rewrite !Vin, !Vout, !wit_weight by lia. cbn. lra. }
  rewrite M00, M01, M10, M11. reflexivity.
Qed.

Definition all_ones : list (list R) := [[1; 1]; [1; 1]].

Lemma all_ones_shape : shape2 all_ones 2 2.
Proof. split; [reflexivity|]. intros [|[|i]] Hi; cbn in *; auto; lia. Qed.

Lemma profile_value : forall n m w f j t v, sum_upto n (fun i => cell w i j * cell m i j) = t -> t <> 0 ->
  sum_upto n (fun i => if Req_EM_T (cell m i j) 1 then cell f i j * (cell w i j * cell m i j) else 0) = v ->
  masked_profile n m w f j = Some (v / t).
Proof. intros n m w f j t v E1 H E2. unfold masked_profile. rewrite E1, E2. destruct (Req_EM_T t 0); [contradiction|reflexivity]. Qed.

(** The same call twice gives different profiles (4/5, then 16/17), and neither
    is the value 1 of the constant map. *)
Theorem C59_repeat_refuted : exists B P r1 s w1 r2 w2,
  set_up (-4 / 5) (4 / 5) 1 (-1 / 5) (4 / 5) 1 wit = Ok (B, P) /\
  polar2radial_method B P no_cache all_ones None (Some all_ones) = Ok (r1, None, s, Some w1) /\
  polar2radial_method B P s all_ones None (Some w1) = Ok (r2, None, s, Some w2) /\
  nth 0 r1 None = Some (4 / 5) /\ nth 0 r2 None = Some (16 / 17) /\ w1 <> all_ones.
Proof.
  destruct wit_mask as (B & P & E1 & E2).
  destruct (C59_masked_calls (-4 / 5) (4 / 5) 1 (-1 / 5) (4 / 5) 1 wit) as (B' & P' & m & F1 & F2 & H); [apply wit_usable; lra|].
  rewrite E1 in F1. apply Ok_inj in F1. injection F1 as <- <-. rewrite E2 in F2. apply Ok_inj in F2. subst m.
  destruct (H ltac:(exists 0%nat, 1%nat; cbn; auto) all_ones all_ones None all_ones_shape all_ones_shape ltac:(discriminate))
    as (r1 & sr1 & s & w1 & r2 & sr2 & w2 & A & D & W & L1 & L2 & V).
  assert (N1 : sr1 = None).
  { revert A. unfold polar2radial_method. cbn [area2d pixarea mask_in_bound no_cache].
    destruct (get_polar_area2d _ _); [|discriminate]. destruct (get_pixarea _ _); [|discriminate]. cbn [bind].
    destruct (same_shape _ _); [|discriminate]. cbn [py_assert]. destruct (get_mask_in_bound B P); [|discriminate]. cbn [bind]. cbv zeta.
    destruct (negb _); cbn [option_map]; intros A; injection A; intros; subst; reflexivity. }
  assert (N2 : sr2 = None).
  { revert D. unfold polar2radial_method.
    destruct (match area2d s with Some a => Ok a | None => _ end); [|discriminate].
    destruct (match pixarea s with Some a => Ok a | None => _ end); [|discriminate]. cbn [bind].
    destruct (same_shape _ _); [|discriminate]. cbn [py_assert].
    destruct (match mask_in_bound s with Some a => Ok a | None => _ end); [|discriminate]. cbn [bind]. cbv zeta.
    destruct (negb _); cbn [option_map]; intros D; injection D; intros; subst; reflexivity. }
  subst sr1 sr2. exists B, P, r1, s, w1, r2, w2. split; [auto|]. split; [auto|]. split; [auto|].
  destruct (V 0%nat ltac:(cbn; lia)) as [V1 V2]. rewrite V1, V2.
  assert (W10 : cell w1 1 0 = / 4) by (rewrite (proj1 (W 1 0 ltac:(cbn; lia) ltac:(cbn; lia))%nat); cbn; lra).
  assert (W00 : cell w1 0 0 = 1) by (rewrite (proj1 (W 0 0 ltac:(cbn; lia) ltac:(cbn; lia))%nat); cbn; lra).
  set (m := [[1; 0]; [/ 4; 0]]) in *. assert (M0 : cell m 0 0 = 1) by reflexivity. assert (M1 : cell m 1 0 = / 4) by reflexivity.
  assert (O0 : cell all_ones 0 0 = 1) by reflexivity. assert (O1 : cell all_ones 1 0 = 1) by reflexivity.
  split; [|split].
  - rewrite (profile_value _ _ _ _ _ (5 / 4) 1); [f_equal; field| |lra|].
    + unfold sum_upto. cbn [rg_np wit demo_rings seq map Rsum fold_right]. rewrite M0, M1, O0, O1. lra.
    + unfold sum_upto. cbn [rg_np wit demo_rings seq map Rsum fold_right]. rewrite M0, M1, O0, O1.
      destruct (Req_EM_T 1 1); [|lra]. destruct (Req_EM_T (/ 4) 1); lra.
  - rewrite (profile_value _ _ _ _ _ (17 / 16) 1); [f_equal; field| |lra|].
    + unfold sum_upto. cbn [rg_np wit demo_rings seq map Rsum fold_right]. rewrite M0, M1, W00, W10. lra.
    + unfold sum_upto. cbn [rg_np wit demo_rings seq map Rsum fold_right]. rewrite M0, M1, W00, O0.
      destruct (Req_EM_T 1 1); [|lra]. destruct (Req_EM_T (/ 4) 1); lra.
  - intros E. rewrite E in W10. cbn in W10. lra.
Qed.
Print Assumptions C59_repeat_refuted.

(** ** C65: a new set-up does not refresh the stored mask *)

(** After a call on one set-up, the profile computed on any other set-up with
    the same number of cells still uses the mask of the first. *)
Theorem C65_stale_mask : forall xmin xmax nx ymin ymax ny G xmin' xmax' nx' ymin' ymax' ny' G' f f',
  usable xmin xmax nx ymin ymax ny G -> usable xmin' xmax' nx' ymin' ymax' ny' G' ->
  rg_np G' = rg_np G -> rg_nr G' = rg_nr G ->
  shape2 f (rg_np G) (rg_nr G) -> shape2 f' (rg_np G) (rg_nr G) ->
  exists B P m r s B' P' r', set_up xmin xmax nx ymin ymax ny G = Ok (B, P) /\ get_mask_in_bound B P = Ok m /\
    polar2radial_method B P no_cache f None None = Ok (r, None, s, None) /\
    set_up xmin' xmax' nx' ymin' ymax' ny' G' = Ok (B', P') /\
    polar2radial_method B' P' s f' None None = Ok (r', None, s, None) /\ length r' = rg_nr G /\
    forall j, (j < rg_nr G)%nat ->
      ((exists i k, (i < rg_np G)%nat /\ (k < rg_nr G)%nat /\ cell m i k = 0) ->
        nth j r' None = masked_profile (rg_np G) m (repeat (repeat 1 (rg_nr G)) (rg_np G)) f' j) /\
      ((forall i k, (i < rg_np G)%nat -> (k < rg_nr G)%nat -> cell m i k <> 0) ->
        nth j r' None = ring_mean (rg_np G) (repeat (repeat 1 (rg_nr G)) (rg_np G)) f' j).
Proof.
  intros xmin xmax nx ymin ymax ny G xmin' xmax' nx' ymin' ymax' ny' G' f f' HU HU' Enp Enr Sf Sf'.
  destruct (fresh_object _ _ _ _ _ _ _ HU) as (B & P & m & E1 & E2 & Sm & Sp & HF).
  destruct (fresh_object _ _ _ _ _ _ _ HU') as (B' & P' & m' & E1' & E2' & Sm' & Sp' & _). rewrite Enp, Enr in *.
  destruct HU as (_ & _ & _ & _ & _ & Hr & Hp & _).
  destruct (HF f None None) as (ar & pa & E).
  destruct (np_all m) eqn:EA.
  - pose proof (proj1 (np_all_spec m _ _ Sm) EA) as HA.
    destruct (method_plain B P ar pa m f None None (rg_np G) (rg_nr G)) as (r1 & sr1 & A1 & A2 & A3); auto; try lia; try discriminate.
    destruct (method_plain B' P' ar pa m f' None None (rg_np G) (rg_nr G)) as (r2 & sr2 & B1 & B2 & B3); auto; try lia; try discriminate.
    assert (sr1 = None /\ sr2 = None) as [-> ->].
    { revert A1 B1. unfold polar2radial_method. cbn [area2d pixarea mask_in_bound bind].
      rewrite (same_shape_ok f (p2d P) (rg_np G) (rg_nr G)), (same_shape_ok f' (p2d P') (rg_np G) (rg_nr G)) by (auto; lia).
      rewrite EA. cbn [py_assert negb bind]. cbv zeta. unfold polar2radial. cbn [option_map]. intros A1 B1. injection A1. injection B1. intros; subst; auto. }
    exists B, P, m, r1, (Cache (Some ar) (Some pa) (Some m)), B', P', r2. rewrite E.
    split; [auto|]. split; [auto|]. split; [auto|]. split; [auto|]. split; [auto|]. split; [auto|].
    intros j Hj. split; [|intros _; now apply B3]. intros (i & k & Hi & Hk & Z). exfalso. now apply (HA i k).
  - assert (HZ : exists i k, (i < rg_np G)%nat /\ (k < rg_nr G)%nat /\ cell m i k = 0).
    { destruct (Classical_Prop.classic (exists i k, (i < rg_np G)%nat /\ (k < rg_nr G)%nat /\ cell m i k = 0)) as [|N]; auto.
      exfalso. rewrite (proj2 (np_all_spec m _ _ Sm)) in EA; [discriminate|]. intros i k Hi Hk Z. apply N. eauto. }
    destruct (method_masked_none B P ar pa m f (rg_np G) (rg_nr G)) as (r1 & A1 & A2 & A3); auto; try lia.
    destruct (method_masked_none B' P' ar pa m f' (rg_np G) (rg_nr G)) as (r2 & B1 & B2 & B3); auto; try lia.
    exists B, P, m, r1, (Cache (Some ar) (Some pa) (Some m)), B', P', r2. rewrite E.
    split; [auto|]. split; [auto|]. split; [auto|]. split; [auto|]. split; [auto|]. split; [auto|].
    intros j Hj. split; [intros _; now apply B3|]. intros HA. exfalso. destruct HZ as (i & k & Hi & Hk & Z). now apply (HA i k).
Qed.
Print Assumptions C65_stale_mask.

(** A witness: after a call on the small box, the constant map on a box that
    holds the whole disc gives 4/5 and NaN; a fresh object gives 1 and 1. *)
Theorem C65_reuse_refuted : exists B P r s B' P' r' fresh s', 
  set_up (-4 / 5) (4 / 5) 1 (-1 / 5) (4 / 5) 1 wit = Ok (B, P) /\
  polar2radial_method B P no_cache all_ones None None = Ok (r, None, s, None) /\
  set_up (-4) 4 1 (-4) 4 1 wit = Ok (B', P') /\
  polar2radial_method B' P' s all_ones None None = Ok (r', None, s, None) /\
  polar2radial_method B' P' no_cache all_ones None None = Ok (fresh, None, s', None) /\
  nth 0 r' None = Some (4 / 5) /\ nth 1 r' None = None /\
  nth 0 fresh None = Some 1 /\ nth 1 fresh None = Some 1.
Proof.
  destruct wit_mask as (B & P & E1 & E2).
  destruct (C65_stale_mask (-4 / 5) (4 / 5) 1 (-1 / 5) (4 / 5) 1 wit (-4) 4 1 (-4) 4 1 wit all_ones all_ones) as
    (B0 & P0 & m & r & s & B' & P' & r' & F1 & F2 & F3 & F4 & F5 & F6 & F7); try reflexivity;
    try (apply wit_usable; lra); try apply all_ones_shape.
  rewrite E1 in F1. apply Ok_inj in F1. injection F1 as <- <-. rewrite E2 in F2. apply Ok_inj in F2. subst m.
  assert (HZ : exists i k, (i < rg_np wit)%nat /\ (k < rg_nr wit)%nat /\ cell [[1; 0]; [/ 4; 0]] i k = 0) by (exists 0%nat, 1%nat; cbn; auto).
  destruct (C58_constant (-4) 4 1 (-4) 4 1 wit 1) as (B1 & P1 & G1 & G2 & _); try (cbn; lra); try (cbn; lia); [apply demo_good; lra|].
  destruct (C59_unmasked (-4) 4 1 (-4) 4 1 wit) as (B2 & P2 & m2 & H1 & H2 & H3); [apply wit_usable; lra|].
  unfold set_up in *. rewrite F4 in G1. apply Ok_inj in G1. injection G1 as <- <-.
  rewrite F4 in H1. apply Ok_inj in H1. injection H1 as <- <-. rewrite G2 in H2. apply Ok_inj in H2. subst m2.
  assert (Cm : forall i j, (i < 2)%nat -> (j < 2)%nat -> cell (repeat (repeat 1 2) 2) i j = 1).
  { intros [|[|i]] [|[|j]] Hi Hj; try lia; reflexivity. }
  destruct (H3 ltac:(intros i j Hi Hj; rewrite Cm by auto; lra) all_ones None None all_ones_shape ltac:(discriminate) ltac:(discriminate))
    as (fresh & sr & s' & K1 & _ & K3 & K4).
  assert (sr = None) as ->.
  { revert K1. unfold polar2radial_method. cbn [area2d pixarea mask_in_bound no_cache].
    destruct (get_polar_area2d _ _); [|discriminate]. destruct (get_pixarea _ _); [|discriminate]. cbn [bind].
    destruct (same_shape _ _); [|discriminate]. cbn [py_assert]. destruct (get_mask_in_bound B' P'); [|discriminate]. cbn [bind]. cbv zeta.
    destruct (negb _); cbn [option_map]; intros K1; injection K1; intros; subst; reflexivity. }
  exists B, P, r, s, B', P', r', fresh, s'. repeat (split; [auto; fail|]).
  split; [|split; [|split]].
  - rewrite (proj1 (F7 0%nat ltac:(cbn; lia)) HZ).
    rewrite (profile_value _ _ _ _ _ (5 / 4) 1); [f_equal; field| |lra|]; unfold sum_upto; cbn; [lra|].
    destruct (Req_EM_T 1 1); [|lra]. destruct (Req_EM_T (/ 4) 1); lra.
  - rewrite (proj1 (F7 1%nat ltac:(cbn; lia)) HZ). unfold masked_profile, sum_upto. cbn.
    destruct (Req_EM_T (1 * 0 + (1 * 0 + 0)) 0); [reflexivity|lra].
  - rewrite K4 by (cbn; lia). unfold ring_mean, sum_upto. cbn. destruct (Req_EM_T (1 + (1 + 0)) 0); [lra|]. f_equal. field.
  - rewrite K4 by (cbn; lia). unfold ring_mean, sum_upto. cbn. destruct (Req_EM_T (1 + (1 + 0)) 0); [lra|]. f_equal. field.
Qed.
Print Assumptions C65_reuse_refuted.

(** Non-vacuity: [wit] is usable and its mask has a zero; for the large box it
    has none. *)
Example C59_example : usable (-4 / 5) (4 / 5) 1 (-1 / 5) (4 / 5) 1 wit /\ shape2 all_ones 2 2.
Proof. split; [apply wit_usable; lra|apply all_ones_shape]. Qed.
