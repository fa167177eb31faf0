(** * Errors of the radial profile of the dense remapping: [densegrid.Box2Ring.polar2radial] *)

From Coq Require Import Reals ZArith List Bool Lia Lra Psatz.
From Flocq Require Import Core.Raux.
From Verif Require Import Base BaseP SpecGrid SpecRemap SpecDense SpecMonteRadial MGrids MDense
  PRemap2 PGrids PRadial PPolarCoords PDense PMonteRadial TDense TDense2.
Import ListNotations.
Open Scope R_scope.

(** Error of the weighted mean of [n] independent values with errors [s], each
    of them an average over [k] pixels. *)
Definition ring_error (n : nat) (k : R) (w s : nat -> R) : num :=
  if Req_EM_T (sum_upto n w) 0 then None
  else Some (sqrt (sum_upto n (fun i => (w i * s i) ^ 2 / k)) / Rabs (sum_upto n w)).

Lemma ring_error_ext : forall n k w w' s s', (forall i, (i < n)%nat -> w i = w' i) -> (forall i, (i < n)%nat -> s i = s' i) ->
  ring_error n k w s = ring_error n k w' s'.
Proof.
  intros n k w w' s s' Hw Hs. unfold ring_error. rewrite (sum_ext n w w') by auto.
  rewrite (sum_ext n (fun i => (w i * s i) ^ 2 / k) (fun i => (w' i * s' i) ^ 2 / k)) by (intros i Hi; cbv beta; rewrite (Hw i Hi), (Hs i Hi); reflexivity). reflexivity.
Qed.

Section Areas.
Variables (n c : nat) (area : nat -> R) (pa : R).
Hypothesis Hn : (1 <= n)%nat.
Hypothesis Hpos : forall j, (j < c)%nat -> 0 < area j.
Hypothesis Hpa : 0 < pa.
Let ar := tab2 n c (fun _ j => area j).

Lemma errors_weighted : forall f s w, shape2 s n c -> shape2 w n c ->
  exists sr, snd (polar2radial c f ar pa (Some s) (Some w)) = Some sr /\ length sr = c /\
  forall j, (j < c)%nat -> nth j sr None = ring_error n (area j / pa) (fun i => cell w i j) (fun i => cell s i j).
Proof.
  intros f s w Ss Sw.
  assert (X : exists sr, snd (polar2radial c f ar pa (Some s) (Some w)) = Some sr) by (eexists; reflexivity).
  destruct X as (sr0 & E0). exists sr0. split; [exact E0|]. split.
  { unfold polar2radial in E0; cbn [snd option_map] in E0. injection E0 as <-. rewrite map2_length, !length_sum_axis0. lia. }
  intros j Hj. unfold ring_error.
  assert (EW : Rsum (column w j) = sum_upto n (fun i => cell w i j)) by (rewrite (column_shape w n c) by auto; apply Rsum_tab).
  destruct (Req_EM_T (sum_upto n (fun i => cell w i j)) 0) as [Z|Z].
  - destruct (sigma_zero n c ar pa Hn f s w j Hj Sw (eq_trans EW Z)) as (sr & E1 & _ & E3).
    rewrite E0 in E1. injection E1 as ->. exact E3.
  - assert (Pa : forall a, In a (column ar j) -> 0 < a).
    { intros a. unfold ar. rewrite column_tab2 by auto. unfold tab. rewrite in_map_iff. intros (i & <- & _). now apply Hpos. }
    rewrite <- EW in Z.
    destruct (p2r_sigma_weighted n c f ar pa s w j) as (sr & E1 & _ & E3); auto; [apply tab2_shape|lra|].
    rewrite E0 in E1. injection E1 as ->. rewrite E3, EW. do 3 f_equal.
    unfold ar. rewrite (column_shape w n c), (column_shape s n c), column_tab2 by auto. rewrite !tab_map2, Rsum_tab.
    apply sum_ext. intros i Hi. pose proof (Hpos j Hj). field. lra.
Qed.

Lemma errors_plain : forall f s, shape2 f n c -> shape2 s n c ->
  exists sr, snd (polar2radial c f ar pa (Some s) None) = Some sr /\ length sr = c /\
  forall j, (j < c)%nat -> nth j sr None = ring_error n (area j / pa) (fun _ => 1) (fun i => cell s i j).
Proof.
  intros f s Sf Ss.
  assert (X : exists sr, snd (polar2radial c f ar pa (Some s) None) = Some sr) by (eexists; reflexivity).
  destruct X as (sr0 & E0). exists sr0. split; [exact E0|]. split.
  { unfold polar2radial in E0; cbn [snd option_map] in E0. injection E0 as <-. rewrite map_length, length_sum_axis0. lia. }
  intros j Hj. unfold ring_error.
  assert (E1 : sum_upto n (fun _ => 1) = INR n) by apply PMonteRadial.sum_one.
  rewrite E1. pose proof (INR_pos n Hn) as Pn. destruct (Req_EM_T (INR n) 0) as [Z|Z]; [lra|].
  assert (Pa : forall a, In a (column ar j) -> 0 < a).
  { intros a. unfold ar. rewrite column_tab2 by auto. unfold tab. rewrite in_map_iff. intros (i & <- & _). now apply Hpos. }
  destruct (p2r_sigma_plain n c f Sf ar pa s j) as (sr & E2 & _ & E3); auto; [apply tab2_shape|lra|].
  rewrite E0 in E2. injection E2 as ->. rewrite E3, Rabs_pos_eq by lra. do 3 f_equal.
  unfold ar. rewrite (column_shape s n c), column_tab2 by auto. rewrite !tab_map2, Rsum_tab.
  apply sum_ext. intros i Hi. pose proof (Hpos j Hj). field. lra.
Qed.
End Areas.

(** ** C59 *)

(** The errors of the profile, on the first and on every later call: with
    [k] the number of pixels in the area of a cell of the ring, the errors of
    partly covered cells are left out when some cell is completely outside, and
    then the weights are the caller's weights times the covered fractions. *)
Theorem C59_errors : forall xmin xmax nx ymin ymax ny G, usable xmin xmax nx ymin ymax ny G ->
  exists B P m s, set_up xmin xmax nx ymin ymax ny G = Ok (B, P) /\ get_mask_in_bound B P = Ok m /\
  forall f sigma w, shape2 f (rg_np G) (rg_nr G) -> shape2 sigma (rg_np G) (rg_nr G) ->
    (forall u, w = Some u -> shape2 u (rg_np G) (rg_nr G)) ->
  exists r sr w', polar2radial_method B P no_cache f (Some sigma) w = Ok (r, Some sr, s, w') /\
    polar2radial_method B P s f (Some sigma) w = Ok (r, Some sr, s, w') /\ length sr = rg_nr G /\
    forall j, (j < rg_nr G)%nat ->
    let edge := fun i => rg_rmin G + INR i * ((rg_rmax G - rg_rmin G) / INR (rg_nr G)) in
    let k := sector_area (edge j) (edge (S j)) ((rg_pmax G - rg_pmin G) / INR (rg_np G)) /
             ((xmax - xmin) / INR nx * ((ymax - ymin) / INR ny)) in
    ((exists i j, (i < rg_np G)%nat /\ (j < rg_nr G)%nat /\ cell m i j = 0) ->
       nth j sr None = ring_error (rg_np G) k (fun i => weight_at w i j * cell m i j)
                         (fun i => if Req_EM_T (cell m i j) 1 then cell sigma i j else 0)) /\
    ((forall i j, (i < rg_np G)%nat -> (j < rg_nr G)%nat -> cell m i j <> 0) ->
       nth j sr None = ring_error (rg_np G) k (fun i => weight_at w i j) (fun i => cell sigma i j)).
Proof.
  intros xmin xmax nx ymin ymax ny G (Hx & Hy & Nx & Ny & HG & Hr & Hp & Hb).
  assert (HS := dense_setup_ok xmin xmax nx ymin ymax ny G (rg_b G) (rg_b G) Nx Ny HG Hr Hp Hb Hb).
  pose proof (good_grid xmin xmax nx ymin ymax ny Hx Hy Nx Ny) as HP. set (V := pixel_grid xmin xmax nx ymin ymax ny) in *.
  set (np := rg_np G) in *. set (nr := rg_nr G) in *. set (P := the_rings G (rg_b G) (rg_b G)).
  pose proof (mask_ok V G HP HG Hb) as HM. fold np nr P in HM. set (m := tab2 np nr _) in HM.
  assert (Sm : shape2 m np nr) by apply tab2_shape.
  assert (Sp : shape2 (p2d P) np nr) by apply tab2_shape.
  set (edge := fun i => rg_rmin G + INR i * ((rg_rmax G - rg_rmin G) / INR nr)).
  set (area := fun j => sector_area (edge j) (edge (S j)) ((rg_pmax G - rg_pmin G) / INR np)).
  assert (HA : get_polar_area2d (redges P) (pedges P) = Ok (tab2 np nr (fun _ j => area j))).
  { destruct (area2d_spec (redges P) (pedges P)) as (a & E & Sa & Ca); [cbn [P the_rings pedges]; rewrite tab_length; fold np; lia|].
    cbn [P the_rings redges pedges] in Sa, Ca. rewrite !tab_length in Sa, Ca. fold np nr in Sa, Ca. cbn [Nat.sub] in Sa. rewrite !Nat.sub_0_r in Sa.
    rewrite E. f_equal. rewrite (tab2_of_shape a np nr Sa). apply tab2_ext. intros i j Hi Hj. rewrite Ca by lia.
    rewrite !tab_nth by lia. unfold area, sector_area, edge. cbn [INR]. field. split; apply not_0_INR; lia. }
  assert (HB : get_pixarea (xedges (the_box V)) (yedges (the_box V)) = Ok (phx V * phy V)).
  { destruct (box_area V) as [E|(_ & _ & E)]; [|exact E]. exfalso.
    unfold get_pixarea in E. cbn [xedges yedges the_box] in E.
    rewrite !(py_get_ok _ (tab _ _) _ 0) in E by (rewrite tab_length; cbn [V pixel_grid pnx pny]; lia). discriminate E. }
  destruct HG as ([R1 R2] & [P1 P2] & P3 & _).
  pose proof (INR_pos nr ltac:(lia)) as Pnr. pose proof (INR_pos np ltac:(lia)) as Pnp.
  assert (Apos : forall j, (j < nr)%nat -> 0 < area j).
  { intros j Hj. unfold area, sector_area, edge. assert (0 < (rg_pmax G - rg_pmin G) / INR np) by (apply Rdiv_lt_0_compat; lra).
    assert (0 < (rg_rmax G - rg_rmin G) / INR nr) by (apply Rdiv_lt_0_compat; lra). rewrite S_INR. pose proof (pos_INR j).
    set (h := (rg_rmax G - rg_rmin G) / INR nr) in *. set (d := (rg_pmax G - rg_pmin G) / INR np) in *.
    assert (0 <= INR j * h) by nra.
    assert (0 < (rg_rmin G + (INR j + 1) * h) ^ 2 - (rg_rmin G + INR j * h) ^ 2) by nra. nra. }
  assert (Ppos : 0 < phx V * phy V) by (destruct HP; nra).
  set (ar := tab2 np nr (fun _ j => area j)) in *. set (pa := phx V * phy V) in *.
  exists (the_box V), P, m, (Cache (Some ar) (Some pa) (Some m)).
  split; [exact HS|]. split; [exact HM|].
  intros f sigma w Sf Ss Sw.
  assert (EE : polar2radial_method (the_box V) P no_cache f (Some sigma) w
             = polar2radial_method (the_box V) P (Cache (Some ar) (Some pa) (Some m)) f (Some sigma) w).
  { unfold polar2radial_method. cbn [area2d pixarea mask_in_bound no_cache]. rewrite HA, HB. cbn [bind].
    destruct (same_shape f _); [|reflexivity]. cbn [py_assert]. rewrite HM. reflexivity. }
  rewrite EE. clear EE. unfold polar2radial_method. cbn [area2d pixarea mask_in_bound bind].
  rewrite (same_shape_ok f (p2d P) np nr) by (auto; lia). cbn [py_assert bind].
  destruct (shape_heads _ _ _ Sp ltac:(lia)) as [_ ->].
  assert (D : {np_all m = true} + {np_all m = false}) by (destruct (np_all m); auto).
  destruct D as [E|E]; rewrite E; cbn [negb]; cbv zeta.
  - pose proof (proj1 (np_all_spec m np nr Sm) E) as NZ.
    rewrite (same_shape_ok sigma (p2d P) np nr) by (auto; lia). cbn [py_assert].
    assert (X : exists sr, snd (polar2radial nr f ar pa (Some sigma) w) = Some sr /\ length sr = nr /\
      forall j, (j < nr)%nat -> nth j sr None = ring_error np (area j / pa) (fun i => weight_at w i j) (fun i => cell sigma i j)).
    { destruct w as [u|]; [apply errors_weighted|apply errors_plain]; auto; lia. }
    destruct X as (sr & X1 & X2 & X3). 
    destruct (polar2radial nr f ar pa (Some sigma) w) as [r0 s0]. cbn [snd] in X1. subst s0. exists r0, sr, w.
    split; [reflexivity|]. split; [reflexivity|]. split; [exact X2|]. intros j Hj. split.
    + intros (i0 & j0 & Hi & Hj0 & Z). now apply NZ in Z.
    + intros _. now apply X3.
  - assert (NZ : ~ forall i j, (i < np)%nat -> (j < nr)%nat -> cell m i j <> 0).
    { intros H. apply (np_all_spec m np nr Sm) in H. congruence. }
    cbn [option_map].
    assert (Szs : shape2 (zero_where m sigma) np nr) by (rewrite (zero_where_tab m sigma np nr) by auto; apply tab2_shape).
    assert (SS : same_shape (zero_where m sigma) (p2d P) = true) by (apply (same_shape_ok _ _ np nr); auto; lia).
    assert (X : forall u', shape2 u' np nr -> (forall i j, (i < np)%nat -> (j < nr)%nat -> cell u' i j = weight_at w i j * cell m i j) ->
      exists sr, snd (polar2radial nr (zero_where m f) ar pa (Some (zero_where m sigma)) (Some u')) = Some sr /\ length sr = nr /\
      forall j, (j < nr)%nat -> nth j sr None = ring_error np (area j / pa) (fun i => weight_at w i j * cell m i j)
                         (fun i => if Req_EM_T (cell m i j) 1 then cell sigma i j else 0)).
    { intros u' Su' Eu'. destruct (errors_weighted np nr area pa ltac:(lia) Apos Ppos (zero_where m f) (zero_where m sigma) u' Szs Su') as (sr & Y1 & Y2 & Y3).
      exists sr. split; [exact Y1|]. split; [exact Y2|]. intros j Hj. rewrite Y3 by auto. apply ring_error_ext; [auto|].
      intros i Hi. rewrite (zero_where_tab m sigma np nr) by auto. now rewrite tab2_cell. }
    destruct w as [u|].
    + specialize (Sw u eq_refl). destruct (X (zip2 Rmult u m)) as (sr & X1 & X2 & X3).
      { now apply zip2_shape. } { intros i j Hi Hj. rewrite (zip2_tab Rmult u m np nr) by auto. now rewrite tab2_cell. }
      match type of X1 with snd ?q = _ => destruct q as [r0 s0] end. cbn [snd] in X1. subst s0. do 3 eexists. rewrite SS.
      split; [reflexivity|]. split; [reflexivity|]. split; [exact X2|]. intros j Hj. split; [intros _; now apply X3|].
      intros H. now apply NZ in H.
    + destruct (X m) as (sr & X1 & X2 & X3); [auto|intros i j Hi Hj; cbn [weight_at]; ring|].
      match type of X1 with snd ?q = _ => destruct q as [r0 s0] end. cbn [snd] in X1. subst s0. do 3 eexists. rewrite SS.
      split; [reflexivity|]. split; [reflexivity|]. split; [exact X2|]. intros j Hj. split; [intros _; now apply X3|].
      intros H. now apply NZ in H.
Qed.
Print Assumptions C59_errors.

Example C59_errors_case : usable (-4 / 5) (4 / 5) 1 (-1 / 5) (4 / 5) 1 wit /\ shape2 all_ones 2 2 /\
  ring_error 2 4 (fun _ => 1) (fun i => if Nat.eqb i 0 then 3 else 4) = Some (5 / 4) /\
  ring_error 2 4 (fun _ => 0) (fun _ => 1) = None.
Proof.
  split; [apply wit_usable; lra|]. split; [apply all_ones_shape|]. unfold ring_error, sum_upto. cbn. split.
  - destruct (Req_EM_T _ _) as [Z|Z]; [lra|]. f_equal. rewrite Rabs_pos_eq by lra.
    match goal with |- sqrt ?x / _ = _ => replace x with ((5 / 2) * (5 / 2)) by field end. rewrite sqrt_square by lra. field.
  - destruct (Req_EM_T _ _) as [Z|Z]; [reflexivity|exfalso; apply Z; ring].
Qed.
