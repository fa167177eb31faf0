(** * C72: which arguments the HEALPix set-ups accept and where they sample the map *)

From Coq Require Import Reals ZArith List Bool Lia Lra.
From Flocq Require Import Core.Raux.
From Verif Require Import Base BaseP SpecSphere SpecGrid SpecHealSetup MUsphere MGrids MHeal
  PTrig PUsphere PPolarCoords PDense PMonte POrtho PHeal PHealSetup.
Import ListNotations.
Open Scope R_scope.

Lemma centre_mid : forall a b n j, centre a b (Z.of_nat n) j = mid_at a b n j.
Proof. intros. unfold centre, mid_at. now rewrite <- INR_IZR_INZ. Qed.

Lemma edges_uniform : forall a b n, uniform_edges (edges a b n) a ((b - a) / IZR (Z.of_nat n)) n.
Proof.
  intros a b n. split; [apply edges_length|]. intros i Hi. unfold edges. rewrite tab_nth by lia. now rewrite <- INR_IZR_INZ.
Qed.

(** ** Accepted arguments *)

Theorem C72_ring_args : forall a b na nb c d center shift,
  (~ ring_args a b na nb c d center -> setup_polar_cap a b na nb c d center shift = Err AssertionError) /\
  (ring_args a b na nb c d center -> (na = 1 \/ nb = 1)%Z -> setup_polar_cap a b na nb c d center shift = Err IndexError) /\
  (ring_args a b na nb c d center -> (2 <= na)%Z -> (2 <= nb)%Z -> exists C, setup_polar_cap a b na nb c d center shift = Ok C /\
     uniform_edges (cp_alpha_edges C) a ((b - a) / IZR na) (Z.to_nat na) /\ uniform_edges (cp_beta_edges C) c ((d - c) / IZR nb) (Z.to_nat nb) /\
     shape2 (cp_alpha2d C) (Z.to_nat nb) (Z.to_nat na) /\ shape2 (cp_beta2d C) (Z.to_nat nb) (Z.to_nat na) /\
     (forall i j, (i < Z.to_nat nb)%nat -> (j < Z.to_nat na)%nat -> cell (cp_alpha2d C) i j = centre a b na j /\ cell (cp_beta2d C) i j = centre c d nb i) /\
     cp_center C = center /\ cp_shift C = shift).
Proof.
  intros a b na nb c d ctr s. split; [intros H; unfold setup_polar_cap; now apply cap_refused|]. split; [apply cap_single|].
  intros H Na Nb. replace na with (Z.of_nat (Z.to_nat na)) in * by lia. replace nb with (Z.of_nat (Z.to_nat nb)) in * by lia.
  rewrite !Nat2Z.id. set (n := Z.to_nat na) in *. set (m := Z.to_nat nb) in *. clearbody n m.
  eexists. split; [apply cap_ok; [exact H|lia|lia]|]. cbn [cp_alpha_edges cp_beta_edges cp_alpha2d cp_beta2d cp_center cp_shift].
  split; [apply edges_uniform|]. split; [apply edges_uniform|]. split; [apply tab2_shape|]. split; [apply tab2_shape|]. split; [|auto].
  intros i j Hi Hj. rewrite !tab2_cell, !centre_mid by auto. auto.
Qed.
Print Assumptions C72_ring_args.

Theorem C72_box_args : forall xl xg center alpha yl yg,
  (~ box_args xl xg center yl yg -> setup_hbox xl xg center alpha yl yg = Err AssertionError) /\
  (box_args xl xg center yl yg -> (xg = 1 \/ rows xg yg = 1)%Z -> setup_hbox xl xg center alpha yl yg = Err IndexError) /\
  (box_args xl xg center yl yg -> (2 <= xg)%Z -> (2 <= rows xg yg)%Z -> exists H, setup_hbox xl xg center alpha yl yg = Ok H /\
     let l := height xl yl in let g := rows xg yg in
     uniform_edges (hb_xedges H) (- xl / 2) (xl / IZR xg) (Z.to_nat xg) /\ uniform_edges (hb_yedges H) (- l / 2) (l / IZR g) (Z.to_nat g) /\
     shape2 (hb_x2d H) (Z.to_nat g) (Z.to_nat xg) /\ shape2 (hb_y2d H) (Z.to_nat g) (Z.to_nat xg) /\
     (forall i j, (i < Z.to_nat g)%nat -> (j < Z.to_nat xg)%nat -> cell (hb_x2d H) i j = centre (- xl / 2) (xl / 2) xg j /\ cell (hb_y2d H) i j = centre (- l / 2) (l / 2) g i) /\
     hb_center H = center /\ hb_alpha H = alpha).
Proof.
  intros xl xg ctr al yl yg. split; [apply hbox_refused|]. split; [apply hbox_single|].
  intros H Nx Ng. cbv zeta. assert (Eg : rows xg yg = Z.of_nat (Z.to_nat (rows xg yg))) by lia. set (g := Z.to_nat (rows xg yg)) in *. rewrite Eg in *. clearbody g.
  replace xg with (Z.of_nat (Z.to_nat xg)) in * by lia. rewrite !Nat2Z.id. set (n := Z.to_nat xg) in *. clearbody n.
  eexists. split; [apply (hbox_ok _ _ _ _ _ _ g); [exact H|exact Eg|lia|lia]|]. cbn [hb_xedges hb_yedges hb_x2d hb_y2d hb_center hb_alpha].
  replace (xl / IZR (Z.of_nat n)) with ((xl / 2 - - xl / 2) / IZR (Z.of_nat n)) by (unfold Rdiv; field; apply not_0_IZR; lia).
  replace (height xl yl / IZR (Z.of_nat g)) with ((height xl yl / 2 - - height xl yl / 2) / IZR (Z.of_nat g)) by (unfold Rdiv; field; apply not_0_IZR; lia).
  split; [apply edges_uniform|]. split; [apply edges_uniform|]. split; [apply tab2_shape|]. split; [apply tab2_shape|]. split; [|auto].
  intros i j Hi Hj. rewrite !tab2_cell, !centre_mid by auto. auto.
Qed.
Print Assumptions C72_box_args.

(** ** Where the map is sampled *)

(** Fine cell in row [i] (angle [beta]) and column [j] (distance [alpha]). *)
Theorem C72_ring_samples : forall pix a b na nb c d c0 c1 shift ra rb C F,
  0 <= c0 < 2 * PI -> 0 <= c1 < PI -> 0 <= shift < 2 * PI -> (1 <= ra)%Z ->
  setup_ring pix a b na nb c d [c0; c1] shift ra rb = Ok (C, F) ->
  setup_polar_cap a b na nb c d [c0; c1] shift = Ok C /\
  length (fi_pix F) = Z.to_nat ((rb * nb) * (ra * na)) /\
  forall i j, (i < Z.to_nat (rb * nb))%nat -> (j < Z.to_nat (ra * na))%nat ->
  let k := (i * Z.to_nat (ra * na) + j)%nat in
  let alpha := centre a b (ra * na) j in let beta := centre c d (rb * nb) i in
  nth k (fi_xind F) 0%nat = i /\ nth k (fi_yind F) 0%nat = j /\
  exists phi theta, pix theta phi = Ok (nth k (fi_pix F) 0%Z) /\
    dir phi theta = turn_z c0 (turn_y c1 (turn_z shift (dir beta alpha))) /\
    dot (dir phi theta) (dir c0 c1) = cos alpha /\ (b <= PI -> on_sky phi theta).
Proof.
  intros pix a b na nb c d c0 c1 s ra rb C F H0 H1 Hs Ra E. destruct (ring_inv _ _ _ _ _ _ _ _ _ _ _ _ _ E) as (HC & _ & Rb & _).
  split; [exact HC|]. destruct (cap_inv _ _ _ _ _ _ _ _ _ HC) as (Na & Nb & _).
  assert (A : ring_args a b na nb c d [c0; c1]).
  { destruct (Classical_Prop.classic (ring_args a b na nb c d [c0; c1])) as [A|A]; [exact A|]. rewrite (proj1 (C72_ring_args a b na nb c d [c0; c1] s) A) in HC. discriminate. }
  replace na with (Z.of_nat (Z.to_nat na)) in * by lia. replace nb with (Z.of_nat (Z.to_nat nb)) in * by lia.
  replace ra with (Z.of_nat (Z.to_nat ra)) in * by lia. replace rb with (Z.of_nat (Z.to_nat rb)) in * by lia.
  set (n := Z.to_nat na) in *. set (m := Z.to_nat nb) in *. set (r := Z.to_nat ra) in *. set (q := Z.to_nat rb) in *. clearbody n m r q. clear na nb ra rb.
  rewrite <- !Nat2Z.inj_mul, !Nat2Z.id. rewrite ring_step in E by (auto; lia). apply bind_inv in E. destruct E as (px & M & E). apply Ok_inj in E.
  pose proof (f_equal snd E) as EF. cbn [snd] in EF. subst F. cbn [fi_pix fi_xind fi_yind]. clear E.
  assert (P : (1 <= q * m)%nat /\ (1 <= r * n)%nat) by nia.
  split.
  { destruct (mapM_nth _ _ _ _ _ 0%nat (0, 0) 0%Z M) as [L _]; [rewrite flat_length; nia|]. now rewrite L, flat_length. }
  intros i j Hi Hj. cbv zeta. rewrite !flat_nth by auto. split; [auto|]. split; [auto|]. rewrite !centre_mid.
  destruct (mapM_nth _ _ _ _ _ (i * (r * n) + j)%nat (0, 0) 0%Z M) as [_ G]; [rewrite flat_length; nia|]. rewrite flat_nth in G by auto. cbn [fst snd] in G.
  destruct (ring_pixel pix c0 c1 s (mid_at c d (q * m) i) (mid_at a b (r * n) j) H0 H1 Hs) as (p & t & Ep & D & S). rewrite Ep in G.
  exists p, t. split; [exact G|]. unfold ring_dir in D. split; [exact D|]. split.
  - rewrite D, (dir_turns c0 c1). rewrite turn_z_dot, turn_y_dot. unfold turn_z, dir, ez, dot. cbn [vx vy vz]. ring.
  - intros B. apply S. destruct A as ([A1 A2] & _ & [A3 A4] & A5 & _).
    pose proof (mid_at_in a b (r * n) j ltac:(lra) Hj). pose proof (mid_at_in c d (q * m) i ltac:(lra) Hi). split; lra.
Qed.
Print Assumptions C72_ring_samples.

(** Fine cell in row [i] (height [y]) and column [j] (width [x]); the box is
    turned by [alpha] about its middle, which is put at the centre. *)
Theorem C72_box_samples : forall pix xl xg c0 c1 alpha yl yg rx ry H F,
  0 <= c0 < 2 * PI -> 0 <= c1 <= PI -> 0 <= alpha < 2 * PI -> (1 <= rx)%Z -> (1 <= ry)%Z ->
  setup_hpolar pix xl xg [c0; c1] alpha yl yg rx ry = Ok (H, F) ->
  setup_hbox xl xg [c0; c1] alpha yl yg = Ok H /\
  let l := height xl yl in let g := rows xg yg in
  length (fi_pix F) = Z.to_nat ((ry * g) * (rx * xg)) /\
  forall i j, (i < Z.to_nat (ry * g))%nat -> (j < Z.to_nat (rx * xg))%nat ->
  let k := (i * Z.to_nat (rx * xg) + j)%nat in
  let x := centre (- xl / 2) (xl / 2) (rx * xg) j in let y := centre (- l / 2) (l / 2) (ry * g) i in
  nth k (fi_xind F) 0%nat = i /\ nth k (fi_yind F) 0%nat = j /\
  exists phi theta, pix theta phi = Ok (nth k (fi_pix F) 0%Z) /\ on_sky phi theta /\
    dir phi theta = turn_z c0 (turn_y (c1 - PI / 2) (turn_x alpha (dir x (PI / 2 - y)))) /\
    dot (dir phi theta) (dir c0 c1) = cos x * cos y.
Proof.
  intros pix xl xg c0 c1 al yl yg rx ry H F H0 H1 Hs Rx Ry E. destruct (hpolar_inv _ _ _ _ _ _ _ _ _ _ _ E) as (HC & _).
  split; [exact HC|]. cbv zeta. destruct (hbox_inv _ _ _ _ _ _ _ HC) as (Nx & g & Eg & Ng & _).
  assert (A : box_args xl xg [c0; c1] yl yg).
  { destruct (Classical_Prop.classic (box_args xl xg [c0; c1] yl yg)) as [A|A]; [exact A|]. rewrite hbox_refused in HC by exact A. discriminate. }
  fold (rows xg yg) in Eg. rewrite <- Eg. replace g with (Z.of_nat (Z.to_nat g)) in * by lia.
  replace xg with (Z.of_nat (Z.to_nat xg)) in * by lia. replace rx with (Z.of_nat (Z.to_nat rx)) in * by lia. replace ry with (Z.of_nat (Z.to_nat ry)) in * by lia.
  set (n := Z.to_nat xg) in *. set (m := Z.to_nat g) in *. set (r := Z.to_nat rx) in *. set (q := Z.to_nat ry) in *. clearbody n m r q. clear xg g rx ry.
  rewrite <- !Nat2Z.inj_mul, !Nat2Z.id. rewrite (hpolar_step _ _ _ _ _ _ _ _ m) in E by (auto; lia). apply bind_inv in E. destruct E as (px & M & E). apply Ok_inj in E.
  pose proof (f_equal snd E) as EF. cbn [snd] in EF. subst F. cbn [fi_pix fi_xind fi_yind]. clear E.
  assert (P : (1 <= q * m)%nat /\ (1 <= r * n)%nat) by nia.
  split.
  { destruct (mapM_nth _ _ _ _ _ 0%nat (0, 0) 0%Z M) as [L _]; [rewrite flat_length; nia|]. now rewrite L, flat_length. }
  intros i j Hi Hj. rewrite !flat_nth by auto. split; [auto|]. split; [auto|]. rewrite !centre_mid.
  destruct (mapM_nth _ _ _ _ _ (i * (r * n) + j)%nat (0, 0) 0%Z M) as [_ G]; [rewrite flat_length; nia|]. rewrite flat_nth in G by auto. cbn [fst snd] in G.
  assert (L : 0 <= height xl yl <= PI).
  { destruct A as ([A1 A2] & _ & A3 & _). unfold height. destruct yl as [l|]; [now apply A3|]. pose proof PI_RGT_0. split; [apply Rmin_glb; lra|apply Rmin_r]. }
  destruct A as ([A1 A2] & _).
  pose proof (mid_at_in (- xl / 2) (xl / 2) (r * n) j ltac:(lra) Hj) as X. pose proof (mid_at_in (- height xl yl / 2) (height xl yl / 2) (q * m) i ltac:(lra) Hi) as Y.
  destruct (box_pixel pix c0 c1 al (mid_at (- xl / 2) (xl / 2) (r * n) j) (mid_at (- height xl yl / 2) (height xl yl / 2) (q * m) i) H0 H1 Hs) as (p & t & Ep & D & S); [lra|lra|].
  rewrite Ep in G. exists p, t. split; [exact G|]. split; [exact S|]. unfold box_dir in D. split; [exact D|].
  assert (Z : dir c0 c1 = turn_z c0 (turn_y (c1 - PI / 2) (turn_x al (V3 1 0 0)))).
  { unfold turn_x, dir. apply vec_ext; unfold turn_z, turn_y; cbn [vx vy vz]; rewrite ?cos_minus, ?sin_minus, ?cos_PI2, ?sin_PI2; ring. }
  rewrite D, Z, turn_z_dot, turn_y_dot, turn_x_dot. unfold dir, dot. cbn [vx vy vz]. rewrite sin_minus, sin_PI2, cos_PI2. ring.
Qed.
Print Assumptions C72_box_samples.

(** ** Centres *)

Theorem C72_ring_runs : forall pix a b na nb c d c0 c1 shift ra rb,
  (forall phi theta, on_sky phi theta -> exists k, pix theta phi = Ok k) ->
  ring_args a b na nb c d [c0; c1] -> b <= PI -> (2 <= na)%Z -> (2 <= nb)%Z -> (1 <= ra)%Z -> (1 <= rb)%Z ->
  0 <= c0 < 2 * PI -> 0 <= c1 < PI -> 0 <= shift < 2 * PI ->
  exists O, setup_ring pix a b na nb c d [c0; c1] shift ra rb = Ok O.
Proof.
  intros pix a b na nb c d c0 c1 s ra rb Hp A B Na Nb Ra Rb H0 H1 Hs.
  replace na with (Z.of_nat (Z.to_nat na)) in * by lia. replace nb with (Z.of_nat (Z.to_nat nb)) in * by lia.
  replace ra with (Z.of_nat (Z.to_nat ra)) in * by lia. replace rb with (Z.of_nat (Z.to_nat rb)) in * by lia.
  set (n := Z.to_nat na) in *. set (m := Z.to_nat nb) in *. set (r := Z.to_nat ra) in *. set (q := Z.to_nat rb) in *. clearbody n m r q.
  rewrite ring_step by (auto; lia).
  match goal with |- context [mapM ?f ?l] => destruct (mapM_all _ _ f l) as [l' ->] end; [|eexists; reflexivity].
  intros x Hx. apply in_flat in Hx. destruct Hx as (i & j & Hi & Hj & ->). cbn [fst snd].
  destruct (ring_pixel pix c0 c1 s (mid_at c d (q * m) i) (mid_at a b (r * n) j) H0 H1 Hs) as (p & t & -> & _ & S). apply Hp, S.
  destruct A as ([A1 A2] & _ & [A3 A4] & A5 & _).
  pose proof (mid_at_in a b (r * n) j ltac:(lra) Hj). pose proof (mid_at_in c d (q * m) i ltac:(lra) Hi). split; lra.
Qed.
Print Assumptions C72_ring_runs.

Theorem C72_ring_refused : forall pix a b na nb c d c0 c1 shift ra rb,
  ring_args a b na nb c d [c0; c1] -> (2 <= na)%Z -> (2 <= nb)%Z -> (1 <= ra)%Z -> (1 <= rb)%Z ->
  (~ (0 <= c0 < 2 * PI /\ 0 <= c1 <= PI /\ 0 <= shift < 2 * PI) -> setup_ring pix a b na nb c d [c0; c1] shift ra rb = Err AssertionError) /\
  (0 <= c0 < 2 * PI -> 0 <= shift < 2 * PI -> c1 = PI -> setup_ring pix a b na nb c d [c0; c1] shift ra rb = Err ValueError).
Proof.
  intros pix a b na nb c d c0 c1 s ra rb A Na Nb Ra Rb. pose proof PI_RGT_0.
  replace na with (Z.of_nat (Z.to_nat na)) in * by lia. replace nb with (Z.of_nat (Z.to_nat nb)) in * by lia.
  replace ra with (Z.of_nat (Z.to_nat ra)) in * by lia. replace rb with (Z.of_nat (Z.to_nat rb)) in * by lia.
  set (n := Z.to_nat na) in *. set (m := Z.to_nat nb) in *. set (r := Z.to_nat ra) in *. set (q := Z.to_nat rb) in *. clearbody n m r q.
  rewrite ring_step by (auto; lia). assert (P : (1 <= q * m)%nat /\ (1 <= r * n)%nat) by nia. split.
  - intros N. rewrite (flat_first _ _ _ _ _ _ AssertionError); [reflexivity|tauto|tauto|]. apply pixel_refused; [lra|exact N].
  - intros H0 Hs ->. rewrite (flat_first _ _ _ _ _ _ ValueError); [reflexivity|tauto|tauto|]. now apply pixel_south.
Qed.
Print Assumptions C72_ring_refused.

Theorem C72_box_runs : forall pix xl xg c0 c1 alpha yl yg rx ry,
  (forall phi theta, on_sky phi theta -> exists k, pix theta phi = Ok k) ->
  box_args xl xg [c0; c1] yl yg -> (2 <= xg)%Z -> (2 <= rows xg yg)%Z -> (1 <= rx)%Z -> (1 <= ry)%Z ->
  (0 <= c0 < 2 * PI -> 0 <= c1 <= PI -> 0 <= alpha < 2 * PI -> exists O, setup_hpolar pix xl xg [c0; c1] alpha yl yg rx ry = Ok O) /\
  (~ (0 <= c0 < 2 * PI /\ 0 <= c1 <= PI /\ 0 <= alpha < 2 * PI) -> setup_hpolar pix xl xg [c0; c1] alpha yl yg rx ry = Err AssertionError).
Proof.
  intros pix xl xg c0 c1 al yl yg rx ry Hp A Nx Ng Rx Ry. pose proof PI_RGT_0.
  assert (Eg : rows xg yg = Z.of_nat (Z.to_nat (rows xg yg))) by lia. set (g := Z.to_nat (rows xg yg)) in *. rewrite Eg in Ng. clearbody g.
  replace xg with (Z.of_nat (Z.to_nat xg)) in * by lia. replace rx with (Z.of_nat (Z.to_nat rx)) in * by lia. replace ry with (Z.of_nat (Z.to_nat ry)) in * by lia.
  set (n := Z.to_nat xg) in *. set (r := Z.to_nat rx) in *. set (q := Z.to_nat ry) in *. clearbody n r q.
  rewrite (hpolar_step _ _ _ _ _ _ _ _ g) by (auto; lia). assert (P : (1 <= q * g)%nat /\ (1 <= r * n)%nat) by nia. split.
  - intros H0 H1 Hs.
    match goal with |- context [mapM ?f ?l] => destruct (mapM_all _ _ f l) as [l' ->] end; [|eexists; reflexivity].
    intros x Hx. apply in_flat in Hx. destruct Hx as (i & j & Hi & Hj & ->). cbn [fst snd].
    assert (L : 0 <= height xl yl <= PI).
    { destruct A as ([A1 A2] & _ & A3 & _). unfold height. destruct yl as [l|]; [now apply A3|]. split; [apply Rmin_glb; lra|apply Rmin_r]. }
    destruct A as ([A1 A2] & _).
    pose proof (mid_at_in (- xl / 2) (xl / 2) (r * n) j ltac:(lra) Hj) as X. pose proof (mid_at_in (- height xl yl / 2) (height xl yl / 2) (q * g) i ltac:(lra) Hi) as Y.
    destruct (box_pixel pix c0 c1 al (mid_at (- xl / 2) (xl / 2) (r * n) j) (mid_at (- height xl yl / 2) (height xl yl / 2) (q * g) i) H0 H1 Hs) as (p & t & -> & _ & S); [lra|lra|]. now apply Hp.
  - intros N. rewrite (flat_first _ _ _ _ _ _ AssertionError); [reflexivity|tauto|tauto|]. apply pixel_refused; [lra|exact N].
Qed.
Print Assumptions C72_box_runs.

Example C72_case : exists C F, setup_ring (fun _ _ => Ok 0%Z) 0 1 2 2 0 (2 * PI) [1; 1] 1 2 2 = Ok (C, F) /\ length (fi_pix F) = 16%nat.
Proof.
  pose proof PI2_1. destruct (C72_ring_runs (fun _ _ => Ok 0%Z) 0 1 2 2 0 (2 * PI) 1 1 1 2 2) as [[C F] E]; try lra; try lia; [eauto| |].
  - repeat split; try lra; try lia; reflexivity.
  - exists C, F. split; [exact E|]. destruct (C72_ring_samples (fun _ _ => Ok 0%Z) 0 1 2 2 0 (2 * PI) 1 1 1 2 2 C F ltac:(lra) ltac:(lra) ltac:(lra) ltac:(lia) E) as (_ & L & _). exact L.
Qed.

Example C72_box_case : exists H F, setup_hpolar (fun _ _ => Ok 0%Z) 1 2 [1; PI / 2] 1 None (Some 3%Z) 2 1 = Ok (H, F) /\ length (fi_pix F) = 12%nat.
Proof.
  pose proof PI2_1. destruct (C72_box_runs (fun _ _ => Ok 0%Z) 1 2 1 (PI / 2) 1 None (Some 3%Z) 2 1) as [K _]; try (unfold rows; lia); [eauto| |].
  - repeat split; try lra; try lia; try discriminate. intros g E. injection E as <-. lia.
  - destruct K as [[H' F] E]; try lra. exists H', F. split; [exact E|].
    destruct (C72_box_samples (fun _ _ => Ok 0%Z) 1 2 1 (PI / 2) 1 None (Some 3%Z) 2 1 H' F ltac:(lra) ltac:(lra) ltac:(lra) ltac:(lia) ltac:(lia) E) as (_ & L & _). exact L.
Qed.

(** A ring around the south pole, a position every other function accepts. *)
Theorem C72_refuted : forall pix, exists c0 c1, on_sky c0 c1 /\ ring_args 0 1 2 2 0 (2 * PI) [c0; c1] /\
  setup_ring pix 0 1 2 2 0 (2 * PI) [c0; c1] 0 2 2 = Err ValueError.
Proof.
  intros pix. pose proof PI_RGT_0. exists 0, PI. assert (A : ring_args 0 1 2 2 0 (2 * PI) [0; PI]) by (repeat split; try lra; try lia; reflexivity).
  split; [split; lra|]. split; [exact A|]. apply (C72_ring_refused pix 0 1 2 2 0 (2 * PI) 0 PI 0 2 2 A); try lia; lra.
Qed.
Print Assumptions C72_refuted.

(** A single ring, within every documented range. *)
Theorem C72_single_refuted : exists a b na nb c d center shift, ring_args a b na nb c d center /\ setup_polar_cap a b na nb c d center shift = Err IndexError.
Proof.
  pose proof PI_RGT_0. exists 0, 1, 1%Z, 2%Z, 0, (2 * PI), [0; 0], 0. assert (A : ring_args 0 1 1 2 0 (2 * PI) [0; 0]) by (repeat split; try lra; try lia; reflexivity).
  split; [exact A|]. apply C72_ring_args; auto.
Qed.
Print Assumptions C72_single_refuted.
