(** * Lemmas: radial profiles from the Monte-Carlo remapping *)

From Coq Require Import Reals ZArith List Bool Lia Lra Psatz.
From Flocq Require Import Core.Raux.
From Verif Require Import Base BaseP SpecGrid SpecRemap SpecDense SpecMonte SpecMonteRadial MGrids MDense MMonte MMonteRadial
  PRemap2 PGrids PRadial PPolarCoords PDense PMonte.
Import ListNotations.
Open Scope R_scope.

(** ** Tables with and without NaN *)

Lemma ntab_of_shape : forall f n m, nshape f n m -> f = tab2 n m (ncell f).
Proof.
  intros f n m [H1 H2]. rewrite (tab_of_list _ f n [] H1) at 1. unfold tab2. apply tab_ext. intros i Hi.
  apply tab_of_list. apply H2. lia.
Qed.

Lemma ntab_shape : forall n m g, nshape (tab2 n m g) n m.
Proof. intros n m g. split; [apply tab2_length|]. intros i Hi. unfold tab2. rewrite tab_nth by auto. apply tab_length. Qed.

Lemma ntab_cell : forall n m g i j, (i < n)%nat -> (j < m)%nat -> ncell (tab2 n m g) i j = g i j.
Proof. intros. unfold ncell, tab2. now rewrite !tab_nth. Qed.

Lemma same_shape_num_ok : forall f b n c, (1 <= n)%nat -> nshape f n c -> shape2 b n c -> same_shape_num f b = true.
Proof.
  intros f b n c Hn [L S] Hb. unfold same_shape_num. destruct (shape_heads _ _ _ Hb Hn) as [-> ->]. rewrite L, S by lia. now rewrite !Nat.eqb_refl.
Qed.

Definition val (x : num) : R := match x with Some v => v | None => 0 end.

Section Profile.
Variables (n c : nat) (cov : nat -> nat -> bool).
Hypothesis Hn : (1 <= n)%nat.
Hypothesis Hc : (1 <= c)%nat.

Definition cov_mask : list (list R) := tab2 n c (fun i j => if cov i j then 1 else 0).
Definition keep (g : nat -> nat -> R) : list (list R) := tab2 n c (fun i j => if cov i j then g i j else 0).
Definition nkeep (g : nat -> nat -> num) : list (list num) := tab2 n c (fun i j => if cov i j then g i j else Some 0).

Lemma mask_all : np_all cov_mask = true -> forall i j, (i < n)%nat -> (j < c)%nat -> cov i j = true.
Proof.
  intros H i j Hi Hj. unfold cov_mask in H. rewrite (np_all_spec _ n c (tab2_shape _ _ _)) in H. specialize (H i j Hi Hj). unfold cov_mask in H. rewrite tab2_cell in H by auto.
  destruct (cov i j); [reflexivity|]. now destruct H.
Qed.

Lemma zero_keep : forall a, shape2 a n c -> zero_where cov_mask a = keep (cell a).
Proof.
  intros a Ha. rewrite (zero_where_tab _ a n c) by (auto; apply tab2_shape). apply tab2_ext. intros i j Hi Hj. unfold cov_mask. rewrite tab2_cell by auto.
  destruct (cov i j); [destruct (Req_EM_T 1 1)|destruct (Req_EM_T 0 1)]; auto; lra.
Qed.

Lemma mult_keep : forall w, shape2 w n c -> zip2 Rmult w cov_mask = keep (cell w).
Proof.
  intros w Hw. rewrite (zip2_tab Rmult w _ n c) by (auto; apply tab2_shape). apply tab2_ext. intros i j Hi Hj. unfold cov_mask. rewrite tab2_cell by auto.
  destruct (cov i j); ring.
Qed.

Lemma zero_nkeep : forall f, nshape f n c -> zero_where_num cov_mask f = nkeep (ncell f).
Proof.
  intros f Hf. unfold zero_where_num. rewrite (ntab_of_shape f n c Hf) at 1. unfold cov_mask. rewrite tab2_zip2. apply tab2_ext. intros i j Hi Hj.
  destruct (cov i j); [rewrite Req_bool_true by auto|rewrite Req_bool_false by lra]; reflexivity.
Qed.

Lemma keep_all : forall g a, shape2 a n c -> (forall i j, (i < n)%nat -> (j < c)%nat -> cov i j = true) -> (forall i j, g i j = cell a i j) -> a = keep g.
Proof.
  intros g a Ha H E. rewrite (tab2_of_shape a n c Ha). apply tab2_ext. intros i j Hi Hj. now rewrite H, E.
Qed.

Lemma nkeep_all : forall f, nshape f n c -> (forall i j, (i < n)%nat -> (j < c)%nat -> cov i j = true) -> f = nkeep (ncell f).
Proof.
  intros f Hf H. rewrite (ntab_of_shape f n c Hf) at 1. apply tab2_ext. intros i j Hi Hj. now rewrite H.
Qed.

(** The values of a ring. *)
Lemma p2r_num_fst : forall f ar pa sigma w j, nshape f n c -> (j < c)%nat ->
  nth j (fst (polar2radial_num c f ar pa sigma w)) None =
  if existsb (fun row => is_nan (nth j row (Some 0))) f then None
  else nth j (fst (polar2radial c (tab2 n c (fun i j => val (ncell f i j))) ar pa sigma w)) None.
Proof.
  intros f ar pa sigma w j Hf Hj. unfold polar2radial_num.
  assert (E : map (map (fun x : num => match x with Some v => v | None => 0 end)) f = tab2 n c (fun i j => val (ncell f i j))).
  { rewrite (ntab_of_shape f n c Hf) at 1. rewrite tab2_map. reflexivity. }
  rewrite E. destruct (polar2radial c _ ar pa sigma w) as [r s] eqn:ER. cbn [fst].
  assert (L : length r = c). { replace r with (fst (polar2radial c (tab2 n c (fun i j => val (ncell f i j))) ar pa sigma w)) by now rewrite ER. apply p2r_length. }
  refine (eq_trans (nth_map2 nat num num _ _ _ j 0%nat None None _ _) _); [rewrite seq_length; lia|lia|]. rewrite seq_nth by auto. reflexivity.
Qed.

Lemma p2r_num_snd : forall f ar pa sigma w, nshape f n c ->
  snd (polar2radial_num c f ar pa sigma w) = snd (polar2radial c (tab2 n c (fun i j => val (ncell f i j))) ar pa sigma w).
Proof.
  intros f ar pa sigma w Hf. unfold polar2radial_num.
  assert (E : map (map (fun x : num => match x with Some v => v | None => 0 end)) f = tab2 n c (fun i j => val (ncell f i j))).
  { rewrite (ntab_of_shape f n c Hf) at 1. rewrite tab2_map. reflexivity. }
  rewrite E. now destruct (polar2radial c _ ar pa sigma w) as [r s].
Qed.

Lemma p2r_num_length : forall f ar pa sigma w, length (fst (polar2radial_num c f ar pa sigma w)) = c.
Proof.
  intros f ar pa sigma w. unfold polar2radial_num. set (g := map _ f). destruct (polar2radial c g ar pa sigma w) as [r s] eqn:ER. cbn [fst].
  assert (L : length r = c). { replace r with (fst (polar2radial c g ar pa sigma w)) by now rewrite ER. apply p2r_length. }
  refine (eq_trans (map2_length nat num num _ _ _) _). rewrite seq_length, L. lia.
Qed.

Lemma nan_ring : forall g j, (j < c)%nat ->
  (existsb (fun row => is_nan (nth j row (Some 0))) (nkeep g) = true <-> exists i, (i < n)%nat /\ cov i j = true /\ g i j = None).
Proof.
  intros g j Hj. rewrite existsb_exists. split.
  - intros (row & Hr & H). apply (In_nth _ _ []) in Hr. destruct Hr as (i & Hi & <-). unfold nkeep in Hi, H. rewrite tab2_length in Hi.
    unfold tab2 in H. rewrite !tab_nth in H by auto. exists i. split; [auto|]. destruct (cov i j); [|discriminate]. split; auto. now destruct (g i j).
  - intros (i & Hi & H1 & H2). exists (nth i (nkeep g) []). split; [apply nth_In; unfold nkeep; now rewrite tab2_length|].
    unfold nkeep, tab2. rewrite !tab_nth by auto. now rewrite H1, H2.
Qed.

Lemma sum_one : sum_upto n (fun _ => 1) = INR n.
Proof. rewrite <- Rsum_tab, tab_const, Rsum_repeat. ring. Qed.

Definition use_weights (w : option (list (list R))) : option (list (list R)) :=
  match w with Some w => Some (keep (cell w)) | None => if np_all cov_mask then None else Some cov_mask end.

Lemma ring_fst : forall f ar pa sigma w j, (j < c)%nat ->
  covered_mean n (fun i => cov i j) (fun i => weight_at w i j) (fun i => f i j)
    (nth j (fst (polar2radial_num c (nkeep f) ar pa sigma (use_weights w))) None).
Proof.
  intros f ar pa sigma w j Hj. rewrite p2r_num_fst by (auto; apply ntab_shape). split.
  - intros H. apply nan_ring in H; auto. now rewrite H.
  - intros u Hu. replace (existsb _ _) with false.
    2: { symmetry. destruct (existsb _ _) eqn:E; auto. apply nan_ring in E; auto. destruct E as (i & Hi & H1 & H2). rewrite (Hu i Hi H1) in H2. discriminate. }
    assert (EC : column (tab2 n c (fun i j => val (ncell (nkeep f) i j))) j = tab n (fun i => if cov i j then u i else 0)).
    { rewrite column_tab2 by auto. apply tab_ext. intros i Hi. unfold nkeep. rewrite ntab_cell by auto. specialize (Hu i Hi). destruct (cov i j); [rewrite Hu by auto|]; reflexivity. }
    unfold use_weights. destruct w as [w|]; [|destruct (np_all cov_mask) eqn:EA].
    + rewrite (p2r_weighted n c) by (auto; apply tab2_shape). rewrite EC. unfold keep. rewrite column_tab2 by auto. rewrite tab_map2, !Rsum_tab, fdiv_dec.
      cbn [weight_at]. fold (covered_sum n (fun i => cov i j) (fun i => cell w i j)).
      rewrite (sum_ext n (fun i => (if cov i j then u i else 0) * (if cov i j then cell w i j else 0)) (fun i => if cov i j then cell w i j * u i else 0)) by (intros; destruct (cov _ _); ring).
      destruct (Req_EM_T _ 0); split; intros; try lra; reflexivity.
    + rewrite (p2r_plain n c) by (auto; apply tab2_shape). rewrite EC, Rsum_tab.
      pose proof (mask_all EA) as A. cbn [weight_at].
      assert (E1 : covered_sum n (fun i => cov i j) (fun _ => 1) = INR n).
      { unfold covered_sum. rewrite (sum_ext n _ (fun _ => 1)) by (intros; now rewrite A). apply sum_one. }
      rewrite E1. pose proof (INR_pos n Hn). split; [lra|]. intros _. unfold covered_sum. do 2 f_equal. apply sum_ext. intros i Hi. destruct (cov i j); ring.
    + rewrite (p2r_weighted n c) by (auto; apply tab2_shape). rewrite EC. unfold cov_mask. rewrite column_tab2 by auto. rewrite tab_map2, !Rsum_tab, fdiv_dec.
      cbn [weight_at]. fold (covered_sum n (fun i => cov i j) (fun _ => 1)).
      rewrite (sum_ext n (fun i => (if cov i j then u i else 0) * (if cov i j then 1 else 0)) (fun i => if cov i j then 1 * u i else 0)) by (intros; destruct (cov _ _); ring).
      destruct (Req_EM_T _ 0); split; intros; try lra; reflexivity.
Qed.
End Profile.

(** ** Errors of a ring *)
Section Errors.
Variables (n c : nat) (cov : nat -> nat -> bool) (ar : list (list R)) (area : nat -> R) (pa : R).
Hypothesis Hn : (1 <= n)%nat.
Hypothesis Har : ar = tab2 n c (fun _ j => area j).
Hypothesis Hpos : forall j, (j < c)%nat -> 0 < area j.
Hypothesis Hpa : 0 < pa.

Lemma sigma_zero : forall f sigma w j, (j < c)%nat -> shape2 w n c -> Rsum (column w j) = 0 ->
  exists s, snd (polar2radial c f ar pa (Some sigma) (Some w)) = Some s /\ length s = c /\ nth j s None = None.
Proof.
  intros f sigma w j Hj Hw Z. unfold polar2radial; cbn [snd option_map].
  eexists. split; [reflexivity|]. split; [rewrite map2_length, !length_sum_axis0; lia|].
  refine (eq_trans (nth_map2 num num num _ _ _ j None None None _ _) _);
    [rewrite length_sum_axis0; exact Hj|rewrite length_sum_axis0; exact Hj|].
  rewrite !nth_sum_axis0 by exact Hj. rewrite (map_lift2 w n c j Hw Hj), nsum_Some, Z.
  unfold nsq, nmul, nsqrt, ndiv, fdiv. destruct (nsum _); [|reflexivity]. now rewrite Req_bool_true by ring.
Qed.

Lemma ring_snd : forall f s w j, (j < c)%nat ->
  exists sr, snd (polar2radial_num c (nkeep n c cov f) ar pa (Some (keep n c cov s)) (use_weights n c cov w)) = Some sr /\ length sr = c /\
  covered_error n (fun i => cov i j) (fun i => weight_at w i j) (fun i => s i j) (area j / pa) (nth j sr None).
Proof.
  intros f s w j Hj. rewrite (p2r_num_snd n c) by (auto; apply ntab_shape). set (g := tab2 n c (fun i j => val (ncell (nkeep n c cov f) i j))).
  assert (Sg : shape2 g n c) by apply tab2_shape. assert (Sa : shape2 ar n c) by (rewrite Har; apply tab2_shape).
  assert (Pa : forall a, In a (column ar j) -> 0 < a).
  { intros a. rewrite Har, column_tab2 by auto. unfold tab. rewrite in_map_iff. intros (i & <- & _). now apply Hpos. }
  pose proof (Hpos j Hj) as Aj.
  assert (V : forall t : nat -> R, Rsum (map2 (fun a y => pa / a * y ^ 2) (column ar j) (tab n (fun i => if cov i j then t i else 0)))
            = covered_sum n (fun i => cov i j) (fun i => t i ^ 2 / (area j / pa))).
  { intros t. rewrite Har, column_tab2 by auto. rewrite tab_map2, Rsum_tab. apply sum_ext. intros i Hi. destruct (cov i j); [field; lra|ring]. }
  assert (Main : forall u, shape2 u n c -> column u j = tab n (fun i => if cov i j then weight_at w i j else 0) ->
     exists sr, snd (polar2radial c g ar pa (Some (keep n c cov s)) (Some u)) = Some sr /\ length sr = c /\
     covered_error n (fun i => cov i j) (fun i => weight_at w i j) (fun i => s i j) (area j / pa) (nth j sr None)).
  { intros u Su Eu. assert (ES : Rsum (column u j) = covered_sum n (fun i => cov i j) (fun i => weight_at w i j)) by (rewrite Eu; apply Rsum_tab).
    destruct (Req_EM_T (Rsum (column u j)) 0) as [Z|Z].
    - destruct (sigma_zero g (keep n c cov s) u j Hj Su Z) as (sr & E1 & E2 & E3). exists sr. split; [auto|]. split; [auto|].
      split; [auto|]. intros N. exfalso. apply N. now rewrite <- ES.
    - destruct (p2r_sigma_weighted n c g ar pa (keep n c cov s) u j) as (sr & E1 & E2 & E3); auto; [apply tab2_shape|lra|].
      exists sr. split; [auto|]. split; [auto|]. split; [intros Z'; exfalso; apply Z; now rewrite ES|]. intros _. rewrite E3, ES.
      assert (EM : map2 Rmult (column u j) (column (keep n c cov s) j) = tab n (fun i => if cov i j then weight_at w i j * s i j else 0)).
      { rewrite Eu. unfold keep. rewrite column_tab2 by auto. rewrite tab_map2. apply tab_ext. intros i Hi. destruct (cov i j); ring. }
      rewrite EM, (V (fun i => weight_at w i j * s i j)). reflexivity. }
  unfold use_weights. destruct w as [w|]; [|destruct (np_all (cov_mask n c cov)) eqn:EA].
  - apply Main; [apply tab2_shape|]. unfold keep. now rewrite column_tab2.
  - assert (A := mask_all n c cov EA). destruct (p2r_sigma_plain n c g Sg ar pa (keep n c cov s) j) as (sr & E1 & E2 & E3); auto; [apply tab2_shape|lra|].
    exists sr. split; [auto|]. split; [auto|]. assert (E0 : covered_sum n (fun i => cov i j) (fun i => weight_at None i j) = INR n).
    { unfold covered_sum. rewrite (sum_ext n _ (fun _ => 1)) by (intros; now rewrite A). apply sum_one. }
    unfold covered_error. rewrite E0. pose proof (INR_pos n Hn). split; [lra|]. intros _. rewrite E3, Rabs_pos_eq by lra.
    unfold keep. rewrite column_tab2 by auto. rewrite (V (fun i => s i j)). do 3 f_equal. unfold covered_sum. apply sum_ext. intros i Hi. cbn [weight_at]. destruct (cov i j); [field; lra|reflexivity].
  - apply Main; [apply tab2_shape|]. unfold cov_mask. now rewrite column_tab2.
Qed.
End Errors.

(** ** The call *)
Section Call.
Variables (n c : nat) (cov : nat -> nat -> bool) (B : box_grid) (P : mc_polar) (ar : list (list R)) (pa : R).
Hypothesis Hn : (1 <= n)%nat.
Hypothesis Hc : (1 <= c)%nat.
Hypothesis HP : shape2 (mc_p2d P) n c.

Lemma call_eq : forall W f sigma w, nshape f n c ->
  (forall s, sigma = Some s -> shape2 s n c) -> (forall w', w = Some w' -> shape2 w' n c) ->
  mc_polar2radial B P W (Cache (Some ar) (Some pa) (Some (cov_mask n c cov))) f sigma w =
  Ok (polar2radial_num c (nkeep n c cov (ncell f)) ar pa (option_map (fun s => keep n c cov (cell s)) sigma) (use_weights n c cov w),
      Cache (Some ar) (Some pa) (Some (cov_mask n c cov)), option_map (fun w => keep n c cov (cell w)) w).
Proof.
  intros W f sigma w Hf Hs Hw. unfold mc_polar2radial. cbn [area2d pixarea mask_in_bound bind].
  rewrite (same_shape_num_ok f _ n c) by auto. cbn [py_assert bind]. destruct (shape_heads _ _ _ HP Hn) as [_ ->]. cbv zeta.
  assert (G : forall s, same_shape (keep n c cov s) (mc_p2d P) = true) by (intros; apply (same_shape_ok _ _ n c); auto; apply tab2_shape).
  unfold use_weights. destruct (np_all (cov_mask n c cov)) eqn:EA; cbn [negb].
  - pose proof (mask_all n c cov EA) as A. rewrite <- (nkeep_all n c cov f) by auto.
    assert (ES : option_map (fun s => keep n c cov (cell s)) sigma = sigma).
    { destruct sigma as [s|]; [|reflexivity]. cbn [option_map]. f_equal. symmetry. apply keep_all; auto. }
    assert (EW : option_map (fun s => keep n c cov (cell s)) w = w).
    { destruct w as [s|]; [|reflexivity]. cbn [option_map]. f_equal. symmetry. apply keep_all; auto. }
    rewrite ES, EW. assert (EU : match w with Some w0 => Some (keep n c cov (cell w0)) | None => None end = w) by (destruct w; auto). rewrite EU.
    destruct sigma as [s|]; [|reflexivity]. rewrite (same_shape_ok s _ n c) by auto. reflexivity.
  - rewrite (zero_nkeep n c cov f) by auto.
    assert (ES : option_map (zero_where (cov_mask n c cov)) sigma = option_map (fun s => keep n c cov (cell s)) sigma).
    { destruct sigma as [s|]; [|reflexivity]. cbn [option_map]. f_equal. apply zero_keep; auto. }
    rewrite ES. destruct w as [w|]; cbn [option_map]; [rewrite (mult_keep n c cov w) by auto|];
      (destruct sigma as [s|]; cbn [option_map]; [rewrite G|]; reflexivity).
Qed.
End Call.

(** Cached attributes replace the computations. *)
Lemma call_fresh : forall B P W f sigma w ar pa m,
  get_polar_area2d (mc_redges P) (mc_pedges P) = Ok ar -> get_pixarea (xedges B) (yedges B) = Ok pa -> mc_mask B P W = Ok m ->
  mc_polar2radial B P W no_cache f sigma w = mc_polar2radial B P W (Cache (Some ar) (Some pa) (Some m)) f sigma w.
Proof.
  intros B P W f sigma w ar pa m E1 E2 E3. unfold mc_polar2radial. cbn [area2d pixarea mask_in_bound no_cache]. rewrite E1, E2. cbn [bind].
  destruct (same_shape_num f (mc_p2d P)); [|reflexivity]. cbn [py_assert]. rewrite E3. reflexivity.
Qed.

(** ** The polar grid *)
Lemma made_more : forall P nr np, made P nr np ->
  shape2 (mc_p2d P) np nr /\ (2 <= np)%nat /\ (1 <= nr)%nat /\
  (forall j, (j < nr)%nat -> 0 <= nth j (mc_redges P) 0 < nth (j + 1) (mc_redges P) 0) /\
  nth 0 (mc_pedges P) 0 < nth 1 (mc_pedges P) 0.
Proof.
  intros P nr np [(rmin & rmax & pmin & pmax & c & s & H)|(rmin & rmax & pmin & pmax & c & s & z & H)].
  - apply setup_lin_inv in H. destruct H as (nr' & np' & c0 & c1 & E1 & E2 & _ & Hr & Hp & _ & Nr & Np & ->). apply Nat2Z.inj in E1, E2. subst nr' np'.
    cbn [lin_polar mc_p2d mc_redges mc_pedges]. pose proof (INR_pos nr ltac:(lia)) as Pr. pose proof (INR_pos np ltac:(lia)) as Pp.
    assert (0 < (rmax - rmin) / INR nr) by (apply Rdiv_lt_0_compat; lra). assert (0 < (pmax - pmin) / INR np) by (apply Rdiv_lt_0_compat; lra).
    split; [apply tab2_shape|]. split; [auto|]. split; [lia|]. split.
    + intros j Hj. rewrite !tab_nth by lia. replace (j + 1)%nat with (S j) by lia. rewrite S_INR. pose proof (pos_INR j). nra.
    + rewrite !tab_nth by lia. cbn [INR]. lra.
  - apply setup_log_inv in H. destruct H as (nr' & np' & c0 & c1 & E1 & E2 & _ & Hr & Hp & _ & Nr & Np & ->). apply Nat2Z.inj in E1, E2. subst nr' np'.
    cbn [log_polar mc_p2d mc_redges mc_pedges]. pose proof (INR_pos np ltac:(lia)) as Pp. assert (0 < (pmax - pmin) / INR np) by (apply Rdiv_lt_0_compat; lra).
    split; [apply tab2_shape|]. split; [auto|]. split; [lia|]. split.
    + intros j Hj. now apply log_edges_incr.
    + rewrite !tab_nth by lia. cbn [INR]. lra.
Qed.

(** Area of the cells of ring [j], area of a pixel. *)
Definition ring_area (P : mc_polar) (j : nat) : R :=
  sector_area (nth j (mc_redges P) 0) (nth (j + 1) (mc_redges P) 0) (nth 1 (mc_pedges P) 0 - nth 0 (mc_pedges P) 0).

Lemma made_area : forall P nr np, made P nr np ->
  get_polar_area2d (mc_redges P) (mc_pedges P) = Ok (tab2 np nr (fun _ j => ring_area P j)) /\ forall j, (j < nr)%nat -> 0 < ring_area P j.
Proof.
  intros P nr np HP. destruct (made_more _ _ _ HP) as (_ & Np & Nr & Hr & Hp). destruct (made_good _ _ _ HP) as [(_ & _ & _ & L1 & L2 & _) _]. split.
  - destruct (area2d_spec (mc_redges P) (mc_pedges P)) as (a & E & Sa & Ca); [lia|]. rewrite L1, L2 in Sa, Ca. cbn [Nat.sub] in Sa. rewrite !Nat.sub_0_r in Sa.
    rewrite E. f_equal. rewrite (tab2_of_shape a np nr Sa). apply tab2_ext. intros i j Hi Hj. rewrite Ca by lia. unfold ring_area, sector_area.
    replace (j + 1)%nat with (S j) by lia. field.
  - intros j Hj. specialize (Hr j Hj). unfold ring_area, sector_area.
    set (a := nth j (mc_redges P) 0) in *. set (b := nth (j + 1) (mc_redges P) 0) in *. set (d := nth 1 (mc_pedges P) 0 - nth 0 (mc_pedges P) 0).
    assert (0 < d) by (unfold d; lra). assert (0 < b ^ 2 - a ^ 2) by nra. assert (0 < (b ^ 2 - a ^ 2) * d) by nra. lra.
Qed.

Lemma box_area : forall V, get_pixarea (xedges (the_box V)) (yedges (the_box V)) = Err IndexError \/ (1 <= pnx V)%nat /\ (1 <= pny V)%nat /\
  get_pixarea (xedges (the_box V)) (yedges (the_box V)) = Ok (phx V * phy V).
Proof.
  intros V. unfold get_pixarea. cbn [the_box xedges yedges].
  destruct (Nat.eq_dec (pnx V) 0) as [Zx|Zx]; [left; rewrite Zx; reflexivity|].
  rewrite !(py_get_ok _ (tab (S (pnx V)) _) _ 0) by (rewrite tab_length; lia). cbn [bind].
  destruct (Nat.eq_dec (pny V) 0) as [Zy|Zy]; [left; rewrite Zy; reflexivity|right].
  rewrite !(py_get_ok _ (tab (S (pny V)) _) _ 0) by (rewrite tab_length; lia). cbn [bind].
  split; [lia|]. split; [lia|]. change (Z.to_nat 1) with 1%nat. change (Z.to_nat 0) with 0%nat. rewrite !tab_nth by lia. cbn [INR]. f_equal. ring.
Qed.
