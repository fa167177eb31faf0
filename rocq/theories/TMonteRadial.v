(** * Property theorems: radial profiles from the Monte-Carlo remapping *)

From Coq Require Import Reals ZArith List Bool Lia Lra Psatz.
From Flocq Require Import Core.Raux.
From Verif Require Import Base BaseP SpecGrid SpecRemap SpecDense SpecMonte SpecMonteRadial MGrids MRandoms MDense MMonte MMonteRadial
  PPolarCoords PRemap2 PRadial PDense PMonte PMonteRadial TMonte.
Import ListNotations.
Open Scope R_scope.

(** The object of a user after [setup_box], a polar set-up that returned [P] and
    [get_weights]. *)
Definition user_object (xmin xmax : R) (nx : nat) (ymin ymax : R) (ny : nat) (P : mc_polar) (mc : Z)
    (draws : nat -> nat -> list R * list R) : res (box_grid * obj) :=
  B <- setup_box xmin xmax (Z.of_nat nx) ymin ymax (Z.of_nat ny) ;;
  W <- get_weights B P draws mc ;;
  Ok (B, W).

(** Whether remapping succeeds does not depend on the map or its weights. *)
Lemma runs_any : forall xmin xmax nx ymin ymax ny P nr np mc draws f w out f',
  proper_call xmin xmax nx ymin ymax ny P nr np mc draws ->
  shape2 f ny nx -> (forall w', w = Some w' -> shape2 w' ny nx) -> shape2 f' ny nx ->
  user_remap xmin xmax nx ymin ymax ny P mc draws f w = Ok out ->
  exists out', user_remap xmin xmax nx ymin ymax ny P mc draws f' None = Ok out'.
Proof.
  intros xmin xmax nx ymin ymax ny P nr np mc draws f w out f' HC Hf Hw Hf' E. destruct (call_facts _ _ _ _ _ _ _ _ _ _ _ HC) as (EB & HV & HP & Hu).
  destruct HC as (_ & _ & Nx & Ny & _ & Hmc & _). unfold user_remap in *. rewrite EB in E |- *. cbn [bind] in E |- *.
  set (V := pixel_grid xmin xmax nx ymin ymax ny) in *.
  set (hit := fun i j => hits_of V (drawn_points (sectors_of P) draws i j)).
  assert (Hh : sampled_pixels V P nr np draws hit) by (intros i j _ _; now apply hits_of_ok). set (c := cnt V hit).
  assert (W0 : forall w' : list (list R), None = Some w' -> shape2 w' ny nx) by discriminate.
  assert (G : (forall i, (i < np)%nat -> exists j, (j < nr)%nat /\ c i j <> c i 0%nat) \/ exists i, (i < np)%nat /\ forall j, (j < nr)%nat -> c i j = c i 0%nat).
  { clear -c. induction np as [|n IH]; [left; intros; lia|]. destruct IH as [IH|(i & Hi & H)]; [|right; exists i; split; [lia|auto]].
    assert (D : (exists j, (j < nr)%nat /\ c n j <> c n 0%nat) \/ forall j, (j < nr)%nat -> c n j = c n 0%nat).
    { clear. induction nr as [|m IH]; [right; intros; lia|]. destruct IH as [(j & Hj & H)|IH]; [left; exists j; split; [lia|auto]|].
      destruct (Nat.eq_dec (c n m) (c n 0%nat)); [right|left; exists m; split; auto]. intros j Hj. destruct (Nat.eq_dec j m) as [->|]; auto. apply IH. lia. }
    destruct D as [D|D]; [left|right; exists n; split; auto]. intros i Hi. destruct (Nat.eq_dec i n) as [->|]; auto. apply IH. lia. }
  destruct G as [G|(i0 & Hi0 & Hrow)].
  - rewrite (weights_ragged V P nr np mc draws hit HV Nx Ny HP Hmc Hu Hh G). cbn [bind].
    rewrite (remap_arrays V P nr np mc draws hit Nx Ny HP Hmc Hh f' None Hf' W0). eexists. reflexivity.
  - assert (U : (forall i j, (i < np)%nat -> (j < nr)%nat -> c i j = c i0 0%nat) \/ exists i j, (i < np)%nat /\ (j < nr)%nat /\ c i j <> c i0 0%nat).
    { generalize (c i0 0%nat) as k. clear -c. intros k. induction np as [|n IH]; [left; intros; lia|]. destruct IH as [IH|(i & j & Hi & Hj & H)]; [|right; exists i, j; repeat split; auto; lia].
      assert (D : (exists j, (j < nr)%nat /\ c n j <> k) \/ forall j, (j < nr)%nat -> c n j = k).
      { clear. induction nr as [|m IH]; [right; intros; lia|]. destruct IH as [(j & Hj & H)|IH]; [left; exists j; split; [lia|auto]|].
        destruct (Nat.eq_dec (c n m) k); [right|left; exists m; split; auto]. intros j Hj. destruct (Nat.eq_dec j m) as [->|]; auto. apply IH. lia. }
      destruct D as [(j & Hj & D)|D]; [right; exists n, j; auto|left]. intros i j Hi Hj. destruct (Nat.eq_dec i n) as [->|]; auto. apply IH; auto. lia. }
    destruct U as [U|(i1 & j1 & Hi1 & Hj1 & Hd)].
    + assert (N0 : (0 < np)%nat /\ (0 < nr)%nat) by (destruct HP as (? & ? & _); lia).
      assert (U' : forall i j, (i < np)%nat -> (j < nr)%nat -> cnt V hit i j = cnt V hit 0 0).
      { intros. transitivity (c i0 0%nat); [|symmetry]; apply U; tauto. }
      rewrite (weights_uniform V P nr np mc draws hit HV Nx Ny HP Hmc Hu Hh U') in E |- *. cbn [bind] in E |- *.
      destruct (Nat.eq_dec (cnt V hit 0 0) 0) as [Z|Z].
      * destruct (remap_numbers_zero V P nr np mc draws hit Nx Ny HP Hmc Hh f' None Hf' W0 (cnt V hit 0 0)) as [E0 E1]; [intros; rewrite U'; auto|].
        rewrite E0. eexists. reflexivity.
      * rewrite (remap_numbers_pos V P nr np mc draws hit Nx Ny HP Hmc Hh f w Hf Hw) in E by lia. discriminate.
    + rewrite (weights_mixed V P nr np mc draws hit HV Nx Ny HP Hmc Hu Hh i0 i1 j1 Hi0 Hrow Hi1 Hj1 Hd) in E. discriminate.
Qed.

Lemma ones_shape : forall (n m : nat) (k : R), shape2 (repeat (repeat k m) n) n m.
Proof. intros. rewrite <- tab2_const. apply tab2_shape. Qed.

(** The mask of an object, and everything else [polar2radial] needs. *)
Lemma object_facts : forall xmin xmax nx ymin ymax ny P nr np mc draws hit,
  proper_call xmin xmax nx ymin ymax ny P nr np mc draws ->
  sampled_pixels (pixel_grid xmin xmax nx ymin ymax ny) P nr np draws hit ->
  (exists m, user_mask xmin xmax nx ymin ymax ny P mc draws = Ok m) ->
  exists B W, user_object xmin xmax nx ymin ymax ny P mc draws = Ok (B, W) /\
    mc_mask B P (Some W) = Ok (cov_mask np nr (fun i j => has_hit (hit i j))) /\
    get_polar_area2d (mc_redges P) (mc_pedges P) = Ok (tab2 np nr (fun _ j => ring_area P j)) /\
    get_pixarea (xedges B) (yedges B) = Ok ((xmax - xmin) / INR nx * ((ymax - ymin) / INR ny)).
Proof.
  intros xmin xmax nx ymin ymax ny P nr np mc draws hit HC Hh [m E]. destruct (call_facts _ _ _ _ _ _ _ _ _ _ _ HC) as (EB & HV & HP & Hu).
  assert (HC' := HC). destruct HC' as (_ & _ & Nx & Ny & HM & _). set (V := pixel_grid xmin xmax nx ymin ymax ny) in *.
  unfold user_mask, user_object in *. rewrite EB in E |- *. cbn [bind] in E |- *. destruct (get_weights (the_box V) P draws mc) as [W|e] eqn:EW; [|discriminate].
  cbn [bind] in E |- *. exists (the_box V), W. split; [reflexivity|]. split; [|split].
  - unfold mc_mask in E |- *. assert (O : map (map (fun _ : R => 1)) (x2d (the_box V)) = repeat (repeat 1 nx) ny).
    { cbn [the_box x2d]. rewrite tab2_map. apply tab2_const. }
    rewrite O in E |- *. destruct (mc_remap (the_box V) P (Some W) (repeat (repeat 1 nx) ny) None) as [out|e] eqn:ER; [|discriminate]. cbn [bind] in E |- *. f_equal.
    assert (EU : user_remap xmin xmax nx ymin ymax ny P mc draws (repeat (repeat 1 nx) ny) None = Ok out).
    { unfold user_remap. rewrite EB. cbn [bind]. rewrite EW. cbn [bind]. exact ER. }
    destruct (C63_value _ _ _ _ _ _ _ _ _ _ _ _ None hit out HC (ones_shape ny nx 1) ltac:(discriminate) Hh EU) as [L H].
    assert (S : nshape out np nr) by (split; [auto|intros i Hi; now apply H]).
    rewrite (ntab_of_shape out np nr S). rewrite tab2_map. apply tab2_ext. intros i j Hi Hj. unfold ncell. destruct (H i Hi) as [_ H']. rewrite H' by auto.
    cbn [mean_of]. unfold plain_mean, has_hit. specialize (Hh i j Hi Hj). destruct (hit i j) as [|q h] eqn:EH; [reflexivity|].
    assert (A : forall q', In q' (q :: h) -> value (repeat (repeat 1 nx) ny) q' = 1).
    { intros q' Hq. destruct (hits_in_grid V _ _ q' Hh Hq). unfold value. rewrite <- tab2_const, tab2_cell; auto. }
    rewrite (map_ext_in _ (fun _ => 1) _ A). rewrite <- (map_map (fun _ => tt) (fun _ => 1)).
    assert (RS : forall l : list (nat * nat), Rsum (map (fun _ => 1) (map (fun _ => tt) l)) = INR (length l)).
    { induction l as [|a l IH]; [reflexivity|]. cbn [map]. unfold Rsum in *. cbn [fold_right]. rewrite IH. cbn [length]. rewrite S_INR. ring. }
    rewrite RS. field. apply not_0_INR. discriminate.
  - apply (proj1 (made_area P nr np HM)).
  - destruct (box_area V) as [EE|(_ & _ & ->)]; [|reflexivity]. exfalso. revert EE. unfold get_pixarea. cbn [the_box xedges yedges V pixel_grid pnx pny].
    rewrite !(py_get_ok _ (tab (S nx) _) _ 0) by (rewrite tab_length; lia). rewrite !(py_get_ok _ (tab (S ny) _) _ 0) by (rewrite tab_length; lia). discriminate.
Qed.

(** ** C70 *)

(** The profile of any polar map: in every ring the mean over the cells with a
    sample in the box, its error, and the caller's weight array afterwards. *)
Theorem C70_profile : forall xmin xmax nx ymin ymax ny P nr np mc draws hit f sigma w,
  proper_call xmin xmax nx ymin ymax ny P nr np mc draws ->
  sampled_pixels (pixel_grid xmin xmax nx ymin ymax ny) P nr np draws hit ->
  (exists m, user_mask xmin xmax nx ymin ymax ny P mc draws = Ok m) ->
  nshape f np nr -> (forall s, sigma = Some s -> shape2 s np nr) -> (forall u, w = Some u -> shape2 u np nr) ->
  exists B W r sr s w', user_object xmin xmax nx ymin ymax ny P mc draws = Ok (B, W) /\
  mc_polar2radial B P (Some W) no_cache f sigma w = Ok ((r, sr), s, w') /\ length r = nr /\
  (forall j, (j < nr)%nat ->
     covered_mean np (fun i => has_hit (hit i j)) (fun i => weight_at w i j) (fun i => ncell f i j) (nth j r None)) /\
  (sigma = None -> sr = None) /\
  (forall sg, sigma = Some sg -> exists e, sr = Some e /\ length e = nr /\ forall j, (j < nr)%nat ->
     covered_error np (fun i => has_hit (hit i j)) (fun i => weight_at w i j) (fun i => cell sg i j)
       (sector_area (nth j (mc_redges P) 0) (nth (j + 1) (mc_redges P) 0) (nth 1 (mc_pedges P) 0 - nth 0 (mc_pedges P) 0) /
        ((xmax - xmin) / INR nx * ((ymax - ymin) / INR ny))) (nth j e None)) /\
  (w = None -> w' = None) /\
  (forall u, w = Some u -> exists u', w' = Some u' /\ shape2 u' np nr /\ forall i j, (i < np)%nat -> (j < nr)%nat ->
     cell u' i j = if has_hit (hit i j) then cell u i j else 0).
Proof.
  intros xmin xmax nx ymin ymax ny P nr np mc draws hit f sigma w HC Hh HMk Hf Hs Hw.
  destruct (object_facts _ _ _ _ _ _ _ _ _ _ _ _ HC Hh HMk) as (B & W & EO & EM & EA & EP).
  destruct HC as (X & Y & Nx & Ny & HM & _). destruct (made_more _ _ _ HM) as (SP & Np & Nr & _). destruct (made_area _ _ _ HM) as [_ PA].
  set (cov := fun i j => has_hit (hit i j)) in *. set (pa := (xmax - xmin) / INR nx * ((ymax - ymin) / INR ny)) in *.
  assert (Hpa : 0 < pa). { apply Rmult_lt_0_compat; apply Rdiv_lt_0_compat; try lra; now apply INR_pos. }
  pose proof (call_eq np nr cov B P (tab2 np nr (fun _ j => ring_area P j)) pa ltac:(lia) SP (Some W) f sigma w Hf Hs Hw) as EC.
  rewrite <- (call_fresh B P (Some W) f sigma w _ _ _ EA EP EM) in EC.
  set (ar := tab2 np nr (fun _ j => ring_area P j)) in *. set (sg' := option_map (fun s => keep np nr cov (cell s)) sigma) in *.
  destruct (polar2radial_num nr (nkeep np nr cov (ncell f)) ar pa sg' (use_weights np nr cov w)) as [r sr] eqn:ER.
  exists B, W, r, sr. do 2 eexists. split; [exact EO|]. split; [exact EC|].
  assert (Er : r = fst (polar2radial_num nr (nkeep np nr cov (ncell f)) ar pa sg' (use_weights np nr cov w))) by now rewrite ER.
  assert (Es : sr = snd (polar2radial_num nr (nkeep np nr cov (ncell f)) ar pa sg' (use_weights np nr cov w))) by now rewrite ER.
  split; [rewrite Er; apply (p2r_num_length np nr); lia|]. split; [|split; [|split; [|split]]].
  - intros j Hj. rewrite Er. apply (ring_fst np nr cov); auto; lia.
  - intros ->. rewrite Es, (p2r_num_snd np nr) by (try lia; apply ntab_shape). cbn [sg' option_map]. unfold MGrids.polar2radial. destruct (use_weights np nr cov w); reflexivity.
  - intros sg ->. cbn [sg' option_map] in Es.
    assert (E : exists e, sr = Some e). { rewrite Es, (p2r_num_snd np nr) by (try lia; apply ntab_shape). unfold MGrids.polar2radial. destruct (use_weights np nr cov w); eexists; reflexivity. }
    destruct E as [e Ee]. exists e. split; [auto|].
    assert (Q : forall j, (j < nr)%nat -> length e = nr /\ covered_error np (fun i => cov i j) (fun i => weight_at w i j) (fun i => cell sg i j) (ring_area P j / pa) (nth j e None)).
    { intros j Hj. destruct (ring_snd np nr cov ar (ring_area P) pa ltac:(lia) eq_refl PA Hpa (ncell f) (cell sg) w j Hj) as (e' & E1 & E2 & E3).
      rewrite <- Es in E1. rewrite Ee in E1. injection E1 as <-. auto. }
    split; [apply (Q 0%nat); lia|]. intros j Hj. now apply Q.
  - intros ->. reflexivity.
  - intros u ->. exists (keep np nr cov (cell u)). split; [reflexivity|]. split; [apply tab2_shape|]. intros i j Hi Hj. unfold keep. now rewrite tab2_cell.
Qed.
Print Assumptions C70_profile.

(** Later calls: the stored mask and areas are used whatever box, polar grid
    and weights the object has by then, and the weight array changed by the
    first call gives the same result again. *)
Theorem C70_later_calls : forall xmin xmax nx ymin ymax ny P nr np mc draws f0 sigma0 w0,
  proper_call xmin xmax nx ymin ymax ny P nr np mc draws ->
  (exists m, user_mask xmin xmax nx ymin ymax ny P mc draws = Ok m) ->
  nshape f0 np nr -> (forall s, sigma0 = Some s -> shape2 s np nr) -> (forall u, w0 = Some u -> shape2 u np nr) ->
  exists B W out s w', user_object xmin xmax nx ymin ymax ny P mc draws = Ok (B, W) /\
  mc_polar2radial B P (Some W) no_cache f0 sigma0 w0 = Ok (out, s, w') /\
  mc_polar2radial B P (Some W) s f0 sigma0 w' = Ok (out, s, w') /\
  forall B' P' W' f sigma w, made P' nr np ->
    nshape f np nr -> (forall s, sigma = Some s -> shape2 s np nr) -> (forall u, w = Some u -> shape2 u np nr) ->
    mc_polar2radial B' P' W' s f sigma w = mc_polar2radial B P (Some W) no_cache f sigma w.
Proof.
  intros xmin xmax nx ymin ymax ny P nr np mc draws f0 sigma0 w0 HC HMk Hf Hs Hw.
  destruct (call_facts _ _ _ _ _ _ _ _ _ _ _ HC) as (_ & HV & _ & _). assert (HC' := HC). destruct HC' as (_ & _ & Nx & Ny & _).
  set (V := pixel_grid xmin xmax nx ymin ymax ny) in *. set (hit := fun i j => hits_of V (drawn_points (sectors_of P) draws i j)).
  assert (Hh : sampled_pixels V P nr np draws hit) by (intros i j _ _; now apply hits_of_ok).
  destruct (object_facts _ _ _ _ _ _ _ _ _ _ _ _ HC Hh HMk) as (B & W & EO & EM & EA & EP).
  destruct HC as (_ & _ & _ & _ & HM & _). destruct (made_more _ _ _ HM) as (SP & Np & Nr & _).
  set (cov := fun i j => has_hit (hit i j)) in *. assert (N1 : (1 <= np)%nat) by lia.
  exists B, W. do 3 eexists. split; [exact EO|]. split; [rewrite (call_fresh B P (Some W) f0 sigma0 w0 _ _ _ EA EP EM); apply (call_eq np nr cov); auto|]. split.
  - assert (SW : forall u, option_map (fun w => keep np nr cov (cell w)) w0 = Some u -> shape2 u np nr).
    { intros u Eu. destruct w0; cbn [option_map] in Eu; [injection Eu as <-; apply tab2_shape|discriminate]. }
    rewrite (call_eq np nr cov) by auto.
    assert (K : forall u, shape2 u np nr -> keep np nr cov (cell (keep np nr cov (cell u))) = keep np nr cov (cell u)).
    { intros u Su. apply tab2_ext. intros i j Hi Hj. destruct (cov i j) eqn:E; [|reflexivity]. unfold keep. rewrite tab2_cell by auto. now rewrite E. }
    destruct w0 as [u|]; [|reflexivity]. cbn [option_map use_weights]. now rewrite (K u (Hw u eq_refl)).
  - intros B' P' W' f sigma w HM' Hf' Hs' Hw'. destruct (made_more _ _ _ HM') as (SP' & _).
    rewrite (call_fresh B P (Some W) f sigma w _ _ _ EA EP EM). rewrite !(call_eq np nr cov) by auto. reflexivity.
Qed.
Print Assumptions C70_later_calls.

(** ** From the box map to the profile *)

Lemma finite_sums : forall (cov : nat -> bool) (v : nat -> num) l, (forall i, In i l -> (cov i = true <-> v i <> None)) ->
  Rsum (map (fun i => if cov i then 1 else 0) l) = INR (length (finite_values (map v l))) /\
  Rsum (map (fun i => if cov i then 1 * val (v i) else 0) l) = Rsum (finite_values (map v l)).
Proof.
  intros cov v l. induction l as [|i l IH]; intros H; [split; reflexivity|].
  destruct IH as [I1 I2]; [intros; apply H; now right|]. specialize (H i (or_introl eq_refl)). unfold Rsum, finite_values in *. cbn [map fold_right flat_map].
  rewrite I1, I2. destruct (v i) as [x|] eqn:E.
  - rewrite (proj2 H) by discriminate. rewrite app_length. cbn [length app fold_right val]. rewrite plus_INR. split; cbn [INR]; ring.
  - replace (cov i) with false by (symmetry; destruct (cov i); [exfalso; now apply (proj1 H)|reflexivity]). cbn [app]. split; ring.
Qed.

Lemma covered_finite : forall n (cov : nat -> bool) (v : nat -> num) r, (forall i, (i < n)%nat -> (cov i = true <-> v i <> None)) ->
  covered_mean n cov (fun _ => 1) v r -> r = finite_average (map v (seq 0 n)).
Proof.
  intros n cov v r H [_ HR]. destruct (finite_sums cov v (seq 0 n)) as [S1 S2]; [intros i Hi; apply in_seq in Hi; apply H; lia|].
  destruct (HR (fun i => val (v i))) as [R1 R2].
  { intros i Hi Hc. apply H in Hc; auto. destruct (v i); [reflexivity|now destruct Hc]. }
  unfold covered_sum, sum_upto in R1, R2. rewrite S1 in R1, R2. rewrite S2 in R2. unfold finite_average.
  destruct (finite_values (map v (seq 0 n))) as [|x l] eqn:EF; [now apply R1|]. apply R2. apply not_0_INR. discriminate.
Qed.

(** Remapping and then averaging: every ring holds the average of the cells
    that have a value. *)
Theorem C70_pipeline : forall xmin xmax nx ymin ymax ny P nr np mc draws F fp,
  proper_call xmin xmax nx ymin ymax ny P nr np mc draws -> shape2 F ny nx ->
  user_remap xmin xmax nx ymin ymax ny P mc draws F None = Ok fp ->
  exists B W r s, user_object xmin xmax nx ymin ymax ny P mc draws = Ok (B, W) /\
  mc_polar2radial B P (Some W) no_cache fp None None = Ok ((r, None), s, None) /\ length r = nr /\
  forall j, (j < nr)%nat -> nth j r None = finite_average (map (fun i => nth j (nth i fp []) None) (seq 0 np)).
Proof.
  intros xmin xmax nx ymin ymax ny P nr np mc draws F fp HC HF E.
  destruct (call_facts _ _ _ _ _ _ _ _ _ _ _ HC) as (EB & HV & _ & _). assert (HC' := HC). destruct HC' as (_ & _ & Nx & Ny & _).
  set (V := pixel_grid xmin xmax nx ymin ymax ny) in *. set (hit := fun i j => hits_of V (drawn_points (sectors_of P) draws i j)).
  assert (Hh : sampled_pixels V P nr np draws hit) by (intros i j _ _; now apply hits_of_ok).
  assert (HMk : exists m, user_mask xmin xmax nx ymin ymax ny P mc draws = Ok m).
  { destruct (runs_any _ _ _ _ _ _ _ _ _ _ _ F None fp (repeat (repeat 1 nx) ny) HC HF ltac:(discriminate) (ones_shape ny nx 1) E) as [out EU].
    unfold user_remap in EU. unfold user_mask. rewrite EB in EU |- *. cbn [bind] in EU |- *. destruct (get_weights _ _ _ _) as [W|e]; [|discriminate]. cbn [bind] in *.
    unfold mc_mask. assert (O : map (map (fun _ : R => 1)) (x2d (the_box V)) = repeat (repeat 1 nx) ny) by (cbn [the_box x2d]; rewrite tab2_map; apply tab2_const).
    rewrite O, EU. cbn [bind]. eexists. reflexivity. }
  destruct (C63_value _ _ _ _ _ _ _ _ _ _ _ F None hit fp HC HF ltac:(discriminate) Hh E) as [L H].
  assert (S : nshape fp np nr) by (split; [auto|intros i Hi; now apply H]).
  destruct (C70_profile _ _ _ _ _ _ _ _ _ _ _ hit fp None None HC Hh HMk S ltac:(discriminate) ltac:(discriminate))
    as (B & W & r & sr & s & w' & E1 & E2 & E3 & E4 & E5 & _ & E7 & _).
  rewrite E5, E7 in E2 by auto. exists B, W, r, s. split; [auto|]. split; [auto|]. split; [auto|]. intros j Hj.
  apply (covered_finite np (fun i => has_hit (hit i j))); [|exact (E4 j Hj)].
  intros i Hi. destruct (H i Hi) as [_ H']. rewrite H' by auto. cbn [mean_of]. unfold plain_mean, has_hit. destruct (hit i j); split; congruence.
Qed.
Print Assumptions C70_pipeline.

Lemma classic_list_ex : forall A (Q : A -> Prop) l, (exists x, In x l /\ Q x) \/ (forall x, In x l -> ~ Q x).
Proof.
  intros A Q l. induction l as [|a l IH]; [right; intros x []|]. destruct IH as [(x & Hx & H)|IH]; [left; exists x; split; [now right|auto]|].
  destruct (Classical_Prop.classic (Q a)) as [Ha|Ha]; [left; exists a; split; [now left|auto]|right; intros x [<-|Hx]; auto].
Qed.

(** The profile stays within the range of the map, and a ring has a value
    exactly if one of its samples is in the box. *)
Theorem C70_bounds : forall xmin xmax nx ymin ymax ny P nr np mc draws F fp lo hi,
  proper_call xmin xmax nx ymin ymax ny P nr np mc draws -> shape2 F ny nx ->
  (forall i j, (i < ny)%nat -> (j < nx)%nat -> lo <= cell F i j <= hi) ->
  user_remap xmin xmax nx ymin ymax ny P mc draws F None = Ok fp ->
  exists B W r s, user_object xmin xmax nx ymin ymax ny P mc draws = Ok (B, W) /\
  mc_polar2radial B P (Some W) no_cache fp None None = Ok ((r, None), s, None) /\
  forall j, (j < nr)%nat ->
    (forall v, nth j r None = Some v -> lo <= v <= hi) /\
    (nth j r None <> None <-> exists i p, (i < np)%nat /\ In p (drawn_points (sectors_of P) draws i j) /\
                              in_closed (pixel_grid xmin xmax nx ymin ymax ny) p).
Proof.
  intros xmin xmax nx ymin ymax ny P nr np mc draws F fp lo hi HC HF HB E.
  destruct (C70_pipeline _ _ _ _ _ _ _ _ _ _ _ F fp HC HF E) as (B & W & r & s & E1 & E2 & E3 & E4). exists B, W, r, s. split; [auto|]. split; [auto|].
  intros j Hj. rewrite (E4 j Hj). clear E4. set (v := fun i => nth j (nth i fp []) None).
  assert (BV : forall i x, (i < np)%nat -> v i = Some x -> lo <= x <= hi).
  { intros i x Hi Ex. exact (C63_bounds _ _ _ _ _ _ _ _ _ _ _ F None fp lo hi HC HF ltac:(discriminate) HB E i j x Hi Hj Ex). }
  assert (FV : forall x, In x (finite_values (map v (seq 0 np))) <-> exists i, (i < np)%nat /\ v i = Some x).
  { intros x. unfold finite_values. rewrite in_flat_map. split.
    - intros (y & Hy & Hx). apply in_map_iff in Hy. destruct Hy as (i & <- & Hi). apply in_seq in Hi. exists i. split; [lia|]. destruct (v i); [|destruct Hx]. destruct Hx as [->|[]]. reflexivity.
    - intros (i & Hi & Ei). exists (v i). split; [apply in_map, in_seq; lia|]. rewrite Ei. now left. }
  unfold finite_average. split.
  - intros x Ex. set (L := finite_values (map v (seq 0 np))) in *.
    assert (EL : x = Rsum L / INR (length L) /\ 0 < INR (length L)).
    { clearbody L. destruct L as [|y l]; [discriminate|]. split; [now injection Ex as <-|apply lt_0_INR; cbn; lia]. }
    destruct EL as [-> Pn]. assert (Wn : within lo hi L). { intros z Hz. apply FV in Hz. destruct Hz as (i & Hi & Ei). now apply (BV i). }
    apply Rsum_within in Wn. set (T := Rsum L) in *. set (N := INR (length L)) in *. assert (TN : T / N * N = T) by (field; lra).
    split; apply Rmult_le_reg_r with (1 := Pn); lra.
  - assert (NN : (match finite_values (map v (seq 0 np)) with [] => None | x => Some (Rsum x / INR (length x)) end <> None) <-> exists x, In x (finite_values (map v (seq 0 np)))).
    { destruct (finite_values (map v (seq 0 np))) as [|y l]; split.
      - intros Q. now destruct Q.
      - intros [x []].
      - intros _. exists y. now left.
      - discriminate. }
    rewrite NN. split.
    + intros [x Hx]. apply FV in Hx. destruct Hx as (i & Hi & Ei).
      destruct (classic_list_ex _ (fun p => in_closed (pixel_grid xmin xmax nx ymin ymax ny) p) (drawn_points (sectors_of P) draws i j)) as [(p & Hp & Hin)|N]; [exists i, p; auto|].
      exfalso. unfold v in Ei. apply (proj2 (C63_nan _ _ _ _ _ _ _ _ _ _ _ F fp i j HC HF E Hi Hj)) in N. congruence.
    + intros (i & p & Hi & Hp & Hin). destruct (v i) as [x|] eqn:Ei; [exists x; apply FV; now exists i|]. exfalso.
      exact (proj1 (C63_nan _ _ _ _ _ _ _ _ _ _ _ F fp i j HC HF E Hi Hj) Ei p Hp Hin).
Qed.
Print Assumptions C70_bounds.

Theorem C70_constant : forall xmin xmax nx ymin ymax ny P nr np mc draws k fp,
  proper_call xmin xmax nx ymin ymax ny P nr np mc draws ->
  user_remap xmin xmax nx ymin ymax ny P mc draws (repeat (repeat k nx) ny) None = Ok fp ->
  exists B W r s, user_object xmin xmax nx ymin ymax ny P mc draws = Ok (B, W) /\
  mc_polar2radial B P (Some W) no_cache fp None None = Ok ((r, None), s, None) /\
  forall i j p, (i < np)%nat -> (j < nr)%nat -> In p (drawn_points (sectors_of P) draws i j) ->
    in_closed (pixel_grid xmin xmax nx ymin ymax ny) p -> nth j r None = Some k.
Proof.
  intros xmin xmax nx ymin ymax ny P nr np mc draws k fp HC E.
  destruct (C70_bounds _ _ _ _ _ _ _ _ _ _ _ (repeat (repeat k nx) ny) fp k k HC (ones_shape ny nx k)) as (B & W & r & s & E1 & E2 & H); auto.
  { intros i j Hi Hj. rewrite <- tab2_const, tab2_cell by auto. lra. }
  exists B, W, r, s. split; [auto|]. split; [auto|]. intros i j p Hi Hj Hp Hin. destruct (H j Hj) as [H1 H2].
  destruct (nth j r None) as [v|]; [f_equal; specialize (H1 v eq_refl); lra|]. exfalso. apply (proj2 H2); [exists i, p; auto|reflexivity].
Qed.
Print Assumptions C70_constant.

(** A map of another shape is refused, whatever is stored. *)
Theorem C70_wrong_shape : forall xmin xmax nx ymin ymax ny P nr np W f sigma w n m, (1 <= nx)%nat -> (1 <= ny)%nat -> made P nr np ->
  (1 <= n)%nat -> nshape f n m -> (n <> np \/ m <> nr) ->
  mc_polar2radial (the_box (pixel_grid xmin xmax nx ymin ymax ny)) P W no_cache f sigma w = Err AssertionError.
Proof.
  intros xmin xmax nx ymin ymax ny P nr np W f sigma w n m Nx Ny HM Hn [L S] Hd. destruct (made_more _ _ _ HM) as (SP & Np & Nr & _). destruct (made_area _ _ _ HM) as [EA _].
  unfold mc_polar2radial. cbn [no_cache area2d pixarea mask_in_bound]. rewrite EA. cbn [bind].
  destruct (box_area (pixel_grid xmin xmax nx ymin ymax ny)) as [EE|(_ & _ & ->)].
  - exfalso. revert EE. unfold get_pixarea. cbn [the_box xedges yedges pixel_grid pnx pny].
    rewrite !(py_get_ok _ (tab (Datatypes.S nx) _) _ 0) by (rewrite tab_length; lia). rewrite !(py_get_ok _ (tab (Datatypes.S ny) _) _ 0) by (rewrite tab_length; lia). discriminate.
  - cbn [bind]. unfold same_shape_num. destruct (shape_heads _ _ _ SP ltac:(lia)) as [-> ->]. rewrite L, (S 0%nat) by lia.
    destruct Hd as [Hd|Hd]; [rewrite (proj2 (Nat.eqb_neq _ _) Hd); reflexivity|]. rewrite (proj2 (Nat.eqb_neq m nr) Hd), andb_false_r. reflexivity.
Qed.
Print Assumptions C70_wrong_shape.

(** ** Witness: new weights, old mask *)

(** The grid of [case_polar], all samples outside the box. *)
Definition out_draws (i j : nat) : list R * list R :=
  match j with O => ([/ 4; / 4], [/ 2; / 2]) | _ => ([0; 0], [/ 2; / 2]) end.

Lemma out_points : forall i j, (i < 2)%nat -> (j < 2)%nat ->
  drawn_points (sectors_of case_polar) out_draws i j =
  let s := match i with O => 1 | _ => -1 end in let r := match j with O => / 2 | _ => 1 end in [(0, s * r); (0, s * r)].
Proof.
  intros i j Hi Hj. pose proof (case_points i j Hi Hj) as H. cbv zeta in H |- *. unfold drawn_points in *.
  destruct i as [|[|i]]; [| |lia]; destruct j as [|[|j]]; try lia; cbn [case_draws out_draws fst snd combine map] in H |- *;
  apply (f_equal (fun l => nth 1 l (0, 0))) in H; cbn [nth] in H; now rewrite H.
Qed.

Definition all_one : list (list num) := [[Some 1; Some 1]; [Some 1; Some 1]].
Lemma all_one_shape : nshape all_one 2 2.
Proof. split; [reflexivity|]. intros [|[|i]] Hi; try lia; reflexivity. Qed.

Lemma out_call : proper_call (- (3 / 4)) (3 / 4) 1 (- / 4) (/ 4) 1 case_polar 2 2 2 out_draws /\
  sampled_pixels case_box case_polar 2 2 out_draws (fun _ _ => []) /\
  exists m, user_mask (- (3 / 4)) (3 / 4) 1 (- / 4) (/ 4) 1 case_polar 2 out_draws = Ok m.
Proof.
  destruct C63_case as (HC & _ & _ & _).
  assert (HC' : proper_call (- (3 / 4)) (3 / 4) 1 (- / 4) (/ 4) 1 case_polar 2 2 2 out_draws).
  { destruct HC as (A & B & C & D & E & F & _). do 6 (split; [assumption|]).
    intros i j. destruct j; cbn; repeat split; intros; repeat match goal with H : _ \/ _ |- _ => destruct H | H : False |- _ => destruct H end; subst; lra. }
  assert (HS : sampled_pixels case_box case_polar 2 2 out_draws (fun _ _ => [])).
  { intros i j Hi Hj. rewrite out_points by auto. destruct i as [|[|i]]; [| |lia]; destruct j as [|[|j]]; try lia; cbv zeta;
      (apply hits_out; [apply case_out; lra|]; apply hits_out; [apply case_out; lra|constructor]). }
  split; [exact HC'|]. split; [exact HS|].
  destruct (C63_empty _ _ _ _ _ _ _ _ _ _ _ (map (map (fun _ => 1)) (x2d (the_box case_box))) None (fun _ _ => []) HC') as [out E]; auto; try discriminate.
  { cbn [the_box x2d]. rewrite tab2_map. apply tab2_shape. }
  unfold user_remap in E. unfold user_mask. destruct (call_facts _ _ _ _ _ _ _ _ _ _ _ HC') as (EB & _). rewrite EB in E |- *. cbn [bind] in E |- *.
  destruct (get_weights _ _ _ _) as [W|e]; [|discriminate]. cbn [bind] in *. unfold mc_mask. fold case_box in E |- *. rewrite E. cbn [bind]. eexists. reflexivity.
Qed.

(** After [get_weights] is called again with samples that all miss the box, a
    fresh object has no profile, the used one still the old profile. *)
Theorem C70_refuted : exists B W W' out s r fresh s',
  user_object (- (3 / 4)) (3 / 4) 1 (- / 4) (/ 4) 1 case_polar 2 case_draws = Ok (B, W) /\
  mc_polar2radial B case_polar (Some W) no_cache all_one None None = Ok (out, s, None) /\
  get_weights B case_polar out_draws 2 = Ok W' /\
  mc_polar2radial B case_polar (Some W') s all_one None None = Ok ((r, None), s, None) /\
  mc_polar2radial B case_polar (Some W') no_cache all_one None None = Ok ((fresh, None), s', None) /\
  nth 0 r None = Some 1 /\ nth 0 fresh None = None.
Proof.
  destruct C63_case as (HC & HS & _ & HMk). destruct out_call as (HC' & HS' & HMk').
  destruct (C70_profile _ _ _ _ _ _ _ _ _ _ _ _ all_one None None HC HS HMk all_one_shape ltac:(discriminate) ltac:(discriminate))
    as (B & W & r & sr & s & w' & E1 & E2 & E3 & E4 & E5 & _ & E7 & _). rewrite E5, E7 in E2 by auto.
  destruct (C70_profile _ _ _ _ _ _ _ _ _ _ _ _ all_one None None HC' HS' HMk' all_one_shape ltac:(discriminate) ltac:(discriminate))
    as (B' & W' & r' & sr' & s' & w'' & F1 & F2 & F3 & F4 & F5 & _ & F7 & _). rewrite F5, F7 in F2 by auto.
  destruct (C70_later_calls _ _ _ _ _ _ _ _ _ _ _ all_one None None HC HMk all_one_shape ltac:(discriminate) ltac:(discriminate))
    as (B0 & W0 & out & s0 & w0 & G1 & G2 & _ & G4). rewrite E1 in G1. apply Ok_inj in G1. injection G1 as <- <-.
  rewrite E2 in G2. apply Ok_inj in G2. injection G2 as <- <- <-.
  assert (EB : B' = B /\ get_weights B case_polar out_draws 2 = Ok W').
  { revert E1 F1. unfold user_object. destruct (call_facts _ _ _ _ _ _ _ _ _ _ _ HC) as (EB & _). rewrite EB. cbn [bind].
    destruct (get_weights _ case_polar case_draws 2); [|discriminate]. cbn [bind]. intros Q. apply Ok_inj in Q. injection Q as <- <-.
    destruct (get_weights _ case_polar out_draws 2) eqn:EW; [|discriminate]. cbn [bind]. intros Q. apply Ok_inj in Q. injection Q as <- <-. auto. }
  destruct EB as [-> EW']. exists B, W, W', (r, None), s, r, r', s'.
  split; [auto|]. split; [auto|]. split; [auto|]. split.
  { rewrite (G4 B case_polar (Some W') all_one None None); try discriminate; [exact E2|apply HC|apply all_one_shape]. }
  split; [exact F2|]. split.
  - destruct (E4 0%nat ltac:(lia)) as [_ H]. destruct (H (fun _ => 1)) as [_ H2].
    { intros [|[|i]] Hi _; try lia; reflexivity. }
    rewrite H2; unfold covered_sum, sum_upto; cbn; [f_equal; field|lra].
  - destruct (F4 0%nat ltac:(lia)) as [_ H]. destruct (H (fun _ => 1)) as [H1 _].
    { intros i Hi Q. discriminate. }
    apply H1. unfold covered_sum, sum_upto. cbn. ring.
Qed.
Print Assumptions C70_refuted.

(** Non-vacuity: the worked case meets the hypotheses, with covered and
    uncovered rings. *)
Example C70_case : proper_call (- (3 / 4)) (3 / 4) 1 (- / 4) (/ 4) 1 case_polar 2 2 2 case_draws /\
  (exists m, user_mask (- (3 / 4)) (3 / 4) 1 (- / 4) (/ 4) 1 case_polar 2 case_draws = Ok m) /\ nshape all_one 2 2 /\
  has_hit (case_hit 0 0) = true /\ has_hit (case_hit 0 1) = false /\
  exists fp, user_remap (- (3 / 4)) (3 / 4) 1 (- / 4) (/ 4) 1 case_polar 2 case_draws [[5]] None = Ok fp.
Proof.
  destruct C63_case as (HC & _ & HR & HMk). split; [exact HC|]. split; [exact HMk|]. split; [apply all_one_shape|]. split; [reflexivity|]. split; [reflexivity|].
  apply HR. split; [reflexivity|]. intros [|i] Hi; [reflexivity|cbn in Hi; lia].
Qed.
