(** * Lemmas: Monte-Carlo sampling of a cube *)

From Coq Require Import Reals ZArith List Bool Lia Lra Psatz.
From Flocq Require Import Core.Raux.
From Verif Require Import Base BaseP Spec SpecGrid SpecRemap SpecDense SpecMonte SpecCube SpecRandoms SpecMonteShell
  MCoords MGrids MHealpixIndex MHealpixCoord MHealpixBoundary MRandoms MRandomsHealpix MDense MMonte MCube MMonteShell
  PPolarCoords PRemap2 PDense PMonte PCube PRandoms PHealpixIndex PHealpixCentre PHealpixArray PHealpixTiling PHealpixCoord PRandomsHealpix.
Import ListNotations.
Open Scope R_scope.

(** ** Points and voxels *)

Lemma counted_closed3 : forall V p q, good_voxels V -> counted_in3 V p q -> in_closed3 V p.
Proof. intros V p q (Hx & Hy & Hz) (A & B & C). split; [|split]; eapply bin_range; eauto. Qed.

Lemma counted_dec3 : forall V p, good_voxels V -> (1 <= bnx V)%nat -> (1 <= bny V)%nat -> (1 <= bnz V)%nat ->
  (exists q, counted_in3 V p q) \/ ~ in_closed3 V p.
Proof.
  intros V p (Hx & Hy & Hz) Nx Ny Nz.
  destruct (Rle_dec (bx0 V) (vx p)); [|right; intros (? & ? & ?); lra]. destruct (Rle_dec (vx p) (bx0 V + INR (bnx V) * bhx V)); [|right; intros (? & ? & ?); lra].
  destruct (Rle_dec (by0 V) (vy p)); [|right; intros (? & ? & ?); lra]. destruct (Rle_dec (vy p) (by0 V + INR (bny V) * bhy V)); [|right; intros (? & ? & ?); lra].
  destruct (Rle_dec (bz0 V) (vz p)); [|right; intros (? & ? & ?); lra]. destruct (Rle_dec (vz p) (bz0 V + INR (bnz V) * bhz V)); [|right; intros (? & ? & ?); lra].
  left. destruct (bin_exists (bx0 V) (bhx V) (bnx V) (vx p)) as [i Hi]; auto. destruct (bin_exists (by0 V) (bhy V) (bny V) (vy p)) as [j Hj]; auto.
  destruct (bin_exists (bz0 V) (bhz V) (bnz V) (vz p)) as [k Hk]; auto. exists (i, j, k). repeat split; auto; try apply Hi; try apply Hj; apply Hk.
Qed.

Lemma hits_exist3 : forall V l, good_voxels V -> (1 <= bnx V)%nat -> (1 <= bny V)%nat -> (1 <= bnz V)%nat -> exists h, hits3 V l h.
Proof.
  intros V l HV Nx Ny Nz. induction l as [|p l [h Hh]]; [exists []; constructor|].
  destruct (counted_dec3 V p HV Nx Ny Nz) as [[q Hq]|Ho]; [exists (q :: h)|exists h]; now constructor.
Qed.

(** ** Counting *)

Definition veq (a b : voxel) : {a = b} + {a <> b}.
Proof. repeat decide equality. Defined.

Definition occ3 (q : voxel) (h : list voxel) : nat := count_occ veq h q.

Lemma sum_indicator3 : forall (g : voxel -> R) p l, NoDup l -> In p l ->
  Rsum (map (fun q => INR (if veq p q then 1 else 0) * g q) l) = g p.
Proof.
  intros g p l N I. induction l as [|a l IH]; [destruct I|]. inversion N as [|? ? Na Nl]; subst. unfold Rsum in *. cbn [map fold_right].
  destruct (veq p a) as [->|E].
  - cbn [INR]. assert (Z : forall l, ~ In a l -> fold_right Rplus 0 (map (fun q => INR (if veq a q then 1 else 0) * g q) l) = 0).
    { intros l'. induction l' as [|b l' IH']; intros H; [reflexivity|]. cbn [map fold_right]. rewrite IH' by (intros ?; apply H; now right).
      destruct (veq a b) as [<-|]; [exfalso; apply H; now left|cbn [INR]; ring]. }
    rewrite Z by auto. ring.
  - destruct I as [<-|I]; [contradiction|]. rewrite IH by auto. cbn [INR]. ring.
Qed.

Lemma sum_occ_grid3 : forall g h l, NoDup l -> (forall q, In q h -> In q l) -> Rsum (map (fun q => INR (occ3 q h) * g q) l) = Rsum (map g h).
Proof.
  intros g h l N. induction h as [|p h IH]; intros H.
  - apply sum_map_zero. intros q _. unfold occ3. cbn. ring.
  - change (Rsum (map g (p :: h))) with (g p + Rsum (map g h)). rewrite <- IH by (intros; apply H; now right).
    rewrite <- (sum_indicator3 g p l) by (auto; apply H; now left). rewrite <- sum_map_plus. f_equal. apply map_ext. intros q.
    unfold occ3. cbn [count_occ]. destruct (veq p q); [rewrite S_INR|]; cbn [INR]; ring.
Qed.

Definition in_range3 (n m l : nat) (q : voxel) : Prop := (vi q < n)%nat /\ (vj q < m)%nat /\ (vk q < l)%nat.

Definition grid3 (n m l : nat) : list voxel :=
  flat_map (fun i => flat_map (fun j => map (fun k => (i, j, k)) (seq 0 l)) (seq 0 m)) (seq 0 n).

Lemma in_grid3 : forall n m l q, In q (grid3 n m l) <-> in_range3 n m l q.
Proof.
  intros n m l [[i j] k]. unfold grid3, in_range3, vi, vj, vk. cbn [fst snd]. rewrite in_flat_map. split.
  - intros (a & Ha & H). apply in_flat_map in H. destruct H as (b & Hb & H). apply in_map_iff in H. destruct H as (c & E & Hc).
    inversion E; subst. apply in_seq in Ha, Hb, Hc. lia.
  - intros (Hi & Hj & Hk). exists i. split; [apply in_seq; lia|]. apply in_flat_map. exists j. split; [apply in_seq; lia|]. apply in_map_iff. exists k. split; auto. apply in_seq; lia.
Qed.

Lemma NoDup_flat_map : forall A B (f : A -> list B) l, NoDup l -> (forall a, In a l -> NoDup (f a)) ->
  (forall a b x, In a l -> In b l -> In x (f a) -> In x (f b) -> a = b) -> NoDup (flat_map f l).
Proof.
  intros A B f l N H D. induction l as [|a l IH]; [constructor|]. inversion N as [|? ? Na Nl]; subst. cbn [flat_map]. apply NoDup_app.
  - apply H. now left.
  - apply IH; auto. + intros; apply H; now right. + intros; eapply D; eauto; now right.
  - intros x Hx Hy. apply in_flat_map in Hy. destruct Hy as (b & Hb & Hy). apply Na. rewrite (D a b x); auto; [now left|now right].
Qed.

Lemma NoDup_grid3 : forall n m l, NoDup (grid3 n m l).
Proof.
  intros n m l. unfold grid3. apply NoDup_flat_map; [apply seq_NoDup| |].
  - intros i _. apply NoDup_flat_map; [apply seq_NoDup| |].
    + intros j _. apply FinFun.Injective_map_NoDup; [|apply seq_NoDup]. intros a b E. now inversion E.
    + intros a b x _ _ Ha Hb. apply in_map_iff in Ha, Hb. destruct Ha as (c & <- & _). destruct Hb as (d & E & _). now inversion E.
  - intros a b x _ _ Ha Hb. apply in_flat_map in Ha, Hb. destruct Ha as (c & _ & Ha). destruct Hb as (d & _ & Hb).
    apply in_map_iff in Ha, Hb. destruct Ha as (e & <- & _). destruct Hb as (e' & E & _). now inversion E.
Qed.

Definition touched3 (n m l : nat) (h : list voxel) : list voxel := filter (fun q => (0 <? occ3 q h)%nat) (grid3 n m l).

Lemma touched_in3 : forall n m l h q, (forall p, In p h -> in_range3 n m l p) -> (In q (touched3 n m l h) <-> In q h).
Proof.
  intros n m l h q Hg. unfold touched3, occ3. rewrite filter_In, in_grid3, Nat.ltb_lt. rewrite (count_occ_In veq h q). unfold gt. split; [tauto|].
  intros H. split; auto. apply Hg. apply (count_occ_In veq). exact H.
Qed.

Lemma touched_distinct3 : forall n m l h, (forall p, In p h -> in_range3 n m l p) -> distinct3 h (length (touched3 n m l h)).
Proof.
  intros n m l h Hg. exists (touched3 n m l h). split; [apply NoDup_filter, NoDup_grid3|]. split; auto. intros q. now apply touched_in3.
Qed.

Lemma distinct_unique3 : forall h k k', distinct3 h k -> distinct3 h k' -> k = k'.
Proof.
  intros h k k' (m & N & <- & I) (m' & N' & <- & I'). apply Nat.le_antisymm; apply NoDup_incl_length; auto; intros q Hq.
  - apply I', I, Hq. - apply I, I', Hq.
Qed.

Lemma sum_touched3 : forall n m l h g, (forall p, In p h -> in_range3 n m l p) ->
  Rsum (map (fun q => INR (occ3 q h) * g q) (touched3 n m l h)) = Rsum (map g h).
Proof.
  intros n m l h g Hg. unfold touched3. rewrite sum_filter.
  - apply sum_occ_grid3; [apply NoDup_grid3|]. intros q Hq. apply in_grid3. auto.
  - intros q _ E. apply Nat.ltb_ge in E. replace (occ3 q h) with 0%nat by lia. cbn [INR]. ring.
Qed.

Lemma touched_nil3 : forall n m l h, (forall p, In p h -> in_range3 n m l p) -> touched3 n m l h = [] -> h = [].
Proof.
  intros n m l h Hg E. destruct h as [|q h]; auto. exfalso. assert (I : In q (touched3 n m l (q :: h))) by (apply touched_in3; auto; now left).
  rewrite E in I. destruct I.
Qed.

(** ** The histogram *)

Section Hist3.
Variable V : voxels.
Hypothesis HV : good_voxels V.
Let ex := tab (S (bnx V)) (fun i => bx0 V + INR i * bhx V).
Let ey := tab (S (bny V)) (fun i => by0 V + INR i * bhy V).
Let ez := tab (S (bnz V)) (fun i => bz0 V + INR i * bhz V).

Lemma bin3_in : forall p q, counted_in3 V p q -> hist_bin3 ex ey ez (Some (triple p)) = Some q.
Proof.
  intros [x y z] [[i j] k] (A & B & C). destruct HV as (Hx & Hy & Hz). unfold hist_bin3, triple, ex, ey, ez, vi, vj, vk in *. cbn [fst snd vx vy vz] in *.
  rewrite (hist_bin_in _ _ _ _ _ Hx A), (hist_bin_in _ _ _ _ _ Hy B), (hist_bin_in _ _ _ _ _ Hz C). reflexivity.
Qed.

Lemma bin3_out : forall p, ~ in_closed3 V p -> hist_bin3 ex ey ez (Some (triple p)) = None.
Proof.
  intros [x y z] H. destruct HV as (Hx & Hy & Hz). unfold hist_bin3, triple, ex, ey, ez. unfold in_closed3 in H. cbn [fst snd vx vy vz] in *.
  destruct (Rle_dec (bx0 V) x); [destruct (Rle_dec x (bx0 V + INR (bnx V) * bhx V))|]; try (rewrite hist_bin_out by (auto; lra); reflexivity).
  destruct (Rle_dec (by0 V) y); [destruct (Rle_dec y (by0 V + INR (bny V) * bhy V))|];
    try (rewrite (hist_bin_out (by0 V)) by (auto; lra); destruct (hist_bin _ x); reflexivity).
  rewrite (hist_bin_out (bz0 V)) by (auto; lra). destruct (hist_bin _ x); [|reflexivity]. destruct (hist_bin _ y); reflexivity.
Qed.

Lemma hist_count3 : forall l h i j k, hits3 V l h ->
  length (filter (is_bin3 i j k) (map (hist_bin3 ex ey ez) (map Some (map triple l)))) = occ3 (i, j, k) h.
Proof.
  intros l h i j k H. induction H as [|p q l h Hq H IH|p l h Ho H IH]; auto.
  - cbn [map filter]. rewrite (bin3_in _ _ Hq). unfold occ3 in *. cbn [count_occ is_bin3]. destruct q as [[a b] c].
    destruct (veq (a, b, c) (i, j, k)) as [E|E].
    + inversion E; subst. rewrite !Nat.eqb_refl. cbn [andb length]. now rewrite IH.
    + replace ((a =? i)%nat && (b =? j)%nat && (c =? k)%nat) with false; [exact IH|]. symmetry. apply not_true_iff_false. intros T.
      apply andb_prop in T. destruct T as [T T3]. apply andb_prop in T. destruct T as [T1 T2]. apply Nat.eqb_eq in T1, T2, T3. subst. contradiction.
  - cbn [map filter]. rewrite (bin3_out _ Ho). cbn [is_bin3]. exact IH.
Qed.

Lemma hist_tab3 : forall l h, hits3 V l h ->
  histogram3 ex ey ez (map Some (map triple l)) = tab3 (bnx V) (bny V) (bnz V) (fun i j k => INR (occ3 (i, j, k) h)).
Proof.
  intros l h H. unfold histogram3, ex, ey, ez. rewrite !tab_length. cbn [Nat.sub]. rewrite !Nat.sub_0_r. apply tab_ext. intros i Hi. apply tab_ext. intros j Hj.
  apply tab_ext. intros k Hk. f_equal. now apply hist_count3.
Qed.

Lemma hits_in_grid3 : forall l h q, hits3 V l h -> In q h -> in_range3 (bnx V) (bny V) (bnz V) q.
Proof.
  intros l h q H. induction H as [|p r l h Hr H IH|p l h Ho H IH]; intros Hin; [destruct Hin| |auto].
  destruct Hin as [<-|Hin]; auto. destruct Hr as ((A & _) & (B & _) & (C & _)). repeat split; auto.
Qed.

End Hist3.

Lemma at3_tab : forall n m l g q, in_range3 n m l q -> at3 (tab3 n m l g) q = g (vi q) (vj q) (vk q).
Proof. intros n m l g [[i j] k] (A & B & C). unfold at3, vi, vj, vk in *. cbn [fst snd] in *. unfold tab3, tab2. now rewrite !tab_nth. Qed.

Lemma where3_tab : forall n m l h, where3 (tab3 n m l (fun i j k => INR (occ3 (i, j, k) h))) = touched3 n m l h.
Proof.
  intros n m l h. unfold where3, touched3, grid3. set (T := tab3 n m l (fun i j k => INR (occ3 (i, j, k) h))).
  assert (E : flat_map (fun i => flat_map (fun j => map (fun k => (i, j, k)) (seq 0 (length (nth j (nth i T []) [])))) (seq 0 (length (nth i T [])))) (seq 0 (length T)) = grid3 n m l).
  { unfold T, tab3, tab2. rewrite tab_length. apply flat_map_ext_in. intros i Hi. apply in_seq in Hi. rewrite tab_nth, tab_length by lia.
    apply flat_map_ext_in. intros j Hj. apply in_seq in Hj. rewrite tab_nth, tab_length by lia. reflexivity. }
  rewrite E. apply filter_ext_in. intros q Hq. apply in_grid3 in Hq. unfold T. rewrite at3_tab by auto. destruct q as [[i j] k]. unfold vi, vj, vk. cbn [fst snd].
  destruct (occ3 (i, j, k) h) as [|c]; [cbn [INR]; now rewrite Req_bool_true|]. rewrite Req_bool_false; [reflexivity|]. apply not_0_INR. lia.
Qed.

(** ** The samples of a pixel *)

Definition draws3 : Type := list R * list R * list R.
Definition dx (d : draws3) : list R := fst (fst d).
Definition dy (d : draws3) : list R := snd (fst d).
Definition dr (d : draws3) : list R := snd d.

Definition center_of (P : mc_shells) : vec := V3 (nth 0 (ms_center P) 0) (nth 1 (ms_center P) 0) (nth 2 (ms_center P) 0).

(** Direction for two numbers, in a pixel with plane centre [(xp, yp)]. *)
Definition direction (nside : Z) (xp yp u v : R) : R * R :=
  match xy2ang (Rmod (draw_x xp (half_diag nside) u) (2 * PI)) (draw_y xp yp (half_diag nside) u v) with
  | (phi, Some theta) => (theta, phi)
  | (phi, None) => (0, phi)
  end.

Definition plane_centre (nside : Z) (j : nat) : R * R := match pix2xy (Z.of_nat j) nside with Ok c => c | Err _ => (0, 0) end.

Definition radius (a b u : R) : R := cbrt ((b * b * b - a * a * a) * u + a * a * a).

Definition sample_points (P : mc_shells) (draws : nat -> nat -> draws3) (i j : nat) : list vec :=
  let '(xp, yp) := plane_centre (ms_nside P) j in
  let a := nth i (ms_redges P) 0 in let b := nth (i + 1) (ms_redges P) 0 in
  map (fun q => seen_from (center_of P) (radius a b (nth q (dr (draws i j)) 0)) (direction (ms_nside P) xp yp (nth q (dx (draws i j)) 0) (nth q (dy (draws i j)) 0)))
    (seq 0 (length (dx (draws i j)))).

(** Shells that can be sampled. *)
Definition good_mc_shells (P : mc_shells) (nr : nat) : Prop :=
  (1 <= nr)%nat /\ length (ms_redges P) = S nr /\ length (ms_rmid P) = nr /\ length (ms_center P) = 3%nat /\
  (forall i, (i < nr)%nat -> 0 <= nth i (ms_redges P) 0 <= nth (i + 1) (ms_redges P) 0).

(** A point of a closed diamond is at most at a pole. *)
Lemma draw_height : forall nside p xp yp u v, (1 <= nside)%Z -> legal_pix nside p -> pix2xy p nside = Ok (xp, yp) -> 0 <= u < 1 -> 0 <= v < 1 ->
  Rabs (draw_y xp yp (half_diag nside) u v) <= PI / 2.
Proof.
  intros nside p xp yp u v Hn Hp Hxy Hu Hv. pose proof (half_diag_pos nside Hn) as Hd. set (d := half_diag nside) in *.
  destruct (pix2xy_legal nside p Hn Hp) as [i [j [[L _] E]]]. rewrite Hxy in E. fold d in E. injection E as Ex Ey.
  destruct (draw_cases xp yp d u v Hd ltac:(lra)) as [a [Ha [_ [-> _]]]]. destruct L as [L _].
  assert (N : 1 <= IZR nside) by (apply IZR_le; lia).
  assert (E2 : PI / 2 = 2 * IZR nside * d) by (unfold d, half_diag; field; lra).
  rewrite E2, Ey. unfold id2. rewrite minus_IZR, mult_IZR.
  assert (1 <= IZR i <= 4 * IZR nside - 1) by (rewrite <- (mult_IZR 4), <- (minus_IZR _ 1); split; apply IZR_le; lia).
  replace ((IZR 2 * IZR nside - IZR i) * d + d * a * (2 * v - 1)) with (d * ((2 * IZR nside - IZR i) + a * (2 * v - 1))) by ring.
  rewrite Rabs_mult, (Rabs_pos_eq d) by lra. rewrite (Rmult_comm (2 * IZR nside) d). apply Rmult_le_compat_l; [lra|]. apply Rabs_le. nra.
Qed.

Lemma xy2ang_finite : forall x y, Rabs y <= PI / 2 -> exists phi theta, xy2ang x y = (phi, Some theta).
Proof.
  intros x y H. pose proof PI_RGT_0 as Pi. unfold xy2ang. destruct (Rle_bool_spec (Rabs y) (PI / 4)) as [L|L].
  - rewrite np_arccos_ok; [eauto|]. apply Rabs_le_inv in L. assert (E : y = 3 * PI / 8 * (8 * y / (3 * PI))) by (field; lra). split; nra.
  - assert (Ea : Rabs (4 * y / PI) = Rabs y * (4 / PI)).
    { replace (4 * y / PI) with (y * (4 / PI)) by (field; lra). rewrite Rabs_mult, (Rabs_pos_eq (4 / PI)); auto. apply Rlt_le. apply Rdiv_lt_0_compat; lra. }
    assert (B : 1 < Rabs (4 * y / PI) <= 2).
    { rewrite Ea. assert (E : Rabs y = PI / 4 * (Rabs y * (4 / PI))) by (field; lra). split; nra. }
    assert (S : Rsign (4 * y / PI) = 1 \/ Rsign (4 * y / PI) = -1).
    { assert (N : 4 * y / PI <> 0) by (intros E; rewrite E, Rabs_R0 in B; lra). now apply Rsign_cases. }
    rewrite np_arccos_ok; [eauto|]. set (s := Rabs (4 * y / PI)) in *. assert (0 <= (2 - s) ^ 2 <= 1) by nra. destruct S as [-> | ->]; lra.
Qed.

Lemma direction_ok : forall nside p xp yp u v, (1 <= nside)%Z -> legal_pix nside p -> pix2xy p nside = Ok (xp, yp) -> 0 <= u < 1 -> 0 <= v < 1 ->
  xy2ang (Rmod (draw_x xp (half_diag nside) u) (2 * PI)) (draw_y xp yp (half_diag nside) u v) =
  (snd (direction nside xp yp u v), Some (fst (direction nside xp yp u v))).
Proof.
  intros nside p xp yp u v Hn Hp Hxy Hu Hv. destruct (xy2ang_finite (Rmod (draw_x xp (half_diag nside) u) (2 * PI)) (draw_y xp yp (half_diag nside) u v)) as (phi & theta & E).
  - now apply (draw_height nside p).
  - unfold direction. rewrite E. reflexivity.
Qed.

Lemma legal_small : forall nside j, (j < nside2npix nside)%nat -> legal_pix nside (Z.of_nat j).
Proof. intros nside j H. unfold nside2npix in H. unfold legal_pix. lia. Qed.

Lemma plane_ok : forall nside j, (1 <= nside)%Z -> (j < nside2npix nside)%nat -> pix2xy (Z.of_nat j) nside = Ok (plane_centre nside j).
Proof.
  intros nside j Hn Hj. destruct (pix2xy_legal nside _ Hn (legal_small _ _ Hj)) as [a [b [_ E]]]. unfold plane_centre. now rewrite E.
Qed.

Lemma map2_seq : forall A B C (f : A -> B -> C) (l : list A) (m : list B) da db, length l = length m ->
  map2 f l m = map (fun q => f (nth q l da) (nth q m db)) (seq 0 (length l)).
Proof.
  intros A B C f l. induction l as [|a l IH]; intros m da db H; [reflexivity|]. destruct m as [|b m]; [discriminate|]. cbn [map2 length seq map nth]. f_equal.
  rewrite (IH m da db) by (cbn in H; lia). rewrite <- seq_shift, map_map. reflexivity.
Qed.

Definition good_draws (n : nat) (d : draws3) : Prop :=
  (length (dx d) = n /\ length (dy d) = n /\ length (dr d) = n) /\
  (forall u, In u (dx d) -> 0 <= u < 1) /\ (forall u, In u (dy d) -> 0 <= u < 1) /\ (forall u, In u (dr d) -> 0 <= u < 1).

Lemma fair_good : forall n draws i j, fair3 n draws -> good_draws n (draws i j).
Proof. intros n draws i j H. specialize (H i j). unfold good_draws, dx, dy, dr. destruct (draws i j) as [[a b] c]. exact H. Qed.

Lemma radius_arg : forall a b u, 0 <= a <= b -> 0 <= u < 1 -> 0 <= (b * b * b - a * a * a) * u + a * a * a.
Proof.
  intros a b u Hab Hu. assert (a * a * a <= b * b * b) by (assert (a * a <= b * b) by nra; apply Rmult_le_compat; nra).
  assert (0 <= a * a * a) by (apply Rmult_le_pos; nra). nra.
Qed.

Lemma points_ok3 : forall P nr draws mc i j, good_mc_shells P nr -> (1 <= ms_nside P)%Z -> (i < nr)%nat -> (j < nside2npix (ms_nside P))%nat ->
  good_draws mc (draws i j) ->
  exists phis thetas, randoms_healpix_pixel (dx (draws i j)) (dy (draws i j)) (Z.of_nat j) (ms_nside P) = Ok (phis, thetas) /\
  map2 (cart_point (nth 0 (ms_center P) 0) (nth 1 (ms_center P) 0) (nth 2 (ms_center P) 0))
    (map (fun u => cube_root ((nth (i + 1) (ms_redges P) 0 * nth (i + 1) (ms_redges P) 0 * nth (i + 1) (ms_redges P) 0 - nth i (ms_redges P) 0 * nth i (ms_redges P) 0 * nth i (ms_redges P) 0) * u
                              + nth i (ms_redges P) 0 * nth i (ms_redges P) 0 * nth i (ms_redges P) 0)) (dr (draws i j)))
    (combine phis thetas) = map Some (map triple (sample_points P draws i j)).
Proof.
  intros P nr draws mc i j (_ & Lr & _ & Lc & Hr) Hn Hi Hj ((L1 & L2 & L3) & U1 & U2 & U3).
  pose proof (plane_ok (ms_nside P) j Hn Hj) as Hxy. destruct (plane_centre (ms_nside P) j) as [xp yp] eqn:EP.
  destruct (randoms_xy_elt (dx (draws i j)) (dy (draws i j)) (Z.of_nat j) (ms_nside P) xp yp ltac:(congruence) Hxy) as [xs [ys [E [M1 [M2 HQ]]]]].
  unfold randoms_healpix_pixel. rewrite E. cbn [bind fst snd]. destruct (length_xy2ang_arr xs ys) as [La Lb].
  destruct (xy2ang_arr xs ys) as [phis thetas] eqn:EA. cbn [fst snd] in *. exists phis, thetas. split; [reflexivity|].
  refine (eq_trans (map2_seq num (num * num) _ _ _ _ None (None, None) _) _); [rewrite map_length, combine_length; lia|]. rewrite map_length. rewrite L3.
  unfold sample_points. rewrite EP, !map_map, L1. apply map_ext_in. intros q Hq. apply in_seq in Hq.
  rewrite (nth_map_lt R num _ _ q None 0) by lia. rewrite combine_nth by exact (eq_trans La (eq_sym Lb)).
  rewrite cube_root_ok by (apply radius_arg; [apply Hr; lia|apply U3, nth_In; lia]).
  destruct (xy2ang_arr_spec xs ys q ltac:(lia) ltac:(lia)) as [S1 S2]. rewrite EA in S1, S2. cbn [fst snd] in S1, S2.
  destruct (HQ q ltac:(lia)) as [Q1 Q2]. rewrite Q1, Q2 in S1, S2.
  rewrite (direction_ok (ms_nside P) (Z.of_nat j)) in S1, S2 by (auto using legal_small; try apply U1, nth_In; try apply U2, nth_In; lia).
  cbn [fst snd] in S1, S2. unfold cart_point. cbn [fst snd].
  refine (eq_trans (f_equal2 (fun a b : num => match a, b with Some phi, Some theta => Some (sphere2cart _ phi theta _ _ _) | _, _ => None end) S1 S2) _).
  f_equal.
Qed.

(** ** One pixel *)

Definition entries3 (mc : Z) (n m l : nat) (h : list voxel) : list entry3 :=
  map (fun q => Entry3 (vj q) (vi q) (vk q) (INR (occ3 q h) / IZR mc)) (touched3 n m l h).

Lemma touched_grid3 : forall n m l h q, In q (touched3 n m l h) -> in_range3 n m l q.
Proof. intros n m l h q Hq. unfold touched3 in Hq. apply filter_In in Hq. destruct Hq as [Hq _]. now apply in_grid3 in Hq. Qed.

Lemma pixel_weights_ok : forall V P nr draws mc i j h, good_voxels V -> (1 <= bnx V)%nat -> (1 <= bny V)%nat -> (1 <= bnz V)%nat ->
  good_mc_shells P nr -> (1 <= ms_nside P)%Z -> (0 <= mc)%Z -> (i < nr)%nat -> (j < nside2npix (ms_nside P))%nat ->
  good_draws (Z.to_nat mc) (draws i j) -> hits3 V (sample_points P draws i j) h ->
  pixel_weights (the_cube V) P (draws i j) mc i j = Ok (entries3 mc (bnx V) (bny V) (bnz V) h).
Proof.
  intros V P nr draws mc i j h HV Nx Ny Nz HP Hn Hmc Hi Hj Hd Hh.
  destruct (points_ok3 P nr draws _ i j HP Hn Hi Hj Hd) as (phis & thetas & E1 & E2). assert (HP' := HP). destruct HP' as (_ & Lr & _ & Lc & _).
  unfold pixel_weights. unfold dx, dy, dr in *. destruct (draws i j) as [[ux uy] ur] eqn:ED. cbn [fst snd] in *.
  rewrite !(py_get_ok _ (ms_redges P) _ 0) by lia. cbn [bind]. rewrite !Nat2Z.id.
  unfold randoms_sphere_r, random_sample. replace (mc <? 0)%Z with false by (symmetry; apply Z.ltb_ge; lia). cbn [bind].
  rewrite E1. cbn [bind]. rewrite !(py_get_ok _ (ms_center P) _ 0) by lia. cbn [bind]. change (Z.to_nat 0) with 0%nat. change (Z.to_nat 1) with 1%nat. change (Z.to_nat 2) with 2%nat.
  rewrite E2. cbn [the_cube cu_xedges cu_yedges cu_zedges].
  rewrite !(py_get_ok _ (tab _ _) 0 0) by (rewrite tab_length; lia). rewrite !(py_get_last _ (tab _ _) 0) by (rewrite tab_length; lia). cbn [bind].
  change (Z.to_nat 0) with 0%nat. rewrite !tab_length. cbn [Nat.sub]. rewrite !Nat.sub_0_r, !tab_nth by lia.
  assert (HV' := HV). destruct HV' as (Hx & Hy & Hz). replace (bx0 V + INR 0 * bhx V) with (bx0 V) by (cbn [INR]; ring). replace (by0 V + INR 0 * bhy V) with (by0 V) by (cbn [INR]; ring).
  replace (bz0 V + INR 0 * bhz V) with (bz0 V) by (cbn [INR]; ring).
  rewrite !hist_edges_ok by auto. cbn [bind]. f_equal. rewrite (hist_tab3 V HV _ _ Hh), where3_tab. unfold entries3.
  apply map_ext_in. intros q Hq. apply touched_grid3 in Hq. rewrite at3_tab by auto. now destruct q as [[a b] c].
Qed.

(** All listed voxels are inside an array of the given sizes. *)
Definition fits (f : list (list (list R))) (h : list voxel) : Prop :=
  exists n1 n2 n3, shape3 f n1 n2 n3 /\ forall q, In q h -> (vj q < n1)%nat /\ (vi q < n2)%nat /\ (vk q < n3)%nat.

Lemma shape_fits : forall f n m l h, shape3 f m n l -> (forall p, In p h -> in_range3 n m l p) -> fits f h.
Proof. intros f n m l h Hf Hh. exists m, n, l. split; auto. intros q Hq. destruct (Hh q Hq) as (A & B & C). auto. Qed.

Lemma read_entries_ok3 : forall mc f n m l h, (forall p, In p h -> in_range3 n m l p) -> fits f h ->
  read_entries3 f (entries3 mc n m l h) = Ok (map (stored_yxz f) (touched3 n m l h)).
Proof.
  intros mc f n m l h Hh (n1 & n2 & n3 & [Lf Rf] & Hf). unfold read_entries3, entries3.
  assert (Hg : forall q, In q (touched3 n m l h) -> (vj q < n1)%nat /\ (vi q < n2)%nat /\ (vk q < n3)%nat) by (intros q Hq; apply Hf; revert Hq; now apply touched_in3).
  revert Hg. generalize (touched3 n m l h) as t. induction t as [|q t IH]; intros Hg; [reflexivity|].
  cbn [map mapM]. destruct (Hg q (or_introl eq_refl)) as (Q1 & Q2 & Q3). cbn [t_x t_y t_z]. destruct (Rf _ Q1) as [Lr Rr].
  rewrite (py_get_ok _ f _ []) by lia. cbn [bind]. rewrite Nat2Z.id. rewrite (py_get_ok _ (nth (vj q) f []) _ []) by lia. cbn [bind].
  rewrite Nat2Z.id. rewrite (py_get_ok _ (nth (vi q) (nth (vj q) f []) []) _ 0) by (rewrite Rr by lia; lia).
  rewrite Nat2Z.id. cbn [bind]. rewrite IH by (intros r Hr; apply Hg; now right). reflexivity.
Qed.

Lemma read_entries_or3 : forall f c, (exists l, read_entries3 f c = Ok l) \/ read_entries3 f c = Err IndexError.
Proof.
  intros f c. unfold read_entries3.
  destruct (mapM_index_or _ _ (fun e => p <- py_get f (Z.of_nat (t_x e)) ;; row <- py_get p (Z.of_nat (t_y e)) ;; py_get row (Z.of_nat (t_z e))) c) as [(m & E & _)|E]; eauto.
  intros e _. destruct (py_get_or _ f (Z.of_nat (t_x e))) as [[a Ea]|Ea]; rewrite Ea; cbn [bind]; [|now right].
  destruct (py_get_or _ a (Z.of_nat (t_y e))) as [[b Eb]|Eb]; rewrite Eb; cbn [bind]; [|now right]. apply py_get_or.
Qed.

Lemma read_entries_bad3 : forall mc f n m l h n1 n2 n3 q, (forall p, In p h -> in_range3 n m l p) -> shape3 f n1 n2 n3 -> In q h ->
  (n1 <= vj q \/ n2 <= vi q \/ n3 <= vk q)%nat -> read_entries3 f (entries3 mc n m l h) = Err IndexError.
Proof.
  intros mc f n m l h n1 n2 n3 q Hh [Lf Rf] Hq Hbad. unfold read_entries3. apply mapM_index_err.
  - intros e _. destruct (py_get_or _ f (Z.of_nat (t_x e))) as [[a Ea]|Ea]; rewrite Ea; cbn [bind]; [|now right].
    destruct (py_get_or _ a (Z.of_nat (t_y e))) as [[b Eb]|Eb]; rewrite Eb; cbn [bind]; [|now right]. apply py_get_or.
  - exists (Entry3 (vj q) (vi q) (vk q) (INR (occ3 q h) / IZR mc)). split.
    + unfold entries3. apply in_map_iff. exists q. split; auto. now apply touched_in3.
    + cbn [t_x t_y t_z]. destruct (Nat.lt_ge_cases (vj q) n1) as [A|A]; [|rewrite py_get_high by lia; reflexivity].
      rewrite (py_get_ok _ f _ []) by lia. cbn [bind]. rewrite Nat2Z.id. destruct (Rf _ A) as [L2 R2].
      destruct (Nat.lt_ge_cases (vi q) n2) as [B|B]; [|rewrite py_get_high by lia; reflexivity].
      rewrite (py_get_ok _ (nth (vj q) f []) _ []) by lia. cbn [bind]. rewrite Nat2Z.id. apply py_get_high. rewrite R2 by lia. lia.
Qed.

Lemma sum_const_one : forall A (h : list A), Rsum (map (fun _ => 1) h) = INR (length h).
Proof. intros A h. unfold Rsum. induction h as [|a h IH]; [reflexivity|]. cbn [map fold_right length]. rewrite IH, S_INR. ring. Qed.

Lemma sum_weights3 : forall mc n m l h, (forall p, In p h -> in_range3 n m l p) ->
  Rsum (map t_w (entries3 mc n m l h)) = INR (length h) / IZR mc.
Proof.
  intros mc n m l h Hg. unfold entries3. rewrite map_map. cbn [t_w].
  rewrite (map_ext _ (fun q => (INR (occ3 q h) * (fun _ => 1) q) * / IZR mc)) by (intros; unfold Rdiv; ring).
  rewrite sum_map_scal, sum_touched3 by auto. unfold Rdiv. f_equal. apply sum_const_one.
Qed.

Lemma pixel_value_ok : forall mc f w n m l h, (forall p, In p h -> in_range3 n m l p) -> (1 <= mc)%Z -> fits f h -> (forall w', w = Some w' -> fits w' h) ->
  pixel_value f w (entries3 mc n m l h) = Ok (mean3 f w h).
Proof.
  intros mc f w n m l h Hg Hmc Hf Hw. assert (M : 0 < IZR mc) by (apply IZR_lt; lia). unfold pixel_value. rewrite sum_weights3 by auto.
  destruct h as [|q h'] eqn:Eh.
  - cbn [length INR]. rewrite Req_bool_true by (unfold Rdiv; ring). unfold mean3. destruct w; reflexivity.
  - rewrite <- Eh in *. assert (L : 0 < INR (length h)) by (rewrite Eh; apply lt_0_INR; cbn; lia).
    rewrite Req_bool_false by (apply Rgt_not_eq; now apply Rdiv_lt_0_compat). cbn [negb].
    assert (T : forall g : voxel -> R, Rsum (map (fun q => INR (occ3 q h) / IZR mc * g q) (touched3 n m l h)) = Rsum (map g h) / IZR mc).
    { intros g. rewrite (map_ext _ (fun q => (INR (occ3 q h) * g q) * / IZR mc)) by (intros; unfold Rdiv; ring). now rewrite sum_map_scal, sum_touched3. }
    assert (E : map t_w (entries3 mc n m l h) = map (fun q => INR (occ3 q h) / IZR mc) (touched3 n m l h)) by (unfold entries3; now rewrite map_map).
    destruct w as [w|].
    + rewrite !(read_entries_ok3 mc _ n m l h) by auto. cbn [bind]. rewrite E, !map_map2. cbn [mean3].
      assert (WM : weighted_mean3 (stored_yxz f) (stored_yxz w) h =
        if Req_EM_T (Rsum (map (stored_yxz w) h)) 0 then None else Some (Rsum (map (fun q => stored_yxz w q * stored_yxz f q) h) / Rsum (map (stored_yxz w) h))) by (rewrite Eh; reflexivity).
      rewrite WM. rewrite (map_ext (fun x => INR (occ3 x h) / IZR mc * stored_yxz w x * stored_yxz f x) (fun x => INR (occ3 x h) / IZR mc * (stored_yxz w x * stored_yxz f x))) by (intros; ring).
      rewrite !T. rewrite fdiv_dec. f_equal. destruct (Req_EM_T (Rsum (map (stored_yxz w) h)) 0) as [E0|E0].
      * rewrite E0. destruct (Req_EM_T (0 / IZR mc) 0); [reflexivity|]. exfalso. apply n0. unfold Rdiv. ring.
      * destruct (Req_EM_T (Rsum (map (stored_yxz w) h) / IZR mc) 0) as [E1|E1].
        { exfalso. apply E0. apply (Rmult_eq_reg_r (/ IZR mc)); [|apply Rinv_neq_0_compat; lra]. unfold Rdiv in E1. rewrite E1. ring. }
        f_equal. field. split; lra.
    + rewrite (read_entries_ok3 mc _ n m l h) by auto. cbn [bind].
      rewrite E, map_map2, T. rewrite fdiv_ok by (apply Rgt_not_eq; now apply Rdiv_lt_0_compat). cbn [mean3].
      assert (PM : plain_mean3 (stored_yxz f) h = Some (Rsum (map (stored_yxz f) h) / INR (length h))) by (rewrite Eh; reflexivity). rewrite PM. f_equal. f_equal. field. split; lra.
Qed.

(** ** All pixels of all shells *)

Lemma np_pos : forall P, (1 <= ms_nside P)%Z -> (12 <= nside2npix (ms_nside P))%nat.
Proof. intros P H. unfold nside2npix. assert (1 <= ms_nside P ^ 2)%Z by nia. lia. Qed.

Section Shells.
Variables (V : voxels) (P : mc_shells) (nr : nat) (mc : Z) (draws : nat -> nat -> draws3) (hit : nat -> nat -> list voxel).
Let np := nside2npix (ms_nside P).
Hypothesis HV : good_voxels V.
Hypothesis Nx : (1 <= bnx V)%nat.
Hypothesis Ny : (1 <= bny V)%nat.
Hypothesis Nz : (1 <= bnz V)%nat.
Hypothesis HP : good_mc_shells P nr.
Hypothesis Hn : (1 <= ms_nside P)%Z.
Hypothesis Hmc : (0 <= mc)%Z.
Hypothesis Hd : forall i j, good_draws (Z.to_nat mc) (draws i j).
Hypothesis Hhit : forall i j, (i < nr)%nat -> (j < np)%nat -> hits3 V (sample_points P draws i j) (hit i j).

Definition ent3 (i j : nat) : list entry3 := entries3 mc (bnx V) (bny V) (bnz V) (hit i j).
Definition cells3 : list (list (list entry3)) := tab2 nr np ent3.
Definition cnt3 (i j : nat) : nat := length (touched3 (bnx V) (bny V) (bnz V) (hit i j)).

Lemma hit_grid3 : forall i j, (i < nr)%nat -> (j < np)%nat -> forall p, In p (hit i j) -> in_range3 (bnx V) (bny V) (bnz V) p.
Proof. intros i j Hi Hj p Hp. exact (hits_in_grid3 V _ _ p (Hhit i j Hi Hj) Hp). Qed.

Lemma cnt_distinct3 : forall i j, (i < nr)%nat -> (j < np)%nat -> distinct3 (hit i j) (cnt3 i j).
Proof. intros. apply touched_distinct3. now apply hit_grid3. Qed.

Lemma shells_eq : shell_weights (the_cube V) P draws mc = stack_shells (map make_shell cells3).
Proof.
  unfold shell_weights. assert (HP' := HP). destruct HP' as (_ & _ & -> & _). fold np. rewrite (mapM_seq _ _ nr (fun i => tab np (ent3 i))); [reflexivity|].
  intros i Hi. apply mapM_seq. intros j Hj. apply (pixel_weights_ok V P nr); auto.
Qed.

Lemma ent_len3 : forall i j, length (ent3 i j) = cnt3 i j.
Proof. intros. unfold ent3, entries3. apply map_length. Qed.

Lemma make_shell_uniform : forall i, (forall j, (j < np)%nat -> cnt3 i j = cnt3 i 0) -> make_shell (tab np (ent3 i)) = UniformShell (cnt3 i 0) (tab np (ent3 i)).
Proof.
  intros i H. pose proof (np_pos P Hn) as Np0. fold np in Np0. unfold make_shell. rewrite tab_nth by lia. rewrite ent_len3.
  replace (forallb _ _) with true; [reflexivity|]. symmetry. apply forallb_tab. intros j Hj. rewrite ent_len3, H by auto. apply Nat.eqb_refl.
Qed.

Lemma make_shell_ragged : forall i j, (j < np)%nat -> cnt3 i j <> cnt3 i 0 -> make_shell (tab np (ent3 i)) = RaggedShell (tab np (ent3 i)).
Proof.
  intros i j Hj H. pose proof (np_pos P Hn) as Np0. fold np in Np0. unfold make_shell. rewrite tab_nth by lia. rewrite ent_len3.
  rewrite (forallb_false _ _ np _ j); auto. rewrite ent_len3. now apply Nat.eqb_neq.
Qed.

Lemma map_shell_cells : forall rows, map shell_cells (map make_shell rows) = rows.
Proof.
  intros rows. rewrite map_map. rewrite <- (map_id rows) at 2. apply map_ext. intros r. unfold make_shell. destruct (forallb _ r); reflexivity.
Qed.

Lemma shells_ragged : (forall i, (i < nr)%nat -> exists j, (j < np)%nat /\ cnt3 i j <> cnt3 i 0) ->
  shell_weights (the_cube V) P draws mc = Ok (ShellArrays cells3).
Proof.
  intros H. rewrite shells_eq. unfold stack_shells. rewrite map_shell_cells. unfold cells3 at 1, tab2. rewrite tab_map.
  replace (forallb ragged_shell _) with true; [reflexivity|]. symmetry. apply forallb_tab. intros i Hi. destruct (H i Hi) as (j & Hj & Hd').
  change (ragged_shell (make_shell (tab np (ent3 i))) = true). now rewrite (make_shell_ragged i j).
Qed.

Lemma shells_uniform : (forall i j, (i < nr)%nat -> (j < np)%nat -> cnt3 i j = cnt3 0 0) ->
  shell_weights (the_cube V) P draws mc = Ok (ShellNumbers (cnt3 0 0) cells3).
Proof.
  intros H. assert (HP' := HP). destruct HP' as (Hr & _). pose proof (np_pos P Hn) as Hp. fold np in Hp. rewrite shells_eq. unfold stack_shells. rewrite map_shell_cells.
  set (g := fun i => UniformShell (cnt3 0 0) (tab np (ent3 i))).
  assert (E : map make_shell cells3 = tab nr g).
  { unfold cells3, tab2. rewrite tab_map. apply tab_ext. intros i Hi. unfold g. change (fun j => ent3 i j) with (ent3 i). rewrite make_shell_uniform by (intros; transitivity (cnt3 0 0); [|symmetry]; apply H; auto; lia).
    now rewrite (H i 0%nat) by (auto; lia). }
  rewrite E. rewrite (forallb_false _ ragged_shell nr _ 0) by (auto; lia).
  assert (Hd' := tab_cons _ nr g Hr). rewrite Hd'. unfold g at 1. rewrite <- Hd'.
  replace (forallb (uniform_shell (cnt3 0 0)) (tab nr g)) with true; [reflexivity|]. symmetry. apply forallb_tab. intros i Hi. cbn. apply Nat.eqb_refl.
Qed.

Lemma shells_mixed : forall i0 i1 j1, (i0 < nr)%nat -> (forall j, (j < np)%nat -> cnt3 i0 j = cnt3 i0 0) ->
  (i1 < nr)%nat -> (j1 < np)%nat -> cnt3 i1 j1 <> cnt3 i0 0 ->
  shell_weights (the_cube V) P draws mc = Err ValueError.
Proof.
  intros i0 i1 j1 H0 Hrow H1 J1 Hne. assert (HP' := HP). destruct HP' as (Hr & _). pose proof (np_pos P Hn) as Hp. fold np in Hp. rewrite shells_eq. unfold stack_shells.
  unfold cells3, tab2. rewrite tab_map. set (g := fun i => make_shell (tab np (ent3 i))). change (fun i => make_shell (tab np (fun j => ent3 i j))) with g.
  assert (E0 : g i0 = UniformShell (cnt3 i0 0) (tab np (ent3 i0))) by (now apply make_shell_uniform).
  rewrite (forallb_false _ ragged_shell nr g i0) by (auto; now rewrite E0).
  destruct (tab nr g) as [|[r|k r] rest] eqn:ER; [reflexivity|reflexivity|]. rewrite <- ER.
  destruct (Nat.eq_dec k (cnt3 i0 0)) as [->|Hk].
  - rewrite (forallb_false _ _ nr g i1); auto. unfold g, make_shell. rewrite tab_nth by lia. rewrite ent_len3.
    destruct (forallb _ _) eqn:F; [|reflexivity]. rewrite forallb_tab in F. specialize (F j1 J1). rewrite ent_len3 in F. apply Nat.eqb_eq in F.
    cbn [uniform_shell]. apply Nat.eqb_neq. congruence.
  - rewrite (forallb_false _ _ nr g i0); auto. rewrite E0. cbn [uniform_shell]. apply Nat.eqb_neq. auto.
Qed.

Variables (f : list (list (list R))) (w : option (list (list (list R)))).

Lemma cells3_get : forall A i j (k : list entry3 -> res A), (i < nr)%nat -> (j < np)%nat ->
  (r <- py_get cells3 (Z.of_nat i) ;; c <- py_get r (Z.of_nat j) ;; k c) = k (ent3 i j).
Proof.
  intros A i j k Hi Hj. rewrite (py_get_ok _ cells3 _ []) by (unfold cells3; rewrite tab2_length; lia). cbn [bind]. rewrite Nat2Z.id.
  unfold cells3, tab2. rewrite tab_nth by auto. rewrite (py_get_ok _ (tab _ _) _ []) by (rewrite tab_length; lia). cbn [bind]. now rewrite Nat2Z.id, tab_nth by auto.
Qed.

Lemma shell_remap_arrays : (1 <= mc)%Z -> (forall i j, (i < nr)%nat -> (j < np)%nat -> fits f (hit i j)) ->
  (forall w', w = Some w' -> forall i j, (i < nr)%nat -> (j < np)%nat -> fits w' (hit i j)) ->
  shell_remap P (Some (ShellArrays cells3)) f w = Ok (tab2 nr np (fun i j => mean3 f w (hit i j))).
Proof.
  intros Hm Hf Hw. unfold shell_remap. assert (HP' := HP). destruct HP' as (_ & _ & -> & _). fold np. apply mapM_seq. intros i Hi. apply mapM_seq. intros j Hj.
  rewrite cells3_get by auto. apply pixel_value_ok; auto. now apply hit_grid3.
Qed.

Lemma shell_remap_bad : forall n1 n2 n3 i j q, (1 <= mc)%Z -> shape3 f n1 n2 n3 -> w = None -> (i < nr)%nat -> (j < np)%nat -> In q (hit i j) ->
  (n1 <= vj q \/ n2 <= vi q \/ n3 <= vk q)%nat -> shell_remap P (Some (ShellArrays cells3)) f w = Err IndexError.
Proof.
  intros n1 n2 n3 i j q Hm Hf -> Hi Hj Hq Hbad. unfold shell_remap. assert (HP' := HP). destruct HP' as (_ & _ & -> & _). fold np.
  assert (O : forall a b, (a < nr)%nat -> (b < np)%nat ->
     (exists y, (r <- py_get cells3 (Z.of_nat a) ;; c <- py_get r (Z.of_nat b) ;; pixel_value f None c) = Ok y) \/
     (r <- py_get cells3 (Z.of_nat a) ;; c <- py_get r (Z.of_nat b) ;; pixel_value f None c) = Err IndexError).
  { intros a b Ha Hb. rewrite cells3_get by auto. unfold pixel_value. destruct (negb _); [|left; eauto].
    destruct (read_entries_or3 f (ent3 a b)) as [[l E]|E]; rewrite E; cbn [bind]; [left; eauto|now right]. }
  apply mapM_index_err.
  - intros a Ha. apply in_seq in Ha. destruct (mapM_index_or _ _ (fun b => r <- py_get cells3 (Z.of_nat a) ;; c <- py_get r (Z.of_nat b) ;; pixel_value f None c) (seq 0 np)) as [(m & E & _)|E]; eauto.
    intros b Hb. apply in_seq in Hb. apply O; lia.
  - exists i. split; [apply in_seq; lia|]. apply mapM_index_err.
    + intros b Hb. apply in_seq in Hb. apply O; lia.
    + exists j. split; [apply in_seq; lia|]. rewrite cells3_get by auto. unfold pixel_value, ent3. rewrite sum_weights3 by (now apply hit_grid3).
      rewrite (read_entries_bad3 mc f _ _ _ _ n1 n2 n3 q) by (auto; now apply hit_grid3).
      rewrite Req_bool_false; [reflexivity|]. apply Rgt_not_eq. apply Rdiv_lt_0_compat; [|apply IZR_lt; lia].
      apply lt_0_INR. destruct (hit i j); [destruct Hq|cbn; lia].
Qed.

Lemma shell_remap_zero : forall k, (forall i j, (i < nr)%nat -> (j < np)%nat -> cnt3 i j = 0%nat) ->
  shell_remap P (Some (ShellNumbers k cells3)) f w = Ok (tab2 nr np (fun i j => Some no_data)) /\
  forall i j, (i < nr)%nat -> (j < np)%nat -> hit i j = [].
Proof.
  intros k H.
  assert (E : forall i j, (i < nr)%nat -> (j < np)%nat -> hit i j = []).
  { intros i j Hi Hj. apply (touched_nil3 (bnx V) (bny V) (bnz V)); [now apply hit_grid3|]. apply length_zero_iff_nil. now apply H. }
  split; [|exact E]. unfold shell_remap. assert (HP' := HP). destruct HP' as (_ & _ & -> & _). fold np. apply mapM_seq. intros i Hi. apply mapM_seq. intros j Hj.
  rewrite cells3_get by auto. unfold pixel_value_obj, ent3. rewrite sum_weights3 by (now apply hit_grid3). rewrite E by auto. rewrite Req_bool_true; [reflexivity|]. cbn. unfold Rdiv. ring.
Qed.

Lemma shell_remap_pos : forall k, (1 <= mc)%Z -> (1 <= cnt3 0 0)%nat -> shell_remap P (Some (ShellNumbers k cells3)) f w = Err IndexError.
Proof.
  intros k Hm Hk. assert (HP' := HP). destruct HP' as (Hr & _ & Lr & _). pose proof (np_pos P Hn) as Hp. fold np in Hp. unfold shell_remap. rewrite Lr. fold np.
  replace (seq 0 nr) with (0%nat :: seq 1 (nr - 1)) by (replace nr with (S (nr - 1)) by lia; cbn [Nat.sub seq]; now rewrite Nat.sub_0_r). apply mapM_first.
  replace (seq 0 np) with (0%nat :: seq 1 (np - 1)) by (replace np with (S (np - 1)) by lia; cbn [Nat.sub seq]; now rewrite Nat.sub_0_r). apply mapM_first.
  rewrite cells3_get by lia. unfold pixel_value_obj, ent3. rewrite sum_weights3 by (apply hit_grid3; lia). rewrite Req_bool_false; [reflexivity|].
  assert (hit 0 0 <> []). { intros E. unfold cnt3 in Hk. rewrite E in Hk. unfold touched3 in Hk. rewrite filter_none in Hk; [cbn in Hk; lia|]. intros q _. reflexivity. }
  assert (0 < INR (length (hit 0 0))) by (apply lt_0_INR; destruct (hit 0 0); [contradiction|cbn; lia]).
  apply Rgt_not_eq. apply Rdiv_lt_0_compat; auto. apply IZR_lt. lia.
Qed.

End Shells.

(** ** Set-up *)

Definition lin_edges (rmin rmax : R) (nr : nat) : list R := tab (S nr) (fun i => rmin + INR i * ((rmax - rmin) / INR nr)).

Lemma triple_list : forall l : list R, (length l =? 3)%nat = true -> exists a b c, l = [a; b; c].
Proof. intros l H. destruct l as [|a [|b [|c [|d l]]]]; try discriminate. now exists a, b, c. Qed.

Definition lin_shells (rmin rmax : R) (nr : nat) (nside : Z) (c : list R) : mc_shells :=
  McShells (lin_edges rmin rmax nr) (tab nr (fun i => rmin + (INR i + / 2) * ((rmax - rmin) / INR nr))) nside c.

Definition log_shells (rmin rmax : R) (nr : nat) (nside : Z) (c : list R) (z : bool) : mc_shells :=
  McShells (log_edges rmin rmax nr z)
    (tab nr (fun j => / 2 * (nth (S j) (log_edges rmin rmax nr z) 0 + nth j (log_edges rmin rmax nr z) 0))) nside c.

Lemma shells_lin_ok : forall rmin rmax nr nside c, 0 <= rmin < rmax -> (2 <= nr)%nat -> length c = 3%nat ->
  shells_lin rmin rmax (Z.of_nat nr) nside c = Ok (lin_shells rmin rmax nr nside c).
Proof.
  intros rmin rmax nr nside c Hr Nr Lc. unfold shells_lin. rewrite posZ by lia. rewrite Rle_bool_t, Rlt_bool_t by lra. rewrite Lc. cbn [py_assert Nat.eqb].
  rewrite linspace_Z by lia. cbn [bind]. rewrite mids. rewrite !(py_get_ok _ (tab nr _) _ 0) by (rewrite tab_length; lia). reflexivity.
Qed.

Lemma shells_lin_single : forall rmin rmax nside c, 0 <= rmin < rmax -> length c = 3%nat -> shells_lin rmin rmax 1 nside c = Err IndexError.
Proof.
  intros rmin rmax nside c Hr Lc. unfold shells_lin. rewrite Rle_bool_t, Rlt_bool_t by lra. rewrite Lc. change (0 <? 1)%Z with true. cbn [py_assert Nat.eqb].
  change 1%Z with (Z.of_nat 1). rewrite linspace_Z by lia. cbn [bind]. rewrite mids. reflexivity.
Qed.

Lemma shells_log_ok : forall rmin rmax nr nside c z, 0 < rmin < rmax -> (1 <= nr)%nat -> length c = 3%nat ->
  shells_log rmin rmax (Z.of_nat nr) nside c z = Ok (log_shells rmin rmax nr nside c z).
Proof.
  intros rmin rmax nr nside c z Hr Nr Lc. unfold shells_log. rewrite posZ by lia. rewrite !Rlt_bool_t by lra. rewrite Lc. cbn [py_assert Nat.eqb].
  rewrite log_redges_ok by auto. cbn [bind].
  assert (E : log_edges rmin rmax nr z = tab (S nr) (fun i => nth i (log_edges rmin rmax nr z) 0)) by (apply tab_of_list; now apply log_edges_length).
  assert (M : map2 (fun a b => / 2 * (a + b)) (tl (log_edges rmin rmax nr z)) (removelast (log_edges rmin rmax nr z)) =
              tab nr (fun j => / 2 * (nth (S j) (log_edges rmin rmax nr z) 0 + nth j (log_edges rmin rmax nr z) 0))).
  { rewrite E at 1 2. now rewrite steps_tab. }
  rewrite M. reflexivity.
Qed.

Lemma shells_lin_inv : forall rmin rmax numr nside c P, shells_lin rmin rmax numr nside c = Ok P ->
  exists nr, numr = Z.of_nat nr /\ 0 <= rmin < rmax /\ (2 <= nr)%nat /\ length c = 3%nat /\ P = lin_shells rmin rmax nr nside c.
Proof.
  intros rmin rmax numr nside c P H. assert (H0 := H). unfold shells_lin in H.
  do 4 (apply assert_inv in H; let E := fresh "E" in destruct H as [E H]). apply Rle_bool_inv in E. apply Rlt_bool_inv in E0. apply Z.ltb_lt in E1. apply Nat.eqb_eq in E2.
  replace numr with (Z.of_nat (Z.to_nat numr)) in * by lia. set (nr := Z.to_nat numr) in *.
  destruct (Nat.eq_dec nr 1) as [N|N]; [rewrite N in H0; change (Z.of_nat 1) with 1%Z in H0; rewrite shells_lin_single in H0 by auto; discriminate|].
  rewrite shells_lin_ok in H0 by (auto; lia). injection H0 as <-. exists nr. repeat split; auto; lia.
Qed.

Lemma shells_log_inv : forall rmin rmax numr nside c z P, shells_log rmin rmax numr nside c z = Ok P ->
  exists nr, numr = Z.of_nat nr /\ 0 < rmin < rmax /\ (1 <= nr)%nat /\ length c = 3%nat /\ P = log_shells rmin rmax nr nside c z.
Proof.
  intros rmin rmax numr nside c z P H. assert (H0 := H). unfold shells_log in H.
  do 4 (apply assert_inv in H; let E := fresh "E" in destruct H as [E H]). apply Rlt_bool_inv in E, E0. apply Z.ltb_lt in E1. apply Nat.eqb_eq in E2.
  replace numr with (Z.of_nat (Z.to_nat numr)) in * by lia. set (nr := Z.to_nat numr) in *.
  rewrite shells_log_ok in H0 by (auto; lia). injection H0 as <-. exists nr. repeat split; auto; lia.
Qed.

(** The shells were made by one of the two set-up functions. *)
Definition made_shells (P : mc_shells) (nr : nat) (nside : Z) : Prop :=
  (exists rmin rmax c, shells_lin rmin rmax (Z.of_nat nr) nside c = Ok P) \/
  (exists rmin rmax c z, shells_log rmin rmax (Z.of_nat nr) nside c z = Ok P).

Lemma made_shells_good : forall P nr nside, made_shells P nr nside -> good_mc_shells P nr /\ ms_nside P = nside.
Proof.
  intros P nr nside [(rmin & rmax & c & H)|(rmin & rmax & c & z & H)].
  - apply shells_lin_inv in H. destruct H as (nr' & E & Hr & Nr & Lc & ->). apply Nat2Z.inj in E. subst nr'. split; [|reflexivity].
    unfold good_mc_shells, lin_shells, lin_edges. cbn [ms_redges ms_rmid ms_center]. rewrite !tab_length. repeat split; auto; try lia;
      apply tab_nonneg_edges; try lra; auto; apply Rlt_le, Rdiv_lt_0_compat; try lra; apply INR_pos; lia.
  - apply shells_log_inv in H. destruct H as (nr' & E & Hr & Nr & Lc & ->). apply Nat2Z.inj in E. subst nr'. split; [|reflexivity].
    unfold good_mc_shells, log_shells. cbn [ms_redges ms_rmid ms_center]. rewrite log_edges_length, tab_length by auto.
    repeat split; auto; pose proof (log_edges_incr rmin rmax nr z i Hr H); lra.
Qed.

(** ** Where the samples are *)

Lemma radius_ok : forall a b u, 0 <= a <= b -> 0 <= u < 1 ->
  a <= radius a b u <= b /\ radius a b u * radius a b u * radius a b u = (b * b * b - a * a * a) * u + a * a * a.
Proof.
  intros a b u Hab Hu. pose proof (radius_arg a b u Hab Hu) as A. pose proof (cbrt_cube _ A) as C. pose proof (cbrt_nonneg ((b * b * b - a * a * a) * u + a * a * a)) as N.
  fold (radius a b u) in *. assert (L : a * a * a <= b * b * b) by (assert (a * a <= b * b) by nra; apply Rmult_le_compat; nra).
  split; [split|exact C].
  - apply cube_le; [lra|exact N|]. rewrite C. nra.
  - apply cube_le; [exact N|lra|]. rewrite C. nra.
Qed.

Lemma seen_dist : forall c r ang, 0 <= r -> dist3 (seen_from c r ang) c = r.
Proof.
  intros c r [theta phi] Hr. unfold dist3, seen_from. cbn [vx vy vz fst snd].
  replace _ with (sqrt (r * r * ((cos phi * cos phi + sin phi * sin phi) * (sin theta * sin theta) + cos theta * cos theta))) by (f_equal; ring).
  pose proof (sin2_cos2 phi) as A. pose proof (sin2_cos2 theta) as B. unfold Rsqr in A, B.
  replace (cos phi * cos phi + sin phi * sin phi) with 1 by lra. replace (1 * (sin theta * sin theta) + cos theta * cos theta) with 1 by lra.
  rewrite Rmult_1_r. now apply sqrt_square.
Qed.

Lemma sample_length : forall P draws i j, length (sample_points P draws i j) = length (dx (draws i j)).
Proof. intros. unfold sample_points. destruct (plane_centre _ _). now rewrite map_length, seq_length. Qed.

Lemma sample_nth : forall P draws i j q xp yp, plane_centre (ms_nside P) j = (xp, yp) -> (q < length (dx (draws i j)))%nat ->
  nth q (sample_points P draws i j) (V3 0 0 0) =
  seen_from (center_of P) (radius (nth i (ms_redges P) 0) (nth (i + 1) (ms_redges P) 0) (nth q (dr (draws i j)) 0))
    (direction (ms_nside P) xp yp (nth q (dx (draws i j)) 0) (nth q (dy (draws i j)) 0)).
Proof.
  intros P draws i j q xp yp E Hq. unfold sample_points. rewrite E. rewrite (nth_map_lt nat vec _ _ q _ 0%nat) by (now rewrite seq_length).
  rewrite seq_nth by auto. reflexivity.
Qed.

(** ** Means *)

Lemma weighted_between3 : forall lo hi (wt vl : voxel -> R) h, (forall q, In q h -> 0 <= wt q) -> (forall q, In q h -> lo <= vl q <= hi) ->
  lo * Rsum (map wt h) <= Rsum (map (fun q => wt q * vl q) h) <= hi * Rsum (map wt h).
Proof.
  intros lo hi wt vl h. unfold Rsum. induction h as [|q h IH]; intros Hw Hv; cbn; [lra|].
  specialize (IH (fun r Hr => Hw r (or_intror Hr)) (fun r Hr => Hv r (or_intror Hr))).
  pose proof (Hw q (or_introl eq_refl)). pose proof (Hv q (or_introl eq_refl)). nra.
Qed.

Lemma mean_between3 : forall f w h lo hi v, h <> [] -> mean3 f w h = Some v -> (forall q, In q h -> lo <= stored_yxz f q <= hi) ->
  (forall w', w = Some w' -> forall q, In q h -> 0 <= stored_yxz w' q) -> lo <= v <= hi.
Proof.
  intros f w h lo hi v Hne E Hv Hw. destruct h as [|q0 h0] eqn:Eh; [contradiction|]. rewrite <- Eh in *. destruct w as [w|].
  - assert (WM : mean3 f (Some w) h = if Req_EM_T (Rsum (map (stored_yxz w) h)) 0 then None
        else Some (Rsum (map (fun q => stored_yxz w q * stored_yxz f q) h) / Rsum (map (stored_yxz w) h))) by (rewrite Eh; reflexivity).
    rewrite WM in E. destruct (Req_EM_T _ 0) as [Z|Z]; [discriminate|]. injection E as <-.
    pose proof (sum_nonneg _ (stored_yxz w) h (Hw w eq_refl)). apply div_between; [lra|]. now apply weighted_between3; [apply Hw|].
  - assert (PM : mean3 f None h = Some (Rsum (map (stored_yxz f) h) / INR (length h))) by (rewrite Eh; reflexivity). rewrite PM in E. injection E as <-.
    apply div_between; [rewrite Eh; apply lt_0_INR; cbn; lia|]. rewrite <- (sum_const_one _ h).
    rewrite (map_ext (stored_yxz f) (fun q => 1 * stored_yxz f q)) by (intros; ring). apply weighted_between3; auto. intros; lra.
Qed.

(** The voxels hit, computed. *)
Definition hits_of3 (V : voxels) (l : list vec) : list voxel :=
  flat_map (fun p => match hist_bin3 (tab (S (bnx V)) (fun i => bx0 V + INR i * bhx V)) (tab (S (bny V)) (fun i => by0 V + INR i * bhy V))
                             (tab (S (bnz V)) (fun i => bz0 V + INR i * bhz V)) (Some (triple p)) with
                     | Some q => [q] | None => [] end) l.

Lemma hits_of_ok3 : forall V l, good_voxels V -> (1 <= bnx V)%nat -> (1 <= bny V)%nat -> (1 <= bnz V)%nat -> hits3 V l (hits_of3 V l).
Proof.
  intros V l HV Nx Ny Nz. induction l as [|p l IH]; [constructor|]. unfold hits_of3. cbn [flat_map]. destruct (counted_dec3 V p HV Nx Ny Nz) as [[q Hq]|Ho].
  - rewrite (bin3_in V HV p q Hq). cbn [app]. constructor; auto.
  - rewrite (bin3_out V HV p Ho). cbn [app]. constructor; auto.
Qed.

Lemma hits3_nil_iff : forall V l h, good_voxels V -> hits3 V l h -> (h = [] <-> forall p, In p l -> ~ in_closed3 V p).
Proof.
  intros V l h HV Hh. induction Hh as [|p q l h Hq Hh IH|p l h Ho Hh IH].
  - split; [intros _ r []|reflexivity].
  - split; [discriminate|]. intros Hn. exfalso. apply (Hn p (or_introl eq_refl)). now apply (counted_closed3 V p q).
  - rewrite IH. split; [intros Hn r [<-|Hr]; auto|intros Hn r Hr; apply Hn; now right].
Qed.

(** ** Cases by the numbers of voxels hit *)

Lemma count_cases : forall (c : nat -> nat -> nat) n m,
  (forall i, (i < n)%nat -> exists j, (j < m)%nat /\ c i j <> c i 0%nat) \/ exists i, (i < n)%nat /\ forall j, (j < m)%nat -> c i j = c i 0%nat.
Proof.
  intros c n m. induction n as [|n IH]; [left; intros; lia|]. destruct IH as [IH|(i & Hi & H)]; [|right; exists i; split; [lia|auto]].
  assert (D : (exists j, (j < m)%nat /\ c n j <> c n 0%nat) \/ forall j, (j < m)%nat -> c n j = c n 0%nat).
  { clear. induction m as [|m IH]; [right; intros; lia|]. destruct IH as [(j & Hj & H)|IH]; [left; exists j; split; [lia|auto]|].
    destruct (Nat.eq_dec (c n m) (c n 0%nat)); [right|left; exists m; split; auto]. intros j Hj. destruct (Nat.eq_dec j m) as [->|]; auto. apply IH. lia. }
  destruct D as [D|D]; [left|right; exists n; split; auto]. intros i Hi. destruct (Nat.eq_dec i n) as [->|]; auto. apply IH. lia.
Qed.

Lemma count_same : forall (c : nat -> nat -> nat) k n m,
  (forall i j, (i < n)%nat -> (j < m)%nat -> c i j = k) \/ exists i j, (i < n)%nat /\ (j < m)%nat /\ c i j <> k.
Proof.
  intros c k n m. induction n as [|n IH]; [left; intros; lia|]. destruct IH as [IH|(i & j & Hi & Hj & H)]; [|right; exists i, j; repeat split; auto; lia].
  assert (D : (exists j, (j < m)%nat /\ c n j <> k) \/ forall j, (j < m)%nat -> c n j = k).
  { clear. induction m as [|m IH]; [right; intros; lia|]. destruct IH as [(j & Hj & H)|IH]; [left; exists j; split; [lia|auto]|].
    destruct (Nat.eq_dec (c n m) k); [right|left; exists m; split; auto]. intros j Hj. destruct (Nat.eq_dec j m) as [->|]; auto. apply IH. lia. }
  destruct D as [(j & Hj & D)|D]; [right; exists n, j; auto|left]. intros i j Hi Hj. destruct (Nat.eq_dec i n) as [->|]; auto. apply IH; auto. lia.
Qed.
