(** * Proofs about [MOrtho.v] *)

From Coq Require Import Reals ZArith List Bool Lia Lra Psatz.
From Flocq Require Import Core.Raux.
From Verif Require Import Base BaseP SpecSphere SpecGrid SpecRemap SpecView SpecOrtho MCoords MUsphere MGrids MDense MOrtho
  PTrig PCoords PUsphere PRemap2 PPolarCoords PHealpixBoundary PDense PView.
Import ListNotations.
Open Scope R_scope.

(** ** Flattened tables *)

Lemma combine_concat : forall A B I (g : I -> list A) (h : I -> list B) l, (forall i, length (g i) = length (h i)) ->
  combine (concat (map g l)) (concat (map h l)) = concat (map (fun i => combine (g i) (h i)) l).
Proof.
  intros A B I g h l H. induction l as [|a l IH]; [reflexivity|]. cbn [map concat].
  assert (E : forall (x x' : list A) (y y' : list B), length x = length y -> combine (x ++ x') (y ++ y') = combine x y ++ combine x' y').
  { clear. induction x as [|a x IH]; intros x' [|b y] y' HL; try discriminate; [reflexivity|]. cbn in *. f_equal. apply IH. lia. }
  rewrite E by apply H. now rewrite IH.
Qed.

Lemma combine_flat : forall A B n m (g : nat -> nat -> A) (h : nat -> nat -> B),
  combine (concat (tab2 n m g)) (concat (tab2 n m h)) = concat (tab2 n m (fun i j => (g i j, h i j))).
Proof.
  intros. unfold tab2, tab at 1 3 5. rewrite combine_concat by (intros; now rewrite !tab_length). f_equal.
  apply map_ext. intros i. unfold tab. generalize (seq 0 m). induction l as [|a l IH]; [reflexivity|]. cbn. now rewrite IH.
Qed.

Lemma in_flat : forall A n m (g : nat -> nat -> A) x, In x (concat (tab2 n m g)) <-> exists i j, (i < n)%nat /\ (j < m)%nat /\ x = g i j.
Proof.
  intros. rewrite in_concat. unfold tab2, tab. split.
  - intros (r & Hr & Hx). apply in_map_iff in Hr. destruct Hr as (i & <- & Hi). apply in_map_iff in Hx. destruct Hx as (j & <- & Hj).
    apply in_seq in Hi. apply in_seq in Hj. exists i, j. repeat split; lia.
  - intros (i & j & Hi & Hj & ->). eexists. split; [apply in_map_iff; exists i; split; [reflexivity|apply in_seq; lia]|].
    apply in_map_iff. exists j. split; [reflexivity|apply in_seq; lia].
Qed.

Lemma mapM_flat : forall A B (f : A -> res B) n m g h, (forall i j, (i < n)%nat -> (j < m)%nat -> f (g i j) = Ok (h i j)) ->
  mapM f (concat (tab2 n m g)) = Ok (concat (tab2 n m h)).
Proof.
  intros A B f n m g h H. unfold tab2.
  assert (K : forall l, (forall i, In i l -> (i < n)%nat) -> mapM f (concat (map (fun i => tab m (g i)) l)) = Ok (concat (map (fun i => tab m (h i)) l))).
  { induction l as [|a l IH]; intros Hl; [reflexivity|]. cbn [map concat].
    assert (App : forall x y, mapM f (x ++ y) = (x' <- mapM f x ;; y' <- mapM f y ;; Ok (x' ++ y'))).
    { clear. induction x as [|a x IH]; intros y; cbn [app mapM bind].
      - destruct (mapM f y); reflexivity.
      - destruct (f a); [|reflexivity]. cbn [bind]. rewrite IH. destruct (mapM f x); [|reflexivity]. cbn [bind].
        destruct (mapM f y); reflexivity. }
    rewrite App. rewrite (mapM_tab _ _ f m (g a) (h a)) by (intros; apply H; auto; apply Hl; now left). cbn [bind].
    rewrite IH by (intros; apply Hl; now right). reflexivity. }
  apply K. intros i Hi. apply in_seq in Hi. lia.
Qed.

(** ** Scattered writes *)

Lemma set_nth_tab : forall A n (g : nat -> A) k v, set_nth (tab n g) k v = tab n (fun i => if (i =? k)%nat then v else g i).
Proof.
  intros A n g k v.
  unfold tab.
  assert (K : forall s, set_nth (map g (seq s n)) k v = map (fun i => if (i =? s + k)%nat then v else g i) (seq s n)).
  { revert k. induction n as [|n IH]; intros k s; [destruct k; reflexivity|]. cbn [seq map]. destruct k as [|k]; cbn [set_nth].
    - rewrite Nat.add_0_r, Nat.eqb_refl. f_equal. apply map_ext_in. intros i Hi. apply in_seq in Hi.
      replace (i =? s)%nat with false; [reflexivity|]. symmetry. apply Nat.eqb_neq. lia.
    - replace (s =? s + S k)%nat with false by (symmetry; apply Nat.eqb_neq; lia). f_equal. rewrite IH.
      apply map_ext. intros i. now replace (S s + k)%nat with (s + S k)%nat by lia. }
  rewrite K. reflexivity.
Qed.

Lemma set2_tab : forall n m (g : nat -> nat -> R) i j v, (i < n)%nat ->
  set_nth (tab2 n m g) i (set_nth (nth i (tab2 n m g) []) j v)
  = tab2 n m (fun a b => if ((a =? i) && (b =? j))%nat then v else g a b).
Proof.
  intros n m g i j v Hi. unfold tab2. rewrite tab_nth by auto. rewrite !set_nth_tab. apply tab_ext. intros a Ha.
  destruct (Nat.eqb_spec a i) as [->|N]; cbn [andb]; [reflexivity|]. now apply tab_ext.
Qed.

Definition wrote (a b : nat) (ps : list (nat * nat * R)) : bool :=
  existsb (fun p => (a =? fst (fst p)) && (b =? snd (fst p)))%nat ps.

Lemma put2_tab : forall n m (v : nat -> nat -> R) ps, 
  (forall p, In p ps -> (fst (fst p) < n)%nat /\ (snd (fst p) < m)%nat /\ snd p = v (fst (fst p)) (snd (fst p))) ->
  forall g, fold_left (fun a p => set_nth a (fst (fst p)) (set_nth (nth (fst (fst p)) a []) (snd (fst p)) (snd p))) ps (tab2 n m g)
  = tab2 n m (fun a b => if wrote a b ps then v a b else g a b).
Proof.
  intros n m v. induction ps as [|p ps IH]; intros H g; cbn [fold_left].
  - apply tab2_ext. intros. reflexivity.
  - destruct (H p ltac:(now left)) as (A & B & C). rewrite set2_tab by auto. rewrite IH by (intros; apply H; now right).
    apply tab2_ext. intros a b Ha Hb. unfold wrote. cbn [existsb]. destruct (existsb _ ps); [now rewrite orb_true_r|].
    rewrite orb_false_r. destruct (Nat.eqb_spec a (fst (fst p))); [|reflexivity]. destruct (Nat.eqb_spec b (snd (fst p))); [|reflexivity].
    cbn [andb]. now subst.
Qed.

Lemma put2_all : forall n m v g,
  put2 (tab2 n m g) (concat (tab2 n m (fun i _ => i))) (concat (tab2 n m (fun _ j => j))) (concat (tab2 n m v)) = tab2 n m v.
Proof.
  intros. unfold put2. rewrite !combine_flat.
  rewrite (put2_tab n m v); cycle 1.
  { intros p Hp. apply in_flat in Hp. destruct Hp as (i & j & Hi & Hj & ->). cbn [fst snd]. auto. }
  apply tab2_ext. intros a b Ha Hb.
  replace (wrote a b _) with true; [reflexivity|]. symmetry. apply existsb_exists. exists ((a, b), v a b). split.
  - apply in_flat. eauto. - cbn [fst snd]. now rewrite !Nat.eqb_refl.
Qed.

Lemma meshgrid_ind_tab : forall n m, meshgrid_ind (seq 0 n) (seq 0 m) = (tab2 m n (fun _ j => j), tab2 m n (fun i _ => i)).
Proof.
  intros. unfold meshgrid_ind, tab2, tab. f_equal; apply map_ext; intros; auto. now rewrite map_id.
Qed.

(** ** The sky seen by the samples *)

Lemma north_cross : forall c0 c1, cross (dir c0 c1) (east c0) = north c0 c1.
Proof. intros. apply up_cross. Qed.

(** Picture to sky. *)
Definition to_sky (c0 c1 : R) (w : vec) : vec := rodrigues (east c0) (c1 - end_theta) (rodrigues ez (c0 - end_phi) w).
(** Sky to picture. *)
Definition to_pic (c0 c1 : R) (w : vec) : vec := rodrigues (east end_phi) (end_theta - c1) (rodrigues ez (end_phi - c0) w).

Lemma to_sky_dot : forall c0 c1 v w, dot (to_sky c0 c1 v) (to_sky c0 c1 w) = dot v w.
Proof. intros. unfold to_sky. rewrite !rod_dot; auto using ez_unit, east_unit. Qed.
Lemma to_pic_dot : forall c0 c1 v w, dot (to_pic c0 c1 v) (to_pic c0 c1 w) = dot v w.
Proof. intros. unfold to_pic. rewrite !rod_dot; auto using ez_unit, east_unit. Qed.

Lemma east_dir : forall p, east p = dir (p + PI / 2) (PI / 2).
Proof.
  intros. unfold dir, east. rewrite cos_plus, sin_plus, sin_PI2, cos_PI2. apply vec_ext; cbn [vx vy vz]; ring.
Qed.

Lemma cos_end : cos end_phi = 0.
Proof. unfold end_phi. replace (3 * PI / 2) with (3 * (PI / 2)) by field. apply cos_3PI2. Qed.
Lemma sin_end : sin end_phi = -1.
Proof. unfold end_phi. replace (3 * PI / 2) with (3 * (PI / 2)) by field. apply sin_3PI2. Qed.

Lemma east_end : east end_phi = V3 1 0 0.
Proof. unfold east. rewrite cos_end, sin_end. apply vec_ext; cbn [vx vy vz]; ring. Qed.

Lemma to_sky_z : forall c0 c1, to_sky c0 c1 ez = dir c0 c1.
Proof.
  intros. unfold to_sky. rewrite rod_axis by apply ez_unit. unfold end_theta. rewrite Rminus_0_r. apply east_turn.
Qed.

Lemma to_sky_x : forall c0 c1, to_sky c0 c1 (V3 1 0 0) = east c0.
Proof.
  intros. unfold to_sky. rewrite <- east_end, (east_dir end_phi), <- dir_add.
  replace (end_phi + PI / 2 + (c0 - end_phi)) with (c0 + PI / 2) by ring. rewrite <- east_dir.
  apply rod_axis, east_unit.
Qed.

Lemma to_sky_y : forall c0 c1, to_sky c0 c1 (V3 0 1 0) = north c0 c1.
Proof.
  intros. replace (V3 0 1 0) with (cross ez (V3 1 0 0)) by (apply vec_ext; unfold cross, ez; cbn [vx vy vz]; ring).
  unfold to_sky. rewrite !rod_cross; auto using ez_unit, east_unit.
  fold (to_sky c0 c1 ez). fold (to_sky c0 c1 (V3 1 0 0)). rewrite to_sky_z, to_sky_x. apply north_cross.
Qed.

Lemma to_pic_z : forall c0 c1, to_pic c0 c1 (dir c0 c1) = ez.
Proof.
  intros. unfold to_pic. rewrite <- dir_add. replace (c0 + (end_phi - c0)) with end_phi by ring.
  rewrite <- (east_turn end_phi c1), rod_comp by apply east_unit. unfold end_theta.
  replace (c1 + (0 - c1)) with 0 by ring. apply rod_0.
Qed.

Lemma to_pic_x : forall c0 c1, to_pic c0 c1 (east c0) = V3 1 0 0.
Proof.
  intros. unfold to_pic. rewrite (east_dir c0), <- dir_add.
  replace (c0 + PI / 2 + (end_phi - c0)) with (end_phi + PI / 2) by ring. rewrite <- east_dir.
  rewrite rod_axis by apply east_unit. apply east_end.
Qed.

Lemma to_pic_y : forall c0 c1, to_pic c0 c1 (north c0 c1) = V3 0 1 0.
Proof.
  intros. rewrite <- north_cross. unfold to_pic. rewrite !rod_cross; auto using ez_unit, east_unit.
  fold (to_pic c0 c1 (dir c0 c1)). fold (to_pic c0 c1 (east c0)). rewrite to_pic_z, to_pic_x.
  apply vec_ext; unfold cross, ez; cbn [vx vy vz]; ring.
Qed.

Lemma to_pic_coords : forall c0 c1 s, to_pic c0 c1 s = V3 (dot (east c0) s) (dot (north c0 c1) s) (dot (dir c0 c1) s).
Proof.
  intros. rewrite <- !(to_pic_dot c0 c1 _ s), to_pic_x, to_pic_y, to_pic_z.
  apply vec_ext; unfold dot, ez; cbn [vx vy vz]; ring.
Qed.

Lemma sky_ranges : forall c0 c1, on_sky c0 c1 -> c1 < PI ->
  on_sky end_phi end_theta /\ Rabs (c1 - end_theta) < PI /\ Rabs (c0 - end_phi) < 2 * PI /\
  Rabs (end_theta - c1) < PI /\ Rabs (end_phi - c0) < 2 * PI.
Proof.
  intros c0 c1 [A B] C. pose proof PI_RGT_0. unfold end_phi, end_theta, on_sky.
  split; [split; lra|]. repeat split; apply Rabs_def1; lra.
Qed.

Lemma transform_ok : forall c0 c1 p t, on_sky c0 c1 -> c1 < PI ->
  ortho_transform [c0; c1] p t =
  Ok (if Rlt_bool (dot (dir c0 c1) (dir p t)) 0 then (None, None)
      else (Some (dot (east c0) (dir p t)), Some (dot (north c0 c1) (dir p t)))).
Proof.
  intros c0 c1 p t HS Hc. destruct (sky_ranges c0 c1 HS Hc) as (A & _ & _ & B & C).
  unfold ortho_transform. cbn [py_get length nth_error bind Z.of_nat].
  change (py_get [c0; c1] 0) with (@Ok R c0). change (py_get [c0; c1] 1) with (@Ok R c1). cbn [bind].
  destruct (shift_spec p t c0 c1 end_phi end_theta HS A B C) as (q & -> & (p' & t' & -> & D) & _). cbn [bind].
  fold (to_pic c0 c1 (dir p t)) in D. rewrite to_pic_coords in D.
  pose proof (s2c_dir p' t') as S. unfold s2c_vec in S. destruct (sphere2cart 1 p' t' 0 0 0) as [[x y] z]. rewrite D in S.
  injection S as -> -> ->. reflexivity.
Qed.

Lemma transform_antipole : forall c0 p t, 0 <= c0 <= 2 * PI -> ortho_transform [c0; PI] p t = Ok (None, None).
Proof.
  intros c0 p t H. pose proof PI_RGT_0. unfold ortho_transform.
  change (py_get [c0; PI] 0) with (@Ok R c0). change (py_get [c0; PI] 1) with (@Ok R PI). cbn [bind].
  rewrite shift_degenerate; [reflexivity| | | |]; unfold on_sky, end_phi, end_theta.
  - split; lra.
  - split; lra.
  - rewrite Rabs_left; lra.
  - apply Rabs_def1; lra.
Qed.

Lemma pixel_ok : forall ang2pix c0 c1 x y z, on_sky c0 c1 -> c1 < PI -> exists p t,
  ortho_pixel ang2pix c0 c1 x y z = Ok (ang2pix t p) /\ on_sky p t /\
  vscale (sqrt (x ^ 2 + y ^ 2 + z ^ 2)) (dir p t) = to_sky c0 c1 (V3 x y z).
Proof.
  intros ang2pix c0 c1 x y z HS Hc. destruct (sky_ranges c0 c1 HS Hc) as (A & B & C & _).
  unfold ortho_pixel. destruct (c2s_dir0 x y z) as (r & f & t & E & Hf & Ht & Hb). rewrite E.
  destruct (shift_spec f t end_phi end_theta c0 c1 A HS B C) as (q & -> & (p' & t' & -> & D) & RR). cbn [bind].
  exists p', t'. split; [reflexivity|]. split.
  { destruct RR as (a & b & Eab & S); [lra|lra|]. now injection Eab as -> ->. }
  assert (Er : r = sqrt (x ^ 2 + y ^ 2 + z ^ 2)).
  { unfold cart2sphere in E. injection E as E1 _ _. rewrite <- E1. f_equal. ring. }
  rewrite <- Er, D. fold (to_sky c0 c1 (dir f t)). rewrite <- Hb. unfold to_sky. now rewrite !rod_scale.
Qed.

Lemma sky_appears : forall c0 c1 rad x y z s, 0 < rad -> x ^ 2 + y ^ 2 + z ^ 2 = rad ^ 2 -> 0 < z -> dot s s = 1 ->
  vscale (sqrt (x ^ 2 + y ^ 2 + z ^ 2)) s = to_sky c0 c1 (V3 x y z) -> appears c0 c1 rad s x y.
Proof.
  intros c0 c1 rad x y z s Hr E Hz Hs H. rewrite E, sqrt_pow2 in H by lra.
  assert (K : forall w, rad * dot (to_sky c0 c1 w) s = dot w (V3 x y z)).
  { intros w. rewrite <- (to_sky_dot c0 c1 w (V3 x y z)), <- H. unfold dot, vscale. cbn [vx vy vz]. ring. }
  split; [exact Hs|]. rewrite <- to_sky_z, <- (to_sky_x c0 c1), <- to_sky_y. split; [|split].
  - apply Rmult_lt_reg_l with rad; [auto|]. rewrite K. unfold dot, ez. cbn [vx vy vz]. lra.
  - rewrite K. unfold dot. cbn [vx vy vz]. ring.
  - rewrite K. unfold dot. cbn [vx vy vz]. ring.
Qed.

(** ** Set-up *)

Definition lift_z (rad x y : R) : R := match ortho2cart x y rad None with Some z => z | None => 0 end.

Lemma ortho2cart_disc : forall x y rad, (if finite (ortho2cart x y rad None) then 1 else 0) = disc rad x y.
Proof.
  intros. unfold disc. destruct (Rlt_dec (x ^ 2 + y ^ 2) (rad ^ 2)) as [H|H].
  - destruct (ortho2cart_in x y rad None H) as (z & -> & _). reflexivity.
  - rewrite ortho2cart_out by lra. reflexivity.
Qed.

Definition seen_pix (ang2pix : R -> R -> Z) (c0 c1 rad x y : R) : Z :=
  match ortho_pixel ang2pix c0 c1 x y (lift_z rad x y) with Ok q => q | Err _ => 0%Z end.

Lemma seen_pix_spec : forall ang2pix c0 c1 rad x y, on_sky c0 c1 -> c1 < PI -> 0 < rad ->
  exists p t, seen_pix ang2pix c0 c1 rad x y = ang2pix t p /\ on_sky p t /\
    (on_disc rad x y -> appears c0 c1 rad (dir p t) x y).
Proof.
  intros ang2pix c0 c1 rad x y HS Hc Hr. unfold seen_pix.
  destruct (pixel_ok ang2pix c0 c1 x y (lift_z rad x y) HS Hc) as (p & t & E & Hs & D). rewrite E.
  exists p, t. split; [reflexivity|]. split; [exact Hs|]. intros HD. unfold lift_z in D.
  destruct (ortho2cart_in x y rad None HD) as (z & Ez & Z1 & Z2). rewrite Ez in D.
  apply (sky_appears c0 c1 rad x y z); auto. apply dir_unit.
Qed.

Definition fine (l : R) (n k : nat) : R := - (l / 2) + (INR k + / 2) * (l / INR n).

Definition the_ortho (ang2pix : R -> R -> Z) (lx ly : R) (nx ny : nat) (rad c0 c1 : R) (rx ry : nat) : ortho :=
  let X := fine lx (nx * rx) in let Y := fine ly (ny * ry) in
  Ortho (tab2 ny nx (fun _ j => fine lx nx j))
        (tab2 ny nx (fun i j => if Rlt_dec (fine lx nx j ^ 2 + fine ly ny i ^ 2) (rad ^ 2) then Some 1 else None))
        [c0; c1] rx ry
        (tab (S (nx * rx)) (fun i => - (lx / 2) + INR i * (lx / INR (nx * rx))))
        (tab2 (ny * ry) (nx * rx) (fun _ j => X j)) (tab2 (ny * ry) (nx * rx) (fun i _ => Y i))
        (tab2 (ny * ry) (nx * rx) (fun i j => disc rad (X j) (Y i)))
        (concat (tab2 (ny * ry) (nx * rx) (fun i _ => i))) (concat (tab2 (ny * ry) (nx * rx) (fun _ j => j)))
        (concat (tab2 (ny * ry) (nx * rx) (fun i j => seen_pix ang2pix c0 c1 rad (X j) (Y i)))).

Lemma half_line : forall l n, (1 <= n)%nat -> linspaceZ (- l / 2) (l / 2) (Z.of_nat n + 1) = Ok (tab (S n) (fun i => - (l / 2) + INR i * (l / INR n))).
Proof.
  intros. rewrite linspace_Z by auto. f_equal. apply tab_ext. intros. pose proof (INR_pos n H). field. lra.
Qed.

Lemma half_line' : forall l n, (1 <= n)%nat -> linspaceZ (- (l / 2)) (l / 2) (Z.of_nat n + 1) = Ok (tab (S n) (fun i => - (l / 2) + INR i * (l / INR n))).
Proof.
  intros. rewrite linspace_Z by auto. f_equal. apply tab_ext. intros. pose proof (INR_pos n H). field. lra.
Qed.

Lemma ortho_setup_ok : forall ang2pix lx ly nx ny rad c0 c1 rx ry, (2 <= nx)%nat -> (2 <= ny)%nat -> (1 <= rx)%nat -> (1 <= ry)%nat ->
  on_sky c0 c1 -> c1 < PI ->
  ortho_setup ang2pix lx (Z.of_nat nx) [c0; c1] (Some ly) (Some (Z.of_nat ny)) (Z.of_nat rx) (Z.of_nat ry) rad
  = Ok (the_ortho ang2pix lx ly nx ny rad c0 c1 rx ry).
Proof.
  intros ang2pix lx ly nx ny rad c0 c1 rx ry Nx Ny Rx Ry HS Hc. unfold ortho_setup.
  rewrite posZ by lia. cbn [length Nat.eqb py_assert]. rewrite !half_line by lia. cbn [bind]. rewrite !mids.
  rewrite !(py_get_ok _ (tab nx _) _ 0), !(py_get_ok _ (tab ny _) _ 0) by (rewrite tab_length; lia). cbn [bind].
  rewrite meshgrid_tab. rewrite tab2_zip2, tab2_map.
  rewrite !(py_get_ok _ (tab (S nx) _) _ 0), !(py_get_ok _ (tab (S ny) _) _ 0) by (rewrite tab_length; lia).
  rewrite !(py_get_last _ (tab (S nx) _) 0), !(py_get_last _ (tab (S ny) _) 0) by (rewrite tab_length; lia).
  cbn [bind]. rewrite !tab_length. change (Z.to_nat 0) with 0%nat. rewrite !tab_nth by lia.
  replace (S nx - 1)%nat with nx by lia. replace (S ny - 1)%nat with ny by lia.
  pose proof (INR_pos nx ltac:(lia)) as Pr. pose proof (INR_pos ny ltac:(lia)) as Pp.
  replace (- (lx / 2) + INR 0 * (lx / INR nx)) with (- (lx / 2)) by (cbn [INR]; ring).
  replace (- (ly / 2) + INR 0 * (ly / INR ny)) with (- (ly / 2)) by (cbn [INR]; ring).
  replace (- (lx / 2) + INR nx * (lx / INR nx)) with (lx / 2) by (field; lra).
  replace (- (ly / 2) + INR ny * (ly / INR ny)) with (ly / 2) by (field; lra).
  replace (Z.of_nat rx * Z.of_nat nx + 1)%Z with (Z.of_nat (nx * rx) + 1)%Z by lia.
  replace (Z.of_nat ry * Z.of_nat ny + 1)%Z with (Z.of_nat (ny * ry) + 1)%Z by lia.
  rewrite !half_line' by nia. cbn [bind]. rewrite !mids, meshgrid_tab, tab2_zip2, !tab2_map, !tab_length.
  replace (S (nx * rx) - 1)%nat with (nx * rx)%nat by lia. replace (S (ny * ry) - 1)%nat with (ny * ry)%nat by lia.
  rewrite meshgrid_ind_tab. rewrite !combine_flat.
  change (py_get [c0; c1] 0) with (@Ok R c0). change (py_get [c0; c1] 1) with (@Ok R c1). cbn [bind].
  rewrite (mapM_flat _ _ _ _ _ _ (fun i j => seen_pix ang2pix c0 c1 rad (fine lx (nx * rx) j) (fine ly (ny * ry) i))).
  - cbn [bind]. unfold the_ortho. rewrite !Nat2Z.id. do 2 f_equal.
    + apply tab2_ext. intros i j Hi Hj. fold (fine lx nx j) (fine ly ny i).
      destruct (Rlt_dec (fine lx nx j ^ 2 + fine ly ny i ^ 2) (rad ^ 2)) as [H|H].
      * destruct (ortho2cart_in _ _ rad None H) as (z & -> & _). reflexivity.
      * rewrite ortho2cart_out by lra. reflexivity.
    + apply tab2_ext. intros i j Hi Hj. rewrite ortho2cart_disc. reflexivity.
  - intros i j Hi Hj. cbn [fst snd]. fold (fine lx (nx * rx) j) (fine ly (ny * ry) i).
    fold (lift_z rad (fine lx (nx * rx) j) (fine ly (ny * ry) i)). unfold seen_pix.
    destruct (pixel_ok ang2pix c0 c1 (fine lx (nx * rx) j) (fine ly (ny * ry) i) (lift_z rad (fine lx (nx * rx) j) (fine ly (ny * ry) i)) HS Hc)
      as (p & t & -> & _). reflexivity.
Qed.

(** ** Remapping *)

Lemma highres_ok : forall ang2pix lx ly nx ny rad c0 c1 rx ry f, (1 <= nx * rx)%nat -> (1 <= ny * ry)%nat ->
  on_sky c0 c1 -> c1 < PI -> 0 < rad -> indexes ang2pix (length f) ->
  let v i j := nth (Z.to_nat (seen_pix ang2pix c0 c1 rad (fine lx (nx * rx) j) (fine ly (ny * ry) i))) f 0 in
  mapM (py_get f) (o_rebin_pix (the_ortho ang2pix lx ly nx ny rad c0 c1 rx ry)) = Ok (concat (tab2 (ny * ry) (nx * rx) v)).
Proof.
  intros ang2pix lx ly nx ny rad c0 c1 rx ry f Hx Hy HS Hc Hr HI v. cbn [o_rebin_pix the_ortho].
  apply mapM_flat. intros i j Hi Hj. unfold v.
  destruct (seen_pix_spec ang2pix c0 c1 rad (fine lx (nx * rx) j) (fine ly (ny * ry) i) HS Hc Hr) as (p & t & E & S & _).
  pose proof (HI p t S) as K. rewrite E. now apply py_get_ok.
Qed.

Lemma row0 : forall A n m (g : nat -> nat -> A), (1 <= n)%nat -> length (nth 0 (tab2 n m g) []) = m.
Proof. intros. unfold tab2. rewrite tab_nth by lia. apply tab_length. Qed.

Definition cell_value (b : nat) (on : bool) (total value : R) : num :=
  if on then if Req_EM_T total 0 then Some value else Some (INR b * (value / total)) else None.

Definition Rltb (x y : R) : bool := if Rlt_dec x y then true else false.

Lemma remap0_value : forall ang2pix Q c0 c1 f, (2 <= pc_nx Q)%nat -> (2 <= pc_ny Q)%nat -> (1 <= pc_b Q)%nat ->
  on_sky c0 c1 -> c1 < PI -> 0 < pc_rad Q -> indexes ang2pix (length f) ->
  let v i j a c := nth (Z.to_nat (seen_pix ang2pix c0 c1 (pc_rad Q) (fine_col Q j c) (fine_row Q i a))) f 0 in
  ortho_remap0 (the_ortho ang2pix (pc_lx Q) (pc_ly Q) (pc_nx Q) (pc_ny Q) (pc_rad Q) c0 c1 (pc_b Q) (pc_b Q)) f =
  Ok (tab2 (pc_ny Q) (pc_nx Q) (fun i j =>
        cell_value (pc_b Q) (Rltb (col_mid Q j ^ 2 + row_mid Q i ^ 2) (pc_rad Q ^ 2))
          (block_sum (pc_b Q) (fine_disc Q i j))
          (block_sum (pc_b Q) (fun a c => v i j a c * fine_disc Q i j a c)))).
Proof.
  intros ang2pix Q c0 c1 f Nx Ny Hb HS Hc Hr HI v. set (b := pc_b Q) in *. set (nx := pc_nx Q) in *. set (ny := pc_ny Q) in *.
  assert (H1 : (1 <= nx * b)%nat) by nia. assert (H2 : (1 <= ny * b)%nat) by nia.
  unfold ortho_remap0. rewrite highres_ok by auto. cbn [bind o_rebin_x2d o_rebin_y2d o_rebin_xind o_rebin_yind o_rebin_xedges o_rebin_onsphere o_x2d o_onsphere o_rebin_x o_rebin_y the_ortho].
  rewrite tab2_map, put2_all.
  rewrite !(py_get_ok _ (tab (S (nx * b)) _) _ 0) by (rewrite tab_length; lia). cbn [bind].
  rewrite tab2_zip2, tab2_length.
  rewrite !(py_get_ok _ (tab2 (ny * b) (nx * b) _) _ []) by (rewrite tab2_length; lia). cbn [bind].
  rewrite !(py_get_ok _ (tab2 ny nx _) _ []) by (rewrite tab2_length; lia). cbn [bind].
  change (Z.to_nat 0) with 0%nat. rewrite !row0 by lia.
  rewrite !reshape3_tab by lia. cbn [bind]. rewrite !sum_axis1_tab. rewrite !reshape3_split by lia. cbn [bind].
  rewrite sum_axis2_tab, mean_axis2_tab by lia. rewrite !tab2_zip2. f_equal. apply tab2_ext. intros i j Hi Hj.
  pose proof (INR_pos b Hb) as Pb.
  match goal with |- nmul (divide_where ?x (Some (?y / _))) _ = _ => set (X := x); set (Y := y) end.
  assert (EY : Y = block_sum b (fine_disc Q i j)).
  { unfold Y, block_sum. rewrite sum_swap. apply sum_ext. intros a Ha. apply sum_ext. intros c Hc'. reflexivity. }
  assert (EX : X = block_sum b (fun a c => v i j a c * fine_disc Q i j a c)).
  { unfold X, block_sum. rewrite sum_swap. apply sum_ext. intros a Ha. apply sum_ext. intros c Hc'. reflexivity. }
  rewrite <- EY, <- EX. unfold cell_value, Rltb, divide_where.
  change (fine (pc_lx Q) nx j) with (col_mid Q j). change (fine (pc_ly Q) ny i) with (row_mid Q i).
  destruct (Rlt_dec (col_mid Q j ^ 2 + row_mid Q i ^ 2) (pc_rad Q ^ 2)).
  - destruct (Req_EM_T Y 0) as [Z|Z].
    + rewrite Z. rewrite Req_bool_true by (field; lra). cbn [nmul]. f_equal. ring.
    + rewrite Req_bool_false; cycle 1.
      { intros E. apply Z. apply (Rmult_eq_compat_r (INR b)) in E. unfold Rdiv in E. rewrite Rmult_assoc, Rinv_l in E by lra. lra. }
      cbn [nmul]. f_equal. field. lra.
  - destruct (Req_bool _ _); reflexivity.
Qed.

Lemma ortho_unequal : forall ang2pix lx ly nx ny rad c0 c1 rx ry f, (2 <= nx)%nat -> (2 <= ny)%nat -> (1 <= rx)%nat -> (1 <= ry)%nat -> rx <> ry ->
  on_sky c0 c1 -> c1 < PI -> 0 < rad -> indexes ang2pix (length f) ->
  ortho_remap0 (the_ortho ang2pix lx ly nx ny rad c0 c1 rx ry) f = Err ValueError.
Proof.
  intros ang2pix lx ly nx ny rad c0 c1 rx ry f Nx Ny Rx Ry HN HS Hc Hr HI.
  assert (H1 : (1 <= nx * rx)%nat) by nia. assert (H2 : (1 <= ny * ry)%nat) by nia.
  unfold ortho_remap0. rewrite highres_ok by auto. cbn [bind o_rebin_x2d o_rebin_y2d o_rebin_xind o_rebin_yind o_rebin_xedges o_rebin_onsphere o_x2d o_onsphere o_rebin_x o_rebin_y the_ortho].
  rewrite tab2_map, put2_all.
  rewrite !(py_get_ok _ (tab (S (nx * rx)) _) _ 0) by (rewrite tab_length; lia). cbn [bind].
  rewrite tab2_zip2, tab2_length.
  rewrite !(py_get_ok _ (tab2 (ny * ry) (nx * rx) _) _ []) by (rewrite tab2_length; lia). cbn [bind].
  change (Z.to_nat 0) with 0%nat. rewrite !row0 by lia.
  rewrite reshape3_bad; [reflexivity|]. intros E. apply HN.
  assert (E' : (nx * rx * (ny * ry) = nx * rx * (ny * rx))%nat) by lia.
  apply Nat.mul_cancel_l in E'; [|lia]. apply Nat.mul_cancel_l in E'; lia.
Qed.

Lemma ortho_single : forall ang2pix lx ly nx ny rad c rx ry, (1 <= nx)%nat -> (1 <= ny)%nat -> (nx = 1 \/ ny = 1)%nat -> length c = 2%nat ->
  ortho_setup ang2pix lx (Z.of_nat nx) c (Some ly) (Some (Z.of_nat ny)) rx ry rad = Err IndexError.
Proof.
  intros ang2pix lx ly nx ny rad c rx ry Nx Ny H Hc. unfold ortho_setup. rewrite posZ by auto. rewrite Hc. cbn [Nat.eqb py_assert].
  rewrite !half_line by lia. cbn [bind]. rewrite !mids.
  assert (Out : forall g, py_get (tab 1 g) 1 = @Err R IndexError) by reflexivity.
  destruct (Nat.eq_dec nx 1) as [E|E].
  - subst nx. rewrite Out. reflexivity.
  - rewrite !(py_get_ok _ (tab nx _) _ 0) by (rewrite tab_length; lia). cbn [bind].
    replace ny with 1%nat by lia. rewrite Out. reflexivity.
Qed.

Lemma samples_ok : forall ang2pix Q c0 c1 f i j, on_sky c0 c1 -> c1 < PI -> 0 < pc_rad Q ->
  sky_samples ang2pix c0 c1 Q f i j
    (fun a c => nth (Z.to_nat (seen_pix ang2pix c0 c1 (pc_rad Q) (fine_col Q j c) (fine_row Q i a))) f 0).
Proof.
  intros ang2pix Q c0 c1 f i j HS Hc Hr a c Ha Hc' HD.
  destruct (seen_pix_spec ang2pix c0 c1 (pc_rad Q) (fine_col Q j c) (fine_row Q i a) HS Hc Hr) as (p & t & E & S & A).
  exists p, t. split; [exact S|]. split; [now apply A|]. now rewrite E.
Qed.
