(** * Proofs about [MCube.v] *)

From Coq Require Import Reals ZArith List Bool Lia Lra Psatz.
From Flocq Require Import Core.Raux.
From Verif Require Import Base BaseP SpecGrid SpecRemap SpecCube MCoords MGrids MDense MCube PRemap2 PPolarCoords PHealpixBoundary PDense.
Import ListNotations.
Open Scope R_scope.

(** ** Set-up *)

Definition the_cube (V : voxels) : cube_grid :=
  CubeGrid (tab (S (bnx V)) (fun i => bx0 V + INR i * bhx V)) (tab (S (bny V)) (fun i => by0 V + INR i * bhy V)) (tab (S (bnz V)) (fun i => bz0 V + INR i * bhz V))
           (tab (bnx V) (mid_x V)) (tab (bny V) (mid_y V)) (tab (bnz V) (mid_z V)) (bhx V) (bhy V) (bhz V)
           (tab3 (bny V) (bnx V) (bnz V) (fun _ i _ => mid_x V i)) (tab3 (bny V) (bnx V) (bnz V) (fun j _ _ => mid_y V j))
           (tab3 (bny V) (bnx V) (bnz V) (fun _ _ k => mid_z V k)).

Lemma meshgrid3_tab : forall n m l g h k, meshgrid3 (tab n g) (tab m h) (tab l k) =
  (tab3 m n l (fun _ i _ => g i), tab3 m n l (fun j _ _ => h j), tab3 m n l (fun _ _ z => k z)).
Proof.
  intros. unfold meshgrid3, tab3, tab2. f_equal; [f_equal|]; rewrite ?tab_map; repeat (apply tab_ext; intros; rewrite ?tab_map); auto.
Qed.

Lemma setup_cube_ok : forall xmin xmax nx ymin ymax ny zmin zmax nz, (1 <= nx)%nat -> (1 <= ny)%nat -> (1 <= nz)%nat ->
  setup_cube xmin xmax (Z.of_nat nx) ymin ymax (Z.of_nat ny) zmin zmax (Z.of_nat nz) = Ok (the_cube (voxel_grid xmin xmax nx ymin ymax ny zmin zmax nz)).
Proof.
  intros xmin xmax nx ymin ymax ny zmin zmax nz Hx Hy Hz. unfold setup_cube. rewrite !posZ by auto. cbn [py_assert].
  rewrite !linspace_Z by auto. cbn [bind].
  rewrite !(py_get_ok _ (tab _ _) _ 0) by (rewrite tab_length; lia). cbn [bind].
  change (Z.to_nat 1) with 1%nat. change (Z.to_nat 0) with 0%nat. rewrite !tab_nth by lia. cbn [bind].
  rewrite !mids, meshgrid3_tab. cbn [INR]. unfold the_cube, voxel_grid, mid_x, mid_y, mid_z. cbn [bx0 bhx bnx by0 bhy bny bz0 bhz bnz]. f_equal. f_equal; ring.
Qed.

Definition the_shells (V : voxels) (G : shell_set) : shells :=
  Shells (tab (ss_nr G) (fun i => ss_rmin G + (INR i + / 2) * ((ss_rmax G - ss_rmin G) / INR (ss_nr G))))
         (ss_nside G) (ss_s G) (ss_b G) (map (fun c => (vx c, vy c, vz c)) (images V G))
         (tab (S (ss_nr G * ss_b G)) (shell_edge G)) (tab (ss_nr G * ss_b G) (shell_mid G)).

Lemma flat_map_map : forall A B C (f : A -> list B) (g : B -> C) l, map g (flat_map f l) = flat_map (fun x => map g (f x)) l.
Proof. intros. induction l as [|a l IH]; [reflexivity|]. cbn. now rewrite map_app, IH. Qed.

Definition setup_set (ok : Z -> bool) (C : cube_grid) (G : shell_set) : res shells :=
  setup_shells ok C (ss_rmin G) (ss_rmax G) (Z.of_nat (ss_nr G)) (ss_nside G) [vx (ss_c G); vy (ss_c G); vz (ss_c G)]
    (ss_s G) (Z.of_nat (ss_b G)) (ss_px G) (ss_py G) (ss_pz G).

Lemma shells_guards : forall (ok : Z -> bool) G (k : res shells), good_shells G -> ok (ss_nside G) = true -> ok (ss_nside G * ss_s G)%Z = true ->
  (guard Rle_bool 0 (ss_rmin G) ;; guard Rlt_bool (ss_rmin G) (ss_rmax G) ;; guard (0 <? Z.of_nat (ss_nr G))%Z ;;
   guard (length [vx (ss_c G); vy (ss_c G); vz (ss_c G)] =? 3)%nat ;; guard (1 <=? ss_s G)%Z ;; guard ok (ss_nside G) ;; guard ok (ss_nside G * ss_s G)%Z ;;
   guard (1 <=? Z.of_nat (ss_b G))%Z ;; k) = k.
Proof.
  intros ok G k ((A & B) & C & D & E & F) H1 H2. rewrite posZ by auto. rewrite H1, H2.
  replace (1 <=? ss_s G)%Z with true by (symmetry; apply Z.leb_le; lia).
  replace (1 <=? Z.of_nat (ss_b G))%Z with true by (symmetry; apply Z.leb_le; lia).
  rewrite Rle_bool_t, Rlt_bool_t by lra. reflexivity.
Qed.

Lemma setup_shells_ok : forall ok V G, good_shells G -> (2 <= ss_nr G)%nat -> (1 <= bnx V)%nat -> (1 <= bny V)%nat -> (1 <= bnz V)%nat ->
  ok (ss_nside G) = true -> ok (ss_nside G * ss_s G)%Z = true ->
  setup_set ok (the_cube V) G = Ok (the_shells V G).
Proof.
  intros ok V G HG Hr Nx Ny Nz O1 O2. assert (HG' := HG). destruct HG' as ((A & B) & C & D & E & F).
  unfold setup_set, setup_shells. rewrite shells_guards by auto.
  rewrite linspace_Z by lia. cbn [bind]. rewrite mids.
  rewrite !(py_get_ok _ (tab (ss_nr G) _) _ 0) by (rewrite tab_length; lia). cbn [bind].
  change (py_get [vx (ss_c G); vy (ss_c G); vz (ss_c G)] 0) with (Ok (vx (ss_c G))).
  change (py_get [vx (ss_c G); vy (ss_c G); vz (ss_c G)] 1) with (Ok (vy (ss_c G))).
  change (py_get [vx (ss_c G); vy (ss_c G); vz (ss_c G)] 2) with (Ok (vz (ss_c G))).
  cbn [bind the_cube cu_xedges cu_yedges cu_zedges].
  rewrite !(py_get_ok _ (tab (S _) _) 0 0) by (rewrite tab_length; lia).
  rewrite !(py_get_last _ (tab (S _) _) 0) by (rewrite tab_length; lia). cbn [bind]. rewrite !tab_length.
  change (Z.to_nat 0) with 0%nat. rewrite !tab_nth by lia. rewrite !Nat.sub_succ, !Nat.sub_0_r.
  pose proof (INR_pos (ss_nr G) ltac:(lia)) as Pr.
  replace (ss_rmin G + INR 0 * ((ss_rmax G - ss_rmin G) / INR (ss_nr G))) with (ss_rmin G) by (cbn [INR]; ring).
  replace (ss_rmin G + INR (ss_nr G) * ((ss_rmax G - ss_rmin G) / INR (ss_nr G))) with (ss_rmax G) by (field; lra).
  replace (Z.of_nat (ss_b G) * Z.of_nat (ss_nr G) + 1)%Z with (Z.of_nat (ss_nr G * ss_b G) + 1)%Z by lia.
  rewrite linspace_Z by nia. cbn [bind]. rewrite mids, Nat2Z.id. unfold the_shells. f_equal. f_equal.
  unfold images. rewrite flat_map_map. apply flat_map_ext. intros i. rewrite flat_map_map. apply flat_map_ext. intros j. rewrite map_map.
  apply map_ext. intros k. cbn [vx vy vz]. f_equal; [f_equal|]; cbn [INR]; ring.
Qed.

Lemma setup_shells_single : forall ok V G, good_shells G -> ss_nr G = 1%nat -> ok (ss_nside G) = true -> ok (ss_nside G * ss_s G)%Z = true ->
  setup_set ok (the_cube V) G = Err IndexError.
Proof.
  intros ok V G HG Hr O1 O2. unfold setup_set, setup_shells. rewrite shells_guards by auto.
  rewrite linspace_Z by lia. cbn [bind]. rewrite mids, Hr. reflexivity.
Qed.

(** ** Samples *)

Definition triple (p : vec) : R * R * R := (vx p, vy p, vz p).

Definition find_voxel (V : voxels) (p : vec) : option (Z * Z * Z) :=
  sample_voxel (the_cube V) (bx0 V) (by0 V) (bz0 V) (triple p).

Lemma find_voxel_in : forall V p i j k, good_voxels V -> in_voxel V p i j k -> find_voxel V p = Some (Z.of_nat i, Z.of_nat j, Z.of_nat k).
Proof.
  intros V p i j k (Hx & Hy & Hz) (A & B & C & D & E & F). unfold find_voxel, sample_voxel, triple.
  cbn [the_cube cu_dx cu_dy cu_dz cu_xmid cu_ymid cu_zmid]. rewrite !tab_length. rewrite !fdiv_ok by lra. cbn [option_map].
  rewrite S_INR in D, E, F. rewrite !INR_IZR_INZ in D, E, F.
  rewrite (proj2 (floor_cell _ _ _ _ Hx) D), (proj2 (floor_cell _ _ _ _ Hy) E), (proj2 (floor_cell _ _ _ _ Hz) F).
  rewrite (proj2 (Z.leb_le 0 (Z.of_nat i))), (proj2 (Z.leb_le 0 (Z.of_nat j))), (proj2 (Z.leb_le 0 (Z.of_nat k))) by lia.
  rewrite (proj2 (Z.ltb_lt (Z.of_nat i) (Z.of_nat (bnx V)))), (proj2 (Z.ltb_lt (Z.of_nat j) (Z.of_nat (bny V)))), (proj2 (Z.ltb_lt (Z.of_nat k) (Z.of_nat (bnz V)))) by lia.
  reflexivity.
Qed.

Lemma find_voxel_out : forall V p, good_voxels V -> ~ in_cube V p -> find_voxel V p = None.
Proof.
  intros V p (Hx & Hy & Hz) HN. unfold find_voxel, sample_voxel, triple.
  cbn [the_cube cu_dx cu_dy cu_dz cu_xmid cu_ymid cu_zmid]. rewrite !tab_length. rewrite !fdiv_ok by lra. cbn [option_map].
  destruct (_ && _) eqn:E; [|reflexivity]. exfalso. apply HN.
  rewrite !andb_true_iff, !Z.leb_le, !Z.ltb_lt in E. (split; [|split]); apply box_floor; auto; lia.
Qed.

Lemma in_cube_voxel : forall V p, good_voxels V -> in_cube V p -> exists i j k, in_voxel V p i j k.
Proof.
  intros V p (Hx & Hy & Hz) (A & B & C).
  apply (box_floor _ _ _ _ Hx) in A as A'. apply (box_floor _ _ _ _ Hy) in B as B'. apply (box_floor _ _ _ _ Hz) in C as C'.
  exists (Z.to_nat (Zfloor ((vx p - bx0 V) / bhx V))), (Z.to_nat (Zfloor ((vy p - by0 V) / bhy V))), (Z.to_nat (Zfloor ((vz p - bz0 V) / bhz V))).
  split; [lia|]. split; [lia|]. split; [lia|]. rewrite !S_INR, !INR_IZR_INZ, !Z2Nat.id by lia.
  split; [|split]; apply floor_cell; auto.
Qed.

Lemma in_voxel_cube : forall V p i j k, good_voxels V -> in_voxel V p i j k -> in_cube V p.
Proof.
  intros V p i j k (Hx & Hy & Hz) (A & B & C & D & E & F).
  assert (I0 : forall n, 0 <= INR n) by (intros; apply pos_INR).
  pose proof (I0 i). pose proof (I0 j). pose proof (I0 k).
  assert (INR (S i) <= INR (bnx V)) by (apply le_INR; lia).
  assert (INR (S j) <= INR (bny V)) by (apply le_INR; lia).
  assert (INR (S k) <= INR (bnz V)) by (apply le_INR; lia).
  repeat split; nra.
Qed.

Lemma in_voxel_unique : forall V p i j k i' j' k', good_voxels V -> in_voxel V p i j k -> in_voxel V p i' j' k' -> i = i' /\ j = j' /\ k = k'.
Proof.
  intros V p i j k i' j' k' HV H H'. apply find_voxel_in in H; auto. apply find_voxel_in in H'; auto. rewrite H in H'.
  injection H' as E1 E2 E3. lia.
Qed.

Lemma in_cube_dec : forall V p, good_voxels V -> (exists i j k, in_voxel V p i j k) \/ ~ in_cube V p.
Proof.
  intros V p HV. destruct (find_voxel V p) as [[[i j] k]|] eqn:E.
  - left. apply in_cube_voxel; auto. 
    destruct (Rle_dec (bx0 V) (vx p)) as [a|a]; [|exfalso]; cycle 1.
    { rewrite find_voxel_out in E; [discriminate|auto|]. intros (H & _). lra. }
    destruct (Rlt_dec (vx p) (bx0 V + INR (bnx V) * bhx V)) as [b|b]; [|exfalso]; cycle 1.
    { rewrite find_voxel_out in E; [discriminate|auto|]. intros (H & _). lra. }
    destruct (Rle_dec (by0 V) (vy p)) as [c|c]; [|exfalso]; cycle 1.
    { rewrite find_voxel_out in E; [discriminate|auto|]. intros (_ & H & _). lra. }
    destruct (Rlt_dec (vy p) (by0 V + INR (bny V) * bhy V)) as [d|d]; [|exfalso]; cycle 1.
    { rewrite find_voxel_out in E; [discriminate|auto|]. intros (_ & H & _). lra. }
    destruct (Rle_dec (bz0 V) (vz p)) as [e|e]; [|exfalso]; cycle 1.
    { rewrite find_voxel_out in E; [discriminate|auto|]. intros (_ & _ & H). lra. }
    destruct (Rlt_dec (vz p) (bz0 V + INR (bnz V) * bhz V)) as [f|f]; [|exfalso]; cycle 1.
    { rewrite find_voxel_out in E; [discriminate|auto|]. intros (_ & _ & H). lra. }
    repeat split; auto.
  - right. intros H. destruct (in_cube_voxel V p HV H) as (i & j & k & Hin). rewrite (find_voxel_in _ _ _ _ _ HV Hin) in E. discriminate.
Qed.

(** The value kept at one pixel after looking at one point. *)
Definition look (V : voxels) (f : list (list (list R))) (old : R) (p : vec) : R :=
  match find_voxel V p with
  | Some (i, j, k) => cell3 f (Z.to_nat i) (Z.to_nat j) (Z.to_nat k)
  | None => old
  end.

Lemma look_last : forall V f pts, good_voxels V -> last_value V f pts (fold_left (look V f) pts 0).
Proof.
  intros V f pts HV. induction pts as [|p pts IH] using rev_ind.
  - right. split; [intros p []|reflexivity].
  - rewrite fold_left_app. cbn [fold_left]. unfold look at 1. destruct (in_cube_dec V p HV) as [(i & j & k & Hin)|Hout].
    + rewrite (find_voxel_in _ _ _ _ _ HV Hin). rewrite !Nat2Z.id. left. exists (length pts), i, j, k. rewrite app_length. cbn [length].
      split; [lia|]. rewrite app_nth2, Nat.sub_diag by lia. cbn [nth]. split; [auto|]. split; [reflexivity|]. intros; lia.
    + rewrite find_voxel_out by auto. destruct IH as [(m & i & j & k & Hm & Hin & Ev & Hlast)|[Hall Ev]].
      * left. exists m, i, j, k. rewrite app_length. cbn [length]. split; [lia|]. rewrite app_nth1 by lia. split; [auto|]. split; [auto|].
        intros m' Hm'. destruct (Nat.eq_dec m' (length pts)) as [->|N].
        -- rewrite app_nth2, Nat.sub_diag by lia. auto.
        -- rewrite app_nth1 by lia. apply Hlast. lia.
      * right. split; [|auto]. intros q Hq. apply in_app_or in Hq. destruct Hq as [Hq|[<-|[]]]; auto.
Qed.

Lemma last_value_unique : forall V f pts v v', good_voxels V -> last_value V f pts v -> last_value V f pts v' -> v = v'.
Proof.
  intros V f pts v v' HV [(m & i & j & k & Hm & Hin & Ev & Hl)|[Ha Ev]] [(m' & i' & j' & k' & Hm' & Hin' & Ev' & Hl')|[Ha' Ev']]; subst; auto.
  - assert (m = m').
    { destruct (Nat.lt_trichotomy m m') as [L|[L|L]]; auto; exfalso.
      - apply (Hl m'); [lia|]. eapply in_voxel_cube; eauto.
      - apply (Hl' m); [lia|]. eapply in_voxel_cube; eauto. }
    subst m'. destruct (in_voxel_unique _ _ _ _ _ _ _ _ HV Hin Hin') as (-> & -> & ->). reflexivity.
  - exfalso. apply (Ha' (nth m pts (V3 0 0 0))); [now apply nth_In|]. eapply in_voxel_cube; eauto.
  - exfalso. apply (Ha (nth m' pts (V3 0 0 0))); [now apply nth_In|]. eapply in_voxel_cube; eauto.
Qed.

Lemma read_voxel_ok : forall f n1 n2 n3 i j k, shape3 f n1 n2 n3 -> (i < n1)%nat -> (j < n2)%nat -> (k < n3)%nat ->
  read_voxel f (Z.of_nat i, Z.of_nat j, Z.of_nat k) = Ok (cell3 f i j k).
Proof.
  intros f n1 n2 n3 i j k [L S] Hi Hj Hk. destruct (S i Hi) as [L2 S2]. unfold read_voxel.
  rewrite (py_get_ok _ f _ []) by lia. cbn [bind]. rewrite Nat2Z.id.
  rewrite (py_get_ok _ (nth i f []) _ []) by lia. cbn [bind]. rewrite Nat2Z.id.
  rewrite (py_get_ok _ _ _ 0) by (rewrite S2 by lia; lia). now rewrite Nat2Z.id.
Qed.

Lemma combine_tab : forall A B n (g : nat -> A) (h : nat -> B), combine (tab n g) (tab n h) = tab n (fun i => (g i, h i)).
Proof. intros. unfold tab. generalize (seq 0 n). induction l as [|a l IH]; [reflexivity|]. cbn. now rewrite IH. Qed.

Lemma shell_pass_ok : forall V f r c n g (dirs : nat -> R * R), good_voxels V -> shape3 f (bnx V) (bny V) (bnz V) ->
  shell_pass (the_cube V) (bx0 V) (by0 V) (bz0 V) f r (tab n dirs) (tab n g) (triple c) = Ok (tab n (fun q => look V f (g q) (seen_from c r (dirs q)))).
Proof.
  intros V f r c n g dirs HV Hf. unfold shell_pass, triple. rewrite combine_tab. apply mapM_tab. intros q Hq.
  destruct (dirs q) as [theta phi]. unfold sphere2cart.
  change (r * cos phi * sin theta + vx c, r * sin phi * sin theta + vy c, r * cos theta + vz c) with (triple (seen_from c r (theta, phi))).
  fold (find_voxel V (seen_from c r (theta, phi))). unfold look.
  destruct (in_cube_dec V (seen_from c r (theta, phi)) HV) as [(i & j & k & Hin)|Hout].
  - rewrite (find_voxel_in _ _ _ _ _ HV Hin), !Nat2Z.id. destruct Hin as (Hi & Hj & Hk & _). now apply (read_voxel_ok f (bnx V) (bny V) (bnz V)).
  - now rewrite find_voxel_out.
Qed.

Lemma fill_shell_ok : forall V f r n (dirs : nat -> R * R) cs g, good_voxels V -> shape3 f (bnx V) (bny V) (bnz V) ->
  fill_shell (the_cube V) (bx0 V) (by0 V) (bz0 V) f r (tab n dirs) (map triple cs) (tab n g) =
  Ok (tab n (fun q => fold_left (look V f) (map (fun c => seen_from c r (dirs q)) cs) (g q))).
Proof.
  intros V f r n dirs cs. unfold fill_shell. induction cs as [|c cs IH]; intros g HV Hf; [reflexivity|]. cbn [map fold_left bind].
  rewrite shell_pass_ok by auto. now rewrite IH.
Qed.

(** The sampled refined shells, as total functions. *)
Definition shell_of (V : voxels) (G : shell_set) (dirs : nat -> R * R) (f : list (list (list R))) (k : nat) : list R :=
  tab (pixels_of (ss_nside G * ss_s G)) (fun q => fold_left (look V f) (map (fun c => seen_from c (shell_mid G k) (dirs q)) (images V G)) 0).

Lemma shell_of_sampled : forall V G dirs f k, good_voxels V -> sampled_shell V G dirs f k (shell_of V G dirs f k).
Proof.
  intros. split; [apply tab_length|]. intros q Hq. unfold shell_of. rewrite tab_nth by auto. now apply look_last.
Qed.

Lemma sampled_shell_unique : forall V G dirs f k s, good_voxels V -> sampled_shell V G dirs f k s -> s = shell_of V G dirs f k.
Proof.
  intros V G dirs f k s HV [L H]. apply (list_ext _ _ _ 0); [rewrite L; symmetry; apply tab_length|]. intros q Hq. rewrite L in Hq.
  apply (last_value_unique V f _ _ _ HV (H q Hq)). apply shell_of_sampled; auto.
Qed.

Lemma shell_weight_pos : forall G j a, good_shells G -> 0 < shell_weight G j a.
Proof.
  intros G j a ((A & B) & C & D & _). unfold shell_weight, shell_edge.
  assert (N : 0 < INR (ss_nr G * ss_b G)) by (apply INR_pos; nia).
  set (h := (ss_rmax G - ss_rmin G) / INR (ss_nr G * ss_b G)). assert (0 < h) by (apply Rdiv_lt_0_compat; lra).
  rewrite S_INR. set (t := INR (j * ss_b G + a)). assert (0 <= t) by apply pos_INR.
  set (e := ss_rmin G + t * h). replace (ss_rmin G + (t + 1) * h) with (e + h) by (unfold e; ring). assert (0 <= e) by (unfold e; nra).
  replace ((e + h) ^ 3 - e ^ 3) with (h * (3 * e * e + 3 * e * h + h * h)) by ring. apply Rmult_lt_0_compat; nra.
Qed.

Lemma sum_pos : forall n g, (1 <= n)%nat -> (forall i, (i < n)%nat -> 0 < g i) -> 0 < sum_upto n g.
Proof.
  intros n g Hn H. destruct n as [|n]; [lia|]. clear Hn. induction n as [|n IH].
  - rewrite sum_S. unfold sum_upto at 1. cbn. specialize (H 0%nat ltac:(lia)). lra.
  - rewrite sum_S. assert (0 < sum_upto (S n) g) by (apply IH; intros; apply H; lia). specialize (H (S n) ltac:(lia)). lra.
Qed.

Lemma cube_remap_ok : forall pix2ang ud V G f, good_voxels V -> good_shells G -> (1 <= bnx V)%nat -> (1 <= bny V)%nat -> (1 <= bnz V)%nat ->
  shape3 f (bnx V) (bny V) (bnz V) -> (forall m, length (ud m (ss_nside G)) = pixels_of (ss_nside G)) ->
  cube_remap pix2ang ud (the_cube V) (the_shells V G) f =
  Ok (tab2 (ss_nr G) (pixels_of (ss_nside G)) (fun j p =>
        Some (bins_mean (ss_b G) (shell_weight G j)
               (fun a => nth p (ud (shell_of V G (fun q => pix2ang (ss_nside G * ss_s G)%Z (Z.of_nat q)) f (j * ss_b G + a)) (ss_nside G)) 0)))).
Proof.
  intros pix2ang ud V G f HV HG Nx Ny Nz Hf Hud. assert (HG' := HG). destruct HG' as ((A & B) & C & D & E & F).
  unfold cube_remap. cbn [the_cube the_shells cu_xedges cu_yedges cu_zedges sh_nside sh_rebin_shell sh_rmid sh_rebin_r sh_centers sh_rebin_redges sh_rebin_rmid].
  change (nside2npix (ss_nside G)) with (pixels_of (ss_nside G)). change (nside2npix (ss_nside G * ss_s G)) with (pixels_of (ss_nside G * ss_s G)).
  rewrite !(py_get_ok _ (tab (S _) _) _ 0) by (rewrite tab_length; lia). change (Z.to_nat 0) with 0%nat. rewrite !tab_nth by lia. cbn [bind INR].
  rewrite !Rmult_0_l, !Rplus_0_r. set (np := pixels_of (ss_nside G)) in *. set (nf := pixels_of (ss_nside G * ss_s G)).
  fold (the_cube V). set (dirs := fun q => pix2ang (ss_nside G * ss_s G)%Z (Z.of_nat q)).
  fold (tab nf dirs). rewrite <- (tab_const _ nf 0). change (map (fun c : vec => (vx c, vy c, vz c)) (images V G)) with (map triple (images V G)).
  rewrite (mapM_tab _ _ _ (ss_nr G * ss_b G) (shell_mid G) (fun k => ud (shell_of V G dirs f k) (ss_nside G))); cycle 1.
  { intros k Hk. rewrite fill_shell_ok by auto. cbn [bind]. fold nf. change (tab nf _) with (shell_of V G dirs f k). rewrite Hud, Nat.eqb_refl. reflexivity. }
  cbn [bind]. rewrite steps_tab, tab_map2.
  assert (Np : (1 <= np)%nat) by (unfold np, pixels_of; nia).
  rewrite (tab_ext _ (ss_nr G * ss_b G) _ (fun k => tab np (fun p => nth p (ud (shell_of V G dirs f k) (ss_nside G)) 0 * (shell_edge G (S k) ^ 3 - shell_edge G k ^ 3)))); cycle 1.
  { intros k Hk. rewrite (tab_of_list _ (ud (shell_of V G dirs f k) (ss_nside G)) np 0) at 1 by apply Hud. apply tab_map. }
  fold (tab2 (ss_nr G * ss_b G) np (fun k p => nth p (ud (shell_of V G dirs f k) (ss_nside G)) 0 * (shell_edge G (S k) ^ 3 - shell_edge G k ^ 3))).
  rewrite tab_length.
  change [tab (ss_nr G * ss_b G) (fun i => shell_edge G (S i) ^ 3 - shell_edge G i ^ 3)] with (tab2 1 (ss_nr G * ss_b G) (fun _ i => shell_edge G (S i) ^ 3 - shell_edge G i ^ 3)).
  rewrite reshape3_split by nia. cbn [bind]. rewrite sum_axis2_tab. change (nth 0 (tab2 1 ?m ?g) []) with (tab m (g 0%nat)).
  rewrite reshape3_tab by auto. cbn [bind]. rewrite sum_axis1_tab. unfold tab2 at 1. rewrite tab_map2. f_equal.
  unfold tab2. apply tab_ext. intros j Hj. rewrite tab_map. apply tab_ext. intros p Hp.
  assert (P : 0 < sum_upto (ss_b G) (shell_weight G j)) by (apply sum_pos; auto; intros; now apply shell_weight_pos).
  unfold shell_weight in P. rewrite fdiv_ok by lra. reflexivity.
Qed.

(** ** Fields of the wrong shape *)

Lemma mapM_index_err : forall A B (f : A -> res B) l, (forall x, In x l -> (exists y, f x = Ok y) \/ f x = Err IndexError) ->
  (exists x, In x l /\ f x = Err IndexError) -> mapM f l = Err IndexError.
Proof.
  intros A B f l. induction l as [|a l IH]; intros H (x & Hx & E); [destruct Hx|]. cbn [mapM].
  destruct (H a (or_introl eq_refl)) as [[y Ey]|Ey]; rewrite Ey; [|reflexivity]. cbn [bind]. rewrite IH; [reflexivity| |].
  - intros; apply H; now right.
  - destruct Hx as [->|Hx]; [congruence|]. exists x. auto.
Qed.

Lemma mapM_index_or : forall A B (f : A -> res B) l, (forall x, In x l -> (exists y, f x = Ok y) \/ f x = Err IndexError) ->
  (exists m, mapM f l = Ok m /\ length m = length l) \/ mapM f l = Err IndexError.
Proof.
  intros A B f l. induction l as [|a l IH]; intros H; [left; exists []; auto|]. cbn [mapM].
  destruct (H a (or_introl eq_refl)) as [[y Ey]|Ey]; rewrite Ey; [|now right]. cbn [bind].
  destruct IH as [(m & Em & Lm)|Em]; [intros; apply H; now right| |]; rewrite Em; cbn [bind]; [left|now right].
  eexists. split; [reflexivity|]. cbn. now rewrite Lm.
Qed.

Lemma py_get_or : forall A (l : list A) k, (exists y, py_get l k = Ok y) \/ py_get l k = Err IndexError.
Proof. intros. unfold py_get. destruct (_ <? 0)%Z; [now right|]. destruct (nth_error _ _); eauto. Qed.

Lemma read_voxel_or : forall f x, (exists y, read_voxel f x = Ok y) \/ read_voxel f x = Err IndexError.
Proof.
  intros f [[i j] k]. unfold read_voxel. destruct (py_get_or _ f i) as [[a Ea]|Ea]; rewrite Ea; cbn [bind]; [|now right].
  destruct (py_get_or _ a j) as [[b Eb]|Eb]; rewrite Eb; cbn [bind]; [|now right]. apply py_get_or.
Qed.

Lemma py_get_high : forall A (l : list A) k, (length l <= k)%nat -> py_get l (Z.of_nat k) = Err IndexError.
Proof.
  intros A l k H. unfold py_get. replace (Z.of_nat k <? 0)%Z with false by (symmetry; apply Z.ltb_ge; lia).
  replace (Z.of_nat k <? 0)%Z with false by (symmetry; apply Z.ltb_ge; lia). rewrite Nat2Z.id.
  now rewrite (proj2 (nth_error_None l k) H).
Qed.

Lemma read_voxel_bad : forall f n1 n2 n3 i j k, shape3 f n1 n2 n3 -> (n1 <= i \/ n2 <= j)%nat ->
  read_voxel f (Z.of_nat i, Z.of_nat j, Z.of_nat k) = Err IndexError.
Proof.
  intros f n1 n2 n3 i j k [L S] H. unfold read_voxel.
  destruct (Nat.lt_ge_cases i n1) as [Hi|Hi].
  - rewrite (py_get_ok _ f _ []) by lia. cbn [bind]. rewrite Nat2Z.id. destruct (S i Hi) as [L2 _].
    rewrite py_get_high by lia. reflexivity.
  - rewrite py_get_high by lia. reflexivity.
Qed.

Lemma shell_pass_or : forall C x0 y0 z0 f r angs s c, length s = length angs ->
  (exists m, shell_pass C x0 y0 z0 f r angs s c = Ok m /\ length m = length angs) \/ shell_pass C x0 y0 z0 f r angs s c = Err IndexError.
Proof.
  intros C x0 y0 z0 f r angs s [[c0 c1] c2] L. unfold shell_pass.
  destruct (mapM_index_or _ _ (fun p : R * (R * R) => let '(old, (theta, phi)) := p in
     match sample_voxel C x0 y0 z0 (sphere2cart r phi theta c0 c1 c2) with Some ind => read_voxel f ind | None => Ok old end) (combine s angs)) as [(m & E & Lm)|E].
  - intros [old [theta phi]] _. destruct (sample_voxel _ _ _ _ _); [apply read_voxel_or|eauto].
  - left. exists m. split; auto. rewrite Lm, combine_length. lia.
  - now right.
Qed.

Lemma fill_shell_or : forall C x0 y0 z0 f r angs cs s, length s = length angs ->
  (exists m, fill_shell C x0 y0 z0 f r angs cs s = Ok m /\ length m = length angs) \/ fill_shell C x0 y0 z0 f r angs cs s = Err IndexError.
Proof.
  intros C x0 y0 z0 f r angs cs. unfold fill_shell. induction cs as [|c cs IH]; intros s L; cbn [fold_left bind]; [left; eauto|].
  destruct (shell_pass_or C x0 y0 z0 f r angs s c L) as [(m & E & Lm)|E]; rewrite E; [now apply IH|].
  right. clear. induction cs as [|c cs IH]; [reflexivity|]. cbn [fold_left bind]. exact IH.
Qed.

Lemma fill_shell_bad : forall V f r n (dirs : nat -> R * R) cs s n1 n2 n3 c q i j k, good_voxels V -> shape3 f n1 n2 n3 ->
  length s = n -> In c cs -> (q < n)%nat -> in_voxel V (seen_from c r (dirs q)) i j k -> (n1 <= i \/ n2 <= j)%nat ->
  fill_shell (the_cube V) (bx0 V) (by0 V) (bz0 V) f r (tab n dirs) (map triple cs) s = Err IndexError.
Proof.
  intros V f r n dirs cs s n1 n2 n3 c q i j k HV Hf L Hc Hq Hin Hbad. unfold fill_shell. revert s L.
  induction cs as [|c' cs IH]; intros s L; [destruct Hc|]. cbn [map fold_left bind].
  destruct (shell_pass_or (the_cube V) (bx0 V) (by0 V) (bz0 V) f r (tab n dirs) s (triple c') ltac:(now rewrite tab_length)) as [(m & E & Lm)|E].
  - rewrite E. rewrite tab_length in Lm. destruct Hc as [->|Hc]; [exfalso|apply IH; auto].
    assert (X : shell_pass (the_cube V) (bx0 V) (by0 V) (bz0 V) f r (tab n dirs) s (triple c) = Err IndexError); [|congruence].
    unfold shell_pass, triple. apply mapM_index_err.
    + intros [old [theta phi]] _. destruct (sample_voxel _ _ _ _ _); [apply read_voxel_or|eauto].
    + exists (nth q s 0, dirs q). split.
      * rewrite <- (tab_nth _ n dirs q (0, 0)) by auto. rewrite <- combine_nth by (rewrite tab_length; auto). apply nth_In. rewrite combine_length, tab_length. lia.
      * destruct (dirs q) as [theta phi]. unfold sphere2cart.
        change (r * cos phi * sin theta + vx c, r * sin phi * sin theta + vy c, r * cos theta + vz c) with (triple (seen_from c r (theta, phi))).
        fold (find_voxel V (seen_from c r (theta, phi))). rewrite (find_voxel_in _ _ _ _ _ HV Hin). eapply read_voxel_bad; eauto.
  - rewrite E. clear. induction cs as [|c cs IH]; [reflexivity|]. cbn [map fold_left bind]. exact IH.
Qed.

Lemma cube_remap_bad : forall pix2ang ud V G f n1 n2 n3 t c q i j k, good_voxels V -> (1 <= bnx V)%nat -> (1 <= bny V)%nat -> (1 <= bnz V)%nat ->
  shape3 f n1 n2 n3 -> (forall m, length (ud m (ss_nside G)) = pixels_of (ss_nside G)) ->
  (t < ss_nr G * ss_b G)%nat -> In c (images V G) -> (q < pixels_of (ss_nside G * ss_s G))%nat ->
  in_voxel V (seen_from c (shell_mid G t) (pix2ang (ss_nside G * ss_s G)%Z (Z.of_nat q))) i j k -> (n1 <= i \/ n2 <= j)%nat ->
  cube_remap pix2ang ud (the_cube V) (the_shells V G) f = Err IndexError.
Proof.
  intros pix2ang ud V G f n1 n2 n3 t c q i j k HV Nx Ny Nz Hf Hud Ht Hc Hq Hin Hbad.
  unfold cube_remap. cbn [the_cube the_shells cu_xedges cu_yedges cu_zedges sh_nside sh_rebin_shell sh_rmid sh_rebin_r sh_centers sh_rebin_redges sh_rebin_rmid].
  change (nside2npix (ss_nside G)) with (pixels_of (ss_nside G)). change (nside2npix (ss_nside G * ss_s G)) with (pixels_of (ss_nside G * ss_s G)).
  rewrite !(py_get_ok _ (tab (S _) _) _ 0) by (rewrite tab_length; lia). change (Z.to_nat 0) with 0%nat. rewrite !tab_nth by lia. cbn [bind INR].
  rewrite !Rmult_0_l, !Rplus_0_r. set (nf := pixels_of (ss_nside G * ss_s G)) in *.
  fold (the_cube V). set (dirs := fun q => pix2ang (ss_nside G * ss_s G)%Z (Z.of_nat q)).
  fold (tab nf dirs). change (map (fun c : vec => (vx c, vy c, vz c)) (images V G)) with (map triple (images V G)).
  rewrite mapM_index_err; [reflexivity| |].
  - intros r _. destruct (fill_shell_or (the_cube V) (bx0 V) (by0 V) (bz0 V) f r (tab nf dirs) (map triple (images V G)) (repeat 0 nf)) as [(m & E & Lm)|E].
    + now rewrite repeat_length, tab_length.
    + rewrite E. cbn [bind]. rewrite Hud, Nat.eqb_refl. left. eauto.
    + rewrite E. now right.
  - exists (shell_mid G t). split.
    + rewrite <- (tab_nth _ (ss_nr G * ss_b G) (shell_mid G) t 0) by auto. apply nth_In. now rewrite tab_length.
    + rewrite (fill_shell_bad V f _ nf dirs (images V G) _ n1 n2 n3 c q i j k); auto. apply repeat_length.
Qed.

(** ** Tabulated fields *)

Lemma tab3_shape : forall n m k (g : nat -> nat -> nat -> R), shape3 (tab3 n m k g) n m k.
Proof. intros. split; [apply tab_length|]. intros i Hi. unfold tab3. rewrite tab_nth by auto. apply tab2_shape. Qed.

Lemma tab3_cell : forall n m k (g : nat -> nat -> nat -> R) a b c, (a < n)%nat -> (b < m)%nat -> (c < k)%nat -> cell3 (tab3 n m k g) a b c = g a b c.
Proof. intros. unfold cell3, tab3. rewrite tab_nth by auto. now apply tab2_nth. Qed.

Lemma tabulate_tab : forall g n m l x y z, tabulate g (tab3 n m l x) (tab3 n m l y) (tab3 n m l z) = tab3 n m l (fun a b c => g (x a b c) (y a b c) (z a b c)).
Proof.
  intros. unfold tabulate, tab3, tab2. rewrite combine_tab, tab_map2. apply tab_ext. intros a Ha. cbn [fst snd].
  rewrite combine_tab, tab_map2. apply tab_ext. intros b Hb. cbn [fst snd]. rewrite combine_tab, tab_map2. reflexivity.
Qed.

Lemma tabulate_cube : forall g V, tabulate g (cu_x3d (the_cube V)) (cu_y3d (the_cube V)) (cu_z3d (the_cube V)) =
  tab3 (bny V) (bnx V) (bnz V) (fun j i k => g (mid_x V i) (mid_y V j) (mid_z V k)).
Proof. intros. cbn [the_cube cu_x3d cu_y3d cu_z3d]. apply tabulate_tab. Qed.

Lemma images_single : forall V G, no_images G -> images V G = [ss_c G].
Proof.
  intros V G (A & B & C). unfold images. rewrite A, B, C. cbn [zrange fst snd]. change (zrange (0, 0)%Z) with [0%Z]. cbn [flat_map map app].
  rewrite !Rmult_0_l, !Rplus_0_r. destruct (ss_c G); reflexivity.
Qed.

Lemma last_single : forall V f p v, last_value V f [p] v <-> (exists i j k, in_voxel V p i j k /\ v = cell3 f i j k) \/ (~ in_cube V p /\ v = 0).
Proof.
  intros V f p v. split.
  - intros [(m & i & j & k & Hm & Hin & Ev & _)|[H E]].
    + cbn in Hm. replace m with 0%nat in Hin by lia. left. exists i, j, k. auto.
    + right. split; auto. apply H. now left.
  - intros [(i & j & k & Hin & Ev)|[H E]].
    + left. exists 0%nat, i, j, k. cbn. split; [lia|]. split; auto. split; auto. intros; lia.
    + right. split; auto. intros q [<-|[]]; auto.
Qed.
