(** * Theorems: the [densegrid.Heal2Ortho] object over sequences of calls (C79)
    and [transform] on arrays (C66) *)

From Coq Require Import Reals ZArith List Bool Lia Lra Psatz.
From Flocq Require Import Core.Raux.
From Verif Require PGrids TCoords2 TArgs.
From Verif Require Import Base BaseP SpecSphere SpecGrid SpecRemap SpecOrtho MCoords MUsphere MGrids MDense MOrtho MLifeOrtho
  PCoords PTrig PUsphere PUsphereArr PPolarCoords PRemap2 PHealpixBoundary PDense POrtho TOrtho.
Import ListNotations.
Open Scope R_scope.

(** ** Specification *)

(** The [nside] of the last accepted [setup_map] since the last [clean]. *)
Definition map_in_force (H : healpy) (h : list call) (n : Z) : Prop :=
  exists h1 h2, h = h1 ++ CMap n :: h2 /\ isnsideok H n = true /\ ~ In CClean h2 /\
    forall m, In (CMap m) h2 -> isnsideok H m = false.

(** A [setup_box] whose grid is acceptable (the centre may still be refused). *)
Definition box_call (c : call) : Prop :=
  match c with
  | CBox xl xg ct yl yg rx ry rad => (2 <= xg)%Z /\ (2 <= match yg with Some g => g | None => xg end)%Z /\ length ct = 2%nat
  | _ => False
  end.

(** [c] is the last such call since the last [clean]; [h1] are the calls before. *)
Definition box_in_force (h1 : list call) (c : call) (h : list call) : Prop :=
  exists h2, h = h1 ++ c :: h2 /\ box_call c /\ ~ In CClean h2 /\ forall c', In c' h2 -> ~ box_call c'.

(** The call without the object: a [setup_box] for maps of the given [nside]. *)
Definition alone (H : healpy) (n : Z) (c : call) : res ortho :=
  match c with
  | CBox xl xg ct yl yg rx ry rad => ortho_setup (ang2pix_of H n) xl xg ct yl yg (Z.pos rx) (Z.pos ry) rad
  | _ => Err TypeError
  end.

(** The number of refined cells. *)
Definition cells (c : call) : Z :=
  match c with
  | CBox xl xg ct yl yg rx ry rad => (xg * Z.pos rx * (match yg with Some g => g | None => xg end * Z.pos ry))%Z
  | _ => 0%Z
  end.

(** The same [setup_box] with another centre. *)
Definition recentred (c : call) (ct : list R) : call :=
  match c with CBox xl xg _ yl yg rx ry rad => CBox xl xg ct yl yg rx ry rad | _ => c end.

Definition centre_of (c : call) : list R := match c with CBox _ _ ct _ _ _ _ _ => ct | _ => [] end.

(** ** Lemmas *)

Lemma run_app : forall H h h' s, run H s (h ++ h') = run H (run H s h) h'.
Proof. intros H h. induction h as [|c h IH]; intros; cbn [app run]; auto. Qed.

Lemma setup_split : forall a xl xg ct yl yg rx ry rad,
  ortho_setup a xl xg ct yl yg (Z.pos rx) (Z.pos ry) rad =
  ('q <- grid_of xl xg ct yl yg rx ry rad ;;
   c0 <- py_get ct 0 ;; c1 <- py_get ct 1 ;;
   pix <- mapM (fun p => ortho_pixel a c0 c1 (fst (fst p)) (snd (fst p)) (snd p)) (snd q) ;;
   Ok (with_pix (fst q) pix)).
Proof.
  intros. unfold ortho_setup, grid_of, py_assert.
  destruct (0 <? xg)%Z; [|reflexivity]. destruct (length ct =? 2)%nat; [|reflexivity].
  destruct (linspaceZ (- xl / 2) (xl / 2) (xg + 1)) as [xe|]; [|reflexivity]. cbn [bind].
  destruct (linspaceZ (- match yl with Some l => l | None => xl end / 2) _ _) as [ye|]; [|reflexivity]. cbn [bind].
  set (xm := map2 _ (tl xe) _). set (ym := map2 _ (tl ye) _).
  destruct (py_get xm 1) as [|]; [|reflexivity]. cbn [bind]. destruct (py_get xm 0) as [|]; [|reflexivity]. cbn [bind].
  destruct (py_get ym 1) as [|]; [|reflexivity]. cbn [bind]. destruct (py_get ym 0) as [|]; [|reflexivity]. cbn [bind].
  destruct (meshgrid xm ym) as [x2 y2].
  destruct (py_get xe 0) as [xe0|]; [|reflexivity]. cbn [bind]. destruct (py_get xe (-1)) as [xel|]; [|reflexivity]. cbn [bind].
  destruct (linspaceZ xe0 xel _) as [rxe|]; [|reflexivity]. cbn [bind].
  destruct (py_get ye 0) as [ye0|]; [|reflexivity]. cbn [bind]. destruct (py_get ye (-1)) as [yel|]; [|reflexivity]. cbn [bind].
  destruct (linspaceZ ye0 yel _) as [rye|]; [|reflexivity]. cbn [bind].
  destruct (meshgrid _ _) as [rx2 ry2]. destruct (meshgrid_ind _ _) as [yi xi]. cbn [bind fst snd].
  destruct (py_get ct 0) as [c0|]; [|reflexivity]. cbn [bind]. destruct (py_get ct 1) as [c1|]; [|reflexivity]. cbn [bind].
  destruct (mapM _ _); reflexivity.
Qed.

(** The grid part in closed form. *)
Definition the_grid (lx ly : R) (nx ny : nat) (rad : R) (ct : list R) (rx ry : nat) : ortho :=
  let X := fine lx (nx * rx) in let Y := fine ly (ny * ry) in
  Ortho (tab2 ny nx (fun _ j => fine lx nx j))
        (tab2 ny nx (fun i j => if Rlt_dec (fine lx nx j ^ 2 + fine ly ny i ^ 2) (rad ^ 2) then Some 1 else None))
        ct rx ry
        (tab (S (nx * rx)) (fun i => - (lx / 2) + INR i * (lx / INR (nx * rx))))
        (tab2 (ny * ry) (nx * rx) (fun _ j => X j)) (tab2 (ny * ry) (nx * rx) (fun i _ => Y i))
        (tab2 (ny * ry) (nx * rx) (fun i j => disc rad (X j) (Y i)))
        (concat (tab2 (ny * ry) (nx * rx) (fun i _ => i))) (concat (tab2 (ny * ry) (nx * rx) (fun _ j => j))) [].
Definition the_pts (lx ly : R) (nx ny : nat) (rad : R) (rx ry : nat) : list (R * R * R) :=
  concat (tab2 (ny * ry) (nx * rx) (fun i j => (fine lx (nx * rx) j, fine ly (ny * ry) i, lift_z rad (fine lx (nx * rx) j) (fine ly (ny * ry) i)))).

Lemma grid_ok : forall lx ly nx ny rad ct rx ry, (2 <= nx)%nat -> (2 <= ny)%nat -> length ct = 2%nat ->
  grid_of lx (Z.of_nat nx) ct (Some ly) (Some (Z.of_nat ny)) rx ry rad
  = Ok (the_grid lx ly nx ny rad ct (Pos.to_nat rx) (Pos.to_nat ry), the_pts lx ly nx ny rad (Pos.to_nat rx) (Pos.to_nat ry)).
Proof.
  intros lx ly nx ny rad ct rx ry Nx Ny HC. unfold grid_of. pose proof (Pos2Nat.is_pos rx) as Rx. pose proof (Pos2Nat.is_pos ry) as Ry.
  rewrite posZ by lia. rewrite HC. cbn [Nat.eqb py_assert]. rewrite !half_line by lia. cbn [bind]. rewrite !mids.
  rewrite !(py_get_ok _ (tab nx _) _ 0), !(py_get_ok _ (tab ny _) _ 0) by (rewrite tab_length; lia). cbn [bind].
  rewrite meshgrid_tab. rewrite tab2_zip2, tab2_map.
  rewrite !(py_get_ok _ (tab (S nx) _) _ 0), !(py_get_ok _ (tab (S ny) _) _ 0) by (rewrite tab_length; lia).
  rewrite !(py_get_last _ (tab (S nx) _) 0), !(py_get_last _ (tab (S ny) _) 0) by (rewrite tab_length; lia).
  cbn [bind]. rewrite !tab_length. change (Z.to_nat 0) with 0%nat. rewrite !tab_nth by lia.
  replace (S nx - 1)%nat with nx by lia. replace (S ny - 1)%nat with ny by lia.
  pose proof (INR_pos nx ltac:(lia)) as Pr. pose proof (INR_pos ny ltac:(lia)) as Pp.
  replace (- (lx / 2) + INR 0 * (lx / INR nx)) with (- (lx / 2)) by (cbn [INR]; ring).
  replace (- (ly / 2) + INR 0 * (ly / INR ny)) with (- (ly / 2)) by (cbn [INR]; ring).
  replace (- (lx / 2) + INR nx * (lx / INR nx)) with (lx / 2) by (field; lra).
  replace (- (ly / 2) + INR ny * (ly / INR ny)) with (ly / 2) by (field; lra).
  set (r := Pos.to_nat rx) in *. set (s := Pos.to_nat ry) in *.
  replace (Z.pos rx * Z.of_nat nx + 1)%Z with (Z.of_nat (nx * r) + 1)%Z by (unfold r; rewrite Nat2Z.inj_mul, positive_nat_Z; lia).
  replace (Z.pos ry * Z.of_nat ny + 1)%Z with (Z.of_nat (ny * s) + 1)%Z by (unfold s; rewrite Nat2Z.inj_mul, positive_nat_Z; lia).
  rewrite !half_line' by nia. cbn [bind]. rewrite !mids, meshgrid_tab, tab2_zip2, !tab2_map, !tab_length.
  replace (S (nx * r) - 1)%nat with (nx * r)%nat by lia. replace (S (ny * s) - 1)%nat with (ny * s)%nat by lia.
  rewrite meshgrid_ind_tab. rewrite !combine_flat. unfold the_grid, the_pts. f_equal. f_equal. f_equal.
  - apply tab2_ext. intros i j Hi Hj. fold (fine lx nx j) (fine ly ny i).
    destruct (Rlt_dec (fine lx nx j ^ 2 + fine ly ny i ^ 2) (rad ^ 2)) as [H|H].
    + destruct (ortho2cart_in _ _ rad None H) as (z & -> & _). reflexivity.
    + rewrite ortho2cart_out by lra. reflexivity.
  - apply tab2_ext. intros i j Hi Hj. rewrite ortho2cart_disc. reflexivity.
Qed.

Definition y_of (yg : option Z) (xg : Z) : Z := match yg with Some g => g | None => xg end.

(** The grid and the refined points of a [setup_box]. *)
Definition grid_at (c : call) : ortho :=
  match c with
  | CBox xl xg ct yl yg rx ry rad =>
      the_grid xl (match yl with Some l => l | None => xl end) (Z.to_nat xg) (Z.to_nat (y_of yg xg)) rad ct (Pos.to_nat rx) (Pos.to_nat ry)
  | _ => the_grid 0 0 0 0 0 [] 0 0
  end.
Definition pts_at (c : call) : list (R * R * R) :=
  match c with
  | CBox xl xg ct yl yg rx ry rad =>
      the_pts xl (match yl with Some l => l | None => xl end) (Z.to_nat xg) (Z.to_nat (y_of yg xg)) rad (Pos.to_nat rx) (Pos.to_nat ry)
  | _ => []
  end.

Lemma grid_at_ok : forall xl xg ct yl yg rx ry rad, let c := CBox xl xg ct yl yg rx ry rad in
  box_call c -> grid_of xl xg ct yl yg rx ry rad = Ok (grid_at c, pts_at c).
Proof.
  intros xl xg ct yl yg rx ry rad c (A & B & C). subst c. cbn [grid_at pts_at].
  rewrite <- (grid_ok xl _ (Z.to_nat xg) (Z.to_nat (y_of yg xg))) by (unfold y_of; auto; lia).
  unfold grid_of, y_of. rewrite !Z2Nat.id by lia. reflexivity.
Qed.

Lemma grid_refused : forall xl xg ct yl yg rx ry rad, ~ box_call (CBox xl xg ct yl yg rx ry rad) ->
  grid_of xl xg ct yl yg rx ry rad =
  Err (if (xg <=? 0)%Z then AssertionError else if negb (length ct =? 2)%nat then AssertionError
       else if (y_of yg xg <? -1)%Z then ValueError else IndexError).
Proof.
  intros xl xg ct yl yg rx ry rad HN. unfold grid_of, py_assert.
  destruct (Z.leb_spec xg 0) as [H|H]; destruct (Z.ltb_spec 0 xg) as [H'|H']; try lia; [reflexivity|].
  destruct (Nat.eqb_spec (length ct) 2) as [L|L]; [|reflexivity]. cbn [negb].
  fold (y_of yg xg). set (ly := match yl with Some l => l | None => xl end).
  rewrite linspaceZ_ok by lia. cbn [bind]. unfold linspaceZ.
  destruct (Z.ltb_spec (y_of yg xg) (-1)) as [Y|Y]; destruct (Z.ltb_spec (y_of yg xg + 1) 0) as [Y'|Y']; try lia; [reflexivity|]. cbn [bind].
  set (xm := map2 _ _ _). assert (Lx : length xm = Z.to_nat xg).
  { unfold xm. rewrite map2_length, PGrids.length_tl, PGrids.length_removelast, length_linspace. lia. }
  set (ym := map2 _ _ _). assert (Ly : length ym = Z.to_nat (y_of yg xg)).
  { unfold ym. rewrite map2_length, PGrids.length_tl, PGrids.length_removelast, length_linspace. lia. }
  clearbody xm ym.
  destruct (Z.leb_spec 2 xg) as [X|X].
  - rewrite !(py_get_ok _ xm _ 0) by lia. cbn [bind].
    destruct ym as [|y0 [|y1 t]]; [reflexivity|reflexivity|]. exfalso. apply HN. cbn [box_call]. fold (y_of yg xg). cbn [length] in Ly. lia.
  - destruct xm as [|x0 [|x1 t]]; [reflexivity|reflexivity|]. cbn [length] in Lx. lia.
Qed.

Lemma grid_err : forall xl xg ct yl yg rx ry rad, box_call (CBox xl xg ct yl yg rx ry rad) \/ ~ box_call (CBox xl xg ct yl yg rx ry rad).
Proof. intros. cbn [box_call]. lia. Qed.

Lemma grid_cells : forall c, box_call c ->
  Z.of_nat (length (o_rebin_xind (grid_at c))) = cells c /\ Z.of_nat (length (pts_at c)) = cells c /\ (0 < cells c)%Z.
Proof.
  intros c Hc. destruct c as [|xl xg ct yl yg rx ry rad| | |]; try contradiction. cbn [box_call] in Hc. fold (y_of yg xg) in Hc.
  cbn [grid_at pts_at cells o_rebin_xind the_grid]. fold (y_of yg xg). unfold the_pts.
  assert (L : forall A n m (g : nat -> nat -> A), length (concat (tab2 n m g)) = (n * m)%nat).
  { intros A n m g. unfold tab2. induction n as [|n IH] in g |- *.
    - reflexivity.
    - unfold tab in *. cbn [seq map]. rewrite <- seq_shift, map_map. cbn [concat]. rewrite app_length, map_length, seq_length.
      specialize (IH (fun i => g (S i))). rewrite IH. lia. }
  rewrite !L, !Nat2Z.inj_mul, !positive_nat_Z, !Z2Nat.id by lia. nia.
Qed.

(** The pixels of the refined points. *)
Lemma off_sky_pixels : forall H n ct pts, length ct = 2%nat -> pts <> [] -> ~ on_sky (nth 0 ct 0) (nth 1 ct 0) ->
  pixels_of H n ct pts = Err AssertionError.
Proof.
  intros H n ct pts L NE NS. destruct ct as [|c0 [|c1 [|]]]; try discriminate. cbn [nth] in NS.
  unfold pixels_of. change (py_get [c0; c1] 0) with (@Ok R c0). change (py_get [c0; c1] 1) with (@Ok R c1). cbn [bind].
  destruct pts as [|p t]; [now destruct NE|].
  assert (E : forall a, mapM (fun p => ortho_pixel a c0 c1 (fst (fst p)) (snd (fst p)) (snd p)) (p :: t) = Err AssertionError).
  { intros a. cbn [mapM]. unfold ortho_pixel at 1. destruct (cart2sphere _ _ _ _ _ _) as [[r f] th].
    unfold usphere_shift, py_assert, in_range. pose proof PI_RGT_0.
    assert (Q : Rle_bool 0 c0 && Rle_bool c0 (2 * PI) = true -> Rle_bool 0 c1 && Rle_bool c1 PI = true -> False).
    { rewrite !andb_true_iff. intros [A1 A2] [B1 B2]. apply NS. unfold on_sky.
      destruct (Rle_bool_spec 0 c0), (Rle_bool_spec c0 (2 * PI)), (Rle_bool_spec 0 c1), (Rle_bool_spec c1 PI); try discriminate. lra. }
    destruct (Rle_bool 0 end_phi && Rle_bool end_phi (2 * PI)); [|reflexivity].
    destruct (Rle_bool 0 c0 && Rle_bool c0 (2 * PI)); [|reflexivity].
    destruct (Rle_bool 0 end_theta && Rle_bool end_theta PI); [|reflexivity].
    destruct (Rle_bool 0 c1 && Rle_bool c1 PI); [exfalso; auto|reflexivity]. }
  destruct n; rewrite E; reflexivity.
Qed.

Lemma on_sky_pixels : forall H n ct pts, length ct = 2%nat -> on_sky (nth 0 ct 0) (nth 1 ct 0) -> nth 1 ct 0 < PI ->
  exists l, pixels_of H (Some n) ct pts = Ok l /\ length l = length pts /\
    (forall k, In k l -> exists p t, on_sky p t /\ k = ang2pix_of H n t p) /\
    pixels_of H None ct pts = Err (missing H).
Proof.
  intros H n ct pts L HS Hc. destruct ct as [|c0 [|c1 [|]]]; try discriminate. cbn [nth] in HS, Hc.
  unfold pixels_of. change (py_get [c0; c1] 0) with (@Ok R c0). change (py_get [c0; c1] 1) with (@Ok R c1). cbn [bind].
  assert (E : forall a, exists l, mapM (fun p => ortho_pixel a c0 c1 (fst (fst p)) (snd (fst p)) (snd p)) pts = Ok l /\
     length l = length pts /\ forall k, In k l -> exists p t, on_sky p t /\ k = a t p).
  { intros a. induction pts as [|q pts (l & E & El & K)]; [exists []; cbn; repeat split; auto; intros k []|].
    destruct (pixel_ok a c0 c1 (fst (fst q)) (snd (fst q)) (snd q) HS Hc) as (p & t & Ep & S & _).
    exists (a t p :: l). cbn [mapM]. rewrite Ep. cbn [bind]. rewrite E. cbn [bind length]. split; [reflexivity|]. split; [congruence|].
    intros k [<- |I]; eauto. }
  destruct (E (ang2pix_of H n)) as (l & E1 & L1 & K). exists l. split; [exact E1|]. split; [exact L1|]. split; [exact K|].
  destruct (E (fun _ _ => 0%Z)) as (l' & -> & _). reflexivity.
Qed.

(** What one call does to the object. *)
Lemma box_does : forall H s c, box_call c ->
  fst (step H s c) = OObj (o_nside s) (Some (grid_at c)) (match pixels_of H (o_nside s) (centre_of c) (pts_at c) with Ok p => Some p | Err _ => o_pix s end) /\
  snd (step H s c) = (_ <- pixels_of H (o_nside s) (centre_of c) (pts_at c) ;; Ok VNone).
Proof.
  intros H s c Hc. destruct c as [|xl xg ct yl yg rx ry rad| | |]; try contradiction. cbn [step centre_of]. unfold box_step.
  rewrite grid_at_ok by assumption. destruct (pixels_of _ _ _ _); split; reflexivity.
Qed.

Lemma box_refused : forall H s c, ~ box_call c -> match c with CBox _ _ _ _ _ _ _ _ => fst (step H s c) = s /\ exists e, snd (step H s c) = Err e | _ => True end.
Proof.
  intros H s c Hc. destruct c as [|xl xg ct yl yg rx ry rad| | |]; auto. cbn [step]. unfold box_step. rewrite grid_refused by assumption.
  split; [reflexivity|]. cbn [snd]. eauto.
Qed.

Lemma other_calls : forall H s c, c <> CClean -> ~ box_call c -> o_grid (fst (step H s c)) = o_grid s /\ o_pix (fst (step H s c)) = o_pix s.
Proof.
  intros H s c Hn Hc. destruct c as [n|xl xg ct yl yg rx ry rad| | |].
  - cbn [step]. destruct (isnsideok H n); split; reflexivity.
  - destruct (box_refused H s _ Hc) as [-> _]. split; reflexivity.
  - split; reflexivity.
  - split; reflexivity.
  - now destruct Hn.
Qed.

Lemma other_runs : forall H h s, ~ In CClean h -> (forall c, In c h -> ~ box_call c) -> o_grid (run H s h) = o_grid s /\ o_pix (run H s h) = o_pix s.
Proof.
  intros H h. induction h as [|c h IH]; intros s HC HB; [split; reflexivity|]. cbn [run].
  destruct (IH (fst (step H s c))) as [-> ->]; [intros I; apply HC; now right|intros c' I; apply HB; now right|].
  apply other_calls; [intros ->; apply HC; now left|apply HB; now left].
Qed.

Lemma nside_kept : forall H s c, c <> CClean -> (forall m, c = CMap m -> isnsideok H m = false) -> o_nside (fst (step H s c)) = o_nside s.
Proof.
  intros H s c Hn Hm. destruct c as [n|xl xg ct yl yg rx ry rad| | |].
  - cbn [step]. rewrite (Hm n eq_refl). reflexivity.
  - cbn [step]. unfold box_step. destruct (grid_of _ _ _ _ _ _ _ _) as [[g pts]|]; [|reflexivity]. destruct (pixels_of _ _ _ _); reflexivity.
  - reflexivity.
  - reflexivity.
  - now destruct Hn.
Qed.

Lemma map_state : forall H h n, map_in_force H h n -> o_nside (run H fresh h) = Some n.
Proof.
  intros H h n (h1 & h2 & -> & Ok1 & HC & HM). rewrite run_app. cbn [run step]. rewrite Ok1. cbn [fst].
  set (s0 := OObj _ _ _). assert (E : o_nside s0 = Some n) by reflexivity. clearbody s0. revert s0 E.
  induction h2 as [|c h2 IH]; intros s E; [exact E|]. cbn [run]. apply IH.
  - intros I. apply HC. now right.
  - intros m I. apply HM. now right.
  - rewrite nside_kept; [exact E|intros ->; apply HC; now left|intros m ->; apply HM; now left].
Qed.

Lemma box_state : forall H h1 c h, box_in_force h1 c h ->
  o_grid (run H fresh h) = Some (grid_at c) /\
  o_pix (run H fresh h) = match pixels_of H (o_nside (run H fresh h1)) (centre_of c) (pts_at c) with Ok p => Some p | Err _ => o_pix (run H fresh h1) end.
Proof.
  intros H h1 c h (h2 & -> & Hc & HC & HB). rewrite run_app. cbn [run]. set (s := run H fresh h1).
  destruct (other_runs H h2 (fst (step H s c)) HC HB) as [-> ->]. destruct (box_does H s c Hc) as [-> _]. split; reflexivity.
Qed.

Lemma alone_split : forall H n c, box_call c -> alone H n c =
  (pix <- pixels_of H (Some n) (centre_of c) (pts_at c) ;; Ok (with_pix (grid_at c) pix)).
Proof.
  intros H n c Hc. destruct c as [|xl xg ct yl yg rx ry rad| | |]; try contradiction. cbn [alone centre_of].
  rewrite setup_split, grid_at_ok by assumption. cbn [bind fst snd]. unfold pixels_of.
  destruct (py_get ct 0); [|reflexivity]. cbn [bind]. destruct (py_get ct 1); reflexivity.
Qed.

Lemma mapM_len : forall A B (f : A -> res B) l l', mapM f l = Ok l' -> length l' = length l.
Proof.
  intros A B f l. induction l as [|a l IH]; intros l' E; cbn [mapM] in E; [apply Ok_inj in E; now subst|].
  destruct (f a); [|discriminate]. cbn [bind] in E. destruct (mapM f l) as [r|] eqn:Er; [|discriminate]. cbn [bind] in E.
  apply Ok_inj in E. subst l'. cbn [length]. f_equal. now apply IH.
Qed.

Lemma pixels_len : forall H n ct pts p, pixels_of H n ct pts = Ok p -> length p = length pts.
Proof.
  intros H n ct pts p E. unfold pixels_of in E. destruct (py_get ct 0); [|discriminate]. cbn [bind] in E. destruct (py_get ct 1); [|discriminate]. cbn [bind] in E.
  destruct n; [now apply mapM_len in E|]. destruct (mapM _ _); discriminate.
Qed.

(** A grid with as many pixels as cells: [remap] as for [MOrtho]. *)
Lemma remap_full : forall s g pix f w, o_grid s = Some g -> o_pix s = Some pix -> length pix = length (o_rebin_xind g) ->
  remap_of s f w = ortho_remap (with_pix g pix) f w.
Proof.
  intros s g pix f w Hg Hp HL.
  assert (E : forall f, remap0_of s f = ortho_remap0 (with_pix g pix) f).
  { intros f0. unfold remap0_of. rewrite Hg, Hp, HL, Nat.eqb_refl. unfold ortho_remap0 at 2. cbn [o_rebin_pix with_pix o_rebin_x2d].
    unfold ortho_remap0. cbn [o_rebin_pix with_pix o_rebin_x2d]. destruct (mapM (py_get f0) pix); reflexivity. }
  unfold remap_of, ortho_remap. destruct w as [w|]; [|apply E]. destruct (length f =? length w)%nat; [|reflexivity]. now rewrite !E.
Qed.

(** ** C79 *)

(** [clean] makes the object as good as new. *)
Theorem C79_clean : forall H h, run H fresh (h ++ [CClean]) = fresh.
Proof. intros. rewrite run_app. reflexivity. Qed.
Print Assumptions C79_clean.

(** A raising call leaves the object as it was, unless it is a [setup_box] with
    an acceptable grid; [remap] and [transform] never change the object. *)
Theorem C79_refused : forall H s c, ~ box_call c ->
  (forall e, snd (step H s c) = Err e -> fst (step H s c) = s) /\
  (match c with CRemap _ _ | CTransform _ _ => fst (step H s c) = s | _ => True end).
Proof.
  intros H s c Hc. destruct c as [n|xl xg ct yl yg rx ry rad|f w|p t|].
  - split; [|exact I]. cbn [step]. destruct (isnsideok H n); [discriminate|reflexivity].
  - split; [|exact I]. intros e _. exact (proj1 (box_refused H s _ Hc)).
  - split; reflexivity.
  - split; reflexivity.
  - split; [discriminate|exact I].
Qed.
Print Assumptions C79_refused.

(** The exceptions of [setup_map], of [setup_box] with an unacceptable grid, and
    of [setup_box] with an acceptable one (nothing is said about a centre at the
    south pole). *)
Theorem C79_args : forall H s,
  (forall n, snd (step H s (CMap n)) = if isnsideok H n then Ok VNone else Err AssertionError) /\
  (forall xl xg ct yl yg rx ry rad, let c := CBox xl xg ct yl yg rx ry rad in
     let y := match yg with Some g => g | None => xg end in
     ((xg <= 0)%Z \/ length ct <> 2%nat -> snd (step H s c) = Err AssertionError) /\
     ((0 < xg)%Z -> length ct = 2%nat -> (y < -1)%Z -> snd (step H s c) = Err ValueError) /\
     ((0 < xg)%Z -> length ct = 2%nat -> (-1 <= y)%Z -> (xg < 2 \/ y < 2)%Z -> snd (step H s c) = Err IndexError)) /\
  (forall c, box_call c -> ~ on_sky (nth 0 (centre_of c) 0) (nth 1 (centre_of c) 0) -> snd (step H s c) = Err AssertionError) /\
  (forall c, box_call c -> on_sky (nth 0 (centre_of c) 0) (nth 1 (centre_of c) 0) -> nth 1 (centre_of c) 0 < PI ->
     snd (step H s c) = match o_nside s with Some _ => Ok VNone | None => Err (missing H) end).
Proof.
  intros H s.
  assert (Lc : forall c, box_call c -> length (centre_of c) = 2%nat) by (intros c Hc; destruct c; try contradiction; apply Hc).
  split; [intros n; cbn [step]; now destruct (isnsideok H n)|]. split; [|split].
  - intros xl xg ct yl yg rx ry rad c y.
    assert (E : ~ box_call c -> snd (step H s c) = Err (if (xg <=? 0)%Z then AssertionError else if negb (length ct =? 2)%nat then AssertionError
       else if (y <? -1)%Z then ValueError else IndexError)).
    { intros N. unfold c. cbn [step]. unfold box_step. rewrite grid_refused by exact N. reflexivity. }
    cbn [c box_call] in E. fold y in E. split; [|split].
    + intros Q. rewrite E by lia. destruct (Z.leb_spec xg 0); [reflexivity|]. destruct (Nat.eqb_spec (length ct) 2); [lia|reflexivity].
    + intros Q L Y. rewrite E by lia. destruct (Z.leb_spec xg 0); [lia|]. rewrite L. cbn [Nat.eqb negb]. destruct (Z.ltb_spec y (-1)); [reflexivity|lia].
    + intros Q L Y Y'. rewrite E by lia. destruct (Z.leb_spec xg 0); [lia|]. rewrite L. cbn [Nat.eqb negb]. destruct (Z.ltb_spec y (-1)); [lia|reflexivity].
  - intros c Hc NS. destruct (box_does H s c Hc) as [_ ->]. rewrite off_sky_pixels; auto.
    destruct (grid_cells c Hc) as (_ & A & B). destruct (pts_at c); [cbn in A; lia|discriminate].
  - intros c Hc HS HP. destruct (box_does H s c Hc) as [_ ->].
    destruct (o_nside s) as [n|].
    + destruct (on_sky_pixels H n _ (pts_at c) (Lc c Hc) HS HP) as (l & -> & _). reflexivity.
    + destruct (on_sky_pixels H 0 _ (pts_at c) (Lc c Hc) HS HP) as (l & _ & _ & _ & ->). reflexivity.
Qed.
Print Assumptions C79_args.

(** [remap] uses the last [setup_box] and the [nside] of the time of that call:
    a later [setup_map] changes nothing. *)
Theorem C79_remap : forall H h1 c h n O, box_in_force h1 c h -> map_in_force H h1 n -> alone H n c = Ok O ->
  forall f w, snd (step H (run H fresh h) (CRemap f w)) = (g <- ortho_remap O f w ;; Ok (VPicture g)).
Proof.
  intros H h1 c h n O HB HM EA f w. cbn [step snd]. f_equal.
  assert (Hc : box_call c) by (destruct HB as (? & _ & X & _); exact X).
  destruct (box_state H h1 c h HB) as [Eg Ep]. rewrite (map_state H h1 n HM) in Ep.
  rewrite alone_split in EA by exact Hc. destruct (pixels_of H (Some n) (centre_of c) (pts_at c)) as [p|] eqn:E; [|discriminate].
  cbn [bind] in EA. apply Ok_inj in EA. subst O. apply remap_full; auto.
  rewrite (pixels_len _ _ _ _ _ E). destruct (grid_cells c Hc) as (A & B & _). lia.
Qed.
Print Assumptions C79_remap.

(** The set-up just used succeeds for every centre on the sky but the south pole. *)
Theorem C79_ready : forall H n c, box_call c -> on_sky (nth 0 (centre_of c) 0) (nth 1 (centre_of c) 0) -> nth 1 (centre_of c) 0 < PI ->
  exists O, alone H n c = Ok O.
Proof.
  intros H n c Hc HS HP. rewrite alone_split by exact Hc.
  assert (Lc : length (centre_of c) = 2%nat) by (destruct c; try contradiction; apply Hc).
  destruct (on_sky_pixels H n _ (pts_at c) Lc HS HP) as (l & -> & _). cbn [bind]. eauto.
Qed.
Print Assumptions C79_ready.

(** [transform] uses the centre of the last [setup_box] with an acceptable grid,
    whether or not that call raised. *)
Theorem C79_transform : forall H h1 c h, box_in_force h1 c h ->
  forall p t, snd (step H (run H fresh h) (CTransform p t)) = ('q <- ortho_transform (centre_of c) p t ;; Ok (VPoint (fst q) (snd q))).
Proof.
  intros H h1 c h HB p t. cbn [step snd]. destruct (box_state H h1 c h HB) as [-> _].
  assert (Hc : box_call c) by (destruct HB as (? & _ & X & _); exact X).
  destruct c; try contradiction. reflexivity.
Qed.
Print Assumptions C79_transform.

(** Before the first such call there is neither picture nor projection. *)
Theorem C79_unset : forall H h, (forall h1 c h2, h = h1 ++ c :: h2 -> box_call c -> In CClean h2) ->
  (forall p t, snd (step H (run H fresh h) (CTransform p t)) = Err TypeError) /\
  (forall f w, snd (step H (run H fresh h) (CRemap f w)) =
     Err (match w with
          | None => if (length f =? 1)%nat then TypeError else ValueError
          | Some w => if (length f =? length w)%nat && (length f =? 1)%nat then TypeError else ValueError
          end)).
Proof.
  intros H h HN.
  assert (E : o_grid (run H fresh h) = None).
  { assert (Q : forall h, ((forall h1 c h2, h = h1 ++ c :: h2 -> box_call c -> In CClean h2) -> o_grid (run H fresh h) = None)).
    { clear. intros h. induction h as [|c h IH] using rev_ind; intros HN; [reflexivity|]. rewrite run_app. cbn [run].
      destruct c as [n|xl xg ct yl yg rx ry rad| | |]; try reflexivity.
      all: try (assert (P : o_grid (run H fresh h) = None) by
        (apply IH; intros h1 c h2 -> Hc; specialize (HN h1 c (h2 ++ [_]) ltac:(now rewrite <- app_assoc) Hc);
         apply in_app_iff in HN; destruct HN as [?|[X|[]]]; [assumption|discriminate X])).
      - cbn [step]. destruct (isnsideok H n); exact P.
      - destruct (grid_err xl xg ct yl yg rx ry rad) as [Hc|Hc].
        + destruct (HN h _ [] eq_refl Hc).
        + destruct (box_refused H (run H fresh h) _ Hc) as [-> _]. exact P.
      - exact P.
      - exact P. }
    now apply Q. }
  split.
  - intros p t. cbn [step snd]. rewrite E. reflexivity.
  - intros f w. cbn [step snd]. unfold remap_of, remap0_of. rewrite E. destruct w as [w|].
    + destruct (Nat.eqb_spec (length f) (length w)) as [L|L]; [|reflexivity]. rewrite map2_length, <- L, Nat.min_id. cbn [andb].
      destruct (length f =? 1)%nat; reflexivity.
    + destruct (length f =? 1)%nat; reflexivity.
Qed.
Print Assumptions C79_unset.

(** *** A refused centre *)

Lemma centre_unread : forall a b ct ct' rx ry xe x2 y2 on xi yi p f w,
  ortho_remap (Ortho a b ct rx ry xe x2 y2 on xi yi p) f w = ortho_remap (Ortho a b ct' rx ry xe x2 y2 on xi yi p) f w.
Proof. reflexivity. Qed.

Lemma too_few : forall s g pix f w, o_grid s = Some g -> o_pix s = Some pix -> length pix <> length (o_rebin_xind g) ->
  (forall k, In k pix -> (0 <= k < Z.of_nat (length f))%Z) -> remap_of s f w = Err ValueError.
Proof.
  intros s g pix f w Hg Hp HL HI.
  assert (E : forall f', length f' = length f -> remap0_of s f' = Err ValueError).
  { intros f' L. unfold remap0_of. rewrite Hg, Hp.
    rewrite (PGrids.mapM_ok _ _ (py_get f') (fun k => nth (Z.to_nat k) f' 0)) by (intros k Hk; apply py_get_ok; rewrite L; auto).
    cbn [bind]. destruct (Nat.eqb_spec (length pix) (length (o_rebin_xind g))); [contradiction|reflexivity]. }
  unfold remap_of. destruct w as [w|]; [|now apply E]. destruct (Nat.eqb_spec (length f) (length w)) as [L|]; [|reflexivity].
  rewrite E by (rewrite map2_length; lia). reflexivity.
Qed.

(** A working object is given a [setup_box] whose centre is not on the sky.  The
    call raises, and afterwards [transform] raises too; [remap] raises if the
    number of refined cells changed, and goes on to paint the old picture if only
    the centre changed. *)
Theorem C79_refused_centre : forall H h1 c h n O c', box_in_force h1 c h -> map_in_force H h1 n ->
  on_sky (nth 0 (centre_of c) 0) (nth 1 (centre_of c) 0) -> nth 1 (centre_of c) 0 < PI -> alone H n c = Ok O ->
  box_call c' -> ~ on_sky (nth 0 (centre_of c') 0) (nth 1 (centre_of c') 0) ->
  snd (step H (run H fresh h) c') = Err AssertionError /\
  let s := run H fresh (h ++ [c']) in
  (forall p t, snd (step H s (CTransform p t)) = Err AssertionError) /\
  (forall f w, cells c' <> cells c -> indexes (ang2pix_of H n) (length f) -> snd (step H s (CRemap f w)) = Err ValueError) /\
  (forall f w ct, c' = recentred c ct -> snd (step H s (CRemap f w)) = (g <- ortho_remap O f w ;; Ok (VPicture g))).
Proof.
  intros H h1 c h n O c' HB HM HS HP EA Hc' NS.
  assert (Hc : box_call c) by (destruct HB as (? & _ & X & _); exact X).
  assert (Lc : length (centre_of c) = 2%nat) by (destruct c; try contradiction; apply Hc).
  destruct (box_state H h1 c h HB) as [Eg Ep]. rewrite (map_state H h1 n HM) in Ep.
  destruct (on_sky_pixels H n _ (pts_at c) Lc HS HP) as (pix & EP & LP & K & _). rewrite EP in Ep.
  rewrite alone_split, EP in EA by exact Hc. cbn [bind] in EA. apply Ok_inj in EA.
  destruct (C79_args H (run H fresh h)) as (_ & _ & OFF & _). split; [now apply OFF|]. cbv zeta.
  destruct (grid_cells c Hc) as (A & B & _). destruct (grid_cells c' Hc') as (A' & B' & Pos').
  assert (Lc' : length (centre_of c') = 2%nat) by (destruct c'; try contradiction; apply Hc').
  assert (F : box_in_force h c' (h ++ [c'])) by (exists []; repeat split; auto; intros ? []).
  destruct (box_state H h c' _ F) as [Eg' Ep'].
  rewrite off_sky_pixels, Ep in Ep'; auto; [|destruct (pts_at c'); [cbn in B'; lia|discriminate]].
  split; [|split].
  - intros p t. rewrite (C79_transform H h c' _ F). destruct (centre_of c') as [|c0 [|c1 [|]]]; try discriminate. cbn [nth] in NS.
    unfold ortho_transform. change (py_get [c0; c1] 0) with (@Ok R c0). change (py_get [c0; c1] 1) with (@Ok R c1). cbn [bind].
    rewrite TCoords2.C21_refused; [reflexivity|]. intros (X & _). contradiction.
  - intros f w HN HI. cbn [step snd]. rewrite (too_few _ _ _ f w Eg' Ep'); [reflexivity|lia|].
    intros k Hk. destruct (K k Hk) as (p & t & S & ->). now apply HI.
  - intros f w ct Ec. cbn [step snd]. f_equal. rewrite (remap_full _ _ _ f w Eg' Ep').
    + subst O c'. destruct c; try contradiction. apply centre_unread.
    + subst c'. destruct c; try contradiction. cbn [cells recentred] in *. lia.
Qed.
Print Assumptions C79_refused_centre.

(** *** [setup_box] before [setup_map] *)

Lemma nside_state : forall H h n, o_nside (run H fresh h) = Some n -> map_in_force H h n.
Proof.
  intros H h. induction h as [|c h IH] using rev_ind; intros n E; [discriminate|]. rewrite run_app in E. cbn [run] in E.
  assert (K : c <> CClean -> (forall m, c = CMap m -> isnsideok H m = false) -> map_in_force H (h ++ [c]) n).
  { intros N1 N2. rewrite nside_kept in E by assumption. destruct (IH n E) as (h1 & h2 & -> & O1 & C1 & M1).
    exists h1, (h2 ++ [c]). rewrite <- app_assoc. split; [reflexivity|]. split; [exact O1|]. split.
    - rewrite in_app_iff. intros [X|[X|[]]]; [contradiction|congruence].
    - intros m I. apply in_app_iff in I. destruct I as [I|[I|[]]]; [now apply M1|now apply N2]. }
  destruct c as [m|xl xg ct yl yg rx ry rad|f w|p t|]; try (apply K; [discriminate|intros; discriminate]).
  - cbn [step] in E. destruct (isnsideok H m) eqn:Em.
    + cbn [fst o_nside] in E. injection E as ->. exists h, []. repeat split; auto. intros ? [].
    + apply K; [discriminate|]. intros q Q. now injection Q as <-.
Qed.

Lemma no_pixels : forall H h, o_nside (run H fresh h) = None -> o_pix (run H fresh h) = None.
Proof.
  intros H h. induction h as [|c h IH] using rev_ind; [reflexivity|]. rewrite run_app. cbn [run].
  destruct c as [m|xl xg ct yl yg rx ry rad|f w|p t|]; try exact IH.
  - cbn [step]. destruct (isnsideok H m); [discriminate|exact IH].
  - cbn [step]. unfold box_step. destruct (grid_of _ _ _ _ _ _ _ _) as [[g pts]|]; [|exact IH].
    destruct (pixels_of H (o_nside (run H fresh h)) ct pts) as [p|] eqn:E; cbn [fst o_nside o_pix]; [|exact IH].
    intros N. rewrite N in E. unfold pixels_of in E. destruct (py_get ct 0); [|discriminate]. cbn [bind] in E.
    destruct (py_get ct 1); [|discriminate]. cbn [bind] in E. destruct (mapM _ _); discriminate.
  - reflexivity.
Qed.

(** The values of a remap with arbitrary pixels. *)
Lemma remap0_gen : forall Q ct (P : nat -> nat -> Z) f, (2 <= pc_nx Q)%nat -> (2 <= pc_ny Q)%nat -> (1 <= pc_b Q)%nat ->
  (forall i j, (i < pc_ny Q * pc_b Q)%nat -> (j < pc_nx Q * pc_b Q)%nat -> (0 <= P i j < Z.of_nat (length f))%Z) ->
  let v i j a c := nth (Z.to_nat (P (i * pc_b Q + a) (j * pc_b Q + c))%nat) f 0 in
  ortho_remap0 (with_pix (the_grid (pc_lx Q) (pc_ly Q) (pc_nx Q) (pc_ny Q) (pc_rad Q) ct (pc_b Q) (pc_b Q))
                         (concat (tab2 (pc_ny Q * pc_b Q) (pc_nx Q * pc_b Q) P))) f =
  Ok (tab2 (pc_ny Q) (pc_nx Q) (fun i j =>
        cell_value (pc_b Q) (Rltb (col_mid Q j ^ 2 + row_mid Q i ^ 2) (pc_rad Q ^ 2))
          (block_sum (pc_b Q) (fine_disc Q i j))
          (block_sum (pc_b Q) (fun a c => v i j a c * fine_disc Q i j a c)))).
Proof.
  intros Q ct P f Nx Ny Hb HI v. set (b := pc_b Q) in *. set (nx := pc_nx Q) in *. set (ny := pc_ny Q) in *.
  assert (H1 : (1 <= nx * b)%nat) by nia. assert (H2 : (1 <= ny * b)%nat) by nia.
  unfold ortho_remap0. cbn [bind o_rebin_x2d o_rebin_y2d o_rebin_xind o_rebin_yind o_rebin_xedges o_rebin_onsphere o_x2d o_onsphere o_rebin_x o_rebin_y o_rebin_pix with_pix the_grid].
  rewrite (mapM_flat _ _ (py_get f) (ny * b) (nx * b) P (fun i j => nth (Z.to_nat (P i j)) f 0)) by (intros; apply py_get_ok; auto). cbn [bind].
  rewrite tab2_map, put2_all.
  rewrite !(py_get_ok _ (tab (S (nx * b)) _) _ 0) by (rewrite tab_length; lia). cbn [bind].
  rewrite tab2_zip2, tab2_length.
  rewrite !(py_get_ok _ (tab2 (ny * b) (nx * b) _) _ []) by (rewrite tab2_length; lia). cbn [bind].
  rewrite !(py_get_ok _ (tab2 ny nx _) _ []) by (rewrite tab2_length; lia). cbn [bind].
  change (Z.to_nat 0) with 0%nat. rewrite !row0 by lia.
  rewrite !reshape3_tab by lia. cbn [bind]. rewrite !sum_axis1_tab. rewrite !reshape3_split by lia. cbn [bind].
  rewrite sum_axis2_tab, mean_axis2_tab by lia. rewrite !tab2_zip2. f_equal. apply tab2_ext. intros i j Hi Hj.
  pose proof (INR_pos b Hb) as Pb.
  match goal with |- nmul (divide_where ?x (Some (?y / _))) _ = _ => set (X := x); set (Y := y) end.
  assert (EY : Y = block_sum b (fine_disc Q i j)).
  { unfold Y, block_sum. rewrite sum_swap. apply sum_ext. intros a Ha. apply sum_ext. intros c Hc'. reflexivity. }
  assert (EX : X = block_sum b (fun a c => v i j a c * fine_disc Q i j a c)).
  { unfold X, block_sum. rewrite sum_swap. apply sum_ext. intros a Ha. apply sum_ext. intros c Hc'. reflexivity. }
  rewrite <- EY, <- EX. unfold cell_value, Rltb, divide_where.
  change (fine (pc_lx Q) nx j) with (col_mid Q j). change (fine (pc_ly Q) ny i) with (row_mid Q i).
  destruct (Rlt_dec (col_mid Q j ^ 2 + row_mid Q i ^ 2) (pc_rad Q ^ 2)).
  - destruct (Req_EM_T Y 0) as [Z|Z].
    + rewrite Z. rewrite Req_bool_true by (field; lra). cbn [nmul]. f_equal. ring.
    + rewrite Req_bool_false; cycle 1.
      { intros E. apply Z. apply (Rmult_eq_compat_r (INR b)) in E. unfold Rdiv in E. rewrite Rmult_assoc, Rinv_l in E by lra. lra. }
      cbn [nmul]. f_equal. field. lra.
  - destruct (Req_bool _ _); reflexivity.
Qed.

Lemma count_flat : forall n m, map Z.of_nat (seq 0 (n * m)) = concat (tab2 n m (fun i j => Z.of_nat (i * m + j))).
Proof.
  intros n m. induction n as [|n IH]; [reflexivity|].
  assert (E : concat (tab2 (S n) m (fun i j => Z.of_nat (i * m + j))) = concat (tab2 n m (fun i j => Z.of_nat (i * m + j))) ++ tab m (fun j => Z.of_nat (n * m + j))).
  { unfold tab2 at 1. unfold tab at 1. rewrite seq_S, map_app, concat_app. cbn [map concat Nat.add]. now rewrite app_nil_r. }
  rewrite E, <- IH. replace (S n * m)%nat with (n * m + m)%nat by lia. rewrite seq_app, map_app. f_equal.
  unfold tab. cbn [Nat.add].
  assert (G : forall m k q, map Z.of_nat (seq (k + q) m) = map (fun j => Z.of_nat (k + j)) (seq q m)).
  { clear. induction m as [|m IH]; intros k q; cbn [seq map]; [reflexivity|]. f_equal. rewrite <- IH. now rewrite Nat.add_succ_r. }
  rewrite <- (G m (n * m)%nat 0%nat). now rewrite Nat.add_0_r.
Qed.

(** [setup_box] without a map raises, and a [setup_map] afterwards does not
    repair it: [remap] raises ValueError for every map that has neither one pixel
    nor as many pixels as the picture has refined cells. *)
Theorem C79_no_map : forall H h1 c h, box_in_force h1 c h -> (forall n, ~ map_in_force H h1 n) ->
  on_sky (nth 0 (centre_of c) 0) (nth 1 (centre_of c) 0) -> nth 1 (centre_of c) 0 < PI ->
  snd (step H (run H fresh h1) c) = Err (missing H) /\
  forall f w, length f <> 1%nat -> Z.of_nat (length f) <> cells c -> snd (step H (run H fresh h) (CRemap f w)) = Err ValueError.
Proof.
  intros H h1 c h HB HN HS HP. assert (Hc : box_call c) by (destruct HB as (? & _ & X & _); exact X).
  assert (N : o_nside (run H fresh h1) = None).
  { destruct (o_nside (run H fresh h1)) as [n|] eqn:E; [|reflexivity]. destruct (HN n). now apply nside_state. }
  split.
  - destruct (C79_args H (run H fresh h1)) as (_ & _ & _ & G). rewrite (G c Hc HS HP), N. reflexivity.
  - intros f w L1 L2. cbn [step snd]. destruct (box_state H h1 c h HB) as [Eg Ep].
    assert (Lc : length (centre_of c) = 2%nat) by (destruct c; try contradiction; apply Hc).
    destruct (on_sky_pixels H 0 _ (pts_at c) Lc HS HP) as (_ & _ & _ & _ & EM). rewrite N, EM, (no_pixels H h1 N) in Ep.
    destruct (grid_cells c Hc) as (A & _ & _).
    assert (E : forall f', length f' = length f -> remap0_of (run H fresh h) f' = Err ValueError).
    { intros f' L. unfold remap0_of. rewrite Eg, Ep, L. destruct (Nat.eqb_spec (length f) (length (o_rebin_xind (grid_at c)))); [lia|].
      destruct (Nat.eqb_spec (length f) 1); [lia|reflexivity]. }
    unfold remap_of. destruct w as [w|]; [|now rewrite E]. destruct (Nat.eqb_spec (length f) (length w)) as [L|]; [|reflexivity].
    rewrite E by (rewrite map2_length; lia). reflexivity.
Qed.
Print Assumptions C79_no_map.

(** A map with as many pixels as there are refined cells is painted silently,
    pixel after pixel along the rows, wherever the pixels are on the sky. *)
Theorem C79_raw : forall H h1 Q c0 c1 b h f, let c := CBox (pc_lx Q) (Z.of_nat (pc_nx Q)) [c0; c1] (Some (pc_ly Q)) (Some (Z.of_nat (pc_ny Q))) b b (pc_rad Q) in
  box_in_force h1 c h -> (forall n, ~ map_in_force H h1 n) -> on_sky c0 c1 -> c1 < PI -> pc_b Q = Pos.to_nat b ->
  length f = (pc_ny Q * pc_b Q * (pc_nx Q * pc_b Q))%nat ->
  exists g, snd (step H (run H fresh h) (CRemap f None)) = Ok (VPicture g) /\ length g = pc_ny Q /\
  forall i j, (i < pc_ny Q)%nat -> (j < pc_nx Q)%nat ->
    let total := block_sum (pc_b Q) (fine_disc Q i j) in
    let v a c := nth ((i * pc_b Q + a) * (pc_nx Q * pc_b Q) + (j * pc_b Q + c)) f 0 in
    (~ on_disc (pc_rad Q) (col_mid Q j) (row_mid Q i) -> nth j (nth i g []) None = None) /\
    (on_disc (pc_rad Q) (col_mid Q j) (row_mid Q i) -> total <> 0 -> nth j (nth i g []) None =
       Some (INR (pc_b Q) * (block_sum (pc_b Q) (fun a c => v a c * fine_disc Q i j a c) / total))).
Proof.
  intros H h1 Q c0 c1 b h f c HB HN HS HP Hb HL. assert (Hc : box_call c) by (destruct HB as (? & _ & X & _); exact X).
  assert (N : o_nside (run H fresh h1) = None).
  { destruct (o_nside (run H fresh h1)) as [n|] eqn:E; [|reflexivity]. destruct (HN n). now apply nside_state. }
  destruct (box_state H h1 c h HB) as [Eg Ep].
  destruct (on_sky_pixels H 0 [c0; c1] (pts_at c) eq_refl HS HP) as (_ & _ & _ & _ & EM). rewrite N in Ep. cbn [centre_of c] in Ep. fold c in Ep. rewrite EM, (no_pixels H h1 N) in Ep.
  destruct (grid_cells c Hc) as (A & _ & _). pose proof (Pos2Nat.is_pos b) as Pb.
  assert (A' : length (o_rebin_xind (grid_at c)) = length f).
  { apply Nat2Z.inj. rewrite A, HL, Hb. cbn [cells c]. rewrite !Nat2Z.inj_mul, positive_nat_Z. ring. }
  cbn [box_call c] in Hc.
  assert (E : remap0_of (run H fresh h) f = ortho_remap0 (with_pix (the_grid (pc_lx Q) (pc_ly Q) (pc_nx Q) (pc_ny Q) (pc_rad Q) [c0; c1] (pc_b Q) (pc_b Q))
     (concat (tab2 (pc_ny Q * pc_b Q) (pc_nx Q * pc_b Q) (fun i j => Z.of_nat (i * (pc_nx Q * pc_b Q) + j))))) f).
  { unfold remap0_of. rewrite Eg, Ep, A', Nat.eqb_refl. cbn [grid_at c y_of]. rewrite !Nat2Z.id, <- Hb, HL, count_flat. reflexivity. }
  eexists. split.
  { cbn [step snd]. unfold remap_of. rewrite E, remap0_gen; [reflexivity|lia|lia|lia|]. intros i j Hi Hj. rewrite HL. nia. }
  split; [apply tab2_length|]. intros i j Hi Hj. unfold tab2. rewrite tab_nth by auto. change num with (option R). rewrite (tab_nth (option R)) by auto.
  cbv zeta. unfold cell_value, Rltb, on_disc. destruct (Rlt_dec _ _) as [HD|HD]; split; intros X; try contradiction; auto.
  intros T. destruct (Req_EM_T _ 0) as [Z|Z]; [contradiction|]. do 3 f_equal. unfold block_sum. apply sum_ext. intros a Ha. apply sum_ext. intros k Hk.
  now rewrite Nat2Z.id.
Qed.
Print Assumptions C79_raw.

(** *** A later [setup_map] is ignored *)

Lemma one_pixel : forall k Q c0 c1 f, usable Q c0 c1 -> (k < length f)%nat ->
  let O := the_ortho (fun _ _ => Z.of_nat k) (pc_lx Q) (pc_ly Q) (pc_nx Q) (pc_ny Q) (pc_rad Q) c0 c1 (pc_b Q) (pc_b Q) in
  ortho_remap O f None = ortho_remap O (repeat (nth k f 0) (length f)) None.
Proof.
  intros k Q c0 c1 f (Nx & Ny & Hb & Hr & HS & Hc) Hk O. unfold ortho_remap, ortho_remap0.
  replace (mapM (py_get (repeat (nth k f 0) (length f))) (o_rebin_pix O)) with (mapM (py_get f) (o_rebin_pix O)); [reflexivity|].
  apply TArgs.mapM_ext. intros q Hq. unfold O in Hq. cbn [o_rebin_pix the_ortho] in Hq. apply in_flat in Hq. destruct Hq as (i & j & _ & _ & ->).
  destruct (seen_pix_spec (fun _ _ => Z.of_nat k) c0 c1 (pc_rad Q) (fine (pc_lx Q) (pc_nx Q * pc_b Q) j) (fine (pc_ly Q) (pc_ny Q * pc_b Q) i) HS Hc Hr) as (p & t & -> & _).
  rewrite !(py_get_ok _ _ _ 0) by (rewrite ?repeat_length; lia). rewrite Nat2Z.id. f_equal. symmetry. apply nth_repeat_lt. exact Hk.
Qed.

Definition two_maps (e : exc) : healpy := Healpy (fun n => (n =? 1)%Z || (n =? 2)%Z) (fun n _ _ => if (n =? 1)%Z then 5%Z else 20%Z) e.
Definition box_case : call := CBox 1 2 [0; 0] (Some 1) (Some 2%Z) 2 2 1.
Definition pic_case : picture := Picture 1 2 1 2 2 1.

Lemma pic_usable : usable pic_case 0 0.
Proof. pose proof PI_RGT_0. unfold usable, on_sky, pic_case. cbn. repeat split; try lia; lra. Qed.

Lemma case_remap : forall e n k f, ang2pix_of (two_maps e) n = (fun _ _ => Z.of_nat k) -> (k < length f)%nat ->
  exists O, alone (two_maps e) n box_case = Ok O /\ ortho_remap O f None = Ok (repeat (repeat (Some (2 * nth k f 0)) 2) 2).
Proof.
  intros e n k f EH Hk. pose proof PI_RGT_0.
  assert (HI : indexes (fun _ _ => Z.of_nat k) (length f)) by (intros p t _; lia).
  destruct (C60_constant (fun _ _ => Z.of_nat k) pic_case 0 0 (nth k f 0) (length f) pic_usable HI) as (O & E1 & E2); try (cbn; lra).
  exists O. split.
  - unfold alone, box_case. rewrite EH. exact E1.
  - rewrite set_up_ok in E1 by exact pic_usable. apply Ok_inj in E1. subst O.
    rewrite (one_pixel k pic_case 0 0 f pic_usable Hk). rewrite E2. cbn [pic_case pc_b pc_nx pc_ny INR].
    replace (1 + 1) with 2 by ring. reflexivity.
Qed.

(** User expectation: after [setup_map(2)] a map with nside 2 is shown.  Violated:
    the picture shows the pixels of the nside in force at the [setup_box], here
    pixel 5 instead of pixel 20; only a repeated [setup_box] helps. *)
Theorem C79_stale_refuted : forall e, exists H h f g g', missing H = e /\
  map_in_force H h 2 /\ length f = 48%nat /\
  snd (step H (run H fresh h) (CRemap f None)) = Ok (VPicture g) /\
  snd (step H (run H fresh (h ++ [box_case])) (CRemap f None)) = Ok (VPicture g') /\ g <> g'.
Proof.
  intros e. set (H := two_maps e). set (f := repeat 0 20 ++ [1] ++ repeat 0 27).
  exists H, [CMap 1; box_case; CMap 2], f, (repeat (repeat (Some (2 * 0)) 2) 2), (repeat (repeat (Some (2 * 1)) 2) 2).
  split; [reflexivity|].
  assert (B : box_call box_case) by (cbn; lia).
  assert (M : map_in_force H [CMap 1; box_case; CMap 2] 2) by (exists [CMap 1; box_case], []; repeat split; auto; intros ? []).
  split; [exact M|]. split; [reflexivity|].
  assert (Lf : (20 < length f)%nat) by (cbn; lia).
  split; [|split].
  - destruct (case_remap e 1 5 f eq_refl) as (O & EO & ER); [lia|].
    rewrite (C79_remap H [CMap 1] box_case [CMap 1; box_case; CMap 2] 1 O); [rewrite ER; reflexivity| | |exact EO].
    + exists [CMap 2]. split; [reflexivity|]. split; [exact B|]. split; [intros [X|[]]; discriminate|intros c' [<- |[]]; exact (fun x => x)].
    + exists [], []. repeat split; auto. intros ? [].
  - destruct (case_remap e 2 20 f eq_refl Lf) as (O & EO & ER).
    rewrite (C79_remap H [CMap 1; box_case; CMap 2] box_case _ 2 O); [rewrite ER; reflexivity| |exact M|exact EO].
    exists []. split; [reflexivity|]. split; [exact B|]. split; [intros []|intros ? []].
  - cbn [repeat]. intros E. injection E as E _. lra.
Qed.
Print Assumptions C79_stale_refuted.

(** Non-vacuity: a history with every kind of call; the box and the map in force. *)
Example C79_example : let H := two_maps TypeError in
  let h := [CMap 3; CMap 1; box_case; CTransform 0 0; CRemap (repeat 1 12) None] in
  box_in_force [CMap 3; CMap 1] box_case h /\ map_in_force H [CMap 3; CMap 1] 1 /\
  snd (step H fresh (CMap 3)) = Err AssertionError /\
  snd (step H (run H fresh h) (CRemap (repeat 1 12) None)) = Ok (VPicture [[Some (2 * 1); Some (2 * 1)]; [Some (2 * 1); Some (2 * 1)]]) /\
  cells box_case = 16%Z /\ box_call (recentred box_case [9; 0]) /\ ~ on_sky 9 0.
Proof.
  cbv zeta. set (H := two_maps TypeError).
  assert (B : box_in_force [CMap 3; CMap 1] box_case [CMap 3; CMap 1; box_case; CTransform 0 0; CRemap (repeat 1 12) None]).
  { exists [CTransform 0 0; CRemap (repeat 1 12) None]. split; [reflexivity|]. split; [cbn; lia|]. split.
    - intros [X|[X|[]]]; discriminate.
    - intros c' [<- |[<- |[]]]; exact (fun x => x). }
  assert (M : map_in_force H [CMap 3; CMap 1] 1) by (exists [CMap 3], []; repeat split; auto; intros ? []).
  split; [exact B|]. split; [exact M|]. split; [reflexivity|]. split.
  - destruct (case_remap TypeError 1 5 (repeat 1 12) eq_refl) as (O & EO & ER); [cbn; lia|].
    rewrite (C79_remap H _ _ _ 1 O B M EO). rewrite ER. reflexivity.
  - split; [reflexivity|]. split; [cbn; lia|]. unfold on_sky. pose proof PI_4. lra.
Qed.

(** ** C66: [transform] on arrays *)

Lemma rotate_len : forall l m pe te ps ts a b, usphere_rotate_arr l m pe te ps ts = Ok (a, b) ->
  length a = Nat.min (length l) (length m) /\ length b = Nat.min (length l) (length m).
Proof.
  intros l m pe te ps ts a b E. unfold usphere_rotate_arr in E. destruct (rotate_setup pe te ps ts) as [o|]; [|discriminate]. cbn [bind] in E.
  apply Ok_inj in E. injection E as <- <-. rewrite !map_length. destruct o; rewrite map2_length; split; reflexivity.
Qed.

(** Element by element the scalar [transform]; the caller's array of longitudes
    is overwritten with the shifted longitudes. *)
Theorem C66_array : forall c0 c1 h phi theta, on_sky c0 c1 -> c1 < PI ->
  (phi < length h)%nat -> (theta < length h)%nat -> phi <> theta -> length (deref h phi) = length (deref h theta) ->
  exists h' xs ys, ortho_transform_mem [c0; c1] h phi theta = Ok (h', xs, ys) /\
    length xs = length (deref h phi) /\ length ys = length (deref h phi) /\
    (forall q p t, (q < length (deref h phi))%nat -> nth q (deref h phi) None = Some p -> nth q (deref h theta) None = Some t ->
       ortho_transform [c0; c1] p t = Ok (nth q xs None, nth q ys None)) /\
    usphere_phi_shift_arr (deref h phi) (3 * PI / 2 - c0) = Ok (deref h' phi) /\
    deref h' theta = deref h theta.
Proof.
  intros c0 c1 h phi theta HS Hc Hp Ht Hn HL. destruct (sky_ranges c0 c1 HS Hc) as (A & _ & _ & B & C).
  apply Rabs_def2 in C. unfold ortho_transform_mem.
  change (py_get [c0; c1] 0) with (@Ok R c0). change (py_get [c0; c1] 1) with (@Ok R c1). cbn [bind].
  set (l1 := map (shift1 (end_phi - c0)) (deref h phi)).
  assert (L1 : length l1 = length (deref h phi)) by (unfold l1; apply map_length).
  assert (SH : exists h' a b, usphere_shift_mem h phi theta c0 c1 end_phi end_theta = Ok (h', a, b) /\
     length (deref h' a) = length (deref h phi) /\ length (deref h' b) = length (deref h phi) /\
     forall q, (q < length (deref h phi))%nat ->
       usphere_shift (nth q (deref h phi) None) (nth q (deref h theta) None) c0 c1 end_phi end_theta = Ok (nth q (deref h' a) None, nth q (deref h' b) None)).
  { unfold usphere_shift_mem, usphere_shift, py_assert. destruct HS as [S1 S2]. destruct A as [A1 A2]. rewrite !in_range_t by assumption.
    rewrite phi_shift_mem_ok by lra. cbn [bind]. fold l1. set (h1 := set_nth h phi l1).
    assert (D1 : deref h1 phi = l1) by (apply deref_set; exact Hp).
    assert (D2 : deref h1 theta = deref h theta) by (apply deref_other; congruence).
    assert (SC : forall q, (q < length (deref h phi))%nat -> usphere_phi_shift (nth q (deref h phi) None) (end_phi - c0) = Ok (nth q l1 None)).
    { intros q Hq. rewrite shift1_scalar by lra. f_equal. symmetry. exact (nth_map_lt num num (shift1 (end_phi - c0)) (deref h phi) q None None Hq). }
    destruct (Req_bool c1 end_theta) eqn:ET; cbn [negb].
    - exists h1, phi, theta. split; [reflexivity|]. rewrite D1, D2. split; [exact L1|]. split; [congruence|].
      intros q Hq. rewrite SC by exact Hq. reflexivity.
    - rewrite D1, D2.
      destruct (usphere_rotate_arr l1 (deref h theta) end_phi end_theta end_phi c1) as [[a b]|e] eqn:ER.
      + unfold alloc. cbn [bind fst snd]. do 3 eexists. split; [reflexivity|].
        rewrite app_length. cbn [length].
        assert (Da : deref ((h1 ++ [a]) ++ [b]) (length h1) = a).
        { rewrite deref_app by (rewrite app_length; cbn; lia). unfold deref. rewrite app_nth2, Nat.sub_diag by lia. reflexivity. }
        assert (Db : deref ((h1 ++ [a]) ++ [b]) (length h1 + 1) = b).
        { unfold deref. rewrite app_nth2 by (rewrite app_length; cbn; lia). rewrite app_length. cbn [length]. rewrite Nat.sub_diag. reflexivity. }
        rewrite Da, Db.
        assert (LL : length l1 = length (deref h theta)) by congruence.
        split; [|split].
        * destruct (rotate_len _ _ _ _ _ _ _ _ ER) as [X _]. lia.
        * destruct (rotate_len _ _ _ _ _ _ _ _ ER) as [_ X]. lia.
        * intros q Hq. rewrite SC by exact Hq. cbn [bind].
          destruct (rotate_arr_nth _ _ _ _ _ _ _ _ q LL ltac:(rewrite L1; exact Hq) ER) as (_ & _ & X). exact X.
      + exfalso. assert (X := proj1 (rotate_arr_err _ _ _ _ _ _ _) ER).
        destruct (shift_spec 0 0 c0 c1 end_phi end_theta (conj S1 S2) (conj A1 A2) B ltac:(apply Rabs_def1; lra)) as (q & E & _).
        unfold usphere_shift, py_assert in E. rewrite !in_range_t in E by assumption. rewrite shift1_scalar in E by lra. cbn [bind] in E.
        rewrite ET in E. cbn [negb] in E. rewrite X in E. discriminate. }
  destruct SH as (h' & a & b & E & La & Lb & SP). rewrite E. cbn [bind].
  pose proof (shift_mem_spec _ _ _ _ _ _ _ _ Hp E) as (M1 & M2 & _).
  set (xyz := map2 _ _ _). assert (LX : length xyz = length (deref h phi)) by (unfold xyz; rewrite map2_length; unfold num in *; lia).
  exists h'. do 2 eexists. split; [reflexivity|]. rewrite !length_put, !map_length.
  split; [exact LX|]. split; [exact LX|]. split; [|split; [rewrite M1; apply phi_shift_arr_ok; unfold end_phi in *; lra|apply M2; auto]].
  intros q p t Hq Ep Et. unfold ortho_transform. change (py_get [c0; c1] 0) with (@Ok R c0). change (py_get [c0; c1] 1) with (@Ok R c1). cbn [bind].
  specialize (SP q Hq). rewrite Ep, Et in SP. rewrite SP. cbn [bind].
  set (cond := map (fun q => nltb (snd q) 0) xyz).
  assert (Lq : (q < length xyz)%nat) by lia.
  assert (NX : nth q xyz (None, None, None) = match nth q (deref h' a) None, nth q (deref h' b) None with
       | Some p, Some t => let '(x, y, z) := sphere2cart 1 p t 0 0 0 in (Some x, Some y, Some z)
       | _, _ => (None, None, None) end).
  { exact (nth_map2 num num (num * num * num) _ (deref h' a) (deref h' b) q None None (None, None, None) ltac:(unfold num in *; lia) ltac:(unfold num in *; lia)). }
  assert (NC : nth q cond false = nltb (snd (nth q xyz (None, None, None))) 0).
  { unfold cond. exact (nth_map_lt _ _ (fun q => nltb (snd q) 0) xyz q false (None, None, None) Lq). }
  assert (R1 : forall sel : num * num * num -> num, @nth num q (put (map sel xyz) (np_where cond) (map (fun _ => None) (np_where cond))) None
     = if nth q cond false then None else sel (nth q xyz (None, None, None))).
  { intros sel. refine (eq_trans (nth_put_where num cond (map sel xyz) (fun _ => None) q None _ _) _).
    - unfold cond. now rewrite !map_length.
    - rewrite map_length. exact Lq.
    - destruct (nth q cond false); [reflexivity|]. exact (nth_map_lt _ num sel xyz q None (None, None, None) Lq). }
  change (@nth (option R)) with (@nth num). rewrite !R1, NC, NX. change (@nth num q (deref h' a) None) with (nth q (deref h' a) None).
  destruct (nth q (deref h' a) None) as [p'|]; [destruct (nth q (deref h' b) None) as [t'|]|]; try reflexivity.
  destruct (sphere2cart 1 p' t' 0 0 0) as [[x y] z]. cbn [snd fst nltb]. destruct (Rlt_bool z 0); reflexivity.
Qed.
Print Assumptions C66_array.

(** User expectation: projecting the same catalogue twice gives the same picture.
    Violated: the first call has shifted the caller's longitudes. *)
Theorem C66_array_refuted : exists c0 c1 h h1 h2 x1 y1 x2 y2, on_sky c0 c1 /\ c1 < PI /\
  ortho_transform_mem [c0; c1] h 0 1 = Ok (h1, x1, y1) /\ ortho_transform_mem [c0; c1] h1 0 1 = Ok (h2, x2, y2) /\ x1 <> x2.
Proof.
  pose proof PI_RGT_0. set (c0 := 5 * PI / 4). set (h := [[Some c0]; [Some (PI / 2)]]).
  assert (HS : on_sky c0 (PI / 2)) by (unfold on_sky, c0; lra). assert (Hc : PI / 2 < PI) by lra.
  destruct (C66_array c0 (PI / 2) h 0 1 HS Hc) as (h1 & x1 & y1 & E1 & Lx & Ly & V1 & P1 & T1); try (cbn; lia).
  rewrite phi_shift_arr_ok in P1 by (unfold c0; lra). apply Ok_inj in P1. cbn [h deref nth map shift1] in P1, T1.
  replace (c0 + (3 * PI / 2 - c0)) with (3 * PI / 2) in P1 by ring. rewrite phi_norm_id in P1 by lra.
  assert (LH : (0 < length h1)%nat /\ (1 < length h1)%nat).
  { split.
    - destruct h1 as [|u [|v w]]; cbn [length]; try lia. cbn in P1. discriminate.
    - destruct h1 as [|u [|v w]]; cbn [length]; try lia; cbn in T1; discriminate. }
  destruct (C66_array c0 (PI / 2) h1 0 1 HS Hc) as (h2 & x2 & y2 & E2 & Lx2 & _ & V2 & _); try lia.
  { rewrite <- P1, T1. reflexivity. }
  exists c0, (PI / 2), h, h1, h2, x1, y1, x2, y2. split; [exact HS|]. split; [exact Hc|]. split; [exact E1|]. split; [exact E2|].
  specialize (V1 0%nat c0 (PI / 2) ltac:(cbn; lia) eq_refl eq_refl).
  specialize (V2 0%nat (3 * PI / 2) (PI / 2) ltac:(rewrite <- P1; cbn; lia) ltac:(rewrite <- P1; reflexivity) ltac:(rewrite T1; reflexivity)).
  rewrite (proj1 (C66_centre c0 (PI / 2) HS) Hc) in V1.
  assert (S1 : sin (PI / 2) = 1) by apply sin_PI2. assert (S2 : cos (PI / 2) = 0) by apply cos_PI2.
  assert (EE : forall p, dot (dir c0 (PI / 2)) (dir p (PI / 2)) = cos (p - c0) /\ dot (east c0) (dir p (PI / 2)) = sin (p - c0)).
  { intros p. unfold dot, dir, east. cbn [vx vy vz]. rewrite S1, S2, cos_minus, sin_minus. split; ring. }
  destruct (EE (3 * PI / 2)) as [D1 D2]. replace (3 * PI / 2 - c0) with (PI / 4) in D1, D2 by (unfold c0; field).
  pose proof (cos_gt_0 (PI / 4) ltac:(lra) ltac:(lra)). pose proof (sin_gt_0 (PI / 4) ltac:(lra) ltac:(lra)).
  rewrite (proj1 (C66_transform c0 (PI / 2) _ _ HS Hc)) in V2 by lra. rewrite D2 in V2.
  intros X. apply Ok_inj in V1. apply Ok_inj in V2. injection V1 as V1 _. injection V2 as V2 _. rewrite X, <- V2 in V1. injection V1 as V1. lra.
Qed.
Print Assumptions C66_array_refuted.
