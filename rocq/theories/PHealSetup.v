(** * Lemmas for the set-up of the HEALPix remappers *)

From Coq Require Import Reals ZArith List Bool Lia Lra Psatz.
From Flocq Require Import Core.Raux.
From Verif Require Import Base BaseP SpecSphere SpecGrid SpecHealSetup MCoords MGrids MUsphere MDense MOrtho MCube MHeal
  PTrig PCoords PUsphere PPolarCoords PDense PMonte POrtho PHeal.
Import ListNotations.
Open Scope R_scope.

Ltac vecs := unfold turn_x, turn_y, turn_z, rodrigues, ez, east, vadd, vscale, dot, cross; cbn [vx vy vz].

Lemma rod_ez : forall a v, rodrigues ez a v = turn_z a v.
Proof. intros a [x y z]. apply vec_ext; vecs; ring. Qed.

Lemma rod_east : forall p a v, rodrigues (east p) a v = turn_z p (turn_y a (turn_z (- p) v)).
Proof.
  intros p a [x y z]. pose proof (sc1 p) as E. apply vec_ext; vecs; rewrite cos_neg, sin_neg; try ring.
  - replace (cos p * (cos a * (cos p * x - - sin p * y) + sin a * z) - sin p * (- sin p * x + cos p * y))
      with (cos a * x * (sin p ^ 2 + cos p ^ 2) + sin p ^ 2 * x * (1 - cos a) + cos a * cos p * sin p * y + sin a * cos p * z - sin p * cos p * y) by ring.
    rewrite E. ring.
  - replace (sin p * (cos a * (cos p * x - - sin p * y) + sin a * z) + cos p * (- sin p * x + cos p * y))
      with (cos a * y * (sin p ^ 2 + cos p ^ 2) + cos p ^ 2 * y * (1 - cos a) + cos a * cos p * sin p * x + sin a * sin p * z - sin p * cos p * x) by ring.
    rewrite E. ring.
Qed.

Lemma turn_z_comp : forall a b v, turn_z a (turn_z b v) = turn_z (a + b) v.
Proof. intros a b [x y z]. apply vec_ext; vecs; rewrite ?cos_plus, ?sin_plus; ring. Qed.

Lemma turn_z_0 : forall v, turn_z 0 v = v.
Proof. intros [x y z]. apply vec_ext; vecs; rewrite ?cos_0, ?sin_0; ring. Qed.

Lemma rod_ex : forall a v, rodrigues (dir 0 (PI / 2)) a v = turn_x a v.
Proof.
  intros a [x y z]. unfold dir. rewrite cos_0, sin_0, cos_PI2, sin_PI2. apply vec_ext; vecs; ring.
Qed.

(** Moving the pole (resp. the point on the equator) to [(c0, c1)]. *)
Lemma shift_turns : forall c0 d v, rodrigues (east c0) d (rodrigues ez (c0 - 0) v) = turn_z c0 (turn_y d v).
Proof.
  intros c0 d v. rewrite rod_ez, rod_east, turn_z_comp. replace (- c0 + (c0 - 0)) with 0 by ring. now rewrite turn_z_0.
Qed.

Lemma turn_z_dot : forall a v w, dot (turn_z a v) (turn_z a w) = dot v w.
Proof. intros. rewrite <- !rod_ez. apply rod_dot, ez_unit. Qed.
Lemma turn_x_dot : forall a v w, dot (turn_x a v) (turn_x a w) = dot v w.
Proof. intros. rewrite <- !rod_ex. apply rod_dot, dir_unit. Qed.
Lemma turn_y_dot : forall a v w, dot (turn_y a v) (turn_y a w) = dot v w.
Proof.
  intros a v w. assert (E : forall u, turn_y a u = rodrigues (east 0) a u).
  { intros u. rewrite rod_east. replace (- 0) with 0 by ring. now rewrite !turn_z_0. }
  rewrite !E. apply rod_dot, east_unit.
Qed.

Lemma dir_turns : forall p t, dir p t = turn_z p (turn_y t ez).
Proof. intros. unfold dir. apply vec_ext; vecs; ring. Qed.

(** ** Angles returned by the rotations *)

Lemma rotate_sky : forall phi theta pe te ps ts p t, usphere_rotate phi theta pe te ps ts = Ok (Some p, Some t) -> on_sky p t.
Proof.
  intros phi theta pe te ps ts p t H. unfold usphere_rotate in H. apply bind_inv in H. destruct H as ([f|] & _ & H); [|discriminate].
  unfold rotate_point in H. destruct phi as [ph|]; [|discriminate]. destruct theta as [th|]; [|discriminate].
  destruct (cart2sphere_spec (vx (f (s2c_vec ph th))) (vy (f (s2c_vec ph th))) (vz (f (s2c_vec ph th))) 0 0 0) as (r & g & h & E & _ & Hg & Hh & _).
  rewrite E in H. apply Ok_inj in H. injection H as <- <-. split; lra.
Qed.

Lemma shift_sky : forall phi theta ps ts pe te p t, ts <> te -> usphere_shift phi theta ps ts pe te = Ok (Some p, Some t) -> on_sky p t.
Proof.
  intros phi theta ps ts pe te p t N H. unfold usphere_shift in H. do 4 (apply assert_inv in H; destruct H as [_ H]).
  apply bind_inv in H. destruct H as (x & _ & H). rewrite Req_bool_false in H by auto. cbn [negb] in H. eapply rotate_sky; eauto.
Qed.

Lemma spin_sky : forall phi theta pc tc a p t, 0 <> tc -> usphere_spin phi theta pc tc a = Ok (Some p, Some t) -> on_sky p t.
Proof.
  intros phi theta pc tc a p t N H. unfold usphere_spin in H. do 3 (apply assert_inv in H; destruct H as [_ H]).
  apply bind_inv in H. destruct H as ([x y] & _ & H). apply bind_inv in H. destruct H as (z & _ & H). eapply shift_sky; eauto.
Qed.

(** Refusals. *)
Lemma in_range_f : forall lo x hi, ~ (lo <= x <= hi) -> in_range lo x hi = false.
Proof.
  intros lo x hi H. unfold in_range. destruct (Rle_bool_spec lo x); [|reflexivity]. destruct (Rle_bool_spec x hi); [|reflexivity]. exfalso. apply H. lra.
Qed.

Lemma in_range_dec : forall lo x hi, (in_range lo x hi = true /\ lo <= x <= hi) \/ in_range lo x hi = false.
Proof.
  intros lo x hi. unfold in_range. destruct (Rle_bool_spec lo x); [|now right]. destruct (Rle_bool_spec x hi); [|now right]. left. split; [reflexivity|lra].
Qed.

Lemma shift_refused : forall phi theta ps ts pe te, ~ (on_sky ps ts /\ on_sky pe te /\ Rabs (pe - ps) < 2 * PI) ->
  usphere_shift phi theta ps ts pe te = Err AssertionError.
Proof.
  intros phi theta ps ts pe te H. unfold usphere_shift.
  destruct (in_range_dec 0 ps (2 * PI)) as [[-> A]| ->]; [|reflexivity]. destruct (in_range_dec 0 pe (2 * PI)) as [[-> B]| ->]; [|reflexivity].
  destruct (in_range_dec 0 ts PI) as [[-> C]| ->]; [|reflexivity]. destruct (in_range_dec 0 te PI) as [[-> D]| ->]; [|reflexivity]. cbn [py_assert].
  rewrite phi_shift_err; [reflexivity|]. intros [E1 E2]. apply H. split; [split; assumption|]. split; [split; assumption|]. apply Rabs_def1; lra.
Qed.

Lemma spin_refused : forall phi theta pc tc a, ~ (on_sky pc tc /\ 0 <= a < 2 * PI) -> usphere_spin phi theta pc tc a = Err AssertionError.
Proof.
  intros phi theta pc tc a H. destruct (Req_dec a (2 * PI)) as [->|N].
  - unfold usphere_spin. destruct (in_range_dec 0 pc (2 * PI)) as [[_ A]| ->]; [|reflexivity].
    destruct (in_range_dec 0 tc PI) as [[_ B]|E].
    + pose proof (spin_full_turn phi theta pc tc (conj A B)) as F. unfold usphere_spin in F. exact F.
    + rewrite E. now destruct (in_range 0 pc (2 * PI)).
  - unfold usphere_spin. destruct (in_range_dec 0 pc (2 * PI)) as [[-> A]| ->]; [|reflexivity]. destruct (in_range_dec 0 tc PI) as [[-> B]| ->]; [|reflexivity].
    destruct (in_range_dec 0 a (2 * PI)) as [[-> C]| ->]; [|reflexivity]. exfalso. apply H. split; [split; assumption|lra].
Qed.

(** ** One sample *)

(** The direction of a sample of the ring grid and of the box. *)
Definition ring_dir (c0 c1 s phi theta : R) : vec := turn_z c0 (turn_y c1 (turn_z s (dir phi theta))).
Definition box_dir (c0 c1 s x y : R) : vec := turn_z c0 (turn_y (c1 - PI / 2) (turn_x s (dir x (PI / 2 - y)))).

Lemma ring_pixel : forall pix c0 c1 s phi theta, 0 <= c0 < 2 * PI -> 0 <= c1 < PI -> 0 <= s < 2 * PI ->
  exists p t, heal_pixel pix 0 s c0 c1 phi theta = pix t p /\ dir p t = ring_dir c0 c1 s phi theta /\ (on_sky phi theta -> on_sky p t).
Proof.
  intros pix c0 c1 s phi theta H0 H1 Hs. pose proof PI_RGT_0. unfold heal_pixel, ring_dir.
  assert (A : exists p t, (if negb (Req_bool s 0) then usphere_spin (Some phi) (Some theta) 0 0 s else Ok (Some phi, Some theta)) = Ok (Some p, Some t) /\
    dir p t = turn_z s (dir phi theta) /\ (on_sky phi theta -> on_sky p t)).
  { destruct (Req_bool_spec s 0) as [->|N]; cbn [negb].
    - exists phi, theta. rewrite turn_z_0. auto.
    - destruct (spin_spec phi theta 0 0 s) as (q & E & (p & t & -> & D) & K); [split; lra|lra|lra|]. exists p, t. split; [exact E|].
      split; [now rewrite D, dir_north, rod_ez|]. intros [K1 K2]. destruct (K K1 K2) as (a & b & Eab & Sab). now injection Eab as -> ->. }
  destruct A as (p1 & t1 & -> & D1 & S1). cbn [bind fst snd].
  destruct (shift_spec p1 t1 0 0 c0 c1) as (q & E & (p & t & -> & D) & K); [split; lra|split; lra|rewrite Rabs_pos_eq; lra|rewrite Rabs_pos_eq; lra|].
  rewrite E. cbn [bind]. exists p, t. split; [reflexivity|]. split.
  - rewrite D, shift_turns, D1. now rewrite Rminus_0_r.
  - intros S. destruct (S1 S) as [K1 K2]. destruct (K K1 K2) as (a & b & Eab & Sab). now injection Eab as -> ->.
Qed.

Lemma box_pixel : forall pix c0 c1 s x y, 0 <= c0 < 2 * PI -> 0 <= c1 <= PI -> 0 <= s < 2 * PI -> - PI <= x <= PI -> - PI / 2 <= y <= PI / 2 ->
  exists p t, heal_pixel pix (PI / 2) s c0 c1 x (PI / 2 - y) = pix t p /\ dir p t = box_dir c0 c1 s x y /\ on_sky p t.
Proof.
  intros pix c0 c1 s x y H0 H1 Hs Hx Hy. pose proof PI_RGT_0. unfold heal_pixel, box_dir.
  assert (A : exists p t, (if negb (Req_bool s 0) then usphere_spin (Some x) (Some (PI / 2 - y)) 0 (PI / 2) s else Ok (Some x, Some (PI / 2 - y))) = Ok (Some p, Some t) /\
    dir p t = turn_x s (dir x (PI / 2 - y)) /\ - PI <= p <= 2 * PI /\ 0 <= t <= PI /\ (PI < p -> s <> 0)).
  { destruct (Req_bool_spec s 0) as [->|N]; cbn [negb].
    - exists x, (PI / 2 - y). split; [reflexivity|]. split; [rewrite <- rod_ex; now rewrite rod_0|]. repeat split; lra.
    - destruct (spin_spec x (PI / 2 - y) 0 (PI / 2) s) as (q & E & (p & t & -> & D) & _); [split; lra|lra|lra|]. exists p, t. split; [exact E|].
      split; [now rewrite D, rod_ex|]. apply spin_sky in E; [|lra]. destruct E. repeat split; try lra; auto. }
  destruct A as (p1 & t1 & -> & D1 & R1 & R2 & _). cbn [bind fst snd].
  destruct (shift_spec p1 t1 0 (PI / 2) c0 c1) as (q & E & (p & t & -> & D) & K);
    [split; lra|split; lra|apply Rabs_def1; lra|rewrite Rabs_pos_eq; lra|].
  rewrite E. cbn [bind]. exists p, t. split; [reflexivity|]. split; [now rewrite D, shift_turns, D1|].
  destruct (Req_dec (PI / 2) c1) as [C|C]; [|eapply shift_sky; eauto].
  unfold usphere_shift in E. rewrite !in_range_t in E by lra. cbn [py_assert] in E. rewrite phi_shift_ok in E by lra. cbn [bind] in E.
  rewrite Req_bool_true in E by auto. cbn [negb] in E. apply Ok_inj in E. injection E as <- <-. split; [|auto].
  unfold phi_norm. destruct (Rlt_bool_spec (2 * PI) (p1 + (c0 - 0))); [lra|]. destruct (Rlt_bool_spec (p1 + (c0 - 0)) 0); lra.
Qed.

Lemma pixel_refused : forall pix t0 s c0 c1 phi theta, 0 <= t0 < PI -> ~ (0 <= c0 < 2 * PI /\ 0 <= c1 <= PI /\ 0 <= s < 2 * PI) ->
  heal_pixel pix t0 s c0 c1 phi theta = Err AssertionError.
Proof.
  intros pix t0 s c0 c1 phi theta H0 H. pose proof PI_RGT_0. unfold heal_pixel.
  destruct (Req_bool_spec s 0) as [Es|N]; cbn [negb bind fst snd].
  - rewrite shift_refused; [reflexivity|]. intros (_ & [A B] & C). apply H. rewrite Rabs_pos_eq in C by lra. repeat split; lra.
  - destruct (Rle_or_lt 0 s) as [S0|S0]; [destruct (Rlt_or_le s (2 * PI)) as [S1|S1]|].
    + destruct (spin_spec phi theta 0 t0 s) as (q & E & _ & _); [split; lra|lra|lra|]. rewrite E. cbn [bind].
      rewrite shift_refused; [reflexivity|]. intros (_ & [A B] & C). apply H. rewrite Rabs_pos_eq in C by lra. repeat split; lra.
    + rewrite spin_refused; [reflexivity|]. intros [_ K]. lra.
    + rewrite spin_refused; [reflexivity|]. intros [_ K]. lra.
Qed.

Lemma pixel_south : forall pix s c0 phi theta, 0 <= c0 < 2 * PI -> 0 <= s < 2 * PI -> heal_pixel pix 0 s c0 PI phi theta = Err ValueError.
Proof.
  intros pix s c0 phi theta H0 Hs. pose proof PI_RGT_0. unfold heal_pixel.
  assert (A : exists q, (if negb (Req_bool s 0) then usphere_spin (Some phi) (Some theta) 0 0 s else Ok (Some phi, Some theta)) = Ok q).
  { destruct (Req_bool_spec s 0); cbn [negb]; [eauto|]. destruct (spin_spec phi theta 0 0 s) as (q & E & _); [split; lra|lra|lra|]. eauto. }
  destruct A as [q ->]. cbn [bind].
  rewrite shift_degenerate; [reflexivity|split; lra|split; lra|rewrite Rabs_pos_eq; lra|rewrite Rabs_pos_eq; lra].
Qed.

(** ** The coarse grids *)

Lemma cap_guards : forall A a b na nb c d ctr (k : res A), ring_args a b na nb c d ctr ->
  (guard Rle_bool 0 a ;; guard Rlt_bool a b ;; guard (0 <? na)%Z ;; guard Rle_bool 0 c ;; guard Rlt_bool c (2 * PI) ;; guard Rlt_bool c d ;;
   guard Rlt_bool 0 d ;; guard Rle_bool d (2 * PI) ;; guard (0 <? nb)%Z ;; guard (length ctr =? 2)%nat ;; k) = k.
Proof.
  intros A a b na nb c d ctr k ([A1 A2] & A3 & [A4 A5] & A6 & A7 & A8).
  rewrite !Rle_bool_t, !Rlt_bool_t by lra. rewrite (proj2 (Z.ltb_lt 0 na)), (proj2 (Z.ltb_lt 0 nb)) by lia. rewrite A8, Nat.eqb_refl. reflexivity.
Qed.

Lemma cap_refused : forall A a b na nb c d ctr (k : res A), ~ ring_args a b na nb c d ctr ->
  (guard Rle_bool 0 a ;; guard Rlt_bool a b ;; guard (0 <? na)%Z ;; guard Rle_bool 0 c ;; guard Rlt_bool c (2 * PI) ;; guard Rlt_bool c d ;;
   guard Rlt_bool 0 d ;; guard Rle_bool d (2 * PI) ;; guard (0 <? nb)%Z ;; guard (length ctr =? 2)%nat ;; k) = Err AssertionError.
Proof.
  intros A a b na nb c d ctr k H.
  destruct (Rle_bool_spec 0 a); [|reflexivity]. destruct (Rlt_bool_spec a b); [|reflexivity]. destruct (Z.ltb_spec 0 na); [|reflexivity].
  destruct (Rle_bool_spec 0 c); [|reflexivity]. destruct (Rlt_bool_spec c (2 * PI)); [|reflexivity]. destruct (Rlt_bool_spec c d); [|reflexivity].
  destruct (Rlt_bool_spec 0 d); [|reflexivity]. destruct (Rle_bool_spec d (2 * PI)); [|reflexivity]. destruct (Z.ltb_spec 0 nb); [|reflexivity].
  destruct (Nat.eqb_spec (length ctr) 2); [|reflexivity]. exfalso. apply H. repeat split; auto.
Qed.

Lemma mid_tab : forall a h n, mid (tab (S n) (fun i => a + INR i * h)) = tab n (fun i => a + (INR i + / 2) * h).
Proof. intros. unfold mid. apply mids. Qed.

Definition edges (a b : R) (n : nat) : list R := tab (S n) (fun i => a + INR i * ((b - a) / INR n)).
Definition mid_at (a b : R) (n : nat) (j : nat) : R := a + (INR j + / 2) * ((b - a) / INR n).

Lemma edges_ok : forall a b n, (1 <= n)%nat -> linspaceZ a b (Z.of_nat n + 1) = Ok (edges a b n).
Proof. intros. now apply linspace_Z. Qed.
Lemma mid_edges : forall a b n, mid (edges a b n) = tab n (mid_at a b n).
Proof. intros. apply mid_tab. Qed.
Lemma edges_length : forall a b n, length (edges a b n) = S n.
Proof. intros. apply tab_length. Qed.

Lemma cap_ok : forall a b na nb c d ctr s, ring_args a b (Z.of_nat na) (Z.of_nat nb) c d ctr -> (2 <= na)%nat -> (2 <= nb)%nat ->
  setup_polar_cap a b (Z.of_nat na) (Z.of_nat nb) c d ctr s =
  Ok (Cap (edges a b na) (edges c d nb) (tab2 nb na (fun _ j => mid_at a b na j)) (tab2 nb na (fun i _ => mid_at c d nb i)) ctr s).
Proof.
  intros a b na nb c d ctr s H Na Nb. unfold setup_polar_cap. rewrite cap_guards by exact H. rewrite !edges_ok by lia. cbn [bind]. rewrite !mid_edges.
  rewrite !(py_get_ok _ (tab na _) _ 0), !(py_get_ok _ (tab nb _) _ 0) by (rewrite tab_length; lia). cbn [bind]. rewrite meshgrid_tab. reflexivity.
Qed.

Lemma cap_single : forall a b na nb c d ctr s, ring_args a b na nb c d ctr -> (na = 1 \/ nb = 1)%Z ->
  setup_polar_cap a b na nb c d ctr s = Err IndexError.
Proof.
  intros a b na nb c d ctr s H N. unfold setup_polar_cap. rewrite cap_guards by exact H. destruct H as (_ & Pa & _ & _ & Pb & _).
  replace na with (Z.of_nat (Z.to_nat na)) by lia. replace nb with (Z.of_nat (Z.to_nat nb)) by lia.
  assert (M : (1 <= Z.to_nat na)%nat /\ (1 <= Z.to_nat nb)%nat /\ (Z.to_nat na = 1 \/ Z.to_nat nb = 1)%nat) by lia. revert M.
  generalize (Z.to_nat na), (Z.to_nat nb). clear. intros n m (N & M & K). rewrite !edges_ok by lia. cbn [bind]. rewrite !mid_edges.
  assert (Out : forall g, py_get (tab 1 g) 1 = @Err R IndexError) by reflexivity.
  destruct (Nat.eq_dec n 1) as [->|N1].
  - rewrite Out. reflexivity.
  - rewrite !(py_get_ok _ (tab n _) _ 0) by (rewrite tab_length; lia). cbn [bind]. replace m with 1%nat by lia. rewrite Out. reflexivity.
Qed.

Lemma hbox_step : forall xl xg ctr al yl yg, box_args xl xg ctr yl yg ->
  setup_hbox xl xg ctr al yl yg =
  (xe <- linspaceZ (- xl / 2) (xl / 2) (xg + 1) ;;
   ye <- linspaceZ (- height xl yl / 2) (height xl yl / 2) (rows xg yg + 1) ;;
   xm1 <- py_get (mid xe) 1 ;; xm0 <- py_get (mid xe) 0 ;;
   ym1 <- py_get (mid ye) 1 ;; ym0 <- py_get (mid ye) 0 ;;
   let '(x2, y2) := meshgrid (mid xe) (mid ye) in
   Ok (HBox xe ye x2 y2 ctr al)).
Proof.
  intros xl xg ctr al yl yg ([A1 A2] & A3 & A4 & A5 & A6). unfold setup_hbox. rewrite !(Rle_bool_t) by lra. rewrite (proj2 (Z.ltb_lt 0 xg)) by lia.
  cbn [py_assert]. unfold height, rows.
  assert (E : match yl with None => Ok (if Rlt_bool PI xl then PI else xl) | Some l => guard Rle_bool 0 l ;; guard Rle_bool l PI ;; Ok l end
    = Ok match yl with Some l => l | None => Rmin xl PI end).
  { destruct yl as [l|]; [destruct (A4 l eq_refl); now rewrite !Rle_bool_t by lra|]. f_equal. unfold Rmin. destruct (Rlt_bool_spec PI xl), (Rle_dec xl PI); lra. }
  rewrite E. cbn [bind].
  assert (G : match yg with None => Ok xg | Some g => guard (0 <? g)%Z ;; Ok g end = Ok match yg with Some g => g | None => xg end).
  { destruct yg as [g|]; [|reflexivity]. rewrite (proj2 (Z.ltb_lt 0 g)) by (apply A5; reflexivity). reflexivity. }
  rewrite G. cbn [bind]. rewrite A6, Nat.eqb_refl. reflexivity.
Qed.

Lemma hbox_refused : forall xl xg ctr al yl yg, ~ box_args xl xg ctr yl yg -> setup_hbox xl xg ctr al yl yg = Err AssertionError.
Proof.
  intros xl xg ctr al yl yg H. unfold setup_hbox. destruct (Rle_bool_spec 0 xl); [|reflexivity]. destruct (Rle_bool_spec xl (2 * PI)); [|reflexivity].
  destruct (Z.ltb_spec 0 xg); [|reflexivity]. cbn [py_assert].
  assert (Y : (exists l, match yl with None => Ok (if Rlt_bool PI xl then PI else xl) | Some l => guard Rle_bool 0 l ;; guard Rle_bool l PI ;; Ok l end = Ok l /\
     forall l, yl = Some l -> 0 <= l <= PI) \/
     match yl with None => Ok (if Rlt_bool PI xl then PI else xl) | Some l => guard Rle_bool 0 l ;; guard Rle_bool l PI ;; Ok l end = Err AssertionError).
  { destruct yl as [l|]; [|left; eexists; split; [reflexivity|discriminate]]. destruct (Rle_bool_spec 0 l); [|right; reflexivity].
    destruct (Rle_bool_spec l PI); [|right; reflexivity]. left. eexists. split; [reflexivity|]. intros l' E. injection E as <-. lra. }
  destruct Y as [(l & -> & Y)| ->]; [|reflexivity]. cbn [bind].
  assert (G : (exists g, match yg with None => Ok xg | Some g => guard (0 <? g)%Z ;; Ok g end = Ok g /\ forall g, yg = Some g -> (0 < g)%Z) \/
     match yg with None => Ok xg | Some g => guard (0 <? g)%Z ;; Ok g end = Err AssertionError).
  { destruct yg as [g|]; [|left; eexists; split; [reflexivity|discriminate]]. destruct (Z.ltb_spec 0 g); [|right; reflexivity].
    left. eexists. split; [reflexivity|]. intros g' E. injection E as <-. lia. }
  destruct G as [(g & -> & G)| ->]; [|reflexivity]. cbn [bind].
  destruct (Nat.eqb_spec (length ctr) 2); [|reflexivity]. exfalso. apply H. repeat split; auto; apply Y; auto.
Qed.

Lemma hbox_ok : forall xl xg ctr al yl yg g, box_args xl (Z.of_nat xg) ctr yl yg -> rows (Z.of_nat xg) yg = Z.of_nat g -> (2 <= xg)%nat -> (2 <= g)%nat ->
  setup_hbox xl (Z.of_nat xg) ctr al yl yg =
  Ok (HBox (edges (- xl / 2) (xl / 2) xg) (edges (- height xl yl / 2) (height xl yl / 2) g)
           (tab2 g xg (fun _ j => mid_at (- xl / 2) (xl / 2) xg j)) (tab2 g xg (fun i _ => mid_at (- height xl yl / 2) (height xl yl / 2) g i)) ctr al).
Proof.
  intros xl xg ctr al yl yg g H Eg Nx Ng. rewrite hbox_step by exact H. rewrite Eg. rewrite !edges_ok by lia. cbn [bind]. rewrite !mid_edges.
  rewrite !(py_get_ok _ (tab xg _) _ 0), !(py_get_ok _ (tab g _) _ 0) by (rewrite tab_length; lia). cbn [bind]. rewrite meshgrid_tab. reflexivity.
Qed.

Lemma hbox_single : forall xl xg ctr al yl yg, box_args xl xg ctr yl yg -> (xg = 1 \/ rows xg yg = 1)%Z -> setup_hbox xl xg ctr al yl yg = Err IndexError.
Proof.
  intros xl xg ctr al yl yg H N. rewrite hbox_step by exact H. destruct H as (_ & Px & _ & Pg & _).
  assert (Pr : (0 < rows xg yg)%Z) by (unfold rows; destruct yg; auto). generalize dependent (rows xg yg). clear Pg. intros g N Pr.
  replace xg with (Z.of_nat (Z.to_nat xg)) by lia. replace g with (Z.of_nat (Z.to_nat g)) by lia.
  assert (M : (1 <= Z.to_nat xg)%nat /\ (1 <= Z.to_nat g)%nat /\ (Z.to_nat xg = 1 \/ Z.to_nat g = 1)%nat) by lia. revert M.
  generalize (Z.to_nat xg), (Z.to_nat g). intros n m (N' & M & K). rewrite !edges_ok by lia. cbn [bind]. rewrite !mid_edges.
  assert (Out : forall h, py_get (tab 1 h) 1 = @Err R IndexError) by reflexivity.
  destruct (Nat.eq_dec n 1) as [->|N1].
  - rewrite Out. reflexivity.
  - rewrite !(py_get_ok _ (tab n _) _ 0) by (rewrite tab_length; lia). cbn [bind]. replace m with 1%nat by lia. rewrite Out. reflexivity.
Qed.

(** ** The fine grids *)

Lemma edges_ends : forall a b n, (1 <= n)%nat -> py_get (edges a b n) 0 = Ok a /\ py_get (edges a b n) (-1) = Ok b.
Proof.
  intros a b n N. split.
  - rewrite (py_get_ok _ _ _ 0) by (rewrite edges_length; lia). unfold edges. change (Z.to_nat 0) with 0%nat. rewrite tab_nth by lia. f_equal. cbn [INR]. ring.
  - rewrite (py_get_last _ _ 0) by (rewrite edges_length; lia). rewrite edges_length. unfold edges. replace (S n - 1)%nat with n by lia. rewrite tab_nth by lia.
    f_equal. pose proof (INR_pos n N). field. lra.
Qed.

Lemma ring_step : forall pix a b na nb c d c0 c1 s ra rb, ring_args a b (Z.of_nat na) (Z.of_nat nb) c d [c0; c1] -> (2 <= na)%nat -> (2 <= nb)%nat -> (1 <= ra)%nat -> (1 <= rb)%nat ->
  setup_ring pix a b (Z.of_nat na) (Z.of_nat nb) c d [c0; c1] s (Z.of_nat ra) (Z.of_nat rb) =
  (px <- mapM (fun p => heal_pixel pix 0 s c0 c1 (fst p) (snd p))
          (concat (tab2 (rb * nb) (ra * na) (fun i j => (mid_at c d (rb * nb) i, mid_at a b (ra * na) j)))) ;;
   Ok (Cap (edges a b na) (edges c d nb) (tab2 nb na (fun _ j => mid_at a b na j)) (tab2 nb na (fun i _ => mid_at c d nb i)) [c0; c1] s,
       Fine ra rb (edges a b (ra * na)) (edges c d (rb * nb)) (tab2 (rb * nb) (ra * na) (fun _ j => mid_at a b (ra * na) j))
            (tab2 (rb * nb) (ra * na) (fun i _ => mid_at c d (rb * nb) i))
            (concat (tab2 (rb * nb) (ra * na) (fun i _ => i))) (concat (tab2 (rb * nb) (ra * na) (fun _ j => j))) px)).
Proof.
  intros pix a b na nb c d c0 c1 s ra rb H Na Nb Ra Rb. unfold setup_ring. rewrite cap_ok by auto. cbn [bind cp_alpha_edges cp_beta_edges]. cbv zeta.
  rewrite (proj1 (edges_ends a b na ltac:(lia))), (proj2 (edges_ends a b na ltac:(lia))), (proj1 (edges_ends c d nb ltac:(lia))), (proj2 (edges_ends c d nb ltac:(lia))). cbn [bind].
  rewrite !mid_length, !edges_length. replace (S na - 1)%nat with na by lia. replace (S nb - 1)%nat with nb by lia.
  rewrite <- !Nat2Z.inj_mul. rewrite !edges_ok by nia. cbn [bind]. rewrite !mid_edges, meshgrid_tab.
  assert (P : (1 <= rb * nb)%nat) by nia.
  rewrite (py_get_ok _ (tab2 (rb * nb) (ra * na) (fun i _ => mid_at c d (rb * nb) i)) 0 []) by (rewrite tab2_length; lia). cbn [bind]. change (Z.to_nat 0) with 0%nat.
  rewrite tab2_length. unfold tab2 at 1. rewrite tab_nth by lia. rewrite tab_length. rewrite meshgrid_ind_tab.
  change (py_get [c0; c1] 0) with (Ok c0). change (py_get [c0; c1] 1) with (Ok c1). cbn [bind]. rewrite combine_flat, !Nat2Z.id. reflexivity.
Qed.

Lemma hpolar_step : forall pix xl xg c0 c1 al yl yg g rx ry, box_args xl (Z.of_nat xg) [c0; c1] yl yg -> rows (Z.of_nat xg) yg = Z.of_nat g ->
  (2 <= xg)%nat -> (2 <= g)%nat -> (1 <= rx)%nat -> (1 <= ry)%nat ->
  setup_hpolar pix xl (Z.of_nat xg) [c0; c1] al yl yg (Z.of_nat rx) (Z.of_nat ry) =
  (px <- mapM (fun p => heal_pixel pix (PI / 2) al c0 c1 (fst p) (PI / 2 - snd p))
          (concat (tab2 (ry * g) (rx * xg) (fun i j => (mid_at (- xl / 2) (xl / 2) (rx * xg) j, mid_at (- height xl yl / 2) (height xl yl / 2) (ry * g) i)))) ;;
   Ok (HBox (edges (- xl / 2) (xl / 2) xg) (edges (- height xl yl / 2) (height xl yl / 2) g)
           (tab2 g xg (fun _ j => mid_at (- xl / 2) (xl / 2) xg j)) (tab2 g xg (fun i _ => mid_at (- height xl yl / 2) (height xl yl / 2) g i)) [c0; c1] al,
       Fine rx ry (edges (- xl / 2) (xl / 2) (rx * xg)) (edges (- height xl yl / 2) (height xl yl / 2) (ry * g))
            (tab2 (ry * g) (rx * xg) (fun _ j => mid_at (- xl / 2) (xl / 2) (rx * xg) j))
            (tab2 (ry * g) (rx * xg) (fun i _ => mid_at (- height xl yl / 2) (height xl yl / 2) (ry * g) i))
            (concat (tab2 (ry * g) (rx * xg) (fun i _ => i))) (concat (tab2 (ry * g) (rx * xg) (fun _ j => j))) px)).
Proof.
  intros pix xl xg c0 c1 al yl yg g rx ry H Eg Nx Ng Rx Ry. unfold setup_hpolar. rewrite (hbox_ok _ _ _ _ _ _ g) by auto. cbn [bind hb_xedges hb_yedges]. cbv zeta.
  clear H. generalize (height xl yl). intros l.
  rewrite (proj1 (edges_ends (- xl / 2) (xl / 2) xg ltac:(lia))), (proj2 (edges_ends (- xl / 2) (xl / 2) xg ltac:(lia))),
    (proj1 (edges_ends (- l / 2) (l / 2) g ltac:(lia))), (proj2 (edges_ends (- l / 2) (l / 2) g ltac:(lia))). cbn [bind].
  rewrite !mid_length, !edges_length. replace (S xg - 1)%nat with xg by lia. replace (S g - 1)%nat with g by lia.
  rewrite <- !Nat2Z.inj_mul. rewrite !edges_ok by nia. cbn [bind]. rewrite !mid_edges, meshgrid_tab, !edges_length.
  replace (S (rx * xg) - 1)%nat with (rx * xg)%nat by lia. replace (S (ry * g) - 1)%nat with (ry * g)%nat by lia. rewrite meshgrid_ind_tab.
  change (py_get [c0; c1] 0) with (Ok c0). change (py_get [c0; c1] 1) with (Ok c1). cbn [bind]. rewrite combine_flat, !Nat2Z.id. reflexivity.
Qed.

(** Flattened tables, read. *)
Lemma flat_length : forall A n m (g : nat -> nat -> A), length (concat (tab2 n m g)) = (n * m)%nat.
Proof.
  intros A n m g. unfold tab2, tab at 1. rewrite <- (seq_length n 0) at 2. induction (seq 0 n) as [|a l IH]; [reflexivity|].
  cbn [map concat length]. rewrite app_length, tab_length, IH. lia.
Qed.

Lemma flat_nth : forall A n m (g : nat -> nat -> A) i j d, (i < n)%nat -> (j < m)%nat -> nth (i * m + j) (concat (tab2 n m g)) d = g i j.
Proof.
  intros A n m g i j d Hi Hj. unfold tab2, tab at 1.
  assert (K : forall s k, (k < n)%nat -> nth (k * m + j) (concat (map (fun i => tab m (g i)) (seq s n))) d = g (s + k)%nat j).
  { clear i Hi. induction n as [|n IH]; intros s k Hk; [lia|]. cbn [seq map concat]. destruct k as [|k].
    - rewrite app_nth1 by (rewrite tab_length; lia). cbn [Nat.mul Nat.add]. rewrite tab_nth by lia. now rewrite Nat.add_0_r.
    - rewrite app_nth2 by (rewrite tab_length; lia). rewrite tab_length. replace (S k * m + j - m)%nat with (k * m + j)%nat by lia.
      rewrite IH by lia. f_equal. lia. }
  rewrite K by lia. reflexivity.
Qed.

Lemma mapM_nth : forall A B (f : A -> res B) l l' k da db, mapM f l = Ok l' -> (k < length l)%nat -> length l' = length l /\ f (nth k l da) = Ok (nth k l' db).
Proof.
  intros A B f l. induction l as [|a l IH]; intros l' k da db H Hk; [cbn in Hk; lia|]. cbn [mapM] in H. apply bind_inv in H. destruct H as (b & Hb & H).
  apply bind_inv in H. destruct H as (bs & Hbs & H). apply Ok_inj in H. subst l'.
  assert (L : length bs = length l).
  { clear - Hbs. revert bs Hbs. induction l as [|a l IH]; intros bs H; [cbn in H; apply Ok_inj in H; now subst|]. cbn [mapM] in H. apply bind_inv in H.
    destruct H as (b & _ & H). apply bind_inv in H. destruct H as (cs & Hc & H). apply Ok_inj in H. subst bs. cbn. f_equal. now apply IH. }
  split; [cbn; now rewrite L|]. destruct k as [|k]; [exact Hb|]. cbn [nth]. cbn in Hk. apply (IH bs k da db Hbs). lia.
Qed.

Lemma flat_first : forall A B (f : A -> res B) n m g e, (1 <= n)%nat -> (1 <= m)%nat -> f (g 0%nat 0%nat) = Err e -> mapM f (concat (tab2 n m g)) = Err e.
Proof.
  intros A B f n m g e Hn Hm H. destruct n as [|n]; [lia|]. destruct m as [|m]; [lia|]. unfold tab2, tab at 1. cbn [seq map concat]. unfold tab at 1. cbn [seq map app]. now apply mapM_first.
Qed.

Lemma mapM_all : forall A B (f : A -> res B) l, (forall x, In x l -> exists y, f x = Ok y) -> exists l', mapM f l = Ok l'.
Proof.
  intros A B f l. induction l as [|a l IH]; intros H; [exists []; reflexivity|]. destruct (H a (or_introl eq_refl)) as [y Hy].
  destruct IH as [l' Hl]; [intros; apply H; now right|]. exists (y :: l'). cbn [mapM]. now rewrite Hy, Hl.
Qed.

Lemma mid_at_in : forall a b n j, a <= b -> (j < n)%nat -> a <= mid_at a b n j <= b.
Proof.
  intros a b n j H Hj. unfold mid_at. assert (P : 0 < INR n) by (apply lt_0_INR; lia). assert (J : INR j + 1 <= INR n) by (rewrite <- S_INR; apply le_INR; lia).
  pose proof (pos_INR j) as J0. assert (E : (INR j + / 2) * ((b - a) / INR n) = (b - a) * ((INR j + / 2) / INR n)) by (field; lra). rewrite E.
  assert (Q : 0 <= (INR j + / 2) / INR n <= 1). { split; [apply Rle_mult_inv_pos; lra|]. apply Rmult_le_reg_r with (INR n); [exact P|]. unfold Rdiv. rewrite Rmult_assoc, Rinv_l by lra. lra. }
  nra.
Qed.
