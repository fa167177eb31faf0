(** * Coordinates: theorems C14 - C26 *)

From Coq Require Import Reals ZArith List Bool Lra Lia Psatz.
From Coquelicot Require Import Coquelicot.
From Flocq Require Import Core.Raux.
From Verif Require Import Base BaseP SpecSphere SpecGrid MCoords MUsphere MPolarCoords.
From Verif Require Import PHealpixCentre PTrig PCoords PUsphere PUsphereArr PPolarCoords PCoordsX.
Import ListNotations.
Open Scope R_scope.

(** ** C14 *)

Theorem C14_canonical : forall x y c0 c1 r f, cart2polar x y c0 c1 = (r, f) ->
  0 <= r /\ 0 <= f < 2 * PI /\ polar2cart r f c0 c1 = (x, y).
Proof.
  intros x y c0 c1 r f E. pose proof (cart2polar_range x y c0 c1) as [H1 H2].
  pose proof (polar_of_cart x y c0 c1) as H3. rewrite E in *. auto.
Qed.
Print Assumptions C14_canonical.

Theorem C14_inverse : forall r f c0 c1 x y, 0 < r -> 0 <= f < 2 * PI ->
  polar2cart r f c0 c1 = (x, y) -> cart2polar x y c0 c1 = (r, f).
Proof.
  intros r f c0 c1 x y Hr Hf E. pose proof (cart_of_polar r f c0 c1 Hr Hf) as H.
  rewrite E in H. exact H.
Qed.
Print Assumptions C14_inverse.

Theorem C14_array : forall x y c0 c1, length x = length y ->
  length (fst (cart2polar_arr x y c0 c1)) = length x /\
  length (snd (cart2polar_arr x y c0 c1)) = length x /\
  forall q, (q < length x)%nat ->
    (nth q (fst (cart2polar_arr x y c0 c1)) 0, nth q (snd (cart2polar_arr x y c0 c1)) 0)
    = cart2polar (nth q x 0) (nth q y 0) c0 c1.
Proof.
  intros x y c0 c1 H. destruct (cart2polar_arr_len x y c0 c1 H) as [A B].
  split; [exact A|]. split; [exact B|]. intros q Hq. now apply cart2polar_arr_nth.
Qed.
Print Assumptions C14_array.

Example C14_case : cart2polar 1 (-2) 1 0 = (2, 3 * PI / 2).
Proof.
  pose proof PI_pos. apply C14_inverse; [lra|lra|]. unfold polar2cart.
  replace (3 * PI / 2) with (3 * (PI / 2)) by field. rewrite cos_3PI2, sin_3PI2. f_equal; ring.
Qed.

(** ** C15 *)

Theorem C15_canonical : forall x y z c0 c1 c2, exists r f t,
  cart2sphere x y z c0 c1 c2 = (r, f, Some t) /\
  0 <= r /\ 0 <= f < 2 * PI /\ 0 <= t <= PI /\ sphere2cart r f t c0 c1 c2 = (x, y, z).
Proof. exact cart2sphere_spec. Qed.
Print Assumptions C15_canonical.

Theorem C15_inverse : forall r f t c0 c1 c2 x y z, 0 < r -> 0 <= f < 2 * PI -> 0 < t < PI ->
  sphere2cart r f t c0 c1 c2 = (x, y, z) -> cart2sphere x y z c0 c1 c2 = (r, f, Some t).
Proof.
  intros r f t c0 c1 c2 x y z Hr Hf Ht E.
  pose proof (sphere_of_cart r f t c0 c1 c2 Hr Hf Ht) as H. rewrite E in H. exact H.
Qed.
Print Assumptions C15_inverse.

Theorem C15_array : forall x y z c0 c1 c2 r f t, length x = length y -> length y = length z ->
  cart2sphere_arr x y z c0 c1 c2 = (r, f, t) ->
  length r = length x /\ length f = length x /\ length t = length x /\
  forall q, (q < length x)%nat ->
    (nth q r 0, nth q f 0, nth q t None)
    = cart2sphere (nth q x 0) (nth q y 0) (nth q z 0) c0 c1 c2.
Proof.
  intros x y z c0 c1 c2 r f t H H' E.
  destruct (cart2sphere_arr_len x y z c0 c1 c2 H H') as (A & B & C).
  pose proof (fun q => cart2sphere_arr_nth x y z c0 c1 c2 q H H') as D.
  rewrite E in *. cbn [fst snd] in *. auto.
Qed.
Print Assumptions C15_array.

Example C15_case : cart2sphere 0 1 0 0 0 0 = (1, PI / 2, Some (PI / 2)).
Proof.
  pose proof PI_pos. apply C15_inverse; try lra. unfold sphere2cart.
  rewrite cos_PI2, sin_PI2. f_equal; [f_equal|]; ring.
Qed.

Example C15_origin : exists r f t, cart2sphere 3 4 5 3 4 5 = (r, f, Some t) /\
  sphere2cart r f t 3 4 5 = (3, 4, 5).
Proof. destruct (C15_canonical 3 4 5 3 4 5) as (r & f & t & A & _ & _ & _ & B). now exists r, f, t. Qed.

(** ** C16 *)

Theorem C16_lift : forall x y r fill,
  (x ^ 2 + y ^ 2 < r ^ 2 -> exists z, ortho2cart x y r fill = Some z /\
     x ^ 2 + y ^ 2 + z ^ 2 = r ^ 2 /\ 0 < z) /\
  (r ^ 2 <= x ^ 2 + y ^ 2 -> ortho2cart x y r fill = fill).
Proof. intros. split; [apply ortho2cart_in|apply ortho2cart_out]. Qed.
Print Assumptions C16_lift.

Theorem C16_array : forall x y r fill, length x = length y ->
  length (ortho2cart_arr x y r fill) = length x /\
  forall q, (q < length x)%nat ->
    nth q (ortho2cart_arr x y r fill) None = ortho2cart (nth q x 0) (nth q y 0) r fill.
Proof.
  intros x y r fill H. split; [apply ortho2cart_arr_len|]. intros q Hq. now apply ortho2cart_arr_nth.
Qed.
Print Assumptions C16_array.

Example C16_case : ortho2cart 3 4 5 None = None /\ exists z, ortho2cart 3 0 5 None = Some z /\ z ^ 2 = 16.
Proof.
  split; [apply C16_lift; lra|]. destruct (proj1 (C16_lift 3 0 5 None)) as (z & A & B & _); [lra|].
  exists z. split; [exact A|lra].
Qed.

(** ** C17 *)

Theorem C17_rotation : forall pe te ps ts,
  on_sky ps ts -> on_sky pe te ->
  dir ps ts <> dir pe te -> dir ps ts <> vscale (-1) (dir pe te) ->
  exists n a, dot n n = 1 /\ 0 < a < PI /\
    cos a = dot (dir ps ts) (dir pe te) /\
    cross (dir ps ts) (dir pe te) = vscale (sin a) n /\
    forall p t, exists p' t',
      usphere_rotate (Some p) (Some t) pe te ps ts = Ok (Some p', Some t') /\
      0 <= p' < 2 * PI /\ 0 <= t' <= PI /\ dir p' t' = rodrigues n a (dir p t).
Proof. exact rotate_is_rotation. Qed.
Print Assumptions C17_rotation.

Theorem C17_isometry : forall pe te ps ts p1 t1 p2 t2 p1' t1' p2' t2',
  usphere_rotate (Some p1) (Some t1) pe te ps ts = Ok (Some p1', Some t1') ->
  usphere_rotate (Some p2) (Some t2) pe te ps ts = Ok (Some p2', Some t2') ->
  dot (dir p1' t1') (dir p2' t2') = dot (dir p1 t1) (dir p2 t2).
Proof. exact rotate_isometry. Qed.
Print Assumptions C17_isometry.

Theorem C17_start_to_end : forall pe te ps ts,
  on_sky ps ts -> on_sky pe te ->
  dir ps ts <> dir pe te -> dir ps ts <> vscale (-1) (dir pe te) ->
  exists p' t', usphere_rotate (Some ps) (Some ts) pe te ps ts = Ok (Some p', Some t') /\
    dir p' t' = dir pe te /\
    (pe < 2 * PI -> 0 < te < PI -> p' = pe /\ t' = te).
Proof. exact rotate_start_end. Qed.
Print Assumptions C17_start_to_end.

Theorem C17_inverse : forall pe te ps ts p t p' t',
  on_sky ps ts -> on_sky pe te ->
  dir ps ts <> dir pe te -> dir ps ts <> vscale (-1) (dir pe te) ->
  usphere_rotate (Some p) (Some t) pe te ps ts = Ok (Some p', Some t') ->
  exists p'' t'', usphere_rotate (Some p') (Some t') ps ts pe te = Ok (Some p'', Some t'') /\
    dir p'' t'' = dir p t /\
    (0 <= p < 2 * PI -> 0 < t < PI -> p'' = p /\ t'' = t).
Proof. exact rotate_back. Qed.
Print Assumptions C17_inverse.

Theorem C17_array : forall phi theta pe te ps ts a b q,
  length phi = length theta -> (q < length phi)%nat ->
  usphere_rotate_arr phi theta pe te ps ts = Ok (a, b) ->
  length a = length phi /\ length b = length phi /\
  usphere_rotate (nth q phi None) (nth q theta None) pe te ps ts
  = Ok (nth q a None, nth q b None).
Proof. exact rotate_arr_nth. Qed.
Print Assumptions C17_array.

(** From the pole to (phi, theta) = (0, pi/2): the point (pi/2, pi/2) stays. *)
Example C17_case : exists p' t',
  usphere_rotate (Some 0) (Some 0) 0 (PI / 2) 0 0 = Ok (Some p', Some t') /\
  p' = 0 /\ t' = PI / 2.
Proof.
  pose proof PI_pos as HP.
  destruct (C17_start_to_end 0 (PI / 2) 0 0) as (p' & t' & A & _ & B).
  - split; lra.
  - split; lra.
  - intros E. pose proof (f_equal vz E) as Z. cbn in Z. rewrite cos_0, cos_PI2 in Z. lra.
  - intros E. pose proof (f_equal vz E) as Z. cbn in Z. rewrite cos_0, cos_PI2 in Z. lra.
  - exists p', t'. split; [exact A|]. apply B; lra.
Qed.

(** ** C18 *)

Theorem C18_degenerate : forall pe te ps ts phi theta,
  on_sky ps ts -> on_sky pe te -> (ps <> pe \/ ts <> te) ->
  dir ps ts = dir pe te \/ dir ps ts = vscale (-1) (dir pe te) ->
  usphere_rotate phi theta pe te ps ts = Ok (None, None).
Proof.
  intros pe te ps ts phi theta H1 H2 H3 H4. apply rotate_degenerate; [split; [exact H3|split; assumption]|].
  now apply cross_parallel.
Qed.
Print Assumptions C18_degenerate.

(** Inputs outside the ranges, and exactly equal pairs, are the only ones refused. *)
Theorem C18_refused : forall pe te ps ts phi theta,
  ~ (on_sky ps ts /\ on_sky pe te /\ (ps <> pe \/ ts <> te)) <->
  usphere_rotate phi theta pe te ps ts = Err AssertionError.
Proof.
  intros pe te ps ts phi theta. split.
  - intros H. unfold usphere_rotate, rotate_setup, py_assert, in_range.
    destruct (Req_bool_spec ps pe); destruct (Req_bool_spec ts te);
    destruct (Rle_bool_spec 0 ps); destruct (Rle_bool_spec ps (2 * PI));
    destruct (Rle_bool_spec 0 pe); destruct (Rle_bool_spec pe (2 * PI));
    destruct (Rle_bool_spec 0 ts); destruct (Rle_bool_spec ts PI);
    destruct (Rle_bool_spec 0 te); destruct (Rle_bool_spec te PI); try reflexivity;
    exfalso; apply H; unfold on_sky; tauto.
  - intros E (H1 & H2 & H3).
    destruct (Req_dec (nrm (cross (dir ps ts) (dir pe te))) 0) as [Z|Z].
    + unfold usphere_rotate in E. rewrite rotate_setup_ok in E by (split; [exact H3|split; assumption]).
      rewrite rotate_frame_degenerate in E by exact Z. discriminate.
    + unfold usphere_rotate in E. rewrite rotate_setup_ok in E by (split; [exact H3|split; assumption]).
      destruct (rotate_frame_spec _ _ (dir_unit ps ts) (dir_unit pe te) Z) as (f & Ef & _).
      rewrite Ef in E. discriminate.
Qed.
Print Assumptions C18_refused.

Theorem C18_refuted : exists pe te ps ts,
  on_sky ps ts /\ on_sky pe te /\ (ps <> pe \/ ts <> te) /\
  forall phi theta, usphere_rotate phi theta pe te ps ts = Ok (None, None).
Proof.
  pose proof PI_pos. exists 1, 0, 0, 0.
  assert (1 <= 2 * PI) by (pose proof PI2_1; lra).
  assert (A : on_sky 0 0) by (split; lra). assert (B : on_sky 1 0) by (split; lra).
  split; [exact A|]. split; [exact B|]. split; [left; lra|].
  intros. apply C18_degenerate; [exact A|exact B|left; lra|].
  left. now rewrite !dir_north.
Qed.
Print Assumptions C18_refuted.

(** ** C19 *)

Theorem C19_scalar : forall p d, 0 <= p <= 2 * PI -> - (2 * PI) < d < 2 * PI ->
  exists p', usphere_phi_shift (Some p) d = Ok (Some p') /\
    0 <= p' <= 2 * PI /\ same_angle p' (p + d).
Proof.
  intros p d Hp Hd. exists (phi_norm (p + d)). split; [now apply phi_shift_ok|].
  split; [now apply phi_norm_range|apply phi_norm_same].
Qed.
Print Assumptions C19_scalar.

Theorem C19_undo : forall p d p', 0 <= p <= 2 * PI ->
  usphere_phi_shift (Some p) d = Ok (Some p') ->
  exists p'', usphere_phi_shift (Some p') (- d) = Ok (Some p'') /\
    0 <= p'' <= 2 * PI /\ same_angle p'' p.
Proof.
  intros p d p' Hp E.
  assert (Hd : - (2 * PI) < d < 2 * PI).
  { destruct (Rlt_dec (- (2 * PI)) d); [destruct (Rlt_dec d (2 * PI)); [lra|]|];
      rewrite phi_shift_err in E by lra; discriminate. }
  destruct (C19_scalar p d Hp Hd) as (q & Eq & Rq & k & Sq). rewrite E in Eq. injection Eq as ->.
  destruct (C19_scalar q (- d) Rq ltac:(lra)) as (r & Er & Rr & l & Sr).
  exists r. split; [exact Er|]. split; [exact Rr|].
  exists (k + l)%Z. rewrite Sr, Sq, plus_IZR. ring.
Qed.
Print Assumptions C19_undo.

Theorem C19_reject : forall p d, ~ (- (2 * PI) < d < 2 * PI) ->
  usphere_phi_shift p d = Err AssertionError /\
  forall l, usphere_phi_shift_arr l d = Err AssertionError.
Proof. intros p d H. split; [now apply phi_shift_err|]. intros l. now apply phi_shift_arr_err. Qed.
Print Assumptions C19_reject.

Theorem C19_array : forall l d, - (2 * PI) < d < 2 * PI ->
  exists l', usphere_phi_shift_arr l d = Ok l' /\ length l' = length l /\
    forall q, (q < length l)%nat -> usphere_phi_shift (nth q l None) d = Ok (nth q l' None).
Proof.
  intros l d Hd. exists (map (shift1 d) l). split; [now apply phi_shift_arr_ok|].
  split; [apply map_length|]. intros q Hq.
  rewrite shift1_scalar by exact Hd. f_equal. symmetry.
  exact (nth_map_lt num num (shift1 d) l q None None Hq).
Qed.
Print Assumptions C19_array.

Example C19_case : exists p', usphere_phi_shift (Some (3 * PI / 2)) PI = Ok (Some p') /\ p' = PI / 2.
Proof.
  pose proof PI_pos. exists (phi_norm (3 * PI / 2 + PI)). split; [apply phi_shift_ok; lra|].
  unfold phi_norm. rewrite Rlt_bool_t by lra. field.
Qed.

(** ** C20 *)

Theorem C20_phi_shift_in_place : forall h phi d, (phi < length h)%nat -> - (2 * PI) < d < 2 * PI ->
  exists h', usphere_phi_shift_mem h phi d = Ok (h', phi) /\
    usphere_phi_shift_arr (deref h phi) d = Ok (deref h' phi) /\
    (forall k, k <> phi -> deref h' k = deref h k) /\
    (forall q p, d <> 0 -> (q < length (deref h phi))%nat -> nth q (deref h phi) None = Some p ->
       nth q (deref h' phi) None <> nth q (deref h phi) None).
Proof.
  intros h phi d Hp Hd. exists (set_nth h phi (map (shift1 d) (deref h phi))).
  split; [now apply phi_shift_mem_ok|].
  rewrite deref_set by exact Hp. split; [now apply phi_shift_arr_ok|].
  split; [intros k Hk; now apply deref_other|].
  intros q p Hd0 Hq E.
  assert (M := nth_map_lt num num (shift1 d) (deref h phi) q None None Hq).
  intros X. apply (shift1_changes d (nth q (deref h phi) None) p Hd0 Hd E).
  exact (eq_trans (eq_sym M) X).
Qed.
Print Assumptions C20_phi_shift_in_place.

Theorem C20_shift_in_place : forall h phi theta ps ts pe te h' a b,
  (phi < length h)%nat ->
  usphere_shift_mem h phi theta ps ts pe te = Ok (h', a, b) ->
  usphere_phi_shift_arr (deref h phi) (pe - ps) = Ok (deref h' phi) /\
  (forall k, (k < length h)%nat -> k <> phi -> deref h' k = deref h k) /\
  (ts = te -> a = phi /\ b = theta) /\
  (ts <> te -> (length h <= a)%nat /\ (length h <= b)%nat).
Proof.
  intros h phi theta ps ts pe te h' a b Hp E.
  pose proof (shift_mem_spec _ _ _ _ _ _ _ _ Hp E) as (A & B & _ & C & D).
  split; [rewrite A; apply phi_shift_arr_ok; eapply shift_mem_inrange; exact E|].
  split; [exact B|]. split; [|exact D]. intros Z. destruct (C Z) as (C1 & C2 & _). auto.
Qed.
Print Assumptions C20_shift_in_place.

Theorem C20_spin : forall h phi theta pc tc al h' a b,
  (phi < length h)%nat -> (theta < length h)%nat -> phi <> theta ->
  List.Forall (fun x => match x with Some p => 0 <= p <= 2 * PI | None => True end) (deref h phi) ->
  usphere_spin_mem h phi theta pc tc al = Ok (h', a, b) ->
  deref h' theta = deref h theta /\
  (tc = 0 -> a = phi /\ usphere_phi_shift_arr (deref h phi) al = Ok (deref h' phi)) /\
  (tc <> 0 -> (length h <= a)%nat /\ (length h <= b)%nat /\ deref h' phi = deref h phi).
Proof.
  intros h phi theta pc tc al h' a b Hp Ht Hpt Hf E.
  pose proof (spin_mem_spec _ _ _ _ _ _ _ Hp Ht Hpt Hf E) as (A & B & C).
  split; [exact A|]. split; [|exact C]. intros Z. destruct (B Z) as [B1 B2]. split; [exact B1|].
  rewrite B2. apply phi_shift_arr_ok.
  unfold usphere_spin_mem, py_assert in E.
  destruct (in_range 0 pc (2 * PI)); [|discriminate].
  destruct (in_range 0 tc PI); [|discriminate].
  destruct (in_range 0 al (2 * PI)); [|discriminate].
  destruct (usphere_shift_mem h phi theta pc tc pc 0) as [[[h1 a1] b1]|]; [|discriminate].
  cbn [bind] in E. destruct (usphere_phi_shift_mem h1 a1 al) as [q|] eqn:E2; [|discriminate].
  apply phi_shift_mem_inv in E2. exact (proj1 E2).
Qed.
Print Assumptions C20_spin.

(** A one-element array holding 0, shifted by 1: the caller's array now holds 1. *)
Theorem C20_refuted : exists h phi d h', (phi < length h)%nat /\
  usphere_phi_shift_mem h phi d = Ok (h', phi) /\ deref h' phi <> deref h phi.
Proof.
  assert (1 < 2 * PI) by (pose proof PI2_1; lra).
  destruct (C20_phi_shift_in_place [[Some 0]] 0 1 ltac:(cbn; lia) ltac:(lra)) as (h' & A & _ & _ & B).
  exists [[Some 0]], 0%nat, 1, h'. split; [cbn; lia|]. split; [exact A|].
  intros E. assert (N : 1 <> 0) by lra. assert (L : (0 < length (deref [[Some 0%R]] 0))%nat) by (cbn; lia).
  apply (B 0%nat 0 N L eq_refl). now rewrite E.
Qed.
Print Assumptions C20_refuted.

(** ** C21 *)

Theorem C21_rigid : forall p t ps ts pe te,
  on_sky ps ts -> on_sky pe te -> Rabs (te - ts) < PI -> Rabs (pe - ps) < 2 * PI ->
  exists p' t', usphere_shift (Some p) (Some t) ps ts pe te = Ok (Some p', Some t') /\
    dir p' t' = rodrigues (east pe) (te - ts) (rodrigues ez (pe - ps) (dir p t)) /\
    (on_sky p t -> on_sky p' t').
Proof.
  intros p t ps ts pe te H1 H2 H3 H4.
  destruct (shift_spec p t ps ts pe te H1 H2 H3 H4) as (q & E & (p' & t' & -> & D) & R).
  exists p', t'. split; [exact E|]. split; [exact D|]. intros [Hp Ht].
  destruct (R Hp Ht) as (a & b & Eab & S). now injection Eab as -> ->.
Qed.
Print Assumptions C21_rigid.

Theorem C21_isometry : forall ps ts pe te p1 t1 p2 t2 p1' t1' p2' t2',
  on_sky ps ts -> on_sky pe te -> Rabs (te - ts) < PI -> Rabs (pe - ps) < 2 * PI ->
  usphere_shift (Some p1) (Some t1) ps ts pe te = Ok (Some p1', Some t1') ->
  usphere_shift (Some p2) (Some t2) ps ts pe te = Ok (Some p2', Some t2') ->
  dot (dir p1' t1') (dir p2' t2') = dot (dir p1 t1) (dir p2 t2).
Proof.
  intros ps ts pe te p1 t1 p2 t2 p1' t1' p2' t2' H1 H2 H3 H4 E1 E2.
  destruct (C21_rigid p1 t1 ps ts pe te H1 H2 H3 H4) as (a & b & Ea & Da & _).
  destruct (C21_rigid p2 t2 ps ts pe te H1 H2 H3 H4) as (c & d & Ec & Dc & _).
  rewrite E1 in Ea. rewrite E2 in Ec. injection Ea as -> ->. injection Ec as -> ->.
  rewrite Da, Dc, !rod_dot by (apply east_unit || apply ez_unit). reflexivity.
Qed.
Print Assumptions C21_isometry.

Theorem C21_start_to_end : forall ps ts pe te,
  on_sky ps ts -> on_sky pe te -> Rabs (te - ts) < PI -> Rabs (pe - ps) < 2 * PI ->
  exists p' t', usphere_shift (Some ps) (Some ts) ps ts pe te = Ok (Some p', Some t') /\
    dir p' t' = dir pe te.
Proof.
  intros ps ts pe te H1 H2 H3 H4.
  destruct (C21_rigid ps ts ps ts pe te H1 H2 H3 H4) as (a & b & Ea & Da & _).
  exists a, b. split; [exact Ea|]. rewrite Da, <- dir_add.
  replace (ps + (pe - ps)) with pe by ring.
  rewrite <- (east_turn pe ts), rod_comp by apply east_unit.
  replace (ts + (te - ts)) with te by ring. apply east_turn.
Qed.
Print Assumptions C21_start_to_end.

Theorem C21_exceptions : forall phi theta ps ts pe te,
  on_sky ps ts -> on_sky pe te ->
  (Rabs (pe - ps) = 2 * PI -> usphere_shift phi theta ps ts pe te = Err AssertionError) /\
  (Rabs (pe - ps) < 2 * PI -> Rabs (te - ts) = PI ->
     usphere_shift phi theta ps ts pe te = Ok (None, None)).
Proof.
  intros phi theta ps ts pe te H1 H2. split; intros.
  - now apply shift_full_turn.
  - now apply shift_degenerate.
Qed.
Print Assumptions C21_exceptions.

Example C21_case : exists p' t',
  usphere_shift (Some 0) (Some (PI / 4)) 0 (PI / 4) PI (PI / 2) = Ok (Some p', Some t') /\
  dir p' t' = dir PI (PI / 2).
Proof.
  pose proof PI_pos. apply C21_start_to_end; try (split; lra).
  - rewrite Rabs_pos_eq; lra.
  - rewrite Rabs_pos_eq; lra.
Qed.

(** ** C22 *)

Theorem C22_spin : forall p t pc tc a,
  on_sky pc tc -> tc < PI -> 0 <= a < 2 * PI ->
  exists p' t', usphere_spin (Some p) (Some t) pc tc a = Ok (Some p', Some t') /\
    dir p' t' = rodrigues (dir pc tc) a (dir p t) /\ (on_sky p t -> on_sky p' t').
Proof.
  intros p t pc tc a H1 H2 H3.
  destruct (spin_spec p t pc tc a H1 H2 H3) as (q & E & (p' & t' & -> & D) & R).
  exists p', t'. split; [exact E|]. split; [exact D|]. intros [Hp Ht].
  destruct (R Hp Ht) as (x & y & Exy & S). now injection Exy as -> ->.
Qed.
Print Assumptions C22_spin.

Theorem C22_fixes_centre : forall pc tc a,
  on_sky pc tc -> tc < PI -> 0 <= a < 2 * PI ->
  exists p' t', usphere_spin (Some pc) (Some tc) pc tc a = Ok (Some p', Some t') /\
    dir p' t' = dir pc tc.
Proof.
  intros pc tc a H1 H2 H3. destruct (C22_spin pc tc pc tc a H1 H2 H3) as (p' & t' & E & D & _).
  exists p', t'. split; [exact E|]. rewrite D. apply rod_axis, dir_unit.
Qed.
Print Assumptions C22_fixes_centre.

Theorem C22_isometry : forall pc tc a p1 t1 p2 t2 p1' t1' p2' t2',
  on_sky pc tc -> tc < PI -> 0 <= a < 2 * PI ->
  usphere_spin (Some p1) (Some t1) pc tc a = Ok (Some p1', Some t1') ->
  usphere_spin (Some p2) (Some t2) pc tc a = Ok (Some p2', Some t2') ->
  dot (dir p1' t1') (dir p2' t2') = dot (dir p1 t1) (dir p2 t2).
Proof.
  intros pc tc a p1 t1 p2 t2 p1' t1' p2' t2' H1 H2 H3 E1 E2.
  destruct (C22_spin p1 t1 pc tc a H1 H2 H3) as (x & y & Ea & Da & _).
  destruct (C22_spin p2 t2 pc tc a H1 H2 H3) as (z & w & Ec & Dc & _).
  rewrite E1 in Ea. rewrite E2 in Ec. injection Ea as -> ->. injection Ec as -> ->.
  rewrite Da, Dc. apply rod_dot, dir_unit.
Qed.
Print Assumptions C22_isometry.

Theorem C22_full_turn_refuted : forall phi theta pc tc, on_sky pc tc ->
  usphere_spin phi theta pc tc (2 * PI) = Err AssertionError.
Proof. exact spin_full_turn. Qed.
Print Assumptions C22_full_turn_refuted.

Theorem C22_south_pole_refuted : forall phi theta pc a, 0 <= pc <= 2 * PI -> 0 <= a < 2 * PI ->
  usphere_spin phi theta pc PI a = Ok (None, None).
Proof. exact spin_south. Qed.
Print Assumptions C22_south_pole_refuted.

Example C22_case : exists p' t', usphere_spin (Some 0) (Some (PI / 2)) 0 0 (PI / 2) = Ok (Some p', Some t') /\
  dir p' t' = V3 0 1 0.
Proof.
  pose proof PI_pos. destruct (C22_spin 0 (PI / 2) 0 0 (PI / 2)) as (p' & t' & E & D & _);
    [split; lra|lra|lra|].
  exists p', t'. split; [exact E|]. rewrite D, dir_north, <- dir_add, Rplus_0_l.
  unfold dir. rewrite sin_PI2, cos_PI2. apply vec_ext; cbn; ring.
Qed.

(** ** C23 *)

Theorem C23_area : forall p0 p1 t0 t1,
  0 <= p0 < 2 * PI -> 0 < p1 <= 2 * PI -> p0 <> p1 ->
  0 <= t0 < PI -> 0 < t1 <= PI -> t0 <> t1 ->
  exists a, usphere_area p0 p1 t0 t1 = Ok a /\ is_RInt (fun _ => RInt sin t0 t1) p0 p1 a /\
    (p0 < p1 -> t0 < t1 -> 0 < a) /\
    (p1 < p0 -> t0 < t1 -> a < 0) /\ (p0 < p1 -> t1 < t0 -> a < 0).
Proof.
  intros p0 p1 t0 t1 H1 H2 H3 H4 H5 H6.
  exists ((p1 - p0) * (cos t0 - cos t1)).
  pose proof (area_ok p0 p1 t0 t1 H1 H2 H3 H4 H5 H6) as E. split; [exact E|].
  split; [now apply area_integral|].
  assert (D1 : t0 < t1 -> cos t1 < cos t0) by (intros; apply cos_decreasing_1; lra).
  assert (D2 : t1 < t0 -> cos t0 < cos t1) by (intros; apply cos_decreasing_1; lra).
  repeat split; intros P Q; [specialize (D1 Q)|specialize (D1 Q)|specialize (D2 Q)]; nra.
Qed.
Print Assumptions C23_area.

Theorem C23_refused : forall p0 p1 t0 t1,
  ~ (0 <= p0 < 2 * PI /\ 0 < p1 <= 2 * PI /\ p0 <> p1 /\
     0 <= t0 < PI /\ 0 < t1 <= PI /\ t0 <> t1) ->
  usphere_area p0 p1 t0 t1 = Err AssertionError.
Proof.
  intros p0 p1 t0 t1 H. destruct (usphere_area p0 p1 t0 t1) as [a|e] eqn:E.
  - exfalso. apply H. exact (proj1 (area_inv _ _ _ _ _ E)).
  - unfold usphere_area, py_assert in E.
    repeat match type of E with context [if ?c then _ else _] => destruct c end; congruence.
Qed.
Print Assumptions C23_refused.

Theorem C23_additive : forall p0 p1 p2 t0 t1 t2,
  0 <= p0 < p1 -> p1 < p2 <= 2 * PI -> 0 <= t0 < t1 -> t1 < t2 <= PI ->
  exists a b c d e, usphere_area p0 p1 t0 t1 = Ok a /\ usphere_area p1 p2 t0 t1 = Ok b /\
    usphere_area p0 p2 t0 t1 = Ok c /\ c = a + b /\
    usphere_area p0 p1 t1 t2 = Ok d /\ usphere_area p0 p1 t0 t2 = Ok e /\ e = a + d.
Proof.
  intros p0 p1 p2 t0 t1 t2 H1 H2 H3 H4.
  do 5 eexists. rewrite !area_ok by lra. split; [reflexivity|]. split; [reflexivity|].
  split; [reflexivity|]. split; [ring|]. split; [reflexivity|]. split; [reflexivity|]. ring.
Qed.
Print Assumptions C23_additive.

Theorem C23_whole_sphere : usphere_area 0 (2 * PI) 0 PI = Ok (4 * PI).
Proof.
  pose proof PI_pos. rewrite area_ok by lra. f_equal. rewrite cos_0, cos_PI. ring.
Qed.
Print Assumptions C23_whole_sphere.

Theorem C23_refuted : exists p0 p1 t0 t1 a, usphere_area p0 p1 t0 t1 = Ok a /\ a < 0.
Proof.
  pose proof PI_pos. exists PI, (PI / 2), 0, PI.
  destruct (C23_area PI (PI / 2) 0 PI) as (a & E & _ & _ & N & _); try lra.
  exists a. split; [exact E|apply N; lra].
Qed.
Print Assumptions C23_refuted.

(** ** C24 *)

Theorem C24_involution : forall theta,
  lonlat2sphere (sphere2lonlat theta) = theta /\ sphere2lonlat (lonlat2sphere theta) = theta /\
  (0 <= theta <= PI <-> - (PI / 2) <= sphere2lonlat theta <= PI / 2) /\
  sin (sphere2lonlat theta) = cos theta.
Proof.
  intros. unfold lonlat2sphere, sphere2lonlat. repeat split; try lra.
  now rewrite sin_shift.
Qed.
Print Assumptions C24_involution.

Example C24_case : sphere2lonlat 0 = PI / 2.
Proof. unfold sphere2lonlat. ring. Qed.

(** ** C25 *)

(** No call with a Python float returns; with an array only a one-element
    rotation returns, and then the rotation itself, whatever [phi] is. *)
Theorem C25_scalar_raises : forall phi x,
  (0 < x < 2 * PI -> rotate_polar phi (PyFloat x) = Err TypeError) /\
  (~ 0 < x < 2 * PI -> rotate_polar phi (PyFloat x) = Err AssertionError).
Proof.
  intros phi x. unfold rotate_polar, py_assert. split; intros H.
  - now rewrite !Rlt_bool_t by lra.
  - destruct (Rlt_bool_spec 0 x); [|reflexivity].
    destruct (Rlt_bool_spec x (2 * PI)); [|reflexivity]. exfalso; apply H; lra.
Qed.
Print Assumptions C25_scalar_raises.

Theorem C25_result_ignores_phi : forall phi rot out, rotate_polar phi rot = Ok out ->
  exists x, rot = NdArray [x] /\ 0 < x < 2 * PI /\ out = [x].
Proof.
  intros phi rot out E. destruct rot as [x|[|x [|y l]]]; unfold rotate_polar, py_assert in E; try discriminate.
  - destruct (Rlt_bool 0 x && Rlt_bool x (2 * PI)); discriminate.
  - destruct (Rlt_bool_spec 0 x) as [H1|]; [|discriminate].
    destruct (Rlt_bool_spec x (2 * PI)) as [H2|]; [|discriminate].
    exists x. split; [reflexivity|]. split; [lra|].
    cbn [map andb] in E. rewrite Rle_bool_f in E by lra. cbn in E.
    rewrite Rlt_bool_f in E by lra. cbn in E. now apply Ok_inj in E.
Qed.
Print Assumptions C25_result_ignores_phi.

Theorem C25_refuted : exists phi x, 0 < x < 2 * PI /\
  forall out, rotate_polar phi (PyFloat x) <> Ok out.
Proof.
  exists [0], 1. pose proof PI2_1. split; [lra|]. intros out E.
  destruct (C25_result_ignores_phi _ _ _ E) as (y & H0 & _). discriminate.
Qed.
Print Assumptions C25_refuted.

(** ** C26 *)

(** Complete description of [rotate_polar_grid] for regular edges: row [i] of
    the result mixes rows [i+m] and [i+m+1] (cyclically) with weights [w] and
    [1-w], where the shift is [m+w] bins. *)
Theorem C26_grid : forall pedges f phi_shift m c w dp,
  (2 <= length pedges)%nat -> (2 <= length f)%nat -> rect f c ->
  0 < phi_shift < 2 * PI -> dp = nth 1 pedges 0 - nth 0 pedges 0 -> 0 < dp ->
  0 <= w < 1 -> phi_shift = (INR m + w) * dp -> (m <= length f)%nat ->
  let n := length f in
  exists out caller,
    rotate_polar_grid pedges f phi_shift = Ok (out, caller) /\
    length out = n /\
    (forall i j, (S i < n)%nat -> (j < c)%nat ->
       cell out i j = w * cell f ((i + m) mod n) j + (1 - w) * cell f ((i + m + 1) mod n) j) /\
    (forall j, (j < c)%nat ->
       cell out (n - 1) j = w * cell f ((n - 1 + m) mod n) j +
         (if Req_bool (nth (length pedges - 1) pedges 0 - nth 0 pedges 0) (2 * PI)
          then (1 - w) * cell out 0 j else 0)) /\
    caller = (if (m =? 0)%nat then out else f).
Proof.
  intros pedges f phi_shift m c w dp H1 H2 H3 H4 -> H5 H6 H7 H8 n.
  destruct (grid_spec pedges f phi_shift m c w H1 H2 H3 H4 H5 H6 H7) as (out & caller & A & B & C & D & E).
  exists out, caller. unfold roll_src in *.
  replace (m <=? length f)%nat with true in * by (symmetry; apply Nat.leb_le; exact H8).
  split; [exact A|]. split; [exact B|]. split; [|split; [|exact E]].
  - intros i j Hi Hj. rewrite C by assumption. replace (S i + m)%nat with (i + m + 1)%nat by lia. reflexivity.
  - intros j Hj. apply D, Hj.
Qed.
Print Assumptions C26_grid.

(** A shift by more bins than there are rows does not roll the rows at all. *)
Theorem C26_overshift : forall pedges f phi_shift m c w dp,
  (2 <= length pedges)%nat -> (2 <= length f)%nat -> rect f c ->
  0 < phi_shift < 2 * PI -> dp = nth 1 pedges 0 - nth 0 pedges 0 -> 0 < dp ->
  0 <= w < 1 -> phi_shift = (INR m + w) * dp -> (length f < m)%nat ->
  exists out, rotate_polar_grid pedges f phi_shift = Ok (out, f) /\
    forall i j, (S i < length f)%nat -> (j < c)%nat ->
       cell out i j = w * cell f i j + (1 - w) * cell f (S i) j.
Proof.
  intros pedges f phi_shift m c w dp H1 H2 H3 H4 -> H5 H6 H7 H8.
  destruct (grid_spec pedges f phi_shift m c w H1 H2 H3 H4 H5 H6 H7) as (out & caller & A & B & C & D & E).
  unfold roll_src in *.
  replace (m <=? length f)%nat with false in * by (symmetry; apply Nat.leb_gt; exact H8).
  replace (m =? 0)%nat with false in E by (symmetry; apply Nat.eqb_neq; lia). subst caller.
  exists out. split; [exact A|exact C].
Qed.
Print Assumptions C26_overshift.

(** Four bins around the circle, rows 1 2 3 4, rotated by exactly one bin
    (pi/2): the expected rows are 2 3 4 1, the result is 3 4 1 3. *)
Theorem C26_refuted : exists pedges f phi_shift m out caller,
  phi_shift = INR m * (nth 1 pedges 0 - nth 0 pedges 0) /\ (m < length f)%nat /\
  nth (length pedges - 1) pedges 0 - nth 0 pedges 0 = 2 * PI /\
  rotate_polar_grid pedges f phi_shift = Ok (out, caller) /\
  cell out 0 0 <> cell f m 0 /\ cell out 0 0 = cell f (m + 1) 0 /\
  cell out 3 0 = cell f 2 0.
Proof.
  pose proof PI_pos as HP.
  set (pe := [0; PI / 2; PI; 3 * PI / 2; 2 * PI]).
  set (f := [[1]; [2]; [3]; [4]]).
  destruct (C26_grid pe f (PI / 2) 1 1 0 (PI / 2)) as (out & caller & A & B & C & D & E).
  - cbn; lia.
  - cbn; lia.
  - intros i Hi. cbn in Hi. do 4 (destruct i as [|i]; [reflexivity|]). lia.
  - lra.
  - cbn. ring.
  - lra.
  - lra.
  - cbn [INR]. ring.
  - cbn; lia.
  - exists pe, f, (PI / 2), 1%nat, out, caller.
    split; [cbn; ring|]. split; [cbn; lia|]. split; [cbn; ring|]. split; [exact A|].
    pose proof (C 0%nat 0%nat ltac:(cbn; lia) ltac:(lia)) as C0.
    pose proof (D 0%nat ltac:(lia)) as D0.
    replace (Req_bool (nth (length pe - 1) pe 0 - nth 0 pe 0) (2 * PI)) with true in D0
      by (symmetry; apply Req_bool_true; cbn; ring).
    unfold cell in *. cbn in C0, D0 |- *. repeat split; lra.
Qed.
Print Assumptions C26_refuted.
