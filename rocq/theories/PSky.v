(** * Corners of HEALPix pixels on the sphere *)

From Coq Require Import Reals ZArith List Bool Lia Lra Psatz.
From Flocq Require Import Core.Raux.
From Verif Require Import Base BaseP Spec SpecSphere SpecNeighbours PHealpixTiling PTrig PNeighbours.
Open Scope R_scope.

Lemma same_angle_of : forall a b, cos a = cos b -> sin a = sin b -> exists k : Z, a = b + 2 * PI * IZR k.
Proof.
  intros a b Hc Hs.
  assert (E : cos (a - b) = 1).
  { rewrite cos_minus, Hc, Hs. pose proof (sin2_cos2 b) as E. unfold Rsqr in E. lra. }
  assert (E2 : sin ((a - b) / 2) = 0).
  { replace (a - b) with (2 * ((a - b) / 2)) in E by field.
    rewrite cos_2a_sin in E. nra. }
  apply sin_eq_0_0 in E2. destruct E2 as [k Hk]. exists k. lra.
Qed.

Lemma cos_turn : forall a k, cos (a + 2 * PI * IZR k) = cos a.
Proof.
  intros a k. replace (a + 2 * PI * IZR k) with (a + IZR (2 * k) * PI) by (rewrite mult_IZR; ring).
  rewrite cos_plus. rewrite (sin_eq_0_1 (IZR (2 * k) * PI)) by (exists (2 * k)%Z; ring).
  replace (IZR (2 * k) * PI) with (2 * (IZR k * PI)) by (rewrite mult_IZR; ring).
  rewrite cos_2a_sin, (sin_eq_0_1 (IZR k * PI)) by (exists k; ring). ring.
Qed.

Lemma sin_turn : forall a k, sin (a + 2 * PI * IZR k) = sin a.
Proof.
  intros a k. rewrite <- !cos_shift.
  replace (PI / 2 - (a + 2 * PI * IZR k)) with (PI / 2 - a + 2 * PI * IZR (- k)) by (rewrite opp_IZR; ring).
  apply cos_turn.
Qed.

Section Lattice.
Variable n : Z.
Hypothesis Hn : (1 <= n)%Z.
Let h := half_diag n.

Lemma n_pos : 0 < IZR n. Proof. apply IZR_lt. lia. Qed.
Lemma h_pos : 0 < h. Proof. apply half_diag_pos; auto. Qed.
Lemma h_pi : PI = 4 * IZR n * h.
Proof. pose proof (two_pi_half_diag n Hn) as E. fold h in E. lra. Qed.

Definition belt (Y : Z) : bool := (Z.abs Y <=? n)%Z.
Definition height (Y : Z) : Z := (2 * n - Z.abs Y)%Z.

Lemma belt_dec : forall Y (A : Type) (a b : A),
  (if Rle_dec (Rabs (IZR Y * h)) (PI / 4) then a else b) = if belt Y then a else b.
Proof.
  intros Y A a b. pose proof h_pos as Hh. pose proof h_pi as HP.
  rewrite Rabs_mult, (Rabs_pos_eq h), <- abs_IZR by lra. unfold belt.
  destruct (Rle_dec _ _) as [L|L]; destruct (Z.leb_spec (Z.abs Y) n) as [M|M]; auto; exfalso.
  - apply IZR_lt in M. nra.
  - apply L. apply IZR_le in M. nra.
Qed.

Lemma lat_sigma : forall Y, cap_sigma (IZR Y * h) = IZR (height Y) / IZR n.
Proof.
  intros Y. unfold cap_sigma, height. pose proof h_pos. pose proof n_pos. pose proof h_pi as HP.
  rewrite Rabs_mult, (Rabs_pos_eq h), <- abs_IZR by lra. rewrite HP, minus_IZR, mult_IZR.
  field. lra.
Qed.

Lemma lat_z : forall Y, sky_z (IZR Y * h) =
  if belt Y then 2 * IZR Y / (3 * IZR n)
  else if (0 <? Y)%Z then 1 - (IZR (height Y) / IZR n) ^ 2 / 3
  else - (1 - (IZR (height Y) / IZR n) ^ 2 / 3).
Proof.
  intros Y. unfold sky_z. rewrite belt_dec, lat_sigma. pose proof h_pos. pose proof n_pos. pose proof h_pi as HP.
  destruct (belt Y).
  - rewrite HP. field. lra.
  - destruct (Rlt_dec 0 (IZR Y * h)) as [L|L]; destruct (Z.ltb_spec 0 Y) as [M|M]; auto; exfalso.
    + apply IZR_le in M. nra.
    + apply L. apply IZR_lt in M. nra.
Qed.

Definition facet (X : Z) : Z := (X / (2 * n))%Z.

Lemma lat_facet : forall X, facet_x (IZR X * h) = (2 * IZR (facet X) + 1) * IZR n * h.
Proof.
  intros X. unfold facet_x, facet. pose proof h_pos. pose proof n_pos. pose proof h_pi as HP.
  replace (IZR X * h / (PI / 2)) with (IZR X / IZR (2 * n)).
  - rewrite Zfloor_IZR_div by lia. rewrite HP. field.
  - rewrite HP, mult_IZR. field. lra.
Qed.

(** Longitude times the height, in units of the half diagonal: an integer. *)
Definition turn (X Y : Z) : Z := ((2 * facet X + 1) * height Y + (X - (2 * facet X + 1) * n))%Z.

Lemma lat_phi_belt : forall X Y, belt Y = true -> sky_phi (IZR X * h) (IZR Y * h) = IZR X * h.
Proof. intros X Y B. unfold sky_phi. rewrite belt_dec, B. auto. Qed.

Lemma lat_phi_cap : forall X Y, belt Y = false -> (0 < height Y)%Z ->
  sky_phi (IZR X * h) (IZR Y * h) = IZR (turn X Y) * (IZR n / IZR (height Y)) * h.
Proof.
  intros X Y B H. unfold sky_phi. rewrite belt_dec, B, lat_facet, lat_sigma.
  pose proof n_pos. apply IZR_lt in H. unfold turn.
  repeat (rewrite ?plus_IZR, ?mult_IZR, ?minus_IZR). field. lra.
Qed.

Lemma height_belt : forall Y, belt Y = false -> (Z.abs Y <= 2 * n)%Z -> 0 <= IZR (height Y) / IZR n < 1.
Proof.
  intros Y B HY. pose proof n_pos. apply Z.leb_gt in B. unfold height.
  assert (0 <= 2 * n - Z.abs Y < n)%Z as [A1 A2] by lia. apply IZR_le in A1. apply IZR_lt in A2.
  split. apply Rle_mult_inv_pos; auto. apply Rmult_lt_reg_r with (IZR n); auto. unfold Rdiv.
  rewrite Rmult_assoc, Rinv_l; lra.
Qed.

Lemma z_range : forall Y, (Z.abs Y <= 2 * n)%Z ->
  (belt Y = true -> -2/3 <= sky_z (IZR Y * h) <= 2/3) /\
  (belt Y = false -> (0 < Y)%Z -> 2/3 < sky_z (IZR Y * h) <= 1) /\
  (belt Y = false -> (Y < 0)%Z -> -1 <= sky_z (IZR Y * h) < -2/3).
Proof.
  intros Y HY. pose proof n_pos as N. rewrite lat_z. split; [|split].
  - intros B. rewrite B. apply Z.leb_le in B.
    assert (- n <= Y <= n)%Z as [A1 A2] by lia. apply IZR_le in A1. apply IZR_le in A2. rewrite opp_IZR in A1.
    replace (2 * IZR Y / (3 * IZR n)) with (2/3 * (IZR Y / IZR n)) by (field; lra).
    assert (-1 <= IZR Y / IZR n <= 1).
    { split; apply Rmult_le_reg_r with (IZR n); auto; unfold Rdiv; rewrite Rmult_assoc, Rinv_l; lra. }
    lra.
  - intros B P. rewrite B. rewrite (proj2 (Z.ltb_lt 0 Y) P). pose proof (height_belt Y B HY). nra.
  - intros B P. rewrite B. rewrite (proj2 (Z.ltb_ge 0 Y)) by lia. pose proof (height_belt Y B HY). nra.
Qed.

Lemma z_inj : forall Y Y', (Z.abs Y <= 2 * n)%Z -> (Z.abs Y' <= 2 * n)%Z ->
  sky_z (IZR Y * h) = sky_z (IZR Y' * h) -> Y = Y'.
Proof.
  intros Y Y' HY HY' E. pose proof n_pos as N.
  destruct (z_range Y HY) as [A1 [A2 A3]]. destruct (z_range Y' HY') as [B1 [B2 B3]].
  assert (SG : forall Z, belt Z = false -> (0 < Z \/ Z < 0)%Z)
    by (intros Z B; apply Z.leb_gt in B; lia).
  assert (SQ : forall r r', 0 <= r < 1 -> 0 <= r' < 1 -> r ^ 2 / 3 = r' ^ 2 / 3 -> r = r') by (intros; nra).
  assert (HH : belt Y = false -> belt Y' = false -> IZR (height Y) / IZR n = IZR (height Y') / IZR n ->
    height Y = height Y').
  { intros _ _ H. apply eq_IZR. apply Rmult_eq_reg_r with (/ IZR n); auto. apply Rinv_neq_0_compat. lra. }
  destruct (belt Y) eqn:B; destruct (belt Y') eqn:B'.
  - rewrite !lat_z, B, B' in E. apply eq_IZR.
    apply Rmult_eq_reg_r with (2 / (3 * IZR n)).
    + unfold Rdiv in *. lra.
    + assert (0 < 2 / (3 * IZR n)) by (apply Rdiv_lt_0_compat; lra). lra.
  - exfalso. specialize (A1 eq_refl). destruct (SG _ B') as [S|S];
      [specialize (B2 eq_refl S)|specialize (B3 eq_refl S)]; lra.
  - exfalso. specialize (B1 eq_refl). destruct (SG _ B) as [S|S];
      [specialize (A2 eq_refl S)|specialize (A3 eq_refl S)]; lra.
  - pose proof (height_belt Y B HY) as R1. pose proof (height_belt Y' B' HY') as R2.
    destruct (SG _ B) as [S|S]; destruct (SG _ B') as [S'|S'].
    + rewrite !lat_z, B, B', (proj2 (Z.ltb_lt 0 Y) S), (proj2 (Z.ltb_lt 0 Y') S') in E.
      assert (E2 := HH eq_refl eq_refl (SQ _ _ R1 R2 ltac:(lra))). unfold height in E2. lia.
    + exfalso. specialize (A2 eq_refl S). specialize (B3 eq_refl S'). lra.
    + exfalso. specialize (A3 eq_refl S). specialize (B2 eq_refl S'). lra.
    + rewrite !lat_z, B, B', (proj2 (Z.ltb_ge 0 Y)), (proj2 (Z.ltb_ge 0 Y')) in E by lia.
      assert (E2 := HH eq_refl eq_refl (SQ _ _ R1 R2 ltac:(lra))). unfold height in E2. lia.
Qed.

Lemma z_pole : forall Y, (Z.abs Y = 2 * n)%Z -> sqrt (1 - sky_z (IZR Y * h) ^ 2) = 0.
Proof.
  intros Y HY. rewrite lat_z. assert (B : belt Y = false) by (apply Z.leb_gt; lia). rewrite B.
  replace (height Y) with 0%Z by (unfold height; lia).
  replace (0 / IZR n) with 0 by (unfold Rdiv; ring).
  destruct (0 <? Y)%Z; (transitivity (sqrt 0); [f_equal; field|apply sqrt_0]).
Qed.

Lemma z_off_pole : forall Y, (Z.abs Y < 2 * n)%Z -> 0 < sqrt (1 - sky_z (IZR Y * h) ^ 2).
Proof.
  intros Y HY. apply sqrt_lt_R0.
  assert (-1 < sky_z (IZR Y * h) < 1); [|nra].
  destruct (z_range Y ltac:(lia)) as [A1 [A2 A3]].
  destruct (belt Y) eqn:B.
  - specialize (A1 eq_refl). lra.
  - assert (SG : (0 < Y \/ Y < 0)%Z) by (apply Z.leb_gt in B; lia). pose proof n_pos as N.
    assert (0 < IZR (height Y) / IZR n).
    { apply Rdiv_lt_0_compat; auto. apply IZR_lt. unfold height. lia. }
    pose proof (height_belt Y B ltac:(lia)) as R. rewrite lat_z, B. clear A1 A2 A3.
    set (r := IZR (height Y) / IZR n) in *. clearbody r.
    assert (0 < r ^ 2 < 1) by nra. destruct (0 <? Y)%Z; lra.
Qed.

Lemma sky_lattice : forall X Y X' Y', (Z.abs Y <= 2 * n)%Z -> (Z.abs Y' <= 2 * n)%Z ->
  (sky (IZR X * h) (IZR Y * h) = sky (IZR X' * h) (IZR Y' * h) <->
   Y = Y' /\ ((Z.abs Y = 2 * n)%Z \/
     exists m, (if belt Y then X' = X + 8 * n * m else turn X' Y = turn X Y + 8 * height Y * m)%Z)).
Proof.
  intros X Y X' Y' HY HY'. pose proof n_pos as N. pose proof h_pos as H. pose proof h_pi as HP.
  assert (T8 : forall m, 2 * PI * IZR m = IZR (8 * n * m) * h) by (intros; rewrite HP, !mult_IZR; ring).
  split.
  - intros E. unfold sky in E. pose proof (f_equal vx E) as E1. pose proof (f_equal vy E) as E2.
    pose proof (f_equal vz E) as E3. cbn [vx vy vz] in E1, E2, E3. clear E. apply z_inj in E3; auto. subst Y'. split; auto.
    destruct (Z.eq_dec (Z.abs Y) (2 * n)) as [P|P]; [left; auto|right].
    pose proof (z_off_pole Y ltac:(lia)) as SP.
    apply Rmult_eq_reg_l in E1; [|lra]. apply Rmult_eq_reg_l in E2; [|lra].
    symmetry in E1. symmetry in E2.
    destruct (same_angle_of _ _ E1 E2) as [m Hm]. exists m. rewrite T8 in Hm.
    destruct (belt Y) eqn:B.
    + rewrite !lat_phi_belt in Hm by auto. apply eq_IZR. rewrite plus_IZR.
      apply Rmult_eq_reg_r with h; lra.
    + assert (0 < height Y)%Z as HH by (unfold height; lia).
      rewrite !lat_phi_cap in Hm by auto. apply IZR_lt in HH.
      assert (E : IZR (turn X' Y) = IZR (turn X Y) + 8 * IZR (height Y) * IZR m).
      { apply Rmult_eq_reg_r with (IZR n / IZR (height Y) * h).
        - rewrite !mult_IZR in Hm. rewrite <- Rmult_assoc, Hm. field. lra.
        - assert (0 < IZR n / IZR (height Y)) by (apply Rdiv_lt_0_compat; auto). nra. }
      apply eq_IZR. rewrite plus_IZR, !mult_IZR. exact E.
  - intros [<- D]. unfold sky. destruct (Z.eq_dec (Z.abs Y) (2 * n)) as [P|P].
    { rewrite (z_pole Y P). f_equal; ring. }
    destruct D as [D|[m D]]; [contradiction|].
    assert (EP : sky_phi (IZR X' * h) (IZR Y * h) = sky_phi (IZR X * h) (IZR Y * h) + 2 * PI * IZR m).
    { rewrite T8. destruct (belt Y) eqn:B.
      - rewrite !lat_phi_belt by auto. rewrite D, plus_IZR. ring.
      - assert (0 < height Y)%Z as HH by (unfold height; lia).
        rewrite !lat_phi_cap by auto. apply IZR_lt in HH. rewrite D, plus_IZR, !mult_IZR. field. lra. }
    rewrite EP, cos_turn, sin_turn. reflexivity.
Qed.

End Lattice.

(** ** Which corners coincide *)

Local Open Scope Z_scope.

Definition is_corner (n u v : Z) : Prop :=
  exists k d a b, -1 <= d <= 1 /\ 0 <= a <= n /\ 0 <= b <= n /\ u = n * k + a /\ v = n * k + n * d + b.

Lemma corner_abs : forall n u v, 1 <= n -> is_corner n u v -> Z.abs (v - u) <= 2 * n.
Proof.
  intros n u v Hn (k & d & a & b & Hd & Ha & Hb & -> & ->).
  assert (D : d = -1 \/ d = 0 \/ d = 1) by lia. destruct D as [-> | [-> | ->]]; lia.
Qed.

(** Corners in the caps. *)
Lemma corner_north : forall n u v, 1 <= n -> is_corner n u v -> n < v - u ->
  exists k a b, 0 <= a < n /\ 0 < b <= n /\ a < b /\ u = n * k + a /\ v = n * k + n + b /\
    facet n (u + v - n) = k /\ height n (v - u) = n - b + a /\
    turn n (u + v - n) (v - u) = (2 * k + 1) * (n - b + a) + (a + b - n).
Proof.
  intros n u v Hn (k & d & a & b & Hd & Ha & Hb & -> & ->) HY.
  assert (d = 1). { assert (D : d = -1 \/ d = 0 \/ d = 1) by lia. destruct D as [-> | [-> | ->]]; lia. }
  subst d. exists k, a, b. split; [lia|]. split; [lia|]. split; [lia|]. split; [auto|]. split; [lia|].
  assert (F : facet n (n * k + a + (n * k + n * 1 + b) - n) = k).
  { unfold facet. symmetry. apply Z.div_unique with (a + b); [left; lia|]. ring. }
  split; [auto|]. split; [unfold height; lia|]. unfold turn. rewrite F. unfold height.
  replace (Z.abs (n * k + n * 1 + b - (n * k + a))) with (n + b - a) by lia. ring.
Qed.

Lemma corner_south : forall n u v, 1 <= n -> is_corner n u v -> n < u - v ->
  exists k a b, 0 < a <= n /\ 0 <= b < n /\ b < a /\ u = n * k + n + a /\ v = n * k + b /\
    facet n (u + v - n) = k /\ height n (v - u) = n - a + b /\
    turn n (u + v - n) (v - u) = (2 * k + 1) * (n - a + b) + (a + b - n).
Proof.
  intros n u v Hn (k & d & a & b & Hd & Ha & Hb & -> & ->) HY.
  assert (d = -1). { assert (D : d = -1 \/ d = 0 \/ d = 1) by lia. destruct D as [-> | [-> | ->]]; lia. }
  subst d. exists (k - 1), a, b. split; [lia|]. split; [lia|]. split; [lia|]. split; [lia|]. split; [lia|].
  assert (F : facet n (n * k + a + (n * k + n * -1 + b) - n) = k - 1).
  { unfold facet. symmetry. apply Z.div_unique with (a + b); [left; lia|]. ring. }
  split; [auto|]. split; [unfold height; lia|]. unfold turn. rewrite F. unfold height.
  replace (Z.abs (n * k + n * -1 + b - (n * k + a))) with (n + a - b) by lia. ring.
Qed.

Lemma three : forall c, -1 <= c <= 1 -> c = -1 \/ c = 0 \/ c = 1. Proof. intros; lia. Qed.

Lemma mult_small : forall n x y c, 0 <= x < n -> 0 <= y < n -> n * c = x - y -> c = 0 /\ x = y.
Proof. intros. assert (-1 < c < 1) by nia. assert (c = 0) by lia. subst. lia. Qed.

Lemma div_cases : forall n k x, 0 < n -> 0 <= x <= n -> (n | n * k + x) -> x = 0 \/ x = n.
Proof. intros n k x Hn Hx H. apply div_0_n; auto. apply div_shift with (n * k); auto. exists k; ring. Qed.

Lemma corners_meet : forall n u v u' v', 1 <= n -> is_corner n u v -> is_corner n u' v' ->
  let h := half_diag n in
  (sky (IZR (u + v - n) * h) (IZR (v - u) * h) = sky (IZR (u' + v' - n) * h) (IZR (v' - u') * h) <->
   exists m, glued n u v (u' + 4 * n * m) (v' + 4 * n * m)).
Proof.
  intros n u v u' v' Hn C C' h. unfold h.
  pose proof (corner_abs n u v Hn C) as A. pose proof (corner_abs n u' v' Hn C') as A'.
  rewrite (sky_lattice n Hn _ _ _ _ A A'). unfold belt. split.
  - intros [EY D]. destruct (Z.eq_dec (Z.abs (v - u)) (2 * n)) as [P|P].
    { (* poles *)
      clear D. assert (exists k k', (u = n * k /\ u' = n * k')) as (k & k' & E & E').
      { destruct (Z_lt_le_dec 0 (v - u)).
        - destruct (corner_north n u v Hn C ltac:(lia)) as (k & a & b & ? & ? & ? & E & E2 & _ & EH & _).
          destruct (corner_north n u' v' Hn C' ltac:(lia)) as (k' & a' & b' & ? & ? & ? & E' & E2' & _ & EH' & _).
          exists k, k'. unfold height in *. lia.
        - destruct (corner_south n u v Hn C ltac:(lia)) as (k & a & b & ? & ? & ? & E & E2 & _ & EH & _).
          destruct (corner_south n u' v' Hn C' ltac:(lia)) as (k' & a' & b' & ? & ? & ? & E' & E2' & _ & EH' & _).
          exists (k + 2), (k' + 2). unfold height in *. lia. }
      exists (- ((k' - k) / 4)). do 5 right. split; [lia|]. exists ((k' - k) mod 4).
      pose proof (Z.mod_pos_bound (k' - k) 4 ltac:(lia)). pose proof (Z_div_mod_eq_full (k' - k) 4) as ED.
      set (q := (k' - k) / 4) in *. set (r := (k' - k) mod 4) in *.
      split; [lia|]. assert (n * k' = n * k + 4 * n * q + n * r) by (replace k' with (k + 4 * q + r) by lia; ring).
      split; lia. }
    destruct D as [D|[m D]]; [contradiction|].
    destruct (Z.leb_spec (Z.abs (v - u)) n) as [B|B].
    { exists (- m). left. split; lia. }
    exists (- m).
    destruct (Z_lt_le_dec 0 (v - u)).
    + destruct (corner_north n u v Hn C ltac:(lia)) as (k & a & b & Ra & Rb & Rab & E & E2 & EF & EH & ET).
      destruct (corner_north n u' v' Hn C' ltac:(lia)) as (k' & a' & b' & Ra' & Rb' & Rab' & E' & E2' & EF' & EH' & ET').
      rewrite EY in D at 1. rewrite ET, ET', EH in D. rewrite <- EY in EH'.
      assert (HH : n - b' + a' = n - b + a) by lia. rewrite HH in D.
      assert (c : -1 <= k' - k - 4 * m <= 1) by nia.
      destruct (three _ c) as [c1|[c1|c1]].
      * assert (k' = k + 4 * m - 1) by lia. subst k'.
        do 2 right. left. assert (a = 0) by nia. split; [exists k; lia|]. split; [lia|]. split; nia.
      * assert (k' = k + 4 * m) by lia. subst k'. left. assert (a' + b' = a + b) by nia. split; nia.
      * assert (k' = k + 4 * m + 1) by lia. subst k'.
        right. left. assert (b = n) by nia. split; [exists (k + 2); lia|]. split; [lia|]. split; nia.
    + destruct (corner_south n u v Hn C ltac:(lia)) as (k & a & b & Ra & Rb & Rab & E & E2 & EF & EH & ET).
      destruct (corner_south n u' v' Hn C' ltac:(lia)) as (k' & a' & b' & Ra' & Rb' & Rab' & E' & E2' & EF' & EH' & ET').
      rewrite EY in D at 1. rewrite ET, ET', EH in D. rewrite <- EY in EH'.
      assert (HH : n - a' + b' = n - a + b) by lia. rewrite HH in D.
      assert (c : -1 <= k' - k - 4 * m <= 1) by nia.
      destruct (three _ c) as [c1|[c1|c1]].
      * assert (k' = k + 4 * m - 1) by lia. subst k'.
        do 4 right. left. assert (b = 0) by nia. split; [exists k; lia|]. split; [lia|]. split; nia.
      * assert (k' = k + 4 * m) by lia. subst k'. left. assert (a' + b' = a + b) by nia. split; nia.
      * assert (k' = k + 4 * m + 1) by lia. subst k'.
        do 3 right. left. assert (a = n) by nia. split; [exists (k + 2); lia|]. split; [lia|]. split; nia.
  - intros [m G]. split.
    { destruct G as [G|[G|[G|[G|[G|[_ (j & _ & G)]]]]]]; lia. }
    destruct (Z.eq_dec (Z.abs (v - u)) (2 * n)) as [P|P]; [left; auto|right].
    exists (- m).
    assert (EY : v - u = v' - u').
    { destruct G as [G|[G|[G|[G|[G|[_ (j & _ & G)]]]]]]; lia. }
    destruct (Z.leb_spec (Z.abs (v - u)) n) as [B|B].
    { destruct G as [G|[G|[G|[G|[G|[G _]]]]]]; lia. }
    destruct (Z_lt_le_dec 0 (v - u)).
    + destruct (corner_north n u v Hn C ltac:(lia)) as (k & a & b & Ra & Rb & Rab & E & E2 & EF & EH & ET).
      destruct (corner_north n u' v' Hn C' ltac:(lia)) as (k' & a' & b' & Ra' & Rb' & Rab' & E' & E2' & EF' & EH' & ET').
      rewrite EY at 1. rewrite ET, ET', EH. rewrite <- EY in EH'.
      assert (HH : n - b' + a' = n - b + a) by lia. rewrite HH.
      destruct G as [G|[G|[G|[G|[G|[G _]]]]]].
      * destruct (mult_small n a a' (k' - k + 4 * m) ltac:(lia) ltac:(lia) ltac:(lia)) as [X1 X2].
        replace k' with (k - 4 * m) by lia. replace b' with b by lia. subst a'. ring.
      * destruct G as (Dv & _ & G1 & G2). rewrite E2 in Dv.
        replace (n * k + n + b) with (n * (k + 1) + b) in Dv by ring.
        apply div_cases in Dv; try lia. assert (b = n) by lia. subst b.
        destruct (mult_small n 0 a' (k' - k - 1 + 4 * m) ltac:(lia) ltac:(lia) ltac:(lia)) as [X1 X2].
        replace k' with (k + 1 - 4 * m) by lia. subst a'. replace b' with (n - a) by lia. ring.
      * destruct G as (Dv & _ & G1 & G2). rewrite E in Dv.
        apply div_cases in Dv; try lia. assert (a = 0) by lia. subst a.
        assert (X : k' - k + 1 + 4 * m = 0 /\ n - b' = 0).
        { apply (mult_small n (n - b') 0); lia. } destruct X as [X1 X2].
        replace k' with (k - 1 - 4 * m) by lia. replace b' with n by lia. replace a' with (n - b) by lia. ring.
      * lia.
      * lia.
      * lia.
    + destruct (corner_south n u v Hn C ltac:(lia)) as (k & a & b & Ra & Rb & Rab & E & E2 & EF & EH & ET).
      destruct (corner_south n u' v' Hn C' ltac:(lia)) as (k' & a' & b' & Ra' & Rb' & Rab' & E' & E2' & EF' & EH' & ET').
      rewrite EY at 1. rewrite ET, ET', EH. rewrite <- EY in EH'.
      assert (HH : n - a' + b' = n - a + b) by lia. rewrite HH.
      destruct G as [G|[G|[G|[G|[G|[G _]]]]]].
      * destruct (mult_small n b b' (k' - k + 4 * m) ltac:(lia) ltac:(lia) ltac:(lia)) as [X1 X2].
        replace k' with (k - 4 * m) by lia. replace a' with a by lia. subst b'. ring.
      * lia.
      * lia.
      * destruct G as (Dv & _ & G1 & G2). rewrite E in Dv.
        replace (n * k + n + a) with (n * (k + 1) + a) in Dv by ring.
        apply div_cases in Dv; try lia. assert (a = n) by lia. subst a.
        destruct (mult_small n 0 b' (k' - k - 1 + 4 * m) ltac:(lia) ltac:(lia) ltac:(lia)) as [X1 X2].
        replace k' with (k + 1 - 4 * m) by lia. subst b'. replace a' with (n - b) by lia. ring.
      * destruct G as (Dv & _ & G1 & G2). rewrite E2 in Dv.
        apply div_cases in Dv; try lia. assert (b = 0) by lia. subst b.
        assert (X : k' - k + 1 + 4 * m = 0 /\ n - a' = 0).
        { apply (mult_small n (n - a') 0); lia. } destruct X as [X1 X2].
        replace k' with (k - 1 - 4 * m) by lia. replace a' with n by lia. replace b' with (n - a) by lia. ring.
      * lia.
Qed.
