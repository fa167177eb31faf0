(** * Grid resampling: the Fortran kernels *)

From Coq Require Import Reals ZArith List Bool Lra Lia Psatz.
From Flocq Require Import Core.Raux.
From Verif Require Import Base BaseP SpecGrid SpecRemap MGrids MRemap PGrids PRadial.
Import ListNotations.
Open Scope R_scope.

(** ** Sums over integer ranges *)

Definition Zs (a : Z) (m : nat) (h : Z -> R) : R := Rsum (map (fun t => h (a + Z.of_nat t)%Z) (seq 0 m)).

Lemma Zs_ext : forall a m h h', (forall t, (t < m)%nat -> h (a + Z.of_nat t)%Z = h' (a + Z.of_nat t)%Z) ->
  Zs a m h = Zs a m h'.
Proof. intros a m h h' H. unfold Zs. f_equal. apply map_ext_in. intros t Ht. apply in_seq in Ht. apply H. lia. Qed.

Lemma Zs_app : forall a m k h, Zs a (m + k) h = Zs a m h + Zs (a + Z.of_nat m) k h.
Proof.
  intros a m k h. unfold Zs. rewrite seq_app, map_app, Rsum_app. f_equal. rewrite Nat.add_0_l.
  replace (seq m k) with (map (fun t => (m + t)%nat) (seq 0 k)).
  - rewrite map_map. f_equal. apply map_ext. intros t. f_equal. lia.
  - clear. revert m. induction k as [|k IH]; intros m; [reflexivity|].
    cbn [seq map]. rewrite Nat.add_0_r. f_equal. rewrite <- (IH (S m)), <- seq_shift, map_map.
    apply map_ext. intros t. lia.
Qed.

Lemma Zs_zero : forall a m h, (forall z, (a <= z < a + Z.of_nat m)%Z -> h z = 0) -> Zs a m h = 0.
Proof.
  intros a m h H. unfold Zs. induction m as [|m IH]; [reflexivity|].
  rewrite seq_S, map_app, Rsum_app, IH by (intros; apply H; lia). cbn.
  rewrite H by lia. ring.
Qed.

Lemma Zs_extend : forall lo M a m h, (lo <= a)%Z -> (a + Z.of_nat m <= lo + Z.of_nat M)%Z ->
  (forall z, (z < a \/ a + Z.of_nat m <= z)%Z -> h z = 0) -> Zs lo M h = Zs a m h.
Proof.
  intros lo M a m h H1 H2 HZ.
  replace M with (Z.to_nat (a - lo) + (m + (M - m - Z.to_nat (a - lo))))%nat by lia.
  rewrite !Zs_app. rewrite (Zs_zero lo) by (intros; apply HZ; lia).
  replace (lo + Z.of_nat (Z.to_nat (a - lo)))%Z with a by lia.
  rewrite (Zs_zero (a + Z.of_nat m)) by (intros; apply HZ; lia). ring.
Qed.

Lemma Zs_window : forall a m b k h,
  (forall z, (z < a \/ a + Z.of_nat m <= z)%Z -> h z = 0) ->
  (forall z, (z < b \/ b + Z.of_nat k <= z)%Z -> h z = 0) -> Zs a m h = Zs b k h.
Proof.
  intros a m b k h H1 H2.
  rewrite <- (Zs_extend (Z.min a b) (m + k + Z.to_nat (Z.abs (a - b))) a m h) by (auto; lia).
  apply Zs_extend; auto; lia.
Qed.

Lemma Zs_upto : forall n h, Zs 0 n h = sum_upto n (fun i => h (Z.of_nat i)).
Proof. intros. reflexivity. Qed.

(** ** Accumulation *)

Definition wsum (g : Z -> R) (b : buffers) : R :=
  Rsum (map (fun pw => if (fst pw =? -1)%Z then 0 else snd pw * g (fst pw)) b).

Lemma accumulate_wsum : forall f1 oob b, accumulate f1 oob b = wsum (read f1 oob) b.
Proof.
  intros f1 oob b. unfold accumulate, wsum.
  enough (forall acc, fold_left (fun acc pw => if negb (fst pw =? -1)%Z then acc + snd pw * read f1 oob (fst pw) else acc) b acc
     = acc + Rsum (map (fun pw => if (fst pw =? -1)%Z then 0 else snd pw * read f1 oob (fst pw)) b)) as H.
  { rewrite H. ring. }
  induction b as [|[p w] b IH]; intros acc; cbn [fold_left map fst snd].
  - change (Rsum []) with 0. ring.
  - rewrite IH. change (Rsum (?x :: ?l)) with (x + Rsum l). destruct (p =? -1)%Z; cbn [negb]; ring.
Qed.

(** ** One pixel along one axis *)

Section OneAxis.
Variable a : axis.
Hypothesis H1 : 0 < dx1 a.
Hypothesis H2 : 0 < dx2 a.

Definition e1 (z : Z) : R := x1min a + dx1 a * IZR z.
Definition e2 (z : Z) : R := x2min a + dx2 a * IZR z.
Definition ovz (k z : Z) : R := overlap (e2 k) (e2 (k + 1)) (e1 z) (e1 (z + 1)).
Definition F (k z : Z) : R := ovz k z / dx2 a.

Lemma e1_mono : forall z z', (z <= z')%Z -> e1 z <= e1 z'.
Proof. intros z z' H. unfold e1. apply IZR_le in H. nra. Qed.
Lemma e1_step : forall z, e1 (z + 1) = e1 z + dx1 a.
Proof. intros z. unfold e1. rewrite plus_IZR. ring. Qed.
Lemma e2_step : forall z, e2 (z + 1) = e2 z + dx2 a.
Proof. intros z. unfold e2. rewrite plus_IZR. ring. Qed.

Lemma which_bounds : forall x, e1 (which_pix (x1min a) (dx1 a) x) <= x < e1 (which_pix (x1min a) (dx1 a) x + 1).
Proof.
  intros x. unfold which_pix, e1. rewrite plus_IZR.
  pose proof (Zfloor_lb ((x - x1min a) / dx1 a)). pose proof (Zfloor_ub ((x - x1min a) / dx1 a)).
  set (q := (x - x1min a) / dx1 a) in *. assert (E : x - x1min a = q * dx1 a) by (unfold q; field; lra).
  split; nra.
Qed.

Lemma which_mono : forall x y, x <= y -> (which_pix (x1min a) (dx1 a) x <= which_pix (x1min a) (dx1 a) y)%Z.
Proof.
  intros x y H. unfold which_pix. apply Zfloor_le. unfold Rdiv.
  apply Rmult_le_compat_r; [left; now apply Rinv_0_lt_compat|lra].
Qed.

Definition p1 (k : Z) := which_pix (x1min a) (dx1 a) (e2 k).
Definition p2 (k : Z) := which_pix (x1min a) (dx1 a) (e2 (k + 1)).

Lemma ovz_outside : forall k z, (z < p1 k \/ p2 k < z)%Z -> ovz k z = 0.
Proof.
  intros k z H. unfold ovz, overlap. pose proof (e2_step k). pose proof (e1_step z).
  destruct H as [H|H].
  - pose proof (which_bounds (e2 k)) as [B _]. fold (p1 k) in B.
    pose proof (e1_mono (z + 1) (p1 k) ltac:(lia)).
    rewrite Rmin_right, (Rmax_left (e2 k)), Rmax_left by lra. reflexivity.
  - pose proof (which_bounds (e2 (k + 1))) as [_ B]. fold (p2 k) in B.
    pose proof (e1_mono (p2 k + 1) z ltac:(lia)).
    rewrite Rmin_left, (Rmax_right (e2 k)), Rmax_left by lra. reflexivity.
Qed.

(** The advertised weight length is enough. *)
Lemma len_enough : forall k, (p1 k <= p2 k <= p1 k + get_remap_pix_len a - 1)%Z.
Proof.
  intros k. split; [apply which_mono; pose proof (e2_step k); lra|].
  unfold get_remap_pix_len, p1, p2, which_pix. rewrite e2_step.
  replace ((e2 k + dx2 a - x1min a) / dx1 a) with ((e2 k - x1min a) / dx1 a + dx2 a / dx1 a) by (field; lra).
  set (x := (e2 k - x1min a) / dx1 a). set (y := dx2 a / dx1 a).
  pose proof (Zfloor_ub x). pose proof (Zfloor_ub y).
  assert (Zfloor (x + y) < Zfloor x + Zfloor y + 2)%Z; [|lia].
  apply lt_IZR. rewrite !plus_IZR. pose proof (Zfloor_lb (x + y)). lra.
Qed.

Lemma pix_len_pos : (2 <= get_remap_pix_len a)%Z.
Proof.
  unfold get_remap_pix_len. assert (0 <= Zfloor (dx2 a / dx1 a))%Z; [|lia].
  apply Zfloor_lub. apply Rmult_le_pos; [lra|]. left. now apply Rinv_0_lt_compat.
Qed.

Definition bad (k : Z) : Prop := p1 k = (-1)%Z /\ p2 k = (-1)%Z.

Lemma bad_dec : forall k, {bad k} + {~ bad k}.
Proof.
  intros k. unfold bad. destruct (Z.eq_dec (p1 k) (-1)), (Z.eq_dec (p2 k) (-1)); try (left; tauto); right; tauto.
Qed.

(** Contribution of one entry. *)
Lemma several_entry : forall k i g,
  (let pw := entry_several a (e2 k) (e2 (k + 1)) (p1 k) i in
   if (fst pw =? -1)%Z then 0 else snd pw * g (fst pw))
  = (let z := (p1 k + Z.of_nat i)%Z in if ((0 <=? z) && (z <? grid1 a))%Z then F k z * g z else 0).
Proof.
  intros k i g. cbv zeta. set (z := (p1 k + Z.of_nat i)%Z). unfold entry_several. fold z.
  destruct ((0 <=? z) && (z <? grid1 a))%Z eqn:EB; [|reflexivity].
  apply andb_prop in EB. destruct EB as [EB _]. apply Z.leb_le in EB.
  fold (e1 z) (e1 (z + 1)). unfold F, ovz, overlap.
  assert (NZ : (z =? -1)%Z = false) by (apply Z.eqb_neq; lia).
  pose proof (e2_step k) as S2. pose proof (e1_step z) as S1.
  replace (e2 (k + 1) - e2 k) with (dx2 a) by lra.
  destruct (Rle_bool_spec (e1 z) (e2 k)) as [A|A]; destruct (Rle_bool_spec (e2 (k + 1)) (e1 (z + 1))) as [B|B]; cbn [andb].
  - cbn [fst snd]. rewrite NZ. rewrite Rmin_left, (Rmax_left (e2 k)), Rmax_right by lra.
    replace (e2 (k + 1) - e2 k) with (dx2 a) by lra. reflexivity.
  - rewrite (Rlt_bool_f (e2 k) (e1 z)) by lra. cbn [andb].
    destruct (Rlt_bool_spec (e2 k) (e1 (z + 1))) as [C|C]; cbn [andb].
    + rewrite Rlt_bool_t by lra. cbn [fst snd]. rewrite NZ.
      rewrite Rmin_right, (Rmax_left (e2 k)), Rmax_right by lra. reflexivity.
    + cbn [fst]. rewrite Rmin_right, (Rmax_left (e2 k)), Rmax_left by lra. cbn. unfold Rdiv. ring.
  - rewrite (Rlt_bool_t (e2 k) (e1 z)) by lra. cbn [andb].
    destruct (Rlt_bool_spec (e1 z) (e2 (k + 1))) as [C|C]; cbn [andb].
    + cbn [fst snd]. rewrite NZ. rewrite Rmin_left, (Rmax_right (e2 k)), Rmax_right by lra. reflexivity.
    + rewrite (Rlt_bool_f (e1 (z + 1))) by lra. cbn [fst].
      rewrite Rmin_left, (Rmax_right (e2 k)), Rmax_left by lra. cbn. unfold Rdiv. ring.
  - rewrite (Rlt_bool_t (e2 k) (e1 z)) by lra. cbn [andb]. rewrite (Rlt_bool_t (e1 (z + 1))) by lra.
    cbn [fst snd]. rewrite NZ. rewrite Rmin_right, (Rmax_right (e2 k)), Rmax_right by lra. reflexivity.
Qed.

Lemma inside_entry : forall k i g, p1 k = p2 k ->
  (let pw := entry_inside a (p1 k) i in if (fst pw =? -1)%Z then 0 else snd pw * g (fst pw))
  = (let z := (p1 k + Z.of_nat i)%Z in if ((0 <=? z) && (z <? grid1 a))%Z then F k z * g z else 0).
Proof.
  intros k i g HE. cbv zeta. set (z := (p1 k + Z.of_nat i)%Z). unfold entry_inside. fold z.
  destruct ((0 <=? z) && (z <? grid1 a))%Z eqn:EB; [|reflexivity].
  apply andb_prop in EB. destruct EB as [EB _]. apply Z.leb_le in EB.
  cbn [fst snd]. replace (z =? -1)%Z with false by (symmetry; apply Z.eqb_neq; lia).
  f_equal. destruct (Nat.eqb_spec i 0) as [E0|E0].
  - assert (z = p1 k) as -> by (unfold z; lia).
    pose proof (which_bounds (e2 k)) as [B1 _]. fold (p1 k) in B1.
    pose proof (which_bounds (e2 (k + 1))) as [_ B2]. fold (p2 k) in B2. rewrite <- HE in B2.
    unfold F, ovz, overlap. pose proof (e2_step k).
    rewrite Rmin_left, (Rmax_left (e2 k)), Rmax_right by lra.
    replace (e2 (k + 1) - e2 k) with (dx2 a) by lra. field. lra.
  - unfold F. rewrite ovz_outside by (unfold z; lia). unfold Rdiv. ring.
Qed.

(** The weights reproduce all overlap fractions, whatever the buffers held. *)
Lemma pixel_wsum : forall k b g, (0 <= grid1 a)%Z -> ~ bad k ->
  wsum g (remap_1d_grid2grid_pixel a k (Z.to_nat (get_remap_pix_len a)) b)
  = sum_upto (Z.to_nat (grid1 a)) (fun i => F k (Z.of_nat i) * g (Z.of_nat i)).
Proof.
  intros k b g Hg HB. unfold remap_1d_grid2grid_pixel. fold (e2 k) (e2 (k + 1)). fold (p1 k) (p2 k).
  set (L := Z.to_nat (get_remap_pix_len a)).
  assert (HL : Z.of_nat L = get_remap_pix_len a) by (unfold L; pose proof pix_len_pos; lia).
  set (h := fun z => if ((0 <=? z) && (z <? grid1 a))%Z then F k z * g z else 0).
  assert (KEY : Zs (p1 k) L h = sum_upto (Z.to_nat (grid1 a)) (fun i => F k (Z.of_nat i) * g (Z.of_nat i))).
  { rewrite (Zs_window (p1 k) L 0 (Z.to_nat (grid1 a)) h).
    - rewrite Zs_upto. unfold sum_upto. f_equal. apply map_ext_in. intros t Ht. apply in_seq in Ht. unfold h.
      replace (0 <=? Z.of_nat t)%Z with true by (symmetry; apply Z.leb_le; lia).
      replace (Z.of_nat t <? grid1 a)%Z with true by (symmetry; apply Z.ltb_lt; lia). reflexivity.
    - intros z Hz. unfold h. destruct ((0 <=? z) && (z <? grid1 a))%Z; [|reflexivity].
      unfold F. rewrite ovz_outside; [unfold Rdiv; ring|]. pose proof (len_enough k). lia.
    - intros z Hz. unfold h. destruct ((0 <=? z) && (z <? grid1 a))%Z eqn:EB; [|reflexivity].
      apply andb_prop in EB. destruct EB as [EB1 EB2]. apply Z.leb_le in EB1. apply Z.ltb_lt in EB2. lia. }
  destruct (Z.eqb_spec (p1 k) (p2 k)) as [E|E]; cbn [negb].
  - destruct (Z.eqb_spec (p1 k) (-1)) as [E'|E']; cbn [negb]; [exfalso; apply HB; split; congruence|].
    rewrite <- KEY. unfold wsum, Zs. rewrite map_map. f_equal. apply map_ext. intros i. exact (inside_entry k i g E).
  - rewrite <- KEY. unfold wsum, Zs. rewrite map_map. f_equal. apply map_ext. intros i. exact (several_entry k i g).
Qed.

Lemma pixel_bad : forall k n b, bad k -> remap_1d_grid2grid_pixel a k n b = b.
Proof.
  intros k n b [B1 B2]. unfold remap_1d_grid2grid_pixel. fold (e2 k) (e2 (k + 1)). fold (p1 k) (p2 k).
  rewrite B1, B2. reflexivity.
Qed.

(** Stored pixels are -1 or source cells. *)
Lemma pixel_range : forall k n b, ~ bad k ->
  forall pw, In pw (remap_1d_grid2grid_pixel a k n b) -> (fst pw = -1 \/ 0 <= fst pw < grid1 a)%Z.
Proof.
  intros k n b HB pw. unfold remap_1d_grid2grid_pixel. fold (e2 k) (e2 (k + 1)). fold (p1 k) (p2 k).
  assert (R : forall z, ((0 <=? z) && (z <? grid1 a))%Z = true -> (0 <= z < grid1 a)%Z).
  { intros z H. apply andb_prop in H. destruct H as [H H']. apply Z.leb_le in H. apply Z.ltb_lt in H'. lia. }
  destruct (Z.eqb_spec (p1 k) (p2 k)) as [E|E]; cbn [negb].
  - destruct (Z.eqb_spec (p1 k) (-1)) as [E'|E']; cbn [negb]; [exfalso; apply HB; split; congruence|].
    intros Hin. apply in_map_iff in Hin. destruct Hin as (i & <- & _). unfold entry_inside.
    destruct ((0 <=? p1 k + Z.of_nat i) && (p1 k + Z.of_nat i <? grid1 a))%Z eqn:EB; cbn [fst]; auto.
  - intros Hin. apply in_map_iff in Hin. destruct Hin as (i & <- & _). unfold entry_several.
    destruct ((0 <=? p1 k + Z.of_nat i) && (p1 k + Z.of_nat i <? grid1 a))%Z eqn:EB; cbn [fst]; auto.
    repeat match goal with |- context [if ?c then _ else _] => destruct c end; cbn [fst]; auto.
Qed.

Lemma bad_iff : forall k, bad k <-> x1min a - dx1 a <= e2 k /\ e2 (k + 1) < x1min a.
Proof.
  intros k. pose proof (which_bounds (e2 k)) as [A1 A2]. pose proof (which_bounds (e2 (k + 1))) as [B1 B2].
  fold (p1 k) in A1, A2. fold (p2 k) in B1, B2. pose proof (e2_step k).
  assert (E0 : e1 0 = x1min a) by (unfold e1; ring).
  assert (E1 : e1 (-1) = x1min a - dx1 a) by (unfold e1; ring).
  unfold bad. split.
  - intros [P1 P2]. rewrite P1 in A1. rewrite P2 in B2. change (-1 + 1)%Z with 0%Z in B2. lra.
  - intros [Q1 Q2].
    assert (-1 <= p1 k)%Z. { apply Z.nlt_ge. intros HC. pose proof (e1_mono (p1 k + 1) (-1) ltac:(lia)). lra. }
    assert (p2 k <= -1)%Z. { apply Z.nlt_ge. intros HC. pose proof (e1_mono 0 (p2 k) ltac:(lia)). lra. }
    pose proof (len_enough k). lia.
Qed.
End OneAxis.

(** ** Products of buffers *)

Lemma wsum_cons : forall g pw b, wsum g (pw :: b) = (if (fst pw =? -1)%Z then 0 else snd pw * g (fst pw)) + wsum g b.
Proof. reflexivity. Qed.

Lemma wsum_app : forall g b b', wsum g (b ++ b') = wsum g b + wsum g b'.
Proof. intros. unfold wsum. now rewrite map_app, Rsum_app. Qed.

Lemma combine_app_len : forall A B (a a' : list A) (b b' : list B), length a = length b ->
  combine (a ++ a') (b ++ b') = combine a b ++ combine a' b'.
Proof.
  intros A B a. induction a as [|x a IH]; intros a' [|y b] b' H; cbn in H; try lia; [reflexivity|].
  cbn [app combine]. now rewrite IH by lia.
Qed.

(** [pixel] entries are -1 or non-negative. *)
Definition clean (b : buffers) : Prop := forall pw, In pw b -> (fst pw = -1 \/ 0 <= fst pw)%Z.

Lemma wsum_2d : forall g yg xb yb, (0 <= yg)%Z -> clean xb -> clean yb ->
  wsum g (entries_2d yg xb yb) = wsum (fun xp => wsum (fun yp => g (yp + yg * xp)%Z) yb) xb.
Proof.
  intros g yg xb yb Hyg Hx Hy. unfold entries_2d, pix1dto2d.
  induction xb as [|[xp xw] xb IH]; [reflexivity|].
  cbn [map flat_map fst snd]. rewrite combine_app_len by (rewrite !map_length; reflexivity).
  rewrite wsum_app, IH by (intros pw H; apply Hx; now right). rewrite wsum_cons. f_equal. cbn [fst snd].
  assert (Hxp : (xp = -1 \/ 0 <= xp)%Z) by (apply (Hx (xp, xw)); now left).
  clear IH Hx. induction yb as [|[yp yw] yb IHy].
  - cbn. destruct (xp =? -1)%Z; [reflexivity|]. unfold wsum. cbn. ring.
  - cbn [map combine fst snd]. rewrite !wsum_cons. cbn [fst snd].
    rewrite IHy by (intros pw H; apply Hy; now right).
    assert (Hyp : (yp = -1 \/ 0 <= yp)%Z) by (apply (Hy (yp, yw)); now left).
    destruct (Z.eqb_spec xp (-1)) as [E1|E1]; cbn [negb andb].
    + change (-1 =? -1)%Z with true. cbn iota. ring.
    + destruct (Z.eqb_spec yp (-1)) as [E2|E2]; cbn [negb].
      * change (-1 =? -1)%Z with true. cbn iota. ring.
      * replace (yp + yg * xp =? -1)%Z with false by (symmetry; apply Z.eqb_neq; nia). ring.
Qed.

Lemma entries_3d_alt : forall yg zg xb yb zb g, (0 <= yg)%Z -> (0 <= zg)%Z -> clean xb -> clean yb -> clean zb ->
  wsum g (entries_3d yg zg xb yb zb)
  = wsum (fun xp => wsum (fun yp => wsum (fun zp => g (zp + zg * (yp + yg * xp))%Z) zb) yb) xb.
Proof.
  intros yg zg xb yb zb g Hyg Hzg Hx Hy Hz. unfold entries_3d, pix1dto3d.
  induction xb as [|[xp xw] xb IH]; [reflexivity|].
  cbn [map flat_map fst snd]. rewrite combine_app_len.
  2: { clear. induction yb as [|[yp yw] yb IH]; [reflexivity|]. cbn [map flat_map]. rewrite !app_length, IH, !map_length. reflexivity. }
  rewrite wsum_app, IH by (intros pw H; apply Hx; now right). rewrite wsum_cons. f_equal. cbn [fst snd].
  assert (Hxp : (xp = -1 \/ 0 <= xp)%Z) by (apply (Hx (xp, xw)); now left).
  clear IH Hx. induction yb as [|[yp yw] yb IHy].
  - cbn. destruct (xp =? -1)%Z; [reflexivity|]. unfold wsum. cbn. ring.
  - cbn [map flat_map fst snd]. rewrite combine_app_len by (rewrite !map_length; reflexivity).
    rewrite wsum_app, IHy by (intros pw H; apply Hy; now right). rewrite wsum_cons. cbn [fst snd].
    assert (Hyp : (yp = -1 \/ 0 <= yp)%Z) by (apply (Hy (yp, yw)); now left).
    assert (Q : wsum g (combine (map (fun zp => if negb (xp =? -1)%Z && negb (yp =? -1)%Z && negb (zp =? -1)%Z
        then (zp + zg * (yp + yg * xp))%Z else (-1)%Z) (map fst zb)) (map (fun zw => xw * yw * zw) (map snd zb)))
      = if (xp =? -1)%Z then 0 else if (yp =? -1)%Z then 0 else
        xw * (yw * wsum (fun zp => g (zp + zg * (yp + yg * xp))%Z) zb)).
    { clear IHy Hy. induction zb as [|[zp zw] zb IHz].
      - cbn. unfold wsum. cbn. destruct (xp =? -1)%Z; [reflexivity|]. destruct (yp =? -1)%Z; [reflexivity|]. ring.
      - cbn [map combine fst snd]. rewrite !wsum_cons. cbn [fst snd].
        rewrite IHz by (intros pw H; apply Hz; now right).
        assert (Hzp : (zp = -1 \/ 0 <= zp)%Z) by (apply (Hz (zp, zw)); now left).
        destruct (Z.eqb_spec xp (-1)) as [E1|E1]; cbn [negb andb].
        + change (-1 =? -1)%Z with true. cbn iota. ring.
        + destruct (Z.eqb_spec yp (-1)) as [E2|E2]; cbn [negb andb].
          * change (-1 =? -1)%Z with true. cbn iota. ring.
          * destruct (Z.eqb_spec zp (-1)) as [E3|E3]; cbn [negb].
            -- change (-1 =? -1)%Z with true. cbn iota. ring.
            -- replace (zp + zg * (yp + yg * xp) =? -1)%Z with false; [ring|].
               symmetry; apply Z.eqb_neq. assert (0 <= yp + yg * xp)%Z by nia. nia. }
    rewrite Q. destruct (xp =? -1)%Z; [ring|]. destruct (yp =? -1)%Z; ring.
Qed.
