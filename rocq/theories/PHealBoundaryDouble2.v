(** * Proofs about [MHealBoundaryDouble.v]: the order of the points and the corners *)

From Coq Require Import Reals ZArith List Bool Lia Lra Psatz.
From Flocq Require Import Core IEEE754.BinarySingleNaN.
From Verif Require Import Base BaseP Spec MHealpixIndex MHealpixBoundary PHealpixBoundary MHealpixFloat PHealpixFloat MIndexFloat SpecDouble MDouble PDouble PPiDouble PSumDouble MGridsDouble PGridsDouble TGridsDouble MRemapDouble PRemapDouble2 MHealCoordDouble PHealCoordDouble MHealRandomsDouble PHealRandomsDouble PHealRandomsDouble5 PHealRandomsDouble6 MHealBoundaryDouble PHealBoundaryDouble.
Import ListNotations.
Open Scope R_scope.

Section Corners.
Variables (n p : Z) (xp yp : double) (xc yc : R).
Hypotheses (Hn : (1 <= n <= 27397078)%Z) (Hp : legal_pix n p) (Fx : fin xp) (Fy : fin yp)
  (Ef : pix2xy_fl p n = Ok (val xp, val yp)) (Ee : pix2xy p n = Ok (xc, yc)).

Let dl := delta_d n.
Let ftl := fun x : double => dadd (dadd (dsub x xp) dl) yp.
Let ftr := fun x : double => dadd (dadd (dadd (opp_d x) xp) dl) yp.
Let fbl := fun x : double => dadd (dsub (dadd (opp_d x) xp) dl) yp.
Let fbr := fun x : double => dadd (dsub (dsub x xp) dl) yp.

(** The ordinates at the middle of the top and of the bottom. *)
Lemma tip_ok : forall x, fin x -> val x = val xp ->
  val (ftl x) = val (ftl xp) /\ val (ftr x) = val (ftl xp) /\ val (fbl x) = val (fbr xp) /\ val (fbr x) = val (fbr xp).
Proof.
  intros x F E. destruct (frame n p xp yp xc yc Hn Hp Ef Ee) as (B1 & _ & Dy & By & Fd & Ed & Bd). fold dl in Fd, Ed. pose proof u_tiny as U. pose proof (bpow_gt_0 radix2 (-29)) as P29. apply Rabs_le_inv in Ed, Dy, By.
  assert (Z : forall r, fin r -> val r = 0 -> val (dadd (dadd r dl) yp) = fl (fl (val dl) + val yp) /\ val (dadd (dsub r dl) yp) = fl (fl (- val dl) + val yp)).
  { intros r Fr Vr. destruct (add_near r dl Fr Fd) as (F1 & V1 & _); [rewrite Vr, Rplus_0_l; apply Rabs_le; lra|]. destruct (sub_near r dl Fr Fd) as (F2 & V2 & _); [rewrite Vr, Rminus_0_l; apply Rabs_le; lra|]. rewrite Vr, Rplus_0_l in V1. rewrite Vr, Rminus_0_l in V2.
    assert (D1 : fl (val dl) = val dl) by (apply fl_fmt, fmt_val). assert (D2 : fl (- val dl) = - val dl) by (rewrite fl_opp, D1; reflexivity).
    split; [destruct (add_near (dadd r dl) yp F1 Fy) as (_ & V & _); [rewrite V1, D1; apply Rabs_le; lra|]|destruct (add_near (dsub r dl) yp F2 Fy) as (_ & V & _); [rewrite V2, D2; apply Rabs_le; lra|]]; rewrite V; [rewrite V1|rewrite V2]; reflexivity. }
  assert (W : forall y, fin y -> val y = val xp -> fin (dsub y xp) /\ val (dsub y xp) = 0 /\ fin (dadd (opp_d y) xp) /\ val (dadd (opp_d y) xp) = 0).
  { intros y F' E'. assert (A0 : val y - val xp = 0) by lra. destruct (sub_near y xp F' Fx) as (F1 & V1 & _); [rewrite A0, Rabs_R0; lra|]. rewrite A0, (fl_fmt 0 fmt_0) in V1. destruct (flip_ok y xp F' Fx) as [F2 V2]; [rewrite A0, Rabs_R0; lra|]. split; [exact F1|]. split; [exact V1|]. split; [exact F2|]. rewrite V2, V1. ring. }
  destruct (W x F E) as (P1 & P2 & P3 & P4). destruct (W xp Fx eq_refl) as (Q1 & Q2 & _). unfold ftl, ftr, fbl, fbr.
  rewrite (proj1 (Z _ P1 P2)), (proj2 (Z _ P1 P2)), (proj1 (Z _ P3 P4)), (proj2 (Z _ P3 P4)), (proj1 (Z _ Q1 Q2)), (proj2 (Z _ Q1 Q2)). auto.
Qed.

Definition size1 (s : Z) : Z := Z.quot (Z.quot s 2) 2.
Definition size2 (s : Z) : Z := (Z.quot s 2 - Z.quot (Z.quot s 2) 2)%Z.
Definition size3 (s : Z) : Z := Z.quot (s - Z.quot s 2) 2.
Definition size4 (s : Z) : Z := (s - Z.quot s 2 - Z.quot (s - Z.quot s 2) 2)%Z.

Lemma sizes : forall s, (0 <= s)%Z -> (0 <= size1 s)%Z /\ (0 <= size2 s)%Z /\ (0 <= size3 s)%Z /\ (0 <= size4 s)%Z /\ (size1 s + size2 s = Z.quot s 2)%Z /\ (size3 s + size4 s = s - Z.quot s 2)%Z /\ (0 <= Z.quot s 2 <= s)%Z /\ ((8 <= s)%Z -> (2 <= size1 s)%Z /\ (2 <= size2 s)%Z /\ (2 <= size3 s)%Z /\ (2 <= size4 s)%Z).
Proof.
  intros s H. unfold size1, size2, size3, size4. pose proof (Z.quot_div_nonneg s 2 H ltac:(lia)) as Q1. assert (A : (0 <= s / 2)%Z) by (apply Z.div_pos; lia). assert (B : (s / 2 <= s)%Z) by (apply Z.div_le_upper_bound; lia). pose proof (Z.quot_div_nonneg (Z.quot s 2) 2 ltac:(lia) ltac:(lia)) as Q2. pose proof (Z.quot_div_nonneg (s - Z.quot s 2) 2 ltac:(lia) ltac:(lia)) as Q3. rewrite Q1 in *.
  pose proof (Z.div_mod s 2 ltac:(lia)). pose proof (Z.mod_pos_bound s 2 ltac:(lia)). pose proof (Z.div_mod (s / 2) 2 ltac:(lia)). pose proof (Z.mod_pos_bound (s / 2) 2 ltac:(lia)). pose proof (Z.div_mod (s - s / 2) 2 ltac:(lia)). pose proof (Z.mod_pos_bound (s - s / 2) 2 ltac:(lia)). lia.
Qed.

Lemma parts : forall s, (0 <= s <= 2 ^ 50)%Z -> exists l1 r1 l2 r2 : list double,
  linspace_d (dsub xp dl) xp (size1 s) = Ok l1 /\ linspace_d xp (dadd xp dl) (size2 s) = Ok r1 /\
  linspace_d (dsub xp dl) xp (size3 s) = Ok l2 /\ linspace_d xp (dadd xp dl) (size4 s) = Ok r2 /\
  boundary_d xp yp n s false = Ok ((l1 ++ r1) ++ rev (l2 ++ r2), (map ftl l1 ++ map ftr r1) ++ rev (map fbl l2 ++ map fbr r2)).
Proof.
  intros s H. destruct (sizes s ltac:(lia)) as (S1 & S2 & S3 & S4 & S5 & S6 & S7 & _).
  destruct (left_ok n p xp yp xc yc Hn Hp Fx Ef Ee (size1 s) ltac:(lia)) as (l1 & E1 & _). destruct (right_ok n p xp yp xc yc Hn Hp Fx Ef Ee (size2 s) ltac:(lia)) as (r1 & E2 & _).
  destruct (left_ok n p xp yp xc yc Hn Hp Fx Ef Ee (size3 s) ltac:(lia)) as (l2 & E3 & _). destruct (right_ok n p xp yp xc yc Hn Hp Fx Ef Ee (size4 s) ltac:(lia)) as (r2 & E4 & _).
  fold dl in E1, E2, E3, E4. exists l1, r1, l2, r2. do 4 (split; [assumption|]). unfold boundary_d, boundary_top_d, boundary_bot_d, top_left_d, top_right_d, bot_left_d, bot_right_d. fold dl.
  unfold size1, size2, size3, size4 in *. rewrite E1. cbn [bind]. rewrite E2. cbn [bind]. rewrite E3. cbn [bind]. rewrite E4. reflexivity.
Qed.

Lemma boundary_rev : forall s, (0 <= s <= 2 ^ 50)%Z -> forall xs ys, boundary_d xp yp n s false = Ok (xs, ys) -> boundary_d xp yp n s true = Ok (rev xs, rev ys).
Proof.
  intros s H xs ys E. unfold boundary_d in *. destruct (boundary_top_d xp yp n _ false) as [t|]; [|discriminate E]. cbn [bind] in *. destruct (boundary_bot_d xp yp n _ true) as [b|]; [|discriminate E]. cbn [bind] in *. apply Ok_inj in E. unfold rev_if_d in *. injection E as <- <-. reflexivity.
Qed.

Definition climbs (l : list double) : Prop := forall i j, (i <= j < length l)%nat -> val (nth i l dzero) <= val (nth j l dzero).

Lemma climbs_app : forall a b c, climbs a -> climbs b -> (forall i, (i < length a)%nat -> val (nth i a dzero) <= c) -> (forall i, (i < length b)%nat -> c <= val (nth i b dzero)) -> climbs (a ++ b).
Proof.
  intros a b c Ha Hb La Lb i j Hij. rewrite app_length in Hij. destruct (Nat.lt_ge_cases j (length a)) as [C|C]; [rewrite !app_nth1 by lia; apply Ha; lia|]. rewrite (app_nth2 a b dzero C). destruct (Nat.lt_ge_cases i (length a)) as [D|D]; [rewrite app_nth1 by lia; apply Rle_trans with c; [apply La; exact D|apply Lb; lia]|rewrite app_nth2 by lia; apply Hb; lia].
Qed.

Lemma half_climbs : forall s t l r, (0 <= s <= 2 ^ 50)%Z -> (0 <= t <= 2 ^ 50)%Z -> linspace_d (dsub xp dl) xp s = Ok l -> linspace_d xp (dadd xp dl) t = Ok r -> length l = Z.to_nat s /\ length r = Z.to_nat t /\ climbs (l ++ r).
Proof.
  intros s t l r Hs Ht El Er. destruct (left_ok n p xp yp xc yc Hn Hp Fx Ef Ee s Hs) as (l' & E1 & L1 & _ & O1 & B1 & _). destruct (right_ok n p xp yp xc yc Hn Hp Fx Ef Ee t Ht) as (r' & E2 & L2 & _ & O2 & B2 & _).
  fold dl in E1, E2. rewrite El in E1. rewrite Er in E2. apply Ok_inj in E1, E2. subst l' r'. split; [exact L1|]. split; [exact L2|]. apply climbs_app with (val xp).
  - intros i j H. rewrite L1 in H. apply O1, H.
  - intros i j H. rewrite L2 in H. apply O2, H.
  - intros i H. rewrite L1 in H. apply B1, H.
  - intros i H. rewrite L2 in H. apply B2, H.
Qed.

Lemma order_ok : forall s xs ys, (0 <= s <= 2 ^ 50)%Z -> boundary_d xp yp n s false = Ok (xs, ys) ->
  length xs = Z.to_nat s /\
  (forall i j, (i <= j < Z.to_nat (Z.quot s 2))%nat -> val (nth i xs dzero) <= val (nth j xs dzero)) /\
  (forall i j, (Z.to_nat (Z.quot s 2) <= i <= j)%nat -> (j < length xs)%nat -> val (nth j xs dzero) <= val (nth i xs dzero)).
Proof.
  intros s xs ys Hs E. destruct (parts s Hs) as (l1 & r1 & l2 & r2 & E1 & E2 & E3 & E4 & E5). rewrite E in E5. apply Ok_inj in E5. injection E5 as -> _. destruct (sizes s ltac:(lia)) as (S1 & S2 & S3 & S4 & S5 & S6 & S7 & _).
  destruct (half_climbs (size1 s) (size2 s) l1 r1 ltac:(lia) ltac:(lia) E1 E2) as (M1 & M2 & C1). destruct (half_climbs (size3 s) (size4 s) l2 r2 ltac:(lia) ltac:(lia) E3 E4) as (M3 & M4 & C2).
  assert (T : length (l1 ++ r1) = Z.to_nat (Z.quot s 2)) by (rewrite app_length; lia). assert (B : length (l2 ++ r2) = Z.to_nat (s - Z.quot s 2)) by (rewrite app_length; lia). set (t := l1 ++ r1) in *. set (b := l2 ++ r2) in *.
  split; [assert (LX : length (t ++ rev b) = Z.to_nat s) by (rewrite app_length, rev_length, T, B; lia); exact LX|]. split.
  - intros i j H. assert (X : forall k, (k < length t)%nat -> nth k (t ++ rev b) dzero = nth k t dzero) by (intros k Hk; apply app_nth1; exact Hk). assert (Hi : (i < length t)%nat) by (rewrite T; lia). assert (Hj : (i <= j < length t)%nat) by (rewrite T; lia).
    exact (eq_ind_r (fun z => val z <= _) (eq_ind_r (fun z => _ <= val z) (C1 i j Hj) (X j (proj2 Hj))) (X i Hi)).
  - intros i j H Hj. assert (X : forall k, (length t <= k < length t + length b)%nat -> nth k (t ++ rev b) dzero = nth (length b - S (k - length t)) b dzero) by (intros k Hk; rewrite app_nth2 by lia; apply rev_nth; lia).
    assert (LX : length (t ++ rev b) = (length t + length b)%nat) by (rewrite app_length, rev_length; reflexivity). assert (Kj : (j < length t + length b)%nat) by (rewrite <- LX; exact Hj).
    assert (Ki : (length t <= i < length t + length b)%nat) by (rewrite T; rewrite T in Kj; lia). assert (Kj' : (length t <= j < length t + length b)%nat) by (rewrite T; rewrite T in Kj; lia).
    assert (Kc : (length b - S (j - length t) <= length b - S (i - length t) < length b)%nat) by (rewrite T; rewrite T in Kj, Ki; lia).
    exact (eq_ind_r (fun z => val z <= _) (eq_ind_r (fun z => _ <= val z) (C2 _ _ Kc) (X i Ki)) (X j Kj')).
Qed.

Lemma corners_ok : forall s xs ys, (8 <= s <= 2 ^ 50)%Z -> boundary_d xp yp n s false = Ok (xs, ys) ->
  let a := Z.to_nat (size1 s) in let b := Z.to_nat (Z.quot s 2) in let c := Z.to_nat (Z.quot s 2 + size4 s) in
  (2 <= a)%nat /\ (a + 2 <= b)%nat /\ (b + 2 <= c)%nat /\ (c + 2 <= length xs)%nat /\
  val (nth 0 xs dzero) = val (dsub xp dl) /\ val (nth (length xs - 1) xs dzero) = val (dsub xp dl) /\
  val (nth (a - 1) xs dzero) = val xp /\ val (nth a xs dzero) = val xp /\
  val (nth (b - 1) xs dzero) = val (dadd xp dl) /\ val (nth b xs dzero) = val (dadd xp dl) /\
  val (nth (c - 1) xs dzero) = val xp /\ val (nth c xs dzero) = val xp /\
  val (nth (a - 1) ys dzero) = val (ftl xp) /\ val (nth a ys dzero) = val (ftl xp) /\ val (nth (c - 1) ys dzero) = val (fbr xp) /\ val (nth c ys dzero) = val (fbr xp).
Proof.
  intros s xs ys Hs E a b c. destruct (parts s ltac:(lia)) as (l1 & r1 & l2 & r2 & E1 & E2 & E3 & E4 & E5). rewrite E in E5. apply Ok_inj in E5. injection E5 as -> ->. destruct (sizes s ltac:(lia)) as (S1 & S2 & S3 & S4 & S5 & S6 & S7 & S8). specialize (S8 ltac:(lia)).
  destruct (left_ok n p xp yp xc yc Hn Hp Fx Ef Ee (size1 s) ltac:(lia)) as (l1' & G1 & L1 & I1 & _ & _ & A1 & Z1). destruct (right_ok n p xp yp xc yc Hn Hp Fx Ef Ee (size2 s) ltac:(lia)) as (r1' & G2 & L2 & I2 & _ & _ & A2 & Z2).
  destruct (left_ok n p xp yp xc yc Hn Hp Fx Ef Ee (size3 s) ltac:(lia)) as (l2' & G3 & L3 & I3 & _ & _ & A3 & Z3). destruct (right_ok n p xp yp xc yc Hn Hp Fx Ef Ee (size4 s) ltac:(lia)) as (r2' & G4 & L4 & I4 & _ & _ & A4 & Z4).
  fold dl in G1, G2, G3, G4, A1, A3, Z2, Z4. rewrite E1 in G1. rewrite E2 in G2. rewrite E3 in G3. rewrite E4 in G4. apply Ok_inj in G1, G2, G3, G4. subst l1' r1' l2' r2'.
  specialize (A1 ltac:(lia)). specialize (A2 ltac:(lia)). specialize (A3 ltac:(lia)). specialize (A4 ltac:(lia)). specialize (Z1 ltac:(lia)). specialize (Z2 ltac:(lia)). specialize (Z3 ltac:(lia)). specialize (Z4 ltac:(lia)).
  destruct (I2 0%nat ltac:(lia)) as (F2 & _ & _). destruct (I4 0%nat ltac:(lia)) as (F4 & _ & _). destruct (tip_ok (nth 0 r1 dzero) F2 A2) as (_ & K2 & _ & _). destruct (tip_ok (nth 0 r2 dzero) F4 A4) as (_ & _ & _ & K4). destruct (tip_ok xp Fx eq_refl) as (_ & _ & K3 & _).
  assert (N1 : length l1 = a) by exact L1. assert (N2 : length r1 = (b - a)%nat) by (rewrite L2; unfold a, b; lia). assert (N4 : length r2 = (c - b)%nat) by (rewrite L4; unfold b, c; lia). set (e := Z.to_nat (size3 s)) in *.
  assert (Ha : (2 <= a)%nat) by (unfold a; lia). assert (Hb : (a + 2 <= b)%nat) by (unfold a, b; lia). assert (Hc : (b + 2 <= c)%nat) by (unfold c, b; lia). assert (He : (2 <= e)%nat) by (unfold e; lia).
  replace (Z.to_nat (size1 s)) with a in * by reflexivity. replace (Z.to_nat (size2 s)) with (b - a)%nat in * by (unfold a, b; lia). replace (Z.to_nat (size4 s)) with (c - b)%nat in * by (unfold b, c; lia). clearbody a b c e. clear I1 I2 I3 I4.
  assert (LT : length (l1 ++ r1) = b) by (rewrite app_length; lia). assert (LB : length (l2 ++ r2) = (e + c - b)%nat) by (rewrite app_length; lia).
  assert (LT' : length (map ftl l1 ++ map ftr r1) = b) by (rewrite app_length, !map_length; lia). assert (LB' : length (map fbl l2 ++ map fbr r2) = (e + c - b)%nat) by (rewrite app_length, !map_length; lia).
  assert (LX : length ((l1 ++ r1) ++ rev (l2 ++ r2)) = (c + e)%nat) by (rewrite app_length, rev_length; lia).
  assert (X1 : forall i, (i < a)%nat -> nth i ((l1 ++ r1) ++ rev (l2 ++ r2)) dzero = nth i l1 dzero) by (intros i Hi; rewrite !app_nth1 by lia; reflexivity).
  assert (X2 : forall i, (i < b - a)%nat -> nth (a + i) ((l1 ++ r1) ++ rev (l2 ++ r2)) dzero = nth i r1 dzero) by (intros i Hi; rewrite app_nth1 by lia; rewrite app_nth2 by lia; f_equal; lia).
  assert (X3 : forall i, (i < c - b)%nat -> nth (b + i) ((l1 ++ r1) ++ rev (l2 ++ r2)) dzero = nth (c - b - 1 - i) r2 dzero) by (intros i Hi; rewrite app_nth2 by lia; rewrite rev_nth by lia; rewrite app_nth2 by lia; f_equal; lia).
  assert (X4 : forall i, (i < e)%nat -> nth (c + i) ((l1 ++ r1) ++ rev (l2 ++ r2)) dzero = nth (e - 1 - i) l2 dzero) by (intros i Hi; rewrite app_nth2 by lia; rewrite rev_nth by lia; rewrite app_nth1 by lia; f_equal; lia).
  assert (Y1 : forall i, (i < a)%nat -> nth i ((map ftl l1 ++ map ftr r1) ++ rev (map fbl l2 ++ map fbr r2)) dzero = ftl (nth i l1 dzero)) by (intros i Hi; rewrite !app_nth1 by (rewrite ?map_length; lia); apply nth_map_lt; lia).
  assert (Y2 : forall i, (i < b - a)%nat -> nth (a + i) ((map ftl l1 ++ map ftr r1) ++ rev (map fbl l2 ++ map fbr r2)) dzero = ftr (nth i r1 dzero)) by (intros i Hi; rewrite app_nth1 by lia; rewrite app_nth2 by (rewrite map_length; lia); rewrite map_length; replace (a + i - length l1)%nat with i by lia; apply nth_map_lt; lia).
  assert (Y3 : forall i, (i < c - b)%nat -> nth (b + i) ((map ftl l1 ++ map ftr r1) ++ rev (map fbl l2 ++ map fbr r2)) dzero = fbr (nth (c - b - 1 - i) r2 dzero)) by (intros i Hi; rewrite app_nth2 by lia; rewrite rev_nth by lia; rewrite app_nth2 by (rewrite map_length; lia); rewrite map_length; match goal with |- nth ?k _ _ = _ => replace k with (c - b - 1 - i)%nat by lia end; apply nth_map_lt; lia).
  assert (Y4 : forall i, (i < e)%nat -> nth (c + i) ((map ftl l1 ++ map ftr r1) ++ rev (map fbl l2 ++ map fbr r2)) dzero = fbl (nth (e - 1 - i) l2 dzero)) by (intros i Hi; rewrite app_nth2 by lia; rewrite rev_nth by lia; rewrite app_nth1 by (rewrite map_length; lia); match goal with |- nth ?k _ _ = _ => replace k with (e - 1 - i)%nat by lia end; apply nth_map_lt; lia).
  pose proof (Y2 0%nat ltac:(lia)) as P2. pose proof (Y4 0%nat ltac:(lia)) as P4. pose proof (X2 0%nat ltac:(lia)) as Q2. pose proof (X3 0%nat ltac:(lia)) as Q3. pose proof (X4 0%nat ltac:(lia)) as Q4. rewrite Nat.add_0_r in P2, P4, Q2, Q3, Q4. rewrite Nat.sub_0_r in P4, Q3, Q4.
  pose proof (X1 0%nat ltac:(lia)) as R1. pose proof (X1 (a - 1)%nat ltac:(lia)) as R2. pose proof (Y1 (a - 1)%nat ltac:(lia)) as R3. pose proof (X2 (b - a - 1)%nat ltac:(lia)) as R4. replace (a + (b - a - 1))%nat with (b - 1)%nat in R4 by lia.
  pose proof (X3 (c - b - 1)%nat ltac:(lia)) as R5. pose proof (Y3 (c - b - 1)%nat ltac:(lia)) as R6. replace (b + (c - b - 1))%nat with (c - 1)%nat in R5, R6 by lia. rewrite Nat.sub_diag in R5, R6. pose proof (X4 (e - 1)%nat ltac:(lia)) as R7. replace (c + (e - 1))%nat with (c + e - 1)%nat in R7 by lia. rewrite Nat.sub_diag in R7.
  do 3 (split; [lia|]). split; [rewrite LX; lia|]. rewrite LX.
  split; [exact (eq_trans (f_equal val R1) A1)|]. split; [exact (eq_trans (f_equal val R7) A3)|]. split; [exact (f_equal val (eq_trans R2 Z1))|]. split; [exact (eq_trans (f_equal val Q2) A2)|]. split; [exact (f_equal val (eq_trans R4 Z2))|]. split; [exact (f_equal val (eq_trans Q3 Z4))|]. split; [exact (eq_trans (f_equal val R5) A4)|]. split; [exact (f_equal val (eq_trans Q4 Z3))|].
  split; [exact (f_equal val (eq_trans R3 (f_equal ftl Z1)))|]. split; [exact (eq_trans (f_equal val P2) K2)|]. split; [exact (eq_trans (f_equal val R6) K4)|]. exact (eq_trans (f_equal val (eq_trans P4 (f_equal fbl Z3))) K3).
Qed.
(** The corners of the true diamond. *)
Lemma tips_near : Rabs (val (ftl xp) - (yc + half_diag n)) <= 62 * u /\ Rabs (val (fbr xp) - (yc - half_diag n)) <= 62 * u.
Proof.
  destruct (frame n p xp yp xc yc Hn Hp Ef Ee) as (B1 & _ & Dy & By & Fd & Ed & Bd). fold dl in Fd, Ed. pose proof u_tiny as U. pose proof (bpow_gt_0 radix2 (-29)) as P29. assert (Bd' : 0 < half_diag n <= 0.79) by lra.
  destruct (sub_near xp xp Fx Fx) as (F & V & _); [rewrite Rminus_diag_eq, Rabs_R0 by reflexivity; lra|]. rewrite Rminus_diag_eq, (fl_fmt 0 fmt_0) in V by reflexivity.
  assert (Z : Rabs (val (dsub xp xp) - 0) <= 23 * u) by (rewrite V, Rminus_0_r, Rabs_R0; lra). assert (Z' : Rabs 0 <= half_diag n) by (rewrite Rabs_R0; lra).
  destruct (up_sum _ dl yp 0 _ yc F Fd Fy Z Z' Bd' Ed Dy By) as [_ E1]. destruct (dn_sum _ dl yp 0 _ yc F Fd Fy Z Z' Bd' Ed Dy By) as [_ E2]. unfold ftl, fbr.
  replace (yc + half_diag n) with (0 + half_diag n + yc) by ring. replace (yc - half_diag n) with (0 - half_diag n + yc) by ring. split; assumption.
Qed.

Lemma sides_x : Rabs (val (dsub xp dl) - (xc - half_diag n)) <= 42 * u /\ Rabs (val xp - xc) <= 42 * u /\ Rabs (val (dadd xp dl) - (xc + half_diag n)) <= 42 * u.
Proof.
  destruct (frame n p xp yp xc yc Hn Hp Ef Ee) as (_ & Dx & _). destruct (ends_ok n p xp yp xc yc Hn Hp Fx Ef Ee) as (_ & _ & E1 & E2). fold dl in E1, E2. pose proof u_tiny as U. apply Rabs_le_inv in Dx, E1, E2. repeat split; apply Rabs_le; lra.
Qed.
End Corners.

Lemma linspace_negative : forall a b s, (s < 0)%Z -> linspace_d a b s = Err ValueError.
Proof. intros a b s H. unfold linspace_d. replace (s <? 0)%Z with true by (symmetry; apply Z.ltb_lt; exact H). reflexivity. Qed.

Lemma outline_negative : forall xp yp n s b, (s < 0)%Z -> boundary_d xp yp n s b = Err ValueError.
Proof.
  intros xp yp n s b H. unfold boundary_d, boundary_top_d, boundary_bot_d, top_left_d, top_right_d, bot_left_d, bot_right_d. cbv zeta.
  assert (C : (Z.quot s 2 < 0)%Z \/ (Z.quot s 2 = 0)%Z /\ s = (-1)%Z).
  { Z.to_euclidean_division_equations; lia. }
  destruct C as [C|[C1 C2]].
  - set (m := Z.quot s 2) in *.
    assert (C' : (Z.quot m 2 < 0)%Z \/ (Z.quot m 2 = 0)%Z /\ m = (-1)%Z).
    { clearbody m. Z.to_euclidean_division_equations; lia. }
    destruct C' as [C'|[C1 C2]].
    + rewrite (linspace_negative _ _ _ C'). reflexivity.
    + rewrite C1, C2. reflexivity.
  - rewrite C2. reflexivity.
Qed.
