(** * [MOneDDouble.v]: one new bin against exact arithmetic *)

From Coq Require Import Reals ZArith List Bool Lia Lra Psatz Permutation.
From Flocq Require Import Core IEEE754.BinarySingleNaN.
From Verif Require Import Base BaseP SpecGrid SpecRemap MGrids MUtils PGrids PPolarCoords MOneD POneD POneD2 MHealpixFloat PHealpixFloat SpecDouble MDouble PDouble
  MGridsDouble PGridsDouble MSumDouble PSumDouble PDense PDenseDouble PRemap2 PRadial SpecRebinDouble MOneDDouble PRebinDouble PRebinDouble2.
Import ListNotations.
Open Scope R_scope.

Lemma val_0 : forall x, fin x -> val x = 0 -> exists s, x = B754_zero s.
Proof.
  intros x F V. destruct x as [s|s| |s m e B]; try discriminate; [now exists s|]. exfalso.
  unfold val, B2R in V. apply eq_0_F2R in V. destruct s; discriminate.
Qed.

Lemma nan_of_zeros : forall a b x y, fin a -> val a = 0 -> fin b -> val b = 0 -> fin x -> fin y ->
  ddiv (dadd (dmul a x) (dmul b y)) (dadd a b) = dnan.
Proof.
  intros a b x y Fa Va Fb Vb Fx Fy. destruct (val_0 a Fa Va) as (s & ->). destruct (val_0 b Fb Vb) as (t & ->).
  destruct x as [s1|s1| |s1 m1 e1 B1]; try discriminate; destruct y as [s2|s2| |s2 m2 e2 B2]; try discriminate;
    destruct s, t, s1, s2; reflexivity.
Qed.

(** Addition of two numbers as a sum. *)
Definition pair_order (n : nat) : tree := match n with 2%nat => Plus (Entry 0) (Entry 1) | _ => (fix go n := match n with O => Zero | S n => Plus (go n) (Entry n) end) n end.

Lemma pair_order_ok : order_ok pair_order.
Proof.
  assert (G : forall n, Permutation (leaves ((fix go n := match n with O => Zero | S n => Plus (go n) (Entry n) end) n)) (seq 0 n)).
  { intros n. induction n as [|n IH]; [constructor|]. cbn [leaves]. rewrite seq_S. now apply Permutation_app_tail. }
  intros [|[|[|n]]]; [exact (G 0%nat)|exact (G 1%nat)|apply Permutation_refl|exact (G (S (S (S n))))].
Qed.

Lemma wmean_d_tab : forall o m ws ds, length ws = m -> length ds = m ->
  wmean_d o ws ds = ddiv (sum_d o (tab m (fun i => dmul (nth i ws dzero) (nth i ds dzero)))) (sum_d o (tab m (fun i => nth i ws dzero))).
Proof.
  intros o m ws ds Hw Hd. unfold wmean_d. f_equal; f_equal.
  - apply (list_ext double _ _ dzero); rewrite map2_length, ?tab_length; [lia|]. intros i Hi. rewrite tab_nth by lia. apply nth_map2; lia.
  - apply (list_ext double _ _ dzero); rewrite ?tab_length; [lia|]. intros i Hi. rewrite tab_nth by lia. reflexivity.
Qed.

Lemma wmean_tab : forall m ws ds, length ws = m -> length ds = m ->
  wmean ws ds = sum_upto m (fun i => nth i ws 0 * nth i ds 0) / sum_upto m (fun i => nth i ws 0).
Proof.
  intros m ws ds Hw Hd. unfold wmean. rewrite <- !Rsum_tab. f_equal; [|f_equal]; f_equal.
  - apply (list_ext R _ _ 0); rewrite map2_length, ?tab_length; [lia|]. intros i Hi. rewrite tab_nth by lia. apply nth_map2; lia.
  - apply (list_ext R _ _ 0); rewrite ?tab_length; [lia|]. intros i Hi. rewrite tab_nth by lia. reflexivity.
Qed.

Lemma Rsum_as_tab : forall m ws, length ws = m -> Rsum ws = sum_upto m (fun i => nth i ws 0).
Proof.
  intros m ws Hw. rewrite <- Rsum_tab. f_equal. apply (list_ext R _ _ 0); rewrite ?tab_length; [lia|]. intros i Hi. rewrite tab_nth by lia. reflexivity.
Qed.

Lemma Forall2_nth_near : forall ws WS, Forall2 near ws WS -> forall i, (i < length ws)%nat -> near (nth i ws dzero) (nth i WS 0).
Proof. intros ws WS H. induction H as [|a b l l' N H IH]; intros i Hi; [cbn in Hi; lia|]. destruct i as [|i]; [exact N|]. apply IH. cbn in Hi. lia. Qed.

Lemma near_ones : forall k, Forall2 near (repeat done k) (repeat 1 k).
Proof. induction k as [|k IH]; [constructor|]. constructor; [apply near_one|exact IH]. Qed.

Definition pick_d (d : list double) (idx : list nat) : list double := map (fun i => nth i d dzero) idx.

Section OneBin.
Variables (o : nat -> tree) (e : list double) (n : nat) (a b : double).
Hypothesis O : order_ok o.
Hypothesis Me : forall x, In x e -> tame x.
Hypothesis Ma : tame a.
Hypothesis Mb : tame b.
Hypothesis HI : increasing (map val e).
Hypothesis He : length e = S n.
Hypothesis Hn : (1 <= n)%nat.
Hypothesis Hab : val a <= val b.

Let E := map val e.
Let real := fun y : list R => rebin_1d_single_bin E y (val a) (val b).
Let dbl := fun d : list double => rebin_1d_single_bin_d o e d a b.

Lemma Fe : all_fin e.
Proof. intros x Hx. apply Me, Hx. Qed.

Lemma HE : length E = S n.
Proof. unfold E. now rewrite map_length. Qed.

Lemma mod_nth : forall i, (i < S n)%nat -> tame (nth i e dzero).
Proof. intros i Hi. apply Me, nth_In. now rewrite He. Qed.

Definition mean_case : Prop := exists o' ws WS idx, order_ok o' /\ Forall2 near ws WS /\ (1 <= length ws <= S n)%nat /\ length idx = length ws /\ 0 < Rsum WS /\
  (forall i, In i idx -> (i < n)%nat) /\
  (forall y, length y = n -> real y = Ok (Some (wmean WS (pick y idx)))) /\
  (forall d, length d = n -> dbl d = Ok (wmean_d o' ws (pick_d d idx))).

Lemma single_cases :
  ((forall y, length y = n -> real y = Ok None) /\ forall d, length d = n -> all_fin d -> dbl d = Ok dnan) \/
  (exists k, (k < n)%nat /\ (forall y, length y = n -> real y = Ok (Some (nth k y 0))) /\ forall d, length d = n -> dbl d = Ok (nth k d dzero)) \/
  mean_case.
Proof.
  destruct (locate E (val a) (val b) HI Hab) as (lo & hi & HL). pose proof HL as (HR & H1 & H2). pose proof HE as HE'. rewrite HE' in HR, H1, H2.
  pose proof (proj1 Ma) as Fa. pose proof (proj1 Mb) as Fb. pose proof Fe as Fe'.
  assert (INlo : forall i, (lo <= i < S n)%nat -> val a <= val (nth i e dzero)).
  { intros i Hi. rewrite <- nth_val. fold E. apply Rnot_lt_le. intros HC. apply H1 in HC; lia. }
  assert (INhi : forall i, (i < hi)%nat -> val (nth i e dzero) <= val b).
  { intros i Hi. rewrite <- nth_val. fold E. apply H2; lia. }
  assert (INC : forall i j, (i < j < S n)%nat -> val (nth i e dzero) < val (nth j e dzero)).
  { intros i j Hij. rewrite <- !nth_val. apply HI. fold E. rewrite HE'. exact Hij. }
  destruct (Nat.eq_dec lo hi) as [EQ|NE].
  - destruct (Nat.eq_dec lo 0) as [Z|Z]; [|destruct (Nat.eq_dec lo (S n)) as [Z'|Z']].
    + left. split; [intros y Hy; apply (single_0_out E lo hi _ _ y n); auto|intros d Hd _; apply (single_0_out_d o e lo hi a b d n); auto].
    + left. split; [intros y Hy; apply (single_0_out E lo hi _ _ y n); auto|intros d Hd _; apply (single_0_out_d o e lo hi a b d n); auto].
    + right. left. exists (lo - 1)%nat. split; [lia|]. split.
      * intros y Hy. apply (single_0_in E lo hi _ _ y n); auto; lia.
      * intros d Hd. apply (single_0_in_d o e lo hi a b d n); auto; lia.
  - destruct (Nat.eq_dec hi (S lo)) as [K1|K1].
    + destruct (Nat.eq_dec lo 0) as [Z|Z]; [|destruct (Nat.eq_dec lo n) as [Z'|Z']].
      * right. left. exists 0%nat. split; [lia|]. split.
        -- intros y Hy. apply (single_1_first E lo hi _ _ y n); auto; lia.
        -- intros d Hd. apply (single_1_first_d o e lo hi a b d n); auto; lia.
      * right. left. exists (n - 1)%nat. split; [lia|]. split.
        -- intros y Hy. apply (single_1_last E lo hi _ _ y n); auto; lia.
        -- intros d Hd. apply (single_1_last_d o e lo hi a b d n); auto; lia.
      * assert (N1 : near (u1_d e lo a) (u1 E lo (val a))).
        { unfold u1_d, u1, E. rewrite !nth_val. apply weight_near; try (apply mod_nth; lia); auto; [apply INlo; lia|apply INC; lia]. }
        assert (N2 : near (u2_d e lo b) (u2 E lo (val b))).
        { unfold u2_d, u2, E. rewrite !nth_val. apply weight_near; try (apply mod_nth; lia); auto; [apply INhi; lia|apply INC; lia]. }
        assert (RM : forall y, length y = n -> real y = Ok (fdiv (u1 E lo (val a) * nth (lo - 1) y 0 + u2 E lo (val b) * nth lo y 0) (u1 E lo (val a) + u2 E lo (val b)))).
        { intros y Hy. apply (single_1_mid E lo hi _ _ y n); auto; lia. }
        assert (DM : forall d, length d = n -> dbl d = Ok (ddiv (dadd (dmul (u1_d e lo a) (nth (lo - 1) d dzero)) (dmul (u2_d e lo b) (nth lo d dzero))) (dadd (u1_d e lo a) (u2_d e lo b)))).
        { intros d Hd. apply (single_1_mid_d o e lo hi a b d n); auto; lia. }
        pose proof (near_pos _ _ N1) as P1. pose proof (near_pos _ _ N2) as P2.
        destruct (Req_dec (u1 E lo (val a) + u2 E lo (val b)) 0) as [S0|S0].
        -- left. assert (Z1 : u1 E lo (val a) = 0) by lra. assert (Z2 : u2 E lo (val b) = 0) by lra. split.
           ++ intros y Hy. rewrite RM by exact Hy. rewrite Z1, Z2. unfold fdiv. rewrite Req_bool_true by ring. reflexivity.
           ++ intros d Hd Fd. rewrite DM by exact Hd. f_equal. rewrite Z1 in N1. rewrite Z2 in N2. destruct N1 as (F1 & E1 & _). destruct N2 as (F2 & E2 & _).
              assert (ZZ : forall v, Rabs (v - 0) <= 4 * u * 0 -> v = 0) by (intros v H; rewrite Rminus_0_r, Rmult_0_r in H; pose proof (Rabs_pos v); destruct (Req_dec v 0) as [|D]; [assumption|apply Rabs_pos_lt in D; lra]).
              apply nan_of_zeros; auto; apply all_fin_nth, Fd.
        -- right. right. exists pair_order, [u1_d e lo a; u2_d e lo b], [u1 E lo (val a); u2 E lo (val b)], [(lo - 1)%nat; lo].
           split; [apply pair_order_ok|]. split; [constructor; [exact N1|constructor; [exact N2|constructor]]|]. split; [cbn [length]; lia|]. split; [reflexivity|]. split; [cbn; lra|].
           split; [intros i [<- |[<- |[]]]; lia|]. split.
           ++ intros y Hy. rewrite RM by exact Hy. rewrite fdiv_ok by exact S0. unfold wmean, pick. cbn. rewrite !Rplus_0_r. reflexivity.
           ++ intros d Hd. rewrite DM by exact Hd. reflexivity.
    + right. right. assert (K2 : (2 <= hi - lo)%nat) by lia.
      assert (NL : near (wL_d e b hi) (wL E hi (val b))).
      { unfold wL_d, wL, E. rewrite !nth_val. apply weight_near; try (apply mod_nth; lia); auto; [apply INhi; lia|apply INC; lia]. }
      pose proof (near_pos _ _ NL) as PL. assert (PN : 0 < INR (hi - lo - 1)) by (apply lt_0_INR; lia).
      destruct (Nat.eq_dec lo 0) as [Z|Z]; destruct (Nat.eq_dec hi (S n)) as [Z'|Z'].
      * exists o, (repeat done (S n)), (repeat 1 (S n)), ((n - 1)%nat :: seq 0 n). split; [exact O|]. split; [apply near_ones|].
        split; [rewrite repeat_length; lia|]. split; [cbn [length]; rewrite repeat_length, seq_length; lia|].
        split; [rewrite Rsum_repeat, S_INR; pose proof (pos_INR n); lra|]. split; [intros i [<- |Hi]; [lia|apply in_seq in Hi; lia]|]. split.
        -- intros y Hy. apply (single_D E lo hi _ _ y n); auto; lia.
        -- intros d Hd. apply (single_D_d o e lo hi a b d n); auto; lia.
      * exists o, (repeat done (hi - lo - 1) ++ [wL_d e b hi]), (repeat 1 (hi - lo - 1) ++ [wL E hi (val b)]), (seq 0 (hi - lo)). split; [exact O|].
        split; [apply Forall2_app; [apply near_ones|constructor; [exact NL|constructor]]|].
        split; [rewrite app_length, repeat_length; cbn [length]; lia|]. split; [rewrite app_length, repeat_length, seq_length; cbn [length]; lia|].
        split; [rewrite Rsum_app, Rsum_repeat, Rsum_cons; change (Rsum []) with 0; lra|]. split; [intros i Hi; apply in_seq in Hi; lia|]. split.
        -- intros y Hy. apply (single_C E lo hi _ _ y n); auto; lia.
        -- intros d Hd. apply (single_C_d o e lo hi a b d n); auto; lia.
      * assert (NF : near (wF_d e lo a) (wF E lo (val a))).
        { unfold wF_d, wF, E. rewrite !nth_val. apply weight_near; try (apply mod_nth; lia); auto; [apply INlo; lia|apply INC; lia]. }
        pose proof (near_pos _ _ NF) as PF.
        exists o, (wF_d e lo a :: repeat done (hi - lo - 1)), (wF E lo (val a) :: repeat 1 (hi - lo - 1)), (seq (lo - 1) (hi - lo)). split; [exact O|].
        split; [constructor; [exact NF|apply near_ones]|].
        split; [cbn [length]; rewrite repeat_length; lia|]. split; [cbn [length]; rewrite repeat_length, seq_length; lia|].
        split; [rewrite Rsum_cons, Rsum_repeat; lra|]. split; [intros i Hi; apply in_seq in Hi; lia|]. split.
        -- intros y Hy. apply (single_B E lo hi _ _ y n); auto; lia.
        -- intros d Hd. apply (single_B_d o e lo hi a b d n); auto; lia.
      * assert (NF : near (wF_d e lo a) (wF E lo (val a))).
        { unfold wF_d, wF, E. rewrite !nth_val. apply weight_near; try (apply mod_nth; lia); auto; [apply INlo; lia|apply INC; lia]. }
        pose proof (near_pos _ _ NF) as PF.
        exists o, (wF_d e lo a :: repeat done (hi - lo - 1) ++ [wL_d e b hi]), (wF E lo (val a) :: repeat 1 (hi - lo - 1) ++ [wL E hi (val b)]), (seq (lo - 1) (S (hi - lo))). split; [exact O|].
        split; [constructor; [exact NF|apply Forall2_app; [apply near_ones|constructor; [exact NL|constructor]]]|].
        split; [cbn [length]; rewrite app_length, repeat_length; cbn [length]; lia|]. split; [cbn [length]; rewrite app_length, repeat_length, seq_length; cbn [length]; lia|].
        split; [rewrite Rsum_cons, Rsum_app, Rsum_repeat, Rsum_cons; change (Rsum []) with 0; lra|]. split; [intros i Hi; apply in_seq in Hi; lia|]. split.
        -- intros y Hy. apply (single_A E lo hi _ _ y n); auto; lia.
        -- intros d Hd. apply (single_A_d o e lo hi a b d n); auto; lia.
Qed.

(** The data approximate [y], with errors relative to [Y]. *)
Lemma single_err : forall d y Y h, INR n <= b2 19 -> length d = n -> length y = n -> length Y = n -> 0 <= h <= / 1048576 ->
  (forall i, (i < n)%nat -> fin (nth i d dzero) /\ Rabs (val (nth i d dzero) - nth i y 0) <= h * nth i Y 0 /\ Rabs (nth i y 0) <= nth i Y 0 /\ b2 (-300) <= nth i Y 0 <= b2 300) ->
  (real y = Ok None /\ real Y = Ok None /\ dbl d = Ok dnan) \/
  (exists q v V, dbl d = Ok q /\ real y = Ok (Some v) /\ real Y = Ok (Some V) /\ fin q /\ Rabs (val q - v) <= ((6 * INR n + 30) * u + 8 * h) * V /\
     Rabs v <= V /\ b2 (-300) <= V <= b2 300).
Proof.
  intros d y Y h Hn20 Ld Ly LY Hh H. pose proof u_pos as U. pose proof (pos_INR n) as Pn.
  destruct single_cases as [[R0 D0]|[(k & Hk & R1 & D1)|(o' & ws & WS & idx & O' & N & L & Li & P & HX & R2 & D2)]].
  - left. split; [now apply R0|]. split; [now apply R0|]. apply D0; [exact Ld|]. intros x Hx. apply (In_nth _ _ dzero) in Hx. destruct Hx as (i & Hi & <-). apply H. lia.
  - right. exists (nth k d dzero), (nth k y 0), (nth k Y 0). destruct (H k Hk) as (A & B & C & D). split; [now apply D1|]. split; [now apply R1|]. split; [now apply R1|].
    split; [exact A|]. split; [|split; assumption]. apply Rle_trans with (1 := B). pose proof (bpow_gt_0 radix2 (-300)). apply Rmult_le_compat_r; [lra|]. nra.
  - right. set (m := length ws) in *. assert (LW : length WS = m) by (symmetry; unfold m; clear - N; induction N; cbn [length]; congruence).
    assert (Hm20 : INR m <= b2 20).
    { apply Rle_trans with (INR (S n)); [apply le_INR; lia|]. rewrite S_INR. change 20%Z with (1 + 19)%Z. rewrite bpow_plus. change (b2 1) with 2.
      assert (1 <= b2 19) by (change 1 with (b2 0); apply bpow_le; lia). lra. }
    assert (Q : forall (l : list R), nth 0 idx 0%nat = nth 0 idx 0%nat -> forall i, (i < m)%nat -> nth i (pick l idx) 0 = nth (nth i idx 0%nat) l 0).
    { intros l _ i Hi. unfold pick. rewrite (nth_map_lt _ _ _ _ i 0 0%nat) by lia. reflexivity. }
    assert (Qd : forall (l : list double) i, (i < m)%nat -> nth i (pick_d l idx) dzero = nth (nth i idx 0%nat) l dzero).
    { intros l i Hi. unfold pick_d. rewrite (nth_map_lt _ _ _ _ i dzero 0%nat) by lia. reflexivity. }
    assert (Hidx : forall i, (i < m)%nat -> (nth i idx 0 < n)%nat) by (intros i Hi; apply HX, nth_In; lia).
    assert (Nn : forall i, (i < m)%nat -> near (nth i ws dzero) (nth i WS 0)) by (apply Forall2_nth_near; exact N).
    assert (DX : forall i, (i < m)%nat -> fin (nth i (pick_d d idx) dzero) /\ Rabs (val (nth i (pick_d d idx) dzero) - nth i (pick y idx) 0) <= h * nth i (pick Y idx) 0 /\
       Rabs (nth i (pick y idx) 0) <= nth i (pick Y idx) 0 /\ b2 (-300) <= nth i (pick Y idx) 0 <= b2 300).
    { intros i Hi. rewrite Qd, !Q by auto. apply H, Hidx, Hi. }
    assert (PW : 0 < sum_upto m (fun i => nth i WS 0)) by (rewrite <- Rsum_as_tab; assumption).
    exists (wmean_d o' ws (pick_d d idx)), (wmean WS (pick y idx)), (wmean WS (pick Y idx)).
    split; [now apply D2|]. split; [now apply R2|]. split; [now apply R2|].
    assert (Lp : length (pick_d d idx) = m) by (unfold pick_d; rewrite map_length; exact Li).
    assert (Lr : forall l, length (pick l idx) = m) by (intros; unfold pick; rewrite map_length; exact Li).
    rewrite (wmean_d_tab o' m) by auto. rewrite !(wmean_tab m) by auto.
    destruct (mean_err o' m (fun i => nth i ws dzero) (fun i => nth i (pick_d d idx) dzero) (fun i => nth i WS 0) (fun i => nth i (pick y idx) 0) (fun i => nth i (pick Y idx) 0) h O' ltac:(lia) Hm20 Hh Nn DX PW) as [F B].
    split; [exact F|].
    pose proof (mean_range m (fun i => nth i ws dzero) (fun i => nth i (pick_d d idx) dzero) (fun i => nth i WS 0) (fun i => nth i (pick y idx) 0) (fun i => nth i (pick Y idx) 0) h Nn DX PW) as MR.
    pose proof (mean_bound m (fun i => nth i ws dzero) (fun i => nth i (pick_d d idx) dzero) (fun i => nth i WS 0) (fun i => nth i (pick y idx) 0) (fun i => nth i (pick Y idx) 0) h Nn DX PW) as MB.
    cbv beta in *. split; [|split; [exact MB|exact MR]]. apply Rle_trans with (1 := B). pose proof (bpow_gt_0 radix2 (-300)). apply Rmult_le_compat_r; [lra|].
    assert (INR m <= INR n + 1) by (rewrite <- S_INR; apply le_INR; lia). nra.
Qed.

End OneBin.
