(** * More theorems about the weights function of [one_d]: C37 *)

From Coq Require Import Reals ZArith List Bool Lra Lia Psatz.
From Flocq Require Import Core.Raux.
From Verif Require Import Base BaseP SpecGrid MGrids MUtils MOneD PGrids PRadial PUtils.
From Verif Require Import PPolarCoords POneD POneD2 POneD3 TOneD.
Import ListNotations.
Open Scope R_scope.

Lemma set_nth_mid : forall A (a : list A) x b w, set_nth (a ++ x :: b) (length a) w = a ++ w :: b.
Proof. intros A a x b w. induction a as [|y a IH]; [reflexivity|]. cbn [app length set_nth]. now rewrite IH. Qed.

Lemma put_z_over : forall A (ws l a : list A), length l = length ws ->
  put_z (a ++ l) (POneD.zrange (Z.of_nat (length a)) (length ws)) ws = Ok (a ++ ws).
Proof.
  intros A ws. induction ws as [|w ws IH]; intros l a H.
  - destruct l; [reflexivity|discriminate].
  - destruct l as [|x l]; [discriminate|]. cbn [length] in *. rewrite zrange_cons. cbn [put_z].
    assert (HS : py_set (a ++ x :: l) (Z.of_nat (length a)) w = Ok ((a ++ [w]) ++ l)).
    { unfold py_set. cbv zeta. rewrite app_length. cbn [length].
      replace (Z.of_nat (length a) <? 0)%Z with false by (symmetry; apply Z.ltb_ge; lia).
      replace (Z.of_nat (length a) <? 0)%Z with false by (symmetry; apply Z.ltb_ge; lia).
      match goal with |- context [(?y <=? Z.of_nat (length a))%Z] => replace (y <=? Z.of_nat (length a))%Z with false by (symmetry; apply Z.leb_gt; lia) end.
      rewrite Nat2Z.id, set_nth_mid, <- app_assoc. reflexivity. }
    rewrite HS. cbn [bind]. replace (Z.of_nat (length a) + 1)%Z with (Z.of_nat (length (a ++ [w]))) by (rewrite app_length; cbn; lia).
    rewrite IH by lia. now rewrite <- app_assoc.
Qed.

Lemma weights_cover : forall e n bmin bmax, increasing e -> length e = S n -> (1 <= n)%nat -> located e 0 (S n) bmin bmax ->
  rebin_1d_single_bin_weights e bmin bmax = Ok (Some (repeat (Some 1) n)).
Proof.
  intros e n bmin bmax HI He Hn HL. unfold rebin_1d_single_bin_weights.
  replace (Z.of_nat (length e) - 1 <? 0)%Z with false by (symmetry; apply Z.ltb_ge; lia).
  rewrite (E e 0 (S n) bmin bmax HL), ?seq_length. replace (length e - 1)%nat with n by lia.
  rewrite (gw_D e 0 (S n) bmin bmax) by (auto; lia). replace (S n - 0)%nat with (S n) by lia.
  destruct n as [|m]; [lia|]. cbn [bind]. rewrite map_Some_repeat. cbn [repeat]. rewrite zrange_cons. cbn [put_z].
  change (Some 0 :: repeat (Some 0) m) with (repeat (Some 0) (S m)). rewrite repeat_S_last, py_set_app_last. cbn [bind].
  change (-1 + 1)%Z with 0%Z.
  pose proof (put_z_over num (repeat (Some 1) (S m)) (repeat (Some 0) m ++ [Some 1]) []) as P. cbn [app length] in P. rewrite repeat_length in P.
  change (Z.of_nat 0) with 0%Z in P. cbn [repeat] in P. unfold num in *. rewrite P; [reflexivity|]. rewrite app_length, repeat_length. cbn; lia.
Qed.

Lemma cover_located : forall e n bmin bmax, increasing e -> length e = S n -> bmin <= nth 0 e 0 -> nth n e 0 <= bmax ->
  located e 0 (S n) bmin bmax.
Proof.
  intros e n bmin bmax HI He H0 H1.
  assert (LE : forall i k, (i <= k <= n)%nat -> nth i e 0 <= nth k e 0).
  { intros i k Hik. destruct (Nat.eq_dec i k) as [->|]; [lra|]. left. apply HI. lia. }
  split; [lia|]. split; intros i Hi; pose proof (LE 0%nat i ltac:(lia)); pose proof (LE i n ltac:(lia)); split; intros; lia || lra.
Qed.

(** A new bin over all the edges: the weights are all one, so their weighted
    mean is the plain mean of the data; [rebin_1d] counts the last bin twice. *)
Theorem C37_weights_covering : forall e n bmin bmax, increasing e -> length e = S n -> (1 <= n)%nat ->
  bmin <= nth 0 e 0 -> nth n e 0 <= bmax ->
  rebin_1d_single_bin_weights e bmin bmax = Ok (Some (map Some (repeat 1 n))) /\
  forall d, length d = n ->
    weighted_mean (repeat 1 n) d = Rsum d / INR n /\
    rebin_1d e d [bmin; bmax] None None = Ok ([Some ((Rsum d + nth (n - 1) d 0) / (INR n + 1))], None).
Proof.
  intros e n bmin bmax HI He Hn H0 H1. split.
  - rewrite map_Some_repeat. apply weights_cover; auto. apply cover_located; auto.
  - intros d Hd.
    assert (NB : nondecreasing [bmin; bmax]).
    { assert (nth 0 e 0 < nth n e 0) by (apply HI; lia). intros i k Hik. cbn [length] in Hik. destruct i as [|[|]]; destruct k as [|[|]]; try lia; cbn [nth]; lra. }
    split.
    + unfold weighted_mean. rewrite Rsum_repeat. rewrite Rmult_1_r. f_equal.
      rewrite <- Hd. clear. induction d as [|x d IH]; [reflexivity|]. cbn [length repeat map2]. rewrite !Rsum_cons, IH. ring.
    + destruct (C32_rebin_bounds e n d [bmin; bmax] HI He Hn Hd NB) as (out & HO & HLn & _). rewrite HO.
      pose proof (C35_rebin_covering e n d [bmin; bmax] out 0 HI He Hn Hd NB HO ltac:(cbn; lia) H0 H1) as HC.
      destruct out as [|x [|y out]]; cbn [length] in HLn; try lia. cbn [nth] in HC. now rewrite HC.
Qed.
Print Assumptions C37_weights_covering.

(** A new bin which holds the first edge only: bin 0, as in [rebin_1d]. *)
Theorem C37_weights_first : forall e n bmin bmax, increasing e -> length e = S n -> (1 <= n)%nat ->
  bmin <= nth 0 e 0 <= bmax -> bmax < nth 1 e 0 ->
  rebin_1d_single_bin_weights e bmin bmax = Ok (Some (map Some (1 :: repeat 0 (n - 1)))) /\
  forall d, length d = n -> rebin_1d e d [bmin; bmax] None None = Ok ([Some (nth 0 d 0)], None).
Proof.
  intros e n bmin bmax HI He Hn [H0 H1] H2.
  assert (LE : forall i k, (i <= k <= n)%nat -> nth i e 0 <= nth k e 0).
  { intros i k Hik. destruct (Nat.eq_dec i k) as [->|]; [lra|]. left. apply HI. lia. }
  assert (HL : located e 0 1 bmin bmax).
  { split; [lia|]. split; intros i Hi; pose proof (LE 0%nat i ltac:(lia)); split; intros; try lia; try lra.
    - destruct (Nat.lt_ge_cases i 1) as [|G]; [assumption|]. pose proof (LE 1%nat i ltac:(lia)). lra.
    - replace i with 0%nat by lia. lra. }
  split.
  - unfold rebin_1d_single_bin_weights. replace (Z.of_nat (length e) - 1 <? 0)%Z with false by (symmetry; apply Z.ltb_ge; lia).
    rewrite (E e 0 1 bmin bmax HL), ?seq_length. replace (length e - 1)%nat with n by lia. cbn [Nat.sub seq].
    change (zget [0%nat] 0) with (Ok 0%Z). cbn [bind]. change (0 <? 0)%Z with false. cbn [andb]. change (0 =? 0)%Z with true.
    destruct n as [|m]; [lia|]. cbn [repeat]. rewrite py_set_first. cbn [bind map]. rewrite map_Some_repeat. replace (S m - 1)%nat with m by lia. reflexivity.
  - intros d Hd. rewrite (rebin_plain e n) by (auto; apply nondec2; lra). cbn [length Nat.sub seq map nth]. unfold single_value.
    rewrite (single_1_first e 0 1 bmin bmax d n) by auto. reflexivity.
Qed.
Print Assumptions C37_weights_first.

(** A new bin of no width on an edge after the first: on an interior edge
    [rebin_1d] gives NaN and the weights, where they exist, are all zero; on the
    last edge [rebin_1d] gives the last bin; the weights function raises on the
    last two edges. *)
Theorem C37_weights_point : forall e n c, increasing e -> length e = S n -> (1 <= c <= n)%nat ->
  ((c + 1 < n)%nat -> rebin_1d_single_bin_weights e (nth c e 0) (nth c e 0) = Ok (Some (map Some (repeat 0 n)))) /\
  ((n <= c + 1)%nat -> rebin_1d_single_bin_weights e (nth c e 0) (nth c e 0) = Err IndexError) /\
  forall d, length d = n -> rebin_1d e d [nth c e 0; nth c e 0] None None
    = Ok ([if (c <? n)%nat then None else Some (nth (n - 1) d 0)], None).
Proof.
  intros e n c HI He Hc. set (b := nth c e 0).
  assert (LT : forall i k, (i < k <= n)%nat -> nth i e 0 < nth k e 0) by (intros i k Hik; apply HI; lia).
  assert (HL : located e c (S c) b b).
  { split; [lia|]. unfold b. split; intros i Hi; (destruct (Nat.lt_trichotomy i c) as [Q|[-> |Q]]; [pose proof (LT i c ltac:(lia))| |pose proof (LT c i ltac:(lia))]);
      split; intros; try lia; lra. }
  assert (U : u1 e c b = 0 /\ u2 e c b = 0) by (unfold u1, u2, b; split; unfold Rdiv; ring).
  split; [|split].
  - intros H. rewrite (weights_one_mid e c (S c) b b n HI He ltac:(lia) HL) by lia. destruct U as [-> ->]. unfold padded. cbn [length].
    replace [0; 0] with (repeat 0 2) by reflexivity. rewrite <- !repeat_app. do 4 f_equal. lia.
  - intros H. apply (weights_one_late e c (S c) b b n He ltac:(lia) HL); lia.
  - intros d Hd. rewrite (rebin_plain e n) by (auto; try lia; apply nondec2; lra). cbn [length Nat.sub seq map nth]. unfold single_value.
    destruct (Nat.ltb_spec c n) as [Q|Q].
    + rewrite (single_1_mid e c (S c) b b d n) by (auto; lia). destruct U as [-> ->]. unfold fdiv. rewrite Req_bool_true by ring. reflexivity.
    + rewrite (single_1_last e c (S c) b b d n) by (auto; lia). reflexivity.
Qed.
Print Assumptions C37_weights_point.

(** NaN exactly for a new bin beside the edges. *)
Theorem C37_weights_none : forall e n bmin bmax, increasing e -> length e = S n -> (1 <= n)%nat -> bmin <= bmax ->
  rebin_1d_single_bin_weights e bmin bmax = Ok None <-> bmax < nth 0 e 0 \/ nth n e 0 < bmin.
Proof.
  intros e n bmin bmax HI He Hn Hb.
  destruct (locate e bmin bmax HI Hb) as (lo & hi & HL). pose proof HL as (A & B & C).
  assert (P : lo <> 0%nat -> nth 0 e 0 < bmin) by (intros; apply B; lia).
  assert (Q : hi <> S n -> bmax < nth n e 0) by (intros; apply Rnot_le_lt; intros HX; apply C in HX; lia).
  assert (P' : lo <> S n -> ~ nth n e 0 < bmin) by (intros ? HX; apply B in HX; lia).
  assert (Q' : hi <> 0%nat -> nth 0 e 0 <= bmax) by (intros; apply C; lia).
  destruct (Nat.eq_dec lo hi) as [EQ|NE].
  - destruct (Nat.eq_dec lo 0) as [Z|Z]; [|destruct (Nat.eq_dec lo (S n)) as [Z'|Z']].
    + split; intros _.
      * left. apply Rnot_le_lt. intros HX. apply C in HX; lia.
      * unfold rebin_1d_single_bin_weights. replace (Z.of_nat (length e) - 1 <? 0)%Z with false by (symmetry; apply Z.ltb_ge; lia).
        rewrite (E e lo hi bmin bmax HL), seq_length, EQ, Nat.sub_diag.
        rewrite (edges_above_located e lo hi bmin bmax HL), seq_length, Z, Nat.sub_0_r, Nat.eqb_refl. cbn [negb]. rewrite andb_false_r. reflexivity.
    + split; intros _.
      * right. apply B; lia.
      * unfold rebin_1d_single_bin_weights. replace (Z.of_nat (length e) - 1 <? 0)%Z with false by (symmetry; apply Z.ltb_ge; lia).
        rewrite (E e lo hi bmin bmax HL), seq_length, EQ, Nat.sub_diag.
        rewrite (edges_above_located e lo hi bmin bmax HL), seq_length, Z', He, Nat.sub_diag. reflexivity.
    + rewrite (weights_single e lo hi bmin bmax n He Hn HL) by lia. split; [discriminate|].
      pose proof (P' ltac:(lia)). pose proof (Q' ltac:(lia)). intros [?|?]; lra.
  - assert (N : ~ (bmax < nth 0 e 0 \/ nth n e 0 < bmin)).
    { pose proof (P' ltac:(lia)). pose proof (Q' ltac:(lia)). intros [?|?]; lra. }
    split; [|intros; contradiction]. intros H. exfalso. revert H.
    destruct (Nat.eq_dec hi (S lo)) as [K|K].
    + destruct (Nat.eq_dec lo 0) as [Z|Z].
      * destruct (C37_weights_first e n bmin bmax HI He Hn) as [-> _]; [|discriminate|discriminate] || (rewrite (proj1 (C37_weights_first e n bmin bmax HI He Hn ltac:(split; [apply Rnot_lt_le; intros HX; apply B in HX; lia|apply C; lia]) ltac:(apply Rnot_le_lt; intros HX; apply C in HX; lia))); discriminate).
      * destruct (Nat.lt_ge_cases (S lo) n) as [G|G].
        -- rewrite (weights_one_mid e lo hi bmin bmax n HI He Hn HL) by lia. discriminate.
        -- rewrite (weights_one_late e lo hi bmin bmax n He Hn HL) by lia. discriminate.
    + destruct (Nat.eq_dec lo 0) as [Z|Z]; [destruct (Nat.eq_dec hi (S n)) as [Z'|Z']|].
      * subst lo hi. rewrite (weights_cover e n) by auto. discriminate.
      * destruct (weights_agree e lo hi bmin bmax n HI He Hn HL) as (ws & -> & _); try lia. discriminate.
      * destruct (weights_agree e lo hi bmin bmax n HI He Hn HL) as (ws & -> & _); try lia. discriminate.
Qed.
Print Assumptions C37_weights_none.

Example C37_example2 :
  rebin_1d_single_bin_weights [0; 1; 2; 4] (-1) 5 = Ok (Some [Some 1; Some 1; Some 1]) /\
  rebin_1d_single_bin_weights [0; 1; 2; 4] (-1) (1/2) = Ok (Some [Some 1; Some 0; Some 0]) /\
  rebin_1d_single_bin_weights [0; 1; 2; 4] 5 6 = Ok None.
Proof.
  split; [|split].
  - apply (proj1 (C37_weights_covering [0; 1; 2; 4] 3 (-1) 5 increasing_012 eq_refl ltac:(lia) ltac:(cbn; lra) ltac:(cbn; lra))).
  - apply (proj1 (C37_weights_first [0; 1; 2; 4] 3 (-1) (1/2) increasing_012 eq_refl ltac:(lia) ltac:(cbn; lra) ltac:(cbn; lra))).
  - apply (C37_weights_none [0; 1; 2; 4] 3 5 6 increasing_012 eq_refl ltac:(lia) ltac:(lra)). right. cbn. lra.
Qed.

Example C37_example3 :
  rebin_1d_single_bin_weights [0; 1; 2; 4] 1 1 = Ok (Some [Some 0; Some 0; Some 0]) /\
  rebin_1d_single_bin_weights [0; 1; 2; 4] 2 2 = Err IndexError /\
  rebin_1d [0; 1; 2; 4] [5; 6; 7] [2; 2] None None = Ok ([None], None) /\
  rebin_1d [0; 1; 2; 4] [5; 6; 7] [4; 4] None None = Ok ([Some 7], None).
Proof.
  destruct (C37_weights_point [0; 1; 2; 4] 3 1 increasing_012 eq_refl ltac:(lia)) as (A & _ & _).
  destruct (C37_weights_point [0; 1; 2; 4] 3 2 increasing_012 eq_refl ltac:(lia)) as (_ & B & C).
  destruct (C37_weights_point [0; 1; 2; 4] 3 3 increasing_012 eq_refl ltac:(lia)) as (_ & _ & D).
  split; [apply A; lia|]. split; [apply B; lia|]. split; [apply C; reflexivity|apply D; reflexivity].
Qed.
