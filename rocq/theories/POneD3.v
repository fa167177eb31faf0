(** * Rebinning in one dimension: weights function and errors *)

From Coq Require Import Reals ZArith List Bool Lra Lia Psatz.
From Flocq Require Import Core.Raux.
From Verif Require Import Base BaseP SpecGrid MGrids MUtils MOneD PGrids PRadial PUtils.
From Verif Require Import PPolarCoords POneD POneD2.
Import ListNotations.
Open Scope R_scope.

Lemma put_z_fill : forall A (z : A) (ws a b : list A),
  put_z (a ++ repeat z (length ws) ++ b) (zrange (Z.of_nat (length a)) (length ws)) ws = Ok (a ++ ws ++ b).
Proof.
  intros A z ws. induction ws as [|w ws IH]; intros a b; [reflexivity|].
  cbn [length repeat]. rewrite zrange_cons. cbn [put_z].
  assert (HS : py_set (a ++ (z :: repeat z (length ws)) ++ b) (Z.of_nat (length a)) w
               = Ok ((a ++ [w]) ++ repeat z (length ws) ++ b)).
  { unfold py_set. rewrite !app_length. cbn [length].
    replace (Z.of_nat (length a) <? 0)%Z with false by (symmetry; apply Z.ltb_ge; lia).
    cbv zeta. replace (Z.of_nat (length a) <? 0)%Z with false by (symmetry; apply Z.ltb_ge; lia).
    match goal with |- context [(?x <=? Z.of_nat (length a))%Z] =>
      replace (x <=? Z.of_nat (length a))%Z with false by (symmetry; apply Z.leb_gt; cbn [length]; lia) end.
    cbn [orb]. rewrite Nat2Z.id. f_equal. rewrite <- app_assoc. cbn [app].
    clear. induction a as [|x a IH]; [reflexivity|]. cbn [app length set_nth]. now rewrite IH. }
  cbn [app] in HS. cbn [app]. rewrite HS. cbn [bind].
  replace (Z.of_nat (length a) + 1)%Z with (Z.of_nat (length (a ++ [w]))) by (rewrite app_length; cbn; lia).
  rewrite IH, <- app_assoc. reflexivity.
Qed.

Lemma repeat_app_n : forall A (z : A) a b, repeat z (a + b) = repeat z a ++ repeat z b.
Proof. intros. apply repeat_app. Qed.

Lemma put_zeros : forall (ws : list num) n p, (p + length ws <= n)%nat ->
  put_z (repeat (Some 0) n) (zrange (Z.of_nat p) (length ws)) ws
  = Ok (repeat (Some 0) p ++ ws ++ repeat (Some 0) (n - p - length ws)).
Proof.
  intros ws n p H. replace n with (p + (length ws + (n - p - length ws)))%nat at 1 by lia.
  rewrite !repeat_app_n.
  pose proof (put_z_fill num (Some 0) ws (repeat (Some 0) p) (repeat (Some 0) (n - p - length ws))) as HP.
  rewrite repeat_length in HP. exact HP.
Qed.

Lemma slice_all : forall d, slice d 0 (length d) = d.
Proof.
  intros d. apply (list_ext R _ _ 0); [apply length_slice|]. intros t Ht. rewrite length_slice in Ht.
  unfold slice. rewrite (nth_map_lt _ _ _ _ t 0 0%nat) by (rewrite seq_length; lia).
  rewrite seq_nth by lia. reflexivity.
Qed.

Lemma slice_split : forall d p a b, slice d p (a + b) = slice d p a ++ slice d (p + a) b.
Proof. intros. unfold slice. rewrite seq_app, map_app. reflexivity. Qed.

Lemma map2_app_len : forall A B C (f : A -> B -> C) a b c d, length a = length c ->
  map2 f (a ++ b) (c ++ d) = map2 f a c ++ map2 f b d.
Proof.
  intros A B C f a. induction a as [|x a IH]; intros b [|y c] d H; cbn in H; try lia; [reflexivity|].
  cbn [app map2]. now rewrite IH by lia.
Qed.

Lemma Rsum_zeros_prod : forall m l, Rsum (map2 Rmult (repeat 0 m) l) = 0.
Proof. induction m as [|m IH]; intros [|x l]; try reflexivity. cbn [repeat map2]. rewrite Rsum_cons, IH. ring. Qed.

Definition padded (p n : nat) (ws : list R) : list R := repeat 0 p ++ ws ++ repeat 0 (n - p - length ws).

Lemma length_padded : forall p n ws, (p + length ws <= n)%nat -> length (padded p n ws) = n.
Proof. intros. unfold padded. rewrite !app_length, !repeat_length. lia. Qed.

Lemma map_padded : forall p n ws, map Some (padded p n ws)
  = repeat (Some 0) p ++ map Some ws ++ repeat (Some 0) (n - p - length (map Some ws)).
Proof. intros. unfold padded. rewrite !map_app, !map_Some_repeat, map_length. reflexivity. Qed.

Lemma wmean_padded : forall p n ws d, length d = n -> (p + length ws <= n)%nat ->
  wmean (padded p n ws) d = wmean ws (slice d p (length ws)).
Proof.
  intros p n ws d Hd H. unfold wmean. 
  assert (S1 : Rsum (padded p n ws) = Rsum ws).
  { unfold padded. rewrite !Rsum_app, !Rsum_repeat. ring. }
  rewrite S1. f_equal. unfold padded.
  rewrite <- (slice_all d) at 1. rewrite Hd.
  replace n with (p + (length ws + (n - p - length ws)))%nat at 2 by lia.
  rewrite !slice_split, !map2_app_len by (rewrite ?repeat_length, ?length_slice; reflexivity).
  rewrite !Rsum_app, !Rsum_zeros_prod, Nat.add_0_l. ring.
Qed.

Section WeightsFn.
Variables (e : list R) (lo hi : nat) (bmin bmax : R) (n : nat).
Hypothesis HI : increasing e.
Hypothesis He : length e = S n.
Hypothesis Hn : (1 <= n)%nat.
Hypothesis HL : located e lo hi bmin bmax.

Ltac w0 := unfold rebin_1d_single_bin_weights;
  replace (Z.of_nat (length e) - 1 <? 0)%Z with false by (symmetry; apply Z.ltb_ge; lia);
  rewrite (E e lo hi bmin bmax HL), ?seq_length; replace (length e - 1)%nat with n by lia.

Lemma weights_general : (2 <= hi - lo)%nat -> forall ws p,
  general_weights e bmin bmax (seq lo (hi - lo)) = Ok (map Some ws, zrange (Z.of_nat p) (length ws)) ->
  (p + length ws <= n)%nat ->
  rebin_1d_single_bin_weights e bmin bmax = Ok (Some (map Some (padded p n ws))).
Proof.
  intros H2 ws p HW HP. w0. rewrite HW. destruct (hi - lo)%nat as [|[|k]] eqn:EK; [lia|lia|].
  cbn [bind]. rewrite <- (map_length (@Some R) ws) at 1. rewrite put_zeros by (rewrite map_length; exact HP).
  cbn [bind]. now rewrite map_padded.
Qed.

Lemma weights_single : lo = hi -> (1 <= lo <= n)%nat ->
  rebin_1d_single_bin_weights e bmin bmax = Ok (Some (map Some (padded (lo - 1) n [1]))).
Proof.
  intros H1 H2. w0. replace (hi - lo)%nat with 0%nat by lia.
  rewrite (edges_above_located e lo hi bmin bmax HL), seq_length.
  destruct (Nat.eqb_spec (length e - lo) 0); [lia|].
  destruct (Nat.eqb_spec (length e - lo) (length e)); [lia|]. cbn [negb andb].
  rewrite zget_seq_0 by lia. cbn [bind].
  pose proof (put_zeros [Some 1] n (lo - 1) ltac:(cbn; lia)) as HP.
  cbn [length zrange seq map put_z] in HP. rewrite Z.add_0_r in HP.
  replace (Z.of_nat lo - 1)%Z with (Z.of_nat (lo - 1)) by lia.
  destruct (py_set (repeat (Some 0) n) (Z.of_nat (lo - 1)) (Some 1)) as [l|]; cbn [bind] in *; [|discriminate].
  apply Ok_inj in HP. rewrite HP, map_padded. reflexivity.
Qed.

Lemma weights_one_mid : hi = S lo -> (1 <= lo)%nat -> (S lo < n)%nat ->
  rebin_1d_single_bin_weights e bmin bmax
  = Ok (Some (map Some (padded lo n [u1 e lo bmin; u2 e lo bmax]))).
Proof.
  intros H1 H2 H3. w0. replace (hi - lo)%nat with 1%nat by lia. cbn [seq].
  unfold zget. change (py_get [lo] 0) with (Ok lo). cbn [bind].
  replace (0 <? Z.of_nat lo)%Z with true by (symmetry; apply Z.ltb_lt; lia).
  replace (Z.of_nat lo <? Z.of_nat (length e) - 1)%Z with true by (symmetry; apply Z.ltb_lt; lia).
  cbn [andb]. rewrite !(py_get_ok _ e _ 0) by lia. cbn [bind]. rewrite Nat2Z.id.
  replace (Z.to_nat (Z.of_nat lo - 1)) with (lo - 1)%nat by lia.
  replace (Z.to_nat (Z.of_nat lo + 1)) with (lo + 1)%nat by lia.
  pose proof (HI (lo - 1)%nat lo ltac:(lia)). pose proof (HI lo (lo + 1)%nat ltac:(lia)).
  rewrite !fdiv_ok by lra.
  pose proof (put_zeros [Some (u1 e lo bmin); Some (u2 e lo bmax)] n lo ltac:(cbn; lia)) as HP.
  cbn [length zrange seq map put_z] in HP. rewrite Z.add_0_r in HP. change (Z.of_nat 1) with 1%Z in HP.
  fold (u1 e lo bmin) (u2 e lo bmax).
  destruct (py_set (repeat (Some 0) n) (Z.of_nat lo) (Some (u1 e lo bmin))) as [l|]; cbn [bind] in *; [|discriminate].
  destruct (py_set l (Z.of_nat lo + 1) (Some (u2 e lo bmax))) as [l'|]; cbn [bind] in *; [|discriminate].
  apply Ok_inj in HP. rewrite HP, map_padded. reflexivity.
Qed.

Lemma py_set_out : forall A (l : list A) k v, (Z.of_nat (length l) <= k)%Z -> py_set l k v = Err IndexError.
Proof.
  intros A l k v H. unfold py_set.
  replace (k <? 0)%Z with false by (symmetry; apply Z.ltb_ge; lia). cbv zeta.
  replace (Z.of_nat (length l) <=? k)%Z with true by (symmetry; apply Z.leb_le; lia).
  rewrite orb_true_r. reflexivity.
Qed.

Lemma weights_one_late : hi = S lo -> (1 <= lo)%nat -> (n <= S lo)%nat ->
  rebin_1d_single_bin_weights e bmin bmax = Err IndexError.
Proof.
  intros H1 H2 H3. assert (lo <= n)%nat by (destruct HL as (A & _); lia).
  w0. replace (hi - lo)%nat with 1%nat by lia. cbn [seq].
  unfold zget. change (py_get [lo] 0) with (Ok lo). cbn [bind].
  replace (0 <? Z.of_nat lo)%Z with true by (symmetry; apply Z.ltb_lt; lia).
  destruct (Nat.eq_dec lo n) as [EL|NE].
  - replace (Z.of_nat lo <? Z.of_nat (length e) - 1)%Z with false by (symmetry; apply Z.ltb_ge; lia).
    cbn [andb]. replace (Z.of_nat lo =? 0)%Z with false by (symmetry; apply Z.eqb_neq; lia).
    replace (Z.of_nat lo =? Z.of_nat (length e) - 1)%Z with true by (symmetry; apply Z.eqb_eq; lia).
    rewrite py_set_out by (rewrite repeat_length; lia). reflexivity.
  - replace (Z.of_nat lo <? Z.of_nat (length e) - 1)%Z with true by (symmetry; apply Z.ltb_lt; lia).
    cbn [andb]. rewrite !(py_get_ok _ e _ 0) by lia. cbn [bind].
    pose proof (put_zeros [fdiv (nth (Z.to_nat (Z.of_nat lo)) e 0 - bmin)
       (nth (Z.to_nat (Z.of_nat lo)) e 0 - nth (Z.to_nat (Z.of_nat lo - 1)) e 0)] n lo ltac:(cbn; lia)) as HP.
    cbn [length zrange seq map put_z] in HP. rewrite Z.add_0_r in HP.
    match goal with |- context [py_set (repeat (Some 0) n) (Z.of_nat lo) ?v] =>
      destruct (py_set (repeat (Some 0) n) (Z.of_nat lo) v) as [l|] eqn:ES end; cbn [bind] in *; [|discriminate].
    apply Ok_inj in HP. rewrite py_set_out; [reflexivity|].
    rewrite HP, !app_length, !repeat_length. cbn [length]. lia.
Qed.

Lemma weights_agree : lo <> 0%nat \/ hi <> S n -> lo <> S n -> hi <> 0%nat -> hi <> S lo ->
  exists ws, rebin_1d_single_bin_weights e bmin bmax = Ok (Some (map Some ws)) /\ length ws = n /\
    0 < Rsum ws /\
    forall d, length d = n -> rebin_1d_single_bin e d bmin bmax = Ok (Some (wmean ws d)).
Proof.
  intros HD H1 H2 H3. assert (HR : (lo <= hi <= S n)%nat) by (destruct HL as (A & _); lia).
  destruct (Nat.eq_dec lo hi) as [EQ|NE].
  - exists (padded (lo - 1) n [1]). split; [apply weights_single; lia|].
    split; [apply length_padded; cbn; lia|]. split; [unfold padded; rewrite !Rsum_app, !Rsum_repeat; cbn; lra|].
    intros d Hd. rewrite (single_0_in e lo hi bmin bmax d n) by (auto; lia). do 2 f_equal.
    rewrite wmean_padded by (cbn; lia). unfold wmean. cbn. field.
  - assert (K2 : (2 <= hi - lo)%nat) by lia.
    assert (WL := wL_nonneg e lo hi bmin bmax HI HL K2).
    assert (PN : 0 < INR (hi - lo - 1)) by (apply lt_0_INR; lia).
    assert (SP : forall p ws, Rsum (padded p n ws) = Rsum ws).
    { intros. unfold padded. rewrite !Rsum_app, !Rsum_repeat. ring. }
    destruct (Nat.eq_dec lo 0) as [Z|Z]; destruct (Nat.eq_dec hi (S n)) as [Z'|Z'].
    + lia.
    + set (ws := repeat 1 (hi - lo - 1) ++ [wL e hi bmax]).
      assert (LW : length ws = (hi - lo)%nat) by (unfold ws; rewrite app_length, repeat_length; cbn; lia).
      exists (padded 0 n ws). split; [|split; [|split]].
      * apply weights_general; [exact K2| |lia]. rewrite LW. apply (gw_C e lo hi bmin bmax HI HL K2); lia.
      * apply length_padded. lia.
      * rewrite SP. unfold ws. rewrite Rsum_app, Rsum_repeat, Rsum_cons. change (Rsum []) with 0. lra.
      * intros d Hd. rewrite wmean_padded by lia. rewrite LW. apply (single_C e lo hi bmin bmax d n); auto; lia.
    + assert (WF := wF_range e lo hi bmin bmax HI HL K2 Z).
      set (ws := wF e lo bmin :: repeat 1 (hi - lo - 1)).
      assert (LW : length ws = (hi - lo)%nat) by (unfold ws; cbn [length]; rewrite repeat_length; lia).
      exists (padded (lo - 1) n ws). split; [|split; [|split]].
      * apply weights_general; [exact K2| |lia]. rewrite LW.
        replace (Z.of_nat (lo - 1)) with (Z.of_nat lo - 1)%Z by lia. apply (gw_B e lo hi bmin bmax HI HL K2); lia.
      * apply length_padded. lia.
      * rewrite SP. unfold ws. rewrite Rsum_cons, Rsum_repeat. lra.
      * intros d Hd. rewrite wmean_padded by lia. rewrite LW. apply (single_B e lo hi bmin bmax d n); auto; lia.
    + assert (WF := wF_range e lo hi bmin bmax HI HL K2 Z).
      set (ws := wF e lo bmin :: repeat 1 (hi - lo - 1) ++ [wL e hi bmax]).
      assert (LW : length ws = S (hi - lo)) by (unfold ws; cbn [length]; rewrite app_length, repeat_length; cbn; lia).
      exists (padded (lo - 1) n ws). split; [|split; [|split]].
      * apply weights_general; [exact K2| |lia]. rewrite LW.
        replace (Z.of_nat (lo - 1)) with (Z.of_nat lo - 1)%Z by lia. apply (gw_A e lo hi bmin bmax HI HL K2); lia.
      * apply length_padded. lia.
      * rewrite SP. unfold ws. rewrite Rsum_cons, Rsum_app, Rsum_repeat, Rsum_cons. change (Rsum []) with 0. lra.
      * intros d Hd. rewrite wmean_padded by lia. rewrite LW. apply (single_A e lo hi bmin bmax d n); auto; lia.
Qed.

End WeightsFn.

(** ** Errors on identical bins *)

Lemma length_bin_lengths : forall e n, length e = S n -> length (bin_lengths e) = n.
Proof.
  intros e n He. unfold bin_lengths. rewrite map2_length, length_tl, length_removelast. lia.
Qed.

Lemma nth_bin_lengths : forall e n i, length e = S n -> (i < n)%nat ->
  nth i (bin_lengths e) 0 = nth (S i) e 0 - nth i e 0.
Proof.
  intros e n i He Hi. unfold bin_lengths.
  rewrite (nth_map2 _ _ _ _ _ _ i 0 0 0) by (rewrite ?length_tl, ?length_removelast; lia).
  rewrite nth_tl, nth_removelast by lia. reflexivity.
Qed.

Lemma get_bin_length : forall e n z, length e = S n -> (0 <= z < Z.of_nat n)%Z ->
  py_get (bin_lengths e) z = Ok (nth (S (Z.to_nat z)) e 0 - nth (Z.to_nat z) e 0).
Proof.
  intros e n z He Hz. rewrite (py_get_ok _ _ _ 0) by (rewrite (length_bin_lengths e n He); lia).
  now rewrite (nth_bin_lengths e n) by (auto; lia).
Qed.

Lemma nsqrt_sq : forall s, 0 <= s -> nsqrt (Some (s * s)) = Some s.
Proof. intros s Hs. unfold nsqrt, np_sqrt. rewrite Rlt_bool_f by nra. f_equal. now apply sqrt_square. Qed.

Section SigmaSame.
Variables (e : list R) (n : nat) (s : list R) (i : nat).
Hypothesis HI : increasing e.
Hypothesis He : length e = S n.
Hypothesis Hs : length s = n.
Hypothesis Hi : (i < n)%nat.
Hypothesis Hs0 : forall x, In x s -> 0 <= x.

Let bmin := nth i e 0.
Let bmax := nth (S i) e 0.

Lemma Ein : edges_in e bmin bmax = [i; S i].
Proof.
  unfold bmin, bmax. rewrite (edges_in_located e i (i + 2) _ _ (located_same e n i HI He Hi)).
  replace (i + 2 - i)%nat with 2%nat by lia. reflexivity.
Qed.

Lemma width : forall j, (j < n)%nat -> 0 < nth (S j) e 0 - nth j e 0.
Proof. intros j Hj. pose proof (HI j (S j) ltac:(lia)). lra. Qed.

Lemma s_nonneg : forall j, (j < n)%nat -> 0 <= nth j s 0.
Proof. intros j Hj. apply Hs0. apply nth_In. lia. Qed.

Lemma py_set_2nd : forall A (a b v : A), py_set [a; b] (-1) v = Ok [a; v].
Proof. reflexivity. Qed.
Lemma py_set_3rd : forall A (a b c v : A), py_set [a; b; c] (-1) v = Ok [a; b; v].
Proof. reflexivity. Qed.
Lemma py_set_1st : forall A (a v : A) l, py_set (a :: l) 0 v = Ok (v :: l).
Proof. intros. apply py_set_first. Qed.

Ltac geti := repeat first
  [ rewrite (py_get_ok _ e _ 0) by lia | rewrite (py_get_ok _ s _ 0) by lia
  | rewrite (get_bin_length e n _ He) by lia | progress cbn [bind] ].

Lemma mean_sq : forall a b w1 w2, 0 <= a * a + b * b -> 0 < w1 + w2 ->
  nsqrt (ndiv (Some (a * a + b * b)) (Some ((w1 + w2) * (w1 + w2))))
  = Some (sqrt (a * a + b * b) / (w1 + w2)).
Proof.
  intros a b w1 w2 H Hw. unfold ndiv, nsqrt. rewrite fdiv_ok by nra. unfold np_sqrt.
  rewrite Rlt_bool_f. 2: { apply Rmult_le_pos; [exact H|]. left. apply Rinv_0_lt_compat. nra. }
  f_equal. rewrite sqrt_div_alt by nra. f_equal. apply sqrt_square. lra.
Qed.

Lemma one_sq : forall a w, 0 <= a -> w <> 0 ->
  nsqrt (ndiv (Some (w * a * (w * a))) (Some (w * w))) = Some a.
Proof.
  intros a w Ha Hw. unfold ndiv. rewrite fdiv_ok by nra.
  replace (w * a * (w * a) / (w * w)) with (a * a) by (field; exact Hw). now apply nsqrt_sq.
Qed.

Lemma sigma_first : i = 0%nat -> (2 <= n)%nat ->
  rebin_1d_single_bin_sigma e s bmin bmax = Ok (Some (nth 0 s 0)).
Proof.
  intros H0 H1. unfold rebin_1d_single_bin_sigma. rewrite Ein. cbn [length].
  change [i; S i] with (seq i 2).
  pose proof (start_C e i (i + 2)) as ST. replace (i + 2 - i)%nat with 2%nat in ST by lia.
  rewrite ST by lia. clear ST. cbn [bind].
  change (zrange 0 2) with [0%Z; 1%Z]. cbn [mapM]. geti.
  change (py_get [0%Z; 1%Z] 0) with (Ok 0%Z). cbn [bind].
  change (0 =? 0)%Z with true. cbn [negb bind].
  change (py_get [0%Z; 1%Z] (-1)) with (Ok 1%Z). cbn [bind].
  replace (1 =? Z.of_nat (length e) - 1)%Z with false by (symmetry; apply Z.eqb_neq; lia). cbn [negb].
  geti. change (repeat (Some 1) 2) with [Some 1; Some 1]. rewrite !py_set_2nd. cbn [bind map].
  change (Z.to_nat 0) with 0%nat. change (Z.to_nat 1) with 1%nat.
  pose proof (width 0 ltac:(lia)) as W0. unfold bmax. rewrite H0.
  rewrite (Rlt_bool_t 0 (nth 1 e 0 - nth 0 e 0)), (Rlt_bool_f 0 (nth 1 e 0 - nth 1 e 0)) by lra.
  change (np_where [true; false]) with [0%nat]. cbn [take map nth mapM]. geti.
  change (Z.to_nat 0) with 0%nat. cbn [map2]. rewrite fdiv_ok by lra.
  replace ((nth 1 e 0 - nth 0 e 0) / (nth 1 e 0 - nth 0 e 0)) with 1 by (field; lra).
  f_equal. cbn. rewrite !Rplus_0_r, !Rmult_1_r, Rmult_1_l.
  replace (nth 0 s 0 * nth 0 s 0) with (1 * nth 0 s 0 * (1 * nth 0 s 0)) by ring.
  rewrite <- (Rmult_1_l 1) at 3. apply (one_sq (nth 0 s 0) 1); [apply s_nonneg; lia|lra].
Qed.

Lemma zrange2 : forall z, zrange z 2 = [z; (z + 1)%Z].
Proof. intros z. rewrite !zrange_cons. reflexivity. Qed.
Lemma zrange3 : forall z, zrange z 3 = [z; (z + 1)%Z; (z + 1 + 1)%Z].
Proof. intros z. rewrite !zrange_cons. reflexivity. Qed.
Lemma get0 : forall A (a : A) l, py_get (a :: l) 0 = Ok a.
Proof. intros. unfold py_get. reflexivity. Qed.
Lemma getl2 : forall A (a b : A), py_get [a; b] (-1) = Ok b.
Proof. reflexivity. Qed.
Lemma getl3 : forall A (a b c : A), py_get [a; b; c] (-1) = Ok c.
Proof. reflexivity. Qed.

Ltac idx := replace (Z.to_nat (Z.of_nat i - 1)) with (i - 1)%nat by lia;
  replace (Z.to_nat (Z.of_nat i - 1 - 1)) with (i - 2)%nat by lia;
  replace (Z.to_nat (Z.of_nat i - 1 + 1)) with i by lia;
  replace (Z.to_nat (Z.of_nat i - 1 + 1 - 1)) with (i - 1)%nat by lia;
  replace (Z.to_nat (Z.of_nat i - 1 + 1 + 1)) with (S i) by lia;
  replace (Z.to_nat (Z.of_nat i - 1 + 1 + 1 - 1)) with i by lia;
  replace (S (i - 1)) with i by lia.

(** Last bin, three bins or more. *)
Lemma sigma_last : (3 <= n)%nat -> i = (n - 1)%nat ->
  rebin_1d_single_bin_sigma e s bmin bmax = Ok (Some (nth i s 0)).
Proof.
  intros H0 H1. unfold rebin_1d_single_bin_sigma. rewrite Ein. cbn [length].
  change [i; S i] with (seq i 2).
  pose proof (start_BD e i (i + 2)) as ST. replace (i + 2 - i)%nat with 2%nat in ST by lia.
  rewrite ST by lia. clear ST. cbn [bind]. rewrite zrange2. cbn [mapM]. geti.
  rewrite get0. cbn [bind].
  replace (Z.of_nat i - 1 =? 0)%Z with false by (symmetry; apply Z.eqb_neq; lia). cbn [negb]. geti.
  change (repeat (Some 1) 2) with [Some 1; Some 1]. rewrite !py_set_1st. cbn [bind].
  rewrite getl2. cbn [bind].
  replace (Z.of_nat i - 1 + 1 =? Z.of_nat (length e) - 1)%Z with false by (symmetry; apply Z.eqb_neq; lia).
  cbn [negb]. geti. rewrite !py_set_2nd. cbn [bind map]. idx.
  pose proof (width (i - 1) ltac:(lia)) as W0. replace (S (i - 1)) with i in W0 by lia.
  pose proof (width i ltac:(lia)) as W1. unfold bmin, bmax.
  rewrite (Rlt_bool_f 0 (nth (i - 1) e 0 - nth i e 0)), (Rlt_bool_t 0 (nth (S i) e 0 - nth i e 0)) by lra.
  change (np_where [false; true]) with [1%nat]. cbn [take map nth mapM]. geti. idx.
  cbn [map2]. rewrite !fdiv_ok by lra.
  replace ((nth (S i) e 0 - nth i e 0) / (nth (S i) e 0 - nth i e 0)) with 1 by (field; lra).
  set (r := (nth (S i) e 0 - nth i e 0) / (nth i e 0 - nth (i - 1) e 0)).
  assert (Hr : 0 < r) by (apply Rdiv_lt_0_compat; lra).
  f_equal. unfold nsum, nsq, nmul. cbn [fold_right nadd]. rewrite !Rplus_0_r, Rmult_1_r.
  apply one_sq; [apply s_nonneg; lia|lra].
Qed.

(** Second and last of two bins. *)
Lemma sigma_last2 : n = 2%nat -> i = 1%nat ->
  let r := (nth 2 e 0 - nth 1 e 0) / (nth 1 e 0 - nth 0 e 0) in
  rebin_1d_single_bin_sigma e s bmin bmax
  = Ok (Some (sqrt (nth 0 s 0 * nth 0 s 0 + (r * nth 1 s 0) * (r * nth 1 s 0)) / (1 + r))).
Proof.
  intros H0 H1 r. unfold rebin_1d_single_bin_sigma. rewrite Ein. cbn [length].
  change [i; S i] with (seq i 2).
  pose proof (start_BD e i (i + 2)) as ST. replace (i + 2 - i)%nat with 2%nat in ST by lia.
  rewrite ST by lia. clear ST. cbn [bind]. rewrite zrange2. cbn [mapM]. geti.
  rewrite get0. cbn [bind].
  replace (Z.of_nat i - 1 =? 0)%Z with true by (symmetry; apply Z.eqb_eq; lia). cbn [negb bind].
  change (repeat (Some 1) 2) with [Some 1; Some 1].
  rewrite getl2. cbn [bind].
  replace (Z.of_nat i - 1 + 1 =? Z.of_nat (length e) - 1)%Z with false by (symmetry; apply Z.eqb_neq; lia).
  cbn [negb]. geti. rewrite !py_set_2nd. cbn [bind map]. idx.
  pose proof (width 0 ltac:(lia)) as W0. pose proof (width 1 ltac:(lia)) as W1. unfold bmin, bmax.
  rewrite H1. change (1 - 1)%nat with 0%nat.
  rewrite (Rlt_bool_t 0 (nth 1 e 0 - nth 0 e 0)), (Rlt_bool_t 0 (nth 2 e 0 - nth 1 e 0)) by lra.
  change (np_where [true; true]) with [0%nat; 1%nat]. cbn [take map nth mapM].
  change (Z.of_nat 1 - 1)%Z with 0%Z. change (0 + 1)%Z with 1%Z. geti.
  change (Z.to_nat 0) with 0%nat. change (Z.to_nat 1) with 1%nat.
  cbn [map2]. rewrite !fdiv_ok by lra. fold r.
  replace ((nth 1 e 0 - nth 0 e 0) / (nth 1 e 0 - nth 0 e 0)) with 1 by (field; lra).
  replace ((nth 2 e 0 - nth 1 e 0) / (nth 2 e 0 - nth 1 e 0)) with 1 by (field; lra).
  assert (Hr : 0 < r) by (apply Rdiv_lt_0_compat; lra).
  f_equal. unfold nsum, nsq, nmul. cbn [fold_right nadd]. rewrite !Rplus_0_r, !Rmult_1_r, !Rmult_1_l.
  apply (mean_sq (nth 0 s 0) (r * nth 1 s 0) 1 r); [|lra].
  pose proof (Rle_0_sqr (nth 0 s 0)). pose proof (Rle_0_sqr (r * nth 1 s 0)). unfold Rsqr in *. lra.
Qed.

(** Interior bins. *)
Lemma sigma_mid : (2 <= i)%nat -> (S i < n)%nat ->
  rebin_1d_single_bin_sigma e s bmin bmax = Ok (Some (nth i s 0)).
Proof.
  intros H0 H1. unfold rebin_1d_single_bin_sigma. rewrite Ein. cbn [length].
  change [i; S i] with (seq i 2).
  pose proof (start_A e i (i + 2)) as ST. replace (i + 2 - i)%nat with 2%nat in ST by lia.
  rewrite ST by lia. clear ST. cbn [bind]. rewrite zrange3. cbn [mapM]. geti.
  rewrite get0. cbn [bind].
  replace (Z.of_nat i - 1 =? 0)%Z with false by (symmetry; apply Z.eqb_neq; lia). cbn [negb]. geti.
  change (repeat (Some 1) 3) with [Some 1; Some 1; Some 1]. rewrite !py_set_1st. cbn [bind].
  rewrite getl3. cbn [bind].
  replace (Z.of_nat i - 1 + 1 + 1 =? Z.of_nat (length e) - 1)%Z with false by (symmetry; apply Z.eqb_neq; lia).
  cbn [negb]. geti. rewrite !py_set_3rd. cbn [bind map]. idx.
  pose proof (width (i - 1) ltac:(lia)) as W0. replace (S (i - 1)) with i in W0 by lia.
  pose proof (width i ltac:(lia)) as W1. unfold bmin, bmax.
  rewrite (Rlt_bool_f 0 (nth (i - 1) e 0 - nth i e 0)), (Rlt_bool_t 0 (nth (S i) e 0 - nth i e 0)),
    (Rlt_bool_f 0 (nth (S i) e 0 - nth (S i) e 0)) by lra.
  change (np_where [false; true; false]) with [1%nat]. cbn [take map nth mapM]. geti. idx.
  cbn [map2]. rewrite !fdiv_ok by lra.
  replace ((nth (S i) e 0 - nth i e 0) / (nth (S i) e 0 - nth i e 0)) with 1 by (field; lra).
  f_equal. unfold nsum, nsq, nmul. cbn [fold_right nadd]. rewrite !Rplus_0_r, Rmult_1_r.
  apply (one_sq (nth i s 0) 1); [apply s_nonneg; lia|lra].
Qed.

(** Second bin of three or more. *)
Lemma sigma_second : i = 1%nat -> (3 <= n)%nat ->
  rebin_1d_single_bin_sigma e s bmin bmax
  = Ok (Some (sqrt (nth 0 s 0 * nth 0 s 0 + nth 1 s 0 * nth 1 s 0) / 2)).
Proof.
  intros H0 H1. unfold rebin_1d_single_bin_sigma. rewrite Ein. cbn [length].
  change [i; S i] with (seq i 2).
  pose proof (start_A e i (i + 2)) as ST. replace (i + 2 - i)%nat with 2%nat in ST by lia.
  rewrite ST by lia. clear ST. cbn [bind]. rewrite zrange3. cbn [mapM]. geti.
  rewrite get0. cbn [bind].
  replace (Z.of_nat i - 1 =? 0)%Z with true by (symmetry; apply Z.eqb_eq; lia). cbn [negb bind].
  change (repeat (Some 1) 3) with [Some 1; Some 1; Some 1].
  rewrite getl3. cbn [bind].
  replace (Z.of_nat i - 1 + 1 + 1 =? Z.of_nat (length e) - 1)%Z with false by (symmetry; apply Z.eqb_neq; lia).
  cbn [negb]. geti. rewrite !py_set_3rd. cbn [bind map]. idx.
  pose proof (width 0 ltac:(lia)) as W0. pose proof (width 1 ltac:(lia)) as W1. unfold bmin, bmax.
  rewrite H0. change (1 - 1)%nat with 0%nat.
  rewrite (Rlt_bool_t 0 (nth 1 e 0 - nth 0 e 0)), (Rlt_bool_t 0 (nth 2 e 0 - nth 1 e 0)),
    (Rlt_bool_f 0 (nth 2 e 0 - nth 2 e 0)) by lra.
  change (np_where [true; true; false]) with [0%nat; 1%nat]. cbn [take map nth mapM].
  change (Z.of_nat 1 - 1)%Z with 0%Z. change (0 + 1)%Z with 1%Z. geti.
  change (Z.to_nat 0) with 0%nat. change (Z.to_nat 1) with 1%nat.
  cbn [map2]. rewrite !fdiv_ok by lra.
  replace ((nth 1 e 0 - nth 0 e 0) / (nth 1 e 0 - nth 0 e 0)) with 1 by (field; lra).
  replace ((nth 2 e 0 - nth 1 e 0) / (nth 2 e 0 - nth 1 e 0)) with 1 by (field; lra).
  f_equal. unfold nsum, nsq, nmul. cbn [fold_right nadd]. rewrite !Rplus_0_r, !Rmult_1_r, !Rmult_1_l.
  replace 2 with (1 + 1) by ring.
  apply (mean_sq (nth 0 s 0) (nth 1 s 0) 1 1); [|lra].
  pose proof (Rle_0_sqr (nth 0 s 0)). pose proof (Rle_0_sqr (nth 1 s 0)). unfold Rsqr in *. lra.
Qed.

(** A single bin. *)
Lemma sigma_only : n = 1%nat -> rebin_1d_single_bin_sigma e s bmin bmax = Ok None.
Proof.
  intros H0. assert (H1 : i = 0%nat) by lia. unfold rebin_1d_single_bin_sigma. rewrite Ein. cbn [length].
  change [i; S i] with (seq i 2).
  pose proof (start_BD e i (i + 2)) as ST. replace (i + 2 - i)%nat with 2%nat in ST by lia.
  rewrite ST by lia. clear ST. cbn [bind]. unfold bmin, bmax. rewrite H1.
  pose proof (width 0 ltac:(lia)) as W0.
  destruct e as [|a [|b [|]]]; try (cbn in He; lia). destruct s as [|x [|]]; try (cbn in Hs; lia).
  cbn [nth] in *. change (zrange (Z.of_nat 0 - 1) 2) with [(-1)%Z; 0%Z]. cbn [length repeat mapM].
  change (py_get (bin_lengths [a; b]) (-1)) with (Ok (b - a)).
  change (py_get (bin_lengths [a; b]) 0) with (Ok (b - a)). cbn [bind].
  change (py_get [(-1)%Z; 0%Z] 0) with (Ok (-1)%Z). cbn [bind].
  change (negb (-1 =? 0)%Z) with true. cbn iota.
  change (py_get [a; b] (-1)) with (Ok b). change (py_get [a; b] (-1 - 1)) with (Ok a). cbn [bind].
  rewrite !py_set_1st. cbn [bind]. rewrite getl2. cbn [bind].
  change (negb (0 =? Z.of_nat 2 - 1)%Z) with true. cbn iota.
  change (py_get [a; b] 0) with (Ok a). change (py_get [a; b] (0 - 1)) with (Ok b). cbn [bind].
  rewrite !py_set_2nd. cbn [bind map]. rewrite !Rlt_bool_t by lra.
  change (np_where [true; true]) with [0%nat; 1%nat]. cbn [take map nth mapM].
  change (py_get [x] (-1)) with (Ok x). change (py_get [x] 0) with (Ok x). cbn [bind].
  change (py_get (bin_lengths [a; b]) (-1)) with (Ok (b - a)).
  change (py_get (bin_lengths [a; b]) 0) with (Ok (b - a)). cbn [bind map2].
  rewrite !fdiv_ok by lra. f_equal. unfold nsum, nsq, nmul, ndiv. cbn [fold_right nadd].
  unfold fdiv. rewrite Req_bool_true; [reflexivity|]. field. lra.
Qed.
End SigmaSame.
