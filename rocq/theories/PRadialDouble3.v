(** * Lemmas: cumulative profiles in double precision *)

From Coq Require Import Reals ZArith List Bool Lia Lra Psatz Permutation.
From Flocq Require Import Core IEEE754.BinarySingleNaN.
From Verif Require Import TDenseDouble Base BaseP SpecGrid SpecRemap PGrids MHealpixFloat PHealpixFloat SpecDouble MDouble PDouble
  MRemapDouble MGridsDouble PGridsDouble MSumDouble PSumDouble PDense PDenseDouble PRemap2 PRadial MOneDDouble PRebinDouble PRebinDouble2 PRebinDouble4 SpecSigmaDouble PSigmaDouble PSigmaDouble2 PSigmaDouble4
  PPiDouble SpecRadialDouble MRadialDouble PRadialDouble PRadialDouble2.
Import ListNotations.
Open Scope R_scope.

(** ** Running sums *)

(** From the left, starting with the first entry. *)
Fixpoint comb (n : nat) : tree := match n with O => Zero | S O => Entry 0 | S n => Plus (comb n) (Entry n) end.

Lemma comb_ok : order_ok comb.
Proof.
  intros n. induction n as [|n IH]; [constructor|]. destruct n as [|n]; [repeat constructor|]. change (comb (S (S n))) with (Plus (comb (S n)) (Entry (S n))). cbn [leaves]. rewrite seq_S. now apply Permutation_app_tail.
Qed.

Lemma cumsum_from_nth : forall l acc k, (k < length l)%nat -> nth k (cumsum_from_d acc l) dzero = dadd (match k with O => acc | S j => nth j (cumsum_from_d acc l) dzero end) (nth k l dzero).
Proof.
  induction l as [|a l IH]; intros acc k Hk; [cbn in Hk; lia|]. cbn [cumsum_from_d]. destruct k as [|k]; [reflexivity|]. cbn [nth length] in *. rewrite IH by lia. destruct k; reflexivity.
Qed.

Lemma cumsum_nth : forall l k, (k < length l)%nat -> nth k (cumsum_d l) dzero = match k with O => nth 0 l dzero | S j => dadd (nth j (cumsum_d l) dzero) (nth k l dzero) end.
Proof.
  intros [|a l] k Hk; [cbn in Hk; lia|]. destruct k as [|k]; [reflexivity|]. cbn [cumsum_d nth length] in *. rewrite cumsum_from_nth by lia. destruct k; reflexivity.
Qed.

Lemma cumsum_length : forall l, length (cumsum_d l) = length l.
Proof. intros [|a l]; [reflexivity|]. cbn. f_equal. revert a. induction l as [|b l IH]; intros a; [reflexivity|]. cbn. now rewrite IH. Qed.

Lemma add_up_ext : forall l l' t, (forall k, In k (leaves t) -> nth k l dzero = nth k l' dzero) -> add_up t l = add_up t l'.
Proof.
  intros l l' t. induction t as [|k|a IHa b IHb]; intros H; cbn [add_up leaves] in *; [reflexivity|apply H; now left|].
  rewrite IHa, IHb; [reflexivity| |]; intros k Hk; apply H, in_or_app; [now right|now left].
Qed.

Lemma cumsum_sum : forall l k, (k < length l)%nat -> nth k (cumsum_d l) dzero = add_up (comb (S k)) l.
Proof.
  intros l k. induction k as [|k IH]; intros Hk; rewrite cumsum_nth by exact Hk; [reflexivity|]. rewrite IH by lia. reflexivity.
Qed.

Lemma cumsum_tab : forall m x k, (k < m)%nat -> nth k (cumsum_d (tab m x)) dzero = sum_d comb (tab (S k) x).
Proof.
  intros m x k Hk. rewrite cumsum_sum by (rewrite tab_length; exact Hk). unfold sum_d. rewrite tab_length. apply add_up_ext. intros i Hi.
  apply (Permutation_in _ (comb_ok (S k))) in Hi. apply in_seq in Hi. rewrite !tab_nth by lia. reflexivity.
Qed.

(** ** The function *)

Definition ring_area (r : list double) (i : nat) : double := dmul pi_d (dsub (sq (nth (S i) r dzero)) (sq (nth i r dzero))).

Lemma ring_areas_tab : forall r m, length r = S m -> ring_areas_d r = tab m (ring_area r).
Proof.
  intros r m L. unfold ring_areas_d. assert (LT : length (tl r) = m) by (destruct r; cbn in *; lia). assert (LR : length (removelast r) = m) by (rewrite removelast_firstn_len, firstn_length; unfold double in *; lia).
  apply (nth_ext _ _ dzero dzero); [rewrite map2_length, tab_length; unfold double in *; lia|]. intros i Hi. rewrite map2_length in Hi. unfold double in *. rewrite tab_nth by lia.
  rewrite (nth_map2 _ _ _ _ _ _ i dzero dzero dzero) by (unfold double in *; lia). rewrite nth_tl, nth_removelast by (unfold double in *; lia). reflexivity.
Qed.

Lemma bmul_tab : forall m a f, length f = m -> bmul_d (tab m a) f = Ok (tab m (fun i => dmul (a i) (nth i f dzero))).
Proof.
  intros m a f L. unfold bmul_d. rewrite tab_length. unfold double in *. rewrite L, Nat.eqb_refl. f_equal.
  apply (nth_ext _ _ dzero dzero); [rewrite map2_length, !tab_length; lia|]. intros i Hi. rewrite map2_length, tab_length in Hi. rewrite (nth_map2 _ _ _ _ _ _ i dzero dzero dzero) by (rewrite ?tab_length; unfold double in *; lia). now rewrite !tab_nth by lia.
Qed.

Lemma set_tail_ok : forall m v, length v = m -> set_tail_d (repeat dzero (S m)) v = Ok (dzero :: v).
Proof. intros m v L. unfold set_tail_d. cbn [repeat tl firstn app]. rewrite repeat_length. unfold double in *. rewrite L, Nat.eqb_refl. reflexivity. Qed.

Definition var_area (r s : list double) (i : nat) : double := sq (dmul (ring_area r i) (nth i s dzero)).

Lemma cumulative_ok : forall r f sigma m, length r = S m -> length f = m -> (match sigma with Some s => length s = m | None => True end) ->
  cumulative_radial_d r f sigma = Ok (dzero :: cumsum_d (tab m (fun i => dmul (ring_area r i) (nth i f dzero))),
    option_map (fun s => map dsqrt (dzero :: cumsum_d (tab m (var_area r s)))) sigma).
Proof.
  intros r f sigma m Lr Lf Ls. unfold cumulative_radial_d. cbv zeta. rewrite (ring_areas_tab r m Lr), bmul_tab by exact Lf. cbn [bind]. unfold double in *. rewrite Lr.
  rewrite set_tail_ok by (rewrite cumsum_length, tab_length; reflexivity). cbn [bind]. destruct sigma as [s|]; [|reflexivity]. rewrite bmul_tab by exact Ls. cbn [bind].
  rewrite set_tail_ok by (rewrite cumsum_length, map_length, tab_length; reflexivity). cbn [bind option_map]. rewrite tab_map. reflexivity.
Qed.

(** ** No order is lost *)

(** Not below zero; infinity is allowed, NaN is not. *)
Definition nonneg (x : double) : Prop := dle dzero x = true.

Lemma nonneg_cases : forall x, nonneg x -> (fin x /\ 0 <= val x) \/ x = B754_infinity false.
Proof.
  intros x H. unfold nonneg, dle in H. destruct x as [s|[|]| |s m e B]; try discriminate; [left; split; [reflexivity|apply Rle_refl]|now right|left].
  split; [reflexivity|]. rewrite Bleb_correct in H by reflexivity. destruct (Rle_bool_spec (B2R dzero) (B2R (B754_finite s m e B))) as [L|L]; [exact L|]. discriminate.
Qed.

Lemma dle_ok : forall x y, fin x -> fin y -> val x <= val y -> dle x y = true.
Proof. intros x y Fx Fy H. unfold dle. rewrite Bleb_correct by assumption. now apply Rle_bool_true. Qed.

Lemma fin_nonneg : forall x, fin x -> 0 <= val x -> nonneg x.
Proof. intros x F H. apply dle_ok; auto. reflexivity. Qed.

Lemma dle_inf : forall x, nonneg x -> dle x (B754_infinity false) = true.
Proof. intros x H. destruct (nonneg_cases x H) as [[F _]| ->]; [|reflexivity]. destruct x as [s|s| |s m e B]; try discriminate; destruct s; reflexivity. Qed.

Lemma sign_pos : forall x, fin x -> 0 < val x -> Bsign x = false.
Proof.
  intros x F H. destruct x as [s|s| |s m e B]; try discriminate; [cbn in H; lra|]. destruct s; [|reflexivity]. exfalso.
  pose proof (F2R_lt_0 radix2 (Float radix2 (Z.neg m) e) ltac:(cbn; lia)) as L. change (val (B754_finite true m e B)) with (F2R (Float radix2 (Z.neg m) e)) in H. lra.
Qed.

Lemma add_up_order : forall x y, nonneg x -> nonneg y -> nonneg (dadd x y) /\ dle x (dadd x y) = true.
Proof.
  intros x y Hx Hy. destruct (nonneg_cases x Hx) as [[Fx Px]| ->]; [|destruct (nonneg_cases y Hy) as [[Fy _]| ->]; [destruct y as [s|s| |s m e B]; try discriminate; split; reflexivity|split; reflexivity]].
  destruct (nonneg_cases y Hy) as [[Fy Py]| ->].
  - destruct (Rlt_or_le (Rabs (fl (val x + val y))) (b2 1024)) as [L|L].
    + destruct (dadd_ok x y Fx Fy L) as [F V]. split; [apply fin_nonneg; [exact F|]|apply dle_ok; auto]; rewrite V.
      * rewrite <- fl_0. apply fl_mono. lra.
      * apply Rle_trans with (fl (val x)); [rewrite fl_fmt by apply fmt_val; lra|apply fl_mono; lra].
    + pose proof (@Bplus_correct 53 1024 p53 p1024 mode_NE x y Fx Fy) as C. change (round radix2 _ _ _) with (fl (val x + val y)) in C. rewrite Rlt_bool_false in C by exact L. destruct C as [C S].
      assert (PZ : 0 < val x + val y).
      { destruct (Rle_lt_or_eq_dec 0 (val x + val y)) as [P|E]; [lra|exact P|exfalso]. rewrite <- E in L. rewrite fl_0, Rabs_R0 in L. pose proof (bpow_gt_0 radix2 1024). lra. }
      assert (SG : Bsign x = false).
      { destruct (Req_dec (val x) 0) as [Z|Z]; [rewrite S; apply sign_pos; [exact Fy|lra]|apply sign_pos; [exact Fx|lra]]. }
      rewrite SG in C. assert (E : dadd x y = B754_infinity false) by (apply B2SF_inj; exact C). rewrite E. split; [reflexivity|now apply dle_inf].
  - destruct x as [s|s| |s m e B]; try discriminate; split; reflexivity || (apply dle_inf; exact Hx).
Qed.

Lemma mul_order : forall x y, fin x -> 0 <= val x -> fin y -> 0 <= val y -> nonneg (dmul x y).
Proof.
  intros x y Fx Px Fy Py. destruct (Rlt_or_le (Rabs (fl (val x * val y))) (b2 1024)) as [L|L].
  - destruct (dmul_ok x y Fx Fy L) as [F V]. apply fin_nonneg; [exact F|]. rewrite V, <- fl_0. apply fl_mono. apply Rmult_le_pos; assumption.
  - pose proof (@Bmult_correct 53 1024 p53 p1024 mode_NE x y) as C. change (round radix2 _ _ _) with (fl (val x * val y)) in C. rewrite Rlt_bool_false in C by exact L.
    assert (NZ : val x * val y <> 0).
    { intros E. rewrite E in L. rewrite fl_0, Rabs_R0 in L. pose proof (bpow_gt_0 radix2 1024). lra. }
    assert (val x <> 0 /\ val y <> 0) as [N1 N2] by (split; intros E; apply NZ; rewrite E; ring).
    rewrite (sign_pos x), (sign_pos y) in C by (auto; lra). assert (E : dmul x y = B754_infinity false) by (apply B2SF_inj; exact C). rewrite E. reflexivity.
Qed.

Lemma sq_order : forall x, is_nan x = false -> nonneg x -> nonneg (sq x).
Proof. intros x N H. destruct (nonneg_cases x H) as [[F P]| ->]; [now apply mul_order|reflexivity]. Qed.

Lemma sqrt_order : forall x y, nonneg x -> nonneg y -> dle x y = true -> nonneg (dsqrt x) /\ dle (dsqrt x) (dsqrt y) = true.
Proof.
  intros x y Hx Hy L. destruct (nonneg_cases x Hx) as [[Fx Px]| ->].
  - destruct (dsqrt_ok x Fx Px) as [Fs Vs]. assert (NS : nonneg (dsqrt x)) by (apply fin_nonneg; [exact Fs|]; rewrite Vs, <- fl_0; apply fl_mono, sqrt_pos).
    split; [exact NS|]. destruct (nonneg_cases y Hy) as [[Fy Py]| ->]; [|exact (dle_inf _ NS)]. destruct (dsqrt_ok y Fy Py) as [Ft Vt]. apply dle_ok; auto. rewrite Vs, Vt. apply fl_mono, sqrt_le_1_alt.
    unfold dle in L. rewrite Bleb_correct in L by assumption. destruct (Rle_bool_spec (B2R x) (B2R y)) as [Q|Q]; [exact Q|discriminate].
  - split; [reflexivity|]. destruct (nonneg_cases y Hy) as [[Fy Py]| ->]; [|reflexivity]. exfalso. destruct y as [s|s| |s m e B]; try discriminate; destruct s; discriminate.
Qed.

Lemma cumsum_order : forall l, (forall x, In x l -> nonneg x) -> forall k, (k < length l)%nat -> nonneg (nth k (cumsum_d l) dzero) /\ ((S k < length l)%nat -> dle (nth k (cumsum_d l) dzero) (nth (S k) (cumsum_d l) dzero) = true).
Proof.
  intros l H k Hk. assert (N : nonneg (nth k (cumsum_d l) dzero)).
  { revert Hk. induction k as [|k IH]; intros Hk; rewrite cumsum_nth by exact Hk; [apply H, nth_In, Hk|]. apply add_up_order; [apply IH; lia|apply H, nth_In, Hk]. }
  split; [exact N|]. intros Hk'. rewrite (cumsum_nth l (S k)) by exact Hk'. apply add_up_order; [exact N|apply H, nth_In, Hk'].
Qed.

Lemma area_order : forall a b, fin a -> fin b -> 0 <= val a <= val b -> val b <= b2 500 -> fin (dmul pi_d (dsub (sq b) (sq a))) /\ 0 <= val (dmul pi_d (dsub (sq b) (sq a))).
Proof.
  intros a b Fa Fb H HB. assert (SQ : forall x, fin x -> 0 <= val x <= b2 500 -> fin (sq x) /\ val (sq x) = fl (val x * val x) /\ 0 <= val (sq x) <= b2 1000).
  { intros x F [P Q]. assert (B : 0 <= val x * val x <= b2 1000) by (change 1000%Z with (500 + 500)%Z; rewrite bpow_plus; nra).
    assert (A : 0 <= fl (val x * val x) <= b2 1000).
    { split; [rewrite <- fl_0; apply fl_mono; lra|]. pose proof (fl_big (val x * val x) 1000 ltac:(lia)) as G. rewrite Rabs_pos_eq in G by lra. specialize (G ltac:(lra)). apply Rabs_le_inv in G. lra. }
    destruct (dmul_ok x x F F) as [Fs Vs]; [rewrite Rabs_pos_eq by lra; apply Rle_lt_trans with (b2 1000); [lra|apply bpow_lt; lia]|]. unfold sq. rewrite Vs. repeat split; try lra. exact Fs. }
  destruct (SQ a Fa ltac:(lra)) as (F1 & V1 & B1). destruct (SQ b Fb ltac:(lra)) as (F2 & V2 & B2).
  assert (O : val (sq a) <= val (sq b)) by (rewrite V1, V2; apply fl_mono; nra).
  assert (A : 0 <= fl (val (sq b) - val (sq a)) <= b2 1000).
  { split; [rewrite <- fl_0; apply fl_mono; lra|]. pose proof (fl_big (val (sq b) - val (sq a)) 1000 ltac:(lia)) as G. rewrite Rabs_pos_eq in G by lra. specialize (G ltac:(lra)). apply Rabs_le_inv in G. lra. }
  destruct (dsub_ok (sq b) (sq a) F2 F1) as [F3 V3]; [rewrite Rabs_pos_eq by lra; apply Rle_lt_trans with (b2 1000); [lra|apply bpow_lt; lia]|].
  destruct pi_val as [Fp Vp]. pose proof tau_bounds as T. rewrite <- V3 in A. set (d := dsub (sq b) (sq a)) in *.
  assert (A2 : 0 <= val pi_d * val d <= b2 1002).
  { rewrite Vp. change 1002%Z with (2 + 1000)%Z. rewrite bpow_plus. change (b2 2) with 4. split; [apply Rmult_le_pos; lra|apply Rmult_le_compat; lra]. }
  assert (A3 : 0 <= fl (val pi_d * val d) <= b2 1002).
  { split; [rewrite <- fl_0; apply fl_mono; lra|]. pose proof (fl_big (val pi_d * val d) 1002 ltac:(lia)) as G. rewrite Rabs_pos_eq in G by lra. specialize (G ltac:(lra)). apply Rabs_le_inv in G. lra. }
  destruct (dmul_ok pi_d d Fp F3) as [F4 V4]; [rewrite Rabs_pos_eq by lra; apply Rle_lt_trans with (b2 1002); [lra|apply bpow_lt; lia]|]. split; [exact F4|]. rewrite V4. lra.
Qed.
