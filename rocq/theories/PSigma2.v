(** * Errors of rebinned values: consequences *)

From Coq Require Import Reals ZArith List Bool Lra Lia Psatz.
From Flocq Require Import Core.Raux.
From Verif Require Import Base BaseP SpecGrid SpecRebin MGrids MUtils MOneD PGrids PRadial PUtils.
From Verif Require Import PPolarCoords POneD POneD2 POneD3 PSigma.
Import ListNotations.
Open Scope R_scope.

Lemma list1 : forall l : list R, length l = 1%nat -> exists a, l = [a].
Proof. intros [|a [|b l]] H; cbn in H; try lia. eauto. Qed.
Lemma list2 : forall l : list R, length l = 2%nat -> exists a b, l = [a; b].
Proof. intros [|a [|b [|c l]]] H; cbn in H; try lia. eauto. Qed.

(** New bins without an error. *)
Definition no_error (e : list R) (n : nat) (a b : R) : Prop :=
  a = b \/ b <= nth 0 e 0 \/ nth n e 0 <= a \/
  (n = 1%nat /\ a <= nth 0 e 0 /\ nth 1 e 0 <= b /\ a + b = nth 0 e 0 + nth 1 e 0).

Definition by_pieces (e : list R) (n : nat) (bmin bmax : R) : Prop :=
  exists ps, (forall p, In p ps -> 0 < extent p /\ (bin p < n)%nat) /\ Rsum (map share ps) <> 0 /\
  forall s, length s = n -> rebin_1d_single_bin_sigma e s bmin bmax = Ok (Some (propagated e s ps)).

Lemma le_edges : forall e n, increasing e -> length e = S n -> forall i k, (i <= k <= n)%nat -> nth i e 0 <= nth k e 0.
Proof. intros e n HI He i k H. destruct (Nat.eq_dec i k) as [->|]; [lra|]. left. apply HI. lia. Qed.

Lemma one_piece : forall e n bmin bmax l i, increasing e -> length e = S n -> 0 < l -> (i < n)%nat ->
  (forall s, length s = n -> rebin_1d_single_bin_sigma e s bmin bmax = Ok (sigma_part (nth i s 0) (bin_length e i) l)) -> by_pieces e n bmin bmax.
Proof.
  intros e n bmin bmax l i HI He Hl Hi H. exists [Piece 1 l i]. split; [intros p [<-|[]]; cbn [extent bin]; auto|]. split; [cbn; lra|].
  intros s Hs. rewrite H by exact Hs. rewrite propagated_nil_part by (auto; apply (len_pos e n); auto). reflexivity.
Qed.

Lemma no_length : forall x L, sigma_part x L 0 = None.
Proof. intros x L. unfold sigma_part, fdiv. rewrite Req_bool_true by reflexivity. reflexivity. Qed.

Lemma sigma_dichotomy : forall e n bmin bmax, increasing e -> length e = S n -> (1 <= n)%nat -> bmin <= bmax ->
  (no_error e n bmin bmax /\ forall s, length s = n -> rebin_1d_single_bin_sigma e s bmin bmax = Ok None) \/
  (~ no_error e n bmin bmax /\ by_pieces e n bmin bmax).
Proof.
  intros e n bmin bmax HI He Hn Hb. pose proof (le_edges e n HI He) as LE.
  destruct (locate e bmin bmax HI Hb) as (lo & hi & HL). pose proof HL as (A & B & C). rewrite He in A.
  pose proof (below_e e n lo hi bmin bmax He Hn HL) as BE. pose proof (above_min_e e n lo hi bmin bmax He Hn HL) as AM.
  pose proof (below_max_e e n lo hi bmin bmax He Hn HL) as BM. pose proof (above_e e n lo hi bmin bmax He Hn HL) as AE.
  pose proof (HI 0%nat n ltac:(lia)) as E0n. pose proof (HI 0%nat 1%nat ltac:(lia)) as E01. pose proof (HI (n - 1)%nat n ltac:(lia)) as Enn.
  assert (N1 : n = 1%nat -> nth n e 0 = nth 1 e 0) by (intros ->; reflexivity).
  destruct (Nat.eq_dec lo hi) as [EQ|NE]; [|destruct (Nat.eq_dec hi (S lo)) as [K1|K1]].
  - destruct (Nat.eq_dec lo 0) as [Z|Z]; [|destruct (Nat.eq_dec lo (S n)) as [Z'|Z']].
    + left. split; [|intros; apply (sigma_0_out e n lo hi); auto; lia]. right; left. pose proof (AE 0%nat ltac:(lia)). lra.
    + left. split; [|intros; apply (sigma_0_out e n lo hi); auto; lia]. right; right; left. pose proof (BE n ltac:(lia)). lra.
    + pose proof (BE (lo - 1)%nat ltac:(lia)). pose proof (AE lo ltac:(lia)). pose proof (LE 0%nat (lo - 1)%nat ltac:(lia)). pose proof (LE lo n ltac:(lia)).
      destruct (Req_dec bmin bmax) as [Q|Q].
      * left. split; [now left|]. intros s Hs. rewrite (sigma_0_in e n lo hi) by (auto; lia). replace (bmax - bmin) with 0 by lra. now rewrite no_length.
      * right. split.
        -- intros [D|[D|[D|(D1 & D2 & D3 & D4)]]]; first [contradiction|lra|lia].
        -- apply (one_piece e n bmin bmax (bmax - bmin) (lo - 1) HI He); [lra|lia|]. intros s Hs. apply (sigma_0_in e n lo hi); auto; lia.
  - destruct (Nat.eq_dec lo 0) as [Z|Z]; [|destruct (Nat.eq_dec lo n) as [Z'|Z']].
    + pose proof (AM 0%nat ltac:(lia)). pose proof (BM 0%nat ltac:(lia)). pose proof (AE 1%nat ltac:(lia)).
      destruct (Req_dec bmax (nth 0 e 0)) as [Q|Q].
      * left. split; [right; left; lra|]. intros s Hs. rewrite (sigma_1_first e n lo hi) by (auto; lia). replace (bmax - nth 0 e 0) with 0 by lra. now rewrite no_length.
      * right. split.
        -- intros [D|[D|[D|(D1 & D2 & D3 & D4)]]]; first [contradiction|lra|lia].
        -- apply (one_piece e n bmin bmax (bmax - nth 0 e 0) 0 HI He); [lra|lia|]. intros s Hs. apply (sigma_1_first e n lo hi); auto; lia.
    + pose proof (AM n ltac:(lia)). pose proof (BM n ltac:(lia)). pose proof (BE (n - 1)%nat ltac:(lia)). pose proof (LE 0%nat (n - 1)%nat ltac:(lia)).
      destruct (Req_dec bmin (nth n e 0)) as [Q|Q].
      * left. split; [right; right; left; lra|]. intros s Hs. rewrite (sigma_1_last e n lo hi) by (auto; lia). replace (nth n e 0 - bmin) with 0 by lra. now rewrite no_length.
      * right. split.
        -- intros [D|[D|[D|(D1 & D2 & D3 & D4)]]]; first [contradiction|lra|lia].
        -- apply (one_piece e n bmin bmax (nth n e 0 - bmin) (n - 1) HI He); [lra|lia|]. intros s Hs. apply (sigma_1_last e n lo hi); auto; lia.
    + pose proof (BE (lo - 1)%nat ltac:(lia)). pose proof (AE (S lo) ltac:(lia)). pose proof (AM lo ltac:(lia)). pose proof (BM lo ltac:(lia)).
      pose proof (LE 0%nat (lo - 1)%nat ltac:(lia)). pose proof (LE (S lo) n ltac:(lia)). pose proof (HI (lo - 1)%nat lo ltac:(lia)). pose proof (HI lo (S lo) ltac:(lia)).
      destruct (Req_dec bmin bmax) as [Q|Q].
      * left. split; [now left|]. intros s Hs. apply (sigma_1_touch e n lo hi); auto; lia.
      * right. split.
        -- intros [D|[D|[D|(D1 & D2 & D3 & D4)]]]; first [contradiction|lra|lia].
        -- exists (part (u1 e lo bmin) (nth lo e 0 - bmin) (lo - 1) ++ part (u2 e lo bmax) (bmax - nth lo e 0) lo). split; [|split].
           ++ intros p Hp. apply in_app_or in Hp. unfold part in Hp.
              destruct Hp as [Hp|Hp]; [destruct (Req_EM_T (nth lo e 0 - bmin) 0)|destruct (Req_EM_T (bmax - nth lo e 0) 0)]; try (destruct Hp; fail); destruct Hp as [<-|[]]; cbn [extent bin]; split; try lra; lia.
           ++ destruct (sigma_1_mid e n lo hi bmin bmax HI He Hn HL (repeat 0 n) (repeat_length _ _) ltac:(lia) ltac:(lia) ltac:(lra)) as [_ P]. lra.
           ++ intros s Hs. apply (sigma_1_mid e n lo hi bmin bmax HI He Hn HL s Hs); [lia|lia|lra].
  - assert (Hk : (2 <= hi - lo)%nat) by lia. pose proof (AM lo ltac:(lia)). pose proof (BM (S lo) ltac:(lia)). pose proof (HI lo (S lo) ltac:(lia)).
    pose proof (LE lo n ltac:(lia)). pose proof (LE 0%nat lo ltac:(lia)). pose proof (LE (S lo) n ltac:(lia)).
    destruct (Nat.eq_dec hi (S n)) as [Z'|Z']; [destruct (Nat.eq_dec lo 0) as [Z|Z]; [destruct (Nat.eq_dec n 1) as [ON|ON]|]|].
    + destruct (list2 e ltac:(lia)) as (e0 & e1 & ->). cbn [nth] in *. pose proof (BM 1%nat ltac:(lia)) as BM1. pose proof (AM 0%nat ltac:(lia)) as AM0. cbn [nth] in BM1, AM0.
      assert (SV : forall s, length s = n -> rebin_1d_single_bin_sigma [e0; e1] s bmin bmax = Ok (end_value [e0; e1] s [Piece ((e1 - bmin) / (e1 - e0)) (e1 - bmin) 0; Piece ((bmax - e0) / (e0 - e1)) (bmax - e0) 0])).
      { intros s Hs. destruct (list1 s ltac:(lia)) as (s0 & ->). apply several_one; lra. }
      assert (SH : Rsum (map share [Piece ((e1 - bmin) / (e1 - e0)) (e1 - bmin) 0; Piece ((bmax - e0) / (e0 - e1)) (bmax - e0) 0]) = ((e0 + e1) - (bmin + bmax)) / (e1 - e0)).
      { cbn. field. split; lra. }
      subst n. cbn [nth] in *. unfold no_error. cbn [nth]. destruct (Req_dec (bmin + bmax) (e0 + e1)) as [Q|Q].
      * left. split; [right; right; right; repeat split; lra|]. intros s Hs. rewrite SV by exact Hs. unfold end_value. rewrite SH, Q. unfold fdiv. rewrite Req_bool_true; [reflexivity|]. unfold Rdiv. ring.
      * right. split; [intros [D|[D|[D|(D1 & D2 & D3 & D4)]]]; lra|].
        eexists. split; [|split; [|intros s Hs; rewrite SV by exact Hs; rewrite (end_defined [e0; e1] 1); auto]].
        -- intros p [<-|[<-|[]]]; cbn [extent bin]; split; try lra; lia.
        -- rewrite SH. unfold Rdiv. apply Rmult_integral_contrapositive_currified; [lra|]. apply Rinv_neq_0_compat. lra.
        -- intros p [<-|[<-|[]]]; cbn [extent bin]; split; try lra; lia.
        -- rewrite SH. unfold Rdiv. apply Rmult_integral_contrapositive_currified; [lra|]. apply Rinv_neq_0_compat. lra.
    + right. split; [intros [D|[D|[D|(D1 & D2 & D3 & D4)]]]; first [contradiction|lra|lia]|].
      eexists. split; [|split; [|intros s Hs; apply (several_all e s n lo hi bmin bmax HI He Hs HL Hk); auto; lia]].
      * intros p [<-|Hp]; [cbn [extent bin]; split; [lra|lia]|]. apply in_app_or in Hp.
        destruct Hp as [Hp|Hp]; [apply (good_whole e n HI He 0 (n - 1)); [lia|exact Hp]|apply (good_end e n bmax He (n - 1)); [lia|exact Hp]].
      * cbn [map share]. rewrite Rsum_cons, !map_app, !Rsum_app, share_whole. pose proof (share_end e n bmax HI He (n - 1) ltac:(lia)). pose proof (pos_INR (n - 1)).
        assert (0 < (nth n e 0 - bmin) / bin_length e (n - 1)) by (apply Rdiv_lt_0_compat; [lra|apply (len_pos e n); auto; lia]). lra.
    + right. pose proof (BE 0%nat ltac:(lia)). split; [intros [D|[D|[D|(D1 & D2 & D3 & D4)]]]; first [contradiction|lra|lia]|].
      eexists. split; [|split; [|intros s Hs; apply (several_end e s n lo hi bmin bmax HI He Hs HL Hk); auto; lia]].
      * intros p Hp. apply in_app_or in Hp. destruct Hp as [Hp|Hp]; [apply (good_start e n HI He lo); [lia|exact Hp]|].
        apply in_app_or in Hp. destruct Hp as [Hp|Hp]; [apply (good_whole e n HI He lo (n - 1 - lo)); [lia|exact Hp]|apply (good_end e n bmax He (n - 1)); [lia|exact Hp]].
      * pose proof (BM n ltac:(lia)). rewrite !map_app, !Rsum_app, share_whole. pose proof (share_start e lo). pose proof (pos_INR (n - 1 - lo)).
        unfold end_piece. destruct (Rlt_dec (nth (n - 1) e 0) bmax) as [_|]; [|lra]. cbn.
        assert (0 < (bmax - nth (n - 1) e 0) / bin_length e (n - 1 - 1)) by (apply Rdiv_lt_0_compat; [lra|apply (len_pos e n); auto; lia]). lra.
    + right. pose proof (AE hi ltac:(lia)). pose proof (LE hi n ltac:(lia)). split.
      * intros [D|[D|[D|(D1 & D2 & D3 & D4)]]]; first [contradiction|lra|lia].
      * eexists. split; [|split; [|intros s Hs; apply (several_inner e s n lo hi bmin bmax HI He Hs HL Hk); lia]].
        -- intros p Hp. apply in_app_or in Hp. destruct Hp as [Hp|Hp]; [apply (good_start e n HI He lo); [lia|exact Hp]|].
           apply in_app_or in Hp. destruct Hp as [Hp|Hp]; [apply (good_whole e n HI He lo (hi - 1 - lo)); [lia|exact Hp]|apply (good_end e n bmax He (hi - 1)); [lia|exact Hp]].
        -- rewrite !map_app, !Rsum_app, share_whole. pose proof (share_start e lo). pose proof (share_end e n bmax HI He (hi - 1) ltac:(lia)).
           assert (0 < INR (hi - 1 - lo)) by (apply lt_0_INR; lia). lra.
Qed.

(** Proportional errors. *)
Lemma propagated_scale : forall e n c s ps, 0 <= c -> (forall p, In p ps -> 0 < extent p /\ (bin p < n)%nat) -> length s = n ->
  propagated e (map (Rmult c) s) ps = c * propagated e s ps.
Proof.
  intros e n c s ps Hc Hp Hs. unfold propagated. set (V := Rsum (map share ps) ^ 2).
  replace (Rsum (map (fun p => (share p * nth (bin p) (map (Rmult c) s) 0) ^ 2 * (bin_length e (bin p) / extent p)) ps))
    with (c * c * Rsum (map (fun p => (share p * nth (bin p) s 0) ^ 2 * (bin_length e (bin p) / extent p)) ps)).
  - unfold Rdiv. rewrite Rmult_assoc. rewrite sqrt_mult_alt by nra. now rewrite sqrt_square.
  - rewrite <- Rsum_map_scal. f_equal. apply map_ext_in. intros p H. destruct (Hp p H) as [_ HB].
    rewrite (nth_map_lt _ _ _ _ (bin p) 0 0) by lia. ring.
Qed.

(** ** Pieces equal to the covered parts *)

Section MeanError.
Variables (e : list R) (n : nat) (a b : R).
Hypothesis HI : increasing e.
Hypothesis He : length e = S n.
Hypothesis Hab : a < b.

Lemma mean_pieces : forall s ps,
  (forall p, In p ps -> 0 < extent p /\ (bin p < n)%nat /\ share p = extent p / bin_length e (bin p)) ->
  Rsum (map share ps) = Rsum (map (covered e a b) (seq 0 n)) ->
  Rsum (map (fun p => share p * nth (bin p) s 0 ^ 2) ps) = Rsum (map (fun i => covered e a b i * nth i s 0 ^ 2) (seq 0 n)) ->
  propagated e s ps = mean_error e s n a b.
Proof.
  intros s ps Hp H1 H2. unfold propagated, mean_error. rewrite <- H1, <- H2. do 3 f_equal. apply map_ext_in. intros p H.
  destruct (Hp p H) as (A & B & C). pose proof (len_pos e n HI He _ B). rewrite C. field. split; lra.
Qed.

Lemma cov_left : forall i, (i < n)%nat -> nth (S i) e 0 <= a -> covered e a b i = 0.
Proof.
  intros i Hi H. pose proof (len_pos e n HI He i Hi). unfold covered, overlap. unfold bin_length in *.
  rewrite Rmax_left; [unfold Rdiv; ring|]. rewrite (Rmin_right b), (Rmax_left a) by lra. lra.
Qed.
Lemma cov_right : forall i, (i < n)%nat -> b <= nth i e 0 -> covered e a b i = 0.
Proof.
  intros i Hi H. pose proof (len_pos e n HI He i Hi). unfold covered, overlap. unfold bin_length in *.
  rewrite Rmax_left; [unfold Rdiv; ring|]. rewrite (Rmin_left b), (Rmax_right a) by lra. lra.
Qed.
Lemma cov_full : forall i, (i < n)%nat -> a <= nth i e 0 -> nth (S i) e 0 <= b -> covered e a b i = 1.
Proof.
  intros i Hi H H0. pose proof (len_pos e n HI He i Hi). unfold covered, overlap. unfold bin_length in *.
  rewrite (Rmin_right b), (Rmax_right a), Rmax_right by lra. field. lra.
Qed.
Lemma cov_end : forall i, (i < n)%nat -> a <= nth i e 0 -> nth i e 0 <= b -> b <= nth (S i) e 0 -> covered e a b i = (b - nth i e 0) / bin_length e i.
Proof.
  intros i Hi H H0 H1. pose proof (len_pos e n HI He i Hi). unfold covered, overlap. unfold bin_length in *.
  rewrite (Rmin_left b), (Rmax_right a), Rmax_right by lra. reflexivity.
Qed.
Lemma cov_start : forall i, (i < n)%nat -> nth i e 0 <= a -> a <= nth (S i) e 0 -> nth (S i) e 0 <= b -> covered e a b i = (nth (S i) e 0 - a) / bin_length e i.
Proof.
  intros i Hi H H0 H1. pose proof (len_pos e n HI He i Hi). unfold covered, overlap. unfold bin_length in *.
  rewrite (Rmin_right b), (Rmax_left a), Rmax_right by lra. reflexivity.
Qed.
Lemma cov_inside : forall i, (i < n)%nat -> nth i e 0 <= a -> b <= nth (S i) e 0 -> covered e a b i = (b - a) / bin_length e i.
Proof.
  intros i Hi H H0. pose proof (len_pos e n HI He i Hi). unfold covered, overlap. unfold bin_length in *.
  rewrite (Rmin_left b), (Rmax_left a), Rmax_right by lra. reflexivity.
Qed.

(** One piece only. *)
Lemma mean_one_piece : forall s l k, 0 < l -> (k < n)%nat -> covered e a b k = l / bin_length e k ->
  (forall i, (i < n)%nat -> i <> k -> covered e a b i = 0) ->
  sigma_part (nth k s 0) (bin_length e k) l = Some (mean_error e s n a b).
Proof.
  intros s l k Hl Hk Hc Hz. pose proof (len_pos e n HI He k Hk) as P. rewrite propagated_nil_part by auto. f_equal.
  unfold mean_error. rewrite (sum_window (covered e a b) n k 1), (sum_window (fun i => covered e a b i * nth i s 0 ^ 2) n k 1).
  - cbn [seq map]. rewrite Hc. unfold Rsum. cbn [fold_right]. f_equal. field. split; lra.
  - lia.
  - intros i Hi Ho. rewrite Hz by lia. ring.
  - lia.
  - intros i Hi Ho. apply Hz; lia.
Qed.

Lemma few_edges : forall s, length s = n -> (1 <= n)%nat -> nth 0 e 0 < b -> a < nth n e 0 ->
  (forall c c', (c <= n)%nat -> (c' <= n)%nat -> a <= nth c e 0 <= b -> a <= nth c' e 0 <= b -> c = c') ->
  rebin_1d_single_bin_sigma e s a b = Ok (Some (mean_error e s n a b)).
Proof.
  intros s Hs Hn H0 H1 HC. destruct (locate e a b HI ltac:(lra)) as (lo & hi & HL). pose proof HL as (A & B & C). rewrite He in A.
  pose proof (below_e e n lo hi a b He Hn HL) as BE. pose proof (above_min_e e n lo hi a b He Hn HL) as AM.
  pose proof (below_max_e e n lo hi a b He Hn HL) as BM. pose proof (above_e e n lo hi a b He Hn HL) as AE.
  pose proof (le_edges e n HI He) as LE.
  assert (Lo : lo <> S n) by (intros Q; pose proof (BE n ltac:(lia)); lra). assert (Hi0 : hi <> 0%nat) by (intros Q; pose proof (AE 0%nat ltac:(lia)); lra).
  destruct (Nat.eq_dec lo hi) as [EQ|NE]; [|destruct (Nat.eq_dec hi (S lo)) as [K1|K1]].
  - rewrite (sigma_0_in e n lo hi a b He Hn HL s) by (auto; lia). pose proof (BE (lo - 1)%nat ltac:(lia)). pose proof (AE lo ltac:(lia)).
    f_equal. apply mean_one_piece; [lra|lia|apply cov_inside; replace (S (lo - 1)) with lo by lia; lra || lia|].
    intros i Hi Hne. destruct (Nat.lt_ge_cases i lo).
    + apply cov_left; [lia|]. pose proof (LE (S i) (lo - 1)%nat ltac:(lia)). lra.
    + apply cov_right; [lia|]. pose proof (LE lo i ltac:(lia)). lra.
  - destruct (Nat.eq_dec lo 0) as [Z|Z]; [|destruct (Nat.eq_dec lo n) as [Z'|Z']].
    + pose proof (AM 0%nat ltac:(lia)). pose proof (AE 1%nat ltac:(lia)). rewrite (sigma_1_first e n lo hi a b He Hn HL s) by (auto; lia). f_equal.
      apply mean_one_piece; [lra|lia|apply cov_end; lra || lia|]. intros i Hi Hne. apply cov_right; [lia|]. pose proof (LE 1%nat i ltac:(lia)). lra.
    + pose proof (BM n ltac:(lia)). pose proof (BE (n - 1)%nat ltac:(lia)). rewrite (sigma_1_last e n lo hi a b He Hn HL s) by (auto; lia). f_equal.
      apply mean_one_piece; [lra|lia| |].
      * rewrite cov_start; replace (S (n - 1)) with n by lia; lra || lia || reflexivity.
      * intros i Hi Hne. apply cov_left; [lia|]. pose proof (LE (S i) (n - 1)%nat ltac:(lia)). lra.
    + destruct (sigma_1_mid e n lo hi a b HI He Hn HL s Hs K1 ltac:(lia) Hab) as [-> _]. do 2 f_equal.
      pose proof (BE (lo - 1)%nat ltac:(lia)). pose proof (AM lo ltac:(lia)). pose proof (BM lo ltac:(lia)). pose proof (AE (S lo) ltac:(lia)).
      assert (E1 : bin_length e (lo - 1) = nth lo e 0 - nth (lo - 1) e 0) by (unfold bin_length; now replace (S (lo - 1)) with lo by lia).
      assert (E2 : bin_length e lo = nth (lo + 1) e 0 - nth lo e 0) by (unfold bin_length; now replace (lo + 1)%nat with (S lo) by lia).
      assert (C1 : covered e a b (lo - 1) = u1 e lo a).
      { rewrite cov_start; replace (S (lo - 1)) with lo by lia; try lra; try lia. unfold u1. now rewrite E1. }
      assert (C2 : covered e a b lo = u2 e lo b).
      { rewrite cov_end by (lra || lia). unfold u2. now rewrite E2. }
      assert (CZ : forall i, (i < n)%nat -> (i < lo - 1 \/ lo - 1 + 2 <= i)%nat -> covered e a b i = 0).
      { intros i Hi [Ho|Ho].
        - apply cov_left; [lia|]. pose proof (LE (S i) (lo - 1)%nat ltac:(lia)). lra.
        - apply cov_right; [lia|]. pose proof (LE (S lo) i ltac:(lia)). lra. }
      apply mean_pieces.
      * intros p Hp. apply in_app_or in Hp. unfold part in Hp.
        destruct Hp as [Hp|Hp]; [destruct (Req_EM_T (nth lo e 0 - a) 0)|destruct (Req_EM_T (b - nth lo e 0) 0)]; try (destruct Hp; fail); destruct Hp as [<-|[]]; cbn [extent bin share].
        -- split; [lra|]. split; [lia|]. unfold u1. now rewrite E1.
        -- split; [lra|]. split; [lia|]. unfold u2. now rewrite E2.
      * rewrite (sum_window (covered e a b) n (lo - 1) 2) by (auto; lia). cbn [seq map]. replace (S (lo - 1)) with lo by lia. rewrite C1, C2. unfold part, u1, u2, Rsum, Rdiv.
        destruct (Req_EM_T (nth lo e 0 - a) 0) as [Q|Q]; destruct (Req_EM_T (b - nth lo e 0) 0) as [Q2|Q2]; cbn [app map share fold_right]; rewrite ?Q, ?Q2; ring.
      * rewrite (sum_window (fun i => covered e a b i * nth i s 0 ^ 2) n (lo - 1) 2).
        -- cbn [seq map]. replace (S (lo - 1)) with lo by lia. rewrite C1, C2. unfold part, u1, u2, Rsum, Rdiv.
           destruct (Req_EM_T (nth lo e 0 - a) 0) as [Q|Q]; destruct (Req_EM_T (b - nth lo e 0) 0) as [Q2|Q2]; cbn [app map share bin fold_right]; rewrite ?Q, ?Q2; ring.
        -- lia.
        -- intros i Hi Ho. rewrite CZ by auto. ring.
  - exfalso. assert (lo = S lo); [|lia]. apply HC; try lia.
    + split; [apply AM; lia|apply BM; lia].
    + split; [apply AM; lia|apply BM; lia].
Qed.

(** Whole bins [p .. q-1] and part of bin [q]. *)
Lemma mean_whole : forall s p q, (p < q)%nat -> (q < n)%nat -> (p = 0%nat /\ a <= nth 0 e 0 \/ a = nth p e 0) ->
  nth q e 0 <= b -> b <= nth (S q) e 0 -> bin_length e (q - 1) = bin_length e q ->
  propagated e s (whole e p (q - p) ++ end_piece e b q) = mean_error e s n a b.
Proof.
  intros s p q Hpq Hq Ha Hb1 Hb2 Hl. pose proof (le_edges e n HI He) as LE.
  assert (HA : forall i, (p <= i <= n)%nat -> a <= nth i e 0).
  { intros i Hi. pose proof (LE p i ltac:(lia)). destruct Ha as [[-> Ha]|Ha]; lra. }
  assert (HZ : forall i, (i < p)%nat -> nth (S i) e 0 <= a).
  { intros i Hi. destruct Ha as [[-> Ha]|Ha]; [lia|]. pose proof (LE (S i) p ltac:(lia)). lra. }
  assert (CF : forall i, (p <= i < q)%nat -> covered e a b i = 1).
  { intros i Hi. apply cov_full; [lia|apply HA; lia|]. pose proof (LE (S i) q ltac:(lia)). lra. }
  assert (CQ : covered e a b q = (b - nth q e 0) / bin_length e q) by (apply cov_end; auto; apply HA; lia).
  assert (CZ : forall i, (i < n)%nat -> (i < p \/ p + S (q - p) <= i)%nat -> covered e a b i = 0).
  { intros i Hi [Ho|Ho]; [apply cov_left; auto|]. apply cov_right; [lia|]. pose proof (LE (S q) i ltac:(lia)). lra. }
  assert (SW : forall g : nat -> R -> R, (forall i, g i 0 = 0) ->
    Rsum (map (fun x => g (bin x) (share x)) (whole e p (q - p) ++ end_piece e b q)) = Rsum (map (fun i => g i (covered e a b i)) (seq 0 n))).
  { intros g G0. rewrite (sum_window (fun i => g i (covered e a b i)) n p (S (q - p))).
    - rewrite seq_S. rewrite !map_app, !Rsum_app. replace (p + (q - p))%nat with q by lia. f_equal.
      + unfold whole. rewrite map_map. cbn [bin share]. f_equal. apply map_ext_in. intros i Hi. apply in_seq in Hi. rewrite CF by lia. reflexivity.
      + cbn [map]. rewrite CQ. unfold end_piece. destruct (Rlt_dec (nth q e 0) b) as [L|L]; cbn [map bin share].
        * now rewrite Hl.
        * replace (b - nth q e 0) with 0 by lra. unfold Rdiv. rewrite Rmult_0_l, G0. cbn. ring.
    - lia.
    - intros i Hi Ho. rewrite CZ by auto. apply G0. }
  apply mean_pieces.
  - intros x Hx. apply in_app_or in Hx. destruct Hx as [Hx|Hx].
    + destruct (good_whole e n HI He p (q - p) ltac:(lia) x Hx) as [E1 E2]. split; [exact E1|]. split; [exact E2|].
      unfold whole in Hx. apply in_map_iff in Hx. destruct Hx as (i & <- & Hi). cbn [share extent bin] in *. field. lra.
    + destruct (good_end e n b He q Hq x Hx) as [E1 E2]. split; [exact E1|]. split; [exact E2|].
      unfold end_piece in Hx. destruct (Rlt_dec (nth q e 0) b); [|destruct Hx]. destruct Hx as [<-|[]]. cbn [share extent bin]. now rewrite Hl.
  - apply (SW (fun _ x => x)). reflexivity.
  - apply (SW (fun i x => x * nth i s 0 ^ 2)). intros. ring.
Qed.
End MeanError.
