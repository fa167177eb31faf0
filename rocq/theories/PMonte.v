(** * Lemmas: Monte-Carlo sampling of a pixel map *)

From Coq Require Import Reals ZArith List Bool Lia Lra Psatz.
From Flocq Require Import Core.Raux.
From Verif Require Import Base BaseP Spec SpecGrid SpecRemap SpecDense SpecMonte MCoords MGrids MPolarCoords MRandoms MDense MMonte
  PPolarCoords PRemap2 PDense.
Import ListNotations.
Open Scope R_scope.

(** ** Bins *)

Lemma filter_all : forall A (f : A -> bool) l, (forall x, In x l -> f x = true) -> filter f l = l.
Proof. induction l as [|a l IH]; cbn; intros H; auto. rewrite H by auto. f_equal. apply IH; auto. Qed.

Lemma filter_none : forall A (f : A -> bool) l, (forall x, In x l -> f x = false) -> filter f l = [].
Proof. induction l as [|a l IH]; cbn; intros H; auto. rewrite H by auto. apply IH; auto. Qed.

Lemma filter_map_comm : forall A B (f : B -> bool) (g : A -> B) l, filter f (map g l) = map g (filter (fun x => f (g x)) l).
Proof. induction l as [|a l IH]; cbn; auto. destruct (f (g a)); cbn; now rewrite IH. Qed.

Lemma count_edges : forall o h m k x, 0 < h -> (k <= m)%nat -> (k = 0%nat \/ o + INR (k - 1) * h <= x) -> (k = m \/ x < o + INR k * h) ->
  length (filter (fun e => Rle_bool e x) (tab m (fun i => o + INR i * h))) = k.
Proof.
  intros o h m k x Hh Hk Hl Hr. unfold tab. rewrite filter_map_comm, map_length. replace m with (k + (m - k))%nat by lia. rewrite seq_app, filter_app.
  rewrite filter_all, filter_none.
  - rewrite app_nil_r, seq_length. reflexivity.
  - intros i Hi. apply in_seq in Hi. cbn beta. apply Rle_bool_false. destruct Hr as [Hr|Hr]; [lia|].
    assert (INR k <= INR i) by (apply le_INR; lia). nra.
  - intros i Hi. apply in_seq in Hi. cbn beta. apply Rle_bool_true. destruct Hl as [Hl|Hl]; [lia|].
    assert (INR i <= INR (k - 1)) by (apply le_INR; lia). nra.
Qed.

Lemma last_nth : forall A (l : list A) d, last l d = nth (length l - 1) l d.
Proof.
  induction l as [|a l IH]; intros d; auto. destruct l as [|b l]; auto. change (last (a :: b :: l) d) with (last (b :: l) d). rewrite IH.
  replace (length (a :: b :: l) - 1)%nat with (S (length (b :: l) - 1)) by (cbn [length]; lia). reflexivity.
Qed.

Lemma last_tab : forall n (g : nat -> R), last (tab (S n) g) 0 = g n.
Proof. intros. rewrite last_nth, tab_length. rewrite tab_nth by lia. f_equal. lia. Qed.

Lemma hist_bin_in : forall o h n x i, 0 < h -> in_bin o h n x i -> hist_bin (tab (S n) (fun i => o + INR i * h)) x = Some i.
Proof.
  intros o h n x i Hh (Hi & Hlo & Hhi). unfold hist_bin. rewrite last_tab, tab_length. cbn beta.
  destruct (Req_dec x (o + INR n * h)) as [E|E].
  - rewrite Req_bool_true by auto. rewrite (count_edges o h (S n) (S n)); auto.
    + assert (S i = n). { destruct Hhi as [Hhi|[? _]]; auto. assert (INR (S i) <= INR n) by (apply le_INR; lia). nra. }
      replace (S n - 1)%nat with (S i) by lia. rewrite (proj2 (Nat.leb_le _ _)), (proj2 (Nat.leb_le _ _)) by lia. cbn [andb]. f_equal. lia.
    + right. replace (S n - 1)%nat with n by lia. lra.
  - rewrite Req_bool_false by auto. destruct Hhi as [Hhi|[_ Hhi]]; [|contradiction].
    rewrite (count_edges o h (S n) (S i)); auto; try lia.
    + rewrite (proj2 (Nat.leb_le _ _)), (proj2 (Nat.leb_le _ _)) by lia. cbn [andb]. f_equal. lia.
    + right. replace (S i - 1)%nat with i by lia. exact Hlo.
Qed.

Lemma hist_bin_out : forall o h n x, 0 < h -> ~ (o <= x <= o + INR n * h) -> hist_bin (tab (S n) (fun i => o + INR i * h)) x = None.
Proof.
  intros o h n x Hh Hx. unfold hist_bin. rewrite last_tab, tab_length. cbn beta. pose proof (pos_INR n).
  rewrite Req_bool_false by (intros E; apply Hx; nra).
  destruct (Rlt_le_dec x o) as [L|L].
  - rewrite (count_edges o h (S n) 0); auto; try lia. right. cbn [INR]. lra.
  - rewrite (count_edges o h (S n) (S n)); auto; try lia.
    + rewrite (proj2 (Nat.leb_le 1 _)) by lia. rewrite (proj2 (Nat.leb_gt (S n) _)) by lia. reflexivity.
    + right. replace (S n - 1)%nat with n by lia. lra.
Qed.

Lemma bin_exists : forall o h n x, 0 < h -> (1 <= n)%nat -> o <= x <= o + INR n * h -> exists i, in_bin o h n x i.
Proof.
  intros o h n x Hh Hn Hx. destruct (Req_dec x (o + INR n * h)) as [E|E].
  - exists (n - 1)%nat. split; [lia|]. replace (S (n - 1)) with n by lia. split; [|right; auto].
    assert (INR (n - 1) <= INR n) by (apply le_INR; lia). nra.
  - assert (Hf : (0 <= Zfloor ((x - o) / h) < Z.of_nat n)%Z) by (apply box_floor; auto; lra).
    exists (Z.to_nat (Zfloor ((x - o) / h))). split; [lia|].
    pose proof (proj1 (floor_cell o h x _ Hh) eq_refl) as Hc. rewrite S_INR, INR_IZR_INZ, Z2Nat.id by lia. lra.
Qed.

Lemma bin_range : forall o h n x i, 0 < h -> in_bin o h n x i -> o <= x <= o + INR n * h.
Proof.
  intros o h n x i Hh (Hi & Hlo & Hhi). pose proof (pos_INR i). assert (INR (S i) <= INR n) by (apply le_INR; lia).
  destruct Hhi as [Hhi|[_ Hhi]]; nra.
Qed.

Lemma counted_closed : forall V p q, good_pixels V -> counted_in V p q -> in_closed V p.
Proof. intros V p q [Hx Hy] [A B]. split; eapply bin_range; eauto. Qed.

Lemma counted_dec : forall V p, good_pixels V -> (1 <= pnx V)%nat -> (1 <= pny V)%nat -> (exists q, counted_in V p q) \/ ~ in_closed V p.
Proof.
  intros V p [Hx Hy] Nx Ny.
  destruct (Rle_dec (px0 V) (fst p)); [|right; intros [? ?]; lra]. destruct (Rle_dec (fst p) (px0 V + INR (pnx V) * phx V)); [|right; intros [? ?]; lra].
  destruct (Rle_dec (py0 V) (snd p)); [|right; intros [? ?]; lra]. destruct (Rle_dec (snd p) (py0 V + INR (pny V) * phy V)); [|right; intros [? ?]; lra].
  left. destruct (bin_exists (px0 V) (phx V) (pnx V) (fst p)) as [i Hi]; auto. destruct (bin_exists (py0 V) (phy V) (pny V) (snd p)) as [j Hj]; auto.
  exists (i, j). split; auto.
Qed.

Lemma hits_exist : forall V l, good_pixels V -> (1 <= pnx V)%nat -> (1 <= pny V)%nat -> exists h, hits V l h.
Proof.
  intros V l HV Nx Ny. induction l as [|p l [h Hh]]; [exists []; constructor|].
  destruct (counted_dec V p HV Nx Ny) as [[q Hq]|Ho]; [exists (q :: h)|exists h]; now constructor.
Qed.

(** ** The histogram *)

Section Hist.
Variable V : pixels.
Hypothesis HV : good_pixels V.
Let ex := tab (S (pnx V)) (fun i => px0 V + INR i * phx V).
Let ey := tab (S (pny V)) (fun i => py0 V + INR i * phy V).

Lemma bin2_in : forall p q, counted_in V p q -> hist_bin2 ex ey (Some p) = Some q.
Proof.
  intros [x y] [i j] [A B]. destruct HV as [Hx Hy]. unfold hist_bin2, ex, ey. cbn [fst snd] in *.
  rewrite (hist_bin_in _ _ _ _ _ Hx A), (hist_bin_in _ _ _ _ _ Hy B). reflexivity.
Qed.

Lemma bin2_out : forall p, ~ in_closed V p -> hist_bin2 ex ey (Some p) = None.
Proof.
  intros [x y] H. destruct HV as [Hx Hy]. unfold hist_bin2, ex, ey. unfold in_closed in H. cbn [fst snd] in *.
  destruct (Rle_dec (px0 V) x); [destruct (Rle_dec x (px0 V + INR (pnx V) * phx V))|]; try (rewrite hist_bin_out by (auto; lra); reflexivity).
  rewrite (hist_bin_out (py0 V)) by (auto; lra). destruct (hist_bin _ x); reflexivity.
Qed.

Definition occ (q : nat * nat) (h : list (nat * nat)) : nat := length (filter (fun p => (fst p =? fst q)%nat && (snd p =? snd q)%nat) h).

Lemma hist_count : forall l h i j, hits V l h -> length (filter (is_bin i j) (map (hist_bin2 ex ey) (map Some l))) = occ (i, j) h.
Proof.
  intros l h i j H. induction H as [|p q l h Hq H IH|p l h Ho H IH]; auto.
  - cbn [map filter]. rewrite (bin2_in _ _ Hq). unfold occ in *. cbn [filter is_bin fst snd]. destruct q as [a b]. cbn [fst snd].
    destruct ((a =? i)%nat && (b =? j)%nat); cbn [length]; now rewrite IH.
  - cbn [map filter]. rewrite (bin2_out _ Ho). cbn [is_bin]. exact IH.
Qed.

Lemma hist_tab : forall l h, hits V l h -> histogram2 ex ey (map Some l) = tab2 (pnx V) (pny V) (fun i j => INR (occ (i, j) h)).
Proof.
  intros l h H. unfold histogram2, ex, ey. rewrite !tab_length. cbn [Nat.sub]. rewrite !Nat.sub_0_r. apply tab_ext. intros i Hi. apply tab_ext. intros j Hj.
  f_equal. now apply hist_count.
Qed.

Lemma hits_in_grid : forall l h q, hits V l h -> In q h -> (fst q < pnx V)%nat /\ (snd q < pny V)%nat.
Proof.
  intros l h q H. induction H as [|p r l h Hr H IH|p l h Ho H IH]; intros Hin; [destruct Hin| |auto].
  destruct Hin as [<-|Hin]; auto. destruct Hr as [(A & _) (B & _)]. auto.
Qed.

End Hist.

(** ** Pixels touched *)

Lemma occ_pos : forall q h, (0 < occ q h)%nat <-> In q h.
Proof.
  intros q h. unfold occ. split.
  - destruct (filter _ h) as [|r t] eqn:E; [cbn; lia|]. intros _. assert (I : In r (filter (fun p => (fst p =? fst q)%nat && (snd p =? snd q)%nat) h)) by (rewrite E; now left).
    apply filter_In in I. destruct I as [I B]. apply andb_prop in B. destruct B as [B1 B2]. apply Nat.eqb_eq in B1, B2.
    destruct r, q. cbn in *. now subst.
  - intros I. destruct (filter _ h) as [|r t] eqn:E; [|cbn; lia].
    assert (In q (filter (fun p => (fst p =? fst q)%nat && (snd p =? snd q)%nat) h)) by (apply filter_In; rewrite !Nat.eqb_refl; auto).
    rewrite E in H. destruct H.
Qed.

Definition touched (n m : nat) (h : list (nat * nat)) : list (nat * nat) :=
  filter (fun q => (0 <? occ q h)%nat) (flat_map (fun i => map (fun j => (i, j)) (seq 0 m)) (seq 0 n)).

Lemma in_grid : forall n m q, In q (flat_map (fun i => map (fun j => (i, j)) (seq 0 m)) (seq 0 n)) <-> (fst q < n)%nat /\ (snd q < m)%nat.
Proof.
  intros n m [i j]. cbn [fst snd]. rewrite in_flat_map. split.
  - intros (a & Ha & H). apply in_map_iff in H. destruct H as (b & E & Hb). inversion E; subst. apply in_seq in Ha, Hb. lia.
  - intros [Hi Hj]. exists i. split; [apply in_seq; lia|]. apply in_map_iff. exists j. split; auto. apply in_seq; lia.
Qed.

Lemma NoDup_app : forall A (l m : list A), NoDup l -> NoDup m -> (forall x, In x l -> ~ In x m) -> NoDup (l ++ m).
Proof.
  induction l as [|a l IH]; cbn; intros m Hl Hm D; auto. inversion Hl; subst. constructor.
  - rewrite in_app_iff. intros [?|?]; [contradiction|]. apply (D a); auto; now left.
  - apply IH; auto.
Qed.

Lemma NoDup_grid : forall n m, NoDup (flat_map (fun i => map (fun j => (i, j)) (seq 0 m)) (seq 0 n)).
Proof.
  intros n m. enough (H : forall s, NoDup (flat_map (fun i => map (fun j => (i, j)) (seq 0 m)) (seq s n))) by apply H.
  induction n as [|n IH]; intros s; cbn [seq flat_map]; [constructor|]. apply NoDup_app; auto.
  - apply FinFun.Injective_map_NoDup; [|apply seq_NoDup]. intros a b E. now inversion E.
  - intros [a b] H1 H2. apply in_map_iff in H1. destruct H1 as (c & E & _). inversion E; subst. apply in_flat_map in H2.
    destruct H2 as (d & Hd & H2). apply in_map_iff in H2. destruct H2 as (e & E2 & _). inversion E2; subst. apply in_seq in Hd. lia.
Qed.

Lemma touched_in : forall n m h q, (forall p, In p h -> (fst p < n)%nat /\ (snd p < m)%nat) -> (In q (touched n m h) <-> In q h).
Proof.
  intros n m h q Hg. unfold touched. rewrite filter_In, in_grid, Nat.ltb_lt, occ_pos. split; [tauto|]. intros H. auto.
Qed.

Lemma touched_distinct : forall n m h, (forall p, In p h -> (fst p < n)%nat /\ (snd p < m)%nat) -> distinct h (length (touched n m h)).
Proof.
  intros n m h Hg. exists (touched n m h). split; [apply NoDup_filter, NoDup_grid|]. split; auto. intros q. now apply touched_in.
Qed.

Lemma distinct_unique : forall h k k', distinct h k -> distinct h k' -> k = k'.
Proof.
  intros h k k' (m & N & <- & I) (m' & N' & <- & I'). apply Nat.le_antisymm; apply NoDup_incl_length; auto; intros q Hq.
  - apply I', I, Hq. - apply I, I', Hq.
Qed.

(** ** Sums over pixels and over points *)

Lemma Rsum_app : forall l m, Rsum (l ++ m) = Rsum l + Rsum m.
Proof. unfold Rsum. induction l as [|a l IH]; intros m; cbn; [ring|]. rewrite IH. ring. Qed.

Lemma occ_cons : forall q p h, occ q (p :: h) = ((if (fst p =? fst q)%nat && (snd p =? snd q)%nat then 1 else 0) + occ q h)%nat.
Proof. intros. unfold occ. cbn [filter]. destruct (_ && _); reflexivity. Qed.

Lemma sum_indicator : forall (g : nat * nat -> R) p l, NoDup l -> In p l ->
  Rsum (map (fun q => INR (if (fst p =? fst q)%nat && (snd p =? snd q)%nat then 1 else 0) * g q) l) = g p.
Proof.
  intros g p l N I. induction l as [|a l IH]; [destruct I|]. inversion N as [|? ? Na Nl]; subst. cbn [map Rsum fold_right]. fold (Rsum (map (fun q => INR (if (fst p =? fst q)%nat && (snd p =? snd q)%nat then 1 else 0) * g q) l)).
  destruct I as [<-|I].
  - rewrite !Nat.eqb_refl. cbn [andb INR]. rewrite Rmult_1_l.
    assert (Z : forall l, ~ In a l -> Rsum (map (fun q => INR (if (fst a =? fst q)%nat && (snd a =? snd q)%nat then 1 else 0) * g q) l) = 0).
    { intros l'. induction l' as [|b l' IH']; intros H; [reflexivity|]. cbn [map Rsum fold_right]. fold (Rsum (map (fun q => INR (if (fst a =? fst q)%nat && (snd a =? snd q)%nat then 1 else 0) * g q) l')).
      rewrite IH' by (intros ?; apply H; now right). destruct ((fst a =? fst b)%nat && (snd a =? snd b)%nat) eqn:E; [|cbn [INR]; ring].
      exfalso. apply H. left. apply andb_prop in E. destruct E as [E1 E2]. apply Nat.eqb_eq in E1, E2. destruct a, b; cbn in *; now subst. }
    rewrite Z by auto. ring.
  - rewrite IH by auto. destruct ((fst p =? fst a)%nat && (snd p =? snd a)%nat) eqn:E; [|cbn [INR]; ring].
    exfalso. apply Na. apply andb_prop in E. destruct E as [E1 E2]. apply Nat.eqb_eq in E1, E2. destruct a, p; cbn in *; now subst.
Qed.

Lemma sum_map_plus : forall A (f g : A -> R) l, Rsum (map (fun x => f x + g x) l) = Rsum (map f l) + Rsum (map g l).
Proof. unfold Rsum. induction l as [|a l IH]; cbn; [ring|]. rewrite IH. ring. Qed.

Lemma sum_map_zero : forall A (f : A -> R) l, (forall x, In x l -> f x = 0) -> Rsum (map f l) = 0.
Proof. unfold Rsum. induction l as [|a l IH]; cbn; intros H; auto. rewrite IH by auto. rewrite H by auto. ring. Qed.

Lemma sum_map_scal : forall A (f : A -> R) k l, Rsum (map (fun x => f x * k) l) = Rsum (map f l) * k.
Proof. unfold Rsum. induction l as [|a l IH]; cbn; [ring|]. rewrite IH. ring. Qed.

Lemma sum_occ_grid : forall g h l, NoDup l -> (forall q, In q h -> In q l) ->
  Rsum (map (fun q => INR (occ q h) * g q) l) = Rsum (map g h).
Proof.
  intros g h l N. induction h as [|p h IH]; intros H.
  - apply sum_map_zero. intros q _. unfold occ. cbn. ring.
  - cbn [map Rsum fold_right]. fold (Rsum (map g h)). rewrite <- IH by (intros; apply H; now right).
    rewrite <- (sum_indicator g p l) by (auto; apply H; now left). rewrite <- sum_map_plus. f_equal. apply map_ext. intros q.
    rewrite occ_cons, plus_INR. ring.
Qed.

Lemma sum_filter : forall A (P : A -> bool) (g : A -> R) l, (forall x, In x l -> P x = false -> g x = 0) -> Rsum (map g (filter P l)) = Rsum (map g l).
Proof.
  induction l as [|a l IH]; intros H; auto. cbn [filter]. assert (IH' := IH (fun x Hx => H x (or_intror Hx))). unfold Rsum in *. destruct (P a) eqn:E; cbn; rewrite IH'; auto.
  rewrite (H a) by (auto; now left). ring.
Qed.

Lemma sum_touched : forall n m h g, (forall p, In p h -> (fst p < n)%nat /\ (snd p < m)%nat) ->
  Rsum (map (fun q => INR (occ q h) * g q) (touched n m h)) = Rsum (map g h).
Proof.
  intros n m h g Hg. unfold touched. rewrite sum_filter.
  - apply sum_occ_grid; [apply NoDup_grid|]. intros q Hq. apply in_grid. auto.
  - intros q _ E. apply Nat.ltb_ge in E. replace (occ q h) with 0%nat by lia. cbn [INR]. ring.
Qed.

Lemma touched_nil : forall n m h, (forall p, In p h -> (fst p < n)%nat /\ (snd p < m)%nat) -> touched n m h = [] -> h = [].
Proof.
  intros n m h Hg E. destruct h as [|q h]; auto. exfalso. assert (I : In q (touched n m (q :: h))) by (apply touched_in; auto; now left).
  rewrite E in I. destruct I.
Qed.

(** ** [np.where] of the histogram *)

Lemma flat_map_ext_in : forall A B (f g : A -> list B) l, (forall x, In x l -> f x = g x) -> flat_map f l = flat_map g l.
Proof. induction l as [|a l IH]; cbn; intros H; auto. rewrite H, IH; auto. Qed.

Lemma filter_flat_map : forall A B (P : B -> bool) (f : A -> list B) l, filter P (flat_map f l) = flat_map (fun x => filter P (f x)) l.
Proof. induction l as [|a l IH]; cbn; auto. now rewrite filter_app, IH. Qed.

Lemma where2_tab : forall n m h, where2 (tab2 n m (fun i j => INR (occ (i, j) h))) = touched n m h.
Proof.
  intros n m h. unfold where2, touched. rewrite tab2_length, filter_flat_map. apply flat_map_ext_in. intros i Hi. apply in_seq in Hi.
  rewrite filter_map_comm. unfold tab2. rewrite tab_nth by lia. rewrite tab_length. f_equal. apply filter_ext_in. intros j Hj. apply in_seq in Hj.
  rewrite tab_nth by lia. destruct (occ (i, j) h) as [|k]; [cbn [INR]; now rewrite Req_bool_true|].
  rewrite Req_bool_false; [reflexivity|]. apply not_0_INR. lia.
Qed.

(** ** One cell *)

Definition entries (mc : Z) (n m : nat) (h : list (nat * nat)) : list entry :=
  map (fun q => (snd q, fst q, INR (occ q h) / IZR mc)) (touched n m h).

Definition nth_center (P : mc_polar) (k : nat) : R := nth k (mc_center P) 0.
Definition sectors_of (P : mc_polar) : sectors := Sectors (mc_redges P) (mc_pedges P) (nth_center P 0) (nth_center P 1) (mc_shift P).

(** A usable polar grid. *)
Definition good_polar (P : mc_polar) (nr np : nat) : Prop :=
  (1 <= nr)%nat /\ (1 <= np)%nat /\ shape2 (mc_r2d P) np nr /\ length (mc_redges P) = S nr /\ length (mc_pedges P) = S np /\ length (mc_center P) = 2%nat /\
  (forall j, (j < nr)%nat -> 0 <= nth j (mc_redges P) 0 <= nth (j + 1) (mc_redges P) 0).

Lemma hist_edges_ok : forall o h n, 0 < h -> (1 <= n)%nat -> hist_edges o (o + INR n * h) n = Ok (tab (S n) (fun i => o + INR i * h)).
Proof.
  intros o h n Hh Hn. pose proof (INR_pos n Hn). unfold hist_edges, outer_edges. rewrite Rlt_bool_false by nra. rewrite Req_bool_false by nra. cbn [bind].
  rewrite linspace_tab by auto. f_equal. apply tab_ext. intros i _. field. lra.
Qed.

Lemma drawn_sqrt : forall a b u, 0 <= a <= b -> 0 <= u < 1 -> np_sqrt ((b * b - a * a) * u + a * a) = Some (drawn_r a b u).
Proof. intros a b u Hab Hu. unfold np_sqrt. rewrite Rlt_bool_false; [reflexivity|]. assert (a * a <= b * b) by nra. nra. Qed.

Lemma points_ok : forall S c0 c1 a b p q s ur up, 0 <= a <= b -> (forall u, In u ur -> 0 <= u < 1) ->
  se_c0 S = c0 -> se_c1 S = c1 -> se_shift S = s -> forall i j, nth j (se_r S) 0 = a -> nth (j + 1) (se_r S) 0 = b -> nth i (se_p S) 0 = p -> nth (i + 1) (se_p S) 0 = q ->
  map2 (fun r t => option_map (fun r => polar2cart r t c0 c1) r) (map (fun u => np_sqrt ((b * b - a * a) * u + a * a)) ur)
    (map (shift_phi s) (map (fun u => (q - p) * u + p) up)) =
  map Some (map (drawn_point S i j) (combine ur up)).
Proof.
  intros S c0 c1 a b p q s ur up Hab Hu <- <- <- i j Ea Eb Ep Eq. revert up. induction ur as [|u ur IH]; intros up; [reflexivity|].
  destruct up as [|v up]; [reflexivity|]. cbn [map map2 combine]. rewrite IH by (intros; apply Hu; now right). f_equal.
  rewrite drawn_sqrt by (auto; apply Hu; now left). cbn [option_map]. f_equal. unfold drawn_point, polar2cart. cbn [fst snd]. rewrite Ea, Eb, Ep, Eq.
  destruct (shift_cos (se_shift S) ((q - p) * v + p)) as [-> ->]. reflexivity.
Qed.

Lemma cell_weights_ok : forall V P nr np draws mc i j h, good_pixels V -> (1 <= pnx V)%nat -> (1 <= pny V)%nat -> good_polar P nr np -> (1 < mc)%Z ->
  (i < np)%nat -> (j < nr)%nat -> (forall u, In u (fst (draws i j)) -> 0 <= u < 1) ->
  hits V (drawn_points (sectors_of P) draws i j) h ->
  cell_weights (the_box V) P (draws i j) mc i j = Ok (entries mc (pnx V) (pny V) h).
Proof.
  intros V P nr np draws mc i j h HV Nx Ny (Hnr & Hnp & Hs & Lr & Lp & Lc & Hr) Hmc Hi Hj Hu Hh.
  unfold cell_weights. rewrite !(py_get_ok _ (mc_redges P) _ 0), !(py_get_ok _ (mc_pedges P) _ 0) by lia. cbn [bind]. rewrite !Nat2Z.id.
  unfold randoms_polar, random_sample. replace (mc <? 0)%Z with false by (symmetry; apply Z.ltb_ge; lia). cbn [bind fst snd].
  rewrite !(py_get_ok _ (mc_center P) _ 0) by lia. cbn [bind]. change (Z.to_nat 0) with 0%nat. change (Z.to_nat 1) with 1%nat.
  rewrite (points_ok (sectors_of P) _ _ _ _ _ _ _ _ _ (Hr j Hj) Hu eq_refl eq_refl eq_refl i j) by reflexivity.
  cbn [the_box xedges yedges].
  rewrite !(py_get_ok _ (tab _ _) 0 0) by (rewrite tab_length; lia). rewrite !(py_get_last _ (tab _ _) 0) by (rewrite tab_length; lia). cbn [bind].
  change (Z.to_nat 0) with 0%nat. rewrite !tab_length. cbn [Nat.sub]. rewrite !Nat.sub_0_r, !tab_nth by lia.
  destruct HV as [Hx Hy]. replace (px0 V + INR 0 * phx V) with (px0 V) by (cbn [INR]; ring). replace (py0 V + INR 0 * phy V) with (py0 V) by (cbn [INR]; ring).
  rewrite !hist_edges_ok by auto. cbn [bind]. f_equal.
  assert (HV : good_pixels V) by (split; auto). unfold drawn_points in Hh. rewrite (hist_tab V HV _ _ Hh), where2_tab. unfold entries.
  apply (f_equal (@Ok (list entry))). apply map_ext_in. intros q Hq. f_equal. f_equal.
  unfold touched in Hq. apply filter_In in Hq. destruct Hq as [Hq _]. apply in_grid in Hq. destruct Hq as [Q1 Q2]. rewrite tab2_nth by auto. now destruct q.
Qed.

(** ** Values of a cell *)

Lemma read_entries_ok : forall mc f n m h, shape2 f m n -> (forall q, In q (touched n m h) -> (fst q < n)%nat /\ (snd q < m)%nat) ->
  read_entries f (entries mc n m h) = Ok (map (value f) (touched n m h)).
Proof.
  intros mc f n m h Hf Hg. unfold read_entries, entries. revert Hg. generalize (touched n m h) as t. induction t as [|q t IH]; intros Hg; [reflexivity|].
  cbn [map mapM]. destruct (Hg q (or_introl eq_refl)) as [Q1 Q2]. destruct Hf as [Lf Rf]. unfold e_x, e_y. cbn [fst snd].
  rewrite (py_get_ok _ f _ []) by lia. cbn [bind]. rewrite Nat2Z.id. rewrite (py_get_ok _ (nth (snd q) f []) _ 0) by (rewrite Rf by lia; lia).
  rewrite Nat2Z.id. cbn [bind]. unfold e_x, e_y in IH. rewrite IH by (intros r Hr; apply Hg; now right). reflexivity.
Qed.

Lemma touched_grid : forall n m h q, In q (touched n m h) -> (fst q < n)%nat /\ (snd q < m)%nat.
Proof. intros n m h q Hq. unfold touched in Hq. apply filter_In in Hq. destruct Hq as [Hq _]. now apply in_grid in Hq. Qed.

Lemma map_map2 : forall A (f g : A -> R) l, map2 Rmult (map f l) (map g l) = map (fun x => f x * g x) l.
Proof. induction l as [|a l IH]; cbn; auto. now rewrite IH. Qed.

Lemma sum_weights : forall mc n m h, (forall p, In p h -> (fst p < n)%nat /\ (snd p < m)%nat) -> (1 < mc)%Z ->
  Rsum (map e_w (entries mc n m h)) = INR (length h) / IZR mc.
Proof.
  intros mc n m h Hg Hmc. unfold entries. rewrite map_map. unfold e_w. cbn [snd].
  rewrite (map_ext _ (fun q => (INR (occ q h) * (fun _ => 1) q) * / IZR mc)) by (intros; unfold Rdiv; ring).
  rewrite sum_map_scal, sum_touched by auto. unfold Rdiv. f_equal. clear. induction h as [|a h IH]; [reflexivity|]. cbn [map Rsum fold_right]. fold (Rsum (map (fun _ : nat * nat => 1) h)).
  rewrite IH. cbn [length]. rewrite S_INR. ring.
Qed.

Lemma cell_value_ok : forall mc f w n m h, (forall p, In p h -> (fst p < n)%nat /\ (snd p < m)%nat) -> (1 < mc)%Z -> shape2 f m n ->
  (forall w', w = Some w' -> shape2 w' m n) ->
  cell_value f w (entries mc n m h) = Ok (mean_of f w h).
Proof.
  intros mc f w n m h Hg Hmc Hf Hw. assert (M : 0 < IZR mc) by (apply IZR_lt; lia). unfold cell_value. rewrite sum_weights by auto.
  destruct h as [|q h'] eqn:Eh.
  - cbn [length INR]. rewrite Req_bool_true by (unfold Rdiv; ring). unfold mean_of. destruct w; [|reflexivity]. unfold weighted_mean. cbn [map Rsum fold_right].
    destruct (Req_EM_T 0 0); [reflexivity|lra].
  - rewrite <- Eh in *. assert (L : 0 < INR (length h)) by (rewrite Eh; apply lt_0_INR; cbn; lia).
    rewrite Req_bool_false by (apply Rgt_not_eq; now apply Rdiv_lt_0_compat).
    assert (T : forall g : nat * nat -> R, Rsum (map (fun q => INR (occ q h) / IZR mc * g q) (touched n m h)) = Rsum (map g h) / IZR mc).
    { intros g. rewrite (map_ext _ (fun q => (INR (occ q h) * g q) * / IZR mc)) by (intros; unfold Rdiv; ring). now rewrite sum_map_scal, sum_touched. }
    destruct w as [w|].
    + rewrite !(read_entries_ok mc _ n m h) by (auto; apply touched_grid). cbn [bind].
      assert (E : map e_w (entries mc n m h) = map (fun q => INR (occ q h) / IZR mc) (touched n m h)) by (unfold entries; now rewrite map_map).
      rewrite E, !map_map2. cbn [mean_of]. unfold weighted_mean.
      rewrite (map_ext (fun x => INR (occ x h) / IZR mc * value w x * value f x) (fun x => INR (occ x h) / IZR mc * (value w x * value f x))) by (intros; ring).
      rewrite !T. rewrite fdiv_dec. f_equal. destruct (Req_EM_T (Rsum (map (value w) h)) 0) as [E0|E0].
      * rewrite E0. destruct (Req_EM_T (0 / IZR mc) 0); [reflexivity|]. exfalso. apply n0. unfold Rdiv. ring.
      * destruct (Req_EM_T (Rsum (map (value w) h) / IZR mc) 0) as [E1|E1].
        { exfalso. apply E0. apply (Rmult_eq_reg_r (/ IZR mc)); [|apply Rinv_neq_0_compat; lra]. unfold Rdiv in E1. rewrite E1. ring. }
        f_equal. field. split; lra.
    + rewrite (read_entries_ok mc _ n m h) by (auto; apply touched_grid). cbn [bind].
      assert (E : map e_w (entries mc n m h) = map (fun q => INR (occ q h) / IZR mc) (touched n m h)) by (unfold entries; now rewrite map_map).
      rewrite E, map_map2, T. rewrite fdiv_ok by (apply Rgt_not_eq; now apply Rdiv_lt_0_compat). cbn [mean_of].
      assert (PM : plain_mean f h = Some (Rsum (map (value f) h) / INR (length h))) by (rewrite Eh; reflexivity). rewrite PM. f_equal. f_equal. field. split; lra.
Qed.

(** ** The whole grid *)

Lemma mapM_seq : forall B (f : nat -> res B) n h, (forall i, (i < n)%nat -> f i = Ok (h i)) -> mapM f (seq 0 n) = Ok (tab n h).
Proof. intros B f n h H. rewrite <- (map_id (seq 0 n)). apply (mapM_tab nat B f n (fun i => i) h H). Qed.

Lemma mapM_first : forall A B (f : A -> res B) a l e, f a = Err e -> mapM f (a :: l) = Err e.
Proof. intros. cbn. rewrite H. reflexivity. Qed.

Lemma forallb_tab : forall A (p : A -> bool) n g, forallb p (tab n g) = true <-> forall i, (i < n)%nat -> p (g i) = true.
Proof.
  intros. rewrite forallb_forall. split.
  - intros H i Hi. apply H. unfold tab. apply in_map. apply in_seq. lia.
  - intros H x Hx. unfold tab in Hx. apply in_map_iff in Hx. destruct Hx as (i & <- & Hi). apply in_seq in Hi. apply H. lia.
Qed.

Lemma forallb_false : forall A (p : A -> bool) n g i, (i < n)%nat -> p (g i) = false -> forallb p (tab n g) = false.
Proof.
  intros. destruct (forallb p (tab n g)) eqn:E; auto. rewrite forallb_tab in E. rewrite E in H0 by auto. discriminate.
Qed.

Lemma tab_cons : forall A n (g : nat -> A), (1 <= n)%nat -> tab n g = g 0%nat :: tl (tab n g).
Proof. intros A n g H. destruct n; [lia|reflexivity]. Qed.

Section Grid.
Variables (V : pixels) (P : mc_polar) (nr np : nat) (mc : Z) (draws : nat -> nat -> list R * list R) (hit : nat -> nat -> list (nat * nat)).
Hypothesis HV : good_pixels V.
Hypothesis Nx : (1 <= pnx V)%nat.
Hypothesis Ny : (1 <= pny V)%nat.
Hypothesis HP : good_polar P nr np.
Hypothesis Hmc : (1 < mc)%Z.
Hypothesis Hu : forall i j u, In u (fst (draws i j)) -> 0 <= u < 1.
Hypothesis Hhit : forall i j, (i < np)%nat -> (j < nr)%nat -> hits V (drawn_points (sectors_of P) draws i j) (hit i j).

Definition cells_tab : list (list (list entry)) := tab2 np nr (fun i j => entries mc (pnx V) (pny V) (hit i j)).
Definition cnt (i j : nat) : nat := length (touched (pnx V) (pny V) (hit i j)).

Lemma hit_grid : forall i j, (i < np)%nat -> (j < nr)%nat -> forall p, In p (hit i j) -> (fst p < pnx V)%nat /\ (snd p < pny V)%nat.
Proof. intros i j Hi Hj p Hp. exact (hits_in_grid V _ _ p (Hhit i j Hi Hj) Hp). Qed.

Lemma cnt_distinct : forall i j, (i < np)%nat -> (j < nr)%nat -> distinct (hit i j) (cnt i j).
Proof. intros. apply touched_distinct. now apply hit_grid. Qed.

Lemma r2d_sizes : length (mc_r2d P) = np /\ length (nth 0 (mc_r2d P) []) = nr.
Proof. destruct HP as (A & B & [S1 S2] & _). split; auto. apply S2. lia. Qed.

Lemma rows_ok : mapM (fun i => mapM (fun j => cell_weights (the_box V) P (draws i j) mc i j) (seq 0 (length (nth 0 (mc_r2d P) [])))) (seq 0 (length (mc_r2d P)))
  = Ok cells_tab.
Proof.
  destruct r2d_sizes as [-> ->]. apply mapM_seq. intros i Hi. apply mapM_seq. intros j Hj.
  apply (cell_weights_ok V P nr np); auto. apply Hu.
Qed.

Lemma weights_eq : get_weights (the_box V) P draws mc = stack_rows (map make_row cells_tab).
Proof. unfold get_weights. replace (1 <? mc)%Z with true by (symmetry; apply Z.ltb_lt; lia). cbn [py_assert]. rewrite rows_ok. reflexivity. Qed.

Lemma entries_len : forall i j, length (entries mc (pnx V) (pny V) (hit i j)) = cnt i j.
Proof. intros. unfold entries. apply map_length. Qed.

Lemma make_row_uniform : forall i, (forall j, (j < nr)%nat -> cnt i j = cnt i 0) ->
  make_row (tab nr (fun j => entries mc (pnx V) (pny V) (hit i j))) = UniformRow (cnt i 0) (tab nr (fun j => entries mc (pnx V) (pny V) (hit i j))).
Proof.
  intros i H. destruct HP as (Hr & _). unfold make_row. rewrite tab_nth by lia. rewrite entries_len.
  replace (forallb _ _) with true; [reflexivity|]. symmetry. apply forallb_tab. intros j Hj. rewrite entries_len, H by auto. apply Nat.eqb_refl.
Qed.

Lemma make_row_ragged : forall i j, (j < nr)%nat -> cnt i j <> cnt i 0 ->
  make_row (tab nr (fun j => entries mc (pnx V) (pny V) (hit i j))) = RaggedRow (tab nr (fun j => entries mc (pnx V) (pny V) (hit i j))).
Proof.
  intros i j Hj H. destruct HP as (Hr & _). unfold make_row. rewrite tab_nth by lia. rewrite entries_len.
  rewrite (forallb_false _ _ nr _ j); auto. rewrite entries_len. now apply Nat.eqb_neq.
Qed.

Lemma map_row_cells : forall rows : list (list (list entry)), map row_cells (map make_row rows) = rows.
Proof.
  intros rows. rewrite map_map. rewrite <- (map_id rows) at 2. apply map_ext. intros r. unfold make_row. destruct (forallb _ r); reflexivity.
Qed.

Lemma weights_ragged : (forall i, (i < np)%nat -> exists j, (j < nr)%nat /\ cnt i j <> cnt i 0) ->
  get_weights (the_box V) P draws mc = Ok (Arrays cells_tab).
Proof.
  intros H. rewrite weights_eq. unfold stack_rows. rewrite map_row_cells. unfold cells_tab at 1, tab2. rewrite tab_map.
  replace (forallb is_ragged _) with true; [reflexivity|]. symmetry. apply forallb_tab. intros i Hi. destruct (H i Hi) as (j & Hj & Hd).
  now rewrite (make_row_ragged i j).
Qed.

Lemma weights_uniform : (forall i j, (i < np)%nat -> (j < nr)%nat -> cnt i j = cnt 0 0) ->
  get_weights (the_box V) P draws mc = Ok (Numbers (cnt 0 0) cells_tab).
Proof.
  intros H. assert (HP' := HP). destruct HP' as (Hr & Hp & _). rewrite weights_eq. unfold stack_rows. rewrite map_row_cells.
  assert (E : map make_row cells_tab = tab np (fun i => UniformRow (cnt 0 0) (tab nr (fun j => entries mc (pnx V) (pny V) (hit i j))))).
  { unfold cells_tab, tab2. rewrite tab_map. apply tab_ext. intros i Hi. rewrite make_row_uniform by (intros; transitivity (cnt 0 0); [|symmetry]; apply H; auto; lia).
    now rewrite (H i 0%nat) by (auto; lia). }
  rewrite E. rewrite (forallb_false _ is_ragged np _ 0) by (auto; lia).
  set (g := fun i => UniformRow (cnt 0 0) (tab nr (fun j => entries mc (pnx V) (pny V) (hit i j)))).
  assert (Hd := tab_cons _ np g Hp). rewrite Hd. unfold g at 1. rewrite <- Hd.
  replace (forallb (is_uniform (cnt 0 0)) (tab np g)) with true; [reflexivity|]. symmetry. apply forallb_tab. intros i Hi. cbn. apply Nat.eqb_refl.
Qed.

Lemma weights_mixed : forall i0 i1 j1, (i0 < np)%nat -> (forall j, (j < nr)%nat -> cnt i0 j = cnt i0 0) ->
  (i1 < np)%nat -> (j1 < nr)%nat -> cnt i1 j1 <> cnt i0 0 ->
  get_weights (the_box V) P draws mc = Err ValueError.
Proof.
  intros i0 i1 j1 H0 Hrow H1 J1 Hd. assert (HP' := HP). destruct HP' as (Hr & Hp & _). rewrite weights_eq. unfold stack_rows.
  unfold cells_tab, tab2. rewrite tab_map. set (g := fun i => make_row (tab nr (fun j => entries mc (pnx V) (pny V) (hit i j)))).
  assert (E0 : g i0 = UniformRow (cnt i0 0) (tab nr (fun j => entries mc (pnx V) (pny V) (hit i0 j)))) by (now apply make_row_uniform).
  rewrite (forallb_false _ is_ragged np g i0) by (auto; now rewrite E0).
  destruct (tab np g) as [|[r|k r] rest] eqn:ER; [reflexivity|reflexivity|]. rewrite <- ER.
  destruct (Nat.eq_dec k (cnt i0 0)) as [->|Hk].
  - rewrite (forallb_false _ _ np g i1); auto. unfold g, make_row. rewrite tab_nth by lia. rewrite entries_len.
    destruct (forallb _ _) eqn:F; [|reflexivity]. rewrite forallb_tab in F. specialize (F j1 J1). rewrite entries_len in F. apply Nat.eqb_eq in F.
    cbn [is_uniform]. apply Nat.eqb_neq. congruence.
  - rewrite (forallb_false _ _ np g i0); auto. rewrite E0. cbn [is_uniform]. apply Nat.eqb_neq. auto.
Qed.

(** ** Remapping *)

Variables (f : list (list R)) (w : option (list (list R))).
Hypothesis Hf : shape2 f (pny V) (pnx V).
Hypothesis Hw : forall w', w = Some w' -> shape2 w' (pny V) (pnx V).

Lemma x2d_shape : shape2 (x2d (the_box V)) (pny V) (pnx V).
Proof. cbn [the_box x2d]. apply tab2_shape. Qed.

Lemma remap_guards : forall A (k : res A),
  (guard same_shape f (x2d (the_box V)) ;; guard (match w with Some w => same_shape w (x2d (the_box V)) | None => true end) ;; k) = k.
Proof.
  intros A k. rewrite (same_shape_ok f _ (pny V) (pnx V)) by (auto using x2d_shape). cbn [py_assert].
  destruct w as [w0|]; [|reflexivity]. rewrite (same_shape_ok w0 _ (pny V) (pnx V)) by (auto using x2d_shape). reflexivity.
Qed.

Lemma remap_arrays : mc_remap (the_box V) P (Some (Arrays cells_tab)) f w = Ok (tab2 np nr (fun i j => mean_of f w (hit i j))).
Proof.
  unfold mc_remap. rewrite remap_guards. destruct r2d_sizes as [-> ->]. apply mapM_seq. intros i Hi. apply mapM_seq. intros j Hj.
  rewrite (py_get_ok _ cells_tab _ []) by (unfold cells_tab; rewrite tab2_length; lia). cbn [bind]. rewrite Nat2Z.id.
  unfold cells_tab, tab2. rewrite tab_nth by auto. rewrite (py_get_ok _ (tab _ _) _ []) by (rewrite tab_length; lia). cbn [bind]. rewrite Nat2Z.id, tab_nth by auto.
  apply cell_value_ok; auto. now apply hit_grid.
Qed.

Lemma remap_numbers_zero : forall k, (forall i j, (i < np)%nat -> (j < nr)%nat -> cnt i j = 0%nat) ->
  mc_remap (the_box V) P (Some (Numbers k cells_tab)) f w = Ok (tab2 np nr (fun i j => None)) /\
  forall i j, (i < np)%nat -> (j < nr)%nat -> hit i j = [].
Proof.
  intros k H.
  assert (E : forall i j, (i < np)%nat -> (j < nr)%nat -> hit i j = []).
  { intros i j Hi Hj. apply (touched_nil (pnx V) (pny V)); [now apply hit_grid|]. apply length_zero_iff_nil. now apply H. }
  split; [|exact E]. unfold mc_remap. rewrite remap_guards. destruct r2d_sizes as [-> ->]. apply mapM_seq. intros i Hi. apply mapM_seq. intros j Hj.
  rewrite (py_get_ok _ cells_tab _ []) by (unfold cells_tab; rewrite tab2_length; lia). cbn [bind]. rewrite Nat2Z.id.
  unfold cells_tab, tab2. rewrite tab_nth by auto. rewrite (py_get_ok _ (tab _ _) _ []) by (rewrite tab_length; lia). cbn [bind]. rewrite Nat2Z.id, tab_nth by auto.
  unfold cell_value_obj. rewrite sum_weights by (auto; now apply hit_grid). rewrite E by auto. rewrite Req_bool_true; [reflexivity|]. cbn. unfold Rdiv. ring.
Qed.

Lemma remap_numbers_pos : forall k, (1 <= cnt 0 0)%nat ->
  mc_remap (the_box V) P (Some (Numbers k cells_tab)) f w = Err IndexError.
Proof.
  intros k Hk. assert (HP' := HP). destruct HP' as (Hr & Hp & _). unfold mc_remap. rewrite remap_guards. destruct r2d_sizes as [-> ->].
  replace (seq 0 np) with (0%nat :: seq 1 (np - 1)) by (replace np with (S (np - 1)) by lia; cbn [Nat.sub seq]; now rewrite Nat.sub_0_r). apply mapM_first.
  replace (seq 0 nr) with (0%nat :: seq 1 (nr - 1)) by (replace nr with (S (nr - 1)) by lia; cbn [Nat.sub seq]; now rewrite Nat.sub_0_r). apply mapM_first.
  rewrite (py_get_ok _ cells_tab _ []) by (unfold cells_tab; rewrite tab2_length; lia). cbn [bind]. rewrite Nat2Z.id.
  unfold cells_tab, tab2. rewrite tab_nth by lia. rewrite (py_get_ok _ (tab _ _) _ []) by (rewrite tab_length; lia). cbn [bind]. rewrite Nat2Z.id, tab_nth by lia.
  unfold cell_value_obj. rewrite sum_weights by (auto; apply hit_grid; lia). rewrite Req_bool_false; [reflexivity|].
  assert (hit 0 0 <> []). { intros E. unfold cnt in Hk. rewrite E in Hk. unfold touched in Hk. rewrite filter_none in Hk; [cbn in Hk; lia|]. intros q _. reflexivity. }
  assert (0 < INR (length (hit 0 0))) by (apply lt_0_INR; destruct (hit 0 0); [contradiction|cbn; lia]).
  apply Rgt_not_eq. apply Rdiv_lt_0_compat; auto. apply IZR_lt. lia.
Qed.

End Grid.

(** ** Set-up *)

Lemma tab_nonneg_edges : forall a h n j, 0 <= a -> 0 <= h -> (j < n)%nat ->
  0 <= nth j (tab (S n) (fun i => a + INR i * h)) 0 <= nth (j + 1) (tab (S n) (fun i => a + INR i * h)) 0.
Proof.
  intros a h n j Ha Hh Hj. rewrite !tab_nth by lia. replace (j + 1)%nat with (S j) by lia. rewrite S_INR. pose proof (pos_INR j). nra.
Qed.

Definition lin_polar (rmin rmax : R) (nr np : nat) (pmin pmax c0 c1 s : R) : mc_polar :=
  McPolar (tab (S nr) (fun i => rmin + INR i * ((rmax - rmin) / INR nr))) (tab (S np) (fun i => pmin + INR i * ((pmax - pmin) / INR np)))
    (tab2 np nr (fun _ j => rmin + (INR j + / 2) * ((rmax - rmin) / INR nr))) (tab2 np nr (fun i _ => pmin + (INR i + / 2) * ((pmax - pmin) / INR np)))
    [c0; c1] s.

Lemma setup_lin_ok : forall rmin rmax nr np pmin pmax c0 c1 s,
  0 <= rmin < rmax -> 0 <= pmin < pmax -> pmax <= 2 * PI -> (2 <= nr)%nat -> (2 <= np)%nat ->
  setup_polar_lin rmin rmax (Z.of_nat nr) (Z.of_nat np) pmin pmax [c0; c1] s = Ok (lin_polar rmin rmax nr np pmin pmax c0 c1 s).
Proof.
  intros rmin rmax nr np pmin pmax c0 c1 s Hr Hp Hp' Nr Np. unfold setup_polar_lin. rewrite !posZ by lia. rewrite !Rle_bool_t, !Rlt_bool_t by lra.
  cbn [py_assert length Nat.eqb]. rewrite !linspace_Z by lia. cbn [bind]. rewrite !mids.
  rewrite !(py_get_ok _ (tab nr _) _ 0), !(py_get_ok _ (tab np _) _ 0) by (rewrite tab_length; lia). cbn [bind]. rewrite meshgrid_tab. reflexivity.
Qed.

Lemma setup_lin_single : forall rmin rmax nr np pmin pmax c0 c1 s,
  0 <= rmin < rmax -> 0 <= pmin < pmax -> pmax <= 2 * PI -> (1 <= nr)%nat -> (1 <= np)%nat -> (nr = 1 \/ np = 1)%nat ->
  setup_polar_lin rmin rmax (Z.of_nat nr) (Z.of_nat np) pmin pmax [c0; c1] s = Err IndexError.
Proof.
  intros rmin rmax nr np pmin pmax c0 c1 s Hr Hp Hp' Nr Np H1. unfold setup_polar_lin. rewrite !posZ by lia. rewrite !Rle_bool_t, !Rlt_bool_t by lra.
  cbn [py_assert length Nat.eqb]. rewrite !linspace_Z by lia. cbn [bind]. rewrite !mids.
  assert (Out : forall g, py_get (tab 1 g) 1 = @Err R IndexError) by reflexivity.
  destruct (Nat.eq_dec nr 1) as [->|E]; [rewrite Out; reflexivity|].
  rewrite !(py_get_ok _ (tab nr _) _ 0) by (rewrite tab_length; lia). cbn [bind]. replace np with 1%nat by lia. now rewrite Out.
Qed.

Lemma lin_good : forall rmin rmax nr np pmin pmax c0 c1 s, 0 <= rmin < rmax -> (2 <= nr)%nat -> (2 <= np)%nat ->
  good_polar (lin_polar rmin rmax nr np pmin pmax c0 c1 s) nr np.
Proof.
  intros rmin rmax nr np pmin pmax c0 c1 s Hr Nr Np. unfold good_polar, lin_polar. cbn [mc_r2d mc_redges mc_pedges mc_center].
  rewrite !tab_length. repeat split; try lia; try apply tab2_shape.
  - apply tab_nonneg_edges; try lra; auto. apply Rlt_le, Rdiv_lt_0_compat; [lra|apply INR_pos; lia].
  - apply tab_nonneg_edges; try lra; auto. apply Rlt_le, Rdiv_lt_0_compat; [lra|apply INR_pos; lia].
Qed.

(** Samples of a cell are in the cell. *)
Lemma drawn_r_between : forall a b u, 0 <= a <= b -> 0 <= u < 1 -> a <= drawn_r a b u <= b.
Proof.
  intros a b u Hab Hu. unfold drawn_r. assert (Q : a * a <= b * b) by nra. split.
  - rewrite <- (sqrt_square a) at 1 by lra. apply sqrt_le_1; nra.
  - apply Rle_trans with (sqrt (b * b)); [apply sqrt_le_1; nra|]. rewrite sqrt_square by lra. lra.
Qed.

Lemma drawn_in_sector : forall S i j uv, 0 <= nth j (se_r S) 0 <= nth (j + 1) (se_r S) 0 -> nth i (se_p S) 0 <= nth (i + 1) (se_p S) 0 ->
  0 <= fst uv < 1 -> 0 <= snd uv < 1 -> in_sector S i j (drawn_point S i j uv).
Proof.
  intros S i j [u v] Hr Hp Hu Hv. cbn [fst snd] in *. unfold in_sector, drawn_point. cbn [fst snd].
  exists (drawn_r (nth j (se_r S) 0) (nth (j + 1) (se_r S) 0) u), ((nth (i + 1) (se_p S) 0 - nth i (se_p S) 0) * v + nth i (se_p S) 0).
  split; [now apply drawn_r_between|]. split; [nra|]. reflexivity.
Qed.

(** ** Logarithmic set-up *)

Lemma log_edge : forall a b n i, 0 < a -> 0 < b -> (1 <= n)%nat ->
  Rpower 10 (log10 a + INR i * ((log10 b - log10 a) / INR n)) = geometric a b n i.
Proof.
  intros a b n i Ha Hb Hn. pose proof (INR_pos n Hn) as Pn. assert (L : 0 < ln 10) by (rewrite <- ln_1; apply ln_increasing; lra).
  unfold geometric, Rpower, log10. replace a with (exp (ln a)) at 3 by (now apply exp_ln). rewrite <- exp_plus. f_equal.
  unfold Rdiv at 6. rewrite ln_mult, ln_Rinv by (auto; now apply Rinv_0_lt_compat). field. split; lra.
Qed.

Definition log_edges (rmin rmax : R) (nr : nat) (addzero : bool) : list R :=
  if addzero then 0 :: (match nr with 1%nat => [rmin] | _ => tab nr (geometric rmin rmax (nr - 1)) end)
  else tab (S nr) (geometric rmin rmax nr).

Lemma geometric_pos : forall a b n i, 0 < a -> 0 < geometric a b n i.
Proof. intros. unfold geometric, Rpower. apply Rmult_lt_0_compat; auto. apply exp_pos. Qed.

Lemma geometric_incr : forall a b n i, 0 < a < b -> (1 <= n)%nat -> geometric a b n i < geometric a b n (S i).
Proof.
  intros a b n i Hab Hn. unfold geometric. apply Rmult_lt_compat_l; [lra|]. apply Rpower_lt.
  - apply (Rmult_lt_reg_r a); [lra|]. unfold Rdiv. rewrite Rmult_assoc, Rinv_l by lra. lra.
  - pose proof (INR_pos n Hn). rewrite S_INR. apply Rmult_lt_compat_r; [now apply Rinv_0_lt_compat|lra].
Qed.

Lemma log_edges_length : forall rmin rmax nr z, (1 <= nr)%nat -> length (log_edges rmin rmax nr z) = S nr.
Proof. intros. unfold log_edges. destruct z; [|apply tab_length]. cbn [length]. f_equal. destruct nr as [|[|n]]; [lia|reflexivity|apply tab_length]. Qed.

Lemma log_edges_incr : forall rmin rmax nr z j, 0 < rmin < rmax -> (j < nr)%nat ->
  0 <= nth j (log_edges rmin rmax nr z) 0 < nth (j + 1) (log_edges rmin rmax nr z) 0.
Proof.
  intros rmin rmax nr z j H Hj. unfold log_edges. replace (j + 1)%nat with (S j) by lia. destruct z.
  - cbn [nth]. destruct nr as [|[|n]]; [lia| |].
    + replace j with 0%nat by lia. cbn. lra.
    + rewrite tab_nth by lia. destruct j as [|j].
      * pose proof (geometric_pos rmin rmax (S (S n) - 1) 0). lra.
      * cbn [nth]. rewrite tab_nth by lia. pose proof (geometric_pos rmin rmax (S (S n) - 1) j). pose proof (geometric_incr rmin rmax (S (S n) - 1) j H). split; [lra|]. apply H1. lia.
  - rewrite !tab_nth by lia. pose proof (geometric_pos rmin rmax nr j). split; [lra|]. apply geometric_incr; auto. lia.
Qed.

Definition log_polar (rmin rmax : R) (nr np : nat) (pmin pmax c0 c1 s : R) (z : bool) : mc_polar :=
  let re := log_edges rmin rmax nr z in
  McPolar re (tab (S np) (fun i => pmin + INR i * ((pmax - pmin) / INR np)))
    (tab2 np nr (fun _ j => / 2 * (nth (S j) re 0 + nth j re 0))) (tab2 np nr (fun i _ => pmin + (INR i + / 2) * ((pmax - pmin) / INR np)))
    [c0; c1] s.

Lemma logspace_ok : forall a b n, 0 < a -> 0 < b -> (1 <= n)%nat -> logspaceZ (log10 a) (log10 b) (Z.of_nat n + 1) = Ok (tab (S n) (geometric a b n)).
Proof.
  intros a b n Ha Hb Hn. unfold logspaceZ. rewrite linspace_Z by auto. cbn [bind]. rewrite tab_map. f_equal. apply tab_ext. intros i _. now apply log_edge.
Qed.

Lemma log_redges_ok : forall rmin rmax nr (z : bool), 0 < rmin < rmax -> (1 <= nr)%nat ->
  (if z then l <- logspaceZ (log10 rmin) (log10 rmax) (Z.of_nat nr) ;; Ok (0 :: l)
   else logspaceZ (log10 rmin) (log10 rmax) (Z.of_nat nr + 1)) = Ok (log_edges rmin rmax nr z).
Proof.
  intros rmin rmax nr z H Hn. unfold log_edges. destruct z; [|apply logspace_ok; lra || auto].
  destruct nr as [|[|n]]; [lia| |].
  - unfold logspaceZ, linspaceZ. change (Z.of_nat 1 <? 0)%Z with false. change (Z.to_nat (Z.of_nat 1)) with 1%nat. cbn [bind linspace map].
    assert (L : 0 < ln 10) by (rewrite <- ln_1; apply ln_increasing; lra).
    replace (Rpower 10 (log10 rmin)) with rmin; [reflexivity|]. unfold Rpower, log10.
    replace (ln rmin / ln 10 * ln 10) with (ln rmin) by (field; lra). symmetry. apply exp_ln. lra.
  - replace (Z.of_nat (S (S n))) with (Z.of_nat (S n) + 1)%Z by lia. rewrite logspace_ok by (lra || lia). cbn [bind]. repeat f_equal.
Qed.

Lemma setup_log_ok : forall rmin rmax nr np pmin pmax c0 c1 s z,
  0 < rmin < rmax -> 0 <= pmin < pmax -> pmax <= 2 * PI -> (1 <= nr)%nat -> (2 <= np)%nat ->
  setup_polar_log rmin rmax (Z.of_nat nr) (Z.of_nat np) pmin pmax [c0; c1] s z = Ok (log_polar rmin rmax nr np pmin pmax c0 c1 s z).
Proof.
  intros rmin rmax nr np pmin pmax c0 c1 s z Hr Hp Hp' Nr Np. unfold setup_polar_log. rewrite !posZ by lia. rewrite !Rle_bool_t, !Rlt_bool_t by lra.
  cbn [py_assert length Nat.eqb]. rewrite log_redges_ok by auto. rewrite !linspace_Z by lia. cbn [bind]. rewrite !mids.
  rewrite !(py_get_ok _ (tab np _) _ 0) by (rewrite tab_length; lia). cbn [bind].
  assert (E : log_edges rmin rmax nr z = tab (S nr) (fun i => nth i (log_edges rmin rmax nr z) 0)) by (apply tab_of_list; now apply log_edges_length).
  assert (M : map2 (fun a b => / 2 * (a + b)) (tl (log_edges rmin rmax nr z)) (removelast (log_edges rmin rmax nr z)) =
              tab nr (fun j => / 2 * (nth (S j) (log_edges rmin rmax nr z) 0 + nth j (log_edges rmin rmax nr z) 0))).
  { rewrite E at 1 2. now rewrite steps_tab. }
  rewrite M, meshgrid_tab. reflexivity.
Qed.

Lemma log_good : forall rmin rmax nr np pmin pmax c0 c1 s z, 0 < rmin < rmax -> (1 <= nr)%nat -> (2 <= np)%nat ->
  good_polar (log_polar rmin rmax nr np pmin pmax c0 c1 s z) nr np.
Proof.
  intros rmin rmax nr np pmin pmax c0 c1 s z Hr Nr Np. unfold good_polar, log_polar. cbn [mc_r2d mc_redges mc_pedges mc_center].
  rewrite tab_length, log_edges_length by auto. repeat split; try lia; try apply tab2_shape; pose proof (log_edges_incr rmin rmax nr z j Hr H); lra.
Qed.

(** ** What the set-up functions accept *)

Lemma assert_inv : forall A c (k : res A) x, py_assert c k = Ok x -> c = true /\ k = Ok x.
Proof. intros A c k x H. destruct c; [auto|discriminate]. Qed.

Lemma Rle_bool_inv : forall x y, Rle_bool x y = true -> x <= y.
Proof. intros x y H. destruct (Rle_bool_spec x y); [auto|discriminate]. Qed.
Lemma Rlt_bool_inv : forall x y, Rlt_bool x y = true -> x < y.
Proof. intros x y H. destruct (Rlt_bool_spec x y); [auto|discriminate]. Qed.

Lemma pair_list : forall l : list R, (length l =? 2)%nat = true -> exists a b, l = [a; b].
Proof. intros l H. destruct l as [|a [|b [|c l]]]; try discriminate. now exists a, b. Qed.

Lemma setup_lin_inv : forall rmin rmax numr nump pmin pmax c s P, setup_polar_lin rmin rmax numr nump pmin pmax c s = Ok P ->
  exists nr np c0 c1, numr = Z.of_nat nr /\ nump = Z.of_nat np /\ c = [c0; c1] /\ 0 <= rmin < rmax /\ 0 <= pmin < pmax /\ pmax <= 2 * PI /\
    (2 <= nr)%nat /\ (2 <= np)%nat /\ P = lin_polar rmin rmax nr np pmin pmax c0 c1 s.
Proof.
  intros rmin rmax numr nump pmin pmax c s P H. assert (H0 := H). unfold setup_polar_lin in H.
  do 10 (apply assert_inv in H; let E := fresh "E" in destruct H as [E H]).
  apply pair_list in E8. destruct E8 as (c0 & c1 & ->). apply Rle_bool_inv in E, E2, E6. apply Rlt_bool_inv in E0, E3, E4, E5. apply Z.ltb_lt in E1, E7.
  replace numr with (Z.of_nat (Z.to_nat numr)) in * by lia. replace nump with (Z.of_nat (Z.to_nat nump)) in * by lia.
  set (nr := Z.to_nat numr) in *. set (np := Z.to_nat nump) in *.
  destruct (Nat.eq_dec nr 1) as [N|N]; [rewrite setup_lin_single in H0 by (try lra; lia); discriminate|].
  destruct (Nat.eq_dec np 1) as [M|M]; [rewrite setup_lin_single in H0 by (try lra; lia); discriminate|].
  rewrite setup_lin_ok in H0 by (try lra; lia). injection H0 as <-. exists nr, np, c0, c1. repeat split; try lra; lia.
Qed.

Lemma setup_log_inv : forall rmin rmax numr nump pmin pmax c s z P, setup_polar_log rmin rmax numr nump pmin pmax c s z = Ok P ->
  exists nr np c0 c1, numr = Z.of_nat nr /\ nump = Z.of_nat np /\ c = [c0; c1] /\ 0 < rmin < rmax /\ 0 <= pmin < pmax /\ pmax <= 2 * PI /\
    (1 <= nr)%nat /\ (2 <= np)%nat /\ P = log_polar rmin rmax nr np pmin pmax c0 c1 s z.
Proof.
  intros rmin rmax numr nump pmin pmax c s z P H. assert (H0 := H). unfold setup_polar_log in H.
  do 10 (apply assert_inv in H; let E := fresh "E" in destruct H as [E H]).
  apply pair_list in E8. destruct E8 as (c0 & c1 & ->). apply Rle_bool_inv in E2, E6. apply Rlt_bool_inv in E, E0, E3, E4, E5. apply Z.ltb_lt in E1, E7.
  replace numr with (Z.of_nat (Z.to_nat numr)) in * by lia. replace nump with (Z.of_nat (Z.to_nat nump)) in * by lia.
  set (nr := Z.to_nat numr) in *. set (np := Z.to_nat nump) in *.
  destruct (Nat.eq_dec np 1) as [M|M].
  - exfalso. rewrite log_redges_ok in H by (lra || lia). rewrite !linspace_Z in H by lia. cbn [bind] in H. rewrite mids in H. rewrite M in H.
    assert (Out : forall g, py_get (tab 1 g) 1 = @Err R IndexError) by reflexivity. rewrite Out in H. discriminate.
  - rewrite setup_log_ok in H0 by (try lra; lia). injection H0 as <-. exists nr, np, c0, c1. repeat split; try lra; lia.
Qed.

(** The polar grid was made by one of the two set-up functions. *)
Definition made (P : mc_polar) (nr np : nat) : Prop :=
  (exists rmin rmax pmin pmax c s, setup_polar_lin rmin rmax (Z.of_nat nr) (Z.of_nat np) pmin pmax c s = Ok P) \/
  (exists rmin rmax pmin pmax c s z, setup_polar_log rmin rmax (Z.of_nat nr) (Z.of_nat np) pmin pmax c s z = Ok P).

Lemma made_good : forall P nr np, made P nr np -> good_polar P nr np /\ forall i, (i < np)%nat -> nth i (mc_pedges P) 0 <= nth (i + 1) (mc_pedges P) 0.
Proof.
  intros P nr np [(rmin & rmax & pmin & pmax & c & s & H)|(rmin & rmax & pmin & pmax & c & s & z & H)].
  - apply setup_lin_inv in H. destruct H as (nr' & np' & c0 & c1 & E1 & E2 & _ & Hr & Hp & _ & Nr & Np & ->). apply Nat2Z.inj in E1, E2. subst nr' np'.
    split; [now apply lin_good|]. intros i Hi. cbn [lin_polar mc_pedges]. apply tab_nonneg_edges; try lra; auto. apply Rlt_le, Rdiv_lt_0_compat; [lra|apply INR_pos; lia].
  - apply setup_log_inv in H. destruct H as (nr' & np' & c0 & c1 & E1 & E2 & _ & Hr & Hp & _ & Nr & Np & ->). apply Nat2Z.inj in E1, E2. subst nr' np'.
    split; [now apply log_good|]. intros i Hi. cbn [log_polar mc_pedges]. apply tab_nonneg_edges; try lra; auto. apply Rlt_le, Rdiv_lt_0_compat; [lra|apply INR_pos; lia].
Qed.

(** ** Means *)

Lemma in_cell : forall f n m q, shape2 f m n -> (fst q < n)%nat -> (snd q < m)%nat -> exists row, In row f /\ In (value f q) row.
Proof.
  intros f n m q [L R] H1 H2. exists (nth (snd q) f []). split; [apply nth_In; lia|]. unfold value, cell. apply nth_In. rewrite R; lia.
Qed.

Lemma weighted_between : forall lo hi (wt vl : nat * nat -> R) h, (forall q, In q h -> 0 <= wt q) -> (forall q, In q h -> lo <= vl q <= hi) ->
  lo * Rsum (map wt h) <= Rsum (map (fun q => wt q * vl q) h) <= hi * Rsum (map wt h).
Proof.
  intros lo hi wt vl h. unfold Rsum. induction h as [|q h IH]; intros Hw Hv; cbn; [lra|].
  specialize (IH (fun r Hr => Hw r (or_intror Hr)) (fun r Hr => Hv r (or_intror Hr))).
  pose proof (Hw q (or_introl eq_refl)). pose proof (Hv q (or_introl eq_refl)). nra.
Qed.

Lemma sum_nonneg : forall A (g : A -> R) h, (forall q, In q h -> 0 <= g q) -> 0 <= Rsum (map g h).
Proof.
  intros A g h. unfold Rsum. induction h as [|q h IH]; intros Hg; cbn; [lra|].
  specialize (IH (fun r Hr => Hg r (or_intror Hr))). pose proof (Hg q (or_introl eq_refl)). lra.
Qed.

Lemma div_between : forall lo hi a t, 0 < t -> lo * t <= a <= hi * t -> lo <= a / t <= hi.
Proof. intros. split; apply (Rmult_le_reg_r t); auto; unfold Rdiv; rewrite Rmult_assoc, Rinv_l by lra; lra. Qed.

Lemma mean_between : forall f w h lo hi v, mean_of f w h = Some v -> (forall q, In q h -> lo <= value f q <= hi) ->
  (forall w', w = Some w' -> forall q, In q h -> 0 <= value w' q) -> lo <= v <= hi.
Proof.
  intros f w h lo hi v E Hv Hw. destruct w as [w|].
  - cbn [mean_of] in E. unfold weighted_mean in E. destruct (Req_EM_T _ 0) as [Z|Z]; [discriminate|]. injection E as <-.
    pose proof (sum_nonneg _ (value w) h (Hw w eq_refl)). apply div_between; [lra|]. now apply weighted_between; [apply Hw|].
  - cbn [mean_of] in E. unfold plain_mean in E. destruct h as [|q h]; [discriminate|]. remember (q :: h) as l.
    assert (L : Rsum (map (fun _ : nat * nat => 1) l) = INR (length l)).
    { clear. unfold Rsum. induction l as [|a l IH]; [reflexivity|]. cbn [map fold_right length]. rewrite IH, S_INR. ring. }
    apply (f_equal (fun r => match r with Some x => x | None => 0 end)) in E. cbv beta iota in E. rewrite <- E.
    apply div_between; [rewrite Heql; apply lt_0_INR; cbn; lia|]. rewrite <- L.
    rewrite (map_ext (value f) (fun q => 1 * value f q)) by (intros; ring). apply weighted_between; auto. intros; lra.
Qed.

(** The pixels hit, computed. *)
Definition hits_of (V : pixels) (l : list (R * R)) : list (nat * nat) :=
  flat_map (fun p => match hist_bin2 (tab (S (pnx V)) (fun i => px0 V + INR i * phx V)) (tab (S (pny V)) (fun i => py0 V + INR i * phy V)) (Some p) with
                     | Some q => [q] | None => [] end) l.

Lemma hits_of_ok : forall V l, good_pixels V -> (1 <= pnx V)%nat -> (1 <= pny V)%nat -> hits V l (hits_of V l).
Proof.
  intros V l HV Nx Ny. induction l as [|p l IH]; [constructor|]. unfold hits_of. cbn [flat_map]. destruct (counted_dec V p HV Nx Ny) as [[q Hq]|Ho].
  - rewrite (bin2_in V HV p q Hq). cbn [app]. constructor; auto.
  - rewrite (bin2_out V HV p Ho). cbn [app]. constructor; auto.
Qed.
