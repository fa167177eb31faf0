(** * [MOneDDouble.v]: the errors, at least two edges in the new bin *)

From Coq Require Import Reals ZArith List Bool Lia Lra Psatz.
From Flocq Require Import Core IEEE754.BinarySingleNaN.
From Verif Require Import Base BaseP SpecGrid SpecRebin MGrids MUtils MOneD PGrids PUtils PPolarCoords POneD POneD2 POneD3.
From Verif Require Import MHealpixFloat PHealpixFloat SpecDouble MDouble PDouble MRemapDouble MGridsDouble PGridsDouble MSumDouble PSumDouble PDenseDouble PRemap2 PRadial
  SpecRebinDouble MOneDDouble PRebinDouble PRebinDouble2 PRebinDouble3 PRebinDouble4 SpecSigmaDouble PSigmaDouble PSigma.
Import ListNotations.
Open Scope R_scope.

(** ** Lengths and weights *)

Lemma multiple_at : forall x lo, fmt x -> (-1000 <= lo)%Z -> x = 0 \/ b2 lo <= Rabs x -> exists m, x = IZR m * b2 (lo - 52).
Proof.
  intros x lo F Hlo [->|H]; [exists 0%Z; ring|].
  set (c := cexp radix2 (FLT_exp (-1074) 53) x). assert (E : (lo - 52 <= c)%Z).
  { assert (M : (lo < mag radix2 x)%Z) by (apply mag_gt_bpow; exact H). unfold c, cexp, FLT_exp. lia. }
  exists (Ztrunc (scaled_mantissa radix2 (FLT_exp (-1074) 53) x) * 2 ^ (c - (lo - 52)))%Z.
  unfold fmt, generic_format in F. rewrite F at 1. unfold F2R. cbn [Fnum Fexp]. fold c. rewrite mult_IZR.
  change (IZR (2 ^ (c - (lo - 52)))) with (IZR (Zpower radix2 (c - (lo - 52)))). rewrite IZR_Zpower by lia. rewrite Rmult_assoc, <- bpow_plus. do 2 f_equal. lia.
Qed.

Definition mild := sized (-40) 50.

Lemma mild_gap : forall x y, mild x -> mild y -> val x - val y = 0 \/ b2 (-92) <= Rabs (val x - val y) <= b2 51.
Proof.
  intros x y [Fx Hx] [Fy Hy]. destruct (Req_dec (val x - val y) 0) as [Z|NZ]; [now left|right]. pose proof (bpow_gt_0 radix2 50) as P. split.
  - destruct (multiple_at (val x) (-40) (fmt_val x) ltac:(lia) ltac:(tauto)) as (p & Ep). destruct (multiple_at (val y) (-40) (fmt_val y) ltac:(lia) ltac:(tauto)) as (q & Eq).
    change (-40 - 52)%Z with (-92)%Z in *. rewrite Ep, Eq, <- Rmult_minus_distr_r, <- minus_IZR in *. pose proof (bpow_gt_0 radix2 (-92)) as P2.
    rewrite Rabs_mult, (Rabs_pos_eq (b2 (-92))) by lra. rewrite <- (Rmult_1_l (b2 (-92))) at 1. apply Rmult_le_compat_r; [lra|]. rewrite <- abs_IZR. apply (IZR_le 1).
    assert (p - q <> 0)%Z by (intros E; apply NZ; rewrite E; ring). lia.
  - change 51%Z with (1 + 50)%Z. rewrite bpow_plus. change (b2 1) with 2.
    assert (Bx : Rabs (val x) <= b2 50) by (destruct Hx as [-> |]; [rewrite Rabs_R0; lra|lra]).
    assert (By : Rabs (val y) <= b2 50) by (destruct Hy as [-> |]; [rewrite Rabs_R0; lra|lra]).
    apply Rabs_le_inv in Bx. apply Rabs_le_inv in By. apply Rabs_le. lra.
Qed.

Lemma few_small : forall k, (k <= 1000)%nat -> few k.
Proof. intros k H. unfold few. apply Rle_trans with (INR 1000); [now apply le_INR|]. rewrite INR_IZR_INZ. apply Rle_trans with (b2 10); [change (b2 10) with 1024; apply IZR_le; lia|apply bpow_le; lia]. Qed.

Lemma rel_range : forall k q r x X, rel k r x X -> X = 0 \/ b2 (- q) <= Rabs X <= b2 q -> rel k q x X.
Proof. intros k q r x X (A & B & _) C. now repeat split. Qed.

Lemma rel_sub : forall x y, mild x -> mild y -> rel 2 92 (dsub x y) (val x - val y).
Proof.
  intros x y Hx Hy. pose proof (mild_gap x y Hx Hy) as G. pose proof (proj1 Hx) as Fx. pose proof (proj1 Hy) as Fy.
  assert (B : Rabs (val x - val y) <= b2 51) by (destruct G as [-> |]; [rewrite Rabs_R0; apply bpow_ge_0|lra]).
  destruct (add_around (val x) (- val y) (fmt_val x) (fmt_opp _ (fmt_val y))) as (t & A & V).
  destruct (dsub_ok x y Fx Fy) as [F V']; [apply Rle_lt_trans with (b2 51); [apply fl_big; [lia|exact B]|apply bpow_lt; lia]|].
  split; [exact F|]. split; [exists t; split; [exact A|]; rewrite V'; exact V|]. destruct G as [G|[G1 G2]]; [now left|right].
  split; [exact G1|]. apply Rle_trans with (1 := G2). apply bpow_le. lia.
Qed.

Lemma rel_quot : forall a b c d, mild a -> mild b -> mild c -> mild d -> val c - val d <> 0 ->
  rel 6 143 (ddiv (dsub a b) (dsub c d)) ((val a - val b) / (val c - val d)).
Proof.
  intros a b c d Ha Hb Hc Hd NZ. pose proof (rel_div 2 2 92 92 _ _ _ _ (few_small 2 ltac:(lia)) (few_small 2 ltac:(lia)) ltac:(lia) ltac:(lia) ltac:(lia) (rel_sub a b Ha Hb) (rel_sub c d Hc Hd) NZ) as R.
  apply (rel_range _ _ _ _ _ R). destruct (mild_gap a b Ha Hb) as [E|[N1 N2]]; [left; rewrite E; unfold Rdiv; ring|right].
  destruct (mild_gap c d Hc Hd) as [E|[D1 D2]]; [contradiction|]. pose proof (Rabs_pos_lt _ NZ) as P. pose proof (bpow_gt_0 radix2 (-92)) as P1. pose proof (bpow_gt_0 radix2 51) as P2.
  unfold Rdiv. rewrite Rabs_mult, Rabs_inv.
  change (- (143))%Z with (-92 + -51)%Z. change 143%Z with (51 + 92)%Z. rewrite !bpow_plus. split.
  - apply Rmult_le_compat; [lra|apply bpow_ge_0|exact N1|]. change (-51)%Z with (- (51))%Z. rewrite bpow_opp. apply Rinv_le; assumption.
  - apply Rmult_le_compat; [lra|left; now apply Rinv_0_lt_compat|exact N2|]. change (92)%Z with (- (-92))%Z. rewrite bpow_opp. apply Rinv_le; assumption.
Qed.

Lemma rel_one : rel 6 143 done 1.
Proof.
  destruct (dint_ok 1 ltac:(lia)) as [F V]. change (dint 1) with done in *. split; [exact F|]. split; [exists 1; split; [apply around_1_0|rewrite V; ring]|].
  right. rewrite Rabs_R1. change 1 with (b2 0). split; apply bpow_le; lia.
Qed.

(** ** Pieces *)

Definition dtrip : Type := (double * double * Z)%type.
Definition dw (t : dtrip) : double := fst (fst t).
Definition dl (t : dtrip) : double := snd (fst t).
Definition dz (t : dtrip) : Z := snd t.
Definition dpos (t : dtrip) : bool := dlt dzero (dl t).

Lemma get_wrap_d : forall (l : list double) n z, length l = n -> (- Z.of_nat n <= z < Z.of_nat n)%Z -> py_get l z = Ok (nth (wrap n z) l dzero).
Proof.
  intros l n z H Hz. unfold wrap. destruct (Z.ltb_spec z 0) as [N|N].
  - unfold py_get. replace (z <? 0)%Z with true by (symmetry; apply Z.ltb_lt; lia).
    destruct (Z.ltb_spec (z + Z.of_nat (length l)) 0) as [|_]; [lia|].
    rewrite (nth_error_nth' l dzero) by lia. do 2 f_equal. lia.
  - rewrite (py_get_ok _ _ _ dzero) by lia. reflexivity.
Qed.

Definition blen_d (e : list double) (i : nat) : double := dsub (nth (S i) e dzero) (nth i e dzero).

Lemma length_bin_lengths_d : forall e n, length e = S n -> length (bin_lengths_d e) = n.
Proof.
  intros e n H. unfold bin_lengths_d. destruct e as [|a l]; [discriminate|]. cbn [tl]. injection H as H. rewrite <- H. clear H n.
  revert a. induction l as [|b l IH]; intros a; [reflexivity|]. change (removelast (a :: b :: l)) with (a :: removelast (b :: l)). cbn [map2 length]. f_equal. apply IH.
Qed.

Lemma nth_bin_lengths_d : forall e n i, length e = S n -> (i < n)%nat -> nth i (bin_lengths_d e) dzero = blen_d e i.
Proof.
  intros e n i H Hi. unfold bin_lengths_d, blen_d. destruct e as [|a l]; [discriminate|]. cbn [tl]. injection H as H. rewrite <- H in Hi. clear H n.
  revert a i Hi. induction l as [|b l IH]; intros a i Hi; [cbn in Hi; lia|]. change (removelast (a :: b :: l)) with (a :: removelast (b :: l)). cbn [map2]. destruct i as [|i]; [reflexivity|]. cbn [nth]. rewrite IH; [reflexivity|]. cbn in Hi. lia.
Qed.

Definition end_d (o : nat -> tree) (e s : list double) (n : nat) (F : list dtrip) : double :=
  dsqrt (ddiv (sum_d o (map (fun t => dmul (sq (dmul (dw t) (nth (wrap n (dz t)) s dzero))) (ddiv (blen_d e (wrap n (dz t))) (dl t))) F)) (sq (sum_d o (map dw F)))).

Lemma sigma_end_d : forall o e n s ts, length e = S n -> length s = n -> (forall t, In t ts -> (- Z.of_nat n <= dz t < Z.of_nat n)%Z) ->
  (let condition2 := np_where (map (fun l => dlt dzero l) (map dl ts)) in
   let index := take 0%Z (map dz ts) condition2 in
   let w := take dnan (map dw ts) condition2 in
   let length := take dnan (map dl ts) condition2 in
   s <- mapM (py_get s) index ;;
   let new_sigma := map2 (fun a b => sq (dmul a b)) w s in
   l <- mapM (py_get (bin_lengths_d e)) index ;;
   let new_sigma := map2 dmul new_sigma (map2 ddiv l length) in
   Ok (dsqrt (ddiv (sum_d o new_sigma) (sq (sum_d o w))))) = Ok (end_d o e s n (filter dpos ts)).
Proof.
  intros o e n s ts He Hs H. cbv zeta. rewrite (map_map dl (fun l => dlt dzero l)). change (fun x => dlt dzero (dl x)) with dpos. rewrite !take_where.
  assert (H' : forall t, In t (filter dpos ts) -> (- Z.of_nat n <= dz t < Z.of_nat n)%Z).
  { intros t Ht. apply filter_In in Ht. now apply H. }
  set (F := filter dpos ts) in *. clearbody F. clear H ts.
  rewrite (mapM_ok _ _ _ (fun z => nth (wrap n z) s dzero)).
  2: { intros z Hz. apply in_map_iff in Hz. destruct Hz as (t & <- & Ht). apply get_wrap_d; [exact Hs|]. now apply H'. }
  cbn [bind]. rewrite (mapM_ok _ _ _ (fun z => blen_d e (wrap n z))).
  2: { intros z Hz. apply in_map_iff in Hz. destruct Hz as (t & <- & Ht). rewrite (get_wrap_d _ n) by (rewrite ?(length_bin_lengths_d e n); auto; now apply H').
       rewrite (nth_bin_lengths_d e n) by (auto; apply wrap_lt; now apply H'). reflexivity. }
  cbn [bind]. unfold end_d. do 3 f_equal. f_equal. clear H'. induction F as [|t F IH]; [reflexivity|]. cbn [map map2]. now rewrite IH.
Qed.

Section Several.
Variables (o : nat -> tree) (e s : list double) (n lo hi : nat) (bmin bmax : double).
Hypothesis Fe : all_fin e.
Hypothesis Fa : fin bmin.
Hypothesis Fb : fin bmax.
Hypothesis He : length e = S n.
Hypothesis Hs : length s = n.
Hypothesis HL : located (map val e) lo hi (val bmin) (val bmax).
Hypothesis Hk : (2 <= hi - lo)%nat.

Let ed (i : nat) := nth i e dzero.

Lemma gete_d : forall z i, z = Z.of_nat i -> (i <= n)%nat -> py_get e z = Ok (nth i e dzero).
Proof. intros z i -> Hi. rewrite (py_get_ok _ _ _ dzero) by (unfold double in *; lia). now rewrite Nat2Z.id. Qed.

Lemma gete_neg_d : forall z i, (z < 0)%Z -> (z + Z.of_nat (S n) = Z.of_nat i)%Z -> py_get e z = Ok (nth i e dzero).
Proof. intros z i H1 H2. rewrite (get_wrap_d _ (S n)) by lia || exact He. unfold wrap. replace (z <? 0)%Z with true by (symmetry; apply Z.ltb_lt; lia). do 2 f_equal. lia. Qed.

Definition first_trip_d (z : Z) : dtrip :=
  if (z =? 0)%Z then (done, blen_d e 0, z)
  else if (z <? 0)%Z then (ddiv (dsub (ed n) bmin) (dsub (ed n) (ed (n - 1))), dsub (ed n) bmin, z)
  else let i := Z.to_nat z in (ddiv (dsub (ed i) bmin) (dsub (ed i) (ed (i - 1))), dsub (ed i) bmin, z).

Lemma first_step_d : forall z W L, (-1 <= z <= Z.of_nat n)%Z -> (1 <= n)%nat ->
  (if negb (z =? 0)%Z
   then e0 <- py_get e z ;; em <- py_get e (z - 1) ;;
        w <- py_set (done :: W) 0 (ddiv (dsub e0 bmin) (dsub e0 em)) ;;
        length <- py_set (blen_d e (wrap n z) :: L) 0 (dsub e0 bmin) ;;
        Ok (w, length)
   else Ok (done :: W, blen_d e (wrap n z) :: L)) = Ok (dw (first_trip_d z) :: W, dl (first_trip_d z) :: L).
Proof.
  intros z W L H Hn. unfold first_trip_d. destruct (Z.eqb_spec z 0) as [->|N]; [reflexivity|]. cbn [negb].
  destruct (Z.ltb_spec z 0) as [M|M].
  - assert (z = -1)%Z as -> by lia. rewrite (gete_neg_d (-1) n) by lia. rewrite (gete_neg_d (-1 - 1) (n - 1)) by lia. cbn [bind]. reflexivity.
  - rewrite (gete_d z (Z.to_nat z)), (gete_d (z - 1) (Z.to_nat z - 1)) by lia. cbn [bind]. reflexivity.
Qed.

Definition last_trip_d (z : Z) : dtrip :=
  let i := Z.to_nat z in (ddiv (dsub bmax (ed i)) (dsub (ed i) (ed (i - 1))), dsub bmax (ed i), z).

Lemma last_step_d : forall z W L l, (1 <= z < Z.of_nat n)%Z ->
  (if negb (z =? Z.of_nat (length e) - 1)%Z
   then e0 <- py_get e z ;; em <- py_get e (z - 1) ;;
        w <- py_set (W ++ [done]) (-1) (ddiv (dsub bmax e0) (dsub e0 em)) ;;
        length <- py_set (L ++ [l]) (-1) (dsub bmax e0) ;;
        Ok (w, length)
   else Ok (W ++ [done], L ++ [l])) = Ok (W ++ [dw (last_trip_d z)], L ++ [dl (last_trip_d z)]).
Proof.
  intros z W L l H. destruct (Z.eqb_spec z (Z.of_nat (length e) - 1)) as [E|N]; [unfold double in *; lia|]. cbn [negb].
  rewrite (gete_d z (Z.to_nat z)), (gete_d (z - 1) (Z.to_nat z - 1)) by lia. cbn [bind]. rewrite !py_set_app_last. reflexivity.
Qed.

Definition mid_trips_d (z : Z) (m : nat) : list dtrip := map (fun z => (done, blen_d e (Z.to_nat z), z)) (zrange z m).

Definition trips_d (z : Z) (m : nat) : list dtrip := first_trip_d z :: mid_trips_d (z + 1) m ++ [last_trip_d (z + Z.of_nat (S m))].

Lemma several_d : forall z m, start_weights_d (Z.of_nat (length e)) (seq lo (hi - lo)) = Ok (repeat done (S (S m)), zrange z (S (S m))) ->
  (-1 <= z)%Z -> (1 <= z + Z.of_nat (S m) < Z.of_nat n)%Z ->
  rebin_1d_single_bin_sigma_d o e s bmin bmax = Ok (end_d o e s n (filter dpos (trips_d z m))).
Proof.
  intros z m SW H1 H2. unfold rebin_1d_single_bin_sigma_d. rewrite (E_d e lo hi bmin bmax) by assumption. rewrite seq_length.
  destruct (hi - lo)%nat as [|[|k]] eqn:K; [lia|lia|]. rewrite <- K in *. clear K. rewrite SW. cbn [bind].
  rewrite (mapM_ok _ _ _ (fun z => blen_d e (wrap n z))).
  2: { intros y Hy. unfold zrange in Hy. apply in_map_iff in Hy. destruct Hy as (t & <- & Ht). apply in_seq in Ht.
       rewrite (get_wrap_d _ n) by (rewrite ?(length_bin_lengths_d e n); auto; lia). rewrite (nth_bin_lengths_d e n) by (auto; apply wrap_lt; lia). reflexivity. }
  cbn [bind]. rewrite (zrange_cons z (S m)), zrange_S_last. cbn [map]. cbn [repeat]. change (py_get (z :: zrange (z + 1) m ++ [(z + 1 + Z.of_nat m)%Z]) 0) with (Ok z). cbn [bind].
  change (done :: repeat done m) with (repeat done (S m)). rewrite (first_step_d z) by lia. cbn [bind].
  rewrite (app_comm_cons (zrange (z + 1) m)). rewrite (py_get_last _ _ 0%Z) by (cbn [length app]; lia).
  assert (LZ : nth (length ((z :: zrange (z + 1) m) ++ [(z + 1 + Z.of_nat m)%Z]) - 1) ((z :: zrange (z + 1) m) ++ [(z + 1 + Z.of_nat m)%Z]) 0%Z = (z + Z.of_nat (S m))%Z).
  { rewrite app_length. cbn [length]. rewrite app_nth2 by (cbn [length]; lia). cbn [length].
    replace (S (length (zrange (z + 1) m)) + 1 - 1 - S (length (zrange (z + 1) m)))%nat with 0%nat by lia. cbn [nth]. lia. }
  rewrite LZ. cbn [bind]. rewrite map_app. cbn [map]. rewrite repeat_S_last, app_comm_cons. rewrite (app_comm_cons (map _ (zrange (z + 1) m))). rewrite last_step_d by lia. cbn [bind].
  rewrite <- (sigma_end_d o e n s _ He Hs).
  - cbv zeta. unfold trips_d.
    assert (EW : (dw (first_trip_d z) :: repeat done m) ++ [dw (last_trip_d (z + Z.of_nat (S m)))]
               = map dw (first_trip_d z :: mid_trips_d (z + 1) m ++ [last_trip_d (z + Z.of_nat (S m))])).
    { cbn [map app]. rewrite map_app. cbn [map]. f_equal. f_equal. unfold mid_trips_d. rewrite map_map. cbn [dw fst]. unfold zrange. rewrite map_map.
      clear. generalize 0%nat. induction m as [|m IH]; intros j; [reflexivity|]. cbn [repeat seq map]. now rewrite <- IH. }
    assert (EL : (dl (first_trip_d z) :: map (fun z => blen_d e (wrap n z)) (zrange (z + 1) m)) ++ [dl (last_trip_d (z + Z.of_nat (S m)))]
               = map dl (first_trip_d z :: mid_trips_d (z + 1) m ++ [last_trip_d (z + Z.of_nat (S m))])).
    { cbn [map app]. rewrite map_app. cbn [map]. f_equal. f_equal. unfold mid_trips_d. rewrite map_map. apply map_ext_in. intros y Hy. cbn [dl fst snd].
      unfold zrange in Hy. apply in_map_iff in Hy. destruct Hy as (t & <- & Ht). unfold wrap. destruct (Z.ltb_spec (z + 1 + Z.of_nat t) 0); [lia|reflexivity]. }
    assert (EZ : (z :: zrange (z + 1) m) ++ [(z + 1 + Z.of_nat m)%Z] = map dz (first_trip_d z :: mid_trips_d (z + 1) m ++ [last_trip_d (z + Z.of_nat (S m))])).
    { cbn [map app]. rewrite map_app. cbn [map]. f_equal.
      - unfold first_trip_d. destruct (z =? 0)%Z; [reflexivity|]. now destruct (z <? 0)%Z.
      - f_equal; [unfold mid_trips_d; rewrite map_map; symmetry; apply map_id|]. cbn [last_trip_d dz snd]. f_equal. lia. }
    rewrite EW, EL, EZ. reflexivity.
  - intros t [<- | Ht].
    + unfold first_trip_d. destruct (z =? 0)%Z; [cbn [dz snd]; lia|]. destruct (z <? 0)%Z; cbn [dz snd]; lia.
    + apply in_app_or in Ht. destruct Ht as [Ht|[<-|[]]]; [|cbn [last_trip_d dz snd]; lia].
      unfold mid_trips_d, zrange in Ht. rewrite map_map in Ht. apply in_map_iff in Ht. destruct Ht as (i & <- & Hi). apply in_seq in Hi. cbn [dz snd]. lia.
Qed.
End Several.
