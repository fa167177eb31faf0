(** * Errors of rebinned values *)

From Coq Require Import Reals ZArith List Bool Lra Lia Psatz.
From Flocq Require Import Core.Raux.
From Verif Require Import Base BaseP SpecGrid SpecRebin MGrids MUtils MOneD PGrids PRadial PUtils.
From Verif Require Import PPolarCoords POneD POneD2 POneD3.
Import ListNotations.
Open Scope R_scope.

(** ** Pieces with positive length *)

Definition trip : Type := (R * R * Z)%type.
Definition tw (t : trip) : R := fst (fst t).
Definition tl_ (t : trip) : R := snd (fst t).
Definition tz (t : trip) : Z := snd t.
Definition pos (t : trip) : bool := Rlt_bool 0 (tl_ t).
Definition wrap (n : nat) (z : Z) : nat := if (z <? 0)%Z then (n - Z.to_nat (- z))%nat else Z.to_nat z.
Definition pieces (n : nat) (ts : list trip) : list piece :=
  map (fun t => Piece (tw t) (tl_ t) (wrap n (tz t))) (filter pos ts).

Lemma take_where : forall A B (d : B) (g : A -> B) (f : A -> bool) l,
  take d (map g l) (np_where (map f l)) = map g (filter f l).
Proof.
  intros A B d g f. induction l as [|a l IH]; [reflexivity|]. cbn [map filter]. rewrite np_where_cons.
  destruct (f a); unfold take in *; cbn [map nth]; rewrite map_map; cbn [nth]; now rewrite IH.
Qed.

Lemma get_wrap : forall (l : list R) n z, length l = n -> (- Z.of_nat n <= z < Z.of_nat n)%Z ->
  py_get l z = Ok (nth (wrap n z) l 0).
Proof.
  intros l n z H Hz. unfold wrap. destruct (Z.ltb_spec z 0) as [N|N].
  - unfold py_get. replace (z <? 0)%Z with true by (symmetry; apply Z.ltb_lt; lia).
    destruct (Z.ltb_spec (z + Z.of_nat (length l)) 0) as [|_]; [lia|].
    rewrite (nth_error_nth' l 0) by lia. do 2 f_equal. lia.
  - rewrite (py_get_ok _ _ _ 0) by lia. reflexivity.
Qed.

Lemma wrap_lt : forall n z, (- Z.of_nat n <= z < Z.of_nat n)%Z -> (wrap n z < n)%nat.
Proof. intros n z H. unfold wrap. destruct (Z.ltb_spec z 0); lia. Qed.

Section Pieces.
Variables (e : list R) (n : nat).
Hypothesis HI : increasing e.
Hypothesis He : length e = S n.

Lemma len_pos : forall i, (i < n)%nat -> 0 < bin_length e i.
Proof. intros i Hi. unfold bin_length. pose proof (HI i (S i) ltac:(lia)). lra. Qed.

Definition end_value (s : list R) (ps : list piece) : num :=
  nsqrt (fdiv (Rsum (map (fun p => (share p * nth (bin p) s 0) ^ 2 * (bin_length e (bin p) / extent p)) ps))
              (Rsum (map share ps) ^ 2)).

Lemma end_defined : forall s ps, (forall p, In p ps -> 0 < extent p /\ (bin p < n)%nat) -> Rsum (map share ps) <> 0 ->
  end_value s ps = Some (propagated e s ps).
Proof.
  intros s ps H0 H. unfold end_value, propagated. rewrite fdiv_ok by (apply pow_nonzero; exact H). unfold nsqrt, np_sqrt.
  rewrite Rlt_bool_f; [reflexivity|]. apply Rmult_le_pos; [|left; apply Rinv_0_lt_compat; nra].
  clear H. induction ps as [|p ps IH]; [cbn; lra|]. cbn [map]. rewrite Rsum_cons. apply Rplus_le_le_0_compat; [|apply IH; intros; apply H0; now right].
  destruct (H0 p (or_introl eq_refl)) as [A B]. apply Rmult_le_pos; [apply pow2_ge_0|]. pose proof (len_pos _ B). apply Rmult_le_pos; [lra|]. left. now apply Rinv_0_lt_compat.
Qed.

(** The last lines of the general case. *)
Lemma sigma_end : forall s ts, length s = n -> (forall t, In t ts -> (- Z.of_nat n <= tz t < Z.of_nat n)%Z) ->
  (let condition2 := np_where (map (fun l => Rlt_bool 0 l) (map tl_ ts)) in
   let index := take 0%Z (map tz ts) condition2 in
   let w := take None (map (fun t => Some (tw t)) ts) condition2 in
   let length := take 0 (map tl_ ts) condition2 in
   s <- mapM (py_get s) index ;;
   let new_sigma := map2 (fun a b => nsq (nmul a (Some b))) w s in
   l <- mapM (py_get (bin_lengths e)) index ;;
   let new_sigma := map2 nmul new_sigma (map2 fdiv l length) in
   Ok (nsqrt (ndiv (nsum new_sigma) (nsq (nsum w))))) = Ok (end_value s (pieces n ts)).
Proof.
  intros s ts Hs H. cbv zeta. rewrite (map_map tl_ (fun l => Rlt_bool 0 l)). change (fun x => Rlt_bool 0 (tl_ x)) with pos. rewrite !take_where.
  assert (H' : forall t, In t (filter pos ts) -> (- Z.of_nat n <= tz t < Z.of_nat n)%Z /\ 0 < tl_ t).
  { intros t Ht. apply filter_In in Ht. destruct Ht as [A B]. split; [auto|]. unfold pos in B. destruct (Rlt_bool_spec 0 (tl_ t)); [assumption|discriminate]. }
  unfold pieces. set (F := filter pos ts) in *. clearbody F. clear H ts.
  rewrite (mapM_ok _ _ _ (fun z => nth (wrap n z) s 0)).
  2: { intros z Hz. apply in_map_iff in Hz. destruct Hz as (t & <- & Ht). apply get_wrap; [exact Hs|]. now apply H'. }
  cbn [bind]. rewrite (mapM_ok _ _ _ (fun z => bin_length e (wrap n z))).
  2: { intros z Hz. apply in_map_iff in Hz. destruct Hz as (t & <- & Ht). rewrite (get_wrap _ n) by (rewrite ?(length_bin_lengths e n); auto; now apply H').
       rewrite (nth_bin_lengths e n) by (auto; apply wrap_lt; now apply H'). reflexivity. }
  cbn [bind]. unfold end_value. f_equal. f_equal. rewrite <- (map_map tw Some), nsum_Some. unfold nsq. cbn [nmul].
  assert (E : nsum (map2 nmul (map2 (fun a b => nmul (nmul a (Some b)) (nmul a (Some b))) (map Some (map tw F)) (map (fun z => nth (wrap n z) s 0) (map tz F)))
                (map2 fdiv (map (fun z => bin_length e (wrap n z)) (map tz F)) (map tl_ F)))
            = Some (Rsum (map (fun p => (share p * nth (bin p) s 0) ^ 2 * (bin_length e (bin p) / extent p)) (map (fun t => Piece (tw t) (tl_ t) (wrap n (tz t))) F)))).
  { induction F as [|t F IH]; [reflexivity|]. cbn [map map2 share extent bin]. rewrite Rsum_cons. unfold nsum in *. cbn [fold_right]. rewrite IH.
    - rewrite fdiv_ok by (destruct (H' t (or_introl eq_refl)); lra). cbn [nmul nadd]. do 2 f_equal. ring.
    - intros; apply H'; now right. }
  rewrite E. cbn [ndiv]. f_equal.
  rewrite !map_map. cbn [share]. replace (fun x => tw x) with tw by reflexivity. ring.
Qed.
End Pieces.

(** ** At least two edges in the new bin *)

Section Several.
Variables (e s : list R) (n lo hi : nat) (bmin bmax : R).
Hypothesis HI : increasing e.
Hypothesis He : length e = S n.
Hypothesis Hs : length s = n.
Hypothesis HL : located e lo hi bmin bmax.
Hypothesis Hk : (2 <= hi - lo)%nat.

Lemma gete : forall z i, z = Z.of_nat i -> (i <= n)%nat -> py_get e z = Ok (nth i e 0).
Proof. intros z i -> Hi. rewrite (py_get_ok _ _ _ 0) by lia. now rewrite Nat2Z.id. Qed.

Lemma gete_neg : forall z i, (z < 0)%Z -> (z + Z.of_nat (S n) = Z.of_nat i)%Z -> py_get e z = Ok (nth i e 0).
Proof. intros z i H1 H2. rewrite (get_wrap _ (S n)) by lia. unfold wrap. replace (z <? 0)%Z with true by (symmetry; apply Z.ltb_lt; lia). do 2 f_equal. lia. Qed.

(** The first piece: index [z], already given the whole bin. *)
Definition first_trip (z : Z) : trip :=
  if (z =? 0)%Z then (1, bin_length e 0, z)
  else if (z <? 0)%Z then ((nth n e 0 - bmin) / (nth n e 0 - nth (n - 1) e 0), nth n e 0 - bmin, z)
  else let i := Z.to_nat z in ((nth i e 0 - bmin) / (nth i e 0 - nth (i - 1) e 0), nth i e 0 - bmin, z).

Lemma first_step : forall z W L, (-1 <= z <= Z.of_nat n)%Z -> (1 <= n)%nat ->
  (if negb (z =? 0)%Z
   then e0 <- py_get e z ;; em <- py_get e (z - 1) ;;
        w <- py_set (Some 1 :: W) 0 (fdiv (e0 - bmin) (e0 - em)) ;;
        length <- py_set (bin_length e (wrap n z) :: L) 0 (e0 - bmin) ;;
        Ok (w, length)
   else Ok (Some 1 :: W, bin_length e (wrap n z) :: L)) = Ok (Some (tw (first_trip z)) :: W, tl_ (first_trip z) :: L).
Proof.
  intros z W L H Hn. unfold first_trip. destruct (Z.eqb_spec z 0) as [->|N]; [reflexivity|]. cbn [negb].
  destruct (Z.ltb_spec z 0) as [M|M].
  - assert (z = -1)%Z as -> by lia. rewrite (gete_neg (-1) n) by lia. rewrite (gete_neg (-1 - 1) (n - 1)) by lia. cbn [bind].
    pose proof (HI (n - 1)%nat n ltac:(lia)). rewrite fdiv_ok by lra. reflexivity.
  - rewrite (gete z (Z.to_nat z)), (gete (z - 1) (Z.to_nat z - 1)) by lia. cbn [bind].
    pose proof (HI (Z.to_nat z - 1)%nat (Z.to_nat z) ltac:(lia)). rewrite fdiv_ok by lra. reflexivity.
Qed.

Definition last_trip (z : Z) : trip :=
  let i := Z.to_nat z in ((bmax - nth i e 0) / (nth i e 0 - nth (i - 1) e 0), bmax - nth i e 0, z).

Lemma last_step : forall z W L l, (1 <= z < Z.of_nat n)%Z ->
  (if negb (z =? Z.of_nat (length e) - 1)%Z
   then e0 <- py_get e z ;; em <- py_get e (z - 1) ;;
        w <- py_set (W ++ [Some 1]) (-1) (fdiv (bmax - e0) (e0 - em)) ;;
        length <- py_set (L ++ [l]) (-1) (bmax - e0) ;;
        Ok (w, length)
   else Ok (W ++ [Some 1], L ++ [l])) = Ok (W ++ [Some (tw (last_trip z))], L ++ [tl_ (last_trip z)]).
Proof.
  intros z W L l H. destruct (Z.eqb_spec z (Z.of_nat (length e) - 1)) as [E|N]; [lia|]. cbn [negb].
  rewrite (gete z (Z.to_nat z)), (gete (z - 1) (Z.to_nat z - 1)) by lia. cbn [bind].
  pose proof (HI (Z.to_nat z - 1)%nat (Z.to_nat z) ltac:(lia)). rewrite fdiv_ok by lra. rewrite !py_set_app_last. reflexivity.
Qed.

Definition mid_trips (z : Z) (m : nat) : list trip := map (fun z => (1, bin_length e (Z.to_nat z), z)) (zrange z m).

Lemma several : forall z m, start_weights (Z.of_nat (length e)) (seq lo (hi - lo)) = Ok (repeat (Some 1) (S (S m)), zrange z (S (S m))) ->
  (-1 <= z)%Z -> (1 <= z + Z.of_nat (S m) < Z.of_nat n)%Z ->
  rebin_1d_single_bin_sigma e s bmin bmax
  = Ok (end_value e s (pieces n (first_trip z :: mid_trips (z + 1) m ++ [last_trip (z + Z.of_nat (S m))]))).
Proof.
  intros z m SW H1 H2. unfold rebin_1d_single_bin_sigma. rewrite (edges_in_located e lo hi bmin bmax HL), seq_length.
  destruct (hi - lo)%nat as [|[|k]] eqn:K; [lia|lia|]. rewrite <- K in *. clear K. rewrite SW. cbn [bind].
  rewrite (mapM_ok _ _ _ (fun z => bin_length e (wrap n z))).
  2: { intros y Hy. unfold zrange in Hy. apply in_map_iff in Hy. destruct Hy as (t & <- & Ht). apply in_seq in Ht.
       rewrite (get_wrap _ n) by (rewrite ?(length_bin_lengths e n); auto; lia). rewrite (nth_bin_lengths e n) by (auto; apply wrap_lt; lia). reflexivity. }
  cbn [bind]. rewrite (zrange_cons z (S m)), zrange_S_last. cbn [map]. cbn [repeat]. change (py_get (z :: zrange (z + 1) m ++ [(z + 1 + Z.of_nat m)%Z]) 0) with (Ok z). cbn [bind].
  change (Some 1 :: repeat (Some 1) m) with (repeat (Some 1) (S m)). rewrite (first_step z) by lia. cbn [bind].
  rewrite (app_comm_cons (zrange (z + 1) m)). rewrite (py_get_last _ _ 0%Z) by (cbn [length app]; lia).
  assert (LZ : nth (length ((z :: zrange (z + 1) m) ++ [(z + 1 + Z.of_nat m)%Z]) - 1) ((z :: zrange (z + 1) m) ++ [(z + 1 + Z.of_nat m)%Z]) 0%Z = (z + Z.of_nat (S m))%Z).
  { rewrite app_length. cbn [length]. rewrite app_nth2 by (cbn [length]; lia). cbn [length].
    replace (S (length (zrange (z + 1) m)) + 1 - 1 - S (length (zrange (z + 1) m)))%nat with 0%nat by lia. cbn [nth]. lia. }
  rewrite LZ. cbn [bind]. rewrite map_app. cbn [map]. rewrite repeat_S_last, app_comm_cons. rewrite (app_comm_cons (map _ (zrange (z + 1) m))). rewrite last_step by lia. cbn [bind].
  rewrite <- (sigma_end e n He s _ Hs).
  - cbv zeta.
    assert (EW : (Some (tw (first_trip z)) :: repeat (Some 1) m) ++ [Some (tw (last_trip (z + Z.of_nat (S m))))]
               = map (fun t => Some (tw t)) (first_trip z :: mid_trips (z + 1) m ++ [last_trip (z + Z.of_nat (S m))])).
    { cbn [map app]. rewrite map_app. cbn [map]. f_equal. f_equal. unfold mid_trips. rewrite map_map. cbn [tw fst]. unfold zrange. rewrite map_map.
      clear. generalize 0%nat. induction m as [|m IH]; intros j; [reflexivity|]. cbn [repeat seq map]. now rewrite <- IH. }
    assert (EL : (tl_ (first_trip z) :: map (fun z => bin_length e (wrap n z)) (zrange (z + 1) m)) ++ [tl_ (last_trip (z + Z.of_nat (S m)))]
               = map tl_ (first_trip z :: mid_trips (z + 1) m ++ [last_trip (z + Z.of_nat (S m))])).
    { cbn [map app]. rewrite map_app. cbn [map]. f_equal. f_equal. unfold mid_trips. rewrite map_map. apply map_ext_in. intros y Hy. cbn [tl_ fst snd].
      unfold zrange in Hy. apply in_map_iff in Hy. destruct Hy as (t & <- & Ht). unfold wrap. destruct (Z.ltb_spec (z + 1 + Z.of_nat t) 0); [lia|reflexivity]. }
    assert (EZ : (z :: zrange (z + 1) m) ++ [(z + 1 + Z.of_nat m)%Z] = map tz (first_trip z :: mid_trips (z + 1) m ++ [last_trip (z + Z.of_nat (S m))])).
    { cbn [map app]. rewrite map_app. cbn [map]. f_equal.
      - unfold first_trip. destruct (z =? 0)%Z; [reflexivity|]. now destruct (z <? 0)%Z.
      - f_equal; [unfold mid_trips; rewrite map_map; symmetry; apply map_id|]. cbn [last_trip tz snd]. f_equal. lia. }
    rewrite EW, EL, EZ. reflexivity.
  - intros t [<- | Ht].
    + unfold first_trip. destruct (z =? 0)%Z; [cbn [tz snd]; lia|]. destruct (z <? 0)%Z; cbn [tz snd]; lia.
    + apply in_app_or in Ht. destruct Ht as [Ht|[<-|[]]]; [|cbn [last_trip tz snd]; lia].
      unfold mid_trips, zrange in Ht. rewrite map_map in Ht. apply in_map_iff in Ht. destruct Ht as (i & <- & Hi). apply in_seq in Hi. cbn [tz snd]. lia.
Qed.
End Several.

Section Cases.
Variables (e s : list R) (n lo hi : nat) (bmin bmax : R).
Hypothesis HI : increasing e.
Hypothesis He : length e = S n.
Hypothesis Hs : length s = n.
Hypothesis HL : located e lo hi bmin bmax.
Hypothesis Hk : (2 <= hi - lo)%nat.

Lemma pieces_app : forall a b, pieces n (a ++ b) = pieces n a ++ pieces n b.
Proof. intros. unfold pieces. rewrite filter_app. apply map_app. Qed.

Lemma pieces_cons : forall t l, pieces n (t :: l) = (if pos t then [Piece (tw t) (tl_ t) (wrap n (tz t))] else []) ++ pieces n l.
Proof. intros. unfold pieces. cbn [filter]. now destruct (pos t). Qed.

Lemma wrap_nat : forall i, wrap n (Z.of_nat i) = i.
Proof. intros i. unfold wrap. destruct (Z.ltb_spec (Z.of_nat i) 0); lia. Qed.

Lemma pieces_mid : forall z p m, z = Z.of_nat p -> (p + m <= n)%nat -> pieces n (mid_trips e z m) = whole e p m.
Proof.
  intros z p m -> H. unfold mid_trips, zrange, whole, pieces. rewrite map_map.
  replace (filter pos _) with (map (fun t => (1, bin_length e (p + t), Z.of_nat (p + t)) : trip) (seq 0 m)).
  - rewrite map_map. cbn [tw tl_ tz fst snd]. rewrite <- (map_map (fun t => (p + t)%nat) (fun i => Piece 1 (bin_length e i) (wrap n (Z.of_nat i)))).
    replace (map (fun t => (p + t)%nat) (seq 0 m)) with (seq p m).
    + apply map_ext. intros i. now rewrite wrap_nat.
    + apply (list_ext nat _ _ 0%nat); [now rewrite map_length, !seq_length|]. intros i Hi. rewrite seq_length in Hi.
      rewrite (nth_map_lt _ _ _ _ i 0%nat 0%nat) by (rewrite seq_length; lia). now rewrite !seq_nth.
  - assert (G : forall j, (p + j + m <= n)%nat -> map (fun t => (1, bin_length e (p + t), Z.of_nat (p + t)) : trip) (seq j m)
       = filter pos (map (fun x => (1, bin_length e (Z.to_nat (Z.of_nat p + Z.of_nat x)), (Z.of_nat p + Z.of_nat x)%Z)) (seq j m))).
    { clear H. induction m as [|m IH]; intros j Hj; [reflexivity|]. cbn [seq map filter].
      replace (Z.to_nat (Z.of_nat p + Z.of_nat j)) with (p + j)%nat by lia. replace (Z.of_nat p + Z.of_nat j)%Z with (Z.of_nat (p + j)) by lia.
      replace (pos (1, bin_length e (p + j), Z.of_nat (p + j))) with true; [f_equal; apply IH; lia|].
      symmetry. unfold pos. cbn [tl_ fst snd]. apply Rlt_bool_t. apply (len_pos e n); auto; lia. }
    apply G. lia.
Qed.

Lemma pieces_last : forall z q, z = Z.of_nat q -> (1 <= q)%nat -> pieces n [last_trip e bmax z] = end_piece e bmax q.
Proof.
  intros z q -> Hq. rewrite pieces_cons. unfold pos, last_trip. cbn [tl_ tw tz fst snd]. rewrite Nat2Z.id, wrap_nat. unfold end_piece, pieces. cbn [filter map]. rewrite app_nil_r.
  unfold bin_length. replace (S (q - 1)) with q by lia.
  destruct (Rlt_dec (nth q e 0) bmax); [rewrite Rlt_bool_t by lra|rewrite Rlt_bool_f by lra]; reflexivity.
Qed.

Lemma pieces_first : forall z p, (1 <= p)%nat -> (z = Z.of_nat p - 1)%Z -> (p <= lo)%nat -> pieces n [first_trip e n bmin z] = start_piece e p.
Proof.
  intros z p Hp -> Hlo. rewrite pieces_cons. unfold start_piece, first_trip.
  destruct (Z.eqb_spec (Z.of_nat p - 1) 0) as [E|E].
  - replace (p =? 1)%nat with true by (symmetry; apply Nat.eqb_eq; lia). unfold pos. cbn [tl_ tw tz fst snd].
    rewrite Rlt_bool_t by (apply (len_pos e n); auto; destruct HL; lia). rewrite E. reflexivity.
  - replace (p =? 1)%nat with false by (symmetry; apply Nat.eqb_neq; lia). destruct (Z.ltb_spec (Z.of_nat p - 1) 0) as [|_]; [lia|].
    unfold pos. cbn [tl_ tw tz fst snd]. replace (Z.to_nat (Z.of_nat p - 1)) with (p - 1)%nat by lia.
    assert (nth (p - 1) e 0 < bmin) by (destruct HL as (A & B & C); apply B; lia).
    rewrite Rlt_bool_f by lra. reflexivity.
Qed.

Lemma share_whole : forall p m, Rsum (map share (whole e p m)) = INR m.
Proof.
  intros p m. unfold whole. rewrite map_map. cbn [share]. revert p. induction m as [|m IH]; intros p; [reflexivity|]. cbn [seq map]. rewrite Rsum_cons, IH, S_INR. ring.
Qed.
Lemma share_end : forall q, (1 <= q <= n)%nat -> 0 <= Rsum (map share (end_piece e bmax q)).
Proof. clear Hs Hk.
  intros q Hq. unfold end_piece. destruct (Rlt_dec (nth q e 0) bmax); cbn; [|lra].
  pose proof (len_pos e n HI He (q - 1) ltac:(lia)). assert (0 < (bmax - nth q e 0) / bin_length e (q - 1)) by (apply Rdiv_lt_0_compat; lra). lra.
Qed.
Lemma share_start : forall p, 0 <= Rsum (map share (start_piece e p)).
Proof. intros p. unfold start_piece. destruct (p =? 1)%nat; [rewrite share_whole|]; cbn; lra. Qed.

Lemma good_whole : forall p m, (p + m <= n)%nat -> forall x, In x (whole e p m) -> 0 < extent x /\ (bin x < n)%nat.
Proof. clear Hs Hk. intros p m H x Hx. unfold whole in Hx. apply in_map_iff in Hx. destruct Hx as (i & <- & Hi). apply in_seq in Hi. cbn [extent bin]. split; [apply (len_pos e n); auto; lia|lia]. Qed.
Lemma good_end : forall q, (q < n)%nat -> forall x, In x (end_piece e bmax q) -> 0 < extent x /\ (bin x < n)%nat.
Proof. clear Hs Hk. intros q H x Hx. unfold end_piece in Hx. destruct (Rlt_dec _ _); [|destruct Hx]. destruct Hx as [<-|[]]. cbn [extent bin]. split; [lra|lia]. Qed.
Lemma good_start : forall p, (1 <= n)%nat -> forall x, In x (start_piece e p) -> 0 < extent x /\ (bin x < n)%nat.
Proof. clear Hs Hk. intros p H x Hx. unfold start_piece in Hx. destruct (p =? 1)%nat; [|destruct Hx]. apply (good_whole 0 1); [lia|exact Hx]. Qed.

(** The new bin ends before the last edge. *)
Lemma several_inner : (hi <= n)%nat ->
  rebin_1d_single_bin_sigma e s bmin bmax
  = Ok (Some (propagated e s (start_piece e lo ++ whole e lo (hi - 1 - lo) ++ end_piece e bmax (hi - 1)))).
Proof.
  intros Hh. set (ps := start_piece e lo ++ whole e lo (hi - 1 - lo) ++ end_piece e bmax (hi - 1)).
  assert (D : end_value e s ps = Some (propagated e s ps)).
  { apply (end_defined e n); auto.
    - intros p Hp. unfold ps in Hp. apply in_app_or in Hp. destruct Hp as [Hp|Hp]; [apply (good_start lo); [lia|exact Hp]|].
      apply in_app_or in Hp. destruct Hp as [Hp|Hp]; [apply (good_whole lo (hi - 1 - lo)); [lia|exact Hp]|apply (good_end (hi - 1)); [lia|exact Hp]].
    - unfold ps. rewrite !map_app, !Rsum_app, share_whole. pose proof (share_start lo). pose proof (share_end (hi - 1) ltac:(lia)).
      assert (0 < INR (hi - 1 - lo)) by (apply lt_0_INR; lia). lra. }
  destruct (Nat.eq_dec lo 0) as [Z|Z].
  - rewrite (several e s n lo hi bmin bmax HI He Hs HL Hk 0 (hi - lo - 2)).
    + rewrite <- D. do 2 f_equal. unfold ps. rewrite app_comm_cons, pieces_app, pieces_cons. unfold first_trip. change (0 =? 0)%Z with true. cbn iota.
      unfold pos. cbn [tl_ tw tz fst snd]. rewrite Rlt_bool_t by (apply (len_pos e n); auto; lia).
      rewrite (pieces_mid _ 1) by lia. rewrite (pieces_last _ (hi - 1)) by lia. unfold start_piece. rewrite Z. change (0 =? 1)%nat with false. cbn iota.
      replace (hi - 1 - 0)%nat with (S (hi - 0 - 2)) by lia. reflexivity.
    + replace (S (S (hi - lo - 2))) with (hi - lo)%nat by lia. apply start_C; auto; destruct HL as (A & _); lia.
    + lia.
    + lia.
  - rewrite (several e s n lo hi bmin bmax HI He Hs HL Hk (Z.of_nat lo - 1) (hi - lo - 1)).
    + rewrite <- D. do 2 f_equal. unfold ps. change (first_trip e n bmin (Z.of_nat lo - 1) :: ?x) with ([first_trip e n bmin (Z.of_nat lo - 1)] ++ x).
      rewrite !pieces_app. rewrite (pieces_first _ lo) by lia. rewrite (pieces_mid _ lo) by lia. rewrite (pieces_last _ (hi - 1)) by lia.
      replace (hi - 1 - lo)%nat with (hi - lo - 1)%nat by lia. reflexivity.
    + replace (S (S (hi - lo - 1))) with (S (hi - lo)) by lia. apply start_A; auto; destruct HL as (A & _); lia.
    + lia.
    + lia.
Qed.

(** The new bin contains the last edge, not the first. *)
Lemma several_end : hi = S n -> (1 <= lo)%nat ->
  rebin_1d_single_bin_sigma e s bmin bmax
  = Ok (Some (propagated e s (start_piece e lo ++ whole e lo (n - 1 - lo) ++ end_piece e bmax (n - 1)))).
Proof.
  intros Hh Hlo. set (ps := start_piece e lo ++ whole e lo (n - 1 - lo) ++ end_piece e bmax (n - 1)).
  assert (EB : nth (n - 1) e 0 < bmax).
  { destruct HL as (A & B & C). pose proof (HI (n - 1)%nat n ltac:(lia)). assert (nth n e 0 <= bmax) by (apply C; lia). lra. }
  assert (D : end_value e s ps = Some (propagated e s ps)).
  { apply (end_defined e n); auto.
    - intros p Hp. unfold ps in Hp. apply in_app_or in Hp. destruct Hp as [Hp|Hp]; [apply (good_start lo); [lia|exact Hp]|].
      apply in_app_or in Hp. destruct Hp as [Hp|Hp]; [apply (good_whole lo (n - 1 - lo)); [lia|exact Hp]|apply (good_end (n - 1)); [lia|exact Hp]].
    - unfold ps. rewrite !map_app, !Rsum_app, share_whole. pose proof (share_start lo). pose proof (pos_INR (n - 1 - lo)).
      unfold end_piece. destruct (Rlt_dec (nth (n - 1) e 0) bmax) as [_|]; [|contradiction]. cbn.
      assert (0 < (bmax - nth (n - 1) e 0) / bin_length e (n - 1 - 1)) by (apply Rdiv_lt_0_compat; [lra|apply (len_pos e n); auto; lia]). lra. }
  rewrite (several e s n lo hi bmin bmax HI He Hs HL Hk (Z.of_nat lo - 1) (hi - lo - 2)).
  - rewrite <- D. do 2 f_equal. unfold ps. change (first_trip e n bmin (Z.of_nat lo - 1) :: ?x) with ([first_trip e n bmin (Z.of_nat lo - 1)] ++ x).
    rewrite !pieces_app. rewrite (pieces_first _ lo) by lia. rewrite (pieces_mid _ lo) by lia. rewrite (pieces_last _ (n - 1)) by lia.
    replace (n - 1 - lo)%nat with (hi - lo - 2)%nat by lia. reflexivity.
  - replace (S (S (hi - lo - 2))) with (hi - lo)%nat by lia. apply start_BD; auto; lia.
  - lia.
  - lia.
Qed.

(** The new bin contains every edge. *)
Lemma several_all : hi = S n -> lo = 0%nat -> (2 <= n)%nat ->
  rebin_1d_single_bin_sigma e s bmin bmax
  = Ok (Some (propagated e s (Piece ((nth n e 0 - bmin) / bin_length e (n - 1)) (nth n e 0 - bmin) (n - 1) :: whole e 0 (n - 1) ++ end_piece e bmax (n - 1)))).
Proof.
  intros Hh Hlo Hn. set (ps := _ :: whole e 0 (n - 1) ++ end_piece e bmax (n - 1)).
  assert (E0 : 0 < nth n e 0 - bmin).
  { destruct HL as (A & B & C). pose proof (HI 0%nat n ltac:(lia)). assert (~ nth 0 e 0 < bmin) by (intros X; apply B in X; lia). lra. }
  assert (D : end_value e s ps = Some (propagated e s ps)).
  { apply (end_defined e n); auto.
    - intros p Hp. unfold ps in Hp. destruct Hp as [<-|Hp]; [cbn [extent bin]; split; [exact E0|lia]|].
      apply in_app_or in Hp. destruct Hp as [Hp|Hp]; [apply (good_whole 0 (n - 1)); [lia|exact Hp]|apply (good_end (n - 1)); [lia|exact Hp]].
    - unfold ps. cbn [map share]. rewrite Rsum_cons, !map_app, !Rsum_app, share_whole. pose proof (share_end (n - 1) ltac:(lia)). pose proof (pos_INR (n - 1)).
      assert (0 < (nth n e 0 - bmin) / bin_length e (n - 1)) by (apply Rdiv_lt_0_compat; [lra|apply (len_pos e n); auto; lia]). lra. }
  rewrite (several e s n lo hi bmin bmax HI He Hs HL Hk (-1) (n - 1)).
  - rewrite <- D. do 2 f_equal. unfold ps. rewrite pieces_cons, pieces_app. unfold first_trip. change (-1 =? 0)%Z with false. change (-1 <? 0)%Z with true. cbn iota.
    unfold pos at 1. cbn [tl_ tw tz fst snd]. rewrite Rlt_bool_t by exact E0. rewrite (pieces_mid _ 0) by lia. rewrite (pieces_last _ (n - 1)) by lia.
    cbn [app]. unfold bin_length. replace (S (n - 1)) with n by lia. unfold wrap. change (-1 <? 0)%Z with true. cbn iota. change (Z.to_nat (- -1)) with 1%nat. reflexivity.
  - replace (S (S (n - 1))) with (hi - lo)%nat by lia. replace (-1)%Z with (Z.of_nat lo - 1)%Z by lia. apply start_BD; auto; lia.
  - lia.
  - lia.
Qed.
End Cases.

(** ** At most one edge in the new bin *)

Lemma propagated_nil_part : forall x L l, 0 < L -> 0 < l -> sigma_part x L l = Some (sqrt (Rsum [(1 * x) ^ 2 * (L / l)] / Rsum [1] ^ 2)).
Proof.
  intros x L l HL Hl. unfold sigma_part. rewrite fdiv_ok by lra. cbn [nmul nsqrt]. unfold np_sqrt. rewrite Rlt_bool_f.
  - do 2 f_equal. cbn. field. lra.
  - apply Rmult_le_pos; [apply pow2_ge_0|]. left. now apply Rdiv_lt_0_compat.
Qed.

Section Few.
Variables (e : list R) (n lo hi : nat) (bmin bmax : R).
Hypothesis HI : increasing e.
Hypothesis He : length e = S n.
Hypothesis Hn : (1 <= n)%nat.
Hypothesis HL : located e lo hi bmin bmax.

Lemma below_e : forall i, (i < lo)%nat -> nth i e 0 < bmin.
Proof. intros i Hi. destruct HL as (A & B & C). apply B; lia. Qed.
Lemma above_min_e : forall i, (lo <= i <= n)%nat -> bmin <= nth i e 0.
Proof. intros i Hi. destruct HL as (A & B & C). apply Rnot_lt_le. intros H0. apply B in H0; lia. Qed.
Lemma below_max_e : forall i, (i < hi)%nat -> nth i e 0 <= bmax.
Proof. intros i Hi. destruct HL as (A & B & C). apply C; lia. Qed.
Lemma above_e : forall i, (hi <= i <= n)%nat -> bmax < nth i e 0.
Proof. intros i Hi. destruct HL as (A & B & C). apply Rnot_le_lt. intros H0. apply C in H0; lia. Qed.

Lemma sigma_0_in : forall s, length s = n -> lo = hi -> (1 <= lo <= n)%nat ->
  rebin_1d_single_bin_sigma e s bmin bmax = Ok (sigma_part (nth (lo - 1) s 0) (bin_length e (lo - 1)) (bmax - bmin)).
Proof.
  intros s Hs H1 H2. unfold rebin_1d_single_bin_sigma. rewrite (edges_in_located e lo hi bmin bmax HL), H1, Nat.sub_diag. cbn [length seq].
  rewrite (edges_above_located e lo hi bmin bmax HL), seq_length.
  destruct (Nat.eqb_spec (length e - lo) 0) as [|_]; [lia|].
  destruct (Nat.eqb_spec (length e - lo) (length e)) as [|_]; [lia|]. cbn [negb andb].
  rewrite zget_seq_0 by lia. cbn [bind]. rewrite (py_get_ok _ _ _ 0) by lia. cbn [bind]. rewrite (get_bin_length e n) by (auto; lia). cbn [bind].
  replace (Z.to_nat (Z.of_nat lo - 1)) with (lo - 1)%nat by lia. unfold bin_length. now rewrite H1.
Qed.

Lemma sigma_0_out : forall s, lo = hi -> (lo = 0 \/ lo = S n)%nat -> rebin_1d_single_bin_sigma e s bmin bmax = Ok None.
Proof.
  intros s H1 H2. unfold rebin_1d_single_bin_sigma. rewrite (edges_in_located e lo hi bmin bmax HL), H1, Nat.sub_diag. cbn [length seq].
  rewrite (edges_above_located e lo hi bmin bmax HL), seq_length.
  destruct (Nat.eqb_spec (length e - lo) 0) as [|Hx]; [reflexivity|].
  destruct (Nat.eqb_spec (length e - lo) (length e)) as [|Hy]; [reflexivity|lia].
Qed.

Lemma sigma_1_first : forall s, length s = n -> hi = 1%nat -> lo = 0%nat ->
  rebin_1d_single_bin_sigma e s bmin bmax = Ok (sigma_part (nth 0 s 0) (bin_length e 0) (bmax - nth 0 e 0)).
Proof.
  intros s Hs H1 H2. unfold rebin_1d_single_bin_sigma. rewrite (edges_in_located e lo hi bmin bmax HL), H1, H2. cbn [length seq Nat.sub].
  change (zget [0%nat] 0) with (Ok 0%Z). cbn [bind]. change (0 <? 0)%Z with false. change (0 =? 0)%Z with true. cbn [andb].
  rewrite !(py_get_ok _ _ 0 0) by lia || (rewrite (length_bin_lengths e n); auto; lia).
  cbn [bind]. change (Z.to_nat 0) with 0%nat. rewrite (nth_bin_lengths e n) by (auto; lia). reflexivity.
Qed.

Lemma sigma_1_last : forall s, length s = n -> hi = S n -> lo = n ->
  rebin_1d_single_bin_sigma e s bmin bmax = Ok (sigma_part (nth (n - 1) s 0) (bin_length e (n - 1)) (nth n e 0 - bmin)).
Proof.
  intros s Hs H1 H2. unfold rebin_1d_single_bin_sigma. rewrite (edges_in_located e lo hi bmin bmax HL), H1, H2.
  replace (S n - n)%nat with 1%nat by lia. cbn [length seq]. unfold zget. change (py_get [n] 0) with (Ok n). cbn [bind].
  replace (Z.of_nat n <? Z.of_nat (length e) - 1)%Z with false by (symmetry; apply Z.ltb_ge; lia).
  rewrite andb_false_r. replace (Z.of_nat n =? 0)%Z with false by (symmetry; apply Z.eqb_neq; lia).
  pose proof (length_bin_lengths e n He) as LB. rewrite !(py_get_last _ _ 0) by lia.
  cbn [bind]. rewrite Hs, He, LB. replace (S n - 1)%nat with n by lia. rewrite (nth_bin_lengths e n) by (auto; lia). reflexivity.
Qed.

Definition part (w l : R) (i : nat) : list piece := if Req_EM_T l 0 then [] else [Piece w l i].

Lemma sigma_1_mid : forall s, length s = n -> hi = S lo -> (1 <= lo < n)%nat -> bmin < bmax ->
  rebin_1d_single_bin_sigma e s bmin bmax
  = Ok (Some (propagated e s (part (u1 e lo bmin) (nth lo e 0 - bmin) (lo - 1) ++ part (u2 e lo bmax) (bmax - nth lo e 0) lo))) /\
  0 < Rsum (map share (part (u1 e lo bmin) (nth lo e 0 - bmin) (lo - 1) ++ part (u2 e lo bmax) (bmax - nth lo e 0) lo)).
Proof.
  intros s Hs H1 H2 HB. pose proof (above_min_e lo ltac:(lia)) as A1. pose proof (below_max_e lo ltac:(lia)) as A2.
  pose proof (len_pos e n HI He (lo - 1) ltac:(lia)) as P1. pose proof (len_pos e n HI He lo ltac:(lia)) as P2.
  assert (E1 : bin_length e (lo - 1) = nth lo e 0 - nth (lo - 1) e 0) by (unfold bin_length; replace (S (lo - 1)) with lo by lia; reflexivity).
  assert (E2 : bin_length e lo = nth (lo + 1) e 0 - nth lo e 0) by (unfold bin_length; now replace (lo + 1)%nat with (S lo) by lia).
  assert (U1 : nth lo e 0 - bmin <> 0 -> 0 < u1 e lo bmin) by (intros; unfold u1; apply Rdiv_lt_0_compat; lra).
  assert (U2 : bmax - nth lo e 0 <> 0 -> 0 < u2 e lo bmax) by (intros; unfold u2; apply Rdiv_lt_0_compat; lra).
  assert (Z1 : nth lo e 0 - bmin = 0 -> u1 e lo bmin = 0) by (intros Q; unfold u1; rewrite Q; unfold Rdiv; ring).
  assert (Z2 : bmax - nth lo e 0 = 0 -> u2 e lo bmax = 0) by (intros Q; unfold u2; rewrite Q; unfold Rdiv; ring).
  set (ps := part _ _ _ ++ part _ _ _).
  assert (SH : Rsum (map share ps) = u1 e lo bmin + u2 e lo bmax).
  { unfold ps, part. destruct (Req_EM_T (nth lo e 0 - bmin) 0) as [Q1|Q1]; destruct (Req_EM_T (bmax - nth lo e 0) 0) as [Q2|Q2]; cbn [app map share]; rewrite ?Rsum_cons; change (Rsum []) with 0;
      try rewrite (Z1 Q1); try rewrite (Z2 Q2); ring. }
  assert (SP : 0 < Rsum (map share ps)).
  { rewrite SH. destruct (Req_EM_T (nth lo e 0 - bmin) 0) as [Q1|Q1]; destruct (Req_EM_T (bmax - nth lo e 0) 0) as [Q2|Q2]; [lra| | |].
    - pose proof (U2 Q2). rewrite (Z1 Q1). lra.
    - pose proof (U1 Q1). rewrite (Z2 Q2). lra.
    - pose proof (U1 Q1). pose proof (U2 Q2). lra. }
  split; [|exact SP].
  assert (D : end_value e s ps = Some (propagated e s ps)).
  { apply (end_defined e n); auto; [|lra]. intros p Hp. unfold ps, part in Hp.
    destruct (Req_EM_T (nth lo e 0 - bmin) 0) as [Q1|Q1]; destruct (Req_EM_T (bmax - nth lo e 0) 0) as [Q2|Q2]; cbn [app In] in Hp.
    - destruct Hp. - destruct Hp as [<-|[]]; cbn [extent bin]; split; [lra|lia].
    - destruct Hp as [<-|[]]; cbn [extent bin]; split; [lra|lia].
    - destruct Hp as [<-|[<-|[]]]; cbn [extent bin]; split; try lra; lia. }
  rewrite <- D. clear D. unfold rebin_1d_single_bin_sigma. rewrite (edges_in_located e lo hi bmin bmax HL), H1.
  replace (S lo - lo)%nat with 1%nat by lia. cbn [length seq]. unfold zget. change (py_get [lo] 0) with (Ok lo). cbn [bind].
  replace (0 <? Z.of_nat lo)%Z with true by (symmetry; apply Z.ltb_lt; lia).
  replace (Z.of_nat lo <? Z.of_nat (length e) - 1)%Z with true by (symmetry; apply Z.ltb_lt; lia). cbn [andb].
  rewrite !(py_get_ok _ e _ 0), !(py_get_ok _ s _ 0), !(get_bin_length e n) by (auto; lia). cbn [bind]. rewrite Nat2Z.id.
  replace (Z.to_nat (Z.of_nat lo - 1)) with (lo - 1)%nat by lia. replace (Z.to_nat (Z.of_nat lo + 1)) with (lo + 1)%nat by lia.
  fold (bin_length e (lo - 1)) (bin_length e lo). rewrite <- E1, <- E2. rewrite (fdiv_ok _ (bin_length e (lo - 1))), (fdiv_ok _ (bin_length e lo)) by lra.
  unfold end_value. rewrite SH. unfold ps, part. clear SH SP ps. unfold u1, u2 in *. rewrite <- E1, <- E2 in *.
  set (w1 := (nth lo e 0 - bmin) / bin_length e (lo - 1)) in *. set (w2 := (bmax - nth lo e 0) / bin_length e lo) in *.
  destruct (Req_bool_spec (nth lo e 0 - bmin) 0) as [Q1|Q1]; destruct (Req_EM_T (nth lo e 0 - bmin) 0) as [Q1'|Q1']; try contradiction; cbn [negb bind];
  destruct (Req_bool_spec (bmax - nth lo e 0) 0) as [Q2|Q2]; destruct (Req_EM_T (bmax - nth lo e 0) 0) as [Q2'|Q2']; try contradiction; cbn [negb bind];
  rewrite ?fdiv_ok by assumption; unfold nsq; cbn [nmul nadd ndiv app map share extent bin]; rewrite ?Rsum_cons; change (Rsum []) with 0; f_equal; f_equal; f_equal; ring.
Qed.

Lemma sigma_1_touch : forall s, length s = n -> hi = S lo -> (1 <= lo < n)%nat -> bmin = bmax ->
  rebin_1d_single_bin_sigma e s bmin bmax = Ok None.
Proof.
  intros s Hs H1 H2 HB. pose proof (above_min_e lo ltac:(lia)) as A1. pose proof (below_max_e lo ltac:(lia)) as A2.
  unfold rebin_1d_single_bin_sigma. rewrite (edges_in_located e lo hi bmin bmax HL), H1.
  replace (S lo - lo)%nat with 1%nat by lia. cbn [length seq]. unfold zget. change (py_get [lo] 0) with (Ok lo). cbn [bind].
  replace (0 <? Z.of_nat lo)%Z with true by (symmetry; apply Z.ltb_lt; lia).
  replace (Z.of_nat lo <? Z.of_nat (length e) - 1)%Z with true by (symmetry; apply Z.ltb_lt; lia). cbn [andb].
  rewrite !(py_get_ok _ e _ 0), !(py_get_ok _ s _ 0), !(get_bin_length e n) by (auto; lia). cbn [bind]. rewrite Nat2Z.id.
  replace (Z.to_nat (Z.of_nat lo + 1)) with (lo + 1)%nat by lia. replace (Z.to_nat (Z.of_nat lo - 1)) with (lo - 1)%nat by lia.
  pose proof (HI (lo - 1)%nat lo ltac:(lia)). pose proof (HI lo (lo + 1)%nat ltac:(lia)).
  replace (nth lo e 0 - bmin) with 0 by lra. replace (bmax - nth lo e 0) with 0 by lra. rewrite Req_bool_true by reflexivity. cbn [negb bind].
  rewrite !fdiv_ok by lra. unfold nsq. cbn [nadd nmul ndiv]. unfold fdiv. rewrite Req_bool_true; [reflexivity|]. unfold Rdiv. ring.
Qed.
End Few.

(** A single old bin contained in the new one. *)
Lemma several_one : forall e0 e1 s0 bmin bmax, e0 < e1 -> bmin <= e0 -> e1 <= bmax ->
  rebin_1d_single_bin_sigma [e0; e1] [s0] bmin bmax
  = Ok (end_value [e0; e1] [s0] [Piece ((e1 - bmin) / (e1 - e0)) (e1 - bmin) 0; Piece ((bmax - e0) / (e0 - e1)) (bmax - e0) 0]).
Proof.
  intros e0 e1 s0 bmin bmax H H0 H1. unfold rebin_1d_single_bin_sigma, edges_in. cbn [map].
  rewrite !Rle_bool_true by lra. cbn [andb]. change (np_where [true; true]) with [0%nat; 1%nat]. cbn [length].
  change (start_weights (Z.of_nat 2) [0%nat; 1%nat]) with (Ok ([Some 1; Some 1], [(-1)%Z; 0%Z])). cbn [bind].
  assert (HI : increasing [e0; e1]) by (intros i j Hij; cbn [length] in Hij; destruct i as [|[|]]; destruct j as [|[|]]; try lia; cbn [nth]; lra).
  change (mapM (py_get (bin_lengths [e0; e1])) [(-1)%Z; 0%Z]) with (Ok [e1 - e0; e1 - e0]). cbn [bind].
  change (py_get [(-1)%Z; 0%Z] 0) with (Ok (-1)%Z). cbn [bind]. change (-1 =? 0)%Z with false. cbn [negb].
  change (py_get [e0; e1] (-1)) with (Ok e1). cbn [bind]. change (py_get [e0; e1] (-1 - 1)) with (Ok e0). cbn [bind].
  rewrite !fdiv_ok by lra. change (py_set [Some 1; Some 1] 0 ?x) with (Ok [x; Some 1]). cbn [bind]. change (py_set [e1 - e0; e1 - e0] 0 ?x) with (Ok [x; e1 - e0]). cbn [bind].
  change (py_get [(-1)%Z; 0%Z] (-1)) with (Ok 0%Z). cbn [bind]. change (0 =? Z.of_nat 2 - 1)%Z with false. cbn [negb].
  change (py_get [e0; e1] 0) with (Ok e0). cbn [bind]. change (py_get [e0; e1] (0 - 1)) with (Ok e1). cbn [bind].
  rewrite !fdiv_ok by lra. change (py_set [?a; Some 1] (-1) ?x) with (Ok [a; x]). cbn [bind]. change (py_set [?a; e1 - e0] (-1) ?x) with (Ok [a; x]). cbn [bind].
  set (ts := [((e1 - bmin) / (e1 - e0), e1 - bmin, (-1)%Z); ((bmax - e0) / (e0 - e1), bmax - e0, 0%Z)] : list trip).
  transitivity (Ok (end_value [e0; e1] [s0] (pieces 1 ts))).
  - rewrite <- (sigma_end [e0; e1] 1 eq_refl [s0] ts eq_refl); [reflexivity|]. intros t [<-|[<-|[]]]; cbn [tz snd]; lia.
  - unfold pieces, ts. cbn [filter]. unfold pos. cbn [tl_ fst snd]. rewrite !Rlt_bool_t by lra. reflexivity.
Qed.
