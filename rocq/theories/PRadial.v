(** * Azimuthal averages and cumulative profiles *)

From Coq Require Import Reals ZArith List Bool Lra Lia Psatz.
From Flocq Require Import Core.Raux.
From Verif Require Import Base BaseP SpecGrid MGrids PGrids.
Import ListNotations.
Open Scope R_scope.

Lemma nsum_Some : forall l, nsum (map Some l) = Some (Rsum l).
Proof.
  induction l as [|a l IH]; [reflexivity|]. unfold nsum, Rsum in *. cbn [map fold_right].
  rewrite IH. reflexivity.
Qed.

Lemma nsum_None : forall l, In None l -> nsum l = None.
Proof.
  induction l as [|a l IH]; intros H; [destruct H|]. unfold nsum in *. cbn [fold_right].
  destruct H as [->|H]; [reflexivity|]. rewrite IH by exact H. now destruct a.
Qed.

Lemma nth_sum_axis0 : forall c a j, (j < c)%nat ->
  nth j (sum_axis0 c a) None = nsum (map (fun row => nth j row None) a).
Proof.
  intros c a j H. unfold sum_axis0.
  refine (eq_trans (nth_map_lt nat num _ _ j None 0%nat _) _); [rewrite seq_length; exact H|].
  now rewrite seq_nth.
Qed.

Lemma length_sum_axis0 : forall c a, length (sum_axis0 c a) = c.
Proof. intros. unfold sum_axis0. now rewrite map_length, seq_length. Qed.

Lemma map_lift2 : forall f n c j, shape2 f n c -> (j < c)%nat ->
  map (fun row => nth j row None) (lift2 f) = map Some (column f j).
Proof.
  intros f n c j [HL HR] Hj. unfold lift2, column. rewrite !map_map. apply map_ext_in.
  intros row Hin. apply In_nth with (d := []) in Hin. destruct Hin as (i & Hi & <-).
  apply (nth_map_lt R num). rewrite HR by exact Hi. exact Hj.
Qed.

Lemma map_zip2 : forall A (g : R -> R -> A) f w n c j d, shape2 f n c -> shape2 w n c -> (j < c)%nat ->
  map (fun row => nth j row d) (zip2 g f w) = map2 g (column f j) (column w j).
Proof.
  intros A g f w n c j d [HL HR] [HL' HR'] Hj. unfold zip2, column.
  apply (list_ext A _ _ d); rewrite map_length, !map2_length, ?map_length; [reflexivity|].
  intros i Hi. rewrite (nth_map_lt _ _ _ _ i d []) by (rewrite map2_length; exact Hi).
  rewrite (nth_map2 _ _ _ _ f w i [] [] []) by lia.
  rewrite (nth_map2 _ _ _ _ _ _ i 0 0 d) by (rewrite map_length; lia).
  rewrite !(nth_map_lt _ _ _ _ i 0 []) by lia.
  apply nth_map2; rewrite ?HR, ?HR' by lia; exact Hj.
Qed.

Lemma length_column : forall f j, length (column f j) = length f.
Proof. intros. apply map_length. Qed.

Lemma map2_Some : forall (g : R -> R -> R) l m, map2 (fun x y => Some (g x y)) l m = map Some (map2 g l m).
Proof.
  intros g l. induction l as [|a l IH]; intros [|b m]; try reflexivity. cbn [map2 map]. now rewrite IH.
Qed.

(** ** Weighted means *)

Lemma Rsum_within : forall l lo hi, within lo hi l ->
  lo * INR (length l) <= Rsum l <= hi * INR (length l).
Proof.
  intros l lo hi. induction l as [|a l IH]; intros H; [cbn; lra|].
  assert (A : lo <= a <= hi) by (apply H; now left).
  assert (B : within lo hi l) by (intros x Hx; apply H; now right).
  specialize (IH B). unfold Rsum in *. cbn [fold_right length]. rewrite S_INR. nra.
Qed.

Lemma wsum_within : forall l w lo hi, length l = length w -> within lo hi l ->
  (forall x, In x w -> 0 <= x) ->
  lo * Rsum w <= Rsum (map2 Rmult l w) <= hi * Rsum w.
Proof.
  intros l. induction l as [|a l IH]; intros [|b w] lo hi HL H Hw; cbn in HL; try lia.
  - cbn. lra.
  - assert (A : lo <= a <= hi) by (apply H; now left).
    assert (Hb : 0 <= b) by (apply Hw; now left).
    assert (B : within lo hi l) by (intros x Hx; apply H; now right).
    specialize (IH w lo hi ltac:(lia) B ltac:(intros; apply Hw; now right)).
    unfold Rsum in *. cbn [map2 fold_right]. nra.
Qed.

Lemma Rsum_nonneg_in : forall l, (forall x, In x l -> 0 <= x) -> 0 <= Rsum l.
Proof.
  induction l as [|a l IH]; intros H; [cbn; lra|]. unfold Rsum in *; cbn [fold_right].
  assert (0 <= a) by (apply H; now left). assert (0 <= fold_right Rplus 0 l) by (apply IH; intros; apply H; now right).
  lra.
Qed.

Section P2R.
Variables (n c : nat) (f : list (list R)).
Hypothesis Hf : shape2 f n c.

Lemma p2r_plain : forall area2d pixarea sigma j, (1 <= n)%nat -> (j < c)%nat ->
  nth j (fst (polar2radial c f area2d pixarea sigma None)) None
    = Some (Rsum (column f j) / INR n).
Proof.
  intros area2d pixarea sigma j Hn Hj. unfold polar2radial; cbn [fst].
  refine (eq_trans (nth_map_lt num num _ _ j None None _) _); [rewrite length_sum_axis0; exact Hj|].
  rewrite nth_sum_axis0 by exact Hj. rewrite (map_lift2 f n c j Hf Hj), nsum_Some.
  destruct Hf as [HL _]. rewrite HL. unfold ndiv, fdiv.
  assert (INR n <> 0) by (apply not_0_INR; lia).
  destruct (Req_bool_spec (INR n) 0); [contradiction|reflexivity].
Qed.

Lemma p2r_weighted : forall area2d pixarea sigma w j, shape2 w n c -> (j < c)%nat ->
  nth j (fst (polar2radial c f area2d pixarea sigma (Some w))) None
    = fdiv (Rsum (map2 Rmult (column f j) (column w j))) (Rsum (column w j)).
Proof.
  intros area2d pixarea sigma w j Hw Hj. unfold polar2radial; cbn [fst].
  refine (eq_trans (nth_map2 num num num _ _ _ j None None None _ _) _);
    [rewrite length_sum_axis0; exact Hj|rewrite length_sum_axis0; exact Hj|].
  rewrite !nth_sum_axis0 by exact Hj. rewrite (map_lift2 w n c j Hw Hj), nsum_Some.
  rewrite (map_zip2 num _ f w n c j None Hf Hw Hj).
  rewrite (map2_Some Rmult), nsum_Some. reflexivity.
Qed.

Lemma p2r_length : forall area2d pixarea sigma w,
  length (fst (polar2radial c f area2d pixarea sigma w)) = c.
Proof.
  intros area2d pixarea sigma w. unfold polar2radial. destruct w; cbn [fst].
  - rewrite map2_length, !length_sum_axis0. lia.
  - rewrite map_length. apply length_sum_axis0.
Qed.

(** Variance sums *)
Lemma nsum_var : forall (g : R -> R) areas sig pixarea, length areas = length sig ->
  (forall a, In a areas -> a <> 0) ->
  nsum (map2 (fun a s => nmul (fdiv pixarea a) (Some (g s))) areas sig)
   = Some (Rsum (map2 (fun a s => pixarea / a * g s) areas sig)).
Proof.
  intros g areas. induction areas as [|a areas IH]; intros [|s sig] pixarea HL Ha; cbn in HL; try lia.
  - reflexivity.
  - cbn [map2]. unfold nsum, Rsum in *. cbn [fold_right]. rewrite IH; [|lia|intros; apply Ha; now right].
    unfold fdiv. assert (a <> 0) by (apply Ha; now left).
    destruct (Req_bool_spec a 0); [contradiction|]. reflexivity.
Qed.

Lemma var_nonneg : forall (g : R -> R) areas sig pixarea, 0 <= pixarea ->
  (forall s, 0 <= g s) -> (forall a, In a areas -> 0 < a) ->
  0 <= Rsum (map2 (fun a s => pixarea / a * g s) areas sig).
Proof.
  intros g areas. induction areas as [|a areas IH]; intros [|s sig] pixarea Hp Hg Ha; try (cbn; lra).
  cbn [map2]. unfold Rsum in *; cbn [fold_right].
  assert (0 < a) by (apply Ha; now left).
  assert (0 <= fold_right Rplus 0 (map2 (fun a s => pixarea / a * g s) areas sig))
    by (apply IH; try assumption; intros; apply Ha; now right).
  assert (0 <= pixarea / a * g s).
  { apply Rmult_le_pos; [|apply Hg]. apply Rmult_le_pos; [exact Hp|]. left. now apply Rinv_0_lt_compat. }
  lra.
Qed.

Lemma np_sqrt_ok : forall x, 0 <= x -> np_sqrt x = Some (sqrt x).
Proof.
  intros x H. unfold np_sqrt. destruct (Rlt_bool_spec x 0); [lra|reflexivity].
Qed.

Lemma sqrt_div_sq : forall x y, 0 <= x -> y <> 0 -> sqrt (x / y ^ 2) = sqrt x / Rabs y.
Proof.
  intros x y Hx Hy. assert (0 < y ^ 2) by nra. rewrite sqrt_div_alt by lra.
  f_equal. replace (y ^ 2) with (Rsqr y) by (unfold Rsqr; ring). apply sqrt_Rsqr_abs.
Qed.

Lemma p2r_sigma_plain : forall area2d pixarea sigma j, (1 <= n)%nat -> (j < c)%nat ->
  shape2 area2d n c -> shape2 sigma n c -> 0 <= pixarea ->
  (forall a, In a (column area2d j) -> 0 < a) ->
  exists s, snd (polar2radial c f area2d pixarea (Some sigma) None) = Some s /\ length s = c /\
    nth j s None = Some (sqrt (Rsum (map2 (fun a s => pixarea / a * s ^ 2)
                                     (column area2d j) (column sigma j))) / INR n).
Proof.
  intros area2d pixarea sigma j Hn Hj Ha Hs Hp Hpos. unfold polar2radial; cbn [snd option_map].
  eexists. split; [reflexivity|]. split; [rewrite map_length; apply length_sum_axis0|].
  refine (eq_trans (nth_map_lt num num _ _ j None None _) _); [rewrite length_sum_axis0; exact Hj|].
  rewrite nth_sum_axis0 by exact Hj. rewrite (map_zip2 num _ area2d sigma n c j None Ha Hs Hj).
  rewrite (nsum_var (fun s => s ^ 2)).
  2: { rewrite !length_column. destruct Ha, Hs. congruence. }
  2: { intros a Hin. specialize (Hpos a Hin). lra. }
  destruct Hf as [HL _]. rewrite HL.
  assert (Hn0 : 0 < INR n) by (apply lt_0_INR; lia).
  assert (INR n ^ 2 <> 0) by (apply pow_nonzero; lra).
  unfold ndiv, fdiv. destruct (Req_bool_spec (INR n ^ 2) 0); [contradiction|].
  assert (V := var_nonneg (fun s => s ^ 2) (column area2d j) (column sigma j) pixarea Hp
                 (fun s => pow2_ge_0 s) Hpos).
  unfold nsqrt. rewrite np_sqrt_ok.
  - rewrite sqrt_div_sq by lra. rewrite Rabs_pos_eq by lra. reflexivity.
  - apply Rmult_le_pos; [exact V|]. left. apply Rinv_0_lt_compat. nra.
Qed.

Lemma map2_map2_var : forall pixarea areas ws,
  map2 nmul (map (fun a => fdiv pixarea a) areas) (@map R num (fun y => Some (y ^ 2)) ws)
  = map2 (fun a s => nmul (fdiv pixarea a) (Some (s ^ 2))) areas ws.
Proof.
  intros pixarea areas. induction areas as [|a areas IH]; intros [|s ws]; try reflexivity.
  cbn [map2 map]. now rewrite IH.
Qed.

Lemma map_zip2_gen : forall A B D (g : A -> B -> D) (a : list (list A)) (b : list (list B)) n c j da db dd,
  length a = n -> length b = n ->
  (forall i, (i < n)%nat -> length (nth i a []) = c) -> (forall i, (i < n)%nat -> length (nth i b []) = c) ->
  (j < c)%nat ->
  map (fun row => nth j row dd) (zip2 g a b)
   = map2 g (map (fun row => nth j row da) a) (map (fun row => nth j row db) b).
Proof.
  intros A B D g a b n' c' j da db dd HA HB RA RB Hj. unfold zip2.
  apply (list_ext D _ _ dd); rewrite map_length, !map2_length, ?map_length; [reflexivity|].
  intros i Hi. rewrite (nth_map_lt _ _ _ _ i dd []) by (rewrite map2_length; exact Hi).
  rewrite (nth_map2 _ _ _ _ a b i [] [] []) by lia.
  rewrite (nth_map2 _ _ _ _ _ _ i da db dd) by (rewrite map_length; lia).
  rewrite (nth_map_lt _ _ _ _ i da []) by lia. rewrite (nth_map_lt _ _ _ _ i db []) by lia.
  apply nth_map2; rewrite ?RA, ?RB by lia; exact Hj.
Qed.

Lemma p2r_sigma_weighted : forall area2d pixarea sigma w j, (j < c)%nat ->
  shape2 area2d n c -> shape2 sigma n c -> shape2 w n c -> 0 <= pixarea ->
  (forall a, In a (column area2d j) -> 0 < a) -> Rsum (column w j) <> 0 ->
  exists s, snd (polar2radial c f area2d pixarea (Some sigma) (Some w)) = Some s /\ length s = c /\
    nth j s None = Some (sqrt (Rsum (map2 (fun a y => pixarea / a * y ^ 2)
                                     (column area2d j) (map2 Rmult (column w j) (column sigma j))))
                         / Rabs (Rsum (column w j))).
Proof.
  intros area2d pixarea sigma w j Hj Ha Hs Hw Hp Hpos Hsw. unfold polar2radial; cbn [snd option_map].
  eexists. split; [reflexivity|]. split; [rewrite map2_length, !length_sum_axis0; lia|].
  refine (eq_trans (nth_map2 num num num _ _ _ j None None None _ _) _);
    [rewrite length_sum_axis0; exact Hj|rewrite length_sum_axis0; exact Hj|].
  rewrite !nth_sum_axis0 by exact Hj. rewrite (map_lift2 w n c j Hw Hj), nsum_Some.
  assert (LA : length area2d = n) by apply Ha. assert (LW : length w = n) by apply Hw.
  assert (LS : length sigma = n) by apply Hs.
  rewrite (map_zip2_gen num num num nmul _ _ n c j None None None);
    [| now rewrite map_length | unfold zip2; rewrite map2_length; lia
     | intros i Hi; rewrite (nth_map_lt _ _ _ _ i [] []) by lia; rewrite map_length; apply Ha; lia
     | intros i Hi; unfold zip2; rewrite (nth_map2 _ _ _ _ w sigma i [] [] []) by lia;
       rewrite map2_length; rewrite (proj2 Hw), (proj2 Hs) by lia; lia
     | exact Hj].
  rewrite (map_zip2 num _ w sigma n c j None Hw Hs Hj).
  assert (E1 : map (fun row : list num => nth j row None) (map (map (fun a => fdiv pixarea a)) area2d)
           = map (fun a => fdiv pixarea a) (column area2d j)).
  { unfold column. rewrite !map_map. apply map_ext_in. intros row Hin.
    apply In_nth with (d := []) in Hin. destruct Hin as (i & Hi & <-).
    apply (nth_map_lt R num). rewrite (proj2 Ha) by exact Hi. exact Hj. }
  assert (E2 : @map2 R R num (fun w0 s0 => Some ((w0 * s0) ^ 2)) (column w j) (column sigma j)
           = @map R num (fun y => Some (y ^ 2)) (map2 Rmult (column w j) (column sigma j))).
  { generalize (column w j) (column sigma j). intros l. induction l as [|a l IH]; intros [|b m]; try reflexivity.
    cbn [map2 map]. now rewrite IH. }
  rewrite E1, E2, map2_map2_var. rewrite (nsum_var (fun s => s ^ 2)).
  2: { rewrite map2_length, !length_column. lia. }
  2: { intros a Hin. specialize (Hpos a Hin). lra. }
  set (S := Rsum (column w j)) in *. cbn [nsq nmul]. 
  unfold nsq, nmul, ndiv, fdiv. assert (S * S <> 0) by nra.
  destruct (Req_bool_spec (S * S) 0); [contradiction|].
  assert (V := var_nonneg (fun s => s ^ 2) (column area2d j) (map2 Rmult (column w j) (column sigma j)) pixarea Hp
                 (fun s => pow2_ge_0 s) Hpos).
  unfold nsqrt. replace (S * S) with (S ^ 2) by ring. rewrite np_sqrt_ok.
  - rewrite sqrt_div_sq by assumption. reflexivity.
  - apply Rmult_le_pos; [exact V|]. left. apply Rinv_0_lt_compat. nra.
Qed.
End P2R.

Lemma var_scale : forall k areas sig pixarea,
  Rsum (map2 (fun a s => pixarea / a * s ^ 2) areas (map (fun s => k * s) sig))
   = k ^ 2 * Rsum (map2 (fun a s => pixarea / a * s ^ 2) areas sig).
Proof.
  intros k areas. induction areas as [|a areas IH]; intros [|s sig] pixarea; try (cbn; ring).
  cbn [map map2]. unfold Rsum in *; cbn [fold_right]. rewrite IH. ring.
Qed.

(** ** Cumulative profiles *)

Lemma length_cumsum_from : forall l acc, length (cumsum_from acc l) = length l.
Proof. induction l as [|a l IH]; intros acc; cbn; [reflexivity|now rewrite IH]. Qed.

Lemma nth_cumsum_from : forall l acc k, (k < length l)%nat ->
  nth k (cumsum_from acc l) 0 = acc + Rsum (firstn (S k) l).
Proof.
  induction l as [|a l IH]; intros acc k Hk; [cbn in Hk; lia|].
  destruct k as [|k].
  - cbn. ring.
  - cbn [cumsum_from nth]. rewrite IH by (cbn in Hk; lia).
    change (firstn (S (S k)) (a :: l)) with (a :: firstn (S k) l).
    unfold Rsum; cbn [fold_right]. ring.
Qed.

(** Area-weighted sum of the first [k] bins. *)
Definition annuli (redges f : list R) (k : nat) : R :=
  Rsum (map (fun i => PI * (nth (S i) redges 0 ^ 2 - nth i redges 0 ^ 2) * nth i f 0) (seq 0 k)).

Lemma firstn_S_nth : forall A (l : list A) k d, (k < length l)%nat ->
  firstn (S k) l = firstn k l ++ [nth k l d].
Proof.
  intros A l. induction l as [|a l IH]; intros k d H; [cbn in H; lia|].
  destruct k as [|k]; [reflexivity|]. cbn [firstn nth app]. f_equal.
  apply (IH k d). cbn in H. lia.
Qed.

Lemma Rsum_firstn_seq : forall (g : nat -> R) (l : list R) k, (k <= length l)%nat ->
  (forall i, (i < length l)%nat -> nth i l 0 = g i) ->
  Rsum (firstn k l) = Rsum (map g (seq 0 k)).
Proof.
  intros g l k Hk H. f_equal. apply (list_ext R _ _ 0).
  - rewrite firstn_length, map_length, seq_length. lia.
  - intros i Hi. rewrite firstn_length in Hi. rewrite PPolarCoords.nth_firstn by lia.
    rewrite (nth_map_lt _ _ _ _ i 0 0%nat) by (rewrite seq_length; lia).
    rewrite seq_nth by lia. apply H. lia.
Qed.

Lemma set_tail_cumsum : forall (l : list R) m, length l = m ->
  exists o, set_tail (repeat 0 (S m)) (cumsum l) = Ok o /\ length o = S m /\ nth 0 o 0 = 0 /\
    forall k, (k <= m)%nat -> nth k o 0 = Rsum (firstn k l).
Proof.
  intros l m HL. unfold set_tail, cumsum. rewrite length_cumsum_from.
  cbn [repeat tl]. rewrite repeat_length, HL, Nat.eqb_refl. cbn [firstn].
  eexists. split; [reflexivity|]. split; [cbn; rewrite length_cumsum_from; lia|].
  split; [reflexivity|]. intros [|k] Hk; [reflexivity|].
  cbn [app nth]. rewrite nth_cumsum_from by lia. ring.
Qed.

Lemma cumulative_spec : forall redges f m sigma, length redges = S m -> length f = m ->
  match sigma with None => True | Some s => length s = m end ->
  exists o so, cumulative_radial redges f sigma = Ok (o, so) /\ length o = S m /\
    (forall k, (k <= m)%nat -> nth k o 0 = annuli redges f k) /\
    match sigma with
    | None => so = None
    | Some s => exists e, so = Some e /\ length e = S m /\
        forall k, (k <= m)%nat ->
          nth k e None = Some (sqrt (Rsum (map (fun i => (PI * (nth (S i) redges 0 ^ 2 - nth i redges 0 ^ 2) * nth i s 0) ^ 2) (seq 0 k))))
    end.
Proof.
  intros redges f m sigma HE HF HS. unfold cumulative_radial.
  set (area := map2 _ _ _).
  assert (LA : length area = m).
  { unfold area. rewrite map2_length, length_tl, length_removelast. lia. }
  assert (NA : forall i, (i < m)%nat -> nth i area 0 = PI * (nth (S i) redges 0 ^ 2 - nth i redges 0 ^ 2)).
  { intros i Hi. unfold area.
    rewrite (nth_map2 _ _ _ _ _ _ i 0 0 0) by (rewrite ?length_tl, ?length_removelast; lia).
    rewrite nth_tl, nth_removelast by lia. reflexivity. }
  assert (BM : forall g, length g = m -> bmul area g = Ok (map2 Rmult area g)).
  { intros g Hg. unfold bmul. now rewrite LA, Hg, Nat.eqb_refl. }
  rewrite BM by exact HF. cbn [bind]. rewrite HE.
  destruct (set_tail_cumsum (map2 Rmult area f) m) as (o & -> & Lo & O0 & No).
  { rewrite map2_length. lia. }
  cbn [bind].
  assert (N : forall k, (k <= m)%nat -> nth k o 0 = annuli redges f k).
  { intros k Hk. rewrite No by exact Hk. unfold annuli. apply Rsum_firstn_seq.
    - rewrite map2_length. lia.
    - intros i Hi. rewrite map2_length in Hi. rewrite (nth_map2 _ _ _ _ _ _ i 0 0 0) by lia.
      now rewrite NA by lia. }
  destruct sigma as [s|].
  - rewrite BM by exact HS. cbn [bind].
    destruct (set_tail_cumsum (map (fun x => x ^ 2) (map2 Rmult area s)) m) as (v & -> & Lv & V0 & Nv).
    { rewrite map_length, map2_length. lia. }
    cbn [bind]. do 2 eexists. split; [reflexivity|]. split; [exact Lo|]. split; [exact N|].
    eexists. split; [reflexivity|]. split; [now rewrite map_length|].
    intros k Hk. refine (eq_trans (nth_map_lt R num _ _ k None 0 _) _); [lia|].
    rewrite Nv by exact Hk.
    rewrite (Rsum_firstn_seq (fun i => (PI * (nth (S i) redges 0 ^ 2 - nth i redges 0 ^ 2) * nth i s 0) ^ 2)).
    + apply np_sqrt_ok. apply Rsum_nonneg_in. intros x Hx. apply in_map_iff in Hx.
      destruct Hx as (i & <- & _). apply pow2_ge_0.
    + rewrite map_length, map2_length. lia.
    + intros i Hi. rewrite map_length, map2_length in Hi.
      rewrite (nth_map_lt _ _ _ _ i 0 0) by (rewrite map2_length; lia).
      rewrite (nth_map2 _ _ _ _ _ _ i 0 0 0) by lia. now rewrite NA by lia.
  - do 2 eexists. split; [reflexivity|]. split; [exact Lo|]. split; [exact N|]. reflexivity.
Qed.

Lemma annuli_S : forall redges f k, annuli redges f (S k)
  = annuli redges f k + PI * (nth (S k) redges 0 ^ 2 - nth k redges 0 ^ 2) * nth k f 0.
Proof.
  intros. unfold annuli. rewrite seq_S, map_app, Rsum_app. cbn [map]. unfold Rsum at 2. cbn [fold_right].
  rewrite Nat.add_0_l. ring.
Qed.

Lemma annuli_const : forall redges f a m, (forall i, (i < m)%nat -> nth i f 0 = a) ->
  forall k, (k <= m)%nat -> annuli redges f k = PI * (nth k redges 0 ^ 2 - nth 0 redges 0 ^ 2) * a.
Proof.
  intros redges f a m H. induction k as [|k IH]; intros Hk; [unfold annuli; cbn; ring|].
  rewrite annuli_S, IH, H by lia. ring.
Qed.

Lemma bmul_mismatch : forall a b, length a <> length b -> length a <> 1%nat -> length b <> 1%nat ->
  bmul a b = Err ValueError.
Proof.
  intros a b H1 H2 H3. unfold bmul. rewrite (proj2 (Nat.eqb_neq _ _) H1).
  destruct a as [|x [|x' a]]; cbn in *; try lia; destruct b as [|y [|y' b]]; cbn in *; try lia; reflexivity.
Qed.

Lemma cumsum_len : forall l, length (cumsum l) = length l.
Proof. intros l. unfold cumsum. generalize 0. induction l as [|x l IH]; intros; cbn; auto. Qed.

Lemma cumulative_mismatch : forall redges f sigma, length f <> (length redges - 1)%nat -> length f <> 1%nat ->
  cumulative_radial redges f sigma = Err ValueError.
Proof.
  intros redges f sigma H1 H2. unfold cumulative_radial.
  set (area := map2 _ _ _).
  assert (LA : length area = (length redges - 1)%nat) by (unfold area; rewrite map2_length, length_tl, length_removelast; lia).
  destruct (Nat.eq_dec (length redges) 2) as [E|H3].
  - destruct area as [|x [|y area]]; cbn [length] in LA; try lia.
    assert (B : bmul [x] f = Ok (map (fun y => x * y) f)).
    { unfold bmul. cbn [length]. destruct (Nat.eqb_spec 1 (length f)); [lia|reflexivity]. }
    rewrite B. cbn [bind]. unfold set_tail. rewrite E. cbn [repeat tl length].
    set (c := cumsum _). assert (LC : length c = length f) by (unfold c; now rewrite cumsum_len, map_length).
    destruct (Nat.eqb_spec (length c) 1); [lia|]. destruct c as [|a [|b c]]; try reflexivity. cbn [length] in LC. lia.
  - rewrite bmul_mismatch; [reflexivity| | |exact H2]; lia.
Qed.
