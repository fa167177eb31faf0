(** * Theorems: averages of [densegrid.Box2Ring] in double precision (C88) *)

From Coq Require Import Reals ZArith List Bool Lia Lra Psatz Permutation.
From Flocq Require Import Core IEEE754.BinarySingleNaN.
From Verif Require Import Base BaseP SpecGrid SpecRemap SpecDense MGrids MHealpixFloat PHealpixFloat SpecDouble MDouble PDouble MGridsDouble PGridsDouble MSumDouble PSumDouble
  MDenseDouble PRemap2 PRadial PDense PDenseDouble.
Import ListNotations.
Open Scope R_scope.

(** ** Vocabulary *)

(** Rising radial edges of [c] rings whose outer radius, of moderate size, is at
    most [K] times their width. *)
Definition edges_d (K : R) (redges : list double) (c : nat) : Prop :=
  length redges = S c /\ 1 <= K <= b2 30 /\
  forall k, (k < c)%nat -> let e0 := nth k redges dzero in let e1 := nth (S k) redges dzero in
    fin e0 /\ fin e1 /\ 0 <= val e0 < val e1 /\ b2 (-200) <= val e1 <= b2 200 /\ val e1 <= K * (val e1 - val e0).

(** An array of [n] rows and [m] columns; its entries. *)
Definition shape_d {A} (n m : nat) (g : list (list A)) : Prop := length g = n /\ forall row, In row g -> length row = m.
Definition entry {A} (d : A) (g : list (list A)) (x y : nat) : A := nth y (nth x g []) d.

(** Value of a sample, zero outside the box; area of a ring (over pi). *)
Definition sample_val (found : list (list (option double))) (x y : nat) : R :=
  match entry None found x y with Some v => val v | None => 0 end.
Definition ring_area (redges : list double) (k : nat) : R := val (nth (S k) redges dzero) ^ 2 - val (nth k redges dzero) ^ 2.

(** ** Lemmas *)

Lemma shape_tab2 : forall A (d : A) n m g, shape_d n m g -> g = tab2 n m (fun x y => entry d g x y).
Proof.
  intros A d n m g [L R]. rewrite (tab_of_list _ g n [] L) at 1. unfold tab2. apply tab_ext. intros i Hi. unfold entry.
  rewrite (tab_of_list _ (nth i g []) m d) at 1; [reflexivity|]. apply R, nth_In. lia.
Qed.

Lemma tab2_shape : forall A n m (g : nat -> nat -> A), shape_d n m (tab2 n m g).
Proof. intros. unfold tab2. split; [apply tab_length|]. intros row H. apply tab_In in H. destruct H as (k & _ & ->). apply tab_length. Qed.

Lemma tab2_entry : forall A (d : A) n m g i j, (i < n)%nat -> (j < m)%nat -> entry d (tab2 n m g) i j = g i j.
Proof. intros. unfold entry, tab2. rewrite tab_nth by assumption. now rewrite tab_nth. Qed.

Lemma in_block : forall n b i a, (i < n)%nat -> (a < b)%nat -> (i * b + a < n * b)%nat.
Proof. intros. nia. Qed.

Lemma zero_ok : fin dzero /\ val dzero = 0.
Proof. split; reflexivity. Qed.

Lemma one_ok : fin (dbl 1 0) /\ val (dbl 1 0) = 1.
Proof. exact (dint_ok 1 ltac:(lia)). Qed.

Lemma edge_w : forall K redges c k, edges_d K redges c -> (k < c)%nat ->
  fin (ring_w redges k) /\ Rabs (val (ring_w redges k) - ring_area redges k) <= 4 * u * K * ring_area redges k /\ b2 (-500) <= val (ring_w redges k) <= b2 500 /\
  0 < ring_area redges k.
Proof.
  intros K redges c k (_ & HK & H) Hk. destruct (H k Hk) as (F0 & F1 & H01 & H1 & HW).
  destruct (ring_w_ok redges k K F0 F1 H01 H1 HK HW) as (A & B & C & D). fold (ring_area redges k) in B, D. repeat split; auto; try apply C.
  pose proof (bpow_gt_0 radix2 (-430)). lra.
Qed.

Lemma u_K : forall K, 1 <= K <= b2 30 -> 0 <= 4 * u * K <= / 4.
Proof.
  intros K HK. pose proof u_pos as U. split; [nra|].
  apply Rle_trans with (4 * u * b2 30); [apply Rmult_le_compat_l; lra|]. change 4 with (b2 2) at 1. change (/ 4) with (b2 (-2)). unfold u. rewrite <- !bpow_plus. apply bpow_le. lia.
Qed.

Lemma value_val : forall v, val (value_of v) = match v with Some x => val x | None => 0 end.
Proof. intros [x|]; reflexivity. Qed.

(** ** C88 *)

(** Every cell whose samples are finite is the area-weighted mean of the exact
    radii, up to rounding. *)
Theorem C88_mean : forall o1 o2 found redges n m b K, order_ok o1 -> order_ok o2 -> (1 <= b)%nat -> INR b <= b2 20 ->
  edges_d K redges (m * b) -> shape_d (n * b) (m * b) found ->
  exists g, remap_means_d o1 o2 found redges (n * b) n m b b (m * b) = Ok g /\ shape_d n m g /\
    forall i j M, (i < n)%nat -> (j < m)%nat -> b2 (-300) <= M <= b2 300 ->
      (forall a c v, (a < b)%nat -> (c < b)%nat -> entry None found (i * b + a) (j * b + c) = Some v -> fin v /\ Rabs (val v) <= M) ->
      fin (entry dzero g i j) /\
      Rabs (val (entry dzero g i j) - block_mean b (fun c => ring_area redges (j * b + c)) (fun a c => sample_val found (i * b + a) (j * b + c)))
        <= (INR b + 1 + K) * b2 (-49) * M.
Proof.
  intros o1 o2 found redges n m b K O1 O2 Hb Hb20 HE HS. pose proof (remap_means_tab o1 o2 n m b redges (fun x y => entry None found x y) (proj1 HE)) as ER.
  rewrite <- (shape_tab2 _ None _ _ _ HS) in ER. rewrite ER.
  eexists. split; [reflexivity|]. split; [apply tab2_shape|]. intros i j M Hi Hj HM HV. rewrite tab2_entry by assumption.
  set (v := fun a c => value_of (entry None found (i * b + a) (j * b + c))). set (w := fun c => ring_w redges (j * b + c)).
  assert (Hw : forall c, (c < b)%nat -> fin (w c) /\ b2 (-500) <= val (w c) <= b2 500).
  { intros c Hc. destruct (edge_w K redges (m * b) (j * b + c) HE (in_block m b j c Hj Hc)) as (A & _ & B & _). auto. }
  pose proof (bpow_gt_0 radix2 (-300)) as PM.
  assert (Hv : forall a c, (a < b)%nat -> (c < b)%nat -> fin (v a c) /\ Rabs (val (v a c)) <= M).
  { intros a c Ha Hc. unfold v. destruct (entry None found (i * b + a) (j * b + c)) as [x|] eqn:E; [now apply (HV a c x)|]. split; [reflexivity|]. cbn [value_of]. rewrite (proj2 zero_ok), Rabs_R0. lra. }
  destruct (cell_err o1 o2 b v w M O1 O2 Hb Hb20 HM Hw Hv) as [F E]. split; [exact F|].
  set (q := val _) in E |- *. set (W := fun c => ring_area redges (j * b + c)).
  assert (Ev : block_mean b W (fun a c => sample_val found (i * b + a) (j * b + c)) = block_mean b W (fun a c => val (v a c))).
  { unfold block_mean. f_equal. apply sum_ext. intros a Ha. apply sum_ext. intros c Hc. f_equal. unfold v. now rewrite value_val. }
  rewrite Ev. pose proof (u_K K (proj1 (proj2 HE))) as UK.
  assert (BW : Rabs (block_mean b (fun c => val (w c)) (fun a c => val (v a c)) - block_mean b W (fun a c => val (v a c))) <= 3 * (4 * u * K) * M).
  { apply block_mean_weights; auto.
    - intros c Hc. destruct (edge_w K redges (m * b) (j * b + c) HE (in_block m b j c Hj Hc)) as (_ & A & _ & B). auto.
    - intros a c Ha Hc. now apply Hv. }
  set (b1 := block_mean b (fun c => val (w c)) (fun a c => val (v a c))) in *. set (b0 := block_mean b W (fun a c => val (v a c))) in *.
  replace (q - b0) with ((q - b1) + (b1 - b0)) by ring. apply Rle_trans with (1 := Rabs_triang _ _).
  assert (E49 : b2 (-49) = 16 * u) by (change (-49)%Z with (4 + -53)%Z; unfold u; rewrite bpow_plus; reflexivity). rewrite E49 in *.
  assert (0 <= u * K * M). { pose proof u_pos. destruct HE as (_ & HK & _). apply Rmult_le_pos; [apply Rmult_le_pos|]; lra. }
  lra.
Qed.

(** A cell all of whose samples hold the same number gives it back up to rounding
    of the sums alone. *)
Theorem C88_constant : forall o1 o2 found redges n m b K, order_ok o1 -> order_ok o2 -> (1 <= b)%nat -> INR b <= b2 20 ->
  edges_d K redges (m * b) -> shape_d (n * b) (m * b) found ->
  exists g, remap_means_d o1 o2 found redges (n * b) n m b b (m * b) = Ok g /\
    forall i j k, (i < n)%nat -> (j < m)%nat -> fin k -> b2 (-300) <= Rabs (val k) <= b2 300 ->
      (forall a c, (a < b)%nat -> (c < b)%nat -> entry None found (i * b + a) (j * b + c) = Some k) ->
      fin (entry dzero g i j) /\ Rabs (val (entry dzero g i j) - val k) <= (INR b + 1) * b2 (-49) * Rabs (val k).
Proof.
  intros o1 o2 found redges n m b K O1 O2 Hb Hb20 HE HS. pose proof (remap_means_tab o1 o2 n m b redges (fun x y => entry None found x y) (proj1 HE)) as ER.
  rewrite <- (shape_tab2 _ None _ _ _ HS) in ER. rewrite ER.
  eexists. split; [reflexivity|]. intros i j k Hi Hj Fk Hk HV. rewrite tab2_entry by assumption.
  set (v := fun a c => value_of (entry None found (i * b + a) (j * b + c))). set (w := fun c => ring_w redges (j * b + c)).
  assert (Hw : forall c, (c < b)%nat -> fin (w c) /\ b2 (-500) <= val (w c) <= b2 500).
  { intros c Hc. destruct (edge_w K redges (m * b) (j * b + c) HE (in_block m b j c Hj Hc)) as (A & _ & B & _). auto. }
  assert (Hv : forall a c, (a < b)%nat -> (c < b)%nat -> fin (v a c) /\ Rabs (val (v a c)) <= Rabs (val k)).
  { intros a c Ha Hc. unfold v. rewrite HV by assumption. split; [exact Fk|apply Rle_refl]. }
  destruct (cell_err o1 o2 b v w (Rabs (val k)) O1 O2 Hb Hb20 Hk Hw Hv) as [F E]. split; [exact F|].
  replace (block_mean b (fun c => val (w c)) (fun a c => val (v a c))) with (val k) in E; [exact E|].
  rewrite <- (block_mean_const b (fun c => val (w c)) (val k) Hb).
  - unfold block_mean. f_equal. apply sum_ext. intros a Ha. apply sum_ext. intros c Hc. f_equal. unfold v. now rewrite HV.
  - pose proof (bpow_gt_0 radix2 (-500)) as P. pose proof (Om_bound b (fun c => val (w c)) Hb Hb20 (fun c Hc => proj2 (Hw c Hc))). lra.
Qed.

(** The mask: never outside [0, 1], exactly 1 for cells inside the box, exactly 0
    for cells outside, elsewhere the fraction of the area up to rounding. *)
Theorem C88_mask : forall o1 o2 found redges n m b K, order_ok o1 -> order_ok o2 -> (1 <= b)%nat -> INR b <= b2 20 ->
  edges_d K redges (m * b) -> shape_d (n * b) (m * b) found ->
  exists g, mask_d o1 o2 found redges (n * b) n m b b (m * b) = Ok g /\ shape_d n m g /\
    forall i j, (i < n)%nat -> (j < m)%nat ->
      let x := entry dzero g i j in
      let inside := fun a c => entry None found (i * b + a) (j * b + c) <> None in
      fin x /\ 0 <= val x <= 1 /\
      ((forall a c, (a < b)%nat -> (c < b)%nat -> inside a c) -> val x = 1) /\
      ((forall a c, (a < b)%nat -> (c < b)%nat -> ~ inside a c) -> val x = 0) /\
      Rabs (val x - block_mean b (fun c => ring_area redges (j * b + c)) (fun a c => if entry None found (i * b + a) (j * b + c) then 1 else 0))
        <= (INR b + 1 + K) * b2 (-49).
Proof.
  intros o1 o2 found redges n m b K O1 O2 Hb Hb20 HE HS. unfold mask_d. cbv zeta. destruct one_ok as [F1 V1].
  set (ones := map (map _) found).
  assert (EO : ones = tab2 (n * b) (m * b) (fun x y => match entry None found x y with Some _ => Some (dbl 1 0) | None => None end)).
  { unfold ones. rewrite (shape_tab2 _ None _ _ _ HS) at 1. now rewrite tab2_map. }
  assert (HS1 : shape_d (n * b) (m * b) ones) by (rewrite EO; apply tab2_shape).
  assert (HE1 : forall x y, (x < n * b)%nat -> (y < m * b)%nat -> entry None ones x y = match entry None found x y with Some _ => Some (dbl 1 0) | None => None end).
  { intros x y Hx Hy. rewrite EO. now rewrite tab2_entry. }
  destruct (C88_mean o1 o2 ones redges n m b K O1 O2 Hb Hb20 HE HS1) as (g & Eg & Sg & Hg). rewrite Eg. cbn [bind].
  eexists. split; [reflexivity|]. pose proof (shape_tab2 _ dzero _ _ _ Sg) as Tg.
  split; [rewrite Tg, tab2_map; apply tab2_shape|]. intros i j Hi Hj. match goal with |- fin ?t /\ _ => set (x := t) end.
  assert (M1 : b2 (-300) <= 1 <= b2 300) by (change 1 with (b2 0); split; apply bpow_le; lia).
  destruct (Hg i j 1 Hi Hj M1) as [Fx Ex].
  { intros a c v Ha Hc. rewrite HE1 by (now apply in_block). destruct (entry None found _ _); [|discriminate]. intros E. assert (Ev : dbl 1 0 = v) by congruence. rewrite <- Ev, V1, Rabs_R1. split; [exact F1|lra]. }
  assert (Xg : x = entry dzero g i j).
  { unfold x. rewrite Tg at 1. rewrite tab2_map, tab2_entry by assumption. unfold fin in Fx. now rewrite Fx. }
  rewrite Xg. split; [exact Fx|]. rewrite Rmult_1_r in Ex.
  assert (Es : block_mean b (fun c => ring_area redges (j * b + c)) (fun a c => sample_val ones (i * b + a) (j * b + c)) =
               block_mean b (fun c => ring_area redges (j * b + c)) (fun a c => if entry None found (i * b + a) (j * b + c) then 1 else 0)).
  { unfold block_mean. f_equal. apply sum_ext. intros a Ha. apply sum_ext. intros c Hc. f_equal. unfold sample_val. rewrite HE1 by (now apply in_block).
    destruct (entry None found _ _); [exact V1|reflexivity]. }
  rewrite Es in Ex.
  (* The quotient itself. *)
  rewrite EO in Eg. rewrite remap_means_tab in Eg by apply HE. apply Ok_inj in Eg.
  set (w := fun c => ring_w redges (j * b + c)).
  set (v := fun a c => value_of (match entry None found (i * b + a) (j * b + c) with Some _ => Some (dbl 1 0) | None => None end)).
  assert (Eq : entry dzero g i j = ddiv (cell_sum o1 o2 b (fun a c => dmul (v a c) (w c))) (cell_sum o1 o2 b (fun _ c => w c))).
  { rewrite <- Eg. now rewrite tab2_entry. }
  rewrite Eq in *. clear Eq. set (num := cell_sum o1 o2 b (fun a c => dmul (v a c) (w c))) in *. set (den := cell_sum o1 o2 b (fun _ c => w c)) in *.
  assert (Hw : forall c, (c < b)%nat -> fin (w c) /\ b2 (-500) <= val (w c) <= b2 500).
  { intros c Hc. destruct (edge_w K redges (m * b) (j * b + c) HE (in_block m b j c Hj Hc)) as (A & _ & B & _). auto. }
  pose proof (bpow_gt_0 radix2 (-500)) as P5.
  assert (Hp : forall a c, (a < b)%nat -> (c < b)%nat -> fin (dmul (v a c) (w c)) /\
     val (dmul (v a c) (w c)) = if entry None found (i * b + a) (j * b + c) then val (w c) else 0).
  { intros a c Ha Hc. destruct (Hw c Hc) as [Fw Bw].
    assert (Q : fin (v a c) /\ val (v a c) * val (w c) = if entry None found (i * b + a) (j * b + c) then val (w c) else 0).
    { unfold v. destruct (entry None found _ _); cbn [value_of]; [rewrite V1; split; [exact F1|ring]|rewrite (proj2 zero_ok); split; [reflexivity|ring]]. }
    destruct Q as [Fv Q].
    assert (Fm : fmt (val (v a c) * val (w c))) by (rewrite Q; destruct (entry None found _ _); [apply fmt_val|apply fmt_0]).
    destruct (dmul_ok (v a c) (w c) Fv Fw) as [A B].
    - rewrite (fl_fmt _ Fm), Q. apply Rle_lt_trans with (b2 500); [|apply bpow_lt; lia]. destruct (entry None found _ _); [rewrite Rabs_pos_eq; lra|rewrite Rabs_R0; apply bpow_ge_0].
    - split; [exact A|]. now rewrite B, (fl_fmt _ Fm). }
  pose proof (bpow_ge_0 radix2 500) as P500.
  assert (ND : val num <= val den).
  { apply (cell_sum_mono o1 o2 b _ _ 500 O1 O2 Hb Hb20); [lia|]. intros a c Ha Hc. destruct (Hw c Hc) as [Fw Bw]. destruct (Hp a c Ha Hc) as [Fp Vp].
    rewrite Vp. split; [exact Fp|]. split; [exact Fw|]. destruct (entry None found _ _); rewrite ?Rabs_R0; rewrite ?(Rabs_pos_eq (val (w c))) by lra; lra. }
  assert (N0 : 0 <= val num).
  { rewrite <- (cell_sum_zero o1 o2 b (fun _ _ => dzero) O1 O2 Hb Hb20) by (intros; apply zero_ok).
    apply (cell_sum_mono o1 o2 b _ _ 500 O1 O2 Hb Hb20); [lia|]. intros a c Ha Hc. destruct (Hw c Hc) as [Fw Bw]. destruct (Hp a c Ha Hc) as [Fp Vp].
    rewrite Vp, (proj2 zero_ok). split; [reflexivity|]. split; [exact Fp|]. destruct (entry None found _ _); rewrite ?Rabs_R0; rewrite ?(Rabs_pos_eq (val (w c))) by lra; lra. }
  assert (D0 : 0 < val den /\ fin num).
  { set (W := fun c => val (w c)).
    destruct (cell_sum_err o1 o2 b W O1 O2 Hb Hb20 (fun c Hc => proj2 (Hw c Hc)) (fun _ c => w c) (fun _ c => W c) 1 M1) as [Fd Ed].
    { intros a c Ha Hc. destruct (Hw c Hc). fold (W c). split; [assumption|]. rewrite Rminus_diag_eq, Rabs_R0 by reflexivity. rewrite Rabs_pos_eq by (unfold W; lra). pose proof u_pos. unfold W. split; [nra|lra]. }
    split.
    - fold den in Ed. pose proof (Om_bound b W Hb Hb20 (fun c Hc => proj2 (Hw c Hc))) as HO. set (Om := sum_upto b W) in *. pose proof (INR_b b Hb) as B1.
      assert (ED : sum_upto b (fun c => sum_upto b (fun _ => W c)) / INR b = Om).
      { rewrite (sum_ext b _ (fun c => INR b * W c)) by (intros; apply sum_const). rewrite sum_scal. fold Om. field. lra. }
      rewrite ED, Rmult_1_l in Ed. apply Rabs_le_inv in Ed. pose proof (u20 b Hb) as U2. pose proof u_pos as U.
      assert (BU : INR b * u <= / 1048576) by (rewrite Rmult_comm; apply Rle_trans with (2 := U2); apply Rmult_le_compat_l; lra).
      assert (UB : u <= INR b * u) by nra. assert ((4 * INR b + 4) * u <= / 2) by lra. assert ((4 * INR b + 4) * u * Om <= / 2 * Om) by (apply Rmult_le_compat_r; lra). lra.
    - apply (cell_sum_mono o1 o2 b (fun a c => dmul (v a c) (w c)) (fun a c => dmul (v a c) (w c)) 500 O1 O2 Hb Hb20); [lia|]. intros a c Ha Hc. destruct (Hw c Hc) as [Fw Bw]. destruct (Hp a c Ha Hc) as [Fp Vp].
      rewrite Vp. split; [exact Fp|]. split; [exact Fp|]. destruct (entry None found _ _); rewrite ?Rabs_R0; rewrite ?(Rabs_pos_eq (val (w c))) by lra; lra. }
  destruct D0 as [D0 Fn].
  assert (R01 : 0 <= val num / val den <= 1).
  { split; [apply Rmult_le_pos; [exact N0|left; now apply Rinv_0_lt_compat]|]. apply (Rmult_le_reg_r (val den)); [exact D0|]. unfold Rdiv. rewrite Rmult_assoc, Rinv_l by lra. lra. }
  assert (f1 : fl 1 = 1) by (apply fl_fmt; change 1 with (b2 0); apply fmt_b2; lia). assert (f0 : fl 0 = 0) by apply fl_fmt, fmt_0.
  assert (fr : 0 <= fl (val num / val den) <= 1) by (split; [rewrite <- f0|rewrite <- f1]; apply fl_mono; lra).
  destruct (ddiv_ok num den Fn ltac:(lra)) as [_ Vq].
  { rewrite Rabs_pos_eq by lra. apply Rle_lt_trans with 1; [lra|]. change 1 with (b2 0). apply bpow_lt. lia. }
  rewrite Vq in *. split; [exact fr|]. split; [|split; [|exact Ex]].
  - intros HI. replace (val num / val den) with 1; [exact f1|]. replace (val num) with (val den); [field; lra|]. apply Rle_antisym; [|exact ND].
    apply (cell_sum_mono o1 o2 b _ _ 500 O1 O2 Hb Hb20); [lia|]. intros a c Ha Hc. destruct (Hw c Hc) as [Fw Bw]. destruct (Hp a c Ha Hc) as [Fp Vp]. specialize (HI a c Ha Hc).
    rewrite Vp. split; [exact Fw|]. split; [exact Fp|]. destruct (entry None found _ _); [|now destruct HI]. rewrite ?(Rabs_pos_eq (val (w c))) by lra. lra.
  - intros HI. replace (val num / val den) with 0; [exact f0|]. replace (val num) with 0; [field; lra|]. symmetry. apply cell_sum_zero; auto. intros a c Ha Hc.
    destruct (Hp a c Ha Hc) as [Fp Vp]. specialize (HI a c Ha Hc). split; [exact Fp|]. rewrite Vp. destruct (entry None found _ _); [|reflexivity]. exfalso. apply HI. discriminate.
Qed.

(** Adding from left to right. *)
Fixpoint one_by_one (n : nat) : tree := match n with O => Zero | S n => Plus (one_by_one n) (Entry n) end.

Lemma one_by_one_ok : order_ok one_by_one.
Proof. intros n. induction n as [|n IH]; [constructor|]. cbn [one_by_one leaves]. rewrite seq_S. now apply Permutation_app_tail. Qed.

Definition tenth : double := dbl 3602879701896397 (-55).
Definition edges3 : list double := [dint 0; dint 1; dint 2].

Lemma edges3_ok : edges_d 2 edges3 2.
Proof.
  split; [reflexivity|]. split; [split; [lra|change 2 with (b2 1); apply bpow_le; lia]|].
  destruct (dint_ok 0 ltac:(lia)) as [F0 V0]. destruct (dint_ok 1 ltac:(lia)) as [F1 V1]. destruct (dint_ok 2 ltac:(lia)) as [F2 V2].
  intros k Hk. destruct k as [|[|k]]; [| |lia]; cbn [nth edges3]; rewrite ?V0, ?V1, ?V2; (split; [assumption|]; split; [assumption|]; split; [lra|]; split; [|lra]).
  - change 1 with (b2 0). split; apply bpow_le; lia.
  - change 2 with (b2 1). split; apply bpow_le; lia.
Qed.

(** A map that is 0.1 everywhere does not always give 0.1. *)
Theorem C88_refuted : exists o found redges g i j,
  order_ok o /\ edges_d 2 redges 2 /\ shape_d 1 2 found /\ (forall x y, (x < 1)%nat -> (y < 2)%nat -> entry None found x y = Some tenth) /\
  remap_means_d o o found redges 1 1 2 1 1 2 = Ok g /\ (i < 1)%nat /\ (j < 2)%nat /\ val tenth < val (entry dzero g i j).
Proof.
  exists one_by_one, [[Some tenth; Some tenth]], edges3.
  assert (S1 : shape_d (1 * 1) (2 * 1) [[Some tenth; Some tenth]]) by (split; [reflexivity|intros row [<- | []]; reflexivity]).
  eexists. exists 0%nat, 1%nat. split; [apply one_by_one_ok|]. split; [apply edges3_ok|]. split; [exact S1|]. split.
  { intros x y Hx Hy. destruct x as [|x]; [|lia]. destruct y as [|[|y]]; [reflexivity|reflexivity|lia]. }
  split; [reflexivity|]. split; [lia|]. split; [lia|].
  cbn [entry nth]. unfold val. rewrite <- !SF2R_B2SF.
  match goal with |- _ < SF2R radix2 ?t => replace t with (SpecFloat.S754_finite false 7205759403792795 (-56)) by (vm_compute; reflexivity) end.
  replace (B2SF tenth) with (SpecFloat.S754_finite false 7205759403792794 (-56)) by (vm_compute; reflexivity).
  unfold SF2R, F2R. cbn [Fnum Fexp cond_Zopp]. apply Rmult_lt_compat_r; [apply bpow_gt_0|]. apply IZR_lt. lia.
Qed.

(** The outermost refined ring lies outside the box: masks 1 and 5/12. *)
Example C88_example : exists g,
  mask_d one_by_one one_by_one [[Some tenth; Some tenth; Some tenth; None]; [Some tenth; Some tenth; Some tenth; None]]
    [dint 0; dint 1; dint 2; dint 3; dint 4] 2 1 2 2 2 4 = Ok g /\ val (entry dzero g 0 0) = 1 /\ B2SF (entry dzero g 0 1) = SpecFloat.S754_finite false 7505999378950827 (-54).
Proof.
  eexists. split; [reflexivity|]. split.
  - cbn [entry nth]. unfold val. rewrite <- SF2R_B2SF.
    match goal with |- SF2R radix2 ?t = _ => replace t with (SpecFloat.S754_finite false 4503599627370496 (-52)) by (vm_compute; reflexivity) end.
    unfold SF2R, F2R. cbn [Fnum Fexp cond_Zopp]. change (b2 (-52)) with (/ IZR 4503599627370496). field.
  - vm_compute. reflexivity.
Qed.

Lemma entry_map : forall A B (f : A -> B) d g i j, entry (f d) (map (map f) g) i j = f (entry d g i j).
Proof. intros. unfold entry. change (@nil B) with (map f []). rewrite map_nth. apply map_nth. Qed.

(** Whatever the edges, finite or not, rising or not: no cell of the mask is
    infinite or NaN.  It is the remapped map of ones, with 0 in the cells where
    that is not finite. *)
Theorem C88_mask_finite : forall o1 o2 found redges npm n m rr rp c g, mask_d o1 o2 found redges npm n m rr rp c = Ok g ->
  (forall row x, In row g -> In x row -> fin x) /\
  exists h, remap_means_d o1 o2 (map (map (option_map (fun _ => dint 1))) found) redges npm n m rr rp c = Ok h /\
    forall i j, (fin (entry dzero h i j) -> entry dzero g i j = entry dzero h i j) /\
                (~ fin (entry dzero h i j) -> entry dzero g i j = dzero).
Proof.
  intros o1 o2 found redges npm n m rr rp c g E. unfold mask_d in E. cbv zeta in E.
  change (fun v : option double => match v with Some _ => Some (dbl 1 0) | None => None end) with (option_map (fun _ : double => dint 1)) in E.
  destruct (remap_means_d _ _ _ _ _ _ _ _ _ _) as [h|] eqn:Eh; cbn [bind] in E; [|discriminate]. apply Ok_inj in E. subst g. split.
  - intros row x Hr Hx. apply in_map_iff in Hr. destruct Hr as (r0 & <- & _). apply in_map_iff in Hx. destruct Hx as (y & <- & _).
    unfold fin. destruct (is_finite y) eqn:F; [exact F|reflexivity].
  - exists h. split; [reflexivity|]. intros i j.
    pose proof (entry_map _ _ (fun x : double => if is_finite x then x else dzero) dzero h i j) as Ef.
    split; intros F; (etransitivity; [exact Ef|]); unfold fin in F; cbv beta; [now rewrite F|]. destruct (is_finite _); [now elim F|reflexivity].
Qed.

(** A ring without width: the quotient is 0 / 0, the mask 0. *)
Example C88_no_width : exists g h,
  mask_d one_by_one one_by_one [[Some tenth; Some tenth]] [dint 0; dint 1; dint 1] 1 1 2 1 1 2 = Ok g /\ val (entry dzero g 0 0) = 1 /\ entry dzero g 0 1 = dzero /\
  remap_means_d one_by_one one_by_one [[Some (dint 1); Some (dint 1)]] [dint 0; dint 1; dint 1] 1 1 2 1 1 2 = Ok h /\ ~ fin (entry dzero h 0 1).
Proof.
  eexists. eexists. split; [reflexivity|]. split; [|split; [|split; [reflexivity|]]].
  - cbn [entry nth]. unfold val. rewrite <- SF2R_B2SF.
    match goal with |- SF2R radix2 ?t = _ => replace t with (SpecFloat.S754_finite false 4503599627370496 (-52)) by (vm_compute; reflexivity) end.
    unfold SF2R, F2R. cbn [Fnum Fexp cond_Zopp]. change (b2 (-52)) with (/ IZR 4503599627370496). field.
  - apply B2SF_inj. vm_compute. reflexivity.
  - unfold fin. match goal with |- ?t <> true => replace t with false by (vm_compute; reflexivity) end. discriminate.
Qed.

Print Assumptions C88_mean.
Print Assumptions C88_constant.
Print Assumptions C88_mask.
Print Assumptions C88_mask_finite.
Print Assumptions C88_no_width.
Print Assumptions C88_refuted.
Print Assumptions C88_example.
