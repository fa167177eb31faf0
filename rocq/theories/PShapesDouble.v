(** * Proofs about [MShapesDouble.v] *)

From Coq Require Import Reals ZArith List Bool Lia Lra Psatz.
From Flocq Require Import Core IEEE754.BinarySingleNaN.
From Verif Require Import Base BaseP SpecShapes SpecShapesDouble MHealpixFloat PHealpixFloat SpecDouble MDouble PDouble MGridsDouble PGridsDouble TGridsDouble MHealRandomsDouble PHealRandomsDouble MShapesDouble.
Import ListNotations.
Open Scope R_scope.

(** ** Finite results come from finite operands *)

Lemma add_fin_inv : forall x y, fin (dadd x y) -> fin x /\ fin y.
Proof. intros x y H. unfold fin, dadd in *. destruct x as [s|s| |s m e B], y as [s'|s'| |s' m' e' B']; try (split; reflexivity); cbn in H; try discriminate H; destruct s, s'; discriminate H. Qed.
Lemma sub_fin_inv : forall x y, fin (dsub x y) -> fin x /\ fin y.
Proof. intros x y H. unfold fin, dsub in *. destruct x as [s|s| |s m e B], y as [s'|s'| |s' m' e' B']; try (split; reflexivity); cbn in H; try discriminate H; destruct s, s'; discriminate H. Qed.
Lemma mul_fin_inv : forall x y, fin (dmul x y) -> fin x /\ fin y.
Proof. intros x y H. unfold fin, dmul in *. destruct x as [s|s| |s m e B], y as [s'|s'| |s' m' e' B']; try (split; reflexivity); cbn in H; try discriminate H; destruct s, s'; discriminate H. Qed.
Lemma div_fin_inv : forall x y, fin y -> fin (ddiv x y) -> fin x.
Proof. intros x y Hy H. unfold fin, ddiv in *. destruct x as [s|s| |s m e B], y as [s'|s'| |s' m' e' B']; try reflexivity; cbn in H, Hy; try discriminate H; try discriminate Hy; destruct s, s'; discriminate H. Qed.

Lemma val_lt : forall x : double, Rabs (val x) < b2 1024.
Proof. intro x. exact (abs_B2R_lt_emax 53 1024 x). Qed.

Lemma fl_abs_le : forall x c, fmt c -> Rabs x <= c -> Rabs (fl x) <= c.
Proof. intros x c F H. apply Rabs_le_inv in H. apply Rabs_le. split; [apply fl_ge; [now apply fl_fmt, fmt_opp|lra]|apply fl_le; [now apply fl_fmt|lra]]. Qed.

Lemma not_over : forall (z : double) s, B2SF z = binary_overflow 53 1024 mode_NE s -> is_finite z = true -> False.
Proof. intros z s E F. destruct z; try discriminate F; discriminate E. Qed.

Lemma add_bound : forall x y, fin x -> fin y -> fin (dadd x y) -> Rabs (fl (val x + val y)) < b2 1024.
Proof.
  intros x y Fx Fy H. pose proof (@Bplus_correct 53 1024 p53 p1024 mode_NE x y Fx Fy) as C. change (round radix2 _ _ _) with (fl (val x + val y)) in C.
  destruct (Rlt_dec (Rabs (fl (val x + val y))) (b2 1024)) as [L|L]; [exact L|]. rewrite (Rlt_bool_false _ _ (Rnot_lt_le _ _ L)) in C. destruct C as [C _]. destruct (not_over _ _ C H).
Qed.
Lemma sub_bound : forall x y, fin x -> fin y -> fin (dsub x y) -> Rabs (fl (val x - val y)) < b2 1024.
Proof.
  intros x y Fx Fy H. pose proof (@Bminus_correct 53 1024 p53 p1024 mode_NE x y Fx Fy) as C. change (round radix2 _ _ _) with (fl (val x - val y)) in C.
  destruct (Rlt_dec (Rabs (fl (val x - val y))) (b2 1024)) as [L|L]; [exact L|]. rewrite (Rlt_bool_false _ _ (Rnot_lt_le _ _ L)) in C. destruct C as [C _]. destruct (not_over _ _ C H).
Qed.
Lemma mul_bound : forall x y, fin x -> fin y -> fin (dmul x y) -> Rabs (fl (val x * val y)) < b2 1024.
Proof.
  intros x y Fx Fy H. pose proof (@Bmult_correct 53 1024 p53 p1024 mode_NE x y) as C. change (round radix2 _ _ _) with (fl (val x * val y)) in C.
  destruct (Rlt_dec (Rabs (fl (val x * val y))) (b2 1024)) as [L|L]; [exact L|]. rewrite (Rlt_bool_false _ _ (Rnot_lt_le _ _ L)) in C. destruct (not_over _ _ C H).
Qed.
Lemma div_bound : forall x y, fin x -> val y <> 0 -> fin (ddiv x y) -> Rabs (fl (val x / val y)) < b2 1024.
Proof.
  intros x y Fx Hy H. pose proof (@Bdiv_correct 53 1024 p53 p1024 mode_NE x y Hy) as C. change (round radix2 _ _ _) with (fl (val x / val y)) in C.
  destruct (Rlt_dec (Rabs (fl (val x / val y))) (b2 1024)) as [L|L]; [exact L|]. rewrite (Rlt_bool_false _ _ (Rnot_lt_le _ _ L)) in C. destruct (not_over _ _ C H).
Qed.

(** ** Changing all signs *)

Definition neg (x x' : double) : Prop := fin x /\ fin x' /\ val x' = - val x.

Lemma neg_add : forall x x' y y', neg x x' -> neg y y' -> fin (dadd x y) -> neg (dadd x y) (dadd x' y').
Proof.
  intros x x' y y' (F1 & F2 & E) (G1 & G2 & E') H. pose proof (add_bound x y F1 G1 H) as B. destruct (dadd_ok x y F1 G1 B) as [_ V].
  assert (S : fl (val x' + val y') = - fl (val x + val y)) by (rewrite E, E', <- fl_opp; f_equal; ring). destruct (dadd_ok x' y' F2 G2) as [F V']; [rewrite S, Rabs_Ropp; exact B|]. split; [exact H|]. split; [exact F|]. rewrite V', V. exact S.
Qed.
Lemma neg_sub : forall x x' y y', neg x x' -> neg y y' -> fin (dsub x y) -> neg (dsub x y) (dsub x' y').
Proof.
  intros x x' y y' (F1 & F2 & E) (G1 & G2 & E') H. pose proof (sub_bound x y F1 G1 H) as B. destruct (dsub_ok x y F1 G1 B) as [_ V].
  assert (S : fl (val x' - val y') = - fl (val x - val y)) by (rewrite E, E', <- fl_opp; f_equal; ring). destruct (dsub_ok x' y' F2 G2) as [F V']; [rewrite S, Rabs_Ropp; exact B|]. split; [exact H|]. split; [exact F|]. rewrite V', V. exact S.
Qed.
Lemma neg_mul : forall x y y', fin x -> neg y y' -> fin (dmul x y) -> neg (dmul x y) (dmul x y').
Proof.
  intros x y y' F1 (G1 & G2 & E') H. pose proof (mul_bound x y F1 G1 H) as B. destruct (dmul_ok x y F1 G1 B) as [_ V].
  assert (S : fl (val x * val y') = - fl (val x * val y)) by (rewrite E', <- fl_opp; f_equal; ring). destruct (dmul_ok x y' F1 G2) as [F V']; [rewrite S, Rabs_Ropp; exact B|]. split; [exact H|]. split; [exact F|]. rewrite V', V. exact S.
Qed.
Lemma neg_div : forall x x' y, neg x x' -> val y <> 0 -> fin (ddiv x y) -> neg (ddiv x y) (ddiv x' y).
Proof.
  intros x x' y (F1 & F2 & E) Hy H. pose proof (div_bound x y F1 Hy H) as B. destruct (ddiv_ok x y F1 Hy B) as [_ V].
  assert (S : fl (val x' / val y) = - fl (val x / val y)) by (rewrite E, <- fl_opp; f_equal; field; exact Hy). destruct (ddiv_ok x' y F2 Hy) as [F V']; [rewrite S, Rabs_Ropp; exact B|]. split; [exact H|]. split; [exact F|]. rewrite V', V. exact S.
Qed.
Lemma neg_eq : forall x x', neg x x' -> deq x' dzero = deq x dzero.
Proof.
  intros x x' (F & F' & E). rewrite !deq_ok by (auto; apply fin_zero). rewrite val_zero, E. destruct (Req_bool_spec (- val x) 0), (Req_bool_spec (val x) 0); try reflexivity; exfalso; lra.
Qed.

(** [np.linspace] with all signs changed. *)
Lemma line_neg : forall a b a' b' n e e', neg a a' -> neg b b' -> (1 <= n <= 2 ^ 50)%Z -> linspace_d a b (n + 1) = Ok e -> linspace_d a' b' (n + 1) = Ok e' ->
  (forall i, (i <= Z.to_nat n)%nat -> fin (nth i e dzero)) -> length e' = S (Z.to_nat n) /\ nth (Z.to_nat n) e' dzero = b' /\ forall i, (i <= Z.to_nat n)%nat -> neg (nth i e dzero) (nth i e' dzero).
Proof.
  intros a b a' b' n e e' Na Nb Hn E E' F. destruct (linspace_shape a b n ltac:(lia)) as (l & G & _ & Lb & Li). rewrite E in G. apply Ok_inj in G. subst l. destruct (linspace_shape a' b' n ltac:(lia)) as (l & G & L' & Lb' & Li'). rewrite E' in G. apply Ok_inj in G. subst l.
  split; [exact L'|]. split; [exact Lb'|]. destruct (dint_ok n ltac:(lia)) as [Fn Vn]. assert (Zn : val (dint n) <> 0) by (rewrite Vn; apply not_0_IZR; lia). intros i Hi. destruct (Nat.eq_dec i (Z.to_nat n)) as [->|Ni]; [rewrite Lb, Lb'; exact Nb|].
  pose proof (F i Hi) as Fi. rewrite (Li i ltac:(lia)) in *. rewrite (Li' i ltac:(lia)). destruct (dint_ok (Z.of_nat i) ltac:(lia)) as [Fz Vz]. destruct (add_fin_inv _ _ Fi) as [Fm _].
  assert (Fd : fin (dsub b a)). { destruct (deq _ _) in Fm; [exact (proj2 (mul_fin_inv _ _ Fm))|]. exact (div_fin_inv _ _ Fn (proj2 (mul_fin_inv _ _ Fm))). }
  pose proof (neg_sub b b' a a' Nb Na Fd) as Nd.
  assert (Fq : fin (ddiv (dsub b a) (dint n))). { destruct (ddiv_ok (dsub b a) (dint n) Fd Zn) as [Q _]; [|exact Q]. rewrite Vn. assert (N1 : 1 <= IZR n) by (apply IZR_le; lia). assert (I : 0 < / IZR n <= 1) by (split; [apply Rinv_0_lt_compat; lra|rewrite <- Rinv_1; apply Rinv_le; lra]).
    apply Rle_lt_trans with (Rabs (val (dsub b a))); [|apply val_lt]. apply fl_abs_le; [unfold Rabs; destruct (Rcase_abs _); [apply fmt_opp, fmt_val|apply fmt_val]|]. unfold Rdiv. rewrite Rabs_mult, (Rabs_pos_eq (/ IZR n)) by lra. rewrite <- (Rmult_1_r (Rabs (val (dsub b a)))) at 2. apply Rmult_le_compat_l; [apply Rabs_pos|lra]. }
  pose proof (neg_div _ _ _ Nd Zn Fq) as Nq. rewrite (neg_eq _ _ Nq). apply neg_add; [|exact Na|exact Fi]. destruct (deq _ _) in *.
  - apply neg_mul; [exact (proj1 (mul_fin_inv _ _ Fm))|exact Nd|exact Fm].
  - apply neg_mul; [exact Fz|exact Nq|exact Fm].
Qed.

(** ** Lines of [m] points *)

Lemma good_le : forall a b, span_ok a b -> val a <= val b.
Proof. intros a b (_ & _ & _ & _ & [H|H]); [lra|]. pose proof (bpow_gt_0 radix2 (-960)). lra. Qed.

Definition err (a b : R) : R := b2 (-53) * (hull a b + 4 * Rabs (b - a)).

(** The points of one side from [a] to [b], up or down. *)
Definition side_ok (a b : double) (m : nat) (l : list double) : Prop :=
  length l = m /\ val (nth 0 l dzero) = val a /\ ((2 <= m)%nat -> val (nth (m - 1) l dzero) = val b) /\
  forall i, (i < m)%nat -> fin (nth i l dzero) /\ Rmin (val a) (val b) <= val (nth i l dzero) <= Rmax (val a) (val b) /\
    Rabs (val (nth i l dzero) - (val a + fraction m i * (val b - val a))) <= err (val a) (val b).

Lemma err_pos : forall a b, 0 <= err a b.
Proof. intros. unfold err. apply Rmult_le_pos; [apply bpow_ge_0|]. pose proof (hull_pos a b). pose proof (Rabs_pos (b - a)). lra. Qed.

Lemma one_point : forall a b, fin a -> fin b -> Rabs (val a) <= b2 1021 -> Rabs (val b) <= b2 1021 -> exists l, linspace_d a b 1 = Ok l /\ side_ok a b 1 l.
Proof.
  intros a b Fa Fb Ba Bb. assert (B3 : 2 * b2 1021 = b2 1022) by (change 2 with (b2 1); rewrite <- bpow_plus; reflexivity).
  destruct (dsub_ok b a Fb Fa) as [S1 S2]. { apply Rle_lt_trans with (b2 1022); [|apply bpow_lt; lia]. apply fl_abs_le; [apply (fmt_b2 1022); lia|]. apply Rle_trans with (1 := Rabs_triang _ _). rewrite Rabs_Ropp. lra. }
  destruct (dint_ok 0 ltac:(lia)) as [F0 V0]. destruct (dmul_ok (dint 0) (dsub b a) F0 S1) as [M1 M2]; [rewrite V0, Rmult_0_l, (fl_fmt 0 fmt_0), Rabs_R0; apply bpow_gt_0|]. rewrite V0, Rmult_0_l, (fl_fmt 0 fmt_0) in M2.
  destruct (dadd_ok (dmul (dint 0) (dsub b a)) a M1 Fa) as [A1 A2]; [rewrite M2, Rplus_0_l, (fl_fmt _ (fmt_val a)); apply Rle_lt_trans with (1 := Ba); apply bpow_lt; lia|]. rewrite M2, Rplus_0_l, (fl_fmt _ (fmt_val a)) in A2.
  eexists. split; [reflexivity|]. split; [reflexivity|]. split; [exact A2|]. split; [intro; lia|]. intros i Hi. replace i with 0%nat by lia. change (fin (dadd (dmul (dint 0) (dsub b a)) a) /\ Rmin (val a) (val b) <= val (dadd (dmul (dint 0) (dsub b a)) a) <= Rmax (val a) (val b) /\ Rabs (val (dadd (dmul (dint 0) (dsub b a)) a) - (val a + fraction 1 0 * (val b - val a))) <= err (val a) (val b)).
  rewrite A2. split; [exact A1|]. split; [split; [apply Rmin_l|apply Rmax_l]|]. change (fraction 1 0) with 0. replace (val a - (val a + 0 * (val b - val a))) with 0 by ring. rewrite Rabs_R0. apply err_pos.
Qed.

Lemma side_up : forall a b m, span_ok a b -> (1 <= m <= 2 ^ 50)%Z -> exists l, linspace_d a b m = Ok l /\ side_ok a b (Z.to_nat m) l.
Proof.
  intros a b m G Hm. pose proof (good_le a b G) as Le. destruct G as (Fa & Fb & Ba & Bb & D). destruct (Z.eq_dec m 1) as [->|N]; [exact (one_point a b Fa Fb Ba Bb)|].
  assert (Bb' : Rabs (val b) <= b2 1022) by (apply Rle_trans with (1 := Bb); apply bpow_le; lia). destruct (linspace_edges a b (m - 1) Fa Fb Ba Bb' D ltac:(lia)) as (e & E & L & Lb & L0 & I & _). replace (m - 1 + 1)%Z with m in E by lia. exists e. split; [exact E|].
  replace (S (Z.to_nat (m - 1))) with (Z.to_nat m) in L by lia. replace (Z.to_nat (m - 1)) with (Z.to_nat m - 1)%nat in * by lia. split; [exact L|]. split; [exact L0|]. split; [intros _; exact (f_equal val Lb)|]. intros i Hi. destruct (I i ltac:(lia)) as (Fi & Bi & Ei). split; [exact Fi|].
  rewrite Rmin_left, Rmax_right by exact Le. split; [exact Bi|]. unfold fraction, err. rewrite (Rabs_pos_eq (val b - val a)) by lra. set (M := Z.to_nat m) in *. destruct (Nat.leb_spec M 1) as [W|W]; [lia|]. replace (INR (M - 1)) with (IZR (m - 1)) by (rewrite INR_IZR_INZ; f_equal; lia). assert (1 <= IZR (m - 1)) by (apply IZR_le; lia).
  replace (INR i / IZR (m - 1) * (val b - val a)) with (INR i * ((val b - val a) / IZR (m - 1))) by (field; lra). exact Ei.
Qed.

Lemma side_down : forall a b m, span_ok a b -> (1 <= m <= 2 ^ 50)%Z -> exists l, linspace_d b a m = Ok l /\ side_ok b a (Z.to_nat m) l.
Proof.
  intros a b m G Hm. pose proof (good_le a b G) as Le. destruct G as (Fa & Fb & Ba & Bb & D). destruct (Z.eq_dec m 1) as [->|N]; [exact (one_point b a Fb Fa Bb Ba)|].
  destruct (opp_ok a Fa) as [Fa' Va']. destruct (opp_ok b Fb) as [Fb' Vb']. destruct (side_up (opp_d b) (opp_d a) m) as (l & E & (L & L0 & L1 & I)); [|exact Hm|].
  { split; [exact Fb'|]. split; [exact Fa'|]. rewrite Va', Vb', !Rabs_Ropp. do 2 (split; [assumption|]). destruct D; [left; lra|right; lra]. }
  destruct (linspace_shape b a (m - 1) ltac:(lia)) as (l' & E' & _ & _). replace (m - 1 + 1)%Z with m in E' by lia. exists l'. split; [exact E'|].
  assert (NA : neg (opp_d a) a) by (split; [exact Fa'|]; split; [exact Fa|]; rewrite Va'; ring). assert (NB : neg (opp_d b) b) by (split; [exact Fb'|]; split; [exact Fb|]; rewrite Vb'; ring).
  destruct (line_neg (opp_d b) (opp_d a) b a (m - 1) l l' NB NA ltac:(lia)) as (L' & _ & W); [replace (m - 1 + 1)%Z with m by lia; exact E|replace (m - 1 + 1)%Z with m by lia; exact E'|intros i Hi; apply I; lia|].
  replace (S (Z.to_nat (m - 1))) with (Z.to_nat m) in L' by lia. set (M := Z.to_nat m) in *. split; [exact L'|]. split; [destruct (W 0%nat ltac:(lia)) as (_ & _ & V); rewrite V, L0, Vb'; ring|]. split; [intro H2; destruct (W (M - 1)%nat ltac:(unfold M; lia)) as (_ & _ & V); rewrite V, (L1 H2), Va'; ring|].
  intros i Hi. destruct (I i Hi) as (Fi & Bi & Ei). destruct (W i ltac:(unfold M in *; lia)) as (_ & Fi' & V). split; [exact Fi'|]. rewrite Va', Vb' in *. rewrite Rmin_left, Rmax_right in Bi by lra. rewrite Rmin_right, Rmax_left by exact Le. rewrite V. split; [lra|].
  replace (- val (nth i l dzero) - (val b + fraction M i * (val a - val b))) with (- (val (nth i l dzero) - (- val b + fraction M i * (- val a - - val b)))) by ring. rewrite Rabs_Ropp. eapply Rle_trans; [exact Ei|]. unfold err, hull. rewrite !Rabs_Ropp. replace (- val a - - val b) with (- (val a - val b)) by ring. rewrite Rabs_Ropp. lra.
Qed.

(** ** The four sides *)

Lemma ones_ok : forall m v, fin v -> length (ones_d m v) = Z.to_nat m /\ forall i, (i < Z.to_nat m)%nat -> fin (nth i (ones_d m v) dzero) /\ val (nth i (ones_d m v) dzero) = val v.
Proof.
  intros m v F. unfold ones_d. split; [apply repeat_length|]. intros i Hi. rewrite nth_repeat_lt by exact Hi. destruct (dint_ok 1 ltac:(lia)) as [F1 V1].
  destruct (dmul_ok (dint 1) v F1 F) as [A B]; [rewrite V1, Rmult_1_l, (fl_fmt _ (fmt_val v)); apply val_lt|]. split; [exact A|]. rewrite B, V1, Rmult_1_l. apply fl_fmt, fmt_val.
Qed.

Lemma nth_four : forall A (a b c e : list A) m k i d, length a = m -> length b = m -> length c = m -> length e = m -> (k < 4)%nat -> (i < m)%nat ->
  nth (k * m + i) (((a ++ b) ++ c) ++ e) d = nth i (match k with 0%nat => a | 1%nat => b | 2%nat => c | _ => e end) d.
Proof.
  intros A a b c e m k i d La Lb Lc Le Hk Hi. rewrite <- !app_assoc. destruct k as [|[|[|[|k]]]]; [| | | |lia].
  - rewrite app_nth1 by lia. f_equal; lia.
  - rewrite app_nth2 by lia. rewrite app_nth1 by lia. f_equal; lia.
  - rewrite app_nth2 by lia. rewrite app_nth2 by lia. rewrite app_nth1 by lia. f_equal; lia.
  - rewrite app_nth2 by lia. rewrite app_nth2 by lia. rewrite app_nth2 by lia. f_equal; lia.
Qed.

Lemma square_d_ok : forall x0 x1 y0 y1 m, span_ok x0 x1 -> span_ok y0 y1 -> (1 <= m <= 2 ^ 50)%Z ->
  exists xs ys a2 a4 b1 b3 , get_square_d x0 x1 y0 y1 (4 * m) = Ok (xs, ys) /\ length xs = (4 * Z.to_nat m)%nat /\ length ys = (4 * Z.to_nat m)%nat /\
  side_ok x0 x1 (Z.to_nat m) b1 /\ side_ok y0 y1 (Z.to_nat m) a2 /\ side_ok x1 x0 (Z.to_nat m) b3 /\ side_ok y1 y0 (Z.to_nat m) a4 /\
  forall k i, (k < 4)%nat -> (i < Z.to_nat m)%nat ->
    nth (k * Z.to_nat m + i) xs dzero = nth i (match k with 0%nat => b1 | 1%nat => ones_d m x1 | 2%nat => b3 | _ => ones_d m x0 end) dzero /\
    nth (k * Z.to_nat m + i) ys dzero = nth i (match k with 0%nat => ones_d m y0 | 1%nat => a2 | 2%nat => ones_d m y1 | _ => a4 end) dzero.
Proof.
  intros x0 x1 y0 y1 m Gx Gy Hm. destruct (side_up x0 x1 m Gx Hm) as (b1 & E1 & S1). destruct (side_up y0 y1 m Gy Hm) as (a2 & E2 & S2). destruct (side_down x0 x1 m Gx Hm) as (b3 & E3 & S3). destruct (side_down y0 y1 m Gy Hm) as (a4 & E4 & S4).
  assert (F0 : fin x0 /\ fin x1 /\ fin y0 /\ fin y1) by (destruct Gx as (A & B & _); destruct Gy as (C & D & _); auto). destruct F0 as (Fx0 & Fx1 & Fy0 & Fy1).
  destruct (ones_ok m x1 Fx1) as [O1 _]. destruct (ones_ok m x0 Fx0) as [O0 _]. destruct (ones_ok m y1 Fy1) as [P1 _]. destruct (ones_ok m y0 Fy0) as [P0 _].
  pose proof (proj1 S1) as L1. pose proof (proj1 S2) as L2. pose proof (proj1 S3) as L3. pose proof (proj1 S4) as L4.
  do 2 eexists. exists a2, a4, b1, b3. split.
  { unfold get_square_d, py_assert. replace ((4 * m) mod 4 =? 0)%Z with true by (symmetry; apply Z.eqb_eq; rewrite Z.mul_comm; apply Z.mod_mul; lia). replace (0 <? 4 * m)%Z with true by (symmetry; apply Z.ltb_lt; lia). cbn [andb bind]. replace (4 * m / 4)%Z with m by (rewrite Z.mul_comm, Z.div_mul; lia). rewrite E1. cbn [bind]. rewrite E2. cbn [bind]. rewrite E3. cbn [bind]. rewrite E4. reflexivity. }
  split; [rewrite !app_length, O1, O0; clear - L1 L3; lia|]. split; [rewrite !app_length, P1, P0; clear - L2 L4; lia|]. do 4 (split; [assumption|]).
  intros k i Hk Hi. split; apply nth_four; assumption.
Qed.
