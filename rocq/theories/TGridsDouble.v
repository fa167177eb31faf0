(** * Theorems: grid edges and mid-points in double precision (C85) *)

From Coq Require Import Reals ZArith List Bool Lia Lra Psatz.
From Flocq Require Import Core IEEE754.BinarySingleNaN Plus_error Relative.
From Verif Require Import Base BaseP MHealpixFloat PHealpixFloat SpecDouble MDouble PDouble MGridsDouble PGridsDouble.
Import ListNotations.
Open Scope R_scope.

Local Existing Instance p53.
Local Instance fexp_valid : Valid_exp (FLT_exp (-1074) 53).
Proof. apply FLT_exp_valid. reflexivity. Qed.
Local Instance fexp_mono : Monotone_exp (FLT_exp (-1074) 53).
Proof. apply FLT_exp_monotone. Qed.

(** ** Lemmas *)

Lemma nth_removelast_app : forall A (l : list A) x k d, (k < length l - 1)%nat -> nth k (removelast l ++ [x]) d = nth k l d.
Proof.
  intros A l x k d H. destruct (exists_last (l := l)) as (l' & a & E); [intros ->; cbn in H; lia|]. subst l.
  rewrite removelast_app by discriminate. cbn [removelast]. rewrite app_nil_r. rewrite app_length in H. cbn in H.
  rewrite !app_nth1 by lia. reflexivity.
Qed.

Lemma length_rl : forall A (l : list A), length (removelast l) = (length l - 1)%nat.
Proof.
  intros A l. destruct l as [|a l]; [reflexivity|]. destruct (exists_last (l := a :: l)) as (l' & b & E); [discriminate|].
  rewrite E, removelast_app by discriminate. cbn [removelast]. rewrite app_nil_r, app_length. cbn. lia.
Qed.

Lemma linspace_shape : forall a b n, (1 <= n)%Z -> exists e, linspace_d a b (n + 1) = Ok e /\ length e = S (Z.to_nat n) /\
  nth (Z.to_nat n) e dzero = b /\
  forall i, (i < Z.to_nat n)%nat -> nth i e dzero =
    dadd (if deq (ddiv (dsub b a) (dint n)) dzero then dmul (ddiv (dint (Z.of_nat i)) (dint n)) (dsub b a)
          else dmul (dint (Z.of_nat i)) (ddiv (dsub b a) (dint n))) a.
Proof.
  intros a b n Hn. unfold linspace_d. destruct (Z.ltb_spec (n + 1) 0); [lia|]. replace (n + 1 - 1)%Z with n by lia.
  destruct (Z.ltb_spec 0 n); [|lia]. destruct (Z.ltb_spec 1 (n + 1)); [|lia]. eexists. split; [reflexivity|].
  set (f := fun i : nat => dadd _ _). assert (L : length (map f (seq 0 (Z.to_nat (n + 1)))) = S (Z.to_nat n)) by (rewrite map_length, seq_length; lia).
  split; [|split].
  - rewrite app_length, length_rl, L. cbn. lia.
  - rewrite app_nth2; rewrite length_rl, L; [|lia]. replace (Z.to_nat n - _)%nat with 0%nat by lia. reflexivity.
  - intros i Hi. rewrite nth_removelast_app by lia. rewrite (nth_indep _ dzero (f 0%nat)) by lia. rewrite map_nth, seq_nth by lia. reflexivity.
Qed.

Lemma b2_1021 : 4 * b2 1021 = b2 1023.
Proof. change 4 with (b2 2). rewrite <- bpow_plus. reflexivity. Qed.

Lemma hull_pos : forall a b, 0 <= hull a b.
Proof. intros. unfold hull. apply Rle_trans with (Rabs a); [apply Rabs_pos|apply Rmax_l]. Qed.

(** Edges of [np.linspace] between finite numbers. *)
Lemma linspace_edges : forall a b n, fin a -> fin b -> Rabs (val a) <= b2 1021 -> Rabs (val b) <= b2 1022 ->
  val a = val b \/ b2 (-960) <= val b - val a -> (1 <= n <= 2 ^ 50)%Z ->
  exists e, linspace_d a b (n + 1) = Ok e /\ length e = S (Z.to_nat n) /\ nth (Z.to_nat n) e dzero = b /\
  val (nth 0 e dzero) = val a /\
  (forall i, (i <= Z.to_nat n)%nat -> fin (nth i e dzero) /\ val a <= val (nth i e dzero) <= val b /\
     Rabs (val (nth i e dzero) - (val a + INR i * ((val b - val a) / IZR n))) <= b2 (-53) * (hull (val a) (val b) + 4 * (val b - val a))) /\
  (forall i j, (i <= j <= Z.to_nat n)%nat -> val (nth i e dzero) <= val (nth j e dzero)).
Proof.
  intros a b n Fa Fb Ba Bb HD Hn. destruct (linspace_shape a b n) as (e & E & L & Lb & Li); [lia|].
  exists e. split; [exact E|]. split; [exact L|]. split; [exact Lb|].
  assert (B3 : 2 * b2 1021 = b2 1022) by (change 2 with (b2 1); rewrite <- bpow_plus; reflexivity). pose proof b2_1021 as B4.
  destruct (dint_ok n) as [N1 N2]; [lia|].
  assert (Nn : 1 <= IZR n) by (apply IZR_le; lia).
  assert (Dle : val a <= val b) by (destruct HD as [HD|HD]; [lra|pose proof (bpow_gt_0 radix2 (-960)); lra]).
  destruct (dsub_ok b a Fb Fa) as [S1 S2].
  { apply Rle_lt_trans with (b2 1023); [|apply bpow_lt; lia]. apply abs_round_le_generic; auto with typeclass_instances; [apply (fmt_b2 1023); lia|].
    apply Rle_trans with (1 := Rabs_triang _ _). rewrite Rabs_Ropp. pose proof (bpow_gt_0 radix2 1021). lra. }
  (* the values of the interior entries *)
  assert (V : forall i, (i < Z.to_nat n)%nat -> fin (nth i e dzero) /\
    val (nth i e dzero) = fl ((if Req_EM_T (val a) (val b) then 0 else fl (IZR (Z.of_nat i) * fl (fl (val b - val a) / IZR n))) + val a)).
  { intros i Hi. rewrite (Li i Hi). destruct (dint_ok (Z.of_nat i)) as [I1 I2]; [lia|].
    assert (Ii : 0 <= IZR (Z.of_nat i)) by (apply IZR_le; lia).
    destruct (Req_EM_T (val a) (val b)) as [EQ|NE].
    - assert (D0 : val (dsub b a) = 0) by (rewrite S2, EQ, Rminus_diag_eq by reflexivity; apply fl_fmt, fmt_0).
      destruct (ddiv_ok (dsub b a) (dint n) S1) as [Q1 Q2]; [lra|rewrite D0, N2; unfold Rdiv; rewrite Rmult_0_l, fl_fmt by apply fmt_0; rewrite Rabs_R0; apply bpow_gt_0|].
      assert (Q3 : val (ddiv (dsub b a) (dint n)) = 0) by (rewrite Q2, D0; unfold Rdiv; rewrite Rmult_0_l; apply fl_fmt, fmt_0).
      rewrite deq_ok by (auto; apply fin_zero). rewrite Q3, val_zero. rewrite Req_bool_true by reflexivity.
      assert (RB : 0 <= IZR (Z.of_nat i) / IZR n <= 1).
      { assert (IZR (Z.of_nat i) <= IZR n) by (apply IZR_le; lia). split; [apply Rmult_le_pos; [lra|left; apply Rinv_0_lt_compat; lra]|].
        apply Rmult_le_reg_r with (IZR n); [lra|]. unfold Rdiv. rewrite Rmult_assoc, Rinv_l by lra. lra. }
      destruct (ddiv_ok (dint (Z.of_nat i)) (dint n) I1) as [R1 R2]; [lra| |].
      { rewrite I2, N2. apply small_b2. assert (0 <= fl (IZR (Z.of_nat i) / IZR n) <= 1).
        { split; [apply fl_ge; [apply fl_fmt, fmt_0|lra]|apply fl_le; [apply fl_fmt, fmt_1|lra]]. } rewrite Rabs_pos_eq; lra. }
      destruct (dmul_ok (ddiv (dint (Z.of_nat i)) (dint n)) (dsub b a) R1 S1) as [M1 M2].
      { rewrite D0, Rmult_0_r, fl_fmt by apply fmt_0. rewrite Rabs_R0. apply bpow_gt_0. }
      rewrite D0, Rmult_0_r, (fl_fmt 0) in M2 by apply fmt_0.
      destruct (dadd_ok (dmul (ddiv (dint (Z.of_nat i)) (dint n)) (dsub b a)) a M1 Fa) as [P1 P2].
      { rewrite M2, Rplus_0_l, fl_fmt by apply fmt_val. apply Rle_lt_trans with (1 := Ba). apply bpow_lt; lia. }
      rewrite P2, M2. auto.
    - destruct HD as [HD|HD]; [lra|].
      destruct (edge_core (val a) (val b) n (Z.of_nat i) (fmt_val a) (fmt_val b) HD Hn ltac:(lia)) as (C1 & C2 & C3 & _).
      assert (D2 : Rabs (val b - val a) <= 3 * b2 1021).
      { apply Rle_trans with (1 := Rabs_triang _ _). rewrite Rabs_Ropp. lra. }
      apply Rabs_le_inv in D2. pose proof (bpow_gt_0 radix2 1021) as P21.
      destruct (ddiv_ok (dsub b a) (dint n) S1) as [Q1 Q2]; [lra| |].
      { rewrite S2, N2. apply Rle_lt_trans with (b2 1023); [|apply bpow_lt; lia].
        apply abs_round_le_generic; auto with typeclass_instances; [apply (fmt_b2 1023); lia|].
        assert (F0 : 0 <= fl (val b - val a) <= b2 1023).
        { split; [apply fl_ge; [apply fl_fmt, fmt_0|lra]|apply fl_le; [apply fl_fmt, fmt_b2; lia|lra]]. }
        assert (In : 0 < / IZR n <= 1) by (split; [apply Rinv_0_lt_compat; lra|rewrite <- Rinv_1; apply Rinv_le; lra]).
        unfold Rdiv. rewrite Rabs_pos_eq by nra. nra. }
      rewrite S2, N2 in Q2.
      rewrite deq_ok by (auto; apply fin_zero). rewrite Q2, val_zero. rewrite Req_bool_false by lra.
      destruct (dmul_ok (dint (Z.of_nat i)) (ddiv (dsub b a) (dint n)) I1 Q1) as [M1 M2].
      { rewrite I2, Q2. rewrite Rabs_pos_eq by lra. apply Rle_lt_trans with (b2 1023); [lra|apply bpow_lt; lia]. }
      rewrite I2, Q2 in M2.
      destruct (dadd_ok _ a M1 Fa) as [P1 P2].
      { rewrite M2. apply Rle_lt_trans with (b2 1022); [|apply bpow_lt; lia]. apply Rabs_le. apply Rabs_le_inv in Ba, Bb. lra. }
      rewrite P2, M2. auto. }
  assert (F : forall i, (i <= Z.to_nat n)%nat -> fin (nth i e dzero) /\ val a <= val (nth i e dzero) <= val b /\
     Rabs (val (nth i e dzero) - (val a + INR i * ((val b - val a) / IZR n))) <= b2 (-53) * (hull (val a) (val b) + 4 * (val b - val a))).
  { intros i Hi. pose proof u_small as Hu. pose proof (hull_pos (val a) (val b)) as HP.
    assert (Z0 : Rabs 0 <= b2 (-53) * (hull (val a) (val b) + 4 * (val b - val a))) by (rewrite Rabs_R0; nra).
    destruct (Nat.eq_dec i (Z.to_nat n)) as [->|N].
    - rewrite Lb. split; [exact Fb|]. split; [lra|]. rewrite INR_IZR_INZ, Z2Nat.id by lia.
      replace (val b - (val a + IZR n * ((val b - val a) / IZR n))) with 0 by (field; lra). exact Z0.
    - destruct (V i ltac:(lia)) as [V1 V2]. split; [exact V1|]. rewrite V2. rewrite INR_IZR_INZ. destruct (Req_EM_T (val a) (val b)) as [EQ|NE].
      + rewrite Rplus_0_l, fl_fmt by apply fmt_val. split; [lra|]. rewrite EQ. replace (val b - (val b + _)) with 0 by (unfold Rdiv; rewrite (Rminus_diag_eq (val b) (val b)) by reflexivity; ring).
        rewrite <- EQ. rewrite <- EQ in Z0. exact Z0.
      + destruct HD as [HD|HD]; [lra|].
        destruct (edge_core (val a) (val b) n (Z.of_nat i) (fmt_val a) (fmt_val b) HD Hn ltac:(lia)) as (_ & _ & C3 & C4). auto. }
  split; [|split; [exact F|]].
  - destruct (V 0%nat ltac:(lia)) as [_ V2]. rewrite V2. destruct (Req_EM_T (val a) (val b)).
    + rewrite Rplus_0_l. apply fl_fmt, fmt_val.
    + cbn [Z.of_nat]. rewrite Rmult_0_l, (fl_fmt 0) by apply fmt_0. rewrite Rplus_0_l. apply fl_fmt, fmt_val.
  - intros i j Hij. destruct (Nat.eq_dec j (Z.to_nat n)) as [->|N]; [rewrite Lb; apply F; lia|].
    destruct (V i ltac:(lia)) as [_ ->]. destruct (V j ltac:(lia)) as [_ ->]. apply fl_mono. apply Rplus_le_compat_r.
    destruct (Req_EM_T (val a) (val b)) as [|NE]; [lra|]. apply fl_mono. apply Rmult_le_compat_r; [|apply IZR_le; lia].
    destruct HD as [HD|HD]; [lra|].
    destruct (edge_core (val a) (val b) n 0 (fmt_val a) (fmt_val b) HD Hn ltac:(lia)) as (C1 & _). lra.
Qed.

(** ** C85 *)

(** A box in double precision: finite, not negative, no overflow, and either
    empty after rounding or not absurdly small. *)
Definition box_ok (lo len : double) : Prop :=
  fin lo /\ fin len /\ Rabs (val lo) <= b2 1021 /\ 0 <= val len <= b2 1020 /\
  (fl (val lo + val len) = val lo \/ b2 (-960) <= fl (val lo + val len) - val lo).

Definition xlo (xmin : option double) : double := match xmin with None => dzero | Some x => x end.

(** The edges start at [xmin], end at the rounded [xmin + length], never
    decrease, and each is the exact edge up to [2^-49] of the largest coordinate. *)
Theorem C85_edges : forall len n xmin, let lo := xlo xmin in let hi := fl (val lo + val len) in
  box_ok lo len -> (1 <= n <= 2 ^ 50)%Z ->
  exists e, get_xedges_d len n xmin = Ok e /\ length e = S (Z.to_nat n) /\
    val (nth 0 e dzero) = val lo /\ val (nth (Z.to_nat n) e dzero) = hi /\
    (forall i j, (i <= j <= Z.to_nat n)%nat -> val (nth i e dzero) <= val (nth j e dzero)) /\
    (forall i, (i <= Z.to_nat n)%nat -> fin (nth i e dzero) /\
       Rabs (val (nth i e dzero) - (val lo + INR i * (val len / IZR n))) <= b2 (-49) * Rmax (Rabs (val lo)) (Rabs hi)).
Proof.
  intros len n xmin lo hi (Flo & Fle & Blo & Ble & HD) Hn. assert (B4 : 2 * b2 1020 = b2 1021) by (change 2 with (b2 1); rewrite <- bpow_plus; reflexivity).
  pose proof (bpow_gt_0 radix2 1020) as P20. assert (B5 : 2 * b2 1021 = b2 1022) by (change 2 with (b2 1); rewrite <- bpow_plus; reflexivity).
  assert (HB : Rabs hi <= b2 1022).
  { apply abs_round_le_generic; auto with typeclass_instances; [apply (fmt_b2 1022); lia|].
    apply Rle_trans with (1 := Rabs_triang _ _). rewrite (Rabs_pos_eq (val len)) by lra. lra. }
  destruct (dadd_ok lo len Flo Fle) as [F1 F2]; [apply Rle_lt_trans with (1 := HB); apply bpow_lt; lia|]. fold hi in F2.
  unfold get_xedges_d. fold (xlo xmin). fold lo. fold hi in HD.
  destruct (linspace_edges lo (dadd lo len) n) as (e & E & L & Lb & L0 & A & M); auto; [now rewrite F2|rewrite F2; destruct HD; [left; congruence|now right]|].
  exists e. split; [exact E|]. split; [exact L|]. split; [exact L0|]. split; [now rewrite Lb|]. split; [exact M|].
  intros i Hi. destruct (A i Hi) as (A1 & _ & A3). split; [exact A1|]. rewrite F2 in A3. fold (hull (val lo) hi). set (H := hull (val lo) hi) in *.
  pose proof (fl_plus_rel (val lo) (val len) (fmt_val _) (fmt_val _)) as P. fold hi in P. set (u := b2 (-53)) in *.
  assert (P1 : Rabs (hi - (val lo + val len)) <= u * H).
  { apply Rle_trans with (1 := P). apply Rmult_le_compat_l; [apply bpow_ge_0|]. unfold H, hull. apply Rmax_r. }
  assert (P2 : hi - val lo <= 2 * H).
  { unfold H, hull. pose proof (Rmax_l (Rabs (val lo)) (Rabs hi)). pose proof (Rmax_r (Rabs (val lo)) (Rabs hi)).
    pose proof (Rle_abs hi). pose proof (Rle_abs (- val lo)). rewrite Rabs_Ropp in *. lra. }
  assert (Nn : 1 <= IZR n) by (apply IZR_le; lia).
  assert (W : 0 <= INR i * / IZR n <= 1).
  { rewrite INR_IZR_INZ. assert (0 <= IZR (Z.of_nat i) <= IZR n) by (split; apply IZR_le; lia).
    assert (0 < / IZR n) by (apply Rinv_0_lt_compat; lra). assert (IZR n * / IZR n = 1) by (apply Rinv_r; lra). split; nra. }
  set (w := INR i * / IZR n) in *. unfold Rdiv in *. replace (INR i * ((hi - val lo) * / IZR n)) with ((hi - val lo) * w) in A3 by (unfold w; ring).
  replace (INR i * (val len * / IZR n)) with (val len * w) by (unfold w; ring).
  assert (E49 : b2 (-49) = 16 * u) by (unfold u; change (-49)%Z with (4 + -53)%Z; rewrite bpow_plus; reflexivity). rewrite E49.
  assert (HP : 0 <= H) by apply hull_pos. pose proof u_small as Hu. fold u in Hu.
  apply Rabs_le_inv in P1, A3.
  assert (Q : - (u * H) <= (hi - val lo - val len) * w <= u * H) by (split; nra).
  assert (Q2 : u * (H + 4 * (hi - val lo)) <= 9 * (u * H)) by nra.
  apply Rabs_le. split; nra.
Qed.
Print Assumptions C85_edges.

(** Bins wider than the resolution are really there: consecutive edges differ. *)
Theorem C85_distinct : forall len n xmin e, let lo := xlo xmin in let hi := fl (val lo + val len) in
  box_ok lo len -> (1 <= n <= 2 ^ 50)%Z -> b2 (-48) * Rmax (Rabs (val lo)) (Rabs hi) < val len / IZR n ->
  get_xedges_d len n xmin = Ok e ->
  forall i j, (i < j <= Z.to_nat n)%nat -> val (nth i e dzero) < val (nth j e dzero).
Proof.
  intros len n xmin e lo hi B Hn W E i j Hij. destruct (C85_edges len n xmin B Hn) as (e' & E' & _ & _ & _ & M & A).
  rewrite E in E'. apply Ok_inj in E'. subst e'. destruct (A i ltac:(lia)) as [_ A1]. destruct (A (S i) ltac:(lia)) as [_ A2].
  specialize (M (S i) j ltac:(lia)). fold lo in A1, A2. fold hi in A1, A2. apply Rabs_le_inv in A1, A2. rewrite S_INR in A2.
  assert (E48 : b2 (-48) = 2 * b2 (-49)) by (change (-48)%Z with (1 + -49)%Z; rewrite bpow_plus; reflexivity). rewrite E48, Rmult_assoc in W.
  set (q := val len / IZR n) in *. set (t := b2 (-49) * _) in *. apply Rlt_le_trans with (2 := M). replace ((INR i + 1) * q) with (INR i * q + q) in A2 by ring.
  lra.
Qed.
Print Assumptions C85_distinct.

Lemma mid_between : forall a b, fin a -> fin b -> Rabs (val a) <= b2 1022 -> Rabs (val b) <= b2 1022 -> val a <= val b ->
  let m := dmul (dbl 1 (-1)) (dadd a b) in fin m /\ val a <= val m <= val b.
Proof.
  intros a b Fa Fb Ba Bb H m. destruct half_ok as [H1 H2]. assert (B5 : 2 * b2 1022 = b2 1023) by (change 2 with (b2 1); rewrite <- bpow_plus; reflexivity).
  assert (D : forall x, fmt x -> fmt (2 * x)).
  { intros x Fx. replace (2 * x) with (x + x) by ring. unfold fmt. replace (x + x) with (x * b2 1) by (change (b2 1) with 2; ring).
    apply mult_bpow_pos_exact_FLT; [exact Fx|lia] || (apply generic_format_FLT; apply FLT_format_generic in Fx; auto with typeclass_instances; destruct Fx as [[mm ee] F1 F2 F3];
      exists (Float radix2 mm (ee + 1)); cbn [Fnum Fexp] in *; [rewrite F1; unfold F2R; cbn [Fnum Fexp]; rewrite bpow_plus; ring|assumption|lia]). }
  assert (S : 2 * val a <= fl (val a + val b) <= 2 * val b).
  { split; [apply fl_ge; [apply fl_fmt, D, fmt_val|lra]|apply fl_le; [apply fl_fmt, D, fmt_val|lra]]. }
  apply Rabs_le_inv in Ba, Bb.
  destruct (dadd_ok a b Fa Fb) as [S1 S2]; [apply Rle_lt_trans with (b2 1023); [apply Rabs_le; lra|apply bpow_lt; lia]|].
  assert (T : val a <= fl (/ 2 * fl (val a + val b)) <= val b).
  { split; [apply fl_ge; [apply fl_fmt, fmt_val|lra]|apply fl_le; [apply fl_fmt, fmt_val|lra]]. }
  destruct (dmul_ok (dbl 1 (-1)) (dadd a b) H1 S1) as [M1 M2].
  - rewrite H2, S2. apply Rle_lt_trans with (b2 1022); [apply Rabs_le; lra|apply bpow_lt; lia].
  - split; [exact M1|]. unfold m. rewrite M2, H2, S2. exact T.
Qed.

(** Every mid-point of [grid1d] is finite and between the two edges of its bin,
    so all are in the box and in order. *)
Theorem C85_mids : forall len n xmin, let lo := xlo xmin in let hi := fl (val lo + val len) in
  box_ok lo len -> (1 <= n <= 2 ^ 50)%Z ->
  exists m e, grid1d_d len n xmin = Ok (m, e) /\ get_xedges_d len n xmin = Ok e /\ length m = Z.to_nat n /\
    forall i, (i < Z.to_nat n)%nat -> fin (nth i m dzero) /\
      val lo <= val (nth i e dzero) <= val (nth i m dzero) /\ val (nth i m dzero) <= val (nth (S i) e dzero) <= hi.
Proof.
  intros len n xmin lo hi B Hn. destruct (C85_edges len n xmin B Hn) as (e & E & L & L0 & L1 & M & A). fold lo in L0, L1, A. fold hi in L1, A.
  exists (xedges2mid_d e), e. unfold grid1d_d. rewrite E. cbn [bind]. split; [reflexivity|]. split; [reflexivity|]. unfold xedges2mid_d.
  assert (Lt : length (tl e) = Z.to_nat n) by (destruct e; [discriminate|cbn in *; lia]).
  split; [rewrite map2_length, length_rl, Lt; lia|]. intros i Hi.
  assert (HB : Rabs (val lo) <= b2 1022 /\ Rabs hi <= b2 1022).
  { destruct B as (Flo & Fle & Blo & Ble & HD). assert (B4 : 2 * b2 1020 = b2 1021) by (change 2 with (b2 1); rewrite <- bpow_plus; reflexivity).
    pose proof (bpow_gt_0 radix2 1020) as P20. assert (B5 : 2 * b2 1021 = b2 1022) by (change 2 with (b2 1); rewrite <- bpow_plus; reflexivity).
    split; [fold lo in Blo; lra|]. apply abs_round_le_generic; auto with typeclass_instances; [apply (fmt_b2 1022); lia|].
    apply Rle_trans with (1 := Rabs_triang _ _). fold lo in Blo. rewrite (Rabs_pos_eq (val len)) by lra. lra. }
  destruct HB as [HB1 HB2]. apply Rabs_le_inv in HB1, HB2.
  pose proof (M 0%nat i ltac:(lia)) as M0. pose proof (M i (S i) ltac:(lia)) as M1. pose proof (M (S i) (Z.to_nat n) ltac:(lia)) as M2. rewrite L0 in M0. rewrite L1 in M2.
  rewrite (nth_map2 _ _ _ _ _ _ i dzero dzero dzero) by (rewrite ?length_rl, ?Lt; lia).
  assert (R1 : nth i (removelast e) dzero = nth i e dzero).
  { rewrite <- (nth_removelast_app _ e dzero i dzero) by lia. rewrite app_nth1 by (rewrite length_rl; lia). reflexivity. }
  assert (R2 : nth i (tl e) dzero = nth (S i) e dzero) by (destruct e; [destruct i; reflexivity|reflexivity]).
  rewrite R1, R2. destruct (A i ltac:(lia)) as [F1 _]. destruct (A (S i) ltac:(lia)) as [F2 _].
  destruct (mid_between (nth i e dzero) (nth (S i) e dzero)) as [G1 G2]; auto; try (apply Rabs_le; lra).
  split; [exact G1|]. lra.
Qed.
Print Assumptions C85_mids.

(** [polargrid] over the full circle: every azimuth is in the closed range
    [[0, 2 pi]] and every radius between [rmin] and the rounded
    [rmin + (rmax - rmin)]. *)
Theorem C85_polargrid : forall nr nphi rmin rmax, (1 <= nr <= 2 ^ 50)%Z -> (1 <= nphi <= 2 ^ 50)%Z ->
  box_ok rmin (dsub rmax rmin) ->
  exists r p, polargrid_d nr nphi rmin rmax dzero twopi = Ok (r, p) /\
    length r = Z.to_nat nr /\ length p = Z.to_nat nphi /\
    (forall x, In x r -> fin x /\ val rmin <= val x <= fl (val rmin + val (dsub rmax rmin))) /\
    (forall x, In x p -> fin x /\ 0 <= val x <= tau).
Proof.
  intros nr nphi rmin rmax Hr Hp B. destruct twopi_val as [T1 T2]. pose proof tau_bounds as TB.
  destruct (C85_mids (dsub rmax rmin) nr (Some rmin) B Hr) as (m & e & G & E & Lm & A). cbn [xlo] in A.
  destruct (dsub_ok twopi dzero T1 fin_zero) as [S1 S2].
  { rewrite T2, val_zero, Rminus_0_r, fl_fmt by apply fmt_tau. apply small_b2. rewrite Rabs_pos_eq; lra. }
  rewrite T2, val_zero, Rminus_0_r, fl_fmt in S2 by apply fmt_tau.
  assert (Bp : box_ok dzero (dsub twopi dzero)).
  { split; [apply fin_zero|]. split; [exact S1|]. rewrite val_zero, S2, Rabs_R0. split; [apply bpow_ge_0|]. split.
    - split; [lra|]. apply Rle_trans with (b2 10); [change (b2 10) with 1024; lra|apply bpow_le; lia].
    - right. rewrite Rplus_0_l, Rminus_0_r, fl_fmt by apply fmt_tau. apply Rle_trans with (b2 0); [apply bpow_le; lia|rewrite b2_0; lra]. }
  destruct (C85_mids (dsub twopi dzero) nphi (Some dzero) Bp Hp) as (mp & ep & Gp & Ep & Lp & Ap). cbn [xlo] in Ap.
  unfold grid1d_d in G, Gp. rewrite E in G. rewrite Ep in Gp. cbn [bind] in G, Gp. apply Ok_inj in G, Gp. injection G as G. injection Gp as Gp.
  exists m, mp. unfold polargrid_d. rewrite E, Ep. cbn [bind]. rewrite G, Gp. split; [reflexivity|]. split; [exact Lm|]. split; [exact Lp|]. split.
  - intros x Hx. destruct (In_nth _ _ dzero Hx) as (i & Hi & <-). destruct (A i ltac:(lia)) as (A1 & A2 & A3). split; [exact A1|lra].
  - intros x Hx. destruct (In_nth _ _ dzero Hx) as (i & Hi & <-). destruct (Ap i ltac:(lia)) as (A1 & A2 & A3). split; [exact A1|].
    rewrite val_zero, Rplus_0_l, S2, fl_fmt in * by apply fmt_tau. lra.
Qed.
Print Assumptions C85_polargrid.

(** [n] edges make [n] bins only if the bins are resolved: of eight bins
    of the interval [[2^53, 2^53 + 4]] the first has width zero. *)
Theorem C85_refuted : exists len n xmin e, box_ok xmin len /\ 0 < val len /\ get_xedges_d len n (Some xmin) = Ok e /\ exists i, (S i < length e)%nat /\ val (nth i e dzero) = val (nth (S i) e dzero).
Proof.
  exists (dint 4), 8%Z, (dint (2 ^ 53)). destruct (dint_ok 4) as [F1 V1]; [lia|]. destruct (dint_ok (2 ^ 53)) as [F2 V2]; [lia|].
  assert (H : fl (val (dint (2 ^ 53)) + val (dint 4)) = IZR (2 ^ 53 + 4)).
  { rewrite V1, V2, <- plus_IZR. apply fl_fmt. apply generic_format_FLT. exists (Float radix2 (2 ^ 52 + 2) 1); cbn [Fnum Fexp]; [|reflexivity|lia].
    unfold F2R. cbn [Fnum Fexp]. change (b2 1) with (IZR 2). rewrite <- mult_IZR. reflexivity. }
  destruct (linspace_shape (dint (2 ^ 53)) (dadd (dint (2 ^ 53)) (dint 4)) 8) as (e & E & L & _ & I); [lia|].
  exists e. split; [|split; [rewrite V1; lra|split; [exact E|]]].
  - split; [exact F2|]. split; [exact F1|]. rewrite H, V1, V2. split; [|split].
    + rewrite Rabs_pos_eq by (apply IZR_le; lia). change (IZR (2 ^ 53)) with (b2 53). apply bpow_le. lia.
    + split; [lra|]. change 4 with (b2 2). apply bpow_le. lia.
    + right. rewrite <- minus_IZR. change (IZR (2 ^ 53 + 4 - 2 ^ 53)) with (b2 2). apply bpow_le. lia.
  - exists 0%nat. change (Z.to_nat 8) with 8%nat in *. split; [lia|]. rewrite (I 0%nat), (I 1%nat) by lia. unfold val. rewrite <- !SF2R_B2SF. apply f_equal. vm_compute. reflexivity.
Qed.
Print Assumptions C85_refuted.

(** Ten bins of the unit interval: the hypotheses hold. *)
Example C85_example : box_ok dzero (dint 1) /\ b2 (-48) * Rmax (Rabs (val dzero)) (Rabs (fl (val dzero + val (dint 1)))) < val (dint 1) / IZR 10 /\ exists e, get_xedges_d (dint 1) 10 None = Ok e /\ length e = 11%nat.
Proof.
  destruct (dint_ok 1) as [F1 V1]; [lia|]. assert (H : fl (val dzero + val (dint 1)) = 1) by (rewrite V1, val_zero, Rplus_0_l; apply fl_fmt, fmt_1).
  split; [|split; [|destruct (linspace_shape dzero (dadd dzero (dint 1)) 10) as (e & E & L & _); [lia|exists e; split; [exact E|exact L]]]].
  - split; [apply fin_zero|]. split; [exact F1|]. rewrite H, V1, val_zero, Rabs_R0. split; [apply bpow_ge_0|]. split; [split; [lra|]|right; rewrite Rminus_0_r].
    + rewrite <- b2_0. apply bpow_le. lia.
    + rewrite <- b2_0. apply bpow_le. lia.
  - rewrite H, V1, val_zero, Rabs_R0, Rabs_R1, Rmax_right by lra. rewrite Rmult_1_r. apply Rlt_trans with (b2 (-10)); [apply bpow_lt; lia|].
    change (b2 (-10)) with (/ 1024). lra.
Qed.
