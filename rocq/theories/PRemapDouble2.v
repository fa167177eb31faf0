(** * Lemmas: weights of the grid remapping in binary64 *)

From Coq Require Import Reals ZArith List Bool Lia Lra Psatz.
From Flocq Require Import Core IEEE754.BinarySingleNaN.
From Verif Require Import Base BaseP MHealpixFloat PHealpixFloat SpecDouble SpecGrid SpecRemap MDouble PDouble MGridsDouble PGridsDouble PSumDouble PRemap2
  MRemap MRemapDouble PRemapDouble.
Import ListNotations.
Open Scope R_scope.

Local Existing Instance p53.

Lemma dle_ok : forall x y, fin x -> fin y -> dle x y = Rle_bool (val x) (val y).
Proof. intros x y Fx Fy. unfold dle. apply Bleb_correct; assumption. Qed.

Lemma one_ok : fin (dbl 1 0) /\ val (dbl 1 0) = 1.
Proof. destruct (dint_ok 1) as [A B]; [lia|]. split; [exact A|exact B]. Qed.

Lemma overlap_close : forall a b c d a' b' c' d' h, Rabs (a - a') <= h -> Rabs (b - b') <= h -> Rabs (c - c') <= h -> Rabs (d - d') <= h ->
  Rabs (overlap a b c d - overlap a' b' c' d') <= 2 * h.
Proof.
  intros a b c d a' b' c' d' h H1 H2 H3 H4. apply Rabs_le_inv in H1, H2, H3, H4. apply Rabs_le. unfold overlap, Rmax, Rmin. repeat destruct (Rle_dec _ _); lra.
Qed.

(** Weights attributed by a window of consecutive cells. *)
Lemma weight_window : forall (g : nat -> Z * R) P L i,
  (forall t, (t < L)%nat -> fst (g t) = (P + Z.of_nat t)%Z \/ (fst (g t) = (-1)%Z /\ snd (g t) = 0)) ->
  weight_of (map g (seq 0 L)) i = if ((P <=? Z.of_nat i) && (Z.of_nat i <? P + Z.of_nat L))%Z then snd (g (Z.to_nat (Z.of_nat i - P))) else 0.
Proof.
  intros g P L i H. induction L as [|L IH].
  - cbn [seq map]. unfold weight_of. cbn [filter map Rsum fold_right]. destruct ((P <=? Z.of_nat i)%Z) eqn:A; [|reflexivity]. cbn [andb].
    destruct (Z.ltb_spec (Z.of_nat i) (P + Z.of_nat 0)); [apply Z.leb_le in A; lia|reflexivity].
  - rewrite seq_S, map_app. cbn [Nat.add map]. unfold weight_of in *. rewrite filter_app, map_app, Rsum_app, IH by (intros; apply H; lia). clear IH.
    specialize (H L ltac:(lia)). cbn [filter]. destruct (Z.leb_spec P (Z.of_nat i)) as [A|A]; cbn [andb].
    + destruct (Z.ltb_spec (Z.of_nat i) (P + Z.of_nat L)) as [B|B]; destruct (Z.ltb_spec (Z.of_nat i) (P + Z.of_nat (S L))) as [C|C]; try lia.
      * replace (fst (g L) =? Z.of_nat i)%Z with false by (symmetry; apply Z.eqb_neq; lia). cbn. lra.
      * replace (Z.to_nat (Z.of_nat i - P)) with L by lia. destruct H as [H|[H1 H2]].
        -- replace (fst (g L) =? Z.of_nat i)%Z with true by (symmetry; apply Z.eqb_eq; lia). cbn. lra.
        -- replace (fst (g L) =? Z.of_nat i)%Z with false by (symmetry; apply Z.eqb_neq; lia). cbn. lra.
      * replace (fst (g L) =? Z.of_nat i)%Z with false by (symmetry; apply Z.eqb_neq; lia). cbn. lra.
    + replace (fst (g L) =? Z.of_nat i)%Z with false by (symmetry; apply Z.eqb_neq; lia). cbn. lra.
Qed.

Lemma sum_split : forall n m g, sum_upto (n + m) g = sum_upto n g + sum_upto m (fun i => g (n + i)%nat).
Proof.
  intros n m g. induction m as [|m IH]; [rewrite Nat.add_0_r, sum_0; ring|]. rewrite Nat.add_succ_r, !sum_S, IH. ring.
Qed.

(** Sum over three ranges. *)
Lemma sum_three : forall N lo hi g k c, (lo <= hi <= N)%nat ->
  (forall i, (i < N)%nat -> (lo <= i < hi)%nat -> g i <= c) -> (hi - lo <= k)%nat -> 0 <= c -> (forall i, (i < N)%nat -> 0 <= g i) ->
  sum_upto N g <= sum_upto lo g + INR k * c + sum_upto (N - hi) (fun i => g (hi + i)%nat).
Proof.
  intros N lo hi g k c H1 H2 H3 Hc Hg. replace N with (lo + (hi - lo) + (N - hi))%nat at 1 by lia. rewrite !sum_split.
  replace (lo + (hi - lo))%nat with hi by lia. apply Rplus_le_compat_r. apply Rplus_le_compat_l.
  apply Rle_trans with (INR (hi - lo) * c).
  - assert (K : forall m', (m' <= hi - lo)%nat -> sum_upto m' (fun i => g (lo + i)%nat) <= INR m' * c).
    { induction m' as [|m' IH]; intros Hm; [rewrite sum_0; cbn [INR]; lra|]. rewrite sum_S, S_INR. specialize (IH ltac:(lia)). specialize (H2 (lo + m')%nat ltac:(lia) ltac:(lia)). lra. }
    apply K. lia.
  - apply Rmult_le_compat_r; [exact Hc|apply le_INR; exact H3].
Qed.

Section Weights.
  Variable X : R.
  Hypothesis HX : b2 (-900) <= X <= b2 900.
  Notation e := (unit_of X).
  Notation good := (good X).

  (** A rounded ratio of differences. *)
  Lemma ratio_ok : forall a b p q, fin a -> fin b -> fin p -> fin q -> val a < val b -> 0 <= val q - val p <= val b - val a -> val b - val a <= 8 * X ->
    let w := ddiv (dsub q p) (dsub b a) in
    fin w /\ 0 <= val w <= 1 /\ Rabs (val w - (val q - val p) / (val b - val a)) <= 4 * u.
  Proof.
    intros a b p q Fa Fb Fp Fq Hab Hpq HB w. pose proof u_pos as U. pose proof (X_pos X HX) as PX.
    destruct (dsub_ok q p Fq Fp) as [A1 A2]; [apply (flX_small X HX); rewrite Rabs_pos_eq; lra|].
    destruct (dsub_ok b a Fb Fa) as [B1 B2]; [apply (flX_small X HX); rewrite Rabs_pos_eq; lra|].
    pose proof (add_err (val q) (- val p) (fmt_val _) (fmt_opp _ (fmt_val _))) as N. fold (val q - val p) in N. rewrite <- A2, (Rabs_pos_eq (val q - val p)) in N by lra.
    pose proof (add_err (val b) (- val a) (fmt_val _) (fmt_opp _ (fmt_val _))) as D. fold (val b - val a) in D. rewrite <- B2, (Rabs_pos_eq (val b - val a)) in D by lra.
    assert (M : 0 <= val (dsub q p) <= val (dsub b a)).
    { rewrite A2, B2. split; [apply fl_ge; [apply fl_fmt, fmt_0|lra]|apply fl_mono; lra]. }
    apply Rabs_le_inv in N, D. set (x := val q - val p) in *. set (y := val b - val a) in *.
    assert (Y : 0 < y) by (unfold y; lra). assert (UY : u * y <= / 1024 * y) by (apply Rmult_le_compat_r; lra).
    assert (PD : 0 < val (dsub b a)) by lra.
    set (xd := val (dsub q p)) in *. set (yd := val (dsub b a)) in *.
    assert (R : 0 <= xd / yd <= 1).
    { split; [apply Rmult_le_pos; [lra|left; apply Rinv_0_lt_compat; lra]|]. apply Rmult_le_reg_r with yd; [exact PD|]. unfold Rdiv. rewrite Rmult_assoc, Rinv_l by lra. lra. }
    assert (FR : 0 <= fl (xd / yd) <= 1) by (split; [apply fl_ge; [apply fl_fmt, fmt_0|lra]|apply fl_le; [apply fl_fmt, fmt_1|lra]]).
    destruct (ddiv_ok (dsub q p) (dsub b a) A1) as [C1 C2]; [fold yd; lra|apply small_b2; fold xd yd; rewrite Rabs_pos_eq; lra|]. fold xd yd in C2. fold w in C1, C2.
    split; [exact C1|]. rewrite C2. split; [exact FR|].
    pose proof (fl_mixed (xd / yd)) as F. rewrite (Rabs_pos_eq (xd / yd)) in F by lra.
    assert (T : b2 (-1075) <= / 1024 * u) by (unfold u; change (/ 1024) with (b2 (-10)); rewrite <- bpow_plus; apply bpow_le; lia).
    assert (G : Rabs (xd / yd - x / y) <= (2 + / 64) * u).
    { replace (xd / yd - x / y) with ((xd - x) / y + xd / yd * ((y - yd) / y)) by (field; lra).
      assert (K1 : Rabs ((xd - x) / y) <= u).
      { unfold Rdiv. rewrite Rabs_mult, (Rabs_pos_eq (/ y)) by (left; apply Rinv_0_lt_compat; lra). apply Rmult_le_reg_r with y; [exact Y|]. rewrite Rmult_assoc, Rinv_l, Rmult_1_r by lra.
        apply Rle_trans with (u * x); [apply Rabs_le; lra|apply Rmult_le_compat_l; lra]. }
      assert (K2 : Rabs (xd / yd * ((y - yd) / y)) <= u).
      { rewrite Rabs_mult, (Rabs_pos_eq (xd / yd)) by lra. assert (Rabs ((y - yd) / y) <= u).
        { unfold Rdiv. rewrite Rabs_mult, (Rabs_pos_eq (/ y)) by (left; apply Rinv_0_lt_compat; lra). apply Rmult_le_reg_r with y; [exact Y|]. rewrite Rmult_assoc, Rinv_l, Rmult_1_r by lra. apply Rabs_le; lra. }
        pose proof (Rabs_pos ((y - yd) / y)). nra. }
      apply Rle_trans with (1 := Rabs_triang _ _). lra. }
    assert (u * (xd / yd) <= u) by nra.
    replace (fl (xd / yd) - x / y) with (fl (xd / yd) - xd / yd + (xd / yd - x / y)) by ring. apply Rle_trans with (1 := Rabs_triang _ _). lra.
  Qed.

  Variables (o1 B1 : double) (N : nat) (o2 B2 : double) (m : nat).
  Hypothesis G1 : good o1 B1 N.
  Hypothesis G2 : good o2 B2 m.

  Definition ax : axis_d := AxisD o1 (dadd o1 B1) (Z.of_nat N) o2 (dadd o2 B2) (Z.of_nat m).
  Definition w1 : R := val B1 / INR N.
  Definition w2 : R := val B2 / INR m.
  Definition E1 (i : nat) : R := edge (val o1) (val B1) N i.
  Definition E2 (i : nat) : R := edge (val o2) (val B2) m i.
  Definition d1 : double := step_d o1 B1 N.
  Definition d2 : double := step_d o2 B2 m.

  (** One entry of an output cell that touches several source cells. *)
  Lemma several_ok : forall a b P t, fin a -> fin b -> val a < val b -> val b - val a <= 8 * X ->
    let r := entry_several_d ax a b P t in let p := (P + Z.of_nat t)%Z in
    fin (snd r) /\ 0 <= val (snd r) <= 1 /\ (fst r = p \/ (fst r = -1)%Z /\ val (snd r) = 0) /\
    (fst r = -1 \/ 0 <= fst r < Z.of_nat N)%Z /\
    (forall i, p = Z.of_nat i -> (i < N)%nat ->
       Rabs (val (snd r) - overlap (val a) (val b) (val (edge_d o1 B1 N i)) (val (edge_d o1 B1 N (S i))) / (val b - val a)) <= 4 * u).
  Proof.
    intros a b P t Fa Fb Hab HB. pose proof u_pos as U. unfold entry_several_d. cbn [n1 ax a1min]. cbv zeta. set (p := (P + Z.of_nat t)%Z).
    destruct (Z.leb_spec 0 p) as [P0|P0]; cbn [andb].
    2:{ cbn [fst snd]. rewrite val_zero. split; [apply fin_zero|]. split; [lra|]. split; [right; auto|]. split; [left; reflexivity|]. intros i E. lia. }
    destruct (Z.ltb_spec p (Z.of_nat N)) as [P1|P1].
    2:{ cbn [fst snd]. rewrite val_zero. split; [apply fin_zero|]. split; [lra|]. split; [right; auto|]. split; [left; reflexivity|]. intros i E. lia. }
    set (i0 := Z.to_nat p). assert (Ei : p = Z.of_nat i0) by lia.
    replace (dadd o1 (dmul (dx1_d ax) (real4 p))) with (edge_d o1 B1 N i0) by (rewrite Ei; reflexivity).
    replace (dadd o1 (dmul (dx1_d ax) (real4 (p + 1)))) with (edge_d o1 B1 N (S i0)) by (replace (p + 1)%Z with (Z.of_nat (S i0)) by lia; reflexivity).
    destruct (edge_ok X HX o1 B1 N i0 G1 ltac:(lia)) as (Fc & Ec & _). destruct (edge_ok X HX o1 B1 N (S i0) G1 ltac:(lia)) as (Fd & Ed & _).
    assert (Hcd : val (edge_d o1 B1 N i0) <= val (edge_d o1 B1 N (S i0))).
    { unfold E1 in *. rewrite edge_S in Ed. pose proof (wide X HX o1 B1 N G1) as [W _]. pose proof (e_pos X HX) as E. apply Rabs_le_inv in Ec, Ed. lra. }
    assert (U1 : forall i, p = Z.of_nat i -> i = i0) by (intros; lia).
    set (c := edge_d o1 B1 N i0) in *. set (d := edge_d o1 B1 N (S i0)) in *.
    rewrite !dle_ok, !dlt_ok by assumption.
    assert (OUT : overlap (val a) (val b) (val c) (val d) = 0 -> forall r, r = ((-1)%Z, dzero) -> 
      fin (snd r) /\ 0 <= val (snd r) <= 1 /\ (fst r = p \/ (fst r = -1)%Z /\ val (snd r) = 0) /\ (fst r = -1 \/ 0 <= fst r < Z.of_nat N)%Z /\
      (forall i, p = Z.of_nat i -> (i < N)%nat -> Rabs (val (snd r) - overlap (val a) (val b) (val (edge_d o1 B1 N i)) (val (edge_d o1 B1 N (S i))) / (val b - val a)) <= 4 * u)).
    { intros Z r ->. cbn [fst snd]. rewrite val_zero. split; [apply fin_zero|]. split; [lra|]. split; [right; auto|]. split; [left; reflexivity|].
      intros i E _. rewrite (U1 i E). fold c d. rewrite Z. unfold Rdiv. rewrite Rmult_0_l, Rminus_0_r, Rabs_R0. lra. }
    assert (IN : forall x y, fin x -> fin y -> 0 <= val y - val x <= val b - val a -> overlap (val a) (val b) (val c) (val d) = val y - val x ->
      forall r, r = (p, ddiv (dsub y x) (dsub b a)) -> 
      fin (snd r) /\ 0 <= val (snd r) <= 1 /\ (fst r = p \/ (fst r = -1)%Z /\ val (snd r) = 0) /\ (fst r = -1 \/ 0 <= fst r < Z.of_nat N)%Z /\
      (forall i, p = Z.of_nat i -> (i < N)%nat -> Rabs (val (snd r) - overlap (val a) (val b) (val (edge_d o1 B1 N i)) (val (edge_d o1 B1 N (S i))) / (val b - val a)) <= 4 * u)).
    { intros x y Fx Fy Hxy Z r ->. cbn [fst snd]. destruct (ratio_ok a b x y Fa Fb Fx Fy Hab Hxy HB) as (R1 & R2 & R3). split; [exact R1|]. split; [exact R2|].
      split; [left; reflexivity|]. split; [right; lia|]. intros i E _. rewrite (U1 i E). fold c d. rewrite Z. exact R3. }
    destruct (Rle_bool_spec (val c) (val a)) as [H1|H1], (Rle_bool_spec (val b) (val d)) as [H2|H2], (Rlt_bool_spec (val a) (val c)) as [H3|H3], (Rlt_bool_spec (val c) (val b)) as [H4|H4],
      (Rlt_bool_spec (val a) (val d)) as [H5|H5], (Rlt_bool_spec (val d) (val b)) as [H6|H6]; cbn [andb]; try lra;
      first [ eapply OUT; [|reflexivity]; unfold overlap, Rmax, Rmin; repeat destruct (Rle_dec _ _); lra
            | eapply IN; [| | | |reflexivity]; [assumption|assumption|lra|unfold overlap, Rmax, Rmin; repeat destruct (Rle_dec _ _); lra] ].
  Qed.

  (** ** Facts about one output cell *)

  Definition s1 : side := Side (val o1) (val B1) N.
  Definition s2 : side := Side (val o2) (val B2) m.
  Definition reals (bd : buffers_d) : list (Z * R) := map (fun pw => (fst pw, val (snd pw))) bd.
  (** Total deviation of the weights from the exact parts. *)
  Definition deviation (bd : buffers_d) (k : nat) : R := sum_upto N (fun i => Rabs (weight_of (reals bd) i - part s1 s2 k i)).
  Definition LZ : Z := get_remap_pix_len_d ax.

  Definition ratio : R := e / w2.

  Lemma w2_pos : 0 < w2 /\ e * 2 ^ 33 <= w2 <= X.
  Proof. pose proof (wide X HX o2 B2 m G2). pose proof (e_pos X HX). unfold w2. lra. Qed.
  Lemma w1_pos : 0 < w1 /\ e * 2 ^ 33 <= w1 <= X.
  Proof. pose proof (wide X HX o1 B1 N G1). pose proof (e_pos X HX). unfold w1. lra. Qed.
  Lemma ratio_pos : 0 < ratio /\ u <= ratio <= / 1024.
  Proof.
    pose proof w2_pos as [P W]. pose proof (e_pos X HX) as E. unfold ratio. split; [apply Rdiv_lt_0_compat; lra|].
    assert (I : e / w2 * w2 = e) by (field; lra). pose proof u_pos. split; (apply Rmult_le_reg_r with w2; [exact P|]); rewrite I.
    - unfold unit_of. apply Rmult_le_compat_l; lra.
    - lra.
  Qed.

  Lemma over_w2 : forall x c, x <= c * e -> x / w2 <= c * ratio.
  Proof.
    intros x c H. pose proof w2_pos as [P _]. unfold ratio. apply Rmult_le_reg_r with w2; [exact P|]. replace (x / w2 * w2) with x by (field; lra).
    replace (c * (e / w2) * w2) with (c * e) by (field; lra). exact H.
  Qed.

  Lemma E1_step : forall i : nat, (i <= N)%nat -> Rabs (E1 i - (val o1 + INR i * val d1)) <= 4 * e.
  Proof.
    intros i Hi. destruct (step_ok X HX o1 B1 N G1) as (_ & S & _). specialize (S i Hi). unfold E1, edge, d1.
    replace (val o1 + INR i * (val B1 / INR N) - (val o1 + INR i * val (step_d o1 B1 N))) with (- (INR i * val (step_d o1 B1 N) - INR i * (val B1 / INR N))) by ring.
    rewrite Rabs_Ropp. exact S.
  Qed.
  Lemma d1_pos : 0 < val d1. Proof. destruct (step_pos X HX o1 B1 N G1) as [S _]. pose proof w1_pos as [P _]. unfold d1. unfold w1 in P. lra. Qed.
  Lemma E1_le : forall i j, (i <= j)%nat -> E1 i <= E1 j.
  Proof. intros i j H. destruct G1 as (_ & _ & HB & _ & Hn & _). apply edge_le; assumption. Qed.
  Lemma E1_S : forall i, E1 (S i) = E1 i + w1. Proof. intros. apply edge_S. Qed.
  Lemma E2_S : forall i, E2 (S i) = E2 i + w2. Proof. intros. apply edge_S. Qed.
  Lemma part_E : forall k i, part s1 s2 k i = overlap (E2 k) (E2 (S k)) (E1 i) (E1 (S i)) / w2.
  Proof. reflexivity. Qed.
  Lemma part_nonneg : forall k i, 0 <= part s1 s2 k i.
  Proof. intros. rewrite part_E. pose proof w2_pos as [P _]. apply Rmult_le_pos; [apply overlap_nonneg|left; apply Rinv_0_lt_compat; exact P]. Qed.

  Section Cell.
    Variable k : nat.
    Hypothesis Hk : (k < m)%nat.
    Definition a : double := edge_d o2 B2 m k.
    Definition b : double := edge_d o2 B2 m (S k).
    Definition P1 : Z := which_pix_d o1 d1 a.
    Definition P2 : Z := which_pix_d o1 d1 b.

    Lemma ab_ok : fin a /\ fin b /\ Rabs (val a - E2 k) <= 7 * e /\ Rabs (val b - E2 (S k)) <= 7 * e /\
      Rabs (val a) <= 2 * X /\ Rabs (val b) <= 2 * X /\ val a < val b /\ val b - val a <= 8 * X.
    Proof.
      destruct (edge_ok X HX o2 B2 m k G2 ltac:(lia)) as (A1 & A2 & A3). destruct (edge_ok X HX o2 B2 m (S k) G2 ltac:(lia)) as (C1 & C2 & C3).
      fold (E2 k) in A2, A3. fold (E2 (S k)) in C2, C3. pose proof w2_pos as [P W]. pose proof (e_pos X HX) as E. pose proof (E2_S k) as ES.
      fold a in A1, A2. fold b in C1, C2. apply Rabs_le_inv in A2, A3, C2, C3.
      repeat split; try assumption; try (apply Rabs_le); lra.
    Qed.

    Lemma P_bounds : IZR P1 * val d1 <= E2 k - val o1 + 14 * e /\ E2 k - val o1 - 14 * e <= (IZR P1 + 1) * val d1 /\
      IZR P2 * val d1 <= E2 (S k) - val o1 + 14 * e /\ E2 (S k) - val o1 - 14 * e <= (IZR P2 + 1) * val d1.
    Proof.
      destruct ab_ok as (Fa & Fb & Ca & Cb & Ba & Bb & _). apply Rabs_le_inv in Ca, Cb.
      destruct (which_ok X HX o1 B1 N a G1 Fa Ba) as (Q1 & Q2 & _). destruct (which_ok X HX o1 B1 N b G1 Fb Bb) as (Q3 & Q4 & _).
      fold d1 P1 in Q1, Q2. fold d1 P2 in Q3, Q4. pose proof (e_pos X HX). repeat split; lra.
    Qed.

    Lemma L_bounds : (2 <= LZ)%Z /\ val d1 + w2 - 6 * e <= IZR LZ * val d1 /\ (IZR LZ - 2) * val d1 <= w2 + 6 * e.
    Proof.
      destruct (len_ok X HX o1 B1 N o2 B2 m G1 G2) as (A & C & D). destruct (step_ok X HX o2 B2 m G2) as (_ & _ & S). fold w2 in S. apply Rabs_le_inv in S.
      assert (C' : val d1 + val (step_d o2 B2 m) - 2 * e <= IZR LZ * val d1) by exact C. assert (D' : (IZR LZ - 2) * val d1 <= val (step_d o2 B2 m) + 2 * e) by exact D.
      clear C D. split; [exact A|]. pose proof (e_pos X HX). split; lra.
    Qed.

    (** Exact parts to the left of the first cell written and to the right of the last. *)
    Lemma left_part : forall lo : nat, (lo <= N)%nat -> (lo = 0%nat \/ (Z.of_nat lo <= P1)%Z) -> sum_upto lo (part s1 s2 k) <= 18 * ratio.
    Proof.
      intros lo HN Hlo. pose proof w2_pos as [P W]. pose proof (e_pos X HX) as E. destruct G1 as (_ & _ & HB & _ & Hn & _).
      rewrite (sum_ext lo _ (fun i => overlap (E2 k) (E2 (S k)) (E1 i) (E1 (S i)) * / w2)) by (intros; apply part_E). rewrite sum_scal_r.
      unfold E1. rewrite (overlap_sum (val o1) (val B1) N HB Hn) by (rewrite E2_S; lra). fold (E1 lo). apply over_w2.
      destruct Hlo as [-> |Hlo].
      - unfold E1. rewrite edge_0. unfold overlap, Rmax, Rmin. repeat destruct (Rle_dec _ _); lra.
      - destruct P_bounds as (Q & _). pose proof (E1_step lo HN) as S0. apply Rabs_le_inv in S0. pose proof d1_pos as D.
        assert (INR lo * val d1 <= IZR P1 * val d1) by (apply Rmult_le_compat_r; [lra|rewrite INR_IZR_INZ; apply IZR_le; exact Hlo]).
        unfold overlap, Rmax, Rmin. repeat destruct (Rle_dec _ _); lra.
    Qed.

    Lemma right_part : forall hi : nat, (hi <= N)%nat -> hi = N \/ (P1 + LZ <= Z.of_nat hi)%Z -> sum_upto (N - hi) (fun i => part s1 s2 k (hi + i)) <= 24 * ratio.
    Proof.
      intros hi HN Hhi. pose proof w2_pos as [P W]. pose proof (e_pos X HX) as E. pose proof ratio_pos as [RP _]. destruct Hhi as [-> |Hhi]; [rewrite Nat.sub_diag, sum_0; lra|].
      destruct G1 as (_ & _ & HB & _ & Hn & _).
      assert (SU : forall n, sum_upto n (part s1 s2 k) = overlap (E2 k) (E2 (S k)) (val o1) (E1 n) / w2).
      { intros n. rewrite (sum_ext n _ (fun i => overlap (E2 k) (E2 (S k)) (E1 i) (E1 (S i)) * / w2)) by (intros; apply part_E). rewrite sum_scal_r.
        unfold E1. rewrite (overlap_sum (val o1) (val B1) N HB Hn) by (rewrite E2_S; lra). reflexivity. }
      pose proof (sum_split hi (N - hi) (part s1 s2 k)) as SP. replace (hi + (N - hi))%nat with N in SP by lia.
      replace (sum_upto (N - hi) (fun i => part s1 s2 k (hi + i))) with (sum_upto N (part s1 s2 k) - sum_upto hi (part s1 s2 k)) by lra. rewrite !SU.
      replace (overlap (E2 k) (E2 (S k)) (val o1) (E1 N) / w2 - overlap (E2 k) (E2 (S k)) (val o1) (E1 hi) / w2)
        with ((overlap (E2 k) (E2 (S k)) (val o1) (E1 N) - overlap (E2 k) (E2 (S k)) (val o1) (E1 hi)) / w2) by (field; lra).
      apply over_w2.
      rewrite <- (overlap_split (E2 k) (E2 (S k)) (val o1) (E1 hi) (E1 N)).
      2:{ split; [|apply E1_le; exact HN]. pose proof (E1_le 0 hi ltac:(lia)) as H. unfold E1 in H at 1. rewrite edge_0 in H. exact H. }
      2:{ rewrite E2_S; lra. }
      destruct P_bounds as (_ & Q & _). destruct L_bounds as (_ & L1 & _). pose proof (E1_step hi HN) as S1. apply Rabs_le_inv in S1. pose proof d1_pos as D.
      assert (H : IZR (P1 + LZ) * val d1 <= INR hi * val d1) by (apply Rmult_le_compat_r; [lra|rewrite INR_IZR_INZ; apply IZR_le; exact Hhi]). rewrite plus_IZR in H.
      pose proof (E2_S k) as ES. ring_simplify (overlap (E2 k) (E2 (S k)) (val o1) (E1 hi) + overlap (E2 k) (E2 (S k)) (E1 hi) (E1 N) - overlap (E2 k) (E2 (S k)) (val o1) (E1 hi)).
      unfold overlap, Rmax, Rmin. repeat destruct (Rle_dec _ _); lra.
    Qed.

    Lemma deviation_window : forall g : nat -> Z * double,
      (forall t, (t < Z.to_nat LZ)%nat -> fst (g t) = (P1 + Z.of_nat t)%Z \/ (fst (g t) = (-1)%Z /\ val (snd (g t)) = 0)) ->
      (forall t i, (t < Z.to_nat LZ)%nat -> (i < N)%nat -> (P1 + Z.of_nat t)%Z = Z.of_nat i -> Rabs (val (snd (g t)) - part s1 s2 k i) <= 36 * ratio) ->
      deviation (map g (seq 0 (Z.to_nat LZ))) k <= 36 * (IZR LZ + 2) * ratio.
    Proof.
      intros g Hw Hc. unfold deviation, reals. rewrite map_map. set (h := fun t => (fst (g t), val (snd (g t)))).
      assert (WW : forall i, weight_of (map h (seq 0 (Z.to_nat LZ))) i = if ((P1 <=? Z.of_nat i) && (Z.of_nat i <? P1 + Z.of_nat (Z.to_nat LZ)))%Z then val (snd (g (Z.to_nat (Z.of_nat i - P1)))) else 0).
      { intros i. rewrite (weight_window h P1); [reflexivity|]. intros t Ht. apply Hw. exact Ht. }
      destruct L_bounds as (L2 & _). pose proof ratio_pos as [RP _].
      set (lo := Z.to_nat (Z.max 0 (Z.min P1 (Z.of_nat N)))). set (hi := Z.to_nat (Z.max 0 (Z.min (P1 + LZ) (Z.of_nat N)))).
      set (gg := fun i => Rabs (weight_of (map h (seq 0 (Z.to_nat LZ))) i - part s1 s2 k i)).
      assert (MID : forall i, (i < N)%nat -> (lo <= i < hi)%nat -> gg i <= 36 * ratio).
      { intros i Hi Hr. unfold gg. rewrite WW.
        replace ((P1 <=? Z.of_nat i) && (Z.of_nat i <? P1 + Z.of_nat (Z.to_nat LZ)))%Z with true by (symmetry; apply andb_true_intro; split; [apply Z.leb_le|apply Z.ltb_lt]; lia).
        apply Hc; lia. }
      apply Rle_trans with (1 := sum_three N lo hi gg (Z.to_nat LZ) (36 * ratio) ltac:(lia) MID ltac:(lia) ltac:(lra) ltac:(intros; apply Rabs_pos)). unfold gg. clear MID gg.
      assert (S1 : sum_upto lo (fun i => Rabs (weight_of (map h (seq 0 (Z.to_nat LZ))) i - part s1 s2 k i)) <= 18 * ratio).
      { rewrite (sum_ext lo _ (part s1 s2 k)); [apply left_part; lia|]. intros i Hi. rewrite WW. replace ((P1 <=? Z.of_nat i))%Z with false by (symmetry; apply Z.leb_gt; lia). cbn [andb].
        rewrite Rminus_0_l, Rabs_Ropp. apply Rabs_pos_eq, part_nonneg. }
      assert (S2 : sum_upto (N - hi) (fun i => Rabs (weight_of (map h (seq 0 (Z.to_nat LZ))) (hi + i) - part s1 s2 k (hi + i))) <= 24 * ratio).
      { rewrite (sum_ext (N - hi) _ (fun i => part s1 s2 k (hi + i)%nat)); [apply right_part; lia|]. intros i Hi. rewrite WW.
        replace (Z.of_nat (hi + i) <? P1 + Z.of_nat (Z.to_nat LZ))%Z with false by (symmetry; apply Z.ltb_ge; lia). rewrite andb_false_r.
        rewrite Rminus_0_l, Rabs_Ropp. apply Rabs_pos_eq, part_nonneg. }
      assert (E : INR (Z.to_nat LZ) = IZR LZ) by (rewrite INR_IZR_INZ, Z2Nat.id by lia; reflexivity). rewrite E.
      assert (1 * ratio <= 1 * ratio) by lra. nra.
    Qed.

    Definition fair (bd : buffers_d) : Prop :=
      length bd = Z.to_nat LZ /\
      (forall pw, In pw bd -> fin (snd pw) /\ 0 <= val (snd pw) <= 1 /\ (fst pw = -1 \/ 0 <= fst pw < Z.of_nat N)%Z) /\
      deviation bd k <= 36 * (IZR LZ + 2) * ratio.

    Lemma several_fair : fair (map (entry_several_d ax a b P1) (seq 0 (Z.to_nat LZ))).
    Proof.
      destruct ab_ok as (Fa & Fb & Ca & Cb & Ba & Bb & Hab & HB). split; [now rewrite map_length, seq_length|]. split.
      - intros pw Hpw. apply in_map_iff in Hpw. destruct Hpw as (t & <- & _). destruct (several_ok a b P1 t Fa Fb Hab HB) as (A & C & _ & D & _). auto.
      - apply deviation_window.
        + intros t _. destruct (several_ok a b P1 t Fa Fb Hab HB) as (_ & _ & D & _). exact D.
        + intros t i _ Hi E. destruct (several_ok a b P1 t Fa Fb Hab HB) as (_ & _ & _ & _ & D). specialize (D i E Hi).
          destruct (edge_ok X HX o1 B1 N i G1 ltac:(lia)) as (_ & Ec & _). destruct (edge_ok X HX o1 B1 N (S i) G1 ltac:(lia)) as (_ & Ed & _).
          set (v := val (snd (entry_several_d ax a b P1 t))) in *. pose proof w2_pos as [P W]. pose proof ratio_pos as (RP & R1 & _). pose proof (e_pos X HX) as EP.
          set (x := overlap (val a) (val b) (val (edge_d o1 B1 N i)) (val (edge_d o1 B1 N (S i)))) in *.
          assert (K : Rabs (x - overlap (E2 k) (E2 (S k)) (E1 i) (E1 (S i))) <= 14 * e) by (replace (14 * e) with (2 * (7 * e)) by ring; apply overlap_close; assumption).
          rewrite part_E. set (y := overlap (E2 k) (E2 (S k)) (E1 i) (E1 (S i))) in *.
          assert (X0 : 0 <= x <= val b - val a) by (unfold x, overlap, Rmax, Rmin; repeat destruct (Rle_dec _ _); lra).
          set (D0 := val b - val a) in *. apply Rabs_le_inv in Ca, Cb. pose proof (E2_S k) as ES.
          assert (DD : Rabs (w2 - D0) <= 14 * e) by (apply Rabs_le; unfold D0; lra).
          assert (PD : 0 < D0) by (unfold D0; lra).
          assert (H : Rabs (x / D0 - y / w2) <= 28 * ratio).
          { replace (x / D0 - y / w2) with ((x - y) / w2 + x / D0 * ((w2 - D0) / w2)) by (field; lra).
            assert (Q : 0 <= x / D0 <= 1).
            { split; [apply Rmult_le_pos; [lra|left; apply Rinv_0_lt_compat; lra]|]. apply Rmult_le_reg_r with D0; [exact PD|]. unfold Rdiv. rewrite Rmult_assoc, Rinv_l by lra. lra. }
            assert (K1 : Rabs ((x - y) / w2) <= 14 * ratio) by (unfold Rdiv; rewrite Rabs_mult, (Rabs_pos_eq (/ w2)) by (left; apply Rinv_0_lt_compat; lra); apply over_w2; exact K).
            assert (K2 : Rabs ((w2 - D0) / w2) <= 14 * ratio) by (unfold Rdiv; rewrite Rabs_mult, (Rabs_pos_eq (/ w2)) by (left; apply Rinv_0_lt_compat; lra); apply over_w2; exact DD).
            apply Rle_trans with (1 := Rabs_triang _ _). rewrite (Rabs_mult (x / D0)), (Rabs_pos_eq (x / D0)) by lra. pose proof (Rabs_pos ((w2 - D0) / w2)). nra. }
          replace (v - y / w2) with (v - x / D0 + (x / D0 - y / w2)) by ring. apply Rle_trans with (1 := Rabs_triang _ _). lra.
    Qed.

    Lemma inside_fair : P1 = P2 -> fair (map (entry_inside_d ax P1) (seq 0 (Z.to_nat LZ))).
    Proof.
      intros HP. destruct one_ok as [O1 O2].
      assert (SO : forall t, let r := entry_inside_d ax P1 t in fin (snd r) /\ 0 <= val (snd r) <= 1 /\ (fst r = -1 \/ 0 <= fst r < Z.of_nat N)%Z /\
        (fst r = (P1 + Z.of_nat t)%Z \/ (fst r = (-1)%Z /\ val (snd r) = 0))).
      { intros t. unfold entry_inside_d. cbn [n1 ax]. cbv zeta. destruct (Z.leb_spec 0 (P1 + Z.of_nat t)); cbn [andb].
        - destruct (Z.ltb_spec (P1 + Z.of_nat t) (Z.of_nat N)); cbn [fst snd].
          + destruct (t =? 0)%nat; [rewrite O2; split; [exact O1|]|rewrite val_zero; split; [apply fin_zero|]]; (split; [lra|split; [right; lia|left; reflexivity]]).
          + rewrite val_zero. split; [apply fin_zero|]. split; [lra|]. split; [left; reflexivity|right; auto].
        - cbn [fst snd]. rewrite val_zero. split; [apply fin_zero|]. split; [lra|]. split; [left; reflexivity|right; auto]. }
      split; [now rewrite map_length, seq_length|]. split.
      - intros pw Hpw. apply in_map_iff in Hpw. destruct Hpw as (t & <- & _). destruct (SO t) as (A & C & D & _). auto.
      - apply deviation_window.
        + intros t _. apply (SO t).
        + intros t i _ Hi E. unfold entry_inside_d. cbn [n1 ax]. cbv zeta. rewrite E.
          replace (0 <=? Z.of_nat i)%Z with true by (symmetry; apply Z.leb_le; lia). replace (Z.of_nat i <? Z.of_nat N)%Z with true by (symmetry; apply Z.ltb_lt; lia). cbn [andb snd].
          destruct P_bounds as (Q1 & _ & _ & Q4). rewrite <- HP in Q4. pose proof w2_pos as [P W]. pose proof (e_pos X HX) as EP. pose proof (E2_S k) as ES. pose proof d1_pos as D.
          pose proof (E1_step i ltac:(lia)) as S0. pose proof (E1_step (S i) ltac:(lia)) as S1'. apply Rabs_le_inv in S0, S1'. pose proof (E1_S i) as E1S. pose proof w1_pos as [PW _].
          rewrite part_E. set (y := overlap (E2 k) (E2 (S k)) (E1 i) (E1 (S i))).
          destruct (Nat.eqb_spec t 0) as [-> |Ht].
          * rewrite O2. assert (Ei : IZR P1 = INR i) by (rewrite INR_IZR_INZ; f_equal; lia). rewrite Ei in Q1, Q4. rewrite S_INR in S1'.
            assert (Y : w2 - 36 * e <= y <= w2) by (unfold y, overlap, Rmax, Rmin; repeat destruct (Rle_dec _ _); lra).
            replace (1 - y / w2) with ((w2 - y) / w2) by (field; lra). rewrite Rabs_pos_eq; [apply over_w2; lra|]. apply Rmult_le_pos; [lra|left; apply Rinv_0_lt_compat; lra].
          * rewrite val_zero, Rminus_0_l, Rabs_Ropp, Rabs_pos_eq; [|apply Rmult_le_pos; [apply overlap_nonneg|left; apply Rinv_0_lt_compat; lra]]. apply over_w2.
            assert ((IZR P1 + 1) * val d1 <= INR i * val d1) by (apply Rmult_le_compat_r; [lra|rewrite INR_IZR_INZ; rewrite <- plus_IZR; apply IZR_le; lia]).
            unfold y, overlap, Rmax, Rmin. repeat destruct (Rle_dec _ _); lra.
    Qed.

    (** Not entirely in the phantom cell below the source grid. *)
    Definition clear_of_below : Prop :=
      val o1 <= val o2 \/ val o1 + 32 * e < E2 (S k) \/ E2 k < val o1 - w1 - 32 * e.

    Lemma clear_ok : clear_of_below -> ~ (P1 = (-1)%Z /\ P2 = (-1)%Z).
    Proof.
      intros H [H1 H2]. destruct ab_ok as (Fa & Fb & Ca & Cb & Ba & Bb & Hab & HB). destruct P_bounds as (Q1 & Q2 & Q3 & Q4). rewrite H1 in Q1. rewrite H2 in Q4.
      pose proof (e_pos X HX) as EP. destruct (step_ok X HX o1 B1 N G1) as (_ & _ & S). fold d1 w1 in S. apply Rabs_le_inv in S. destruct H as [H|[H|H]]; try lra.
      destruct (which_ok X HX o1 B1 N a G1 Fa Ba) as (_ & _ & R & _). fold d1 P1 in R. enough (val o2 <= val a) by (specialize (R ltac:(lra)); lia).
      (* a = fl (o2 + m) with m >= 0 *)
      unfold a, edge_d. pose proof G2 as (Fo & _). destruct (step_ok X HX o2 B2 m G2) as (T1 & T2 & _). destruct (step_pos X HX o2 B2 m G2) as [T3 _]. pose proof w2_pos as [P W]. fold w2 in T3.
      pose proof (few_Z X HX o2 B2 m G2) as NZ. destruct (real4_nat k ltac:(lia)) as [R1 R2]. specialize (T2 k ltac:(lia)).
      pose proof (pos_INR k) as PK.
      assert (KX : INR k * w2 <= X).
      { destruct G2 as (_ & _ & B0 & B3 & B4 & _). apply Rle_trans with (INR m * w2); [apply Rmult_le_compat_r; [lra|apply le_INR; lia]|]. unfold w2. replace (INR m * (val B2 / INR m)) with (val B2) by (field; apply not_0_INR; lia).
        pose proof (Rabs_pos (val o2)). lra. }
      fold w2 in T2. apply Rabs_le_inv in T2. set (st := step_d o2 B2 m) in *.
      assert (MP : 0 <= val st * val (real4 (Z.of_nat k))) by (rewrite R2; apply Rmult_le_pos; lra).
      assert (MQ : 0 <= INR k * val st) by (apply Rmult_le_pos; lra).
      destruct (dmul_ok st (real4 (Z.of_nat k)) T1 R1) as [M1 M2]; [apply (flX_small X HX); rewrite R2, Rmult_comm; apply Rabs_le; lra|].
      assert (M3 : 0 <= val (dmul st (real4 (Z.of_nat k)))) by (rewrite M2; apply fl_ge; [apply fl_fmt, fmt_0|exact MP]).
      destruct (mulX X HX st (real4 (Z.of_nat k)) 2 T1 R1) as [_ M4]; [rewrite R2, Rmult_comm; apply Rabs_le; lra|lra|]. rewrite R2, Rmult_comm in M4. rewrite (Rmult_comm (INR k)) in T2.
      apply Rabs_le_inv in M4. set (mm := dmul st (real4 (Z.of_nat k))) in *.
      assert (AO : Rabs (val o2) <= X) by (destruct G2 as (_ & _ & B0 & B3 & _); lra). apply Rabs_le_inv in AO. 
      destruct (dadd_ok o2 mm Fo M1) as [_ ->]; [apply (flX_small X HX); apply Rabs_le; lra|]. apply fl_ge; [apply fl_fmt, fmt_val|lra].
    Qed.

    (** The buffers after the call for output cell [k]. *)
    Lemma pixel_fair : forall bd, clear_of_below -> fair (remap_pixel_d ax (Z.of_nat k) (Z.to_nat LZ) bd).
    Proof.
      intros bd H. apply clear_ok in H. unfold remap_pixel_d. replace (Z.of_nat k + 1)%Z with (Z.of_nat (S k)) by lia.
      change (dadd (a2min ax) (dmul (dx2_d ax) (real4 (Z.of_nat k)))) with a. change (dadd (a2min ax) (dmul (dx2_d ax) (real4 (Z.of_nat (S k))))) with b.
      change (which_pix_d (a1min ax) (dx1_d ax) a) with P1. change (which_pix_d (a1min ax) (dx1_d ax) b) with P2. cbv zeta.
      destruct (Z.eqb_spec P1 P2) as [E|NE]; cbn [negb]; [|apply several_fair].
      destruct (Z.eqb_spec P1 (-1)) as [E1'|NE1]; cbn [negb]; [exfalso; apply H; split; [exact E1'|now rewrite <- E]|]. now apply inside_fair.
    Qed.
  End Cell.
End Weights.
