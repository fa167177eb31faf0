(** * Lemmas: cumulative distributions and interpolation in double precision *)

From Coq Require Import Reals ZArith List Bool Lia Lra Psatz Permutation.
From Flocq Require Import Core IEEE754.BinarySingleNaN.
From Verif Require Import PPolarCoords TDenseDouble TGridsDouble Base BaseP SpecGrid SpecRemap PGrids MHealpixFloat PHealpixFloat SpecDouble MDouble PDouble
  MRemapDouble MGridsDouble PGridsDouble MSumDouble PSumDouble PDense PDenseDouble PRemap2 PRadial MOneDDouble PRebinDouble PRebinDouble2 PRebinDouble3 PRebinDouble4 SpecSigmaDouble PSigmaDouble PSigmaDouble2 PSigmaDouble3 PSigmaDouble4
  PPiDouble SpecRadialDouble MRadialDouble PRadialDouble PRadialDouble2 PRadialDouble3 PRadialDouble4 SpecRandomsDouble MRandomsDouble PRandomsDouble PRandomsDouble2 TWeightsDouble.
Import ListNotations.
Open Scope R_scope.

(** ** Normalised values *)

Lemma norm_ok : forall x m, fin x -> fin m -> 0 <= val x <= val m -> 0 < val m -> fin (ddiv x m) /\ val (ddiv x m) = fl (val x / val m) /\ 0 <= val (ddiv x m) <= 1.
Proof.
  intros x m Fx Fm H P. assert (R : 0 <= val x / val m <= 1).
  { split; [apply Rmult_le_pos; [lra|left; now apply Rinv_0_lt_compat]|]. apply Rmult_le_reg_r with (val m); [exact P|]. unfold Rdiv. rewrite Rmult_assoc, Rinv_l by lra. lra. }
  assert (R' : 0 <= fl (val x / val m) <= 1) by (split; [rewrite <- fl_0|rewrite <- (fl_fmt 1 fmt_1)]; apply fl_mono; lra).
  destruct (ddiv_ok x m Fx) as [F V]; [lra|apply small_b2; rewrite Rabs_pos_eq; lra|]. rewrite V. auto.
Qed.

Lemma dle_fin : forall x y, nonneg x -> fin y -> dle x y = true -> fin x.
Proof. intros x y N F H. destruct (nonneg_cases x N) as [[Fx _]| ->]; [exact Fx|]. destruct y as [s|s| |s m e B]; try discriminate; destruct s; discriminate. Qed.

Section Accepted.
Variables (xmid pdf : list double) (n : nat).
Hypothesis Lx : length xmid = n.
Hypothesis Lp : length pdf = n.
Hypothesis Hn : (2 <= n)%nat.
Hypothesis NP : forall v, In v pdf -> nonneg v.
Hypothesis Fd : fin (width xmid).
Hypothesis Pd : 0 < val (width xmid).

Let M := raw xmid pdf n.
Definition cdfv (k : nat) : double := ddiv (raw xmid pdf k) (raw xmid pdf n).

Lemma raw_nn : forall k, (k <= n)%nat -> nonneg (raw xmid pdf k).
Proof. apply (raw_order xmid pdf n Lp); auto. lia. Qed.

Section Good.
Hypothesis FM : fin M.
Hypothesis PM : 0 < val M.

Lemma max_is_last : np_max_d (tab (S n) (raw xmid pdf)) = M.
Proof. destruct (max_raw xmid pdf n Lp ltac:(lia) NP Fd Pd) as [S N]. apply same_eq; auto. apply raw_nn. lia. Qed.

Lemma raw_fin : forall i j, (i <= j <= n)%nat -> fin (raw xmid pdf i) /\ 0 <= val (raw xmid pdf i) <= val (raw xmid pdf j).
Proof.
  assert (F : forall i, (i <= n)%nat -> fin (raw xmid pdf i)).
  { intros i Hi. apply (dle_fin _ M); auto; [now apply raw_nn|]. apply (raw_mono xmid pdf n Lp); auto; lia. }
  intros i j Hij. split; [apply F; lia|]. split.
  - destruct (nonneg_cases _ (raw_nn i ltac:(lia))) as [[_ P]|E]; [exact P|]. pose proof (F i ltac:(lia)) as Q. rewrite E in Q. discriminate.
  - apply dle_val; [apply F; lia|apply F; lia|]. apply (raw_mono xmid pdf n Lp); auto; lia.
Qed.

Lemma cdf_ok : forall k, (k <= n)%nat -> fin (cdfv k) /\ val (cdfv k) = fl (val (raw xmid pdf k) / val M) /\ 0 <= val (cdfv k) <= 1.
Proof. intros k Hk. destruct (raw_fin k n ltac:(lia)) as [F R]. now apply norm_ok. Qed.

Lemma cdf_first : cdfv 0 = dzero.
Proof.
  unfold cdfv. cbn [raw]. pose proof (sign_pos M FM PM) as S. unfold M in *. destruct (raw xmid pdf n) as [s|s| |s m e B]; try discriminate; [cbn in PM; lra|]. cbn in S. subst. reflexivity.
Qed.

Lemma cdf_last : fin (cdfv n) /\ val (cdfv n) = 1.
Proof. destruct (cdf_ok n ltac:(lia)) as (F & V & _). split; [exact F|]. rewrite V. unfold Rdiv. rewrite Rinv_r by lra. apply fl_fmt, fmt_1. Qed.

Lemma cdf_mono : forall i j, (i <= j <= n)%nat -> val (cdfv i) <= val (cdfv j).
Proof.
  intros i j Hij. destruct (cdf_ok i ltac:(lia)) as (_ & -> & _). destruct (cdf_ok j ltac:(lia)) as (_ & -> & _). destruct (raw_fin i j Hij) as [_ R]. apply fl_mono. apply Rmult_le_compat_r; [left; now apply Rinv_0_lt_compat|lra].
Qed.

(** A step of the cdf needs a positive density. *)
Lemma step_positive : forall j, (j < n)%nat -> val (cdfv j) < val (cdfv (S j)) -> fin (nth j pdf dzero) /\ 0 < val (nth j pdf dzero).
Proof.
  intros j Hj H. assert (Nj : nonneg (nth j pdf dzero)) by (apply NP, nth_In; unfold double in *; lia).
  assert (CN : nth j (cumsum_d pdf) dzero = match j with O => nth 0 pdf dzero | S i => dadd (nth i (cumsum_d pdf) dzero) (nth j pdf dzero) end) by (apply cumsum_nth; unfold double in *; lia).
  destruct (raw_fin (S j) n ltac:(lia)) as [FR _].
  destruct (nonneg_cases _ Nj) as [[Fj Pj]|E].
  - split; [exact Fj|]. destruct (Req_dec (val (nth j pdf dzero)) 0) as [Z|NZ]; [exfalso|lra].
    assert (Q : val (raw xmid pdf j) = val (raw xmid pdf (S j))).
    { destruct j as [|i].
      - cbn [raw]. rewrite CN. destruct (val_0 _ Fj Z) as (s & ->). change (val dzero) with 0. destruct (width xmid) as [t|t| |t m e B]; try discriminate; destruct s, t; reflexivity.
      - cbn [raw] in *. rewrite CN. destruct (cumsum_order pdf NP i ltac:(unfold double in *; lia)) as [Ni _]. destruct (nonneg_cases _ Ni) as [[Fi Pi]|E].
        + destruct (val_0 _ Fj Z) as (s & ->). set (c := nth i (cumsum_d pdf) dzero) in *. clearbody c.
          assert (V : val (dadd c (B754_zero s)) = val c /\ fin (dadd c (B754_zero s))).
          { assert (VZ : val (B754_zero s : double) = 0) by reflexivity. destruct (dadd_ok c (B754_zero s) Fi eq_refl) as [F V]; [rewrite VZ, Rplus_0_r, fl_fmt by apply fmt_val; apply abs_B2R_lt_emax|]. rewrite V, VZ, Rplus_0_r, fl_fmt by apply fmt_val. split; [reflexivity|exact F]. }
          destruct V as [V F]. destruct (Req_dec (val c) 0) as [C0|C0].
          * destruct (val_0 _ Fi C0) as (s1 & ->). rewrite C0 in V. destruct (val_0 _ F V) as (s2 & ->). destruct (width xmid) as [t|t| |t m e B]; try discriminate; destruct s1, s2, t; reflexivity.
          * f_equal. f_equal. apply B2R_Bsign_inj; auto. rewrite !sign_pos; auto; [rewrite V|]; lra.
        + exfalso. destruct (raw_fin (S i) n ltac:(lia)) as [FQ _]. cbn [raw] in FQ. rewrite E in FQ. pose proof (sign_pos _ Fd Pd) as S. destruct (width xmid) as [t|t| |t m e B]; try discriminate. }
    unfold cdfv in H. destruct (cdf_ok j ltac:(lia)) as (_ & V1 & _). destruct (cdf_ok (S j) ltac:(lia)) as (_ & V2 & _). unfold cdfv in V1, V2. rewrite V1, V2, Q in H. lra.
  - exfalso. assert (C : nth j (cumsum_d pdf) dzero = B754_infinity false).
    { rewrite CN. destruct j as [|i]; [exact E|]. destruct (cumsum_order pdf NP i ltac:(unfold double in *; lia)) as [Ni _]. rewrite E. destruct (nonneg_cases _ Ni) as [[Fi _]| ->]; [|reflexivity]. destruct (nth i (cumsum_d pdf) dzero) as [s|s| |s m e B]; try discriminate; reflexivity. }
    cbn [raw] in FR. rewrite C in FR. pose proof (sign_pos _ Fd Pd) as S. destruct (width xmid) as [t|t| |t m e B]; try discriminate.
Qed.

End Good.
End Accepted.

(** ** Position of a draw *)

Lemma filter_prefix : forall A (d : A) (f : A -> bool) l, (forall i j, (i <= j < length l)%nat -> f (nth j l d) = true -> f (nth i l d) = true) ->
  forall i, (i < length l)%nat -> f (nth i l d) = true <-> (i < length (filter f l))%nat.
Proof.
  intros A d f l. induction l as [|a l IH]; intros H i Hi; [cbn in Hi; lia|]. cbn [filter length] in *. destruct (f a) eqn:E.
  - destruct i as [|i]; [cbn [nth length]; split; [lia|auto]|]. cbn [nth length]. rewrite (IH (fun i j Hij => H (S i) (S j) ltac:(lia)) i) by lia. lia.
  - assert (Z : filter f l = []).
    { clear IH i Hi. assert (G : forall b, In b l -> f b = false).
      { intros b Hb. destruct (In_nth l b d Hb) as (k & Hk & <-). destruct (f (nth k l d)) eqn:F; [|reflexivity]. pose proof (H 0%nat (S k) ltac:(lia) F) as Q. cbn in Q. congruence. }
      clear H E. induction l as [|b l IH]; [reflexivity|]. cbn. rewrite (G b) by now left. apply IH. intros; apply G; now right. }
    rewrite Z. cbn. split; [|lia]. intros F. pose proof (H 0%nat i ltac:(lia) F) as Q. cbn in Q. congruence.
Qed.

Lemma position : forall n (c : nat -> double) v, (forall k, (k <= n)%nat -> fin (c k)) -> (forall i j, (i <= j <= n)%nat -> val (c i) <= val (c j)) -> fin v -> val (c 0%nat) <= val v < val (c n) ->
  let j := (length (filter (fun x => dle x v) (tab (S n) c)) - 1)%nat in (j < n)%nat /\ val (c j) <= val v < val (c (S j)).
Proof.
  intros n c v F Mo Fv Hv j. set (m := length (filter (fun x => dle x v) (tab (S n) c))) in *.
  assert (D : forall i, (i <= n)%nat -> dle (c i) v = true <-> val (c i) <= val v).
  { intros i Hi. split; [intros; apply dle_val; auto|intros; apply dle_ok; auto]. }
  assert (P : forall i, (i <= n)%nat -> val (c i) <= val v <-> (i < m)%nat).
  { intros i Hi. rewrite <- (D i Hi). pose proof (filter_prefix _ dzero (fun x => dle x v) (tab (S n) c)) as FP. rewrite tab_length in FP.
    rewrite <- (tab_nth _ (S n) c i dzero) at 1 by lia. apply FP; [|lia]. intros a b Hab. rewrite !tab_nth by lia. rewrite !D by lia. intros Q. pose proof (Mo a b ltac:(lia)). lra. }
  assert (M0 : (0 < m)%nat) by (apply (P 0%nat); [lia|lra]). assert (Mn : (m <= n)%nat) by (destruct (le_lt_dec m n) as [|L]; [assumption|]; apply (P n) in L; [lra|lia]).
  unfold j. split; [lia|]. split; [apply P; lia|]. replace (S (m - 1)) with m by lia. apply Rnot_le_lt. intros Q. apply P in Q; lia.
Qed.

(** ** One interpolation *)

Definition interp_val (a b c d v : R) : R := fl (fl (fl (fl (b - a) / fl (d - c)) * fl (v - c)) + a).

Lemma gap_big : forall c d v, fmt c -> fmt d -> 0 <= c -> c < d -> b2 (-53) <= d -> v = d -> b2 (-106) <= d - c.
Proof.
  intros c d v Fc Fd Pc H Hd _. destruct (Rlt_or_le c (b2 (-54))) as [L|L].
  - assert (E : b2 (-53) = 2 * b2 (-54)) by (change (-53)%Z with (1 + -54)%Z; rewrite bpow_plus; reflexivity). assert (b2 (-106) <= b2 (-54)) by (apply bpow_le; lia). lra.
  - destruct (multiple_at c (-54) Fc ltac:(lia)) as (p & Ep); [right; rewrite Rabs_pos_eq by exact Pc; exact L|].
    destruct (multiple_at d (-54) Fd ltac:(lia)) as (q & Eq); [right; rewrite Rabs_pos_eq by lra; apply Rle_trans with (2 := Hd); apply bpow_le; lia|].
    change (-54 - 52)%Z with (-106)%Z in *. pose proof (bpow_gt_0 radix2 (-106)) as P. assert (Q : (p < q)%Z) by (apply lt_IZR; apply Rmult_lt_reg_r with (b2 (-106)); [exact P|lra]).
    assert (1 <= IZR q - IZR p) by (rewrite <- minus_IZR; apply IZR_le; lia). rewrite Ep, Eq. nra.
Qed.

Lemma interp_core : forall a b c d v H, fmt a -> fmt b -> fmt c -> fmt d -> fmt v -> a <= b -> Rabs a <= H -> Rabs b <= H -> b2 (-900) <= H <= b2 600 ->
  0 <= c -> d <= 1 -> c <= v < d -> b2 (-53) <= d ->
  let w := fl (b - a) in let D := fl (d - c) in let T := fl (v - c) in let s := fl (w / D) in let p := fl (s * T) in let y := fl (p + a) in
  0 <= w <= b2 603 /\ b2 (-106) <= D <= 1 /\ 0 <= T <= D /\ 0 <= s <= b2 709 /\ 0 <= p <= b2 709 /\ a <= y /\
  Rabs (y - (a + (v - c) / (d - c) * (b - a))) <= b2 (-49) * H /\ Rabs y <= b2 602.
Proof.
  intros a b c d v H Fa Fb Fc Fd Fv Hab Ha Hb HH Pc Pd Hv Hd w D T s p y.
  pose proof u_pos as U. pose proof (bpow_gt_0 radix2 (-900)) as P900. set (g := b - a). set (h := d - c). set (t := v - c).
  apply Rabs_le_inv in Ha. apply Rabs_le_inv in Hb.
  assert (Hg : 0 <= g <= 2 * H) by (unfold g; lra). assert (Hh : b2 (-106) <= h <= 1) by (split; [apply (gap_big c d d); auto; lra|unfold h; lra]).
  pose proof (bpow_gt_0 radix2 (-106)) as P106. assert (Ht : 0 <= t < h) by (unfold t, h; lra).
  assert (W1 : Rabs (w - g) <= u * g) by (pose proof (add_err b (- a) Fb (fmt_opp a Fa)) as E; rewrite (Rabs_pos_eq (b + - a)) in E by (unfold g in Hg; lra); exact E).
  assert (D1 : Rabs (D - h) <= u * h) by (pose proof (add_err d (- c) Fd (fmt_opp c Fc)) as E; rewrite (Rabs_pos_eq (d + - c)) in E by lra; exact E).
  assert (T1 : Rabs (T - t) <= u * t) by (pose proof (add_err v (- c) Fv (fmt_opp c Fc)) as E; rewrite (Rabs_pos_eq (v + - c)) in E by lra; exact E).
  assert (W0 : 0 <= w) by (rewrite <- fl_0; apply fl_mono; unfold g in Hg; lra).
  assert (D0 : b2 (-106) <= D <= 1).
  { split; [rewrite <- (fl_fmt (b2 (-106))) by (apply fmt_b2; lia)|rewrite <- (fl_fmt 1 fmt_1)]; apply fl_mono; unfold h in Hh; lra. }
  assert (T0 : 0 <= T <= D) by (split; [rewrite <- fl_0|]; apply fl_mono; unfold t, h in Ht; lra).
  apply Rabs_le_inv in W1. apply Rabs_le_inv in D1. apply Rabs_le_inv in T1.
  assert (B600 : 8 * b2 600 = b2 603) by (change 8 with (b2 3); rewrite <- bpow_plus; reflexivity).
  assert (W2 : w <= 3 * H) by nra.
  set (r := t / h * g). assert (TH : 0 <= t / h <= 1).
  { split; [apply Rmult_le_pos; [lra|left; apply Rinv_0_lt_compat; lra]|]. apply Rmult_le_reg_r with h; [lra|]. unfold Rdiv. rewrite Rmult_assoc, Rinv_l by lra. lra. }
  assert (R0 : 0 <= r <= g) by (unfold r; nra).
  (* the exact quotient of the rounded differences *)
  set (q := w / D * T). assert (Q0 : Rabs (q - r) <= 4 * u * r).
  { assert (E : q - r = (w * T * h - g * t * D) * / (D * h)) by (unfold q, r; field; lra). assert (PDH : 0 < D * h) by (apply Rmult_lt_0_compat; lra).
    rewrite E, Rabs_mult, (Rabs_pos_eq (/ (D * h))) by (left; now apply Rinv_0_lt_compat).
    assert (E2 : 4 * u * r = 4 * u * (g * t * D) * / (D * h)) by (unfold r; field; lra). rewrite E2. apply Rmult_le_compat_r; [left; now apply Rinv_0_lt_compat|].
    assert (GT : 0 <= g * t) by (apply Rmult_le_pos; lra).
    assert (WT : Rabs (w * T - g * t) <= (2 * u + u * u) * (g * t)).
    { replace (w * T - g * t) with ((w - g) * T + g * (T - t)) by ring. apply Rle_trans with (1 := Rabs_triang _ _). rewrite !Rabs_mult, (Rabs_pos_eq T), (Rabs_pos_eq g) by lra.
      assert (A1 : Rabs (w - g) * T <= u * g * ((1 + u) * t)) by (apply Rmult_le_compat; [apply Rabs_pos|lra|apply Rabs_le; lra|lra]).
      assert (A2 : g * Rabs (T - t) <= g * (u * t)) by (apply Rmult_le_compat_l; [lra|apply Rabs_le; lra]). nra. }
    replace (w * T * h - g * t * D) with ((w * T - g * t) * h + g * t * (h - D)) by ring. apply Rle_trans with (1 := Rabs_triang _ _). rewrite !Rabs_mult, (Rabs_pos_eq h), (Rabs_pos_eq g), (Rabs_pos_eq t) by lra.
    assert (A1 : Rabs (w * T - g * t) * h <= (2 * u + u * u) * (g * t) * h) by (apply Rmult_le_compat_r; lra).
    assert (A2 : g * t * Rabs (h - D) <= g * t * (u * h)) by (apply Rmult_le_compat_l; [lra|apply Rabs_le; lra]).
    assert (A3 : 4 * u * (g * t * ((1 - u) * h)) <= 4 * u * (g * t * D)) by (apply Rmult_le_compat_l; [lra|apply Rmult_le_compat_l; lra]).
    assert (A4 : 0 <= g * t * h) by (apply Rmult_le_pos; lra). set (z := g * t * h) in *.
    assert (A5 : (3 * u + u * u) * z <= 4 * u * (1 - u) * z) by (apply Rmult_le_compat_r; nra). unfold z in A5. lra. }
  assert (WD : 0 <= w / D <= b2 709).
  { split; [apply Rmult_le_pos; [exact W0|left; apply Rinv_0_lt_compat; lra]|]. apply Rmult_le_reg_r with D; [lra|]. unfold Rdiv. rewrite Rmult_assoc, Rinv_l by lra. rewrite Rmult_1_r.
    apply Rle_trans with (b2 709 * b2 (-106)); [rewrite <- bpow_plus; change (709 + -106)%Z with 603%Z; lra|apply Rmult_le_compat_l; [apply bpow_ge_0|lra]]. }
  assert (S0 : 0 <= s <= b2 709) by (split; [rewrite <- fl_0|rewrite <- (fl_fmt (b2 709)) by (apply fmt_b2; lia)]; apply fl_mono; lra).
  assert (ST : 0 <= s * T <= b2 709).
  { split; [apply Rmult_le_pos; lra|]. rewrite <- (Rmult_1_r (b2 709)). apply Rmult_le_compat; lra. }
  assert (P0 : 0 <= p <= b2 709) by (split; [rewrite <- fl_0|rewrite <- (fl_fmt (b2 709)) by (apply fmt_b2; lia)]; apply fl_mono; lra).
  assert (Y0 : a <= y) by (rewrite <- (fl_fmt a Fa) at 1; apply fl_mono; lra).
  set (e := b2 (-1075)). assert (E0 : 0 < e) by apply bpow_gt_0.
  assert (E1 : 8 * e <= u * H).
  { apply Rle_trans with (u * b2 (-900)); [|apply Rmult_le_compat_l; lra]. unfold e, u. change 8 with (b2 3). rewrite <- !bpow_plus. apply bpow_le. lia. }
  pose proof (fl_mixed (w / D)) as S1. fold s in S1. fold e in S1. rewrite (Rabs_pos_eq (w / D)) in S1 by lra. apply Rabs_le_inv in S1.
  pose proof (fl_mixed (s * T)) as P1. fold p in P1. fold e in P1. rewrite (Rabs_pos_eq (s * T)) in P1 by lra. apply Rabs_le_inv in P1.
  assert (QN : 0 <= q) by (unfold q; apply Rmult_le_pos; lra).
  assert (SQ : Rabs (s * T - q) <= u * q + e).
  { replace (s * T - q) with ((s - w / D) * T) by (unfold q; ring). rewrite Rabs_mult, (Rabs_pos_eq T) by lra. apply Rle_trans with ((u * (w / D) + e) * T); [apply Rmult_le_compat_r; [lra|apply Rabs_le; lra]|].
    replace ((u * (w / D) + e) * T) with (u * q + e * T) by (unfold q; ring). apply Rplus_le_compat_l. rewrite <- (Rmult_1_r e) at 2. apply Rmult_le_compat_l; lra. }
  apply Rabs_le_inv in Q0. apply Rabs_le_inv in SQ.
  assert (QR : q <= (1 + 4 * u) * r) by lra.
  assert (PR : Rabs (p - r) <= 7 * (u * r) + 3 * e).
  { assert (UQ : u * q <= u * ((1 + 4 * u) * r)) by (apply Rmult_le_compat_l; lra). assert (UR : 0 <= u * r) by (apply Rmult_le_pos; lra).
    assert (US : u * (s * T) <= u * (q + u * q + e)) by (apply Rmult_le_compat_l; lra). assert (UE : u * e <= e) by nra.
    assert (UUR : u * (u * r) <= / 1024 * (u * r)) by (apply Rmult_le_compat_r; lra). assert (UUQ : u * (u * q) <= / 1024 * (u * q)) by (apply Rmult_le_compat_r; [apply Rmult_le_pos; lra|lra]).
    apply Rabs_le. lra. }
  apply Rabs_le_inv in PR. assert (UR : u * r <= 2 * (u * H)) by nra.
  assert (UH : 0 <= u * H) by (apply Rmult_le_pos; lra).
  assert (UUH : u * (u * H) <= / 1024 * (u * H)) by (apply Rmult_le_compat_r; lra).
  assert (PA : Rabs (p + a) <= H + 15 * (u * H)).
  { assert (RA : - H <= r + a <= H) by (unfold g in R0; lra). apply Rabs_le. lra. }
  pose proof (add_err p a (fmt_fl _) Fa) as Y1. fold y in Y1.
  assert (Y2 : u * Rabs (p + a) <= u * H + 15 * (u * (u * H))) by (apply Rle_trans with (u * (H + 15 * (u * H))); [apply Rmult_le_compat_l; lra|apply Req_le; ring]).
  apply Rabs_le_inv in Y1.
  assert (FIN : Rabs (y - (a + r)) <= 16 * (u * H)) by (apply Rabs_le; lra).
  assert (B49 : b2 (-49) = 16 * u) by (unfold u; change 16 with (b2 4); rewrite <- bpow_plus; reflexivity).
  assert (B602 : 4 * b2 600 = b2 602) by (change 4 with (b2 2); rewrite <- bpow_plus; reflexivity).
  split; [split; [exact W0|lra]|]. split; [exact D0|]. split; [exact T0|]. split; [exact S0|]. split; [exact P0|]. split; [exact Y0|]. split.
  - change ((v - c) / (d - c) * (b - a)) with r. rewrite B49, Rmult_assoc. exact FIN.
  - apply Rabs_le_inv in PA. assert (u * H <= / 1024 * H) by (apply Rmult_le_compat_r; lra). apply Rabs_le. lra.
Qed.
