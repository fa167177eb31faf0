(** * Theorems: plane and star indices in double precision (C86) *)

From Coq Require Import Reals ZArith Bool Lia Lra Psatz.
From Flocq Require Import Core.
From Verif Require Import Base BaseP Spec MHealpixIndex MHealpixFloat SpecDouble MIndexFloat PHealpixIndex PHealpixCentre PHealpixFloat
  PDouble PGridsDouble PPiDouble THealpixFloat THealpix.
Open Scope R_scope.

(** ** Lemmas *)

Lemma fl_h : forall k x, x = IZR k / 2 -> (Z.abs k <= 2 ^ 53)%Z -> fl x = x.
Proof. intros k x -> H. now apply fl_half. Qed.

Lemma half_mul : forall k, / 2 * IZR k = IZR k / 2.
Proof. intros. field. Qed.

Lemma floor_fl : forall a b, (0 <= a < 4 * b)%Z -> (1 <= b <= 2 ^ 50)%Z -> Zfloor (fl (IZR a / IZR b)) = (a / b)%Z.
Proof.
  intros a b Ha Hb. pose proof (Z_div_mod_eq_full a b) as E. pose proof (Z.mod_pos_bound a b ltac:(lia)) as M.
  set (q := (a / b)%Z) in *. set (r := (a mod b)%Z) in *. assert (Q : (0 <= q < 4)%Z) by (split; [apply Z.div_pos; lia|apply Z.div_lt_upper_bound; lia]).
  assert (N : 0 < IZR b) by (apply IZR_lt; lia). assert (N' : IZR b <= IZR (2 ^ 50)) by (apply IZR_le; lia).
  assert (Er : IZR a / IZR b = IZR q + IZR r * / IZR b) by (rewrite E, plus_IZR, mult_IZR; field; lra).
  assert (R0 : 0 <= IZR r) by (apply IZR_le; lia). assert (R1 : IZR r <= IZR b - 1) by (rewrite <- minus_IZR; apply IZR_le; lia).
  assert (Ib : IZR b * / IZR b = 1) by (apply Rinv_r; lra). assert (Pb : 0 < / IZR b) by (now apply Rinv_0_lt_compat).
  apply Zfloor_unique. rewrite Er. split.
  - apply fl_ge; [apply fl_int; lia|]. nra.
  - set (y := IZR ((q + 1) * 2 ^ 50 - 1) * bpow radix2 (- (50))). assert (P50 : 0 < / IZR (2 ^ 50)) by (apply Rinv_0_lt_compat, IZR_lt; lia).
    assert (Ey : y = IZR q + 1 - / IZR (2 ^ 50)).
    { unfold y. rewrite minus_IZR, mult_IZR, plus_IZR. change (bpow radix2 (- (50))) with (/ IZR (2 ^ 50)). field. apply not_0_IZR. lia. }
    apply Rle_lt_trans with y; [|rewrite Ey; lra].
    apply fl_le; [apply fl_dyadic; lia|]. rewrite Ey. assert (/ IZR (2 ^ 50) <= / IZR b) by (apply Rinv_le; auto). nra.
Qed.

Lemma trunc_half : forall n, (0 <= n <= 2 ^ 53)%Z -> Ztrunc (fl (IZR n / 2)) = Z.quot n 2.
Proof.
  intros n H. rewrite fl_half by lia. rewrite Ztrunc_floor by (apply Rmult_le_pos; [apply IZR_le; lia|lra]).
  rewrite (Zfloor_IZR_div n 2) by lia. symmetry. apply Z.quot_div_nonneg; lia.
Qed.

(** One polar cap, [i] rings from the pole. *)
Lemma cap_fl_jd : forall nside i j, (1 <= nside <= 2 ^ 48)%Z -> (1 <= i <= nside)%Z -> (1 <= j <= 4 * i)%Z ->
  let k := IZR (Zfloor (fl (IZR (4 * (j - 1)) / IZR (4 * i)))) in
  let x0 := fl (fl (IZR (Ztrunc (fl (IZR nside / 2)))) + fl (fl (IZR nside) * k)) in
  let x1 := if (nside mod 2 =? 0)%Z then fl (x0 - fl (/ 2 * fl (IZR (i - 1))))
            else fl (fl (x0 - fl (/ 2 * fl (IZR i))) + 1) in
  fl (x1 + fl (Rmod (fl (IZR (j - 1))) (fl (IZR (4 * i) / 4))))
  = IZR (2 * nside * ((j - 1) / i) + (nside - i + 1) + 2 * ((j - 1) mod i)) / 2.
Proof.
  intros nside i j Hn Hi Hj k x0 x1. rewrite <- cap_jd by lia.
  pose proof (cap_facet nside i j Hi Hj) as (F1 & F2 & F3).
  assert (Ek : Zfloor (IZR (4 * (j - 1)) / IZR (4 * i)) = ((j - 1) / i)%Z) by (rewrite Zfloor_IZR_div by lia; apply Z.div_mul_cancel_l; lia).
  assert (Ekf : Zfloor (fl (IZR (4 * (j - 1)) / IZR (4 * i))) = ((j - 1) / i)%Z) by (rewrite floor_fl by lia; apply Z.div_mul_cancel_l; lia).
  rewrite Ek. set (q := ((j - 1) / i)%Z) in *. set (r := ((j - 1) mod i)%Z) in *.
  assert (Ex0 : x0 = IZR (Z.quot nside 2 + nside * q)).
  { unfold x0, k. rewrite Ekf, trunc_half by lia. assert (0 <= Z.quot nside 2 <= nside)%Z by (rewrite Z.quot_div_nonneg by lia; split; [apply Z.div_pos; lia|apply Z.div_le_upper_bound; lia]).
    rewrite (fl_int nside), (fl_int (Z.quot nside 2)) by lia. rewrite <- mult_IZR, (fl_int (nside * q)) by nia. rewrite <- plus_IZR. apply fl_int. nia. }
  assert (Hq : (0 <= Z.quot nside 2 + nside * q <= 4 * nside)%Z) by (rewrite Z.quot_div_nonneg by lia; assert (0 <= nside / 2 <= nside)%Z by (split; [apply Z.div_pos; lia|apply Z.div_le_upper_bound; lia]); nia).
  set (h := (Z.quot nside 2 + nside * q)%Z) in *.
  assert (Ex1 : x1 = IZR h + (if (nside mod 2 =? 0)%Z then - (/ 2 * IZR (i - 1)) else - (/ 2 * IZR i) + 1)).
  { unfold x1. rewrite Ex0. destruct (nside mod 2 =? 0)%Z.
    - rewrite (fl_int (i - 1)) by lia. rewrite (fl_h (i - 1) (/ 2 * IZR (i - 1))) by (lia || apply half_mul).
      rewrite (fl_h (2 * h - (i - 1))); [ring| |lia]. rewrite (minus_IZR (2 * h)), mult_IZR. field.
    - rewrite (fl_int i) by lia. rewrite (fl_h i (/ 2 * IZR i)) by (lia || apply half_mul).
      rewrite (fl_h (2 * h - i) (IZR h - / 2 * IZR i)); [|rewrite minus_IZR, mult_IZR; field|lia].
      rewrite (fl_h (2 * h - i + 2)); [ring| |lia]. rewrite plus_IZR, minus_IZR, mult_IZR. field. }
  assert (Em : Rmod (fl (IZR (j - 1))) (fl (IZR (4 * i) / 4)) = IZR r).
  { rewrite fl_int by lia. rewrite fl_quarter by lia. replace (IZR (4 * i) / 4) with (IZR i) by (rewrite mult_IZR; field). apply Rmod_IZR. lia. }
  rewrite Em. rewrite (fl_int r) by lia. replace (Rmod (IZR (j - 1)) (IZR (4 * i) / 4)) with (IZR r).
  2: { replace (IZR (4 * i) / 4) with (IZR i) by (rewrite mult_IZR; field). symmetry. apply Rmod_IZR. lia. }
  rewrite Ex1. destruct (nside mod 2 =? 0)%Z.
  - apply fl_h with (2 * h - (i - 1) + 2 * r)%Z; [|lia]. rewrite plus_IZR, (minus_IZR (2 * h)), !mult_IZR. field.
  - apply fl_h with (2 * h - i + 2 + 2 * r)%Z; [|lia]. rewrite !plus_IZR, minus_IZR, !mult_IZR. field.
Qed.

Lemma j2jd_fl_legal : forall nside i j, (1 <= nside <= 2 ^ 48)%Z -> legal_ij nside i j ->
  j2jd_fl i j nside = Ok (IZR (jd2 nside i j) / 2).
Proof.
  intros nside i j Hn Hl. pose proof (ring_len_cap nside i j ltac:(lia) Hl) as [R1 [R2 R3]]. destruct Hl as [Hi _].
  rewrite <- (j2jd_legal nside i j) by lia. unfold j2jd_fl. destruct (Z.leb_spec i nside) as [A|A].
  - unfold j2jd. destruct (Z.leb_spec i nside) as [A'|A']; [clear A'|lia]. destruct (Z.eqb_spec (4 * i) 0); [lia|]. apply f_equal.
    etransitivity; [apply (cap_fl_jd nside i j); lia|]. rewrite <- cap_jd by lia. destruct (nside mod 2 =? 0)%Z; ring.
  - unfold j2jd. destruct (Z.leb_spec i nside) as [A'|A']; [lia|clear A'].
    replace (nside <? i)%Z with true by (symmetry; apply Z.ltb_lt; lia). rewrite andb_true_l.
    destruct (Z.ltb_spec i (3 * nside)) as [B|B].
    + apply f_equal. specialize (R2 ltac:(lia)).
      set (m := if (nside mod 2 =? 0)%Z then ((i + 1) mod 2)%Z else (i mod 2)%Z).
      assert (Hm : (0 <= m < 2)%Z) by (unfold m; destruct (nside mod 2 =? 0)%Z; apply Z.mod_pos_bound; lia).
      replace (if (nside mod 2 =? 0)%Z then fl (/ 2 * fl (IZR ((i + 1) mod 2))) else fl (/ 2 * fl (IZR (i mod 2)))) with (fl (/ 2 * fl (IZR m))) by (unfold m; destruct (nside mod 2 =? 0)%Z; reflexivity).
      replace (if (nside mod 2 =? 0)%Z then / 2 * IZR ((i + 1) mod 2) else / 2 * IZR (i mod 2)) with (/ 2 * IZR m) by (unfold m; destruct (nside mod 2 =? 0)%Z; reflexivity).
      rewrite (fl_int m), (fl_int j) by lia. rewrite (fl_h m (/ 2 * IZR m)) by (lia || apply half_mul).
      rewrite (fl_h (m + 2 * j) (/ 2 * IZR m + IZR j)); [|rewrite plus_IZR, mult_IZR; field|lia].
      apply fl_h with (m + 2 * j - 2)%Z; [|lia]. rewrite minus_IZR, plus_IZR, mult_IZR. field.
    + destruct (Z.eqb_spec (4 * (4 * nside - i)) 0); [lia|]. apply f_equal. specialize (R3 ltac:(lia)).
      etransitivity; [apply (cap_fl_jd nside (4 * nside - i) j); lia|]. rewrite <- cap_jd by lia. destruct (nside mod 2 =? 0)%Z; ring.
Qed.

Lemma i2id_fl_ok : forall nside i, (1 <= nside <= 2 ^ 48)%Z -> (0 <= i <= 4 * nside)%Z -> i2id_fl i nside = i2id i nside.
Proof.
  intros nside i Hn Hi. unfold i2id_fl, i2id. rewrite fl_int, fl_half by lia. apply fl_h with (2 * nside - i)%Z; [|lia].
  rewrite minus_IZR, mult_IZR. field.
Qed.

(** ** C86 *)

(** Up to nside 2^48 rounding does not change the dash or star indices. *)
Theorem C86_indices : forall nside i j, (1 <= nside <= 2 ^ 48)%Z -> legal_ij nside i j ->
  exists jd, j2jd i j nside = Ok jd /\ j2jd_fl i j nside = Ok jd /\ i2id_fl i nside = i2id i nside /\
    ijd2ijs_fl (i2id_fl i nside) jd nside = ijd2ijs (i2id i nside) jd nside.
Proof.
  intros nside i j Hn Hl. exists (IZR (jd2 nside i j) / 2). pose proof (jd2_range nside i j ltac:(lia) Hl) as B.
  split; [apply j2jd_legal; [lia|apply Hl]|]. split; [now apply j2jd_fl_legal|]. destruct Hl as [Hi _].
  assert (E : i2id_fl i nside = i2id i nside) by (apply i2id_fl_ok; lia). split; [exact E|]. rewrite E, i2id_id2.
  set (a := jd2 nside i j) in *. set (b := id2 nside i) in *. assert (Hb : (Z.abs b <= 2 * nside)%Z) by (unfold b, id2; lia).
  unfold ijd2ijs_fl, ijd2ijs. rewrite (fl_half nside) by lia.
  rewrite (fl_h (a - b) (IZR a / 2 - IZR b / 2)) by (lia || (rewrite minus_IZR; field)).
  rewrite (fl_h (a + b) (IZR a / 2 + IZR b / 2)) by (lia || (rewrite plus_IZR; field)).
  rewrite (fl_h (a - b + nside) (IZR a / 2 - IZR b / 2 + IZR nside / 2)) by (lia || (rewrite plus_IZR, minus_IZR; field)).
  rewrite (fl_h (a + b + nside) (IZR a / 2 + IZR b / 2 + IZR nside / 2)) by (lia || (rewrite !plus_IZR; field)).
  rewrite (fl_h (a - b + nside - 1) (IZR a / 2 - IZR b / 2 + IZR nside / 2 - / 2)) by (lia || (rewrite minus_IZR, plus_IZR, minus_IZR; field)).
  rewrite (fl_h (a + b + nside - 1) (IZR a / 2 + IZR b / 2 + IZR nside / 2 - / 2)) by (lia || (rewrite minus_IZR, !plus_IZR; field)).
  reflexivity.
Qed.
Print Assumptions C86_indices.

Theorem C86_star_inverse : forall nside is js, (1 <= nside <= 2 ^ 48)%Z -> (Z.abs is <= 2 ^ 50)%Z -> (Z.abs js <= 2 ^ 50)%Z ->
  ijs2ijd_fl is js nside = ijs2ijd is js nside /\
  ijd2ijs_fl (fst (ijs2ijd_fl is js nside)) (snd (ijs2ijd_fl is js nside)) nside = (is, js).
Proof.
  intros nside is js Hn Hi Hj.
  assert (E : ijs2ijd_fl is js nside = (IZR (js - is) / 2, IZR (is + js + 1 - nside) / 2)).
  { unfold ijs2ijd_fl. rewrite (fl_int is), (fl_int js), (fl_int nside) by lia.
    rewrite (fl_h (2 * is + 1) (IZR is + / 2)) by (lia || (rewrite plus_IZR, mult_IZR; field)).
    rewrite (fl_h (2 * js + 1) (IZR js + / 2)) by (lia || (rewrite plus_IZR, mult_IZR; field)).
    rewrite (fl_h (2 * (js - is)) (IZR js + / 2 - (IZR is + / 2))) by (lia || (rewrite mult_IZR, minus_IZR; field)).
    rewrite (fl_h (2 * (is + js + 1)) (IZR is + / 2 + (IZR js + / 2))) by (lia || (rewrite mult_IZR, !plus_IZR; field)).
    rewrite (fl_h (2 * (is + js + 1 - nside)) (IZR is + / 2 + (IZR js + / 2) - IZR nside)) by (lia || (rewrite mult_IZR, minus_IZR, !plus_IZR; field)).
    rewrite (fl_h (js - is)) by (lia || (rewrite minus_IZR; field)).
    rewrite (fl_h (is + js + 1 - nside)) by (lia || (rewrite minus_IZR, !plus_IZR; field)).
    rewrite (minus_IZR js), (minus_IZR _ nside), !plus_IZR. apply f_equal2; field. }
  split.
  - rewrite E. unfold ijs2ijd. rewrite (minus_IZR js), (minus_IZR _ nside), !plus_IZR. apply f_equal2; field.
  - rewrite E. cbn [fst snd]. set (a := (is + js + 1 - nside)%Z). set (b := (js - is)%Z).
    unfold ijd2ijs_fl. rewrite (fl_half nside) by lia.
    rewrite (fl_h (a - b) (IZR a / 2 - IZR b / 2)) by (lia || (rewrite minus_IZR; field)).
    rewrite (fl_h (a + b) (IZR a / 2 + IZR b / 2)) by (lia || (rewrite plus_IZR; field)).
    rewrite (fl_h (a - b + nside) (IZR a / 2 - IZR b / 2 + IZR nside / 2)) by (lia || (rewrite plus_IZR, minus_IZR; field)).
    rewrite (fl_h (a + b + nside) (IZR a / 2 + IZR b / 2 + IZR nside / 2)) by (lia || (rewrite !plus_IZR; field)).
    rewrite (fl_h (2 * is) (IZR a / 2 - IZR b / 2 + IZR nside / 2 - / 2)) by (lia || (unfold a, b; rewrite mult_IZR, !minus_IZR, !plus_IZR; field)).
    rewrite (fl_h (2 * js) (IZR a / 2 + IZR b / 2 + IZR nside / 2 - / 2)) by (lia || (unfold a, b; rewrite mult_IZR, !minus_IZR, !plus_IZR; field)).
    apply f_equal2.
    + replace (IZR a / 2 - IZR b / 2 + IZR nside / 2 - / 2) with (IZR is) by (unfold a, b; rewrite !minus_IZR, !plus_IZR; field). apply Ztrunc_IZR.
    + replace (IZR a / 2 + IZR b / 2 + IZR nside / 2 - / 2) with (IZR js) by (unfold a, b; rewrite !minus_IZR, !plus_IZR; field). apply Ztrunc_IZR.
Qed.
Print Assumptions C86_star_inverse.

Lemma fl_rel_abs : forall x, b2 (-1022) <= Rabs x -> Rabs (fl x - x) <= b2 (-53) * Rabs x.
Proof.
  intros x H. destruct (Rle_or_lt 0 x) as [S|S].
  - rewrite (Rabs_pos_eq x) in * by exact S. now apply fl_rel.
  - rewrite (Rabs_left x) in * by exact S. pose proof (fl_rel (- x) H) as E. rewrite fl_opp in E.
    replace (fl x - x) with (- (- fl x - - x)) by ring. now rewrite Rabs_Ropp.
Qed.

Lemma scaled_close : forall n k, (1 <= n <= 2 ^ 48)%Z -> (Z.abs k <= 8 * n)%Z ->
  Rabs (fl (fl (IZR k / 2 * (tau / 2)) / fl (IZR (2 * n))) - IZR k * half_diag n) <= b2 (-48).
Proof.
  intros n k Hn Hk. rewrite (fl_int (2 * n)) by lia. pose proof tau_bounds as TB. pose proof pi_accuracy as PA. pose proof u_small as Hu.
  assert (E48 : b2 (-48) = 32 * b2 (-53)) by (change (-48)%Z with (5 + -53)%Z; rewrite bpow_plus; reflexivity).
  assert (E52 : b2 (-52) = 2 * b2 (-53)) by (change (-52)%Z with (1 + -53)%Z; rewrite bpow_plus; reflexivity).
  rewrite E48. rewrite E52 in PA. set (u := b2 (-53)) in *.
  assert (N : 1 <= IZR n) by (apply IZR_le; lia).
  destruct (Z.eq_dec k 0) as [->|K].
  { unfold Rdiv at 2. rewrite Rmult_0_l, Rmult_0_l, (fl_fmt 0) by apply fmt_0. unfold Rdiv. rewrite Rmult_0_l, (fl_fmt 0) by apply fmt_0.
    rewrite Rmult_0_l, Rminus_diag_eq, Rabs_R0 by reflexivity. lra. }
  assert (K1 : 1 <= Rabs (IZR k)) by (rewrite <- abs_IZR; apply IZR_le; lia).
  assert (K2 : Rabs (IZR k) <= 8 * IZR n) by (rewrite <- abs_IZR, <- mult_IZR; apply IZR_le; lia).
  set (a := IZR k / 2 * (tau / 2)). assert (Aa : Rabs a = Rabs (IZR k) * (tau / 4)).
  { unfold a. replace (IZR k / 2 * (tau / 2)) with (IZR k * (tau / 4)) by field. rewrite Rabs_mult, (Rabs_pos_eq (tau / 4)); lra. }
  assert (E1 : Rabs (fl a - a) <= u * Rabs a).
  { apply fl_rel_abs. apply Rle_trans with (b2 0); [apply bpow_le; lia|]. rewrite b2_0, Aa. nra. }
  assert (F1 : Rabs (fl a) <= (1 + u) * Rabs a).
  { replace (fl a) with (a + (fl a - a)) by ring. apply Rle_trans with (1 := Rabs_triang _ _). lra. }
  assert (F2 : (1 - u) * Rabs a <= Rabs (fl a)).
  { pose proof (Rabs_triang (fl a) (a - fl a)) as T. replace (fl a + (a - fl a)) with a in T by ring. rewrite (Rabs_minus_sym a) in T. lra. }
  set (v := / IZR (2 * n)). assert (Ev : IZR n * v = / 2) by (unfold v; rewrite mult_IZR; field; lra).
  assert (Pv : 0 < v) by (apply Rinv_0_lt_compat; rewrite mult_IZR; lra).
  assert (E2 : Rabs (fl (fl a * v) - fl a * v) <= u * Rabs (fl a * v)).
  { apply fl_rel_abs. rewrite Rabs_mult, (Rabs_pos_eq v) by lra. assert (1 <= Rabs (fl a)) by (rewrite Aa in F2; nra).
    assert (L : b2 (-50) <= v).
    { unfold v. assert (Bn : IZR (2 * n) <= IZR (2 ^ 50)) by (apply IZR_le; lia). change (b2 (-50)) with (/ IZR (2 ^ 50)). apply Rinv_le; [rewrite mult_IZR; lra|exact Bn]. }
    apply Rle_trans with (b2 (-50)); [apply bpow_le; lia|nra]. }
  rewrite Rabs_mult, (Rabs_pos_eq v) in E2 by lra.
  unfold Rdiv at 1. fold v. replace (IZR k * half_diag n) with (IZR k / 2 * PI * v) by (unfold half_diag, v; rewrite mult_IZR; field; lra).
  replace (fl (fl a * v) - IZR k / 2 * PI * v) with ((fl (fl a * v) - fl a * v) + ((fl a - a) * v - IZR k / 2 * v * (PI - tau / 2))) by (unfold a; ring).
  apply Rle_trans with (1 := Rabs_triang _ _).
  assert (T3 : Rabs ((fl a - a) * v - IZR k / 2 * v * (PI - tau / 2)) <= u * Rabs a * v + Rabs (IZR k) * / 2 * v * (2 * u)).
  { apply Rle_trans with (1 := Rabs_triang _ _). rewrite Rabs_Ropp. apply Rplus_le_compat.
    - rewrite Rabs_mult, (Rabs_pos_eq v) by lra. apply Rmult_le_compat_r; lra.
    - unfold Rdiv. rewrite !Rabs_mult, (Rabs_pos_eq v), (Rabs_pos_eq (/ 2)), (Rabs_pos_eq (PI - _)) by (unfold Rdiv in PA; lra). apply Rmult_le_compat_l; [|unfold Rdiv in PA; lra].
      apply Rmult_le_pos; [|lra]. apply Rmult_le_pos; [apply Rabs_pos|lra]. }
  assert (KV : Rabs (IZR k) * v <= 4) by nra. assert (KV0 : 0 <= Rabs (IZR k) * v) by nra.
  assert (AV : Rabs a * v <= 7).
  { rewrite Aa. replace (Rabs (IZR k) * (tau / 4) * v) with (Rabs (IZR k) * v * (tau / 4)) by ring. nra. }
  assert (FV : Rabs (fl a) * v <= 8).
  { apply Rle_trans with ((1 + u) * (Rabs a * v)); [nra|]. assert (0 <= Rabs a * v) by (apply Rmult_le_pos; [apply Rabs_pos|lra]). nra. }
  assert (Q1 : u * (Rabs (fl a) * v) <= u * 8) by (apply Rmult_le_compat_l; lra).
  assert (Q2 : u * Rabs a * v <= u * 7) by (rewrite Rmult_assoc; apply Rmult_le_compat_l; lra).
  assert (Q3 : Rabs (IZR k) * / 2 * v * (2 * u) <= u * 4).
  { replace (Rabs (IZR k) * / 2 * v * (2 * u)) with (u * (Rabs (IZR k) * v)) by field. apply Rmult_le_compat_l; lra. }
  lra.
Qed.

(** Up to the nside where [healpix_pix2ij] itself is right, the computed plane
    centre is within [2^-48] of the true centre, inside its own pixel and inside no
    other, and in the range of the plane. *)
Theorem C86_centres : forall nside p, (1 <= nside <= 27397078)%Z -> legal_pix nside p ->
  exists x y xc yc, pix2xy_fl p nside = Ok (x, y) /\ pix2xy p nside = Ok (xc, yc) /\
    Rabs (x - xc) <= b2 (-48) /\ Rabs (y - yc) <= b2 (-48) /\
    in_open_diamond nside xc yc x y /\ 0 <= x < 2 * PI /\ - (PI / 2) < y < PI / 2 /\
    forall q xq yq, legal_pix nside q -> q <> p -> pix2xy q nside = Ok (xq, yq) -> ~ in_open_diamond nside xq yq x y.
Proof.
  intros nside p Hn Hp. destruct (C02_exact nside p Hn Hp) as (i & j & E & P). pose proof P as P0. destruct P0 as [Hl _].
  assert (Epq : pix2xy p nside = Ok (IZR (jd2 nside i j) * half_diag nside, IZR (id2 nside i) * half_diag nside)).
  { unfold pix2xy. rewrite <- C02_agrees, E by auto. cbn [bind fst snd]. apply ij2xy_legal; [lia|apply Hl]. }
  pose proof (jd2_range nside i j ltac:(lia) Hl) as B. assert (Bi : (Z.abs (id2 nside i) <= 2 * nside - 1)%Z) by (destruct Hl; unfold id2; lia).
  set (a := jd2 nside i j) in *. set (b := id2 nside i) in *.
  set (x := fl (fl (IZR a / 2 * (tau / 2)) / fl (IZR (2 * nside)))). set (y := fl (fl (IZR b / 2 * (tau / 2)) / fl (IZR (2 * nside)))).
  exists x, y, (IZR a * half_diag nside), (IZR b * half_diag nside).
  assert (Cx : Rabs (x - IZR a * half_diag nside) <= b2 (-48)) by (apply scaled_close; lia).
  assert (Cy : Rabs (y - IZR b * half_diag nside) <= b2 (-48)) by (apply scaled_close; lia).
  assert (N : 1 <= IZR nside) by (apply IZR_le; lia). assert (N2 : IZR nside <= 27397078) by (apply IZR_le; lia).
  assert (Hh : 4 * b2 (-48) < half_diag nside).
  { unfold half_diag. apply Rlt_le_trans with (b2 (-30)); [change 4 with (b2 2); rewrite <- bpow_plus; apply bpow_lt; lia|].
    pose proof pi_accuracy. pose proof tau_bounds. apply Rle_trans with (3 / (4 * IZR nside)).
    - apply Rmult_le_reg_r with (4 * IZR nside); [lra|]. unfold Rdiv. rewrite Rmult_assoc, Rinv_l, Rmult_1_r by lra.
      change (b2 (-30)) with (/ 1073741824). lra.
    - apply Rmult_le_compat_r; [left; apply Rinv_0_lt_compat; lra|lra]. }
  assert (Hp8 : 8 * IZR nside * half_diag nside = 2 * PI) by (unfold half_diag; field; lra).
  pose proof (bpow_gt_0 radix2 (-48)) as P48.
  assert (D : in_open_diamond nside (IZR a * half_diag nside) (IZR b * half_diag nside) x y).
  { exists 0%Z. unfold l1. rewrite Rmult_0_r, Rplus_0_r. lra. }
  split; [|split; [exact Epq|split; [exact Cx|split; [exact Cy|split; [exact D|]]]]].
  - unfold pix2xy_fl. rewrite E. cbn [bind fst snd]. unfold ij2xy_fl. rewrite j2jd_fl_legal by (auto; lia). cbn [bind].
    rewrite i2id_fl_ok by (destruct Hl; lia). rewrite i2id_id2. reflexivity.
  - assert (A0 : 0 <= IZR a) by (apply IZR_le; lia). assert (A1 : IZR a <= 8 * IZR nside - 1) by (rewrite <- mult_IZR, <- minus_IZR; apply IZR_le; lia).
    assert (B1 : Rabs (IZR b) <= 2 * IZR nside - 1) by (rewrite <- abs_IZR, <- mult_IZR, <- minus_IZR; apply IZR_le; lia).
    set (h := half_diag nside) in *. pose proof tau_bounds.
    split; [|split].
    + split.
      * unfold x. apply fl_ge; [apply fl_fmt, fmt_0|]. apply Rmult_le_pos.
        -- apply fl_ge; [apply fl_fmt, fmt_0|]. apply Rmult_le_pos; lra.
        -- left. apply Rinv_0_lt_compat. rewrite fl_int by lia. apply IZR_lt. lia.
      * apply Rabs_le_inv in Cx. nra.
    + apply Rabs_le_inv in Cy, B1. split; nra.
    + intros q xq yq Hq Nq Eq Dq. exact (C06_diamonds_disjoint nside p q _ _ xq yq x y ltac:(lia) Hp Hq (not_eq_sym Nq) Epq Eq D Dq).
Qed.
Print Assumptions C86_centres.

(** The last pixel of the largest map covered. *)
Example C86_example : legal_pix 27397078 (12 * 27397078 ^ 2 - 1) /\ legal_ij 27397078 (4 * 27397078 - 1) 4.
Proof. unfold legal_pix, legal_ij, ring_len. cbn. lia. Qed.
