(** * Proofs about [MHealpixFloat.v] *)

From Coq Require Import Reals ZArith Bool Lia Lra Psatz.
From Flocq Require Import Core.
From Verif Require Import Base BaseP Spec MHealpixIndex MHealpixFloat PHealpixIndex.
Open Scope R_scope.

Local Instance fexp_valid : Valid_exp (FLT_exp (-1074) 53).
Proof. apply FLT_exp_valid. reflexivity. Qed.

Lemma fl_mono : forall x y, x <= y -> fl x <= fl y.
Proof. intros. apply round_le; auto with typeclass_instances. Qed.

(** Dyadic numbers of at most 53 bits are exact. *)
Lemma fl_dyadic : forall k e, (Z.abs k <= 2 ^ 53)%Z -> (0 <= e <= 1000)%Z ->
  fl (IZR k * bpow radix2 (- e)) = IZR k * bpow radix2 (- e).
Proof.
  intros k e Hk He. apply round_generic; [auto with typeclass_instances|].
  destruct (Z.eq_dec (Z.abs k) (2 ^ 53)) as [E|E].
  - assert (S : (k = 2 ^ 53 \/ k = - 2 ^ 53)%Z) by lia.
    assert (B : IZR (2 ^ 53) = bpow radix2 53) by reflexivity.
    destruct S as [-> | ->].
    + rewrite B, <- bpow_plus. apply generic_format_bpow. unfold FLT_exp. lia.
    + rewrite opp_IZR, B, Ropp_mult_distr_l_reverse, <- bpow_plus. apply generic_format_opp, generic_format_bpow. unfold FLT_exp. lia.
  - apply generic_format_FLT. exists (Float radix2 k (- e)); cbn [Fnum Fexp]; auto; [|lia].
    change (Zpower radix2 53) with (2 ^ 53)%Z. lia.
Qed.

Lemma fl_int : forall k, (Z.abs k <= 2 ^ 53)%Z -> fl (IZR k) = IZR k.
Proof. intros k H. pose proof (fl_dyadic k 0 H ltac:(lia)) as E. cbn [Z.opp bpow] in E. now rewrite Rmult_1_r in E. Qed.

Lemma fl_half : forall k, (Z.abs k <= 2 ^ 53)%Z -> fl (IZR k / 2) = IZR k / 2.
Proof. intros k H. exact (fl_dyadic k 1 H ltac:(lia)). Qed.

Lemma fl_quarter : forall k, (Z.abs k <= 2 ^ 53)%Z -> fl (IZR k / 4) = IZR k / 4.
Proof. intros k H. exact (fl_dyadic k 2 H ltac:(lia)). Qed.

Lemma fl_ge : forall x y, fl y = y -> y <= x -> y <= fl x.
Proof. intros x y E H. rewrite <- E. now apply fl_mono. Qed.
Lemma fl_le : forall x y, fl y = y -> x <= y -> fl x <= y.
Proof. intros x y E H. rewrite <- E. now apply fl_mono. Qed.

Lemma fsqrt_ok : forall x, 0 <= x -> fsqrt x = Some (fl (sqrt x)).
Proof. intros. unfold fsqrt. now rewrite Rlt_bool_f. Qed.

(** ** The ring of a cap pixel

    [h] is twice the half-integer argument. *)
Lemma cap_fl_gen : forall i h, (1 <= i <= 2 ^ 25)%Z \/ (1 < i <= 2 ^ 25 + 1)%Z /\ (h <= 2 * (i * i) - 2)%Z -> (2 * (i * (i - 1)) + 1 <= h <= 2 * (i * (i + 1)))%Z ->
  cap_fl (IZR h / 2) = Some (IZR i).
Proof.
  intros i h Hi' Hh. assert (Hi : (1 <= i <= 2 ^ 25 + 1)%Z) by lia. set (m := (h / 2)%Z).
  assert (Em : Zfloor (IZR h / 2) = m) by (unfold m; apply (Zfloor_IZR_div h 2); lia).
  assert (Hm : (2 * m <= h <= 2 * m + 1)%Z) by (unfold m; pose proof (Z.div_mod h 2); pose proof (Z.mod_pos_bound h 2); lia).
  assert (Hm0 : (i * (i - 1) <= m <= i * (i + 1))%Z) by lia.
  assert (Sq : (i * i <= 2 ^ 50 + 2 ^ 26 + 1)%Z) by nia.
  assert (P : forall x y, 0 <= y -> x <= y * y -> sqrt x <= y).
  { intros x y Hy H. destruct (Rle_dec 0 x) as [Hx|Hx].
    - rewrite <- (sqrt_square y) by auto. apply sqrt_le_1_alt. auto.
    - rewrite sqrt_neg_0 by lra. auto. }
  assert (Q : forall x y, 0 <= y -> y * y <= x -> y <= sqrt x).
  { intros x y Hy H. rewrite <- (sqrt_square y) by auto. apply sqrt_le_1_alt. auto. }
  unfold cap_fl. rewrite Em, fsqrt_ok by (apply IZR_le; nia).
  set (s := fl (sqrt (IZR m))).
  assert (I1 : 1 <= IZR i) by (apply IZR_le; lia).
  assert (HhR : IZR h = IZR h / 2 * 2) by field.
  (* lower *)
  assert (L : IZR ((i - 1) * (i - 1)) <= IZR h / 2 - s).
  { destruct (Z.eq_dec m (i * (i - 1))) as [E|E].
    - assert (h = 2 * (i * (i - 1)) + 1)%Z by nia. subst h.
      assert (s <= IZR (2 * i - 1) / 2).
      { apply fl_le; [apply fl_half; nia|]. apply P; [rewrite minus_IZR, mult_IZR; lra|].
        rewrite E, !mult_IZR, !minus_IZR, mult_IZR. nra. }
      rewrite plus_IZR, !mult_IZR, !minus_IZR, mult_IZR in *. nra.
    - assert (A : s <= IZR (m - (i - 1) * (i - 1))).
      { apply fl_le; [apply fl_int; nia|]. apply P; [apply IZR_le; nia|]. rewrite <- mult_IZR. apply IZR_le. 
        set (k := (m - (i - 1) * (i - 1))%Z). assert (i <= k)%Z by (unfold k; nia).
        replace m with (k + (i - 1) * (i - 1))%Z by (unfold k; ring). nia. }
      assert (B : IZR m <= IZR h / 2). { assert (IZR (2 * m) <= IZR h) by (apply IZR_le; lia). rewrite mult_IZR in *. lra. }
      rewrite minus_IZR in A. lra. }
  (* upper *)
  assert (U : IZR h / 2 - s <= IZR (4 * (i * i) - 1) / 4).
  { rewrite minus_IZR, (mult_IZR 4), mult_IZR.
    destruct (Z_lt_le_dec h (2 * (i * i))) as [C|C].
    - assert (IZR (h + 1) <= IZR (2 * (i * i))) by (apply IZR_le; lia). rewrite plus_IZR, !mult_IZR in *.
      assert (0 <= s) by (apply fl_ge; [apply (fl_int 0); lia|apply sqrt_pos]). lra.
    - destruct (Z.eq_dec h (2 * (i * (i + 1)))) as [E|E].
      + assert (m = i * (i + 1))%Z by nia.
        assert (IZR (4 * i + 1) / 4 <= s).
        { apply fl_ge; [apply fl_quarter; nia|]. apply Q; [rewrite plus_IZR, mult_IZR; lra|].
          rewrite H, plus_IZR, !mult_IZR, plus_IZR. nra. }
        subst h. rewrite plus_IZR, !mult_IZR, plus_IZR in *. lra.
      + assert (IZR i <= s).
        { apply fl_ge; [apply fl_int; nia|]. apply Q; [lra|]. rewrite <- mult_IZR. apply IZR_le. nia. }
        assert (IZR (h + 1) <= IZR (2 * (i * (i + 1)))) by (apply IZR_le; lia).
        rewrite plus_IZR, !mult_IZR, plus_IZR in *. lra. }
  set (x := fl (IZR h / 2 - s)).
  assert (Lx : IZR ((i - 1) * (i - 1)) <= x) by (apply fl_ge; [apply fl_int; nia|auto]).
  assert (Ux : x <= IZR (4 * (i * i) - 1) / 4) by (apply fl_le; [apply fl_quarter; nia|auto]).
  assert (Ux' : (i <= 2 ^ 25)%Z \/ x <= IZR (i * i - 1)).
  { destruct Hi' as [Hi'|[_ Hi']]; [left; lia|right]. apply fl_le; [apply fl_int; nia|].
    assert (0 <= s) by (apply fl_ge; [apply (fl_int 0); lia|apply sqrt_pos]).
    assert (IZR h <= IZR (2 * (i * i) - 2)) by (apply IZR_le; lia). rewrite !minus_IZR, !mult_IZR in *. lra. }
  assert (x0 : 0 <= x). { apply Rle_trans with (2 := Lx). apply IZR_le. nia. }
  rewrite fsqrt_ok by auto. f_equal.
  assert (T : Zfloor (fl (sqrt x)) = (i - 1)%Z).
  { apply Zfloor_unique. split.
    - apply fl_ge; [apply fl_int; nia|]. apply Q; [apply IZR_le; lia|]. now rewrite <- mult_IZR.
    - replace (IZR (i - 1) + 1) with (IZR i) by (rewrite minus_IZR; ring).
      destruct (Z_le_gt_dec i (2 ^ 25)) as [Hc|Hc].
      + set (y := IZR (i * 2 ^ 28 - 1) * bpow radix2 (- (28))).
        assert (Ey : y = IZR i - / 268435456). { unfold y. rewrite minus_IZR, mult_IZR. cbn. lra. }
        apply Rle_lt_trans with y; [|rewrite Ey; lra].
        apply fl_le; [apply fl_dyadic; nia|]. apply P; [rewrite Ey; lra|].
        apply Rle_trans with (1 := Ux). rewrite Ey, minus_IZR, !mult_IZR.
        assert (IZR i <= 33554432) by (apply IZR_le; lia). nra.
      + destruct Ux' as [Ux'|Ux']; [lia|].
        set (y := IZR (i * 2 ^ 27 - 1) * bpow radix2 (- (27))).
        assert (Ey : y = IZR i - / 134217728). { unfold y. rewrite minus_IZR, mult_IZR. cbn. lra. }
        apply Rle_lt_trans with y; [|rewrite Ey; lra].
        apply fl_le; [apply fl_dyadic; nia|]. apply P; [rewrite Ey; lra|].
        apply Rle_trans with (1 := Ux'). rewrite Ey, minus_IZR, !mult_IZR.
        assert (IZR i <= 33554433) by (apply IZR_le; lia). nra. }
  rewrite T, <- plus_IZR, Z.sub_add. apply fl_int. nia.
Qed.

Lemma cap_fl_spec : forall i h, (1 <= i <= 2 ^ 25)%Z -> (2 * (i * (i - 1)) + 1 <= h <= 2 * (i * (i + 1)))%Z ->
  cap_fl (IZR h / 2) = Some (IZR i).
Proof. intros i h Hi Hh. apply cap_fl_gen; auto. Qed.

(** ** The ring of a belt pixel *)
Lemma belt_fl_spec : forall n a b, (1 <= n <= 2 ^ 25)%Z -> (0 <= a <= 2 * n - 1)%Z -> (0 <= b < 4 * n)%Z ->
  Zfloor (fl (IZR (4 * n * a + b) / IZR (4 * n))) = a.
Proof.
  intros n a b Hn Ha Hb. assert (N : 0 < IZR (4 * n)) by (apply IZR_lt; lia).
  assert (E : IZR (4 * n * a + b) / IZR (4 * n) = IZR a + IZR b / IZR (4 * n)).
  { rewrite plus_IZR, (mult_IZR (4 * n)). field. lra. }
  assert (B0 : 0 <= IZR b) by (apply IZR_le; lia).
  assert (B1 : IZR b + 1 <= IZR (4 * n)) by (rewrite <- plus_IZR; apply IZR_le; lia).
  assert (N' : IZR (4 * n) <= 134217728) by (apply IZR_le; lia).
  apply Zfloor_unique. rewrite E. split.
  - apply fl_ge; [apply fl_int; nia|]. assert (0 <= IZR b / IZR (4 * n)) by (apply Rmult_le_pos; [auto|left; now apply Rinv_0_lt_compat]). lra.
  - set (y := IZR ((a + 1) * 2 ^ 27 - 1) * bpow radix2 (- (27))).
    assert (Ey : y = IZR a + 1 - / 134217728). { unfold y. rewrite minus_IZR, mult_IZR, plus_IZR. cbn. lra. }
    apply Rle_lt_trans with y; [|rewrite Ey; lra].
    apply fl_le; [apply fl_dyadic; nia|]. rewrite Ey.
    assert (IZR b / IZR (4 * n) <= 1 - / IZR (4 * n)).
    { apply Rmult_le_reg_r with (IZR (4 * n)); auto. unfold Rdiv. rewrite Rmult_assoc, Rinv_l, Rmult_minus_distr_r, Rinv_l by lra. lra. }
    assert (/ 134217728 <= / IZR (4 * n)) by (apply Rinv_le; auto). lra.
Qed.

(** ** The whole function is exact up to nside 27397078 *)

Definition fl_limit : Z := 27397078.

Lemma fl_mul : forall a b, (Z.abs (a * b) <= 2 ^ 53)%Z -> fl (IZR a * IZR b) = IZR (a * b).
Proof. intros. rewrite <- mult_IZR. now apply fl_int. Qed.
Lemma fl_add : forall a b, (Z.abs (a + b) <= 2 ^ 53)%Z -> fl (IZR a + IZR b) = IZR (a + b).
Proof. intros. rewrite <- plus_IZR. now apply fl_int. Qed.
Lemma fl_sub : forall a b, (Z.abs (a - b) <= 2 ^ 53)%Z -> fl (IZR a - IZR b) = IZR (a - b).
Proof. intros. rewrite <- minus_IZR. now apply fl_int. Qed.

Lemma pix2ij_fl_at : forall n i j, (1 <= n <= 2 ^ 25)%Z -> legal_ij n i j ->
  exists j', pix2ij_fl (before n i + j - 1) n = Ok (i, j') /\ ((n <= fl_limit)%Z \/ (i < 3 * n)%Z -> j' = j).
Proof.
  intros n i j Hn [Hi Hj]. unfold ring_len in Hj. unfold before, pix2ij_fl.
  assert (N2 : (n * n <= 2 ^ 50)%Z) by nia.
  assert (North : forall i j, (1 <= i <= n + 1)%Z -> (1 <= j <= 4 * i)%Z -> (2 * i * (i - 1) + j - 1 <= 2 * n * (n + 1))%Z ->
    match cap_fl (fl (IZR (2 * i * (i - 1) + j - 1 + 1) / 2)) with
    | Some i0 => Ok (Ztrunc i0, Ztrunc (fl (fl (IZR (2 * i * (i - 1) + j - 1 + 1)) - fl (fl (2 * i0) * fl (i0 - 1)))))
    | None => Err ValueError end = Ok (i, j)).
  { clear i j Hi Hj. intros i j Hi Hj Hp.
    rewrite fl_half by nia. rewrite (cap_fl_gen i) by nia.
    rewrite Ztrunc_IZR. rewrite (fl_mul 2 i) by nia. rewrite (fl_sub i 1) by lia. rewrite fl_mul by nia.
    rewrite fl_int by nia. rewrite fl_sub by nia. rewrite Ztrunc_IZR. f_equal. f_equal. ring. }
  destruct (Z.leb_spec i n) as [A|A].
  - assert (Hj' : (1 <= j <= 4 * i)%Z).
    { destruct (Z.ltb_spec i n); [lia|]. destruct (Z.leb_spec i (3 * n)); lia. }
    assert (Hp : (2 * i * (i - 1) + j - 1 <= 2 * n * (n + 1))%Z) by nia.
    rewrite (proj2 (Z.leb_le _ _) Hp). cbv zeta. exists j. split; [apply North; lia|auto].
  - destruct (Z.ltb_spec i (3 * n)) as [B|B].
    + assert (Hj' : (1 <= j <= 4 * n)%Z).
      { destruct (Z.ltb_spec i n); [lia|]. destruct (Z.leb_spec i (3 * n)); lia. }
      set (p := (2 * n * (n + 1) + 4 * n * (i - 1 - n) + j - 1)%Z).
      assert (Hpd : (p - 2 * n * (n - 1) = 4 * n * (i - n) + (j - 1))%Z) by (unfold p; ring).
      destruct (Z.leb_spec p (2 * n * (n + 1))) as [C|C].
      * assert (i = n + 1 /\ j = 1)%Z as [-> ->] by (unfold p in C; nia).
        cbv zeta. exists 1%Z. split; [|auto]. replace p with (2 * (n + 1) * (n + 1 - 1) + 1 - 1)%Z by (unfold p; ring). apply North; nia.
      * replace (2 * n * (n + 1) <? p)%Z with true by (symmetry; apply Z.ltb_lt; lia).
        replace (p <? 2 * n * (5 * n - 1))%Z with true by (symmetry; apply Z.ltb_lt; unfold p; nia).
        rewrite ?andb_true_l. cbv iota zeta. rewrite Hpd. rewrite belt_fl_spec by lia.
        rewrite fl_int by lia. rewrite fl_add by lia. rewrite Ztrunc_IZR.
        replace (4 * n * (i - n) + (j - 1))%Z with ((j - 1) + (i - n) * (4 * n))%Z by ring.
        rewrite Z_mod_plus_full, Z.mod_small by lia. exists j. split; [|auto]. f_equal. f_equal; ring.
    + set (k := (4 * n - i)%Z).
      assert (Hj' : (1 <= j <= 4 * k)%Z).
      { unfold k. destruct (Z.ltb_spec i n); [lia|]. destruct (Z.leb_spec i (3 * n)); lia. }
      replace i with (4 * n - k)%Z by (unfold k; ring).
      assert (Hk : (1 <= k <= n)%Z) by (unfold k; lia).
      clearbody k. clear Hj B A Hi i.
      set (p := (12 * n ^ 2 - 2 * k * (k + 1) + j - 1)%Z).
      assert (Hp : p = (12 * (n * n) - 2 * k * (k + 1) + j - 1)%Z) by (unfold p; ring).
      replace (12 * n ^ 2)%Z with (12 * (n * n))%Z by ring.
      replace (p <=? 2 * n * (n + 1))%Z with false by (symmetry; apply Z.leb_gt; nia).
      replace (p <? 2 * n * (5 * n - 1))%Z with false by (symmetry; apply Z.ltb_ge; nia).
      rewrite andb_false_r.
      replace (2 * n * (5 * n - 1) <=? p)%Z with true by (symmetry; apply Z.leb_le; nia).
      replace (p <=? 12 * (n * n))%Z with true by (symmetry; apply Z.leb_le; nia).
      rewrite ?andb_true_l. cbv iota zeta.
      rewrite fl_half by nia. rewrite (cap_fl_spec k) by nia.
      rewrite (fl_mul 2 k) by nia. rewrite (fl_add k 1) by lia. rewrite fl_mul by nia.
      rewrite (fl_int (4 * n)) by lia. rewrite (fl_sub (4 * n)) by lia. rewrite Ztrunc_IZR.
      eexists. split; [reflexivity|]. intros [L|L]; [|lia]. unfold fl_limit in L.
      assert (N3 : (n * n <= 27397078 * 27397078)%Z) by nia.
      rewrite (fl_int p) by nia. rewrite (fl_int (12 * (n * n))) by nia.
      rewrite (fl_add p) by nia. rewrite (fl_add _ 1) by nia. rewrite fl_sub by nia.
      rewrite Ztrunc_IZR. rewrite Hp. ring.
Qed.

Lemma pix2ij_fl_ok : forall n p, (1 <= n <= fl_limit)%Z -> legal_pix n p ->
  exists i j, pix2ij_fl p n = Ok (i, j) /\ pixel_at n p i j.
Proof.
  intros n p Hn Hp. destruct (legal_pix_decomp n p ltac:(lia) Hp) as [i [j [Hl E]]].
  exists i, j. assert (Hi := proj1 Hl). unfold fl_limit in Hn. split.
  - rewrite E. destruct (pix2ij_fl_at n i j ltac:(lia) Hl) as [j' [Ej Cj]]. rewrite Ej, Cj; auto. left. unfold fl_limit. lia.
  - split; auto. rewrite before_spec by lia. auto.
Qed.

Lemma pix2ij_fl_ring : forall n p i j, (1 <= n <= 2 ^ 25)%Z -> pixel_at n p i j ->
  exists j', pix2ij_fl p n = Ok (i, j') /\ ((i < 3 * n)%Z -> j' = j).
Proof.
  intros n p i j Hn [Hl E]. assert (Hi := proj1 Hl). rewrite before_spec in E by lia. rewrite E.
  destruct (pix2ij_fl_at n i j Hn Hl) as [j' [Ej Cj]]. exists j'. auto.
Qed.

(** ** Beyond it *)

Definition even_value (x : R) : Prop := exists k, x = IZR (2 * k).

Lemma fl_big_even : forall x, bpow radix2 53 <= Rabs x -> even_value (fl x).
Proof.
  intros x Hx. unfold fl, round, F2R. cbn [Fnum Fexp].
  set (e := cexp radix2 (FLT_exp (-1074) 53) x). set (m := ZnearestE _).
  assert (He : (1 <= e)%Z).
  { unfold e, cexp, FLT_exp. assert (53 + 1 <= mag radix2 x)%Z by (now apply mag_ge_bpow; replace (53 + 1 - 1)%Z with 53%Z by lia). lia. }
  exists (m * 2 ^ (e - 1))%Z. 
  replace (2 * (m * 2 ^ (e - 1)))%Z with (m * (2 ^ 1 * 2 ^ (e - 1)))%Z by ring.
  rewrite <- Z.pow_add_r by lia. replace (1 + (e - 1))%Z with e by ring.
  rewrite mult_IZR. f_equal. change 2%Z with (radix_val radix2). symmetry. apply IZR_Zpower. lia.
Qed.

Lemma fl_even : forall x, even_value x -> even_value (fl x).
Proof.
  intros x [k ->]. destruct (Z_le_gt_dec (Z.abs (2 * k)) (2 ^ 53)) as [H|H].
  - rewrite fl_int by auto. now exists k.
  - apply fl_big_even. rewrite <- abs_IZR. change (bpow radix2 53) with (IZR (2 ^ 53)). apply IZR_le. lia.
Qed.

Lemma even_sub : forall x y, even_value x -> even_value y -> even_value (x - y).
Proof. intros x y [a ->] [b ->]. exists (a - b)%Z. rewrite <- minus_IZR. f_equal. ring. Qed.

Lemma even_odd : forall x k, even_value x -> Ztrunc x <> (2 * k + 1)%Z.
Proof. intros x k [a ->]. rewrite Ztrunc_IZR. lia. Qed.

(** The position of a south-cap pixel whose number plus ring offset reaches 2^53 is even. *)
Lemma south_even : forall n k j, (1 <= k <= n)%Z -> (k <= 2 ^ 25)%Z -> (1 <= j <= 4 * k)%Z -> (2 ^ 53 <= 12 * n ^ 2 + j - 1)%Z ->
  forall a b, pix2ij_fl (12 * n ^ 2 - 2 * k * (k + 1) + j - 1) n = Ok (a, b) ->
  (2 ^ 53 <= 12 * n ^ 2 - 2 * k * (k + 1) + j - 1)%Z \/ (Z.abs (12 * n ^ 2 - 2 * k * (k + 1) + j - 1) <= 2 ^ 53)%Z /\ (12 * n ^ 2 + j - 1 = 2 ^ 53)%Z ->
  exists c, b = (2 * c)%Z.
Proof.
  intros n k j Hk Hk25 Hj Hbig a b. set (p := (12 * n ^ 2 - 2 * k * (k + 1) + j - 1)%Z).
  assert (Hp : p = (12 * (n * n) - 2 * k * (k + 1) + j - 1)%Z) by (unfold p; ring).
  unfold pix2ij_fl. replace (12 * n ^ 2)%Z with (12 * (n * n))%Z in * by ring.
  replace (p <=? 2 * n * (n + 1))%Z with false by (symmetry; apply Z.leb_gt; nia).
  replace (p <? 2 * n * (5 * n - 1))%Z with false by (symmetry; apply Z.ltb_ge; nia).
  rewrite andb_false_r.
  replace (2 * n * (5 * n - 1) <=? p)%Z with true by (symmetry; apply Z.leb_le; nia).
  replace (p <=? 12 * (n * n))%Z with true by (symmetry; apply Z.leb_le; nia).
  rewrite ?andb_true_l. cbv iota zeta.
  rewrite fl_half by nia. rewrite (cap_fl_spec k) by nia.
  rewrite (fl_mul 2 k) by nia. rewrite (fl_add k 1) by lia. rewrite fl_mul by nia.
  intros E HB. apply (f_equal (fun r => match r with Ok (_, y) => y | Err _ => 0%Z end)) in E. cbv beta iota in E.
  assert (V : even_value (fl (fl (fl (fl (IZR p) + IZR (2 * k * (k + 1))) + 1) - fl (IZR (12 * (n * n)))))).
  { apply fl_even, even_sub.
    - apply fl_big_even.
      assert (G : bpow radix2 53 <= fl (fl (IZR p) + IZR (2 * k * (k + 1)))).
      { change (bpow radix2 53) with (IZR (2 ^ 53)). apply fl_ge; [apply fl_int; lia|].
        destruct HB as [H|[H1 H2]].
        - assert (IZR (2 ^ 53) <= fl (IZR p)) by (apply fl_ge; [apply fl_int; lia|apply IZR_le; lia]).
          assert (0 <= IZR (2 * k * (k + 1))) by (apply IZR_le; nia). lra.
        - rewrite fl_int by auto. rewrite <- plus_IZR. apply IZR_le. lia. }
      rewrite Rabs_pos_eq; [lra|]. pose proof (bpow_ge_0 radix2 53). lra.
    - apply fl_even. exists (6 * (n * n))%Z. f_equal. ring. }
  destruct V as [c Ec]. exists c. rewrite <- E, Ec. apply Ztrunc_IZR.
Qed.

Lemma south_pixel : forall n k j, (1 <= k <= n)%Z -> (1 <= j <= 4 * k)%Z ->
  legal_pix n (12 * n ^ 2 - 2 * k * (k + 1) + j - 1) /\ pixel_at n (12 * n ^ 2 - 2 * k * (k + 1) + j - 1) (4 * n - k) j.
Proof.
  intros n k j Hk Hj. split; [unfold legal_pix; nia|]. split.
  - split; [lia|]. unfold ring_len. destruct (Z.ltb_spec (4 * n - k) n); [lia|]. destruct (Z.leb_spec (4 * n - k) (3 * n)); lia.
  - rewrite before_spec by lia. unfold before.
    replace (4 * n - k <=? n)%Z with false by (symmetry; apply Z.leb_gt; lia).
    replace (4 * n - k <? 3 * n)%Z with false by (symmetry; apply Z.ltb_ge; lia). ring.
Qed.

Lemma pix2ij_fl_wrong : forall n, (fl_limit < n)%Z -> exists p, legal_pix n p /\
  forall i j, pix2ij_fl p n = Ok (i, j) -> ~ pixel_at n p i j.
Proof.
  intros n Hn. unfold fl_limit in Hn.
  assert (K : forall k c, (1 <= k <= n)%Z -> (k <= 2 ^ 25)%Z -> (1 <= 2 * c + 1 <= 4 * k)%Z -> (2 ^ 53 <= 12 * n ^ 2 + 2 * c)%Z ->
    ((2 ^ 53 <= 12 * n ^ 2 - 2 * k * (k + 1) + 2 * c)%Z \/ (Z.abs (12 * n ^ 2 - 2 * k * (k + 1) + 2 * c) <= 2 ^ 53)%Z /\ (12 * n ^ 2 + 2 * c = 2 ^ 53)%Z) ->
    exists p, legal_pix n p /\ forall i j, pix2ij_fl p n = Ok (i, j) -> ~ pixel_at n p i j).
  { intros k c Hk Hk2 Hc HB HC. destruct (south_pixel n k (2 * c + 1) Hk Hc) as [L A].
    eexists. split; [exact L|]. intros i j E H.
    assert (N1 : (1 <= n)%Z) by lia.
    destruct (pixel_at_unique n _ i j _ _ N1 H A) as [_ Ej]. subst j.
    destruct (south_even n k (2 * c + 1) Hk Hk2 Hc ltac:(lia) i (2 * c + 1) E) as [d D]; [|lia].
    destruct HC as [HC|HC]; [left; lia|right; lia]. }
  destruct (Z.eq_dec n 27397079) as [->|Hn'].
  - apply (K 500000%Z 977050%Z); try lia. 
  - assert (12 * 27397080 ^ 2 <= 12 * n ^ 2)%Z by nia.
    apply (K 1%Z 1%Z); try lia.
Qed.

(** Ties at the first odd numbers. *)
Lemma fl_tie : forall k c, (2 ^ 53 < k < 2 ^ 54)%Z -> (k = 2 * (2 * c) + 1 \/ k = 2 * (2 * c) - 1)%Z -> fl (IZR k) = IZR (4 * c).
Proof.
  intros k c Hk Hc.
  assert (P : 0 <= IZR k) by (apply IZR_le; lia).
  assert (M : mag radix2 (IZR k) = 54%Z :> Z).
  { apply mag_unique_pos. change (bpow radix2 (54 - 1)) with (IZR (2 ^ 53)). change (bpow radix2 54) with (IZR (2 ^ 54)).
    split; [apply IZR_le|apply IZR_lt]; lia. }
  unfold fl, round, F2R, scaled_mantissa, cexp. rewrite M. cbn [Fnum Fexp].
  change (FLT_exp (-1074) 53 54) with 1%Z. cbn [Z.opp]. 
  replace (bpow radix2 (-1)) with (/ 2) by reflexivity. replace (bpow radix2 1) with 2 by reflexivity.
  assert (T : ZnearestE (IZR k * / 2) = (2 * c)%Z).
  { destruct Hc as [-> | ->].
    - assert (F : Zfloor (IZR (2 * (2 * c) + 1) * / 2) = (2 * c)%Z).
      { apply Zfloor_unique. rewrite plus_IZR, (mult_IZR 2 (2 * c)). lra. }
      unfold Znearest. rewrite F. rewrite Rcompare_Eq by (rewrite plus_IZR, (mult_IZR 2 (2 * c)); field).
      now rewrite Z.even_mul.
    - assert (F : Zfloor (IZR (2 * (2 * c) - 1) * / 2) = (2 * c - 1)%Z).
      { apply Zfloor_unique. rewrite (minus_IZR (2 * c)), (minus_IZR (2 * (2 * c))), (mult_IZR 2 (2 * c)). lra. }
      assert (G : Zceil (IZR (2 * (2 * c) - 1) * / 2) = (2 * c)%Z).
      { rewrite Zceil_floor_neq; rewrite F; [ring|]. rewrite !minus_IZR, (mult_IZR 2 (2 * c)). lra. }
      unfold Znearest. rewrite F, G. rewrite Rcompare_Eq by (rewrite !minus_IZR, (mult_IZR 2 (2 * c)); field).
      now rewrite Z.even_sub, Z.even_mul. }
  rewrite T. rewrite <- mult_IZR. f_equal. ring.
Qed.

Lemma fl_even_exact : forall k, (Z.abs k <= 2 ^ 53)%Z -> fl (IZR (2 * k)) = IZR (2 * k).
Proof.
  intros k H. destruct (Z.eq_dec (Z.abs k) (2 ^ 53)) as [E|E].
  - assert (S : (k = 2 ^ 53 \/ k = - 2 ^ 53)%Z) by lia.
    assert (B : IZR (2 * 2 ^ 53) = bpow radix2 54) by reflexivity.
    apply round_generic; [auto with typeclass_instances|].
    destruct S as [-> | ->].
    + rewrite B. apply generic_format_bpow. unfold FLT_exp. lia.
    + replace (2 * - 2 ^ 53)%Z with (- (2 * 2 ^ 53))%Z by ring. rewrite opp_IZR, B. apply generic_format_opp, generic_format_bpow. unfold FLT_exp. lia.
  - apply round_generic; [auto with typeclass_instances|]. apply generic_format_FLT.
    exists (Float radix2 k 1); cbn [Fnum Fexp]; [|change (Zpower radix2 53) with (2 ^ 53)%Z; lia|lia].
    unfold F2R. cbn [Fnum Fexp]. rewrite mult_IZR. cbn. ring.
Qed.

Lemma pix2ij_fl_collide :
  pix2ij_fl (12 * (2 ^ 25) ^ 2 - 2) (2 ^ 25) = Ok (4 * 2 ^ 25 - 1, 4)%Z /\
  pix2ij_fl (12 * (2 ^ 25) ^ 2 - 1) (2 ^ 25) = Ok (4 * 2 ^ 25 - 1, 4)%Z.
Proof.
  change (2 ^ 25)%Z with 33554432%Z. change (12 * 33554432 ^ 2)%Z with 13510798882111488%Z.
  assert (K : forall h, (1 <= h <= 2)%Z -> cap_fl (fl (IZR h / 2)) = Some 1).
  { intros h Hh. rewrite fl_half by lia. apply (cap_fl_spec 1); lia. }
  assert (C : fl (IZR 13510798882111488) = IZR 13510798882111488) by (apply (fl_even_exact 6755399441055744); lia).
  assert (M : fl (fl (2 * 1) * fl (1 + 1)) = IZR 4).
  { rewrite (fl_mul 2 1) by lia. rewrite (fl_add 1 1) by lia. rewrite fl_mul by lia. reflexivity. }
  assert (N : fl (fl (IZR (4 * 33554432)) - 1) = IZR 134217727).
  { rewrite fl_int by lia. rewrite (fl_sub _ 1) by lia. reflexivity. }
  assert (J : fl (IZR 13510798882111492 - IZR 13510798882111488) = IZR 4) by (rewrite fl_sub by lia; reflexivity).
  split; unfold pix2ij_fl.
  - change (13510798882111488 - 2)%Z with 13510798882111486%Z.
    change (13510798882111486 <=? 2 * 33554432 * (33554432 + 1))%Z with false.
    change ((2 * 33554432 * (33554432 + 1) <? 13510798882111486)%Z && (13510798882111486 <? 2 * 33554432 * (5 * 33554432 - 1))%Z) with false.
    change ((2 * 33554432 * (5 * 33554432 - 1) <=? 13510798882111486)%Z && (13510798882111486 <=? 12 * 33554432 ^ 2)%Z) with true.
    cbv iota zeta. change (12 * 33554432 ^ 2)%Z with 13510798882111488%Z.
    change (13510798882111488 - 13510798882111486)%Z with 2%Z. rewrite K by lia. rewrite C, M, N.
    assert (A : fl (IZR 13510798882111486) = IZR 13510798882111486) by (apply (fl_even_exact 6755399441055743); lia).
    assert (B : fl (IZR 13510798882111486 + IZR 4) = IZR 13510798882111490).
    { rewrite <- plus_IZR. apply (fl_even_exact 6755399441055745); lia. }
    assert (D : fl (IZR 13510798882111490 + 1) = IZR 13510798882111492).
    { rewrite <- plus_IZR. apply (fl_tie 13510798882111491 3377699720527873); lia. }
    rewrite A, B, D, J, !Ztrunc_IZR. reflexivity.
  - change (13510798882111488 - 1)%Z with 13510798882111487%Z.
    change (13510798882111487 <=? 2 * 33554432 * (33554432 + 1))%Z with false.
    change ((2 * 33554432 * (33554432 + 1) <? 13510798882111487)%Z && (13510798882111487 <? 2 * 33554432 * (5 * 33554432 - 1))%Z) with false.
    change ((2 * 33554432 * (5 * 33554432 - 1) <=? 13510798882111487)%Z && (13510798882111487 <=? 12 * 33554432 ^ 2)%Z) with true.
    cbv iota zeta. change (12 * 33554432 ^ 2)%Z with 13510798882111488%Z.
    change (13510798882111488 - 13510798882111487)%Z with 1%Z. rewrite K by lia. rewrite C, M, N.
    assert (A : fl (IZR 13510798882111487) = IZR 13510798882111488) by (apply (fl_tie _ 3377699720527872); lia).
    assert (B : fl (IZR 13510798882111488 + IZR 4) = IZR 13510798882111492).
    { rewrite <- plus_IZR. apply (fl_even_exact 6755399441055746); lia. }
    assert (D : fl (IZR 13510798882111492 + 1) = IZR 13510798882111492).
    { rewrite <- plus_IZR. apply (fl_tie 13510798882111493 3377699720527873); lia. }
    rewrite A, B, D, J, !Ztrunc_IZR. reflexivity.
Qed.
