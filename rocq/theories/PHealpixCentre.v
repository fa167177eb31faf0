(** * Pixel centres in the HEALPix plane and on the sphere *)

From Coq Require Import Reals ZArith List Bool Lia Lra Psatz.
From Flocq Require Import Core.Raux.
From Verif Require Import Base BaseP Spec MHealpixIndex MHealpixCoord PHealpixIndex.
Import ListNotations.
Open Scope R_scope.

(** ** Doubled dash indices are integers *)

(** [2*jdash], an integer. *)
Definition jd2 (nside i j : Z) : Z :=
  (if i <=? nside then 2 * nside * ((j - 1) / i) + (nside - i + 1) + 2 * ((j - 1) mod i)
   else if i <? 3 * nside then (if Z.even (i + nside) then 2 * j - 1 else 2 * j - 2)
   else let i' := 4 * nside - i in
        2 * nside * ((j - 1) / i') + (nside - i' + 1) + 2 * ((j - 1) mod i'))%Z.

(** [2*idash]. *)
Definition id2 (nside i : Z) : Z := (2 * nside - i)%Z.

Lemma cap_jd : forall nside i j, (1 <= nside)%Z -> (1 <= i)%Z ->
  IZR (nside ÷ 2 + nside * Zfloor (IZR (4 * (j - 1)) / IZR (4 * i)))
  + (if (nside mod 2 =? 0)%Z then - (/ 2 * IZR (i - 1)) else - (/ 2 * IZR i) + 1)
  + Rmod (IZR (j - 1)) (IZR (4 * i) / 4)
  = IZR (2 * nside * ((j - 1) / i) + (nside - i + 1) + 2 * ((j - 1) mod i)) / 2.
Proof.
  intros nside i j Hn Hi.
  rewrite Zfloor_IZR_div by lia. rewrite Z.div_mul_cancel_l by lia.
  replace (IZR (4 * i) / 4) with (IZR i) by (rewrite mult_IZR; field).
  rewrite Rmod_IZR by lia.
  rewrite Z.quot_div_nonneg by lia.
  set (k := ((j - 1) / i)%Z). set (r := ((j - 1) mod i)%Z).
  pose proof (Z_div_mod_eq_full nside 2) as E.
  pose proof (Z.mod_pos_bound nside 2 ltac:(lia)) as B.
  set (h := (nside / 2)%Z) in *.
  destruct (Z.eqb_spec (nside mod 2) 0) as [C|C].
  - assert (nside = 2 * h)%Z by lia. clearbody h. subst nside.
    repeat rewrite ?plus_IZR, ?minus_IZR, ?mult_IZR. field.
  - assert (nside = 2 * h + 1)%Z by lia. clearbody h. subst nside.
    repeat rewrite ?plus_IZR, ?minus_IZR, ?mult_IZR. field.
Qed.

Lemma even_mod : forall a, Z.even a = (a mod 2 =? 0)%Z.
Proof. intros. rewrite Zmod_even. destruct (Z.even a); reflexivity. Qed.

Lemma j2jd_legal : forall nside i j, (1 <= nside)%Z -> (1 <= i <= 4 * nside - 1)%Z ->
  j2jd i j nside = Ok (IZR (jd2 nside i j) / 2).
Proof.
  intros nside i j Hn Hi. unfold j2jd, jd2.
  destruct (Z.leb_spec i nside) as [A|A].
  - destruct (Z.eqb_spec (4 * i) 0); [lia|]. f_equal.
    rewrite <- cap_jd by lia. destruct (nside mod 2 =? 0)%Z; ring.
  - replace (nside <? i)%Z with true by (symmetry; apply Z.ltb_lt; lia). rewrite andb_true_l.
    destruct (Z.ltb_spec i (3 * nside)) as [B|B].
    + f_equal. rewrite even_mod.
      assert (M2 : forall a, (a mod 2 = 0 \/ a mod 2 = 1)%Z)
        by (intros a; pose proof (Z.mod_pos_bound a 2 ltac:(lia)); lia).
      assert (Hn2 : (nside mod 2 = nside - 2 * (nside / 2))%Z) by (apply Z.mod_eq; lia).
      assert (Hi2 : (i mod 2 = i - 2 * (i / 2))%Z) by (apply Z.mod_eq; lia).
      assert (Hs2 : ((i + 1) mod 2 = i + 1 - 2 * ((i + 1) / 2))%Z) by (apply Z.mod_eq; lia).
      assert (Ht2 : ((i + nside) mod 2 = i + nside - 2 * ((i + nside) / 2))%Z) by (apply Z.mod_eq; lia).
      destruct (M2 nside) as [E1|E1]; destruct (M2 i) as [E2|E2];
        destruct (M2 (i + 1)%Z) as [E3|E3]; destruct (M2 (i + nside)%Z) as [E4|E4];
        try (exfalso; lia); rewrite E1, ?E2, ?E3, E4; simpl Z.eqb; cbv iota;
        rewrite ?minus_IZR, ?mult_IZR; field.
    + destruct (Z.eqb_spec (4 * (4 * nside - i)) 0); [lia|]. f_equal.
      rewrite <- cap_jd by lia. destruct (nside mod 2 =? 0)%Z; ring.
Qed.

Lemma i2id_id2 : forall nside i, i2id i nside = IZR (id2 nside i) / 2.
Proof. intros. unfold i2id, id2. rewrite minus_IZR, mult_IZR. field. Qed.

(** The plane coordinates of a pixel in units of half a half-diagonal. *)
Lemma ij2xy_legal : forall nside i j, (1 <= nside)%Z -> (1 <= i <= 4 * nside - 1)%Z ->
  ij2xy i j nside = Ok (IZR (jd2 nside i j) * half_diag nside, IZR (id2 nside i) * half_diag nside).
Proof.
  intros nside i j Hn Hi. unfold ij2xy. rewrite j2jd_legal by auto. simpl bind.
  rewrite i2id_id2. assert (1 <= IZR nside) by (apply IZR_le; auto).
  unfold half_diag. f_equal. f_equal; field; lra.
Qed.

Lemma pix2xy_legal : forall nside p, (1 <= nside)%Z -> legal_pix nside p ->
  exists i j, pixel_at nside p i j /\
    pix2xy p nside = Ok (IZR (jd2 nside i j) * half_diag nside, IZR (id2 nside i) * half_diag nside).
Proof.
  intros nside p Hn Hp. destruct (pix2ij_correct nside p Hn Hp) as [i [j [E [P _]]]].
  exists i, j. split; auto. unfold pix2xy. rewrite E. cbn [bind fst snd].
  apply ij2xy_legal; auto. apply P.
Qed.

(** ** Position of a cap pixel inside its facet *)

Lemma cap_facet : forall nside i j, (1 <= i <= nside)%Z -> (1 <= j <= 4 * i)%Z ->
  (0 <= (j - 1) / i <= 3)%Z /\ (0 <= (j - 1) mod i < i)%Z /\
  (j - 1 = i * ((j - 1) / i) + (j - 1) mod i)%Z.
Proof.
  intros nside i j Hi Hj. pose proof (Z_div_mod_eq_full (j - 1) i).
  pose proof (Z.mod_pos_bound (j - 1) i ltac:(lia)).
  assert (0 <= (j - 1) / i)%Z by (apply Z.div_pos; lia).
  assert ((j - 1) / i < 4)%Z by (apply Z.div_lt_upper_bound; lia).
  lia.
Qed.

Lemma ring_len_cap : forall nside i j, (1 <= nside)%Z -> legal_ij nside i j ->
  ((i <= nside)%Z -> (1 <= j <= 4 * i)%Z) /\
  ((nside <= i <= 3 * nside)%Z -> (1 <= j <= 4 * nside)%Z) /\
  ((3 * nside <= i)%Z -> (1 <= j <= 4 * (4 * nside - i))%Z).
Proof.
  intros nside i j Hn [Hi Hj]. unfold ring_len in Hj.
  destruct (Z.ltb_spec i nside); destruct (Z.leb_spec i (3 * nside)); lia.
Qed.

Lemma jd2_range : forall nside i j, (1 <= nside)%Z -> legal_ij nside i j ->
  (0 <= jd2 nside i j < 8 * nside)%Z.
Proof.
  intros nside i j Hn Hl. pose proof (ring_len_cap nside i j Hn Hl) as [R1 [R2 R3]].
  destruct Hl as [Hi _]. unfold jd2.
  destruct (Z.leb_spec i nside).
  - pose proof (cap_facet nside i j ltac:(lia) (R1 H)). nia.
  - destruct (Z.ltb_spec i (3 * nside)).
    + destruct (Z.even (i + nside)); lia.
    + pose proof (cap_facet nside (4 * nside - i) j ltac:(lia) (R3 H0)). cbv zeta. nia.
Qed.

(** Parity: [2*jdash + 2*idash = nside + 1] modulo 2. *)
Lemma jd2_parity : forall nside i j,
  Z.even (jd2 nside i j + id2 nside i + nside + 1) = true.
Proof.
  intros nside i j. unfold jd2, id2.
  destruct (i <=? nside)%Z.
  - apply Zeven_bool_iff.
    apply (Zeven_ex_iff _). exists (nside * ((j - 1) / i) + nside - i + 1 + ((j - 1) mod i) + nside)%Z. ring.
  - destruct (i <? 3 * nside)%Z.
    + destruct (Z.even (i + nside)) eqn:E.
      * apply Zeven_bool_iff in E. apply Zeven_ex_iff in E. destruct E as [m E].
        apply Zeven_bool_iff, Zeven_ex_iff. exists (j + 2 * nside - m)%Z. lia.
      * assert (O : Z.odd (i + nside) = true) by (rewrite <- Z.negb_even, E; auto).
        apply Zodd_bool_iff, Zodd_ex_iff in O. destruct O as [m O].
        apply Zeven_bool_iff, Zeven_ex_iff. exists (j + 2 * nside - m - 1)%Z. lia.
    + apply Zeven_bool_iff, Zeven_ex_iff. cbv zeta. set (i' := (4 * nside - i)%Z).
      exists (nside * ((j - 1) / i') + 2 * nside + 1 - 2 * nside + ((j - 1) mod i'))%Z.
      unfold i'. ring.
Qed.

(** Within a ring, distinct positions have distinct [jdash]. *)
Lemma jd2_inj : forall nside i j j', (1 <= nside)%Z -> legal_ij nside i j -> legal_ij nside i j' ->
  jd2 nside i j = jd2 nside i j' -> j = j'.
Proof.
  intros nside i j j' Hn Hl Hl'.
  pose proof (ring_len_cap nside i j Hn Hl) as [R1 [R2 R3]].
  pose proof (ring_len_cap nside i j' Hn Hl') as [R1' [R2' R3']].
  assert (C : forall a, (1 <= a <= nside)%Z -> (1 <= j <= 4 * a)%Z -> (1 <= j' <= 4 * a)%Z ->
    (2 * nside * ((j - 1) / a) + (nside - a + 1) + 2 * ((j - 1) mod a)
     = 2 * nside * ((j' - 1) / a) + (nside - a + 1) + 2 * ((j' - 1) mod a))%Z -> j = j').
  { intros a Ha Hj Hj' E.
    destruct (cap_facet nside a j Ha Hj) as [A1 [A2 A3]].
    destruct (cap_facet nside a j' Ha Hj') as [B1 [B2 B3]].
    set (k := ((j - 1) / a)%Z) in *. set (k' := ((j' - 1) / a)%Z) in *.
    set (r := ((j - 1) mod a)%Z) in *. set (r' := ((j' - 1) mod a)%Z) in *.
    assert (nside * (k - k') = r' - r)%Z by lia.
    assert (k = k')%Z by nia. subst k'. nia. }
  destruct Hl as [Hi _]. unfold jd2.
  destruct (Z.leb_spec i nside).
  - apply C; lia.
  - destruct (Z.ltb_spec i (3 * nside)).
    + destruct (Z.even (i + nside)); lia.
    + cbv zeta. apply C; lia.
Qed.

(** ** C05: standard centres *)

Lemma PI_pos : 0 < PI. Proof. apply PI_RGT_0. Qed.

Lemma np_arccos_ok : forall z, -1 <= z <= 1 -> np_arccos z = Some (acos z).
Proof. intros. unfold np_arccos. rewrite !Rle_bool_t by lra. reflexivity. Qed.

Lemma centre_cap_aux : forall (n I K Rr : R), 0 < n -> 0 < I -> 
  ((2 * n * K + (n - I + 1) + 2 * Rr) * (PI / (4 * n)) - (PI / 4) * (1 - I / n) * (2 * K + 1)) / (1 - (1 - I / n))
  = (I * K + Rr + / 2) * PI / (2 * I).
Proof. intros. field. lra. Qed.

Lemma xy2ang_centre : forall nside i j, (1 <= nside)%Z -> legal_ij nside i j ->
  xy2ang (IZR (jd2 nside i j) * half_diag nside) (IZR (id2 nside i) * half_diag nside)
  = (centre_phi nside i j, Some (acos (centre_z nside i))) /\ -1 <= centre_z nside i <= 1.
Proof.
  intros nside i j Hn Hl.
  pose proof (ring_len_cap nside i j Hn Hl) as [R1 [R2 R3]].
  pose proof PI_pos as HPI.
  assert (Hn' : 1 <= IZR nside) by (apply IZR_le; auto).
  destruct Hl as [Hi _].
  set (n := IZR nside) in *.
  assert (Eid : IZR (id2 nside i) = 2 * n - IZR i) by (unfold id2; rewrite minus_IZR, mult_IZR; auto).
  assert (Ey : IZR (id2 nside i) * half_diag nside = (2 - IZR i / n) * (PI / 4)).
  { rewrite Eid. unfold half_diag. fold n. field. lra. }
  rewrite Ey.
  (* the cap computation shared by north and south *)
  assert (CAP : forall a sgn, (1 <= a < nside)%Z -> (1 <= j <= 4 * a)%Z -> (sgn = 1 \/ sgn = -1) ->
    jd2 nside i j = (2 * nside * ((j - 1) / a) + (nside - a + 1) + 2 * ((j - 1) mod a))%Z ->
    2 - IZR i / n = sgn * (2 - IZR a / n) ->
    xy2ang (IZR (jd2 nside i j) * half_diag nside) ((2 - IZR i / n) * (PI / 4))
    = ((IZR j - / 2) * PI / (2 * IZR a), Some (acos (sgn * (1 - IZR a ^ 2 / (3 * n ^ 2)))))
    /\ -1 <= sgn * (1 - IZR a ^ 2 / (3 * n ^ 2)) <= 1).
  { intros a sgn Ha Hj Hs Ej Ei.
    assert (Ha' : 1 <= IZR a) by (apply IZR_le; lia).
    assert (Han : IZR a < n) by (apply IZR_lt; lia).
    assert (Q : 0 < IZR a / n < 1).
    { split. apply Rdiv_lt_0_compat; lra. apply Rmult_lt_reg_r with n; [lra|].
      unfold Rdiv. rewrite Rmult_assoc, Rinv_l; lra. }
    set (t := IZR a / n) in *.
    assert (Et : IZR a ^ 2 / (3 * n ^ 2) = t ^ 2 / 3) by (unfold t; field; lra).
    rewrite Et, Ei.
    assert (Hab : Rabs (sgn * (2 - t) * (PI / 4)) = (2 - t) * (PI / 4)).
    { destruct Hs as [-> | ->]. rewrite Rabs_pos_eq; nra. rewrite Rabs_left; nra. }
    unfold xy2ang. rewrite Hab. rewrite Rle_bool_f by nra.
    assert (Esz : 4 * (sgn * (2 - t) * (PI / 4)) / PI = sgn * (2 - t)) by (field; lra).
    rewrite Esz.
    assert (Hab2 : Rabs (sgn * (2 - t)) = 2 - t).
    { destruct Hs as [-> | ->]. rewrite Rabs_pos_eq; lra. rewrite Rabs_left; lra. }
    rewrite Hab2.
    assert (Hsg : Rsign (sgn * (2 - t)) = sgn).
    { unfold Rsign. destruct Hs as [-> | ->]. rewrite Rlt_bool_t; lra.
      rewrite Rlt_bool_f by lra. rewrite Rlt_bool_t; lra. }
    rewrite Hsg.
    replace (1 - 1 / 3 * (2 - (2 - t)) ^ 2) with (1 - t ^ 2 / 3) by field.
    assert (Bd : -1 <= sgn * (1 - t ^ 2 / 3) <= 1) by (destruct Hs as [-> | ->]; nra).
    rewrite np_arccos_ok by auto. split; auto.
    rewrite Req_bool_false by lra. f_equal.
    destruct (cap_facet nside a j ltac:(lia) Hj) as [A1 [A2 A3]].
    set (k := ((j - 1) / a)%Z) in *. set (r := ((j - 1) mod a)%Z) in *.
    assert (Hr0 : 0 <= IZR r) by (apply IZR_le; lia).
    assert (Hr1 : IZR r <= IZR a - 1) by (rewrite <- minus_IZR; apply IZR_le; lia).
    assert (EJ : IZR (jd2 nside i j) = 2 * n * IZR k + (n - IZR a + 1) + 2 * IZR r).
    { rewrite Ej. repeat rewrite ?plus_IZR, ?minus_IZR, ?mult_IZR. fold n. ring. }
    rewrite EJ. unfold half_diag. fold n.
    assert (FK : Zfloor (2 * ((2 * n * IZR k + (n - IZR a + 1) + 2 * IZR r) * (PI / (4 * n))) / PI) = k).
    { apply Zfloor_unique.
      replace (2 * ((2 * n * IZR k + (n - IZR a + 1) + 2 * IZR r) * (PI / (4 * n))) / PI)
        with (IZR k + ((n - IZR a + 1) + 2 * IZR r) / (2 * n)) by (field; lra).
      assert (0 <= ((n - IZR a + 1) + 2 * IZR r) / (2 * n)) by (apply Rle_mult_inv_pos; lra).
      assert (((n - IZR a + 1) + 2 * IZR r) / (2 * n) < 1).
      { apply Rmult_lt_reg_r with (2 * n); [lra|]. unfold Rdiv. rewrite Rmult_assoc, Rinv_l; lra. }
      lra. }
    rewrite FK.
    replace (2 - t - 1) with (1 - IZR a / n) by (unfold t; lra).
    rewrite centre_cap_aux by lra. f_equal. f_equal.
    assert (IZR j - 1 = IZR a * IZR k + IZR r).
    { rewrite <- mult_IZR, <- plus_IZR, <- minus_IZR. f_equal. lia. }
    lra. }
  unfold centre_phi, centre_z. fold n.
  destruct (Z.ltb_spec i nside) as [A|A].
  - (* north cap *)
    destruct (CAP i 1) as [C1 C2]; try lia; auto; try lra.
    { unfold jd2. replace (i <=? nside)%Z with true by (symmetry; apply Z.leb_le; lia). reflexivity. }
    rewrite Rmult_1_l in C1, C2. split; auto.
  - destruct (Z.leb_spec i (3 * nside)) as [B|B].
    + (* belt, both border rings included *)
      assert (Hi1 : n <= IZR i) by (apply IZR_le; auto).
      assert (Hi3 : IZR i <= 3 * n) by (unfold n; rewrite <- mult_IZR; apply IZR_le; auto).
      assert (Q : 1 <= IZR i / n <= 3).
      { split. apply Rmult_le_reg_r with n; [lra|]. unfold Rdiv. rewrite Rmult_assoc, Rinv_l; lra.
        apply Rmult_le_reg_r with n; [lra|]. unfold Rdiv. rewrite Rmult_assoc, Rinv_l; lra. }
      set (t := IZR i / n) in *.
      replace (2 * IZR i / (3 * n)) with (2 * t / 3) by (unfold t; field; lra).
      unfold xy2ang. rewrite Rle_bool_t.
      2: { apply Rabs_le. nra. }
      replace (8 * ((2 - t) * (PI / 4)) / (3 * PI)) with (4 / 3 - 2 * t / 3) by (field; lra).
      rewrite np_arccos_ok by lra. split; [|lra]. f_equal.
      unfold half_diag. fold n.
      assert (EJ : IZR (jd2 nside i j) = 2 * (IZR j - (if Z.even (i + nside) then / 2 else 1))).
      { unfold jd2. destruct (Z.leb_spec i nside) as [C|C].
        - assert (i = nside) by lia. subst i.
          replace (nside + nside)%Z with (2 * nside)%Z by ring. rewrite Z.even_mul. simpl orb. cbv iota.
          pose proof (Z_div_mod_eq_full (j - 1) nside) as D.
          replace (2 * nside * ((j - 1) / nside) + (nside - nside + 1) + 2 * ((j - 1) mod nside))%Z
            with (2 * (j - 1) + 1)%Z by lia.
          rewrite plus_IZR, mult_IZR, minus_IZR. lra.
        - destruct (Z.ltb_spec i (3 * nside)) as [D|D].
          + destruct (Z.even (i + nside)); rewrite minus_IZR, mult_IZR; lra.
          + assert (i = 3 * nside)%Z by lia. subst i.
            replace (3 * nside + nside)%Z with (2 * (2 * nside))%Z by ring. rewrite Z.even_mul. simpl orb. cbv iota.
            cbv zeta. replace (4 * nside - 3 * nside)%Z with nside by ring.
            pose proof (Z_div_mod_eq_full (j - 1) nside) as F.
            replace (2 * nside * ((j - 1) / nside) + (nside - nside + 1) + 2 * ((j - 1) mod nside))%Z
              with (2 * (j - 1) + 1)%Z by lia.
            rewrite plus_IZR, mult_IZR, minus_IZR. lra. }
      rewrite EJ. field. lra.
    + (* south cap *)
      assert (EI : IZR (4 * nside - i) = 4 * n - IZR i) by (rewrite minus_IZR, mult_IZR; auto).
      destruct (CAP (4 * nside - i)%Z (-1)) as [C1 C2]; try lia; auto.
      { unfold jd2. replace (i <=? nside)%Z with false by (symmetry; apply Z.leb_gt; lia).
        replace (i <? 3 * nside)%Z with false by (symmetry; apply Z.ltb_ge; lia). reflexivity. }
      { rewrite EI. field. lra. }
      rewrite EI in C1, C2.
      replace (-1 * (1 - (4 * n - IZR i) ^ 2 / (3 * n ^ 2)))
        with (- (1 - (4 * n - IZR i) ^ 2 / (3 * n ^ 2))) in C1, C2 by ring.
      split; auto.
Qed.

(** The composition pixel -> plane -> sphere. *)
Lemma pixel_centre : forall nside p, (1 <= nside)%Z -> legal_pix nside p ->
  exists i j x y theta, pixel_at nside p i j /\ pix2xy p nside = Ok (x, y) /\
    xy2ang x y = (centre_phi nside i j, Some theta) /\
    0 <= theta <= PI /\ cos theta = centre_z nside i.
Proof.
  intros nside p Hn Hp. destruct (pix2xy_legal nside p Hn Hp) as [i [j [P E]]].
  destruct (xy2ang_centre nside i j Hn (proj1 P)) as [A B].
  do 5 eexists. split; [eauto|]. split; [eauto|]. split; [eauto|].
  split. apply acos_bound. apply cos_acos; auto.
Qed.
