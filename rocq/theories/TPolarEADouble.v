(** * Theorems: equal-area polar grids in double precision (C103) *)

From Coq Require Import Reals ZArith List Bool Lia Lra Psatz.
From Flocq Require Import Core IEEE754.BinarySingleNaN.
From Verif Require Import Base BaseP POneD MGrids PPolarCoords PGrids MHealpixFloat PHealpixFloat SpecDouble MDouble PDouble PPiDouble MGridsDouble PGridsDouble TGridsDouble MSumDouble PSumDouble MOneDDouble PRebinDouble4 PSigmaDouble MPolarEADouble PPolarEADouble.
Import ListNotations.
Open Scope R_scope.

(** [polarEA_grid]: [base*nr^2] points; ring [i] has [base*(2i+1)] of them, the
    [j]-th at entry [base*i^2 + j].  All are finite and at the centre of their
    pixel up to rounding. *)
Theorem C103_points : forall nr rmax base, (1 <= nr)%nat -> (1 <= base)%nat ->
  (Z.of_nat nr <= 2 ^ 50)%Z -> (Z.of_nat (base * (2 * nr - 1)) <= 2 ^ 50)%Z ->
  fin rmax -> b2 (-900) <= val rmax <= b2 1020 ->
  exists r p, polarEA_grid_d (Z.of_nat nr) rmax (Z.of_nat base) = Ok (r, p) /\
    length r = (base * (nr * nr))%nat /\ length p = (base * (nr * nr))%nat /\
    forall i j, (i < nr)%nat -> (j < base * (2 * i + 1))%nat ->
      let r0 := nth (base * (i * i) + j) r dzero in let p0 := nth (base * (i * i) + j) p dzero in
      fin r0 /\ fin p0 /\
      Rabs (val r0 - (INR i + / 2) * (val rmax / INR nr)) <= b2 (-48) * val rmax /\
      Rabs (val p0 - (INR j + / 2) * (2 * PI / INR (base * (2 * i + 1)))) <= b2 (-45).
Proof.
  intros nr rmax base Hn Hb Hn2 Hb2 Fr Br. destruct (polarEA_d_spec nr rmax base Hn Hb Hn2 Hb2 Fr Br) as (r & p & E & L1 & L2 & H).
  exists r, p. split; [exact E|]. split; [exact L1|]. split; [exact L2|]. intros i j Hi Hj. cbv zeta. destruct (H i j Hi Hj) as (A & B & C & D).
  split; [exact A|]. split; [exact B|]. split; [exact C|]. apply sector_near; [exact Hj|exact D].
Qed.
Print Assumptions C103_points.

(** Up to [2^46] rings and sectors the point is strictly inside its own pixel,
    so no two pixels share a point and none is at the origin or on an edge. *)
Theorem C103_inside : forall nr rmax base r p, (1 <= nr)%nat -> (1 <= base)%nat ->
  (Z.of_nat nr <= 2 ^ 46)%Z -> (Z.of_nat (base * (2 * nr - 1)) <= 2 ^ 46)%Z ->
  fin rmax -> b2 (-900) <= val rmax <= b2 1020 ->
  polarEA_grid_d (Z.of_nat nr) rmax (Z.of_nat base) = Ok (r, p) ->
  forall i j, (i < nr)%nat -> (j < base * (2 * i + 1))%nat ->
    let r0 := val (nth (base * (i * i) + j) r dzero) in let p0 := val (nth (base * (i * i) + j) p dzero) in
    INR i * (val rmax / INR nr) < r0 < INR (S i) * (val rmax / INR nr) /\
    INR j * (2 * PI / INR (base * (2 * i + 1))) < p0 < INR (S j) * (2 * PI / INR (base * (2 * i + 1))).
Proof.
  intros nr rmax base r p Hn Hb Hn2 Hb2 Fr Br E i j Hi Hj.
  destruct (C103_points nr rmax base Hn Hb ltac:(lia) ltac:(lia) Fr Br) as (r' & p' & E' & _ & _ & H). rewrite E in E'. apply Ok_inj in E'.
  pose proof (f_equal fst E') as E1. pose proof (f_equal snd E') as E2. cbn [fst snd] in E1, E2. subst r' p'. clear E E'.
  destruct (H i j Hi Hj) as (_ & _ & C & D). clear H. pose proof (bpow_gt_0 radix2 (-900)) as P9. pose proof pi_accuracy as PA. pose proof tau_bounds as TB.
  assert (B46 : forall k, (Z.of_nat k <= 2 ^ 46)%Z -> INR k <= b2 46) by (intros k K; rewrite INR_IZR_INZ; change (b2 46) with (IZR (2 ^ 46)); apply IZR_le; exact K).
  cbv zeta. split.
  - apply (cell_inside _ _ _ _ (b2 (-48) * val rmax)); [lia|lra|exact C|]. specialize (B46 nr Hn2).
    assert (2 * INR nr * b2 (-48) <= / 2).
    { apply Rle_trans with (2 * b2 46 * b2 (-48)); [apply Rmult_le_compat_r; [apply bpow_ge_0|lra]|]. change (/ 2) with (b2 (-1)). change 2 with (b2 1). rewrite <- !bpow_plus. apply bpow_le. lia. }
    rewrite <- Rmult_assoc. apply Rle_lt_trans with (/ 2 * val rmax); [apply Rmult_le_compat_r; lra|lra].
  - apply (cell_inside _ _ _ _ (b2 (-45))); [nia|lra|exact D|]. specialize (B46 (base * (2 * i + 1))%nat ltac:(nia)).
    apply Rle_lt_trans with (2 * b2 46 * b2 (-45)); [apply Rmult_le_compat_r; [apply bpow_ge_0|lra]|]. replace (2 * b2 46 * b2 (-45)) with 4; [lra|].
    change 2 with (b2 1). rewrite <- !bpow_plus. reflexivity.
Qed.
Print Assumptions C103_inside.

Lemma pow12 : (1 + u) ^ 12 <= 1 + 15 * u.
Proof.
  pose proof u_pos as U. assert (Us : u * u <= / 1024 * u) by (apply Rmult_le_compat_r; [lra|]; unfold u; change (/ 1024) with (b2 (-10)); apply bpow_le; lia).
  assert (A : 1 <= (1 + u) ^ 2 <= 1 + 21 / 10 * u) by (replace ((1 + u) ^ 2) with (1 + 2 * u + u * u) by ring; split; nra).
  assert (B : 1 <= (1 + u) ^ 4 <= 1 + 43 / 10 * u). { replace ((1 + u) ^ 4) with ((1 + u) ^ 2 * (1 + u) ^ 2) by ring. set (x := (1 + u) ^ 2) in *. clearbody x. split; [nra|].
    apply Rle_trans with ((1 + 21 / 10 * u) * (1 + 21 / 10 * u)); [apply Rmult_le_compat; lra|lra]. }
  assert (C : 1 <= (1 + u) ^ 8 <= 1 + 87 / 10 * u). { replace ((1 + u) ^ 8) with ((1 + u) ^ 4 * (1 + u) ^ 4) by ring. set (x := (1 + u) ^ 4) in *. clearbody x. split; [nra|].
    apply Rle_trans with ((1 + 43 / 10 * u) * (1 + 43 / 10 * u)); [apply Rmult_le_compat; lra|lra]. }
  replace ((1 + u) ^ 12) with ((1 + u) ^ 8 * (1 + u) ^ 4) by ring.
  apply Rle_trans with ((1 + 87 / 10 * u) * (1 + 43 / 10 * u)); [apply Rmult_le_compat; lra|lra].
Qed.

Lemma rel12 : forall r x X, 0 <= X -> rel 12 r x X -> Rabs (val x - X) <= b2 (-49) * X.
Proof.
  intros r x X HX (F & (t & (T0 & T1 & T2) & V) & _). pose proof pow12 as P. pose proof u_pos as U.
  assert (Us : u * u <= / 1024 * u) by (apply Rmult_le_compat_r; [lra|]; unfold u; change (/ 1024) with (b2 (-10)); apply bpow_le; lia).
  assert (E49 : b2 (-49) = 16 * u) by (unfold u; change 16 with (b2 4); rewrite <- bpow_plus; reflexivity).
  assert (T3 : 1 - 16 * u <= t).
  { assert (1 <= (1 + 15 * u) * t) by (apply Rle_trans with (/ t * t); [rewrite Rinv_l by lra; lra|apply Rmult_le_compat_r; lra]).
    destruct (Rle_or_lt (1 - 16 * u) t) as [L|L]; [exact L|]. assert ((1 + 15 * u) * t < (1 + 15 * u) * (1 - 16 * u)) by (apply Rmult_lt_compat_l; lra). assert (0 <= u * u) by (apply Rmult_le_pos; lra). lra. }
  rewrite V, E49. replace (X * t - X) with (X * (t - 1)) by ring. rewrite Rabs_mult, (Rabs_pos_eq X), (Rmult_comm X) by exact HX. apply Rmult_le_compat_r; [exact HX|]. apply Rabs_le. lra.
Qed.

Lemma pi_rel : rel 1 2 pi_d PI.
Proof.
  destruct pi_val as [F V]. pose proof pi_accuracy as A. pose proof tau_bounds as T. pose proof u_pos as U.
  assert (E52 : b2 (-52) = 2 * u) by (unfold u; change 2 with (b2 1); rewrite <- bpow_plus; reflexivity).
  assert (Us : u * u <= / 1024 * u) by (apply Rmult_le_compat_r; [lra|]; unfold u; change (/ 1024) with (b2 (-10)); apply bpow_le; lia).
  split; [exact F|]. split.
  - exists (tau / 2 / PI). split; [|rewrite V; field; lra]. assert (P : 0 < / PI) by (apply Rinv_0_lt_compat; lra). split; [apply Rmult_lt_0_compat; lra|]. cbn [pow]. rewrite Rmult_1_r. split.
    + apply Rle_trans with 1; [|lra]. apply Rmult_le_reg_r with PI; [lra|]. unfold Rdiv. rewrite Rmult_assoc, Rinv_l by lra. lra.
    + replace (/ (tau / 2 / PI)) with (PI / (tau / 2)) by (field; lra). apply Rmult_le_reg_r with (tau / 2); [lra|]. unfold Rdiv at 1. rewrite Rmult_assoc, Rinv_l by lra.
      assert (u * 3 <= u * (tau / 2)) by (apply Rmult_le_compat_l; lra). lra.
  - right. rewrite Rabs_pos_eq by lra. change (b2 2) with 4. change (b2 (- (2))) with (/ 4). pose proof PI_4. lra.
Qed.

(** The C function behind [x**2.]: accurate to [2^-52] of the square. *)
Definition square_ok (pow2 : double -> double) : Prop :=
  forall x, fin x -> b2 (-400) <= Rabs (val x) <= b2 400 ->
    fin (pow2 x) /\ Rabs (val (pow2 x) - val x ^ 2) <= b2 (-52) * val x ^ 2.

Lemma int_rel : forall n, (1 <= n <= 2 ^ 53)%Z -> rel 0 53 (dint n) (IZR n).
Proof.
  intros n H. destruct (dint_ok n ltac:(lia)) as [F V]. rewrite <- V. apply rel_exact; [exact F|]. right. rewrite V, Rabs_pos_eq by (apply IZR_le; lia).
  split; [apply Rle_trans with (b2 0); [apply bpow_le; lia|change (b2 0) with (IZR 1); apply IZR_le; lia]|change (b2 53) with (IZR (2 ^ 53)); apply IZR_le; lia].
Qed.

(** [polarEA_area]: within [2^-49] of the area of each pixel, so that the
    pixels together cover the disc up to that. *)
Theorem C103_area : forall pow2 nr rmax base, square_ok pow2 -> (1 <= nr <= 2 ^ 53)%Z -> (1 <= base <= 2 ^ 53)%Z ->
  fin rmax -> b2 (-300) <= val rmax <= b2 300 ->
  exists a, polarEA_area_d pow2 nr rmax base = Ok a /\ fin a /\
    Rabs (val a - PI * (val rmax / IZR nr) ^ 2 / IZR base) <= b2 (-49) * (PI * (val rmax / IZR nr) ^ 2 / IZR base) /\
    Rabs (IZR (polarEA_npix nr base) * val a - PI * val rmax ^ 2) <= b2 (-49) * (PI * val rmax ^ 2).
Proof.
  intros pow2 nr rmax base SQ Hn Hb Fr Br. unfold polarEA_area_d. rewrite (proj2 (Z.eqb_neq nr 0)), (proj2 (Z.eqb_neq base 0)) by lia.
  pose proof (bpow_gt_0 radix2 (-300)) as P3. pose proof PI_RGT_0 as PP. pose proof u_pos as U.
  assert (N0 : 1 <= IZR nr) by (apply IZR_le; lia). assert (B0 : 1 <= IZR base) by (apply IZR_le; lia).
  assert (F0 : few 0) by (unfold few; cbn [INR]; apply bpow_ge_0).
  assert (FK : forall k, (k <= 20)%nat -> few k).
  { intros k K. unfold few. apply Rle_trans with (INR 20); [now apply le_INR|]. apply Rle_trans with (b2 5); [rewrite INR_IZR_INZ; change (b2 5) with 32; change (Z.of_nat 20) with 20%Z; lra|apply bpow_le; lia]. }
  assert (Rr : rel 0 300 rmax (val rmax)) by (apply rel_exact; [exact Fr|right; rewrite Rabs_pos_eq by lra; exact Br]).
  pose proof (rel_div 0 0 300 53 _ _ _ _ F0 F0 ltac:(lia) ltac:(lia) ltac:(lia) Rr (int_rel nr Hn) ltac:(lra)) as Rq. cbn [Nat.add] in Rq. change (300 + 53)%Z with 353%Z in Rq.
  set (Q := val rmax / IZR nr) in *. set (q := ddiv rmax (dint nr)) in *.
  assert (QP : 0 < Q) by (apply Rdiv_lt_0_compat; lra).
  destruct (rel_size 2 353 q Q (FK 2%nat ltac:(lia)) Rq ltac:(lra)) as [S1 S2].
  destruct Rq as (Fq & (t & At & Vq) & Sq). destruct Sq as [Sq|Sq]; [lra|].
  destruct (SQ q Fq) as [F2 V2].
  { split; [apply Rle_trans with (2 := S1); change (/ 2) with (b2 (-1))|apply Rle_trans with (1 := S2); change 2 with (b2 1)]; rewrite <- bpow_plus; apply bpow_le; lia. }
  assert (PQ : 0 < val q) by (rewrite Vq; apply Rmult_lt_0_compat; [exact QP|apply At]).
  assert (R2 : rel 7 706 (pow2 q) (Q ^ 2)).
  { split; [exact F2|]. split.
    - exists (t * t * (val (pow2 q) / val q ^ 2)). split; [|rewrite Vq; field; destruct At; lra].
      change 7%nat with (2 + 2 + 3)%nat. apply around_mul; [apply around_mul; exact At|].
      assert (P2 : 0 < val q ^ 2) by (apply pow_lt; exact PQ). set (y := val (pow2 q)) in *. set (z := val q ^ 2) in *. clearbody y z.
      assert (E52 : b2 (-52) = 2 * u) by (unfold u; change 2 with (b2 1); rewrite <- bpow_plus; reflexivity). rewrite E52 in V2. apply Rabs_le_inv in V2.
      assert (Us : u <= / 1024) by (unfold u; change (/ 1024) with (b2 (-10)); apply bpow_le; lia).
      assert (Uz : u * z <= / 1024 * z) by (apply Rmult_le_compat_r; lra). assert (Up : 0 < u * z) by (apply Rmult_lt_0_compat; lra).
      assert (YP : 0 < y) by lra. split; [apply Rdiv_lt_0_compat; lra|]. assert (K : 1 + 3 * u <= (1 + u) ^ 3) by (cbn [pow]; nra).
      split; [apply Rle_trans with (2 := K); apply Rmult_le_reg_r with z; [lra|]; unfold Rdiv; rewrite Rmult_assoc, Rinv_l by lra; lra|].
      apply Rle_trans with (2 := K). replace (/ (y / z)) with (z / y) by (field; lra). apply Rmult_le_reg_r with y; [lra|]. unfold Rdiv. rewrite Rmult_assoc, Rinv_l by lra.
      assert ((1 + 3 * u) * (z - 2 * u * z) <= (1 + 3 * u) * y) by (apply Rmult_le_compat_l; lra). assert (u * (u * z) <= / 1024 * (u * z)) by (apply Rmult_le_compat_r; lra). lra.
    - right. rewrite (Rabs_pos_eq Q) in Sq by lra. rewrite Rabs_pos_eq by (apply pow_le; lra). replace (Q ^ 2) with (Q * Q) by ring. change (- (706))%Z with (- (353) + - (353))%Z. change 706%Z with (353 + 353)%Z. rewrite !bpow_plus.
      pose proof (bpow_gt_0 radix2 (- (353))). split; apply Rmult_le_compat; lra. }
  pose proof (rel_mul 1 7 2 706 _ _ _ _ (FK 1%nat ltac:(lia)) (FK 7%nat ltac:(lia)) ltac:(lia) ltac:(lia) ltac:(lia) pi_rel R2) as R3. cbn [Nat.add] in R3. change (2 + 706)%Z with 708%Z in R3.
  pose proof (rel_div 10 0 708 53 _ _ _ _ (FK 10%nat ltac:(lia)) F0 ltac:(lia) ltac:(lia) ltac:(lia) R3 (int_rel base Hb) ltac:(lra)) as R4. cbn [Nat.add] in R4.
  eexists. split; [reflexivity|]. split; [apply R4|].
  assert (AP : 0 <= PI * Q ^ 2 / IZR base) by (apply Rlt_le, Rdiv_lt_0_compat; [apply Rmult_lt_0_compat; [lra|now apply pow_lt]|lra]).
  pose proof (rel12 _ _ _ AP R4) as G. split; [exact G|]. set (a := ddiv _ _) in *.
  assert (NP : IZR (polarEA_npix nr base) = IZR base * IZR nr ^ 2).
  { unfold polarEA_npix. rewrite mult_IZR. replace (nr ^ 2)%Z with (nr * nr)%Z by ring. rewrite mult_IZR. ring. }
  assert (TOT : PI * val rmax ^ 2 = IZR (polarEA_npix nr base) * (PI * Q ^ 2 / IZR base)) by (rewrite NP; unfold Q; field; lra).
  assert (NP0 : 0 <= IZR (polarEA_npix nr base)) by (rewrite NP; apply Rmult_le_pos; [lra|apply pow_le; lra]).
  rewrite TOT, <- Rmult_minus_distr_l, Rabs_mult, (Rabs_pos_eq (IZR _)) by exact NP0. rewrite <- Rmult_assoc, (Rmult_comm (b2 (-49))), Rmult_assoc. apply Rmult_le_compat_l; [exact NP0|exact G].
Qed.
Print Assumptions C103_area.

(** No rings: the concatenation fails; a zero count is divided by. *)
Theorem C103_errors :
  (forall nr rmax base, (nr <= 0)%Z -> polarEA_grid_d nr rmax base = Err ValueError) /\
  (forall pow2 rmax base, polarEA_area_d pow2 0 rmax base = Err ZeroDivisionError) /\
  (forall pow2 nr rmax, polarEA_area_d pow2 nr rmax 0 = Err ZeroDivisionError).
Proof.
  split; [|split].
  - intros nr rmax base H. unfold polarEA_grid_d, get_xedges_d, linspace_d.
    destruct (nr + 1 <? 0)%Z; [reflexivity|]. cbn [bind].
    unfold py_range at 2. replace (Z.to_nat nr) with 0%nat by lia. reflexivity.
  - reflexivity.
  - intros pow2 nr rmax. unfold polarEA_area_d. destruct (nr =? 0)%Z; reflexivity.
Qed.
Print Assumptions C103_errors.

(** A base count that is not positive, whatever [rmax] is, NaN included: no
    points for zero; a negative one is refused, except -1 with a single ring. *)
Theorem C103_base : forall nr rmax base, (1 <= nr)%Z -> (base <= 0)%Z ->
  (base = 0%Z \/ (base = -1)%Z /\ nr = 1%Z -> polarEA_grid_d nr rmax base = Ok ([], [])) /\
  (base <> 0%Z -> ~ ((base = -1)%Z /\ nr = 1%Z) -> polarEA_grid_d nr rmax base = Err ValueError).
Proof.
  intros nr rmax base Hn Hb.
  assert (Z0 : forall l, concat (map (fun _ : Z => @nil double) l) = []).
  { intros l. induction l as [|z t IH]; [reflexivity|exact IH]. }
  assert (NE : exists t, py_range nr = 0%Z :: t).
  { unfold py_range. replace (Z.to_nat nr) with (S (Z.to_nat (nr - 1))) by lia. eexists. reflexivity. }
  destruct NE as [t NE].
  assert (IN : forall z, In z (py_range nr) -> (0 <= z < nr)%Z).
  { intros z Hz. unfold py_range in Hz. apply in_map_iff in Hz. destruct Hz as (i & <- & Hi). apply in_seq in Hi. lia. }
  assert (RE : exists re, get_xedges_d rmax nr None = Ok re).
  { unfold get_xedges_d, linspace_d. destruct (Z.ltb_spec (nr + 1) 0); [lia|]. eexists. reflexivity. }
  destruct RE as [re RE].
  assert (RS : mapM (fun i => mapM (fun _ => py_get (xedges2mid_d re) i) (py_range (base * (2 * i + 1)))) (py_range nr)
               = Ok (map (fun _ => []) (py_range nr))).
  { apply mapM_ok. intros z Hz. specialize (IN z Hz). unfold py_range at 1.
    replace (Z.to_nat (base * (2 * z + 1))) with 0%nat by nia. reflexivity. }
  unfold polarEA_grid_d. rewrite RE. cbn [bind]. rewrite RS. cbn [bind].
  assert (CC : np_concatenate (map (fun _ : Z => @nil double) (py_range nr)) = Ok []).
  { unfold np_concatenate. rewrite NE. cbn [map]. f_equal. exact (Z0 (0%Z :: t)). }
  rewrite CC. cbn [bind]. split.
  - intros H.
    assert (PS : mapM (fun i => e <- get_xedges_d twopi (base * (2 * i + 1)) None ;; Ok (xedges2mid_d e)) (py_range nr)
                 = Ok (map (fun _ => []) (py_range nr))).
    { apply mapM_ok. intros z Hz. specialize (IN z Hz). unfold get_xedges_d, linspace_d.
      assert (V : (base * (2 * z + 1) = 0 \/ base * (2 * z + 1) = -1)%Z).
      { destruct H as [-> | [-> ->]]; [left; lia|right; lia]. }
      destruct V as [-> | ->]; reflexivity. }
    rewrite PS. cbn [bind]. rewrite CC. reflexivity.
  - intros H0 H1.
    assert (PS : forall l k, (forall z, In z l -> (0 <= z)%Z) -> In k l -> (base * (2 * k + 1) + 1 < 0)%Z ->
                 mapM (fun i => e <- get_xedges_d twopi (base * (2 * i + 1)) None ;; Ok (xedges2mid_d e)) l = Err ValueError).
    { intros l k. induction l as [|a l IH]; intros Hp Hk Hlt; [destruct Hk|]. cbn [mapM]. unfold get_xedges_d at 1, linspace_d at 1.
      destruct (Z.ltb_spec (base * (2 * a + 1) + 1) 0) as [|HG]; [reflexivity|]. cbn [bind].
      rewrite IH; [reflexivity| |destruct Hk as [-> |Hk]; [lia|exact Hk]|exact Hlt]. intros z Hz. apply Hp. now right. }
    rewrite (PS _ (nr - 1)%Z); [reflexivity| | |].
    + intros z Hz. specialize (IN z Hz). lia.
    + unfold py_range. apply in_map_iff. exists (Z.to_nat (nr - 1)). split; [lia|]. apply in_seq. lia.
    + assert (base <= -1)%Z by lia. destruct (Z.eq_dec base (-1)); [|nia].
      assert (nr <> 1)%Z by (intros ->; apply H1; auto). nia.
Qed.
Print Assumptions C103_base.

(** Three rings of 4, 12 and 20 pixels out to radius 1; a correctly rounded
    square is accurate enough. *)
Example C103_example : exists r p, polarEA_grid_d 3 done 4 = Ok (r, p) /\ length r = 36%nat /\
  1 / 3 < val (nth 4 r dzero) < 2 / 3 /\ 11 * (PI / 6) < val (nth 15 p dzero) < 12 * (PI / 6).
Proof.
  destruct done_ok as [F V].
  assert (Br : b2 (-900) <= val done <= b2 1020) by (rewrite V; change 1 with (b2 0); split; apply bpow_le; lia).
  destruct (C103_points 3 done 4 ltac:(lia) ltac:(lia) ltac:(cbn; lia) ltac:(cbn; lia) F Br) as (r & p & E & L & _ & _).
  exists r, p. split; [exact E|]. split; [exact L|].
  destruct (C103_inside 3 done 4 r p ltac:(lia) ltac:(lia) ltac:(cbn; lia) ltac:(cbn; lia) F Br E 1 0 ltac:(lia) ltac:(lia)) as [A _].
  destruct (C103_inside 3 done 4 r p ltac:(lia) ltac:(lia) ltac:(cbn; lia) ltac:(cbn; lia) F Br E 1 11 ltac:(lia) ltac:(lia)) as [_ B].
  rewrite V in A. cbn [Nat.mul Nat.add] in A, B. rewrite !INR_IZR_INZ in A, B. cbn [Z.of_nat Pos.of_succ_nat Pos.succ] in A, B. cbn [INR] in A. lra.
Qed.

Example C103_square : square_ok (fun x => dmul x x).
Proof.
  intros x F B. assert (P : b2 (-800) <= Rabs (val x * val x) <= b2 800).
  { rewrite Rabs_mult. change (-800)%Z with (-400 + -400)%Z. change 800%Z with (400 + 400)%Z. rewrite !bpow_plus. pose proof (bpow_gt_0 radix2 (-400)). split; apply Rmult_le_compat; lra. }
  assert (S1 : Rabs (fl (val x * val x)) <= b2 800).
  { apply abs_round_le_generic; auto with typeclass_instances; [apply FLT_exp_valid; reflexivity|apply (fmt_b2 800); lia|lra]. }
  destruct (dmul_ok x x F F) as [F2 V2]; [apply Rle_lt_trans with (1 := S1); apply bpow_lt; lia|]. split; [exact F2|]. rewrite V2.
  pose proof (fl_mixed (val x * val x)) as E. replace (val x ^ 2) with (val x * val x) by ring.
  assert (P0 : 0 <= val x * val x) by nra. rewrite (Rabs_pos_eq (val x * val x)) in E, P by exact P0.
  assert (T : b2 (-1075) <= u * (val x * val x)).
  { apply Rle_trans with (u * b2 (-800)); [unfold u; rewrite <- bpow_plus; apply bpow_le; lia|apply Rmult_le_compat_l; [apply bpow_ge_0|lra]]. }
  replace (b2 (-52)) with (2 * u) by (unfold u; change 2 with (b2 1); rewrite <- bpow_plus; reflexivity). lra.
Qed.
