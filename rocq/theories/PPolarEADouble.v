(** * Lemmas on equal-area polar grids in double precision *)

From Coq Require Import Reals ZArith List Bool Lia Lra Psatz.
From Flocq Require Import Core IEEE754.BinarySingleNaN.
From Verif Require Import Base BaseP POneD MGrids PPolarCoords PGrids MHealpixFloat PHealpixFloat SpecDouble MDouble PDouble PPiDouble MGridsDouble PGridsDouble TGridsDouble MSumDouble PSumDouble MPolarEADouble.
Import ListNotations.
Open Scope R_scope.

(** A mid-point is the exact one up to [2^-48] of the length. *)
Lemma mids_near : forall len n, fin len -> b2 (-900) <= val len <= b2 1020 -> (1 <= n <= 2 ^ 50)%Z ->
  exists e, get_xedges_d len n None = Ok e /\ length (xedges2mid_d e) = Z.to_nat n /\
    forall i, (i < Z.to_nat n)%nat -> fin (nth i (xedges2mid_d e) dzero) /\
      Rabs (val (nth i (xedges2mid_d e) dzero) - (INR i + / 2) * (val len / IZR n)) <= b2 (-48) * val len.
Proof.
  intros len n Fl Bl Hn. pose proof (bpow_gt_0 radix2 (-900)) as P9. pose proof u_pos as U.
  assert (HI : fl (val dzero + val len) = val len) by (rewrite val_zero, Rplus_0_l; apply fl_fmt, fmt_val).
  assert (B : box_ok dzero len).
  { split; [apply fin_zero|]. split; [exact Fl|]. rewrite HI, val_zero, Rabs_R0. split; [apply bpow_ge_0|]. split; [lra|]. right. rewrite Rminus_0_r.
    apply Rle_trans with (2 := proj1 Bl). apply bpow_le. lia. }
  destruct (C85_edges len n None B Hn) as (e & E & L & L0 & L1 & M & A). cbn [xlo] in L0, L1, A. rewrite HI in L1, A. rewrite val_zero in L0.
  destruct (C85_mids len n None B Hn) as (m & e' & G & E' & Lm & Fm). rewrite E in E'. apply Ok_inj in E'. subst e'.
  unfold grid1d_d in G. rewrite E in G. cbn [bind] in G. apply Ok_inj in G. apply (f_equal fst) in G. cbn [fst] in G. subst m.
  exists e. split; [exact E|]. split; [exact Lm|]. intros i Hi. destruct (Fm i Hi) as [F _]. split; [exact F|].
  assert (Lt : length (tl e) = Z.to_nat n) by (destruct e; [discriminate|cbn in *; lia]).
  unfold xedges2mid_d. rewrite (nth_map2 _ _ _ _ _ _ i dzero dzero dzero) by (rewrite ?length_rl, ?Lt; lia).
  assert (R1 : nth i (removelast e) dzero = nth i e dzero).
  { rewrite <- (nth_removelast_app _ e dzero i dzero) by lia. rewrite app_nth1 by (rewrite length_rl; lia). reflexivity. }
  assert (R2 : nth i (tl e) dzero = nth (S i) e dzero) by (destruct e; [destruct i; reflexivity|reflexivity]).
  rewrite R1, R2.
  destruct (A i ltac:(lia)) as [F0 A0]. destruct (A (S i) ltac:(lia)) as [F1 A1].
  pose proof (M 0%nat i ltac:(lia)) as M0. pose proof (M i (S i) ltac:(lia)) as M1. pose proof (M (S i) (Z.to_nat n) ltac:(lia)) as M2.
  rewrite L0 in M0. rewrite L1 in M2. clear M A Fm.
  set (a := nth i e dzero) in *. set (b := nth (S i) e dzero) in *. clearbody a b.
  rewrite val_zero, Rabs_R0, Rplus_0_l in A0, A1. rewrite (Rabs_pos_eq (val len)) in A0, A1 by lra. rewrite Rmax_right in A0, A1 by lra.
  assert (B21 : 2 * b2 1020 = b2 1021) by (change 2 with (b2 1); rewrite <- bpow_plus; reflexivity).
  assert (S1 : Rabs (fl (val a + val b)) <= b2 1021).
  { apply abs_round_le_generic; auto with typeclass_instances; [apply FLT_exp_valid; reflexivity|apply (fmt_b2 1021); lia|]. rewrite Rabs_pos_eq; lra. }
  destruct (dadd_ok a b F0 F1) as [F2 V2]; [apply Rle_lt_trans with (1 := S1); apply bpow_lt; lia|].
  pose proof (add_err (val a) (val b) (fmt_val a) (fmt_val b)) as E1. rewrite (Rabs_pos_eq (val a + val b)) in E1 by lra.
  destruct half_ok as [H1 H2]. set (s := fl (val a + val b)) in *.
  assert (E1' : Rabs (s - (val a + val b)) <= u * (2 * val len)) by (apply Rle_trans with (1 := E1); apply Rmult_le_compat_l; lra).
  assert (Us : u <= / 1024) by (unfold u; change (/ 1024) with (b2 (-10)); apply bpow_le; lia).
  assert (UL : u * val len <= / 1024 * val len) by (apply Rmult_le_compat_r; lra).
  apply Rabs_le_inv in E1'.
  assert (S2 : Rabs (fl (/ 2 * s)) <= b2 1021).
  { apply abs_round_le_generic; auto with typeclass_instances; [apply FLT_exp_valid; reflexivity|apply (fmt_b2 1021); lia|]. apply Rabs_le_inv in S1. apply Rabs_le. lra. }
  destruct (dmul_ok (dbl 1 (-1)) (dadd a b) H1 F2) as [F3 V3].
  { rewrite H2, V2. apply Rle_lt_trans with (1 := S2). apply bpow_lt. lia. }
  rewrite V3, H2, V2. fold s. pose proof (fl_mixed (/ 2 * s)) as E2.
  assert (T0 : b2 (-1075) <= u * / 1024 * val len).
  { apply Rle_trans with (u * / 1024 * b2 (-900)); [unfold u; change (/ 1024) with (b2 (-10)); rewrite <- !bpow_plus; apply bpow_le; lia|]. apply Rmult_le_compat_l; [nra|lra]. }
  assert (E2' : Rabs (fl (/ 2 * s) - / 2 * s) <= u * (2 * val len) + u * / 1024 * val len).
  { apply Rle_trans with (1 := E2). apply Rplus_le_compat; [|exact T0]. apply Rmult_le_compat_l; [lra|]. apply Rabs_le. lra. }
  rewrite S_INR in A1. set (q := val len / IZR n) in *. apply Rabs_le_inv in A0, A1, E2'.
  assert (E49 : b2 (-49) = 16 * u) by (unfold u; change 16 with (b2 4); rewrite <- bpow_plus; reflexivity).
  assert (E48 : b2 (-48) = 32 * u) by (unfold u; change 32 with (b2 5); rewrite <- bpow_plus; reflexivity).
  rewrite E48. rewrite E49 in A0, A1. replace ((INR i + / 2) * q) with (/ 2 * (INR i * q) + / 2 * ((INR i + 1) * q)) by field.
  set (x := INR i * q) in *. set (y := (INR i + 1) * q) in *. clearbody x y. set (w := u * val len) in *. 
  replace (16 * u * val len) with (16 * w) in A0, A1 by (unfold w; ring). replace (32 * u * val len) with (32 * w) by (unfold w; ring).
  replace (u * (2 * val len)) with (2 * w) in E1', E2' by (unfold w; ring). replace (u * / 1024 * val len) with (/ 1024 * w) in E2' by (unfold w; ring).
  assert (0 <= w) by (unfold w; apply Rmult_le_pos; lra). clearbody w s. apply Rabs_le. lra.
Qed.

(** The grid, ring by ring. *)
Lemma polarEA_d_spec : forall nr rmax base, (1 <= nr)%nat -> (1 <= base)%nat ->
  (Z.of_nat nr <= 2 ^ 50)%Z -> (Z.of_nat (base * (2 * nr - 1)) <= 2 ^ 50)%Z ->
  fin rmax -> b2 (-900) <= val rmax <= b2 1020 ->
  exists r p, polarEA_grid_d (Z.of_nat nr) rmax (Z.of_nat base) = Ok (r, p) /\
    length r = (base * (nr * nr))%nat /\ length p = (base * (nr * nr))%nat /\
    forall i j, (i < nr)%nat -> (j < base * (2 * i + 1))%nat ->
      let r0 := nth (base * (i * i) + j) r dzero in let p0 := nth (base * (i * i) + j) p dzero in
      fin r0 /\ fin p0 /\
      Rabs (val r0 - (INR i + / 2) * (val rmax / INR nr)) <= b2 (-48) * val rmax /\
      Rabs (val p0 - (INR j + / 2) * (tau / INR (base * (2 * i + 1)))) <= b2 (-48) * tau.
Proof.
  intros nr rmax base Hn Hb Hn2 Hb2 Fr Br. unfold polarEA_grid_d.
  destruct (mids_near rmax (Z.of_nat nr) Fr Br ltac:(lia)) as (e & E & Lm & Hm). rewrite Nat2Z.id in Lm, Hm. rewrite <- INR_IZR_INZ in Hm.
  rewrite E. cbn [bind]. destruct twopi_val as [T1 T2]. pose proof tau_bounds as TB.
  assert (MP : forall k, (1 <= k)%nat -> (Z.of_nat k <= 2 ^ 50)%Z -> exists e, get_xedges_d twopi (Z.of_nat k) None = Ok e /\ length (xedges2mid_d e) = k /\
    forall i, (i < k)%nat -> fin (nth i (xedges2mid_d e) dzero) /\
      Rabs (val (nth i (xedges2mid_d e) dzero) - (INR i + / 2) * (tau / INR k)) <= b2 (-48) * tau).
  { intros k K1 K2. destruct (mids_near twopi (Z.of_nat k) T1) as (e' & E' & L' & H'); [rewrite T2|lia|].
    - split; [apply Rle_trans with (b2 0); [apply bpow_le; lia|change (b2 0) with 1; lra]|apply Rle_trans with (b2 3); [change (b2 3) with 8; lra|apply bpow_le; lia]].
    - rewrite Nat2Z.id in L', H'. rewrite <- INR_IZR_INZ, T2 in H'. exists e'. auto. }
  set (rmid := xedges2mid_d e) in *. clearbody rmid.
  set (fr := fun i : nat => map (fun _ : Z => nth i rmid dzero) (py_range (Z.of_nat base * (2 * Z.of_nat i + 1)))).
  assert (Lrange : forall i : nat, length (py_range (Z.of_nat base * (2 * Z.of_nat i + 1))) = (base * (2 * i + 1))%nat).
  { intros i. unfold py_range. rewrite map_length, seq_length. lia. }
  assert (R1 : mapM (fun i => mapM (fun _ => py_get rmid i) (py_range (Z.of_nat base * (2 * i + 1)))) (py_range (Z.of_nat nr)) = Ok (map fr (seq 0 nr))).
  { unfold py_range at 2. rewrite Nat2Z.id.
    replace (map fr (seq 0 nr)) with (map (fun z => fr (Z.to_nat z)) (map Z.of_nat (seq 0 nr))).
    - apply mapM_ok. intros z Hz. apply in_map_iff in Hz. destruct Hz as (i & <- & Hi).
      apply in_seq in Hi. rewrite Nat2Z.id. unfold fr. apply mapM_ok. intros _ _.
      rewrite (py_get_ok _ rmid (Z.of_nat i) dzero) by lia. now rewrite Nat2Z.id.
    - rewrite map_map. apply map_ext. intros i. now rewrite Nat2Z.id. }
  rewrite R1. cbn [bind].
  set (fp := fun i : nat => xedges2mid_d match get_xedges_d twopi (Z.of_nat (base * (2 * i + 1))) None with Ok l => l | Err _ => [] end).
  assert (R2 : mapM (fun i => e <- get_xedges_d twopi (Z.of_nat base * (2 * i + 1)) None ;; Ok (xedges2mid_d e)) (py_range (Z.of_nat nr)) = Ok (map fp (seq 0 nr))).
  { unfold py_range. rewrite Nat2Z.id.
    replace (map fp (seq 0 nr)) with (map (fun z => fp (Z.to_nat z)) (map Z.of_nat (seq 0 nr))).
    - apply mapM_ok. intros z Hz. apply in_map_iff in Hz. destruct Hz as (i & <- & Hi). apply in_seq in Hi.
      rewrite Nat2Z.id. unfold fp.
      replace (Z.of_nat base * (2 * Z.of_nat i + 1))%Z with (Z.of_nat (base * (2 * i + 1))) by lia.
      destruct (MP (base * (2 * i + 1))%nat ltac:(nia) ltac:(nia)) as (e' & E' & _). rewrite E'. reflexivity.
    - rewrite map_map. apply map_ext. intros i. now rewrite Nat2Z.id. }
  assert (Hfp : forall i, (i < nr)%nat -> length (fp i) = (base * (2 * i + 1))%nat /\
     forall j, (j < base * (2 * i + 1))%nat -> fin (nth j (fp i) dzero) /\
       Rabs (val (nth j (fp i) dzero) - (INR j + / 2) * (tau / INR (base * (2 * i + 1)))) <= b2 (-48) * tau).
  { intros i Hi. unfold fp. destruct (MP (base * (2 * i + 1))%nat ltac:(nia) ltac:(nia)) as (e' & E' & L' & H'). rewrite E'. split; [exact L'|exact H']. }
  rewrite R2. clearbody fp. clear MP.
  assert (NC : forall (g : nat -> list double), np_concatenate (map g (seq 0 nr)) = Ok (concat (map g (seq 0 nr)))).
  { intros g. destruct nr; [lia|]. reflexivity. }
  rewrite !NC. cbn [bind]. rewrite NC. cbn [bind].
  destruct (concat_rings double fr base nr) as [L1 N1].
  { intros i _. unfold fr. rewrite map_length. apply Lrange. }
  destruct (concat_rings double fp base nr) as [L2 N2].
  { intros i Hi. now apply Hfp. }
  do 2 eexists. split; [reflexivity|]. split; [exact L1|]. split; [exact L2|].
  intros i j Hi Hj. cbv zeta. rewrite N1, N2 by assumption. destruct (Hfp i Hi) as [_ Q]. destruct (Q j Hj) as [Q1 Q2].
  assert (V : nth j (fr i) dzero = nth i rmid dzero) by (unfold fr; rewrite (nth_map_lt _ _ _ _ j dzero 0%Z) by (rewrite Lrange; exact Hj); reflexivity).
  rewrite V. destruct (Hm i Hi) as [M1 M2]. auto.
Qed.

(** Full turns: [tau] is short of [2 pi] by less than [2^-51]. *)
Lemma sector_near : forall p j k, (j < k)%nat -> Rabs (p - (INR j + / 2) * (tau / INR k)) <= b2 (-48) * tau ->
  Rabs (p - (INR j + / 2) * (2 * PI / INR k)) <= b2 (-45).
Proof.
  intros p j k H A. pose proof pi_accuracy as PA. pose proof tau_bounds as TB. assert (K : 0 < INR k) by (apply lt_0_INR; lia).
  assert (J : INR j + 1 <= INR k) by (rewrite <- S_INR; apply le_INR; lia). pose proof (pos_INR j) as J0.
  set (f := (INR j + / 2) / INR k). assert (F : 0 <= f <= 1).
  { unfold f. split; [apply Rmult_le_pos; [lra|left; now apply Rinv_0_lt_compat]|]. apply Rmult_le_reg_r with (INR k); [exact K|]. unfold Rdiv. rewrite Rmult_assoc, Rinv_l by lra. lra. }
  replace ((INR j + / 2) * (tau / INR k)) with (f * tau) in A by (unfold f; field; lra).
  replace ((INR j + / 2) * (2 * PI / INR k)) with (f * (2 * PI)) by (unfold f; field; lra).
  assert (D : 0 <= f * (2 * PI - tau) <= 2 * b2 (-52)).
  { split; [apply Rmult_le_pos; lra|]. apply Rle_trans with (1 * (2 * PI - tau)); [apply Rmult_le_compat_r; lra|lra]. }
  assert (E52 : 2 * b2 (-52) = / 8 * b2 (-48)) by (change (/ 8) with (b2 (-3)); change 2 with (b2 1); rewrite <- !bpow_plus; reflexivity).
  assert (E45 : b2 (-45) = 8 * b2 (-48)) by (change 8 with (b2 3); rewrite <- bpow_plus; reflexivity).
  pose proof (bpow_gt_0 radix2 (-48)) as P. assert (b2 (-48) * tau <= b2 (-48) * 7) by (apply Rmult_le_compat_l; lra).
  rewrite E52 in D. rewrite E45. apply Rabs_le_inv in A. apply Rabs_le. replace (p - f * (2 * PI)) with (p - f * tau - f * (2 * PI - tau)) by ring. lra.
Qed.

(** A point close to the middle of its cell is inside. *)
Lemma cell_inside : forall x L k i c, (1 <= k)%nat -> 0 < L -> Rabs (x - (INR i + / 2) * (L / INR k)) <= c -> 2 * INR k * c < L ->
  INR i * (L / INR k) < x < INR (S i) * (L / INR k).
Proof.
  intros x L k i c H HL A C. assert (K : 0 < INR k) by (apply lt_0_INR; lia). rewrite S_INR. set (q := L / INR k) in *.
  assert (Q : 2 * c < q). { unfold q. apply Rmult_lt_reg_r with (INR k); [exact K|]. replace (L / INR k * INR k) with L by (field; lra). lra. }
  apply Rabs_le_inv in A. replace ((INR i + / 2) * q) with (INR i * q + / 2 * q) in A by ring. replace ((INR i + 1) * q) with (INR i * q + q) by ring. lra.
Qed.
