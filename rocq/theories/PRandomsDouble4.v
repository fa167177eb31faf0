(** * Lemmas: random numbers from a tabulated distribution in double precision *)

From Coq Require Import Reals ZArith List Bool Lia Lra Psatz Permutation.
From Flocq Require Import Core IEEE754.BinarySingleNaN Mult_error.
From Verif Require Import PPolarCoords TDenseDouble TGridsDouble Base BaseP SpecGrid SpecRemap PGrids MHealpixFloat PHealpixFloat SpecDouble MDouble PDouble
  MRemapDouble MGridsDouble PGridsDouble MSumDouble PSumDouble PDense PDenseDouble PRemap2 PRadial MOneDDouble PRebinDouble PRebinDouble2 PRebinDouble3 PRebinDouble4 SpecSigmaDouble PSigmaDouble PSigmaDouble2 PSigmaDouble3 PSigmaDouble4
  PPiDouble SpecRadialDouble MRadialDouble PRadialDouble PRadialDouble2 PRadialDouble3 PRadialDouble4 SpecRandomsDouble MRandomsDouble PRandomsDouble PRandomsDouble2 TWeightsDouble PRandomsDouble3.
Import ListNotations.
Open Scope R_scope.

(** ** Interpolation of doubles *)

Lemma interp_ok : forall n (c x : nat -> double) k u H, kth_draw k u -> (1 <= n)%nat ->
  (forall i, (i <= n)%nat -> fin (c i) /\ 0 <= val (c i) <= 1) -> (forall i j, (i <= j <= n)%nat -> val (c i) <= val (c j)) -> val (c 0%nat) = 0 -> val (c n) = 1 ->
  (forall i, (i <= n)%nat -> fin (x i) /\ Rabs (val (x i)) <= H) -> (forall i j, (i <= j <= n)%nat -> val (x i) <= val (x j)) -> b2 (-900) <= H <= b2 600 ->
  exists j, (j < n)%nat /\ val (c j) <= val u < val (c (S j)) /\
    let y := np_interp_d (tab (S n) c) (tab (S n) x) u in
    fin y /\ val y = interp_val (val (x j)) (val (x (S j))) (val (c j)) (val (c (S j))) (val u) /\ val (x j) <= val y /\
    Rabs (val y - (val (x j) + (val u - val (c j)) / (val (c (S j)) - val (c j)) * (val (x (S j)) - val (x j)))) <= b2 (-49) * H.
Proof.
  intros n c x k u H K Hn Hc Mc C0 C1 Hx Mx HH. destruct (draw_range k u K) as [Fu Ru].
  destruct (position n c u) as [Hj Hv]; [intros; now apply Hc|exact Mc|exact Fu|lra|]. unfold np_interp_d. cbv zeta. set (j := (length (filter (fun x => dle x u) (tab (S n) c)) - 1)%nat) in *.
  exists j. split; [exact Hj|]. split; [exact Hv|]. rewrite tab_length. replace (j =? S n - 1)%nat with false by (symmetry; apply Nat.eqb_neq; lia).
  rewrite !tab_nth by lia. destruct (Hc j ltac:(lia)) as [Fc Rc]. destruct (Hc (S j) ltac:(lia)) as [Fd Rd]. destruct (Hx j ltac:(lia)) as [Fa Ra]. destruct (Hx (S j) ltac:(lia)) as [Fb Rb]. pose proof (Mx j (S j) ltac:(lia)) as Hab.
  assert (P53 : b2 (-53) = 1 * b2 (-53)) by ring. pose proof (bpow_gt_0 radix2 (-53)) as B53.
  rewrite deq_ok by auto. destruct (Req_bool_spec (val (c j)) (val u)) as [E|NE].
  - split; [exact Fa|]. rewrite E. replace (val (x j) + (val u - val u) / (val (c (S j)) - val u) * (val (x (S j)) - val (x j))) with (val (x j)) by (unfold Rdiv; ring). rewrite Rminus_diag_eq, Rabs_R0 by reflexivity.
    split; [|split; [lra|apply Rmult_le_pos; [apply bpow_ge_0|pose proof (bpow_gt_0 radix2 (-900)); lra]]]. unfold interp_val. rewrite (Rminus_diag_eq (val u)), fl_0, Rmult_0_r, fl_0, Rplus_0_l by reflexivity. symmetry. apply fl_fmt, fmt_val.
  - assert (D53 : b2 (-53) <= val (c (S j))).
    { destruct K as (Hk & _ & Vu). assert (0 < val u) by lra. assert (1 <= IZR k). { apply IZR_le. rewrite Vu in H0. destruct (Z.eq_dec k 0) as [->|]; [rewrite Rmult_0_l in H0; lra|lia]. } assert (1 * b2 (-53) <= IZR k * b2 (-53)) by (apply Rmult_le_compat_r; lra). lra. }
    destruct (interp_core (val (x j)) (val (x (S j))) (val (c j)) (val (c (S j))) (val u) H) as (A1 & A2 & A3 & A4 & A5 & A6 & A7 & A8); auto using fmt_val; try lra.
    assert (big : forall z e, (e < 1024)%Z -> 0 <= z <= b2 e -> Rabs z < b2 1024) by (intros z e He Hz; rewrite Rabs_pos_eq by lra; apply Rle_lt_trans with (b2 e); [lra|apply bpow_lt; exact He]).
    destruct (dsub_ok (x (S j)) (x j) Fb Fa) as [Fw Vw]; [apply (big _ 603%Z); [lia|exact A1]|].
    pose proof (bpow_gt_0 radix2 (-106)) as P106.
    destruct (dsub_ok (c (S j)) (c j) Fd Fc) as [FD VD]; [apply (big _ 0%Z); [lia|change (b2 0) with 1; lra]|].
    destruct (dsub_ok u (c j) Fu Fc) as [FT VT]; [apply (big _ 0%Z); [lia|change (b2 0) with 1; lra]|].
    destruct (ddiv_ok (dsub (x (S j)) (x j)) (dsub (c (S j)) (c j)) Fw) as [FS VS]; [rewrite VD; lra|rewrite Vw, VD; apply (big _ 709%Z); [lia|exact A4]|]. rewrite Vw, VD in VS.
    destruct (dmul_ok _ (dsub u (c j)) FS FT) as [FP VP]; [rewrite VS, VT; apply (big _ 709%Z); [lia|exact A5]|]. rewrite VS, VT in VP.
    destruct (dadd_ok _ (x j) FP Fa) as [FY VY]; [rewrite VP; apply Rle_lt_trans with (1 := A8); apply bpow_lt; lia|]. rewrite VP in VY.
    assert (NN : is_nan (dadd (dmul (ddiv (dsub (x (S j)) (x j)) (dsub (c (S j)) (c j))) (dsub u (c j))) (x j)) = false) by (destruct (dadd _ _); try reflexivity; discriminate).
    rewrite NN. split; [exact FY|]. split; [exact VY|]. rewrite VY. split; [exact A6|exact A7].
Qed.

(** Monotony within a bin. *)
Lemma interp_mono : forall a b c d v v', a <= b -> c < d -> b2 (-106) <= fl (d - c) -> v <= v' -> interp_val a b c d v <= interp_val a b c d v'.
Proof.
  intros a b c d v v' Hab Hcd HD Hv. unfold interp_val. apply fl_mono, Rplus_le_compat_r, fl_mono, Rmult_le_compat_l; [|apply fl_mono; lra].
  rewrite <- fl_0. apply fl_mono. apply Rmult_le_pos; [rewrite <- fl_0; apply fl_mono; lra|left; apply Rinv_0_lt_compat]. pose proof (bpow_gt_0 radix2 (-106)). lra.
Qed.

(** ** Edges *)

Lemma half_ok : forall x, fin x -> b2 (-1000) <= Rabs (val x) -> fin (dmul (dbl 1 (-1)) x) /\ val (dmul (dbl 1 (-1)) x) = / 2 * val x.
Proof.
  intros x F H. assert (Q : B2SF (dbl 1 (-1)) = SpecFloat.S754_finite false 4503599627370496 (-53)) by (vm_compute; reflexivity).
  assert (FH : fin (dbl 1 (-1))) by (unfold fin; rewrite <- is_finite_SF_B2SF, Q; reflexivity).
  assert (VH : val (dbl 1 (-1)) = / 2) by (unfold val; rewrite <- SF2R_B2SF, Q; unfold SF2R, F2R; cbn [Fnum Fexp cond_Zopp]; change (IZR 4503599627370496) with (b2 52); rewrite <- bpow_plus; reflexivity).
  assert (G : fmt (/ 2 * val x)).
  { change (/ 2) with (b2 (-1)). rewrite Rmult_comm. apply mult_bpow_exact_FLT; [apply fmt_val|]. assert (M : (-1000 < mag radix2 (val x))%Z) by (apply mag_gt_bpow; exact H). lia. }
  destruct (dmul_ok (dbl 1 (-1)) x FH F) as [F1 V1]; rewrite VH, (fl_fmt _ G) in *; [|auto].
  rewrite Rabs_mult, Rabs_pos_eq by lra. pose proof (abs_B2R_lt_emax 53 1024 x) as A. change (B2R x) with (val x) in A. pose proof (Rabs_pos (val x)). lra.
Qed.

Lemma edges_ok : forall (xmid : list double) n, mid_points xmid n -> exists x, linspace_d (first_edge xmid) (last_edge xmid) (Z.of_nat n + 1) = Ok x /\ length x = S n /\
  fin (width xmid) /\ sized (-201) 201 (width xmid) /\ 0 < val (width xmid) /\
  let H := hull (val (nth 0 x dzero)) (val (nth n x dzero)) in
  b2 (-900) <= H <= b2 600 /\
  (forall i, (i <= n)%nat -> fin (nth i x dzero) /\ Rabs (val (nth i x dzero)) <= H) /\
  (forall i j, (i <= j <= n)%nat -> val (nth i x dzero) <= val (nth j x dzero)) /\
  Rabs (val (nth 0 x dzero) - (val (nth 0 xmid dzero) - val (width xmid) / 2)) <= b2 (-53) * Rabs (val (nth 0 xmid dzero) - val (width xmid) / 2) /\
  Rabs (val (nth n x dzero) - (val (nth (n - 1) xmid dzero) + val (width xmid) / 2)) <= b2 (-53) * Rabs (val (nth (n - 1) xmid dzero) + val (width xmid) / 2) /\
  (forall i, (i <= n)%nat -> Rabs (val (nth i x dzero) - (val (nth 0 x dzero) + INR i * ((val (nth n x dzero) - val (nth 0 x dzero)) / INR n))) <= 9 * b2 (-53) * H).
Proof.
  intros xmid n MP.
  assert (MP' : length xmid = n /\ (2 <= n)%nat /\ INR n <= b2 20 /\ fin (nth 0 xmid dzero) /\ fin (nth 1 xmid dzero) /\ fin (nth (n - 1) xmid dzero) /\
    Rabs (val (nth 0 xmid dzero)) <= b2 500 /\ Rabs (val (nth (n - 1) xmid dzero)) <= b2 500 /\ val (nth 1 xmid dzero) <= val (nth (n - 1) xmid dzero) /\
    b2 (-200) <= val (nth 1 xmid dzero) - val (nth 0 xmid dzero) <= b2 200) by exact MP.
  destruct MP' as (L & Hn & Hn20 & F0 & F1 & Fl & B0 & Bl & O & G). pose proof u_pos as U.
  set (x0 := nth 0 xmid dzero) in *. set (x1 := nth 1 xmid dzero) in *. set (xl := nth (n - 1) xmid dzero) in *.
  pose proof (bpow_gt_0 radix2 (-200)) as P200. assert (B501 : 2 * b2 500 = b2 501) by (change 2 with (b2 1); rewrite <- bpow_plus; reflexivity). assert (B502 : 2 * b2 501 = b2 502) by (change 2 with (b2 1); rewrite <- bpow_plus; reflexivity).
  assert (B201 : 2 * b2 200 = b2 201) by (change 2 with (b2 1); rewrite <- bpow_plus; reflexivity). assert (B201' : b2 (-200) = 2 * b2 (-201)) by (change (-200)%Z with (1 + -201)%Z; rewrite bpow_plus; reflexivity).
  assert (B500 : b2 201 <= b2 500) by (apply bpow_le; lia).
  (* the width *)
  assert (WE : Rabs (fl (val x1 - val x0) - (val x1 - val x0)) <= u * (val x1 - val x0)).
  { pose proof (add_err (val x1) (- val x0) (fmt_val _) (fmt_opp _ (fmt_val _))) as E. rewrite (Rabs_pos_eq (val x1 + - val x0)) in E by lra. exact E. }
  apply Rabs_le_inv in WE. set (gap := val x1 - val x0) in *. assert (UG : u * gap <= / 1024 * gap) by (apply Rmult_le_compat_r; lra).
  destruct (dsub_ok x1 x0 F1 F0) as [FW VW]; [apply Rlt_trans with (b2 202); [rewrite Rabs_pos_eq by (unfold gap in *; lra); unfold gap in *; change 202%Z with (1 + 201)%Z; rewrite bpow_plus; change (b2 1) with 2; lra|apply bpow_lt; lia]|].
  change (dsub x1 x0) with (width xmid) in FW, VW. fold gap in VW. set (dx := width xmid) in *.
  assert (WB : b2 (-201) <= val dx <= b2 201) by (rewrite VW; lra). pose proof (bpow_gt_0 radix2 (-201)) as P201.
  destruct (half_ok dx FW) as [FH VH]; [rewrite Rabs_pos_eq by lra; apply Rle_trans with (b2 (-201)); [apply bpow_le; lia|lra]|].
  set (h := dmul (dbl 1 (-1)) dx) in *. apply Rabs_le_inv in B0. apply Rabs_le_inv in Bl.
  assert (big : forall z, Rabs z <= b2 501 -> Rabs (fl z) < b2 1024) by (intros z Hz; apply Rle_lt_trans with (b2 501); [apply fl_big; [lia|exact Hz]|apply bpow_lt; lia]).
  destruct (dsub_ok x0 h F0 FH) as [FA VA]; [apply big; apply Rabs_le; lra|]. destruct (dadd_ok xl h Fl FH) as [FB VB]; [apply big; apply Rabs_le; lra|].
  assert (EA : dsub x0 h = first_edge xmid) by reflexivity. assert (EB : dadd xl h = last_edge xmid) by (unfold last_edge, xl; replace (@length double xmid) with n by (symmetry; exact L); reflexivity). rewrite EA in FA, VA. rewrite EB in FB, VB.
  assert (LA : val (first_edge xmid) <= val x0) by (rewrite VA; rewrite <- (fl_fmt (val x0)) at 2 by apply fmt_val; apply fl_mono; lra).
  assert (LB : val xl <= val (last_edge xmid)) by (rewrite VB; rewrite <- (fl_fmt (val xl)) at 1 by apply fmt_val; apply fl_mono; lra).
  assert (RA : Rabs (val (first_edge xmid)) <= b2 501) by (rewrite VA; apply fl_big; [lia|apply Rabs_le; lra]).
  assert (RB : Rabs (val (last_edge xmid)) <= b2 501) by (rewrite VB; apply fl_big; [lia|apply Rabs_le; lra]).
  assert (DAB : gap <= val (last_edge xmid) - val (first_edge xmid)) by (unfold gap; lra).
  destruct (linspace_edges (first_edge xmid) (last_edge xmid) (Z.of_nat n)) as (x & E & Lx & Xn & X0 & Xi & Xm); auto.
  { apply Rle_trans with (1 := RA). apply bpow_le. lia. } { apply Rle_trans with (1 := RB). apply bpow_le. lia. }
  { right. apply Rle_trans with (b2 (-200)); [apply bpow_le; lia|lra]. }
  { split; [lia|]. apply le_IZR. rewrite <- INR_IZR_INZ. apply Rle_trans with (1 := Hn20). change (IZR (2 ^ 50)) with (b2 50). apply bpow_le. lia. }
  rewrite Nat2Z.id in *. exists x. split; [exact E|]. split; [exact Lx|]. split; [exact FW|]. split; [split; [exact FW|right; rewrite Rabs_pos_eq by lra; exact WB]|]. split; [lra|].
  cbv zeta. rewrite X0, Xn. set (a := val (first_edge xmid)) in *. set (b := val (last_edge xmid)) in *. set (H := hull a b).
  assert (HA : Rabs a <= H /\ Rabs b <= H) by (unfold H, hull; split; [apply Rmax_l|apply Rmax_r]). destruct HA as [HA HB].
  assert (HU : H <= b2 501) by (unfold H, hull; apply Rmax_lub; assumption). pose proof (Rabs_le_inv _ _ HA) as HA'. pose proof (Rabs_le_inv _ _ HB) as HB'.
  split; [split; [apply Rle_trans with (b2 (-201)); [apply bpow_le; lia|lra]|apply Rle_trans with (1 := HU); apply bpow_le; lia]|].
  split; [intros i Hi; destruct (Xi i Hi) as (Fi & Ri & _); split; [exact Fi|apply Rabs_le; lra]|]. split; [exact Xm|]. split; [|split].
  - replace (val x0 - val dx / 2) with (val x0 + - val h) by (rewrite VH; unfold Rdiv; ring). rewrite VA. exact (add_err (val x0) (- val h) (fmt_val _) (fmt_opp _ (fmt_val _))).
  - replace (val xl + val dx / 2) with (val xl + val h) by (rewrite VH; unfold Rdiv; ring). rewrite VB. exact (add_err (val xl) (val h) (fmt_val _) (fmt_val _)).
  - intros i Hi. destruct (Xi i Hi) as (_ & _ & Ei). rewrite <- INR_IZR_INZ in Ei. apply Rle_trans with (1 := Ei). fold H. rewrite (Rmult_comm 9 (b2 (-53))), Rmult_assoc. apply Rmult_le_compat_l; [apply bpow_ge_0|]. lra.
Qed.
