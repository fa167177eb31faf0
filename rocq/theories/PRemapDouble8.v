(** * Lemmas: values of the two- and three-dimensional remapping in binary64 *)

From Coq Require Import Reals ZArith List Bool Lia Lra Psatz.
From Flocq Require Import Core IEEE754.BinarySingleNaN.
From Verif Require Import Base BaseP MHealpixFloat PHealpixFloat SpecDouble SpecGrid SpecRemap SpecRemapDouble SpecRemapDouble2 MDouble PDouble MGrids MGridsDouble PGridsDouble PSumDouble PRemap PRemap2
  MRemap MRemapDouble MRemapDouble2 PRemapDouble PRemapDouble2 PRemapDouble3 PRemapDouble4 PRemapDouble5 PRemapDouble6 PRemapDouble7.
Import ListNotations.
Open Scope R_scope.

Local Existing Instance p53.

(** ** One axis *)

Lemma axis_near : forall X s1 s2 k b, moderate X -> line_within X s1 -> line_within X s2 -> (k < lcells s2)%nat -> line_clear X s1 s2 k ->
  exists D, near (lcells s1) (bufd s1 s2 k b) (part (exact_side s1) (exact_side s2) k) D /\ 0 <= D /\ D <= 144 * u * in_cells X s1 s2 /\ D <= / 1024 /\
    INR (length (bufd s1 s2 k b)) <= 65 / 64 * met s1 s2 /\ INR (length (bufd s1 s2 k b)) <= b2 21 /\ 2 <= met s1 s2 /\ 0 <= in_cells X s1 s2.
Proof.
  intros X [o1 B1 N] [o2 B2 m] k b HX G1 G2 Hk HC. unfold line_within, line_clear, bufd, axd, lend, in_cells, met, exact_side, width in *. cbn [lorg llen lcells org ext cells] in *.
  assert (C : clear_of_below X o1 B1 N o2 B2 m k) by (unfold clear_below in HC; rewrite margin_e in HC; exact HC).
  pose proof (pixel_fair X HX o1 B1 N o2 B2 m G1 G2 k Hk b C) as F. set (bd := remap_pixel_d _ _ _ b) in *. clearbody bd.
  assert (G1' : good X o1 B1 (length (repeat (dzero : double) N))) by (rewrite repeat_length; exact G1).
  pose proof (L_size X HX o1 B1 (repeat dzero N) o2 B2 m G1' G2) as (L2 & LK & LU). pose proof (dev_size X HX o1 B1 (repeat dzero N) o2 B2 m G1' G2) as (D1 & D2 & O2 & O1).
  pose proof (parts_le1 X o1 B1 (repeat dzero N) o2 B2 m G1' G2 k) as PL.
  rewrite repeat_length in L2, LK, LU, D1, D2, O1, PL. pose proof u_pos as U.
  destruct F as (HL & HE & HD). unfold deviation in HD.
  set (w1' := w1 B1 N) in *. set (w2' := w2 B2 m) in *. change (val B1 / INR N) with w1'. change (val B2 / INR m) with w2'.
  destruct (w1_pos X HX o1 B1 N G1) as [P1 _]. destruct (w2_pos X HX o2 B2 m G2) as [P2 _]. fold w1' in P1. fold w2' in P2.
  assert (R0 : 0 < w2' / w1') by (apply Rdiv_lt_0_compat; lra).
  assert (EL : INR (length bd) = IZR (LZ o1 B1 N o2 B2 m)) by (rewrite HL, INR_IZR_INZ, Z2Nat.id by lia; reflexivity).
  destruct (ratio_pos X HX o2 B2 m G2) as [RP _]. assert (L2' : 2 <= IZR (LZ o1 B1 N o2 B2 m)) by (apply (IZR_le 2); exact L2).
  exists (36 * (IZR (LZ o1 B1 N o2 B2 m) + 2) * ratio X B2 m).
  split; [|split; [|split; [|split; [|split; [|split; [|split]]]]]].
  - split; [exact HE|]. split; [|split; [exact PL|exact HD]]. intros i _. pose proof G1 as (_ & _ & A1 & _ & A2 & _). pose proof G2 as (_ & _ & C1 & _ & C2 & _). unfold part. cbn [org ext cells]. apply frac_nonneg; assumption.
  - apply Rmult_le_pos; lra.
  - apply Rle_trans with (1 := D1). apply Rle_trans with (u * (144 * (X / w1' + X / w2'))); [apply Rmult_le_compat_l; lra|right; ring].
  - lra.
  - rewrite EL. lra.
  - rewrite EL. assert (Q : w2' / w1' <= b2 20).
    { apply Rmult_le_reg_r with w1'; [exact P1|]. replace (w2' / w1' * w1') with w2' by (field; lra). pose proof G1 as (_ & _ & _ & _ & _ & HW). change (X * b2 (-20) <= w1') in HW.
      assert (T : b2 20 * (X * b2 (-20)) = X) by (rewrite (Rmult_comm X), <- Rmult_assoc, <- bpow_plus; change (b2 (20 + -20)) with 1; ring).
      apply Rle_trans with X; [|rewrite <- T at 1; apply Rmult_le_compat_l; [apply bpow_ge_0|exact HW]].
      apply Rmult_le_reg_r with (/ w2'); [apply Rinv_0_lt_compat; lra|]. rewrite Rinv_r by lra. exact O2. }
    change (b2 21) with 2097152. change (b2 20) with 1048576 in Q. lra.
  - lra.
  - lra.
Qed.

(** ** Values *)

Lemma cell_val : forall (f : list (list double)) i j, cell (map (map val) f) i j = val (nth j (nth i f []) dzero).
Proof.
  intros f i j. unfold cell. change (@nil R) with (map val (@nil double)). rewrite map_nth. rewrite <- val_zero. apply map_nth.
Qed.
Lemma cell3_val : forall (f : list (list (list double))) i j k, cell3 (map (map (map val)) f) i j k = val (nth k (nth j (nth i f []) []) dzero).
Proof.
  intros f i j k. unfold cell3. change (@nil (list R)) with (map (map val) (@nil (list double))). rewrite map_nth. apply cell_val.
Qed.

Lemma average2_flat : forall x1 y1 (f : list (list double)) x2 y2 k l, array2 f (cells x1) (cells y1) ->
  average2 x1 y1 (map (map val) f) x2 y2 k l = sum_upto (cells x1 * cells y1) (fun i => phi2 (cells y1) (part x1 x2 k) (part y1 y2 l) i * val (nth i (concat f) dzero)).
Proof.
  intros x1 y1 f x2 y2 k l [HL HR]. unfold average2. rewrite sum_prod. apply sum_ext. intros i Hi. apply sum_ext. intros j Hj. rewrite phi2_at by exact Hj.
  rewrite (nth_rows f (cells y1) i j dzero HR) by (rewrite ?HL; assumption). rewrite cell_val. reflexivity.
Qed.

Lemma average3_flat : forall x1 y1 z1 (f : list (list (list double))) x2 y2 z2 k l m, array3 f (cells x1) (cells y1) (cells z1) ->
  average3 x1 y1 z1 (map (map (map val)) f) x2 y2 z2 k l m
  = sum_upto (cells x1 * cells y1 * cells z1) (fun i => phi2 (cells z1) (phi2 (cells y1) (part x1 x2 k) (part y1 y2 l)) (part z1 z2 m) i * val (nth i (concat (concat f)) dzero)).
Proof.
  intros x1 y1 z1 f x2 y2 z2 k l m HA. pose proof (array3_rows _ _ _ _ _ HA) as [HL2 HR2]. destruct HA as [HL HS]. unfold average3. rewrite (sum_prod (cells x1 * cells y1)), sum_prod.
  apply sum_ext. intros i Hi. apply sum_ext. intros j Hj. apply sum_ext. intros h Hh. rewrite phi2_at by exact Hh. rewrite phi2_at by exact Hj.
  rewrite (nth_rows (concat f) (cells z1) (j + cells y1 * i) h dzero HR2) by (try exact Hh; rewrite HL2; nia).
  rewrite (nth_rows f (cells y1) i j [] (fun slab Hs => proj1 (HS slab Hs))) by (try exact Hj; rewrite HL; exact Hi). rewrite cell3_val. reflexivity.
Qed.

Lemma b45 : b2 (-45) = 256 * u.
Proof. unfold u. change 256 with (b2 8). rewrite <- bpow_plus. reflexivity. Qed.

Lemma value2 : forall X Y M oob (f1 : list (list double)) x1 y1 x2 y2 k l b b',
  moderate X -> moderate Y -> moderate M -> line_within X x1 -> line_within X x2 -> line_within Y y1 -> line_within Y y2 ->
  array2 f1 (lcells x1) (lcells y1) -> (forall row, In row f1 -> values_within M row) ->
  (k < lcells x2)%nat -> (l < lcells y2)%nat -> line_clear X x1 x2 k -> line_clear Y y1 y2 l ->
  let r := accumulate_d (concat f1) oob (entries_2d_d (Z.of_nat (lcells y1)) (bufd x1 x2 k b) (bufd y1 y2 l b')) in
  fin r /\ Rabs (val r - average2 (exact_side x1) (exact_side y1) (map (map val) f1) (exact_side x2) (exact_side y2) k l)
    <= b2 (-45) * (in_cells X x1 x2 + in_cells Y y1 y2 + met x1 x2 * met y1 y2) * M.
Proof.
  intros X Y M oob f1 x1 y1 x2 y2 k l b b' HX HY HM GX1 GX2 GY1 GY2 HA HV Hk Hl Cx Cy r.
  destruct (axis_near X x1 x2 k b HX GX1 GX2 Hk Cx) as (Dx & Nx & Dx0 & Dx1 & Dx2 & Lx1 & Lx2 & Mx & Ix).
  destruct (axis_near Y y1 y2 l b' HY GY1 GY2 Hl Cy) as (Dy & Ny & Dy0 & Dy1 & Dy2 & Ly1 & Ly2 & My & Iy).
  assert (N1 : (1 <= lcells y1)%nat) by apply GY1.
  pose proof (near_product _ _ _ _ _ _ _ _ N1 Nx Ny) as NP.
  assert (LF : length (concat f1) = (lcells x1 * lcells y1)%nat) by (destruct HA as [A1 A2]; rewrite (concat_rows f1 _ A2), A1; reflexivity).
  set (bx := bufd x1 x2 k b) in *. set (by' := bufd y1 y2 l b') in *. subst r.
  assert (LN : INR (length bx * length by') <= (65 / 64 * met x1 x2) * (65 / 64 * met y1 y2)) by (rewrite mult_INR; apply Rmult_le_compat; try assumption; apply pos_INR).
  assert (LU : INR (length bx * length by') * u <= / 1024).
  { apply Rle_trans with (b2 21 * b2 21 * u); [apply Rmult_le_compat_r; [pose proof u_pos; lra|rewrite mult_INR; apply Rmult_le_compat; try assumption; apply pos_INR]|].
    unfold u. rewrite <- !bpow_plus. change (/ 1024) with (b2 (-10)). apply bpow_le. lia. }
  pose proof u_pos as U. set (n := INR (length bx * length by')) in *. assert (n0 : 0 <= n) by apply pos_INR.
  assert (DD : Dx * (1 + Dy) + Dy + n * (2 * u) <= 1) by nra.
  rewrite <- LF in NP.
  assert (HV' : forall x, In x (concat f1) -> fin x /\ Rabs (val x) <= M).
  { intros x Hx. apply in_concat in Hx. destruct Hx as (row & Hr & Hx). exact (HV row Hr x Hx). }
  destruct (near_result (concat f1) oob M _ _ _ HM HV' NP DD) as [A B]; [rewrite length_2d; exact LU|].
  split; [exact A|]. rewrite (average2_flat (exact_side x1) (exact_side y1) f1 (exact_side x2) (exact_side y2) k l HA).
  change (cells (exact_side x1) * cells (exact_side y1))%nat with (lcells x1 * lcells y1)%nat. rewrite <- LF. apply Rle_trans with (1 := B). rewrite length_2d. fold n.
  assert (PM : 0 < M) by exact (X_pos M HM). apply Rmult_le_compat_r; [lra|]. rewrite b45.
  set (I := in_cells X x1 x2) in *. set (J := in_cells Y y1 y2) in *. set (P := met x1 x2 * met y1 y2).
  assert (E1 : Dx * (1 + Dy) <= 144 * u * I * (1 + / 1024)) by (apply Rmult_le_compat; lra).
  assert (E2 : n * u <= 4225 / 4096 * P * u) by (apply Rmult_le_compat_r; [lra|]; unfold P; lra).
  assert (0 <= u * I) by (apply Rmult_le_pos; lra). assert (0 <= u * J) by (apply Rmult_le_pos; lra). assert (0 <= P * u) by (apply Rmult_le_pos; [unfold P; nra|lra]). lra.
Qed.

Lemma value3 : forall X Y V M oob (f1 : list (list (list double))) x1 y1 z1 x2 y2 z2 k l m b b' b'',
  moderate X -> moderate Y -> moderate V -> moderate M -> line_within X x1 -> line_within X x2 -> line_within Y y1 -> line_within Y y2 -> line_within V z1 -> line_within V z2 ->
  met x1 x2 * met y1 y2 * met z1 z2 <= b2 42 ->
  array3 f1 (lcells x1) (lcells y1) (lcells z1) -> (forall slab row, In slab f1 -> In row slab -> values_within M row) ->
  (k < lcells x2)%nat -> (l < lcells y2)%nat -> (m < lcells z2)%nat -> line_clear X x1 x2 k -> line_clear Y y1 y2 l -> line_clear V z1 z2 m ->
  let r := accumulate_d (concat (concat f1)) oob (entries_3d_d (Z.of_nat (lcells y1)) (Z.of_nat (lcells z1)) (bufd x1 x2 k b) (bufd y1 y2 l b') (bufd z1 z2 m b'')) in
  fin r /\ Rabs (val r - average3 (exact_side x1) (exact_side y1) (exact_side z1) (map (map (map val)) f1) (exact_side x2) (exact_side y2) (exact_side z2) k l m)
    <= b2 (-45) * (in_cells X x1 x2 + in_cells Y y1 y2 + in_cells V z1 z2 + met x1 x2 * met y1 y2 * met z1 z2) * M.
Proof.
  intros X Y V M oob f1 x1 y1 z1 x2 y2 z2 k l m b b' b'' HX HY HZ HM GX1 GX2 GY1 GY2 GZ1 GZ2 H42 HA HV Hk Hl Hm Cx Cy Cz r.
  destruct (axis_near X x1 x2 k b HX GX1 GX2 Hk Cx) as (Dx & Nx & Dx0 & Dx1 & Dx2 & Lx1 & Lx2 & Mx & Ix).
  destruct (axis_near Y y1 y2 l b' HY GY1 GY2 Hl Cy) as (Dy & Ny & Dy0 & Dy1 & Dy2 & Ly1 & Ly2 & My & Iy).
  destruct (axis_near V z1 z2 m b'' HZ GZ1 GZ2 Hm Cz) as (Dz & Nz & Dz0 & Dz1 & Dz2 & Lz1 & Lz2 & Mz & Iz).
  assert (N1 : (1 <= lcells y1)%nat) by apply GY1. assert (N2 : (1 <= lcells z1)%nat) by apply GZ1.
  pose proof (near_product _ _ _ _ _ _ _ _ N1 Nx Ny) as NP2. pose proof (near_product _ _ _ _ _ _ _ _ N2 NP2 Nz) as NP. rewrite length_2d in NP.
  assert (LF : length (concat (concat f1)) = (lcells x1 * lcells y1 * lcells z1)%nat) by (destruct (array3_rows _ _ _ _ _ HA) as [A1 A2]; rewrite (concat_rows (concat f1) _ A2), A1; reflexivity).
  subst r. rewrite (entries_3d_twice (lcells x1) (lcells y1)) by (intros pw Hpw; first [apply (proj1 Nx)|apply (proj1 Ny)]; exact Hpw).
  set (bx := bufd x1 x2 k b) in *. set (by' := bufd y1 y2 l b') in *. set (bz := bufd z1 z2 m b'') in *.
  pose proof u_pos as U. set (P2 := met x1 x2 * met y1 y2) in *. set (P := P2 * met z1 z2) in *.
  assert (LN2 : INR (length bx * length by') <= 4225 / 4096 * P2).
  { apply Rle_trans with ((65 / 64 * met x1 x2) * (65 / 64 * met y1 y2)); [rewrite mult_INR; apply Rmult_le_compat; try assumption; apply pos_INR|unfold P2; lra]. }
  assert (LN : INR (length bx * length by' * length bz) <= 274625 / 262144 * P).
  { apply Rle_trans with ((4225 / 4096 * P2) * (65 / 64 * met z1 z2)); [rewrite mult_INR; apply Rmult_le_compat; try assumption; apply pos_INR|unfold P; lra]. }
  assert (LU : INR (length bx * length by' * length bz) * u <= / 1024).
  { apply Rle_trans with (274625 / 262144 * b2 42 * u); [apply Rmult_le_compat_r; lra|]. assert (T : b2 42 * u = / 2048) by (unfold u; rewrite <- bpow_plus; reflexivity). rewrite Rmult_assoc, T. lra. }
  assert (PP : 2 * P2 <= P) by (unfold P; assert (0 <= P2) by (unfold P2; nra); nra). assert (P20 : 4 <= P2) by (unfold P2; nra).
  set (n2' := INR (length bx * length by')) in *. set (n := INR (length bx * length by' * length bz)) in *. assert (n0 : 0 <= n) by apply pos_INR. assert (n20 : 0 <= n2') by apply pos_INR.
  assert (U2 : n2' * u <= / 1024).
  { apply Rle_trans with (4225 / 4096 * P2 * u); [apply Rmult_le_compat_r; lra|]. apply Rle_trans with (4225 / 4096 * (b2 42 / 2) * u); [apply Rmult_le_compat_r; lra|]. assert (T : b2 42 * u = / 2048) by (unfold u; rewrite <- bpow_plus; reflexivity). lra. }
  set (D2 := Dx * (1 + Dy) + Dy + n2' * (2 * u)) in *. assert (D20 : 0 <= D2) by (unfold D2; assert (0 <= Dx * (1 + Dy)) by (apply Rmult_le_pos; lra); assert (0 <= n2' * u) by (apply Rmult_le_pos; lra); lra).
  assert (D2S : D2 <= / 64) by (unfold D2; nra).
  assert (DD : D2 * (1 + Dz) + Dz + n * (2 * u) <= 1) by nra.
  rewrite <- LF in NP.
  assert (HV' : forall x, In x (concat (concat f1)) -> fin x /\ Rabs (val x) <= M).
  { intros x Hx. apply in_concat in Hx. destruct Hx as (row & Hr & Hx). apply in_concat in Hr. destruct Hr as (slab & Hs & Hr). exact (HV slab row Hs Hr x Hx). }
  destruct (near_result (concat (concat f1)) oob M _ _ _ HM HV' NP DD) as [A B]; [rewrite !length_2d; exact LU|].
  split; [exact A|]. rewrite (average3_flat (exact_side x1) (exact_side y1) (exact_side z1) f1 (exact_side x2) (exact_side y2) (exact_side z2) k l m HA).
  change (cells (exact_side x1) * cells (exact_side y1) * cells (exact_side z1))%nat with (lcells x1 * lcells y1 * lcells z1)%nat. rewrite <- LF. apply Rle_trans with (1 := B). rewrite !length_2d. fold n.
  assert (PM : 0 < M) by exact (X_pos M HM). apply Rmult_le_compat_r; [lra|]. rewrite b45.
  set (I := in_cells X x1 x2) in *. set (J := in_cells Y y1 y2) in *. set (K := in_cells V z1 z2) in *.
  assert (E1 : Dx * (1 + Dy) <= 144 * u * I * (1 + / 1024)) by (apply Rmult_le_compat; lra).
  assert (E2 : n2' * u <= 4225 / 4096 * P2 * u) by (apply Rmult_le_compat_r; lra).
  assert (E2' : P2 * u <= P / 2 * u) by (apply Rmult_le_compat_r; lra).
  assert (E3 : n * u <= 274625 / 262144 * P * u) by (apply Rmult_le_compat_r; lra).
  assert (E4 : D2 * (1 + Dz) <= D2 * (1 + / 1024)) by (apply Rmult_le_compat_l; lra).
  assert (0 <= u * I) by (apply Rmult_le_pos; lra). assert (0 <= u * J) by (apply Rmult_le_pos; lra). assert (0 <= u * K) by (apply Rmult_le_pos; lra). assert (0 <= P * u) by (apply Rmult_le_pos; lra).
  assert (E5 : D2 <= 144 * u * I * (1 + / 1024) + 144 * u * J + 4225 / 4096 * (P * u)) by (unfold D2; lra). lra.
Qed.
