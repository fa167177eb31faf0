(** * Edges from mid-points in double precision *)

From Coq Require Import Reals ZArith List Bool Lia Lra Psatz.
From Flocq Require Import Core IEEE754.BinarySingleNaN.
From Verif Require Import Base BaseP MHealpixFloat PHealpixFloat SpecDouble MDouble PDouble PTrig PSumDouble PDenseDouble PLibmDouble MGridsDouble MEdgesDouble.
Import ListNotations.
Open Scope R_scope.

Lemma get_at : forall (l : list double) k, (k < length l)%nat -> py_get l (Z.of_nat k) = Ok (nth k l dzero).
Proof.
  intros l k H. unfold py_get. destruct (Z.ltb_spec (Z.of_nat k) 0); [lia|]. destruct (Z.ltb_spec (Z.of_nat k) 0); [lia|]. rewrite Nat2Z.id, (nth_error_nth' l dzero H). reflexivity.
Qed.

Lemma get_last : forall (l : list double), (1 <= length l)%nat -> py_get l (-1) = Ok (nth (length l - 1) l dzero).
Proof.
  intros l H. unfold py_get. change (-1 <? 0)%Z with true. cbv iota. destruct (Z.ltb_spec (-1 + Z.of_nat (length l)) 0); [lia|]. replace (Z.to_nat (-1 + Z.of_nat (length l))) with (length l - 1)%nat by lia. rewrite (nth_error_nth' l dzero) by lia. reflexivity.
Qed.

Lemma edges_shape : forall xmid, (2 <= length xmid)%nat -> exists e, xmid2edges_d xmid = Ok e /\ length e = S (length xmid) /\
  (forall i, (i < length xmid)%nat -> nth i e dzero = dsub (nth i xmid dzero) (dsub (nth 1 xmid dzero) (nth 0 xmid dzero))) /\
  nth (length xmid) e dzero = dadd (nth (length xmid - 1) xmid dzero) (dsub (nth 1 xmid dzero) (nth 0 xmid dzero)).
Proof.
  intros l H. unfold xmid2edges_d. change 1%Z with (Z.of_nat 1). change 0%Z with (Z.of_nat 0). rewrite (get_at l 1), (get_at l 0), get_last by lia. cbn [bind]. eexists. split; [reflexivity|]. split; [|split].
  - rewrite app_length, map_length. cbn [length]. lia.
  - intros i Hi. rewrite app_nth1 by (rewrite map_length; lia). rewrite nth_indep with (d' := (fun x => dsub x (dsub (nth 1 l dzero) (nth 0 l dzero))) dzero) by (rewrite map_length; lia). exact (map_nth (fun x => dsub x (dsub (nth 1 l dzero) (nth 0 l dzero))) l dzero i).
  - rewrite app_nth2 by (rewrite map_length; lia). rewrite map_length, Nat.sub_diag. reflexivity.
Qed.

Lemma below_big : forall x e, (e < 1024)%Z -> Rabs x <= b2 e -> Rabs (fl x) < b2 1024 /\ Rabs (fl x) <= b2 e \/ (e < -1074)%Z.
Proof.
  intros x e He Hx. destruct (Z_lt_ge_dec e (-1074)) as [|G]; [now right|left]. apply Rabs_le_inv in Hx.
  assert (F : fl (b2 e) = b2 e) by (apply fl_fmt, fmt_b2; lia). assert (K : Rabs (fl x) <= b2 e). { apply Rabs_le. split; [apply fl_ge; [rewrite fl_opp, F; reflexivity|lra]|apply fl_le; [exact F|lra]]. }
  split; [|exact K]. apply Rle_lt_trans with (1 := K). apply bpow_lt. lia.
Qed.

Lemma big_sum : forall x e, (-1074 <= e < 1024)%Z -> Rabs x <= b2 e -> Rabs (fl x) < b2 1024 /\ Rabs (fl x) <= b2 e.
Proof. intros x e He Hx. destruct (below_big x e ltac:(lia) Hx) as [H|H]; [exact H|lia]. Qed.

Definition nodes (l : list double) : Prop := (2 <= length l)%nat /\ forall x, In x l -> fin x /\ Rabs (val x) <= b2 1020.

Lemma step_ok : forall l, nodes l -> let dx := dsub (nth 1 l dzero) (nth 0 l dzero) in fin dx /\ val dx = fl (val (nth 1 l dzero) - val (nth 0 l dzero)) /\ Rabs (val dx) <= b2 1021.
Proof.
  intros l [HL HN] dx. destruct (HN (nth 1 l dzero)) as [F1 B1]; [apply nth_In; lia|]. destruct (HN (nth 0 l dzero)) as [F0 B0]; [apply nth_In; lia|].
  assert (E : b2 1021 = 2 * b2 1020) by (change 1021%Z with (1 + 1020)%Z; rewrite bpow_plus; reflexivity).
  destruct (big_sum (val (nth 1 l dzero) - val (nth 0 l dzero)) 1021 ltac:(lia)) as [A B]; [apply Rabs_le_inv in B1, B0; apply Rabs_le; lra|].
  destruct (dsub_ok _ _ F1 F0 A) as [G V]. fold dx in G, V. split; [exact G|]. split; [exact V|]. now rewrite V.
Qed.

Lemma move_ok : forall l x, nodes l -> In x l -> let dx := dsub (nth 1 l dzero) (nth 0 l dzero) in
  fin (dsub x dx) /\ val (dsub x dx) = fl (val x - val dx) /\ fin (dadd x dx) /\ val (dadd x dx) = fl (val x + val dx).
Proof.
  intros l x HN Hx dx. destruct (step_ok l HN) as (FD & _ & BD). fold dx in FD, BD. destruct HN as [HL HN]. destruct (HN x Hx) as [F B].
  assert (E : b2 1021 = 2 * b2 1020) by (change 1021%Z with (1 + 1020)%Z; rewrite bpow_plus; reflexivity). assert (E2 : b2 1022 = 4 * b2 1020) by (change 1022%Z with (2 + 1020)%Z; rewrite bpow_plus; reflexivity). pose proof (bpow_gt_0 radix2 1020) as P. apply Rabs_le_inv in B, BD.
  destruct (big_sum (val x - val dx) 1022 ltac:(lia)) as [A _]; [apply Rabs_le; lra|]. destruct (big_sum (val x + val dx) 1022 ltac:(lia)) as [A' _]; [apply Rabs_le; lra|].
  destruct (dsub_ok _ _ F FD A). destruct (dadd_ok _ _ F FD A'). auto.
Qed.

(** Sorted mid-points give as many edges plus one, finite and sorted, with every
    mid-point at or above its lower edge and the last at or below the last edge. *)
Theorem C106_sorted : forall xmid, nodes xmid -> (forall i, (S i < length xmid)%nat -> val (nth i xmid dzero) <= val (nth (S i) xmid dzero)) ->
  exists e, xmid2edges_d xmid = Ok e /\ length e = S (length xmid) /\ (forall x, In x e -> fin x) /\
    (forall i, (i < length xmid)%nat -> val (nth i e dzero) <= val (nth (S i) e dzero)) /\
    (forall i, (i < length xmid)%nat -> val (nth i e dzero) <= val (nth i xmid dzero)) /\
    val (nth (length xmid - 1) xmid dzero) <= val (nth (length xmid) e dzero).
Proof.
  intros l HN HS. pose proof HN as [HL HA]. destruct (edges_shape l HL) as (e & E & EL & EI & EN). exists e. split; [exact E|]. split; [exact EL|].
  destruct (step_ok l HN) as (FD & VD & BD). set (dx := dsub (nth 1 l dzero) (nth 0 l dzero)) in *.
  assert (D0 : 0 <= val dx). { rewrite VD. apply fl_ge; [apply fl_fmt, fmt_0|]. pose proof (HS 0%nat ltac:(lia)). lra. }
  assert (MV : forall i, (i < length l)%nat -> fin (dsub (nth i l dzero) dx) /\ val (dsub (nth i l dzero) dx) = fl (val (nth i l dzero) - val dx) /\ fin (dadd (nth i l dzero) dx) /\ val (dadd (nth i l dzero) dx) = fl (val (nth i l dzero) + val dx)) by (intros i Hi; apply (move_ok l); [exact HN|now apply nth_In]).
  assert (LO : forall i, (i < length l)%nat -> val (nth i e dzero) <= val (nth i l dzero)). { intros i Hi. rewrite EI by exact Hi. destruct (MV i Hi) as (_ & -> & _). apply fl_le; [apply fl_fmt, fmt_val|lra]. }
  assert (HI : val (nth (length l - 1) l dzero) <= val (nth (length l) e dzero)). { rewrite EN. destruct (MV (length l - 1)%nat ltac:(lia)) as (_ & _ & _ & ->). apply fl_ge; [apply fl_fmt, fmt_val|lra]. }
  split; [|split; [|split; [exact LO|exact HI]]].
  - intros x Hx. destruct (In_nth e x dzero Hx) as (i & Hi & <-). rewrite EL in Hi. destruct (Nat.eq_dec i (length l)) as [->|N]; [rewrite EN; apply MV; lia|rewrite EI by lia; apply MV; lia].
  - intros i Hi. destruct (Nat.eq_dec (S i) (length l)) as [K|N].
    + rewrite K. replace i with (length l - 1)%nat by lia. apply Rle_trans with (2 := HI). apply LO. lia.
    + rewrite !EI by lia. destruct (MV i Hi) as (_ & -> & _). destruct (MV (S i) ltac:(lia)) as (_ & -> & _). apply fl_mono. pose proof (HS i ltac:(lia)). lra.
Qed.
Print Assumptions C106_sorted.

Lemma move_err : forall a d D M, fmt a -> fmt d -> Rabs a <= M -> Rabs D <= 2 * M -> Rabs (d - D) <= u * (2 * M) ->
  Rabs (fl (a - d) - (a - D)) <= 6 * u * M /\ Rabs (fl (a + d) - (a + D)) <= 6 * u * M.
Proof.
  intros a d D M Fa Fd Ha HD Hd. pose proof u_pos as U. assert (M0 : 0 <= M) by (pose proof (Rabs_pos a); lra).
  assert (Bd : Rabs d <= 5/2 * M) by (replace d with ((d - D) + D) by ring; apply Rle_trans with (1 := Rabs_triang _ _); assert (u * (2 * M) <= / 1024 * (2 * M)) by (apply Rmult_le_compat_r; lra); lra).
  assert (Fo : fmt (- d)) by now apply generic_format_opp.
  pose proof (add_err a (- d) Fa Fo) as E1. pose proof (add_err a d Fa Fd) as E2. replace (a + - d) with (a - d) in E1 by ring.
  assert (K1 : u * Rabs (a - d) <= u * (7/2 * M)) by (apply Rmult_le_compat_l; [lra|]; apply Rabs_le_inv in Ha, Bd; apply Rabs_le; lra). assert (K2 : u * Rabs (a + d) <= u * (7/2 * M)) by (apply Rmult_le_compat_l; [lra|]; apply Rabs_le_inv in Ha, Bd; apply Rabs_le; lra).
  assert (P : 0 <= u * M) by (apply Rmult_le_pos; lra).
  apply Rabs_le_inv in Hd. split; [replace (fl (a - d) - (a - D)) with ((fl (a - d) - (a - d)) + (D - d)) by ring|replace (fl (a + d) - (a + D)) with ((fl (a + d) - (a + d)) + (d - D)) by ring]; apply Rle_trans with (1 := Rabs_triang _ _); assert (Rabs (D - d) <= u * (2 * M) /\ Rabs (d - D) <= u * (2 * M)) as [? ?] by (split; apply Rabs_le; lra); lra.
Qed.

(** Each edge is its mid-point minus the first spacing, the last one is the last
    mid-point plus it, up to roundings. *)
Theorem C106_values : forall xmid M, nodes xmid -> (forall x, In x xmid -> Rabs (val x) <= M) ->
  let D := val (nth 1 xmid dzero) - val (nth 0 xmid dzero) in
  exists e, xmid2edges_d xmid = Ok e /\ length e = S (length xmid) /\
    (forall i, (i < length xmid)%nat -> Rabs (val (nth i e dzero) - (val (nth i xmid dzero) - D)) <= 6 * u * M) /\
    Rabs (val (nth (length xmid) e dzero) - (val (nth (length xmid - 1) xmid dzero) + D)) <= 6 * u * M.
Proof.
  intros l M HN HM D. pose proof HN as [HL HA]. destruct (edges_shape l HL) as (e & E & EL & EI & EN). exists e. split; [exact E|]. split; [exact EL|].
  destruct (step_ok l HN) as (FD & VD & BD). set (dx := dsub (nth 1 l dzero) (nth 0 l dzero)) in *. pose proof (HM (nth 1 l dzero) ltac:(apply nth_In; lia)) as B1. pose proof (HM (nth 0 l dzero) ltac:(apply nth_In; lia)) as B0.
  assert (BDD : Rabs D <= 2 * M) by (unfold D; apply Rabs_le_inv in B1, B0; apply Rabs_le; lra).
  assert (ED : Rabs (val dx - D) <= u * (2 * M)). { rewrite VD. fold D. pose proof (add_err (val (nth 1 l dzero)) (- val (nth 0 l dzero)) (fmt_val _) ltac:(apply generic_format_opp, fmt_val)) as K. replace (val (nth 1 l dzero) + - val (nth 0 l dzero)) with D in K by (unfold D; ring). apply Rle_trans with (1 := K). apply Rmult_le_compat_l; [pose proof u_pos; lra|exact BDD]. }
  assert (ER : forall i, (i < length l)%nat -> Rabs (fl (val (nth i l dzero) - val dx) - (val (nth i l dzero) - D)) <= 6 * u * M /\ Rabs (fl (val (nth i l dzero) + val dx) - (val (nth i l dzero) + D)) <= 6 * u * M) by (intros i Hi; apply move_err; try apply fmt_val; try assumption; apply HM, nth_In, Hi).
  split.
  - intros i Hi. rewrite EI by exact Hi. destruct (move_ok l (nth i l dzero) HN (nth_In _ _ Hi)) as (_ & V & _). fold dx in V. rewrite V. apply ER, Hi.
  - rewrite EN. destruct (move_ok l (nth (length l - 1) l dzero) HN ltac:(apply nth_In; lia)) as (_ & _ & _ & V). fold dx in V. rewrite V. apply ER. lia.
Qed.
Print Assumptions C106_values.

(** On an evenly spaced grid every mid-point but the last lies, up to roundings, on
    its own upper edge. *)
Theorem C106_on_edge : forall xmid M, nodes xmid -> (forall x, In x xmid -> Rabs (val x) <= M) ->
  let D := val (nth 1 xmid dzero) - val (nth 0 xmid dzero) in
  exists e, xmid2edges_d xmid = Ok e /\ forall i, (S i < length xmid)%nat ->
    Rabs (val (nth (S i) e dzero) - val (nth i xmid dzero)) <= Rabs (val (nth (S i) xmid dzero) - val (nth i xmid dzero) - D) + 6 * u * M.
Proof.
  intros l M HN HM D. destruct (C106_values l M HN HM) as (e & E & EL & EI & _). exists e. split; [exact E|]. intros i Hi. specialize (EI (S i) Hi). fold D in EI.
  replace (val (nth (S i) e dzero) - val (nth i l dzero)) with ((val (nth (S i) l dzero) - val (nth i l dzero) - D) + (val (nth (S i) e dzero) - (val (nth (S i) l dzero) - D))) by ring. apply Rle_trans with (1 := Rabs_triang _ _). lra.
Qed.
Print Assumptions C106_on_edge.

(** Fewer than two mid-points have no spacing. *)
Theorem C106_short : forall xmid, (length xmid < 2)%nat -> xmid2edges_d xmid = Err IndexError.
Proof. intros [|a [|b r]] H; [reflexivity|reflexivity|cbn [length] in H; lia]. Qed.
Print Assumptions C106_short.

(** The mid-points 0.5 and 1.5 of the edges 0, 1, 2. *)
Example C106_example : nodes [dbl 1 (-1); dbl 3 (-1)] /\ val (dbl 1 (-1)) <= val (dbl 3 (-1)).
Proof.
  destruct (dbl_ok 1 (-1) ltac:(lia) ltac:(lia)) as [F1 V1]. destruct (dbl_ok 3 (-1) ltac:(lia) ltac:(lia)) as [F3 V3]. change (b2 (-1)) with (/ 2) in V1, V3. assert (B : 2 <= b2 1020) by (change 2 with (b2 1); apply bpow_le; lia).
  split; [|rewrite V1, V3; lra]. split; [cbn [length]; lia|]. intros x [<-|[<-|[]]]; [split; [exact F1|rewrite V1; rewrite Rabs_pos_eq; lra]|split; [exact F3|rewrite V3; rewrite Rabs_pos_eq; lra]].
Qed.

(** User expectation: the edges come back from the mid-points. Violated. *)
Theorem C106_refuted : exists edges e, xmid2edges_d (xedges2mid_d edges) = Ok e /\ length e = length edges /\ map val edges = [0; 1; 2] /\ map val e = [-1/2; 1/2; 5/2].
Proof.
  exists [dzero; dbl 1 0; dbl 2 0]. assert (M : xedges2mid_d [dzero; dbl 1 0; dbl 2 0] = [dbl 1 (-1); dbl 3 (-1)]) by (unfold xedges2mid_d; cbn [removelast tl map2]; f_equal; [apply B2SF_inj; vm_compute; reflexivity|f_equal; apply B2SF_inj; vm_compute; reflexivity]).
  rewrite M. destruct (edges_shape [dbl 1 (-1); dbl 3 (-1)] ltac:(cbn [length]; lia)) as (e & E & EL & EI & EN). exists e. split; [exact E|]. split; [exact EL|].
  destruct (dbl_ok 1 0 ltac:(lia) ltac:(lia)) as [F1 V1]. destruct (dbl_ok 2 0 ltac:(lia) ltac:(lia)) as [F2 V2]. split; [cbn [map]; rewrite val_zero, V1, V2; change (b2 0) with 1; repeat f_equal; lra|].
  cbn [length] in *. destruct e as [|a [|b [|c [|]]]]; try discriminate EL. pose proof (EI 0%nat ltac:(lia)) as A. pose proof (EI 1%nat ltac:(lia)) as B. cbn [nth Nat.sub] in A, B, EN. subst a b c.
  assert (X1 : dsub (dbl 1 (-1)) (dsub (dbl 3 (-1)) (dbl 1 (-1))) = dbl (-1) (-1)) by (apply B2SF_inj; vm_compute; reflexivity). assert (X2 : dsub (dbl 3 (-1)) (dsub (dbl 3 (-1)) (dbl 1 (-1))) = dbl 1 (-1)) by (apply B2SF_inj; vm_compute; reflexivity). assert (X3 : dadd (dbl 3 (-1)) (dsub (dbl 3 (-1)) (dbl 1 (-1))) = dbl 5 (-1)) by (apply B2SF_inj; vm_compute; reflexivity).
  rewrite X1, X2, X3. cbn [map]. destruct (dbl_ok (-1) (-1) ltac:(lia) ltac:(lia)) as [_ ->]. destruct (dbl_ok 1 (-1) ltac:(lia) ltac:(lia)) as [_ ->]. destruct (dbl_ok 5 (-1) ltac:(lia) ltac:(lia)) as [_ ->]. change (b2 (-1)) with (/ 2). replace (-1 * / 2) with (-1 / 2) by lra. replace (1 * / 2) with (1 / 2) by lra. replace (5 * / 2) with (5 / 2) by lra. reflexivity.
Qed.
Print Assumptions C106_refuted.
