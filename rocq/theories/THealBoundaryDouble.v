(** * C100: outlines of HEALPix pixels in double precision

    [healpix_boundary(p, nside, steps, reverse)] for every [nside] up to 27397078 and
    every [steps] up to [2^50]: the centre [(xp, yp)] is what [healpix_pix2xy]
    computes ([MIndexFloat.v]), [(xc, yc)] the true centre, [boundary] the outline in
    real numbers ([MHealpixBoundary.v], C09). *)

From Coq Require Import Reals ZArith List Bool Lia Lra.
From Flocq Require Import Core IEEE754.BinarySingleNaN.
From Verif Require Import Base BaseP Spec MHealpixIndex PHealpixIndex PHealpixCentre MHealpixBoundary PHealpixBoundary THealpix MHealpixFloat PHealpixFloat MIndexFloat SpecDouble MDouble PDouble PPiDouble PSumDouble MGridsDouble PGridsDouble MRemapDouble PRemapDouble2 PHealCoordDouble PHealCoordDouble2 PHealCoordDouble3 PHealCoordDouble4 MHealRandomsDouble PHealRandomsDouble PHealRandomsDouble2 THealRandomsDouble MHealBoundaryDouble PHealBoundaryDouble PHealBoundaryDouble2 PLibmDouble.
Import ListNotations.
Open Scope R_scope.

(** Every point of the outline is within [2^-47] of the true one in both coordinates. *)
Theorem C100_close : forall nside p xp yp xc yc steps reverse, (1 <= nside <= 27397078)%Z -> legal_pix nside p -> fin xp -> fin yp ->
  pix2xy_fl p nside = Ok (val xp, val yp) -> pix2xy p nside = Ok (xc, yc) -> (0 <= steps <= 2 ^ 50)%Z ->
  exists xs ys XS YS, boundary_d xp yp nside steps reverse = Ok (xs, ys) /\ boundary p nside steps reverse = Ok (XS, YS) /\
  length xs = Z.to_nat steps /\ length ys = Z.to_nat steps /\ length XS = Z.to_nat steps /\ length YS = Z.to_nat steps /\
  forall q, (q < Z.to_nat steps)%nat -> fin (nth q xs dzero) /\ fin (nth q ys dzero) /\
    Rabs (val (nth q xs dzero) - nth q XS 0) <= b2 (-47) /\ Rabs (val (nth q ys dzero) - nth q YS 0) <= b2 (-47).
Proof.
  intros n p xp yp xc yc s b Hn Hp Fx Fy Ef Ee Hs. destruct (outline_near n p xp yp xc yc Hn Hp Fx Fy Ef Ee s b Hs) as (l & m & L & M & E & E' & [N1 N1'] & [N2 N2'] & K). exists l, m, L, M. split; [exact E|]. split; [exact E'|].
  destruct (C09_outline n p xc yc s b ltac:(lia) Ee ltac:(lia)) as (xs & ys & _ & B & L1 & L2 & _). rewrite E' in B. apply Ok_inj in B.
  assert (LL : length L = Z.to_nat s) by (destruct b; injection B as -> _; rewrite ?rev_length; exact L1). assert (Ll : length l = Z.to_nat s) by exact (eq_trans N1 LL). assert (Lm : length m = Z.to_nat s) by exact (eq_trans (eq_sym K) Ll). assert (LM : length M = Z.to_nat s) by exact (eq_trans (eq_sym N2) Lm).
  do 4 (split; [assumption|]). intros q Hq. rewrite b47. assert (Hl : (q < length l)%nat) by (rewrite Ll; exact Hq). assert (Hm : (q < length m)%nat) by (rewrite Lm; exact Hq). destruct (N1' q Hl) as [F1 D1]. destruct (N2' q Hm) as [F2 D2]. split; [exact F1|]. split; [exact F2|]. split; [exact D1|exact D2].
Qed.
Print Assumptions C100_close.

(** The outline against the definition of the pixel: [steps] finite points at
    [half_diag] from the true centre in the [l1] distance, to [2^-46]; [reverse] is
    the same list backwards, bit for bit. *)
Theorem C100_outline : forall nside p xp yp xc yc steps, (1 <= nside <= 27397078)%Z -> legal_pix nside p -> fin xp -> fin yp ->
  pix2xy_fl p nside = Ok (val xp, val yp) -> pix2xy p nside = Ok (xc, yc) -> (0 <= steps <= 2 ^ 50)%Z ->
  exists xs ys, boundary_d xp yp nside steps false = Ok (xs, ys) /\ boundary_d xp yp nside steps true = Ok (rev xs, rev ys) /\
  length xs = Z.to_nat steps /\ length ys = Z.to_nat steps /\
  forall q, (q < Z.to_nat steps)%nat -> fin (nth q xs dzero) /\ fin (nth q ys dzero) /\
    Rabs (l1 (val (nth q xs dzero)) (val (nth q ys dzero)) xc yc - half_diag nside) <= b2 (-46).
Proof.
  intros n p xp yp xc yc s Hn Hp Fx Fy Ef Ee Hs. destruct (C100_close n p xp yp xc yc s false Hn Hp Fx Fy Ef Ee Hs) as (xs & ys & XS & YS & E & E' & L1 & L2 & L3 & L4 & K). exists xs, ys. split; [exact E|]. split; [exact (boundary_rev n xp yp s Hs xs ys E)|]. do 2 (split; [assumption|]).
  intros q Hq. destruct (K q Hq) as (F1 & F2 & D1 & D2). do 2 (split; [assumption|]). destruct (C09_outline n p xc yc s false ltac:(lia) Ee ltac:(lia)) as (xs' & ys' & B & _ & M1 & _ & D & _). rewrite E' in B. apply Ok_inj in B. injection B as <- <-. specialize (D q ltac:(lia)). rewrite <- D. unfold l1.
  assert (B46 : b2 (-46) = b2 (-47) + b2 (-47)) by (change (-46)%Z with (1 + -47)%Z; rewrite bpow_plus; change (b2 1) with 2; ring). rewrite B46. set (x := val (nth q xs dzero)) in *. set (y := val (nth q ys dzero)) in *. set (X := nth q XS 0) in *. set (Y := nth q YS 0) in *.
  pose proof (Rabs_triang_inv2 (x - xc) (X - xc)) as T1. pose proof (Rabs_triang_inv2 (y - yc) (Y - yc)) as T2. replace (x - xc - (X - xc)) with (x - X) in T1 by ring. replace (y - yc - (Y - yc)) with (y - Y) in T2 by ring.
  assert (T1' := Rabs_le_inv _ _ (Rle_trans _ _ _ T1 D1)). assert (T2' := Rabs_le_inv _ _ (Rle_trans _ _ _ T2 D2)). change (Rabs (Rabs (x - xc) + Rabs (y - yc) - (Rabs (X - xc) + Rabs (Y - yc))) <= b2 (-47) + b2 (-47)). apply Rabs_le. lra.
Qed.
Print Assumptions C100_outline.

(** The two halves that can be drawn on their own. *)
Theorem C100_halves : forall nside p xp yp xc yc steps reverse, (1 <= nside <= 27397078)%Z -> legal_pix nside p -> fin xp -> fin yp ->
  pix2xy_fl p nside = Ok (val xp, val yp) -> pix2xy p nside = Ok (xc, yc) -> (0 <= steps <= 2 ^ 50)%Z ->
  exists xt yt xb yb, boundary_top_d xp yp nside steps reverse = Ok (xt, yt) /\ boundary_bot_d xp yp nside steps reverse = Ok (xb, yb) /\
  length xt = Z.to_nat steps /\ length yt = Z.to_nat steps /\ length xb = Z.to_nat steps /\ length yb = Z.to_nat steps /\
  forall q, (q < Z.to_nat steps)%nat ->
    fin (nth q xt dzero) /\ fin (nth q yt dzero) /\ fin (nth q xb dzero) /\ fin (nth q yb dzero) /\
    yc - b2 (-47) <= val (nth q yt dzero) /\ val (nth q yb dzero) <= yc + b2 (-47) /\
    Rabs (l1 (val (nth q xt dzero)) (val (nth q yt dzero)) xc yc - half_diag nside) <= b2 (-46) /\
    Rabs (l1 (val (nth q xb dzero)) (val (nth q yb dzero)) xc yc - half_diag nside) <= b2 (-46).
Proof.
  intros n p xp yp xc yc s b Hn Hp Fx Fy Ef Ee Hs. destruct (halves_near n p xp yp xc yc Hn Hp Fx Fy Ef Ee s b Hs) as [(l & m & L & M & E & E' & [N1 N1'] & [N2 N2'] & K) (l' & m' & L' & M' & G & G' & [N3 N3'] & [N4 N4'] & K')].
  destruct (C09_halves n p xc yc s b ltac:(lia) Ee ltac:(lia)) as (xt & yt & xb & yb & _ & B1 & _ & B2 & L1 & L2 & L3 & L4 & D1 & D2). rewrite E' in B1. rewrite G' in B2. apply Ok_inj in B1, B2.
  exists l, m, l', m'. split; [exact E|]. split; [exact G|].
  assert (Q1 : length L = Z.to_nat s) by (destruct b; injection B1 as -> _; rewrite ?rev_length; exact L1). assert (Q2 : length M = Z.to_nat s) by (destruct b; injection B1 as _ ->; rewrite ?rev_length; exact L2). assert (Q3 : length L' = Z.to_nat s) by (destruct b; injection B2 as -> _; rewrite ?rev_length; exact L3). assert (Q4 : length M' = Z.to_nat s) by (destruct b; injection B2 as _ ->; rewrite ?rev_length; exact L4).
  assert (P1 : length l = Z.to_nat s) by exact (eq_trans N1 Q1). assert (P2 : length m = Z.to_nat s) by exact (eq_trans N2 Q2). assert (P3 : length l' = Z.to_nat s) by exact (eq_trans N3 Q3). assert (P4 : length m' = Z.to_nat s) by exact (eq_trans N4 Q4). do 4 (split; [assumption|]).
  intros q Hq. assert (A1 : (q < length l)%nat) by (rewrite P1; exact Hq). assert (A2 : (q < length m)%nat) by (rewrite P2; exact Hq). assert (A3 : (q < length l')%nat) by (rewrite P3; exact Hq). assert (A4 : (q < length m')%nat) by (rewrite P4; exact Hq).
  destruct (N1' q A1) as [F1 R1]. destruct (N2' q A2) as [F2 R2]. destruct (N3' q A3) as [F3 R3]. destruct (N4' q A4) as [F4 R4].
  assert (T : l1 (nth q L 0) (nth q M 0) xc yc = half_diag n /\ yc <= nth q M 0). { destruct b; injection B1 as -> ->; [rewrite !rev_nth by lia; rewrite L1, <- L2, L2; apply D1; lia|apply D1; lia]. }
  assert (T' : l1 (nth q L' 0) (nth q M' 0) xc yc = half_diag n /\ nth q M' 0 <= yc). { destruct b; injection B2 as -> ->; [rewrite !rev_nth by lia; rewrite L3, L4; apply D2; lia|apply D2; lia]. }
  destruct T as [T TY]. destruct T' as [T' TY']. assert (B46 : b2 (-46) = b2 (-47) + b2 (-47)) by (change (-46)%Z with (1 + -47)%Z; rewrite bpow_plus; change (b2 1) with 2; ring). rewrite B46, b47.
  assert (Q : forall x y X Y, Rabs (x - X) <= 64 * u -> Rabs (y - Y) <= 64 * u -> Rabs (l1 x y xc yc - l1 X Y xc yc) <= 64 * u + 64 * u).
  { intros x y X Y H1 H2. unfold l1. pose proof (Rabs_triang_inv2 (x - xc) (X - xc)) as T1. pose proof (Rabs_triang_inv2 (y - yc) (Y - yc)) as T2. replace (x - xc - (X - xc)) with (x - X) in T1 by ring. replace (y - yc - (Y - yc)) with (y - Y) in T2 by ring.
    assert (T1' := Rabs_le_inv _ _ (Rle_trans _ _ _ T1 H1)). assert (T2' := Rabs_le_inv _ _ (Rle_trans _ _ _ T2 H2)). apply Rabs_le. lra. }
  do 4 (split; [assumption|]). pose proof (Q _ _ _ _ R1 R2) as U1. pose proof (Q _ _ _ _ R3 R4) as U2. rewrite T in U1. rewrite T' in U2. apply Rabs_le_inv in R2, R4. set (v2 := val (nth q m dzero)) in *. set (v4 := val (nth q m' dzero)) in *. set (e2 := nth q M 0) in *. set (e4 := nth q M' 0) in *.
  split; [change (yc - 64 * u <= v2); lra|]. split; [change (v4 <= yc + 64 * u); lra|]. split; [exact U1|exact U2].
Qed.
Print Assumptions C100_halves.

(** The order of the points: eastward over the first half, back over the second. *)
Theorem C100_order : forall nside p xp yp xc yc steps xs ys, (1 <= nside <= 27397078)%Z -> legal_pix nside p -> fin xp -> fin yp ->
  pix2xy_fl p nside = Ok (val xp, val yp) -> pix2xy p nside = Ok (xc, yc) -> (0 <= steps <= 2 ^ 50)%Z ->
  boundary_d xp yp nside steps false = Ok (xs, ys) -> let half := Z.to_nat (steps / 2) in
  (forall i j, (i <= j < half)%nat -> val (nth i xs dzero) <= val (nth j xs dzero)) /\
  (forall i j, (half <= i <= j)%nat -> (j < length xs)%nat -> val (nth j xs dzero) <= val (nth i xs dzero)).
Proof.
  intros n p xp yp xc yc s xs ys Hn Hp Fx Fy Ef Ee Hs E half. destruct (order_ok n p xp yp xc yc Hn Hp Fx Ef Ee s xs ys Hs E) as (_ & A & B). rewrite Z.quot_div_nonneg in A, B by lia. split; [exact A|exact B].
Qed.
Print Assumptions C100_order.

(** The four corners, met twice each, from 8 points on.  The two copies have the same
    abscissa; at the top and at the bottom they are the same point. *)
Theorem C100_corners : forall nside p xp yp xc yc steps xs ys, (1 <= nside <= 27397078)%Z -> legal_pix nside p -> fin xp -> fin yp ->
  pix2xy_fl p nside = Ok (val xp, val yp) -> pix2xy p nside = Ok (xc, yc) -> (8 <= steps <= 2 ^ 50)%Z ->
  boundary_d xp yp nside steps false = Ok (xs, ys) ->
  let X k := val (nth k xs dzero) in let Y k := val (nth k ys dzero) in let d := half_diag nside in let z := (length xs - 1)%nat in
  exists a b c : nat, (2 <= a)%nat /\ (a + 2 <= b)%nat /\ (b + 2 <= c)%nat /\ (c + 1 <= z)%nat /\
  X 0%nat = X z /\ Rabs (X 0%nat - (xc - d)) <= b2 (-47) /\ Rabs (Y 0%nat - yc) <= b2 (-45) /\ Rabs (Y z - yc) <= b2 (-45) /\
  X (a - 1)%nat = val xp /\ X a = val xp /\ Y (a - 1)%nat = Y a /\ Rabs (X a - xc) <= b2 (-47) /\ Rabs (Y a - (yc + d)) <= b2 (-47) /\
  X (b - 1)%nat = X b /\ Rabs (X b - (xc + d)) <= b2 (-47) /\ Rabs (Y (b - 1)%nat - yc) <= b2 (-45) /\ Rabs (Y b - yc) <= b2 (-45) /\
  X (c - 1)%nat = val xp /\ X c = val xp /\ Y (c - 1)%nat = Y c /\ Rabs (X c - xc) <= b2 (-47) /\ Rabs (Y c - (yc - d)) <= b2 (-47).
Proof.
  intros n p xp yp xc yc s xs ys Hn Hp Fx Fy Ef Ee Hs E X Y d z. pose proof (corners_ok n p xp yp xc yc Hn Hp Fx Fy Ef Ee s xs ys Hs E) as C. cbv zeta in C. set (a := Z.to_nat (size1 s)) in *. set (b := Z.to_nat (Z.quot s 2)) in *. set (c := Z.to_nat (Z.quot s 2 + size4 s)) in *. clearbody a b c.
  destruct C as (H1 & H2 & H3 & H4 & C1 & C2 & C3 & C4 & C5 & C6 & C7 & C8 & C9 & C10 & C11 & C12). destruct (tips_near n p xp yp xc yc Hn Hp Fx Fy Ef Ee) as [T1 T2]. destruct (sides_x n p xp yp xc yc Hn Hp Fx Ef Ee) as (S1 & S2 & S3).
  destruct (C100_outline n p xp yp xc yc s Hn Hp Fx Fy Ef Ee ltac:(lia)) as (xs' & ys' & E' & _ & L1 & _ & K). rewrite E in E'. apply Ok_inj in E'. injection E' as <- <-. pose proof u_tiny as U.
  assert (B46 : b2 (-46) = 128 * u) by (unfold u; change (-46)%Z with (7 + -53)%Z; rewrite bpow_plus; reflexivity). assert (B45 : b2 (-45) = 256 * u) by (unfold u; change (-45)%Z with (8 + -53)%Z; rewrite bpow_plus; reflexivity). rewrite B45, b47.
  assert (D0 : 0 < d) by (unfold d, half_diag; apply Rdiv_lt_0_compat; [apply PI_RGT_0|apply Rmult_lt_0_compat; [lra|apply IZR_lt; lia]]).
  assert (W : forall q, (q < length xs)%nat -> Rabs (Rabs (X q - xc) - d) <= 42 * u -> Rabs (Y q - yc) <= 256 * u).
  { intros q Hq HX. destruct (K q) as (_ & _ & D); [rewrite <- L1; exact Hq|]. rewrite B46 in D. unfold l1 in D. change (Rabs (Rabs (X q - xc) + Rabs (Y q - yc) - d) <= 128 * u) in D. apply Rabs_le_inv in HX, D. lra. }
  assert (WS : forall x e, Rabs (x - (xc + e)) <= 42 * u -> Rabs e = d -> Rabs (Rabs (x - xc) - d) <= 42 * u). { intros x e Hx He. rewrite <- He. eapply Rle_trans; [apply Rabs_triang_inv2|]. replace (x - xc - e) with (x - (xc + e)) by ring. exact Hx. }
  assert (P0 : Rabs (X 0%nat - (xc - d)) <= 42 * u) by (unfold X; rewrite C1; exact S1). assert (Pz : Rabs (X z - (xc - d)) <= 42 * u) by (unfold X, z; rewrite C2; exact S1). assert (Pb : Rabs (X b - (xc + d)) <= 42 * u) by (unfold X; rewrite C6; exact S3). assert (Pb' : Rabs (X (b - 1)%nat - (xc + d)) <= 42 * u) by (unfold X; rewrite C5; exact S3).
  assert (Dm : Rabs (- d) = d) by (rewrite Rabs_Ropp; apply Rabs_pos_eq; lra). assert (Dp : Rabs d = d) by (apply Rabs_pos_eq; lra). assert (LZ : (z < length xs)%nat) by (unfold z; lia).
  exists a, b, c. do 3 (split; [lia|]). split; [unfold z; lia|].
  split; [exact (eq_trans C1 (eq_sym C2))|]. split; [lra|]. split; [apply W; [lia|apply (WS _ (- d)); [exact P0|exact Dm]]|]. split; [apply W; [exact LZ|apply (WS _ (- d)); [exact Pz|exact Dm]]|].
  split; [exact C3|]. split; [exact C4|]. split; [exact (eq_trans C9 (eq_sym C10))|]. split; [unfold X; rewrite C4; lra|]. split; [unfold Y; rewrite C10; unfold d; eapply Rle_trans; [exact T1|lra]|].
  split; [exact (eq_trans C5 (eq_sym C6))|]. split; [lra|]. split; [apply W; [lia|apply (WS _ d); assumption]|]. split; [apply W; [lia|apply (WS _ d); assumption]|].
  split; [exact C7|]. split; [exact C8|]. split; [exact (eq_trans C11 (eq_sym C12))|]. split; [unfold X; rewrite C8; lra|]. unfold Y; rewrite C12; unfold d; eapply Rle_trans; [exact T2|lra].
Qed.
Print Assumptions C100_corners.

(** A negative number of points is refused. *)
Theorem C100_negative : forall xp yp nside steps reverse, (steps < 0)%Z -> boundary_d xp yp nside steps reverse = Err ValueError.
Proof. exact outline_negative. Qed.
Print Assumptions C100_negative.

(** The centre of pixels 26 and 27 of [nside = 2]. *)
Lemma at_26 : exists xc yc xc' yc', fin (centre_d (jd2 2 4 7) 2) /\ fin (centre_d (jd2 2 4 8) 2) /\ fin (centre_d (id2 2 4) 2) /\
  pix2xy_fl 26 2 = Ok (val (centre_d (jd2 2 4 7) 2), val (centre_d (id2 2 4) 2)) /\ pix2xy_fl 27 2 = Ok (val (centre_d (jd2 2 4 8) 2), val (centre_d (id2 2 4) 2)) /\
  pix2xy 26 2 = Ok (xc, yc) /\ pix2xy 27 2 = Ok (xc', yc').
Proof.
  destruct (centres_exist 2 26 ltac:(lia) ltac:(unfold legal_pix; lia)) as (i & j & P & E & F1 & F2). assert (P' : pixel_at 2 26 4 7) by (split; [split; split; vm_compute; discriminate|reflexivity]). destruct (pixel_at_unique 2 26 i j 4 7 ltac:(lia) P P') as [-> ->].
  destruct (centres_exist 2 27 ltac:(lia) ltac:(unfold legal_pix; lia)) as (i & j & Q & G & G1 & G2). assert (Q' : pixel_at 2 27 4 8) by (split; [split; split; vm_compute; discriminate|reflexivity]). destruct (pixel_at_unique 2 27 i j 4 8 ltac:(lia) Q Q') as [-> ->].
  destruct (pix2xy_legal 2 26 ltac:(lia) ltac:(unfold legal_pix; lia)) as (i' & j' & _ & E'). destruct (pix2xy_legal 2 27 ltac:(lia) ltac:(unfold legal_pix; lia)) as (k' & l' & _ & G'). do 4 eexists. repeat split; eassumption.
Qed.

Definition peek (r : res (list double * list double)) (f : list double * list double -> list double) (k : nat) : SpecFloat.spec_float :=
  match r with Ok v => B2SF (nth k (f v) dzero) | Err _ => SpecFloat.S754_nan end.

(** The outline need not be closed, and its upper half can dip below the centre line:
    for pixel 26 of [nside = 2], on the equator, the first of 8 points is at height
    [-2^-51] and the last, which should be the same corner, at [2^-51]. *)
Theorem C100_closed_refuted : exists nside p xp yp xs ys, (1 <= nside <= 27397078)%Z /\ legal_pix nside p /\ fin xp /\ fin yp /\
  pix2xy_fl p nside = Ok (val xp, val yp) /\ boundary_d xp yp nside 8 false = Ok (xs, ys) /\
  val yp = 0 /\ val (nth 0 ys dzero) = - b2 (-51) /\ val (nth 7 ys dzero) = b2 (-51).
Proof.
  destruct at_26 as (xc & yc & _ & _ & F1 & _ & F2 & E & _ & Ee & _). set (xp := centre_d (jd2 2 4 7) 2) in *. set (yp := centre_d (id2 2 4) 2) in *.
  destruct (C100_outline 2 26 xp yp xc yc 8 ltac:(lia) ltac:(unfold legal_pix; lia) F1 F2 E Ee ltac:(lia)) as (xs & ys & B & _). exists 2%Z, 26%Z, xp, yp, xs, ys. split; [lia|]. split; [unfold legal_pix; lia|]. do 4 (split; [assumption|]).
  assert (K0 : peek (boundary_d xp yp 2 8 false) snd 0 = B2SF (dbl (-1) (-51))) by (vm_compute; reflexivity). assert (K7 : peek (boundary_d xp yp 2 8 false) snd 7 = B2SF (dbl 1 (-51))) by (vm_compute; reflexivity). rewrite B in K0, K7. unfold peek in K0, K7. cbn [snd] in K0, K7. apply B2SF_inj in K0, K7.
  assert (Ky : yp = dint 0) by (apply B2SF_inj; vm_compute; reflexivity). destruct (dint_ok 0 ltac:(lia)) as [_ V0]. destruct (dbl_ok (-1) (-51) ltac:(lia) ltac:(lia)) as [_ Vm]. destruct (dbl_ok 1 (-51) ltac:(lia) ltac:(lia)) as [_ V1].
  split; [rewrite Ky; exact V0|]. split; [refine (eq_trans (f_equal val K0) (eq_trans Vm _)); ring|refine (eq_trans (f_equal val K7) (eq_trans V1 _)); ring].
Qed.
Print Assumptions C100_closed_refuted.

(** Neighbouring outlines need not meet: the right corner of pixel 26 of [nside = 2]
    is two units in the last place east of the left corner of pixel 27. *)
Theorem C100_meet_refuted : exists nside p p' xp xp' yp xs ys xs' ys', (1 <= nside <= 27397078)%Z /\ legal_pix nside p /\ legal_pix nside p' /\
  pix2xy_fl p nside = Ok (val xp, val yp) /\ pix2xy_fl p' nside = Ok (val xp', val yp) /\
  boundary_d xp yp nside 8 false = Ok (xs, ys) /\ boundary_d xp' yp nside 8 false = Ok (xs', ys') /\
  p' = (p + 1)%Z /\ val (nth 3 xs dzero) - val (nth 0 xs' dzero) = b2 (-49).
Proof.
  destruct at_26 as (xc & yc & xc' & yc' & F1 & F1' & F2 & E & E' & Ee & Ee'). set (xp := centre_d (jd2 2 4 7) 2) in *. set (xp' := centre_d (jd2 2 4 8) 2) in *. set (yp := centre_d (id2 2 4) 2) in *.
  destruct (C100_outline 2 26 xp yp xc yc 8 ltac:(lia) ltac:(unfold legal_pix; lia) F1 F2 E Ee ltac:(lia)) as (xs & ys & B & _). destruct (C100_outline 2 27 xp' yp xc' yc' 8 ltac:(lia) ltac:(unfold legal_pix; lia) F1' F2 E' Ee' ltac:(lia)) as (xs' & ys' & B' & _).
  exists 2%Z, 26%Z, 27%Z, xp, xp', yp, xs, ys, xs', ys'. split; [lia|]. do 2 (split; [unfold legal_pix; lia|]). do 4 (split; [assumption|]). split; [reflexivity|].
  assert (K0 : peek (boundary_d xp yp 2 8 false) fst 3 = B2SF (dbl 6189958033024886 (-50))) by (vm_compute; reflexivity). assert (K7 : peek (boundary_d xp' yp 2 8 false) fst 0 = B2SF (dbl 6189958033024884 (-50))) by (vm_compute; reflexivity). rewrite B in K0. rewrite B' in K7. unfold peek in K0, K7. cbn [fst] in K0, K7. apply B2SF_inj in K0, K7.
  destruct (dbl_ok 6189958033024886 (-50) ltac:(lia) ltac:(lia)) as [_ Vm]. destruct (dbl_ok 6189958033024884 (-50) ltac:(lia) ltac:(lia)) as [_ V1]. assert (W0 : val (nth 3 xs dzero) = IZR 6189958033024886 * b2 (-50)) by exact (eq_trans (f_equal val K0) Vm). assert (W1 : val (nth 0 xs' dzero) = IZR 6189958033024884 * b2 (-50)) by exact (eq_trans (f_equal val K7) V1).
  rewrite W0, W1. change (-49)%Z with (1 + -50)%Z. rewrite bpow_plus. change (b2 1) with 2. ring.
Qed.
Print Assumptions C100_meet_refuted.

(** The hypotheses are met: 40 points around pixel 30 of [nside = 3]. *)
Example C100_example : exists xp yp xc yc xs ys, fin xp /\ fin yp /\ pix2xy_fl 30 3 = Ok (val xp, val yp) /\ pix2xy 30 3 = Ok (xc, yc) /\
  boundary_d xp yp 3 40 true = Ok (xs, ys) /\ length xs = 40%nat.
Proof.
  destruct (C99_centres 3 30 ltac:(lia) ltac:(unfold legal_pix; lia)) as (xp & yp & xc & yc & F1 & F2 & E1 & E2). destruct (C100_close 3 30 xp yp xc yc 40 true ltac:(lia) ltac:(unfold legal_pix; lia) F1 F2 E1 E2 ltac:(lia)) as (xs & ys & _ & _ & B & _ & L & _).
  exists xp, yp, xc, yc, xs, ys. do 5 (split; [assumption|]). exact L.
Qed.
Print Assumptions C100_example.
