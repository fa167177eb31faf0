(** * Theorems about grids and radial profiles: C27-C31, C45, C46 *)

From Coq Require Import Reals ZArith List Bool Lra Lia Psatz.
From Coquelicot Require Import Coquelicot.
From Flocq Require Import Core.Raux.
From Verif Require Import Base BaseP SpecGrid MGrids PHealpixCentre PGrids PRadial.
Import ListNotations.
Open Scope R_scope.

(** ** C27: edges and midpoints *)

(** [get_xedges] gives [n]+1 equally spaced edges, the first is [xmin] and the
    last exactly [xmin + length]. *)
Theorem C27_get_xedges : forall len n xmin, (1 <= n)%nat ->
  exists e, get_xedges len (Z.of_nat n) (Some xmin) = Ok e /\ length e = S n /\
    (forall i, (i <= n)%nat -> nth i e 0 = xmin + INR i * (len / INR n)) /\
    nth 0 e 0 = xmin /\ nth n e 0 = xmin + len.
Proof.
  intros len n xmin Hn. destruct (get_xedges_ok len n (Some xmin) Hn) as (e & E & HL & HE).
  exists e. split; [exact E|]. split; [exact HL|]. split; [exact HE|]. cbn [xmin_of] in HE.
  assert (INR n <> 0) by (apply not_0_INR; lia).
  split; rewrite HE by lia; [cbn; ring|field; assumption].
Qed.
Print Assumptions C27_get_xedges.

(** The default [xmin] is zero; fewer than -1 cells is refused. *)
Theorem C27_get_xedges_default : forall len n, get_xedges len n None = get_xedges len n (Some 0).
Proof. reflexivity. Qed.
Print Assumptions C27_get_xedges_default.

Theorem C27_get_xedges_negative : forall len n xmin, (n < -1)%Z -> get_xedges len n xmin = Err ValueError.
Proof. exact get_xedges_neg. Qed.
Print Assumptions C27_get_xedges_negative.

(** [xedges2mid] gives the mean of every pair of adjacent edges, which lies
    strictly between them when they are increasing. *)
Theorem C27_xedges2mid : forall l,
  length (xedges2mid l) = (length l - 1)%nat /\
  forall i, (S i < length l)%nat ->
    nth i (xedges2mid l) 0 = (nth i l 0 + nth (S i) l 0) / 2 /\
    (nth i l 0 < nth (S i) l 0 -> nth i l 0 < nth i (xedges2mid l) 0 < nth (S i) l 0).
Proof.
  intros l. split; [apply xedges2mid_length|]. intros i Hi. rewrite xedges2mid_nth by exact Hi.
  split; [reflexivity|]. intros. lra.
Qed.
Print Assumptions C27_xedges2mid.

(** [grid1d]: midpoints [xmin + (i+1/2) dx], and the edges. *)
Theorem C27_grid1d : forall len n xmin, (1 <= n)%nat ->
  exists mid edges, grid1d len (Z.of_nat n) (Some xmin) = Ok (mid, edges) /\
    get_xedges len (Z.of_nat n) (Some xmin) = Ok edges /\ length mid = n /\
    forall i, (i < n)%nat -> nth i mid 0 = xmin + (INR i + / 2) * (len / INR n).
Proof.
  intros len n xmin Hn. unfold grid1d.
  destruct (get_xedges_ok len n (Some xmin) Hn) as (e & E & U). rewrite E. cbn [bind].
  destruct (uniform_mid _ _ _ _ U) as [A B].
  do 2 eexists. split; [reflexivity|]. split; [reflexivity|]. split; [exact A|exact B].
Qed.
Print Assumptions C27_grid1d.

Example C27_example : exists mid edges, grid1d 8 4 (Some 1) = Ok (mid, edges) /\
  nth 2 mid 0 = 6 /\ nth 3 edges 0 = 7 /\ nth 4 edges 0 = 9.
Proof.
  destruct (C27_grid1d 8 4 1 ltac:(lia)) as (mid & e & E & G & _ & M).
  destruct (C27_get_xedges 8 4 1 ltac:(lia)) as (e' & E' & _ & H & _ & _).
  change (Z.of_nat 4) with 4%Z in *. rewrite G in E'. apply Ok_inj in E'. subst e'.
  exists mid, e. split; [exact E|]. rewrite M, !H by lia. cbn [INR]. lra.
Qed.

(** ** C28: xmid2edges *)

(** On every uniform grid of at least two bins the edges rebuilt from the
    midpoints are displaced by half a bin: all but the last towards lower
    values, the last one towards higher values. *)
Theorem C28_xmid2edges_displaced : forall e a h n, uniform_edges e a h n -> (2 <= n)%nat ->
  exists e', xmid2edges (xedges2mid e) = Ok e' /\ length e' = length e /\
    (forall i, (i < n)%nat -> nth i e' 0 = nth i e 0 - h / 2) /\
    nth n e' 0 = nth n e 0 + h / 2.
Proof.
  intros e a h n HU Hn. destruct (xmid2edges_uniform e a h n HU Hn) as (e' & A & B & C & D).
  exists e'. rewrite (proj1 HU). auto.
Qed.
Print Assumptions C28_xmid2edges_displaced.

(** So the round trip never gives the edges back. *)
Theorem C28_round_trip_refuted : forall e a h n, uniform_edges e a h n -> (2 <= n)%nat -> h <> 0 ->
  xmid2edges (xedges2mid e) <> Ok e.
Proof.
  intros e a h n HU Hn Hh H. destruct (xmid2edges_uniform e a h n HU Hn) as (e' & A & B & C & D).
  rewrite A in H. apply Ok_inj in H. subst e'. lra.
Qed.
Print Assumptions C28_round_trip_refuted.

(** Fewer than two midpoints: an IndexError. *)
Theorem C28_xmid2edges_short : forall l, (length l < 2)%nat -> xmid2edges l = Err IndexError.
Proof. exact xmid2edges_short. Qed.
Print Assumptions C28_xmid2edges_short.

Example C28_example : uniform_edges [0; 2; 4] 0 2 2 /\
  xmid2edges (xedges2mid [0; 2; 4]) = Ok [-1; 1; 5].
Proof.
  split.
  - split; [reflexivity|]. intros [|[|[|i]]] Hi; cbn; try lra; lia.
  - unfold xmid2edges, py_get; cbn. change (Pos.to_nat 1) with 1%nat. cbn. apply f_equal. repeat (apply f_equal2; [lra|]). reflexivity.
Qed.

(** ** C29: tensor grids *)

Theorem C29_grid2d : forall lx ly nx ny mx my, (1 <= nx)%nat -> (1 <= ny)%nat ->
  exists x2d y2d xmid ymid,
    grid2d (Seq [lx; ly]) (Seq [Z.of_nat nx; Z.of_nat ny]) [Some mx; Some my] = Ok (x2d, y2d, xmid, ymid) /\
    shape2 x2d nx ny /\ shape2 y2d nx ny /\ length xmid = nx /\ length ymid = ny /\
    forall i j, (i < nx)%nat -> (j < ny)%nat ->
      cell x2d i j = mx + (INR i + / 2) * (lx / INR nx) /\
      cell y2d i j = my + (INR j + / 2) * (ly / INR ny) /\
      nth i xmid 0 = cell x2d i j /\ nth j ymid 0 = cell y2d i j.
Proof. intros. apply (grid2d_spec lx ly nx ny (Some mx) (Some my)); assumption. Qed.
Print Assumptions C29_grid2d.

Theorem C29_grid3d : forall lx ly lz nx ny nz mx my mz, (1 <= nx)%nat -> (1 <= ny)%nat -> (1 <= nz)%nat ->
  exists x3d y3d z3d xmid ymid zmid,
    grid3d (Seq [lx; ly; lz]) (Seq [Z.of_nat nx; Z.of_nat ny; Z.of_nat nz]) [Some mx; Some my; Some mz]
      = Ok (x3d, y3d, z3d, xmid, ymid, zmid) /\
    shape3 x3d nx ny nz /\ shape3 y3d nx ny nz /\ shape3 z3d nx ny nz /\
    length xmid = nx /\ length ymid = ny /\ length zmid = nz /\
    forall i j k, (i < nx)%nat -> (j < ny)%nat -> (k < nz)%nat ->
      cell3 x3d i j k = mx + (INR i + / 2) * (lx / INR nx) /\
      cell3 y3d i j k = my + (INR j + / 2) * (ly / INR ny) /\
      cell3 z3d i j k = mz + (INR k + / 2) * (lz / INR nz) /\
      nth i xmid 0 = cell3 x3d i j k /\ nth j ymid 0 = cell3 y3d i j k /\
      nth k zmid 0 = cell3 z3d i j k.
Proof. intros. apply (grid3d_spec lx ly lz nx ny nz (Some mx) (Some my) (Some mz)); assumption. Qed.
Print Assumptions C29_grid3d.

(** Scalars are used on every axis; omitted minima are zero. *)
Theorem C29_scalars : forall l n mins,
  grid2d (Sca l) (Sca n) mins = grid2d (Seq [l; l]) (Seq [n; n]) mins /\
  grid3d (Sca l) (Sca n) mins = grid3d (Seq [l; l; l]) (Seq [n; n; n]) mins /\
  grid2d (Sca l) (Sca n) [None; None] = grid2d (Sca l) (Sca n) [Some 0; Some 0] /\
  grid3d (Sca l) (Sca n) [None; None; None] = grid3d (Sca l) (Sca n) [Some 0; Some 0; Some 0].
Proof. intros. repeat split; reflexivity. Qed.
Print Assumptions C29_scalars.

Example C29_example : exists x2d y2d xmid ymid,
  grid2d (Seq [4; 3]) (Seq [2%Z; 3%Z]) [Some 0; Some 10] = Ok (x2d, y2d, xmid, ymid) /\
  cell x2d 1 2 = 3 /\ cell y2d 1 2 = 12 + / 2.
Proof.
  destruct (C29_grid2d 4 3 2 3 0 10) as (x & y & xm & ym & E & _ & _ & _ & _ & H); [lia|lia|].
  exists x, y, xm, ym. split; [exact E|].
  destruct (H 1%nat 2%nat) as (H1 & H2 & _); [lia|lia|]. rewrite H1, H2. cbn [INR]. lra.
Qed.

(** ** C30: the equal-area polar grid *)

(** Ring [i] holds [base (2i+1)] consecutive points, at indices
    [base i^2 + j], at the mid radius of the ring and the mid angle of the
    [j]-th of that many equal sectors; there are [polarEA_npix] points. *)
Theorem C30_polarEA_points : forall nr rmax base, (1 <= nr)%nat -> (1 <= base)%nat ->
  exists r p, polarEA_grid (Z.of_nat nr) rmax (Z.of_nat base) = Ok (r, p) /\
    Z.of_nat (length r) = polarEA_npix (Z.of_nat nr) (Z.of_nat base) /\
    length r = (base * (nr * nr))%nat /\ length p = length r /\
    forall i j, (i < nr)%nat -> (j < base * (2 * i + 1))%nat ->
      nth (base * (i * i) + j) r 0 = (INR i + / 2) * (rmax / INR nr) /\
      nth (base * (i * i) + j) p 0 = (INR j + / 2) * (2 * PI / INR (base * (2 * i + 1))).
Proof.
  intros nr rmax base Hn Hb. destruct (polarEA_spec nr rmax base Hn Hb) as (r & p & E & A & B & C).
  exists r, p. split; [exact E|]. split; [exact A|]. split; [|split; assumption].
  unfold polarEA_npix in A. nia.
Qed.
Print Assumptions C30_polarEA_points.

(** Every cell (the sector between the ring's edges, of the angular width of
    one pixel) has the area [polarEA_area] — as an integral in polar
    coordinates — and the cells fill the disc. *)
Theorem C30_polarEA_equal_area : forall nr rmax base, (1 <= nr)%nat -> (1 <= base)%nat ->
  exists area, polarEA_area (Z.of_nat nr) rmax (Z.of_nat base) = Ok area /\
    (forall i, (i < nr)%nat ->
       is_RInt (fun r => 2 * PI / INR (base * (2 * i + 1)) * r)
               (INR i * (rmax / INR nr)) (INR (S i) * (rmax / INR nr)) area) /\
    IZR (polarEA_npix (Z.of_nat nr) (Z.of_nat base)) * area = PI * rmax ^ 2.
Proof.
  intros nr rmax base Hn Hb. unfold polarEA_area.
  destruct (Z.eqb_spec (Z.of_nat nr) 0) as [|_]; [lia|].
  destruct (Z.eqb_spec (Z.of_nat base) 0) as [|_]; [lia|].
  rewrite <- !INR_IZR_INZ.
  assert (0 < INR nr) by (apply lt_0_INR; lia). assert (0 < INR base) by (apply lt_0_INR; lia).
  eexists. split; [reflexivity|]. split.
  - intros i Hi. replace (PI * (rmax / INR nr) ^ 2 / INR base)
      with (((INR (S i) * (rmax / INR nr)) ^ 2 - (INR i * (rmax / INR nr)) ^ 2) / 2
            * (2 * PI / INR (base * (2 * i + 1)))).
    + apply sector_RInt.
    + pose proof (pos_INR i). rewrite S_INR, !mult_INR, plus_INR, mult_INR. cbn [INR].
      field. repeat split; lra.
  - unfold polarEA_npix. replace (Z.of_nat nr ^ 2)%Z with (Z.of_nat nr * Z.of_nat nr)%Z by ring.
    rewrite !mult_IZR, <- !INR_IZR_INZ.
    field. split; lra.
Qed.
Print Assumptions C30_polarEA_equal_area.

(** No rings: the concatenation fails; division by a zero count too. *)
Theorem C30_polarEA_errors :
  (forall nr rmax base, (nr <= 0)%Z -> polarEA_grid nr rmax base = Err ValueError) /\
  (forall rmax base, polarEA_area 0 rmax base = Err ZeroDivisionError) /\
  (forall nr rmax, polarEA_area nr rmax 0 = Err ZeroDivisionError).
Proof.
  split; [|split].
  - intros nr rmax base H. unfold polarEA_grid, get_xedges, linspaceZ.
    destruct (nr + 1 <? 0)%Z; [reflexivity|]. cbn [bind].
    unfold py_range at 2. replace (Z.to_nat nr) with 0%nat by lia. reflexivity.
  - reflexivity.
  - intros nr rmax. unfold polarEA_area. destruct (nr =? 0)%Z; reflexivity.
Qed.
Print Assumptions C30_polarEA_errors.

(** A base count that is not positive: no points for zero; a negative one is
    refused, except -1 with a single ring, which gives no points. *)
Theorem C30_polarEA_base : forall nr rmax base, (1 <= nr)%Z -> (base <= 0)%Z ->
  (base = 0%Z \/ (base = -1)%Z /\ nr = 1%Z -> polarEA_grid nr rmax base = Ok ([], [])) /\
  (base <> 0%Z -> ~ ((base = -1)%Z /\ nr = 1%Z) -> polarEA_grid nr rmax base = Err ValueError).
Proof.
  intros nr rmax base Hn Hb.
  assert (Z0 : forall l, concat (map (fun _ : Z => @nil R) l) = []).
  { intros l. induction l as [|z t IH]; [reflexivity|exact IH]. }
  assert (NE : exists t, py_range nr = 0%Z :: t).
  { unfold py_range. replace (Z.to_nat nr) with (S (Z.to_nat (nr - 1))) by lia. eexists. reflexivity. }
  destruct NE as [t NE].
  assert (IN : forall z, In z (py_range nr) -> (0 <= z < nr)%Z).
  { intros z Hz. unfold py_range in Hz. apply in_map_iff in Hz. destruct Hz as (i & <- & Hi). apply in_seq in Hi. lia. }
  assert (RE : exists re, get_xedges rmax nr None = Ok re).
  { unfold get_xedges, linspaceZ. destruct (Z.ltb_spec (nr + 1) 0); [lia|]. eexists. reflexivity. }
  destruct RE as [re RE].
  assert (RS : mapM (fun i => mapM (fun _ => py_get (xedges2mid re) i) (py_range (base * (2 * i + 1)))) (py_range nr)
               = Ok (map (fun _ => []) (py_range nr))).
  { apply mapM_ok. intros z Hz. specialize (IN z Hz). unfold py_range at 1.
    replace (Z.to_nat (base * (2 * z + 1))) with 0%nat by nia. reflexivity. }
  unfold polarEA_grid. rewrite RE. cbn [bind]. rewrite RS. cbn [bind].
  assert (CC : np_concatenate (map (fun _ : Z => @nil R) (py_range nr)) = Ok []).
  { unfold np_concatenate. rewrite NE. cbn [map]. f_equal. exact (Z0 (0%Z :: t)). }
  rewrite CC. cbn [bind]. split.
  - intros H.
    assert (PS : mapM (fun i => e <- get_xedges (2 * PI) (base * (2 * i + 1)) None ;; Ok (xedges2mid e)) (py_range nr)
                 = Ok (map (fun _ => []) (py_range nr))).
    { apply mapM_ok. intros z Hz. specialize (IN z Hz). unfold get_xedges, linspaceZ.
      assert (V : (base * (2 * z + 1) = 0 \/ base * (2 * z + 1) = -1)%Z).
      { destruct H as [-> | [-> ->]]; [left; lia|right; lia]. }
      destruct V as [-> | ->]; reflexivity. }
    rewrite PS. cbn [bind]. rewrite CC. reflexivity.
  - intros H0 H1.
    assert (PS : forall l k, (forall z, In z l -> (0 <= z)%Z) -> In k l -> (base * (2 * k + 1) + 1 < 0)%Z ->
                 mapM (fun i => e <- get_xedges (2 * PI) (base * (2 * i + 1)) None ;; Ok (xedges2mid e)) l = Err ValueError).
    { intros l k. induction l as [|a l IH]; intros Hp Hk Hlt; [destruct Hk|]. cbn [mapM]. unfold get_xedges at 1, linspaceZ at 1.
      destruct (Z.ltb_spec (base * (2 * a + 1) + 1) 0) as [|HG]; [reflexivity|]. cbn [bind].
      rewrite IH; [reflexivity| |destruct Hk as [-> |Hk]; [lia|exact Hk]|exact Hlt]. intros z Hz. apply Hp. now right. }
    rewrite (PS _ (nr - 1)%Z); [reflexivity| | |].
    + intros z Hz. specialize (IN z Hz). lia.
    + unfold py_range. apply in_map_iff. exists (Z.to_nat (nr - 1)). split; [lia|]. apply in_seq. lia.
    + assert (base <= -1)%Z by lia. destruct (Z.eq_dec base (-1)); [|nia].
      assert (nr <> 1)%Z by (intros ->; apply H1; auto). nia.
Qed.
Print Assumptions C30_polarEA_base.

Example C30_example : exists r p, polarEA_grid 3 6 4 = Ok (r, p) /\ length r = 36%nat /\
  nth (4 * (1 * 1) + 2) r 0 = 3 /\ nth (4 * (1 * 1) + 2) p 0 = 5 * PI / 12.
Proof.
  destruct (C30_polarEA_points 3 6 4) as (r & p & E & _ & L & _ & H); [lia|lia|].
  exists r, p. split; [exact E|]. split; [exact L|].
  destruct (H 1%nat 2%nat) as [H1 H2]; [lia|lia|]. rewrite H1, H2. cbn [INR Nat.mul Nat.add].
  split; [lra|field].
Qed.

(** ** C31: polar areas *)

(** Cell [(i, j)] (angle [i], radius [j]) gets the area of the sector between
    its radii with the opening of the {e first} angular bin. *)
Theorem C31_area2d : forall redges pedges, (2 <= length pedges)%nat ->
  exists a, get_polar_area2d redges pedges = Ok a /\
    shape2 a (length pedges - 1) (length redges - 1) /\
    forall i j, (S i < length pedges)%nat -> (S j < length redges)%nat ->
      is_RInt (fun r => (nth 1 pedges 0 - nth 0 pedges 0) * r) (nth j redges 0) (nth (S j) redges 0) (cell a i j) /\
      cell a i j = (nth (S j) redges 0 ^ 2 - nth j redges 0 ^ 2) / 2 * (nth 1 pedges 0 - nth 0 pedges 0).
Proof.
  intros redges pedges Hp. destruct (area2d_spec redges pedges Hp) as (a & E & S & C).
  exists a. split; [exact E|]. split; [exact S|]. intros i j Hi Hj. rewrite C by assumption.
  split; [apply sector_RInt|reflexivity].
Qed.
Print Assumptions C31_area2d.

(** With equal angular bins the cells add up to the whole sector. *)
Theorem C31_area2d_total : forall redges pedges p0 dp n a,
  (1 <= n)%nat -> uniform_edges pedges p0 dp n -> (1 <= length redges)%nat ->
  get_polar_area2d redges pedges = Ok a ->
  total a = (nth (length redges - 1) redges 0 ^ 2 - nth 0 redges 0 ^ 2) / 2
            * (nth n pedges 0 - nth 0 pedges 0).
Proof.
  intros redges pedges p0 dp n a Hn [HL HE] Hr E.
  rewrite (area2d_total redges pedges a) by (lia || assumption).
  rewrite HL. replace (S n - 1)%nat with n by lia. rewrite !HE by lia. cbn [INR]. field.
Qed.
Print Assumptions C31_area2d_total.

(** With unequal angular bins they do not. *)
Theorem C31_area2d_unequal_refuted : exists redges pedges a,
  get_polar_area2d redges pedges = Ok a /\
  (forall i j, (i < j < length pedges)%nat -> nth i pedges 0 < nth j pedges 0) /\
  total a <> (nth (length redges - 1) redges 0 ^ 2 - nth 0 redges 0 ^ 2) / 2
             * (nth (length pedges - 1) pedges 0 - nth 0 pedges 0).
Proof.
  exists [0; 1], [0; 1; 3]. destruct (area2d_spec [0; 1] [0; 1; 3]) as (a & E & _); [cbn; lia|].
  exists a. split; [exact E|]. split.
  - intros [|[|[|i]]] [|[|[|j]]] H; cbn in *; try lia; lra.
  - rewrite (area2d_total [0; 1] [0; 1; 3] a) by (cbn; lia || exact E). cbn. lra.
Qed.
Print Assumptions C31_area2d_unequal_refuted.

Theorem C31_area2d_short : forall redges pedges, (length pedges < 2)%nat ->
  get_polar_area2d redges pedges = Err IndexError.
Proof. exact area2d_short. Qed.
Print Assumptions C31_area2d_short.

(** The cartesian pixel area, for equal bins the [nx*ny]-th part of the box. *)
Theorem C31_pixarea : forall xe ye x0 hx nx y0 hy ny,
  uniform_edges xe x0 hx nx -> uniform_edges ye y0 hy ny -> (1 <= nx)%nat -> (1 <= ny)%nat ->
  exists a, get_pixarea xe ye = Ok a /\
    INR nx * INR ny * a = (nth nx xe 0 - nth 0 xe 0) * (nth ny ye 0 - nth 0 ye 0).
Proof.
  intros xe ye x0 hx nx y0 hy ny Ux Uy H1 H2. exists (hx * hy).
  split; [exact (pixarea_uniform _ _ _ _ _ _ _ _ Ux Uy H1 H2)|].
  destruct Ux as [_ Ux], Uy as [_ Uy]. rewrite !Ux, !Uy by lia. cbn [INR]. ring.
Qed.
Print Assumptions C31_pixarea.

(** [polargrid] points are the midpoints of its radial and angular bins. *)
Theorem C31_polargrid : forall nr nphi rmin rmax phimin phimax, (1 <= nr)%nat -> (1 <= nphi)%nat ->
  rmin < rmax -> phimin < phimax ->
  exists r2d p2d rmid pmid,
    polargrid (Z.of_nat nr) (Z.of_nat nphi) rmin rmax phimin phimax = Ok (r2d, p2d, rmid, pmid) /\
    shape2 r2d nr nphi /\ shape2 p2d nr nphi /\ length rmid = nr /\ length pmid = nphi /\
    forall i j, (i < nr)%nat -> (j < nphi)%nat ->
      let dr := (rmax - rmin) / INR nr in
      let dp := (phimax - phimin) / INR nphi in
      rmin + INR i * dr < cell r2d i j < rmin + INR (S i) * dr /\
      phimin + INR j * dp < cell p2d i j < phimin + INR (S j) * dp /\
      cell r2d i j = rmin + (INR i + / 2) * dr /\ cell p2d i j = phimin + (INR j + / 2) * dp /\
      nth i rmid 0 = cell r2d i j /\ nth j pmid 0 = cell p2d i j.
Proof.
  intros nr nphi rmin rmax phimin phimax H1 H2 H3 H4. unfold polargrid.
  destruct (C29_grid2d (rmax - rmin) (phimax - phimin) nr nphi rmin phimin H1 H2)
    as (a & b & c & d & E & S1 & S2 & L1 & L2 & H).
  exists a, b, c, d. split; [exact E|]. repeat (split; [assumption|]).
  intros i j Hi Hj. destruct (H i j Hi Hj) as (A & B & C & D). cbv zeta.
  assert (0 < (rmax - rmin) / INR nr) by (apply Rdiv_lt_0_compat; [lra|apply lt_0_INR; lia]).
  assert (0 < (phimax - phimin) / INR nphi) by (apply Rdiv_lt_0_compat; [lra|apply lt_0_INR; lia]).
  rewrite !S_INR. split; [rewrite A; nra|]. split; [rewrite B; nra|]. auto.
Qed.
Print Assumptions C31_polargrid.

Example C31_example : uniform_edges [0; 1; 2; 3] 0 1 3 /\
  exists a, get_polar_area2d [1; 2] [0; 1; 2; 3] = Ok a /\ total a = 9 / 2.
Proof.
  assert (U : uniform_edges [0; 1; 2; 3] 0 1 3).
  { split; [reflexivity|]. intros [|[|[|[|i]]]] Hi; cbn; try lra; lia. }
  split; [exact U|]. destruct (C31_area2d [1; 2] [0; 1; 2; 3]) as (a & E & _); [cbn; lia|].
  exists a. split; [exact E|].
  assert (L : (1 <= @length R [1%R; 2%R])%nat) by (cbn; lia). assert (N : (1 <= 3)%nat) by lia.
  rewrite (C31_area2d_total _ _ _ _ _ _ N U L E). cbn. lra.
Qed.

(** ** C45: azimuthal averages *)

(** Without weights: the plain mean of the ring, within its range. *)
Theorem C45_plain_mean : forall n c f area2d pixarea sigma j lo hi,
  shape2 f n c -> (1 <= n)%nat -> (j < c)%nat -> within lo hi (column f j) ->
  let fr := fst (polar2radial c f area2d pixarea sigma None) in
  length fr = c /\
  exists m, nth j fr None = Some m /\ m = Rsum (column f j) / INR n /\ lo <= m <= hi.
Proof.
  intros n c f area2d pixarea sigma j lo hi Hf Hn Hj HW. cbv zeta.
  split; [apply p2r_length|]. eexists. split; [apply (p2r_plain n c f Hf); assumption|].
  split; [reflexivity|]. pose proof (Rsum_within _ _ _ HW) as B. rewrite length_column, (proj1 Hf) in B.
  assert (0 < INR n) by (apply lt_0_INR; lia).
  split; [apply Rle_div_r|apply Rle_div_l]; lra.
Qed.
Print Assumptions C45_plain_mean.

(** With non-negative weights: the weighted mean of the ring, within its
    range; not a number exactly when the weights of the ring sum to zero. *)
Theorem C45_weighted_mean : forall n c f w area2d pixarea sigma j lo hi,
  shape2 f n c -> shape2 w n c -> (j < c)%nat -> within lo hi (column f j) ->
  (forall x, In x (column w j) -> 0 <= x) ->
  let fr := fst (polar2radial c f area2d pixarea sigma (Some w)) in
  length fr = c /\
  (nth j fr None = None <-> Rsum (column w j) = 0) /\
  (Rsum (column w j) <> 0 ->
   exists m, nth j fr None = Some m /\
     m = Rsum (map2 Rmult (column f j) (column w j)) / Rsum (column w j) /\ lo <= m <= hi).
Proof.
  intros n c f w area2d pixarea sigma j lo hi Hf Hw Hj HW Hpos. cbv zeta.
  split; [apply p2r_length|]. rewrite (p2r_weighted n c f Hf) by assumption. unfold fdiv.
  destruct (Req_bool_spec (Rsum (column w j)) 0) as [E|E].
  - split; [tauto|]. intros; contradiction.
  - split; [split; [discriminate|contradiction]|]. intros _. eexists. split; [reflexivity|].
    split; [reflexivity|].
    assert (L : length (column f j) = length (column w j)).
    { rewrite !length_column. destruct Hf, Hw. congruence. }
    pose proof (wsum_within _ _ _ _ L HW Hpos). pose proof (Rsum_nonneg_in _ Hpos).
    split; [apply Rle_div_r|apply Rle_div_l]; lra.
Qed.
Print Assumptions C45_weighted_mean.

(** Constant maps are reproduced, whatever the weights. *)
Theorem C45_constant : forall n c f w area2d pixarea sigma j a,
  shape2 f n c -> shape2 w n c -> (1 <= n)%nat -> (j < c)%nat -> (forall x, In x (column f j) -> x = a) ->
  nth j (fst (polar2radial c f area2d pixarea sigma None)) None = Some a /\
  (Rsum (column w j) <> 0 ->
   nth j (fst (polar2radial c f area2d pixarea sigma (Some w))) None = Some a).
Proof.
  intros n c f w area2d pixarea sigma j a Hf Hw Hn Hj Ha. split.
  - assert (W : within a a (column f j)) by (intros x Hx; rewrite (Ha x Hx); lra).
    destruct (C45_plain_mean n c f area2d pixarea sigma j a a Hf Hn Hj W) as (_ & m & E & _ & B).
    rewrite E. f_equal. lra.
  - intros E. rewrite (p2r_weighted n c f Hf) by assumption. unfold fdiv.
    destruct (Req_bool_spec (Rsum (column w j)) 0) as [|_]; [contradiction|]. f_equal.
    assert (X : Rsum (map2 Rmult (column f j) (column w j)) = a * Rsum (column w j)).
    { assert (L : length (column f j) = length (column w j)).
      { rewrite !length_column. destruct Hf, Hw. congruence. }
      clear E. revert L Ha. generalize (column f j) (column w j). intros l.
      induction l as [|x l IH]; intros [|y m] L Ha; cbn in L; try lia; [cbn; ring|].
      cbn [map2]. unfold Rsum in *; cbn [fold_right].
      rewrite IH by (lia || (intros; apply Ha; now right)). rewrite (Ha x) by now left. ring. }
    rewrite X. field. exact E.
Qed.
Print Assumptions C45_constant.

(** Errors: present exactly when [sigma] is given, non-negative, the
    pixel-corrected standard error of the (weighted) mean. *)
Theorem C45_sigma : forall n c f area2d pixarea sigma w j,
  shape2 f n c -> shape2 area2d n c -> shape2 sigma n c -> (1 <= n)%nat -> (j < c)%nat ->
  0 <= pixarea -> (forall a, In a (column area2d j) -> 0 < a) ->
  snd (polar2radial c f area2d pixarea None w) = None /\
  (exists s v, snd (polar2radial c f area2d pixarea (Some sigma) None) = Some s /\ length s = c /\
     nth j s None = Some v /\ 0 <= v /\
     v = sqrt (Rsum (map2 (fun a x => pixarea / a * x ^ 2) (column area2d j) (column sigma j))) / INR n) /\
  (forall ww, w = Some ww -> shape2 ww n c -> Rsum (column ww j) <> 0 ->
   exists s v, snd (polar2radial c f area2d pixarea (Some sigma) w) = Some s /\ length s = c /\
     nth j s None = Some v /\ 0 <= v /\
     v = sqrt (Rsum (map2 (fun a x => pixarea / a * x ^ 2) (column area2d j)
                       (map2 Rmult (column ww j) (column sigma j)))) / Rabs (Rsum (column ww j))).
Proof.
  intros n c f area2d pixarea sigma w j Hf Ha Hs Hn Hj Hp Hpos.
  split; [destruct w; reflexivity|]. split.
  - destruct (p2r_sigma_plain n c f Hf area2d pixarea sigma j Hn Hj Ha Hs Hp Hpos) as (s & E & L & N).
    do 2 eexists. split; [exact E|]. split; [exact L|]. split; [exact N|]. split; [|reflexivity].
    apply Rmult_le_pos; [apply sqrt_pos|]. left. apply Rinv_0_lt_compat, lt_0_INR. lia.
  - intros ww -> Hw Hsw.
    destruct (p2r_sigma_weighted n c f area2d pixarea sigma ww j Hj Ha Hs Hw Hp Hpos Hsw) as (s & E & L & N).
    do 2 eexists. split; [exact E|]. split; [exact L|]. split; [exact N|]. split; [|reflexivity].
    apply Rmult_le_pos; [apply sqrt_pos|]. left. apply Rinv_0_lt_compat, Rabs_pos_lt, Hsw.
Qed.
Print Assumptions C45_sigma.

(** Scaling the noise map scales the errors. *)
Theorem C45_sigma_scale : forall n c f area2d pixarea sigma sigma' k j,
  shape2 f n c -> shape2 area2d n c -> shape2 sigma n c -> shape2 sigma' n c ->
  (1 <= n)%nat -> (j < c)%nat -> 0 <= pixarea -> (forall a, In a (column area2d j) -> 0 < a) ->
  column sigma' j = map (fun x => k * x) (column sigma j) ->
  exists s s' v, snd (polar2radial c f area2d pixarea (Some sigma) None) = Some s /\
    snd (polar2radial c f area2d pixarea (Some sigma') None) = Some s' /\
    nth j s None = Some v /\ nth j s' None = Some (Rabs k * v).
Proof.
  intros n c f area2d pixarea sigma sigma' k j Hf Ha Hs Hs' Hn Hj Hp Hpos Hk.
  destruct (p2r_sigma_plain n c f Hf area2d pixarea sigma j Hn Hj Ha Hs Hp Hpos) as (s & E & _ & N).
  destruct (p2r_sigma_plain n c f Hf area2d pixarea sigma' j Hn Hj Ha Hs' Hp Hpos) as (s' & E' & _ & N').
  do 3 eexists. split; [exact E|]. split; [exact E'|]. split; [exact N|].
  rewrite N', Hk, var_scale. f_equal.
  rewrite sqrt_mult_alt by apply pow2_ge_0.
  replace (k ^ 2) with (Rsqr k) by (unfold Rsqr; ring). rewrite sqrt_Rsqr_abs. unfold Rdiv. ring.
Qed.
Print Assumptions C45_sigma_scale.

Theorem C45_sigma_scale_weighted : forall n c f area2d pixarea sigma sigma' w k j,
  shape2 f n c -> shape2 area2d n c -> shape2 sigma n c -> shape2 sigma' n c -> shape2 w n c ->
  (j < c)%nat -> 0 <= pixarea -> (forall a, In a (column area2d j) -> 0 < a) -> Rsum (column w j) <> 0 ->
  column sigma' j = map (fun x => k * x) (column sigma j) ->
  exists s s' v, snd (polar2radial c f area2d pixarea (Some sigma) (Some w)) = Some s /\
    snd (polar2radial c f area2d pixarea (Some sigma') (Some w)) = Some s' /\
    nth j s None = Some v /\ nth j s' None = Some (Rabs k * v).
Proof.
  intros n c f area2d pixarea sigma sigma' w k j Hf Ha Hs Hs' Hw Hj Hp Hpos Hsw Hk.
  destruct (p2r_sigma_weighted n c f area2d pixarea sigma w j Hj Ha Hs Hw Hp Hpos Hsw) as (s & E & _ & N).
  destruct (p2r_sigma_weighted n c f area2d pixarea sigma' w j Hj Ha Hs' Hw Hp Hpos Hsw) as (s' & E' & _ & N').
  do 3 eexists. split; [exact E|]. split; [exact E'|]. split; [exact N|].
  rewrite N', Hk.
  assert (X : forall l m, map2 Rmult l (map (fun x => k * x) m) = map (fun x => k * x) (map2 Rmult l m)).
  { induction l as [|a l IH]; intros [|b m]; cbn; try reflexivity. rewrite IH. f_equal. ring. }
  rewrite X, var_scale. f_equal. rewrite sqrt_mult_alt by apply pow2_ge_0.
  replace (k ^ 2) with (Rsqr k) by (unfold Rsqr; ring). rewrite sqrt_Rsqr_abs. unfold Rdiv. ring.
Qed.
Print Assumptions C45_sigma_scale_weighted.

Example C45_example :
  polar2radial 2 [[1; 2]; [3; 4]] [[1; 1]; [1; 1]] 1 None (Some [[1; 0]; [3; 0]])
  = ([Some (5 / 2); None], None).
Proof.
  assert (F : shape2 [[1; 2]; [3; 4]] 2 2) by (split; [reflexivity|intros [|[|i]] Hi; cbn in *; reflexivity || lia]).
  assert (W : shape2 [[1; 0]; [3; 0]] 2 2) by (split; [reflexivity|intros [|[|i]] Hi; cbn in *; reflexivity || lia]).
  pose proof (p2r_weighted 2 2 _ F [[1; 1]; [1; 1]] 1 None [[1; 0]; [3; 0]] 0 W ltac:(lia)) as A.
  pose proof (p2r_weighted 2 2 _ F [[1; 1]; [1; 1]] 1 None [[1; 0]; [3; 0]] 1 W ltac:(lia)) as B.
  cbn [polar2radial fst option_map] in A, B. unfold polar2radial. cbn [option_map].
  apply f_equal2; [|reflexivity].
  set (l := map2 ndiv _ _) in *.
  assert (L : length l = 2%nat) by reflexivity.
  destruct l as [|x [|y [|z l]]]; try discriminate L. cbn [nth] in A, B. rewrite A, B.
  unfold fdiv. cbn. rewrite (Req_bool_false (1 + (3 + 0)) 0) by lra.
  rewrite (Req_bool_true (0 + (0 + 0)) 0) by lra. do 2 f_equal. lra.
Qed.

(** ** C46: cumulative profiles *)

(** The [k]-th value is the sum over the first [k] annuli of area times
    profile; one value per edge, the first is zero. *)
Theorem C46_cumulative : forall redges f m, length redges = S m -> length f = m ->
  exists o, cumulative_radial redges f None = Ok (o, None) /\ length o = length redges /\ nth 0 o 0 = 0 /\
    forall k, (k <= m)%nat -> nth k o 0 =
      Rsum (map (fun i => PI * (nth (S i) redges 0 ^ 2 - nth i redges 0 ^ 2) * nth i f 0) (seq 0 k)).
Proof.
  intros redges f m HE HF. destruct (cumulative_spec redges f m None HE HF I) as (o & so & E & L & N & ->).
  exists o. split; [exact E|]. split; [congruence|]. split; [|exact N]. rewrite N by lia. reflexivity.
Qed.
Print Assumptions C46_cumulative.

(** Non-negative profiles on increasing non-negative radii accumulate
    monotonically. *)
Theorem C46_monotone : forall redges f m o, length redges = S m -> length f = m ->
  (forall i, (i < m)%nat -> 0 <= nth i redges 0 <= nth (S i) redges 0) ->
  (forall i, (i < m)%nat -> 0 <= nth i f 0) ->
  cumulative_radial redges f None = Ok (o, None) ->
  forall k, (k < m)%nat -> nth k o 0 <= nth (S k) o 0.
Proof.
  intros redges f m o HE HF Hr Hf E k Hk.
  destruct (cumulative_spec redges f m None HE HF I) as (o' & so & E' & L & N & ->).
  rewrite E in E'. apply Ok_inj in E'. injection E' as <-.
  rewrite !N by lia. rewrite annuli_S.
  specialize (Hr k Hk). specialize (Hf k Hk). pose proof PI_pos.
  assert (0 <= PI * (nth (S k) redges 0 ^ 2 - nth k redges 0 ^ 2) * nth k f 0); [|lra].
  apply Rmult_le_pos; [|exact Hf]. apply Rmult_le_pos; [lra|]. nra.
Qed.
Print Assumptions C46_monotone.

(** A constant profile gives the area of the annulus up to each edge. *)
Theorem C46_constant : forall redges f m a, length redges = S m -> length f = m ->
  (forall i, (i < m)%nat -> nth i f 0 = a) ->
  exists o, cumulative_radial redges f None = Ok (o, None) /\
    forall k, (k <= m)%nat -> nth k o 0 = a * (PI * (nth k redges 0 ^ 2 - nth 0 redges 0 ^ 2)).
Proof.
  intros redges f m a HE HF Ha. destruct (cumulative_spec redges f m None HE HF I) as (o & so & E & L & N & ->).
  exists o. split; [exact E|]. intros k Hk. rewrite N by exact Hk.
  rewrite (annuli_const redges f a m Ha k Hk). ring.
Qed.
Print Assumptions C46_constant.

(** Errors add in quadrature. *)
Theorem C46_sigma : forall redges f s m, length redges = S m -> length f = m -> length s = m ->
  exists o e, cumulative_radial redges f (Some s) = Ok (o, Some e) /\
    cumulative_radial redges f None = Ok (o, None) /\ length e = length redges /\
    nth 0 e None = Some 0 /\
    forall k, (k <= m)%nat -> nth k e None = Some (sqrt (Rsum (map (fun i =>
       (PI * (nth (S i) redges 0 ^ 2 - nth i redges 0 ^ 2) * nth i s 0) ^ 2) (seq 0 k)))).
Proof.
  intros redges f s m HE HF HS.
  destruct (cumulative_spec redges f m (Some s) HE HF HS) as (o & so & E & L & N & e & -> & Le & Ne).
  exists o, e. split; [exact E|]. split.
  - revert E. unfold cumulative_radial.
    repeat match goal with |- context [bind ?r _] => destruct r; cbn [bind]; try discriminate end.
    intros E. apply Ok_inj in E. congruence.
  - split; [congruence|]. split; [|exact Ne]. rewrite Ne by lia. cbn. f_equal. apply sqrt_0.
Qed.
Print Assumptions C46_sigma.

(** Profiles of the wrong length are refused, except for numpy's broadcasting
    of length-one arrays. *)
Theorem C46_mismatch : forall redges f sigma, length f <> (length redges - 1)%nat ->
  length f <> 1%nat -> cumulative_radial redges f sigma = Err ValueError.
Proof. exact cumulative_mismatch. Qed.
Print Assumptions C46_mismatch.

(** A profile of length one is spread over all annuli. *)
Theorem C46_broadcast : forall redges a m, length redges = S m -> (1 <= m)%nat ->
  cumulative_radial redges [a] None = cumulative_radial redges (repeat a m) None.
Proof.
  intros redges a m HE Hm. unfold cumulative_radial. set (area := map2 _ _ _).
  assert (LA : length area = m) by (unfold area; rewrite map2_length, length_tl, length_removelast; lia).
  assert (B : bmul area [a] = bmul area (repeat a m)); [|now rewrite B].
  unfold bmul at 2. rewrite repeat_length, LA, Nat.eqb_refl.
  assert (R : map2 Rmult area (repeat a m) = map (fun x => x * a) area).
  { rewrite <- LA. clear. induction area; cbn; congruence. }
  rewrite R. unfold bmul. cbn [length]. destruct (Nat.eqb_spec (length area) 1) as [E|E].
  - destruct area as [|x [|y area]]; cbn [length] in *; try lia. reflexivity.
  - destruct area as [|x [|y area]]; cbn [length] in *; try lia. reflexivity.
Qed.
Print Assumptions C46_broadcast.

Example C46_example : exists o, cumulative_radial [0; 1; 3] [5; 2] None = Ok (o, None) /\ nth 2 o 0 = 21 * PI.
Proof.
  destruct (C46_cumulative [0; 1; 3] [5; 2] 2) as (o & E & _ & _ & H); [reflexivity|reflexivity|].
  exists o. split; [exact E|]. rewrite H by lia. cbn. lra.
Qed.
