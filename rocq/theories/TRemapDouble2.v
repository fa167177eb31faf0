(** * Two- and three-dimensional grid remapping in double precision (C89) *)

From Coq Require Import Reals ZArith List Bool Lia Lra Psatz.
From Flocq Require Import Core IEEE754.BinarySingleNaN.
From Verif Require Import Base BaseP MHealpixFloat PHealpixFloat SpecDouble SpecGrid SpecRemap SpecRemapDouble SpecRemapDouble2 MDouble PDouble MGrids MGridsDouble PGridsDouble PSumDouble PRemap PRemap2
  MRemap MRemapDouble MRemapDouble2 PRemapDouble PRemapDouble2 PRemapDouble3 PRemapDouble4 PRemapDouble5 PRemapDouble6 PRemapDouble7 PRemapDouble8 PRemapDouble9 TRemapDouble.
Import ListNotations.
Open Scope R_scope.

Local Existing Instance p53.

(** Every output cell is finite and close to the exact average, for all contents
    of the local arrays. *)
Theorem C89_remap2 : forall X Y M oob memx memy (f1 : list (list double)) x1 y1 x2 y2 boxsize ngridout origin originout boxsizeout,
  moderate X -> moderate Y -> moderate M -> line_within X x1 -> line_within X x2 -> line_within Y y1 -> line_within Y y2 ->
  call2 x1 y1 x2 y2 boxsize ngridout origin originout boxsizeout ->
  array2 f1 (lcells x1) (lcells y1) -> (forall row, In row f1 -> values_within M row) ->
  exists f2, grid2grid2D_d oob memx memy f1 boxsize ngridout origin originout boxsizeout = Ok f2 /\ array2 f2 (lcells x2) (lcells y2) /\
  forall k l, (k < lcells x2)%nat -> (l < lcells y2)%nat -> line_clear X x1 x2 k -> line_clear Y y1 y2 l ->
    fin (nth l (nth k f2 []) dzero) /\
    Rabs (val (nth l (nth k f2 []) dzero) - average2 (exact_side x1) (exact_side y1) (map (map val) f1) (exact_side x2) (exact_side y2) k l)
      <= b2 (-45) * (in_cells X x1 x2 + in_cells Y y1 y2 + met x1 x2 * met y1 y2) * M.
Proof.
  intros X Y M oob memx memy f1 x1 y1 x2 y2 boxsize ngridout origin originout boxsizeout HX HY HM GX1 GX2 GY1 GY2 HC HA HV.
  assert (N1 : (1 <= lcells x1)%nat) by apply GX1.
  destruct (grid2_cells oob memx memy f1 x1 y1 x2 y2 boxsize ngridout origin originout boxsizeout HC HA N1) as (f2 & E & S2 & V).
  exists f2. split; [exact E|]. split; [exact S2|]. intros k l Hk Hl Cx Cy. destruct (V k l Hk Hl) as (b & b' & ->). apply value2; assumption.
Qed.
Print Assumptions C89_remap2.

(** The same in three dimensions, unless an output cell meets more than [2^42]
    source cells. *)
Theorem C89_remap3 : forall X Y V M oob memx memy memz (f1 : list (list (list double))) x1 y1 z1 x2 y2 z2 boxsize n origin originout boxsizeout,
  moderate X -> moderate Y -> moderate V -> moderate M ->
  line_within X x1 -> line_within X x2 -> line_within Y y1 -> line_within Y y2 -> line_within V z1 -> line_within V z2 ->
  met x1 x2 * met y1 y2 * met z1 z2 <= b2 42 ->
  call3 x1 y1 z1 x2 y2 z2 boxsize n origin originout boxsizeout ->
  array3 f1 (lcells x1) (lcells y1) (lcells z1) -> (forall slab row, In slab f1 -> In row slab -> values_within M row) ->
  exists f2, grid2grid3D_d oob memx memy memz f1 boxsize (Sca (Z.of_nat n)) origin originout boxsizeout = Ok f2 /\ array3 f2 n n n /\
  forall k l m, (k < n)%nat -> (l < n)%nat -> (m < n)%nat -> line_clear X x1 x2 k -> line_clear Y y1 y2 l -> line_clear V z1 z2 m ->
    fin (nth m (nth l (nth k f2 []) []) dzero) /\
    Rabs (val (nth m (nth l (nth k f2 []) []) dzero)
        - average3 (exact_side x1) (exact_side y1) (exact_side z1) (map (map (map val)) f1) (exact_side x2) (exact_side y2) (exact_side z2) k l m)
      <= b2 (-45) * (in_cells X x1 x2 + in_cells Y y1 y2 + in_cells V z1 z2 + met x1 x2 * met y1 y2 * met z1 z2) * M.
Proof.
  intros X Y V M oob memx memy memz f1 x1 y1 z1 x2 y2 z2 boxsize n origin originout boxsizeout HX HY HZ HM GX1 GX2 GY1 GY2 GZ1 GZ2 H42 HC HA HV.
  assert (N1 : (1 <= lcells x1)%nat) by apply GX1. assert (N2 : (1 <= lcells y1)%nat) by apply GY1.
  destruct (grid3_cells oob memx memy memz f1 x1 y1 z1 x2 y2 z2 boxsize n origin originout boxsizeout HC HA N1 N2) as (f2 & E & S2 & W).
  exists f2. split; [exact E|]. split; [exact S2|]. intros k l m Hk Hl Hm Cx Cy Cz. destruct (W k l m Hk Hl Hm) as (b & b' & b'' & ->).
  destruct HC as (_ & _ & _ & Nx & Ny & Nz & _). apply value3; try assumption; congruence.
Qed.
Print Assumptions C89_remap3.

Lemma flat2 : forall (f1 : list (list double)) n c p q, array2 f1 n c -> (p < n)%nat -> (q < c)%nat ->
  length (concat f1) = (n * c)%nat /\ nth (q + c * p) (concat f1) dzero = nth q (nth p f1 []) dzero.
Proof.
  intros f1 n c p q [HL HR] Hp Hq. split; [rewrite (concat_rows f1 c HR), HL; reflexivity|]. apply nth_rows; [exact HR|rewrite HL; exact Hp|exact Hq].
Qed.
Lemma flat3 : forall (f1 : list (list (list double))) n c d p q r, array3 f1 n c d -> (p < n)%nat -> (q < c)%nat -> (r < d)%nat ->
  length (concat (concat f1)) = (n * c * d)%nat /\ nth (r + d * (q + c * p)) (concat (concat f1)) dzero = nth r (nth q (nth p f1 []) []) dzero.
Proof.
  intros f1 n c d p q r HA Hp Hq Hr. pose proof (array3_rows _ _ _ _ _ HA) as A2. destruct (flat2 (concat f1) (n * c) d (q + c * p) r A2 ltac:(nia) Hr) as [E1 E2]. split; [exact E1|].
  rewrite E2. destruct HA as [HL HS]. rewrite (nth_rows f1 c p q [] (fun slab Hs => proj1 (HS slab Hs))) by (try exact Hq; rewrite HL; exact Hp). reflexivity.
Qed.
Lemma finite2 : forall (f1 : list (list double)), (forall row x, In row f1 -> In x row -> fin x) -> forall x, In x (concat f1) -> fin x.
Proof. intros f1 H x Hx. apply in_concat in Hx. destruct Hx as (row & Hr & Hx). exact (H row x Hr Hx). Qed.
Lemma finite3 : forall (f1 : list (list (list double))), (forall slab row x, In slab f1 -> In row slab -> In x row -> fin x) -> forall x, In x (concat (concat f1)) -> fin x.
Proof. intros f1 H x Hx. apply in_concat in Hx. destruct Hx as (row & Hr & Hx). apply in_concat in Hr. destruct Hr as (slab & Hs & Hr). exact (H slab row x Hs Hr Hx). Qed.

(** Resampling on the same grid returns the same values, exactly. *)
Theorem C89_identity2 : forall X Y oob memx memy (f1 : list (list double)) x y boxsize ngridout origin originout boxsizeout,
  moderate X -> moderate Y -> line_within X x -> line_within Y y -> call2 x y x y boxsize ngridout origin originout boxsizeout ->
  array2 f1 (lcells x) (lcells y) -> (forall row v, In row f1 -> In v row -> fin v) ->
  exists f2, grid2grid2D_d oob memx memy f1 boxsize ngridout origin originout boxsizeout = Ok f2 /\ array2 f2 (lcells x) (lcells y) /\
  forall k l, (k < lcells x)%nat -> (l < lcells y)%nat -> fin (nth l (nth k f2 []) dzero) /\ val (nth l (nth k f2 []) dzero) = val (nth l (nth k f1 []) dzero).
Proof.
  intros X Y oob memx memy f1 x y boxsize ngridout origin originout boxsizeout HX HY GX GY HC HA HF. assert (N1 : (1 <= lcells x)%nat) by apply GX.
  destruct (grid2_cells oob memx memy f1 x y x y boxsize ngridout origin originout boxsizeout HC HA N1) as (f2 & E & S2 & V).
  exists f2. split; [exact E|]. split; [exact S2|]. intros k l Hk Hl. destruct (V k l Hk Hl) as (b & b' & ->). destruct (flat2 f1 _ _ k l HA Hk Hl) as [L <-].
  apply sharp_value; [exact (finite2 f1 HF)|]. rewrite L. apply sharp_product; [apply (axis_same X)|apply (axis_same Y)]; assumption.
Qed.
Print Assumptions C89_identity2.

Theorem C89_identity3 : forall X Y V oob memx memy memz (f1 : list (list (list double))) x y z boxsize n origin originout boxsizeout,
  moderate X -> moderate Y -> moderate V -> line_within X x -> line_within Y y -> line_within V z -> call3 x y z x y z boxsize n origin originout boxsizeout ->
  array3 f1 n n n -> (forall slab row v, In slab f1 -> In row slab -> In v row -> fin v) ->
  exists f2, grid2grid3D_d oob memx memy memz f1 boxsize (Sca (Z.of_nat n)) origin originout boxsizeout = Ok f2 /\ array3 f2 n n n /\
  forall k l m, (k < n)%nat -> (l < n)%nat -> (m < n)%nat ->
    fin (nth m (nth l (nth k f2 []) []) dzero) /\ val (nth m (nth l (nth k f2 []) []) dzero) = val (nth m (nth l (nth k f1 []) []) dzero).
Proof.
  intros X Y V oob memx memy memz f1 x y z boxsize n origin originout boxsizeout HX HY HZ GX GY GZ HC HA HF. assert (N1 : (1 <= lcells x)%nat) by apply GX. assert (N2 : (1 <= lcells y)%nat) by apply GY.
  pose proof HC as (_ & _ & _ & Nx & Ny & Nz & _).
  assert (HA' : array3 f1 (lcells x) (lcells y) (lcells z)) by (rewrite Nx, Ny, Nz; exact HA).
  destruct (grid3_cells oob memx memy memz f1 x y z x y z boxsize n origin originout boxsizeout HC HA' N1 N2) as (f2 & E & S2 & W).
  exists f2. split; [exact E|]. split; [exact S2|]. intros k l m Hk Hl Hm. destruct (W k l m Hk Hl Hm) as (b & b' & b'' & ->).
  rewrite <- Nx in Hk. rewrite <- Ny in Hl. rewrite <- Nz in Hm.
  destruct (flat3 f1 _ _ _ k l m HA' Hk Hl Hm) as [L <-]. pose proof (axis_same X x k b HX GX Hk) as SX. pose proof (axis_same Y y l b' HY GY Hl) as SY. pose proof (axis_same V z m b'' HZ GZ Hm) as SZ.
  rewrite (entries_3d_twice (lcells x) (lcells y)) by (intros pw Hpw; first [exact (sharp_range _ _ _ SX pw Hpw)|exact (sharp_range _ _ _ SY pw Hpw)]).
  apply sharp_value; [exact (finite3 f1 HF)|]. rewrite L. apply sharp_product; [apply sharp_product|]; assumption.
Qed.
Print Assumptions C89_identity3.

(** An output cell inside one source cell takes its value, exactly, when all
    values are finite... *)
Theorem C89_inside2 : forall X Y oob memx memy (f1 : list (list double)) x1 y1 x2 y2 boxsize ngridout origin originout boxsizeout k l p q,
  moderate X -> moderate Y -> line_within X x1 -> line_within X x2 -> line_within Y y1 -> line_within Y y2 ->
  call2 x1 y1 x2 y2 boxsize ngridout origin originout boxsizeout -> array2 f1 (lcells x1) (lcells y1) -> (forall row v, In row f1 -> In v row -> fin v) ->
  line_inside X x1 x2 k p -> line_inside Y y1 y2 l q ->
  exists f2, grid2grid2D_d oob memx memy f1 boxsize ngridout origin originout boxsizeout = Ok f2 /\
    fin (nth l (nth k f2 []) dzero) /\ val (nth l (nth k f2 []) dzero) = val (nth q (nth p f1 []) dzero).
Proof.
  intros X Y oob memx memy f1 x1 y1 x2 y2 boxsize ngridout origin originout boxsizeout k l p q HX HY GX1 GX2 GY1 GY2 HC HA HF IX IY. assert (N1 : (1 <= lcells x1)%nat) by apply GX1.
  destruct (grid2_cells oob memx memy f1 x1 y1 x2 y2 boxsize ngridout origin originout boxsizeout HC HA N1) as (f2 & E & _ & W).
  exists f2. split; [exact E|]. pose proof IX as (Hk & Hp & _). pose proof IY as (Hl & Hq & _). destruct (W k l Hk Hl) as (b & b' & ->). destruct (flat2 f1 _ _ p q HA Hp Hq) as [L <-].
  apply sharp_value; [exact (finite2 f1 HF)|]. rewrite L. apply sharp_product; [apply (axis_inside X)|apply (axis_inside Y)]; assumption.
Qed.
Print Assumptions C89_inside2.

Theorem C89_inside3 : forall X Y V oob memx memy memz (f1 : list (list (list double))) x1 y1 z1 x2 y2 z2 boxsize n origin originout boxsizeout k l m p q r,
  moderate X -> moderate Y -> moderate V -> line_within X x1 -> line_within X x2 -> line_within Y y1 -> line_within Y y2 -> line_within V z1 -> line_within V z2 ->
  call3 x1 y1 z1 x2 y2 z2 boxsize n origin originout boxsizeout -> array3 f1 (lcells x1) (lcells y1) (lcells z1) ->
  (forall slab row v, In slab f1 -> In row slab -> In v row -> fin v) ->
  line_inside X x1 x2 k p -> line_inside Y y1 y2 l q -> line_inside V z1 z2 m r ->
  exists f2, grid2grid3D_d oob memx memy memz f1 boxsize (Sca (Z.of_nat n)) origin originout boxsizeout = Ok f2 /\
    fin (nth m (nth l (nth k f2 []) []) dzero) /\ val (nth m (nth l (nth k f2 []) []) dzero) = val (nth r (nth q (nth p f1 []) []) dzero).
Proof.
  intros X Y V oob memx memy memz f1 x1 y1 z1 x2 y2 z2 boxsize n origin originout boxsizeout k l m p q r HX HY HZ GX1 GX2 GY1 GY2 GZ1 GZ2 HC HA HF IX IY IZ.
  assert (N1 : (1 <= lcells x1)%nat) by apply GX1. assert (N2 : (1 <= lcells y1)%nat) by apply GY1.
  destruct (grid3_cells oob memx memy memz f1 x1 y1 z1 x2 y2 z2 boxsize n origin originout boxsizeout HC HA N1 N2) as (f2 & E & _ & W).
  exists f2. split; [exact E|]. destruct HC as (_ & _ & _ & Nx & Ny & Nz & _). pose proof IX as (Hk & Hp & _). pose proof IY as (Hl & Hq & _). pose proof IZ as (Hm & Hr & _).
  destruct (W k l m) as (b & b' & b'' & ->); [congruence..|]. destruct (flat3 f1 _ _ _ p q r HA Hp Hq Hr) as [L <-].
  destruct (axis_inside X x1 x2 k p b HX GX1 GX2 IX) as [SX _]. destruct (axis_inside Y y1 y2 l q b' HY GY1 GY2 IY) as [SY _]. destruct (axis_inside V z1 z2 m r b'' HZ GZ1 GZ2 IZ) as [SZ _].
  rewrite (entries_3d_twice (lcells x1) (lcells y1)) by (intros pw Hpw; first [exact (sharp_range _ _ _ SX pw Hpw)|exact (sharp_range _ _ _ SY pw Hpw)]).
  apply sharp_value; [exact (finite3 f1 HF)|]. rewrite L. apply sharp_product; [apply sharp_product|]; assumption.
Qed.
Print Assumptions C89_inside3.

(** ... but is NaN whenever one of the following source cells is not finite. *)
Theorem C89_nan2 : forall X Y oob memx memy (f1 : list (list double)) x1 y1 x2 y2 boxsize ngridout origin originout boxsizeout k l p q a b,
  moderate X -> moderate Y -> line_within X x1 -> line_within X x2 -> line_within Y y1 -> line_within Y y2 ->
  call2 x1 y1 x2 y2 boxsize ngridout origin originout boxsizeout -> array2 f1 (lcells x1) (lcells y1) ->
  line_inside X x1 x2 k p -> line_inside Y y1 y2 l q ->
  (a <= 1)%nat -> (b <= 1)%nat -> (1 <= a + b)%nat -> (p + a < lcells x1)%nat -> (q + b < lcells y1)%nat -> ~ fin (nth (q + b) (nth (p + a) f1 []) dzero) ->
  exists f2, grid2grid2D_d oob memx memy f1 boxsize ngridout origin originout boxsizeout = Ok f2 /\ nth l (nth k f2 []) dzero = B754_nan.
Proof.
  intros X Y oob memx memy f1 x1 y1 x2 y2 boxsize ngridout origin originout boxsizeout k l p q a b HX HY GX1 GX2 GY1 GY2 HC HA IX IY Ha Hb Hab Hpa Hqb HN. assert (N1 : (1 <= lcells x1)%nat) by apply GX1.
  destruct (grid2_cells oob memx memy f1 x1 y1 x2 y2 boxsize ngridout origin originout boxsizeout HC HA N1) as (f2 & E & _ & W).
  exists f2. split; [exact E|]. pose proof IX as (Hk & Hp & _). pose proof IY as (Hl & Hq & _). destruct (W k l Hk Hl) as (c & c' & ->). destruct (flat2 f1 _ _ (p + a) (q + b) HA Hpa Hqb) as [L EN].
  destruct (axis_neighbour X x1 x2 k p c a HX GX1 GX2 IX Ha Hpa) as (w & I1 & F1 & V1 & V1'). destruct (axis_neighbour Y y1 y2 l q c' b HY GY1 GY2 IY Hb Hqb) as (v & I2 & F2 & V2 & V2').
  destruct (mul_0 w v F1 F2) as [FM VM].
  { assert (C : a = 1%nat \/ b = 1%nat) by lia. destruct C as [C|C]; [rewrite (V1' C)|rewrite (V2' C)]; ring. }
  pose proof (times_in (lcells y1) _ _ _ _ I1 I2) as IM. unfold times in IM. cbn [fst snd] in IM.
  destruct (pix_range (lcells x1) (lcells y1) (Z.of_nat (p + a)) (Z.of_nat (q + b)) ltac:(lia) ltac:(lia)) as [PE _]. rewrite PE in IM.
  replace (Z.of_nat (q + b) + Z.of_nat (lcells y1) * Z.of_nat (p + a))%Z with (Z.of_nat (q + b + lcells y1 * (p + a))) in IM by lia.
  apply (spoiled_value (concat f1) oob _ _ _ IM); [rewrite L; nia|exact FM|exact VM|rewrite EN; exact HN].
Qed.
Print Assumptions C89_nan2.

Theorem C89_nan3 : forall X Y V oob memx memy memz (f1 : list (list (list double))) x1 y1 z1 x2 y2 z2 boxsize n origin originout boxsizeout k l m p q r a b c,
  moderate X -> moderate Y -> moderate V -> line_within X x1 -> line_within X x2 -> line_within Y y1 -> line_within Y y2 -> line_within V z1 -> line_within V z2 ->
  call3 x1 y1 z1 x2 y2 z2 boxsize n origin originout boxsizeout -> array3 f1 (lcells x1) (lcells y1) (lcells z1) ->
  line_inside X x1 x2 k p -> line_inside Y y1 y2 l q -> line_inside V z1 z2 m r ->
  (a <= 1)%nat -> (b <= 1)%nat -> (c <= 1)%nat -> (1 <= a + b + c)%nat -> (p + a < lcells x1)%nat -> (q + b < lcells y1)%nat -> (r + c < lcells z1)%nat ->
  ~ fin (nth (r + c) (nth (q + b) (nth (p + a) f1 []) []) dzero) ->
  exists f2, grid2grid3D_d oob memx memy memz f1 boxsize (Sca (Z.of_nat n)) origin originout boxsizeout = Ok f2 /\ nth m (nth l (nth k f2 []) []) dzero = B754_nan.
Proof.
  intros X Y V oob memx memy memz f1 x1 y1 z1 x2 y2 z2 boxsize n origin originout boxsizeout k l m p q r a b c HX HY HZ GX1 GX2 GY1 GY2 GZ1 GZ2 HC HA IX IY IZ Ha Hb Hc Habc Hpa Hqb Hrc HN.
  assert (N1 : (1 <= lcells x1)%nat) by apply GX1. assert (N2 : (1 <= lcells y1)%nat) by apply GY1.
  destruct (grid3_cells oob memx memy memz f1 x1 y1 z1 x2 y2 z2 boxsize n origin originout boxsizeout HC HA N1 N2) as (f2 & E & _ & W).
  exists f2. split; [exact E|]. destruct HC as (_ & _ & _ & Nx & Ny & Nz & _). pose proof IX as (Hk & Hp & _). pose proof IY as (Hl & Hq & _). pose proof IZ as (Hm & Hr & _).
  destruct (W k l m) as (d & d' & d'' & ->); [congruence..|]. destruct (flat3 f1 _ _ _ (p + a) (q + b) (r + c) HA Hpa Hqb Hrc) as [L EN].
  destruct (axis_inside X x1 x2 k p d HX GX1 GX2 IX) as [SX _]. destruct (axis_inside Y y1 y2 l q d' HY GY1 GY2 IY) as [SY _].
  rewrite (entries_3d_twice (lcells x1) (lcells y1)) by (intros pw Hpw; first [exact (sharp_range _ _ _ SX pw Hpw)|exact (sharp_range _ _ _ SY pw Hpw)]).
  destruct (axis_neighbour X x1 x2 k p d a HX GX1 GX2 IX Ha Hpa) as (w & I1 & F1 & V1 & V1'). destruct (axis_neighbour Y y1 y2 l q d' b HY GY1 GY2 IY Hb Hqb) as (v & I2 & F2 & V2 & V2').
  destruct (axis_neighbour V z1 z2 m r d'' c HZ GZ1 GZ2 IZ Hc Hrc) as (t & I3 & F3 & V3 & V3').
  assert (WB : forall (e : nat) x, (e <= 1)%nat -> (e = 0%nat -> val x = 1) -> (e = 1%nat -> val x = 0) -> 0 <= val x <= 1).
  { intros e x He A0 A1. assert (C : e = 0%nat \/ e = 1%nat) by lia. destruct C as [C|C]; [rewrite (A0 C)|rewrite (A1 C)]; lra. }
  destruct (weight_product w v F1 F2 (WB a w Ha V1 V1') (WB b v Hb V2 V2')) as (F12 & _).
  assert (V12 : val (dmul w v) * val t = 0).
  { destruct (Nat.eq_dec c 1) as [C|C]; [rewrite (V3' C); ring|]. destruct (mul_0 w v F1 F2) as [_ VM]; [|rewrite VM; ring].
    assert (C' : a = 1%nat \/ b = 1%nat) by lia. destruct C' as [C'|C']; [rewrite (V1' C')|rewrite (V2' C')]; ring. }
  destruct (mul_0 (dmul w v) t F12 F3 V12) as [FM VM].
  pose proof (times_in (lcells y1) _ _ _ _ I1 I2) as I12. unfold times in I12. cbn [fst snd] in I12.
  destruct (pix_range (lcells x1) (lcells y1) (Z.of_nat (p + a)) (Z.of_nat (q + b)) ltac:(lia) ltac:(lia)) as [PE PR]. rewrite PE in I12.
  replace (Z.of_nat (q + b) + Z.of_nat (lcells y1) * Z.of_nat (p + a))%Z with (Z.of_nat (q + b + lcells y1 * (p + a))) in * by lia.
  pose proof (times_in (lcells z1) _ _ _ _ I12 I3) as IM. unfold times in IM. cbn [fst snd] in IM.
  destruct (pix_range (lcells x1 * lcells y1) (lcells z1) (Z.of_nat (q + b + lcells y1 * (p + a))) (Z.of_nat (r + c)) PR ltac:(lia)) as [PE2 PR2]. rewrite PE2 in IM.
  replace (Z.of_nat (r + c) + Z.of_nat (lcells z1) * Z.of_nat (q + b + lcells y1 * (p + a)))%Z with (Z.of_nat (r + c + lcells z1 * (q + b + lcells y1 * (p + a)))) in * by lia.
  apply (spoiled_value (concat (concat f1)) oob _ _ _ IM); [rewrite L; lia|exact FM|exact VM|rewrite EN; exact HN].
Qed.
Print Assumptions C89_nan3.

(** Two by two cells on six by six: output cell (1, 4) is inside source cell (0, 1). *)
Definition coarse : line := Line (dint 0) (dint 2) 2.
Definition fine : line := Line (dint 0) (dint 2) 6.
Lemma coarse_fine : moderate 2 /\ line_within 2 coarse /\ line_within 2 fine.
Proof. destruct grids_ok as [G1 G2]. split; [split; change 2 with (b2 1); apply bpow_le; lia|]. split; assumption. Qed.

Lemma fine_inside : line_inside 2 coarse fine 1 0 /\ line_inside 2 coarse fine 4 1.
Proof.
  destruct (dint_ok 0) as [A1 A2]; [lia|]. destruct (dint_ok 2) as [C1 C2]; [lia|].
  assert (B48 : b2 (-48) <= / 1024) by (change (/ 1024) with (b2 (-10)); apply bpow_le; lia). pose proof (bpow_gt_0 radix2 (-48)) as P48.
  unfold line_inside, edge. cbn [coarse fine lorg llen lcells]. rewrite A2, C2. cbn [INR]. split; (split; [lia|split; [lia|split; lra]]).
Qed.

Example C89_example2 : forall oob memx memy, exists f2,
  grid2grid2D_d oob memx memy [[dint 3; dint 5]; [dint 7; dint 9]] (Sca (dint 2)) (Seq [6; 6]%Z) (Seq [dint 0; dint 0]) (Sca (dint 0)) None = Ok f2 /\
  array2 f2 6 6 /\ val (nth 4 (nth 1 f2 []) dzero) = 5 /\ forall k l, (k < 6)%nat -> (l < 6)%nat -> fin (nth l (nth k f2 []) dzero).
Proof.
  intros oob memx memy. destruct coarse_fine as (MX & G1 & G2). destruct fine_inside as [I1 I2].
  destruct (dint_ok 3) as [D1 D2]; [lia|]. destruct (dint_ok 5) as [E1 E2]; [lia|]. destruct (dint_ok 7) as [J1 J2]; [lia|]. destruct (dint_ok 9) as [K1 K2]; [lia|].
  assert (HC : call2 coarse coarse fine fine (Sca (dint 2)) (Seq [6; 6]%Z) (Seq [dint 0; dint 0]) (Sca (dint 0)) None).
  { split; [left; split; reflexivity|]. split; [right; exists []; reflexivity|]. split; [left; split; reflexivity|]. split; [right; exists []; reflexivity|]. split; reflexivity. }
  assert (HA : array2 [[dint 3; dint 5]; [dint 7; dint 9]] (lcells coarse) (lcells coarse)) by (split; [reflexivity|]; intros row [<- |[<- |[]]]; reflexivity).
  assert (MM : moderate 16) by (split; change 16 with (b2 4); apply bpow_le; lia).
  assert (HV : forall row, In row [[dint 3; dint 5]; [dint 7; dint 9]] -> values_within 16 row).
  { intros row [<- |[<- |[]]] x [<- |[<- |[]]]; [rewrite D2|rewrite E2|rewrite J2|rewrite K2]; (split; [assumption|rewrite Rabs_pos_eq; lra]). }
  destruct (C89_remap2 2 2 16 oob memx memy _ coarse coarse fine fine _ _ _ _ _ MX MX MM G1 G2 G1 G2 HC HA HV) as (f2 & R & S2 & W).
  exists f2. split; [exact R|]. split; [exact S2|]. split.
  - destruct (C89_inside2 2 2 oob memx memy _ coarse coarse fine fine _ _ _ _ _ 1 4 0 1 MX MX G1 G2 G1 G2 HC HA ltac:(intros row v Hr Hv; apply (HV row Hr v Hv)) I1 I2) as (f2' & R' & _ & V). rewrite R in R'. apply Ok_inj in R'. subst f2'. rewrite V. exact E2.
  - intros k l Hk Hl. destruct (W k l Hk Hl) as [F _]; [left; apply Rle_refl|left; apply Rle_refl|exact F].
Qed.

Example C89_example3 : forall oob memx memy memz x, ~ fin x -> exists f2,
  grid2grid3D_d oob memx memy memz [[[dint 3; dint 5]; [dint 7; dint 9]]; [[x; dint 5]; [dint 7; dint 9]]] (Sca (dint 2)) (Sca 6%Z) (Sca (dint 0)) (Sca (dint 0)) None = Ok f2 /\
  nth 1 (nth 1 (nth 1 f2 []) []) dzero = B754_nan.
Proof.
  intros oob memx memy memz x Hx. destruct coarse_fine as (MX & G1 & G2). destruct fine_inside as [I1 I2].
  assert (HC : call3 coarse coarse coarse fine fine fine (Sca (dint 2)) 6 (Sca (dint 0)) (Sca (dint 0)) None).
  { split; [left; repeat split; reflexivity|]. split; [left; repeat split; reflexivity|]. split; [left; repeat split; reflexivity|]. repeat split; reflexivity. }
  assert (HA : array3 [[[dint 3; dint 5]; [dint 7; dint 9]]; [[x; dint 5]; [dint 7; dint 9]]] (lcells coarse) (lcells coarse) (lcells coarse)).
  { split; [reflexivity|]. intros slab [<- |[<- |[]]]; (split; [reflexivity|]; intros row [<- |[<- |[]]]; reflexivity). }
  apply (C89_nan3 2 2 2 oob memx memy memz _ coarse coarse coarse fine fine fine (Sca (dint 2)) 6 (Sca (dint 0)) (Sca (dint 0)) None 1 1 1 0 0 0 1 0 0); try assumption; try (cbn; lia).
Qed.
