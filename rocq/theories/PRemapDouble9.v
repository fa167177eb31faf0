(** * Lemmas: exact cases of the two- and three-dimensional remapping in binary64 *)

From Coq Require Import Reals ZArith List Bool Lia Lra Psatz.
From Flocq Require Import Core IEEE754.BinarySingleNaN.
From Verif Require Import Base BaseP MHealpixFloat PHealpixFloat SpecDouble SpecGrid SpecRemap SpecRemapDouble SpecRemapDouble2 MDouble PDouble MGrids MGridsDouble PGridsDouble PSumDouble PRemap PRemap2
  MRemap MRemapDouble MRemapDouble2 PRemapDouble PRemapDouble2 PRemapDouble3 PRemapDouble4 PRemapDouble5 PRemapDouble6 PRemapDouble7.
Import ListNotations.
Open Scope R_scope.

Local Existing Instance p53.

Definition inrange (N : nat) (pw : Z * double) : Prop := (0 <= fst pw < Z.of_nat N)%Z.
Definition nul (N : nat) (pw : Z * double) : Prop := fst pw = (-1)%Z \/ (fin (snd pw) /\ val (snd pw) = 0 /\ (0 <= fst pw < Z.of_nat N)%Z).
Definition full (N p : nat) (pw : Z * double) : Prop := fst pw = Z.of_nat p /\ (p < N)%nat /\ fin (snd pw) /\ val (snd pw) = 1.

(** One entry of weight one at [p], the others null. *)
Definition sharp (N p : nat) (bd : buffers_d) : Prop := exists b1 pw b2', bd = b1 ++ pw :: b2' /\ (forall q, In q b1 -> nul N q) /\ (forall q, In q b2' -> nul N q) /\ full N p pw.

Lemma sharp_value : forall (f1 : list double) oob p bd, (forall x, In x f1 -> fin x) -> sharp (length f1) p bd ->
  fin (accumulate_d f1 oob bd) /\ val (accumulate_d f1 oob bd) = val (nth p f1 dzero).
Proof.
  intros f1 oob p bd Hf (b1 & [q w] & b2' & -> & H1 & H2 & (E & Hp & Fw & Vw)). cbn [fst snd] in *. subst q.
  pose proof (unit_fold f1 oob Hf b1 (Z.of_nat p) w b2' H1 H2) as V. rewrite Nat2Z.id in V. apply V; try assumption. lia.
Qed.

Lemma sharp_in : forall N p bd, sharp N p bd -> forall pw, In pw bd -> (fst pw = (-1)%Z \/ (fin (snd pw) /\ 0 <= val (snd pw) <= 1 /\ (0 <= fst pw < Z.of_nat N)%Z)).
Proof.
  intros N p bd (b1 & x & b2' & -> & H1 & H2 & (E & Hp & Fw & Vw)) pw Hin. apply in_app_or in Hin. destruct Hin as [Hin|[<- |Hin]].
  - destruct (H1 pw Hin) as [H|(A & B & C)]; [left; exact H|right]. split; [exact A|]. split; [lra|exact C].
  - right. split; [exact Fw|]. split; [lra|lia].
  - destruct (H2 pw Hin) as [H|(A & B & C)]; [left; exact H|right]. split; [exact A|]. split; [lra|exact C].
Qed.

Definition times (Ny : nat) (x y : Z * double) : Z * double := (pix2 (Z.of_nat Ny) (fst x) (fst y), dmul (snd x) (snd y)).

Lemma times_in : forall Ny xb yb x y, In x xb -> In y yb -> In (times Ny x y) (entries_2d_d (Z.of_nat Ny) xb yb).
Proof.
  intros Ny xb yb x y Hx Hy. rewrite entries_2d_d_prod. apply in_map_iff. exists (x, y). split; [reflexivity|]. apply in_prod_iff. auto.
Qed.

Lemma mul_0 : forall a b : double, fin a -> fin b -> val a * val b = 0 -> fin (dmul a b) /\ val (dmul a b) = 0.
Proof.
  intros a b Fa Fb E. destruct (dmul_ok a b Fa Fb) as [F V]; [rewrite E, (fl_fmt _ fmt_0), Rabs_R0; apply bpow_gt_0|]. rewrite E, (fl_fmt _ fmt_0) in V. auto.
Qed.

Lemma pix_range : forall Nx Ny x y, (0 <= x < Z.of_nat Nx)%Z -> (0 <= y < Z.of_nat Ny)%Z -> pix2 (Z.of_nat Ny) x y = (y + Z.of_nat Ny * x)%Z /\ (0 <= y + Z.of_nat Ny * x < Z.of_nat (Nx * Ny))%Z.
Proof.
  intros Nx Ny x y Hx Hy. unfold pix2. replace (x =? -1)%Z with false by (symmetry; apply Z.eqb_neq; lia). replace (y =? -1)%Z with false by (symmetry; apply Z.eqb_neq; lia). cbn [negb andb].
  split; [reflexivity|]. rewrite Nat2Z.inj_mul. nia.
Qed.
Lemma pix_none : forall Ny x y, x = (-1)%Z \/ y = (-1)%Z -> pix2 (Z.of_nat Ny) x y = (-1)%Z.
Proof. intros Ny x y H. unfold pix2. destruct H as [-> | ->]; [reflexivity|]. rewrite andb_false_r. reflexivity. Qed.

Lemma nul_times : forall Nx Ny x y, nul Nx x -> (fst y = (-1)%Z \/ (fin (snd y) /\ 0 <= val (snd y) <= 1 /\ (0 <= fst y < Z.of_nat Ny)%Z)) -> nul (Nx * Ny) (times Ny x y).
Proof.
  intros Nx Ny [xp xw] [yp yw] [Hx|(Fx & Vx & Rx)] Hy; cbn [fst snd] in *; [left; apply pix_none; now left|]. destruct Hy as [Hy|(Fy & Vy & Ry)]; [left; apply pix_none; now right|].
  right. cbn [times fst snd]. destruct (pix_range Nx Ny xp yp Rx Ry) as [-> P]. destruct (mul_0 xw yw Fx Fy) as [A B]; [rewrite Vx; ring|]. auto.
Qed.
Lemma times_nul : forall Nx Ny p x y, full Nx p x -> nul Ny y -> nul (Nx * Ny) (times Ny x y).
Proof.
  intros Nx Ny p [xp xw] [yp yw] (Ex & Hp & Fx & Vx) [Hy|(Fy & Vy & Ry)]; cbn [fst snd] in *; [left; apply pix_none; now right|].
  right. cbn [times fst snd]. destruct (pix_range Nx Ny xp yp ltac:(lia) Ry) as [-> P]. destruct (mul_0 xw yw Fx Fy) as [A B]; [rewrite Vy; ring|]. auto.
Qed.
Lemma full_times : forall Nx Ny p q x y, full Nx p x -> full Ny q y -> full (Nx * Ny) (q + Ny * p) (times Ny x y).
Proof.
  intros Nx Ny p q [xp xw] [yp yw] (Ex & Hp & Fx & Vx) (Ey & Hq & Fy & Vy); cbn [fst snd] in *. unfold full. cbn [times fst snd]. destruct (pix_range Nx Ny xp yp ltac:(lia) ltac:(lia)) as [-> P].
  split; [lia|]. split; [nia|]. destruct (dmul_ok xw yw Fx Fy) as [A B]; [rewrite Vx, Vy, Rmult_1_l, (fl_fmt _ fmt_1), Rabs_R1; change 1 with (b2 0); apply bpow_lt; lia|].
  rewrite Vx, Vy, Rmult_1_l, (fl_fmt _ fmt_1) in B. auto.
Qed.

Lemma entries_one : forall Ny x yb, entries_2d_d (Z.of_nat Ny) [x] yb = map (times Ny x) yb.
Proof. intros Ny x yb. rewrite entries_2d_d_prod. cbn [list_prod]. rewrite app_nil_r, map_map. reflexivity. Qed.

Lemma sharp_product : forall Nx Ny p q xb yb, sharp Nx p xb -> sharp Ny q yb -> sharp (Nx * Ny) (q + Ny * p) (entries_2d_d (Z.of_nat Ny) xb yb).
Proof.
  intros Nx Ny p q xb yb HX HY. pose proof (sharp_in _ _ _ HY) as YI. destruct HX as (b1 & x & b2' & -> & H1 & H2 & HF).
  assert (NB : forall b, (forall z, In z b -> nul Nx z) -> forall z, In z (entries_2d_d (Z.of_nat Ny) b yb) -> nul (Nx * Ny) z).
  { intros b Hb z Hz. rewrite entries_2d_d_prod in Hz. apply in_map_iff in Hz. destruct Hz as ((xx, yy) & <- & Hxy). apply in_prod_iff in Hxy. destruct Hxy as [A B]. apply (nul_times Nx Ny xx yy); auto. }
  destruct HY as (c1 & y & c2 & EY & K1 & K2 & KF).
  exists (entries_2d_d (Z.of_nat Ny) b1 yb ++ map (times Ny x) c1), (times Ny x y), (map (times Ny x) c2 ++ entries_2d_d (Z.of_nat Ny) b2' yb). split; [|split; [|split]].
  - rewrite entries_2d_app. change (x :: b2') with ([x] ++ b2'). rewrite entries_2d_app, entries_one. rewrite EY at 2. rewrite map_app. cbn [map]. rewrite <- !app_assoc. reflexivity.
  - intros z Hz. apply in_app_or in Hz. destruct Hz as [Hz|Hz]; [apply (NB b1 H1 z Hz)|]. apply in_map_iff in Hz. destruct Hz as (yy & <- & Hyy). apply (times_nul Nx Ny p); auto.
  - intros z Hz. apply in_app_or in Hz. destruct Hz as [Hz|Hz]; [|apply (NB b2' H2 z Hz)]. apply in_map_iff in Hz. destruct Hz as (yy & <- & Hyy). apply (times_nul Nx Ny p); auto.
  - now apply full_times.
Qed.

(** A null weight on a value that is not finite. *)
Lemma spoiled_value : forall (f1 : list double) oob p w bd, In (Z.of_nat p, w) bd -> (p < length f1)%nat -> fin w -> val w = 0 -> ~ fin (nth p f1 dzero) ->
  accumulate_d f1 oob bd = @B754_nan 53 1024.
Proof.
  intros f1 oob p w bd Hin Hp Fw Vw Hx. apply in_split in Hin. destruct Hin as (b1 & b2' & ->). unfold accumulate_d. rewrite fold_left_app. cbn [fold_left fst snd].
  replace (Z.of_nat p =? -1)%Z with false by (symmetry; apply Z.eqb_neq; lia). cbn [negb]. rewrite (read_in f1 oob (Z.of_nat p)) by lia. rewrite Nat2Z.id.
  assert (E : forall x : double, ~ fin x -> dmul w x = @B754_nan 53 1024).
  { intros x Nx. destruct w as [s|s| |s m e H]; try discriminate Fw.
    - destruct x as [s'|s'| |s' m e H]; try reflexivity; exfalso; apply Nx; reflexivity.
    - exfalso. cbn in Vw. assert (Z.pos m <> 0)%Z by discriminate. apply eq_0_F2R in Vw. destruct s; discriminate Vw. }
  rewrite (E _ Hx), dadd_nan. apply nan_fold.
Qed.

(** ** One axis *)

Lemma axis_inside : forall X s1 s2 k p b, moderate X -> line_within X s1 -> line_within X s2 -> line_inside X s1 s2 k p ->
  sharp (lcells s1) p (bufd s1 s2 k b) /\ exists w, In (Z.of_nat p, w) (bufd s1 s2 k b) /\ fin w /\ val w = 1 /\ ((S p < lcells s1)%nat -> In (Z.of_nat (S p), dzero) (bufd s1 s2 k b)).
Proof.
  intros X [o1 B1 N] [o2 B2 m] k p b HX G1 G2 (Hk & Hp & H1 & H2). unfold line_within, bufd, axd, lend in *. cbn [lorg llen lcells] in *.
  destruct (inside_P X HX o1 B1 N o2 B2 m G1 G2 k p Hk Hp H1 H2) as [Q1 Q2]. rewrite (inside_buffers o1 B1 N o2 B2 m k p Hk Hp Q1 Q2).
  destruct (L_bounds X HX o1 B1 N o2 B2 m G1 G2) as (L2 & _). assert (L2' : (2 <= Z.to_nat (LZ o1 B1 N o2 B2 m))%nat) by (clear - L2; lia).
  destruct (inside_list (repeat dzero N) (ax o1 B1 N o2 B2 m) (Z.of_nat p) _ ltac:(rewrite repeat_length; reflexivity) ltac:(rewrite repeat_length; lia) L2') as (rest & E & Hr).
  rewrite E. unfold null in Hr. rewrite repeat_length in *. destruct one_ok as [O1 O2]. split.
  - exists [], (Z.of_nat p, dbl 1 0), ((if (Z.of_nat p + 1 <? Z.of_nat N)%Z then ((Z.of_nat p + 1)%Z, dzero) else ((-1)%Z, dzero)) :: rest). split; [reflexivity|]. split; [intros q []|]. split; [|repeat split; assumption].
    intros q [<- |Hq]; [|exact (Hr q Hq)]. destruct (Z.ltb_spec (Z.of_nat p + 1) (Z.of_nat N)); [right; cbn [fst snd]; split; [apply fin_zero|split; [apply val_zero|lia]]|left; reflexivity].
  - exists (dbl 1 0). split; [left; reflexivity|]. split; [exact O1|]. split; [exact O2|]. intros HS. right. left.
    replace (Z.of_nat p + 1 <? Z.of_nat N)%Z with true by (symmetry; apply Z.ltb_lt; lia). f_equal. lia.
Qed.

Lemma axis_same : forall X s k b, moderate X -> line_within X s -> (k < lcells s)%nat -> sharp (lcells s) k (bufd s s k b).
Proof.
  intros X [o B N] k bd HX G0 Hk. unfold line_within, bufd, axd, lend in *. cbn [lorg llen lcells] in *.
  set (f1 := repeat (dzero : double) N). assert (EN : length f1 = N) by apply repeat_length.
  assert (G : good X o B (length f1)) by (rewrite EN; exact G0). assert (Hk' : (k < length f1)%nat) by (rewrite EN; exact Hk).
  pose proof (same_L X HX o B f1 G k Hk') as L3. pose proof (same_P X HX o B f1 G k Hk') as ((H1 & H2) & H3).
  pose proof (off_entry X HX o B f1 G k Hk') as OFF. pose proof (on_entry X HX o B f1 G k Hk') as ON. rewrite EN in *. clear G Hk'. clearbody f1.
  destruct (Z.eq_dec (P1 o B N o B N k) (P2 o B N o B N k)) as [E|NE].
  - assert (E1 : P1 o B N o B N k = Z.of_nat k) by lia. assert (E2 : P2 o B N o B N k = Z.of_nat k) by lia.
    rewrite (inside_buffers o B N o B N k k Hk Hk E1 E2).
    destruct (inside_list f1 (ax o B N o B N) (Z.of_nat k) (Z.to_nat (LZ o B N o B N)) ltac:(rewrite EN; reflexivity) ltac:(rewrite EN; lia) ltac:(rewrite L3; cbn; lia)) as (rest & EL & Hr).
    rewrite EL. unfold null in Hr. rewrite EN in *. destruct one_ok as [O1 O2].
    exists [], (Z.of_nat k, dbl 1 0), ((if (Z.of_nat k + 1 <? Z.of_nat N)%Z then ((Z.of_nat k + 1)%Z, dzero) else ((-1)%Z, dzero)) :: rest). split; [reflexivity|]. split; [intros q []|]. split; [|repeat split; assumption].
    intros q [<- |Hq]; [|exact (Hr q Hq)]. destruct (Z.ltb_spec (Z.of_nat k + 1) (Z.of_nat N)); [right; cbn [fst snd]; split; [apply fin_zero|split; [apply val_zero|lia]]|left; reflexivity].
  - set (a := edge_d o B N k) in *. set (b := edge_d o B N (S k)) in *.
    assert (EQ : remap_pixel_d (ax o B N o B N) (Z.of_nat k) (Z.to_nat (LZ o B N o B N)) bd = map (entry_several_d (ax o B N o B N) a b (P1 o B N o B N k)) (seq 0 3)).
    { rewrite L3. unfold remap_pixel_d. replace (Z.of_nat k + 1)%Z with (Z.of_nat (S k)) by lia. cbv zeta.
      change (dadd (a2min (ax o B N o B N)) (dmul (dx2_d (ax o B N o B N)) (real4 (Z.of_nat k)))) with a. change (dadd (a2min (ax o B N o B N)) (dmul (dx2_d (ax o B N o B N)) (real4 (Z.of_nat (S k))))) with b.
      change (which_pix_d (a1min (ax o B N o B N)) (dx1_d (ax o B N o B N)) a) with (P1 o B N o B N k). change (which_pix_d (a1min (ax o B N o B N)) (dx1_d (ax o B N o B N)) b) with (P2 o B N o B N k).
      replace (P1 o B N o B N k =? P2 o B N o B N k)%Z with false by (symmetry; apply Z.eqb_neq; exact NE). reflexivity. }
    rewrite EQ. cbn [seq map]. set (p := P1 o B N o B N k) in *. clearbody p. clear EQ NE.
    destruct (Z.eq_dec p (Z.of_nat k)) as [E|NE].
    + destruct (ON p 0%nat ltac:(lia)) as (w & Ew & Fw & Vw). rewrite Ew. rewrite (OFF p 1%nat (S k)), (OFF p 2%nat (S (S k))) by lia.
      exists [], (Z.of_nat k, w), [((-1)%Z, dzero); ((-1)%Z, dzero)]. split; [reflexivity|]. split; [intros q []|]. split; [intros q [<- |[<- |[]]]; left; reflexivity|]. repeat split; assumption.
    + destruct (ON p 1%nat ltac:(lia)) as (w & Ew & Fw & Vw). rewrite Ew. rewrite (OFF p 2%nat (S k)) by lia.
      assert (E0 : entry_several_d (ax o B N o B N) a b p 0 = ((-1)%Z, dzero)).
      { destruct (Nat.eq_dec k 0) as [K0|K0]; [|apply (OFF p 0%nat (k - 1)%nat); lia]. unfold entry_several_d. cbv zeta. replace (0 <=? p + Z.of_nat 0)%Z with false by (symmetry; apply Z.leb_gt; lia). reflexivity. }
      rewrite E0. exists [((-1)%Z, dzero)], (Z.of_nat k, w), [((-1)%Z, dzero)]. split; [reflexivity|]. split; [intros q [<- |[]]; left; reflexivity|]. split; [intros q [<- |[]]; left; reflexivity|]. repeat split; assumption.
Qed.

Lemma sharp_range : forall N p bd, sharp N p bd -> forall pw, In pw bd -> (fst pw = -1 \/ 0 <= fst pw < Z.of_nat N)%Z.
Proof. intros N p bd H pw Hin. destruct (sharp_in N p bd H pw Hin) as [E|(_ & _ & E)]; [now left|now right]. Qed.

(** The entry of a neighbour, or of the cell itself. *)
Lemma axis_neighbour : forall X s1 s2 k p b a, moderate X -> line_within X s1 -> line_within X s2 -> line_inside X s1 s2 k p -> (a <= 1)%nat -> (p + a < lcells s1)%nat ->
  exists w, In (Z.of_nat (p + a), w) (bufd s1 s2 k b) /\ fin w /\ (a = 0%nat -> val w = 1) /\ (a = 1%nat -> val w = 0).
Proof.
  intros X s1 s2 k p b a HX G1 G2 HI Ha Hp. destruct (axis_inside X s1 s2 k p b HX G1 G2 HI) as (_ & w & I1 & F & V & I2).
  destruct a as [|[|a]]; [|..|lia].
  - exists w. rewrite Nat.add_0_r. split; [exact I1|]. split; [exact F|]. split; [intros _; exact V|discriminate].
  - exists dzero. replace (p + 1)%nat with (S p) in * by lia. split; [apply I2; exact Hp|]. split; [apply fin_zero|]. split; [discriminate|intros _; apply val_zero].
Qed.
