(** * Lemmas: exact cases of the grid remapping in binary64 *)

From Coq Require Import Reals ZArith List Bool Lia Lra Psatz.
From Flocq Require Import Core IEEE754.BinarySingleNaN.
From Verif Require Import Base BaseP MHealpixFloat PHealpixFloat SpecDouble SpecGrid SpecRemap SpecRemapDouble MDouble PDouble MGridsDouble PGridsDouble PSumDouble PRemap PRemap2
  MRemap MRemapDouble PRemapDouble PRemapDouble2 PRemapDouble3 PRemapDouble4.
Import ListNotations.
Open Scope R_scope.

Local Existing Instance p53.

Section Exact.
  Variables (f1 : list double) (oob : Z -> double).
  Notation N := (length f1).
  Notation step := (fun acc pw => if negb (fst pw =? -1)%Z then dadd acc (dmul (snd pw) (read_d f1 oob (fst pw))) else acc).

  Lemma val_small : forall x : double, Rabs (val x) < b2 1024. Proof. intros x. apply abs_B2R_lt_emax. Qed.

  Lemma read_in : forall p, (0 <= p < Z.of_nat N)%Z -> read_d f1 oob p = nth (Z.to_nat p) f1 dzero.
  Proof. intros p H. unfold read_d. replace ((0 <=? p) && (p <? Z.of_nat N))%Z with true by (symmetry; apply andb_true_intro; split; [apply Z.leb_le|apply Z.ltb_lt]; lia). reflexivity. Qed.

  Definition null (pw : Z * double) : Prop := fst pw = (-1)%Z \/ (fin (snd pw) /\ val (snd pw) = 0 /\ (0 <= fst pw < Z.of_nat N)%Z).

  Lemma null_fold : (forall x, In x f1 -> fin x) -> forall bd acc, (forall pw, In pw bd -> null pw) -> fin acc ->
    fin (fold_left step bd acc) /\ val (fold_left step bd acc) = val acc.
  Proof.
    intros Hf. induction bd as [|[p w] bd IH]; intros acc Hb Fa; [split; [exact Fa|reflexivity]|]. cbn [fold_left fst snd].
    assert (Hb' : forall pw, In pw bd -> null pw) by (intros pw H; apply Hb; now right).
    destruct (Z.eqb_spec p (-1)) as [E|NE]; cbn [negb]; [apply IH; assumption|].
    destruct (Hb (p, w) (or_introl eq_refl)) as [H|(Fw & Vw & R)]; cbn [fst snd] in *; [contradiction|].
    rewrite (read_in p R). set (x := nth (Z.to_nat p) f1 dzero). assert (Fx : fin x) by (apply Hf, nth_In; lia).
    destruct (dmul_ok w x Fw Fx) as [F1 V1]; [rewrite Vw, Rmult_0_l, (fl_fmt _ fmt_0), Rabs_R0; apply bpow_gt_0|]. rewrite Vw, Rmult_0_l, (fl_fmt _ fmt_0) in V1.
    destruct (dadd_ok acc (dmul w x) Fa F1) as [F2 V2]; [rewrite V1, Rplus_0_r, (fl_fmt _ (fmt_val _)); apply val_small|]. rewrite V1, Rplus_0_r, (fl_fmt _ (fmt_val _)) in V2.
    destruct (IH _ Hb' F2) as [A B]. split; [exact A|]. rewrite B. exact V2.
  Qed.

  (** One entry of weight one, the others null. *)
  Lemma unit_fold : (forall x, In x f1 -> fin x) -> forall b1 p w b2', (forall pw, In pw b1 -> null pw) -> (forall pw, In pw b2' -> null pw) ->
    (0 <= p < Z.of_nat N)%Z -> fin w -> val w = 1 ->
    fin (accumulate_d f1 oob (b1 ++ (p, w) :: b2')) /\ val (accumulate_d f1 oob (b1 ++ (p, w) :: b2')) = val (nth (Z.to_nat p) f1 dzero).
  Proof.
    intros Hf b1 p w b2' H1 H2 Hp Fw Vw. unfold accumulate_d. rewrite fold_left_app. cbn [fold_left fst snd].
    destruct (null_fold Hf b1 dzero H1 fin_zero) as [F0 V0]. rewrite val_zero in V0. set (acc := fold_left _ b1 dzero) in *.
    replace (p =? -1)%Z with false by (symmetry; apply Z.eqb_neq; lia). cbn [negb]. rewrite (read_in p Hp). set (x := nth (Z.to_nat p) f1 dzero). assert (Fx : fin x) by (apply Hf, nth_In; lia).
    destruct (dmul_ok w x Fw Fx) as [F1 V1]; [rewrite Vw, Rmult_1_l, (fl_fmt _ (fmt_val _)); apply val_small|]. rewrite Vw, Rmult_1_l, (fl_fmt _ (fmt_val _)) in V1.
    destruct (dadd_ok acc (dmul w x) F0 F1) as [F2 V2]; [rewrite V0, V1, Rplus_0_l, (fl_fmt _ (fmt_val _)); apply val_small|]. rewrite V0, V1, Rplus_0_l, (fl_fmt _ (fmt_val _)) in V2.
    destruct (null_fold Hf b2' _ H2 F2) as [A B]. split; [exact A|]. rewrite B. exact V2.
  Qed.

  (** NaN is absorbing. *)
  Lemma dadd_nan : forall x : double, dadd x (@B754_nan 53 1024) = @B754_nan 53 1024. Proof. intros [s|s| |s m e H]; reflexivity. Qed.
  Lemma nan_dadd : forall x : double, dadd (@B754_nan 53 1024) x = @B754_nan 53 1024. Proof. intros [s|s| |s m e H]; reflexivity. Qed.
  Lemma zero_times : forall x : double, ~ fin x -> dmul dzero x = @B754_nan 53 1024.
  Proof. intros [s|s| |s m e H] H1; try reflexivity; exfalso; apply H1; reflexivity. Qed.
  Lemma nan_fold : forall bd, fold_left step bd (@B754_nan 53 1024) = @B754_nan 53 1024.
  Proof.
    induction bd as [|[p w] bd IH]; [reflexivity|]. cbn [fold_left fst snd]. destruct (negb (p =? -1)%Z); [rewrite nan_dadd|]; exact IH.
  Qed.

  (** The weights written for a cell inside source cell [P]. *)
  Lemma inside_list : forall a P L, n1 a = Z.of_nat N -> (0 <= P < Z.of_nat N)%Z -> (2 <= L)%nat ->
    exists rest, map (entry_inside_d a P) (seq 0 L) = (P, dbl 1 0) :: (if (P + 1 <? Z.of_nat N)%Z then ((P + 1)%Z, dzero) else ((-1)%Z, dzero)) :: rest /\ forall pw, In pw rest -> null pw.
  Proof.
    intros a P L HN HP HL. exists (map (entry_inside_d a P) (seq 2 (L - 2))). split.
    - replace L with (S (S (L - 2))) at 1 by lia. cbn [seq map]. f_equal; [|f_equal].
      + unfold entry_inside_d. rewrite HN. cbn [Z.of_nat Nat.eqb]. rewrite Z.add_0_r.
        replace ((0 <=? P) && (P <? Z.of_nat N))%Z with true by (symmetry; apply andb_true_intro; split; [apply Z.leb_le|apply Z.ltb_lt]; lia). reflexivity.
      + unfold entry_inside_d. rewrite HN. change (Z.of_nat 1) with 1%Z. cbv zeta. replace (0 <=? P + 1)%Z with true by (symmetry; apply Z.leb_le; lia). cbn [andb]. destruct (P + 1 <? Z.of_nat N)%Z; reflexivity.
    - intros pw Hpw. apply in_map_iff in Hpw. destruct Hpw as (t & <- & Ht). apply in_seq in Ht. unfold entry_inside_d. cbv zeta. rewrite HN.
      destruct (Z.leb_spec 0 (P + Z.of_nat t)); destruct (Z.ltb_spec (P + Z.of_nat t) (Z.of_nat N)); cbn [andb]; try (left; reflexivity). right. cbn [fst snd].
      replace (t =? 0)%nat with false by (symmetry; apply Nat.eqb_neq; lia). split; [apply fin_zero|]. split; [apply val_zero|lia].
  Qed.

  Lemma inside_value : forall a P L, n1 a = Z.of_nat N -> (0 <= P < Z.of_nat N)%Z -> (2 <= L)%nat -> (forall x, In x f1 -> fin x) ->
    fin (accumulate_d f1 oob (map (entry_inside_d a P) (seq 0 L))) /\ val (accumulate_d f1 oob (map (entry_inside_d a P) (seq 0 L))) = val (nth (Z.to_nat P) f1 dzero).
  Proof.
    intros a P L HN HP HL Hf. destruct (inside_list a P L HN HP HL) as (rest & -> & Hr). destruct one_ok as [O1 O2]. apply (unit_fold Hf [] P (dbl 1 0)); try assumption; [intros pw []|].
    intros pw [<- |H]; [|auto]. destruct (Z.ltb_spec (P + 1) (Z.of_nat N)); [right; cbn [fst snd]; split; [apply fin_zero|split; [apply val_zero|lia]]|left; reflexivity].
  Qed.

  Lemma inside_nan : forall a P L, n1 a = Z.of_nat N -> (0 <= P)%Z -> (P + 1 < Z.of_nat N)%Z -> (2 <= L)%nat -> ~ fin (nth (Z.to_nat (P + 1)) f1 dzero) ->
    accumulate_d f1 oob (map (entry_inside_d a P) (seq 0 L)) = @B754_nan 53 1024.
  Proof.
    intros a P L HN HP HP1 HL Hx. destruct (inside_list a P L HN ltac:(lia) HL) as (rest & -> & _). unfold accumulate_d. replace (P + 1 <? Z.of_nat N)%Z with true by (symmetry; apply Z.ltb_lt; lia).
    cbn [fold_left fst snd]. replace (P + 1 =? -1)%Z with false by (symmetry; apply Z.eqb_neq; lia). cbn [negb]. rewrite (read_in (P + 1) ltac:(lia)), (zero_times _ Hx), dadd_nan. apply nan_fold.
  Qed.
End Exact.

Section Inside.
  Variable X : R.
  Hypothesis HX : b2 (-900) <= X <= b2 900.
  Variables (o1 B1 : double) (N : nat) (o2 B2 : double) (m : nat).
  Hypothesis G1 : good X o1 B1 N.
  Hypothesis G2 : good X o2 B2 m.
  Notation e := (unit_of X).
  Variables (k P : nat).
  Hypothesis Hk : (k < m)%nat.
  Hypothesis HP : (P < N)%nat.

  Lemma margin_e : b2 (-48) * X = 32 * e.
  Proof. unfold unit_of, u. replace (32 * (b2 (-53) * X)) with (32 * b2 (-53) * X) by ring. change 32 with (b2 5). rewrite <- bpow_plus. reflexivity. Qed.

  Lemma inside_P : E1 o1 B1 N P + b2 (-48) * X <= E2 o2 B2 m k -> E2 o2 B2 m (S k) + b2 (-48) * X <= E1 o1 B1 N (S P) ->
    P1 o1 B1 N o2 B2 m k = Z.of_nat P /\ P2 o1 B1 N o2 B2 m k = Z.of_nat P.
  Proof.
    intros H1 H2. rewrite margin_e in H1, H2. destruct (P_bounds X HX o1 B1 N o2 B2 m G1 G2 k Hk) as (Q1 & Q2 & Q3 & Q4). pose proof (e_pos X HX) as EP.
    pose proof (d1_pos X HX o1 B1 N G1) as D. pose proof (E1_step X HX o1 B1 N G1 P ltac:(lia)) as S0. pose proof (E1_step X HX o1 B1 N G1 (S P) ltac:(lia)) as S1. apply Rabs_le_inv in S0, S1.
    rewrite S_INR in S1. rewrite INR_IZR_INZ in S0, S1. destruct (w2_pos X HX o2 B2 m G2) as [PW W]. pose proof (E2_S o2 B2 m k) as ES.
    set (d := val (d1 o1 B1 N)) in *. set (p := P1 o1 B1 N o2 B2 m k) in *. set (q := P2 o1 B1 N o2 B2 m k) in *.
    assert (T : forall x y, (x + 1 <= y)%Z -> (IZR x + 1) * d <= IZR y * d) by (intros x y L; apply Rmult_le_compat_r; [lra|]; rewrite <- plus_IZR; apply IZR_le; exact L).
    split.
    - destruct (Z.lt_trichotomy p (Z.of_nat P)) as [L|[E|L]]; [|exact E|]; exfalso.
      + specialize (T p (Z.of_nat P) ltac:(lia)). lra.
      + specialize (T (Z.of_nat P) p ltac:(lia)). lra.
    - destruct (Z.lt_trichotomy q (Z.of_nat P)) as [L|[E|L]]; [|exact E|]; exfalso.
      + specialize (T q (Z.of_nat P) ltac:(lia)). lra.
      + specialize (T (Z.of_nat P) q ltac:(lia)). lra.
  Qed.

  Lemma inside_buffers : P1 o1 B1 N o2 B2 m k = Z.of_nat P -> P2 o1 B1 N o2 B2 m k = Z.of_nat P -> forall bd,
    remap_pixel_d (ax o1 B1 N o2 B2 m) (Z.of_nat k) (Z.to_nat (LZ o1 B1 N o2 B2 m)) bd = map (entry_inside_d (ax o1 B1 N o2 B2 m) (Z.of_nat P)) (seq 0 (Z.to_nat (LZ o1 B1 N o2 B2 m))).
  Proof.
    intros H1 H2 bd. unfold remap_pixel_d. replace (Z.of_nat k + 1)%Z with (Z.of_nat (S k)) by lia. cbv zeta.
    change (which_pix_d (a1min (ax o1 B1 N o2 B2 m)) (dx1_d (ax o1 B1 N o2 B2 m)) (dadd (a2min (ax o1 B1 N o2 B2 m)) (dmul (dx2_d (ax o1 B1 N o2 B2 m)) (real4 (Z.of_nat k))))) with (P1 o1 B1 N o2 B2 m k).
    change (which_pix_d (a1min (ax o1 B1 N o2 B2 m)) (dx1_d (ax o1 B1 N o2 B2 m)) (dadd (a2min (ax o1 B1 N o2 B2 m)) (dmul (dx2_d (ax o1 B1 N o2 B2 m)) (real4 (Z.of_nat (S k)))))) with (P2 o1 B1 N o2 B2 m k).
    rewrite H1, H2, Z.eqb_refl. cbn [negb]. replace (Z.of_nat P =? -1)%Z with false by (symmetry; apply Z.eqb_neq; lia). reflexivity.
  Qed.
End Inside.

(** ** The same grid twice *)
Section Same.
  Variable X : R.
  Hypothesis HX : b2 (-900) <= X <= b2 900.
  Variables (o B : double) (f1 : list double).
  Notation N := (length f1).
  Hypothesis G : good X o B N.
  Notation e := (unit_of X).
  Notation ax := (ax o B N o B N).
  Variable k : nat.
  Hypothesis Hk : (k < N)%nat.

  Lemma same_L : LZ o B N o B N = 3%Z.
  Proof.
    unfold LZ, get_remap_pix_len_d. change (dx2_d ax) with (step_d o B N). change (dx1_d ax) with (step_d o B N).
    destruct (step_ok X HX o B N G) as (F & _). pose proof (d1_pos X HX o B N G) as D. fold (d1 o B N) in F |- *.
    destruct (ddiv_ok (d1 o B N) (d1 o B N) F) as [_ V]; [lra|replace (val (d1 o B N) / val (d1 o B N)) with 1 by (field; lra); rewrite (fl_fmt _ fmt_1), Rabs_R1; change 1 with (b2 0); apply bpow_lt; lia|].
    replace (val (d1 o B N) / val (d1 o B N)) with 1 in V by (field; lra). rewrite (fl_fmt _ fmt_1) in V. unfold dfloor. change (B2R (ddiv (d1 o B N) (d1 o B N))) with (val (ddiv (d1 o B N) (d1 o B N))). rewrite V. rewrite Zfloor_IZR. reflexivity.
  Qed.

  Lemma same_P : (Z.of_nat k - 1 <= P1 o B N o B N k <= Z.of_nat k)%Z /\ (Z.of_nat k <= P2 o B N o B N k)%Z.
  Proof.
    destruct (P_bounds X HX o B N o B N G G k Hk) as (Q1 & Q2 & Q3 & Q4). pose proof (e_pos X HX) as EP.
    pose proof (d1_pos X HX o B N G) as D. pose proof (E1_step X HX o B N G k ltac:(lia)) as S0. pose proof (E1_step X HX o B N G (S k) ltac:(lia)) as S1. apply Rabs_le_inv in S0, S1.
    rewrite S_INR in S1. rewrite INR_IZR_INZ in S0, S1. destruct (w1_pos X HX o B N G) as [PW W]. destruct (step_pos X HX o B N G) as [SP _]. fold (d1 o B N) in SP. fold (w1 B N) in SP.
    change (E2 o B N k) with (E1 o B N k) in *. change (E2 o B N (S k)) with (E1 o B N (S k)) in *.
    set (d := val (d1 o B N)) in *. set (p := P1 o B N o B N k) in *. set (q := P2 o B N o B N k) in *.
    assert (T : forall x y, (x + 1 <= y)%Z -> (IZR x + 1) * d <= IZR y * d) by (intros x y L; apply Rmult_le_compat_r; [lra|]; rewrite <- plus_IZR; apply IZR_le; exact L).
    split; [split|].
    - apply Z.nlt_ge. intros L. specialize (T (p + 1)%Z (Z.of_nat k) ltac:(lia)). rewrite plus_IZR in T. lra.
    - apply Z.nlt_ge. intros L. specialize (T (Z.of_nat k) p ltac:(lia)). lra.
    - apply Z.nlt_ge. intros L. specialize (T q (Z.of_nat k) ltac:(lia)). lra.
  Qed.

  Notation a := (edge_d o B N k).
  Notation b := (edge_d o B N (S k)).

  Lemma edges_apart : forall i j, (i < j <= N)%nat -> val (edge_d o B N i) < val (edge_d o B N j).
  Proof.
    intros i j H. destruct (edge_ok X HX o B N i G ltac:(lia)) as (_ & A & _). destruct (edge_ok X HX o B N j G ltac:(lia)) as (_ & C & _). apply Rabs_le_inv in A, C.
    pose proof (e_pos X HX) as EP. destruct (w1_pos X HX o B N G) as [PW W]. change (edge (val o) (val B) N i) with (E1 o B N i) in A. change (edge (val o) (val B) N j) with (E1 o B N j) in C.
    pose proof (E1_le X o B N G (S i) j ltac:(lia)) as L. rewrite E1_S in L. lra.
  Qed.

  Lemma off_entry : forall p t i, (p + Z.of_nat t)%Z = Z.of_nat i -> i <> k -> entry_several_d ax a b p t = ((-1)%Z, dzero).
  Proof.
    intros p t i E NE. unfold entry_several_d. cbv zeta. rewrite E. change (n1 ax) with (Z.of_nat N).
    destruct (Z.leb_spec 0 (Z.of_nat i)) as [_|]; [|lia]. cbn [andb]. destruct (Z.ltb_spec (Z.of_nat i) (Z.of_nat N)) as [Hi|_]; [|reflexivity].
    replace (Z.of_nat i + 1)%Z with (Z.of_nat (S i)) by lia.
    change (dadd (a1min ax) (dmul (dx1_d ax) (real4 (Z.of_nat i)))) with (edge_d o B N i). change (dadd (a1min ax) (dmul (dx1_d ax) (real4 (Z.of_nat (S i))))) with (edge_d o B N (S i)).
    destruct (edge_ok X HX o B N i G ltac:(lia)) as (F1 & _). destruct (edge_ok X HX o B N (S i) G ltac:(lia)) as (F2 & _).
    destruct (edge_ok X HX o B N k G ltac:(lia)) as (F3 & _). destruct (edge_ok X HX o B N (S k) G ltac:(lia)) as (F4 & _).
    rewrite !dle_ok, !dlt_ok by assumption.
    pose proof (edges_apart i (S i) ltac:(lia)) as L1. pose proof (edges_apart k (S k) ltac:(lia)) as L2.
    assert (D : val (edge_d o B N (S i)) <= val a \/ val b <= val (edge_d o B N i)).
    { destruct (Nat.lt_trichotomy i k) as [L|[L|L]]; [left|contradiction|right].
      - destruct (Nat.eq_dec (S i) k) as [<- |NE']; [apply Rle_refl|]. left. apply edges_apart. lia.
      - destruct (Nat.eq_dec i (S k)) as [-> |NE']; [apply Rle_refl|]. left. apply edges_apart. lia. }
    set (x1 := val (edge_d o B N i)) in *. set (x2 := val (edge_d o B N (S i))) in *. set (y1 := val a) in *. set (y2 := val b) in *.
    destruct D as [D|D].
    - rewrite (Rle_bool_false y2 x2) by lra. rewrite (Rlt_bool_false y1 x1) by lra. rewrite (Rlt_bool_false y1 x2) by lra. rewrite !andb_false_r. reflexivity.
    - rewrite (Rle_bool_false x1 y1) by lra. rewrite (Rlt_bool_false x1 y2) by lra. rewrite (Rlt_bool_false x2 y2) by lra. rewrite !andb_false_r. reflexivity.
  Qed.

  Lemma on_entry : forall p t, (p + Z.of_nat t)%Z = Z.of_nat k -> exists w, entry_several_d ax a b p t = (Z.of_nat k, w) /\ fin w /\ val w = 1.
  Proof.
    intros p t E. unfold entry_several_d. cbv zeta. rewrite E. change (n1 ax) with (Z.of_nat N).
    destruct (Z.leb_spec 0 (Z.of_nat k)) as [_|]; [|lia]. cbn [andb]. destruct (Z.ltb_spec (Z.of_nat k) (Z.of_nat N)) as [_|]; [|lia].
    replace (Z.of_nat k + 1)%Z with (Z.of_nat (S k)) by lia.
    change (dadd (a1min ax) (dmul (dx1_d ax) (real4 (Z.of_nat k)))) with a. change (dadd (a1min ax) (dmul (dx1_d ax) (real4 (Z.of_nat (S k))))) with b.
    destruct (edge_ok X HX o B N k G ltac:(lia)) as (F3 & _ & K3). destruct (edge_ok X HX o B N (S k) G ltac:(lia)) as (F4 & _ & K4).
    rewrite !dle_ok by assumption. rewrite !Rle_bool_true by apply Rle_refl. cbn [andb]. exists (ddiv (dsub b a) (dsub b a)). split; [reflexivity|].
    pose proof (edges_apart k (S k) ltac:(lia)) as L.
    destruct (ab_ok X HX o B N G k Hk) as (_ & _ & _ & _ & _ & _ & _ & H8). change (val b - val a <= 8 * X) in H8.
    destruct (dsub_ok b a F4 F3) as [FS VS]; [apply (flX_small X HX); rewrite Rabs_pos_eq; lra|].
    pose proof (add_err (val b) (- val a) (fmt_val _) (fmt_opp _ (fmt_val _))) as D. fold (val b - val a) in D. rewrite <- VS, (Rabs_pos_eq (val b - val a)) in D by lra. apply Rabs_le_inv in D.
    pose proof u_pos as U. assert (UY : u * (val b - val a) <= / 1024 * (val b - val a)) by (apply Rmult_le_compat_r; lra).
    assert (PD : 0 < val (dsub b a)) by lra. assert (Q : val (dsub b a) / val (dsub b a) = 1) by (field; lra).
    destruct (ddiv_ok (dsub b a) (dsub b a) FS) as [C1 C2]; [lra|rewrite Q, (fl_fmt _ fmt_1), Rabs_R1; change 1 with (b2 0); apply bpow_lt; lia|]. rewrite Q, (fl_fmt _ fmt_1) in C2. auto.
  Qed.

  Lemma same_value : forall oob bd, (forall x, In x f1 -> fin x) ->
    let r := accumulate_d f1 oob (remap_pixel_d ax (Z.of_nat k) (Z.to_nat (LZ o B N o B N)) bd) in fin r /\ val r = val (nth k f1 dzero).
  Proof.
    intros oob bd Hf r. subst r. pose proof same_L as L3. destruct same_P as ((H1 & H2) & H3).
    destruct (Z.eq_dec (P1 o B N o B N k) (P2 o B N o B N k)) as [E|NE].
    - assert (E1 : P1 o B N o B N k = Z.of_nat k) by lia. assert (E2 : P2 o B N o B N k = Z.of_nat k) by lia.
      rewrite (inside_buffers o B N o B N k k Hk Hk E1 E2). pose proof (inside_value f1 oob ax (Z.of_nat k) (Z.to_nat (LZ o B N o B N)) eq_refl ltac:(lia) ltac:(rewrite L3; cbn; lia) Hf) as V.
      rewrite Nat2Z.id in V. exact V.
    - assert (EQ : remap_pixel_d ax (Z.of_nat k) (Z.to_nat (LZ o B N o B N)) bd = map (entry_several_d ax a b (P1 o B N o B N k)) (seq 0 3)).
      { rewrite L3. unfold remap_pixel_d. replace (Z.of_nat k + 1)%Z with (Z.of_nat (S k)) by lia. cbv zeta.
        change (dadd (a2min ax) (dmul (dx2_d ax) (real4 (Z.of_nat k)))) with a. change (dadd (a2min ax) (dmul (dx2_d ax) (real4 (Z.of_nat (S k))))) with b.
        change (which_pix_d (a1min ax) (dx1_d ax) a) with (P1 o B N o B N k). change (which_pix_d (a1min ax) (dx1_d ax) b) with (P2 o B N o B N k).
        replace (P1 o B N o B N k =? P2 o B N o B N k)%Z with false by (symmetry; apply Z.eqb_neq; exact NE). reflexivity. }
      rewrite EQ. cbn [seq map]. set (p := P1 o B N o B N k) in *. clearbody p. clear EQ NE.
      destruct (Z.eq_dec p (Z.of_nat k)) as [E|NE].
      + destruct (on_entry p 0 ltac:(lia)) as (w & Ew & Fw & Vw). rewrite Ew. rewrite (off_entry p 1 (S k)), (off_entry p 2 (S (S k))) by lia.
        pose proof (unit_fold f1 oob Hf [] (Z.of_nat k) w [((-1)%Z, dzero); ((-1)%Z, dzero)]) as V. rewrite Nat2Z.id in V. apply V; try assumption; try lia; [intros pw []|]. intros pw [<- |[<- |[]]]; left; reflexivity.
      + destruct (on_entry p 1 ltac:(lia)) as (w & Ew & Fw & Vw). rewrite Ew. rewrite (off_entry p 2 (S k)) by lia.
        assert (E0 : entry_several_d ax a b p 0 = ((-1)%Z, dzero)).
        { destruct (Nat.eq_dec k 0) as [K0|K0]; [|apply (off_entry p 0 (k - 1)); lia]. unfold entry_several_d. cbv zeta. replace (0 <=? p + Z.of_nat 0)%Z with false by (symmetry; apply Z.leb_gt; lia). reflexivity. }
        rewrite E0. pose proof (unit_fold f1 oob Hf [((-1)%Z, dzero)] (Z.of_nat k) w [((-1)%Z, dzero)]) as V. rewrite Nat2Z.id in V. apply V; try assumption; try lia; intros pw [<- |[]]; left; reflexivity.
  Qed.
End Same.
