(** * Lemmas: products of weights in binary64 *)

From Coq Require Import Reals ZArith List Bool Lia Lra Psatz.
From Flocq Require Import Core IEEE754.BinarySingleNaN.
From Verif Require Import Base BaseP MHealpixFloat PHealpixFloat SpecDouble SpecGrid SpecRemap SpecRemapDouble MDouble PDouble MGridsDouble PGridsDouble PSumDouble PRemap PRemap2
  MRemap MRemapDouble MRemapDouble2 PRemapDouble PRemapDouble2 PRemapDouble3 PRemapDouble4.
Import ListNotations.
Open Scope R_scope.

Local Existing Instance p53.

Definition dentry (N : nat) (pw : Z * double) : Prop := fin (snd pw) /\ 0 <= val (snd pw) <= 1 /\ (fst pw = -1 \/ 0 <= fst pw < Z.of_nat N)%Z.

(** The weights of [bd] are those of [phi] up to a total of [D]. *)
Definition near (N : nat) (bd : buffers_d) (phi : nat -> R) (D : R) : Prop :=
  (forall pw, In pw bd -> dentry N pw) /\ (forall i, (i < N)%nat -> 0 <= phi i) /\ sum_upto N phi <= 1 /\
  sum_upto N (fun i => Rabs (weight_of (reals bd) i - phi i)) <= D.

Lemma near_range : forall N bd phi D, near N bd phi D -> forall pw, In pw (reals bd) -> (fst pw = -1 \/ 0 <= fst pw < Z.of_nat N)%Z.
Proof.
  intros N bd phi D (H & _) pw Hin. unfold reals in Hin. apply in_map_iff in Hin. destruct Hin as (q & <- & Hq). destruct (H q Hq) as (_ & _ & R). exact R.
Qed.

Lemma near_total : forall N bd phi D, near N bd phi D -> sum_upto N (fun i => Rabs (weight_of (reals bd) i)) <= 1 + D.
Proof.
  intros N bd phi D (_ & P & S & H). apply Rle_trans with (sum_upto N phi + sum_upto N (fun i => Rabs (weight_of (reals bd) i - phi i))); [|lra].
  rewrite <- sum_plus. apply sum_le. intros i Hi. specialize (P i Hi). pose proof (Rabs_triang (weight_of (reals bd) i - phi i) (phi i)) as T.
  replace (weight_of (reals bd) i - phi i + phi i) with (weight_of (reals bd) i) in T by ring. rewrite (Rabs_pos_eq (phi i)) in T by exact P. lra.
Qed.

(** The rounded accumulation of such weights. *)
Lemma near_result : forall f1 oob M bd phi D, b2 (-900) <= M <= b2 900 -> (forall x, In x f1 -> fin x /\ Rabs (val x) <= M) ->
  near (length f1) bd phi D -> D <= 1 -> INR (length bd) * u <= / 1024 ->
  fin (accumulate_d f1 oob bd) /\
  Rabs (val (accumulate_d f1 oob bd) - sum_upto (length f1) (fun i => phi i * val (nth i f1 dzero))) <= (D + 8 * INR (length bd) * u) * M.
Proof.
  intros f1 oob M bd phi D HM Hf HN HD HL. pose proof (near_range _ _ _ _ HN) as RI. pose proof (near_total _ _ _ _ HN) as NT. destruct HN as (HE & HP & HS & HV).
  destruct (accumulate_ok f1 oob M HM Hf bd) as [A B].
  - intros pw Hpw. exact (HE pw Hpw).
  - rewrite (wsum_weights (length f1) _ _ RI). apply Rle_trans with (sum_upto (length f1) (fun i => Rabs (weight_of (reals bd) i))); [|lra].
    apply sum_le. intros i _. rewrite Rmult_1_r. apply Rle_abs.
  - exact HL.
  - split; [exact A|]. rewrite (wsum_weights (length f1) _ _ RI) in B. assert (PM : 0 < M) by exact (X_pos M HM).
    assert (C : Rabs (sum_upto (length f1) (fun i => weight_of (reals bd) i * source f1 (Z.of_nat i)) - sum_upto (length f1) (fun i => phi i * val (nth i f1 dzero))) <= D * M).
    { rewrite sum_sub. apply Rle_trans with (1 := sum_Rabs _ _). apply Rle_trans with (sum_upto (length f1) (fun i => Rabs (weight_of (reals bd) i - phi i)) * M); [|apply Rmult_le_compat_r; lra].
      rewrite <- sum_scal_r. apply sum_le. intros i Hi. unfold source. rewrite Nat2Z.id.
      assert (Q : Rabs (val (nth i f1 dzero)) <= M) by (apply Hf, nth_In; exact Hi). set (q := val (nth i f1 dzero)) in *.
      assert (Q' : weight_of (reals bd) i * q - phi i * q = (weight_of (reals bd) i - phi i) * q) by ring.
      apply Rle_trans with (Rabs ((weight_of (reals bd) i - phi i) * q)); [apply Req_le; f_equal; exact Q'|].
      rewrite Rabs_mult. apply Rmult_le_compat_l; [apply Rabs_pos|exact Q]. }
    replace (val (accumulate_d f1 oob bd) - sum_upto (length f1) (fun i => phi i * val (nth i f1 dzero)))
      with ((val (accumulate_d f1 oob bd) - sum_upto (length f1) (fun i => weight_of (reals bd) i * source f1 (Z.of_nat i)))
        + (sum_upto (length f1) (fun i => weight_of (reals bd) i * source f1 (Z.of_nat i)) - sum_upto (length f1) (fun i => phi i * val (nth i f1 dzero)))) by ring.
    apply Rle_trans with (1 := Rabs_triang _ _). lra.
Qed.

(** ** Lists of products *)

Definition pix2 (yg xp yp : Z) : Z := if negb (xp =? -1)%Z && negb (yp =? -1)%Z then (yp + yg * xp)%Z else (-1)%Z.

Lemma combine_prod : forall (A B : Type) (f : Z -> Z -> Z) (g : A -> A -> B) (xb yb : list (Z * A)),
  combine (flat_map (fun xp => map (fun yp => f xp yp) (map fst yb)) (map fst xb)) (flat_map (fun xw => map (fun yw => g xw yw) (map snd yb)) (map snd xb))
  = map (fun xy => (f (fst (fst xy)) (fst (snd xy)), g (snd (fst xy)) (snd (snd xy)))) (list_prod xb yb).
Proof.
  intros A B f g xb yb. induction xb as [|[xp xw] xb IH]; [reflexivity|]. cbn [map flat_map list_prod fst snd].
  rewrite combine_app_len by (rewrite !map_length; reflexivity). rewrite IH, map_app. f_equal. clear IH.
  induction yb as [|[yp yw] yb IHy]; [reflexivity|]. cbn [map combine fst snd]. now rewrite IHy.
Qed.

Lemma entries_2d_d_prod : forall yg xb yb, entries_2d_d yg xb yb = map (fun xy => (pix2 yg (fst (fst xy)) (fst (snd xy)), dmul (snd (fst xy)) (snd (snd xy)))) (list_prod xb yb).
Proof. intros. apply (combine_prod double double (pix2 yg) dmul). Qed.
Lemma entries_2d_prod : forall yg xb yb, entries_2d yg xb yb = map (fun xy => (pix2 yg (fst (fst xy)) (fst (snd xy)), snd (fst xy) * snd (snd xy))) (list_prod xb yb).
Proof. intros. apply (combine_prod R R (pix2 yg) Rmult). Qed.

Lemma list_prod_map : forall (A B : Type) (h : A -> B) xb yb, list_prod (map h xb) (map h yb) = map (fun xy => (h (fst xy), h (snd xy))) (list_prod xb yb).
Proof.
  intros A B h xb yb. induction xb as [|x xb IH]; [reflexivity|]. cbn [map list_prod]. rewrite IH, map_app, !map_map. reflexivity.
Qed.

(** Two lists with the same cells and nearly the same weights. *)
Lemma list_close : forall (T : Type) (p : T -> Z) (a b : T -> R) N c l, (forall t, In t l -> Rabs (a t - b t) <= c) ->
  sum_upto N (fun i => Rabs (weight_of (map (fun t => (p t, a t)) l) i - weight_of (map (fun t => (p t, b t)) l) i)) <= INR (length l) * c.
Proof.
  intros T p a b N c. induction l as [|t l IH]; intros H.
  - cbn [map length INR]. rewrite sum_zero; [lra|]. intros i _. rewrite Rminus_diag_eq, Rabs_R0; reflexivity.
  - cbn [map]. apply Rle_trans with (sum_upto N (fun i => (if (p t =? Z.of_nat i)%Z then Rabs (a t - b t) else 0)) + sum_upto N (fun i => Rabs (weight_of (map (fun t => (p t, a t)) l) i - weight_of (map (fun t => (p t, b t)) l) i))).
    + rewrite <- sum_plus. apply sum_le. intros i _. rewrite !weight_cons. destruct (p t =? Z.of_nat i)%Z.
      * eapply Rle_trans; [|apply Rabs_triang]. apply Req_le. f_equal. ring.
      * apply Req_le. rewrite !Rplus_0_l. reflexivity.
    + specialize (IH ltac:(intros; apply H; now right)). specialize (H t (or_introl eq_refl)).
      change (length (t :: l)) with (S (length l)). rewrite S_INR.
      assert (sum_upto N (fun i => if (p t =? Z.of_nat i)%Z then Rabs (a t - b t) else 0) <= Rabs (a t - b t)).
      { destruct (Z_lt_dec (p t) 0) as [L|L]; [rewrite sum_zero; [apply Rabs_pos|intros i _; replace (p t =? Z.of_nat i)%Z with false by (symmetry; apply Z.eqb_neq; lia); reflexivity]|].
        destruct (Z_lt_dec (p t) (Z.of_nat N)) as [L'|L']; [|rewrite sum_zero; [apply Rabs_pos|intros i Hi; replace (p t =? Z.of_nat i)%Z with false by (symmetry; apply Z.eqb_neq; lia); reflexivity]].
        rewrite (sum_one N (Z.to_nat (p t))); [rewrite Z2Nat.id, Z.eqb_refl by lia; lra|lia|]. intros i _ NE. replace (p t =? Z.of_nat i)%Z with false by (symmetry; apply Z.eqb_neq; lia). reflexivity. }
      lra.
Qed.

Lemma wsum_ext : forall g h bd, (forall pw, In pw bd -> fst pw <> (-1)%Z -> g (fst pw) = h (fst pw)) -> wsum g bd = wsum h bd.
Proof.
  intros g h bd H. unfold wsum. f_equal. apply map_ext_in. intros pw Hin. destruct (Z.eqb_spec (fst pw) (-1)) as [E|NE]; [reflexivity|]. now rewrite (H pw Hin NE).
Qed.
Lemma wsum_scal : forall c g bd, wsum (fun z => c * g z) bd = c * wsum g bd.
Proof. intros c g bd. induction bd as [|[p w] bd IH]; [unfold wsum; cbn; ring|]. rewrite !wsum_cons, IH. cbn [fst snd]. destruct (p =? -1)%Z; ring. Qed.

(** Weights of a product. *)
Lemma prod_weight : forall Nx Ny xb yb i, (1 <= Ny)%nat ->
  (forall pw, In pw xb -> (fst pw = -1 \/ 0 <= fst pw < Z.of_nat Nx)%Z) -> (forall pw, In pw yb -> (fst pw = -1 \/ 0 <= fst pw < Z.of_nat Ny)%Z) ->
  forall a b, (b < Ny)%nat -> i = (b + Ny * a)%nat -> weight_of (entries_2d (Z.of_nat Ny) xb yb) i = weight_of xb a * weight_of yb b.
Proof.
  intros Nx Ny xb yb i HN Hx Hy a b Hb ->. rewrite !weight_of_wsum.
  rewrite wsum_2d; [|lia|intros pw Hin; specialize (Hx pw Hin); lia|intros pw Hin; specialize (Hy pw Hin); lia].
  rewrite (wsum_ext _ (fun xp => (wsum (fun z => if (z =? Z.of_nat b)%Z then 1 else 0) yb) * (if (xp =? Z.of_nat a)%Z then 1 else 0)) xb).
  - rewrite wsum_scal. ring.
  - intros [xp xw] Hin NE. cbn [fst] in *. specialize (Hx _ Hin). cbn [fst] in Hx. destruct Hx as [Hx|Hx]; [contradiction|].
    destruct (Z.eqb_spec xp (Z.of_nat a)) as [-> |NX].
    + rewrite Rmult_1_r. apply wsum_ext. intros [yp yw] Hiny NEy. cbn [fst] in *. specialize (Hy _ Hiny). cbn [fst] in Hy. destruct Hy as [Hy|Hy]; [contradiction|].
      destruct (Z.eqb_spec yp (Z.of_nat b)) as [E|E].
      * replace (yp + Z.of_nat Ny * Z.of_nat a =? Z.of_nat (b + Ny * a))%Z with true by (symmetry; apply Z.eqb_eq; lia). reflexivity.
      * replace (yp + Z.of_nat Ny * Z.of_nat a =? Z.of_nat (b + Ny * a))%Z with false by (symmetry; apply Z.eqb_neq; lia). reflexivity.
    + rewrite Rmult_0_r. rewrite (wsum_ext _ (fun z => 0 * 0) yb); [rewrite wsum_scal; ring|]. intros [yp yw] Hiny NEy. cbn [fst] in *. specialize (Hy _ Hiny). cbn [fst] in Hy. destruct Hy as [Hy|Hy]; [contradiction|].
      replace (yp + Z.of_nat Ny * xp =? Z.of_nat (b + Ny * a))%Z with false; [ring|]. symmetry. apply Z.eqb_neq. intros E. apply NX. nia.
Qed.

Lemma sum_prod : forall Nx Ny h, sum_upto (Nx * Ny) h = sum_upto Nx (fun a => sum_upto Ny (fun b => h (b + Ny * a)%nat)).
Proof.
  intros Nx Ny h. induction Nx as [|Nx IH]; [reflexivity|]. replace (S Nx * Ny)%nat with (Nx * Ny + Ny)%nat by lia. rewrite sum_split, IH, sum_S. f_equal.
  apply sum_ext. intros b _. f_equal. lia.
Qed.

Definition phi2 (Ny : nat) (px py : nat -> R) (i : nat) : R := px (i / Ny)%nat * py (i mod Ny)%nat.
Lemma phi2_at : forall Ny px py a b, (b < Ny)%nat -> phi2 Ny px py (b + Ny * a) = px a * py b.
Proof.
  intros Ny px py a b H. unfold phi2. replace ((b + Ny * a) / Ny)%nat with a; [replace ((b + Ny * a) mod Ny)%nat with b; [reflexivity|]|].
  - rewrite Nat.mul_comm, Nat.mod_add by lia. symmetry. now apply Nat.mod_small.
  - rewrite Nat.mul_comm, Nat.div_add by lia. rewrite Nat.div_small by exact H. reflexivity.
Qed.

Lemma weight_product : forall a b : double, fin a -> fin b -> 0 <= val a <= 1 -> 0 <= val b <= 1 ->
  fin (dmul a b) /\ 0 <= val (dmul a b) <= 1 /\ Rabs (val (dmul a b) - val a * val b) <= 2 * u.
Proof.
  intros a b Fa Fb Ha Hb. assert (P : 0 <= val a * val b <= 1) by nra.
  assert (Q : 0 <= fl (val a * val b) <= 1) by (split; [apply fl_ge; [apply fl_fmt, fmt_0|lra]|apply fl_le; [apply fl_fmt, fmt_1|lra]]).
  destruct (dmul_ok a b Fa Fb) as [F V]; [rewrite Rabs_pos_eq by lra; apply Rle_lt_trans with (b2 0); [change (b2 0) with 1; lra|apply bpow_lt; lia]|].
  split; [exact F|]. rewrite V. split; [exact Q|]. pose proof (fl_mixed (val a * val b)) as M. rewrite (Rabs_pos_eq (val a * val b)) in M by lra. pose proof u_pos as U.
  assert (b2 (-1075) <= u) by (unfold u; apply bpow_le; lia). nra.
Qed.

Lemma near_product : forall Nx Ny xb yb px py Dx Dy, (1 <= Ny)%nat -> near Nx xb px Dx -> near Ny yb py Dy ->
  near (Nx * Ny) (entries_2d_d (Z.of_nat Ny) xb yb) (phi2 Ny px py) (Dx * (1 + Dy) + Dy + INR (length xb * length yb) * (2 * u)).
Proof.
  intros Nx Ny xb yb px py Dx Dy HN NX NY. pose proof (near_range _ _ _ _ NX) as RX. pose proof (near_range _ _ _ _ NY) as RY.
  pose proof (near_total _ _ _ _ NY) as TY. pose proof NX as (EX & PX & SX & VX). pose proof NY as (EY & PY & SY & VY).
  assert (SP : sum_upto (Nx * Ny) (phi2 Ny px py) = sum_upto Nx px * sum_upto Ny py).
  { rewrite sum_prod, <- sum_scal_r. apply sum_ext. intros a _. rewrite <- sum_scal. apply sum_ext. intros b Hb. now apply phi2_at. }
  assert (NNx : 0 <= sum_upto Nx px) by (rewrite <- (sum_zero Nx (fun _ => 0)) by reflexivity; apply sum_le; exact PX).
  assert (NNy : 0 <= sum_upto Ny py) by (rewrite <- (sum_zero Ny (fun _ => 0)) by reflexivity; apply sum_le; exact PY).
  split; [|split; [|split]].
  - intros pw Hin. rewrite entries_2d_d_prod in Hin. apply in_map_iff in Hin. destruct Hin as ((x, y) & <- & Hxy). apply in_prod_iff in Hxy. destruct Hxy as [Hx Hy].
    destruct (EX x Hx) as (A1 & A2 & A3). destruct (EY y Hy) as (C1 & C2 & C3). cbn [fst snd]. destruct (weight_product (snd x) (snd y) A1 C1 A2 C2) as (W1 & W2 & _). split; [exact W1|]. split; [exact W2|].
    cbn [fst snd]. unfold pix2. destruct (Z.eqb_spec (fst x) (-1)); cbn [negb andb]; [left; reflexivity|]. destruct (Z.eqb_spec (fst y) (-1)); cbn [negb]; [left; reflexivity|].
    destruct A3 as [A3|A3]; [contradiction|]. destruct C3 as [C3|C3]; [contradiction|]. right. rewrite Nat2Z.inj_mul. nia.
  - intros i Hi. unfold phi2. apply Rmult_le_pos; [apply PX, Nat.div_lt_upper_bound; nia|apply PY, Nat.mod_upper_bound; lia].
  - rewrite SP. nra.
  - set (ex := entries_2d (Z.of_nat Ny) (reals xb) (reals yb)).
    apply Rle_trans with (sum_upto (Nx * Ny) (fun i => Rabs (weight_of (reals (entries_2d_d (Z.of_nat Ny) xb yb)) i - weight_of ex i)) + sum_upto (Nx * Ny) (fun i => Rabs (weight_of ex i - phi2 Ny px py i))).
    { rewrite <- sum_plus. apply sum_le. intros i _. replace (weight_of (reals (entries_2d_d (Z.of_nat Ny) xb yb)) i - phi2 Ny px py i)
        with ((weight_of (reals (entries_2d_d (Z.of_nat Ny) xb yb)) i - weight_of ex i) + (weight_of ex i - phi2 Ny px py i)) by ring. apply Rabs_triang. }
    assert (K1 : sum_upto (Nx * Ny) (fun i => Rabs (weight_of (reals (entries_2d_d (Z.of_nat Ny) xb yb)) i - weight_of ex i)) <= INR (length xb * length yb) * (2 * u)).
    { unfold ex. rewrite entries_2d_d_prod, entries_2d_prod. unfold reals at 1. rewrite map_map. cbn [fst snd]. unfold reals. rewrite list_prod_map, map_map. cbn [fst snd].
      replace (length xb * length yb)%nat with (length (list_prod xb yb)) by apply prod_length.
      apply (list_close _ (fun xy => pix2 (Z.of_nat Ny) (fst (fst xy)) (fst (snd xy))) (fun xy => val (dmul (snd (fst xy)) (snd (snd xy)))) (fun xy => val (snd (fst xy)) * val (snd (snd xy)))).
      intros (x, y) Hxy. apply in_prod_iff in Hxy. destruct Hxy as [Hx Hy]. destruct (EX x Hx) as (A1 & A2 & _). destruct (EY y Hy) as (C1 & C2 & _). cbn [fst snd]. apply weight_product; assumption. }
    assert (K2 : sum_upto (Nx * Ny) (fun i => Rabs (weight_of ex i - phi2 Ny px py i)) <= Dx * (1 + Dy) + Dy).
    { rewrite sum_prod. set (wx := weight_of (reals xb)) in *. set (wy := weight_of (reals yb)) in *.
      apply Rle_trans with (sum_upto Nx (fun a => Rabs (wx a - px a) * sum_upto Ny (fun b => Rabs (wy b)) + px a * sum_upto Ny (fun b => Rabs (wy b - py b)))).
      - apply sum_le. intros a Ha. rewrite <- !sum_scal, <- sum_plus. apply sum_le. intros b Hb. unfold ex. rewrite (prod_weight Nx Ny (reals xb) (reals yb) _ HN RX RY a b Hb eq_refl), phi2_at by exact Hb. fold wx wy.
        replace (wx a * wy b - px a * py b) with ((wx a - px a) * wy b + px a * (wy b - py b)) by ring. apply Rle_trans with (1 := Rabs_triang _ _). rewrite !Rabs_mult, (Rabs_pos_eq (px a)) by (now apply PX). lra.
      - rewrite sum_plus, !sum_scal_r. set (A := sum_upto Nx (fun a => Rabs (wx a - px a))) in *. set (B := sum_upto Ny (fun b => Rabs (wy b - py b))) in *. set (C := sum_upto Ny (fun b => Rabs (wy b))) in *.
        assert (0 <= A) by (unfold A; rewrite <- (sum_zero Nx (fun _ => 0)) by reflexivity; apply sum_le; intros; apply Rabs_pos).
        assert (0 <= B) by (unfold B; rewrite <- (sum_zero Ny (fun _ => 0)) by reflexivity; apply sum_le; intros; apply Rabs_pos).
        assert (0 <= C) by (unfold C; rewrite <- (sum_zero Ny (fun _ => 0)) by reflexivity; apply sum_le; intros; apply Rabs_pos).
        assert (A * C <= Dx * (1 + Dy)) by (apply Rmult_le_compat; lra). assert (sum_upto Nx px * B <= 1 * Dy) by (apply Rmult_le_compat; lra). lra. }
    lra.
Qed.

Lemma length_2d : forall yg xb yb, length (entries_2d_d yg xb yb) = (length xb * length yb)%nat.
Proof. intros. rewrite entries_2d_d_prod, map_length. apply prod_length. Qed.

(** Three dimensions are two dimensions twice. *)
Lemma entries_2d_app : forall zg a b zb, entries_2d_d zg (a ++ b) zb = entries_2d_d zg a zb ++ entries_2d_d zg b zb.
Proof.
  intros. rewrite !entries_2d_d_prod. rewrite <- map_app. f_equal. induction a as [|x a IH]; [reflexivity|]. cbn [app list_prod]. rewrite IH. apply app_assoc.
Qed.

Lemma entries_3d_twice : forall Nx Ny zg xb yb zb, (forall pw, In pw xb -> (fst pw = -1 \/ 0 <= fst pw < Z.of_nat Nx)%Z) -> (forall pw, In pw yb -> (fst pw = -1 \/ 0 <= fst pw < Z.of_nat Ny)%Z) ->
  entries_3d_d (Z.of_nat Ny) zg xb yb zb = entries_2d_d zg (entries_2d_d (Z.of_nat Ny) xb yb) zb.
Proof.
  intros Nx Ny zg xb yb zb HX HY. rewrite (entries_2d_d_prod (Z.of_nat Ny)). unfold entries_3d_d, pix1dto3d. induction xb as [|[xp xw] xb IH]; [reflexivity|].
  cbn [map flat_map list_prod fst snd]. rewrite map_app, entries_2d_app, combine_app_len.
  2:{ clear. induction yb as [|y yb IH]; [reflexivity|]. cbn [map flat_map]. rewrite !app_length, IH, !map_length. reflexivity. }
  rewrite IH by (intros pw H; apply HX; now right). f_equal. pose proof (HX (xp, xw) (or_introl eq_refl)) as HP. cbn [fst] in HP. clear IH HX.
  induction yb as [|[yp yw] yb IHy]; [reflexivity|]. cbn [map flat_map fst snd]. rewrite combine_app_len by (rewrite !map_length; reflexivity).
  pose proof (HY (yp, yw) (or_introl eq_refl)) as HQ. cbn [fst] in HQ.
  rewrite IHy by (intros pw H; apply HY; now right). change ((pix2 (Z.of_nat Ny) xp yp, dmul xw yw) :: ?l) with ([(pix2 (Z.of_nat Ny) xp yp, dmul xw yw)] ++ l). rewrite entries_2d_app. f_equal.
  rewrite entries_2d_d_prod. cbn [list_prod]. rewrite app_nil_r, map_map. cbn [fst snd]. clear IHy HY. induction zb as [|[zp zw] zb IHz]; [reflexivity|]. cbn [map combine fst snd]. rewrite IHz. f_equal. f_equal.
  unfold pix2. destruct (Z.eqb_spec xp (-1)); cbn [negb andb]; [reflexivity|]. destruct (Z.eqb_spec yp (-1)); cbn [negb andb]; [reflexivity|].
  replace (yp + Z.of_nat Ny * xp =? -1)%Z with false by (symmetry; apply Z.eqb_neq; nia). reflexivity.
Qed.
