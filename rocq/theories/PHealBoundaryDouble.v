(** * Proofs about [MHealBoundaryDouble.v] *)

From Coq Require Import Reals ZArith List Bool Lia Lra Psatz.
From Flocq Require Import Core IEEE754.BinarySingleNaN.
From Verif Require Import Base BaseP Spec MHealpixIndex MHealpixBoundary PHealpixBoundary MHealpixFloat PHealpixFloat MIndexFloat SpecDouble MDouble PDouble PPiDouble PSumDouble MGridsDouble PGridsDouble TGridsDouble MRemapDouble PRemapDouble2 MHealCoordDouble PHealCoordDouble MHealRandomsDouble PHealRandomsDouble PHealRandomsDouble5 PHealRandomsDouble6 MHealBoundaryDouble.
Import ListNotations.
Open Scope R_scope.

(** The place of point [q] of [n] between the ends. *)
Definition share (n q : nat) : R := if (n <=? 1)%nat then 0 else INR q / INR (n - 1).

Lemma share_range : forall n q, (q < n)%nat -> 0 <= share n q <= 1.
Proof.
  intros n q H. unfold share. destruct (Nat.leb_spec n 1); [lra|]. assert (P : 1 <= INR (n - 1)) by (apply (le_INR 1); lia). assert (Q : 0 <= INR q <= INR (n - 1)) by (split; [apply pos_INR|apply le_INR; lia]).
  split; [apply Rmult_le_pos; [lra|apply Rlt_le, Rinv_0_lt_compat; lra]|]. apply Rmult_le_reg_r with (INR (n - 1)); [lra|]. unfold Rdiv. rewrite Rmult_assoc, Rinv_l by lra. lra.
Qed.

Lemma linspace_share : forall a b n q, (q < n)%nat -> nth q (linspace a b n) 0 = a + share n q * (b - a).
Proof.
  intros a b n q H. unfold share. destruct (Nat.leb_spec n 1).
  - replace n with 1%nat by lia. replace q with 0%nat by lia. cbn [linspace nth]. ring.
  - rewrite nth_linspace by lia. assert (1 <= INR (n - 1)) by (apply (le_INR 1); lia). field. lra.
Qed.

Lemma share_ends : forall n, share n 0 = 0 /\ ((2 <= n)%nat -> share n (n - 1) = 1).
Proof.
  intros n. unfold share. split; [destruct (n <=? 1)%nat; [reflexivity|cbn [INR]; unfold Rdiv; ring]|]. intro H. destruct (Nat.leb_spec n 1); [lia|]. assert (1 <= INR (n - 1)) by (apply (le_INR 1); lia). field. lra.
Qed.

(** [np.linspace] between two numbers of the plane. *)
Lemma line_ok : forall a b n, fin a -> fin b -> Rabs (val a) <= 7.15 -> Rabs (val b) <= 7.15 -> b2 (-30) <= val b - val a <= 0.81 -> (0 <= n <= 2 ^ 50)%Z ->
  exists l, linspace_d a b n = Ok l /\ length l = Z.to_nat n /\
    (forall q, (q < Z.to_nat n)%nat -> fin (nth q l dzero) /\ val a <= val (nth q l dzero) <= val b /\
       Rabs (val (nth q l dzero) - (val a + share (Z.to_nat n) q * (val b - val a))) <= 10.5 * u) /\
    (forall i j, (i <= j < Z.to_nat n)%nat -> val (nth i l dzero) <= val (nth j l dzero)) /\
    ((1 <= n)%Z -> val (nth 0 l dzero) = val a) /\ ((2 <= n)%Z -> nth (Z.to_nat n - 1) l dzero = b).
Proof.
  intros a b n Fa Fb Ba Bb D Hn. pose proof u_tiny as U. assert (P30 : 0 < b2 (-30)) by apply bpow_gt_0.
  destruct (Z.eq_dec n 0) as [->|N0]; [exists []; split; [reflexivity|]; split; [reflexivity|]; split; [intros q Hq; cbn in Hq; lia|]; split; [intros i j Hq; cbn in Hq; lia|]; split; intro; lia|].
  destruct (Z.eq_dec n 1) as [->|N1].
  - destruct (sub_near b a Fb Fa) as (Fs & Vs & _); [rewrite Rabs_pos_eq; lra|]. destruct (int_ok 0 ltac:(lia)) as [F0 V0].
    destruct (mul_near (dint 0) (dsub b a) F0 Fs) as (Fm & Vm & _); [rewrite V0, Rmult_0_l, Rabs_R0; lra|]. rewrite V0, Rmult_0_l, (fl_fmt 0 fmt_0) in Vm.
    destruct (add_near (dmul (dint 0) (dsub b a)) a Fm Fa) as (Fx & Vx & _); [rewrite Vm, Rplus_0_l; lra|]. rewrite Vm, Rplus_0_l, (fl_fmt (val a)) in Vx by apply fmt_val.
    exists [dadd (dmul (dint 0) (dsub b a)) a]. split; [reflexivity|]. split; [reflexivity|]. split.
    { intros q Hq. change (Z.to_nat 1) with 1%nat in *. replace q with 0%nat by lia. cbn [nth]. rewrite Vx. split; [exact Fx|]. split; [lra|]. change (share 1 0) with 0. replace (val a - (val a + 0 * (val b - val a))) with 0 by ring. rewrite Rabs_R0. lra. }
    split; [intros i j Hq; change (Z.to_nat 1) with 1%nat in *; replace i with 0%nat by lia; replace j with 0%nat by lia; lra|]. split; [intros _; exact Vx|intro; lia].
  - assert (BB : forall r, Rabs r <= 7.15 -> Rabs r <= b2 1021 /\ Rabs r <= b2 1022). { intros r Hr. assert (8 <= b2 1021) by (change 8 with (b2 3); apply bpow_le; lia). assert (8 <= b2 1022) by (change 8 with (b2 3); apply bpow_le; lia). lra. }
    assert (L9 : b2 (-960) <= b2 (-30)) by (apply bpow_le; lia).
    destruct (linspace_edges a b (n - 1) Fa Fb ltac:(apply (BB _ Ba)) ltac:(apply (BB _ Bb)) ltac:(right; lra) ltac:(lia)) as (e & E & L & Lb & L0 & I & O).
    replace (n - 1 + 1)%Z with n in E by lia. replace (S (Z.to_nat (n - 1))) with (Z.to_nat n) in L by lia. replace (Z.to_nat (n - 1)) with (Z.to_nat n - 1)%nat in * by lia.
    exists e. split; [exact E|]. split; [exact L|]. split; [|split; [intros i j Hq; apply O; lia|split; [intros _; exact L0|intros _; exact Lb]]].
    intros q Hq. destruct (I q ltac:(lia)) as (Fq & Bq & Eq). split; [exact Fq|]. split; [exact Bq|]. fold u in Eq. set (NN := Z.to_nat n) in *. unfold share. destruct (Nat.leb_spec NN 1) as [W|W]; [lia|].
    replace (INR (NN - 1)) with (IZR (n - 1)) by (rewrite INR_IZR_INZ; f_equal; lia). assert (1 <= IZR (n - 1)) by (apply IZR_le; lia).
    replace (INR q / IZR (n - 1) * (val b - val a)) with (INR q * ((val b - val a) / IZR (n - 1))) by (field; lra). eapply Rle_trans; [exact Eq|].
    assert (Hh : hull (val a) (val b) <= 7.15) by (unfold hull; apply Rmax_lub; lra). rewrite (Rmult_comm 10.5). apply Rmult_le_compat_l; lra.
Qed.

(** Lists of doubles near lists of reals. *)
Definition near_list (l : list double) (L : list R) : Prop :=
  length l = length L /\ forall q, (q < length l)%nat -> fin (nth q l dzero) /\ Rabs (val (nth q l dzero) - nth q L 0) <= 64 * u.

Lemma near_app : forall a b A B, near_list a A -> near_list b B -> near_list (a ++ b) (A ++ B).
Proof.
  intros a b A B [L1 H1] [L2 H2]. split; [rewrite !app_length; lia|]. intros q Hq. rewrite app_length in Hq. destruct (Nat.lt_ge_cases q (length a)) as [C|C].
  - rewrite !app_nth1 by lia. auto.
  - rewrite !app_nth2 by lia. rewrite <- L1. apply H2. lia.
Qed.
Lemma near_rev : forall a A, near_list a A -> near_list (rev a) (rev A).
Proof. intros a A [L H]. split; [rewrite !rev_length; exact L|]. intros q Hq. rewrite rev_length in Hq. rewrite !rev_nth by lia. rewrite <- L. apply H. lia. Qed.

Definition near_pair (r : res (list double * list double)) (R : res (list R * list R)) : Prop :=
  exists l m L M, r = Ok (l, m) /\ R = Ok (L, M) /\ near_list l L /\ near_list m M /\ length l = length m.

Lemma near_rev_if : forall b l m L M, near_list l L -> near_list m M -> length l = length m ->
  near_pair (Ok (rev_if_d b (l, m))) (Ok (rev_if b (L, M))).
Proof. intros [|] l m L M H1 H2 E; unfold rev_if_d, rev_if; cbn [fst snd]; do 4 eexists; (split; [reflexivity|]); (split; [reflexivity|]); [split; [apply near_rev, H1|]; split; [apply near_rev, H2|]; rewrite !rev_length; exact E|auto]. Qed.

(** Sums of three doubles. *)
Lemma up_sum : forall r dl yp R d yc, fin r -> fin dl -> fin yp -> Rabs (val r - R) <= 23 * u -> Rabs R <= d -> 0 < d <= 0.79 -> Rabs (val dl - d) <= 2 * u -> Rabs (val yp - yc) <= 32 * u -> Rabs yc <= 1.6 ->
  fin (dadd (dadd r dl) yp) /\ Rabs (val (dadd (dadd r dl) yp) - (R + d + yc)) <= 62 * u.
Proof.
  intros r dl yp R d yc Fr Fd Fy Er HR Hd Ed Ey Hy. pose proof u_tiny as U. apply Rabs_le_inv in Er, HR, Ed, Ey, Hy.
  assert (S1 : Rabs (val r + val dl) <= 1.6) by (apply Rabs_le; lra). destruct (add_near r dl Fr Fd) as (F1 & _ & E1); [lra|]. assert (K1 : u * Rabs (val r + val dl) <= u * 1.6) by (apply Rmult_le_compat_l; lra). assert (E1' := Rabs_le_inv _ _ E1). set (s := dadd r dl) in *.
  assert (S2 : Rabs (val s + val yp) <= 3.3) by (apply Rabs_le; lra). destruct (add_near s yp F1 Fy) as (F2 & _ & E2); [lra|]. assert (K2 : u * Rabs (val s + val yp) <= u * 3.3) by (apply Rmult_le_compat_l; lra). apply Rabs_le_inv in E2. split; [exact F2|]. apply Rabs_le. lra.
Qed.
Lemma dn_sum : forall r dl yp R d yc, fin r -> fin dl -> fin yp -> Rabs (val r - R) <= 23 * u -> Rabs R <= d -> 0 < d <= 0.79 -> Rabs (val dl - d) <= 2 * u -> Rabs (val yp - yc) <= 32 * u -> Rabs yc <= 1.6 ->
  fin (dadd (dsub r dl) yp) /\ Rabs (val (dadd (dsub r dl) yp) - (R - d + yc)) <= 62 * u.
Proof.
  intros r dl yp R d yc Fr Fd Fy Er HR Hd Ed Ey Hy. pose proof u_tiny as U. apply Rabs_le_inv in Er, HR, Ed, Ey, Hy.
  assert (S1 : Rabs (val r - val dl) <= 1.6) by (apply Rabs_le; lra). destruct (sub_near r dl Fr Fd) as (F1 & _ & E1); [lra|]. assert (K1 : u * Rabs (val r - val dl) <= u * 1.6) by (apply Rmult_le_compat_l; lra). assert (E1' := Rabs_le_inv _ _ E1). set (s := dsub r dl) in *.
  assert (S2 : Rabs (val s + val yp) <= 3.3) by (apply Rabs_le; lra). destruct (add_near s yp F1 Fy) as (F2 & _ & E2); [lra|]. assert (K2 : u * Rabs (val s + val yp) <= u * 3.3) by (apply Rmult_le_compat_l; lra). apply Rabs_le_inv in E2. split; [exact F2|]. apply Rabs_le. lra.
Qed.

Section Outline.
Variables (n p : Z) (xp yp : double) (xc yc : R).
Hypotheses (Hn : (1 <= n <= 27397078)%Z) (Hp : legal_pix n p) (Fx : fin xp) (Fy : fin yp)
  (Ef : pix2xy_fl p n = Ok (val xp, val yp)) (Ee : pix2xy p n = Ok (xc, yc)).

Let d := half_diag n.
Let dl := delta_d n.

Lemma frame : 0 <= val xp < 6.3 /\ Rabs (val xp - xc) <= 32 * u /\ Rabs (val yp - yc) <= 32 * u /\ Rabs yc <= 1.6 /\ fin dl /\ Rabs (val dl - d) <= 2 * u /\ b2 (-29) <= d <= 0.79.
Proof.
  destruct (centre_facts n p _ _ _ _ Hn Hp Ef Ee) as (i & j & _ & _ & _ & D1 & D2 & B1 & _ & B3). destruct pi_u as (A & B & C). destruct (delta_ok n ltac:(lia)) as (Fd & Bd & Ed). change (delta_d n) with dl in Fd, Bd, Ed. change (half_diag n) with d in Ed, B3.
  assert (N : 1 <= IZR n <= 27397078) by (split; apply IZR_le; lia). assert (Dn : d * IZR n = PI / 4) by (unfold d, half_diag; field; lra).
  assert (D0 : 0 < d) by (unfold d, half_diag; apply Rdiv_lt_0_compat; lra). assert (D9 : d <= 0.79) by (assert (d * 1 <= d * IZR n) by (apply Rmult_le_compat_l; lra); lra).
  assert (DL : b2 (-29) <= d). { change (b2 (-29)) with (/ 536870912). apply Rnot_lt_le. intro K. assert (d * IZR n <= / 536870912 * 27397078) by (apply Rmult_le_compat; lra). lra. }
  repeat split; try assumption; lra.
Qed.

(** The left ends and the right ends. *)
Lemma ends_ok : fin (dsub xp dl) /\ fin (dadd xp dl) /\ Rabs (val (dsub xp dl) - (val xp - d)) <= 9.2 * u /\ Rabs (val (dadd xp dl) - (val xp + d)) <= 9.2 * u.
Proof.
  destruct frame as (B1 & _ & _ & _ & Fd & Ed & Bd). pose proof u_tiny as U. pose proof (bpow_gt_0 radix2 (-29)). apply Rabs_le_inv in Ed.
  assert (S1 : Rabs (val xp - val dl) <= 7.1) by (apply Rabs_le; lra). assert (S2 : Rabs (val xp + val dl) <= 7.1) by (apply Rabs_le; lra).
  destruct (sub_near xp dl Fx Fd) as (F1 & _ & E1); [lra|]. destruct (add_near xp dl Fx Fd) as (F2 & _ & E2); [lra|].
  assert (u * Rabs (val xp - val dl) <= u * 7.1) by (apply Rmult_le_compat_l; lra). assert (u * Rabs (val xp + val dl) <= u * 7.1) by (apply Rmult_le_compat_l; lra). apply Rabs_le_inv in E1, E2. split; [exact F1|]. split; [exact F2|]. split; apply Rabs_le; lra.
Qed.

(** The abscissas of the sides. *)
Lemma left_ok : forall s, (0 <= s <= 2 ^ 50)%Z -> exists l, linspace_d (dsub xp dl) xp s = Ok l /\ length l = Z.to_nat s /\
  (forall q, (q < Z.to_nat s)%nat -> let X := nth q (linspace (xc - d) xc (Z.to_nat s)) 0 in
     fin (nth q l dzero) /\ Rabs (val (nth q l dzero) - val xp - (X - xc)) <= 22 * u /\ Rabs (X - xc) <= d) /\
  (forall i j, (i <= j < Z.to_nat s)%nat -> val (nth i l dzero) <= val (nth j l dzero)) /\
  (forall q, (q < Z.to_nat s)%nat -> val (nth q l dzero) <= val xp) /\
  ((1 <= s)%Z -> val (nth 0 l dzero) = val (dsub xp dl)) /\ ((2 <= s)%Z -> nth (Z.to_nat s - 1) l dzero = xp).
Proof.
  intros s Hs. destruct frame as (B1 & _ & _ & _ & Fd & Ed & Bd). destruct ends_ok as (F1 & F2 & E1 & E2). pose proof u_tiny as U. assert (P : 0 < b2 (-30)) by apply bpow_gt_0. assert (P2 : b2 (-29) = 2 * b2 (-30)) by (change (-29)%Z with (1 + -30)%Z; rewrite bpow_plus; reflexivity). assert (PU : 9.2 * u <= b2 (-30)) by (unfold u; change (b2 (-30)) with (b2 (23 + -53)); rewrite bpow_plus; apply Rmult_le_compat_r; [apply bpow_ge_0|change (b2 23) with 8388608; lra]).
  assert (E1' := Rabs_le_inv _ _ E1). set (a := dsub xp dl) in *. destruct (line_ok a xp s F1 Fx) as (l & E & L & I & O & L0 & L1); [apply Rabs_le; lra|apply Rabs_le; lra|lra|exact Hs|].
  exists l. split; [exact E|]. split; [exact L|]. split; [|split; [exact O|split; [intros q Hq; apply (I q Hq)|split; assumption]]].
  intros q Hq X. destruct (I q Hq) as (Fq & _ & Eq). unfold X. rewrite linspace_share by exact Hq. pose proof (share_range _ _ Hq) as SR. set (t := share (Z.to_nat s) q) in *. split; [exact Fq|]. split.
  - replace (val (nth q l dzero) - val xp - (xc - d + t * (xc - (xc - d)) - xc)) with ((val (nth q l dzero) - (val a + t * (val xp - val a))) + (1 - t) * (val a - (val xp - d))) by ring.
    replace (22 * u) with (10.5 * u + 1 * (11.5 * u)) by lra. apply abs_split; [exact Eq|]. apply abs_prod; [rewrite Rabs_pos_eq; lra|lra].
  - replace (xc - d + t * (xc - (xc - d)) - xc) with (- ((1 - t) * d)) by ring. rewrite Rabs_Ropp, Rabs_mult, (Rabs_pos_eq (1 - t)), (Rabs_pos_eq d) by lra. rewrite <- (Rmult_1_l d) at 2. apply Rmult_le_compat_r; lra.
Qed.
Lemma right_ok : forall s, (0 <= s <= 2 ^ 50)%Z -> exists l, linspace_d xp (dadd xp dl) s = Ok l /\ length l = Z.to_nat s /\
  (forall q, (q < Z.to_nat s)%nat -> let X := nth q (linspace xc (xc + d) (Z.to_nat s)) 0 in
     fin (nth q l dzero) /\ Rabs (val (nth q l dzero) - val xp - (X - xc)) <= 22 * u /\ Rabs (X - xc) <= d) /\
  (forall i j, (i <= j < Z.to_nat s)%nat -> val (nth i l dzero) <= val (nth j l dzero)) /\
  (forall q, (q < Z.to_nat s)%nat -> val xp <= val (nth q l dzero)) /\
  ((1 <= s)%Z -> val (nth 0 l dzero) = val xp) /\ ((2 <= s)%Z -> nth (Z.to_nat s - 1) l dzero = dadd xp dl).
Proof.
  intros s Hs. destruct frame as (B1 & _ & _ & _ & Fd & Ed & Bd). destruct ends_ok as (F1 & F2 & E1 & E2). pose proof u_tiny as U. assert (P : 0 < b2 (-30)) by apply bpow_gt_0. assert (P2 : b2 (-29) = 2 * b2 (-30)) by (change (-29)%Z with (1 + -30)%Z; rewrite bpow_plus; reflexivity). assert (PU : 9.2 * u <= b2 (-30)) by (unfold u; change (b2 (-30)) with (b2 (23 + -53)); rewrite bpow_plus; apply Rmult_le_compat_r; [apply bpow_ge_0|change (b2 23) with 8388608; lra]).
  assert (E2' := Rabs_le_inv _ _ E2). set (b := dadd xp dl) in *. destruct (line_ok xp b s Fx F2) as (l & E & L & I & O & L0 & L1); [apply Rabs_le; lra|apply Rabs_le; lra|lra|exact Hs|].
  exists l. split; [exact E|]. split; [exact L|]. split; [|split; [exact O|split; [intros q Hq; apply (I q Hq)|split; assumption]]].
  intros q Hq X. destruct (I q Hq) as (Fq & _ & Eq). unfold X. rewrite linspace_share by exact Hq. pose proof (share_range _ _ Hq) as SR. set (t := share (Z.to_nat s) q) in *. split; [exact Fq|]. split.
  - replace (val (nth q l dzero) - val xp - (xc + t * (xc + d - xc) - xc)) with ((val (nth q l dzero) - (val xp + t * (val b - val xp))) + t * (val b - (val xp + d))) by ring.
    replace (22 * u) with (10.5 * u + 1 * (11.5 * u)) by lra. apply abs_split; [exact Eq|]. apply abs_prod; [rewrite Rabs_pos_eq; lra|lra].
  - replace (xc + t * (xc + d - xc) - xc) with (t * d) by ring. rewrite Rabs_mult, (Rabs_pos_eq t), (Rabs_pos_eq d) by lra. rewrite <- (Rmult_1_l d) at 2. apply Rmult_le_compat_r; lra.
Qed.

(** The differences from the centre. *)
Lemma diff_ok : forall x T, fin x -> Rabs (val x - val xp - T) <= 22 * u -> Rabs T <= d ->
  fin (dsub x xp) /\ Rabs (val (dsub x xp) - T) <= 23 * u /\ fin (dadd (opp_d x) xp) /\ Rabs (val (dadd (opp_d x) xp) - - T) <= 23 * u.
Proof.
  intros x T F E HT. destruct frame as (B1 & _ & _ & _ & _ & _ & Bd). pose proof u_tiny as U. apply Rabs_le_inv in E, HT. assert (S : Rabs (val x - val xp) <= 0.8) by (apply Rabs_le; lra).
  destruct (sub_near x xp F Fx) as (F1 & _ & E1); [lra|]. destruct (flip_ok x xp F Fx ltac:(lra)) as [F2 V2]. assert (u * Rabs (val x - val xp) <= u * 0.8) by (apply Rmult_le_compat_l; lra). apply Rabs_le_inv in E1. split; [exact F1|]. split; [apply Rabs_le; lra|]. split; [exact F2|]. rewrite V2. apply Rabs_le; lra.
Qed.

Lemma side_near : forall s (l : list double) (L : list R) (f : double -> double) (F : R -> R), length l = s -> length L = s ->
  (forall q, (q < s)%nat -> let x := nth q l dzero in let X := nth q L 0 in fin x /\ Rabs (val x - val xp - (X - xc)) <= 22 * u /\ Rabs (X - xc) <= d) ->
  (forall x X, fin x -> Rabs (val x - val xp - (X - xc)) <= 22 * u -> Rabs (X - xc) <= d -> fin (f x) /\ Rabs (val (f x) - F X) <= 62 * u) ->
  near_list l L /\ near_list (map f l) (map F L).
Proof.
  intros s l L f F E1 E2 H HF. destruct frame as (_ & Dx & _). pose proof u_tiny as U. split.
  - split; [exact (eq_trans E1 (eq_sym E2))|]. intros q Hq. rewrite E1 in Hq. destruct (H q Hq) as (Fq & Eq & _). split; [exact Fq|]. apply Rabs_le_inv in Eq, Dx. apply Rabs_le. lra.
  - split; [rewrite !map_length; exact (eq_trans E1 (eq_sym E2))|]. intros q Hq. rewrite map_length, E1 in Hq. destruct (H q Hq) as (Fq & Eq & Bq). rewrite nth_map_lt with (d' := dzero) by lia. rewrite nth_map_lt with (d' := 0) by lia. destruct (HF _ _ Fq Eq Bq) as [K1 K2]. split; [exact K1|lra].
Qed.

Lemma sides_near : forall s b, (0 <= s <= 2 ^ 50)%Z ->
  near_pair (top_left_d xp yp n s b) (top_left p n s b) /\ near_pair (top_right_d xp yp n s b) (top_right p n s b) /\
  near_pair (bot_left_d xp yp n s b) (bot_left p n s b) /\ near_pair (bot_right_d xp yp n s b) (bot_right p n s b).
Proof.
  intros s b Hs. destruct frame as (_ & Dx & Dy & By & Fd & Ed & Bd). assert (Bd' : 0 < d <= 0.79) by (pose proof (bpow_gt_0 radix2 (-29)); lra).
  destruct (left_ok s Hs) as (l & E & L & I & _). destruct (right_ok s Hs) as (r & E' & L' & I' & _).
  assert (Eo : forall x y z, x - y - z = x - y - z) by reflexivity.
  unfold top_left_d, top_right_d, bot_left_d, bot_right_d, top_left, top_right, bot_left, bot_right. fold dl. rewrite E, E', Ee. cbn [bind]. rewrite !linspaceZ_ok by lia. cbn [bind]. change (get_delta n) with d.
  assert (LL : length (linspace (xc - d) xc (Z.to_nat s)) = Z.to_nat s) by apply length_linspace. assert (LR : length (linspace xc (xc + d) (Z.to_nat s)) = Z.to_nat s) by apply length_linspace.
  split; [|split; [|split]].
  - destruct (side_near (Z.to_nat s) l (linspace (xc - d) xc (Z.to_nat s)) (fun x => dadd (dadd (dsub x xp) dl) yp) (fun x => x - xc + d + yc) L LL I) as [N1 N2]; [|apply near_rev_if; [exact N1|exact N2|rewrite map_length; reflexivity]].
    intros x X F EX BX. destruct (diff_ok x _ F EX BX) as (G1 & G2 & _ & _). apply (up_sum _ dl yp (X - xc) d yc G1 Fd Fy G2 BX Bd' Ed Dy By).
  - destruct (side_near (Z.to_nat s) r (linspace xc (xc + d) (Z.to_nat s)) (fun x => dadd (dadd (dadd (opp_d x) xp) dl) yp) (fun x => - x + xc + d + yc) L' LR I') as [N1 N2]; [|apply near_rev_if; [exact N1|exact N2|rewrite map_length; reflexivity]].
    intros x X F EX BX. destruct (diff_ok x _ F EX BX) as (_ & _ & G1 & G2). replace (- X + xc + d + yc) with (- (X - xc) + d + yc) by ring. apply (up_sum _ dl yp (- (X - xc)) d yc G1 Fd Fy G2); try assumption. rewrite Rabs_Ropp. exact BX.
  - destruct (side_near (Z.to_nat s) l (linspace (xc - d) xc (Z.to_nat s)) (fun x => dadd (dsub (dadd (opp_d x) xp) dl) yp) (fun x => - x + xc - d + yc) L LL I) as [N1 N2]; [|apply near_rev_if; [exact N1|exact N2|rewrite map_length; reflexivity]].
    intros x X F EX BX. destruct (diff_ok x _ F EX BX) as (_ & _ & G1 & G2). replace (- X + xc - d + yc) with (- (X - xc) - d + yc) by ring. apply (dn_sum _ dl yp (- (X - xc)) d yc G1 Fd Fy G2); try assumption. rewrite Rabs_Ropp. exact BX.
  - destruct (side_near (Z.to_nat s) r (linspace xc (xc + d) (Z.to_nat s)) (fun x => dadd (dsub (dsub x xp) dl) yp) (fun x => x - xc - d + yc) L' LR I') as [N1 N2]; [|apply near_rev_if; [exact N1|exact N2|rewrite map_length; reflexivity]].
    intros x X F EX BX. destruct (diff_ok x _ F EX BX) as (G1 & G2 & _ & _). apply (dn_sum _ dl yp (X - xc) d yc G1 Fd Fy G2 BX Bd' Ed Dy By).
Qed.

Lemma join_near : forall r1 R1 r2 R2 b, near_pair r1 R1 -> near_pair r2 R2 ->
  near_pair (l <- r1 ;; r <- r2 ;; Ok (rev_if_d b (fst l ++ fst r, snd l ++ snd r))) (l <- R1 ;; r <- R2 ;; Ok (rev_if b (fst l ++ fst r, snd l ++ snd r))).
Proof.
  intros r1 R1 r2 R2 b (l1 & m1 & L1 & M1 & -> & -> & N1 & N2 & E1) (l2 & m2 & L2 & M2 & -> & -> & N3 & N4 & E2). cbn [bind fst snd]. apply near_rev_if; [apply near_app; assumption|apply near_app; assumption|rewrite !app_length; lia].
Qed.

Lemma halves_near : forall s b, (0 <= s <= 2 ^ 50)%Z -> near_pair (boundary_top_d xp yp n s b) (boundary_top p n s b) /\ near_pair (boundary_bot_d xp yp n s b) (boundary_bot p n s b).
Proof.
  intros s b Hs. pose proof (Z.quot_div_nonneg s 2 ltac:(lia) ltac:(lia)) as Q. assert (H1 : (0 <= Z.quot s 2 <= 2 ^ 50)%Z) by (rewrite Q; split; [apply Z.div_pos; lia|apply Z.div_le_upper_bound; lia]). assert (H2 : (0 <= s - Z.quot s 2 <= 2 ^ 50)%Z) by (rewrite Q in *; pose proof (Z.div_le_upper_bound s 2 s ltac:(lia) ltac:(lia)); lia).
  destruct (sides_near _ false H1) as (A1 & _ & A3 & _). destruct (sides_near _ false H2) as (_ & A2 & _ & A4). split; apply join_near; assumption.
Qed.

Lemma outline_near : forall s b, (0 <= s <= 2 ^ 50)%Z -> near_pair (boundary_d xp yp n s b) (boundary p n s b).
Proof.
  intros s b Hs. pose proof (Z.quot_div_nonneg s 2 ltac:(lia) ltac:(lia)) as Q. assert (H1 : (0 <= Z.quot s 2 <= 2 ^ 50)%Z) by (rewrite Q; split; [apply Z.div_pos; lia|apply Z.div_le_upper_bound; lia]). assert (H2 : (0 <= s - Z.quot s 2 <= 2 ^ 50)%Z) by (rewrite Q in *; pose proof (Z.div_le_upper_bound s 2 s ltac:(lia) ltac:(lia)); lia).
  destruct (halves_near _ false H1) as [A1 _]. destruct (halves_near _ true H2) as [_ A2]. apply join_near; assumption.
Qed.
End Outline.
