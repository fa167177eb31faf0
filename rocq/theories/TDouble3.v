(** * Theorems: radius of [cart2polar] (C80) and negative cell counts (C85)
      in double precision *)

From Coq Require Import Reals ZArith List Bool Lia Lra.
From Flocq Require Import Core IEEE754.BinarySingleNaN.
From Verif Require Import Base MHealpixFloat PHealpixFloat SpecDouble MDouble PDouble TDouble MGridsDouble.
Import ListNotations.
Open Scope R_scope.

Local Existing Instance p53.

(** The distance returned by [cart2polar] is finite and within a relative
    [2^-50] of the exact one. *)
Theorem C80_polar_radius : forall arctan2 x y c0 c1,
  (forall v, In v [x; y; c0; c1] -> fin v /\ Rabs (val v) <= b2 510) -> far x c0 \/ far y c1 ->
  let rho := sqrt ((val x - val c0) * (val x - val c0) + (val y - val c1) * (val y - val c1)) in
  fin (fst (cart2polar_d arctan2 x y c0 c1)) /\ Rabs (val (fst (cart2polar_d arctan2 x y c0 c1)) - rho) <= b2 (-50) * rho.
Proof.
  intros f x y c0 c1 HI HF rho.
  assert (HI' : forall v, In v [x; y; dzero; c0; c1; dzero] -> fin v /\ Rabs (val v) <= b2 510).
  { intros v [H|[H|[H|[H|[H|[H|[]]]]]]]; subst v; try (apply HI; cbn; auto 8; fail); (split; [apply fin_zero|rewrite val_zero, Rabs_R0; apply bpow_ge_0]). }
  pose proof (C80_radius f (fun _ => dzero) x y dzero c0 c1 dzero HI' ltac:(tauto)) as R. cbv zeta in R.
  rewrite val_zero in R. replace ((0 - 0) * (0 - 0)) with 0 in R by ring. rewrite Rplus_0_r in R.
  unfold cart2sphere_d in R. cbn [fst] in R. unfold cart2polar_d. cbn [fst].
  destruct (HI x) as [Fx Bx], (HI y) as [Fy By], (HI c0) as [F0 B0], (HI c1) as [F1 B1]; cbn; auto 8.
  destruct (moderate x c0) as (X1 & X2 & X3); auto. destruct (moderate y c1) as (Y1 & Y2 & Y3); auto.
  destruct (sq_ok _ X1 X3) as (X4 & X5 & X6). destruct (sq_ok _ Y1 Y3) as (Y4 & Y5 & Y6).
  assert (E23 : b2 1023 = 2 * b2 1022) by (change 1023%Z with (1 + 1022)%Z; rewrite bpow_plus; reflexivity).
  destruct (add_nonneg (sq (dsub x c0)) (sq (dsub y c1)) 1023) as (A1 & A2 & A3 & A4 & A5); auto; try lra; try lia.
  set (T := dadd (sq (dsub x c0)) (sq (dsub y c1))) in *.
  destruct (dsqrt_ok T A1) as [R1 R2]; [lra|]. split; [exact R1|].
  set (z := sq (dsub dzero dzero)) in *.
  assert (Z : fin z /\ val z = 0).
  { assert (E : B2SF z = SpecFloat.S754_zero false) by (vm_compute; reflexivity). unfold fin, val. destruct z; try discriminate. split; reflexivity. }
  destruct Z as [Z1 Z2].
  assert (Q : fl (val T + val z) = val T) by (rewrite Z2, Rplus_0_r; apply fl_fmt, fmt_val).
  assert (TB : val T < b2 1024).
  { rewrite <- (Rabs_pos_eq (val T)) by lra. apply abs_B2R_lt_emax. }
  destruct (dadd_ok T z A1 Z1) as [S1 S2]; [rewrite Q, Rabs_pos_eq by lra; exact TB|]. rewrite Q in S2.
  destruct (dsqrt_ok (dadd T z) S1) as [U1 U2]; [rewrite S2; lra|].
  rewrite R2. rewrite U2, S2 in R. exact R.
Qed.
Print Assumptions C80_polar_radius.

(** Non-trivial: a point at distance 1/2. *)
Example C80_polar_radius_example : forall v, In v [dbl 1 (-1); dzero; dzero; dzero] -> fin v /\ Rabs (val v) <= b2 510.
Proof.
  destruct C80_example as (F & B & _). intros v [<- |[<- |[<- |[<- |[]]]]]; try (split; assumption);
  (split; [apply fin_zero|rewrite val_zero, Rabs_R0; apply bpow_ge_0]).
Qed.

(** Cell counts below -1 are refused with [ValueError], whatever the box. *)
Theorem C85_negative : forall len n xmin, (n < -1)%Z ->
  get_xedges_d len n xmin = Err ValueError /\ grid1d_d len n xmin = Err ValueError.
Proof.
  intros len n xmin H. assert (G : get_xedges_d len n xmin = Err ValueError).
  { unfold get_xedges_d, linspace_d. cbv zeta. replace (n + 1 <? 0)%Z with true by (symmetry; apply Z.ltb_lt; lia). reflexivity. }
  split; [exact G|]. unfold grid1d_d. rewrite G. reflexivity.
Qed.
Print Assumptions C85_negative.

(** No cells leave the single edge [xmin], one cell fewer no edge at all;
    both give no mid-points. *)
Theorem C85_empty : forall len xmin, let lo := match xmin with None => dzero | Some x => x end in
  fin lo -> fin len -> Rabs (val lo) <= b2 1022 -> Rabs (val len) <= b2 1022 ->
  (exists e, grid1d_d len 0 xmin = Ok ([], [e]) /\ fin e /\ val e = val lo) /\ grid1d_d len (-1) xmin = Ok ([], []).
Proof.
  intros len xmin lo Fl Fn Bl Bn. split; [|reflexivity].
  unfold grid1d_d, get_xedges_d. fold lo. clearbody lo. unfold linspace_d. cbn -[dadd dsub dmul ddiv dint dzero deq].
  assert (E23 : b2 1023 = 2 * b2 1022) by (change 1023%Z with (1 + 1022)%Z; rewrite bpow_plus; reflexivity).
  eexists. split; [reflexivity|].
  assert (B1 : Rabs (fl (val lo + val len)) <= b2 1023).
  { apply abs_round_le_generic; auto with typeclass_instances; [apply (fmt_b2 1023); lia|]. apply Rle_trans with (1 := Rabs_triang _ _). lra. }
  destruct (dadd_ok lo len Fl Fn) as [A1 A2]; [apply Rle_lt_trans with (1 := B1); apply bpow_lt; lia|].
  set (hi := dadd lo len) in *.
  (* hi - lo <= 2^1023 + 2^1022 *)
  assert (F3 : fmt (3 * b2 1022)).
  { apply generic_format_FLT. exists (Float radix2 3 1022); cbn [Fnum Fexp]; [unfold F2R; cbn [Fnum Fexp]; ring|reflexivity|lia]. }
  assert (E24 : b2 1024 = 4 * b2 1022) by (change 1024%Z with (2 + 1022)%Z; rewrite bpow_plus; reflexivity).
  pose proof (bpow_gt_0 radix2 1022) as P.
  assert (B2 : Rabs (fl (val hi - val lo)) <= 3 * b2 1022).
  { apply abs_round_le_generic; auto with typeclass_instances. apply Rle_trans with (1 := Rabs_triang _ _). rewrite Rabs_Ropp, A2. lra. }
  destruct (dsub_ok hi lo A1 Fl) as [D1 D2]; [lra|]. set (delta := dsub hi lo) in *.
  assert (Z : fin (dint 0) /\ val (dint 0) = 0).
  { assert (E : B2SF (dint 0) = SpecFloat.S754_zero false) by (vm_compute; reflexivity). unfold fin, val. destruct (dint 0); try discriminate. split; reflexivity. }
  destruct Z as [Z1 Z2].
  assert (Q : fl (val (dint 0) * val delta) = 0) by (rewrite Z2, Rmult_0_l; apply fl_fmt, fmt_0).
  destruct (dmul_ok (dint 0) delta Z1 D1) as [M1 M2]; [rewrite Q, Rabs_R0; apply bpow_gt_0|]. rewrite Q in M2.
  assert (Q2 : fl (val (dmul (dint 0) delta) + val lo) = val lo) by (rewrite M2, Rplus_0_l; apply fl_fmt, fmt_val).
  destruct (dadd_ok (dmul (dint 0) delta) lo M1 Fl) as [S1 S2]; [rewrite Q2; apply abs_B2R_lt_emax|]. rewrite Q2 in S2. split; assumption.
Qed.
Print Assumptions C85_empty.
