(** * Theorems: double-precision angles against the real number pi (C80, C81) *)

From Coq Require Import Reals ZArith List Bool Lia Lra Psatz.
From Flocq Require Import Core IEEE754.BinarySingleNaN.
From Verif Require Import Base MHealpixFloat SpecDouble MDouble PDouble PPiDouble TDouble.
Import ListNotations.
Open Scope R_scope.

Lemma tau_2pi : 0 < 2 * PI - tau < b2 (-51).
Proof.
  pose proof pi_accuracy. assert (b2 (-51) = 2 * b2 (-52)) by (change (-51)%Z with (1 + -52)%Z; rewrite bpow_plus; reflexivity). lra.
Qed.

(** The longitude is in the half-open range of true angles, and is the true
    direction up to [2^-50] plus the error of the library's [arctan2]. *)
Theorem C80_true_longitude : forall arctan2 arccos x y z c0 c1 c2 alpha delta, arctan2_ok arctan2 ->
  (forall v, In v [x; y; c0; c1] -> fin v /\ Rabs (val v) <= b2 1022) ->
  Rabs (val (arctan2 (dsub y c1) (dsub x c0)) - alpha) <= delta ->
  let phi := snd (fst (cart2sphere_d arctan2 arccos x y z c0 c1 c2)) in
  fin phi /\ 0 <= val phi < 2 * PI /\
  exists k, (0 <= k <= 1)%Z /\ Rabs (val phi - (alpha + IZR k * (2 * PI))) <= delta + b2 (-50).
Proof.
  intros f g x y z c0 c1 c2 alpha delta Hf HI HA phi. pose proof tau_2pi as TP. pose proof b2_51 as E51.
  destruct (C80_longitude f g x y z c0 c1 c2 Hf HI) as (E & F & R & _ & A). unfold phi. rewrite E. split; [exact F|]. split; [lra|].
  set (a := val (f (dsub y c1) (dsub x c0))) in *. set (p := val (snd (cart2polar_d f x y c0 c1))) in *. apply Rabs_le_inv in HA.
  destruct (Rlt_dec a 0); apply Rabs_le_inv in A; [exists 1%Z|exists 0%Z]; (split; [lia|]); apply Rabs_le; split; lra.
Qed.
Print Assumptions C80_true_longitude.

(** Shifting a longitude is the rotation of the circle of circumference [2 pi],
    up to [2^-49]. *)
Theorem C81_true_shift : forall phi dphi, fin phi -> 0 <= val phi <= tau -> fin dphi -> Rabs (val dphi) < tau ->
  exists s, phi_shift_d phi dphi = Ok s /\ fin s /\ 0 <= val s <= tau /\ val s < 2 * PI /\
    exists k, (-1 <= k <= 1)%Z /\ Rabs (val s - (val phi + val dphi + IZR k * (2 * PI))) <= b2 (-49).
Proof.
  intros phi dphi Fp Hp Fd Hd. pose proof tau_2pi as TP. pose proof b2_51 as E51.
  assert (E49 : b2 (-49) = 2 * b2 (-50)) by (change (-49)%Z with (1 + -50)%Z; rewrite bpow_plus; reflexivity).
  pose proof (C81_shift phi dphi Fp Hp Fd) as C. destruct (Rlt_dec (Rabs (val dphi)) tau); [|contradiction].
  destruct C as (s & E & F & R & k & Hk & A). exists s. split; [exact E|]. split; [exact F|]. split; [exact R|]. split; [lra|].
  exists k. split; [exact Hk|]. assert (K : -1 <= IZR k <= 1) by (split; apply IZR_le; lia).
  replace (val s - (val phi + val dphi + IZR k * (2 * PI))) with ((val s - (val phi + val dphi + IZR k * tau)) + - (IZR k * (2 * PI - tau))) by ring.
  apply Rabs_le_inv in A. apply Rabs_le. split; nra.
Qed.
Print Assumptions C81_true_shift.

(** Errors add up at most linearly over any number of shifts. *)
Theorem C81_true_many : forall ds phi, fin phi -> 0 <= val phi <= tau -> (forall d, In d ds -> fin d /\ Rabs (val d) < tau) ->
  exists s, shifts phi ds = Ok s /\ fin s /\ 0 <= val s < 2 * PI /\
    exists k, Rabs (val s - (val phi + fold_right Rplus 0 (map val ds) + IZR k * (2 * PI))) <= INR (length ds) * b2 (-49).
Proof.
  intros ds phi Fp Hp HD. cut (exists s, shifts phi ds = Ok s /\ fin s /\ 0 <= val s <= tau /\
    exists k, Rabs (val s - (val phi + fold_right Rplus 0 (map val ds) + IZR k * (2 * PI))) <= INR (length ds) * b2 (-49)).
  { intros (s & E & F & R & K). pose proof tau_2pi. exists s. repeat (split; [assumption|]). split; [lra|exact K]. }
  revert phi Fp Hp. induction ds as [|d ds IH]; intros phi Fp Hp.
  - exists phi. split; [reflexivity|]. split; [exact Fp|]. split; [exact Hp|]. exists 0%Z. cbn [map fold_right length INR].
    replace (val phi - (val phi + 0 + 0 * (2 * PI))) with 0 by ring. rewrite Rabs_R0. lra.
  - destruct (HD d (or_introl eq_refl)) as [Fd Ld]. destruct (C81_true_shift phi d Fp Hp Fd Ld) as (s & E & Fs & Rs & _ & k & _ & A).
    destruct (IH (fun q I => HD q (or_intror I)) s Fs Rs) as (s' & E' & Fs' & Rs' & k' & A').
    exists s'. cbn [shifts]. rewrite E. cbn [bind]. split; [exact E'|]. split; [exact Fs'|]. split; [exact Rs'|]. exists (k + k')%Z.
    cbn [map fold_right]. set (D := fold_right Rplus 0 (map val ds)) in *. change (length (d :: ds)) with (S (length ds)). rewrite S_INR, plus_IZR.
    replace (val s' - (val phi + (val d + D) + (IZR k + IZR k') * (2 * PI))) with ((val s' - (val s + D + IZR k' * (2 * PI))) + (val s - (val phi + val d + IZR k * (2 * PI)))) by ring.
    apply Rle_trans with (1 := Rabs_triang _ _). lra.
Qed.
Print Assumptions C81_true_many.

Example C81_true_example : fin twopi /\ 0 <= val twopi <= tau /\ (forall d, In d [pi_d; pi_d] -> fin d /\ Rabs (val d) < tau).
Proof.
  destruct twopi_val as [T1 T2]. destruct pi_val as [P1 P2]. pose proof tau_bounds. rewrite T2. split; [exact T1|]. split; [lra|].
  intros d [<- |[<- |[]]]; (split; [exact P1|rewrite P2, Rabs_pos_eq; lra]).
Qed.
