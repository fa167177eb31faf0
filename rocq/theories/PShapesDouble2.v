(** * Proofs about [MShapesDouble.v]: arcs and discs *)

From Coq Require Import Reals ZArith List Bool Lia Lra Psatz QArith Qreals Machin.
From Flocq Require Import Core IEEE754.BinarySingleNaN.
From Verif Require Import Base BaseP SpecShapes SpecShapesDouble MHealpixFloat PHealpixFloat SpecDouble SpecCoordsDouble MDouble PDouble PPiDouble PSumDouble MGridsDouble PGridsDouble TGridsDouble PTripDouble MCoordsDouble MShapesDouble PShapesDouble.
Import ListNotations.
Open Scope R_scope.

(** ** Coordinates of a point of an arc *)

Lemma arm0 : forall f fd r phi c R, near_on_circle f fd -> fin r -> 0 <= val r <= R -> b2 (-200) <= R <= b2 200 -> fin phi -> Rabs (val phi) <= 8 -> fin c -> Rabs (val c) <= b2 200 ->
  let x := dadd (dmul r (fd phi)) c in fin x /\ Rabs (val x - (val c + val r * f (val phi))) <= b2 (-50) * (R + Rabs (val c)).
Proof.
  intros f fd r phi c R N Fr Br BR Fp Hp Fc Bc x. destruct (N phi Fp Hp) as (Fg & Bg & Eg). set (g := fd phi) in *. assert (AG : Rabs (val g) <= 1) by (apply Rabs_le; lra).
  assert (Pr : Rabs (val r * val g) <= val r). { rewrite Rabs_mult, (Rabs_pos_eq (val r)) by lra. rewrite <- (Rmult_1_r (val r)) at 2. apply Rmult_le_compat_l; lra. }
  assert (Am : Rabs (fl (val r * val g)) <= val r) by (apply fl_abs_le; [apply fmt_val|exact Pr]).
  destruct (dmul_ok r g Fr Fg) as [Fm Vm]; [apply Rle_lt_trans with (b2 200); [lra|apply bpow_lt; lia]|]. set (m := dmul r g) in *. rewrite <- Vm in Am. pose proof (fl_mixed (val r * val g)) as M1. rewrite <- Vm in M1.
  assert (S1 : Rabs (val m + val c) <= R + Rabs (val c)) by (apply Rle_trans with (1 := Rabs_triang _ _); lra). assert (E201 : b2 201 = 2 * b2 200) by (change 201%Z with (1 + 200)%Z; rewrite bpow_plus; reflexivity).
  destruct (dadd_ok m c Fm Fc) as [Fx Vx]. { apply Rle_lt_trans with (b2 201); [|apply bpow_lt; lia]. apply fl_abs_le; [apply fmt_b2; lia|lra]. }
  fold x in Fx, Vx. split; [exact Fx|]. pose proof (add_err (val m) (val c) (fmt_val m) (fmt_val c)) as M2. rewrite <- Vx in M2.
  pose proof (few_sizes R (proj1 BR)) as T. assert (P70 : b2 (-70) <= / 1024) by (change (/ 1024) with (b2 (-10)); apply bpow_le; lia). pose proof (bpow_gt_0 radix2 (-70)) as Q70. assert (U : 0 < u) by apply u_pos. change (b2 (-53)) with u in T. assert (R0 : 0 <= u * R) by (apply Rmult_le_pos; pose proof (bpow_gt_0 radix2 (-200)); lra).
  assert (T' : b2 (-1075) <= / 1024 * (u * R)) by (rewrite Rmult_assoc in T; apply Rle_trans with (1 := T); apply Rmult_le_compat_r; lra).
  assert (E50 : b2 (-50) = 8 * u) by (unfold u; change (-50)%Z with (3 + -53)%Z; rewrite bpow_plus; reflexivity). assert (E52 : b2 (-52) = 2 * u) by (unfold u; change (-52)%Z with (1 + -53)%Z; rewrite bpow_plus; reflexivity). rewrite E50. rewrite E52 in Eg.
  assert (W1 : u * Rabs (val r * val g) <= u * R) by (apply Rmult_le_compat_l; lra). assert (W2 : u * Rabs (val m + val c) <= u * (R + Rabs (val c))) by (apply Rmult_le_compat_l; lra).
  assert (W3 : Rabs (val r * (val g - f (val phi))) <= R * (2 * u)) by (rewrite Rabs_mult, (Rabs_pos_eq (val r)) by lra; apply Rmult_le_compat; try lra; apply Rabs_pos).
  assert (Cu : 0 <= u * Rabs (val c)) by (apply Rmult_le_pos; [lra|apply Rabs_pos]).
  replace (val x - (val c + val r * f (val phi))) with ((val x - (val m + val c)) + (val m - val r * val g) + val r * (val g - f (val phi))) by ring. pose proof (Rabs_triang (val x - (val m + val c) + (val m - val r * val g)) (val r * (val g - f (val phi)))) as T1. pose proof (Rabs_triang (val x - (val m + val c)) (val m - val r * val g)) as T2. lra.
Qed.

Lemma polar_arr_nth : forall cosd sind r phi c0 c1 i, length r = length phi -> (i < length phi)%nat ->
  length (fst (polar2cart_arr_d cosd sind r phi c0 c1)) = length phi /\ length (snd (polar2cart_arr_d cosd sind r phi c0 c1)) = length phi /\
  nth i (fst (polar2cart_arr_d cosd sind r phi c0 c1)) dzero = dadd (dmul (nth i r dzero) (cosd (nth i phi dzero))) c0 /\
  nth i (snd (polar2cart_arr_d cosd sind r phi c0 c1)) dzero = dadd (dmul (nth i r dzero) (sind (nth i phi dzero))) c1.
Proof.
  intros cosd sind r phi c0 c1 i L Hi. unfold polar2cart_arr_d. cbn [fst snd]. rewrite !map_length, map2_length, L, Nat.min_id. do 2 (split; [reflexivity|]).
  assert (Lm : (i < length (map2 (fun a b => polar2cart_d cosd sind a b c0 c1) r phi))%nat) by (rewrite map2_length, L, Nat.min_id; exact Hi).
  rewrite !nth_map_lt with (d' := (dzero, dzero)) by exact Lm. rewrite !(nth_map2 _ _ _ _ r phi i dzero dzero (dzero, dzero)) by (rewrite ?L; exact Hi). split; reflexivity.
Qed.

Lemma polar_arr_length : forall cosd sind r phi c0 c1, length r = length phi ->
  length (fst (polar2cart_arr_d cosd sind r phi c0 c1)) = length phi /\ length (snd (polar2cart_arr_d cosd sind r phi c0 c1)) = length phi.
Proof. intros. unfold polar2cart_arr_d. cbn [fst snd]. rewrite !map_length, map2_length, H, Nat.min_id. auto. Qed.

Lemma err_size : forall a b, err (val a) (val b) <= b2 (-49) * size a b.
Proof.
  intros a b. unfold err, hull. fold (size a b). assert (E : b2 (-49) = 16 * b2 (-53)) by (change (-49)%Z with (4 + -53)%Z; rewrite bpow_plus; reflexivity). rewrite E. pose proof (bpow_gt_0 radix2 (-53)) as P.
  assert (A : Rabs (val a) <= size a b) by apply Rmax_l. assert (B : Rabs (val b) <= size a b) by apply Rmax_r. assert (D : Rabs (val b - val a) <= 2 * size a b) by (apply Rle_trans with (1 := Rabs_triang _ _); rewrite Rabs_Ropp; lra). pose proof (Rabs_pos (val a)).
  rewrite (Rmult_comm 16), Rmult_assoc. apply Rmult_le_compat_l; lra.
Qed.

(** ** The sine of [2 np.pi] *)

Lemma pi_gap : 1.1 * b2 (-53) < PI - tau / 2.
Proof.
  pose proof (PI_2_3_7_ineq 11) as [L _]. rewrite qsum_ok in L.
  assert (T : tau / 2 = Q2R (7074237752028440 # 2 ^ 51)). { unfold tau, Q2R. cbn [Qnum Qden]. change (-50)%Z with (-51 + 1)%Z. rewrite bpow_plus. change (b2 1) with 2. change (b2 (-51)) with (/ IZR (Zpos (2 ^ 51))). field. apply not_0_IZR. lia. }
  assert (B : 1.1 * b2 (-53) = Q2R (11 # (10 * 2 ^ 53))). { unfold Q2R. cbn [Qnum Qden]. change (b2 (-53)) with (/ IZR (Zpos (2 ^ 53))). rewrite Pos2Z.inj_mul, mult_IZR. field. apply not_0_IZR. lia. }
  assert (F : 4 = Q2R 4) by (unfold Q2R; cbn; field).
  assert (A1 : tau / 2 + 1.1 * b2 (-53) < 4 * Q2R (qsum 23)). { rewrite T, B, F, <- Q2R_mult, <- Q2R_plus. apply Qlt_Rlt. vm_compute. reflexivity. }
  change (S (2 * 11)) with 23%nat in L. lra.
Qed.

Lemma sin_tau : sin tau < - b2 (-52).
Proof.
  pose proof pi_gap as G. destruct pi_accuracy as [_ A]. assert (E : b2 (-52) = 2 * b2 (-53)) by (change (-52)%Z with (1 + -53)%Z; rewrite bpow_plus; reflexivity). rewrite E in *. pose proof (bpow_gt_0 radix2 (-53)) as P. set (v := b2 (-53)) in *.
  assert (S : v <= / 1024) by (unfold v; change (/ 1024) with (b2 (-10)); apply bpow_le; lia). set (e := 2 * PI - tau) in *. assert (B : 2.2 * v < e < 4 * v) by (unfold e; lra).
  assert (Q : sin tau = - sin e). { replace tau with (- e + 2 * IZR 1 * PI) by (unfold e; lra). rewrite <- sin_neg. change (2 * IZR 1 * PI) with (2 * INR 1 * PI). apply sin_period. }
  rewrite Q. destruct (pre_sin_bound e 0) as [L _]; [lra|lra|]. unfold sin_approx in L. cbn [sum_f_R0 Nat.mul Nat.add] in L. unfold sin_term in L. cbn in L.
  assert (e * e <= (4 * v) * (4 * v)) by (apply Rmult_le_compat; lra). assert (e * e * e <= / 64 * / 64 * e) by (apply Rmult_le_compat_r; [lra|]; apply Rmult_le_compat; lra).
  lra.
Qed.
