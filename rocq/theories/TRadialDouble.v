(** * Theorems: radial profiles in double precision (C92) *)

From Coq Require Import Reals ZArith List Bool Lia Lra Psatz Permutation.
From Flocq Require Import Core IEEE754.BinarySingleNaN.
From Verif Require Import PPolarCoords TDenseDouble Base BaseP SpecGrid SpecRemap PGrids MHealpixFloat PHealpixFloat SpecDouble MDouble PDouble
  MRemapDouble MGridsDouble PGridsDouble MSumDouble PSumDouble PDense PDenseDouble PRemap2 PRadial MOneDDouble PRebinDouble PRebinDouble2 PRebinDouble3 PRebinDouble4 SpecSigmaDouble PSigmaDouble PSigmaDouble2 PSigmaDouble3 PSigmaDouble4
  PPiDouble SpecRadialDouble MRadialDouble PRadialDouble PRadialDouble2 PRadialDouble3 PRadialDouble4.
Import ListNotations.
Open Scope R_scope.

(** ** Lemmas *)

Lemma plain_nth : forall o n c f area2d pix sigma j, grid_d f n c -> (j < c)%nat -> nth j (fst (polar2radial_d o c f area2d pix sigma None)) dzero = ddiv (sum_d o (tab n (fun i => pixel f i j))) (dint (Z.of_nat n)).
Proof.
  intros o n c f area2d pix sigma j G Hj. pose proof G as [L _]. unfold polar2radial_d. cbv zeta. cbn [fst].
  assert (HL : (j < length (sum_axis0_d o c f))%nat) by (rewrite axis0_length; exact Hj).
  refine (eq_trans (nth_map_lt _ _ (fun s => ddiv s (dint (Z.of_nat (length f)))) (sum_axis0_d o c f) j dzero dzero HL) _). cbv beta. rewrite (axis0 o c f n) by auto. now rewrite <- L.
Qed.

Lemma weighted_nth : forall o n c f w area2d pix sigma j, grid_d f n c -> grid_d w n c -> (j < c)%nat ->
  nth j (fst (polar2radial_d o c f area2d pix sigma (Some w))) dzero = ddiv (sum_d o (tab n (fun i => dmul (pixel f i j) (pixel w i j)))) (sum_d o (tab n (fun i => pixel w i j))).
Proof.
  intros o n c f w area2d pix sigma j G Gw Hj. unfold polar2radial_d. cbv zeta. cbn [fst].
  assert (HL : (j < length (sum_axis0_d o c (zip2_d dmul f w)))%nat) by (rewrite axis0_length; exact Hj). assert (HW : (j < length (sum_axis0_d o c w))%nat) by (rewrite axis0_length; exact Hj).
  refine (eq_trans (nth_map2 _ _ _ ddiv (sum_axis0_d o c (zip2_d dmul f w)) (sum_axis0_d o c w) j dzero dzero dzero HL HW) _). f_equal; [|now apply axis0].
  rewrite (axis0 o c _ n) by (auto; now apply zip_grid). f_equal. apply tab_ext. intros i Hi. now apply (zip_pixel dmul f w n c).
Qed.

Lemma plain_error_nth : forall o n c f area2d pix sigma j, grid_d f n c -> grid_d area2d n c -> grid_d sigma n c -> (j < c)%nat ->
  exists e, snd (polar2radial_d o c f area2d pix (Some sigma) None) = Some e /\ length e = c /\
    nth j e dzero = dsqrt (ddiv (sum_d o (tab n (fun i => dmul (ddiv pix (pixel area2d i j)) (sq (pixel sigma i j))))) (sq (dint (Z.of_nat n)))).
Proof.
  intros o n c f area2d pix sigma j G Ga Gs Hj. pose proof G as [L _]. unfold polar2radial_d. cbv zeta. cbn [snd option_map]. eexists. split; [reflexivity|].
  split; [rewrite map_length; apply axis0_length|]. set (S0 := sum_axis0_d o c _). assert (HL : (j < length S0)%nat) by (unfold S0; rewrite axis0_length; exact Hj).
  refine (eq_trans (nth_map_lt _ _ (fun s => dsqrt (ddiv s (sq (dint (Z.of_nat (length f)))))) S0 j dzero dzero HL) _). cbv beta. unfold S0. replace (length f) with n by (now rewrite <- L). f_equal. f_equal.
  pose proof (map_grid (fun a => ddiv pix a) area2d n c Ga) as G1. pose proof (map_grid sq sigma n c Gs) as G2.
  rewrite (axis0 o c _ n) by (auto; now apply zip_grid). f_equal. apply tab_ext. intros i Hi. rewrite (zip_pixel dmul _ _ n c) by auto. f_equal; apply (map_pixel _ _ n c); auto.
Qed.

Lemma weighted_error_nth : forall o n c f w area2d pix sigma j, grid_d f n c -> grid_d w n c -> grid_d area2d n c -> grid_d sigma n c -> (j < c)%nat ->
  exists e, snd (polar2radial_d o c f area2d pix (Some sigma) (Some w)) = Some e /\ length e = c /\
    nth j e dzero = dsqrt (ddiv (sum_d o (tab n (fun i => dmul (ddiv pix (pixel area2d i j)) (sq (dmul (pixel w i j) (pixel sigma i j)))))) (sq (sum_d o (tab n (fun i => pixel w i j))))).
Proof.
  intros o n c f w area2d pix sigma j G Gw Ga Gs Hj. unfold polar2radial_d. cbv zeta. cbn [snd option_map]. eexists. split; [reflexivity|].
  split; [rewrite map2_length, !axis0_length; lia|].
  set (S0 := sum_axis0_d o c (zip2_d _ _ _)). assert (HL : (j < length S0)%nat) by (unfold S0; rewrite axis0_length; exact Hj). assert (HW : (j < length (sum_axis0_d o c w))%nat) by (rewrite axis0_length; exact Hj).
  refine (eq_trans (nth_map2 _ _ _ (fun s sw => dsqrt (ddiv s (sq sw))) S0 (sum_axis0_d o c w) j dzero dzero dzero HL HW) _). cbv beta. unfold S0. f_equal. f_equal; [|f_equal; now apply axis0].
  pose proof (map_grid (fun a => ddiv pix a) area2d n c Ga) as G1. pose proof (zip_grid dmul w sigma n c Gw Gs) as G0. pose proof (map_grid sq _ n c G0) as G2.
  rewrite (axis0 o c _ n) by (auto; now apply zip_grid). f_equal. apply tab_ext. intros i Hi. rewrite (zip_pixel dmul _ _ n c) by auto. f_equal; [apply (map_pixel _ _ n c); auto|].
  rewrite (map_pixel sq _ n c) by auto. f_equal. now apply (zip_pixel dmul _ _ n c).
Qed.

Lemma zero_over_zero : forall x y, fin x -> val x = 0 -> fin y -> val y = 0 -> is_nan (ddiv x y) = true.
Proof. intros x y Fx Vx Fy Vy. destruct (val_0 _ Fx Vx) as (s & ->). destruct (val_0 _ Fy Vy) as (s' & ->). reflexivity. Qed.

Lemma u_52 : 2 * u = b2 (-52).
Proof. unfold u. change (-52)%Z with (1 + -53)%Z. rewrite bpow_plus. reflexivity. Qed.

(** ** Means over rings *)

(** Without weights: within [(n + 1) 2^-52] of the mean of the ring, relative to
    a bound on its pixels.  Other rings may hold anything. *)
Theorem C92_mean : forall o n c f area2d pix sigma j M, order_ok o -> grid_d f n c -> (1 <= n)%nat -> INR n <= b2 20 -> (j < c)%nat ->
  b2 (-900) <= M <= b2 900 -> (forall x, In x (column_d f j) -> fin x /\ Rabs (val x) <= M) ->
  let out := fst (polar2radial_d o c f area2d pix sigma None) in
  length out = c /\ fin (nth j out dzero) /\ Rabs (val (nth j out dzero) - total n (fun i => val (pixel f i j)) / INR n) <= (INR n + 1) * b2 (-52) * M.
Proof.
  intros o n c f area2d pix sigma j M O G Hn Hn20 Hj HM H out. split; [unfold out, polar2radial_d; cbn [fst]; rewrite map_length; apply axis0_length|].
  unfold out. rewrite (plain_nth o n) by auto. rewrite (col_tab f n c) in H by exact G.
  destruct (radial_mean o n (fun i => pixel f i j) M O Hn Hn20 HM) as [F E]; [intros i Hi; apply H; unfold tab; apply in_map_iff; exists i; split; [reflexivity|apply in_seq; lia]|].
  split; [exact F|]. apply Rle_trans with (1 := E). rewrite <- u_52. apply Req_le. ring.
Qed.
Print Assumptions C92_mean.

(** With weights, zero or between 2^-300 and 2^300. *)
Theorem C92_weighted : forall o n c f w area2d pix sigma j M, order_ok o -> grid_d f n c -> grid_d w n c -> (1 <= n)%nat -> INR n <= b2 20 -> (j < c)%nat ->
  b2 (-300) <= M <= b2 300 -> (forall x, In x (column_d f j) -> fin x /\ Rabs (val x) <= M) -> (forall x, In x (column_d w j) -> sized (-300) 300 x /\ 0 <= val x) ->
  let out := fst (polar2radial_d o c f area2d pix sigma (Some w)) in let W := total n (fun i => val (pixel w i j)) in
  length out = c /\ (is_nan (nth j out dzero) = true <-> W = 0) /\
  (W <> 0 -> fin (nth j out dzero) /\ Rabs (val (nth j out dzero) - total n (fun i => val (pixel f i j) * val (pixel w i j)) / W) <= (3 * INR n + 12) * b2 (-52) * M).
Proof.
  intros o n c f w area2d pix sigma j M O G Gw Hn Hn20 Hj HM Hf Hw out W. split; [unfold out, polar2radial_d; cbn [fst]; rewrite map2_length, !axis0_length; lia|].
  unfold out. rewrite (weighted_nth o n) by auto. rewrite (col_tab f n c) in Hf by exact G. rewrite (col_tab w n c) in Hw by exact Gw.
  assert (IN : forall i, (i < n)%nat -> In i (seq 0 n)) by (intros i Hi; apply in_seq; lia).
  assert (Ff : forall i, (i < n)%nat -> fin (pixel f i j) /\ Rabs (val (pixel f i j)) <= M) by (intros i Hi; apply Hf; unfold tab; apply in_map_iff; exists i; auto).
  assert (Fw : forall i, (i < n)%nat -> sized (-300) 300 (pixel w i j) /\ 0 <= val (pixel w i j)) by (intros i Hi; apply Hw; unfold tab; apply in_map_iff; exists i; auto).
  assert (PW : 0 <= W) by (apply total_pos; intros i Hi; apply Fw, Hi). pose proof (bpow_gt_0 radix2 (-300)) as P3.
  assert (SW : sum_upto n (fun i => val (pixel w i j)) = W) by (symmetry; apply total_sum).
  assert (NZ : W <> 0 -> fin (ddiv (sum_d o (tab n (fun i => dmul (pixel f i j) (pixel w i j)))) (sum_d o (tab n (fun i => pixel w i j)))) /\
     Rabs (val (ddiv (sum_d o (tab n (fun i => dmul (pixel f i j) (pixel w i j)))) (sum_d o (tab n (fun i => pixel w i j)))) - total n (fun i => val (pixel f i j) * val (pixel w i j)) / W) <= (3 * INR n + 12) * b2 (-52) * M).
  { intros NZ. destruct (mean_err o n (fun i => pixel w i j) (fun i => pixel f i j) (fun i => val (pixel w i j)) (fun i => val (pixel f i j)) (fun _ => M) 0 O Hn Hn20) as [F E].
    - lra.
    - intros i Hi. destruct (Fw i Hi) as [[F R] P]. split; [exact F|]. rewrite Rminus_eq_0, Rabs_R0. pose proof u_pos. split; [nra|]. destruct R as [R|R]; [now left|right]. rewrite Rabs_pos_eq in R by exact P.
      split; [apply Rle_trans with (2 := proj1 R)|apply Rle_trans with (1 := proj2 R)]; apply bpow_le; lia.
    - intros i Hi. destruct (Ff i Hi) as [F R]. split; [exact F|]. rewrite Rminus_eq_0, Rabs_R0. split; [lra|]. split; [exact R|exact HM].
    - rewrite SW. lra.
    - rewrite SW in E. replace (tab n (fun i => dmul (pixel f i j) (pixel w i j))) with (tab n (fun i => dmul (pixel w i j) (pixel f i j))) by (apply tab_ext; intros; apply dmul_comm).
      split; [exact F|]. replace (total n (fun i => val (pixel f i j) * val (pixel w i j))) with (sum_upto n (fun i => val (pixel w i j) * val (pixel f i j))) by (symmetry; rewrite total_sum; apply sum_ext; intros; ring).
      apply Rle_trans with (1 := E). assert (T : sum_upto n (fun i => val (pixel w i j) * M) = W * M) by (rewrite <- SW, (Rmult_comm _ M), <- sum_scal; apply sum_ext; intros; ring).
      rewrite T, <- u_52. apply Req_le. field. lra. }
  split; [|exact NZ]. split.
  - intros N. destruct (Req_dec W 0) as [Z|Z]; [exact Z|]. destruct (NZ Z) as [F _]. destruct (ddiv _ _); discriminate.
  - intros Z. assert (Z0 : forall i, (i < n)%nat -> fin (pixel w i j) /\ val (pixel w i j) = 0).
    { intros i Hi. split; [apply (Fw i Hi)|]. destruct (Fw i Hi) as [_ [P|P]]; [exfalso|now symmetry].
      pose proof (Rsum_pos_in _ (fun i => val (pixel w i j)) (seq 0 n) i (fun a Ha => proj2 (Fw a ltac:(apply in_seq in Ha; lia))) (IN i Hi) P) as Q. change (0 < W) in Q. lra. }
    assert (ZS : forall x : nat -> double, (forall i, (i < n)%nat -> fin (x i) /\ val (x i) = 0) -> fin (sum_d o (tab n x)) /\ val (sum_d o (tab n x)) = 0).
    { intros x Hx. destruct (sum_lone o (tab n x) 0 O) as [F V]; [rewrite tab_length; lia|rewrite tab_nth by lia; apply Hx; lia| |].
      - intros i Hi _. rewrite tab_length in Hi. rewrite tab_nth by exact Hi. now apply Hx.
      - split; [exact F|]. rewrite V, tab_nth by lia. apply Hx. lia. }
    destruct (ZS (fun i => pixel w i j) Z0) as [F1 V1]. destruct (ZS (fun i => dmul (pixel f i j) (pixel w i j))) as [F2 V2].
    { intros i Hi. destruct (Z0 i Hi) as [F V]. destruct (Ff i Hi) as [F' _]. rewrite dmul_comm. destruct (val_0 _ F V) as (s & E). rewrite E. destruct (pixel f i j); try discriminate; split; reflexivity. }
    exact (zero_over_zero _ _ F2 V2 F1 V1).
Qed.
Print Assumptions C92_weighted.

(** A ring depends on its own pixels only. *)
Theorem C92_local : forall o n c f f' w w' area2d pix sigma j, grid_d f n c -> grid_d f' n c -> grid_d w n c -> grid_d w' n c -> (j < c)%nat ->
  column_d f j = column_d f' j -> column_d w j = column_d w' j ->
  nth j (fst (polar2radial_d o c f area2d pix sigma None)) dzero = nth j (fst (polar2radial_d o c f' area2d pix sigma None)) dzero /\
  nth j (fst (polar2radial_d o c f area2d pix sigma (Some w))) dzero = nth j (fst (polar2radial_d o c f' area2d pix sigma (Some w'))) dzero.
Proof.
  intros o n c f f' w w' area2d pix sigma j G G' Gw Gw' Hj E Ew. rewrite !(plain_nth o n), !(weighted_nth o n) by auto.
  rewrite (col_tab f n c), (col_tab f' n c) in E by auto. rewrite (col_tab w n c), (col_tab w' n c) in Ew by auto.
  assert (P : forall i, (i < n)%nat -> pixel f i j = pixel f' i j /\ pixel w i j = pixel w' i j).
  { intros i Hi. split; [apply (f_equal (fun l => nth i l dzero)) in E; rewrite !tab_nth in E by exact Hi; exact E|apply (f_equal (fun l => nth i l dzero)) in Ew; rewrite !tab_nth in Ew by exact Hi; exact Ew]. }
  split; f_equal; f_equal; try (rewrite E || rewrite Ew; reflexivity). apply tab_ext. intros i Hi. destruct (P i Hi) as [-> ->]. reflexivity.
Qed.
Print Assumptions C92_local.

(** Larger pixels, no smaller mean: for any order of summation, in doubles. *)
Theorem C92_monotone : forall o n c f f' area2d pix sigma j e, order_ok o -> grid_d f n c -> grid_d f' n c -> (1 <= n)%nat -> INR n <= b2 20 -> (j < c)%nat -> (0 <= e <= 900)%Z ->
  (forall i, (i < n)%nat -> fin (pixel f i j) /\ fin (pixel f' i j) /\ val (pixel f i j) <= val (pixel f' i j) /\ Rabs (val (pixel f i j)) <= b2 e /\ Rabs (val (pixel f' i j)) <= b2 e) ->
  val (nth j (fst (polar2radial_d o c f area2d pix sigma None)) dzero) <= val (nth j (fst (polar2radial_d o c f' area2d pix sigma None)) dzero).
Proof.
  intros o n c f f' area2d pix sigma j e O G G' Hn Hn20 Hj He H. rewrite !(plain_nth o n) by auto. destruct (mean_tab_mono o n (fun i => pixel f i j) (fun i => pixel f' i j) e O Hn Hn20 He H) as [_ M].
  unfold mean_d in M. rewrite !tab_length in M. exact M.
Qed.
Print Assumptions C92_monotone.

Lemma add_spoilt : forall x y, is_finite x = false \/ is_finite y = false -> is_finite (dadd x y) = false.
Proof. intros x y [H|H]; destruct x as [|[|]| |], y as [|[|]| |]; try discriminate; reflexivity. Qed.

Lemma sum_spoilt : forall o n (x : nat -> double) i, order_ok o -> (i < n)%nat -> is_finite (x i) = false -> is_finite (sum_d o (tab n x)) = false.
Proof.
  intros o n x i O Hi H. unfold sum_d. rewrite tab_length. assert (I : In i (leaves (o n))) by (apply (Permutation_in _ (Permutation_sym (O n))), in_seq; lia). revert I.
  induction (o n) as [|j|a IHa b IHb]; cbn [leaves add_up]; intros I; [destruct I| |].
  - destruct I as [-> |[]]. rewrite tab_nth by exact Hi. exact H.
  - apply add_spoilt. apply in_app_or in I. destruct I; [left|right]; auto.
Qed.

Lemma div_spoilt : forall x y, is_finite x = false -> is_finite (ddiv x y) = false.
Proof. intros x y H. destruct x, y; try discriminate; reflexivity. Qed.

Lemma mul_spoilt : forall x y, is_finite x = false -> is_finite (dmul x y) = false.
Proof. intros x y H. destruct x, y; try discriminate; reflexivity. Qed.

(** One pixel that is not finite: no finite mean for its ring, whatever the
    weights.  A NaN pixel gives NaN, and so does an infinite one of weight zero. *)
Theorem C92_spoilt : forall o n c f w area2d pix sigma i j, order_ok o -> grid_d f n c -> grid_d w n c -> (i < n)%nat -> (j < c)%nat -> is_finite (pixel f i j) = false ->
  is_finite (nth j (fst (polar2radial_d o c f area2d pix sigma None)) dzero) = false /\
  is_finite (nth j (fst (polar2radial_d o c f area2d pix sigma (Some w))) dzero) = false /\
  (is_nan (pixel f i j) = true -> is_nan (nth j (fst (polar2radial_d o c f area2d pix sigma None)) dzero) = true) /\
  (is_nan (pixel f i j) = true \/ fin (pixel w i j) /\ val (pixel w i j) = 0 -> is_nan (nth j (fst (polar2radial_d o c f area2d pix sigma (Some w))) dzero) = true).
Proof.
  intros o n c f w area2d pix sigma i j O G Gw Hi Hj N. rewrite (plain_nth o n), (weighted_nth o n) by auto.
  split; [apply div_spoilt, (sum_spoilt o n _ i O Hi), N|]. split; [apply div_spoilt, (sum_spoilt o n _ i O Hi), mul_spoilt, N|].
  split; intros H; apply nan_div, (sum_nan o _ i O); rewrite ?tab_length; auto; rewrite tab_nth by exact Hi; [exact H|].
  destruct H as [H|[F V]]; [destruct (pixel f i j), (pixel w i j); try discriminate; reflexivity|]. rewrite dmul_comm. now apply zero_mul_nonfin.
Qed.
Print Assumptions C92_spoilt.

(** User expectation: a weight of zero masks a bad pixel.  Violated: the ring is
    NaN although its other pixels are finite and have weight. *)
Theorem C92_mask_refuted : exists o f w, order_ok o /\ grid_d f 2 1 /\ grid_d w 2 1 /\ pixel f 0 0 = dint 1 /\ pixel w 0 0 = dint 1 /\ is_nan (pixel f 1 0) = true /\ pixel w 1 0 = dint 0 /\
  is_nan (nth 0 (fst (polar2radial_d o 1 f [] dzero None (Some w))) dzero) = true.
Proof.
  exists one_by_one, [[dint 1]; [dnan]], [[dint 1]; [dint 0]]. split; [apply one_by_one_ok|].
  assert (G : forall a b : double, grid_d [[a]; [b]] 2 1) by (intros a b; split; [reflexivity|]; intros row [<- |[<- |[]]]; reflexivity).
  split; [apply G|]. split; [apply G|]. split; [reflexivity|]. split; [reflexivity|]. split; [reflexivity|]. split; [reflexivity|].
  refine (proj2 (proj2 (proj2 (C92_spoilt one_by_one 2 1 [[dint 1]; [dnan]] [[dint 1]; [dint 0]] [] dzero None 1 0 one_by_one_ok (G _ _) (G _ _) _ _ eq_refl))) (or_introl eq_refl)); lia.
Qed.
Print Assumptions C92_mask_refuted.

(** ** Errors of the means *)

(** Areas, noise and weights zero or between 2^-100 and 2^100, areas positive. *)
Theorem C92_errors : forall o n c f area2d pix sigma j, order_ok o -> grid_d f n c -> grid_d area2d n c -> grid_d sigma n c -> (1 <= n)%nat -> INR n <= b2 20 -> (j < c)%nat ->
  sized (-100) 100 pix -> 0 <= val pix -> (forall x, In x (column_d area2d j) -> sized (-100) 100 x /\ 0 < val x) -> (forall x, In x (column_d sigma j) -> sized (-100) 100 x) ->
  exists e, snd (polar2radial_d o c f area2d pix (Some sigma) None) = Some e /\ length e = c /\
    relative ((INR n + 7) * b2 (-52)) (Some (sqrt (total n (fun i => val pix / val (pixel area2d i j) * val (pixel sigma i j) ^ 2)) / INR n)) (nth j e dzero).
Proof.
  intros o n c f area2d pix sigma j O G Ga Gs Hn Hn20 Hj Hp Pp Ha Hs. destruct (plain_error_nth o n c f area2d pix sigma j G Ga Gs Hj) as (e & E & L & N). exists e. split; [exact E|]. split; [exact L|]. rewrite N.
  rewrite (col_tab area2d n c) in Ha by exact Ga. rewrite (col_tab sigma n c) in Hs by exact Gs.
  assert (IN : forall (x : nat -> double) i, (i < n)%nat -> In (x i) (tab n x)) by (intros x i Hi; unfold tab; apply in_map_iff; exists i; split; [reflexivity|apply in_seq; lia]).
  pose proof (radial_error o n (fun i => dmul (ddiv pix (pixel area2d i j)) (sq (pixel sigma i j))) (fun i => val pix / val (pixel area2d i j) * val (pixel sigma i j) ^ 2) O Hn Hn20) as R.
  destruct (rel_err _ _ _ _ (few_n n (n + 7) Hn20 ltac:(lia)) (R ltac:(intros i Hi; destruct (Ha _ (IN (fun i => pixel area2d i j) i Hi)) as [A1 A2]; split; [apply var_entry; auto; [lra|apply Hs, (IN (fun i => pixel sigma i j) i Hi)]|now apply var_pos]))) as [F B].
  split; [exact F|]. apply Rle_trans with (1 := B). pose proof (INR_b n Hn). rewrite Rabs_pos_eq by (apply Rmult_le_pos; [apply sqrt_pos|left; apply Rinv_0_lt_compat; lra]).
  rewrite <- u_52, plus_INR. replace (INR 7) with 7 by (cbn; ring). apply Req_le. ring.
Qed.
Print Assumptions C92_errors.

Theorem C92_errors_weighted : forall o n c f w area2d pix sigma j, order_ok o -> grid_d f n c -> grid_d w n c -> grid_d area2d n c -> grid_d sigma n c -> INR n <= b2 20 -> (j < c)%nat ->
  sized (-100) 100 pix -> 0 <= val pix -> (forall x, In x (column_d area2d j) -> sized (-100) 100 x /\ 0 < val x) -> (forall x, In x (column_d sigma j) -> sized (-100) 100 x) ->
  (forall x, In x (column_d w j) -> sized (-100) 100 x /\ 0 <= val x) -> total n (fun i => val (pixel w i j)) <> 0 ->
  exists e, snd (polar2radial_d o c f area2d pix (Some sigma) (Some w)) = Some e /\ length e = c /\
    relative ((3 * INR n + 9) * b2 (-52)) (Some (sqrt (total n (fun i => val pix / val (pixel area2d i j) * (val (pixel w i j) * val (pixel sigma i j)) ^ 2)) / total n (fun i => val (pixel w i j)))) (nth j e dzero).
Proof.
  intros o n c f w area2d pix sigma j O G Gw Ga Gs Hn20 Hj Hp Pp Ha Hs Hw NZ. destruct (weighted_error_nth o n c f w area2d pix sigma j G Gw Ga Gs Hj) as (e & E & L & N). exists e. split; [exact E|]. split; [exact L|]. rewrite N.
  rewrite (col_tab area2d n c) in Ha by exact Ga. rewrite (col_tab sigma n c) in Hs by exact Gs. rewrite (col_tab w n c) in Hw by exact Gw.
  assert (IN : forall (x : nat -> double) i, (i < n)%nat -> In (x i) (tab n x)) by (intros x i Hi; unfold tab; apply in_map_iff; exists i; split; [reflexivity|apply in_seq; lia]).
  assert (Fw : forall i, (i < n)%nat -> sized (-100) 100 (pixel w i j) /\ 0 <= val (pixel w i j)) by (intros i Hi; apply Hw, (IN (fun i => pixel w i j) i Hi)).
  assert (PW : 0 <= total n (fun i => val (pixel w i j))) by (apply total_pos; intros i Hi; apply Fw, Hi).
  pose proof (radial_error_w o n (fun i => dmul (ddiv pix (pixel area2d i j)) (sq (dmul (pixel w i j) (pixel sigma i j)))) (fun i => pixel w i j) (fun i => val pix / val (pixel area2d i j) * (val (pixel w i j) * val (pixel sigma i j)) ^ 2) O Hn20) as R.
  destruct (rel_err _ _ _ _ (few_n n (3 * n + 9) Hn20 ltac:(lia)) (R ltac:(intros i Hi; destruct (Ha _ (IN (fun i => pixel area2d i j) i Hi)) as [A1 A2]; split; [apply var_entry_w; auto; [lra|apply Fw, Hi|apply Hs, (IN (fun i => pixel sigma i j) i Hi)]|now apply var_pos]) Fw NZ)) as [F B].
  split; [exact F|]. apply Rle_trans with (1 := B). rewrite Rabs_pos_eq by (apply Rmult_le_pos; [apply sqrt_pos|left; apply Rinv_0_lt_compat; lra]).
  rewrite <- u_52, plus_INR, mult_INR. replace (INR 9) with 9 by (cbn; ring). replace (INR 3) with 3 by (cbn; ring). apply Req_le. ring.
Qed.
Print Assumptions C92_errors_weighted.

(** ** Areas *)

(** Radii and angles zero or between 2^-40 and 2^50, rings no thinner than the
    [K]-th part of their outer radius: all rows alike, every pixel within
    [(2 K + 12) 2^-52] of its area. *)
Theorem C92_areas : forall (r p : list double) m K, length r = S m -> (2 <= length p)%nat -> (forall x, In x r -> sized (-40) 50 x) -> (forall x, In x p -> sized (-40) 50 x) -> (1 <= K)%nat -> INR K <= b2 20 ->
  (forall i, (i < m)%nat -> 0 <= val (nth i r dzero) < val (nth (S i) r dzero) /\ val (nth (S i) r dzero) <= INR K * (val (nth (S i) r dzero) - val (nth i r dzero))) ->
  val (nth 0 p dzero) <= val (nth 1 p dzero) ->
  exists a, get_polar_area2d_d r p = Ok a /\ grid_d a (length p - 1) m /\
    forall i j, (i < length p - 1)%nat -> (j < m)%nat -> relative ((2 * INR K + 12) * b2 (-52))
      (Some (PI * (val (nth (S j) r dzero) ^ 2 - val (nth j r dzero) ^ 2) * (val (nth 1 p dzero) - val (nth 0 p dzero)) / (2 * PI))) (pixel a i j).
Proof.
  intros r p m K Lr Lp Mr Mp K1 HK HI HP. unfold get_polar_area2d_d. rewrite (py_get_ok _ p 1 dzero), (py_get_ok _ p 0 dzero) by (unfold double in *; lia). cbn [bind Z.to_nat Pos.to_nat Pos.iter_op]. rewrite (ring_areas_tab r m Lr).
  eexists. split; [reflexivity|]. change (Pos.to_nat 1) with 1%nat. split.
  - split; [apply repeat_length|]. intros row Hr. apply repeat_spec in Hr. subst row. rewrite map_length. apply tab_length.
  - intros i j Hi Hj. unfold pixel. rewrite (nth_indep _ [] (map (fun x => ddiv (dmul x (dsub (nth 1 p dzero) (nth 0 p dzero))) twopi) (tab m (ring_area r)))) by (rewrite repeat_length; exact Hi). rewrite nth_repeat.
    assert (HL : (j < length (tab m (ring_area r)))%nat) by (rewrite tab_length; exact Hj).
    assert (PX : nth j (map (fun x => ddiv (dmul x (dsub (nth 1 p dzero) (nth 0 p dzero))) twopi) (tab m (ring_area r))) dzero = ddiv (dmul (ring_area r j) (dsub (nth 1 p dzero) (nth 0 p dzero))) twopi).
    { refine (eq_trans (nth_map_lt _ _ (fun x => ddiv (dmul x (dsub (nth 1 p dzero) (nth 0 p dzero))) twopi) (tab m (ring_area r)) j dzero dzero HL) _). cbv beta. now rewrite tab_nth by exact Hj. }
    set (row := map _ _) in *. change (nth j row (B754_zero false)) with (nth j row dzero). unfold double in *. rewrite PX. clear row PX.
    assert (M0 : mild (nth 0 p dzero)) by (apply Mp, nth_In; unfold double in *; lia). assert (M1 : mild (nth 1 p dzero)) by (apply Mp, nth_In; unfold double in *; lia).
    pose proof (polar_pixel_rel r m K Lr Mr HI K1 HK j _ _ Hj M0 M1) as R.
    destruct (rel_err _ _ _ _ (few_n K (2 * K + 12) HK ltac:(lia)) R) as [F B]. split; [exact F|]. pose proof PI_RGT_0 as PI0. pose proof (disc_pos r m K HI j Hj) as DP.
    assert (PV : 0 <= disc r j * (val (nth 1 p dzero) - val (nth 0 p dzero)) / (2 * PI)) by (apply Rmult_le_pos; [apply Rmult_le_pos; lra|left; apply Rinv_0_lt_compat; lra]).
    set (V := disc r j * _ / _) in *. rewrite (Rabs_pos_eq V PV) in B. refine (Rle_trans _ _ _ B _). refine (Rmult_le_compat_r V _ _ PV _).
    rewrite <- u_52, plus_INR, mult_INR. replace (INR 12) with 12 by (cbn; ring). replace (INR 2) with 2 by (cbn; ring). apply Req_le. ring.
Qed.
Print Assumptions C92_areas.

(** A pixel of a Cartesian grid, up to [6 2^-52] of its area. *)
Theorem C92_pixarea : forall (x y : list double), (2 <= length x)%nat -> (2 <= length y)%nat -> (forall a, In a x -> sized (-40) 50 a) -> (forall a, In a y -> sized (-40) 50 a) ->
  val (nth 0 x dzero) <= val (nth 1 x dzero) -> val (nth 0 y dzero) <= val (nth 1 y dzero) ->
  exists a, get_pixarea_d x y = Ok a /\ relative (6 * b2 (-52)) (Some ((val (nth 1 x dzero) - val (nth 0 x dzero)) * (val (nth 1 y dzero) - val (nth 0 y dzero)))) a.
Proof.
  intros x y Lx Ly Mx My Hx Hy. unfold get_pixarea_d. rewrite (py_get_ok _ x 1 dzero), (py_get_ok _ x 0 dzero), (py_get_ok _ y 1 dzero), (py_get_ok _ y 0 dzero) by lia. cbn [bind].
  change (Z.to_nat 1) with 1%nat. change (Z.to_nat 0) with 0%nat. eexists. split; [reflexivity|].
  assert (R : rel 6 184 (dmul (dsub (nth 1 x dzero) (nth 0 x dzero)) (dsub (nth 1 y dzero) (nth 0 y dzero))) ((val (nth 1 x dzero) - val (nth 0 x dzero)) * (val (nth 1 y dzero) - val (nth 0 y dzero)))).
  { apply (rel_mul 2 2 92 92); try lia; try (apply few_small; lia); apply rel_sub; ((apply Mx, nth_In; lia) || (apply My, nth_In; lia)). }
  destruct (rel_err _ _ _ _ (few_small 6 ltac:(lia)) R) as [F B]. split; [exact F|]. refine (Rle_trans _ _ _ B _). rewrite Rabs_pos_eq by (apply Rmult_le_pos; lra).
  refine (Rmult_le_compat_r _ _ _ _ _); [apply Rmult_le_pos; lra|]. rewrite <- u_52. replace (INR 6) with 6 by (cbn; ring). lra.
Qed.
Print Assumptions C92_pixarea.

(** ** Cumulative profiles *)

(** One value per edge, the first zero, the others that close to the sum over the
    rings inside, relative to the sum of sizes. *)
Theorem C92_cumulative : forall (r f : list double) m K, length r = S m -> length f = m -> INR m <= b2 20 -> (forall x, In x r -> sized (-40) 50 x) -> (1 <= K)%nat -> INR K <= b2 20 ->
  (forall i, (i < m)%nat -> 0 <= val (nth i r dzero) < val (nth (S i) r dzero) /\ val (nth (S i) r dzero) <= INR K * (val (nth (S i) r dzero) - val (nth i r dzero))) ->
  (forall x, In x f -> sized (-300) 300 x) ->
  exists out, cumulative_radial_d r f None = Ok (out, None) /\ length out = length r /\ nth 0 out dzero = dzero /\
    forall k, (1 <= k <= m)%nat -> fin (nth k out dzero) /\
      Rabs (val (nth k out dzero) - total k (fun i => PI * (val (nth (S i) r dzero) ^ 2 - val (nth i r dzero) ^ 2) * val (nth i f dzero))) <=
        (2 * INR K + INR k + 7) * b2 (-52) * total k (fun i => PI * (val (nth (S i) r dzero) ^ 2 - val (nth i r dzero) ^ 2) * Rabs (val (nth i f dzero))).
Proof.
  intros r f m K Lr Lf Hm Mr K1 HK HI Hf. rewrite (cumulative_ok r f None m Lr Lf I). cbn [option_map]. eexists. split; [reflexivity|]. split; [cbn [length]; rewrite cumsum_length, tab_length; now symmetry|]. split; [reflexivity|].
  intros k Hk. destruct k as [|k]; [lia|]. cbn [nth]. rewrite cumsum_tab by lia.
  destruct (cumulative_near r m K Lr Mr HI K1 HK (fun i => nth i f dzero) k Hm) as [F E]; [intros i Hi; apply Hf, nth_In; unfold double in *; lia|lia|]. split; [exact F|]. apply Rle_trans with (1 := E). apply Req_le. unfold disc.
  rewrite <- u_52, plus_INR, plus_INR, mult_INR. replace (INR 7) with 7 by (cbn; ring). replace (INR 2) with 2 by (cbn; ring). ring.
Qed.
Print Assumptions C92_cumulative.

(** The errors, added in quadrature. *)
Theorem C92_cumulative_errors : forall (r f s : list double) m K, length r = S m -> length f = m -> length s = m -> INR m <= b2 20 -> (forall x, In x r -> sized (-40) 50 x) -> (1 <= K)%nat -> INR K <= b2 20 ->
  (forall i, (i < m)%nat -> 0 <= val (nth i r dzero) < val (nth (S i) r dzero) /\ val (nth (S i) r dzero) <= INR K * (val (nth (S i) r dzero) - val (nth i r dzero))) ->
  (forall x, In x s -> sized (-100) 100 x) ->
  exists out e, cumulative_radial_d r f (Some s) = Ok (out, Some e) /\ cumulative_radial_d r f None = Ok (out, None) /\ length e = length r /\ nth 0 e dzero = dzero /\
    forall k, (1 <= k <= m)%nat -> relative ((2 * INR K + INR k + 10) * b2 (-52))
      (Some (sqrt (total k (fun i => (PI * (val (nth (S i) r dzero) ^ 2 - val (nth i r dzero) ^ 2) * val (nth i s dzero)) ^ 2)))) (nth k e dzero).
Proof.
  intros r f s m K Lr Lf Ls Hm Mr K1 HK HI Hs. rewrite (cumulative_ok r f (Some s) m Lr Lf Ls), (cumulative_ok r f None m Lr Lf I). cbn [option_map]. do 2 eexists. split; [reflexivity|]. split; [reflexivity|].
  split; [rewrite map_length; cbn [length]; rewrite cumsum_length, tab_length; now symmetry|]. split; [apply B2SF_inj; vm_compute; reflexivity|].
  intros k Hk. destruct k as [|k]; [lia|]. cbn [nth map]. rewrite (nth_map_lt _ _ dsqrt (cumsum_d (tab m (var_area r s))) k dzero dzero) by (rewrite cumsum_length, tab_length; lia). rewrite cumsum_tab by lia.
  pose proof (cumulative_error_rel r m K Lr Mr HI K1 HK s k Hm) as R. assert (Hk20 : INR k <= b2 20) by (apply Rle_trans with (2 := Hm); apply le_INR; lia).
  assert (FW : few (2 * K + 11 + k)) by (unfold few; apply Rle_trans with (2 := few_K K HK k 11 Hk20 ltac:(lia)); apply le_INR; lia).
  destruct (rel_err _ _ _ _ FW (R ltac:(intros i Hi; apply Hs, nth_In; unfold double in *; lia) ltac:(lia))) as [F B].
  split; [exact F|]. apply Rle_trans with (1 := B). rewrite Rabs_pos_eq by apply sqrt_pos. refine (Rmult_le_compat_r (sqrt _) _ _ (sqrt_pos _) _). rewrite <- u_52, !plus_INR, mult_INR, (S_INR k). replace (INR 11) with 11 by (cbn; ring). replace (INR 2) with 2 by (cbn; ring). apply Req_le. ring.
Qed.
Print Assumptions C92_cumulative_errors.

(** Non-decreasing radii in [0, 2^500] and finite values not below zero: in
    doubles the profile and its errors never decrease and are never NaN, also
    where they overflow. *)
Theorem C92_order : forall (r f s : list double) m, length r = S m -> length f = m -> length s = m -> all_fin r -> all_fin f -> all_fin s ->
  (forall i, (i < m)%nat -> 0 <= val (nth i r dzero) <= val (nth (S i) r dzero) /\ val (nth (S i) r dzero) <= b2 500) ->
  (forall x, In x f -> 0 <= val x) -> (forall x, In x s -> 0 <= val x) ->
  exists out e, cumulative_radial_d r f (Some s) = Ok (out, Some e) /\
    forall k, (k < m)%nat -> dle dzero (nth k out dzero) = true /\ dle (nth k out dzero) (nth (S k) out dzero) = true /\ dle dzero (nth k e dzero) = true /\ dle (nth k e dzero) (nth (S k) e dzero) = true.
Proof.
  intros r f s m Lr Lf Ls Fr Ff Fs HI Pf Ps. rewrite (cumulative_ok r f (Some s) m Lr Lf Ls). cbn [option_map]. do 2 eexists. split; [reflexivity|].
  assert (AR : forall i, (i < m)%nat -> fin (ring_area r i) /\ 0 <= val (ring_area r i)).
  { intros i Hi. destruct (HI i Hi) as [H1 H2]. apply area_order; auto; apply Fr, nth_In; unfold double in *; lia. }
  assert (NF : forall v : list double, length v = m -> all_fin v -> (forall x, In x v -> 0 <= val x) -> forall i, (i < m)%nat -> nonneg (dmul (ring_area r i) (nth i v dzero))).
  { intros v Lv Fv Pv i Hi. destruct (AR i Hi). apply mul_order; auto; [apply Fv|apply Pv]; apply nth_In; unfold double in *; lia. }
  assert (Z0 : nonneg dzero) by reflexivity.
  assert (CS : forall x : nat -> double, (forall i, (i < m)%nat -> nonneg (x i)) -> forall k, (k < m)%nat -> nonneg (nth k (dzero :: cumsum_d (tab m x)) dzero) /\ dle (nth k (dzero :: cumsum_d (tab m x)) dzero) (nth (S k) (dzero :: cumsum_d (tab m x)) dzero) = true).
  { intros x Hx k Hk. assert (IN : forall y, In y (tab m x) -> nonneg y) by (intros y Hy; unfold tab in Hy; apply in_map_iff in Hy; destruct Hy as (i & <- & Hi); apply in_seq in Hi; apply Hx; lia).
    destruct k as [|k]; cbn [nth].
    - split; [exact Z0|]. apply (cumsum_order _ IN). rewrite tab_length. lia.
    - split; apply (cumsum_order _ IN); rewrite tab_length; lia. }
  assert (NV : forall i, (i < m)%nat -> nonneg (var_area r s i)).
  { intros i Hi. unfold var_area. pose proof (NF s Ls Fs Ps i Hi) as N. apply sq_order; [|exact N]. destruct (nonneg_cases _ N) as [[F _]| ->]; [|reflexivity]. destruct (dmul _ _); try discriminate; reflexivity. }
  intros k Hk. destruct (CS _ (NF f Lf Ff Pf) k Hk) as [C1 C2]. destruct (CS _ NV k Hk) as [D1 D2]. split; [exact C1|]. split; [exact C2|].
  assert (D3 : nonneg (nth (S k) (dzero :: cumsum_d (tab m (var_area r s))) dzero)).
  { cbn [nth]. apply (cumsum_order (tab m (var_area r s))); [|rewrite tab_length; exact Hk]. intros y Hy. unfold tab in Hy. apply in_map_iff in Hy. destruct Hy as (i & <- & Hi). apply in_seq in Hi. apply NV. lia. }
  rewrite !(nth_map_lt _ _ dsqrt (dzero :: cumsum_d (tab m (var_area r s))) _ dzero dzero) by (cbn [length]; rewrite cumsum_length, tab_length; lia). now apply sqrt_order.
Qed.
Print Assumptions C92_order.

(** A profile must have one value per ring, or a single one. *)
Theorem C92_lengths : forall (r f : list double) m, length r = S m -> cumulative_radial_d r f None = Err ValueError <-> length f <> m /\ length f <> 1%nat.
Proof.
  intros r f m Lr. split.
  - intros H. split.
    + intros E. rewrite (cumulative_ok r f None m Lr E I) in H. discriminate.
    + intros E. destruct f as [|y [|]]; try discriminate. unfold cumulative_radial_d in H. cbv zeta in H. rewrite (ring_areas_tab r m Lr) in H.
      assert (B : exists l, bmul_d (tab m (ring_area r)) [y] = Ok l /\ length l = m).
      { destruct (Nat.eq_dec m 1) as [-> |N]; [eexists; split; [apply bmul_tab; reflexivity|apply tab_length]|]. unfold bmul_d. rewrite tab_length. cbn [length]. destruct (Nat.eqb_spec m 1) as [|_]; [lia|].
        destruct m as [|[|m]]; [eexists; split; reflexivity|lia|]. eexists. split; [reflexivity|]. rewrite map_length. apply tab_length. }
      destruct B as (l & B & LB). rewrite B in H. cbn [bind] in H. unfold double in *. rewrite Lr in H. rewrite set_tail_ok in H by (rewrite cumsum_length; exact LB). discriminate.
  - intros [H1 H2]. unfold cumulative_radial_d. cbv zeta. rewrite (ring_areas_tab r m Lr). unfold bmul_d. rewrite tab_length. unfold double in *.
    destruct (Nat.eqb_spec m (length f)) as [|_]; [lia|]. destruct (Nat.eq_dec m 1) as [-> |N].
    + cbn [tab seq map]. cbn [bind]. rewrite Lr. cbn [repeat]. unfold set_tail_d. rewrite cumsum_length, map_length. cbn [tl length]. destruct (Nat.eqb_spec (length f) 1) as [|_]; [lia|].
      destruct f as [|a [|b f]]; try (cbn in *; lia); reflexivity.
    + destruct m as [|[|m]]; [|lia|]; destruct f as [|a [|b f]]; try (cbn in *; lia); reflexivity.
Qed.
Print Assumptions C92_lengths.

(** A single value stands for a constant profile, a single error for equal
    errors. *)
Theorem C92_single : forall (r f : list double) m v s, length r = S m -> (1 <= m)%nat -> length f = m ->
  cumulative_radial_d r [v] None = cumulative_radial_d r (repeat v m) None /\ cumulative_radial_d r f (Some [s]) = cumulative_radial_d r f (Some (repeat s m)).
Proof.
  intros r f m v s Lr H1 Lf. assert (B : forall a y, bmul_d (tab m a) [y] = bmul_d (tab m a) (repeat y m)).
  { intros a y. destruct (Nat.eq_dec m 1) as [-> |N]; [reflexivity|]. rewrite (bmul_tab m a (repeat y m)) by apply repeat_length. unfold bmul_d. rewrite tab_length. cbn [length]. destruct (Nat.eqb_spec m 1) as [|_]; [lia|].
    pose proof (tab_length _ m a) as LT. destruct (tab m a) as [|x [|x' t]] eqn:E; [cbn in LT; lia|cbn in LT; lia|]. rewrite <- E, tab_map. f_equal. apply tab_ext. intros i Hi. f_equal. symmetry. apply nth_repeat_lt. exact Hi. }
  unfold cumulative_radial_d. cbv zeta. rewrite (ring_areas_tab r m Lr), !B. split; reflexivity.
Qed.
Print Assumptions C92_single.

(** ** Examples *)

Lemma sized_dint : forall lo hi z, (lo <= 0)%Z -> (Z.abs z < 2 ^ 53)%Z -> IZR (Z.abs z) <= b2 hi -> sized lo hi (dint z).
Proof.
  intros lo hi z Hlo Hz Hhi. destruct (dint_ok z ltac:(lia)) as [F V]. split; [exact F|]. rewrite V. destruct (Z.eq_dec z 0) as [-> |N]; [now left|right]. rewrite <- abs_IZR. split; [|exact Hhi].
  apply Rle_trans with (b2 0); [apply bpow_le; exact Hlo|]. change (b2 0) with 1. apply IZR_le. lia.
Qed.

Example C92_example : let r := map dint [0; 1; 3]%Z in let f := map dint [5; 2]%Z in let s := map dint [1; 2]%Z in let p := map dint [0; 1; 2]%Z in
  let g := [map dint [1; 2]%Z; map dint [3; 5]%Z] in let w := [map dint [1; 0]%Z; map dint [3; 0]%Z] in
  (forall x, In x r -> sized (-40) 50 x) /\ (forall x, In x p -> sized (-40) 50 x) /\ (forall x, In x f -> sized (-300) 300 x) /\ (forall x, In x s -> sized (-100) 100 x) /\
  (forall i, (i < 2)%nat -> 0 <= val (nth i r dzero) < val (nth (S i) r dzero) /\ val (nth (S i) r dzero) <= INR 2 * (val (nth (S i) r dzero) - val (nth i r dzero))) /\
  grid_d g 2 2 /\ grid_d w 2 2 /\
  (exists out e, cumulative_radial_d r f (Some s) = Ok (out, Some e) /\ map B2SF out = [SpecFloat.S754_zero false; SpecFloat.S754_finite false 8842797190035550 (-49); SpecFloat.S754_finite false 4642468524768664 (-46)] /\
    map B2SF e = [SpecFloat.S754_zero false; SpecFloat.S754_finite false 7074237752028440 (-51); SpecFloat.S754_finite false 7088041155889591 (-47)]) /\
  map B2SF (fst (polar2radial_d one_by_one 2 g g (dint 1) None None)) = [SpecFloat.S754_finite false 4503599627370496 (-51); SpecFloat.S754_finite false 7881299347898368 (-51)] /\
  map B2SF (fst (polar2radial_d one_by_one 2 g g (dint 1) None (Some w))) = [SpecFloat.S754_finite false 5629499534213120 (-51); SpecFloat.S754_nan].
Proof.
  intros r f s p g w.
  assert (S0 : forall lo hi l, (lo <= 0)%Z -> (5 <= hi)%Z -> (forall z, In z l -> (Z.abs z <= 5)%Z) -> forall x, In x (map dint l) -> sized lo hi x).
  { intros lo hi l Hlo Hhi Hl x Hx. apply in_map_iff in Hx. destruct Hx as (z & <- & Hz). specialize (Hl z Hz). apply sized_dint; [exact Hlo|lia|]. apply Rle_trans with (b2 5); [|apply bpow_le; exact Hhi]. change (b2 5) with 32. apply IZR_le. lia. }
  assert (VI : forall z, (0 <= z <= 9)%Z -> val (dint z) = IZR z) by (intros z Hz; apply dint_ok; lia).
  split; [apply S0; try lia; intros z Hz; cbn in Hz; lia|]. split; [apply S0; try lia; intros z Hz; cbn in Hz; lia|]. split; [apply S0; try lia; intros z Hz; cbn in Hz; lia|]. split; [apply S0; try lia; intros z Hz; cbn in Hz; lia|].
  split. { intros i Hi. unfold r. cbn [map]. destruct i as [|[|i]]; [| |lia]; cbn [nth]; rewrite !VI by lia; cbn [INR]; lra. }
  split; [split; [reflexivity|]; intros row [<- |[<- |[]]]; reflexivity|]. split; [split; [reflexivity|]; intros row [<- |[<- |[]]]; reflexivity|].
  split.
  - unfold r, f, s. rewrite (cumulative_ok (map dint [0; 1; 3]%Z) (map dint [5; 2]%Z) (Some (map dint [1; 2]%Z)) 2 eq_refl eq_refl eq_refl). do 2 eexists. split; [reflexivity|]. split; vm_compute; reflexivity.
  - split; vm_compute; reflexivity.
Qed.
