(** * Theorems: rectangles, arcs and discs in double precision *)

From Coq Require Import Reals ZArith List Bool Lia Lra.
From Flocq Require Import Core IEEE754.BinarySingleNaN.
From Verif Require Import Base BaseP SpecShapes SpecShapesDouble MHealpixFloat PHealpixFloat SpecDouble SpecCoordsDouble MDouble PDouble PPiDouble PSumDouble MGridsDouble PGridsDouble TGridsDouble PTripDouble PLibmDouble MCoordsDouble MShapesDouble PShapesDouble PShapesDouble2.
Import ListNotations.
Open Scope R_scope.

Lemma err_sym : forall a b, err b a = err a b.
Proof. intros. unfold err, hull. rewrite Rmax_comm, Rabs_minus_sym. reflexivity. Qed.

Lemma const_near : forall m v i a b t, fin v -> (i < Z.to_nat m)%nat -> fin (nth i (ones_d m v) dzero) /\ Rabs (val (nth i (ones_d m v) dzero) - (val v + t * (val v - val v))) <= b2 (-49) * size a b.
Proof.
  intros m v i a b t F Hi. destruct (ones_ok m v F) as [_ O]. destruct (O i Hi) as [A B]. split; [exact A|]. rewrite B. replace (val v - (val v + t * (val v - val v))) with 0 by ring. rewrite Rabs_R0. apply Rmult_le_pos; [apply bpow_ge_0|]. apply Rle_trans with (Rabs (val a)); [apply Rabs_pos|apply Rmax_l].
Qed.

(** The points go round the rectangle in four sides of equally spaced points,
    to a few units in the last place of the larger limit. *)
Theorem C101_square : forall xmin xmax ymin ymax m, span_ok xmin xmax -> span_ok ymin ymax -> (1 <= m <= 2 ^ 50)%Z -> exists xs ys,
  get_square_d xmin xmax ymin ymax (4 * m) = Ok (xs, ys) /\ length xs = (4 * Z.to_nat m)%nat /\ length ys = (4 * Z.to_nat m)%nat /\
  forall k i, (k < 4)%nat -> (i < Z.to_nat m)%nat ->
    let c := rect_corner (val xmin) (val xmax) (val ymin) (val ymax) in
    let x := nth (k * Z.to_nat m + i) xs dzero in
    let y := nth (k * Z.to_nat m + i) ys dzero in
    fin x /\ fin y /\
    Rabs (val x - fst (between2 (c k) (c (S k)) (fraction (Z.to_nat m) i))) <= b2 (-49) * size xmin xmax /\
    Rabs (val y - snd (between2 (c k) (c (S k)) (fraction (Z.to_nat m) i))) <= b2 (-49) * size ymin ymax.
Proof.
  intros x0 x1 y0 y1 m Gx Gy Hm. destruct (square_d_ok x0 x1 y0 y1 m Gx Gy Hm) as (xs & ys & a2 & a4 & b1 & b3 & E & Lx & Ly & S1 & S2 & S3 & S4 & W). exists xs, ys. split; [exact E|]. split; [exact Lx|]. split; [exact Ly|].
  destruct Gx as (Fx0 & Fx1 & _). destruct Gy as (Fy0 & Fy1 & _). intros k i Hk Hi. destruct (W k i Hk Hi) as [-> ->]. set (t := fraction (Z.to_nat m) i).
  pose proof (err_size x0 x1) as Ex. pose proof (err_size y0 y1) as Ey. pose proof (err_sym (val x0) (val x1)) as Sx. pose proof (err_sym (val y0) (val y1)) as Sy.
  destruct S1 as (_ & _ & _ & I1). destruct S2 as (_ & _ & _ & I2). destruct S3 as (_ & _ & _ & I3). destruct S4 as (_ & _ & _ & I4).
  destruct k as [|[|[|[|k]]]]; [| | | |lia]; cbn [rect_corner between2 fst snd]; unfold between2; cbn [fst snd].
  - destruct (I1 i Hi) as (F & _ & B). destruct (const_near m y0 i y0 y1 t Fy0 Hi) as [F' B']. split; [exact F|]. split; [exact F'|]. split; [|exact B']. apply Rle_trans with (1 := B), Ex.
  - destruct (I2 i Hi) as (F & _ & B). destruct (const_near m x1 i x0 x1 t Fx1 Hi) as [F' B']. split; [exact F'|]. split; [exact F|]. split; [exact B'|]. apply Rle_trans with (1 := B), Ey.
  - destruct (I3 i Hi) as (F & _ & B). destruct (const_near m y1 i y0 y1 t Fy1 Hi) as [F' B']. split; [exact F|]. split; [exact F'|]. split; [|exact B']. apply Rle_trans with (1 := B). rewrite Sx. exact Ex.
  - destruct (I4 i Hi) as (F & _ & B). destruct (const_near m x0 i x0 x1 t Fx0 Hi) as [F' B']. split; [exact F'|]. split; [exact F|]. split; [exact B'|]. apply Rle_trans with (1 := B). rewrite Sy. exact Ey.
Qed.
Print Assumptions C101_square.

Lemma quarter : forall m n, (n < 4 * m)%nat -> exists k i, (k < 4)%nat /\ (i < m)%nat /\ n = (k * m + i)%nat.
Proof.
  intros m n H. exists (n / m)%nat, (n mod m)%nat. assert (m <> 0)%nat by lia. split; [apply Nat.div_lt_upper_bound; lia|]. split; [apply Nat.mod_upper_bound; lia|]. rewrite (Nat.div_mod n m) at 1 by lia. lia.
Qed.

(** Rounding never takes a point off the perimeter. *)
Theorem C101_perimeter : forall xmin xmax ymin ymax m xs ys, span_ok xmin xmax -> span_ok ymin ymax -> (1 <= m <= 2 ^ 50)%Z ->
  get_square_d xmin xmax ymin ymax (4 * m) = Ok (xs, ys) ->
  (forall n, (n < 4 * Z.to_nat m)%nat -> on_perimeter (val xmin) (val xmax) (val ymin) (val ymax) (val (nth n xs dzero)) (val (nth n ys dzero))) /\
  (forall a b, a = val xmin \/ a = val xmax -> b = val ymin \/ b = val ymax ->
     exists n, (n < 4 * Z.to_nat m)%nat /\ val (nth n xs dzero) = a /\ val (nth n ys dzero) = b) /\
  (forall n, (S n < 4 * Z.to_nat m)%nat -> val (nth n xs dzero) = val (nth (S n) xs dzero) \/ val (nth n ys dzero) = val (nth (S n) ys dzero)).
Proof.
  intros x0 x1 y0 y1 m xs ys Gx Gy Hm H. destruct (square_d_ok x0 x1 y0 y1 m Gx Gy Hm) as (xs' & ys' & a2 & a4 & b1 & b3 & E & _ & _ & S1 & S2 & S3 & S4 & W).
  assert (Q : (xs, ys) = (xs', ys')) by (apply (f_equal (fun r => match r with Ok v => v | Err _ => (xs, ys) end)) in H; rewrite E in H; symmetry; exact H). injection Q as <- <-. clear E H.
  pose proof (good_le _ _ Gx) as Lx. pose proof (good_le _ _ Gy) as Ly. destruct Gx as (Fx0 & Fx1 & _). destruct Gy as (Fy0 & Fy1 & _).
  set (M := Z.to_nat m) in *. assert (HM : (1 <= M)%nat) by (unfold M; lia).
  assert (O : forall v i, fin v -> (i < M)%nat -> val (nth i (ones_d m v) dzero) = val v) by (intros v i F Hi; apply (proj2 (ones_ok m v F) i Hi)).
  destruct S1 as (_ & Z1 & _ & I1). destruct S2 as (_ & Z2 & _ & I2). destruct S3 as (_ & Z3 & _ & I3). destruct S4 as (_ & Z4 & _ & I4).
  split; [|split].
  - intros n Hn. destruct (quarter M n Hn) as (k & i & Hk & Hi & ->). destruct (W k i Hk Hi) as [-> ->]. unfold on_perimeter. destruct k as [|[|[|[|k]]]]; [| | | |lia]; cbn.
    + left. rewrite (O y0 i Fy0 Hi). destruct (I1 i Hi) as (_ & B & _). rewrite Rmin_left, Rmax_right in B by exact Lx. auto.
    + right. rewrite (O x1 i Fx1 Hi). destruct (I2 i Hi) as (_ & B & _). rewrite Rmin_left, Rmax_right in B by exact Ly. auto.
    + left. rewrite (O y1 i Fy1 Hi). destruct (I3 i Hi) as (_ & B & _). rewrite Rmin_right, Rmax_left in B by exact Lx. auto.
    + right. rewrite (O x0 i Fx0 Hi). destruct (I4 i Hi) as (_ & B & _). rewrite Rmin_right, Rmax_left in B by exact Ly. auto.
  - intros a b [-> | ->] [-> | ->].
    + exists (0 * M + 0)%nat. split; [lia|]. destruct (W 0%nat 0%nat ltac:(lia) ltac:(lia)) as [-> ->]. split; [exact Z1|apply O; [exact Fy0|lia]].
    + exists (3 * M + 0)%nat. split; [lia|]. destruct (W 3%nat 0%nat ltac:(lia) ltac:(lia)) as [-> ->]. split; [apply O; [exact Fx0|lia]|exact Z4].
    + exists (1 * M + 0)%nat. split; [lia|]. destruct (W 1%nat 0%nat ltac:(lia) ltac:(lia)) as [-> ->]. split; [apply O; [exact Fx1|lia]|exact Z2].
    + exists (2 * M + 0)%nat. split; [lia|]. destruct (W 2%nat 0%nat ltac:(lia) ltac:(lia)) as [-> ->]. split; [exact Z3|apply O; [exact Fy1|lia]].
  - intros n Hn. destruct (quarter M n ltac:(lia)) as (k & i & Hk & Hi & ->). destruct (W k i Hk Hi) as [-> ->]. destruct (Nat.eq_dec (S i) M) as [Q|Q].
    + replace (S (k * M + i)) with (S k * M + 0)%nat by lia. assert (Hk' : (S k < 4)%nat) by nia. destruct (W (S k) 0%nat Hk' ltac:(lia)) as [-> ->]. destruct k as [|[|[|k]]]; [| | |lia]; cbn [Nat.mul].
      * right. rewrite (O y0 i Fy0 Hi). symmetry. exact Z2.
      * left. rewrite (O x1 i Fx1 Hi). symmetry. exact Z3.
      * right. rewrite (O y1 i Fy1 Hi). symmetry. exact Z4.
    + replace (S (k * M + i)) with (k * M + S i)%nat by lia. destruct (W k (S i) Hk ltac:(lia)) as [-> ->]. destruct k as [|[|[|[|k]]]]; [| | | |lia].
      * right. rewrite !O by (assumption || lia). reflexivity.
      * left. rewrite !O by (assumption || lia). reflexivity.
      * right. rewrite !O by (assumption || lia). reflexivity.
      * left. rewrite !O by (assumption || lia). reflexivity.
Qed.
Print Assumptions C101_perimeter.

(** The rectangle is closed without an error. *)
Theorem C101_closed : forall xmin xmax ymin ymax m xs ys, span_ok xmin xmax -> span_ok ymin ymax -> (2 <= m <= 2 ^ 50)%Z ->
  get_square_d xmin xmax ymin ymax (4 * m) = Ok (xs, ys) ->
  val (nth 0 xs dzero) = val xmin /\ val (nth 0 ys dzero) = val ymin /\ val (last xs dzero) = val xmin /\ val (last ys dzero) = val ymin.
Proof.
  intros x0 x1 y0 y1 m xs ys Gx Gy Hm H. destruct (square_d_ok x0 x1 y0 y1 m Gx Gy ltac:(lia)) as (xs' & ys' & a2 & a4 & b1 & b3 & E & Lx & Ly & S1 & S2 & S3 & S4 & W).
  assert (Q : (xs, ys) = (xs', ys')) by (apply (f_equal (fun r => match r with Ok v => v | Err _ => (xs, ys) end)) in H; rewrite E in H; symmetry; exact H). injection Q as <- <-. clear E H.
  destruct Gx as (Fx0 & Fx1 & _). destruct Gy as (Fy0 & Fy1 & _). set (M := Z.to_nat m) in *. assert (HM : (2 <= M)%nat) by (unfold M; lia).
  assert (O : forall v i, fin v -> (i < M)%nat -> val (nth i (ones_d m v) dzero) = val v) by (intros v i F Hi; apply (proj2 (ones_ok m v F) i Hi)).
  assert (LA : forall l : list double, last l dzero = nth (length l - 1) l dzero) by (intro l; destruct l as [|a l] using rev_ind; [reflexivity|rewrite last_last, app_length; cbn; rewrite app_nth2 by lia; replace (_ - _)%nat with 0%nat by lia; reflexivity]).
  rewrite !LA, Lx, Ly. replace (4 * M - 1)%nat with (3 * M + (M - 1))%nat by lia. destruct (W 0%nat 0%nat ltac:(lia) ltac:(lia)) as [A B]. change (0 * M + 0)%nat with 0%nat in A, B. rewrite A, B. destruct (W 3%nat (M - 1)%nat ltac:(lia) ltac:(lia)) as [-> ->].
  split; [apply S1|]. split; [apply O; [exact Fy0|lia]|]. split; [apply O; [exact Fx0|lia]|]. apply S4. exact HM.
Qed.
Print Assumptions C101_closed.

(** The number of steps is a positive multiple of four or the call fails. *)
Theorem C101_refused : forall cosd sind a b c d c0 c1 steps, (steps mod 4 <> 0)%Z \/ (steps <= 0)%Z ->
  get_square_d a b c d steps = Err AssertionError /\ get_disc_d cosd sind a b c d c0 c1 steps = Err AssertionError.
Proof.
  intros cosd sind a b c d c0 c1 steps H. assert (E : ((steps mod 4 =? 0)%Z && (0 <? steps)%Z)%bool = false). { apply andb_false_iff. destruct H; [left; apply Z.eqb_neq; assumption|right; apply Z.ltb_ge; assumption]. }
  unfold get_disc_d, get_square_d, py_assert. rewrite E. split; reflexivity.
Qed.
Print Assumptions C101_refused.

Lemma lip_arm : forall f fd r phi phi' c R e, near_on_circle f fd -> (forall a b, Rabs (f a - f b) <= Rabs (a - b)) -> fin r -> 0 <= val r <= R -> b2 (-200) <= R <= b2 200 -> fin phi -> Rabs (val phi) <= 8 -> fin c -> Rabs (val c) <= b2 200 ->
  Rabs (val phi - phi') <= e -> let x := dadd (dmul r (fd phi)) c in fin x /\ Rabs (val x - (val c + val r * f phi')) <= b2 (-50) * (R + Rabs (val c)) + R * e.
Proof.
  intros f fd r phi phi' c R e N Lp Fr Br BR Fp Hp Fc Bc He x. destruct (arm0 f fd r phi c R N Fr Br BR Fp Hp Fc Bc) as [F A]. fold x in F, A. split; [exact F|].
  replace (val x - (val c + val r * f phi')) with ((val x - (val c + val r * f (val phi))) + val r * (f (val phi) - f phi')) by ring. apply Rle_trans with (1 := Rabs_triang _ _). apply Rplus_le_compat; [exact A|]. rewrite Rabs_mult, (Rabs_pos_eq (val r)) by lra. apply Rmult_le_compat; [lra|apply Rabs_pos|lra|]. apply Rle_trans with (1 := Lp _ _), He.
Qed.

Lemma between8 : forall a b x, Rabs a <= 8 -> Rabs b <= 8 -> Rmin a b <= x <= Rmax a b -> Rabs x <= 8.
Proof. intros a b x A B C. apply Rabs_le_inv in A, B. apply Rabs_le. assert (-8 <= Rmin a b) by (apply Rmin_glb; lra). assert (Rmax a b <= 8) by (apply Rmax_lub; lra). lra. Qed.

Lemma size8 : forall a b : double, Rabs (val a) <= 8 -> Rabs (val b) <= 8 -> b2 (-49) * size a b <= b2 (-46).
Proof. intros a b A B. assert (E : b2 (-46) = b2 (-49) * 8) by (change (-46)%Z with (-49 + 3)%Z; rewrite bpow_plus; reflexivity). rewrite E. apply Rmult_le_compat_l; [apply bpow_ge_0|]. apply Rmax_lub; assumption. Qed.

Lemma arc_sum : forall R c, 0 <= R -> b2 (-50) * (R + Rabs c) + R * b2 (-46) <= b2 (-45) * (R + Rabs c).
Proof.
  intros R c H. pose proof (Rabs_pos c) as P. assert (E1 : b2 (-46) = 16 * b2 (-50)) by (change (-46)%Z with (4 + -50)%Z; rewrite bpow_plus; reflexivity). assert (E2 : b2 (-45) = 32 * b2 (-50)) by (change (-45)%Z with (5 + -50)%Z; rewrite bpow_plus; reflexivity). rewrite E1, E2. pose proof (bpow_gt_0 radix2 (-50)) as Q. set (v := b2 (-50)) in *.
  assert (0 <= v * R) by (apply Rmult_le_pos; lra). assert (0 <= v * Rabs c) by (apply Rmult_le_pos; lra). lra.
Qed.

(** An arc: equally spaced angles. *)
Theorem C101_arc : forall cosd sind radius phimin phimax c0 c1 n, near_on_circle cos cosd -> near_on_circle sin sind ->
  fin radius -> b2 (-200) <= val radius <= b2 200 -> span_ok phimin phimax -> Rabs (val phimin) <= 8 -> Rabs (val phimax) <= 8 ->
  fin c0 -> fin c1 -> Rabs (val c0) <= b2 200 -> Rabs (val c1) <= b2 200 -> (0 <= n <= 2 ^ 50)%Z -> exists xs ys,
  get_arc_d cosd sind radius phimin phimax c0 c1 n = Ok (xs, ys) /\ length xs = Z.to_nat n /\ length ys = Z.to_nat n /\
  forall i, (i < Z.to_nat n)%nat -> let phi := val phimin + fraction (Z.to_nat n) i * (val phimax - val phimin) in
    fin (nth i xs dzero) /\ fin (nth i ys dzero) /\
    Rabs (val (nth i xs dzero) - (val c0 + val radius * cos phi)) <= b2 (-45) * (val radius + Rabs (val c0)) /\
    Rabs (val (nth i ys dzero) - (val c1 + val radius * sin phi)) <= b2 (-45) * (val radius + Rabs (val c1)).
Proof.
  intros cosd sind r p q c0 c1 n Nc Ns Fr Br G Bp Bq F0 F1 B0 B1 Hn. destruct (Z.eq_dec n 0) as [->|N0]. { exists [], []. split; [reflexivity|]. do 2 (split; [reflexivity|]). intros i Hi. change (Z.to_nat 0) with 0%nat in Hi. lia. }
  destruct (side_up p q n G ltac:(lia)) as (l & E & (L & _ & _ & I)). destruct (ones_ok n r Fr) as [Lo O]. set (N := Z.to_nat n) in *.
  exists (fst (polar2cart_arr_d cosd sind (ones_d n r) l c0 c1)), (snd (polar2cart_arr_d cosd sind (ones_d n r) l c0 c1)). split; [unfold get_arc_d; rewrite E; reflexivity|].
  assert (LL : length (ones_d n r) = length l) by (rewrite Lo, L; reflexivity). destruct (polar_arr_length cosd sind _ _ c0 c1 LL) as [L1 L2]. split; [rewrite L1; exact L|]. split; [rewrite L2; exact L|].
  intros i Hi phi. destruct (polar_arr_nth cosd sind _ _ c0 c1 i LL ltac:(rewrite L; exact Hi)) as (_ & _ & -> & ->). destruct (O i Hi) as [Fo Vo]. destruct (I i Hi) as (Fi & Bi & Ei). pose proof (between8 _ _ _ Bp Bq Bi) as B8.
  assert (Er : Rabs (val (nth i l dzero) - phi) <= b2 (-46)) by (apply Rle_trans with (1 := Ei), Rle_trans with (1 := err_size p q), (size8 p q Bp Bq)). pose proof (bpow_gt_0 radix2 (-200)) as P2.
  destruct (lip_arm cos cosd (nth i (ones_d n r) dzero) (nth i l dzero) phi c0 (val r) _ Nc cos_lip Fo ltac:(rewrite Vo; lra) Br Fi B8 F0 B0 Er) as [A1 A2]. destruct (lip_arm sin sind (nth i (ones_d n r) dzero) (nth i l dzero) phi c1 (val r) _ Ns sin_lip Fo ltac:(rewrite Vo; lra) Br Fi B8 F1 B1 Er) as [A3 A4].
  rewrite Vo in A2, A4. split; [exact A1|]. split; [exact A3|]. split; [apply Rle_trans with (1 := A2); apply arc_sum; lra|apply Rle_trans with (1 := A4); apply arc_sum; lra].
Qed.
Print Assumptions C101_arc.

Theorem C101_arc_negative : forall cosd sind radius phimin phimax c0 c1 n, (n < 0)%Z -> get_arc_d cosd sind radius phimin phimax c0 c1 n = Err ValueError.
Proof. intros. unfold get_arc_d, linspace_d. rewrite (proj2 (Z.ltb_lt n 0)) by assumption. reflexivity. Qed.
Print Assumptions C101_arc_negative.

(** A whole circle does not close: the last point is below the first. *)
Theorem C101_circle_open : forall cosd sind phimin c0 c1 n, near_on_circle sin sind -> (forall z : double, fin z -> val z = 0 -> fin (sind z) /\ val (sind z) = 0) ->
  fin phimin -> val phimin = 0 -> fin c1 -> val c1 = 0 -> (2 <= n <= 2 ^ 50)%Z -> exists xs ys,
  get_arc_d cosd sind (dint 1) phimin twopi c0 c1 n = Ok (xs, ys) /\ val (nth 0 ys dzero) = 0 /\ val (nth (Z.to_nat n - 1) ys dzero) < 0.
Proof.
  intros cosd sind p c0 c1 n Ns Z0 Fp Vp Fc Vc Hn. destruct twopi_val as [Ft Vt]. destruct tau_bounds as [T1 T2].
  assert (G : span_ok p twopi). { split; [exact Fp|]. split; [exact Ft|]. rewrite Vp, Vt, Rabs_R0, (Rabs_pos_eq tau) by lra. split; [apply bpow_ge_0|]. split; [apply Rle_trans with (b2 3); [change (b2 3) with 8; lra|apply bpow_le; lia]|]. right. apply Rle_trans with (b2 0); [apply bpow_le; lia|change (b2 0) with 1; lra]. }
  destruct (side_up p twopi n G ltac:(lia)) as (l & E & (L & L0 & Ll & I)). destruct (dint_ok 1 ltac:(lia)) as [Fr Vr]. destruct (ones_ok n (dint 1) Fr) as [Lo O]. set (N := Z.to_nat n) in *. assert (HN : (2 <= N)%nat) by (unfold N; lia).
  exists (fst (polar2cart_arr_d cosd sind (ones_d n (dint 1)) l c0 c1)), (snd (polar2cart_arr_d cosd sind (ones_d n (dint 1)) l c0 c1)). split; [unfold get_arc_d; rewrite E; reflexivity|].
  assert (LL : length (ones_d n (dint 1)) = length l) by (rewrite Lo, L; reflexivity).
  assert (S : forall i, (i < N)%nat -> fin (sind (nth i l dzero)) -> Rabs (val (sind (nth i l dzero))) <= 1 -> val (nth i (snd (polar2cart_arr_d cosd sind (ones_d n (dint 1)) l c0 c1)) dzero) = val (sind (nth i l dzero))).
  { intros i Hi Fs Bs. destruct (polar_arr_nth cosd sind _ _ c0 c1 i LL ltac:(rewrite L; exact Hi)) as (_ & _ & _ & ->). destruct (O i Hi) as [Fo Vo]. rewrite Vr in Vo. set (s := sind (nth i l dzero)) in *. assert (B1 : 1 < b2 1024) by (change 1 with (b2 0); apply bpow_lt; lia).
    destruct (dmul_ok _ s Fo Fs) as [Fm Vm]; [rewrite Vo, Rmult_1_l, (fl_fmt _ (fmt_val s)); lra|]. rewrite Vo, Rmult_1_l, (fl_fmt _ (fmt_val s)) in Vm.
    destruct (dadd_ok _ c1 Fm Fc) as [Fa Va]; [rewrite Vm, Vc, Rplus_0_r, (fl_fmt _ (fmt_val s)); lra|]. rewrite Va, Vm, Vc, Rplus_0_r. apply fl_fmt, fmt_val. }
  split.
  - destruct (I 0%nat ltac:(lia)) as (Fi & _ & _). destruct (Z0 _ Fi (eq_trans L0 Vp)) as [Fs Vs]. rewrite S; [exact Vs|lia|exact Fs|rewrite Vs, Rabs_R0; lra].
  - destruct (I (N - 1)%nat ltac:(lia)) as (Fi & _ & _). pose proof (eq_trans (Ll HN) Vt) as V. destruct (Ns _ Fi) as (Fs & Bs & Es); [rewrite V; apply Rabs_le; lra|]. rewrite S; [|lia|exact Fs|apply Rabs_le; lra]. rewrite V in Es. apply Rabs_le_inv in Es. pose proof sin_tau. lra.
Qed.
Print Assumptions C101_circle_open.

Lemma sin_l_zero : forall z : double, fin z -> val z = 0 -> fin (sin_l z) /\ val (sin_l z) = 0.
Proof.
  intros z F V. unfold sin_l. rewrite V, sin_0. unfold multiple. rewrite Rmult_0_l. replace (ZnearestE 0) with 0%Z by (symmetry; apply (Zrnd_IZR ZnearestE 0)). destruct (dbl_ok 0 (- (53)) ltac:(lia) ltac:(lia)) as [A B]. split; [exact A|]. rewrite B. ring.
Qed.

(** User expectation: the default limits of [get_arc], 0 and [2 np.pi], give a
    closed circle. *)
Theorem C101_circle_closed_refuted : exists cosd sind n xs ys, near_on_circle cos cosd /\ near_on_circle sin sind /\
  get_arc_d cosd sind (dint 1) dzero twopi dzero dzero n = Ok (xs, ys) /\ (2 <= n)%Z /\ val (nth 0 ys dzero) <> val (nth (Z.to_nat n - 1) ys dzero).
Proof.
  destruct libm_l as (_ & Nc & Ns & _). destruct (C101_circle_open cos_l sin_l dzero dzero dzero 100 Ns sin_l_zero ltac:(reflexivity) ltac:(reflexivity) ltac:(reflexivity) ltac:(reflexivity) ltac:(lia)) as (xs & ys & E & A & B).
  exists cos_l, sin_l, 100%Z, xs, ys. split; [exact Nc|]. split; [exact Ns|]. split; [exact E|]. split; [lia|]. lra.
Qed.
Print Assumptions C101_circle_closed_refuted.

(** A disc, or a sector of a ring: the perimeter of the rectangle of radii and
    angles, bent. *)
Theorem C101_disc : forall cosd sind rmin rmax phimin phimax c0 c1 m, near_on_circle cos cosd -> near_on_circle sin sind ->
  span_ok rmin rmax -> 0 <= val rmin -> b2 (-200) <= val rmax <= b2 200 -> span_ok phimin phimax -> Rabs (val phimin) <= 8 -> Rabs (val phimax) <= 8 ->
  fin c0 -> fin c1 -> Rabs (val c0) <= b2 200 -> Rabs (val c1) <= b2 200 -> (1 <= m <= 2 ^ 50)%Z -> exists xs ys,
  get_disc_d cosd sind rmin rmax phimin phimax c0 c1 (4 * m) = Ok (xs, ys) /\ length xs = (4 * Z.to_nat m)%nat /\ length ys = (4 * Z.to_nat m)%nat /\
  (forall n, (n < 4 * Z.to_nat m)%nat -> exists r phi, on_perimeter (val rmin) (val rmax) (val phimin) (val phimax) r phi /\
     Rabs (val (nth n xs dzero) - (val c0 + r * cos phi)) <= b2 (-50) * (val rmax + Rabs (val c0)) /\
     Rabs (val (nth n ys dzero) - (val c1 + r * sin phi)) <= b2 (-50) * (val rmax + Rabs (val c1))) /\
  (forall k i, (k < 4)%nat -> (i < Z.to_nat m)%nat ->
     let c := rect_corner (val rmin) (val rmax) (val phimin) (val phimax) in
     let '(r, phi) := between2 (c k) (c (S k)) (fraction (Z.to_nat m) i) in
     let x := nth (k * Z.to_nat m + i) xs dzero in
     let y := nth (k * Z.to_nat m + i) ys dzero in
     fin x /\ fin y /\
     Rabs (val x - (val c0 + r * cos phi)) <= b2 (-45) * (val rmax + Rabs (val c0)) /\
     Rabs (val y - (val c1 + r * sin phi)) <= b2 (-45) * (val rmax + Rabs (val c1))).
Proof.
  intros cosd sind r0 r1 p q c0 c1 m Nc Ns Gr R0 BR G Bp Bq F0 F1 B0 B1 Hm. destruct (C101_square r0 r1 p q m Gr G Hm) as (rs & ps & E & L1 & L2 & V). destruct (C101_perimeter r0 r1 p q m rs ps Gr G Hm E) as (P & _ & _).
  set (M := Z.to_nat m) in *. assert (LL : length rs = length ps) by (rewrite L1, L2; reflexivity). destruct (polar_arr_length cosd sind _ _ c0 c1 LL) as [La Lb]. pose proof (good_le _ _ Gr) as Le. pose proof (good_le _ _ G) as Lp.
  exists (fst (polar2cart_arr_d cosd sind rs ps c0 c1)), (snd (polar2cart_arr_d cosd sind rs ps c0 c1)). split; [unfold get_disc_d; rewrite E; reflexivity|]. split; [rewrite La; exact L2|]. split; [rewrite Lb; exact L2|].
  assert (W : forall n, (n < 4 * M)%nat -> 0 <= val (nth n rs dzero) <= val r1 /\ Rabs (val (nth n ps dzero)) <= 8).
  { intros n Hn. specialize (P n Hn). apply Rabs_le_inv in Bp, Bq. split; [|apply Rabs_le]; destruct P as [[A [B|B]]|[[A|A] B]]; lra. }
  split.
  - intros n Hn. exists (val (nth n rs dzero)), (val (nth n ps dzero)). split; [exact (P n Hn)|]. destruct (W n Hn) as [W1 W2]. destruct (quarter M n Hn) as (k & i & Hk & Hi & Q). destruct (V k i Hk Hi) as (Fa & Fb & _ & _). rewrite <- Q in Fa, Fb.
    destruct (polar_arr_nth cosd sind _ _ c0 c1 n LL ltac:(rewrite L2; exact Hn)) as (_ & _ & -> & ->). split; [apply (arm0 cos cosd); assumption|apply (arm0 sin sind); assumption].
  - intros k i Hk Hi. cbv zeta. destruct (V k i Hk Hi) as (Fa & Fb & Ea & Eb). set (t := fraction M i) in *. set (cc := rect_corner (val r0) (val r1) (val p) (val q)) in *. destruct (between2 (cc k) (cc (S k)) t) as [r phi]. cbn [fst snd] in Ea, Eb. set (n := (k * M + i)%nat) in *. assert (Hn : (n < 4 * M)%nat) by (unfold n; nia). destruct (W n Hn) as [W1 W2].
    destruct (polar_arr_nth cosd sind _ _ c0 c1 n LL ltac:(rewrite L2; exact Hn)) as (_ & _ & -> & ->).
    assert (Eb' : Rabs (val (nth n ps dzero) - phi) <= b2 (-46)) by (apply Rle_trans with (1 := Eb); apply (size8 p q); assumption). assert (Ea' : Rabs (val (nth n rs dzero) - r) <= b2 (-49) * val r1). { replace (val r1) with (size r0 r1); [exact Ea|]. unfold size. rewrite (Rabs_pos_eq (val r0)), (Rabs_pos_eq (val r1)), Rmax_right by lra. reflexivity. }
    destruct (lip_arm cos cosd _ _ phi c0 (val r1) _ Nc cos_lip Fa W1 BR Fb W2 F0 B0 Eb') as [A1 A2]. destruct (lip_arm sin sind _ _ phi c1 (val r1) _ Ns sin_lip Fa W1 BR Fb W2 F1 B1 Eb') as [A3 A4].
    split; [exact A1|]. split; [exact A3|].
    assert (Sum : forall f x c, -1 <= f <= 1 -> Rabs (x - (c + val (nth n rs dzero) * f)) <= b2 (-50) * (val r1 + Rabs c) + val r1 * b2 (-46) -> Rabs (x - (c + r * f)) <= b2 (-45) * (val r1 + Rabs c)).
    { intros f x c Bf H. replace (x - (c + r * f)) with ((x - (c + val (nth n rs dzero) * f)) + (val (nth n rs dzero) - r) * f) by ring. apply Rle_trans with (1 := Rabs_triang _ _). assert (H2 : Rabs ((val (nth n rs dzero) - r) * f) <= b2 (-49) * val r1 * 1) by (rewrite Rabs_mult; apply Rmult_le_compat; try apply Rabs_pos; [exact Ea'|apply Rabs_le; lra]).
      pose proof (Rabs_pos c). assert (E1 : b2 (-46) = 16 * b2 (-50)) by (change (-46)%Z with (4 + -50)%Z; rewrite bpow_plus; reflexivity). assert (E2 : b2 (-45) = 32 * b2 (-50)) by (change (-45)%Z with (5 + -50)%Z; rewrite bpow_plus; reflexivity). assert (E3 : b2 (-49) = 2 * b2 (-50)) by (change (-49)%Z with (1 + -50)%Z; rewrite bpow_plus; reflexivity). rewrite E1 in H. rewrite E3 in H2. rewrite E2. pose proof (bpow_gt_0 radix2 (-50)) as Q. set (v := b2 (-50)) in *. clearbody v. assert (0 <= v * val r1) by (apply Rmult_le_pos; lra). assert (0 <= v * Rabs c) by (apply Rmult_le_pos; lra). lra. }
    split; [apply (Sum (cos phi)); [apply COS_bound|exact A2]|apply (Sum (sin phi)); [apply SIN_bound|exact A4]].
Qed.
Print Assumptions C101_disc.

(** The hypotheses hold, e.g., for the unit square, whose corners come out exact. *)
Example C101_example : span_ok dzero (dint 1) /\ exists xs ys, get_square_d dzero (dint 1) dzero (dint 1) 8 = Ok (xs, ys) /\
  map B2SF xs = map B2SF [dzero; dint 1; dint 1; dint 1; dint 1; dzero; dzero; dzero] /\ map B2SF ys = map B2SF [dzero; dzero; dzero; dint 1; dint 1; dint 1; dint 1; dzero].
Proof.
  split. { destruct (dint_ok 1 ltac:(lia)) as [F1 V1]. split; [reflexivity|]. split; [exact F1|]. rewrite V1. change (val dzero) with 0. rewrite Rabs_R0, Rabs_R1. split; [apply bpow_ge_0|]. split; [change 1 with (b2 0); apply bpow_le; lia|]. right. rewrite Rminus_0_r. change 1 with (b2 0). apply bpow_le. lia. }
  do 2 eexists. split; [reflexivity|]. split; vm_compute; reflexivity.
Qed.
