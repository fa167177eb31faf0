(** * Proofs about [MHealpixBoundary.v] *)

From Coq Require Import Reals ZArith List Bool Lia Lra Psatz.
From Verif Require Import Base BaseP Spec MHealpixIndex MHealpixBoundary PHealpixIndex PHealpixCentre PHealpixTiling.
Import ListNotations.
Open Scope R_scope.

Lemma get_delta_half : forall nside, get_delta nside = half_diag nside.
Proof. reflexivity. Qed.

(** One side: points [lo + ...] of a linspace with [y] an affine function. *)
Definition on_side (xs ys : list R) (P : R -> R -> Prop) : Prop :=
  length xs = length ys /\
  forall q, (q < length xs)%nat -> P (nth q xs 0) (nth q ys 0).

Lemma linspaceZ_ok : forall a b n, (0 <= n)%Z -> linspaceZ a b n = Ok (linspace a b (Z.to_nat n)).
Proof. intros. unfold linspaceZ. replace (n <? 0)%Z with false; auto. symmetry. apply Z.ltb_ge; lia. Qed.

Lemma linspaceZ_err : forall a b n, (n < 0)%Z -> linspaceZ a b n = Err ValueError.
Proof. intros. unfold linspaceZ. replace (n <? 0)%Z with true; auto. symmetry. apply Z.ltb_lt; lia. Qed.

Lemma map_on : forall f l (P : R -> R -> Prop),
  (forall x, In x l -> P x (f x)) -> on_side l (map f l) P.
Proof.
  intros f l P H. split. rewrite map_length; auto.
  intros q Hq. rewrite nth_map_lt with (d' := 0) by auto. apply H. apply nth_In; auto.
Qed.

Section Sides.
Variables (nside p : Z) (xp yp : R).
Hypothesis (Hn : (1 <= nside)%Z) (Hxy : pix2xy p nside = Ok (xp, yp)).
Let d := half_diag nside.

Definition upper (x y : R) := l1 x y xp yp = half_diag nside /\ yp <= y.
Definition lower (x y : R) := l1 x y xp yp = half_diag nside /\ y <= yp.

Lemma d_pos : 0 < d. Proof. apply half_diag_pos; auto. Qed.

Lemma top_left_ok : forall n, (0 <= n)%Z -> exists xs ys,
  top_left p nside n false = Ok (xs, ys) /\ length xs = Z.to_nat n /\ on_side xs ys upper /\
  ((1 <= n)%Z -> nth 0 xs 0 = xp - d /\ nth 0 ys 0 = yp) /\
  ((2 <= n)%Z -> nth (Z.to_nat n - 1) xs 0 = xp /\ nth (Z.to_nat n - 1) ys 0 = yp + d).
Proof.
  intros n H. pose proof d_pos. unfold top_left. rewrite Hxy. cbn [bind fst snd].
  rewrite linspaceZ_ok by auto. cbn [bind]. unfold rev_if.
  eexists; eexists. split; [reflexivity|]. rewrite length_linspace. split; [reflexivity|].
  split; [|split].
  - apply map_on. intros x Hx. apply linspace_between in Hx; [|unfold get_delta, d, half_diag in *; lra].
    rewrite get_delta_half in Hx |- *. fold d in Hx |- *. unfold upper, l1. fold d.
    rewrite Rabs_left1 by lra. rewrite Rabs_pos_eq by lra. lra.
  - intros. rewrite nth_map_lt with (d' := 0) by (rewrite length_linspace; lia).
    rewrite nth_linspace_0 by lia. rewrite get_delta_half. fold d. lra.
  - intros. rewrite nth_map_lt with (d' := 0) by (rewrite length_linspace; lia).
    rewrite nth_linspace_last by lia. rewrite get_delta_half. fold d. lra.
Qed.

Lemma top_right_ok : forall n, (0 <= n)%Z -> exists xs ys,
  top_right p nside n false = Ok (xs, ys) /\ length xs = Z.to_nat n /\ on_side xs ys upper /\
  ((1 <= n)%Z -> nth 0 xs 0 = xp /\ nth 0 ys 0 = yp + d) /\
  ((2 <= n)%Z -> nth (Z.to_nat n - 1) xs 0 = xp + d /\ nth (Z.to_nat n - 1) ys 0 = yp).
Proof.
  intros n H. pose proof d_pos. unfold top_right. rewrite Hxy. cbn [bind fst snd].
  rewrite linspaceZ_ok by auto. cbn [bind]. unfold rev_if.
  eexists; eexists. split; [reflexivity|]. rewrite length_linspace. split; [reflexivity|].
  split; [|split].
  - apply map_on. intros x Hx. apply linspace_between in Hx; [|unfold get_delta, d, half_diag in *; lra].
    rewrite get_delta_half in Hx |- *. fold d in Hx |- *. unfold upper, l1. fold d.
    rewrite !Rabs_pos_eq by lra. lra.
  - intros. rewrite nth_map_lt with (d' := 0) by (rewrite length_linspace; lia).
    rewrite nth_linspace_0 by lia. rewrite get_delta_half. fold d. lra.
  - intros. rewrite nth_map_lt with (d' := 0) by (rewrite length_linspace; lia).
    rewrite nth_linspace_last by lia. rewrite get_delta_half. fold d. lra.
Qed.

Lemma bot_left_ok : forall n, (0 <= n)%Z -> exists xs ys,
  bot_left p nside n false = Ok (xs, ys) /\ length xs = Z.to_nat n /\ on_side xs ys lower /\
  ((1 <= n)%Z -> nth 0 xs 0 = xp - d /\ nth 0 ys 0 = yp) /\
  ((2 <= n)%Z -> nth (Z.to_nat n - 1) xs 0 = xp /\ nth (Z.to_nat n - 1) ys 0 = yp - d).
Proof.
  intros n H. pose proof d_pos. unfold bot_left. rewrite Hxy. cbn [bind fst snd].
  rewrite linspaceZ_ok by auto. cbn [bind]. unfold rev_if.
  eexists; eexists. split; [reflexivity|]. rewrite length_linspace. split; [reflexivity|].
  split; [|split].
  - apply map_on. intros x Hx. apply linspace_between in Hx; [|unfold get_delta, d, half_diag in *; lra].
    rewrite get_delta_half in Hx |- *. fold d in Hx |- *. unfold lower, l1. fold d.
    rewrite !Rabs_left1 by lra. lra.
  - intros. rewrite nth_map_lt with (d' := 0) by (rewrite length_linspace; lia).
    rewrite nth_linspace_0 by lia. rewrite get_delta_half. fold d. lra.
  - intros. rewrite nth_map_lt with (d' := 0) by (rewrite length_linspace; lia).
    rewrite nth_linspace_last by lia. rewrite get_delta_half. fold d. lra.
Qed.

Lemma bot_right_ok : forall n, (0 <= n)%Z -> exists xs ys,
  bot_right p nside n false = Ok (xs, ys) /\ length xs = Z.to_nat n /\ on_side xs ys lower /\
  ((1 <= n)%Z -> nth 0 xs 0 = xp /\ nth 0 ys 0 = yp - d) /\
  ((2 <= n)%Z -> nth (Z.to_nat n - 1) xs 0 = xp + d /\ nth (Z.to_nat n - 1) ys 0 = yp).
Proof.
  intros n H. pose proof d_pos. unfold bot_right. rewrite Hxy. cbn [bind fst snd].
  rewrite linspaceZ_ok by auto. cbn [bind]. unfold rev_if.
  eexists; eexists. split; [reflexivity|]. rewrite length_linspace. split; [reflexivity|].
  split; [|split].
  - apply map_on. intros x Hx. apply linspace_between in Hx; [|unfold get_delta, d, half_diag in *; lra].
    rewrite get_delta_half in Hx |- *. fold d in Hx |- *. unfold lower, l1. fold d.
    rewrite (Rabs_pos_eq (x - xp)) by lra. rewrite Rabs_left1 by lra. lra.
  - intros. rewrite nth_map_lt with (d' := 0) by (rewrite length_linspace; lia).
    rewrite nth_linspace_0 by lia. rewrite get_delta_half. fold d. lra.
  - intros. rewrite nth_map_lt with (d' := 0) by (rewrite length_linspace; lia).
    rewrite nth_linspace_last by lia. rewrite get_delta_half. fold d. lra.
Qed.

Lemma on_app : forall xs ys xs' ys' P, on_side xs ys P -> on_side xs' ys' P ->
  on_side (xs ++ xs') (ys ++ ys') P.
Proof.
  intros xs ys xs' ys' P [L H] [L' H']. split. rewrite !app_length; lia.
  intros q Hq. rewrite app_length in Hq.
  destruct (Nat.lt_ge_cases q (length xs)).
  - rewrite !app_nth1 by lia. auto.
  - rewrite !app_nth2 by lia. rewrite <- L. apply H'. lia.
Qed.

Lemma on_rev : forall xs ys P, on_side xs ys P -> on_side (rev xs) (rev ys) P.
Proof.
  intros xs ys P [L H]. split. rewrite !rev_length; auto.
  intros q Hq. rewrite rev_length in Hq. rewrite !rev_nth by lia. rewrite <- L. apply H. lia.
Qed.

Lemma on_weaken : forall xs ys (P Q : R -> R -> Prop), (forall x y, P x y -> Q x y) ->
  on_side xs ys P -> on_side xs ys Q.
Proof. intros xs ys P Q W [L H]. split; auto. Qed.

Lemma on_rev_if : forall r xs ys P, on_side xs ys P ->
  on_side (fst (rev_if r (xs, ys))) (snd (rev_if r (xs, ys))) P.
Proof. intros [|] xs ys P H; simpl; auto. apply on_rev; auto. Qed.

Lemma quot2 : forall n, (0 <= n)%Z -> (Z.quot n 2 = n / 2)%Z /\ (0 <= n / 2)%Z /\ (0 <= n - n / 2)%Z
  /\ (n / 2 <= n - n / 2 <= n / 2 + 1)%Z.
Proof.
  intros n H. rewrite Z.quot_div_nonneg by lia.
  pose proof (Z_div_mod_eq_full n 2). pose proof (Z.mod_pos_bound n 2). lia.
Qed.

(** The whole top: left corner, up to the top corner, down to the right corner. *)
Lemma boundary_top_ok : forall n r, (0 <= n)%Z -> exists xs ys,
  boundary_top p nside n false = Ok (xs, ys) /\
  boundary_top p nside n r = Ok (rev_if r (xs, ys)) /\ length xs = Z.to_nat n /\ on_side xs ys upper /\
  ((4 <= n)%Z -> nth 0 xs 0 = xp - d /\ nth 0 ys 0 = yp /\
     nth (Z.to_nat (n / 2)) xs 0 = xp /\ nth (Z.to_nat (n / 2)) ys 0 = yp + d /\
     nth (Z.to_nat n - 1) xs 0 = xp + d /\ nth (Z.to_nat n - 1) ys 0 = yp).
Proof.
  intros n r H. destruct (quot2 n H) as [Q [Q1 [Q2 Q3]]].
  destruct (top_left_ok (n / 2) Q1) as [x1 [y1 [E1 [L1 [O1 [A1 B1]]]]]].
  destruct (top_right_ok (n - n / 2) Q2) as [x2 [y2 [E2 [L2 [O2 [A2 B2]]]]]].
  exists (x1 ++ x2), (y1 ++ y2). unfold boundary_top. rewrite Q, E1, E2. cbn [bind fst snd].
  split; [reflexivity|]. split; [reflexivity|].
  split. { rewrite app_length, L1, L2. lia. }
  split. { apply on_app; auto. }
  intros H4. destruct O1 as [LL1 _], O2 as [LL2 _].
  assert (2 <= n / 2)%Z by (apply Z.div_le_lower_bound; lia).
  destruct A1 as [A11 A12]; [lia|]. destruct A2 as [A21 A22]; [lia|]. destruct B2 as [B21 B22]; [lia|].
  split. { rewrite app_nth1 by lia. auto. }
  split. { rewrite app_nth1 by lia. auto. }
  split. { rewrite app_nth2 by lia. replace (Z.to_nat (n / 2) - length x1)%nat with 0%nat by lia. auto. }
  split. { rewrite app_nth2 by lia. replace (Z.to_nat (n / 2) - length y1)%nat with 0%nat by lia. auto. }
  split.
  - rewrite app_nth2 by lia.
    replace (Z.to_nat n - 1 - length x1)%nat with (Z.to_nat (n - n / 2) - 1)%nat by lia. auto.
  - rewrite app_nth2 by lia.
    replace (Z.to_nat n - 1 - length y1)%nat with (Z.to_nat (n - n / 2) - 1)%nat by lia. auto.
Qed.

Lemma boundary_bot_ok : forall n r, (0 <= n)%Z -> exists xs ys,
  boundary_bot p nside n false = Ok (xs, ys) /\
  boundary_bot p nside n r = Ok (rev_if r (xs, ys)) /\ length xs = Z.to_nat n /\ on_side xs ys lower /\
  ((4 <= n)%Z -> nth 0 xs 0 = xp - d /\ nth 0 ys 0 = yp /\
     nth (Z.to_nat (n / 2)) xs 0 = xp /\ nth (Z.to_nat (n / 2)) ys 0 = yp - d /\
     nth (Z.to_nat n - 1) xs 0 = xp + d /\ nth (Z.to_nat n - 1) ys 0 = yp).
Proof.
  intros n r H. destruct (quot2 n H) as [Q [Q1 [Q2 Q3]]].
  destruct (bot_left_ok (n / 2) Q1) as [x1 [y1 [E1 [L1 [O1 [A1 B1]]]]]].
  destruct (bot_right_ok (n - n / 2) Q2) as [x2 [y2 [E2 [L2 [O2 [A2 B2]]]]]].
  exists (x1 ++ x2), (y1 ++ y2). unfold boundary_bot. rewrite Q, E1, E2. cbn [bind fst snd].
  split; [reflexivity|]. split; [reflexivity|].
  split. { rewrite app_length, L1, L2. lia. }
  split. { apply on_app; auto. }
  intros H4. destruct O1 as [LL1 _], O2 as [LL2 _].
  assert (2 <= n / 2)%Z by (apply Z.div_le_lower_bound; lia).
  destruct A1 as [A11 A12]; [lia|]. destruct A2 as [A21 A22]; [lia|]. destruct B2 as [B21 B22]; [lia|].
  split. { rewrite app_nth1 by lia. auto. }
  split. { rewrite app_nth1 by lia. auto. }
  split. { rewrite app_nth2 by lia. replace (Z.to_nat (n / 2) - length x1)%nat with 0%nat by lia. auto. }
  split. { rewrite app_nth2 by lia. replace (Z.to_nat (n / 2) - length y1)%nat with 0%nat by lia. auto. }
  split.
  - rewrite app_nth2 by lia.
    replace (Z.to_nat n - 1 - length x1)%nat with (Z.to_nat (n - n / 2) - 1)%nat by lia. auto.
  - rewrite app_nth2 by lia.
    replace (Z.to_nat n - 1 - length y1)%nat with (Z.to_nat (n - n / 2) - 1)%nat by lia. auto.
Qed.

Definition on_outline (x y : R) := l1 x y xp yp = half_diag nside.

(** The outline is traversed left - top - right - bottom - left. *)
Lemma boundary_ok : forall n r, (0 <= n)%Z -> exists xs ys,
  boundary p nside n false = Ok (xs, ys) /\
  boundary p nside n r = Ok (rev_if r (xs, ys)) /\ length xs = Z.to_nat n /\ on_side xs ys on_outline /\
  ((8 <= n)%Z -> exists a b c : nat, (0 < a < b)%nat /\ (b < c < length xs - 1)%nat /\
     nth 0 xs 0 = xp - d /\ nth 0 ys 0 = yp /\
     nth a xs 0 = xp /\ nth a ys 0 = yp + d /\
     nth b xs 0 = xp + d /\ nth b ys 0 = yp /\
     nth c xs 0 = xp /\ nth c ys 0 = yp - d /\
     nth (length xs - 1) xs 0 = xp - d /\ nth (length xs - 1) ys 0 = yp /\
     (forall q, (q <= b)%nat -> yp <= nth q ys 0) /\
     (forall q, (b < q < length xs)%nat -> nth q ys 0 <= yp)).
Proof.
  intros n r H. destruct (quot2 n H) as [Q [Q1 [Q2 Q3]]].
  destruct (boundary_top_ok (n / 2) false Q1) as [x1 [y1 [E1 [_ [L1 [O1 A1]]]]]].
  destruct (boundary_bot_ok (n - n / 2) true Q2) as [x2 [y2 [_ [E2 [L2 [O2 A2]]]]]].
  exists (x1 ++ rev x2), (y1 ++ rev y2). unfold boundary. rewrite Q, E1, E2.
  cbn [bind rev_if fst snd].
  split; [reflexivity|]. split; [reflexivity|].
  assert (LT : length (x1 ++ rev x2) = Z.to_nat n).
  { rewrite app_length, rev_length, L1, L2. lia. }
  split; [auto|].
  split. { apply on_app. apply on_weaken with upper; auto. intros x y [U _]; exact U.
           apply on_rev. apply on_weaken with lower; auto. intros x y [U _]; exact U. }
  intros H8. destruct O1 as [LL1 U], O2 as [LL2 Lo].
  assert (4 <= n / 2)%Z by (apply Z.div_le_lower_bound; lia).
  assert (2 <= n / 2 / 2)%Z by (apply Z.div_le_lower_bound; lia).
  destruct (quot2 (n / 2) ltac:(lia)) as [_ [_ [R1 R2]]].
  destruct (quot2 (n - n / 2) ltac:(lia)) as [_ [R0 [R3 R4]]].
  assert (2 <= (n - n / 2) / 2)%Z by (apply Z.div_le_lower_bound; lia).
  destruct A1 as [A1 [A2' [A3 [A4 [A5 A6]]]]]; [lia|].
  destruct A2 as [B1 [B2 [B3 [B4 [B5 B6]]]]]; [lia|].
  exists (Z.to_nat (n / 2 / 2)), (length x1 - 1)%nat,
    (length x1 + (length x2 - 1 - Z.to_nat ((n - n / 2) / 2)))%nat.
  rewrite LT.
  split; [lia|]. split; [lia|].
  split. { rewrite app_nth1 by lia. auto. }
  split. { rewrite app_nth1 by lia. auto. }
  split. { rewrite app_nth1 by lia. auto. }
  split. { rewrite app_nth1 by lia. auto. }
  split. { rewrite app_nth1 by lia. rewrite L1. auto. }
  split. { rewrite app_nth1 by lia. rewrite L1. auto. }
  split. { rewrite app_nth2 by lia. rewrite rev_nth by lia.
           rewrite <- B3. f_equal. lia. }
  split. { rewrite app_nth2 by lia. rewrite rev_nth by lia.
           rewrite <- B4. f_equal. lia. }
  split. { rewrite app_nth2 by lia. rewrite rev_nth by lia.
           rewrite <- B1. f_equal. lia. }
  split. { rewrite app_nth2 by lia. rewrite rev_nth by lia.
           rewrite <- B2 at 1. f_equal. lia. }
  split.
  - intros q Hq. rewrite app_nth1 by lia. destruct (U q); [lia | auto].
  - intros q Hq. rewrite app_nth2 by lia. rewrite rev_nth by lia.
    apply Lo. lia.
Qed.

End Sides.

Lemma boundary_negative : forall nside p n r, (1 <= nside)%Z -> legal_pix nside p -> (n < 0)%Z ->
  boundary p nside n r = Err ValueError.
Proof.
  intros nside p n r Hn Hp H.
  destruct (pix2xy_legal nside p Hn Hp) as [i [j [_ E]]].
  unfold boundary, boundary_top, boundary_bot, top_left, top_right, bot_left, bot_right.
  rewrite E. cbn [bind]. cbv zeta.
  assert (C : (Z.quot n 2 < 0)%Z \/ (Z.quot n 2 = 0)%Z /\ n = (-1)%Z).
  { Z.to_euclidean_division_equations; lia. }
  destruct C as [C|[C1 C2]].
  - set (m := Z.quot n 2) in *.
    assert (C' : (Z.quot m 2 < 0)%Z \/ (Z.quot m 2 = 0)%Z /\ m = (-1)%Z).
    { clearbody m. Z.to_euclidean_division_equations; lia. }
    destruct C' as [C'|[C1' C2']].
    + rewrite (linspaceZ_err _ _ (Z.quot m 2)) by auto. reflexivity.
    + rewrite C1', C2'. rewrite (linspaceZ_ok _ _ 0) by lia. cbn [bind fst snd rev_if].
      rewrite linspaceZ_err by lia. reflexivity.
  - subst n. simpl Z.quot. simpl Z.sub. rewrite !(linspaceZ_ok _ _ 0) by lia. cbn [bind fst snd rev_if].
    rewrite (linspaceZ_err _ _ (-1)) by lia. reflexivity.
Qed.

Lemma boundary_spec : forall nside p xp yp steps reverse,
  (1 <= nside)%Z -> pix2xy p nside = Ok (xp, yp) -> (0 <= steps)%Z ->
  exists xs ys, boundary p nside steps false = Ok (xs, ys) /\
  boundary p nside steps reverse = Ok (if reverse then (rev xs, rev ys) else (xs, ys)) /\
  length xs = Z.to_nat steps /\ length ys = Z.to_nat steps /\
  (forall q, (q < length xs)%nat -> l1 (nth q xs 0) (nth q ys 0) xp yp = half_diag nside) /\
  ((8 <= steps)%Z -> exists a b c : nat, (0 < a < b)%nat /\ (b < c < length xs - 1)%nat /\
     nth 0 xs 0 = xp - half_diag nside /\ nth 0 ys 0 = yp /\
     nth a xs 0 = xp /\ nth a ys 0 = yp + half_diag nside /\
     nth b xs 0 = xp + half_diag nside /\ nth b ys 0 = yp /\
     nth c xs 0 = xp /\ nth c ys 0 = yp - half_diag nside /\
     nth (length xs - 1) xs 0 = xp - half_diag nside /\ nth (length xs - 1) ys 0 = yp /\
     (forall q, (q <= b)%nat -> yp <= nth q ys 0) /\
     (forall q, (b < q < length xs)%nat -> nth q ys 0 <= yp)).
Proof.
  intros nside p xp yp steps r Hn Hxy Hs.
  destruct (boundary_ok nside p xp yp Hn Hxy steps r Hs) as [xs [ys [A [B [C [[D1 D2] E]]]]]].
  exists xs, ys. split; auto. split; [destruct r; auto|]. split; auto. split; [lia|].
  split; auto.
Qed.

Lemma boundary_halves : forall nside p xp yp steps reverse,
  (1 <= nside)%Z -> pix2xy p nside = Ok (xp, yp) -> (0 <= steps)%Z ->
  exists xt yt xb yb,
  boundary_top p nside steps false = Ok (xt, yt) /\
  boundary_top p nside steps reverse = Ok (if reverse then (rev xt, rev yt) else (xt, yt)) /\
  boundary_bot p nside steps false = Ok (xb, yb) /\
  boundary_bot p nside steps reverse = Ok (if reverse then (rev xb, rev yb) else (xb, yb)) /\
  length xt = Z.to_nat steps /\ length yt = Z.to_nat steps /\
  length xb = Z.to_nat steps /\ length yb = Z.to_nat steps /\
  (forall q, (q < length xt)%nat ->
     l1 (nth q xt 0) (nth q yt 0) xp yp = half_diag nside /\ yp <= nth q yt 0) /\
  (forall q, (q < length xb)%nat ->
     l1 (nth q xb 0) (nth q yb 0) xp yp = half_diag nside /\ nth q yb 0 <= yp).
Proof.
  intros nside p xp yp steps r Hn Hxy Hs.
  destruct (boundary_top_ok nside p xp yp Hn Hxy steps r Hs) as [xt [yt [A [B [C [[D1 D2] E]]]]]].
  destruct (boundary_bot_ok nside p xp yp Hn Hxy steps r Hs) as [xb [yb [A' [B' [C' [[D1' D2'] E']]]]]].
  exists xt, yt, xb, yb. split; auto. split; [destruct r; auto|]. split; auto.
  split; [destruct r; auto|]. split; auto. split; [lia|]. split; auto. split; [lia|].
  split; auto.
Qed.
