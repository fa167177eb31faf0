(** * Proofs about plane figures and boxes *)

From Coq Require Import Reals ZArith List Bool Lra Lia Psatz.
From Flocq Require Import Core.Raux.
From Verif Require Import Base BaseP SpecShapes MCoords MShapes.
Import ListNotations.
Open Scope R_scope.

Lemma nth_lin : forall a b m i d, (i < m)%nat -> nth i (linspace a b m) d = a + fraction m i * (b - a).
Proof.
  intros a b m i d H. unfold fraction. destruct (Nat.leb_spec m 1) as [L|L].
  - assert (m = 1%nat) by lia. assert (i = 0%nat) by lia. subst. cbn. ring.
  - rewrite nth_linspace by lia. field. apply not_0_INR. lia.
Qed.

Lemma fraction_range : forall m i, (i < m)%nat -> 0 <= fraction m i <= 1.
Proof.
  intros m i H. unfold fraction. destruct (Nat.leb_spec m 1) as [L|L]; [lra|].
  assert (0 < INR (m - 1)) by (apply lt_0_INR; lia). assert (INR i <= INR (m - 1)) by (apply le_INR; lia).
  pose proof (pos_INR i). split.
  - apply Rmult_le_pos; [lra|]. left. now apply Rinv_0_lt_compat.
  - apply Rmult_le_reg_r with (INR (m - 1)); [lra|]. unfold Rdiv. rewrite Rmult_assoc, Rinv_l by lra. lra.
Qed.

Lemma fraction_0 : forall m, fraction m 0 = 0.
Proof. intros m. unfold fraction. destruct (m <=? 1)%nat; [reflexivity|]. cbn. unfold Rdiv. ring. Qed.

Lemma fraction_last : forall m, (2 <= m)%nat -> fraction m (m - 1) = 1.
Proof.
  intros m H. unfold fraction. destruct (Nat.leb_spec m 1) as [L|L]; [lia|]. field. apply not_0_INR. lia.
Qed.

Lemma fraction_1 : forall i, fraction 1 i = 0.
Proof. intros i. reflexivity. Qed.

Lemma lin_map : forall a b m, linspace a b m = map (fun i => a + fraction m i * (b - a)) (seq 0 m).
Proof.
  intros a b m. apply list_ext with (d := 0).
  - now rewrite length_linspace, map_length, seq_length.
  - intros i Hi. rewrite length_linspace in Hi. rewrite nth_lin by exact Hi.
    rewrite (nth_map_lt _ _ _ _ i 0 0%nat) by (rewrite seq_length; exact Hi). now rewrite seq_nth.
Qed.

Lemma repeat_map : forall A (c : A) m s, repeat c m = map (fun _ => c) (seq s m).
Proof. intros A c m. induction m as [|m IH]; intros s; [reflexivity|]. cbn. now rewrite <- IH. Qed.

(** ** The rectangle *)

Lemma nth_side : forall (l1 l2 l3 l4 : list R) m k i, length l1 = m -> length l2 = m -> length l3 = m ->
  (k < 4)%nat -> (i < m)%nat ->
  nth (k * m + i) (((l1 ++ l2) ++ l3) ++ l4) 0 =
  nth i (match k with 0%nat => l1 | 1%nat => l2 | 2%nat => l3 | _ => l4 end) 0.
Proof.
  intros l1 l2 l3 l4 m k i H1 H2 H3 Hk Hi.
  destruct k as [|[|[|[|k]]]]; [| | | |lia].
  - rewrite !app_nth1 by (rewrite ?app_length; lia). now replace (0 * m + i)%nat with i by lia.
  - rewrite app_nth1 by (rewrite ?app_length; lia). rewrite app_nth1 by (rewrite ?app_length; lia).
    rewrite app_nth2 by lia. f_equal. lia.
  - rewrite app_nth1 by (rewrite ?app_length; lia). rewrite app_nth2 by (rewrite ?app_length; lia).
    rewrite app_length. f_equal. lia.
  - rewrite app_nth2 by (rewrite ?app_length; lia). rewrite !app_length. f_equal. lia.
Qed.

Lemma square_ok : forall xmin xmax ymin ymax m, (1 <= m)%nat ->
  exists x y, get_square xmin xmax ymin ymax (4 * Z.of_nat m) = Ok (x, y) /\
    length x = (4 * m)%nat /\ length y = (4 * m)%nat /\
    forall k i, (k < 4)%nat -> (i < m)%nat ->
      (nth (k * m + i) x 0, nth (k * m + i) y 0) =
      between2 (rect_corner xmin xmax ymin ymax k) (rect_corner xmin xmax ymin ymax (S k)) (fraction m i).
Proof.
  intros a b c d m Hm. unfold get_square.
  replace ((4 * Z.of_nat m) mod 4)%Z with 0%Z by (rewrite Z.mul_comm; symmetry; apply Z_mod_mult).
  replace (0 <? 4 * Z.of_nat m)%Z with true by (symmetry; apply Z.ltb_lt; lia).
  replace (4 * Z.of_nat m / 4)%Z with (Z.of_nat m) by (rewrite Z.mul_comm; symmetry; apply Z.div_mul; lia).
  rewrite Nat2Z.id. eexists. eexists. split; [reflexivity|].
  split; [rewrite !app_length, !length_linspace, !repeat_length; lia|].
  split; [rewrite !app_length, !length_linspace, !repeat_length; lia|].
  intros k i Hk Hi. rewrite !(nth_side _ _ _ _ m k i) by (rewrite ?length_linspace, ?repeat_length; lia).
  destruct k as [|[|[|[|k]]]]; [| | | |lia]; cbv iota;
    rewrite nth_lin by exact Hi; rewrite nth_repeat_lt by exact Hi; unfold between2, rect_corner; cbn [fst snd]; f_equal; ring.
Qed.

Lemma square_steps : forall xmin xmax ymin ymax steps x y, get_square xmin xmax ymin ymax steps = Ok (x, y) ->
  exists m, (1 <= m)%nat /\ steps = (4 * Z.of_nat m)%Z.
Proof.
  intros a b c d steps x y. unfold get_square, py_assert.
  destruct (Z.eqb_spec (steps mod 4) 0) as [E|E]; [|discriminate].
  destruct (Z.ltb_spec 0 steps) as [L|L]; [|discriminate]. intros _.
  exists (Z.to_nat (steps / 4)). assert (steps = 4 * (steps / 4))%Z by (apply Z_div_exact_full_2; lia).
  split; lia.
Qed.

(** ** The box: rows *)

Definition all_edges : list edge :=
  [(AX, false, false); (AX, true, false); (AY, false, false); (AY, true, false);
   (AX, false, true); (AX, true, true); (AY, false, true); (AY, true, true);
   (AZ, false, false); (AZ, true, false); (AZ, false, true); (AZ, true, true)].

Lemma all_edges_NoDup : NoDup all_edges.
Proof. repeat constructor; cbn; intuition discriminate. Qed.

Lemma all_edges_full : forall e, In e all_edges.
Proof. intros [[[] []] []]; cbn; tauto. Qed.

Lemma edge_row_eq : forall B m e, edge_row B m e =
  match e with
  | (AX, b, c) => (linspace (bx0 B) (bx1 B) m, repeat (side (by0 B) (by1 B) b) m, repeat (side (bz0 B) (bz1 B) c) m)
  | (AY, a, c) => (repeat (side (bx0 B) (bx1 B) a) m, linspace (by0 B) (by1 B) m, repeat (side (bz0 B) (bz1 B) c) m)
  | (AZ, a, b) => (repeat (side (bx0 B) (bx1 B) a) m, repeat (side (by0 B) (by1 B) b) m, linspace (bz0 B) (bz1 B) m)
  end.
Proof.
  intros B m [[[] a] b]; unfold edge_row, edge_point; rewrite !map_map; cbn [fst snd];
    rewrite !lin_map; rewrite <- !repeat_map; reflexivity.
Qed.

Lemma steps12 : forall m, (1 <= m)%nat -> (12 * Z.of_nat m mod 12 =? 0)%Z && (0 <? 12 * Z.of_nat m)%Z = true /\
  Z.to_nat (12 * Z.of_nat m / 12) = m.
Proof.
  intros m Hm. replace ((12 * Z.of_nat m) mod 12)%Z with 0%Z by (rewrite Z.mul_comm; symmetry; apply Z_mod_mult).
  replace (0 <? 12 * Z.of_nat m)%Z with true by (symmetry; apply Z.ltb_lt; lia).
  replace (12 * Z.of_nat m / 12)%Z with (Z.of_nat m) by (rewrite Z.mul_comm; symmetry; apply Z.div_mul; lia).
  rewrite Nat2Z.id. split; reflexivity.
Qed.

(** ** Line of sight *)

Lemma argmin_from_spec : forall l pre best v,
  (best < length pre)%nat -> nth best pre 0 = v -> (forall x, In x pre -> v <= x) ->
  let j := argmin_from l (length pre) best v in
  (j < length (pre ++ l))%nat /\ forall x, In x (pre ++ l) -> nth j (pre ++ l) 0 <= x.
Proof.
  induction l as [|a l IH]; intros pre best v Hb Hv Hm; cbn [argmin_from].
  - rewrite app_nil_r. split; [exact Hb|]. intros x Hx. rewrite Hv. now apply Hm.
  - replace (pre ++ a :: l) with ((pre ++ [a]) ++ l) by (rewrite <- app_assoc; reflexivity).
    assert (HL : S (length pre) = length (pre ++ [a])) by (rewrite app_length; cbn; lia). rewrite HL.
    destruct (Rlt_bool_spec a v) as [L|L].
    + apply IH.
      * lia.
      * rewrite app_nth2, Nat.sub_diag by lia. reflexivity.
      * intros x Hx. apply in_app_iff in Hx. destruct Hx as [Hx|[<-|[]]]; [specialize (Hm x Hx)|]; lra.
    + apply IH.
      * lia.
      * rewrite app_nth1 by lia. exact Hv.
      * intros x Hx. apply in_app_iff in Hx. destruct Hx as [Hx|[<-|[]]]; [now apply Hm|lra].
Qed.

Lemma argmin_spec : forall l, l <> [] -> (np_argmin l < length l)%nat /\ forall x, In x l -> nth (np_argmin l) l 0 <= x.
Proof.
  intros [|a l] H; [congruence|]. unfold np_argmin. apply (argmin_from_spec l [a] 0 a); cbn; try lia; try reflexivity.
  intros x [<-|[]]. lra.
Qed.

Lemma nearest_corner : forall corners x y z, In (x, y, z) corners ->
  let i := np_argmin (corner_dist corners x y z) in (i < length corners)%nat /\ nth i corners (0, 0, 0) = (x, y, z).
Proof.
  intros corners x y z H i.
  assert (NE : corner_dist corners x y z <> []) by (destruct corners; [destruct H|discriminate]).
  destruct (argmin_spec _ NE) as [L M]. fold i in L, M. unfold corner_dist in L. rewrite map_length in L.
  split; [exact L|].
  set (f := fun c : R * R * R => let '(xc, yc, zc) := c in
    sqrt ((xc - x) * (xc - x) + (yc - y) * (yc - y) + (zc - z) * (zc - z))).
  assert (Z0 : f (x, y, z) = 0).
  { unfold f. replace ((x - x) * (x - x) + (y - y) * (y - y) + (z - z) * (z - z)) with 0 by ring. apply sqrt_0. }
  assert (Hle : f (nth i corners (0, 0, 0)) <= 0).
  { apply Rle_trans with (f (x, y, z)); [|lra]. unfold corner_dist in M. fold f in M.
    pose proof (M (f (x, y, z)) (in_map f _ _ H)) as M1. now rewrite (nth_map_lt _ _ f corners i 0 (0, 0, 0)) in M1 by exact L. }
  destruct (nth i corners (0, 0, 0)) as [[a b] c]. unfold f in Hle.
  assert (S : (a - x) * (a - x) + (b - y) * (b - y) + (c - z) * (c - z) <= 0).
  { set (q := _ + _) in *. destruct (Rle_lt_dec q 0) as [Hq|Hq]; [exact Hq|]. pose proof (sqrt_lt_R0 q Hq). lra. }
  pose proof (Rle_0_sqr (a - x)) as A. pose proof (Rle_0_sqr (b - y)) as B. pose proof (Rle_0_sqr (c - z)) as C. unfold Rsqr in *.
  assert (a - x = 0) by (apply Rsqr_0_uniq; unfold Rsqr; lra).
  assert (b - y = 0) by (apply Rsqr_0_uniq; unfold Rsqr; lra).
  assert (c - z = 0) by (apply Rsqr_0_uniq; unfold Rsqr; lra).
  f_equal; [f_equal|]; lra.
Qed.

Lemma np_where_empty : forall l, np_where l = [] <-> forall i, (i < length l)%nat -> nth i l false = false.
Proof.
  intros l. split.
  - intros E i Hi. destruct (nth i l false) eqn:F; [|reflexivity].
    assert (In i (np_where l)) by (apply in_np_where; auto). rewrite E in H. destruct H.
  - intros H. destruct (np_where l) as [|i w] eqn:E; [reflexivity|].
    assert (I : In i (np_where l)) by (rewrite E; now left). apply in_np_where in I. destruct I as [I1 I2].
    rewrite H in I2 by exact I1. discriminate.
Qed.

Lemma remove_corner_spec : forall B c0 c1 c2 p,
  remove_corner (bx0 B) (bx1 B) (by0 B) (by1 B) (bz0 B) (bz1 B) c0 c1 c2 p = true <-> sampled_hidden B (c0, c1, c2) p.
Proof.
  intros B c0 c1 c2 [[x y] z]. unfold remove_corner, sampled_hidden.
  set (n := 100%nat).
  set (inx := map _ (map (fun t => t * (x - c0) + c0) (linspace 0 1 n))).
  set (iny := map _ (map (fun t => t * (y - c1) + c1) (linspace 0 1 n))).
  set (inz := map _ (map (fun t => t * (z - c2) + c2) (linspace 0 1 n))).
  assert (Lx : length inx = n) by (unfold inx; rewrite !map_length; apply length_linspace).
  assert (Ly : length iny = n) by (unfold iny; rewrite !map_length; apply length_linspace).
  assert (Lz : length inz = n) by (unfold inz; rewrite !map_length; apply length_linspace).
  assert (V : forall k, (k < n)%nat -> nth k (map2 andb (map2 andb inx iny) inz) false = true <->
    inside B (sight (c0, c1, c2) (x, y, z) (INR k / 99))).
  { intros k Hk. rewrite (nth_map2 _ _ _ _ _ inz k false false false) by (rewrite ?map2_length; lia).
    rewrite (nth_map2 _ _ _ _ inx iny k false false false) by lia.
    unfold inx, iny, inz. rewrite !map_map.
    rewrite !(nth_map_lt _ _ _ (linspace 0 1 n) k false 0) by (rewrite length_linspace; exact Hk).
    rewrite nth_linspace by (unfold n in *; lia).
    replace (INR (n - 1)) with 99 by (change (n - 1)%nat with 99%nat; rewrite INR_IZR_INZ; reflexivity).
    replace (0 + INR k * ((1 - 0) / 99)) with (INR k / 99) by field.
    unfold inside, sight. rewrite !andb_true_iff.
    replace (c0 + INR k / 99 * (x - c0)) with (INR k / 99 * (x - c0) + c0) by ring.
    replace (c1 + INR k / 99 * (y - c1)) with (INR k / 99 * (y - c1) + c1) by ring.
    replace (c2 + INR k / 99 * (z - c2)) with (INR k / 99 * (z - c2) + c2) by ring.
    assert (Q : forall a b, Rlt_bool a b = true <-> a < b).
    { intros a b. destruct (Rlt_bool_spec a b); split; intros; try assumption; try discriminate; try reflexivity; lra. }
    rewrite !Q. tauto. }
  assert (LM : length (map2 andb (map2 andb inx iny) inz) = n) by (rewrite !map2_length; lia).
  clearbody inx iny inz. set (cond := map2 andb (map2 andb inx iny) inz) in *.
  destruct (np_where cond) as [|i w] eqn:E.
  - cbn [length Nat.eqb]. split; [discriminate|]. intros (k & Hk & Hin). pose proof (proj1 (np_where_empty cond) E k) as F.
    rewrite LM in F. specialize (F Hk). apply V in Hin; [|exact Hk]. congruence.
  - cbn [length Nat.eqb]. split; [|reflexivity]. intros _.
    assert (I : In i (np_where cond)) by (rewrite E; now left). apply in_np_where in I. destruct I as [I1 I2].
    rewrite LM in I1. exists i. split; [exact I1|]. apply V; assumption.
Qed.

(** Ends of the edges are corners. *)
Lemma edge_end_corner : forall B e t, t = 0 \/ t = 1 ->
  In (edge_point B e t) (box_corners (bx0 B) (bx1 B) (by0 B) (by1 B) (bz0 B) (bz1 B)).
Proof.
  intros B e t Ht.
  assert (Q : forall a b, a + t * (b - a) = side a b (if Req_bool t 1 then true else false)).
  { intros a b. destruct (Req_bool_spec t 1) as [E|E]; cbn [side].
    - rewrite E. unfold side. ring.
    - destruct Ht as [->|Ht]; [unfold side; ring|contradiction]. }
  unfold edge_point, box_corners. destruct e as [[[] a] b]; rewrite Q;
    destruct (if Req_bool t 1 then true else false), a, b; cbn [side In]; unfold side; tauto.
Qed.

Lemma hd_edge_row : forall B m e, (1 <= m)%nat -> let '(rx, ry, rz) := edge_row B m e in
  (nth 0 rx 0, nth 0 ry 0, nth 0 rz 0) = edge_point B e 0.
Proof.
  intros B m e Hm. unfold edge_row. rewrite !map_map.
  rewrite !(nth_map_lt _ _ _ (seq 0 m) 0 0 0%nat) by (rewrite seq_length; lia). rewrite seq_nth by lia.
  cbn [Nat.add]. rewrite fraction_0. now destruct (edge_point B e 0) as [[x y] z].
Qed.

Lemma last_nth : forall (l : list R) d, l <> [] -> last l d = nth (length l - 1) l d.
Proof.
  induction l as [|a l IH]; intros d H; [congruence|]. destruct l as [|b l]; [reflexivity|].
  change (last (a :: b :: l) d) with (last (b :: l) d). rewrite IH by discriminate. cbn [length]. 
  replace (S (S (length l)) - 1)%nat with (S (S (length l) - 1)) by lia. reflexivity.
Qed.

Lemma last_edge_row : forall B m e, (1 <= m)%nat -> let '(rx, ry, rz) := edge_row B m e in
  (last rx 0, last ry 0, last rz 0) = edge_point B e (fraction m (m - 1)).
Proof.
  intros B m e Hm. unfold edge_row. rewrite !map_map.
  assert (LS : length (seq 0 m) = m) by apply seq_length.
  assert (NE : forall g : nat -> R, map g (seq 0 m) <> []).
  { intros g E. apply (f_equal (@length R)) in E. rewrite map_length, LS in E. cbn in E. lia. }
  rewrite !last_nth by apply NE. rewrite !map_length, LS.
  rewrite !(nth_map_lt _ _ _ (seq 0 m) (m - 1) 0 0%nat) by (rewrite LS; lia). rewrite seq_nth by lia.
  cbn [Nat.add]. now destruct (edge_point B e (fraction m (m - 1))) as [[x y] z].
Qed.

Lemma filter_map : forall A C (f : C -> bool) (g : A -> C) l, filter f (map g l) = map g (filter (fun a => f (g a)) l).
Proof. intros A C f g l. induction l as [|a l IH]; [reflexivity|]. cbn. destruct (f (g a)); cbn; now rewrite IH. Qed.

(** ** Geometry of hidden edges *)

Lemma keep_between : forall lo hi c p t s, lo <= p <= hi -> lo < c + t * (p - c) < hi -> t <= s -> s < 1 ->
  lo < c + s * (p - c) < hi.
Proof.
  intros lo hi c p t s Hp Hin Hts Hs.
  assert (Ht : t < 1) by lra.
  set (l := (s - t) / (1 - t)). assert (Hl : 0 <= l < 1).
  { unfold l. split.
    - apply Rmult_le_pos; [lra|]. left. apply Rinv_0_lt_compat. lra.
    - apply Rmult_lt_reg_r with (1 - t); [lra|]. unfold Rdiv. rewrite Rmult_assoc, Rinv_l by lra. lra. }
  assert (E : c + s * (p - c) = (1 - l) * (c + t * (p - c)) + l * p).
  { unfold l. field. lra. }
  rewrite E. set (q := c + t * (p - c)) in *. split; nra.
Qed.

Lemma near_end : forall lo hi c p, lo < p < hi -> exists s0, 0 <= s0 < 1 /\ forall s, s0 <= s < 1 -> lo < c + s * (p - c) < hi.
Proof.
  intros lo hi c p Hp. set (w := Rmin (p - lo) (hi - p)). assert (Hw : 0 < w) by (unfold w, Rmin; destruct (Rle_dec _ _); lra).
  set (d := Rabs (p - c) + w). assert (Hd : 0 < d) by (unfold d; pose proof (Rabs_pos (p - c)); lra).
  exists (1 - w / (2 * d)).
  assert (Hr : 0 < w / (2 * d) <= 1).
  { split; [apply Rdiv_lt_0_compat; lra|]. apply Rmult_le_reg_r with (2 * d); [lra|]. unfold Rdiv.
    rewrite Rmult_assoc, Rinv_l by lra. unfold d. pose proof (Rabs_pos (p - c)). lra. }
  split; [lra|]. intros s Hs. replace (c + s * (p - c)) with (p - (1 - s) * (p - c)) by ring.
  assert (Hb : Rabs ((1 - s) * (p - c)) < w).
  { rewrite Rabs_mult, (Rabs_pos_eq (1 - s)) by lra.
    apply Rle_lt_trans with (w / (2 * d) * d).
    - apply Rmult_le_compat; try lra; [apply Rabs_pos|unfold d; lra].
    - replace (w / (2 * d) * d) with (w / 2) by (field; lra). lra. }
  apply Rabs_def2 in Hb. assert (w <= p - lo) by apply Rmin_l. assert (w <= hi - p) by apply Rmin_r. lra.
Qed.

Lemma side_range : forall lo hi b, lo <= hi -> lo <= side lo hi b <= hi.
Proof. intros lo hi [] H; unfold side; lra. Qed.

(** The sight to an edge of a box, split into the coordinate along the edge
    and the two others. *)
Definition along (B : box) (e : edge) : R * R := match e with (AX, _, _) => (bx0 B, bx1 B) | (AY, _, _) => (by0 B, by1 B) | (AZ, _, _) => (bz0 B, bz1 B) end.

Definition axis_of (e : edge) (c : R * R * R) : R :=
  let '(x, y, z) := c in match e with (AX, _, _) => x | (AY, _, _) => y | (AZ, _, _) => z end.

(** Conditions on the two coordinates across the edge. *)
Definition across (B : box) (e : edge) (c : R * R * R) (t : R) : Prop :=
  let '(cx, cy, cz) := c in
  let ok lo hi c p := lo < c + t * (p - c) < hi in
  match e with
  | (AX, b, d) => ok (by0 B) (by1 B) cy (side (by0 B) (by1 B) b) /\ ok (bz0 B) (bz1 B) cz (side (bz0 B) (bz1 B) d)
  | (AY, a, d) => ok (bx0 B) (bx1 B) cx (side (bx0 B) (bx1 B) a) /\ ok (bz0 B) (bz1 B) cz (side (bz0 B) (bz1 B) d)
  | (AZ, a, b) => ok (bx0 B) (bx1 B) cx (side (bx0 B) (bx1 B) a) /\ ok (by0 B) (by1 B) cy (side (by0 B) (by1 B) b)
  end.

Lemma inside_split : forall B e c t s,
  inside B (sight c (edge_point B e s) t) <->
  across B e c t /\ fst (along B e) < axis_of e c + t * (fst (along B e) + s * (snd (along B e) - fst (along B e)) - axis_of e c) < snd (along B e).
Proof. intros B [[[] a] b] [[cx cy] cz] t s; unfold inside, sight, edge_point, across, along, axis_of; cbn [fst snd]; tauto. Qed.

Lemma across_later : forall B e c t s, bx0 B <= bx1 B -> by0 B <= by1 B -> bz0 B <= bz1 B ->
  across B e c t -> t <= s < 1 -> across B e c s.
Proof.
  intros B [[[] a] b] [[cx cy] cz] t s Hx Hy Hz H Hs; unfold across in *; destruct H as [H1 H2];
    (split; [apply (keep_between _ _ _ _ t); [now apply side_range|assumption|lra|lra]|apply (keep_between _ _ _ _ t); [now apply side_range|assumption|lra|lra]]).
Qed.

Lemma inside_ordered : forall B p, inside B p -> bx0 B < bx1 B /\ by0 B < by1 B /\ bz0 B < bz1 B.
Proof. intros B [[x y] z] (H1 & H2 & H3). lra. Qed.

Lemma across_not_1 : forall B e c, ~ across B e c 1.
Proof.
  intros B [[[] a] b] [[cx cy] cz]; unfold across, side; intros [H1 H2]; destruct a, b; lra.
Qed.

(** A hidden end hides the whole edge but for the other end. *)
Lemma hidden_end_edge : forall B c e q, q = 0 \/ q = 1 -> hidden B c (edge_point B e q) ->
  forall s, 0 < s < 1 -> hidden B c (edge_point B e s).
Proof.
  intros B c e q Hq (t & Ht & H) s Hs. destruct (inside_ordered _ _ H) as (Ox & Oy & Oz).
  apply inside_split in H. destruct H as [Hc _].
  assert (T1 : t < 1). { destruct (Rle_lt_or_eq_dec t 1) as [L|L]; [lra|exact L|]. rewrite L in Hc. now apply across_not_1 in Hc. }
  assert (Oa : fst (along B e) < snd (along B e)) by (destruct e as [[[] ?] ?]; cbn; assumption).
  destruct (near_end (fst (along B e)) (snd (along B e)) (axis_of e c) (fst (along B e) + s * (snd (along B e) - fst (along B e)))) as (s0 & Hs0 & N).
  { split; nra. }
  set (r := Rmax t s0). assert (Hr : t <= r /\ s0 <= r /\ r < 1).
  { split; [apply Rmax_l|]. split; [apply Rmax_r|]. unfold r. apply Rmax_lub_lt; lra. }
  exists r. split; [lra|]. apply inside_split. split.
  - apply (across_later B e c t r); try lra. exact Hc.
  - apply N. lra.
Qed.

(** Conversely an edge hidden at an inner point has a hidden end. *)
Lemma hidden_inner_end : forall B c e s, 0 < s < 1 -> hidden B c (edge_point B e s) ->
  hidden B c (edge_point B e 0) \/ hidden B c (edge_point B e 1).
Proof.
  intros B c e s Hs (t & Ht & H). destruct (inside_ordered _ _ H) as (Ox & Oy & Oz).
  apply inside_split in H. destruct H as [Hc _].
  assert (T1 : t < 1). { destruct (Rle_lt_or_eq_dec t 1) as [L|L]; [lra|exact L|]. rewrite L in Hc. now apply across_not_1 in Hc. }
  assert (Oa : fst (along B e) < snd (along B e)) by (destruct e as [[[] ?] ?]; cbn; assumption).
  set (lo := fst (along B e)) in *. set (hi := snd (along B e)) in *. set (a := axis_of e c).
  destruct (Rle_lt_dec hi a) as [L|L].
  - (* seen from beyond the high end: the low end is hidden *)
    left. destruct (near_end (2 * lo - hi) hi a lo) as (s0 & Hs0 & N); [lra|].
    set (r := Rmax t s0). assert (Hr : t <= r /\ s0 <= r /\ r < 1).
    { split; [apply Rmax_l|]. split; [apply Rmax_r|]. unfold r. apply Rmax_lub_lt; lra. }
    exists r. split; [lra|]. apply inside_split. split; [apply (across_later B e c t r); try lra; exact Hc|].
    fold lo hi a. replace (lo + 0 * (hi - lo)) with lo by ring. specialize (N r ltac:(lra)). split; [|lra].
    assert (0 < (1 - r) * (a - lo)) by (apply Rmult_lt_0_compat; lra). nra.
  - right. destruct (near_end lo (2 * hi - lo) a hi) as (s0 & Hs0 & N); [lra|].
    set (r := Rmax t s0). assert (Hr : t <= r /\ s0 <= r /\ r < 1).
    { split; [apply Rmax_l|]. split; [apply Rmax_r|]. unfold r. apply Rmax_lub_lt; lra. }
    exists r. split; [lra|]. apply inside_split. split; [apply (across_later B e c t r); try lra; exact Hc|].
    fold lo hi a. replace (lo + 1 * (hi - lo)) with hi by ring. specialize (N r ltac:(lra)). split; [lra|].
    assert (0 < (1 - r) * (hi - a)) by (apply Rmult_lt_0_compat; lra). nra.
Qed.

Lemma sampled_hidden_hidden : forall B c p, sampled_hidden B c p -> hidden B c p.
Proof.
  intros B c p (k & Hk & H). exists (INR k / 99). split; [|exact H].
  assert (INR k <= INR 99) by (apply le_INR; lia). replace (INR 99) with 99 in H0 by (rewrite INR_IZR_INZ; reflexivity).
  pose proof (pos_INR k). lra.
Qed.
