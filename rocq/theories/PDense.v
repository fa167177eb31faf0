(** * Proofs about [MDense.v] *)

From Coq Require Import Reals ZArith List Bool Lia Lra Psatz.
From Flocq Require Import Core.Raux.
From Verif Require Import Base BaseP SpecGrid SpecRemap SpecDense MCoords MGrids MDense PRemap2 PRadial PPolarCoords PHealpixBoundary.
Import ListNotations.
Open Scope R_scope.

(** ** Tabulated arrays *)

Definition tab {A} (n : nat) (g : nat -> A) : list A := map g (seq 0 n).
Definition tab2 {A} (n m : nat) (g : nat -> nat -> A) : list (list A) := tab n (fun i => tab m (g i)).
Definition tab3 {A} (n m k : nat) (g : nat -> nat -> nat -> A) : list (list (list A)) := tab n (fun i => tab2 m k (g i)).

Lemma tab_length : forall A n (g : nat -> A), length (tab n g) = n.
Proof. intros. unfold tab. now rewrite map_length, seq_length. Qed.

Lemma tab_nth : forall A n (g : nat -> A) i d, (i < n)%nat -> nth i (tab n g) d = g i.
Proof. intros. unfold tab. rewrite (nth_map_lt _ _ _ _ _ d 0%nat) by (rewrite seq_length; lia). rewrite seq_nth by lia. reflexivity. Qed.

Lemma tab_ext : forall A n (g h : nat -> A), (forall i, (i < n)%nat -> g i = h i) -> tab n g = tab n h.
Proof. intros A n g h H. unfold tab. apply map_ext_in. intros a Ha. apply in_seq in Ha. apply H. lia. Qed.

Lemma tab_const : forall A n (k : A), tab n (fun _ => k) = repeat k n.
Proof.
  intros. unfold tab. generalize 0%nat. induction n as [|n IH]; intros s; [reflexivity|]. cbn [seq map repeat]. now rewrite IH.
Qed.

Lemma tab2_const : forall A n m (k : A), tab2 n m (fun _ _ => k) = repeat (repeat k m) n.
Proof. intros. unfold tab2. rewrite tab_const. f_equal. apply tab_const. Qed.

Lemma tab2_ext : forall A n m (g h : nat -> nat -> A), (forall i j, (i < n)%nat -> (j < m)%nat -> g i j = h i j) -> tab2 n m g = tab2 n m h.
Proof. intros. unfold tab2. apply tab_ext. intros. apply tab_ext. auto. Qed.

Lemma tab_map : forall A B (f : A -> B) n g, map f (tab n g) = tab n (fun i => f (g i)).
Proof. intros. unfold tab. now rewrite map_map. Qed.

Lemma tab2_map : forall A B (f : A -> B) n m g, map (map f) (tab2 n m g) = tab2 n m (fun i j => f (g i j)).
Proof. intros. unfold tab2. rewrite tab_map. apply tab_ext. intros. apply tab_map. Qed.

Lemma tab_map2 : forall A B C (f : A -> B -> C) n g h, map2 f (tab n g) (tab n h) = tab n (fun i => f (g i) (h i)).
Proof. intros. unfold tab. apply map2_map_map. Qed.

Lemma tab2_zip2 : forall A B C (f : A -> B -> C) n m g h, zip2 f (tab2 n m g) (tab2 n m h) = tab2 n m (fun i j => f (g i j) (h i j)).
Proof. intros. unfold zip2, tab2. rewrite tab_map2. apply tab_ext. intros. apply tab_map2. Qed.

Lemma tab2_shape : forall n m (g : nat -> nat -> R), shape2 (tab2 n m g) n m.
Proof.
  intros. unfold tab2. split; [apply tab_length|]. intros i Hi. rewrite tab_length in Hi. rewrite tab_nth by auto. apply tab_length.
Qed.

Lemma tab2_length : forall A n m (g : nat -> nat -> A), length (tab2 n m g) = n.
Proof. intros. apply tab_length. Qed.

Lemma tab2_nth : forall A n m (g : nat -> nat -> A) i j d, (i < n)%nat -> (j < m)%nat -> nth j (nth i (tab2 n m g) []) d = g i j.
Proof. intros. unfold tab2. rewrite tab_nth by auto. now rewrite tab_nth. Qed.

Lemma tab2_cell : forall n m (g : nat -> nat -> R) i j, (i < n)%nat -> (j < m)%nat -> cell (tab2 n m g) i j = g i j.
Proof. intros. unfold cell, tab2. rewrite tab_nth by auto. now rewrite tab_nth. Qed.

Lemma tab_of_list : forall A (l : list A) n d, length l = n -> l = tab n (fun i => nth i l d).
Proof.
  intros A l n d H. apply (list_ext _ _ _ d); [now rewrite tab_length|]. intros i Hi. now rewrite tab_nth by lia.
Qed.

Lemma tab2_of_shape : forall f n m, shape2 f n m -> f = tab2 n m (cell f).
Proof.
  intros f n m [H1 H2]. rewrite (tab_of_list _ f n [] H1) at 1. unfold tab2. apply tab_ext. intros i Hi.
  apply tab_of_list. apply H2. lia.
Qed.

Lemma zip2_tab : forall (op : R -> R -> R) f w n m, shape2 f n m -> shape2 w n m ->
  zip2 op f w = tab2 n m (fun p q => op (cell f p q) (cell w p q)).
Proof.
  intros op f w n m Hf Hw. rewrite (tab2_of_shape f n m Hf) at 1. rewrite (tab2_of_shape w n m Hw) at 1. apply tab2_zip2.
Qed.

Lemma zip2_shape : forall (op : R -> R -> R) f w n m, shape2 f n m -> shape2 w n m -> shape2 (zip2 op f w) n m.
Proof. intros. rewrite (zip2_tab op f w n m) by auto. apply tab2_shape. Qed.

Lemma Rsum_tab : forall n g, Rsum (tab n g) = sum_upto n g.
Proof. reflexivity. Qed.

Lemma mapM_tab : forall A B (f : A -> res B) n (g : nat -> A) (h : nat -> B), (forall i, (i < n)%nat -> f (g i) = Ok (h i)) ->
  mapM f (tab n g) = Ok (tab n h).
Proof.
  intros A B f n g h H. unfold tab. assert (H' : forall i, In i (seq 0 n) -> f (g i) = Ok (h i)).
  { intros i Hi. apply H. apply in_seq in Hi. lia. }
  clear H. induction (seq 0 n) as [|a l IH]; [reflexivity|]. cbn [map mapM].
  rewrite H' by now left. cbn [bind]. rewrite IH by (intros; apply H'; now right). reflexivity.
Qed.

Lemma seq_S_tl : forall A n (g : nat -> A), tl (tab (S n) g) = tab n (fun i => g (S i)).
Proof. intros. unfold tab. cbn [seq map tl]. rewrite <- seq_shift, map_map. reflexivity. Qed.

Lemma seq_S_removelast : forall A n (g : nat -> A), removelast (tab (S n) g) = tab n g.
Proof. intros. unfold tab. rewrite seq_S, map_app. cbn [map]. apply removelast_last. Qed.

Lemma steps_tab : forall A B (F : A -> A -> B) n g, map2 F (tl (tab (S n) g)) (removelast (tab (S n) g)) = tab n (fun i => F (g (S i)) (g i)).
Proof. intros. rewrite seq_S_tl, seq_S_removelast. apply tab_map2. Qed.

Lemma linspace_tab : forall a b n, (1 <= n)%nat -> linspace a b (S n) = tab (S n) (fun i => a + INR i * ((b - a) / INR n)).
Proof.
  intros a b n H. unfold linspace. destruct n as [|n]; [lia|]. replace (S (S n) - 1)%nat with (S n) by lia. reflexivity.
Qed.

Lemma meshgrid_tab : forall n m g h, meshgrid (tab n g) (tab m h) = (tab2 m n (fun _ j => g j), tab2 m n (fun i _ => h i)).
Proof.
  intros. unfold meshgrid. f_equal; unfold tab2; rewrite tab_map; apply tab_ext; intros; auto. apply tab_map.
Qed.

(** ** Reshaping *)

Lemma reshape3_tab : forall n b c g, (1 <= c)%nat ->
  reshape3 n b c (tab2 (n * b) c g) = Ok (tab3 n b c (fun i a k => g (i * b + a)%nat k)).
Proof.
  intros n b c g Hc. unfold reshape3. rewrite (length_concat_rect _ _ _ (tab2_shape (n * b) c g)). rewrite Nat.eqb_refl. f_equal.
  unfold tab3. apply tab_ext. intros i Hi. unfold tab2 at 2. apply tab_ext. intros a Ha. apply tab_ext. intros k Hk.
  replace ((i * b + a) * c + k)%nat with (k + c * (i * b + a))%nat by lia.
  assert (Q : (i * b + a < n * b)%nat) by nia.
  rewrite (nth_concat_rect _ (n * b) c) by auto using tab2_shape. now rewrite tab2_cell.
Qed.

Lemma reshape3_split : forall n m b g, (1 <= m * b)%nat ->
  reshape3 n m b (tab2 n (m * b) g) = Ok (tab3 n m b (fun i j c => g i (j * b + c)%nat)).
Proof.
  intros n m b g Hc. unfold reshape3. rewrite (length_concat_rect _ _ _ (tab2_shape n (m * b) g)).
  replace (n * (m * b))%nat with (n * m * b)%nat by lia. rewrite Nat.eqb_refl. f_equal.
  unfold tab3. apply tab_ext. intros i Hi. unfold tab2 at 2. apply tab_ext. intros j Hj. apply tab_ext. intros c Hc'.
  replace ((i * m + j) * b + c)%nat with (j * b + c + (m * b) * i)%nat by lia.
  assert (Q : (j * b + c < m * b)%nat) by nia.
  rewrite (nth_concat_rect _ n (m * b)) by auto using tab2_shape. now rewrite tab2_cell.
Qed.

Lemma reshape3_bad : forall n b c p q g, (p * q <> n * b * c)%nat -> reshape3 n b c (tab2 p q g) = Err ValueError.
Proof.
  intros. unfold reshape3. rewrite (length_concat_rect _ _ _ (tab2_shape p q g)).
  replace (p * q =? n * b * c)%nat with false; [reflexivity|]. symmetry. now apply Nat.eqb_neq.
Qed.

Lemma sum_axis1_tab : forall n b c g, sum_axis1 c (tab3 n b c g) = tab2 n c (fun i k => sum_upto b (fun a => g i a k)).
Proof.
  intros. unfold sum_axis1, tab3. rewrite tab_map. unfold tab2 at 2. apply tab_ext. intros i Hi.
  apply tab_ext. intros k Hk. unfold tab2. rewrite tab_map, Rsum_tab. apply sum_ext. intros a Ha. now apply tab_nth.
Qed.

Lemma sum_axis2_tab : forall n b c g, sum_axis2 (tab3 n b c g) = tab2 n b (fun i a => sum_upto c (g i a)).
Proof.
  intros. unfold sum_axis2, tab3. rewrite tab_map. unfold tab2 at 2. apply tab_ext. intros i Hi.
  unfold tab2. rewrite tab_map. apply tab_ext. intros k Hk. apply Rsum_tab.
Qed.

Lemma fdiv_ok : forall x y, y <> 0 -> fdiv x y = Some (x / y).
Proof. intros. unfold fdiv. now rewrite Req_bool_false. Qed.

Lemma fdiv_0 : forall x, fdiv x 0 = None.
Proof. intros. unfold fdiv. now rewrite Req_bool_true. Qed.

Lemma mean_axis2_tab : forall n b c g, (1 <= c)%nat -> mean_axis2 (tab3 n b c g) = tab2 n b (fun i a => Some (sum_upto c (g i a) / INR c)).
Proof.
  intros. unfold mean_axis2, tab3. rewrite tab_map. unfold tab2 at 2. apply tab_ext. intros i Hi.
  unfold tab2. rewrite tab_map. apply tab_ext. intros k Hk. rewrite Rsum_tab, tab_length. apply fdiv_ok.
  apply not_0_INR. lia.
Qed.

(** ** Set-up *)

Lemma posZ : forall n, (1 <= n)%nat -> (0 <? Z.of_nat n)%Z = true.
Proof. intros. apply Z.ltb_lt. lia. Qed.

Lemma linspace_Z : forall a b n, (1 <= n)%nat -> linspaceZ a b (Z.of_nat n + 1) = Ok (tab (S n) (fun i => a + INR i * ((b - a) / INR n))).
Proof.
  intros. rewrite linspaceZ_ok by lia. replace (Z.to_nat (Z.of_nat n + 1)) with (S n) by lia. now rewrite linspace_tab.
Qed.

Lemma INR_pos : forall n, (1 <= n)%nat -> 0 < INR n.
Proof. intros. apply lt_0_INR. lia. Qed.

Lemma mids : forall a h n, map2 (fun a b => / 2 * (a + b)) (tl (tab (S n) (fun i => a + INR i * h))) (removelast (tab (S n) (fun i => a + INR i * h)))
  = tab n (fun i => a + (INR i + / 2) * h).
Proof. intros. rewrite steps_tab. apply tab_ext. intros. rewrite S_INR. field. Qed.

Definition the_box (P : pixels) : box_grid :=
  BoxGrid (tab (S (pnx P)) (fun i => px0 P + INR i * phx P)) (tab (S (pny P)) (fun i => py0 P + INR i * phy P))
          (tab (pnx P) (fun i => px0 P + (INR i + / 2) * phx P)) (tab (pny P) (fun i => py0 P + (INR i + / 2) * phy P))
          (phx P) (phy P)
          (tab2 (pny P) (pnx P) (fun _ i => px0 P + (INR i + / 2) * phx P)) (tab2 (pny P) (pnx P) (fun j _ => py0 P + (INR j + / 2) * phy P)).

Lemma setup_box_ok : forall xmin xmax nx ymin ymax ny, (1 <= nx)%nat -> (1 <= ny)%nat ->
  setup_box xmin xmax (Z.of_nat nx) ymin ymax (Z.of_nat ny) =
  Ok (the_box (Pixels xmin ((xmax - xmin) / INR nx) nx ymin ((ymax - ymin) / INR ny) ny)).
Proof.
  intros xmin xmax nx ymin ymax ny Hx Hy. unfold setup_box. rewrite !posZ by auto. cbn [py_assert].
  rewrite !linspace_Z by auto. cbn [bind].
  rewrite !(py_get_ok _ (tab _ _) _ 0) by (rewrite tab_length; lia). cbn [bind].
  change (Z.to_nat 1) with 1%nat. change (Z.to_nat 0) with 0%nat. rewrite !tab_nth by lia. cbn [bind].
  rewrite !mids, meshgrid_tab. cbn [INR]. unfold the_box. cbn [px0 phx pnx py0 phy pny]. f_equal. f_equal; ring.
Qed.

Definition the_rings (G : rings) (rr rp : nat) : polar_grid :=
  let r k := rg_rmin G + (INR k + / 2) * ((rg_rmax G - rg_rmin G) / INR (rg_nr G * rr)) in
  let p k := rg_pmin G + (INR k + / 2) * ((rg_pmax G - rg_pmin G) / INR (rg_np G * rp)) in
  PolarGrid (tab (S (rg_nr G)) (fun i => rg_rmin G + INR i * ((rg_rmax G - rg_rmin G) / INR (rg_nr G))))
            (tab (S (rg_np G)) (fun i => rg_pmin G + INR i * ((rg_pmax G - rg_pmin G) / INR (rg_np G))))
            (tab2 (rg_np G) (rg_nr G) (fun _ j => rg_rmin G + (INR j + / 2) * ((rg_rmax G - rg_rmin G) / INR (rg_nr G))))
            (tab2 (rg_np G) (rg_nr G) (fun i _ => rg_pmin G + (INR i + / 2) * ((rg_pmax G - rg_pmin G) / INR (rg_np G))))
            [rg_c0 G; rg_c1 G] rr rp
            (tab (S (rg_nr G * rr)) (fun i => rg_rmin G + INR i * ((rg_rmax G - rg_rmin G) / INR (rg_nr G * rr))))
            (tab (rg_np G * rp) p)
            (tab2 (rg_np G * rp) (rg_nr G * rr) (fun _ j => r j))
            (tab2 (rg_np G * rp) (rg_nr G * rr) (fun i _ => shift_phi (rg_shift G) (p i))).

Definition setup_rings (G : rings) (rr rp : Z) : res polar_grid :=
  setup_polar (rg_rmin G) (rg_rmax G) (Z.of_nat (rg_nr G)) (Z.of_nat (rg_np G)) (rg_pmin G) (rg_pmax G) [rg_c0 G; rg_c1 G] rr rp (rg_shift G).

Lemma rings_guards : forall G (k : res polar_grid), good_rings G ->
  (guard Rle_bool 0 (rg_rmin G) ;; guard Rlt_bool (rg_rmin G) (rg_rmax G) ;; guard (0 <? Z.of_nat (rg_nr G))%Z ;;
   guard Rle_bool 0 (rg_pmin G) ;; guard Rlt_bool (rg_pmin G) (2 * PI) ;; guard Rlt_bool (rg_pmin G) (rg_pmax G) ;;
   guard Rlt_bool 0 (rg_pmax G) ;; guard Rle_bool (rg_pmax G) (2 * PI) ;; guard (0 <? Z.of_nat (rg_np G))%Z ;; k) = k.
Proof.
  intros G k ((A & B) & (C & D) & E & F & H). rewrite !posZ by auto.
  rewrite !Rle_bool_t, !Rlt_bool_t by lra. reflexivity.
Qed.

Lemma setup_polar_ok : forall G rr rp, good_rings G -> (2 <= rg_nr G)%nat -> (2 <= rg_np G)%nat -> (1 <= rr)%nat -> (1 <= rp)%nat ->
  setup_rings G (Z.of_nat rr) (Z.of_nat rp) = Ok (the_rings G rr rp).
Proof.
  intros G rr rp HG Hr Hp Hrr Hrp. unfold setup_rings, setup_polar. rewrite rings_guards by auto. cbn [length Nat.eqb py_assert].
  rewrite !linspace_Z by lia. cbn [bind]. rewrite !mids.
  rewrite !(py_get_ok _ (tab (rg_nr G) _) _ 0), !(py_get_ok _ (tab (rg_np G) _) _ 0) by (rewrite tab_length; lia). cbn [bind].
  rewrite meshgrid_tab.
  rewrite !(py_get_ok _ (tab (S (rg_nr G)) _) _ 0), !(py_get_ok _ (tab (S (rg_np G)) _) _ 0) by (rewrite tab_length; lia).
  rewrite !(py_get_last _ (tab (S (rg_nr G)) _) 0), !(py_get_last _ (tab (S (rg_np G)) _) 0) by (rewrite tab_length; lia).
  cbn [bind]. rewrite !tab_length. change (Z.to_nat 0) with 0%nat. rewrite !tab_nth by lia.
  replace (S (rg_nr G) - 1)%nat with (rg_nr G) by lia. replace (S (rg_np G) - 1)%nat with (rg_np G) by lia.
  pose proof (INR_pos (rg_nr G) ltac:(lia)) as Pr. pose proof (INR_pos (rg_np G) ltac:(lia)) as Pp.
  replace (rg_rmin G + INR 0 * ((rg_rmax G - rg_rmin G) / INR (rg_nr G))) with (rg_rmin G) by (cbn [INR]; ring).
  replace (rg_pmin G + INR 0 * ((rg_pmax G - rg_pmin G) / INR (rg_np G))) with (rg_pmin G) by (cbn [INR]; ring).
  replace (rg_rmin G + INR (rg_nr G) * ((rg_rmax G - rg_rmin G) / INR (rg_nr G))) with (rg_rmax G) by (field; lra).
  replace (rg_pmin G + INR (rg_np G) * ((rg_pmax G - rg_pmin G) / INR (rg_np G))) with (rg_pmax G) by (field; lra).
  replace (Z.of_nat rr * Z.of_nat (rg_nr G) + 1)%Z with (Z.of_nat (rg_nr G * rr) + 1)%Z by lia.
  replace (Z.of_nat rp * Z.of_nat (rg_np G) + 1)%Z with (Z.of_nat (rg_np G * rp) + 1)%Z by lia.
  rewrite !linspace_Z by nia. cbn [bind]. rewrite !mids, meshgrid_tab, tab2_map, !Nat2Z.id. reflexivity.
Qed.

Lemma setup_polar_single : forall G rr rp, good_rings G -> (rg_nr G = 1 \/ rg_np G = 1)%nat ->
  setup_rings G rr rp = Err IndexError.
Proof.
  intros G rr rp HG H1. assert (HG' := HG). destruct HG as (_ & _ & _ & Hr & Hp).
  unfold setup_rings, setup_polar. rewrite rings_guards by auto. cbn [length Nat.eqb py_assert].
  rewrite !linspace_Z by lia. cbn [bind]. rewrite !mids.
  assert (Out : forall g, py_get (tab 1 g) 1 = @Err R IndexError) by reflexivity.
  destruct (Nat.eq_dec (rg_nr G) 1) as [E|E].
  - rewrite E. rewrite Out. reflexivity.
  - rewrite !(py_get_ok _ (tab (rg_nr G) _) _ 0) by (rewrite tab_length; lia). cbn [bind].
    replace (rg_np G) with 1%nat by lia. rewrite Out. reflexivity.
Qed.

(** ** Samples *)

Lemma in_pixel_box : forall P x y i j, good_pixels P -> in_pixel P x y i j -> in_box P x y.
Proof.
  intros P x y i j [Hx Hy] (A & B & C & D). split.
  - assert (INR 0 <= INR i) by (apply le_INR; lia). assert (INR (S i) <= INR (pnx P)) by (apply le_INR; lia). cbn [INR] in H. nra.
  - assert (INR 0 <= INR j) by (apply le_INR; lia). assert (INR (S j) <= INR (pny P)) by (apply le_INR; lia). cbn [INR] in H. nra.
Qed.

Lemma floor_cell : forall o h x i, 0 < h -> Zfloor ((x - o) / h) = i <-> o + IZR i * h <= x < o + (IZR i + 1) * h.
Proof.
  intros o h x i Hh. assert (E : x - o = (x - o) / h * h) by (field; lra). split.
  - intros H. pose proof (Zfloor_bound ((x - o) / h)) as B. rewrite H in B. nra.
  - intros H. apply Zfloor_unique. nra.
Qed.

Lemma box_floor : forall o h n x, 0 < h -> (o <= x < o + INR n * h <-> (0 <= Zfloor ((x - o) / h) < Z.of_nat n)%Z).
Proof.
  intros o h n x Hh. pose proof (proj1 (floor_cell o h x _ Hh) eq_refl) as F. set (k := Zfloor ((x - o) / h)) in *. rewrite INR_IZR_INZ. split.
  - intros H. split.
    + apply Z.lt_succ_r. apply lt_IZR. rewrite succ_IZR. nra.
    + apply lt_IZR. nra.
  - intros [H1 H2]. apply IZR_le in H1. apply Zlt_le_succ, IZR_le in H2. rewrite succ_IZR in H2. nra.
Qed.

Lemma sample_pixel_in : forall P x y i j, good_pixels P -> in_pixel P x y i j ->
  sample_pixel x y (px0 P) (py0 P) (phx P) (phy P) (pnx P) (pny P) = Some (Z.of_nat i, Z.of_nat j).
Proof.
  intros P x y i j [Hx Hy] (A & B & C & D). unfold sample_pixel. rewrite !fdiv_ok by lra. cbn [option_map].
  rewrite S_INR in C, D. rewrite !INR_IZR_INZ in C, D.
  rewrite (proj2 (floor_cell _ _ _ _ Hx) C), (proj2 (floor_cell _ _ _ _ Hy) D).
  replace (0 <=? Z.of_nat i)%Z with true by (symmetry; apply Z.leb_le; lia).
  replace (0 <=? Z.of_nat j)%Z with true by (symmetry; apply Z.leb_le; lia).
  replace (Z.of_nat i <? Z.of_nat (pnx P))%Z with true by (symmetry; apply Z.ltb_lt; lia).
  replace (Z.of_nat j <? Z.of_nat (pny P))%Z with true by (symmetry; apply Z.ltb_lt; lia). reflexivity.
Qed.

Lemma in_box_pixel : forall P x y, good_pixels P -> in_box P x y -> exists i j, in_pixel P x y i j.
Proof.
  intros P x y [Hx Hy] [A B]. apply (box_floor _ _ _ _ Hx) in A as A'. apply (box_floor _ _ _ _ Hy) in B as B'.
  exists (Z.to_nat (Zfloor ((x - px0 P) / phx P))), (Z.to_nat (Zfloor ((y - py0 P) / phy P))).
  split; [lia|]. split; [lia|]. rewrite !S_INR, !INR_IZR_INZ, !Z2Nat.id by lia.
  split; apply floor_cell; auto.
Qed.

Lemma sample_pixel_out : forall P x y, good_pixels P -> ~ in_box P x y ->
  sample_pixel x y (px0 P) (py0 P) (phx P) (phy P) (pnx P) (pny P) = None.
Proof.
  intros P x y [Hx Hy] HN. unfold sample_pixel. rewrite !fdiv_ok by lra. cbn [option_map].
  destruct (_ && _) eqn:E; [|reflexivity]. exfalso. apply HN.
  rewrite !andb_true_iff, !Z.leb_le, !Z.ltb_lt in E. split; apply box_floor; auto; lia.
Qed.

Lemma in_box_dec : forall P x y, in_box P x y \/ ~ in_box P x y.
Proof.
  intros. unfold in_box.
  destruct (Rle_dec (px0 P) x), (Rlt_dec x (px0 P + INR (pnx P) * phx P)), (Rle_dec (py0 P) y), (Rlt_dec y (py0 P + INR (pny P) * phy P)); tauto.
Qed.

(** The value the model reads, as a total function. *)
Definition read_at (P : pixels) (f : list (list R)) (x y : R) : R :=
  match sample_pixel x y (px0 P) (py0 P) (phx P) (phy P) (pnx P) (pny P) with
  | Some (i, j) => cell f (Z.to_nat j) (Z.to_nat i)
  | None => 0
  end.

Lemma read_value : forall P f x y v, good_pixels P -> value_at P f x y v -> read_at P f x y = v.
Proof.
  intros P f x y v HP [(i & j & Hin & E)|[Hout E]]; unfold read_at.
  - rewrite (sample_pixel_in _ _ _ _ _ HP Hin), !Nat2Z.id. auto.
  - rewrite sample_pixel_out; auto.
Qed.

Lemma read_value' : forall P f x y, good_pixels P -> value_at P f x y (read_at P f x y).
Proof.
  intros P f x y HP. destruct (in_box_dec P x y) as [H|H].
  - destruct (in_box_pixel _ _ _ HP H) as (i & j & Hin). left. exists i, j. split; auto.
    unfold read_at. rewrite (sample_pixel_in _ _ _ _ _ HP Hin), !Nat2Z.id. auto.
  - right. split; auto. unfold read_at. rewrite sample_pixel_out; auto.
Qed.

Lemma sample_value_ok : forall P f x y, good_pixels P -> shape2 f (pny P) (pnx P) ->
  sample_value f (sample_pixel x y (px0 P) (py0 P) (phx P) (phy P) (pnx P) (pny P)) = Ok (read_at P f x y).
Proof.
  intros P f x y HP [HL HR]. unfold read_at. destruct (in_box_dec P x y) as [H|H].
  - destruct (in_box_pixel _ _ _ HP H) as (i & j & Hin). rewrite (sample_pixel_in _ _ _ _ _ HP Hin). destruct Hin as (A & B & _).
    cbn [sample_value]. rewrite (py_get_ok _ f _ []) by lia. cbn [bind]. rewrite Nat2Z.id.
    rewrite (py_get_ok _ _ _ 0) by (rewrite HR; lia). reflexivity.
  - rewrite sample_pixel_out; auto.
Qed.

Lemma shift_cos : forall s p, cos (shift_phi s p) = cos (p + s) /\ sin (shift_phi s p) = sin (p + s).
Proof.
  intros s p. unfold shift_phi. destruct (Req_bool_spec s 0) as [->|H]; [now rewrite Rplus_0_r|].
  assert (P1 : forall x, cos (x - 2 * PI) = cos x /\ sin (x - 2 * PI) = sin x).
  { intros x.
    pose proof (cos_period (x - 2 * PI) 1) as C. pose proof (sin_period (x - 2 * PI) 1) as S. cbn [INR] in C, S.
    replace (x - 2 * PI + 2 * 1 * PI) with x in C, S by ring. auto. }
  assert (P2 : forall x, cos (x + 2 * PI) = cos x /\ sin (x + 2 * PI) = sin x).
  { intros x. pose proof (cos_period x 1) as C. pose proof (sin_period x 1) as S. cbn [INR] in C, S.
    replace (x + 2 * 1 * PI) with (x + 2 * PI) in C, S by ring. auto. }
  destruct (Rlt_bool (2 * PI) (p + s)); destruct (Rlt_bool _ 0); cbv zeta;
    rewrite ?(proj1 (P2 _)), ?(proj2 (P2 _)), ?(proj1 (P1 _)), ?(proj2 (P1 _)); auto.
Qed.

(** ** Remapping *)

Section Remap.
Variables (P : pixels) (G : rings).
Hypothesis HP : good_pixels P.
Hypothesis HG : good_rings G.

Definition pt_x (rr rp i j : nat) : R :=
  (rg_rmin G + (INR j + / 2) * ((rg_rmax G - rg_rmin G) / INR (rg_nr G * rr))) *
  cos (rg_pmin G + (INR i + / 2) * ((rg_pmax G - rg_pmin G) / INR (rg_np G * rp)) + rg_shift G) + rg_c0 G.
Definition pt_y (rr rp i j : nat) : R :=
  (rg_rmin G + (INR j + / 2) * ((rg_rmax G - rg_rmin G) / INR (rg_nr G * rr))) *
  sin (rg_pmin G + (INR i + / 2) * ((rg_pmax G - rg_pmin G) / INR (rg_np G * rp)) + rg_shift G) + rg_c1 G.

Lemma highres_ok : forall f rr rp (k : list (list R) -> res (list (list num))), shape2 f (pny P) (pnx P) ->
  (highres <- mapM (fun row => mapM (fun xy =>
      sample_value f (sample_pixel (fst xy) (snd xy) (px0 P) (py0 P) (phx P) (phy P) (pnx P) (pny P))) row)
    (zip2 (fun r p => polar2cart r p (rg_c0 G) (rg_c1 G)) (rebin_r2d (the_rings G rr rp)) (rebin_p2d (the_rings G rr rp))) ;; k highres)
  = k (tab2 (rg_np G * rp) (rg_nr G * rr) (fun i j => read_at P f (pt_x rr rp i j) (pt_y rr rp i j))).
Proof.
  intros f rr rp k Hf. cbn [rebin_r2d rebin_p2d the_rings]. rewrite tab2_zip2.
  unfold tab2 at 1. erewrite (mapM_tab _ _ _ (rg_np G * rp)); [cbn [bind]; reflexivity|].
  intros i Hi. cbv beta. apply mapM_tab. intros j Hj. cbv beta. unfold polar2cart. cbn [fst snd].
  rewrite (proj1 (shift_cos _ _)), (proj2 (shift_cos _ _)). apply sample_value_ok; auto.
Qed.

Lemma box_heads : forall (k : R -> R -> R -> R -> res (list (list num))) rr rp,
  (c0 <- py_get (center (the_rings G rr rp)) 0 ;; c1 <- py_get (center (the_rings G rr rp)) 1 ;;
   x0 <- py_get (xedges (the_box P)) 0 ;; y0 <- py_get (yedges (the_box P)) 0 ;; k c0 c1 x0 y0)
  = k (rg_c0 G) (rg_c1 G) (px0 P) (py0 P).
Proof.
  intros. cbn [center the_rings xedges yedges the_box].
  change (py_get [rg_c0 G; rg_c1 G] 0) with (Ok (rg_c0 G)). change (py_get [rg_c0 G; rg_c1 G] 1) with (Ok (rg_c1 G)). cbn [bind].
  rewrite !(py_get_ok _ (tab _ _) _ 0) by (rewrite tab_length; lia). cbn [bind]. change (Z.to_nat 0) with 0%nat. rewrite !tab_nth by lia.
  f_equal; cbn [INR]; ring.
Qed.

Lemma weights_tab : forall rr rp,
  map (fun _ => map2 (fun b a => b ^ 2 - a ^ 2) (tl (rebin_redges (the_rings G rr rp))) (removelast (rebin_redges (the_rings G rr rp)))) (rebin_pmid (the_rings G rr rp))
  = tab2 (rg_np G * rp) (rg_nr G * rr) (fun _ j =>
      (rg_rmin G + INR (S j) * ((rg_rmax G - rg_rmin G) / INR (rg_nr G * rr))) ^ 2 - (rg_rmin G + INR j * ((rg_rmax G - rg_rmin G) / INR (rg_nr G * rr))) ^ 2).
Proof.
  intros. cbn [rebin_redges rebin_pmid the_rings]. rewrite steps_tab, tab_map. reflexivity.
Qed.

Lemma heads : forall rr rp (k : list R -> res (list (list num))), (1 <= rp)%nat ->
  (rp0 <- py_get (rebin_p2d (the_rings G rr rp)) 0 ;; k rp0) = k (tab (rg_nr G * rr) (fun _ => nth 0 (nth 0 (rebin_p2d (the_rings G rr rp)) []) 0)).
Proof.
  intros rr rp k Hrp. destruct HG as (_ & _ & _ & Hr & Hp). cbn [rebin_p2d the_rings]. unfold tab2.
  rewrite (py_get_ok _ (tab _ _) _ []) by (rewrite tab_length; nia). cbn [bind]. change (Z.to_nat 0) with 0%nat. rewrite tab_nth by nia.
  f_equal. destruct (rg_nr G * rr)%nat as [|q] eqn:E; [reflexivity|]. apply tab_ext. intros i Hi. now rewrite tab_nth by lia.
Qed.

End Remap.

Lemma remap_unequal : forall P G f rr rp, good_pixels P -> good_rings G -> shape2 f (pny P) (pnx P) ->
  (1 <= rr)%nat -> (1 <= rp)%nat -> rr <> rp ->
  remap0 (the_box P) (the_rings G rr rp) f = Err ValueError.
Proof.
  intros P G f rr rp HP HG Hf Hrr Hrp Hne. unfold remap0. rewrite box_heads. cbn [xmid ymid dx dy the_box]. rewrite !tab_length.
  rewrite highres_ok by auto. rewrite weights_tab. rewrite tab2_zip2. cbv zeta. rewrite heads by auto.
  rewrite !tab_length. cbn [r2d the_rings]. unfold tab2 at 1.
  rewrite (py_get_ok _ (tab _ _) _ []) by (destruct HG as (_ & _ & _ & Hr & Hp); rewrite tab_length; nia). cbn [bind].
  unfold tab2 at 1. rewrite tab_length. cbn [rebin_r]. rewrite reshape3_bad; [reflexivity|].
  destruct HG as (_ & _ & _ & Hr & Hp). intros E. apply Hne. cbn [rebin_r the_rings] in E.
  match type of E with ?l = ?r =>
    replace l with (rg_np G * rg_nr G * rr * rp)%nat in E by ring; replace r with (rg_np G * rg_nr G * rr * rr)%nat in E by ring end.
  apply Nat.mul_cancel_l in E; nia.
Qed.

Lemma fine_step : forall G, good_rings G -> (1 <= rg_b G)%nat -> 0 < (rg_rmax G - rg_rmin G) / INR (rg_nr G * rg_b G).
Proof.
  intros G ((A & B) & _ & _ & Hr & Hp) Hb. apply Rdiv_lt_0_compat; [lra|]. apply INR_pos. nia.
Qed.

Lemma ring_weight_pos : forall G j c, good_rings G -> (1 <= rg_b G)%nat -> 0 < ring_weight G j c.
Proof.
  intros G j c HG Hb. pose proof (fine_step G HG Hb) as Hd. unfold ring_weight, fine_edge. rewrite S_INR.
  destruct HG as ((A & B) & _). set (h := _ / _) in *. set (k := (j * rg_b G + c)%nat).
  replace ((rg_rmin G + (INR k + 1) * h) ^ 2 - (rg_rmin G + INR k * h) ^ 2) with (h * (2 * rg_rmin G + 2 * (INR k * h) + h)) by ring.
  pose proof (pos_INR k). assert (0 <= INR k * h) by (apply Rmult_le_pos; lra). apply Rmult_lt_0_compat; lra.
Qed.

Lemma sum_pos : forall n g, (1 <= n)%nat -> (forall i, (i < n)%nat -> 0 < g i) -> 0 < sum_upto n g.
Proof.
  intros [|n] g Hn H; [lia|]. rewrite sum_S. apply Rplus_le_lt_0_compat; auto.
  rewrite <- (sum_zero n (fun _ => 0)) by auto. apply sum_le. intros i Hi. left. apply H. lia.
Qed.

Lemma block_weight_pos : forall G j, good_rings G -> (1 <= rg_b G)%nat ->
  0 < sum_upto (rg_b G) (fun _ => sum_upto (rg_b G) (ring_weight G j)).
Proof. intros. apply sum_pos; auto. intros. apply sum_pos; auto. intros. now apply ring_weight_pos. Qed.

Lemma remap0_ok : forall P G f, good_pixels P -> good_rings G -> shape2 f (pny P) (pnx P) -> (1 <= rg_b G)%nat ->
  remap0 (the_box P) (the_rings G (rg_b G) (rg_b G)) f =
  Ok (tab2 (rg_np G) (rg_nr G) (fun i j => Some (block_mean (rg_b G) (ring_weight G j)
        (fun a c => read_at P f (sample_x G i j a c) (sample_y G i j a c))))).
Proof.
  intros P G f HP HG Hf Hb. assert (HG' := HG). destruct HG' as ((R0 & R1) & _ & _ & Hr & Hp).
  unfold remap0. rewrite box_heads. cbn [xmid ymid dx dy the_box]. rewrite !tab_length.
  rewrite highres_ok by auto. rewrite weights_tab. rewrite tab2_zip2. cbv zeta. rewrite heads by auto.
  cbn [r2d the_rings]. unfold tab2 at 1.
  rewrite (py_get_ok _ (tab _ _) _ []) by (rewrite tab_length; nia). cbn [bind].
  change (Z.to_nat 0) with 0%nat. rewrite tab_nth by lia. rewrite !tab_length. cbn [rebin_r rebin_p the_rings r2d].
  rewrite !tab2_length.
  rewrite reshape3_tab by nia. cbn [bind]. rewrite sum_axis1_tab, reshape3_split by nia. cbn [bind].
  rewrite reshape3_tab by nia. cbn [bind]. rewrite sum_axis1_tab, reshape3_split by nia. cbn [bind].
  rewrite !mean_axis2_tab by lia. rewrite tab2_zip2. f_equal. apply tab2_ext. intros i j Hi Hj. cbn [ndiv].
  pose proof (INR_pos _ Hb) as Pb. pose proof (block_weight_pos G j HG Hb) as S0.
  set (wsum := sum_upto (rg_b G) (fun _ => sum_upto (rg_b G) (ring_weight G j))) in S0.
  match goal with |- fdiv (?n1 / _) (?d1 / _) = _ => replace d1 with wsum by (unfold wsum; rewrite sum_swap; reflexivity);
    replace n1 with (sum_upto (rg_b G) (fun a => sum_upto (rg_b G) (fun c => ring_weight G j c * read_at P f (sample_x G i j a c) (sample_y G i j a c)))) end.
  - rewrite fdiv_ok by (apply Rgt_not_eq, Rdiv_lt_0_compat; lra). unfold block_mean. fold wsum. f_equal. field. lra.
  - rewrite sum_swap. apply sum_ext. intros c Hc. apply sum_ext. intros a Ha. rewrite Rmult_comm.
    unfold ring_weight, fine_edge, sample_x, sample_y, pt_x, pt_y, sample_r, sample_phi. reflexivity.
Qed.

(** ** Properties of block means *)

Section Block.
Variables (G : rings) (j : nat).
Hypothesis HG : good_rings G.
Hypothesis Hb : (1 <= rg_b G)%nat.
Local Notation b := (rg_b G).

Lemma block_sum_scal : forall g k, sum_upto b (fun a => sum_upto b (fun c => g a c * k)) = sum_upto b (fun a => sum_upto b (g a)) * k.
Proof. intros. rewrite <- sum_scal_r. apply sum_ext. intros. apply sum_scal_r. Qed.

Lemma block_between : forall v lo hi, (forall a c, (a < b)%nat -> (c < b)%nat -> lo <= v a c <= hi) ->
  lo <= block_mean b (ring_weight G j) v <= hi.
Proof.
  intros v lo hi H. pose proof (block_weight_pos G j HG Hb) as W. unfold block_mean. set (s := sum_upto b _) in W.
  change (sum_upto b (fun _ : nat => sum_upto b (ring_weight G j))) with s.
  assert (E : forall k, k * s = sum_upto b (fun a => sum_upto b (fun c => ring_weight G j c * k))).
  { intros k. rewrite (block_sum_scal (fun _ c => ring_weight G j c)). unfold s. apply Rmult_comm. }
  split.
  - apply (Rmult_le_reg_r s); [auto|]. rewrite (E lo). unfold Rdiv. rewrite Rmult_assoc, Rinv_l, Rmult_1_r by lra.
    apply sum_le. intros a Ha. apply sum_le. intros c Hc. apply Rmult_le_compat_l; [left; now apply ring_weight_pos|]. now apply H.
  - apply (Rmult_le_reg_r s); [auto|]. rewrite (E hi). unfold Rdiv. rewrite Rmult_assoc, Rinv_l, Rmult_1_r by lra.
    apply sum_le. intros a Ha. apply sum_le. intros c Hc. apply Rmult_le_compat_l; [left; now apply ring_weight_pos|]. now apply H.
Qed.

Lemma block_const : forall k, block_mean b (ring_weight G j) (fun _ _ => k) = k.
Proof. intros. pose proof (block_between (fun _ _ => k) k k ltac:(intros; lra)). lra. Qed.

Lemma block_ext : forall w u v, (forall a c, (a < b)%nat -> (c < b)%nat -> u a c = v a c) -> block_mean b w u = block_mean b w v.
Proof. intros w u v H. unfold block_mean. f_equal. apply sum_ext. intros. apply sum_ext. intros. now rewrite H. Qed.

Lemma block_scal : forall w u k, block_mean b w (fun a c => k * u a c) = k * block_mean b w u.
Proof.
  intros. unfold block_mean. rewrite (sum_ext b _ (fun a => sum_upto b (fun c => w c * u a c * k))).
  - rewrite (block_sum_scal (fun a c => w c * u a c)). unfold Rdiv. ring.
  - intros. apply sum_ext. intros. ring.
Qed.

Lemma block_plus : forall w u v, block_mean b w (fun a c => u a c + v a c) = block_mean b w u + block_mean b w v.
Proof.
  intros. unfold block_mean. rewrite <- Rdiv_plus_distr. f_equal. rewrite <- sum_plus. apply sum_ext. intros.
  rewrite <- sum_plus. apply sum_ext. intros. ring.
Qed.

(** One sample below the bound pulls the mean strictly below it. *)
Lemma block_lt : forall v k a0 c0, (forall a c, (a < b)%nat -> (c < b)%nat -> v a c <= k) ->
  (a0 < b)%nat -> (c0 < b)%nat -> v a0 c0 < k -> block_mean b (ring_weight G j) v < k.
Proof.
  intros v k a0 c0 H Ha Hc Hlt.
  assert (P : 0 < block_mean b (ring_weight G j) (fun a c => k - v a c)).
  { unfold block_mean. apply Rdiv_lt_0_compat; [|now apply block_weight_pos].
    assert (N : forall a c, (a < b)%nat -> (c < b)%nat -> 0 <= ring_weight G j c * (k - v a c)).
    { intros a c A C. apply Rmult_le_pos; [left; now apply ring_weight_pos|]. specialize (H a c A C). lra. }
    apply Rlt_le_trans with (ring_weight G j c0 * (k - v a0 c0)).
    { apply Rmult_lt_0_compat; [now apply ring_weight_pos|lra]. }
    assert (T : forall n g i, (i < n)%nat -> (forall t, (t < n)%nat -> 0 <= g t) -> g i <= sum_upto n g).
    { clear. intros n g i Hi Hg. induction n as [|n IH]; [lia|]. rewrite sum_S.
      destruct (Nat.eq_dec i n) as [->|Hne].
      - assert (0 <= sum_upto n g); [|lra]. rewrite <- (sum_zero n (fun _ => 0)) by auto. apply sum_le. intros. apply Hg. lia.
      - assert (g i <= sum_upto n g) by (apply IH; [lia|intros; apply Hg; lia]). specialize (Hg n ltac:(lia)). lra. }
    apply Rle_trans with (sum_upto b (fun c => ring_weight G j c * (k - v a0 c))).
    - apply (T b (fun c => ring_weight G j c * (k - v a0 c)) c0 Hc). intros. now apply N.
    - apply (T b (fun a => sum_upto b (fun c => ring_weight G j c * (k - v a c))) a0 Ha). intros t Ht.
      rewrite <- (sum_zero b (fun _ => 0)) by auto. apply sum_le. intros. now apply N. }
  rewrite (block_ext _ _ (fun a c => k + (-1) * v a c)) in P by (intros; ring).
  rewrite (block_plus _ (fun _ _ => k) (fun a c => -1 * v a c)), block_const, block_scal in P. lra.
Qed.

End Block.

Lemma good_grid : forall xmin xmax nx ymin ymax ny, xmin < xmax -> ymin < ymax -> (1 <= nx)%nat -> (1 <= ny)%nat ->
  good_pixels (pixel_grid xmin xmax nx ymin ymax ny).
Proof.
  intros. split; cbn; apply Rdiv_lt_0_compat; try lra; now apply INR_pos.
Qed.

Lemma in_box_grid : forall xmin xmax nx ymin ymax ny x y, (1 <= nx)%nat -> (1 <= ny)%nat ->
  (in_box (pixel_grid xmin xmax nx ymin ymax ny) x y <-> xmin <= x < xmax /\ ymin <= y < ymax).
Proof.
  intros xmin xmax nx ymin ymax ny x y Hx Hy. unfold in_box, pixel_grid. cbn [px0 phx pnx py0 phy pny].
  apply INR_pos in Hx, Hy.
  replace (xmin + INR nx * ((xmax - xmin) / INR nx)) with xmax by (field; lra).
  replace (ymin + INR ny * ((ymax - ymin) / INR ny)) with ymax by (field; lra). tauto.
Qed.

Lemma value_unique : forall P f x y u v, good_pixels P -> value_at P f x y u -> value_at P f x y v -> u = v.
Proof. intros P f x y u v HP H1 H2. rewrite <- (read_value _ _ _ _ _ HP H1). now apply read_value. Qed.

Definition ones (n m : nat) : list (list R) := tab2 n m (fun _ _ => 1).

Lemma read_ones : forall P x y, good_pixels P -> (in_box P x y -> read_at P (ones (pny P) (pnx P)) x y = 1) /\
  (~ in_box P x y -> read_at P (ones (pny P) (pnx P)) x y = 0).
Proof.
  intros P x y HP. split; intros H; apply read_value; auto.
  - destruct (in_box_pixel _ _ _ HP H) as (i & j & Hin). left. exists i, j. split; auto. unfold ones. destruct Hin as (A & B & _).
    now rewrite tab2_cell.
  - now right.
Qed.

Lemma mask_ok : forall P G, good_pixels P -> good_rings G -> (1 <= rg_b G)%nat ->
  get_mask_in_bound (the_box P) (the_rings G (rg_b G) (rg_b G)) =
  Ok (tab2 (rg_np G) (rg_nr G) (fun i j => block_mean (rg_b G) (ring_weight G j)
        (fun a c => read_at P (ones (pny P) (pnx P)) (sample_x G i j a c) (sample_y G i j a c)))).
Proof.
  intros P G HP HG Hb. unfold get_mask_in_bound, remap. cbn [x2d the_box]. rewrite tab2_map.
  change (tab2 (pny P) (pnx P) (fun _ _ => 1)) with (ones (pny P) (pnx P)).
  rewrite remap0_ok by (auto; apply tab2_shape). cbn [bind]. rewrite tab2_map. reflexivity.
Qed.

(** ** Radial profiles *)

Lemma column_tab2 : forall n c (g : nat -> nat -> R) j, (j < c)%nat -> column (tab2 n c g) j = tab n (fun i => g i j).
Proof. intros. unfold column, tab2. rewrite tab_map. apply tab_ext. intros. now apply tab_nth. Qed.

Lemma column_shape : forall f n c j, shape2 f n c -> (j < c)%nat -> column f j = tab n (fun i => cell f i j).
Proof. intros f n c j H Hj. rewrite (tab2_of_shape f n c H) at 1. now apply column_tab2. Qed.

Lemma shape_heads : forall f n c, shape2 f n c -> (1 <= n)%nat -> length f = n /\ length (nth 0 f []) = c.
Proof. intros f n c [H1 H2] Hn. split; auto. apply H2. lia. Qed.

Lemma same_shape_ok : forall a b n c, (1 <= n)%nat -> shape2 a n c -> shape2 b n c -> same_shape a b = true.
Proof.
  intros a b n c Hn Ha Hb. unfold same_shape. destruct (shape_heads _ _ _ Ha Hn) as [-> ->], (shape_heads _ _ _ Hb Hn) as [-> ->].
  now rewrite !Nat.eqb_refl.
Qed.

Lemma np_all_spec : forall m n c, shape2 m n c -> (np_all m = true <-> forall i j, (i < n)%nat -> (j < c)%nat -> cell m i j <> 0).
Proof.
  intros m n c [HL HR]. unfold np_all. rewrite forallb_forall. split.
  - intros H i j Hi Hj E. rewrite <- HL in Hi. specialize (H _ (nth_In m [] Hi)). rewrite forallb_forall in H.
    rewrite <- (HR i Hi) in Hj. specialize (H _ (nth_In _ 0 Hj)). fold (cell m i j) in H. rewrite E, Req_bool_true in H by auto. discriminate.
  - intros H row Hrow. apply (In_nth _ _ []) in Hrow. destruct Hrow as (i & Hi & <-). apply forallb_forall. intros x Hx.
    apply (In_nth _ _ 0) in Hx. destruct Hx as (j & Hj & <-). rewrite HR in Hj by auto. rewrite Req_bool_false; auto.
    apply H; auto. lia.
Qed.

Lemma zero_where_tab : forall m a n c, shape2 m n c -> shape2 a n c ->
  zero_where m a = tab2 n c (fun i j => if Req_EM_T (cell m i j) 1 then cell a i j else 0).
Proof.
  intros m a n c Hm Ha. unfold zero_where. rewrite (tab2_of_shape m n c Hm) at 1. rewrite (tab2_of_shape a n c Ha) at 1.
  rewrite tab2_zip2. apply tab2_ext. intros i j Hi Hj. destruct (Req_EM_T (cell m i j) 1) as [E|E].
  - now rewrite Req_bool_true.
  - now rewrite Req_bool_false.
Qed.

Lemma fdiv_dec : forall x y, fdiv x y = if Req_EM_T y 0 then None else Some (x / y).
Proof. intros. destruct (Req_EM_T y 0) as [->|E]; [apply fdiv_0|now apply fdiv_ok]. Qed.

Lemma method_masked : forall B P ar pa m f sigma w n c, (1 <= n)%nat -> (1 <= c)%nat ->
  shape2 (p2d P) n c -> shape2 m n c -> shape2 f n c -> shape2 w n c -> (forall s, sigma = Some s -> shape2 s n c) ->
  (exists i j, (i < n)%nat /\ (j < c)%nat /\ cell m i j = 0) ->
  exists r sr, polar2radial_method B P (Cache (Some ar) (Some pa) (Some m)) f sigma (Some w)
      = Ok (r, sr, Cache (Some ar) (Some pa) (Some m), Some (zip2 Rmult w m)) /\
    length r = c /\ forall j, (j < c)%nat -> nth j r None = masked_profile n m w f j.
Proof.
  intros B P ar pa m f sigma w n c Hn Hc HP Hm Hf Hw Hs (i0 & j0 & Hi0 & Hj0 & E0).
  unfold polar2radial_method. cbn [area2d pixarea mask_in_bound bind].
  rewrite (same_shape_ok f (p2d P) n c) by auto. cbn [py_assert bind].
  replace (np_all m) with false.
  2: { symmetry. destruct (np_all m) eqn:E; [|reflexivity]. exfalso. rewrite (np_all_spec m n c Hm) in E. now apply (E i0 j0). }
  cbn [negb]. cbv zeta. destruct (shape_heads _ _ _ HP Hn) as [_ ->].
  assert (Main : forall sg ar' pa' j, (j < c)%nat ->
     nth j (fst (polar2radial c (zero_where m f) ar' pa' sg (Some (zip2 Rmult w m)))) None = masked_profile n m w f j).
  { intros sg ar' pa' j Hj. rewrite (zero_where_tab m f n c), (zip2_tab Rmult w m n c) by auto.
    rewrite (p2r_weighted n c) by auto using tab2_shape. rewrite !column_tab2 by auto. rewrite tab_map2.
    rewrite !Rsum_tab, fdiv_dec. unfold masked_profile.
    rewrite (sum_ext n (fun i => (if Req_EM_T (cell m i j) 1 then cell f i j else 0) * (cell w i j * cell m i j))
               (fun i => if Req_EM_T (cell m i j) 1 then cell f i j * (cell w i j * cell m i j) else 0)); [reflexivity|].
    intros i Hi. destruct (Req_EM_T (cell m i j) 1); ring. }
  destruct sigma as [sg|]; cbn [option_map].
  - rewrite (same_shape_ok (zero_where m sg) (p2d P) n c); auto.
    2: { rewrite (zero_where_tab m sg n c) by auto. apply tab2_shape. }
    cbn [py_assert].
    destruct (polar2radial c (zero_where m f) ar pa (Some (zero_where m sg)) (Some (zip2 Rmult w m))) as [r sr] eqn:ER.
    exists r, sr. split; [reflexivity|]. replace r with (fst (polar2radial c (zero_where m f) ar pa (Some (zero_where m sg)) (Some (zip2 Rmult w m)))) by now rewrite ER.
    split; [apply p2r_length|]. intros. now apply Main.
  - destruct (polar2radial c (zero_where m f) ar pa None (Some (zip2 Rmult w m))) as [r sr] eqn:ER.
    exists r, sr. split; [reflexivity|]. replace r with (fst (polar2radial c (zero_where m f) ar pa None (Some (zip2 Rmult w m)))) by now rewrite ER.
    split; [apply p2r_length|]. intros. now apply Main.
Qed.

Lemma method_masked_none : forall B P ar pa m f n c, (1 <= n)%nat -> (1 <= c)%nat ->
  shape2 (p2d P) n c -> shape2 m n c -> shape2 f n c ->
  (exists i j, (i < n)%nat /\ (j < c)%nat /\ cell m i j = 0) ->
  exists r, polar2radial_method B P (Cache (Some ar) (Some pa) (Some m)) f None None
      = Ok (r, None, Cache (Some ar) (Some pa) (Some m), None) /\
    length r = c /\ forall j, (j < c)%nat -> nth j r None = masked_profile n m (repeat (repeat 1 c) n) f j.
Proof.
  intros B P ar pa m f n c Hn Hc HP Hm Hf (i0 & j0 & Hi0 & Hj0 & E0).
  unfold polar2radial_method. cbn [area2d pixarea mask_in_bound bind].
  rewrite (same_shape_ok f (p2d P) n c) by auto. cbn [py_assert bind].
  replace (np_all m) with false.
  2: { symmetry. destruct (np_all m) eqn:E; [|reflexivity]. exfalso. rewrite (np_all_spec m n c Hm) in E. now apply (E i0 j0). }
  cbn [negb option_map]. cbv zeta. destruct (shape_heads _ _ _ HP Hn) as [_ ->].
  exists (fst (polar2radial c (zero_where m f) ar pa None (Some m))). split; [reflexivity|]. split; [apply p2r_length|].
  intros j Hj. rewrite (zero_where_tab m f n c) by auto.
  rewrite (p2r_weighted n c) by auto using tab2_shape. rewrite (column_shape m n c j) by auto. rewrite !column_tab2 by auto. rewrite tab_map2.
  rewrite !Rsum_tab, fdiv_dec. unfold masked_profile. rewrite <- tab2_const.
  rewrite (sum_ext n (fun i => cell (tab2 n c (fun _ _ => 1)) i j * cell m i j) (fun i => cell m i j)) by (intros; rewrite tab2_cell by auto; ring).
  rewrite (sum_ext n (fun i => if Req_EM_T (cell m i j) 1 then cell f i j * (cell (tab2 n c (fun _ _ => 1)) i j * cell m i j) else 0)
    (fun i => (if Req_EM_T (cell m i j) 1 then cell f i j else 0) * cell m i j)); [reflexivity|].
  intros i Hi. rewrite tab2_cell by auto. destruct (Req_EM_T (cell m i j) 1); ring.
Qed.

Lemma method_plain : forall B P ar pa m f sigma w n c, (1 <= n)%nat -> (1 <= c)%nat ->
  shape2 (p2d P) n c -> shape2 m n c -> shape2 f n c -> (forall u, w = Some u -> shape2 u n c) -> (forall s, sigma = Some s -> shape2 s n c) ->
  (forall i j, (i < n)%nat -> (j < c)%nat -> cell m i j <> 0) ->
  exists r sr, polar2radial_method B P (Cache (Some ar) (Some pa) (Some m)) f sigma w
      = Ok (r, sr, Cache (Some ar) (Some pa) (Some m), w) /\
    length r = c /\ forall j, (j < c)%nat ->
      nth j r None = ring_mean n (match w with Some u => u | None => repeat (repeat 1 c) n end) f j.
Proof.
  intros B P ar pa m f sigma w n c Hn Hc HP Hm Hf Hw Hs HA.
  unfold polar2radial_method. cbn [area2d pixarea mask_in_bound bind].
  rewrite (same_shape_ok f (p2d P) n c) by auto. cbn [py_assert bind].
  rewrite (proj2 (np_all_spec m n c Hm) HA). cbn [negb]. cbv zeta. destruct (shape_heads _ _ _ HP Hn) as [_ ->].
  assert (Main : forall sg j, (j < c)%nat -> nth j (fst (polar2radial c f ar pa sg w)) None =
     ring_mean n (match w with Some u => u | None => repeat (repeat 1 c) n end) f j).
  { intros sg j Hj. destruct w as [u|].
    - rewrite (p2r_weighted n c) by auto. specialize (Hw u eq_refl). rewrite (column_shape f n c), (column_shape u n c) by auto. rewrite tab_map2, !Rsum_tab. apply fdiv_dec.
    - rewrite (p2r_plain n c) by auto. rewrite (column_shape f n c) by auto. rewrite Rsum_tab.
      unfold ring_mean. rewrite <- tab2_const.
      rewrite (sum_ext n (fun i => cell (tab2 n c (fun _ _ => 1)) i j) (fun _ => 1)) by (intros; now rewrite tab2_cell).
      rewrite (sum_ext n (fun i => cell f i j * cell (tab2 n c (fun _ _ => 1)) i j) (fun i => cell f i j)) by (intros; rewrite tab2_cell by auto; ring).
      assert (E : sum_upto n (fun _ => 1) = INR n).
      { rewrite <- Rsum_tab, tab_const, Rsum_repeat. ring. }
      rewrite E. destruct (Req_EM_T (INR n) 0) as [Z|Z]; [|reflexivity]. exfalso. apply INR_pos in Hn. lra. }
  destruct sigma as [sg|].
  - rewrite (same_shape_ok sg (p2d P) n c); auto. cbn [py_assert].
    destruct (polar2radial c f ar pa (Some sg) w) as [r sr] eqn:ER.
    exists r, sr. split; [reflexivity|]. replace r with (fst (polar2radial c f ar pa (Some sg) w)) by now rewrite ER.
    split; [apply p2r_length|]. intros. now apply Main.
  - destruct (polar2radial c f ar pa None w) as [r sr] eqn:ER.
    exists r, sr. split; [reflexivity|]. replace r with (fst (polar2radial c f ar pa None w)) by now rewrite ER.
    split; [apply p2r_length|]. intros. now apply Main.
Qed.

(** The first call fills the attributes. *)
Lemma method_fresh : forall P G f sigma w, good_pixels P -> (1 <= pnx P)%nat -> (1 <= pny P)%nat -> good_rings G -> (1 <= rg_b G)%nat ->
  let m := tab2 (rg_np G) (rg_nr G) (fun i j => block_mean (rg_b G) (ring_weight G j)
        (fun a c => read_at P (ones (pny P) (pnx P)) (sample_x G i j a c) (sample_y G i j a c))) in
  exists ar pa,
  polar2radial_method (the_box P) (the_rings G (rg_b G) (rg_b G)) no_cache f sigma w =
  polar2radial_method (the_box P) (the_rings G (rg_b G) (rg_b G)) (Cache (Some ar) (Some pa) (Some m)) f sigma w.
Proof.
  intros P G f sigma w HP Nx Ny HG Hb. pose proof (mask_ok P G HP HG Hb) as HM. cbv zeta. set (m := tab2 _ _ _) in *.
  assert (A : exists ar, get_polar_area2d (redges (the_rings G (rg_b G) (rg_b G))) (pedges (the_rings G (rg_b G) (rg_b G))) = Ok ar).
  { unfold get_polar_area2d. cbn [pedges redges the_rings]. destruct HG as (_ & _ & _ & H1 & H2).
    rewrite !(py_get_ok _ (tab _ _) _ 0) by (rewrite tab_length; lia). cbn [bind]. eexists. reflexivity. }
  assert (B : exists pa, get_pixarea (xedges (the_box P)) (yedges (the_box P)) = Ok pa).
  { unfold get_pixarea. cbn [xedges yedges the_box].
    rewrite !(py_get_ok _ (tab _ _) _ 0) by (rewrite tab_length; lia). cbn [bind]. eexists. reflexivity. }
  destruct A as (ar & A), B as (pa & B). exists ar, pa. unfold polar2radial_method. cbn [area2d pixarea mask_in_bound no_cache].
  rewrite A, B. cbn [bind]. destruct (same_shape f _); [|reflexivity]. cbn [py_assert]. rewrite HM. reflexivity.
Qed.
