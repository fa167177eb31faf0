(** * Grids *)

From Coq Require Import Reals ZArith List Bool Lra Lia Psatz.
From Coquelicot Require Import Coquelicot.
From Flocq Require Import Core.Raux.
From Verif Require Import Base BaseP SpecGrid MGrids PHealpixCentre PPolarCoords.
Import ListNotations.
Open Scope R_scope.

Lemma nth_tl : forall A (l : list A) i d, nth i (tl l) d = nth (S i) l d.
Proof. intros A [|a l] i d; cbn; [now destruct i|reflexivity]. Qed.

Lemma length_tl : forall A (l : list A), length (tl l) = (length l - 1)%nat.
Proof. intros A [|a l]; cbn; lia. Qed.

Lemma length_removelast : forall A (l : list A), length (removelast l) = (length l - 1)%nat.
Proof. intros. rewrite removelast_firstn_len, firstn_length. lia. Qed.

Lemma nth_removelast : forall A (l : list A) i d, (S i < length l)%nat ->
  nth i (removelast l) d = nth i l d.
Proof. intros A l i d H. rewrite removelast_firstn_len. apply nth_firstn. lia. Qed.

Lemma xedges2mid_length : forall l, length (xedges2mid l) = (length l - 1)%nat.
Proof. intros. unfold xedges2mid. rewrite map2_length, length_removelast, length_tl. lia. Qed.

Lemma xedges2mid_nth : forall l i, (S i < length l)%nat ->
  nth i (xedges2mid l) 0 = (nth i l 0 + nth (S i) l 0) / 2.
Proof.
  intros l i H. unfold xedges2mid.
  rewrite (nth_map2 _ _ _ _ _ _ i 0 0 0) by (rewrite ?length_removelast, ?length_tl; lia).
  rewrite nth_removelast, nth_tl by exact H. lra.
Qed.

Definition xmin_of (xmin : option R) : R := match xmin with None => 0 | Some x => x end.

Lemma get_xedges_ok : forall len n xmin, (1 <= n)%nat ->
  exists e, get_xedges len (Z.of_nat n) xmin = Ok e /\
    uniform_edges e (xmin_of xmin) (len / INR n) n.
Proof.
  intros len n xmin Hn. unfold get_xedges. fold (xmin_of xmin). unfold linspaceZ.
  replace (Z.of_nat n + 1 <? 0)%Z with false by (symmetry; apply Z.ltb_ge; lia).
  replace (Z.to_nat (Z.of_nat n + 1)) with (S n) by lia.
  eexists. split; [reflexivity|]. split; [apply length_linspace|].
  intros i Hi. rewrite nth_linspace by lia. replace (S n - 1)%nat with n by lia.
  f_equal. f_equal. f_equal. ring.
Qed.

Lemma get_xedges_neg : forall len n xmin, (n < -1)%Z -> get_xedges len n xmin = Err ValueError.
Proof.
  intros len n xmin H. unfold get_xedges, linspaceZ.
  now replace (n + 1 <? 0)%Z with true by (symmetry; apply Z.ltb_lt; lia).
Qed.

Lemma uniform_mid : forall e a h n, uniform_edges e a h n ->
  length (xedges2mid e) = n /\
  forall i, (i < n)%nat -> nth i (xedges2mid e) 0 = a + (INR i + / 2) * h.
Proof.
  intros e a h n [HL HE]. split; [rewrite xedges2mid_length; lia|].
  intros i Hi. rewrite xedges2mid_nth by lia. rewrite !HE by lia. rewrite S_INR. field.
Qed.

Lemma xmid2edges_uniform : forall e a h n, uniform_edges e a h n -> (2 <= n)%nat ->
  exists e', xmid2edges (xedges2mid e) = Ok e' /\ length e' = S n /\
    (forall i, (i < n)%nat -> nth i e' 0 = nth i e 0 - h / 2) /\
    nth n e' 0 = nth n e 0 + h / 2.
Proof.
  intros e a h n HU Hn. destruct (uniform_mid e a h n HU) as [LM HM]. destruct HU as [HL HE].
  unfold xmid2edges.
  rewrite (py_get_ok _ _ 1 0), (py_get_ok _ _ 0 0), (py_get_last _ _ 0) by lia. cbn [bind].
  change (Z.to_nat 1) with 1%nat. change (Z.to_nat 0) with 0%nat.
  eexists. split; [reflexivity|]. rewrite app_length, map_length. cbn [length].
  split; [lia|]. rewrite LM.
  rewrite (HM 1%nat), (HM 0%nat), (HM (n - 1)%nat) by lia. split.
  - intros i Hi. rewrite app_nth1 by (rewrite map_length; lia).
    rewrite (nth_map_lt _ _ _ _ i 0 0) by lia. rewrite HM, HE by lia. cbn [INR]. field.
  - rewrite app_nth2 by (rewrite map_length; lia). rewrite map_length, LM.
    replace (n - n)%nat with 0%nat by lia. cbn [nth]. rewrite HE by lia.
    rewrite minus_INR by lia. cbn [INR]. field.
Qed.

Lemma xmid2edges_short : forall l, (length l < 2)%nat -> xmid2edges l = Err IndexError.
Proof. intros [|a [|b l]] H; cbn in H; try lia; reflexivity. Qed.

(** ** Tensor grids *)

Lemma mesh2_spec : forall x y,
  shape2 (fst (mesh2 x y)) (length x) (length y) /\ shape2 (snd (mesh2 x y)) (length x) (length y) /\
  forall i j, (i < length x)%nat -> (j < length y)%nat ->
    cell (fst (mesh2 x y)) i j = nth i x 0 /\ cell (snd (mesh2 x y)) i j = nth j y 0.
Proof.
  intros x y. unfold mesh2; cbn [fst snd].
  assert (S1 : forall (g : R -> list R), (forall a, length (g a) = length y) ->
    shape2 (map g x) (length x) (length y)).
  { intros g Hg. split; [apply map_length|]. intros i Hi. rewrite map_length in Hi.
    rewrite (nth_map_lt _ _ g x i [] 0) by exact Hi. apply Hg. }
  split; [apply S1; intros; apply map_length|]. split; [apply S1; intros; apply map_length|].
  intros i j Hi Hj. unfold cell. split.
  - rewrite (nth_map_lt _ _ _ x i [] 0) by exact Hi.
    now rewrite (nth_map_lt _ _ _ y j 0 0) by exact Hj.
  - rewrite (nth_map_lt _ _ _ x i [] 0) by exact Hi.
    now rewrite (nth_map_lt _ _ _ y j 0 0) by exact Hj.
Qed.

Lemma mesh3_spec : forall x y z,
  shape3 (fst (fst (mesh3 x y z))) (length x) (length y) (length z) /\
  shape3 (snd (fst (mesh3 x y z))) (length x) (length y) (length z) /\
  shape3 (snd (mesh3 x y z)) (length x) (length y) (length z) /\
  forall i j k, (i < length x)%nat -> (j < length y)%nat -> (k < length z)%nat ->
    cell3 (fst (fst (mesh3 x y z))) i j k = nth i x 0 /\
    cell3 (snd (fst (mesh3 x y z))) i j k = nth j y 0 /\
    cell3 (snd (mesh3 x y z)) i j k = nth k z 0.
Proof.
  intros x y z. unfold mesh3; cbn [fst snd].
  assert (S1 : forall (g : R -> R -> list R), (forall a b, length (g a b) = length z) ->
    shape3 (map (fun a => map (g a) y) x) (length x) (length y) (length z)).
  { intros g Hg. split; [apply map_length|]. intros i Hi.
    rewrite (nth_map_lt _ _ (fun a => map (g a) y) x i [] 0) by exact Hi.
    split; [apply map_length|]. intros j Hj. rewrite map_length in Hj.
    rewrite (nth_map_lt _ _ _ y j [] 0) by exact Hj. apply Hg. }
  split; [apply (S1 (fun a _ => map (fun _ => a) z)); intros; apply map_length|].
  split; [apply (S1 (fun _ b => map (fun _ => b) z)); intros; apply map_length|].
  split; [apply (S1 (fun _ _ => map (fun c => c) z)); intros; apply map_length|].
  intros i j k Hi Hj Hk. unfold cell3.
  repeat split; rewrite (nth_map_lt _ _ _ x i [] 0) by exact Hi;
    rewrite (nth_map_lt _ _ _ y j [] 0) by exact Hj;
    now rewrite (nth_map_lt _ _ _ z k 0 0) by exact Hk.
Qed.

Lemma grid2d_spec : forall lx ly nx ny mx my, (1 <= nx)%nat -> (1 <= ny)%nat ->
  exists x2d y2d xmid ymid,
    grid2d (Seq [lx; ly]) (Seq [Z.of_nat nx; Z.of_nat ny]) [mx; my] = Ok (x2d, y2d, xmid, ymid) /\
    shape2 x2d nx ny /\ shape2 y2d nx ny /\ length xmid = nx /\ length ymid = ny /\
    forall i j, (i < nx)%nat -> (j < ny)%nat ->
      cell x2d i j = xmin_of mx + (INR i + / 2) * (lx / INR nx) /\
      cell y2d i j = xmin_of my + (INR j + / 2) * (ly / INR ny) /\
      nth i xmid 0 = cell x2d i j /\ nth j ymid 0 = cell y2d i j.
Proof.
  intros lx ly nx ny mx my Hx Hy. unfold grid2d. cbn [as_seq].
  destruct (get_xedges_ok lx nx mx Hx) as (ex & Ex & Ux).
  destruct (get_xedges_ok ly ny my Hy) as (ey & Ey & Uy).
  change (py_get [lx; ly] 0) with (Ok lx). change (py_get [lx; ly] 1) with (Ok ly).
  change (py_get [Z.of_nat nx; Z.of_nat ny] 0) with (Ok (Z.of_nat nx)).
  change (py_get [Z.of_nat nx; Z.of_nat ny] 1) with (Ok (Z.of_nat ny)).
  change (py_get [mx; my] 0) with (Ok mx). change (py_get [mx; my] 1) with (Ok my).
  cbn [bind]. rewrite Ex. cbn [bind]. rewrite Ey. cbn [bind].
  destruct (uniform_mid _ _ _ _ Ux) as [Lx Mx]. destruct (uniform_mid _ _ _ _ Uy) as [Ly My].
  destruct (mesh2_spec (xedges2mid ex) (xedges2mid ey)) as (A & B & C).
  rewrite Lx, Ly in *. do 4 eexists. split; [reflexivity|].
  unfold mesh2 in *; cbn [fst snd] in *.
  split; [exact A|]. split; [exact B|]. split; [exact Lx|]. split; [exact Ly|].
  intros i j Hi Hj. destruct (C i j Hi Hj) as [C1 C2]. rewrite C1, C2, Mx, My by assumption. auto.
Qed.

Lemma grid3d_spec : forall lx ly lz nx ny nz mx my mz, (1 <= nx)%nat -> (1 <= ny)%nat -> (1 <= nz)%nat ->
  exists x3d y3d z3d xmid ymid zmid,
    grid3d (Seq [lx; ly; lz]) (Seq [Z.of_nat nx; Z.of_nat ny; Z.of_nat nz]) [mx; my; mz]
      = Ok (x3d, y3d, z3d, xmid, ymid, zmid) /\
    shape3 x3d nx ny nz /\ shape3 y3d nx ny nz /\ shape3 z3d nx ny nz /\
    length xmid = nx /\ length ymid = ny /\ length zmid = nz /\
    forall i j k, (i < nx)%nat -> (j < ny)%nat -> (k < nz)%nat ->
      cell3 x3d i j k = xmin_of mx + (INR i + / 2) * (lx / INR nx) /\
      cell3 y3d i j k = xmin_of my + (INR j + / 2) * (ly / INR ny) /\
      cell3 z3d i j k = xmin_of mz + (INR k + / 2) * (lz / INR nz) /\
      nth i xmid 0 = cell3 x3d i j k /\ nth j ymid 0 = cell3 y3d i j k /\
      nth k zmid 0 = cell3 z3d i j k.
Proof.
  intros lx ly lz nx ny nz mx my mz Hx Hy Hz. unfold grid3d. cbn [as_seq].
  destruct (get_xedges_ok lx nx mx Hx) as (ex & Ex & Ux).
  destruct (get_xedges_ok ly ny my Hy) as (ey & Ey & Uy).
  destruct (get_xedges_ok lz nz mz Hz) as (ez & Ez & Uz).
  change (py_get [lx; ly; lz] 0) with (Ok lx). change (py_get [lx; ly; lz] 1) with (Ok ly).
  change (py_get [lx; ly; lz] 2) with (Ok lz).
  change (py_get [Z.of_nat nx; Z.of_nat ny; Z.of_nat nz] 0) with (Ok (Z.of_nat nx)).
  change (py_get [Z.of_nat nx; Z.of_nat ny; Z.of_nat nz] 1) with (Ok (Z.of_nat ny)).
  change (py_get [Z.of_nat nx; Z.of_nat ny; Z.of_nat nz] 2) with (Ok (Z.of_nat nz)).
  change (py_get [mx; my; mz] 0) with (Ok mx). change (py_get [mx; my; mz] 1) with (Ok my).
  change (py_get [mx; my; mz] 2) with (Ok mz).
  cbn [bind]. rewrite Ex. cbn [bind]. rewrite Ey. cbn [bind]. rewrite Ez. cbn [bind].
  destruct (uniform_mid _ _ _ _ Ux) as [Lx Mx]. destruct (uniform_mid _ _ _ _ Uy) as [Ly My].
  destruct (uniform_mid _ _ _ _ Uz) as [Lz Mz].
  destruct (mesh3_spec (xedges2mid ex) (xedges2mid ey) (xedges2mid ez)) as (A & B & C & D).
  rewrite Lx, Ly, Lz in *. do 6 eexists. split; [reflexivity|].
  unfold mesh3 in *; cbn [fst snd] in *.
  split; [exact A|]. split; [exact B|]. split; [exact C|].
  split; [exact Lx|]. split; [exact Ly|]. split; [exact Lz|].
  intros i j k Hi Hj Hk. destruct (D i j k Hi Hj Hk) as (D1 & D2 & D3).
  rewrite D1, D2, D3, Mx, My, Mz by assumption. auto 10.
Qed.

(** ** Equal-area polar grid *)

Lemma mapM_ok : forall A B (f : A -> res B) (g : A -> B) l,
  (forall x, In x l -> f x = Ok (g x)) -> mapM f l = Ok (map g l).
Proof.
  intros A B f g l. induction l as [|a l IH]; intros H; [reflexivity|].
  cbn [mapM map]. rewrite H by (now left). cbn [bind]. rewrite IH by (intros; apply H; now right).
  reflexivity.
Qed.

(** Rings of growing length laid end to end. *)
Lemma concat_rings : forall A (f : nat -> list A) b n,
  (forall i, (i < n)%nat -> length (f i) = (b * (2 * i + 1))%nat) ->
  length (concat (map f (seq 0 n))) = (b * (n * n))%nat /\
  forall i j d, (i < n)%nat -> (j < b * (2 * i + 1))%nat ->
    nth (b * (i * i) + j) (concat (map f (seq 0 n))) d = nth j (f i) d.
Proof.
  intros A f b n. induction n as [|n IH]; intros H.
  - split; [cbn; lia|]. intros; lia.
  - destruct IH as [IL IN]; [intros; apply H; lia|].
    rewrite seq_S, map_app, concat_app. cbn [map concat]. rewrite app_nil_r, Nat.add_0_l.
    split; [rewrite app_length, IL, H by lia; nia|].
    intros i j d Hi Hj. destruct (Nat.eq_dec i n) as [->|Hne].
    + rewrite app_nth2 by lia. rewrite IL. f_equal. lia.
    + rewrite app_nth1; [apply IN; lia|]. rewrite IL.
      assert (i + 1 <= n)%nat by lia. assert ((i + 1) * (i + 1) <= n * n)%nat by nia. nia.
Qed.

Lemma polarEA_spec : forall nr rmax base, (1 <= nr)%nat -> (1 <= base)%nat ->
  exists r p, polarEA_grid (Z.of_nat nr) rmax (Z.of_nat base) = Ok (r, p) /\
    Z.of_nat (length r) = polarEA_npix (Z.of_nat nr) (Z.of_nat base) /\
    length p = length r /\
    forall i j, (i < nr)%nat -> (j < base * (2 * i + 1))%nat ->
      nth (base * (i * i) + j) r 0 = (INR i + / 2) * (rmax / INR nr) /\
      nth (base * (i * i) + j) p 0 = (INR j + / 2) * (2 * PI / INR (base * (2 * i + 1))).
Proof.
  intros nr rmax base Hn Hb. unfold polarEA_grid.
  destruct (get_xedges_ok rmax nr None Hn) as (e & E & U). rewrite E. cbn [bind].
  destruct (uniform_mid _ _ _ _ U) as [Lm Hm].
  set (rmid := xedges2mid e) in *.
  set (fr := fun i : nat => map (fun _ : Z => nth i rmid 0) (py_range (Z.of_nat base * (2 * Z.of_nat i + 1)))).
  assert (Lrange : forall i : nat,
            length (py_range (Z.of_nat base * (2 * Z.of_nat i + 1))) = (base * (2 * i + 1))%nat).
  { intros i. unfold py_range. rewrite map_length, seq_length. lia. }
  assert (R1 : mapM (fun i => mapM (fun _ => py_get rmid i) (py_range (Z.of_nat base * (2 * i + 1))))
                 (py_range (Z.of_nat nr)) = Ok (map fr (seq 0 nr))).
  { unfold py_range at 2. rewrite Nat2Z.id.
    replace (map fr (seq 0 nr)) with (map (fun z => fr (Z.to_nat z)) (map Z.of_nat (seq 0 nr))).
    - apply mapM_ok. intros z Hz. apply in_map_iff in Hz. destruct Hz as (i & <- & Hi).
      apply in_seq in Hi. rewrite Nat2Z.id. unfold fr. apply mapM_ok. intros _ _.
      rewrite (py_get_ok _ rmid (Z.of_nat i) 0) by lia. now rewrite Nat2Z.id.
    - rewrite map_map. apply map_ext. intros i. now rewrite Nat2Z.id. }
  rewrite R1. cbn [bind].
  set (fp := fun i : nat => xedges2mid
     match get_xedges (2 * PI) (Z.of_nat (base * (2 * i + 1))) None with Ok l => l | Err _ => [] end).
  assert (R2 : mapM (fun i => e <- get_xedges (2 * PI) (Z.of_nat base * (2 * i + 1)) None ;; Ok (xedges2mid e))
             (py_range (Z.of_nat nr)) = Ok (map fp (seq 0 nr))).
  { unfold py_range. rewrite Nat2Z.id.
    replace (map fp (seq 0 nr)) with (map (fun z => fp (Z.to_nat z)) (map Z.of_nat (seq 0 nr))).
    - apply mapM_ok. intros z Hz. apply in_map_iff in Hz. destruct Hz as (i & <- & Hi).
      rewrite Nat2Z.id. unfold fp.
      replace (Z.of_nat base * (2 * Z.of_nat i + 1))%Z with (Z.of_nat (base * (2 * i + 1))) by lia.
      destruct (get_xedges_ok (2 * PI) (base * (2 * i + 1)) None ltac:(nia)) as (e' & -> & _).
      reflexivity.
    - rewrite map_map. apply map_ext. intros i. now rewrite Nat2Z.id. }
  assert (Hfp : forall i, length (fp i) = (base * (2 * i + 1))%nat /\
     forall j, (j < base * (2 * i + 1))%nat ->
       nth j (fp i) 0 = (INR j + / 2) * (2 * PI / INR (base * (2 * i + 1)))).
  { intros i. unfold fp.
    destruct (get_xedges_ok (2 * PI) (base * (2 * i + 1)) None ltac:(nia)) as (e' & -> & U').
    destruct (uniform_mid _ _ _ _ U') as [A B]. split; [exact A|].
    intros j Hj. rewrite B by exact Hj. cbn [xmin_of]. ring. }
  rewrite R2.
  assert (NC : forall (g : nat -> list R), np_concatenate (map g (seq 0 nr)) = Ok (concat (map g (seq 0 nr)))).
  { intros g. destruct nr; [lia|]. reflexivity. }
  rewrite !NC. cbn [bind]. rewrite NC. cbn [bind]. 
  destruct (concat_rings R fr base nr) as [L1 N1].
  { intros i _. unfold fr. rewrite map_length. apply Lrange. }
  destruct (concat_rings R fp base nr) as [L2 N2].
  { intros i _. apply Hfp. }
  do 2 eexists. split; [reflexivity|]. split; [|split].
  - rewrite L1. unfold polarEA_npix. rewrite Nat2Z.inj_mul, Nat2Z.inj_mul. ring.
  - now rewrite L1, L2.
  - intros i j Hi Hj. rewrite N1, N2 by assumption. split.
    + unfold fr. rewrite (nth_map_lt _ _ _ _ j 0 0%Z) by (rewrite Lrange; exact Hj).
      rewrite Hm by exact Hi. cbn [xmin_of]. ring.
    + now apply Hfp.
Qed.

(** Area of the sector [r0 <= r <= r1] of opening [dphi]: the integral of [r]. *)
Lemma sector_RInt : forall r0 r1 dphi,
  is_RInt (fun r => dphi * r) r0 r1 ((r1 ^ 2 - r0 ^ 2) / 2 * dphi).
Proof.
  intros r0 r1 dphi.
  replace ((r1 ^ 2 - r0 ^ 2) / 2 * dphi)
    with (minus (dphi * (r1 ^ 2 / 2)) (dphi * (r0 ^ 2 / 2)))
    by (unfold minus, plus, opp; cbn; field).
  apply (is_RInt_derive (fun r => dphi * (r ^ 2 / 2)) (fun r => dphi * r)).
  - intros x _. auto_derive; [exact I|]. field.
  - intros x _. apply (continuous_mult (fun _ => dphi) (fun r => r)).
    + apply continuous_const.
    + apply continuous_id.
Qed.

(** ** Polar areas *)

Lemma area2d_spec : forall redges pedges, (2 <= length pedges)%nat ->
  exists a, get_polar_area2d redges pedges = Ok a /\
    shape2 a (length pedges - 1) (length redges - 1) /\
    forall i j, (S i < length pedges)%nat -> (S j < length redges)%nat ->
      cell a i j = (nth (S j) redges 0 ^ 2 - nth j redges 0 ^ 2) / 2 * (nth 1 pedges 0 - nth 0 pedges 0).
Proof.
  intros redges pedges Hp. unfold get_polar_area2d.
  rewrite (py_get_ok _ _ 1 0), (py_get_ok _ _ 0 0) by lia. cbn [bind].
  change (Z.to_nat 1) with 1%nat. change (Z.to_nat 0) with 0%nat.
  eexists. split; [reflexivity|]. split.
  - split; [apply repeat_length|]. intros i Hi. rewrite repeat_length in Hi.
    rewrite nth_repeat_lt by lia. rewrite map2_length, length_tl, length_removelast. lia.
  - intros i j Hi Hj. unfold cell. rewrite nth_repeat_lt by lia.
    rewrite (nth_map2 _ _ _ _ _ _ j 0 0 0) by (rewrite ?length_tl, ?length_removelast; lia).
    rewrite nth_tl, nth_removelast by exact Hj. pose proof PI_pos. field. lra.
Qed.

Lemma area2d_short : forall redges pedges, (length pedges < 2)%nat ->
  get_polar_area2d redges pedges = Err IndexError.
Proof. intros redges [|a [|b l]] H; cbn in H; try lia; reflexivity. Qed.

(** Sums of consecutive differences telescope. *)
Lemma Rsum_telescope : forall (g : R -> R) l, (1 <= length l)%nat ->
  Rsum (map2 (fun b a => g b - g a) (tl l) (removelast l)) = g (nth (length l - 1) l 0) - g (nth 0 l 0).
Proof.
  intros g l. induction l as [|a l IH]; intros H; [cbn in H; lia|].
  destruct l as [|b l]; [cbn; ring|].
  replace (tl (a :: b :: l)) with (b :: tl (b :: l)) by reflexivity.
  replace (removelast (a :: b :: l)) with (a :: removelast (b :: l)) by reflexivity.
  cbn [map2]. unfold Rsum in *. cbn [fold_right]. rewrite IH by (cbn; lia).
  cbn [nth length]. replace (S (length l) - 0)%nat with (S (length l)) by lia.
  replace (S (S (length l)) - 1)%nat with (S (length l)) by lia.
  replace (S (length l) - 1)%nat with (length l) by lia. cbn [nth]. ring.
Qed.

Lemma Rsum_eq_nth : forall l m, length l = length m ->
  (forall i, (i < length l)%nat -> nth i l 0 = nth i m 0) -> Rsum l = Rsum m.
Proof. intros l m H H'. f_equal. now apply (list_ext R l m 0). Qed.

Lemma area2d_total : forall redges pedges a, (2 <= length pedges)%nat -> (1 <= length redges)%nat ->
  get_polar_area2d redges pedges = Ok a ->
  total a = (nth (length redges - 1) redges 0 ^ 2 - nth 0 redges 0 ^ 2) / 2
            * (nth 1 pedges 0 - nth 0 pedges 0) * INR (length pedges - 1).
Proof.
  intros redges pedges a Hp Hr E. unfold get_polar_area2d in E.
  rewrite (py_get_ok _ _ 1 0), (py_get_ok _ _ 0 0) in E by lia. cbn [bind] in E.
  change (Z.to_nat 1) with 1%nat in E. change (Z.to_nat 0) with 0%nat in E.
  apply Ok_inj in E. subst a. unfold total.
  set (dp := nth 1 pedges 0 - nth 0 pedges 0).
  set (row := map2 _ _ _).
  assert (M : forall n, map Rsum (repeat row n) = repeat (Rsum row) n)
    by (induction n as [|n IH]; [reflexivity|cbn; now rewrite IH]).
  rewrite M, Rsum_repeat.
  assert (X : Rsum row = dp / 2 * nth (length redges - 1) redges 0 ^ 2 - dp / 2 * nth 0 redges 0 ^ 2).
  { rewrite <- (Rsum_telescope (fun r => dp / 2 * r ^ 2)) by exact Hr. unfold row.
    pose proof PI_pos. apply Rsum_eq_nth; [now rewrite !map2_length|].
    intros i Hi. rewrite map2_length in Hi.
    rewrite !(nth_map2 _ _ _ _ _ _ i 0 0 0) by lia. field. lra. }
  rewrite X. field.
Qed.

Lemma pixarea_uniform : forall xe ye x0 hx nx y0 hy ny,
  uniform_edges xe x0 hx nx -> uniform_edges ye y0 hy ny -> (1 <= nx)%nat -> (1 <= ny)%nat ->
  get_pixarea xe ye = Ok (hx * hy).
Proof.
  intros xe ye x0 hx nx y0 hy ny [Lx Hx] [Ly Hy] H1 H2. unfold get_pixarea.
  rewrite !(py_get_ok _ xe _ 0), !(py_get_ok _ ye _ 0) by lia. cbn [bind].
  change (Z.to_nat 1) with 1%nat. change (Z.to_nat 0) with 0%nat.
  rewrite !Hx, !Hy by lia. cbn [INR]. f_equal. ring.
Qed.
