(** * Lemmas: tabulated distributions in double precision *)

From Coq Require Import Reals ZArith List Bool Lia Lra Psatz Permutation.
From Flocq Require Import Core IEEE754.BinarySingleNaN.
From Verif Require Import PPolarCoords TDenseDouble TGridsDouble Base BaseP SpecGrid SpecRemap PGrids MHealpixFloat PHealpixFloat SpecDouble MDouble PDouble
  MRemapDouble MGridsDouble PGridsDouble MSumDouble PSumDouble PDense PDenseDouble PRemap2 PRadial MOneDDouble PRebinDouble PRebinDouble2 PRebinDouble3 PRebinDouble4 SpecSigmaDouble PSigmaDouble PSigmaDouble2 PSigmaDouble3 PSigmaDouble4
  PPiDouble SpecRadialDouble MRadialDouble PRadialDouble PRadialDouble2 PRadialDouble3 PRadialDouble4 SpecRandomsDouble MRandomsDouble PRandomsDouble.
Import ListNotations.
Open Scope R_scope.

(** ** Order of non-negative doubles *)

Definition same (x y : double) : Prop := dle x y = true /\ dle y x = true.

Lemma dle_val : forall x y, fin x -> fin y -> dle x y = true -> val x <= val y.
Proof. intros x y Fx Fy H. unfold dle in H. rewrite Bleb_correct in H by assumption. destruct (Rle_bool_spec (B2R x) (B2R y)) as [L|L]; [exact L|discriminate]. Qed.

Lemma inf_dle : forall x, nonneg x -> dle (B754_infinity false) x = true -> x = B754_infinity false.
Proof. intros x N H. destruct (nonneg_cases x N) as [[F P]| ->]; [|reflexivity]. destruct x as [s|s| |s m e B]; try discriminate; destruct s; discriminate. Qed.

Lemma dle_trans : forall x y z, nonneg x -> nonneg y -> nonneg z -> dle x y = true -> dle y z = true -> dle x z = true.
Proof.
  intros x y z Nx Ny Nz A B. destruct (nonneg_cases z Nz) as [[Fz Pz]| ->]; [|now apply dle_inf].
  destruct (nonneg_cases y Ny) as [[Fy Py]| ->]; [|apply inf_dle in B; [subst; discriminate|exact Nz]].
  destruct (nonneg_cases x Nx) as [[Fx Px]| ->]; [|apply inf_dle in A; [subst; discriminate|exact Ny]].
  apply dle_val in A, B; auto. apply dle_ok; auto. lra.
Qed.

Lemma dle_refl : forall x, nonneg x -> dle x x = true.
Proof. intros x N. destruct (nonneg_cases x N) as [[F P]| ->]; [|reflexivity]. apply dle_ok; auto. lra. Qed.

Lemma nonneg_nan : forall x, nonneg x -> is_nan x = false.
Proof. intros x N. destruct x; try reflexivity. discriminate. Qed.

Lemma dlt_false : forall x y, nonneg x -> nonneg y -> dlt x y = false -> dle y x = true.
Proof.
  intros x y Nx Ny H. destruct (nonneg_cases x Nx) as [[Fx Px]| ->]; [|now apply dle_inf].
  destruct (nonneg_cases y Ny) as [[Fy Py]| ->].
  - rewrite dlt_ok in H by assumption. destruct (Rlt_bool_spec (val x) (val y)) as [|L]; [discriminate|]. now apply dle_ok.
  - exfalso. destruct x as [s|s| |s m e B]; try discriminate; destruct s; discriminate.
Qed.

Lemma max_same : forall a b, nonneg a -> nonneg b -> dle a b = true -> same (max_d a b) b /\ nonneg (max_d a b).
Proof.
  intros a b Na Nb H. unfold max_d. rewrite (nonneg_nan a Na), (nonneg_nan b Nb). destruct (dlt a b) eqn:E.
  - split; [split; now apply dle_refl|exact Nb].
  - split; [split; [exact H|now apply dlt_false]|exact Na].
Qed.

Fixpoint chain (a : double) (l : list double) : Prop :=
  match l with [] => True | b :: t => nonneg b /\ dle a b = true /\ chain b t end.

Lemma chain_nonneg : forall l a x, chain a l -> In x l -> nonneg x.
Proof. induction l as [|b l IH]; intros a x H [].  - subst. apply H. - destruct H as (_ & _ & H). eapply IH; eassumption. Qed.

Lemma last_default : forall A (l : list A) c a b, last (c :: l) a = last (c :: l) b.
Proof. induction l as [|d l IH]; intros c a b; [reflexivity|]. exact (IH d a b). Qed.

Lemma max_chain : forall l a a', nonneg a -> nonneg a' -> same a' a -> chain a l -> same (fold_left max_d l a') (last l a) /\ nonneg (fold_left max_d l a').
Proof.
  induction l as [|b l IH]; intros a a' Na Na' S C; [split; assumption|]. destruct C as (Nb & L & C). cbn [fold_left].
  assert (L' : dle a' b = true) by (apply (dle_trans a' a b); auto; apply S). destruct (max_same a' b Na' Nb L') as [S1 N1].
  destruct (IH b (max_d a' b) Nb N1 S1 C) as [S2 N2]. split; [|exact N2]. destruct l as [|c l]; [exact S2|]. rewrite (last_default _ l c b a) in S2. exact S2.
Qed.

Lemma chain_nth : forall n (g : nat -> double) a, (forall k, (k < n)%nat -> nonneg (g k)) -> ((0 < n)%nat -> dle a (g 0%nat) = true) -> (forall k, (S k < n)%nat -> dle (g k) (g (S k)) = true) -> chain a (tab n g).
Proof.
  unfold tab. intros n. induction n as [|n IH]; intros g a N Z L; [exact I|]. cbn [seq map chain]. split; [apply N; lia|]. split; [apply Z; lia|].
  rewrite <- seq_shift, map_map. apply (IH (fun k => g (S k)) (g 0%nat)); intros; [apply N; lia|apply L; lia|apply L; lia].
Qed.

Lemma same_eq : forall x y, nonneg x -> nonneg y -> same x y -> fin y -> 0 < val y -> x = y.
Proof.
  intros x y Nx Ny [A B] Fy Py. destruct (nonneg_cases x Nx) as [[Fx Px]| ->].
  - apply dle_val in A, B; auto. assert (E : val x = val y) by lra. apply B2R_Bsign_inj; auto. rewrite !sign_pos; auto. lra.
  - apply inf_dle in A; [subst; discriminate|exact Ny].
Qed.

(** ** Products with the bin width *)

Lemma mul_dx : forall x y dx, nonneg x -> nonneg y -> dle x y = true -> fin dx -> 0 < val dx -> nonneg (dmul x dx) /\ dle (dmul x dx) (dmul y dx) = true.
Proof.
  intros x y dx Nx Ny H Fd Pd. assert (INF : forall z, z = B754_infinity false -> dmul z dx = B754_infinity false).
  { intros z ->. pose proof (sign_pos dx Fd Pd) as S. destruct dx as [s|s| |s m e B]; try discriminate; [cbn in Pd; lra|]. cbn in S. subst. reflexivity. }
  assert (N : forall z, nonneg z -> nonneg (dmul z dx)).
  { intros z Nz. destruct (nonneg_cases z Nz) as [[F P]|E]; [apply mul_order; auto; lra|rewrite (INF z E); reflexivity]. }
  split; [now apply N|]. destruct (nonneg_cases y Ny) as [[Fy Py]|E]; [|rewrite (INF y E); apply dle_inf, N; exact Nx].
  destruct (nonneg_cases x Nx) as [[Fx Px]|E]; [|subst; apply inf_dle in H; [subst; discriminate|exact Ny]]. apply dle_val in H; auto.
  destruct (nonneg_cases (dmul y dx) (N y Ny)) as [[Fm Pm]|E]; [|rewrite E; apply dle_inf, N; exact Nx].
  assert (Ov : Rabs (fl (val y * val dx)) < b2 1024).
  { pose proof (@Bmult_correct 53 1024 p53 p1024 mode_NE y dx) as C. change (round radix2 _ _ _) with (fl (val y * val dx)) in C. destruct (Rlt_bool_spec (Rabs (fl (val y * val dx))) (b2 1024)) as [L|L]; [exact L|].
    exfalso. unfold dmul in Fm. unfold fin in Fm. rewrite <- is_finite_SF_B2SF in Fm. change (bpow radix2 1024) with (b2 1024) in C. rewrite C in Fm. unfold binary_overflow in Fm. cbn in Fm. discriminate. }
  destruct (dmul_ok y dx Fy Fd Ov) as [_ Vy].
  assert (LE : fl (val x * val dx) <= fl (val y * val dx)) by (apply fl_mono; apply Rmult_le_compat_r; lra).
  assert (PX : 0 <= fl (val x * val dx)) by (rewrite <- fl_0; apply fl_mono; apply Rmult_le_pos; lra).
  destruct (dmul_ok x dx Fx Fd) as [Fx' Vx]; [rewrite Rabs_pos_eq by exact PX; rewrite Rabs_pos_eq in Ov by lra; lra|]. apply dle_ok; auto. rewrite Vx, Vy. exact LE.
Qed.

(** ** The function *)

Definition width (xmid : list double) : double := dsub (nth 1 xmid dzero) (nth 0 xmid dzero).
Definition first_edge (xmid : list double) : double := dsub (nth 0 xmid dzero) (dmul (dbl 1 (-1)) (width xmid)).
Definition last_edge (xmid : list double) : double := dadd (nth (length xmid - 1) xmid dzero) (dmul (dbl 1 (-1)) (width xmid)).
Definition raw (xmid pdf : list double) (k : nat) : double := match k with O => dzero | S j => dmul (nth j (cumsum_d pdf) dzero) (width xmid) end.

Lemma tab_S : forall A n (g : nat -> A), tab (S n) g = g 0%nat :: tab n (fun k => g (S k)).
Proof. intros. unfold tab. cbn [seq map]. now rewrite <- seq_shift, map_map. Qed.

Lemma get_mid : forall (xmid : list double) n, length xmid = n -> (2 <= n)%nat -> py_get xmid 1 = Ok (nth 1 xmid dzero) /\ py_get xmid 0 = Ok (nth 0 xmid dzero) /\ py_get xmid (-1) = Ok (nth (n - 1) xmid dzero).
Proof.
  intros xmid n L H. rewrite (py_get_ok _ _ _ dzero) by (unfold double in *; lia). rewrite (py_get_ok _ _ _ dzero) by (unfold double in *; lia). split; [reflexivity|]. split; [reflexivity|].
  rewrite (get_wrap_d xmid n (-1) L) by lia. unfold PSigma.wrap. replace (-1 <? 0)%Z with true by reflexivity. do 2 f_equal; lia.
Qed.

Lemma pdf2cdf_ok : forall xmid pdf n, length xmid = n -> length pdf = n -> (2 <= n)%nat ->
  exists x, linspace_d (first_edge xmid) (last_edge xmid) (Z.of_nat n + 1) = Ok x /\ length x = S n /\
    let M := np_max_d (tab (S n) (raw xmid pdf)) in
    pdf2cdf_d xmid pdf = Ok (x, tab (S n) (fun k => ddiv (raw xmid pdf k) M), map (fun v => ddiv v M) pdf).
Proof.
  intros xmid pdf n Lx Lp Hn. destruct (linspace_shape (first_edge xmid) (last_edge xmid) (Z.of_nat n)) as (x & E & L & _); [lia|]. rewrite Nat2Z.id in L.
  exists x. split; [exact E|]. split; [exact L|]. cbv zeta. unfold pdf2cdf_d. destruct (get_mid xmid n Lx Hn) as (-> & -> & ->). cbn [bind]. cbv zeta. fold (width xmid). fold (first_edge xmid).
  replace (dadd (nth (n - 1) xmid dzero) (dmul (dbl 1 (-1)) (width xmid))) with (last_edge xmid) by (unfold last_edge; now rewrite Lx).
  replace (Z.of_nat (length xmid)) with (Z.of_nat n) by (f_equal; symmetry; exact Lx). rewrite E. cbn [bind]. replace (length x) with (S n) by (symmetry; exact L).
  rewrite (set_tail_ok n) by (rewrite map_length, cumsum_length; exact Lp). cbn [bind].
  assert (T : dzero :: map (fun c => dmul c (width xmid)) (cumsum_d pdf) = tab (S n) (raw xmid pdf)).
  { rewrite tab_S. f_equal. apply (nth_ext _ _ dzero dzero); [rewrite map_length, cumsum_length, tab_length; exact Lp|]. intros i Hi. rewrite map_length, cumsum_length in Hi.
    refine (eq_trans (nth_map_lt _ _ (fun c => dmul c (width xmid)) (cumsum_d pdf) i dzero dzero _) _); [rewrite cumsum_length; exact Hi|]. rewrite tab_nth by (unfold double in *; lia). reflexivity. }
  rewrite T. rewrite tab_map. reflexivity.
Qed.

(** The products are non-negative and non-decreasing. *)
Lemma raw_order : forall xmid pdf n, length pdf = n -> (1 <= n)%nat -> (forall v, In v pdf -> nonneg v) -> fin (width xmid) -> 0 < val (width xmid) ->
  (forall k, (k <= n)%nat -> nonneg (raw xmid pdf k)) /\ (forall k, (k < n)%nat -> dle (raw xmid pdf k) (raw xmid pdf (S k)) = true).
Proof.
  intros xmid pdf n L H1 N Fd Pd. pose proof (cumsum_order pdf N) as CO. rewrite L in CO.
  assert (NN : forall k, (k <= n)%nat -> nonneg (raw xmid pdf k)).
  { intros [|k] Hk; [reflexivity|]. cbn [raw]. destruct (CO k ltac:(lia)) as [Nk _]. refine (proj1 (mul_dx _ (nth k (cumsum_d pdf) dzero) _ Nk Nk _ Fd Pd)). now apply dle_refl. }
  split; [exact NN|]. intros [|k] Hk; [apply (NN 1%nat); lia|]. cbn [raw]. destruct (CO k ltac:(lia)) as [Nk Lk]. destruct (CO (S k) ltac:(lia)) as [Nk' _]. exact (proj2 (mul_dx _ _ _ Nk Nk' (Lk ltac:(lia)) Fd Pd)).
Qed.

Lemma raw_mono : forall xmid pdf n, length pdf = n -> (1 <= n)%nat -> (forall v, In v pdf -> nonneg v) -> fin (width xmid) -> 0 < val (width xmid) ->
  forall i j, (i <= j <= n)%nat -> dle (raw xmid pdf i) (raw xmid pdf j) = true.
Proof.
  intros xmid pdf n L H1 N Fd Pd i j [H2 H3]. destruct (raw_order xmid pdf n L H1 N Fd Pd) as [NN O]. revert H3. induction H2 as [|j H2 IH]; intros H3; [apply dle_refl, NN, H3|].
  apply (dle_trans _ (raw xmid pdf j)); [apply NN; lia|apply NN; lia|apply NN; lia|apply IH; lia|apply O; lia].
Qed.

Lemma last_tab : forall A n (g : nat -> A) d, last (tab (S n) g) d = g n.
Proof. intros. unfold tab. rewrite seq_S, map_app. cbn [map]. rewrite last_last. reflexivity. Qed.

Lemma max_raw : forall xmid pdf n, length pdf = n -> (1 <= n)%nat -> (forall v, In v pdf -> nonneg v) -> fin (width xmid) -> 0 < val (width xmid) ->
  same (np_max_d (tab (S n) (raw xmid pdf))) (raw xmid pdf n) /\ nonneg (np_max_d (tab (S n) (raw xmid pdf))).
Proof.
  intros xmid pdf n L H1 N Fd Pd. destruct (raw_order xmid pdf n L H1 N Fd Pd) as [NN O]. unfold np_max_d. rewrite tab_S.
  assert (C : chain (raw xmid pdf 0) (tab n (fun k => raw xmid pdf (S k)))) by (apply chain_nth; intros; [apply NN; lia|apply O; lia|apply O; lia]).
  assert (Z : nonneg (raw xmid pdf 0)) by reflexivity. pose proof (max_chain _ (raw xmid pdf 0) (raw xmid pdf 0) Z Z (conj (dle_refl _ Z) (dle_refl _ Z)) C) as H.
  destruct n as [|n]; [lia|]. rewrite (last_tab _ n (fun k => raw xmid pdf (S k))) in H. exact H.
Qed.
