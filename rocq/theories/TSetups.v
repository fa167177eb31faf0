(** * Theorems: arguments accepted by the set-up methods (C52, C58, C62, C63, C67) *)

From Coq Require Import Reals ZArith List Bool Lia Lra.
From Flocq Require Import Core.Raux.
From Verif Require PGrids.
From Verif Require Import Base BaseP SpecGrid SpecRandoms SpecDense SpecCube MGrids MDense MRandoms MMonte MCube PRandoms PPolarCoords PHealpixBoundary PDense PMonte PCube PMonteShell.
Import ListNotations.
Open Scope R_scope.

(** Sensible rings: radii from [rmin], angles within the circle, a centre of two
    coordinates. *)
Definition sensible_rings (rmin rmax : R) (numr nump : Z) (pmin pmax : R) (center : list R) : Prop :=
  0 <= rmin < rmax /\ (1 <= numr)%Z /\ 0 <= pmin < pmax /\ pmax <= 2 * PI /\ (1 <= nump)%Z /\ length center = 2%nat.

Lemma length_mids : forall a b n, (0 <= n)%Z ->
  length (map2 (fun a b => / 2 * (a + b)) (tl (linspace a b (Z.to_nat (n + 1)))) (removelast (linspace a b (Z.to_nat (n + 1))))) = Z.to_nat n.
Proof. intros. rewrite map2_length, PGrids.length_tl, PGrids.length_removelast, length_linspace. lia. Qed.

Lemma py_get_far : forall (l : list R) n, (Z.of_nat (length l) <= n)%Z -> py_get l n = Err IndexError.
Proof.
  intros l n H. unfold py_get. rewrite (proj2 (Z.ltb_ge n 0)) by lia. rewrite (proj2 (nth_error_None _ _)) by lia. now rewrite (proj2 (Z.ltb_ge n 0)) by lia.
Qed.

Ltac refuse := split; [reflexivity|split; intros Q; exfalso; unfold sensible_rings in Q; (lra || lia || (destruct Q as (? & ? & ? & ? & ? & ?); (lra || lia || tauto)))].
Ltac checks rmin rmax numr nump pmin pmax center :=
  destruct (Rlt_bool_spec rmin rmax); [|refuse];
  destruct (Z.ltb_spec 0 numr); [|refuse];
  destruct (Rle_bool_spec 0 pmin); [|refuse];
  destruct (Rlt_bool_spec pmin (2 * PI)); [|refuse];
  destruct (Rlt_bool_spec pmin pmax); [|refuse];
  destruct (Rlt_bool_spec 0 pmax); [|refuse];
  destruct (Rle_bool_spec pmax (2 * PI)); [|refuse];
  destruct (Z.ltb_spec 0 nump); [|refuse];
  destruct (Nat.eqb_spec (length center) 2) as [Lc|]; [|refuse].

(** Dense [setup_polar]: refused exactly for rings that are not sensible; one ring
    or one sector is an IndexError. *)
Theorem C58_args : forall rmin rmax numr nump pmin pmax center rr rp sh, (0 <= rr)%Z -> (0 <= rp)%Z ->
  let ok := sensible_rings rmin rmax numr nump pmin pmax center in
  let out := setup_polar rmin rmax numr nump pmin pmax center rr rp sh in
  (~ ok -> out = Err AssertionError) /\ (ok -> numr = 1%Z \/ nump = 1%Z -> out = Err IndexError) /\
  (ok -> (2 <= numr)%Z /\ (2 <= nump)%Z -> exists P, out = Ok P).
Proof.
  intros rmin rmax numr nump pmin pmax center rr rp sh Hrr Hrp. cbn zeta. unfold setup_polar, py_assert.
  destruct (Rle_bool_spec 0 rmin); [|refuse]. checks rmin rmax numr nump pmin pmax center.
  split; [intros Q; exfalso; apply Q; unfold sensible_rings; repeat split; (lra || lia || assumption)|].
  rewrite !linspaceZ_ok by lia. cbn [bind].
  set (rm := map2 _ (tl (linspace rmin rmax _)) _). assert (Lr : length rm = Z.to_nat numr) by (apply length_mids; lia).
  set (pm := map2 _ (tl (linspace pmin pmax _)) _). assert (Lp : length pm = Z.to_nat nump) by (apply length_mids; lia). split.
  - intros _ One. destruct (Z.eq_dec numr 1) as [N|N]; [rewrite (py_get_far rm) by lia; reflexivity|]. assert (nump = 1%Z) by (destruct One; [contradiction|assumption]). clear One.
    rewrite !(py_get_ok _ rm _ 0) by lia. cbn [bind]. rewrite (py_get_far pm) by lia. reflexivity.
  - intros _ [N N']. rewrite !(py_get_ok _ rm _ 0), !(py_get_ok _ pm _ 0) by lia. cbn [bind].
    set (re := linspace rmin rmax _). assert (LR : length re = Z.to_nat (numr + 1)) by apply length_linspace.
    set (pe := linspace pmin pmax _). assert (LP : length pe = Z.to_nat (nump + 1)) by apply length_linspace.
    destruct (meshgrid rm pm) as [r2 p2]. rewrite (py_get_ok _ re _ 0), (py_get_last _ re 0) by lia. cbn [bind]. rewrite linspaceZ_ok by nia. cbn [bind].
    rewrite (py_get_ok _ pe _ 0), (py_get_last _ pe 0) by lia. cbn [bind]. rewrite linspaceZ_ok by nia. cbn [bind]. destruct (meshgrid _ _). now eexists.
Qed.
Print Assumptions C58_args.

(** Monte Carlo [setup_polar_lin]: the same arguments. *)
Theorem C63_args : forall rmin rmax numr nump pmin pmax center sh,
  let ok := sensible_rings rmin rmax numr nump pmin pmax center in
  let out := setup_polar_lin rmin rmax numr nump pmin pmax center sh in
  (~ ok -> out = Err AssertionError) /\ (ok -> numr = 1%Z \/ nump = 1%Z -> out = Err IndexError) /\
  (ok -> (2 <= numr)%Z /\ (2 <= nump)%Z -> exists P, out = Ok P).
Proof.
  intros rmin rmax numr nump pmin pmax center sh. cbn zeta. unfold setup_polar_lin, py_assert.
  destruct (Rle_bool_spec 0 rmin); [|refuse]. checks rmin rmax numr nump pmin pmax center.
  split; [intros Q; exfalso; apply Q; unfold sensible_rings; repeat split; (lra || lia || assumption)|].
  rewrite !linspaceZ_ok by lia. cbn [bind].
  set (rm := map2 _ (tl (linspace rmin rmax _)) _). assert (Lr : length rm = Z.to_nat numr) by (apply length_mids; lia).
  set (pm := map2 _ (tl (linspace pmin pmax _)) _). assert (Lp : length pm = Z.to_nat nump) by (apply length_mids; lia). split.
  - intros _ One. destruct (Z.eq_dec numr 1) as [N|N]; [rewrite (py_get_far rm) by lia; reflexivity|]. assert (nump = 1%Z) by (destruct One; [contradiction|assumption]). clear One.
    rewrite !(py_get_ok _ rm _ 0) by lia. cbn [bind]. rewrite (py_get_far pm) by lia. reflexivity.
  - intros _ [N N']. rewrite !(py_get_ok _ rm _ 0), !(py_get_ok _ pm _ 0) by lia. cbn [bind]. destruct (meshgrid _ _). now eexists.
Qed.
Print Assumptions C63_args.

(** Monte Carlo [setup_polar_log]: the same with a positive [rmin]; one ring is
    accepted. *)
Theorem C67_args : forall rmin rmax numr nump pmin pmax center sh addzero,
  let ok := 0 < rmin /\ sensible_rings rmin rmax numr nump pmin pmax center in
  let out := setup_polar_log rmin rmax numr nump pmin pmax center sh addzero in
  (~ ok -> out = Err AssertionError) /\ (ok -> nump = 1%Z -> out = Err IndexError) /\
  (ok -> (2 <= nump)%Z -> exists P, out = Ok P).
Proof.
  intros rmin rmax numr nump pmin pmax center sh addzero. cbn zeta. unfold setup_polar_log, py_assert.
  destruct (Rlt_bool_spec 0 rmin); [|refuse]. checks rmin rmax numr nump pmin pmax center.
  split; [intros Q; exfalso; apply Q; unfold sensible_rings; repeat split; (lra || lia || assumption)|].
  assert (E : exists re, (if addzero then l <- logspaceZ (log10 rmin) (log10 rmax) numr ;; Ok (0 :: l) else logspaceZ (log10 rmin) (log10 rmax) (numr + 1)) = Ok re).
  { unfold logspaceZ. rewrite !linspaceZ_ok by lia. cbn [bind]. destruct addzero; now eexists. }
  destruct E as [re ->]. rewrite linspaceZ_ok by lia. cbn [bind].
  set (pm := map2 _ (tl (linspace pmin pmax _)) _). assert (Lp : length pm = Z.to_nat nump) by (apply length_mids; lia). split.
  - intros _ N. rewrite (py_get_far pm) by lia. reflexivity.
  - intros _ N. rewrite !(py_get_ok _ pm _ 0) by lia. cbn [bind]. destruct (meshgrid _ _). now eexists.
Qed.
Print Assumptions C67_args.

(** [setup_cube] of both packages: any corners are accepted; counts of cells along
    [x] and [y] must be positive; a count along [z] that is not positive fails
    later, with other exceptions. *)
Theorem C62_cube_args : forall xmin xmax numx ymin ymax numy zmin zmax numz,
  let out := setup_cube xmin xmax numx ymin ymax numy zmin zmax numz in
  (~ (1 <= numx /\ 1 <= numy)%Z -> out = Err AssertionError) /\
  ((1 <= numx /\ 1 <= numy)%Z -> (numz < -1)%Z -> out = Err ValueError) /\
  ((1 <= numx /\ 1 <= numy)%Z -> (-1 <= numz <= 0)%Z -> out = Err IndexError) /\
  ((1 <= numx /\ 1 <= numy /\ 1 <= numz)%Z -> exists C, out = Ok C).
Proof.
  intros xmin xmax numx ymin ymax numy zmin zmax numz. cbn zeta. unfold setup_cube, py_assert.
  destruct (Z.ltb_spec 0 numx); [|split; [reflexivity|repeat split; lia]].
  destruct (Z.ltb_spec 0 numy); [|split; [reflexivity|repeat split; lia]].
  split; [lia|]. rewrite !(linspaceZ_ok xmin), !(linspaceZ_ok ymin) by lia. cbn [bind].
  set (xe := linspace xmin xmax _). assert (LX : length xe = Z.to_nat (numx + 1)) by apply length_linspace.
  set (ye := linspace ymin ymax _). assert (LY : length ye = Z.to_nat (numy + 1)) by apply length_linspace.
  split; [|split].
  - intros _ N. unfold linspaceZ. destruct (Z.ltb_spec (numz + 1) 0); [reflexivity|lia].
  - intros _ N. rewrite linspaceZ_ok by lia. cbn [bind]. set (ze := linspace zmin zmax _). assert (LZ : length ze = Z.to_nat (numz + 1)) by apply length_linspace.
    rewrite !(py_get_ok _ xe _ 0), !(py_get_ok _ ye _ 0) by lia. cbn [bind]. rewrite (py_get_far ze) by lia. reflexivity.
  - intros N. rewrite linspaceZ_ok by lia. cbn [bind]. set (ze := linspace zmin zmax _). assert (LZ : length ze = Z.to_nat (numz + 1)) by apply length_linspace.
    rewrite !(py_get_ok _ xe _ 0), !(py_get_ok _ ye _ 0), !(py_get_ok _ ze _ 0) by lia. cbn [bind]. destruct (meshgrid3 _ _ _) as [[? ?] ?]. now eexists.
Qed.
Print Assumptions C62_cube_args.

(** [random_prob_draw] with as many probabilities as neither one nor the number of
    elements. *)
Theorem C52_mismatch : forall A argsort (d : A) u v sample p, length p <> length sample -> length p <> 1%nat ->
  random_prob_draw argsort d u v sample (Seq p) None = Err ValueError /\
  forall size, (size < Z.of_nat (length sample))%Z -> (forall x, In x p -> 0 < x) ->
    random_prob_draw argsort d u v sample (Seq p) (Some size) = Err ValueError.
Proof.
  intros A argsort d u v sample p H _. unfold random_prob_draw, spread, py_assert. destruct (Nat.eqb_spec (length p) (length sample)); [contradiction|].
  split; [reflexivity|]. intros size Hs Hp. rewrite (proj2 (Z.ltb_lt _ _) Hs). cbn [bind].
  replace (existsb _ p) with false; [cbn [negb]; now rewrite (proj2 (Nat.eqb_neq _ _) H)|]. symmetry. apply not_true_is_false. intros E. apply existsb_exists in E. destruct E as (x & Hx & L).
  specialize (Hp x Hx). rewrite Rle_bool_false in L by lra. discriminate.
Qed.
Print Assumptions C52_mismatch.

(** Sensible rings exist. *)
Example args2_case : sensible_rings 0 1 4 8 0 (2 * PI) [0; 0] /\ (0 < / 2 /\ sensible_rings (/ 2) 1 1 2 0 PI [0; 0]) /\ (length [/ 2; / 2] <> length [1; 2; 3])%nat.
Proof. pose proof PI_RGT_0. split; [|split; [split; [lra|]|cbn; lia]]; unfold sensible_rings; repeat split; (lra || lia || reflexivity). Qed.
