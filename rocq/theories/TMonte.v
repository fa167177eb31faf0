(** * Property theorems: Monte-Carlo remapping of a box to rings *)

From Coq Require Import Reals ZArith List Bool Lia Lra.
From Flocq Require Import Core.Raux.
From Verif Require Import Base BaseP SpecGrid SpecRemap SpecDense SpecMonte MRandoms MDense MMonte PPolarCoords PRemap2 PDense PMonte.
Import ListNotations.
Open Scope R_scope.

(** The calls of a user on a box, after a polar set-up that returned [P]. *)
Definition user_remap (xmin xmax : R) (nx : nat) (ymin ymax : R) (ny : nat) (P : mc_polar) (mc : Z)
    (draws : nat -> nat -> list R * list R) (f : list (list R)) (w : option (list (list R))) : res (list (list num)) :=
  B <- setup_box xmin xmax (Z.of_nat nx) ymin ymax (Z.of_nat ny) ;;
  W <- get_weights B P draws mc ;;
  mc_remap B P (Some W) f w.

Definition user_mask (xmin xmax : R) (nx : nat) (ymin ymax : R) (ny : nat) (P : mc_polar) (mc : Z)
    (draws : nat -> nat -> list R * list R) : res (list (list R)) :=
  B <- setup_box xmin xmax (Z.of_nat nx) ymin ymax (Z.of_nat ny) ;;
  W <- get_weights B P draws mc ;;
  mc_mask B P (Some W).

(** A proper call: box, polar grid, number of samples and draws. *)
Definition proper_call (xmin xmax : R) (nx : nat) (ymin ymax : R) (ny : nat) (P : mc_polar) (nr np : nat) (mc : Z)
    (draws : nat -> nat -> list R * list R) : Prop :=
  xmin < xmax /\ ymin < ymax /\ (1 <= nx)%nat /\ (1 <= ny)%nat /\ made P nr np /\ (1 < mc)%Z /\ fair (Z.to_nat mc) draws.

(** [hit i j] lists the pixels of the in-box samples of polar cell [(i, j)]. *)
Definition sampled_pixels (V : pixels) (P : mc_polar) (nr np : nat) (draws : nat -> nat -> list R * list R)
    (hit : nat -> nat -> list (nat * nat)) : Prop :=
  forall i j, (i < np)%nat -> (j < nr)%nat -> hits V (drawn_points (sectors_of P) draws i j) (hit i j).

Lemma call_facts : forall xmin xmax nx ymin ymax ny P nr np mc draws, proper_call xmin xmax nx ymin ymax ny P nr np mc draws ->
  setup_box xmin xmax (Z.of_nat nx) ymin ymax (Z.of_nat ny) = Ok (the_box (pixel_grid xmin xmax nx ymin ymax ny)) /\
  good_pixels (pixel_grid xmin xmax nx ymin ymax ny) /\ good_polar P nr np /\ forall i j u, In u (fst (draws i j)) -> 0 <= u < 1.
Proof.
  intros xmin xmax nx ymin ymax ny P nr np mc draws (X & Y & Nx & Ny & HP & Hmc & Hd). split; [now apply setup_box_ok|].
  split; [now apply good_grid|]. split; [now apply made_good|]. intros i j. apply Hd.
Qed.

(** ** C63 *)

(** Which samples are taken: each cell gets [mc_size] points, all of them
    inside the cell. *)
Theorem C63_samples : forall P nr np mc draws i j, made P nr np -> fair mc draws -> (i < np)%nat -> (j < nr)%nat ->
  length (drawn_points (sectors_of P) draws i j) = mc /\
  forall p, In p (drawn_points (sectors_of P) draws i j) -> in_sector (sectors_of P) i j p.
Proof.
  intros P nr np mc draws i j HP Hd Hi Hj. destruct (made_good _ _ _ HP) as [(_ & _ & _ & _ & _ & _ & Hr) Hp]. destruct (Hd i j) as ([L1 L2] & U1 & U2).
  unfold drawn_points. rewrite map_length, combine_length, L1, L2. split; [lia|]. intros p H. apply in_map_iff in H. destruct H as ([u v] & <- & H).
  apply drawn_in_sector; cbn [sectors_of se_r se_p]; auto.
  - apply U1. exact (in_combine_l _ _ _ _ H).
  - apply U2. exact (in_combine_r _ _ _ _ H).
Qed.
Print Assumptions C63_samples.

(** The list of pixels hit exists and is unique. *)
Theorem C63_hits : forall V pts, good_pixels V -> (1 <= pnx V)%nat -> (1 <= pny V)%nat -> exists! h, hits V pts h.
Proof.
  intros V pts HV Nx Ny. destruct (hits_exist V pts HV Nx Ny) as [h Hh]. exists h. split; auto.
  intros h' H'. revert h' H'. induction Hh as [|p q l h Hq H IH|p l h Ho H IH]; intros h' H'.
  - inversion H'; auto.
  - inversion H'; subst.
    + f_equal; [|now apply IH]. pose proof (bin2_in V HV p q Hq). pose proof (bin2_in V HV p q0 ltac:(assumption)). congruence.
    + exfalso. match goal with A : ~ in_closed V p |- _ => apply A end. now apply (counted_closed V p q).
  - inversion H'; subst; [|now apply IH]. exfalso. apply Ho. now apply (counted_closed V p q).
Qed.
Print Assumptions C63_hits.

(** Whenever the calls succeed, every cell of the result is the (weighted) mean
    of the map over the pixels hit by the cell's samples. *)
Theorem C63_value : forall xmin xmax nx ymin ymax ny P nr np mc draws f w hit out,
  proper_call xmin xmax nx ymin ymax ny P nr np mc draws ->
  shape2 f ny nx -> (forall w', w = Some w' -> shape2 w' ny nx) ->
  sampled_pixels (pixel_grid xmin xmax nx ymin ymax ny) P nr np draws hit ->
  user_remap xmin xmax nx ymin ymax ny P mc draws f w = Ok out ->
  length out = np /\ forall i, (i < np)%nat -> length (nth i out []) = nr /\
  forall j, (j < nr)%nat -> nth j (nth i out []) None = mean_of f w (hit i j).
Proof.
  intros xmin xmax nx ymin ymax ny P nr np mc draws f w hit out HC Hf Hw Hh E. destruct (call_facts _ _ _ _ _ _ _ _ _ _ _ HC) as (EB & HV & HP & Hu).
  destruct HC as (_ & _ & Nx & Ny & _ & Hmc & _). unfold user_remap in E. rewrite EB in E. cbn [bind] in E.
  set (V := pixel_grid xmin xmax nx ymin ymax ny) in *. set (c := cnt V hit).
  assert (G : (forall i, (i < np)%nat -> exists j, (j < nr)%nat /\ c i j <> c i 0%nat) \/ exists i, (i < np)%nat /\ forall j, (j < nr)%nat -> c i j = c i 0%nat).
  { clear -c. induction np as [|n IH]; [left; intros; lia|]. destruct IH as [IH|(i & Hi & H)]; [|right; exists i; split; [lia|auto]].
    assert (D : (exists j, (j < nr)%nat /\ c n j <> c n 0%nat) \/ forall j, (j < nr)%nat -> c n j = c n 0%nat).
    { clear. induction nr as [|m IH]; [right; intros; lia|]. destruct IH as [(j & Hj & H)|IH]; [left; exists j; split; [lia|auto]|].
      destruct (Nat.eq_dec (c n m) (c n 0%nat)); [right|left; exists m; split; auto]. intros j Hj. destruct (Nat.eq_dec j m) as [->|]; auto. apply IH. lia. }
    destruct D as [D|D]; [left|right; exists n; split; auto]. intros i Hi. destruct (Nat.eq_dec i n) as [->|]; auto. apply IH. lia. }
  assert (R : out = tab2 np nr (fun i j => mean_of f w (hit i j))).
  { destruct G as [G|(i0 & Hi0 & Hrow)].
    - rewrite (weights_ragged V P nr np mc draws hit HV Nx Ny HP Hmc Hu Hh G) in E. cbn [bind] in E.
      rewrite (remap_arrays V P nr np mc draws hit Nx Ny HP Hmc Hh f w Hf Hw) in E. congruence.
    - assert (U : (forall i j, (i < np)%nat -> (j < nr)%nat -> c i j = c i0 0%nat) \/ exists i j, (i < np)%nat /\ (j < nr)%nat /\ c i j <> c i0 0%nat).
      { generalize (c i0 0%nat) as k. clear -c. intros k. induction np as [|n IH]; [left; intros; lia|]. destruct IH as [IH|(i & j & Hi & Hj & H)]; [|right; exists i, j; repeat split; auto; lia].
        assert (D : (exists j, (j < nr)%nat /\ c n j <> k) \/ forall j, (j < nr)%nat -> c n j = k).
        { clear. induction nr as [|m IH]; [right; intros; lia|]. destruct IH as [(j & Hj & H)|IH]; [left; exists j; split; [lia|auto]|].
          destruct (Nat.eq_dec (c n m) k); [right|left; exists m; split; auto]. intros j Hj. destruct (Nat.eq_dec j m) as [->|]; auto. apply IH. lia. }
        destruct D as [(j & Hj & D)|D]; [right; exists n, j; auto|left]. intros i j Hi Hj. destruct (Nat.eq_dec i n) as [->|]; auto. apply IH; auto. lia. }
      destruct U as [U|(i1 & j1 & Hi1 & Hj1 & Hd)].
      + assert (N0 : (0 < np)%nat /\ (0 < nr)%nat) by (destruct HP as (? & ? & _); lia).
        assert (U' : forall i j, (i < np)%nat -> (j < nr)%nat -> cnt V hit i j = cnt V hit 0 0).
        { intros. transitivity (c i0 0%nat); [|symmetry]; apply U; tauto. }
        rewrite (weights_uniform V P nr np mc draws hit HV Nx Ny HP Hmc Hu Hh U') in E. cbn [bind] in E.
        destruct (Nat.eq_dec (cnt V hit 0 0) 0) as [Z|Z].
        * destruct (remap_numbers_zero V P nr np mc draws hit Nx Ny HP Hmc Hh f w Hf Hw (cnt V hit 0 0)) as [E0 E1]; [intros; rewrite U'; auto|].
          rewrite E0 in E. injection E as <-. apply tab2_ext. intros i j Hi Hj. rewrite E1 by auto. destruct w as [w|]; [|reflexivity].
          cbn [mean_of]. unfold weighted_mean. cbn [map Rsum fold_right]. destruct (Req_EM_T 0 0); [reflexivity|lra].
        * rewrite (remap_numbers_pos V P nr np mc draws hit Nx Ny HP Hmc Hh f w Hf Hw) in E by lia. discriminate.
      + rewrite (weights_mixed V P nr np mc draws hit HV Nx Ny HP Hmc Hu Hh i0 i1 j1 Hi0 Hrow Hi1 Hj1 Hd) in E. discriminate. }
  subst out. split; [apply tab2_length|]. intros i Hi. unfold tab2. rewrite tab_nth by auto. split; [apply tab_length|]. intros j Hj. now rewrite tab_nth.
Qed.
Print Assumptions C63_value.

(** The calls succeed if in every row of cells (one angle) two cells hit
    different numbers of pixels ... *)
Theorem C63_runs : forall xmin xmax nx ymin ymax ny P nr np mc draws f w hit,
  proper_call xmin xmax nx ymin ymax ny P nr np mc draws ->
  shape2 f ny nx -> (forall w', w = Some w' -> shape2 w' ny nx) ->
  sampled_pixels (pixel_grid xmin xmax nx ymin ymax ny) P nr np draws hit ->
  (forall i, (i < np)%nat -> exists j1 j2 k1 k2, (j1 < nr)%nat /\ (j2 < nr)%nat /\ distinct (hit i j1) k1 /\ distinct (hit i j2) k2 /\ k1 <> k2) ->
  exists out, user_remap xmin xmax nx ymin ymax ny P mc draws f w = Ok out.
Proof.
  intros xmin xmax nx ymin ymax ny P nr np mc draws f w hit HC Hf Hw Hh Hd. destruct (call_facts _ _ _ _ _ _ _ _ _ _ _ HC) as (EB & HV & HP & Hu).
  destruct HC as (_ & _ & Nx & Ny & _ & Hmc & _). unfold user_remap. rewrite EB. cbn [bind]. set (V := pixel_grid xmin xmax nx ymin ymax ny) in *.
  rewrite (weights_ragged V P nr np mc draws hit HV Nx Ny HP Hmc Hu Hh).
  - cbn [bind]. rewrite (remap_arrays V P nr np mc draws hit Nx Ny HP Hmc Hh f w Hf Hw). eexists. reflexivity.
  - intros i Hi. destruct (Hd i Hi) as (j1 & j2 & k1 & k2 & H1 & H2 & D1 & D2 & Hk).
    pose proof (cnt_distinct V P nr np draws hit Hh i j1 Hi H1) as C1. pose proof (cnt_distinct V P nr np draws hit Hh i j2 Hi H2) as C2.
    pose proof (distinct_unique _ _ _ C1 D1). pose proof (distinct_unique _ _ _ C2 D2).
    destruct (Nat.eq_dec (cnt V hit i j1) (cnt V hit i 0)); [exists j2|exists j1]; split; auto; congruence.
Qed.
Print Assumptions C63_runs.

(** ... or if no sample at all is in the box. *)
Theorem C63_empty : forall xmin xmax nx ymin ymax ny P nr np mc draws f w hit,
  proper_call xmin xmax nx ymin ymax ny P nr np mc draws ->
  shape2 f ny nx -> (forall w', w = Some w' -> shape2 w' ny nx) ->
  sampled_pixels (pixel_grid xmin xmax nx ymin ymax ny) P nr np draws hit ->
  (forall i j, (i < np)%nat -> (j < nr)%nat -> hit i j = []) ->
  exists out, user_remap xmin xmax nx ymin ymax ny P mc draws f w = Ok out.
Proof.
  intros xmin xmax nx ymin ymax ny P nr np mc draws f w hit HC Hf Hw Hh He. destruct (call_facts _ _ _ _ _ _ _ _ _ _ _ HC) as (EB & HV & HP & Hu).
  destruct HC as (_ & _ & Nx & Ny & _ & Hmc & _). unfold user_remap. rewrite EB. cbn [bind]. set (V := pixel_grid xmin xmax nx ymin ymax ny) in *.
  assert (C0 : forall i j, (i < np)%nat -> (j < nr)%nat -> cnt V hit i j = 0%nat).
  { intros i j Hi Hj. unfold cnt. rewrite He by auto. unfold touched. rewrite filter_none; [reflexivity|]. intros. reflexivity. }
  assert (N0 : (0 < np)%nat /\ (0 < nr)%nat) by (destruct HP as (? & ? & _); lia). destruct N0 as [N1 N2].
  rewrite (weights_uniform V P nr np mc draws hit HV Nx Ny HP Hmc Hu Hh) by (intros; rewrite !C0; auto). cbn [bind].
  destruct (remap_numbers_zero V P nr np mc draws hit Nx Ny HP Hmc Hh f w Hf Hw (cnt V hit 0 0)) as [E0 _]; [auto|]. rewrite E0. eexists. reflexivity.
Qed.
Print Assumptions C63_empty.

(** In all other cases they raise: if all cells hit the same positive number of
    pixels [remap] refuses its own index arrays ... *)
Theorem C63_equal_counts : forall xmin xmax nx ymin ymax ny P nr np mc draws f w hit k,
  proper_call xmin xmax nx ymin ymax ny P nr np mc draws ->
  shape2 f ny nx -> (forall w', w = Some w' -> shape2 w' ny nx) ->
  sampled_pixels (pixel_grid xmin xmax nx ymin ymax ny) P nr np draws hit ->
  (1 <= k)%nat -> (forall i j, (i < np)%nat -> (j < nr)%nat -> distinct (hit i j) k) ->
  user_remap xmin xmax nx ymin ymax ny P mc draws f w = Err IndexError.
Proof.
  intros xmin xmax nx ymin ymax ny P nr np mc draws f w hit k HC Hf Hw Hh Hk Hd. destruct (call_facts _ _ _ _ _ _ _ _ _ _ _ HC) as (EB & HV & HP & Hu).
  destruct HC as (_ & _ & Nx & Ny & _ & Hmc & _). unfold user_remap. rewrite EB. cbn [bind]. set (V := pixel_grid xmin xmax nx ymin ymax ny) in *.
  assert (C : forall i j, (i < np)%nat -> (j < nr)%nat -> cnt V hit i j = k).
  { intros i j Hi Hj. exact (distinct_unique _ _ _ (cnt_distinct V P nr np draws hit Hh i j Hi Hj) (Hd i j Hi Hj)). }
  assert (N0 : (0 < np)%nat /\ (0 < nr)%nat) by (destruct HP as (? & ? & _); lia). destruct N0 as [N1 N2].
  rewrite (weights_uniform V P nr np mc draws hit HV Nx Ny HP Hmc Hu Hh) by (intros; rewrite !C; auto). cbn [bind].
  apply (remap_numbers_pos V P nr np mc draws hit Nx Ny HP Hmc Hh f w Hf Hw). rewrite C; auto.
Qed.
Print Assumptions C63_equal_counts.

(** ... and if one row of cells hits equal numbers of pixels and some other cell
    a different number, [get_weights] cannot store its arrays. *)
Theorem C63_mixed_counts : forall xmin xmax nx ymin ymax ny P nr np mc draws f w hit k i0 i1 j1 k1,
  proper_call xmin xmax nx ymin ymax ny P nr np mc draws ->
  sampled_pixels (pixel_grid xmin xmax nx ymin ymax ny) P nr np draws hit ->
  (i0 < np)%nat -> (forall j, (j < nr)%nat -> distinct (hit i0 j) k) ->
  (i1 < np)%nat -> (j1 < nr)%nat -> distinct (hit i1 j1) k1 -> k1 <> k ->
  user_remap xmin xmax nx ymin ymax ny P mc draws f w = Err ValueError.
Proof.
  intros xmin xmax nx ymin ymax ny P nr np mc draws f w hit k i0 i1 j1 k1 HC Hh H0 Hrow H1 J1 D1 Hk. destruct (call_facts _ _ _ _ _ _ _ _ _ _ _ HC) as (EB & HV & HP & Hu).
  destruct HC as (_ & _ & Nx & Ny & _ & Hmc & _). unfold user_remap. rewrite EB. cbn [bind]. set (V := pixel_grid xmin xmax nx ymin ymax ny) in *.
  assert (C : forall j, (j < nr)%nat -> cnt V hit i0 j = k).
  { intros j Hj. exact (distinct_unique _ _ _ (cnt_distinct V P nr np draws hit Hh i0 j H0 Hj) (Hrow j Hj)). }
  pose proof (distinct_unique _ _ _ (cnt_distinct V P nr np draws hit Hh i1 j1 H1 J1) D1) as C1.
  assert (N0 : (0 < nr)%nat) by lia.
  rewrite (weights_mixed V P nr np mc draws hit HV Nx Ny HP Hmc Hu Hh i0 i1 j1); auto; [intros; rewrite !C; auto|]. rewrite C; auto. congruence.
Qed.
Print Assumptions C63_mixed_counts.

(** No value exactly for cells without a sample in the box. *)
Theorem C63_nan : forall xmin xmax nx ymin ymax ny P nr np mc draws f out i j,
  proper_call xmin xmax nx ymin ymax ny P nr np mc draws -> shape2 f ny nx ->
  user_remap xmin xmax nx ymin ymax ny P mc draws f None = Ok out -> (i < np)%nat -> (j < nr)%nat ->
  (nth j (nth i out []) None = None <->
   forall p, In p (drawn_points (sectors_of P) draws i j) -> ~ in_closed (pixel_grid xmin xmax nx ymin ymax ny) p).
Proof.
  intros xmin xmax nx ymin ymax ny P nr np mc draws f out i j HC Hf E Hi Hj. destruct (call_facts _ _ _ _ _ _ _ _ _ _ _ HC) as (_ & HV & _ & _).
  assert (HC' := HC). destruct HC' as (_ & _ & Nx & Ny & _). set (V := pixel_grid xmin xmax nx ymin ymax ny) in *.
  set (hit := fun i j => hits_of V (drawn_points (sectors_of P) draws i j)).
  assert (Hh : forall i j, hits V (drawn_points (sectors_of P) draws i j) (hit i j)) by (intros; now apply hits_of_ok).
  destruct (C63_value _ _ _ _ _ _ _ _ _ _ _ _ None hit out HC Hf ltac:(discriminate) (fun i j _ _ => Hh i j) E) as [_ H].
  destruct (H i Hi) as [_ H']. rewrite H' by auto. cbn [mean_of]. specialize (Hh i j). revert Hh. generalize (hit i j) as h0. generalize (drawn_points (sectors_of P) draws i j) as l0. clear -HV.
  intros l0 h0 Hh. induction Hh as [|p q l h Hq Hh IH|p l h Ho Hh IH].
  - split; [intros _ r []|reflexivity].
  - split; [discriminate|]. intros Hn. exfalso. apply (Hn p (or_introl eq_refl)). now apply (counted_closed V p q).
  - rewrite IH. split; [intros Hn r [<-|Hr]; auto|intros Hn r Hr; apply Hn; now right].
Qed.
Print Assumptions C63_nan.

(** Values stay within the range of the map (weights, if any, not negative). *)
Theorem C63_bounds : forall xmin xmax nx ymin ymax ny P nr np mc draws f w out lo hi,
  proper_call xmin xmax nx ymin ymax ny P nr np mc draws ->
  shape2 f ny nx -> (forall w', w = Some w' -> shape2 w' ny nx /\ forall i j, (i < ny)%nat -> (j < nx)%nat -> 0 <= cell w' i j) ->
  (forall i j, (i < ny)%nat -> (j < nx)%nat -> lo <= cell f i j <= hi) ->
  user_remap xmin xmax nx ymin ymax ny P mc draws f w = Ok out ->
  forall i j v, (i < np)%nat -> (j < nr)%nat -> nth j (nth i out []) None = Some v -> lo <= v <= hi.
Proof.
  intros xmin xmax nx ymin ymax ny P nr np mc draws f w out lo hi HC Hf Hw Hb E i j v Hi Hj Ev. destruct (call_facts _ _ _ _ _ _ _ _ _ _ _ HC) as (_ & HV & _ & _).
  assert (HC' := HC). destruct HC' as (_ & _ & Nx & Ny & _). set (V := pixel_grid xmin xmax nx ymin ymax ny) in *.
  set (hit := fun i j => hits_of V (drawn_points (sectors_of P) draws i j)).
  assert (Hh : forall i j, hits V (drawn_points (sectors_of P) draws i j) (hit i j)) by (intros; now apply hits_of_ok).
  destruct (C63_value _ _ _ _ _ _ _ _ _ _ _ f w hit out HC Hf (fun w' e => proj1 (Hw w' e)) (fun i j _ _ => Hh i j) E) as [_ H].
  destruct (H i Hi) as [_ H']. rewrite H' in Ev by auto. apply (mean_between f w (hit i j)); auto.
  - intros q Hq. destruct (hits_in_grid V _ _ q (Hh i j) Hq). apply Hb; auto.
  - intros w' Ew q Hq. destruct (hits_in_grid V _ _ q (Hh i j) Hq). apply (Hw w' Ew); auto.
Qed.
Print Assumptions C63_bounds.

(** A constant map gives the constant in every cell with a sample in the box. *)
Theorem C63_constant : forall xmin xmax nx ymin ymax ny P nr np mc draws k out,
  proper_call xmin xmax nx ymin ymax ny P nr np mc draws ->
  user_remap xmin xmax nx ymin ymax ny P mc draws (repeat (repeat k nx) ny) None = Ok out ->
  forall i j p, (i < np)%nat -> (j < nr)%nat -> In p (drawn_points (sectors_of P) draws i j) ->
  in_closed (pixel_grid xmin xmax nx ymin ymax ny) p -> nth j (nth i out []) None = Some k.
Proof.
  intros xmin xmax nx ymin ymax ny P nr np mc draws k out HC E i j p Hi Hj Hp Hin.
  assert (S : shape2 (repeat (repeat k nx) ny) ny nx) by (rewrite <- tab2_const; apply tab2_shape).
  assert (B : forall a b, (a < ny)%nat -> (b < nx)%nat -> k <= cell (repeat (repeat k nx) ny) a b <= k).
  { intros a b Ha Hb. rewrite <- tab2_const, tab2_cell by auto. lra. }
  destruct (nth j (nth i out []) None) as [v|] eqn:Ev.
  - f_equal. assert (k <= v <= k); [|lra].
    exact (C63_bounds _ _ _ _ _ _ _ _ _ _ _ _ None _ k k HC S ltac:(discriminate) B E i j v Hi Hj Ev).
  - exfalso. apply (C63_nan _ _ _ _ _ _ _ _ _ _ _ _ out i j HC S E Hi Hj) with (p := p) in Ev; auto.
Qed.
Print Assumptions C63_constant.

(** A reversed box, a small number of samples, a map of the wrong shape, a call
    of [remap] before [get_weights]. *)
Theorem C63_reversed : forall xmin xmax nx ymin ymax ny P nr np mc draws f w,
  xmax < xmin -> (1 <= nx)%nat -> (1 <= ny)%nat -> made P nr np -> (1 < mc)%Z -> fair (Z.to_nat mc) draws ->
  user_remap xmin xmax nx ymin ymax ny P mc draws f w = Err ValueError.
Proof.
  intros xmin xmax nx ymin ymax ny P nr np mc draws f w X Nx Ny HP Hmc Hd. unfold user_remap. rewrite setup_box_ok by auto. cbn [bind].
  destruct (made_good _ _ _ HP) as [(Nr & Np & [S1 S2] & Lr & Lp & Lc & Hr) _].
  assert (E : get_weights (the_box (Pixels xmin ((xmax - xmin) / INR nx) nx ymin ((ymax - ymin) / INR ny) ny)) P draws mc = Err ValueError); [|now rewrite E].
  unfold get_weights. replace (1 <? mc)%Z with true by (symmetry; apply Z.ltb_lt; lia). cbn [py_assert]. rewrite S1, (S2 0%nat) by lia.
  replace (seq 0 np) with (0%nat :: seq 1 (np - 1)) by (replace np with (S (np - 1)) by lia; cbn [Nat.sub seq]; now rewrite Nat.sub_0_r).
  replace (seq 0 nr) with (0%nat :: seq 1 (nr - 1)) by (replace nr with (S (nr - 1)) by lia; cbn [Nat.sub seq]; now rewrite Nat.sub_0_r).
  rewrite (mapM_first _ _ _ _ _ ValueError); [reflexivity|]. apply mapM_first. unfold cell_weights.
  rewrite !(py_get_ok _ (mc_redges P) _ 0), !(py_get_ok _ (mc_pedges P) _ 0) by lia. cbn [bind].
  unfold randoms_polar, random_sample. replace (mc <? 0)%Z with false by (symmetry; apply Z.ltb_ge; lia). cbn [bind fst snd].
  rewrite !(py_get_ok _ (mc_center P) _ 0) by lia. cbn [bind the_box xedges yedges px0 phx pnx py0 phy pny].
  rewrite !(py_get_ok _ (tab _ _) 0 0) by (rewrite tab_length; lia). rewrite !(py_get_last _ (tab _ _) 0) by (rewrite tab_length; lia). cbn [bind].
  change (Z.to_nat 0) with 0%nat. rewrite !tab_length. cbn [Nat.sub]. rewrite !Nat.sub_0_r, !tab_nth by lia. unfold hist_edges at 1, outer_edges at 1.
  pose proof (INR_pos nx Nx) as Px. rewrite Rlt_bool_true; [reflexivity|]. cbn [INR].
  replace (xmin + INR nx * ((xmax - xmin) / INR nx)) with xmax by (field; lra). lra.
Qed.
Print Assumptions C63_reversed.

Theorem C63_few_samples : forall xmin xmax nx ymin ymax ny P mc draws f w, (1 <= nx)%nat -> (1 <= ny)%nat -> (mc <= 1)%Z ->
  user_remap xmin xmax nx ymin ymax ny P mc draws f w = Err AssertionError.
Proof.
  intros. unfold user_remap. rewrite setup_box_ok by auto. cbn [bind]. unfold get_weights. replace (1 <? mc)%Z with false by (symmetry; apply Z.ltb_ge; lia). reflexivity.
Qed.
Print Assumptions C63_few_samples.

Theorem C63_wrong_shape : forall xmin xmax nx ymin ymax ny P W f w n m, (1 <= nx)%nat -> (1 <= ny)%nat -> (1 <= n)%nat ->
  shape2 f n m -> (n <> ny \/ m <> nx) ->
  mc_remap (the_box (pixel_grid xmin xmax nx ymin ymax ny)) P W f w = Err AssertionError.
Proof.
  intros xmin xmax nx ymin ymax ny P W f w n m Nx Ny Nn [L S] Hd. unfold mc_remap, same_shape. cbn [the_box x2d pixel_grid pnx pny].
  rewrite tab2_length. unfold tab2. rewrite tab_nth, tab_length by lia. rewrite L, S by lia.
  destruct Hd as [Hd|Hd]; [rewrite (proj2 (Nat.eqb_neq _ _) Hd); reflexivity|]. rewrite (proj2 (Nat.eqb_neq m nx) Hd), andb_false_r. reflexivity.
Qed.
Print Assumptions C63_wrong_shape.

Theorem C63_unset : forall xmin xmax nx ymin ymax ny P nr np f, (1 <= nx)%nat -> (1 <= ny)%nat -> made P nr np -> shape2 f ny nx ->
  mc_remap (the_box (pixel_grid xmin xmax nx ymin ymax ny)) P None f None = Err TypeError.
Proof.
  intros xmin xmax nx ymin ymax ny P nr np f Nx Ny HP Hf. destruct (made_good _ _ _ HP) as [(Nr & Np & [S1 S2] & _) _].
  unfold mc_remap. rewrite (same_shape_ok f _ ny nx) by (auto; apply tab2_shape). cbn [py_assert]. rewrite S1, (S2 0%nat) by lia.
  replace (seq 0 np) with (0%nat :: seq 1 (np - 1)) by (replace np with (S (np - 1)) by lia; cbn [Nat.sub seq]; now rewrite Nat.sub_0_r).
  apply mapM_first.
  replace (seq 0 nr) with (0%nat :: seq 1 (nr - 1)) by (replace nr with (S (nr - 1)) by lia; cbn [Nat.sub seq]; now rewrite Nat.sub_0_r).
  apply mapM_first. reflexivity.
Qed.
Print Assumptions C63_unset.

(** A polar grid inside a box of a single pixel: [remap] raises, whatever is
    drawn and whatever the map. *)
Theorem C63_refuted : forall mc draws f, (1 < mc)%Z -> fair (Z.to_nat mc) draws -> shape2 f 1 1 ->
  exists P, setup_polar_lin 0 1 2 4 0 (2 * PI) [0; 0] 0 = Ok P /\
  user_remap (-2) 2 1 (-2) 2 1 P mc draws f None = Err IndexError.
Proof.
  intros mc draws f Hmc Hd Hf. pose proof PI_RGT_0 as Pi.
  exists (lin_polar 0 1 2 4 0 (2 * PI) 0 0 0). assert (ES : setup_polar_lin 0 1 2 4 0 (2 * PI) [0; 0] 0 = Ok (lin_polar 0 1 2 4 0 (2 * PI) 0 0 0)).
  { apply (setup_lin_ok 0 1 2 4 0 (2 * PI) 0 0 0); try lra; lia. }
  split; [exact ES|]. set (P := lin_polar 0 1 2 4 0 (2 * PI) 0 0 0) in *. set (V := pixel_grid (-2) 2 1 (-2) 2 1).
  assert (HM : made P 2 4) by (left; exists 0, 1, 0, (2 * PI), [0; 0], 0; exact ES).
  assert (HC : proper_call (-2) 2 1 (-2) 2 1 P 2 4 mc draws) by (do 6 (split; [lra || lia || auto|]); exact Hd).
  assert (HV : good_pixels V) by (apply good_grid; lra || lia).
  apply (C63_equal_counts _ _ _ _ _ _ P 2 4 mc draws f None (fun i j => hits_of V (drawn_points (sectors_of P) draws i j)) 1 HC Hf); try lia; try discriminate.
  - intros i j _ _. apply hits_of_ok; auto.
  - intros i j Hi Hj. destruct (C63_samples P 2 4 _ draws i j HM Hd Hi Hj) as [L In].
    assert (Hh : hits V (drawn_points (sectors_of P) draws i j) (hits_of V (drawn_points (sectors_of P) draws i j))) by (apply hits_of_ok; auto).
    revert Hh L In. generalize (hits_of V (drawn_points (sectors_of P) draws i j)) as h. generalize (drawn_points (sectors_of P) draws i j) as l. intros l h Hh L In.
    assert (A : forall q, List.In q h -> q = (0%nat, 0%nat)).
    { intros q Hq. destruct (hits_in_grid V _ _ q Hh Hq) as [A B]. cbn in A, B. destruct q as [a b]; cbn in *. f_equal; lia. }
    assert (N : length h = length l).
    { clear A L. induction Hh as [|p q l h Hq Hh IH|p l h Ho Hh IH]; auto.
      - cbn. f_equal. apply IH. intros r Hr. apply In. now right.
      - exfalso. apply Ho. destruct (In p (or_introl eq_refl)) as (r & t & Hr & _ & ->).
        assert (R : 0 <= r <= 1).
        { cbn [P lin_polar sectors_of se_r mc_redges] in Hr. rewrite !tab_nth in Hr by lia. replace (j + 1)%nat with (S j) in Hr by lia. rewrite (S_INR j) in Hr.
          assert (0 <= INR j <= 1) by (destruct j as [|[|j]]; cbn; lra || lia). replace (INR 2) with 2 in Hr by (cbn; ring).
          lra. }
        pose proof (COS_bound (t + 0)). pose proof (SIN_bound (t + 0)).
        unfold in_closed, V, pixel_grid. cbn [fst snd px0 phx pnx py0 phy pny sectors_of se_c0 se_c1 se_shift P lin_polar mc_center mc_shift nth_center nth]. unfold nth_center. cbn [lin_polar mc_center nth INR].
        repeat split; nra. }
    exists [(0%nat, 0%nat)]. split; [constructor; [intros []|constructor]|]. split; [reflexivity|]. intros q. split.
    + intros [<-|[]]. destruct h as [|q0 h]; [cbn in N; lia|]. left. apply A. now left.
    + intros Hq. left. symmetry. now apply A.
Qed.
Print Assumptions C63_refuted.

(** ** The worked case: one pixel, two rings by two half discs, two samples per
    cell; of the inner cells one sample is in the box, of the outer cells none. *)
Definition case_draws (i j : nat) : list R * list R :=
  match j with O => ([/ 4; / 4], [0; / 2]) | _ => ([0; 0], [0; / 2]) end.
Definition case_polar : mc_polar := lin_polar 0 2 2 2 0 (2 * PI) 0 0 0.
Definition case_box : pixels := pixel_grid (- (3 / 4)) (3 / 4) 1 (- / 4) (/ 4) 1.
Definition case_hit (i j : nat) : list (nat * nat) := match j with O => [(0, 0)%nat] | _ => [] end.

Lemma case_in : forall x y, - (3 / 4) <= x < 3 / 4 -> - / 4 <= y < / 4 -> counted_in case_box (x, y) (0, 0)%nat.
Proof.
  intros x y Hx Hy. unfold counted_in, case_box, pixel_grid, in_bin. cbn [px0 phx pnx py0 phy pny fst snd]. cbn [INR].
  repeat split; try lia; try lra; left; lra.
Qed.

Lemma case_out : forall x y, (3 / 4 < x \/ x < - (3 / 4) \/ / 4 < y \/ y < - / 4) -> ~ in_closed case_box (x, y).
Proof. intros x y H. unfold in_closed, case_box, pixel_grid. cbn [px0 phx pnx py0 phy pny fst snd INR]. lra. Qed.

Lemma two_points : forall a b c d a' b' c' d' : R, a = a' -> b = b' -> c = c' -> d = d' -> [(a, b); (c, d)] = [(a', b'); (c', d')].
Proof. intros. now subst. Qed.

Lemma case_points : forall i j, (i < 2)%nat -> (j < 2)%nat ->
  drawn_points (sectors_of case_polar) case_draws i j =
  let s := match i with O => 1 | _ => -1 end in let r := match j with O => / 2 | _ => 1 end in [(s * r, 0); (0, s * r)].
Proof.
  intros i j Hi Hj.
  assert (D1 : drawn_r 0 1 (/ 4) = / 2).
  { unfold drawn_r. replace ((1 * 1 - 0 * 0) * / 4 + 0 * 0) with (/ 2 * / 2) by field. apply sqrt_square. lra. }
  assert (D2 : drawn_r 1 2 0 = 1).
  { unfold drawn_r. replace ((2 * 2 - 1 * 1) * 0 + 1 * 1) with (1 * 1) by ring. apply sqrt_square. lra. }
  assert (E0 : 0 + 0 * ((2 - 0) / 2) = 0) by field. assert (E1 : 0 + 1 * ((2 - 0) / 2) = 1) by field. assert (E2 : 0 + 2 * ((2 - 0) / 2) = 2) by field.
  assert (F0 : 0 + 0 * ((2 * PI - 0) / 2) = 0) by field. assert (F1 : 0 + 1 * ((2 * PI - 0) / 2) = PI) by field. assert (F2 : 0 + 2 * ((2 * PI - 0) / 2) = 2 * PI) by field.
  assert (N2 : INR 2 = 2) by (cbn; ring). assert (N1 : INR 1 = 1) by reflexivity. assert (N0 : INR 0 = 0) by reflexivity.
  unfold drawn_points, drawn_point, case_polar, lin_polar, sectors_of, nth_center. cbn [se_r se_p se_c0 se_c1 se_shift mc_redges mc_pedges mc_center mc_shift nth].
  rewrite !tab_nth by lia. 
  destruct i as [|[|i]]; [| |lia]; destruct j as [|[|j]]; try lia; cbn [case_draws fst snd combine map Nat.add];
    rewrite ?N0, ?N1, ?N2, ?E0, ?E1, ?E2, ?F0, ?F1, ?F2, ?D1, ?D2; cbv zeta.
  - replace ((PI - 0) * 0 + 0 + 0) with 0 by ring. replace ((PI - 0) * / 2 + 0 + 0) with (PI / 2) by field. rewrite cos_0, sin_0, cos_PI2, sin_PI2. apply two_points; ring.
  - replace ((PI - 0) * 0 + 0 + 0) with 0 by ring. replace ((PI - 0) * / 2 + 0 + 0) with (PI / 2) by field. rewrite cos_0, sin_0, cos_PI2, sin_PI2. apply two_points; ring.
  - replace ((2 * PI - PI) * 0 + PI + 0) with PI by ring. replace ((2 * PI - PI) * / 2 + PI + 0) with (3 * (PI / 2)) by field.
    rewrite cos_PI, sin_PI, cos_3PI2, sin_3PI2. apply two_points; ring.
  - replace ((2 * PI - PI) * 0 + PI + 0) with PI by ring. replace ((2 * PI - PI) * / 2 + PI + 0) with (3 * (PI / 2)) by field.
    rewrite cos_PI, sin_PI, cos_3PI2, sin_3PI2. apply two_points; ring.
Qed.

Example C63_case : proper_call (- (3 / 4)) (3 / 4) 1 (- / 4) (/ 4) 1 case_polar 2 2 2 case_draws /\
  sampled_pixels case_box case_polar 2 2 case_draws case_hit /\
  (forall f, shape2 f 1 1 -> exists out, user_remap (- (3 / 4)) (3 / 4) 1 (- / 4) (/ 4) 1 case_polar 2 case_draws f None = Ok out) /\
  exists m, user_mask (- (3 / 4)) (3 / 4) 1 (- / 4) (/ 4) 1 case_polar 2 case_draws = Ok m.
Proof.
  pose proof PI_RGT_0 as Pi.
  assert (HC : proper_call (- (3 / 4)) (3 / 4) 1 (- / 4) (/ 4) 1 case_polar 2 2 2 case_draws).
  { split; [lra|]. split; [lra|]. split; [lia|]. split; [lia|]. split.
    - left. exists 0, 2, 0, (2 * PI), [0; 0], 0. apply (setup_lin_ok 0 2 2 2 0 (2 * PI) 0 0 0); try lra; lia.
    - split; [lia|]. intros i j. destruct j; cbn; repeat split; intros; repeat match goal with H : _ \/ _ |- _ => destruct H | H : False |- _ => destruct H end; subst; lra. }
  assert (HS : sampled_pixels case_box case_polar 2 2 case_draws case_hit).
  { intros i j Hi Hj. rewrite case_points by auto. destruct i as [|[|i]]; [| |lia]; destruct j as [|[|j]]; try lia; cbn [case_hit]; cbv zeta.
    - apply hits_in; [apply case_in; lra|]. apply hits_out; [apply case_out; lra|constructor].
    - apply hits_out; [apply case_out; lra|]. apply hits_out; [apply case_out; lra|constructor].
    - apply hits_in; [apply case_in; lra|]. apply hits_out; [apply case_out; lra|constructor].
    - apply hits_out; [apply case_out; lra|]. apply hits_out; [apply case_out; lra|constructor]. }
  assert (HD : forall i, (i < 2)%nat -> exists j1 j2 k1 k2, (j1 < 2)%nat /\ (j2 < 2)%nat /\ distinct (case_hit i j1) k1 /\ distinct (case_hit i j2) k2 /\ k1 <> k2).
  { intros i Hi. exists 0%nat, 1%nat, 1%nat, 0%nat. split; [lia|]. split; [lia|]. split; [|split; [|lia]].
    - exists [(0, 0)%nat]. split; [constructor; [intros []|constructor]|]. split; [reflexivity|]. intros q. reflexivity.
    - exists []. split; [constructor|]. split; [reflexivity|]. intros q. reflexivity. }
  assert (HR : forall f, shape2 f 1 1 -> exists out, user_remap (- (3 / 4)) (3 / 4) 1 (- / 4) (/ 4) 1 case_polar 2 case_draws f None = Ok out).
  { intros f Hf. apply (C63_runs _ _ _ _ _ _ _ 2 2 2 case_draws f None case_hit HC Hf); auto. discriminate. }
  split; [exact HC|]. split; [exact HS|]. split; [exact HR|].
  destruct (HR (map (map (fun _ => 1)) (x2d (the_box case_box)))) as [out E]; [cbn [the_box x2d]; rewrite tab2_map; apply tab2_shape|].
  unfold user_remap in E. unfold user_mask. destruct (call_facts _ _ _ _ _ _ _ _ _ _ _ HC) as (EB & _). rewrite EB in E |- *. cbn [bind] in E |- *.
  destruct (get_weights _ _ _ _) as [W|e]; [|discriminate]. cbn [bind] in *. unfold mc_mask. fold case_box in E |- *. rewrite E. cbn [bind]. eexists. reflexivity.
Qed.

(** ** C67: logarithmic radial bins *)

(** Without [addzero]: [numr] bins whose edges are in constant ratio. *)
Theorem C67_edges : forall rmin rmax nr np pmin pmax c0 c1 s,
  0 < rmin < rmax -> 0 <= pmin < pmax -> pmax <= 2 * PI -> (1 <= nr)%nat -> (2 <= np)%nat ->
  exists P, setup_polar_log rmin rmax (Z.of_nat nr) (Z.of_nat np) pmin pmax [c0; c1] s false = Ok P /\
  length (mc_redges P) = S nr /\ nth 0 (mc_redges P) 0 = rmin /\ nth nr (mc_redges P) 0 = rmax /\
  (forall i, (i <= nr)%nat -> nth i (mc_redges P) 0 = geometric rmin rmax nr i) /\
  (forall i j, (i < j <= nr)%nat -> 0 < nth i (mc_redges P) 0 < nth j (mc_redges P) 0) /\
  uniform_edges (mc_pedges P) pmin ((pmax - pmin) / INR np) np /\ shape2 (mc_r2d P) np nr.
Proof.
  intros rmin rmax nr np pmin pmax c0 c1 s Hr Hp Hp' Nr Np. exists (log_polar rmin rmax nr np pmin pmax c0 c1 s false).
  split; [now apply setup_log_ok|]. cbn [log_polar mc_redges mc_pedges mc_r2d log_edges]. pose proof (INR_pos nr Nr) as Pn.
  split; [apply tab_length|]. rewrite !tab_nth by lia.
  split; [unfold geometric; cbn [INR]; unfold Rdiv at 2; rewrite Rmult_0_l, Rpower_O; [ring|apply Rdiv_lt_0_compat; lra]|].
  split; [unfold geometric; replace (INR nr / INR nr) with 1 by (field; lra); rewrite Rpower_1 by (apply Rdiv_lt_0_compat; lra); field; lra|].
  split; [intros i Hi; now rewrite tab_nth by lia|]. split.
  - intros i j Hij. rewrite !tab_nth by lia. split; [apply geometric_pos; lra|].
    assert (M : forall d, (1 <= d)%nat -> geometric rmin rmax nr i < geometric rmin rmax nr (i + d)).
    { induction d as [|d IH]; [lia|]. intros _. destruct d as [|d]; [replace (i + 1)%nat with (S i) by lia; now apply geometric_incr|].
      apply Rlt_trans with (geometric rmin rmax nr (i + S d)); [apply IH; lia|]. replace (i + S (S d))%nat with (S (i + S d)) by lia. now apply geometric_incr. }
    replace j with (i + (j - i))%nat by lia. apply M. lia.
  - split; [split; [apply tab_length|intros i Hi; now rewrite tab_nth by lia]|apply tab2_shape].
Qed.
Print Assumptions C67_edges.

(** With [addzero] and two or more bins: a bin from zero to [rmin], then
    [numr]-1 bins from [rmin] to [rmax]. *)
Theorem C67_addzero : forall rmin rmax nr np pmin pmax c0 c1 s,
  0 < rmin < rmax -> 0 <= pmin < pmax -> pmax <= 2 * PI -> (2 <= nr)%nat -> (2 <= np)%nat ->
  exists P, setup_polar_log rmin rmax (Z.of_nat nr) (Z.of_nat np) pmin pmax [c0; c1] s true = Ok P /\
  length (mc_redges P) = S nr /\ nth 0 (mc_redges P) 0 = 0 /\ nth 1 (mc_redges P) 0 = rmin /\ nth nr (mc_redges P) 0 = rmax /\
  (forall i, (i < nr)%nat -> nth (S i) (mc_redges P) 0 = geometric rmin rmax (nr - 1) i) /\
  (forall i j, (i < j <= nr)%nat -> 0 <= nth i (mc_redges P) 0 < nth j (mc_redges P) 0).
Proof.
  intros rmin rmax nr np pmin pmax c0 c1 s Hr Hp Hp' Nr Np. exists (log_polar rmin rmax nr np pmin pmax c0 c1 s true).
  split; [apply setup_log_ok; auto; lia|]. cbn [log_polar mc_redges]. split; [apply log_edges_length; lia|].
  assert (G : forall i, (i < nr)%nat -> nth (S i) (log_edges rmin rmax nr true) 0 = geometric rmin rmax (nr - 1) i).
  { intros i Hi. unfold log_edges. cbn [nth]. destruct nr as [|[|n]]; [lia|lia|]. now rewrite tab_nth by lia. }
  split; [reflexivity|]. rewrite G by lia. pose proof (INR_pos (nr - 1) ltac:(lia)) as Pn.
  split; [unfold geometric; cbn [INR]; unfold Rdiv at 2; rewrite Rmult_0_l, Rpower_O; [ring|apply Rdiv_lt_0_compat; lra]|].
  split; [|split; [exact G|]].
  { replace nr with (S (nr - 1)) at 1 by lia. rewrite G by lia.
    unfold geometric; replace (INR (nr - 1) / INR (nr - 1)) with 1 by (field; lra); rewrite Rpower_1 by (apply Rdiv_lt_0_compat; lra); field; lra. }
  assert (M : forall i d, (1 <= d)%nat -> geometric rmin rmax (nr - 1) i < geometric rmin rmax (nr - 1) (i + d)).
  { intros i. induction d as [|d IH]; [lia|]. intros _. destruct d as [|d]; [replace (i + 1)%nat with (S i) by lia; apply geometric_incr; auto; lia|].
    apply Rlt_trans with (geometric rmin rmax (nr - 1) (i + S d)); [apply IH; lia|]. replace (i + S (S d))%nat with (S (i + S d)) by lia. apply geometric_incr; auto; lia. }
  intros i j Hij. destruct j as [|j]; [lia|]. rewrite G by lia. destruct i as [|i].
  - change (nth 0 (log_edges rmin rmax nr true) 0) with 0. split; [lra|]. apply geometric_pos. lra.
  - rewrite G by lia. split; [left; apply geometric_pos; lra|]. replace j with (i + (j - i))%nat by lia. apply M. lia.
Qed.
Print Assumptions C67_addzero.

(** With [addzero] (the default) and one bin, [rmax] is ignored: the bin ends at
    [rmin]. *)
Theorem C67_one_bin : forall rmin rmax np pmin pmax c0 c1 s,
  0 < rmin < rmax -> 0 <= pmin < pmax -> pmax <= 2 * PI -> (2 <= np)%nat ->
  exists P, setup_polar_log rmin rmax 1 (Z.of_nat np) pmin pmax [c0; c1] s true = Ok P /\ mc_redges P = [0; rmin].
Proof.
  intros. exists (log_polar rmin rmax 1 np pmin pmax c0 c1 s true). split; [|reflexivity]. apply (setup_log_ok rmin rmax 1); auto; lia.
Qed.
Print Assumptions C67_one_bin.

Theorem C67_refuted : exists P, setup_polar_log 1 8 1 2 0 1 [0; 0] 0 true = Ok P /\ nth 1 (mc_redges P) 0 = 1 /\ nth 1 (mc_redges P) 0 <> 8.
Proof.
  pose proof PI2_1. destruct (C67_one_bin 1 8 2 0 1 0 0 0) as (P & E & R); try lra; try lia. exists P. split; [exact E|]. rewrite R. cbn [nth]. lra.
Qed.
Print Assumptions C67_refuted.

Example C67_case : nth 2 (log_edges 1 8 3 false) 0 = 4 /\ nth 1 (log_edges 1 8 3 false) 0 = 2.
Proof.
  unfold log_edges. rewrite !tab_nth by lia. unfold geometric. replace (8 / 1) with (2 ^ 3) by field. replace (INR 3) with 3 by (cbn; ring).
  assert (E : forall k, Rpower (2 ^ 3) (k / 3) = Rpower 2 k).
  { intros k. rewrite <- (Rpower_pow 3 2) by lra. rewrite Rpower_mult. f_equal. replace (INR 3) with 3 by (cbn; ring). field. }
  rewrite !E. rewrite !Rpower_pow by lra. split; cbn; ring.
Qed.

(** ** C68: mask of the cells inside the box *)

(** Whenever the mask can be computed it is 1 for the cells with at least one
    sample in the box and 0 for the others. *)
Theorem C68_mask : forall xmin xmax nx ymin ymax ny P nr np mc draws m,
  proper_call xmin xmax nx ymin ymax ny P nr np mc draws ->
  user_mask xmin xmax nx ymin ymax ny P mc draws = Ok m ->
  forall i j, (i < np)%nat -> (j < nr)%nat ->
  ((exists p, In p (drawn_points (sectors_of P) draws i j) /\ in_closed (pixel_grid xmin xmax nx ymin ymax ny) p) -> cell m i j = 1) /\
  ((forall p, In p (drawn_points (sectors_of P) draws i j) -> ~ in_closed (pixel_grid xmin xmax nx ymin ymax ny) p) -> cell m i j = 0).
Proof.
  intros xmin xmax nx ymin ymax ny P nr np mc draws m HC E i j Hi Hj. destruct (call_facts _ _ _ _ _ _ _ _ _ _ _ HC) as (EB & HV & _ & _).
  assert (HC' := HC). destruct HC' as (_ & _ & Nx & Ny & _). set (V := pixel_grid xmin xmax nx ymin ymax ny) in *.
  unfold user_mask in E. rewrite EB in E. cbn [bind] in E. destruct (get_weights (the_box V) P draws mc) as [W|e] eqn:EW; [|discriminate]. cbn [bind] in E.
  unfold mc_mask in E. assert (O : map (map (fun _ : R => 1)) (x2d (the_box V)) = repeat (repeat 1 nx) ny).
  { cbn [the_box x2d]. rewrite tab2_map. apply tab2_const. }
  rewrite O in E. destruct (mc_remap (the_box V) P (Some W) (repeat (repeat 1 nx) ny) None) as [out|e] eqn:ER; [|discriminate]. cbn [bind] in E. injection E as <-.
  assert (EU : user_remap xmin xmax nx ymin ymax ny P mc draws (repeat (repeat 1 nx) ny) None = Ok out).
  { unfold user_remap. rewrite EB. cbn [bind]. rewrite EW. cbn [bind]. exact ER. }
  assert (S : shape2 (repeat (repeat 1 nx) ny) ny nx) by (rewrite <- tab2_const; apply tab2_shape).
  assert (C : cell (map (map (fun v : option R => match v with Some x => x | None => 0 end)) out) i j = match nth j (nth i out []) None with Some x => x | None => 0 end).
  { unfold cell. change (@nil R) with (map (fun v : option R => match v with Some x => x | None => 0 end) []). rewrite map_nth.
    exact (map_nth (fun v : option R => match v with Some x => x | None => 0 end) (nth i out []) None j). }
  rewrite C. split.
  - intros (p & Hp & Hin). rewrite (C63_constant _ _ _ _ _ _ _ _ _ _ _ 1 out HC EU i j p); auto.
  - intros Hn. rewrite (proj2 (C63_nan _ _ _ _ _ _ _ _ _ _ _ _ out i j HC S EU Hi Hj) Hn). reflexivity.
Qed.
Print Assumptions C68_mask.

(** A cell that is partly outside the box can be marked as inside: the inner
    cells of the worked case, half of whose samples are outside. *)
Theorem C68_refuted : exists m, user_mask (- (3 / 4)) (3 / 4) 1 (- / 4) (/ 4) 1 case_polar 2 case_draws = Ok m /\
  forall i, (i < 2)%nat -> cell m i 0 = 1 /\
    exists p, in_sector (sectors_of case_polar) i 0 p /\ ~ in_closed case_box p.
Proof.
  destruct C63_case as (HC & _ & _ & m & E). exists m. split; [exact E|]. intros i Hi.
  assert (M : made case_polar 2 2) by apply HC. assert (F : fair 2 case_draws) by apply HC.
  assert (I0 : (0 < 2)%nat) by lia. destruct (C63_samples case_polar 2 2 2 case_draws i 0 M F Hi I0) as [_ Hs].
  pose proof (case_points i 0 Hi I0) as Hp. split.
  - apply (C68_mask _ _ _ _ _ _ _ _ _ _ _ m HC E i 0%nat Hi I0). fold case_box. rewrite Hp. cbv zeta. eexists. split; [now left|].
    apply (counted_closed case_box _ (0, 0)%nat); [apply good_grid; lra || lia|]. apply case_in; destruct i; lra.
  - rewrite Hp in Hs. cbv zeta in Hs. eexists. split; [apply Hs; right; now left|]. apply case_out. destruct i; lra.
Qed.
Print Assumptions C68_refuted.
