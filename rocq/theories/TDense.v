(** * Dense remapping of a pixel map to rings: [densegrid.Box2Ring] *)

From Coq Require Import Reals ZArith List Bool Lia Lra Psatz.
From Flocq Require Import Core.Raux.
From Verif Require Import Base BaseP SpecGrid SpecRemap SpecDense MGrids MDense PRemap2 PRadial PDense.
Import ListNotations.
Open Scope R_scope.

(** A client that sets up the box and the rings (refinement factors [rr], [rp]). *)
Definition dense_setup (xmin xmax : R) (nx : nat) (ymin ymax : R) (ny : nat) (G : rings) (rr rp : Z)
  : res (box_grid * polar_grid) :=
  B <- setup_box xmin xmax (Z.of_nat nx) ymin ymax (Z.of_nat ny) ;;
  P <- setup_polar (rg_rmin G) (rg_rmax G) (Z.of_nat (rg_nr G)) (Z.of_nat (rg_np G)) (rg_pmin G) (rg_pmax G)
         [rg_c0 G; rg_c1 G] rr rp (rg_shift G) ;;
  Ok (B, P).

Lemma dense_setup_ok : forall xmin xmax nx ymin ymax ny G rr rp, (1 <= nx)%nat -> (1 <= ny)%nat ->
  good_rings G -> (2 <= rg_nr G)%nat -> (2 <= rg_np G)%nat -> (1 <= rr)%nat -> (1 <= rp)%nat ->
  dense_setup xmin xmax nx ymin ymax ny G (Z.of_nat rr) (Z.of_nat rp)
  = Ok (the_box (pixel_grid xmin xmax nx ymin ymax ny), the_rings G rr rp).
Proof.
  intros. unfold dense_setup. rewrite setup_box_ok by auto. cbn [bind].
  pose proof (setup_polar_ok G rr rp ltac:(auto) ltac:(auto) ltac:(auto) ltac:(auto) ltac:(auto)) as E. unfold setup_rings in E.
  rewrite E. reflexivity.
Qed.

(** ** C58: what a polar cell holds *)

(** Every polar cell is the ring-area-weighted mean of the map values at its
    [b*b] sample points, points outside the box counting as zero. *)
Theorem C58_area_mean : forall xmin xmax nx ymin ymax ny G f,
  xmin < xmax -> ymin < ymax -> (1 <= nx)%nat -> (1 <= ny)%nat -> shape2 f ny nx ->
  good_rings G -> (2 <= rg_nr G)%nat -> (2 <= rg_np G)%nat -> (1 <= rg_b G)%nat ->
  exists B P g, dense_setup xmin xmax nx ymin ymax ny G (Z.of_nat (rg_b G)) (Z.of_nat (rg_b G)) = Ok (B, P) /\
    remap B P f None = Ok g /\ length g = rg_np G /\
    forall i j, (i < rg_np G)%nat -> (j < rg_nr G)%nat -> length (nth i g []) = rg_nr G /\
      exists v, sampled (pixel_grid xmin xmax nx ymin ymax ny) G f i j v /\
        nth j (nth i g []) None = Some (block_mean (rg_b G) (ring_weight G j) v).
Proof.
  intros xmin xmax nx ymin ymax ny G f Hx Hy Nx Ny Hf HG Hr Hp Hb.
  pose proof (good_grid xmin xmax nx ymin ymax ny Hx Hy Nx Ny) as HP.
  do 3 eexists. split; [now apply dense_setup_ok|]. split; [now apply remap0_ok|].
  split; [apply tab2_length|]. intros i j Hi Hj. unfold tab2. rewrite tab_nth by auto. split; [apply tab_length|].
  eexists. split; [|refine (eq_trans (tab_nth num _ _ _ _ Hj) _); cbv beta; reflexivity]. intros a c Ha Hc. cbv beta. now apply read_value'.
Qed.
Print Assumptions C58_area_mean.

(** The sampled angles: the middles of the refined sectors turned by the shift,
    brought back into [0, 2pi]. *)
Theorem C58_angles : forall G rr rp, good_rings G -> (2 <= rg_nr G)%nat -> (2 <= rg_np G)%nat -> (1 <= rr)%nat -> (1 <= rp)%nat ->
  - (2 * PI) <= rg_shift G <= 2 * PI ->
  exists P, setup_rings G (Z.of_nat rr) (Z.of_nat rp) = Ok P /\ length (rebin_p2d P) = (rg_np G * rp)%nat /\
  forall i j, (i < rg_np G * rp)%nat -> (j < rg_nr G * rr)%nat ->
    0 <= nth j (nth i (rebin_p2d P) []) 0 <= 2 * PI /\
    exists k, nth j (nth i (rebin_p2d P) []) 0 =
      rg_pmin G + (INR i + / 2) * ((rg_pmax G - rg_pmin G) / INR (rg_np G * rp)) + rg_shift G + 2 * PI * IZR k.
Proof.
  intros G rr rp HG Hr Hp Hrr Hrp HS. eexists. split; [now apply setup_polar_ok|]. split; [apply tab2_length|].
  intros i j Hi Hj. cbn [rebin_p2d the_rings]. rewrite (tab2_nth R) by auto.
  set (p := rg_pmin G + _).
  assert (Rp : 0 <= p <= 2 * PI).
  { destruct HG as (H1 & H2 & H3 & _). assert (PN := INR_pos (rg_np G * rp) ltac:(lia)).
    assert (0 <= INR i) by apply pos_INR. assert (INR i + 1 <= INR (rg_np G * rp)) by (rewrite <- S_INR; apply le_INR; lia).
    set (n := INR (rg_np G * rp)) in *. set (t := (INR i + / 2) / n).
    assert (0 <= t <= 1). { unfold t. split; [apply Rle_mult_inv_pos; lra|]. apply Rmult_le_reg_r with n; auto. unfold Rdiv. rewrite Rmult_assoc, Rinv_l; lra. }
    replace p with (rg_pmin G + t * (rg_pmax G - rg_pmin G)) by (unfold p, t; field; lra). nra. }
  clearbody p. unfold shift_phi. destruct (Req_bool_spec (rg_shift G) 0) as [E|E].
  { split; [auto|]. exists 0%Z. rewrite E. ring. }
  destruct (Rlt_bool_spec (2 * PI) (p + rg_shift G)).
  - rewrite Rlt_bool_false by lra. split; [lra|]. exists (-1)%Z. ring.
  - destruct (Rlt_bool_spec (p + rg_shift G) 0); (split; [lra|]).
    + exists 1%Z. ring.
    + exists 0%Z. ring.
Qed.
Print Assumptions C58_angles.

(** The sampled values are determined by the map. *)
Theorem C58_samples_unique : forall xmin xmax nx ymin ymax ny G f i j u v,
  xmin < xmax -> ymin < ymax -> (1 <= nx)%nat -> (1 <= ny)%nat ->
  sampled (pixel_grid xmin xmax nx ymin ymax ny) G f i j u -> sampled (pixel_grid xmin xmax nx ymin ymax ny) G f i j v ->
  forall a c, (a < rg_b G)%nat -> (c < rg_b G)%nat -> u a c = v a c.
Proof.
  intros xmin xmax nx ymin ymax ny G f i j u v Hx Hy Nx Ny Hu Hv a c Ha Hc.
  apply (value_unique (pixel_grid xmin xmax nx ymin ymax ny) f (sample_x G i j a c) (sample_y G i j a c)); auto using good_grid.
Qed.
Print Assumptions C58_samples_unique.

(** Range: inside the box the cell value lies within the range of the map; in
    general zero has to be added to that range. *)
Theorem C58_range : forall xmin xmax nx ymin ymax ny G f lo hi,
  xmin < xmax -> ymin < ymax -> (1 <= nx)%nat -> (1 <= ny)%nat -> shape2 f ny nx ->
  good_rings G -> (2 <= rg_nr G)%nat -> (2 <= rg_np G)%nat -> (1 <= rg_b G)%nat ->
  (forall p q, (p < ny)%nat -> (q < nx)%nat -> lo <= cell f p q <= hi) ->
  exists B P g, dense_setup xmin xmax nx ymin ymax ny G (Z.of_nat (rg_b G)) (Z.of_nat (rg_b G)) = Ok (B, P) /\
    remap B P f None = Ok g /\
    forall i j, (i < rg_np G)%nat -> (j < rg_nr G)%nat ->
      exists x, nth j (nth i g []) None = Some x /\ Rmin 0 lo <= x <= Rmax 0 hi /\
        ((forall a c, (a < rg_b G)%nat -> (c < rg_b G)%nat -> sample_in (pixel_grid xmin xmax nx ymin ymax ny) G i j a c) ->
         lo <= x <= hi).
Proof.
  intros xmin xmax nx ymin ymax ny G f lo hi Hx Hy Nx Ny Hf HG Hr Hp Hb Hlh.
  destruct (C58_area_mean xmin xmax nx ymin ymax ny G f) as (B & P & g & E1 & E2 & _ & H); auto.
  exists B, P, g. split; [auto|]. split; [auto|]. intros i j Hi Hj. destruct (H i j Hi Hj) as (_ & v & Hv & E).
  exists (block_mean (rg_b G) (ring_weight G j) v). split; [auto|]. split.
  - apply block_between; auto. intros a c Ha Hc. destruct (Hv a c Ha Hc) as [(p & q & (A & B' & _) & ->)|[_ ->]].
    + specialize (Hlh q p B' A). pose proof (Rmin_r 0 lo). pose proof (Rmax_r 0 hi). lra.
    + split; [apply Rmin_l|apply Rmax_l].
  - intros Hin. apply block_between; auto. intros a c Ha Hc. destruct (Hv a c Ha Hc) as [(p & q & (A & B' & _) & ->)|[N _]].
    + now apply Hlh.
    + exfalso. apply N. now apply Hin.
Qed.
Print Assumptions C58_range.

(** The bound mask is the fraction of the cell's samples (by ring area) that
    fall in the box: one exactly when all do, zero exactly when none does; and
    a constant map is reproduced times that fraction. *)
Theorem C58_mask : forall xmin xmax nx ymin ymax ny G k,
  xmin < xmax -> ymin < ymax -> (1 <= nx)%nat -> (1 <= ny)%nat ->
  good_rings G -> (2 <= rg_nr G)%nat -> (2 <= rg_np G)%nat -> (1 <= rg_b G)%nat ->
  exists B P m g, dense_setup xmin xmax nx ymin ymax ny G (Z.of_nat (rg_b G)) (Z.of_nat (rg_b G)) = Ok (B, P) /\
    get_mask_in_bound B P = Ok m /\ remap B P (repeat (repeat k nx) ny) None = Ok g /\
    shape2 m (rg_np G) (rg_nr G) /\
    forall i j, (i < rg_np G)%nat -> (j < rg_nr G)%nat ->
      0 <= cell m i j <= 1 /\
      nth j (nth i g []) None = Some (k * cell m i j) /\
      (cell m i j = 1 <-> forall a c, (a < rg_b G)%nat -> (c < rg_b G)%nat -> sample_in (pixel_grid xmin xmax nx ymin ymax ny) G i j a c) /\
      (cell m i j = 0 <-> forall a c, (a < rg_b G)%nat -> (c < rg_b G)%nat -> ~ sample_in (pixel_grid xmin xmax nx ymin ymax ny) G i j a c).
Proof.
  intros xmin xmax nx ymin ymax ny G k Hx Hy Nx Ny HG Hr Hp Hb.
  pose proof (good_grid xmin xmax nx ymin ymax ny Hx Hy Nx Ny) as HP.
  assert (Hk : repeat (repeat k nx) ny = tab2 ny nx (fun _ _ => k)).
  { symmetry. apply tab2_const. }
  assert (Sk : shape2 (repeat (repeat k nx) ny) ny nx) by (rewrite Hk; apply tab2_shape).
  do 4 eexists. split; [now apply dense_setup_ok|]. split; [now apply mask_ok|]. split; [now apply remap0_ok|].
  split; [apply tab2_shape|]. intros i j Hi Hj. rewrite tab2_cell by auto. change num with (option R). rewrite tab2_nth by auto.
  set (Px := pixel_grid xmin xmax nx ymin ymax ny) in *.
  set (v := fun a c => read_at Px (ones ny nx) (sample_x G i j a c) (sample_y G i j a c)).
  assert (R1 : forall a c, sample_in Px G i j a c -> v a c = 1) by (intros a c; apply (read_ones Px); auto).
  assert (R0 : forall a c, ~ sample_in Px G i j a c -> v a c = 0) by (intros a c; apply (read_ones Px); auto).
  assert (Rv : forall a c, 0 <= v a c <= 1).
  { intros a c. destruct (in_box_dec Px (sample_x G i j a c) (sample_y G i j a c)) as [D|D]; [rewrite R1|rewrite R0]; auto; lra. }
  change (pny Px) with ny. change (pnx Px) with nx. fold v. split; [apply block_between; auto|]. split; [|split].
  - f_equal. rewrite <- block_scal. apply block_ext. intros a c Ha Hc. rewrite Hk.
    destruct (in_box_dec Px (sample_x G i j a c) (sample_y G i j a c)) as [D|D].
    + rewrite R1 by auto. rewrite Rmult_1_r. destruct (in_box_pixel _ _ _ HP D) as (p & q & Hin).
      apply read_value; auto. left. exists p, q. split; auto. destruct Hin as (A & B & _). now rewrite tab2_cell.
    + rewrite R0 by auto. rewrite Rmult_0_r. apply read_value; auto. now right.
  - split; intros H.
    + intros a c Ha Hc. destruct (in_box_dec Px (sample_x G i j a c) (sample_y G i j a c)) as [D|D]; [auto|]. exfalso.
      assert (block_mean (rg_b G) (ring_weight G j) v < 1); [|lra].
      apply (block_lt G j HG Hb v 1 a c); auto; [intros; apply Rv|]. rewrite R0 by auto. lra.
    + rewrite (block_ext _ _ _ (fun _ _ => 1)); [now apply block_const|]. intros. auto.
  - split; intros H.
    + intros a c Ha Hc D. 
      assert (block_mean (rg_b G) (ring_weight G j) (fun a c => -1 * v a c) < 0).
      { apply (block_lt G j HG Hb _ 0 a c); auto; [intros a' c' _ _; specialize (Rv a' c'); lra|]. rewrite R1 by auto. lra. }
      rewrite block_scal in H0. lra.
    + rewrite (block_ext _ _ _ (fun _ _ => 0)); [now apply block_const|]. intros. auto.
Qed.
Print Assumptions C58_mask.

(** When the outer circle stays inside the box, a constant map is reproduced in
    every cell. *)
Theorem C58_constant : forall xmin xmax nx ymin ymax ny G k,
  (1 <= nx)%nat -> (1 <= ny)%nat ->
  good_rings G -> (2 <= rg_nr G)%nat -> (2 <= rg_np G)%nat -> (1 <= rg_b G)%nat ->
  xmin <= rg_c0 G - rg_rmax G -> rg_c0 G + rg_rmax G <= xmax ->
  ymin <= rg_c1 G - rg_rmax G -> rg_c1 G + rg_rmax G <= ymax ->
  exists B P, dense_setup xmin xmax nx ymin ymax ny G (Z.of_nat (rg_b G)) (Z.of_nat (rg_b G)) = Ok (B, P) /\
    get_mask_in_bound B P = Ok (repeat (repeat 1 (rg_nr G)) (rg_np G)) /\
    remap B P (repeat (repeat k nx) ny) None = Ok (repeat (repeat (Some k) (rg_nr G)) (rg_np G)).
Proof.
  intros xmin xmax nx ymin ymax ny G k Nx Ny HG Hr Hp Hb X1 X2 Y1 Y2.
  assert (HG' := HG). destruct HG' as ((R0 & R1) & _).
  assert (Hx : xmin < xmax) by lra. assert (Hy : ymin < ymax) by lra.
  assert (In1 : forall i j a c, (j < rg_nr G)%nat -> (c < rg_b G)%nat -> sample_in (pixel_grid xmin xmax nx ymin ymax ny) G i j a c).
  { intros i j a c Hj Hc. apply in_box_grid; auto. unfold sample_x, sample_y.
    assert (B : 0 <= sample_r G j c < rg_rmax G).
    { pose proof (fine_step G HG Hb) as Hd. unfold sample_r. set (h := _ / _) in *.
      assert (Eh : rg_rmax G - rg_rmin G = INR (rg_nr G * rg_b G) * h) by (unfold h; field; apply not_0_INR; nia).
      assert (Q : INR (S (j * rg_b G + c)) <= INR (rg_nr G * rg_b G)) by (apply le_INR; nia). rewrite S_INR in Q.
      pose proof (pos_INR (j * rg_b G + c)). set (q := INR (j * rg_b G + c)) in *.
      assert (0 <= (q + / 2) * h) by (apply Rmult_le_pos; lra).
      assert ((q + / 2) * h < INR (rg_nr G * rg_b G) * h) by (apply Rmult_lt_compat_r; lra). lra. }
    set (r := sample_r G j c) in *. set (p := sample_phi G i a).
    pose proof (COS_bound p). pose proof (SIN_bound p). nra. }
  destruct (C58_mask xmin xmax nx ymin ymax ny G k) as (B & P & m & g & E1 & E2 & E3 & [L1 L2] & H); auto.
  exists B, P. split; [auto|]. split.
  - rewrite E2. f_equal. rewrite (tab2_of_shape m (rg_np G) (rg_nr G)) by (split; auto).
    rewrite (tab2_ext _ _ _ _ (fun _ _ => 1)).
    + apply tab2_const.
    + intros i j Hi Hj. apply (H i j Hi Hj). auto.
  - rewrite E3. f_equal. destruct (C58_area_mean xmin xmax nx ymin ymax ny G (repeat (repeat k nx) ny)) as (B' & P' & g' & F1 & F2 & F3 & F4); auto.
    { split; [apply repeat_length|]. intros q Hq. rewrite repeat_length in Hq. rewrite nth_repeat_lt by auto. apply repeat_length. }
    rewrite E1 in F1. apply Ok_inj in F1. injection F1 as <- <-. rewrite E3 in F2. apply Ok_inj in F2. subst g'.
    apply (list_ext _ _ _ []); [now rewrite repeat_length|]. intros i Hi. rewrite F3 in Hi. rewrite nth_repeat_lt by auto.
    apply (list_ext _ _ _ None).
    + rewrite repeat_length. apply (F4 i 0%nat); auto. lia.
    + intros j Hj. pose proof (proj1 (F4 i 0%nat Hi ltac:(lia))) as Lg. unfold num in *. rewrite Lg in Hj. rewrite nth_repeat_lt by auto.
      destruct (H i j Hi Hj) as (_ & E & H1 & _). rewrite E. f_equal. rewrite (proj2 H1) by auto. ring.
Qed.
Print Assumptions C58_constant.

(** With pixel weights: weighted mean over the samples, not a number exactly
    when the sampled weights add up to zero. *)
Theorem C58_weighted : forall xmin xmax nx ymin ymax ny G f w,
  xmin < xmax -> ymin < ymax -> (1 <= nx)%nat -> (1 <= ny)%nat -> shape2 f ny nx -> shape2 w ny nx ->
  good_rings G -> (2 <= rg_nr G)%nat -> (2 <= rg_np G)%nat -> (1 <= rg_b G)%nat ->
  exists B P g, dense_setup xmin xmax nx ymin ymax ny G (Z.of_nat (rg_b G)) (Z.of_nat (rg_b G)) = Ok (B, P) /\
    remap B P f (Some w) = Ok g /\ length g = rg_np G /\
    forall i j, (i < rg_np G)%nat -> (j < rg_nr G)%nat ->
      exists v u, sampled (pixel_grid xmin xmax nx ymin ymax ny) G f i j v /\ sampled (pixel_grid xmin xmax nx ymin ymax ny) G w i j u /\
        let total := sum_upto (rg_b G) (fun a => sum_upto (rg_b G) (fun c => ring_weight G j c * u a c)) in
        (total = 0 -> nth j (nth i g []) None = None) /\
        (total <> 0 -> nth j (nth i g []) None =
           Some (sum_upto (rg_b G) (fun a => sum_upto (rg_b G) (fun c => ring_weight G j c * u a c * v a c)) / total)).
Proof.
  intros xmin xmax nx ymin ymax ny G f w Hx Hy Nx Ny Hf Hw HG Hr Hp Hb.
  pose proof (good_grid xmin xmax nx ymin ymax ny Hx Hy Nx Ny) as HP.
  set (Px := pixel_grid xmin xmax nx ymin ymax ny) in *.
  assert (Efw : zip2 Rmult f w = tab2 ny nx (fun p q => cell f p q * cell w p q)).
  { rewrite (tab2_of_shape f ny nx Hf) at 1. rewrite (tab2_of_shape w ny nx Hw) at 1. apply tab2_zip2. }
  assert (Sfw : shape2 (zip2 Rmult f w) ny nx) by (rewrite Efw; apply tab2_shape).
  do 3 eexists. split; [now apply dense_setup_ok|]. fold Px. split.
  { unfold remap. rewrite !remap0_ok by auto. cbn [bind]. reflexivity. }
  rewrite tab2_zip2. split; [apply tab2_length|]. intros i j Hi Hj. change num with (option R). rewrite tab2_nth by auto.
  exists (fun a c => read_at Px f (sample_x G i j a c) (sample_y G i j a c)), (fun a c => read_at Px w (sample_x G i j a c) (sample_y G i j a c)).
  split; [intros a c _ _; now apply read_value'|]. split; [intros a c _ _; now apply read_value'|]. cbv zeta.
  assert (Pr : forall x y, read_at Px (zip2 Rmult f w) x y = read_at Px w x y * read_at Px f x y).
  { intros x y. apply read_value; auto. destruct (in_box_dec Px x y) as [D|D].
    - left. destruct (in_box_pixel _ _ _ HP D) as (p & q & Hin). exists p, q. split; auto.
      rewrite (read_value Px w x y (cell w q p)), (read_value Px f x y (cell f q p)); auto; try (left; exists p, q; auto).
      rewrite Efw. destruct Hin as (A & B & _). rewrite tab2_cell by auto. ring.
    - right. split; auto. rewrite (read_value Px w x y 0); auto; [ring|]. now right. }
  pose proof (block_weight_pos G j HG Hb) as W. cbn [ndiv]. unfold block_mean.
  set (sw := sum_upto _ (fun _ => _)) in *.
  rewrite (sum_ext _ (fun a => sum_upto (rg_b G) (fun c => ring_weight G j c * read_at Px (zip2 Rmult f w) _ _))
     (fun a => sum_upto (rg_b G) (fun c => ring_weight G j c * read_at Px w (sample_x G i j a c) (sample_y G i j a c) * read_at Px f (sample_x G i j a c) (sample_y G i j a c)))).
  2: { intros. apply sum_ext. intros. rewrite Pr. ring. }
  set (tot := sum_upto _ (fun a => sum_upto _ (fun c => ring_weight G j c * read_at Px w _ _))).
  split; intros T.
  - rewrite T. unfold Rdiv at 2. rewrite Rmult_0_l. apply fdiv_0.
  - rewrite fdiv_ok; [f_equal; field; lra|]. intros Z. apply T. apply (Rmult_eq_reg_r (/ sw)); [|apply Rinv_neq_0_compat; lra].
    unfold Rdiv in Z. lra.
Qed.
Print Assumptions C58_weighted.

(** User expectation: the two refinement factors are independent.  Violated:
    with different factors every remap raises ValueError... *)
Theorem C58_unequal_refinement : forall xmin xmax nx ymin ymax ny G f w rr rp,
  xmin < xmax -> ymin < ymax -> (1 <= nx)%nat -> (1 <= ny)%nat -> shape2 f ny nx ->
  (forall u, w = Some u -> shape2 u ny nx) ->
  good_rings G -> (2 <= rg_nr G)%nat -> (2 <= rg_np G)%nat -> (1 <= rr)%nat -> (1 <= rp)%nat -> rr <> rp ->
  exists B P, dense_setup xmin xmax nx ymin ymax ny G (Z.of_nat rr) (Z.of_nat rp) = Ok (B, P) /\
    remap B P f w = Err ValueError /\ get_mask_in_bound B P = Err ValueError.
Proof.
  intros xmin xmax nx ymin ymax ny G f w rr rp Hx Hy Nx Ny Hf Hw HG Hr Hp Hrr Hrp Hne.
  pose proof (good_grid xmin xmax nx ymin ymax ny Hx Hy Nx Ny) as HP.
  do 2 eexists. split; [now apply dense_setup_ok|]. split.
  - unfold remap. destruct w as [w|]; [|now apply remap_unequal].
    rewrite remap_unequal; auto. now apply zip2_shape; auto.
  - unfold get_mask_in_bound, remap. cbn [x2d the_box]. rewrite tab2_map. rewrite remap_unequal; auto. apply tab2_shape.
Qed.
Print Assumptions C58_unequal_refinement.

(** ... and a grid with a single radial or angular bin cannot be set up. *)
Theorem C58_single_bin : forall xmin xmax nx ymin ymax ny G rr rp, (1 <= nx)%nat -> (1 <= ny)%nat ->
  good_rings G -> (rg_nr G = 1 \/ rg_np G = 1)%nat ->
  dense_setup xmin xmax nx ymin ymax ny G rr rp = Err IndexError.
Proof.
  intros. unfold dense_setup. rewrite setup_box_ok by auto. cbn [bind].
  pose proof (setup_polar_single G rr rp ltac:(auto) ltac:(auto)) as E. unfold setup_rings in E. rewrite E. reflexivity.
Qed.
Print Assumptions C58_single_bin.

(** Non-vacuity. *)
Definition demo_rings (rmax : R) (b : nat) : rings := Rings 0 rmax 2 0 (2 * PI) 2 0 0 b 0.

Lemma demo_good : forall rmax b, 0 < rmax -> good_rings (demo_rings rmax b).
Proof.
  intros. unfold good_rings, demo_rings. cbn. pose proof PI_RGT_0. repeat split; try lra; lia.
Qed.

Example C58_setup_example : let G := demo_rings (/ 2) 2 in
  good_rings G /\ (2 <= rg_nr G)%nat /\ (2 <= rg_np G)%nat /\ (1 <= rg_b G)%nat /\
  -1 <= rg_c0 G - rg_rmax G /\ rg_c0 G + rg_rmax G <= 1 /\
  shape2 [[1; 2; 3]; [4; 5; 6]] 2 3.
Proof.
  cbv zeta. split; [apply demo_good; lra|]. cbn. repeat split; try lra; try lia.
  intros [|[|i]] Hi; cbn in *; auto; lia.
Qed.

Example C58_single_example : good_rings (Rings 0 1 1 0 1 3 0 0 2 0) /\ (2 <= rg_nr (demo_rings 1 2))%nat /\ 1%nat <> 2%nat.
Proof.
  split; [|cbn; lia]. unfold good_rings. cbn. pose proof PI2_3_2. pose proof PI_RGT_0. repeat split; try lra; lia.
Qed.
