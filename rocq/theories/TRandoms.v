(** * Theorems about random samples: C47-C53 *)

From Coq Require Import Reals ZArith List Bool Lra Lia Psatz Permutation.
From Flocq Require Import Core.Raux.
From Coquelicot Require Import Coquelicot.
From Verif Require Import Base BaseP SpecGrid SpecRandoms MGrids MRandoms PGrids PRadial PPolarCoords PHealpixCentre PRandoms.
Import ListNotations.
Open Scope R_scope.

(** ** C47, C48: Cartesian randoms *)

Theorem C47_always_raises : forall u size xmin xmax,
  randoms_1d u size xmin xmax = Err (if (size <? 0)%Z then ValueError else NameError).
Proof. intros. unfold randoms_1d, random_sample. now destruct (size <? 0)%Z. Qed.
Print Assumptions C47_always_raises.

Theorem C47_refuted : exists size xmin xmax, (0 <= size)%Z /\ xmin < xmax /\
  forall u, draws size u -> randoms_1d u size xmin xmax = Err NameError.
Proof. exists 3%Z, 0, 1. repeat split; try lia; try lra. Qed.
Print Assumptions C47_refuted.

Theorem C48_2d_always_raises : forall ux uy size mins maxs,
  randoms_2d ux uy size mins maxs =
  Err (match mins with [] => IndexError | _ => if (size <? 0)%Z then ValueError else NameError end).
Proof.
  intros ux uy size mins maxs. unfold randoms_2d. destruct mins as [|m mins]; [reflexivity|].
  rewrite (py_get_ok _ (m :: mins) 0 0) by (cbn [length]; lia). cbn [bind]. rewrite C47_always_raises. reflexivity.
Qed.
Print Assumptions C48_2d_always_raises.

Theorem C48_3d_always_raises : forall ux uy uz size mins maxs,
  randoms_3d ux uy uz size mins maxs =
  Err (match mins with [] => IndexError | _ => if (size <? 0)%Z then ValueError else NameError end).
Proof.
  intros ux uy uz size mins maxs. unfold randoms_3d. destruct mins as [|m mins]; [reflexivity|].
  rewrite (py_get_ok _ (m :: mins) 0 0) by (cbn [length]; lia). cbn [bind]. rewrite C47_always_raises. reflexivity.
Qed.
Print Assumptions C48_3d_always_raises.

Theorem C48_refuted : exists size mins maxs, (0 <= size)%Z /\ length mins = 3%nat /\ length maxs = 3%nat /\
  (forall i, (i < 3)%nat -> nth i mins 0 < nth i maxs 0) /\
  forall ux uy uz, randoms_2d ux uy size mins maxs = Err NameError /\ randoms_3d ux uy uz size mins maxs = Err NameError.
Proof.
  exists 3%Z, [0; 0; 0], [1; 1; 1]. repeat split; try lia.
  intros [|[|[|i]]] Hi; cbn; try lra. lia.
Qed.
Print Assumptions C48_refuted.

(** ** C49: polar and spherical randoms *)

Definition polar_r (a b u : R) : R := sqrt ((b * b - a * a) * u + a * a).

Lemma polar_r_spec : forall a b u, 0 <= a <= b -> 0 <= u < 1 ->
  a <= polar_r a b u <= b /\ polar_r a b u * polar_r a b u = (b * b - a * a) * u + a * a.
Proof.
  intros a b u Hab Hu. unfold polar_r.
  assert (D : 0 <= b * b - a * a) by nra.
  assert (A : a * a <= (b * b - a * a) * u + a * a <= b * b) by (pose proof (combo (a * a) (b * b) u); lra).
  assert (E : sqrt ((b * b - a * a) * u + a * a) * sqrt ((b * b - a * a) * u + a * a) = (b * b - a * a) * u + a * a) by (apply sqrt_sqrt; pose proof (Rle_0_sqr a); unfold Rsqr in *; lra).
  split; [|exact E]. set (s := sqrt _) in *. assert (0 <= s) by apply sqrt_pos. split; nra.
Qed.

Theorem C49_polar : forall ur uphi size r_min r_max phi_min phi_max,
  draws size ur -> draws size uphi -> 0 <= r_min <= r_max -> phi_min <= phi_max ->
  exists r phi, randoms_polar ur uphi size r_min r_max phi_min phi_max = Ok (map Some r, phi) /\
    length r = length ur /\ length phi = length ur /\
    forall i, (i < length ur)%nat ->
      r_min <= nth i r 0 <= r_max /\ phi_min <= nth i phi 0 <= phi_max /\
      ring_area r_min (nth i r 0) = nth i ur 0 * ring_area r_min r_max /\
      nth i phi 0 - phi_min = nth i uphi 0 * (phi_max - phi_min).
Proof.
  intros ur uphi size a b p q Dr Dp Hab Hpq. unfold randoms_polar. rewrite !random_sample_ok by assumption. cbn [bind].
  assert (HL : length uphi = length ur) by (destruct Dr, Dp; lia).
  exists (map (polar_r a b) ur), (map (fun u => (q - p) * u + p) uphi). split; [|split; [|split]].
  - f_equal. f_equal. rewrite map_map. apply map_ext_in. intros u Hu. apply np_sqrt_ok.
    destruct Dr as [_ Dr]. specialize (Dr u Hu). nra.
  - apply map_length.
  - now rewrite map_length.
  - intros i Hi. rewrite (nth_map_lt _ _ _ _ i 0 0) by exact Hi. rewrite (nth_map_lt _ _ _ _ i 0 0) by lia.
    pose proof (draws_nth size ur i Dr Hi) as Ui. pose proof (draws_nth size uphi i Dp ltac:(lia)) as Vi.
    destruct (polar_r_spec a b _ Hab Ui) as [B E]. split; [exact B|]. split; [split; nra|]. split; [|ring].
    unfold ring_area. rewrite E. ring.
Qed.
Print Assumptions C49_polar.

(** Cumulative distribution: a point is inside radius [rho] exactly for the
    draws up to the area fraction inside [rho]. *)
Theorem C49_polar_cdf : forall ur uphi size r_min r_max phi_min phi_max rho,
  draws size ur -> draws size uphi -> 0 <= r_min < r_max -> phi_min <= phi_max -> r_min <= rho <= r_max ->
  exists r phi, randoms_polar ur uphi size r_min r_max phi_min phi_max = Ok (map Some r, phi) /\
    forall i, (i < length ur)%nat ->
      (nth i r 0 <= rho <-> nth i ur 0 <= ring_area r_min rho / ring_area r_min r_max).
Proof.
  intros ur uphi size a b p q rho Dr Dp Hab Hpq Hrho.
  destruct (C49_polar ur uphi size a b p q Dr Dp ltac:(lra) Hpq) as (r & phi & E & L1 & L2 & V).
  exists r, phi. split; [exact E|]. intros i Hi. destruct (V i Hi) as (B & _ & A & _).
  pose proof PI_pos. assert (P : 0 < ring_area a b) by (unfold ring_area; apply Rmult_lt_0_compat; nra).
  assert (K : nth i ur 0 = ring_area a (nth i r 0) / ring_area a b) by (rewrite A; field; lra).
  rewrite K. unfold Rdiv. pose proof (Rinv_0_lt_compat _ P) as Ip. unfold ring_area at 1 3. set (s := nth i r 0) in *.
  split; intros H0.
  - apply Rmult_le_compat_r; [lra|]. apply Rmult_le_compat_l; [lra|]. nra.
  - apply Rmult_le_reg_r in H0; [|exact Ip]. apply Rmult_le_reg_l in H0; [|lra]. nra.
Qed.
Print Assumptions C49_polar_cdf.

(** Whatever the limits, no NaN comes out and the radii lie between the
    absolute values of the limits. *)
Theorem C49_polar_finite : forall ur uphi size r_min r_max phi_min phi_max,
  draws size ur -> draws size uphi ->
  exists r phi, randoms_polar ur uphi size r_min r_max phi_min phi_max = Ok (map Some r, phi) /\
    forall v, In v r -> Rmin (Rabs r_min) (Rabs r_max) <= v <= Rmax (Rabs r_min) (Rabs r_max).
Proof.
  intros ur uphi size a b p q Dr Dp. unfold randoms_polar. rewrite !random_sample_ok by assumption. cbn [bind].
  exists (map (polar_r a b) ur), (map (fun u => (q - p) * u + p) uphi).
  assert (NN : forall u, 0 <= u < 1 -> 0 <= (b * b - a * a) * u + a * a).
  { intros u Hu. pose proof (Rle_0_sqr a). pose proof (Rle_0_sqr b). unfold Rsqr in *. nra. }
  split.
  - f_equal. f_equal. rewrite map_map. apply map_ext_in. intros u Hu. apply np_sqrt_ok. apply NN. now apply Dr.
  - intros v Hv. apply in_map_iff in Hv. destruct Hv as (u & <- & Hu).
    destruct Dr as [_ Dr]. specialize (Dr u Hu). unfold polar_r.
    set (s := sqrt _). assert (S0 : 0 <= s) by apply sqrt_pos.
    assert (E : s * s = (b * b - a * a) * u + a * a) by (apply sqrt_sqrt; now apply NN).
    pose proof (Rabs_pos a) as A0. pose proof (Rabs_pos b) as B0.
    assert (EA : Rabs a * Rabs a = a * a) by (rewrite <- Rabs_mult; apply Rabs_pos_eq; pose proof (Rle_0_sqr a); unfold Rsqr in *; lra).
    assert (EB : Rabs b * Rabs b = b * b) by (rewrite <- Rabs_mult; apply Rabs_pos_eq; pose proof (Rle_0_sqr b); unfold Rsqr in *; lra).
    rewrite <- EA, <- EB in E. unfold Rmin, Rmax. destruct (Rle_dec (Rabs a) (Rabs b)) as [L|L].
    + assert (L2 : Rabs a * Rabs a <= Rabs b * Rabs b) by nra.
      pose proof (combo _ _ u L2 ltac:(lra)). split; nra.
    + assert (L2 : Rabs b * Rabs b <= Rabs a * Rabs a) by nra.
      pose proof (combo _ _ (1 - u) L2 ltac:(lra)). split; nra.
Qed.
Print Assumptions C49_polar_finite.

Lemma sphere_arg : forall a b u, 0 <= a <= b -> 0 <= u < 1 ->
  a * a * a <= (b * b * b - a * a * a) * u + a * a * a <= b * b * b.
Proof.
  intros a b u Hab Hu. assert (a * a * a <= b * b * b).
  { assert (a * a <= b * b) by nra. apply Rmult_le_compat; nra. }
  split; nra.
Qed.

Theorem C49_sphere_r : forall ur size r_min r_max, draws size ur -> 0 <= r_min <= r_max ->
  exists r, randoms_sphere_r ur size r_min r_max = Ok (map Some r) /\ length r = length ur /\
    forall i, (i < length ur)%nat -> r_min <= nth i r 0 <= r_max /\
      shell_volume r_min (nth i r 0) = nth i ur 0 * shell_volume r_min r_max.
Proof.
  intros ur size a b Dr Hab. unfold randoms_sphere_r. rewrite random_sample_ok by assumption. cbn [bind].
  exists (map (fun u => cbrt ((b * b * b - a * a * a) * u + a * a * a)) ur).
  assert (P0 : 0 <= a * a * a) by (apply Rmult_le_pos; [nra|lra]).
  split; [|split].
  - f_equal. rewrite map_map. apply map_ext_in. intros u Hu. apply cube_root_ok.
    destruct Dr as [_ Dr]. pose proof (sphere_arg a b u Hab (Dr u Hu)). lra.
  - apply map_length.
  - intros i Hi. rewrite (nth_map_lt _ _ _ _ i 0 0) by exact Hi.
    pose proof (draws_nth size ur i Dr Hi) as Ui. set (u := nth i ur 0) in *.
    pose proof (sphere_arg a b u Hab Ui) as B. set (x := (b * b * b - a * a * a) * u + a * a * a) in *.
    pose proof (cbrt_cube x ltac:(lra)) as C. pose proof (cbrt_nonneg x) as N. split; [split|].
    + apply cube_le; [lra|exact N|]. rewrite C. lra.
    + apply cube_le; [exact N|lra|]. rewrite C. lra.
    + unfold shell_volume. rewrite C. unfold x. ring.
Qed.
Print Assumptions C49_sphere_r.

Lemma cos_combo : forall c d u, -1 <= c <= 1 -> -1 <= d <= 1 -> 0 <= u < 1 -> -1 <= c - (c - d) * u <= 1.
Proof. intros c d u Hc Hd Hu. split; nra. Qed.

(** No NaN for any limits; for ordered limits in [[0, pi]] the points stay
    inside and the solid angle of the zone above equals the draw. *)
Theorem C49_usphere : forall uphi utheta size phi_min phi_max theta_min theta_max,
  draws size uphi -> draws size utheta -> phi_min <= phi_max ->
  0 <= theta_min <= theta_max -> theta_max <= PI ->
  exists phi theta, randoms_usphere uphi utheta size phi_min phi_max theta_min theta_max = Ok (phi, map Some theta) /\
    length phi = length uphi /\ length theta = length uphi /\
    forall i, (i < length uphi)%nat ->
      phi_min <= nth i phi 0 <= phi_max /\ theta_min <= nth i theta 0 <= theta_max /\
      nth i phi 0 - phi_min = nth i uphi 0 * (phi_max - phi_min) /\
      zone_area theta_min (nth i theta 0) = nth i utheta 0 * zone_area theta_min theta_max.
Proof.
  intros uphi ut size p q a b Dp Dt Hpq Hab Hb. unfold randoms_usphere. rewrite !random_sample_ok by assumption. cbn [bind].
  assert (HL : length ut = length uphi) by (destruct Dp, Dt; lia).
  exists (map (fun u => p + (q - p) * u) uphi), (map (fun u => acos (cos a - (cos a - cos b) * u)) ut).
  pose proof (COS_bound a) as Ca. pose proof (COS_bound b) as Cb.
  split; [|split; [|split]].
  - f_equal. f_equal. rewrite map_map. apply map_ext_in. intros u Hu. apply np_arccos_ok. apply cos_combo; try lra. now apply Dt.
  - apply map_length.
  - now rewrite map_length.
  - intros i Hi. rewrite (nth_map_lt _ _ _ _ i 0 0) by exact Hi. rewrite (nth_map_lt _ _ _ _ i 0 0) by lia.
    pose proof (draws_nth size uphi i Dp Hi) as Ui. pose proof (draws_nth size ut i Dt ltac:(lia)) as Vi.
    set (u := nth i uphi 0) in *. set (v := nth i ut 0) in *.
    pose proof (cos_combo (cos a) (cos b) v ltac:(lra) ltac:(lra) Vi) as B.
    assert (Cab : cos b <= cos a) by (apply cos_decr_1; lra).
    assert (CC : cos (acos (cos a - (cos a - cos b) * v)) = cos a - (cos a - cos b) * v) by (apply cos_acos; exact B).
    pose proof (acos_bound (cos a - (cos a - cos b) * v)) as AB. set (t := acos _) in *.
    split; [split; nra|]. split; [|split; [ring|]].
    + split; apply cos_decr_0; try lra; rewrite CC; nra.
    + rewrite !zone_area_cos, CC. ring.
Qed.
Print Assumptions C49_usphere.

Theorem C49_usphere_finite : forall uphi utheta size phi_min phi_max theta_min theta_max,
  draws size uphi -> draws size utheta ->
  exists phi theta, randoms_usphere uphi utheta size phi_min phi_max theta_min theta_max = Ok (phi, map Some theta) /\
    forall t, In t theta -> 0 <= t <= PI.
Proof.
  intros uphi ut size p q a b Dp Dt. unfold randoms_usphere. rewrite !random_sample_ok by assumption. cbn [bind].
  exists (map (fun u => p + (q - p) * u) uphi), (map (fun u => acos (cos a - (cos a - cos b) * u)) ut).
  pose proof (COS_bound a) as Ca. pose proof (COS_bound b) as Cb. split.
  - f_equal. f_equal. rewrite map_map. apply map_ext_in. intros u Hu. apply np_arccos_ok. apply cos_combo; try lra. now apply Dt.
  - intros t Ht. apply in_map_iff in Ht. destruct Ht as (u & <- & _). apply acos_bound.
Qed.
Print Assumptions C49_usphere_finite.

(** [randoms_sphere] combines the two. *)
Theorem C49_sphere : forall ur uphi utheta size r_min r_max phi_min phi_max theta_min theta_max,
  draws size ur -> draws size uphi -> draws size utheta -> 0 <= r_min <= r_max -> phi_min <= phi_max ->
  0 <= theta_min <= theta_max -> theta_max <= PI ->
  exists r phi theta,
    randoms_sphere ur uphi utheta size r_min r_max phi_min phi_max theta_min theta_max = Ok (map Some r, phi, map Some theta) /\
    length r = length ur /\ length phi = length ur /\ length theta = length ur /\
    forall i, (i < length ur)%nat ->
      r_min <= nth i r 0 <= r_max /\ phi_min <= nth i phi 0 <= phi_max /\ theta_min <= nth i theta 0 <= theta_max /\
      shell_volume r_min (nth i r 0) = nth i ur 0 * shell_volume r_min r_max /\
      nth i phi 0 - phi_min = nth i uphi 0 * (phi_max - phi_min) /\
      zone_area theta_min (nth i theta 0) = nth i utheta 0 * zone_area theta_min theta_max.
Proof.
  intros ur uphi ut size a b p q c d Dr Dp Dt Hab Hpq Hcd Hd.
  destruct (C49_sphere_r ur size a b Dr Hab) as (r & E1 & L1 & V1).
  destruct (C49_usphere uphi ut size p q c d Dp Dt Hpq Hcd Hd) as (phi & theta & E2 & L2 & L3 & V2).
  assert (HL : length uphi = length ur) by (destruct Dr, Dp; lia).
  exists r, phi, theta. unfold randoms_sphere. rewrite E1. cbn [bind]. rewrite E2. cbn [bind].
  split; [reflexivity|]. split; [exact L1|]. split; [lia|]. split; [lia|].
  intros i Hi. destruct (V1 i Hi) as [A B]. destruct (V2 i ltac:(lia)) as (C & D & E & F).
  exact (conj A (conj C (conj D (conj B (conj E F))))).
Qed.
Print Assumptions C49_sphere.

Example C49_example : draws 2 [0; 1/2] /\
  exists phi, randoms_polar [0; 1/2] [0; 1/2] 2 0 2 0 4 = Ok ([Some 0; Some (sqrt 2)], phi).
Proof.
  split.
  - split; [reflexivity|]. intros v [<-|[<-|[]]]; lra.
  - eexists. unfold randoms_polar, random_sample. cbn [Z.ltb Z.compare bind map].
    rewrite !np_sqrt_ok by lra. replace ((2 * 2 - 0 * 0) * 0 + 0 * 0) with 0 by ring. rewrite sqrt_0.
    replace ((2 * 2 - 0 * 0) * (1 / 2) + 0 * 0) with 2 by field. reflexivity.
Qed.

(** ** C50: pdf2cdf, randoms_cdf, randoms_pdf *)

Definition midpoints (xmid : list R) (x0 dx : R) (n : nat) : Prop :=
  length xmid = n /\ forall k, (k < n)%nat -> nth k xmid 0 = x0 + INR k * dx.

Theorem C50_pdf2cdf : forall xmid pdf x0 dx n, midpoints xmid x0 dx n -> (2 <= n)%nat -> 0 < dx -> length pdf = n ->
  (forall p, In p pdf -> 0 <= p) -> 0 < Rsum pdf ->
  exists x cdf normpdf, pdf2cdf xmid pdf = Ok (x, map Some cdf, map Some normpdf) /\
    uniform_edges x (x0 - dx / 2) dx n /\
    length cdf = S n /\ nondecreasing cdf /\ nth 0 cdf 0 = 0 /\ nth n cdf 0 = 1 /\
    (forall k, (k <= n)%nat -> nth k cdf 0 = Rsum (firstn k pdf) / Rsum pdf) /\
    length normpdf = n /\ (forall k, (k < n)%nat -> nth k normpdf 0 = nth k pdf 0 / (Rsum pdf * dx)) /\
    Rsum (map (fun v => v * dx) normpdf) = 1.
Proof.
  intros xmid pdf x0 dx n [ML MV] Hn Hdx HL HP HS. unfold pdf2cdf.
  rewrite (py_get_ok _ xmid 1 0) by lia. rewrite (py_get_ok _ xmid 0 0) by lia. cbn [bind].
  rewrite (py_get_last _ xmid 0) by lia. cbn [bind]. change (Z.to_nat 1) with 1%nat. change (Z.to_nat 0) with 0%nat.
  rewrite !MV by lia. cbn [INR]. replace (x0 + 1 * dx - (x0 + 0 * dx)) with dx by ring.
  rewrite HL, ML, Nat.eqb_refl.
  set (c := 0 :: map (fun v => v * dx) (cumsum 0 pdf)).
  assert (CL : length c = S n) by (unfold c; cbn; rewrite map_length, cumsum_length; lia).
  assert (CV : forall k, (k <= n)%nat -> nth k c 0 = Rsum (firstn k pdf) * dx).
  { intros [|k] Hk; [cbn; ring|]. unfold c. cbn [nth]. rewrite (nth_map_lt _ _ _ _ k 0 0) by (rewrite cumsum_length; lia).
    rewrite nth_cumsum by lia. ring. }
  assert (CN : nondecreasing c).
  { intros i j Hij. rewrite CL in Hij. rewrite !CV by lia. apply Rmult_le_compat_r; [lra|]. apply Rsum_firstn_le; [exact HP|lia]. }
  assert (M : np_max c = Rsum pdf * dx).
  { rewrite np_max_last by (auto; lia). rewrite CL. replace (S n - 1)%nat with n by lia. rewrite CV by lia.
    now rewrite firstn_all2 by lia. }
  rewrite M. assert (MP : 0 < Rsum pdf * dx) by nra. assert (NZ : Rsum pdf * dx <> 0) by lra.
  assert (FD : forall v, fdiv v (Rsum pdf * dx) = Some (v / (Rsum pdf * dx))).
  { intros v. unfold fdiv. destruct (Req_bool_spec (Rsum pdf * dx) 0); [contradiction|reflexivity]. }
  exists (linspace (x0 + 0 * dx - / 2 * dx) (x0 + INR (n - 1) * dx + / 2 * dx) (n + 1)),
    (map (fun v => v / (Rsum pdf * dx)) c), (map (fun v => v / (Rsum pdf * dx)) pdf).
  assert (DV : forall k, (k <= n)%nat -> nth k (map (fun v => v / (Rsum pdf * dx)) c) 0 = Rsum (firstn k pdf) / Rsum pdf).
  { intros k Hk. rewrite (nth_map_lt _ _ _ _ k 0 0) by lia. rewrite CV by exact Hk. field. split; lra. }
  split; [|split; [|split; [|split; [|split; [|split; [|split; [exact DV|split; [|split]]]]]]]].
  - f_equal. f_equal; [f_equal|]; rewrite map_map; apply map_ext; intros v; apply FD.
  - replace (n + 1)%nat with (S (S (n - 1))) by lia. unfold linspace. split; [rewrite map_length, seq_length; lia|].
    intros i Hi. rewrite (nth_map_lt _ _ _ _ i 0 0%nat) by (rewrite seq_length; lia). rewrite seq_nth by lia. cbn [Nat.add].
    replace (S (S (n - 1)) - 1)%nat with n by lia. rewrite minus_INR by lia. cbn [INR]. field. apply not_0_INR. lia.
  - rewrite map_length. exact CL.
  - intros i j Hij. rewrite map_length, CL in Hij. rewrite !DV by lia. apply Rmult_le_compat_r.
    + left. now apply Rinv_0_lt_compat.
    + apply Rsum_firstn_le; [exact HP|lia].
  - rewrite DV by lia. cbn. unfold Rdiv. ring.
  - rewrite DV by lia. rewrite firstn_all2 by lia. field. lra.
  - rewrite map_length. exact HL.
  - intros k Hk. rewrite (nth_map_lt _ _ _ _ k 0 0) by lia. reflexivity.
  - rewrite map_map. transitivity (Rsum (map (fun v => / Rsum pdf * v) pdf)).
    + f_equal. apply map_ext. intros v. field. split; lra.
    + rewrite Rsum_map_scal, map_id. field. lra.
Qed.
Print Assumptions C50_pdf2cdf.

Theorem C50_pdf2cdf_errors : forall xmid pdf,
  ((length xmid <= 1)%nat -> pdf2cdf xmid pdf = Err IndexError) /\
  ((2 <= length xmid)%nat -> length pdf <> length xmid -> pdf2cdf xmid pdf = Err ValueError).
Proof.
  intros xmid pdf. split; intros H.
  - destruct xmid as [|a [|b xmid]]; [reflexivity|reflexivity|cbn in H; lia].
  - intros HL. unfold pdf2cdf. rewrite (py_get_ok _ xmid 1 0) by lia. rewrite (py_get_ok _ xmid 0 0) by lia. cbn [bind].
    rewrite (py_get_last _ xmid 0) by lia. cbn [bind]. apply Nat.eqb_neq in HL. now rewrite HL.
Qed.
Print Assumptions C50_pdf2cdf_errors.

(** A cdf that does not run from 0 to 1 is rejected, whatever the
    interpolation. *)
Theorem C50_rejects : forall interp u x cdf size, cdf <> [] ->
  nth 0 cdf 0 <> 0 \/ nth (length cdf - 1) cdf 0 <> 1 ->
  randoms_cdf interp u x cdf size = Err AssertionError.
Proof.
  intros interp u x cdf size Hc H. assert (1 <= length cdf)%nat by (destruct cdf; [congruence|cbn; lia]).
  unfold randoms_cdf. rewrite (py_get_ok _ cdf 0 0) by lia. cbn [bind]. change (Z.to_nat 0) with 0%nat.
  destruct (Req_bool_spec (nth 0 cdf 0) 0) as [E|E]; [|reflexivity].
  rewrite (py_get_last _ cdf 0) by lia. cbn [bind]. destruct H as [H|H]; [congruence|].
  destruct (Req_bool_spec (nth (length cdf - 1) cdf 0) 1); [contradiction|reflexivity].
Qed.
Print Assumptions C50_rejects.

Lemma randoms_cdf_linear : forall u x cdf size, draws size u -> length x = length cdf -> (2 <= length cdf)%nat ->
  nth 0 cdf 0 = 0 -> nth (length cdf - 1) cdf 0 = 1 ->
  randoms_cdf interp1d_linear u x cdf size = Ok (map Some (map (np_interp cdf x) u)).
Proof.
  intros u x cdf size D HL H2 H0 H1. unfold randoms_cdf. rewrite (py_get_ok _ cdf 0 0) by lia. cbn [bind].
  change (Z.to_nat 0) with 0%nat. rewrite H0. rewrite Req_bool_true by reflexivity.
  rewrite (py_get_last _ cdf 0) by lia. cbn [bind]. rewrite H1. rewrite Req_bool_true by reflexivity.
  cbn [andb]. unfold py_assert. rewrite random_sample_ok by exact D. cbn [bind].
  unfold interp1d_linear. rewrite HL, Nat.eqb_refl. cbn [bind]. now rewrite map_map.
Qed.

(** With linear interpolation every value comes from the bin of its draw,
    linearly, hence lies within the edges. *)
Theorem C50_randoms_cdf : forall u x cdf size, draws size u -> length x = length cdf -> (2 <= length cdf)%nat ->
  nondecreasing cdf -> nondecreasing x -> nth 0 cdf 0 = 0 -> nth (length cdf - 1) cdf 0 = 1 ->
  exists r, randoms_cdf interp1d_linear u x cdf size = Ok (map Some r) /\ length r = length u /\
    within (nth 0 x 0) (nth (length x - 1) x 0) r /\
    (forall i, (i < length u)%nat -> exists j, (S j < length cdf)%nat /\
       nth j cdf 0 <= nth i u 0 < nth (S j) cdf 0 /\ nth j x 0 <= nth i r 0 <= nth (S j) x 0 /\
       (nth i r 0 - nth j x 0) * (nth (S j) cdf 0 - nth j cdf 0) = (nth i u 0 - nth j cdf 0) * (nth (S j) x 0 - nth j x 0)) /\
    (forall i k, (i < length u)%nat -> (k < length u)%nat -> nth i u 0 <= nth k u 0 -> nth i r 0 <= nth k r 0).
Proof.
  intros u x cdf size D HL H2 NC NX H0 H1. exists (map (np_interp cdf x) u).
  split; [now apply randoms_cdf_linear|]. split; [apply map_length|].
  assert (BIN : forall i, (i < length u)%nat -> exists j, (S j < length cdf)%nat /\
       nth j cdf 0 <= nth i u 0 < nth (S j) cdf 0 /\ nth j x 0 <= nth i (map (np_interp cdf x) u) 0 <= nth (S j) x 0 /\
       (nth i (map (np_interp cdf x) u) 0 - nth j x 0) * (nth (S j) cdf 0 - nth j cdf 0) = (nth i u 0 - nth j cdf 0) * (nth (S j) x 0 - nth j x 0)).
  { intros i Hi. pose proof (draws_nth size u i D Hi) as Ui. rewrite (nth_map_lt _ _ _ _ i 0 0) by exact Hi.
    destruct (interp_bin cdf x (nth i u 0) H2 NC ltac:(lra)) as (j & Hj & Bj & E). exists j. rewrite E.
    split; [exact Hj|]. split; [exact Bj|]. pose proof (ratio_01 _ _ _ Bj) as R.
    assert (nth j x 0 <= nth (S j) x 0) by (apply NX; lia). split; [apply combo; lra|]. field. lra. }
  split; [|split; [exact BIN|]].
  - intros v Hv. destruct (In_nth _ _ 0 Hv) as (i & Hi & <-). rewrite map_length in Hi.
    destruct (BIN i Hi) as (j & Hj & _ & B & _).
    assert (nth 0 x 0 <= nth j x 0) by (apply NX; lia).
    assert (nth (S j) x 0 <= nth (length x - 1) x 0) by (apply NX; lia). lra.
  - intros i k Hi Hk Huv. rewrite !(nth_map_lt _ _ (np_interp cdf x) u _ 0 0) by assumption.
    pose proof (draws_nth size u i D Hi). pose proof (draws_nth size u k D Hk).
    apply interp_mono; auto; lra.
Qed.
Print Assumptions C50_randoms_cdf.

Lemma finite_map : forall l, finite (map Some l) = Some l.
Proof. induction l as [|x l IH]; [reflexivity|]. cbn. now rewrite IH. Qed.

(** End to end: the draws landing in bin [j] are exactly those in an interval
    of length [pdf_j / sum pdf], spread linearly over the bin. *)
Theorem C50_randoms_pdf : forall xmid pdf x0 dx n u size, midpoints xmid x0 dx n -> (2 <= n)%nat -> 0 < dx -> length pdf = n ->
  (forall p, In p pdf -> 0 <= p) -> 0 < Rsum pdf -> draws size u ->
  exists r, randoms_pdf interp1d_linear u xmid pdf size = Ok (map Some r) /\ length r = length u /\
    forall i, (i < length u)%nat -> exists j, (j < n)%nat /\ 0 < nth j pdf 0 /\
      Rsum (firstn j pdf) / Rsum pdf <= nth i u 0 < Rsum (firstn (S j) pdf) / Rsum pdf /\
      x0 - dx / 2 + INR j * dx <= nth i r 0 <= x0 - dx / 2 + INR (S j) * dx /\
      (nth i r 0 - (x0 - dx / 2 + INR j * dx)) / dx = (nth i u 0 - Rsum (firstn j pdf) / Rsum pdf) / (nth j pdf 0 / Rsum pdf).
Proof.
  intros xmid pdf x0 dx n u size M Hn Hdx HL HP HS D.
  destruct (C50_pdf2cdf xmid pdf x0 dx n M Hn Hdx HL HP HS) as (x & cdf & np & E & [XL XV] & CL & CN & C0 & C1 & CV & _).
  assert (NX : nondecreasing x).
  { intros i j Hij. rewrite XL in Hij. rewrite !XV by lia. assert (INR i <= INR j) by (apply le_INR; lia). nra. }
  destruct (C50_randoms_cdf u x cdf size D) as (r & E2 & RL & _ & B & _); try assumption; try lia.
  { replace (length cdf - 1)%nat with n by lia. exact C1. }
  exists r. split; [|split; [exact RL|]].
  - unfold randoms_pdf. rewrite E. cbn [bind]. rewrite finite_map. exact E2.
  - intros i Hi. destruct (B i Hi) as (j & Hj & U & V & W). exists j. rewrite CL in Hj.
    rewrite !CV in U, W by lia. rewrite !XV in V, W by lia. rewrite (Rsum_firstn_step pdf j) in * by lia.
    rewrite !S_INR in *.
    assert (PJ : 0 < nth j pdf 0).
    { destruct U as [U1 U2]. unfold Rdiv in U1, U2. assert (Hlt : Rsum (firstn j pdf) * / Rsum pdf < (Rsum (firstn j pdf) + nth j pdf 0) * / Rsum pdf) by lra.
      apply Rmult_lt_reg_r in Hlt; [lra|now apply Rinv_0_lt_compat]. }
    split; [lia|]. split; [exact PJ|]. split; [exact U|]. split; [exact V|].
    apply (Rmult_eq_reg_r (dx * (nth j pdf 0 / Rsum pdf))).
    + transitivity ((nth i r 0 - (x0 - dx / 2 + INR j * dx)) * (nth j pdf 0 / Rsum pdf)); [field; split; lra|].
      transitivity ((nth i r 0 - (x0 - dx / 2 + INR j * dx)) * ((Rsum (firstn j pdf) + nth j pdf 0) / Rsum pdf - Rsum (firstn j pdf) / Rsum pdf)).
      { field. lra. }
      rewrite W. field. split; lra.
    + apply Rgt_not_eq. apply Rmult_lt_0_compat; [exact Hdx|]. now apply Rdiv_lt_0_compat.
Qed.
Print Assumptions C50_randoms_pdf.

Example C50_example : midpoints [0; 1; 2] 0 1 3 /\ 0 < Rsum [1; 0; 3] /\
  exists x np, pdf2cdf [0; 1; 2] [1; 0; 3] = Ok (x, [Some 0; Some (1/4); Some (1/4); Some 1], np).
Proof.
  assert (M : midpoints [0; 1; 2] 0 1 3).
  { split; [reflexivity|]. intros [|[|[|k]]] Hk; cbn; try lra. lia. }
  assert (S : 0 < Rsum [1; 0; 3]) by (unfold Rsum; cbn; lra).
  split; [exact M|]. split; [exact S|].
  destruct (C50_pdf2cdf [0; 1; 2] [1; 0; 3] 0 1 3 M) as (x & cdf & np & E & _ & CL & _ & _ & _ & CV & _); try lia; try lra; try reflexivity.
  - intros p [<-|[<-|[<-|[]]]]; lra.
  - exists x, (map Some np). rewrite E. f_equal. f_equal. f_equal.
    destruct cdf as [|a [|b [|c [|d [|e cdf]]]]]; try discriminate CL.
    pose proof (CV 0%nat ltac:(lia)) as V0. pose proof (CV 1%nat ltac:(lia)) as V1. pose proof (CV 2%nat ltac:(lia)) as V2. pose proof (CV 3%nat ltac:(lia)) as V3.
    unfold Rsum in V0, V1, V2, V3. cbn in V0, V1, V2, V3. cbn [map]. repeat f_equal; lra.
Qed.

(** ** C51: shuffle and random_draw *)

Theorem C51_shuffle : forall A argsort (d : A) u sample, sorts argsort -> length u = length sample ->
  Permutation (shuffle argsort d u sample) sample.
Proof.
  intros A argsort d u sample HS HL. unfold shuffle. apply take_perm. rewrite <- HL. apply HS.
Qed.
Print Assumptions C51_shuffle.

(** The drawn positions are distinct, as many as asked for, and those with the
    smallest keys. *)
Theorem C51_random_draw : forall A argsort (d : A) u sample size, sorts argsort -> length u = length sample ->
  (0 <= size < Z.of_nat (length sample))%Z ->
  exists idx, random_draw argsort d u sample size = Ok (map (fun i => nth i sample d) idx) /\
    NoDup idx /\ Z.of_nat (length idx) = size /\ (forall i, In i idx -> (i < length sample)%nat) /\
    (forall i j, In i idx -> (j < length sample)%nat -> ~ In j idx -> nth i u 0 <= nth j u 0).
Proof.
  intros A argsort d u sample size HS HL Hs. specialize (HS u). pose proof (orders_length _ _ HS) as LI.
  exists (firstn (Z.to_nat size) (argsort u)). unfold random_draw.
  replace (size <? Z.of_nat (length sample))%Z with true by (symmetry; apply Z.ltb_lt; lia). unfold py_assert.
  unfold head_slice. replace (size <? 0)%Z with false by (symmetry; apply Z.ltb_ge; lia).
  split; [reflexivity|]. split; [|split; [|split]].
  - pose proof (orders_NoDup _ _ HS) as N. rewrite <- (firstn_skipn (Z.to_nat size) (argsort u)) in N.
    clear - N. induction (firstn (Z.to_nat size) (argsort u)) as [|x l IH]; [constructor|]. inversion N; subst.
    constructor; [|now apply IH]. intros Hx. apply H1. apply in_app_iff. now left.
  - rewrite firstn_length. lia.
  - intros i Hi. rewrite <- HL. apply (orders_in _ _ i HS). rewrite <- (firstn_skipn (Z.to_nat size) (argsort u)). apply in_app_iff. now left.
  - intros i j Hi Hj Nj. rewrite <- HL in Hj. exact (orders_firstn u (argsort u) _ HS i j Hi Hj Nj).
Qed.
Print Assumptions C51_random_draw.

(** Hence a sub-multiset of the sample. *)
Theorem C51_random_draw_submultiset : forall A argsort (d : A) u sample size out, sorts argsort -> length u = length sample ->
  random_draw argsort d u sample size = Ok out -> exists rest, Permutation (out ++ rest) sample.
Proof.
  intros A argsort d u sample size out HS HL H. unfold random_draw, py_assert in H.
  destruct (size <? Z.of_nat (length sample))%Z; [|discriminate]. injection H as <-. unfold head_slice.
  set (m := Z.to_nat _). exists (take d sample (skipn m (argsort u))). unfold take. rewrite <- map_app, firstn_skipn.
  apply take_perm. rewrite <- HL. apply HS.
Qed.
Print Assumptions C51_random_draw_submultiset.

Theorem C51_too_large : forall A argsort (d : A) u sample size, (Z.of_nat (length sample) <= size)%Z ->
  random_draw argsort d u sample size = Err AssertionError.
Proof.
  intros. unfold random_draw. replace (size <? Z.of_nat (length sample))%Z with false by (symmetry; apply Z.ltb_ge; lia). reflexivity.
Qed.
Print Assumptions C51_too_large.

(** A negative size is not refused: it leaves out the largest keys. *)
Theorem C51_negative : forall A argsort (d : A) u sample size, sorts argsort -> length u = length sample -> (size < 0)%Z ->
  exists out, random_draw argsort d u sample size = Ok out /\ Z.of_nat (length out) = Z.max 0 (Z.of_nat (length sample) + size).
Proof.
  intros A argsort d u sample size HS HL Hs. unfold random_draw.
  replace (size <? Z.of_nat (length sample))%Z with true by (symmetry; apply Z.ltb_lt; lia). unfold py_assert.
  eexists. split; [reflexivity|]. unfold take, head_slice. rewrite map_length.
  replace (size <? 0)%Z with true by (symmetry; apply Z.ltb_lt; lia).
  rewrite firstn_length. rewrite (orders_length _ _ (HS u)), HL. lia.
Qed.
Print Assumptions C51_negative.

(** So asking for a negative number of elements can return some. *)
Theorem C51_negative_refuted : exists sample size, (size < 0)%Z /\ forall argsort u, sorts argsort -> length u = length sample ->
  exists out, random_draw argsort 0%Z u sample size = Ok out /\ out <> [].
Proof.
  exists [5; 6; 7]%Z, (-1)%Z. split; [lia|]. intros argsort u HS HL.
  destruct (C51_negative Z argsort 0%Z u [5; 6; 7]%Z (-1) HS HL ltac:(lia)) as (out & E & L). exists out. split; [exact E|].
  intros ->. cbn in L. lia.
Qed.
Print Assumptions C51_negative_refuted.

Example C51_example : sorts insertion_argsort /\
  shuffle insertion_argsort 0%Z [1/2; 1/4; 3/4] [10; 20; 30]%Z = [20; 10; 30]%Z.
Proof.
  split; [apply insertion_sorts|]. unfold shuffle, insertion_argsort. cbn [length seq fold_right insert_by nth].
  rewrite (Rle_bool_t (1/4) (3/4)) by lra. cbn [insert_by nth].
  rewrite (Rle_bool_f (1/2) (1/4)) by lra. rewrite (Rle_bool_t (1/2) (3/4)) by lra. reflexivity.
Qed.

(** ** C52: random_prob_draw *)

(** Without a size: exactly the elements whose draw is at most their
    probability, in some order. *)
Theorem C52_kept : forall A argsort (d : A) u v sample prob p, sorts argsort -> length u = length sample ->
  (forall n, length (v n) = n) -> length p = length sample -> prob = Seq p \/ (exists x, prob = Sca x /\ p = repeat x (length sample)) ->
  exists out idx, random_prob_draw argsort d u v sample prob None = Ok out /\
    NoDup idx /\ (forall i, In i idx <-> (i < length sample)%nat /\ nth i u 0 <= nth i p 0) /\
    Permutation out (map (fun i => nth i sample d) idx).
Proof.
  intros A argsort d u v sample prob p HS HL HV HP Hprob. unfold random_prob_draw.
  assert (SP : spread prob (length sample) = Ok p).
  { destruct Hprob as [->|(x & -> & ->)]; [|reflexivity]. unfold spread. now rewrite HP, Nat.eqb_refl. }
  rewrite SP. cbn [bind]. eexists. exists (np_where (map2 Rle_bool u p)). split; [reflexivity|].
  split; [apply NoDup_np_where|]. split.
  - intros i. rewrite in_np_where, map2_length, HL, HP, Nat.min_id. split; intros [H1 H2]; (split; [exact H1|]).
    + rewrite (nth_map2 _ _ _ _ u p i 0 0 false) in H2 by lia. destruct (Rle_bool_spec (nth i u 0) (nth i p 0)); [assumption|discriminate].
    + rewrite (nth_map2 _ _ _ _ u p i 0 0 false) by lia. now apply Rle_bool_t.
  - apply C51_shuffle; [exact HS|apply HV].
Qed.
Print Assumptions C52_kept.

(** Probabilities of at least one are always kept, negative ones never, and
    zero only for a draw of exactly zero (which [random_sample] can return). *)
Theorem C52_extremes : forall A argsort (d : A) u v sample p i, sorts argsort -> draws (Z.of_nat (length sample)) u ->
  (forall n, length (v n) = n) -> length p = length sample -> NoDup sample -> (i < length sample)%nat ->
  exists out, random_prob_draw argsort d u v sample (Seq p) None = Ok out /\ NoDup out /\
    (1 <= nth i p 0 -> In (nth i sample d) out) /\ (nth i p 0 < 0 -> ~ In (nth i sample d) out) /\
    (nth i p 0 = 0 -> (In (nth i sample d) out <-> nth i u 0 = 0)).
Proof.
  intros A argsort d u v sample p i HS DU HV HP ND Hi.
  assert (HL : length u = length sample) by (destruct DU; lia).
  destruct (C52_kept A argsort d u v sample (Seq p) p HS HL HV HP (or_introl eq_refl)) as (out & idx & E & NI & I & P).
  exists out. split; [exact E|]. pose proof (draws_nth _ u i DU ltac:(lia)) as Ui.
  assert (K : In (nth i sample d) out <-> nth i u 0 <= nth i p 0).
  { split.
    - intros H. apply (Permutation_in _ P), in_map_iff in H. destruct H as (k & Hk & Ik). apply I in Ik. destruct Ik as [K1 K2].
      assert (k = i) by (apply (proj1 (NoDup_nth sample d) ND); auto). now subst k.
    - intros H. apply (Permutation_in _ (Permutation_sym P)), in_map_iff. exists i. split; [reflexivity|]. apply I. split; assumption. }
  split.
  { apply (Permutation_NoDup (Permutation_sym P)). clear - NI ND I.
    assert (B : forall j, In j idx -> (j < length sample)%nat) by (intros j Hj; now apply I). clear I.
    induction idx as [|k idx IH]; [constructor|]. inversion NI; subst. cbn [map]. constructor.
    - intros H. apply in_map_iff in H. destruct H as (j & Hj & Ij). apply H1.
      assert (j = k) by (apply (proj1 (NoDup_nth sample d) ND); auto; apply B; [now right|now left]). now subst.
    - apply IH; [assumption|]. intros j Hj. apply B. now right. }
  rewrite K. repeat split; intros; lra.
Qed.
Print Assumptions C52_extremes.

(** With a size: the elements with the smallest ratios draw/probability. *)
Theorem C52_sized : forall A argsort (d : A) u v sample p size, sorts argsort -> length u = length sample ->
  (forall n, length (v n) = n) -> length p = length sample -> (forall x, In x p -> 0 < x) ->
  (0 <= size < Z.of_nat (length sample))%Z ->
  exists out idx, random_prob_draw argsort d u v sample (Seq p) (Some size) = Ok out /\
    Z.of_nat (length out) = size /\ NoDup idx /\ (forall i, In i idx -> (i < length sample)%nat) /\
    Permutation out (map (fun i => nth i sample d) idx) /\
    (forall i j, In i idx -> (j < length sample)%nat -> ~ In j idx -> nth i u 0 / nth i p 0 <= nth j u 0 / nth j p 0).
Proof.
  intros A argsort d u v sample p size HS HL HV HP Pos Hs. unfold random_prob_draw.
  replace (size <? Z.of_nat (length sample))%Z with true by (symmetry; apply Z.ltb_lt; lia). unfold py_assert. cbn [bind].
  replace (existsb (fun x => Rle_bool x 0) p) with false.
  2: { symmetry. clear - Pos. induction p as [|x p IH]; [reflexivity|]. cbn [existsb].
       rewrite Rle_bool_f by (apply Pos; now left). apply IH. intros y Hy. apply Pos. now right. }
  cbn [negb]. unfold spread. rewrite HP, Nat.eqb_refl. cbn [bind].
  set (keys := map2 Rdiv u p). assert (KL : length keys = length sample) by (unfold keys; rewrite map2_length; lia).
  destruct (C51_random_draw A argsort d keys sample size HS KL Hs) as (idx & E & N & L & B & S).
  unfold random_draw, py_assert in E. replace (size <? Z.of_nat (length sample))%Z with true in E by (symmetry; apply Z.ltb_lt; lia).
  injection E as E. rewrite E. eexists. exists idx. split; [reflexivity|].
  assert (P : Permutation (shuffle argsort d (v (length (map (fun i => nth i sample d) idx))) (map (fun i => nth i sample d) idx)) (map (fun i => nth i sample d) idx))
    by (apply C51_shuffle; [exact HS|apply HV]).
  split; [rewrite (Permutation_length P), map_length; exact L|]. split; [exact N|]. split; [exact B|]. split; [exact P|].
  intros i j Hi Hj Nj. specialize (S i j Hi Hj Nj). unfold keys in S. pose proof (B i Hi).
  rewrite !(nth_map2 _ _ _ Rdiv u p _ 0 0 0) in S by lia. exact S.
Qed.
Print Assumptions C52_sized.

Theorem C52_refused : forall A argsort (d : A) u v sample p size,
  (Z.of_nat (length sample) <= size)%Z \/ (exists x, In x p /\ x <= 0) ->
  random_prob_draw argsort d u v sample (Seq p) (Some size) = Err AssertionError.
Proof.
  intros A argsort d u v sample p size H. unfold random_prob_draw, py_assert.
  destruct (Z.ltb_spec size (Z.of_nat (length sample))) as [L|L]; [|reflexivity].
  destruct H as [H|(x & Hx & Hx0)]; [lia|]. cbn [bind].
  replace (existsb (fun y => Rle_bool y 0) p) with true; [reflexivity|].
  symmetry. apply existsb_exists. exists x. split; [exact Hx|now apply Rle_bool_t].
Qed.
Print Assumptions C52_refused.

(** An element of probability zero can be kept. *)
Theorem C52_zero_refuted : exists (u : list R) sample p, draws (Z.of_nat (length sample)) u /\ length p = length sample /\
  (forall x, In x p -> x = 0) /\
  forall argsort v, sorts argsort -> (forall n, length (v n) = n) ->
    random_prob_draw argsort 0%Z u v sample (Seq p) None = Ok sample.
Proof.
  exists [0], [7%Z], [0]. split; [|split; [reflexivity|split]].
  - split; [reflexivity|]. intros w [<-|[]]. lra.
  - intros x [<-|[]]. reflexivity.
  - intros argsort v HS HV.
    destruct (C52_extremes Z argsort 0%Z [0] v [7%Z] [0] 0 HS) as (out & E & N & _ & _ & K); try reflexivity; auto.
    + split; [reflexivity|]. intros w [<-|[]]. lra.
    + constructor; [intros []|constructor].
    + rewrite E. f_equal. assert (I : In 7%Z out) by (apply K; reflexivity).
      destruct (C52_kept Z argsort 0%Z [0] v [7%Z] (Seq [0]) [0] HS eq_refl HV eq_refl (or_introl eq_refl)) as (out' & idx & E' & NI & IX & P).
      rewrite E in E'. injection E' as <-.
      assert (IN : forall x, In x out -> x = 7%Z).
      { intros x Hx. apply (Permutation_in _ P), in_map_iff in Hx. destruct Hx as (k & <- & Ik). apply IX in Ik. cbn in Ik.
        replace k with 0%nat by lia. reflexivity. }
      destruct out as [|a [|b out]]; [destruct I| |].
      * now rewrite (IN a (or_introl eq_refl)).
      * exfalso. inversion N; subst. apply H1. left.
        rewrite (IN a (or_introl eq_refl)), (IN b (or_intror (or_introl eq_refl))). reflexivity.
Qed.
Print Assumptions C52_zero_refuted.

(** ** C53: stochastic weights *)

Theorem C53_values : forall u w, siw_scalar u w = Zfloor w \/ siw_scalar u w = Zceil w.
Proof. intros u w. unfold siw_scalar. destruct (Rlt_bool u (IZR (Zceil w) - w)); [left|right]; reflexivity. Qed.
Print Assumptions C53_values.

Theorem C53_integer : forall u n, 0 <= u -> siw_scalar u (IZR n) = n.
Proof. intros u n Hu. unfold siw_scalar. rewrite Zceil_IZR, Rlt_bool_f by lra. reflexivity. Qed.
Print Assumptions C53_integer.

(** The expectation over the uniform draw is the weight. *)
Theorem C53_unbiased : forall w, expectation (fun u => IZR (siw_scalar u w)) w.
Proof.
  intros w. unfold expectation. destruct (ceil_floor_cases w) as [(n & -> & C & F)|[C B]].
  - assert (H : is_RInt (fun u => IZR (siw_scalar u (IZR n))) 0 1 (0 * 0 + (1 - 0) * IZR n)).
    { apply step_RInt; [lra|intros u Hu; lra|]. intros u Hu. rewrite C53_integer by lra. reflexivity. }
    replace (0 * 0 + (1 - 0) * IZR n) with (IZR n) in H by ring. exact H.
  - set (t := IZR (Zceil w) - w). assert (T : t = IZR (Zfloor w) + 1 - w) by (unfold t; rewrite C, plus_IZR; ring).
    assert (H : is_RInt (fun u => IZR (siw_scalar u w)) 0 1 (t * IZR (Zfloor w) + (1 - t) * IZR (Zceil w))).
    { apply step_RInt; [lra| |].
      - intros u Hu. unfold siw_scalar. fold t. rewrite Rlt_bool_t by lra. reflexivity.
      - intros u Hu. unfold siw_scalar. fold t. rewrite Rlt_bool_f by lra. reflexivity. }
    replace (t * IZR (Zfloor w) + (1 - t) * IZR (Zceil w)) with w in H; [exact H|].
    rewrite C, plus_IZR, T. ring.
Qed.
Print Assumptions C53_unbiased.

(** Arrays behave entry by entry. *)
Theorem C53_array : forall u w, length u = length w ->
  length (siw_array u w) = length w /\
  forall i, (i < length w)%nat -> nth i (siw_array u w) 0%Z = siw_scalar (nth i u 0) (nth i w 0).
Proof.
  intros u w HL. unfold siw_array. split; [rewrite length_put; apply map_length|]. intros i Hi.
  unfold take. rewrite map_map.
  assert (LM : length (map2 (fun c x => IZR c - x) (map Zceil w) w) = length w) by (rewrite map2_length, map_length; lia).
  rewrite (nth_put_where Z _ (map Zceil w) (fun k => Zfloor (nth k w 0))) by (rewrite ?map2_length, ?map_length; lia).
  rewrite (nth_map2 _ _ _ _ u _ i 0 0 false) by lia.
  rewrite (nth_map2 _ _ _ _ (map Zceil w) w i 0%Z 0 0) by (rewrite ?map_length; lia).
  rewrite (nth_map_lt _ _ Zceil w i 0%Z 0) by exact Hi. reflexivity.
Qed.
Print Assumptions C53_array.

Lemma binary_cap : forall u w, sbw_scalar u w = Z.min 1 (siw_scalar u w).
Proof. intros u w. unfold sbw_scalar. destruct (Z.ltb_spec 1 (siw_scalar u w)); lia. Qed.

(** Binary weights never exceed one, are 0 or 1 for non-negative weights, and
    their expectation is the weight capped at one. *)
Theorem C53_binary : forall w,
  (forall u, (sbw_scalar u w <= 1)%Z) /\ (0 <= w -> forall u, sbw_scalar u w = 0%Z \/ sbw_scalar u w = 1%Z) /\
  expectation (fun u => IZR (sbw_scalar u w)) (Rmin w 1).
Proof.
  intros w. split; [|split].
  - intros u. rewrite binary_cap. lia.
  - intros Hw u. rewrite binary_cap.
    assert (F0 : (0 <= Zfloor w)%Z) by (apply Zfloor_lub; exact Hw).
    assert (C0 : (0 <= Zceil w)%Z).
    { apply le_IZR. apply Rle_trans with w; [exact Hw|apply Zceil_ub]. }
    destruct (C53_values u w) as [->| ->]; lia.
  - destruct (Rle_lt_dec w 1) as [L|L].
    + rewrite Rmin_left by exact L. unfold expectation. apply (is_RInt_ext (fun u => IZR (siw_scalar u w))); [|apply C53_unbiased].
      intros u Hu. f_equal. rewrite binary_cap. symmetry. apply Z.min_r.
      assert (Zceil w <= 1)%Z by (apply Zceil_glb; exact L).
      assert (Zfloor w <= 1)%Z. { apply le_IZR. pose proof (Zfloor_lb w). lra. }
      destruct (C53_values u w) as [->| ->]; lia.
    + rewrite Rmin_right by lra. unfold expectation.
      assert (H : is_RInt (fun u => IZR (sbw_scalar u w)) 0 1 (0 * 0 + (1 - 0) * 1));
        [|replace (0 * 0 + (1 - 0) * 1) with 1 in H by ring; exact H].
      apply step_RInt; [lra|intros; lra|]. intros u Hu. rewrite binary_cap. apply (f_equal IZR).
      apply Z.min_l. assert (1 <= Zfloor w)%Z by (apply Zfloor_lub; lra).
      assert (1 <= Zceil w)%Z by (apply le_IZR; pose proof (Zceil_ub w); lra).
      destruct (C53_values u w) as [->| ->]; lia.
Qed.
Print Assumptions C53_binary.

Theorem C53_binary_array : forall u w, length u = length w ->
  length (sbw_array u w) = length w /\
  forall i, (i < length w)%nat -> nth i (sbw_array u w) 0%Z = sbw_scalar (nth i u 0) (nth i w 0).
Proof.
  intros u w HL. destruct (C53_array u w HL) as [L V]. unfold sbw_array. split; [rewrite length_put; exact L|].
  intros i Hi.
  replace (repeat 1%Z (length (np_where (map (fun s => (1 <? s)%Z) (siw_array u w)))))
    with (map (fun _ : nat => 1%Z) (np_where (map (fun s => (1 <? s)%Z) (siw_array u w)))).
  2: { generalize (np_where (map (fun s => (1 <? s)%Z) (siw_array u w))). induction l as [|a l IH]; [reflexivity|]. cbn. now rewrite IH. }
  rewrite (nth_put_where Z _ (siw_array u w) (fun _ => 1%Z)) by (rewrite ?map_length; lia).
  rewrite (nth_map_lt _ _ _ _ i false 0%Z) by lia. rewrite V by exact Hi. reflexivity.
Qed.
Print Assumptions C53_binary_array.

Example C53_example : siw_scalar (1/4) (5/2) = 2%Z /\ siw_scalar (3/4) (5/2) = 3%Z /\ sbw_scalar (3/4) (5/2) = 1%Z.
Proof.
  assert (C : Zceil (5/2) = 3%Z) by (apply Zceil_imp; cbn; lra).
  assert (F : Zfloor (5/2) = 2%Z) by (apply Zfloor_imp; cbn; lra).
  unfold sbw_scalar, siw_scalar. rewrite C, F. rewrite (Rlt_bool_t (1/4)), (Rlt_bool_f (3/4)) by lra.
  repeat split; reflexivity.
Qed.

(** Negative sizes are refused by every sampler. *)
Theorem C49_negative_size : forall u v w size a b c d e f, (size < 0)%Z ->
  randoms_polar u v size a b c d = Err ValueError /\ randoms_sphere_r u size a b = Err ValueError /\
  randoms_usphere u v size a b c d = Err ValueError /\ randoms_sphere u v w size a b c d e f = Err ValueError.
Proof.
  intros u v w size a b c d e f H. apply Z.ltb_lt in H.
  unfold randoms_sphere, randoms_polar, randoms_sphere_r, randoms_usphere, random_sample. rewrite H. repeat split; reflexivity.
Qed.
Print Assumptions C49_negative_size.

(** An identically zero density is refused (its cdf is NaN). *)
Theorem C50_zero_pdf : forall interp u xmid size, (2 <= length xmid)%nat ->
  randoms_pdf interp u xmid (repeat 0 (length xmid)) size = Err AssertionError.
Proof.
  intros interp u xmid size H. unfold randoms_pdf, pdf2cdf.
  rewrite (py_get_ok _ xmid 1 0) by lia. rewrite (py_get_ok _ xmid 0 0) by lia. cbn [bind].
  rewrite (py_get_last _ xmid 0) by lia. cbn [bind]. rewrite repeat_length, Nat.eqb_refl.
  set (dx := nth (Z.to_nat 1) xmid 0 - nth (Z.to_nat 0) xmid 0).
  set (c := 0 :: map (fun v => v * dx) (cumsum 0 (repeat 0 (length xmid)))).
  assert (Z : forall n, map (fun v => v * dx) (cumsum 0 (repeat 0 n)) = repeat 0 n).
  { induction n as [|n IH]; [reflexivity|]. cbn [repeat cumsum map]. replace (0 + 0) with 0 by ring. rewrite IH. f_equal. ring. }
  assert (M : np_max c = 0).
  { unfold c. rewrite Z. unfold np_max. generalize (length xmid). intros n. induction n as [|n IH]; [reflexivity|]. cbn [repeat fold_left].
    rewrite Rmax_left by lra. exact IH. }
  rewrite M. cbn [bind]. unfold c. cbn [map]. replace (fdiv 0 0) with (@None R) by (unfold fdiv; now rewrite Req_bool_true). reflexivity.
Qed.
Print Assumptions C50_zero_pdf.

Example C52_example : draws 2 [1/2; 1/4] /\
  random_prob_draw insertion_argsort 0%Z [1/2; 1/4] (fun n => repeat 0 n) [10; 20]%Z (Seq [1/3; 1/3]) None = Ok [20%Z].
Proof.
  split.
  - split; [reflexivity|]. intros v [<-|[<-|[]]]; lra.
  - unfold random_prob_draw, spread, np_where. cbn [length Nat.eqb bind map2 where_from].
    rewrite Rle_bool_f by lra. rewrite Rle_bool_t by lra. reflexivity.
Qed.
