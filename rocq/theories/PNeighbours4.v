(** * The neighbours of a HEALPix pixel: pixels, star indices and the sphere *)

From Coq Require Import Reals ZArith List Bool Lia Lra Psatz.
From Flocq Require Import Core.Raux.
From Verif Require Import Base BaseP Spec SpecNeighbours MHealpixIndex PHealpixIndex PHealpixCentre
  PHealpixTiling PHealpixNeigh PNeighbours PNeighbours2 PNeighbours3 PSky.
Import ListNotations.
Open Scope Z_scope.

(** The star indices of pixel [p], as the library computes them. *)
Definition star_at (n p s t : Z) : Prop :=
  exists i j jd, pix2ij p n = Ok (i, j) /\ j2jd i j n = Ok jd /\ ijd2ijs (i2id i n) jd n = (s, t).

(** Distinct pixels with a common corner on the sphere. *)
Definition adjacent (n p q : Z) : Prop :=
  legal_pix n q /\ q <> p /\
  exists xp yp xq yq, pix2xy p n = Ok (xp, yp) /\ pix2xy q n = Ok (xq, yq) /\
    share_corner n xp yp xq yq.

Lemma pix_site : forall n i j s t, 1 <= n -> legal_ij n i j ->
  t - s = id2 n i -> s + t = jd2 n i j + n - 1 -> site n s t /\ indom n s t.
Proof.
  intros n i j s t Hn L E1 E2. pose proof (jd2_range n i j Hn L) as RJ.
  split; [|unfold indom; lia].
  pose proof (ring_len_cap n i j Hn L) as (R1 & R2 & R3).
  unfold id2 in E1. unfold jd2 in E2. destruct L as [Li Lj].
  destruct (Z.leb_spec i n) as [I1|I1].
  - specialize (R1 I1). pose proof (cap_facet n i j ltac:(lia) R1) as CF.
    pose proof (Z.mod_pos_bound (j - 1) i ltac:(lia)) as M.
    set (f := (j - 1) / i) in *. set (r := (j - 1) mod i) in *.
    exists f, 1, r, (n - i + r). lia.
  - destruct (Z.ltb_spec i (3 * n)) as [I2|I2].
    + pose proof (Z_div_mod_eq_full s n) as D1. pose proof (Z.mod_pos_bound s n ltac:(lia)) as M1.
      pose proof (Z_div_mod_eq_full t n) as D2. pose proof (Z.mod_pos_bound t n ltac:(lia)) as M2.
      exists (s / n), (t / n - s / n), (s mod n), (t mod n).
      assert (-1 <= t / n - s / n <= 1) by nia. lia.
    + cbv zeta in E2. set (i' := 4 * n - i) in *. assert (R : 1 <= j <= 4 * i') by (unfold i'; apply R3; lia).
      pose proof (Z.mod_pos_bound (j - 1) i' ltac:(unfold i'; lia)) as M.
      set (f := (j - 1) / i') in *. set (r := (j - 1) mod i') in *.
      exists (f + 1), (-1), (n - i' + r), r. lia.
Qed.

Lemma site_pix : forall n s t, 1 <= n -> site n s t -> indom n s t ->
  exists i j, legal_ij n i j /\ t - s = id2 n i /\ s + t = jd2 n i j + n - 1.
Proof.
  intros n s t Hn (k & d & a & b & Hd & Ha & Hb & Es & Et) D. unfold indom in D.
  assert (EV : Z.even (s + t + 1 - n + (2 * n - (2 * n - (t - s))) + n + 1) = true).
  { apply Zeven_bool_iff, Zeven_ex_iff. exists (t + 1). ring. }
  assert (DC : d = -1 \/ d = 0 \/ d = 1) by lia.
  assert (X : exists j, legal_ij n (2 * n - (t - s)) j /\ jd2 n (2 * n - (t - s)) j = s + t + 1 - n).
  { destruct (Z_le_gt_dec (Z.abs (t - s)) n) as [B|B].
    - apply site_belt; auto; lia.
    - destruct (Z_lt_le_dec 0 (t - s)).
      + assert (d = 1) by (destruct DC as [-> | [-> | ->]]; lia). subst d.
        apply site_north with k; auto; try lia; nia.
      + assert (d = -1) by (destruct DC as [-> | [-> | ->]]; lia). subst d.
        apply site_south with (k - 1); auto; try lia; nia. }
  destruct X as (j & L & E). exists (2 * n - (t - s)), j. split; [auto|]. unfold id2. rewrite E. lia.
Qed.

(** The star indices determine the pixel and the position of its centre. *)
Lemma star_facts : forall n p s t, 1 <= n -> legal_pix n p -> star_at n p s t ->
  site n s t /\ indom n s t /\
  pix2xy p n = Ok (IZR (s + t + 1 - n) * half_diag n, IZR (t - s) * half_diag n)%R.
Proof.
  intros n p s t Hn Hp (i & j & jd & E1 & E2 & E3).
  destruct (star_of_pix n p s t i j jd Hn Hp E1 E2 E3) as (A & B & L).
  destruct (pix_site n i j s t Hn L A B) as [S D]. split; [auto|]. split; [auto|].
  unfold pix2xy. rewrite E1. cbn [bind fst snd]. rewrite ij2xy_legal by (auto; apply L).
  do 2 f_equal; f_equal; f_equal; lia.
Qed.

Lemma star_exists : forall n p, 1 <= n -> legal_pix n p -> exists s t, star_at n p s t.
Proof.
  intros n p Hn Hp. destruct (star_exact n p Hn Hp) as (i & j & jd & s & t & A & B & C & _).
  exists s, t, i, j, jd. auto.
Qed.

Lemma star_fun : forall n p s t s' t', star_at n p s t -> star_at n p s' t' -> s = s' /\ t = t'.
Proof.
  intros n p s t s' t' (i & j & jd & A & B & C) (i' & j' & jd' & A' & B' & C').
  rewrite A in A'. injection A' as <- <-. rewrite B in B'. injection B' as <-.
  rewrite C in C'. injection C' as <- <-. auto.
Qed.

Lemma star_inj : forall n p q s t, 1 <= n -> legal_pix n p -> legal_pix n q ->
  star_at n p s t -> star_at n q s t -> p = q.
Proof.
  intros n p q s t Hn Hp Hq (i & j & jd & A & B & C) (i' & j' & jd' & A' & B' & C').
  destruct (star_of_pix n p s t i j jd Hn Hp A B C) as (E1 & E2 & L).
  destruct (star_of_pix n q s t i' j' jd' Hn Hq A' B' C') as (E1' & E2' & L').
  assert (i = i') by (unfold id2 in *; lia). subst i'.
  assert (j = j') by (apply (jd2_inj n i j j'); auto; lia). subst j'.
  destruct (pix2ij_correct n p Hn Hp) as (x & y & F & [_ P] & _). rewrite A in F. injection F as <- <-.
  destruct (pix2ij_correct n q Hn Hq) as (x & y & F & [_ Q] & _). rewrite A' in F. injection F as <- <-.
  congruence.
Qed.

Lemma site_star : forall n s t, 1 <= n -> site n s t -> indom n s t ->
  exists p, legal_pix n p /\ star_at n p s t.
Proof.
  intros n s t Hn S D. destruct (site_pix n s t Hn S D) as (i & j & L & E1 & E2).
  destruct (ij2pix_correct n i j Hn L) as [Lp [P E]].
  exists (ij2pix i j n). split; auto.
  destruct (star_exact n _ Hn Lp) as (i' & j' & jd & s' & t' & A & B & C & _).
  pose proof (star_of_pix n _ s' t' i' j' jd Hn Lp A B C) as (F1 & F2 & _).
  rewrite E in A. injection A as <- <-.
  assert (s = s') by lia. assert (t = t') by lia. subst. exists i, j, jd. auto.
Qed.

(** Corners of a pixel are the corners of its lattice square. *)
Lemma corner_lattice : forall n s t x y, 1 <= n ->
  pixel_corner n (IZR (s + t + 1 - n) * half_diag n)%R (IZR (t - s) * half_diag n)%R x y <->
  exists e1 e2, 0 <= e1 <= 1 /\ 0 <= e2 <= 1 /\
    x = (IZR (s + e1 + (t + e2) - n) * half_diag n)%R /\ y = (IZR (t + e2 - (s + e1)) * half_diag n)%R.
Proof.
  intros n s t x y Hn. unfold pixel_corner. set (h := half_diag n).
  assert (P : forall z, (IZR z * h + h = IZR (z + 1) * h)%R) by (intros; rewrite plus_IZR; ring).
  assert (M : forall z, (IZR z * h - h = IZR (z - 1) * h)%R) by (intros; rewrite minus_IZR; ring).
  rewrite !P, !M. split.
  - intros [[-> [-> | ->]] | [-> [-> | ->]]].
    + exists 0, 1. split; [lia|]. split; [lia|]. split; f_equal; f_equal; lia.
    + exists 1, 0. split; [lia|]. split; [lia|]. split; f_equal; f_equal; lia.
    + exists 0, 0. split; [lia|]. split; [lia|]. split; f_equal; f_equal; lia.
    + exists 1, 1. split; [lia|]. split; [lia|]. split; f_equal; f_equal; lia.
  - intros (e1 & e2 & H1 & H2 & -> & ->).
    assert (C1 : e1 = 0 \/ e1 = 1) by lia. assert (C2 : e2 = 0 \/ e2 = 1) by lia.
    destruct C1 as [-> | ->], C2 as [-> | ->].
    + right. split; [f_equal; f_equal; lia|]. left. f_equal; f_equal; lia.
    + left. split; [f_equal; f_equal; lia|]. left. f_equal; f_equal; lia.
    + left. split; [f_equal; f_equal; lia|]. right. f_equal; f_equal; lia.
    + right. split; [f_equal; f_equal; lia|]. right. f_equal; f_equal; lia.
Qed.

Lemma site_corner : forall n s t e1 e2, site n s t -> 0 <= e1 <= 1 -> 0 <= e2 <= 1 -> is_corner n (s + e1) (t + e2).
Proof.
  intros n s t e1 e2 (k & d & a & b & Hd & Ha & Hb & -> & ->) H1 H2.
  exists k, d, (a + e1), (b + e2). lia.
Qed.

Lemma share_touch : forall n s t s' t', 1 <= n -> site n s t -> site n s' t' ->
  let h := half_diag n in
  (share_corner n (IZR (s + t + 1 - n) * h) (IZR (t - s) * h) (IZR (s' + t' + 1 - n) * h) (IZR (t' - s') * h)
   <-> touch n s t s' t').
Proof.
  intros n s t s' t' Hn S S' h. unfold share_corner, touch. split.
  - intros (x & y & x' & y' & C & C' & E).
    apply corner_lattice in C; auto. apply corner_lattice in C'; auto.
    destruct C as (e1 & e2 & H1 & H2 & -> & ->). destruct C' as (f1 & f2 & H3 & H4 & -> & ->).
    apply corners_meet in E; [|auto|apply site_corner; auto|apply site_corner; auto].
    destruct E as [m G]. exists e1, e2, f1, f2, m. auto.
  - intros (e1 & e2 & f1 & f2 & m & H1 & H2 & H3 & H4 & G).
    exists (IZR (s + e1 + (t + e2) - n) * h)%R, (IZR (t + e2 - (s + e1)) * h)%R,
      (IZR (s' + f1 + (t' + f2) - n) * h)%R, (IZR (t' + f2 - (s' + f1)) * h)%R.
    split; [apply corner_lattice; eauto 10|]. split; [apply corner_lattice; eauto 10|].
    apply corners_meet; [auto|apply site_corner; auto|apply site_corner; auto|]. exists m. auto.
Qed.

Lemma neighbour_adjacent : forall n p s t, 1 <= n -> legal_pix n p -> star_at n p s t ->
  forall s' t', neighbour n s t s' t' <-> exists q, adjacent n p q /\ star_at n q s' t'.
Proof.
  intros n p s t Hn Hp St s' t'. destruct (star_facts n p s t Hn Hp St) as (S & D & E). split.
  - intros (S' & D' & T & NP). destruct (site_star n s' t' Hn S' D') as (q & Hq & Sq). exists q. split; auto.
    split; [auto|]. split.
    + intros ->. destruct (star_fun _ _ _ _ _ _ St Sq) as [-> ->]. apply NP; auto.
    + destruct (star_facts n q s' t' Hn Hq Sq) as (_ & _ & E').
      do 4 eexists. split; [exact E|]. split; [exact E'|]. apply share_touch; auto.
  - intros (q & (Hq & NQ & xp & yp & xq & yq & F1 & F2 & SC) & Sq).
    destruct (star_facts n q s' t' Hn Hq Sq) as (S' & D' & E').
    rewrite E in F1. rewrite E' in F2. apply Ok_inj in F1. apply Ok_inj in F2.
    injection F1 as <- <-. injection F2 as <- <-. apply share_touch in SC; auto.
    split; [auto|]. split; [auto|]. split; [auto|]. intros [-> ->]. apply NQ.
    apply (star_inj n q p s t); auto.
Qed.

(** ** The statements for pixels *)

(** Left edge of a face of the north cap, below the polar pixel. *)
Definition north_left_edge (n s t : Z) : Prop :=
  s mod n = 0 /\ n * (s / n) + n <= t /\ t - s + 1 <> 2 * n.

Lemma north_left_face : forall n k d a b, 2 <= n -> -1 <= d <= 1 -> 0 <= a < n -> 0 <= b < n ->
  north_left_edge n (n * k + a) (n * k + n * d + b) <-> left_edge n k a d b.
Proof.
  intros n k d a b Hn Hd Ha Hb. unfold north_left_edge, left_edge.
  rewrite face_mod, face_div by auto.
  assert (D : d = -1 \/ d = 0 \/ d = 1) by lia. destruct D as [-> | [-> | ->]]; lia.
Qed.

Definition sets_right (n p s t : Z) : Prop :=
  (forall x, In x (fst (ijs_neighbours s t n)) <-> exists q y, adjacent n p q /\ star_at n q x y) /\
  (forall y, In y (snd (ijs_neighbours s t n)) <-> exists q x, adjacent n p q /\ star_at n q x y).

Lemma sets_right_when : forall n p s t, 2 <= n -> legal_pix n p -> star_at n p s t ->
  ~ north_left_edge n s t -> off_seam n s t -> sets_right n p s t.
Proof.
  intros n p s t Hn Hp St NL OS. pose proof (neighbour_adjacent n p s t ltac:(lia) Hp St) as NA.
  destruct (star_facts n p s t ltac:(lia) Hp St) as ((k & d & a & b & Hd & Ha & Hb & Es & Et) & D & _).
  rewrite Es, Et in NL. rewrite north_left_face in NL by auto.
  destruct (right_sets n k d a b Hn Hd Ha Hb) as [R1 R2]; rewrite <- ?Es, <- ?Et in *; auto.
  split.
  - intros x. rewrite R1. split.
    + intros [y H]. apply NA in H. destruct H as [q H]. eauto.
    + intros (q & y & H). exists y. apply NA. eauto.
  - intros y. rewrite R2. split.
    + intros [x H]. apply NA in H. destruct H as [q H]. eauto.
    + intros (q & x & H). exists x. apply NA. eauto.
Qed.

Lemma left_edge_missing : forall n p s t, 2 <= n -> legal_pix n p -> star_at n p s t ->
  north_left_edge n s t ->
  exists q x y, adjacent n p q /\ star_at n q x y /\ ~ In x (fst (ijs_neighbours s t n)).
Proof.
  intros n p s t Hn Hp St NL. pose proof (neighbour_adjacent n p s t ltac:(lia) Hp St) as NA.
  destruct (star_facts n p s t ltac:(lia) Hp St) as ((k & d & a & b & Hd & Ha & Hb & Es & Et) & D & _).
  rewrite Es, Et in NL. rewrite north_left_face in NL by auto.
  destruct (left_edge_wrong n k d a b Hn Hd Ha Hb) as (s' & t' & N & NI); rewrite <- ?Es, <- ?Et in *; auto.
  apply NA in N. destruct N as (q & A & S). exists q, s', t'. auto.
Qed.

Lemma seam_missing : forall n p s t, 2 <= n -> legal_pix n p -> star_at n p s t ->
  ~ north_left_edge n s t -> ~ off_seam n s t ->
  exists q x y, adjacent n p q /\ star_at n q x y /\
    (~ In x (fst (ijs_neighbours s t n)) \/ ~ In y (snd (ijs_neighbours s t n))).
Proof.
  intros n p s t Hn Hp St NL OS. pose proof (neighbour_adjacent n p s t ltac:(lia) Hp St) as NA.
  destruct (star_facts n p s t ltac:(lia) Hp St) as ((k & d & a & b & Hd & Ha & Hb & Es & Et) & D & _).
  rewrite Es, Et in NL. rewrite north_left_face in NL by auto.
  destruct (seam_wrong n k d a b Hn Hd Ha Hb) as (s' & t' & N & NI); rewrite <- ?Es, <- ?Et in *; auto.
  apply NA in N. destruct N as (q & A & S). exists q, s', t'. auto.
Qed.

Lemma sets_right_iff : forall n p s t, 2 <= n -> legal_pix n p -> star_at n p s t ->
  (sets_right n p s t <-> ~ north_left_edge n s t /\ off_seam n s t).
Proof.
  intros n p s t Hn Hp St. split.
  - intros [R1 R2].
    assert (NL : ~ north_left_edge n s t).
    { intros NL. destruct (left_edge_missing n p s t Hn Hp St NL) as (q & x & y & A & S & NI).
      apply NI. apply R1. eauto. }
    split; auto.
    assert (OD : off_seam n s t \/ ~ off_seam n s t).
    { unfold off_seam. lia. }
    destruct OD as [O|O]; auto. exfalso.
    destruct (seam_missing n p s t Hn Hp St NL O) as (q & x & y & A & S & [NI|NI]); apply NI;
      [apply R1|apply R2]; eauto.
  - intros [NL OS]. apply sets_right_when; auto.
Qed.

(** ** The projection shows the standard centres *)

Lemma sky_centre : forall n p, 1 <= n -> legal_pix n p ->
  exists i j x y, pixel_at n p i j /\ pix2xy p n = Ok (x, y) /\
    (let z := centre_z n i in let phi := centre_phi n i j in
     sky x y = V3 (sqrt (1 - z ^ 2) * cos phi) (sqrt (1 - z ^ 2) * sin phi) z)%R.
Proof.
  intros n p Hn Hp. destruct (pix2xy_legal n p Hn Hp) as (i & j & P & E).
  exists i, j. do 2 eexists. split; [exact P|]. split; [exact E|]. cbv zeta.
  destruct P as [L _]. pose proof (ring_len_cap n i j Hn L) as (R1 & R2 & R3). destruct L as [Li Lj].
  pose proof (n_pos n Hn) as N0. pose proof (h_pos n Hn) as H0. pose proof (h_pi n Hn) as HP.
  assert (Z : sky_z (IZR (id2 n i) * half_diag n) = centre_z n i).
  { rewrite lat_z by auto. unfold belt, centre_z, id2, height.
    destruct (Z.ltb_spec i n).
    - replace (Z.abs (2 * n - i) <=? n) with false by (symmetry; apply Z.leb_gt; lia).
      replace (0 <? 2 * n - i) with true by (symmetry; apply Z.ltb_lt; lia).
      replace (2 * n - Z.abs (2 * n - i)) with i by lia. field. lra.
    - destruct (Z.leb_spec i (3 * n)).
      + replace (Z.abs (2 * n - i) <=? n) with true by (symmetry; apply Z.leb_le; lia).
        rewrite minus_IZR, mult_IZR. field. lra.
      + replace (Z.abs (2 * n - i) <=? n) with false by (symmetry; apply Z.leb_gt; lia).
        replace (0 <? 2 * n - i) with false by (symmetry; apply Z.ltb_ge; lia).
        replace (2 * n - Z.abs (2 * n - i)) with (4 * n - i) by lia. rewrite minus_IZR, mult_IZR. field. lra. }
  assert (PH : sky_phi (IZR (jd2 n i j) * half_diag n) (IZR (id2 n i) * half_diag n) = centre_phi n i j).
  { unfold centre_phi. destruct (Z.ltb_spec i n).
    - assert (B : belt n (id2 n i) = false) by (apply Z.leb_gt; unfold id2; lia).
      assert (HI : height n (id2 n i) = i) by (unfold height, id2; lia).
      rewrite lat_phi_cap by (auto; lia). rewrite HI. rewrite HP.
      pose proof (cap_facet n i j ltac:(lia) (R1 ltac:(lia))) as (C1 & C2 & C3).
      assert (T : turn n (jd2 n i j) (id2 n i) = 2 * j - 1).
      { unfold turn. rewrite HI. assert (F : facet n (jd2 n i j) = (j - 1) / i).
        { unfold facet, jd2. rewrite (proj2 (Z.leb_le i n)) by lia. symmetry.
          apply Z.div_unique with (n - i + 1 + 2 * ((j - 1) mod i)); [left; lia|]. ring. }
        rewrite F. unfold jd2. rewrite (proj2 (Z.leb_le i n)) by lia. lia. }
      rewrite T, minus_IZR, mult_IZR. assert (IZR i <> 0)%R by (apply not_0_IZR; lia). field. auto.
    - destruct (Z.leb_spec i (3 * n)).
      + assert (B : belt n (id2 n i) = true) by (apply Z.leb_le; unfold id2; lia).
        rewrite lat_phi_belt by auto. rewrite HP.
        assert (J : jd2 n i j = if Z.even (i + n) then 2 * j - 1 else 2 * j - 2).
        { unfold jd2. destruct (Z.leb_spec i n).
          - assert (i = n) by lia. subst i. rewrite Z.add_diag, Z.even_mul. cbn [Z.even orb].
            pose proof (cap_facet n n j ltac:(lia) (R1 ltac:(lia))) as (C1 & C2 & C3). lia.
          - destruct (Z.ltb_spec i (3 * n)); auto. assert (i = 3 * n) by lia. subst i.
            replace (3 * n + n) with (2 * (2 * n)) by ring. rewrite Z.even_mul. cbn [Z.even orb]. cbv zeta.
            replace (4 * n - 3 * n) with n by ring.
            pose proof (cap_facet n n j ltac:(lia) ltac:(specialize (R3 ltac:(lia)); lia)) as (C1 & C2 & C3). lia. }
        rewrite J. destruct (Z.even (i + n)); rewrite minus_IZR, mult_IZR; field; lra.
      + assert (B : belt n (id2 n i) = false) by (apply Z.leb_gt; unfold id2; lia).
        assert (HI : height n (id2 n i) = 4 * n - i) by (unfold height, id2; lia).
        rewrite lat_phi_cap by (auto; lia). rewrite HI. rewrite HP.
        set (i' := 4 * n - i) in *.
        pose proof (cap_facet n i' j ltac:(lia) (R3 ltac:(lia))) as (C1 & C2 & C3).
        assert (EJ : jd2 n i j = 2 * n * ((j - 1) / i') + (n - i' + 1) + 2 * ((j - 1) mod i')).
        { unfold jd2. rewrite (proj2 (Z.leb_gt i n)) by lia. rewrite (proj2 (Z.ltb_ge i (3 * n))) by lia. reflexivity. }
        assert (T : turn n (jd2 n i j) (id2 n i) = 2 * j - 1).
        { unfold turn. rewrite HI. assert (F : facet n (jd2 n i j) = (j - 1) / i').
          { unfold facet. rewrite EJ. symmetry.
            apply Z.div_unique with (n - i' + 1 + 2 * ((j - 1) mod i')); [left; lia|]. ring. }
          rewrite F, EJ. lia. }
        rewrite T. replace (4 * IZR n - IZR i)%R with (IZR i') by (unfold i'; rewrite minus_IZR, mult_IZR; ring).
        rewrite minus_IZR, mult_IZR. assert (IZR i' <> 0)%R by (apply not_0_IZR; lia). field. auto. }
  unfold sky. rewrite Z, PH. reflexivity.
Qed.
