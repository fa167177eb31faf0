(** * Array branches of the HEALPix index functions agree with the scalar ones *)

From Coq Require Import Reals ZArith List Bool Lia Lra Psatz.
From Flocq Require Import Core.Raux.
From Verif Require Import Base BaseP Spec MHealpixIndex PHealpixIndex.
Import ListNotations.
Open Scope R_scope.

(** Bring vectorised expressions into the form [map (fun k => ...) cond]. *)
Ltac arr_norm :=
  unfold take;
  repeat (rewrite ?map_map, ?map2_map_map, ?combine_map_map).

Lemma nth_put_where_map : forall A B (c : B -> bool) (xs : list B) (l : list A)
    (h : nat -> A) q d dx,
  length xs = length l -> (q < length l)%nat ->
  nth q (put l (np_where (map c xs)) (map h (np_where (map c xs)))) d
  = if c (nth q xs dx) then h q else nth q l d.
Proof.
  intros. rewrite nth_put_where by (rewrite ?map_length; auto).
  rewrite nth_map_lt with (d' := dx) by lia. reflexivity.
Qed.

Lemma map_put_where : forall A B C (c : B -> bool) (xs : list B) (l : list A)
    (h : nat -> A) (g : nat -> A -> C) d,
  length xs = length l ->
  map (fun k => g k (nth k (put l (np_where (map c xs)) (map h (np_where (map c xs)))) d))
      (np_where (map c xs))
  = map (fun k => g k (h k)) (np_where (map c xs)).
Proof.
  intros. apply map_where_ext. intros q Hq Hm. rewrite map_length in Hq.
  rewrite nth_put_where by (rewrite ?map_length; lia). rewrite Hm. reflexivity.
Qed.

(** What the array call puts in a cell, from the outcome of the scalar call. *)
Definition cell_of (r : res (Z * Z)) : option Z * option Z :=
  match r with
  | Ok (i, j) => (Some i, Some j)
  | Err UnboundLocalError => (Some 0%Z, Some 0%Z)
  | Err _ => (None, None)
  end.

Lemma length_pix2ij_arr : forall p nside,
  length (fst (pix2ij_arr p nside)) = length p /\
  length (snd (pix2ij_arr p nside)) = length p.
Proof.
  intros. unfold pix2ij_arr. cbn [fst snd]. rewrite !length_put, !repeat_length. auto.
Qed.

Lemma pix2ij_arr_spec : forall p nside q, (1 <= nside)%Z -> (q < length p)%nat ->
  (nth q (fst (pix2ij_arr p nside)) None, nth q (snd (pix2ij_arr p nside)) None)
  = cell_of (pix2ij (nth q p 0%Z) nside).
Proof.
  intros p nside q Hn Hq. unfold pix2ij_arr. cbv zeta. cbn [fst snd]. arr_norm.
  set (v := nth q p 0%Z).
  assert (G : forall A (c : Z -> bool) (l : list A) (h : nat -> A) d, length l = length p ->
    nth q (put l (np_where (map c p)) (map h (np_where (map c p)))) d
    = if c v then h q else nth q l d).
  { intros. apply nth_put_where_map with (dx := 0%Z); lia. }
  assert (J1 : forall (c : Z -> bool) l (h : nat -> option Z) (f : Z -> option Z -> option Z),
    length l = length p ->
    map (fun k => f (nth k p 0%Z) (nth k (put l (np_where (map c p)) (map h (np_where (map c p)))) None))
        (np_where (map c p))
    = map (fun k => f (nth k p 0%Z) (h k)) (np_where (map c p))).
  { intros. apply (map_put_where _ _ _ c p l h (fun k => f (nth k p 0%Z)) None). auto. }
  assert (J2 : forall (c : Z -> bool) l (h : nat -> option Z) (f : option Z -> option Z),
    length l = length p ->
    map (fun k => f (nth k (put l (np_where (map c p)) (map h (np_where (map c p)))) None))
        (np_where (map c p))
    = map (fun k => f (h k)) (np_where (map c p))).
  { intros. apply (map_put_where _ _ _ c p l h (fun _ => f) None). auto. }
  rewrite (J1 _ _ _ (fun q => ozmap (fun i => q + 1 - 2 * i * (i - 1))%Z)) by (rewrite ?length_put, ?repeat_length; auto).
  rewrite (J1 _ _ _ (fun q => ozmap (fun i => q + 2 * i * (i + 1) + 1 - 12 * nside ^ 2)%Z)) by (rewrite ?length_put, ?repeat_length; auto).
  rewrite (J2 _ _ _ (ozmap (fun i => 4 * nside - i)%Z)) by (rewrite ?length_put, ?repeat_length; auto).
  rewrite !G by (rewrite ?length_put, ?repeat_length; auto).
  rewrite !nth_repeat_lt by auto. fold v. clear G J1 J2.
  unfold pix2ij. clearbody v.
  destruct (Z.leb_spec v (2 * nside * (nside + 1))) as [A|A].
  - replace (2 * nside * (5 * nside - 1) <=? v)%Z with false by (symmetry; apply Z.leb_gt; nia).
    replace (2 * nside * (nside + 1) <? v)%Z with false by (symmetry; apply Z.ltb_ge; nia).
    cbn [andb]. destruct (cap_ring ((IZR v + 1) / 2)); reflexivity.
  - replace (2 * nside * (nside + 1) <? v)%Z with true by (symmetry; apply Z.ltb_lt; nia).
    rewrite andb_true_l.
    destruct (Z.ltb_spec v (2 * nside * (5 * nside - 1))) as [B|B].
    + replace (2 * nside * (5 * nside - 1) <=? v)%Z with false by (symmetry; apply Z.leb_gt; lia).
      reflexivity.
    + replace (2 * nside * (5 * nside - 1) <=? v)%Z with true by (symmetry; apply Z.leb_le; lia).
      rewrite andb_true_l.
      destruct (v <=? 12 * nside ^ 2)%Z; [|reflexivity].
      destruct (cap_ring ((12 * IZR nside ^ 2 - IZR v) / 2)); reflexivity.
Qed.

Lemma ij2pix_arr_spec : forall ri rj nside, (1 <= nside)%Z -> length ri = length rj ->
  ij2pix_arr ri rj nside = map2 (fun i j => ij2pix i j nside) ri rj.
Proof.
  intros ri rj nside Hn Hl. apply list_ext with 0%Z.
  - unfold ij2pix_arr. cbv zeta. rewrite !length_put, repeat_length, map2_length. lia.
  - intros q Hq. unfold ij2pix_arr in *. cbv zeta in *. rewrite !length_put, repeat_length in Hq.
    rewrite nth_map2 with (da := 0%Z) (db := 0%Z) by lia.
    arr_norm.
    assert (G : forall A (c : Z -> bool) (l : list A) (h : nat -> A) d, length l = length ri ->
      nth q (put l (np_where (map c ri)) (map h (np_where (map c ri)))) d
      = if c (nth q ri 0%Z) then h q else nth q l d).
    { intros. apply nth_put_where_map; lia. }
    rewrite !G by (rewrite ?length_put, ?repeat_length; auto).
    rewrite nth_repeat_lt by auto. unfold ij2pix.
    set (i := nth q ri 0%Z). set (j := nth q rj 0%Z). cbv zeta.
    destruct (Z.leb_spec (3 * nside) i); destruct (Z.leb_spec i nside);
      destruct (Z.ltb_spec i (3 * nside)); destruct (Z.ltb_spec nside i);
      try lia; reflexivity.
Qed.

(** Cell of the array call from the outcome of the scalar [j2jd]. *)
Definition num_of (r : res R) : num :=
  match r with Ok x => Some x | Err _ => None end.

Lemma length_j2jd_arr : forall ri rj nside, length (j2jd_arr ri rj nside) = length ri.
Proof. intros. unfold j2jd_arr. cbv zeta. rewrite !length_put, repeat_length. auto. Qed.

Lemma fdiv_nz : forall x y, y <> 0 -> fdiv x y = Some (x / y).
Proof. intros. unfold fdiv. rewrite Req_bool_false by auto. auto. Qed.

Lemma j2jd_arr_spec : forall ri rj nside, (1 <= nside)%Z -> length ri = length rj ->
  j2jd_arr ri rj nside = map2 (fun i j => num_of (j2jd i j nside)) ri rj.
Proof.
  intros ri rj nside Hn Hl. apply list_ext with None.
  - rewrite length_j2jd_arr, map2_length. lia.
  - intros q Hq. rewrite length_j2jd_arr in Hq.
    rewrite nth_map2 with (da := 0%Z) (db := 0%Z) by lia.
    unfold j2jd_arr. cbv zeta.
    assert (G : forall A (c : Z -> bool) (l : list A) (h : nat -> A) d, length l = length ri ->
      nth q (put l (np_where (map c ri)) (map h (np_where (map c ri)))) d
      = if c (nth q ri 0%Z) then h q else nth q l d).
    { intros. apply nth_put_where_map; lia. }
    assert (I : forall (c : bool) A (f g : nat -> A) w, (if c then map f w else map g w)
                = map (fun k => if c then f k else g k) w) by (intros []; auto).
    arr_norm. rewrite !I. arr_norm.
    rewrite !G by (rewrite ?length_put, ?repeat_length; auto).
    rewrite nth_repeat_lt by auto. unfold j2jd. clear G I.
    set (i := nth q ri 0%Z). set (j := nth q rj 0%Z). cbv zeta.
    assert (Z4 : forall l, (l =? 0)%Z = false -> IZR (4 * l) <> 0 /\ IZR (4 * l) / 4 <> 0).
    { intros l E. apply Z.eqb_neq in E. assert (IZR l <> 0) by (apply not_0_IZR; auto).
      rewrite mult_IZR. lra. }
    assert (Z0 : forall l, (4 * l =? 0)%Z = (l =? 0)%Z).
    { intros l. destruct (Z.eqb_spec l 0); destruct (Z.eqb_spec (4 * l) 0); auto; lia. }
    rewrite !Z0.
    destruct (Z.leb_spec (3 * nside) i) as [A|A]; destruct (Z.leb_spec i nside) as [B|B];
      destruct (Z.ltb_spec i (3 * nside)) as [C|C]; destruct (Z.ltb_spec nside i) as [D|D];
      try lia; cbn [andb num_of].
    + destruct (4 * nside - i =? 0)%Z eqn:E.
      * apply Z.eqb_eq in E. rewrite E. unfold fdiv. rewrite Req_bool_true by reflexivity.
        simpl nfloor. destruct (nside mod 2 =? 0)%Z; reflexivity.
      * destruct (Z4 _ E) as [E1 E2]. rewrite fdiv_nz by auto.
        unfold np_mod. rewrite Req_bool_false by auto.
        destruct (nside mod 2 =? 0)%Z; cbn [nfloor nmul nadd num_of]; f_equal;
          rewrite (plus_IZR (Z.quot nside 2)), (mult_IZR nside); ring.
    + destruct (i =? 0)%Z eqn:E.
      * apply Z.eqb_eq in E. rewrite E. unfold fdiv. rewrite Req_bool_true by reflexivity.
        simpl nfloor. destruct (nside mod 2 =? 0)%Z; reflexivity.
      * destruct (Z4 _ E) as [E1 E2]. rewrite fdiv_nz by auto.
        unfold np_mod. rewrite Req_bool_false by auto.
        destruct (nside mod 2 =? 0)%Z; cbn [nfloor nmul nadd num_of]; f_equal;
          rewrite (plus_IZR (Z.quot nside 2)), (mult_IZR nside); ring.
    + destruct (nside mod 2 =? 0)%Z; reflexivity.
Qed.

(** [healpix_pix2xy] on arrays of legal pixels. *)
Lemma all_some_map : forall A (l : list A), all_some (map Some l) = Some l.
Proof. induction l; simpl; auto. rewrite IHl. reflexivity. Qed.

Lemma pix2xy_arr_spec : forall p nside, (1 <= nside)%Z ->
  (forall v, In v p -> legal_pix nside v) ->
  exists xs ys, pix2xy_arr p nside = Some (xs, ys) /\
    length xs = length p /\ length ys = length p /\
    forall q, (q < length p)%nat -> forall x y,
      pix2xy (nth q p 0%Z) nside = Ok (x, y) ->
      nth q xs None = Some x /\ nth q ys None = Some y.
Proof.
  intros p nside Hn Hp.
  set (ri := map (fun v => match pix2ij v nside with Ok (i, _) => i | _ => 0%Z end) p).
  set (rj := map (fun v => match pix2ij v nside with Ok (_, j) => j | _ => 0%Z end) p).
  destruct (length_pix2ij_arr p nside) as [L1 L2].
  assert (E : fst (pix2ij_arr p nside) = map Some ri /\ snd (pix2ij_arr p nside) = map Some rj).
  { split; (apply list_ext with None; [unfold ri, rj; rewrite !map_length; auto|]);
    intros q Hq; rewrite ?L1, ?L2 in Hq; pose proof (pix2ij_arr_spec p nside q Hn Hq) as S;
    unfold ri, rj; rewrite map_map;
    rewrite nth_map_lt with (d' := 0%Z) by auto;
    destruct (pix2ij_correct nside (nth q p 0%Z) Hn (Hp _ (nth_In _ _ Hq))) as [i [j [E _]]];
    rewrite E in *; cbn [cell_of] in S; cbv beta iota; congruence. }
  destruct E as [E1 E2]. unfold pix2xy_arr. rewrite E1, E2, !all_some_map.
  assert (Lr : length ri = length p) by (apply map_length).
  assert (Lj : length rj = length p) by (apply map_length).
  eexists. eexists. split; [reflexivity|].
  rewrite !map_length, length_j2jd_arr. split; [lia|]. split; [lia|]. intros q Hq x y H0. split.
  - rewrite nth_map_lt with (d' := (None : num)) by (rewrite length_j2jd_arr; lia).
    rewrite j2jd_arr_spec by lia. rewrite nth_map2 with (da := 0%Z) (db := 0%Z) by lia.
    unfold ri, rj. rewrite !nth_map_lt with (d' := 0%Z) by auto.
    unfold pix2xy in H0. destruct (pix2ij (nth q p 0%Z) nside) as [[i j]|]; simpl in H0; [|discriminate].
    unfold ij2xy in H0. destruct (j2jd i j nside); simpl in H0; [|discriminate].
    injection H0 as <- <-. cbn [num_of nmul ndiv]. apply fdiv_nz.
    assert (1 <= IZR nside) by (apply IZR_le; auto). lra.
  - rewrite nth_map_lt with (d' := 0%Z) by lia.
    unfold ri. rewrite nth_map_lt with (d' := 0%Z) by auto.
    unfold pix2xy in H0. destruct (pix2ij (nth q p 0%Z) nside) as [[i j]|]; simpl in H0; [|discriminate].
    unfold ij2xy in H0. destruct (j2jd i j nside); simpl in H0; [|discriminate].
    injection H0 as <- <-. apply fdiv_nz.
    assert (1 <= IZR nside) by (apply IZR_le; auto). lra.
Qed.
