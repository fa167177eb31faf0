(** * Proofs about [MHealCoordDouble.v]: the array branches *)

From Coq Require Import Reals ZArith List Bool Lia Lra.
From Flocq Require Import Core IEEE754.BinarySingleNaN.
From Verif Require Import Base BaseP SpecDouble MDouble PDouble MGridsDouble MRemapDouble PRemapDouble2 MRandomsDouble PHealpixCoord MHealCoordDouble PHealCoordDouble PHealCoordDouble2.
Import ListNotations.
Open Scope R_scope.

Lemma above_nan : forall (c y : double), fin c -> is_nan y = true -> dle (abs_d y) c = false /\ dlt c (abs_d y) = false.
Proof. intros c y F H. destruct y; try discriminate H. unfold dle, dlt, abs_d, Bleb, Bltb. destruct c; try discriminate F; split; reflexivity. Qed.
Lemma above_num : forall (c y : double), fin c -> is_nan y = false -> dlt c (abs_d y) = negb (dle (abs_d y) c).
Proof.
  intros c y F H. destruct (is_finite y) eqn:Fy.
  - destruct (abs_ok y Fy) as [Fa _]. etransitivity; [exact (dlt_ok c (abs_d y) F Fa)|]. etransitivity; [apply Rlt_bool_negb|]. f_equal. symmetry. exact (dle_ok (abs_d y) c Fa F).
  - destruct y; try discriminate. unfold dle, dlt, abs_d, Bleb, Bltb. destruct c as [sc|sc| |sc mc ec Hc]; try discriminate F; destruct sc; reflexivity.
Qed.

Lemma length_xy2ang_arr_d : forall f xs ys, length (fst (xy2ang_arr_d f xs ys)) = length xs /\ length (snd (xy2ang_arr_d f xs ys)) = length xs.
Proof.
  intros. unfold xy2ang_arr_d. cbn [fst snd]. split.
  - destruct (negb _); rewrite ?length_put, ?repeat_length; auto.
  - rewrite ?length_put, ?repeat_length; auto.
Qed.

Lemma xy2ang_arr_nth : forall f xs ys q, length xs = length ys -> (q < length xs)%nat ->
  let r := if is_nan (nth q ys dzero) then (dzero, dzero) else xy2ang_d f (nth q xs dzero) (nth q ys dzero) in
  nth q (fst (xy2ang_arr_d f xs ys)) dzero = fst r /\ nth q (snd (xy2ang_arr_d f xs ys)) dzero = snd r.
Proof.
  intros f xs ys q Hl Hq r. unfold xy2ang_arr_d. cbn [fst snd]. destruct quarter_val as [Fqp _].
  set (mb := map (fun y => dle (abs_d y) quarter_pi) ys). set (mp := map (fun y => dlt quarter_pi (abs_d y)) ys).
  assert (Nb : nth q mb false = dle (abs_d (nth q ys dzero)) quarter_pi) by (unfold mb; rewrite nth_map_lt with (d' := dzero) by lia; auto).
  assert (Np : nth q mp false = dlt quarter_pi (abs_d (nth q ys dzero))) by (unfold mp; rewrite nth_map_lt with (d' := dzero) by lia; auto).
  assert (Lb : length mb = length xs) by (unfold mb; rewrite map_length; auto). assert (Lp : length mp = length xs) by (unfold mp; rewrite map_length; auto).
  assert (PB : if is_nan (nth q ys dzero) then nth q mb false = false /\ nth q mp false = false else nth q mp false = negb (nth q mb false)).
  { rewrite Nb, Np. destruct (is_nan (nth q ys dzero)) eqn:N; [apply above_nan|apply above_num]; assumption. }
  set (B := nth q mb false) in *. set (P := nth q mp false) in *. split.
  - set (sa := fun i => cap_siga (cap_sigz (nth i ys dzero))). set (kk := fun i => cap_k (nth i xs dzero)). set (F := fun i => cap_phi (nth i xs dzero) (sa i) (kk i)).
    set (phi0 := put (repeat dzero (length xs)) (np_where mb) (take dzero xs (np_where mb))).
    assert (P0 : nth q phi0 dzero = if B then nth q xs dzero else dzero).
    { unfold phi0, take. rewrite nth_put_where by (rewrite repeat_length; auto). rewrite nth_repeat_lt by auto. auto. }
    assert (L0 : length phi0 = length xs) by (unfold phi0; rewrite length_put, repeat_length; auto).
    set (S := map cap_siga (map cap_sigz (take dzero ys (np_where mp)))). set (K := map cap_k (take dzero xs (np_where mp))).
    assert (ES : S = map sa (np_where mp)) by (unfold S, take; rewrite !map_map; auto). assert (EK : K = map kk (np_where mp)) by (unfold K, take; rewrite !map_map; auto).
    assert (RES : nth q (if negb (existsb (fun s => deq s one_d) S) then put phi0 (np_where mp) (map2 (fun x sk => cap_phi x (fst sk) (snd sk)) (take dzero xs (np_where mp)) (combine S K))
       else put (put phi0 (take 0%nat (np_where mp) (np_where (map (fun s => deq s one_d) S))) (map (fun _ => dzero) (np_where (map (fun s => deq s one_d) S))))
         (take 0%nat (np_where mp) (np_where (map (fun s => negb (deq s one_d)) S)))
         (map2 (fun x sk => cap_phi x (fst sk) (snd sk)) (take dzero xs (take 0%nat (np_where mp) (np_where (map (fun s => negb (deq s one_d)) S))))
            (combine (take dzero S (np_where (map (fun s => negb (deq s one_d)) S))) (take dzero K (np_where (map (fun s => negb (deq s one_d)) S)))))) dzero
       = if P then (if deq (sa q) one_d then dzero else F q) else nth q phi0 dzero).
    { destruct (negb (existsb (fun s => deq s one_d) S)) eqn:E.
      + rewrite ES, EK. rewrite combine_map_map. unfold take. rewrite map2_map_map. cbn [fst snd].
        rewrite nth_put_where; [| exact (eq_trans Lp (eq_sym L0)) | rewrite <- L0 in Hq; exact Hq]. fold P. destruct P eqn:EP; [|reflexivity].
        assert (Hsa : deq (sa q) one_d = false).
        { apply negb_true_iff in E. destruct (deq (sa q) one_d) eqn:C; [|reflexivity]. exfalso. assert (existsb (fun s => deq s one_d) S = true); [|congruence]. apply existsb_exists. exists (sa q). split; [|exact C]. rewrite ES. apply in_map. apply in_np_where. split; [lia|exact EP]. }
        rewrite Hsa. reflexivity.
      + rewrite ES, EK. rewrite !map_map. rewrite !take_where_filter.
        set (idx1 := filter (fun x => deq (sa x) one_d) (np_where mp)). set (idx2 := filter (fun x => negb (deq (sa x) one_d)) (np_where mp)). set (c2 := np_where (map (fun x => negb (deq (sa x) one_d)) (np_where mp))).
        assert (HC2 : forall c, In c c2 -> (c < length (np_where mp))%nat) by (intros c Hc; apply in_np_where in Hc; rewrite map_length in Hc; tauto).
        rewrite (take_map _ _ sa (np_where mp) c2 dzero 0%nat HC2), (take_map _ _ kk (np_where mp) c2 dzero 0%nat HC2). unfold c2. rewrite take_where_filter. fold idx2.
        rewrite combine_map_map. unfold take. rewrite map2_map_map. cbn [fst snd]. unfold idx2.
        rewrite nth_put_filter; [| rewrite length_put; exact (eq_trans Lp (eq_sym L0)) | rewrite length_put; rewrite <- L0 in Hq; exact Hq].
        assert (E1 : map (fun _ : nat => dzero) (np_where (map (fun x => deq (sa x) one_d) (np_where mp))) = map (fun _ => dzero) idx1) by (unfold idx1; rewrite <- take_where_filter; unfold take; rewrite map_map; auto).
        rewrite E1. unfold idx1. rewrite nth_put_filter; [| exact (eq_trans Lp (eq_sym L0)) | rewrite <- L0 in Hq; exact Hq].
        fold P. destruct P; cbn [andb]; [|reflexivity]. destruct (deq (sa q) one_d); reflexivity. }
    etransitivity; [exact RES|]. rewrite P0. unfold r. destruct (is_nan (nth q ys dzero)); [destruct PB as [B0 P1]; rewrite B0, P1; reflexivity|]. rewrite PB. unfold xy2ang_d. rewrite <- Nb. destruct B; reflexivity.
  - unfold take. rewrite !map_map. rewrite nth_put_where by (rewrite length_put, repeat_length; auto). rewrite nth_put_where by (rewrite repeat_length; auto).
    rewrite nth_repeat_lt by auto. fold B P. unfold r. destruct (is_nan (nth q ys dzero)); [destruct PB as [B0 P1]; rewrite B0, P1; reflexivity|]. rewrite PB. unfold xy2ang_d. rewrite <- Nb. destruct B; reflexivity.
Qed.

Lemma length_ang2xy_arr_d : forall f ps ts, length (fst (ang2xy_arr_d f ps ts)) = length ps /\ length (snd (ang2xy_arr_d f ps ts)) = length ts.
Proof. intros. unfold ang2xy_arr_d. cbn [fst snd]. rewrite ?length_put, ?repeat_length; auto. Qed.

Lemma ang2xy_arr_nth : forall f ps ts q, length ps = length ts -> (q < length ps)%nat ->
  let r := (nth q (fst (ang2xy_arr_d f ps ts)) dzero, nth q (snd (ang2xy_arr_d f ps ts)) dzero) in
  (is_nan (f (nth q ts dzero)) = false -> ang2xy_d f (nth q ps dzero) (nth q ts dzero) = Ok r) /\
  (is_nan (f (nth q ts dzero)) = true -> ang2xy_d f (nth q ps dzero) (nth q ts dzero) = Err UnboundLocalError /\ r = (dzero, dzero)).
Proof.
  intros f ps ts q Hl Hq r. destruct thirds_val as (F23 & _ & _).
  assert (R : r = if dlt two_thirds (abs_d (f (nth q ts dzero))) then (cap_x (nth q ps dzero) (cap_siga (cap_sigz_of (f (nth q ts dzero)))) (mod_d (nth q ps dzero) half_pi), cap_y (cap_sigz_of (f (nth q ts dzero))))
     else if dle (abs_d (f (nth q ts dzero))) two_thirds then (nth q ps dzero, belt_y f (nth q ts dzero)) else (dzero, dzero)).
  { unfold r, ang2xy_arr_d. cbn [fst snd]. rewrite !map_map.
    set (mb := map (fun t => dle (abs_d (f t)) two_thirds) ts). set (mp := map (fun t => dlt two_thirds (abs_d (f t))) ts).
    assert (Nb : nth q mb false = dle (abs_d (f (nth q ts dzero))) two_thirds) by (unfold mb; rewrite nth_map_lt with (d' := dzero) by lia; auto).
    assert (Np : nth q mp false = dlt two_thirds (abs_d (f (nth q ts dzero)))) by (unfold mp; rewrite nth_map_lt with (d' := dzero) by lia; auto).
    assert (Lb : length mb = length ps) by (unfold mb; rewrite map_length; auto). assert (Lp : length mp = length ps) by (unfold mp; rewrite map_length; auto).
    assert (HC : forall c, In c (np_where mp) -> (c < length ts)%nat) by (intros c Hc; apply in_np_where in Hc; lia).
    rewrite (take_map _ _ f ts (np_where mp) dzero dzero HC). unfold take. rewrite !map_map, combine_map_map, map2_map_map. cbn [fst snd].
    rewrite !nth_put_where by (rewrite ?length_put, ?repeat_length; lia). rewrite Np, Nb, !nth_repeat_lt by lia.
    destruct (dlt two_thirds _); [reflexivity|]. destruct (dle _ two_thirds); reflexivity. }
  rewrite R. unfold ang2xy_d. split; intros N.
  - pose proof (above_num two_thirds _ F23 N) as X. rewrite X. destruct (dle _ two_thirds); reflexivity.
  - destruct (above_nan two_thirds _ F23 N) as [X Y]. rewrite X, Y. auto.
Qed.
