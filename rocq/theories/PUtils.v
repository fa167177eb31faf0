(** * Utilities *)

From Coq Require Import Reals ZArith List Bool String Ascii DecimalString Lra Lia Psatz.
From Flocq Require Import Core.Raux.
From Verif Require Import Base BaseP SpecUtils MUtils.
Import ListNotations.
Open Scope R_scope.

(** ** Monotonicity check *)

Lemma is_pos_monotonic_spec : forall l : list R,
  is_pos_monotonic (map Some l) = true <->
  (forall i j, (i <= j < List.length l)%nat -> nth i l 0 <= nth j l 0).
Proof.
  intros l. unfold is_pos_monotonic. rewrite map_length, forallb_forall.
  assert (N : forall i, (i < List.length l)%nat -> nth i (map Some l) None = Some (nth i l 0)).
  { intros i Hi. apply (nth_map_lt R num Some l i None 0). exact Hi. }
  split.
  - intros H i j [Hij Hj].
    assert (S1 : forall i, (S i < List.length l)%nat -> nth i l 0 <= nth (S i) l 0).
    { intros k Hk. specialize (H k). rewrite !N in H by lia. cbn [nle] in H.
      assert (I : In k (seq 0 (List.length l - 1))) by (apply in_seq; lia). assert (E := H I).
      revert E. unfold Rle_bool. destruct (Rcompare_spec (nth k l 0) (nth (S k) l 0)); intros; lra || discriminate. }
    clear H. induction j as [|j IH].
    + replace i with 0%nat by lia. lra.
    + destruct (Nat.eq_dec i (S j)) as [->|Hne]; [lra|].
      apply Rle_trans with (nth j l 0); [apply IH; lia|apply S1; lia].
  - intros H i Hi. apply in_seq in Hi. rewrite !N by lia. cbn [nle].
    apply Rle_bool_true. apply H. lia.
Qed.

Lemma is_pos_monotonic_nan : forall (l : list num) i, (2 <= List.length l)%nat -> (i < List.length l)%nat ->
  nth i l None = None -> is_pos_monotonic l = false.
Proof.
  intros l i HL Hi HN. unfold is_pos_monotonic. apply not_true_is_false. rewrite forallb_forall. intros H.
  destruct i as [|i].
  - assert (I : In 0%nat (seq 0 (List.length l - 1))) by (apply in_seq; lia). specialize (H 0%nat I). rewrite HN in H. discriminate H.
  - assert (I : In i (seq 0 (List.length l - 1))) by (apply in_seq; lia). specialize (H i I). rewrite HN in H.
    destruct (nth i l None); discriminate H.
Qed.

Lemma is_pos_monotonic_short : forall l, (List.length l <= 1)%nat -> is_pos_monotonic l = true.
Proof. intros [|a [|b l]] H; cbn in H; try lia; reflexivity. Qed.

(** ** Strings *)
Open Scope string_scope.

Lemma append_length : forall a b, String.length (a ++ b) = (String.length a + String.length b)%nat.
Proof. induction a as [|c a IH]; intros b; cbn; [reflexivity|now rewrite IH]. Qed.

Lemma newlines_app : forall a b, newlines (a ++ b) = (newlines a + newlines b)%nat.
Proof. induction a as [|c a IH]; intros b; cbn [append newlines]; [reflexivity|rewrite IH; lia]. Qed.

Lemma append_nil_r : forall a, a ++ "" = a.
Proof. induction a as [|c a IH]; cbn; [reflexivity|now rewrite IH]. Qed.

Lemma append_assoc' : forall a b c, (a ++ b) ++ c = a ++ b ++ c.
Proof. induction a as [|x a IH]; intros b c; cbn; [reflexivity|now rewrite IH]. Qed.

Lemma str_rep_chars : forall c n, str_rep (String c "") n = chars c n.
Proof. intros c. induction n as [|n IH]; cbn; [reflexivity|now rewrite IH]. Qed.

Lemma chars_length : forall c n, String.length (chars c n) = n.
Proof. induction n as [|n IH]; cbn; [reflexivity|now rewrite IH]. Qed.

Lemma newlines_rep : forall s n, newlines s = 0%nat -> newlines (str_rep s n) = 0%nat.
Proof. intros s n H. induction n as [|n IH]; cbn [str_rep]; [reflexivity|rewrite newlines_app, H, IH; reflexivity]. Qed.

Lemma newlines_uint : forall d, newlines (NilEmpty.string_of_uint d) = 0%nat.
Proof. induction d; cbn; auto. Qed.

Lemma newlines_dec : forall z, newlines (dec z) = 0%nat.
Proof.
  intros z. unfold dec. destruct (Z.to_int z) as [d|d]; cbn [NilZero.string_of_int].
  - destruct d; try apply newlines_uint. reflexivity.
  - cbn [newlines]. destruct d; try apply newlines_uint. reflexivity.
Qed.

Lemma dec_length_1 : forall z, (0 <= z < 10)%Z -> String.length (dec z) = 1%nat.
Proof.
  intros z H. assert (In z (map Z.of_nat (seq 0 10))) as I.
  { apply in_map_iff. exists (Z.to_nat z). split; [lia|]. apply in_seq. lia. }
  cbn in I. repeat (destruct I as [<-|I]; [reflexivity|]). destruct I.
Qed.

Lemma dec_length_2 : forall z, (10 <= z < 100)%Z -> String.length (dec z) = 2%nat.
Proof.
  intros z H. assert (I : In z (map Z.of_nat (seq 10 90))).
  { apply in_map_iff. exists (Z.to_nat z). split; [lia|]. apply in_seq. lia. }
  assert (F : forallb (fun z => Nat.eqb (String.length (dec z)) 2) (map Z.of_nat (seq 10 90)) = true)
    by (vm_compute; reflexivity).
  rewrite forallb_forall in F. apply Nat.eqb_eq. now apply F.
Qed.

(** ** The bar *)

Section Bar.
Variables (index length bar_length : Z).
Hypothesis (HI : (0 <= index < length)%Z) (HB : (0 <= bar_length)%Z).

Definition done_count : Z := ((index + 1) * bar_length / length)%Z.

Lemma done_trunc :
  Ztrunc ((IZR (index + 1) / IZR length) * 100 / 100 * IZR bar_length) = done_count.
Proof.
  replace ((IZR (index + 1) / IZR length) * 100 / 100 * IZR bar_length)
    with (IZR ((index + 1) * bar_length) / IZR length).
  2: { rewrite mult_IZR. field. apply IZR_neq. lia. }
  rewrite Ztrunc_floor.
  - apply Zfloor_div. lia.
  - apply Rmult_le_pos; [apply IZR_le; nia|]. left. apply Rinv_0_lt_compat. apply IZR_lt. lia.
Qed.

Lemma done_range : (0 <= done_count <= bar_length)%Z.
Proof.
  unfold done_count. split; [apply Z.div_pos; nia|].
  apply Z.div_le_upper_bound; nia.
Qed.

Lemma done_full : (1 <= bar_length)%Z -> (done_count = bar_length <-> index + 1 = length)%Z.
Proof.
  intros H1. unfold done_count. split; intros H.
  - destruct (Z.eq_dec (index + 1) length) as [|Hne]; [assumption|].
    exfalso. assert (((index + 1) * bar_length / length < bar_length)%Z).
    { apply Z.div_lt_upper_bound; nia. }
    lia.
  - rewrite H. rewrite Z.mul_comm. apply Z.div_mul. lia.
Qed.

Lemma bar_string_spec : forall done undone left right,
  bar_string index length bar_length done undone left right
  = left ++ str_rep done (Z.to_nat done_count)
         ++ str_rep undone (Z.to_nat bar_length - Z.to_nat done_count) ++ right.
Proof.
  intros done undone left right. unfold bar_string. rewrite done_trunc.
  pose proof done_range as D. unfold str_mul.
  destruct (Z.eqb_spec done_count 0) as [E0|E0]; cbn [negb andb].
  - rewrite E0. cbn [Z.to_nat str_rep]. rewrite Nat.sub_0_r, append_assoc'. reflexivity.
  - destruct (Z.eqb_spec done_count bar_length) as [E1|E1]; cbn [negb andb].
    + rewrite E1, Nat.sub_diag. cbn [str_rep]. rewrite append_assoc'. reflexivity.
    + replace (Z.to_nat (bar_length - done_count)) with (Z.to_nat bar_length - Z.to_nat done_count)%nat by lia.
      rewrite !append_assoc'. reflexivity.
Qed.

Lemma percentage_range : 0 < (IZR (index + 1) / IZR length) * 100 <= 100.
Proof.
  assert (0 < IZR (index + 1)) by (apply IZR_lt; lia).
  assert (IZR (index + 1) <= IZR length) by (apply IZR_le; lia).
  assert (E : IZR (index + 1) / IZR length * IZR length = IZR (index + 1)) by (field; lra).
  split.
  - apply Rmult_lt_0_compat; [|lra]. apply Rdiv_lt_0_compat; lra.
  - nra.
Qed.

Lemma percentage_width : String.length (percentage_string index length) = 6%nat.
Proof.
  unfold percentage_string. pose proof percentage_range as R.
  set (p := (IZR (index + 1) / IZR length) * 100) in *.
  assert (F : (0 <= Ztrunc p)%Z) by (rewrite Ztrunc_floor by lra; apply Zfloor_lub; cbn; lra).
  assert (T : Ztrunc p = Zfloor p) by (apply Ztrunc_floor; lra).
  destruct (Zfloor_bound p) as [B1 B2].
  destruct (Rlt_bool_spec p 10).
  - rewrite !append_length, dec_length_1; [reflexivity|]. split; [exact F|].
    apply lt_IZR. rewrite T. lra.
  - destruct (Req_bool_spec p 100) as [E|E]; cbn [negb].
    + rewrite E. change 100 with (IZR 100). rewrite Ztrunc_IZR. reflexivity.
    + rewrite !append_length, dec_length_2; [reflexivity|]. rewrite T. split.
      * apply Zfloor_lub. cbn. lra.
      * apply lt_IZR. lra.
Qed.

Lemma newlines_percentage : newlines (percentage_string index length) = 0%nat.
Proof.
  unfold percentage_string.
  repeat match goal with |- context [if ?b then _ else _] => destruct b end;
    rewrite !newlines_app, newlines_dec; reflexivity.
Qed.

End Bar.

(** ** Whole lines *)

Definition edge (e : option string) (d : string) : string := match e with None => d | Some s => s end.

(** The text of one refresh, without the final line feed. *)
Definition bar_line (i L : Z) (expl : option string) (indexing : bool) (md mu be : string)
    (bl br : option string) (blen : Z) : string :=
  cr ++ (match expl with Some e => e ++ " : " | None => "" end)
     ++ (edge bl be ++ str_rep md (Z.to_nat (done_count i L blen))
          ++ str_rep mu (Z.to_nat blen - Z.to_nat (done_count i L blen)) ++ edge br be)
     ++ percentage_string i L
     ++ (if indexing then "[" ++ dec (i + 1) ++ "/" ++ dec L ++ "]" else "").

Definition stride (L nref : Z) : Z := (L / Z.min nref L)%Z.

Lemma progress_bar_spec : forall i L expl indexing nref md mu be bl br blen,
  (0 <= i < L)%Z -> (1 <= nref)%Z -> (0 <= blen)%Z ->
  progress_bar i L expl indexing nref md mu be bl br blen
  = Ok (let line := bar_line i L expl indexing md mu be bl br blen in
        if (i + 1 =? L)%Z then [line; line ++ nl]
        else if ((i + 1) mod stride L nref =? 0)%Z then [line] else []).
Proof.
  intros i L expl indexing nref md mu be bl br blen Hi Hn Hb. unfold progress_bar.
  destruct (Z.eqb_spec L 0) as [|_]; [lia|].
  fold (edge bl be). fold (edge br be).
  assert (EN : (if (L <=? nref)%Z then L else nref) = Z.min nref L) by (destruct (Z.leb_spec L nref); lia).
  rewrite EN.
  destruct (Z.eqb_spec (Z.min nref L) 0) as [|_]; [lia|].
  assert (ES : Ztrunc (IZR L / IZR (Z.min nref L)) = stride L nref).
  { rewrite Ztrunc_floor. - apply Zfloor_div. lia.
    - apply Rmult_le_pos; [apply IZR_le; lia|]. left. apply Rinv_0_lt_compat, IZR_lt. lia. }
  rewrite ES.
  assert (S1 : (1 <= stride L nref)%Z) by (unfold stride; apply Z.div_le_lower_bound; lia).
  destruct (Z.eqb_spec (stride L nref) 0) as [|_]; [lia|].
  rewrite (bar_string_spec i L blen Hi Hb).
  assert (EL : forall bar ps ix, match expl with
      | Some e => cr ++ e ++ " : " ++ bar ++ ps ++ ix
      | None => cr ++ bar ++ ps ++ ix end
    = cr ++ (match expl with Some e => e ++ " : " | None => "" end) ++ bar ++ ps ++ ix).
  { intros bar ps ix. destruct expl as [e|]; [|reflexivity]. now rewrite !append_assoc'. }
  rewrite EL. cbv zeta.
  fold (bar_line i L expl indexing md mu be bl br blen).
  destruct (i + 1 =? L)%Z; [now rewrite orb_true_r|].
  rewrite orb_false_r. now destruct ((i + 1) mod stride L nref =? 0)%Z.
Qed.

Lemma newlines_line : forall i L expl indexing md mu be bl br blen,
  newlines (match expl with Some e => e | None => "" end) = 0%nat ->
  newlines md = 0%nat -> newlines mu = 0%nat ->
  newlines (edge bl be) = 0%nat -> newlines (edge br be) = 0%nat ->
  newlines (bar_line i L expl indexing md mu be bl br blen) = 0%nat.
Proof.
  intros i L expl indexing md mu be bl br blen H1 H2 H3 H4 H5. unfold bar_line.
  rewrite !newlines_app, newlines_percentage, !newlines_rep, H4, H5 by assumption.
  assert (E : newlines (match expl with Some e => e ++ " : " | None => "" end) = 0%nat).
  { destruct expl as [e|]; [|reflexivity]. now rewrite newlines_app, H1. }
  rewrite E. destruct indexing; [|reflexivity]. rewrite !newlines_app, !newlines_dec. reflexivity.
Qed.

Lemma line_width : forall i L expl c1 c2 be bl br blen, (0 <= i < L)%Z -> (0 <= blen)%Z ->
  String.length (bar_line i L expl false (String c1 "") (String c2 "") be bl br blen)
  = (7 + String.length (match expl with Some e => e ++ " : " | None => "" end)
     + String.length (edge bl be) + Z.to_nat blen + String.length (edge br be))%nat.
Proof.
  intros i L expl c1 c2 be bl br blen Hi Hb. unfold bar_line.
  pose proof (done_range i L blen Hi Hb).
  rewrite !append_length, !str_rep_chars, !chars_length, percentage_width by lia.
  cbn [String.length cr]. lia.
Qed.

(** ** Number of refreshes *)

Lemma count_multiples : forall q n, (1 <= q)%Z ->
  List.length (filter (fun i => (Z.of_nat i + 1) mod q =? 0)%Z (seq 0 n)) = Z.to_nat (Z.of_nat n / q).
Proof.
  intros q n Hq. induction n as [|n IH]; [reflexivity|].
  rewrite seq_S, filter_app, app_length, IH. cbn [filter]. rewrite Nat.add_0_l.
  replace (Z.of_nat (S n)) with (Z.of_nat n + 1)%Z by lia.
  assert (0 <= Z.of_nat n / q)%Z by (apply Z.div_pos; lia).
  destruct (Z.eqb_spec ((Z.of_nat n + 1) mod q) 0) as [E|E]; cbn [List.length].
  - assert ((Z.of_nat n + 1) / q = Z.of_nat n / q + 1)%Z.
    { set (m := Z.of_nat n) in *. Z.to_euclidean_division_equations. nia. }
    lia.
  - assert ((Z.of_nat n + 1) / q = Z.of_nat n / q)%Z.
    { set (m := Z.of_nat n) in *. Z.to_euclidean_division_equations. nia. }
    lia.
Qed.

Lemma filter_ext_in' : forall A (f g : A -> bool) l, (forall x, In x l -> f x = g x) -> filter f l = filter g l.
Proof.
  intros A f g l. induction l as [|a l IH]; intros H; [reflexivity|]. cbn.
  rewrite H by now left. rewrite IH by (intros; apply H; now right). reflexivity.
Qed.

Lemma refresh_count : forall L expl indexing nref md mu be bl br blen,
  (1 <= L)%nat -> (1 <= nref)%Z -> (0 <= blen)%Z ->
  List.length (filter (fun i => match progress_bar (Z.of_nat i) (Z.of_nat L) expl indexing nref md mu be bl br blen
                    with Ok (_ :: _) => true | _ => false end) (seq 0 L))
  = S (Z.to_nat ((Z.of_nat L - 1) / stride (Z.of_nat L) nref)).
Proof.
  intros L expl indexing nref md mu be bl br blen HL Hn Hb.
  set (N := Z.of_nat L).
  assert (S1 : (1 <= stride N nref)%Z) by (unfold stride, N; apply Z.div_le_lower_bound; lia).
  destruct L as [|L]; [lia|]. rewrite seq_S, filter_app, app_length. rewrite Nat.add_0_l.
  rewrite (filter_ext_in' _ _ (fun i => (Z.of_nat i + 1) mod stride N nref =? 0)%Z).
  - rewrite count_multiples by exact S1. cbn [filter].
    rewrite progress_bar_spec by (unfold N in *; lia). cbv zeta.
    replace (Z.of_nat L + 1 =? N)%Z with true by (symmetry; apply Z.eqb_eq; unfold N; lia).
    cbn [List.length]. replace (N - 1)%Z with (Z.of_nat L) by (unfold N; lia). lia.
  - intros i Hi. apply in_seq in Hi. rewrite progress_bar_spec by (unfold N in *; lia). cbv zeta.
    replace (Z.of_nat i + 1 =? N)%Z with false by (symmetry; apply Z.eqb_neq; unfold N; lia).
    now destruct ((Z.of_nat i + 1) mod stride N nref =? 0)%Z.
Qed.

Lemma refresh_bound : forall N nref, (1 <= N)%Z -> (1 <= nref)%Z ->
  (Z.min nref N <= (N - 1) / stride N nref + 1 <= 2 * Z.min nref N - 1)%Z.
Proof.
  intros N nref HN Hn. unfold stride. set (m := Z.min nref N). assert (1 <= m <= N)%Z by lia.
  set (q := (N / m)%Z). assert (1 <= q)%Z by (apply Z.div_le_lower_bound; lia).
  assert (q * m <= N < (q + 1) * m)%Z.
  { unfold q. pose proof (Z.mul_div_le N m). pose proof (Z.mul_succ_div_gt N m). lia. }
  split.
  - assert (m - 1 <= (N - 1) / q)%Z; [|lia]. apply Z.div_le_lower_bound; nia.
  - assert ((N - 1) / q < 2 * m - 1)%Z; [|lia]. apply Z.div_lt_upper_bound; nia.
Qed.
