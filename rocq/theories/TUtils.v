(** * Theorems about the utilities: C56, C57 *)

From Coq Require Import Reals ZArith List Bool String Ascii Lra Lia.
From Flocq Require Import Core.Raux.
From Verif Require Import Base BaseP SpecUtils MUtils PUtils.
Import ListNotations.
Open Scope R_scope.

(** ** C56 *)

Theorem C56_monotonic : forall l : list R,
  is_pos_monotonic (map Some l) = true <->
  (forall i j, (i <= j < List.length l)%nat -> nth i l 0 <= nth j l 0).
Proof. exact is_pos_monotonic_spec. Qed.
Print Assumptions C56_monotonic.

(** A NaN anywhere in an array of at least two entries makes the answer
    false; arrays of at most one entry always pass. *)
Theorem C56_nan : forall (l : list num) i, (2 <= List.length l)%nat -> (i < List.length l)%nat ->
  nth i l None = None -> is_pos_monotonic l = false.
Proof. exact is_pos_monotonic_nan. Qed.
Print Assumptions C56_nan.

Theorem C56_short : forall l, (List.length l <= 1)%nat -> is_pos_monotonic l = true.
Proof. exact is_pos_monotonic_short. Qed.
Print Assumptions C56_short.

(** Repeated entries pass, so the check does not exclude bins of zero width. *)
Theorem C56_strict_refuted : exists l : list R,
  is_pos_monotonic (map Some l) = true /\
  ~ (forall i j, (i < j < List.length l)%nat -> nth i l 0 < nth j l 0).
Proof.
  exists [0; 1; 1; 2]. split.
  - apply C56_monotonic. intros [|[|[|[|i]]]] [|[|[|[|j]]]] H; cbn in *; try lia; lra.
  - intros H. specialize (H 1%nat 2%nat ltac:(cbn; lia)). cbn in H. lra.
Qed.
Print Assumptions C56_strict_refuted.

Example C56_example : is_pos_monotonic (map Some [3; 1]) = false /\ is_pos_monotonic (map Some [1; 3]) = true.
Proof.
  split.
  - apply not_true_is_false. rewrite C56_monotonic. intros H. specialize (H 0%nat 1%nat ltac:(cbn; lia)).
    cbn in H. lra.
  - apply C56_monotonic. intros [|[|i]] [|[|j]] H; cbn in *; try lia; lra.
Qed.

(** ** C57 *)
Open Scope string_scope.

(** What is drawn: [floor((i+1) bar_length / length)] done markers, the rest
    undone, between the edges. *)
Theorem C57_bar : forall i L blen c1 c2 left right, (0 <= i < L)%Z -> (0 <= blen)%Z ->
  exists k, (k <= Z.to_nat blen)%nat /\ Z.of_nat k = ((i + 1) * blen / L)%Z /\
    bar_string i L blen (String c1 "") (String c2 "") left right
    = left ++ chars c1 k ++ chars c2 (Z.to_nat blen - k) ++ right.
Proof.
  intros i L blen c1 c2 left right Hi Hb. exists (Z.to_nat (done_count i L blen)).
  pose proof (done_range i L blen Hi Hb). split; [lia|]. split; [unfold done_count in *; lia|].
  rewrite bar_string_spec, !str_rep_chars by assumption. reflexivity.
Qed.
Print Assumptions C57_bar.

(** The bar is full exactly at the last index. *)
Theorem C57_full_at_end : forall i L blen c1 c2 left right, (0 <= i < L)%Z -> (1 <= blen)%Z -> c1 <> c2 ->
  bar_string i L blen (String c1 "") (String c2 "") left right
  = left ++ chars c1 (Z.to_nat blen) ++ right <-> (i + 1 = L)%Z.
Proof.
  intros i L blen c1 c2 left right Hi Hb Hc.
  rewrite bar_string_spec, !str_rep_chars by lia.
  pose proof (done_range i L blen Hi ltac:(lia)) as D.
  rewrite <- (done_full i L blen Hi ltac:(lia) Hb).
  split; intros H.
  - destruct (Z.eq_dec (done_count i L blen) blen) as [|Hne]; [assumption|]. exfalso.
    assert (HA : forall a b c, a ++ b = a ++ c -> b = c).
    { induction a as [|x a IH]; intros b c E; cbn in E; [exact E|]. injection E as E. now apply IH. }
    apply HA in H.
    assert (HC : forall n m k, (n < m)%nat -> chars c1 n ++ chars c2 (S k) ++ right <> chars c1 m ++ right).
    { induction n as [|n IH]; intros m k Hm E.
      - destruct m; [lia|]. cbn in E. injection E as E _. congruence.
      - destruct m; [lia|]. cbn in E. injection E as E. apply (IH m k); [lia|exact E]. }
    replace (Z.to_nat blen - Z.to_nat (done_count i L blen))%nat
      with (S (Z.to_nat blen - Z.to_nat (done_count i L blen) - 1))%nat in H by lia.
    apply HC in H; [exact H|lia].
  - rewrite H. rewrite Nat.sub_diag. reflexivity.
Qed.
Print Assumptions C57_full_at_end.

(** The drawn line has the same width at every index (without index
    counter and with one-character markers). *)
Theorem C57_constant_width : forall L expl nref c1 c2 be bl br blen, (1 <= nref)%Z -> (0 <= blen)%Z ->
  exists w, forall i ws line, (0 <= i < L)%Z ->
    progress_bar i L expl false nref (String c1 "") (String c2 "") be bl br blen = Ok ws ->
    hd_error ws = Some line -> String.length line = w.
Proof.
  intros L expl nref c1 c2 be bl br blen Hn Hb. eexists. intros i ws line Hi E H.
  rewrite progress_bar_spec in E by assumption. apply Ok_inj in E. subst ws. cbv zeta in H.
  assert (line = bar_line i L expl false (String c1 "") (String c2 "") be bl br blen) as ->.
  { destruct (i + 1 =? L)%Z; [now injection H|].
    destruct ((i + 1) mod stride L nref =? 0)%Z; [now injection H|discriminate H]. }
  apply line_width; assumption.
Qed.
Print Assumptions C57_constant_width.

(** Every call in a loop succeeds.  Line feeds: none before the last index,
    exactly one at the last index, where it is the last character written
    (for texts and markers without line feeds of their own). *)
Theorem C57_one_newline : forall i L expl indexing nref md mu be bl br blen,
  (0 <= i < L)%Z -> (1 <= nref)%Z -> (0 <= blen)%Z ->
  newlines (match expl with Some e => e | None => "" end) = 0%nat ->
  newlines md = 0%nat -> newlines mu = 0%nat -> newlines be = 0%nat ->
  newlines (match bl with Some e => e | None => "" end) = 0%nat ->
  newlines (match br with Some e => e | None => "" end) = 0%nat ->
  exists ws, progress_bar i L expl indexing nref md mu be bl br blen = Ok ws /\
    newlines (String.concat "" ws) = (if (i + 1 =? L)%Z then 1 else 0)%nat /\
    ((i + 1 = L)%Z -> exists s, String.concat "" ws = s ++ String "010" "").
Proof.
  intros i L expl indexing nref md mu be bl br blen Hi Hn Hb H1 H2 H3 H4 H5 H6.
  rewrite progress_bar_spec by assumption. eexists. split; [reflexivity|]. cbv zeta.
  assert (E := newlines_line i L expl indexing md mu be bl br blen H1 H2 H3
    ltac:(destruct bl; assumption) ltac:(destruct br; assumption)).
  set (line := bar_line i L expl indexing md mu be bl br blen) in *.
  split.
  - destruct (i + 1 =? L)%Z.
    + cbn [String.concat]. rewrite !newlines_app, E. reflexivity.
    + destruct ((i + 1) mod stride L nref =? 0)%Z; [exact E|reflexivity].
  - intros EL. rewrite (proj2 (Z.eqb_eq _ _) EL). cbn [String.concat].
    exists (line ++ line). change ("" ++ line ++ nl)%string with (line ++ nl)%string.
    rewrite append_assoc'. reflexivity.
Qed.
Print Assumptions C57_one_newline.

(** Number of indices of a whole loop at which something is printed: at least
    [min num_refresh length] and less than twice that. *)
Theorem C57_refreshes : forall L expl indexing nref md mu be bl br blen,
  (1 <= L)%nat -> (1 <= nref)%Z -> (0 <= blen)%Z ->
  let printed := List.length (filter (fun i =>
     match progress_bar (Z.of_nat i) (Z.of_nat L) expl indexing nref md mu be bl br blen with
     | Ok (_ :: _) => true | _ => false end) (seq 0 L)) in
  (Z.min nref (Z.of_nat L) <= Z.of_nat printed <= 2 * Z.min nref (Z.of_nat L) - 1)%Z.
Proof.
  intros L expl indexing nref md mu be bl br blen HL Hn Hb. cbv zeta.
  rewrite refresh_count by assumption.
  pose proof (refresh_bound (Z.of_nat L) nref ltac:(lia) Hn).
  assert (0 <= (Z.of_nat L - 1) / stride (Z.of_nat L) nref)%Z.
  { apply Z.div_pos; [lia|]. unfold stride. assert (1 <= Z.of_nat L / Z.min nref (Z.of_nat L))%Z; [|lia].
    apply Z.div_le_lower_bound; lia. }
  lia.
Qed.
Print Assumptions C57_refreshes.

(** "num_refresh: the number of refreshes for the entire progress bar" is not
    kept: with the default 50, a loop of 99 steps prints 99 times. *)
Theorem C57_num_refresh_refuted : exists L nref, (1 <= nref < Z.of_nat L)%Z /\
  Z.of_nat (List.length (filter (fun i =>
     match progress_bar (Z.of_nat i) (Z.of_nat L) None false nref "#" "_" "|" None None 50 with
     | Ok (_ :: _) => true | _ => false end) (seq 0 L))) = (2 * nref - 1)%Z.
Proof.
  exists 99%nat, 50%Z. split; [cbn; lia|]. rewrite refresh_count by lia. reflexivity.
Qed.
Print Assumptions C57_num_refresh_refuted.

(** Zero lengths and zero refreshes divide by zero. *)
Theorem C57_zero : forall i L expl indexing nref md mu be bl br blen,
  progress_bar i 0 expl indexing nref md mu be bl br blen = Err ZeroDivisionError /\
  ((0 < L)%Z -> progress_bar i L expl indexing 0 md mu be bl br blen = Err ZeroDivisionError).
Proof.
  intros i L expl indexing nref md mu be bl br blen. split; [reflexivity|]. intros HL.
  unfold progress_bar. destruct (Z.eqb_spec L 0); [lia|].
  destruct (Z.leb_spec L 0); [lia|]. reflexivity.
Qed.
Print Assumptions C57_zero.

Example C57_example : progress_bar 4 5 (Some "job") true 50 "#" "_" "|" None (Some ">") 4
  = Ok [String "013" "job : |####> 100% [5/5]"; String "013" ("job : |####> 100% [5/5]" ++ String "010" "")].
Proof.
  rewrite progress_bar_spec by lia. cbv zeta. unfold bar_line, percentage_string.
  change (IZR (4 + 1)) with 5. change (IZR 5) with 5. replace (5 / 5 * 100) with (IZR 100) by lra.
  rewrite Rlt_bool_false by lra. rewrite Req_bool_true by lra. rewrite Ztrunc_IZR. reflexivity.
Qed.
