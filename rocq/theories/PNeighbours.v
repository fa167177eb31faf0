(** * The neighbours of a HEALPix pixel, on the integer lattice *)

From Coq Require Import ZArith List Bool Lia Psatz.
From Verif Require Import Base BaseP MHealpixIndex.
Import ListNotations.
Open Scope Z_scope.

(** Star coordinates of the pixels, up to the period [(4n, 4n)]. *)
Definition site (n s t : Z) : Prop :=
  exists k d a b, -1 <= d <= 1 /\ 0 <= a < n /\ 0 <= b < n /\
    s = n * k + a /\ t = n * k + n * d + b.

(** Lattice points that are the same point of the sphere, up to the period. *)
Definition glued (n u v u' v' : Z) : Prop :=
  (u' = u /\ v' = v) \/
  ((n | v) /\ n <= v - u <= 2 * n /\ u' = v - n /\ v' = 2 * v - n - u) \/
  ((n | u) /\ n <= v - u <= 2 * n /\ u' = 2 * u + n - v /\ v' = u + n) \/
  ((n | u) /\ n <= u - v <= 2 * n /\ v' = u - n /\ u' = 2 * u - n - v) \/
  ((n | v) /\ n <= u - v <= 2 * n /\ v' = 2 * v + n - u /\ u' = v + n) \/
  ((v - u = 2 * n \/ u - v = 2 * n) /\
   exists j, 0 <= j <= 3 /\ u' = u + n * j /\ v' = v + n * j).

Definition touch (n s t s' t' : Z) : Prop :=
  exists e1 e2 f1 f2 m, 0 <= e1 <= 1 /\ 0 <= e2 <= 1 /\ 0 <= f1 <= 1 /\ 0 <= f2 <= 1 /\
    glued n (s + e1) (t + e2) (s' + f1 + 4 * n * m) (t' + f2 + 4 * n * m).

(** The nine cases of the code, in the coordinates of [site]. *)
Definition raw_case (n N a d b : Z) (l : list (Z * Z)) : Prop :=
  let i := N + a in let j := N + n * d + b in
  (d = 1 /\ a = 0 /\ b = n - 1 /\
   l = [(i, j - 1); (i + 1, j - 1); (i + 1, j); (i + n, j - 1 + n); (i + n, j + n);
        (i - n, j - n); (i + 1 - n, j - n); (i + 2 * n, j + 2 * n)]) \/
  (d = -1 /\ a = n - 1 /\ b = 0 /\
   l = [(i, j + 1); (i - 1, j + 1); (i - 1, j); (i - n, j + 1 - n); (i - n, j - n);
        (i + n, j + n); (i - 1 + n, j + n); (i - 2 * n, j - 2 * n)]) \/
  (d = 0 /\ a = 0 /\ b = n - 1 /\
   l = [(i - 1, j - 1); (i, j - 1); (i + 1, j - 1); (i - 1, j); (i + 1, j); (i, j + 1); (i + 1, j + 1)]) \/
  (d = 0 /\ a = n - 1 /\ b = 0 /\
   l = [(i - 1, j - 1); (i, j - 1); (i - 1, j); (i + 1, j); (i - 1, j + 1); (i, j + 1); (i + 1, j + 1)]) \/
  (d = 1 /\ a = 0 /\ b < n - 1 /\
   l = [(i, j - 1); (i + 1, j - 1); (i + 1, j); (i, j + 1); (i + 1, j + 1);
        (N - b - 1, N + n - 1); (N - b, N + n - 1); (N - b + 1, N + n - 1)]) \/
  (d = -1 /\ b = 0 /\ a < n - 1 /\
   l = [(i - 1, j); (i - 1, j + 1); (i, j + 1); (i + 1, j); (i + 1, j + 1);
        (N - 1, N - n - a - 2); (N - 1, N - n - a - 1); (N - 1, N - n - a)]) \/
  (d = 1 /\ b = n - 1 /\ 0 < a /\
   l = [(i - 1, j); (i - 1, j - 1); (i, j - 1); (i + 1, j); (i + 1, j - 1);
        (N + n, j + n - a); (N + n, j + n - a - 1); (N + n, j + n - a + 1)]) \/
  (d = -1 /\ a = n - 1 /\ 0 < b /\
   l = [(i, j - 1); (i - 1, j - 1); (i - 1, j); (i, j + 1); (i - 1, j + 1);
        (i + n - b, N); (i + n - b - 1, N); (i + n - b + 1, N)]) \/
  ((d = 0 /\ ~ (a = 0 /\ b = n - 1) /\ ~ (a = n - 1 /\ b = 0) \/
    d = 1 /\ 0 < a /\ b < n - 1 \/ d = -1 /\ a < n - 1 /\ 0 < b) /\
   l = [(i - 1, j - 1); (i, j - 1); (i + 1, j - 1); (i - 1, j); (i + 1, j);
        (i - 1, j + 1); (i, j + 1); (i + 1, j + 1)]).

Lemma face_div : forall n k a, 0 <= a < n -> (n * k + a) / n = k.
Proof. intros. rewrite Z.mul_comm, Z.div_add_l by lia. rewrite Z.div_small by lia. lia. Qed.

Lemma face_mod : forall n k a, 0 <= a < n -> (n * k + a) mod n = a.
Proof. intros. rewrite Z.mul_comm, Z.add_comm, Z_mod_plus_full. apply Z.mod_small; lia. Qed.

Lemma raw_cases : forall n k d a b, 2 <= n -> -1 <= d <= 1 -> 0 <= a < n -> 0 <= b < n ->
  exists l, raw_case n (n * k) a d b l /\
    ijs_neighbours_raw (n * k + a) (n * k + n * d + b) n = (map fst l, map snd l).
Proof.
  intros n k d a b Hn Hd Ha Hb. unfold ijs_neighbours_raw.
  assert (Fi : (n * k + a) / n = k) by (apply face_div; auto).
  assert (Mi : (n * k + a) mod n = a) by (apply face_mod; auto).
  assert (Fj : (n * k + n * d + b) / n = k + d)
    by (replace (n * k + n * d + b) with (n * (k + d) + b) by ring; apply face_div; auto).
  assert (Mj : (n * k + n * d + b) mod n = b)
    by (replace (n * k + n * d + b) with (n * (k + d) + b) by ring; apply face_mod; auto).
  assert (Mi' : (n * k + a + 1 - n) mod n = 0 <-> a = n - 1).
  { destruct (Z.eq_dec a (n - 1)) as [->|N].
    - replace (n * k + (n - 1) + 1 - n) with (n * k + 0) by ring. rewrite face_mod by lia. lia.
    - replace (n * k + a + 1 - n) with (n * (k - 1) + (a + 1)) by ring. rewrite face_mod by lia. lia. }
  assert (Mj' : (n * k + n * d + b + 1 - n) mod n = 0 <-> b = n - 1).
  { destruct (Z.eq_dec b (n - 1)) as [->|N].
    - replace (n * k + n * d + (n - 1) + 1 - n) with (n * (k + d) + 0) by ring. rewrite face_mod by lia. lia.
    - replace (n * k + n * d + b + 1 - n) with (n * (k + d - 1) + (b + 1)) by ring. rewrite face_mod by lia. lia. }
  cbv zeta. rewrite Fi, Mi, Fj, Mj. clear Fi Mi Fj Mj.
  set (N := n * k) in *. 
  assert (EN : n * (k + 1) = N + n) by (unfold N; ring).
  assert (EN2 : n * (k + d) = N + n * d) by (unfold N; ring).
  assert (EN3 : n * (k + d + 1) = N + n * d + n) by (unfold N; ring).
  rewrite EN, EN2, EN3.
  set (mi := (N + a + 1 - n) mod n) in *. set (mj := (N + n * d + b + 1 - n) mod n) in *.
  clearbody mi mj N. clear EN EN2 EN3 k.

  assert (C : exists l, raw_case n N a d b l).
  { unfold raw_case. cbv zeta. destruct (Z.eq_dec a 0), (Z.eq_dec a (n - 1)), (Z.eq_dec b 0), (Z.eq_dec b (n - 1));
    assert (D : d = -1 \/ d = 0 \/ d = 1) by lia; destruct D as [-> | [-> | ->]];
    eexists;
    first [ left; split; [lia|]; split; [lia|]; split; [lia|]; reflexivity
          | right; left; split; [lia|]; split; [lia|]; split; [lia|]; reflexivity
          | do 2 right; left; split; [lia|]; split; [lia|]; split; [lia|]; reflexivity
          | do 3 right; left; split; [lia|]; split; [lia|]; split; [lia|]; reflexivity
          | do 4 right; left; split; [lia|]; split; [lia|]; split; [lia|]; reflexivity
          | do 5 right; left; split; [lia|]; split; [lia|]; split; [lia|]; reflexivity
          | do 6 right; left; split; [lia|]; split; [lia|]; split; [lia|]; reflexivity
          | do 7 right; left; split; [lia|]; split; [lia|]; split; [lia|]; reflexivity
          | do 8 right; split; [lia|]; reflexivity ]. }
  destruct C as [l C]. exists l. split; [exact C|].
  unfold raw_case in C. cbv zeta in C.
  destruct C as [C|[C|[C|[C|[C|[C|[C|[C|C]]]]]]]];
  repeat match goal with H : _ /\ _ |- _ => destruct H | H : _ \/ _ |- _ => destruct H end; subst l; subst;
  repeat match goal with
  | |- context [?x =? ?y] =>
      first [ replace (x =? y) with false by (symmetry; apply Z.eqb_neq; lia)
            | replace (x =? y) with true by (symmetry; apply Z.eqb_eq; lia) ];
      cbn [andb]; rewrite ?andb_false_r, ?andb_true_r
  | |- context [?x <? ?y] =>
      first [ replace (x <? y) with true by (symmetry; apply Z.ltb_lt; lia)
            | replace (x <? y) with false by (symmetry; apply Z.ltb_ge; lia) ];
      cbn [andb]; rewrite ?andb_false_r, ?andb_true_r
  end.
  all: cbn [map fst snd].
  all: try reflexivity.
  all: apply (f_equal2 pair); repeat (apply (f_equal2 (@cons Z)); [lia|]); reflexivity.
Qed.

Lemma div_0_n : forall n x, 0 < n -> (n | x) -> 0 <= x <= n -> x = 0 \/ x = n.
Proof. intros n x Hn [q ->] Hx. assert (0 <= q <= 1) by nia. assert (q = 0 \/ q = 1) by lia. destruct H0; subst; lia. Qed.

Lemma div_shift : forall n N x, (n | N) -> (n | N + x) -> (n | x).
Proof. intros n N x [p ->] [q Hq]. exists (q - p). lia. Qed.

(** Everything touching a pixel is in the code's list. *)
Definition listed (n : Z) (l : list (Z * Z)) (s t : Z) : Prop :=
  exists m, In (s + 4 * n * m, t + 4 * n * m) l.


Ltac conj := repeat match goal with H : _ /\ _ |- _ => destruct H end.
Ltac in_pair := cbn [In]; 
  repeat first [ left; apply (f_equal2 pair); lia | right ].

(** A lattice point known to be a pixel, relative to the face [k]: [x] and [y]
    are given relative to [N = n*k]. *)
Lemma site_rel : forall n k x y, 2 <= n -> site n (n * k + x) (n * k + y) -> -3 * n < x < 4 * n ->
  exists D d a b, -3 <= D <= 3 /\ -1 <= d <= 1 /\ 0 <= a < n /\ 0 <= b < n /\
    x = n * D + a /\ y = n * D + n * d + b.
Proof.
  intros n k x y Hn (k' & d & a & b & Hd & Ha & Hb & E1 & E2) Hx.
  exists (k' - k), d, a, b. assert (x = n * (k' - k) + a) by lia.
  assert (-3 <= k' - k <= 3) by nia.
  split; [auto|]. split; [auto|]. split; [auto|]. split; [auto|]. split; [auto|]. lia.
Qed.

Ltac site_false S :=
  exfalso; 
  let D := fresh in let d := fresh in let a := fresh in let b := fresh in
  let H1 := fresh in let H2 := fresh in
  apply site_rel in S; [|lia|lia];
  destruct S as (D & d & a & b & H1 & H2 & S); conj;
  let C := fresh in
  assert (C : D = -3 \/ D = -2 \/ D = -1 \/ D = 0 \/ D = 1 \/ D = 2 \/ D = 3) by lia;
  clear H1;
  let C' := fresh in
  assert (C' : d = -1 \/ d = 0 \/ d = 1) by lia;
  clear H2;
  destruct C as [-> | [-> | [-> | [-> | [-> | [-> | ->]]]]]]; try lia;
  destruct C' as [-> | [-> | ->]]; lia.


(** The corner [(u, v)] of a pixel (relative to its face) and the lattice
    points glued to it. *)
Definition corner_class (n d b0 a0 u v u' v' : Z) : Prop :=
  (u' = u /\ v' = v) \/
  ((b0 = 0 \/ b0 = n) /\ n <= v - u <= 2 * n /\ u' = v - n /\ v' = 2 * v - n - u) \/
  ((a0 = 0 \/ a0 = n) /\ n <= v - u <= 2 * n /\ u' = 2 * u + n - v /\ v' = u + n) \/
  ((a0 = 0 \/ a0 = n) /\ n <= u - v <= 2 * n /\ v' = u - n /\ u' = 2 * u - n - v) \/
  ((b0 = 0 \/ b0 = n) /\ n <= u - v <= 2 * n /\ v' = 2 * v + n - u /\ u' = v + n) \/
  ((v - u = 2 * n \/ u - v = 2 * n) /\
   (u' = u - n /\ v' = v - n \/ u' = u /\ v' = v \/ u' = u + n /\ v' = v + n \/
    d = 1 /\ u' = u + 2 * n /\ v' = v + 2 * n \/ d = -1 /\ u' = u - 2 * n /\ v' = v - 2 * n)).

Definition near (n k a d b : Z) (l : list (Z * Z)) : Prop :=
  forall e1 e2 f1 f2 u' v', (e1 = 0 \/ e1 = 1) -> (e2 = 0 \/ e2 = 1) -> (f1 = 0 \/ f1 = 1) -> (f2 = 0 \/ f2 = 1) ->
  corner_class n d (b + e2) (a + e1) (a + e1) (n * d + b + e2) u' v' ->
  ~ (u' - f1 = a /\ v' - f2 = n * d + b) ->
  site n (n * k + (u' - f1)) (n * k + (v' - f2)) ->
  In (n * k + (u' - f1), n * k + (v' - f2)) l.

Ltac near_tac :=
  let e1 := fresh "e" in let e2 := fresh "e" in let f1 := fresh "f" in let f2 := fresh "f" in
  let u := fresh "u" in let v := fresh "v" in
  let E1 := fresh in let E2 := fresh in let F1 := fresh in let F2 := fresh in
  let G := fresh "G" in let NP := fresh "NP" in let S := fresh "S" in
  intros e1 e2 f1 f2 u v E1 E2 F1 F2 G NP S;
  destruct E1; subst e1; destruct E2; subst e2;
  destruct G as [G|[G|[G|[G|[G|[G [G'|[G'|[G'|[G'|G']]]]]]]]]]; conj; try (exfalso; clear NP F1 F2; lia);
  subst u v; destruct F1; subst f1; destruct F2; subst f2;
  first [ exfalso; clear S; lia | solve [in_pair] | clear NP; site_false S ].


Lemma near_all : forall n k a d b l, 2 <= n -> 0 <= a < n -> 0 <= b < n ->
  raw_case n (n * k) a d b l -> ~ (d = 1 /\ a = 0 /\ b < n - 1) -> near n k a d b l.
Proof.
  intros n k a d b l Hn Ha Hb C NB. unfold raw_case in C. cbv zeta in C.
  destruct C as [C|[C|[C|[C|[C|[C|[C|[C|C]]]]]]]];
  [ | | | |exfalso; lia| destruct (Z.eq_dec a 0) | destruct (Z.eq_dec a (n - 1))
  | destruct (Z.eq_dec b (n - 1)) | destruct C as [[C|[C|C]] L]];
  conj; subst l; subst; clear NB; unfold near, corner_class; near_tac.
Qed.

Lemma touch_listed : forall n k a d b l s' t', 2 <= n ->
  -1 <= d <= 1 -> 0 <= a < n -> 0 <= b < n -> raw_case n (n * k) a d b l ->
  ~ (d = 1 /\ a = 0 /\ b < n - 1) ->
  site n s' t' -> touch n (n * k + a) (n * k + n * d + b) s' t' ->
  (forall m, ~ (s' + 4 * n * m = n * k + a /\ t' + 4 * n * m = n * k + n * d + b)) ->
  listed n l s' t'.
Proof.
  intros n k a d b l s' t' Hn Hd Ha Hb C NB S T NP.
  apply near_all in C; auto. clear NB.
  destruct T as (e1 & e2 & f1 & f2 & m & He1 & He2 & Hf1 & Hf2 & G).
  assert (S' : forall m, site n (s' + 4 * n * m) (t' + 4 * n * m)).
  { clear - S. intros m. destruct S as (k' & d' & a' & b' & ? & ? & ? & -> & ->).
    exists (k' + 4 * m), d', a', b'. repeat split; try lia. }
  clear S.
  assert (GG : exists m', corner_class n d (b + e2) (a + e1) (a + e1) (n * d + b + e2)
    (s' + f1 + 4 * n * m' - n * k) (t' + f2 + 4 * n * m' - n * k)).
  { clear C NP S'.
    assert (DV : (n | n * k + n * d + b + e2) -> b + e2 = 0 \/ b + e2 = n).
    { intros H. apply div_0_n; try lia. apply div_shift with (n * k + n * d).
      exists (k + d); ring. rewrite Z.add_assoc. exact H. }
    assert (DU : (n | n * k + a + e1) -> a + e1 = 0 \/ a + e1 = n).
    { intros H. apply div_0_n; try lia. apply div_shift with (n * k).
      exists k; ring. rewrite Z.add_assoc. exact H. }
    unfold corner_class.
    destruct G as [G|[G|[G|[G|[G|G]]]]].
    1-5: exists m.
    - left; clear DV DU; lia.
    - right; left. destruct G as [G0 G]. split; [auto|clear DV DU G0; lia].
    - do 2 right; left. destruct G as [G0 G]. split; [auto|clear DV DU G0; lia].
    - do 3 right; left. destruct G as [G0 G]. split; [auto|clear DV DU G0; lia].
    - do 4 right; left. destruct G as [G0 G]. split; [auto|clear DV DU G0; lia].
    - clear DV DU. destruct G as [G (j & Hj & U & V)].
      assert (D1 : d = 1 \/ d = -1).
      { assert (D : d = -1 \/ d = 0 \/ d = 1) by lia. destruct D as [-> | [-> | ->]]; lia. }
      assert (J : j = 0 \/ j = 1 \/ j = 2 \/ j = 3) by lia. clear Hj Hd.
      destruct J as [-> | [-> | [-> | ->]]].
      + exists m. do 5 right. split; [destruct D1; subst; lia|]. right; left. split; lia.
      + exists m. do 5 right. split; [destruct D1; subst; lia|]. do 2 right; left. split; lia.
      + destruct D1 as [-> | ->].
        * exists m. do 5 right. split; [lia|]. do 3 right; left. split; [|split]; lia.
        * exists (m - 1). do 5 right. split; [lia|]. do 4 right. split; [|split]; lia.
      + exists (m - 1). do 5 right. split; [destruct D1; subst; lia|]. left. split; lia. }
  clear G m. destruct GG as [m G]. exists m. specialize (NP m). specialize (S' m).
  specialize (C e1 e2 f1 f2 _ _ ltac:(lia) ltac:(lia) ltac:(lia) ltac:(lia) G).
  replace (n * k + (s' + f1 + 4 * n * m - n * k - f1)) with (s' + 4 * n * m) in C by ring.
  replace (n * k + (t' + f2 + 4 * n * m - n * k - f2)) with (t' + 4 * n * m) in C by ring.
  apply C; auto. clear - NP. lia.
Qed.
