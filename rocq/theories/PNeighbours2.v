(** * The neighbours of a HEALPix pixel: the lists hold nothing else *)

From Coq Require Import ZArith List Bool Lia Psatz.
From Verif Require Import Base BaseP MHealpixIndex PNeighbours.
Import ListNotations.
Open Scope Z_scope.

(** Conversely, everything in the list is a pixel touching the given one. *)
Lemma class_touch : forall n k a d b e1 e2 f1 f2 x y,
  0 <= e1 <= 1 -> 0 <= e2 <= 1 -> 0 <= f1 <= 1 -> 0 <= f2 <= 1 ->
  corner_class n d (b + e2) (a + e1) (a + e1) (n * d + b + e2) (x + f1) (y + f2) ->
  touch n (n * k + a) (n * k + n * d + b) (n * k + x) (n * k + y).
Proof.
  intros n k a d b e1 e2 f1 f2 x y He1 He2 Hf1 Hf2 C.
  assert (DV : b + e2 = 0 \/ b + e2 = n -> (n | n * k + n * d + b + e2)).
  { intros [H|H]; [exists (k + d)|exists (k + d + 1)]; lia. }
  assert (DU : a + e1 = 0 \/ a + e1 = n -> (n | n * k + a + e1)).
  { intros [H|H]; [exists k|exists (k + 1)]; lia. }
  unfold touch. exists e1, e2, f1, f2. unfold glued.
  destruct C as [C|[C|[C|[C|[C|[C C']]]]]].
  1-5: exists 0; do 4 (split; [auto|]).
  - left. clear DV DU. lia.
  - right; left. destruct C as [C0 C]. split; [auto|clear DV DU C0; lia].
  - do 2 right; left. destruct C as [C0 C]. split; [auto|clear DV DU C0; lia].
  - do 3 right; left. destruct C as [C0 C]. split; [auto|clear DV DU C0; lia].
  - do 4 right; left. destruct C as [C0 C]. split; [auto|clear DV DU C0; lia].
  - clear DV DU. destruct C' as [C'|[C'|[C'|[C'|C']]]].
    + exists 1. do 4 (split; [auto|]). do 5 right. split; [lia|]. exists 3. lia.
    + exists 0. do 4 (split; [auto|]). do 5 right. split; [lia|]. exists 0. lia.
    + exists 0. do 4 (split; [auto|]). do 5 right. split; [lia|]. exists 1. lia.
    + exists 0. do 4 (split; [auto|]). do 5 right. split; [lia|]. exists 2. lia.
    + exists 1. do 4 (split; [auto|]). do 5 right. split; [lia|]. exists 2. lia.
Qed.

Lemma rel_site : forall n k x y D d a b, -1 <= d <= 1 -> 0 <= a < n -> 0 <= b < n ->
  x = n * D + a -> y = n * D + n * d + b -> site n (n * k + x) (n * k + y).
Proof. intros n k x y D d a b Hd Ha Hb -> ->. exists (k + D), d, a, b. repeat split; try lia. Qed.

Definition good (n k a d b x y : Z) : Prop :=
  (exists D d' a' b', -1 <= d' <= 1 /\ 0 <= a' < n /\ 0 <= b' < n /\
     x = n * D + a' /\ y = n * D + n * d' + b') /\
  (exists e1 e2 f1 f2, 0 <= e1 <= 1 /\ 0 <= e2 <= 1 /\ 0 <= f1 <= 1 /\ 0 <= f2 <= 1 /\
     corner_class n d (b + e2) (a + e1) (a + e1) (n * d + b + e2) (x + f1) (y + f2)) /\
  forall m, ~ (x + 4 * n * m = a /\ y + 4 * n * m = n * d + b).

Ltac face1 n x y D d := exists D, d, (x - n * D), (y - n * D - n * d); lia.
Ltac face2 n x y D := assert (0 <= x - n * D < n) by lia;
  first [ face1 n x y D 0 | face1 n x y D 1 | face1 n x y D (-1) ].
Ltac face_tac n x y :=
  first [ face2 n x y 0 | face2 n x y 1 | face2 n x y (-1) | face2 n x y 2 | face2 n x y (-2)
        | face2 n x y 3 | face2 n x y (-3) ].
Ltac class1 e1 e2 f1 f2 :=
  exists e1, e2, f1, f2; do 4 (split; [lia|]);
  first [ left; lia | right; left; lia | do 2 right; left; lia | do 3 right; left; lia
        | do 4 right; left; lia | do 5 right; lia ].
Ltac class2 e1 e2 := first [ class1 e1 e2 0 0 | class1 e1 e2 1 0 | class1 e1 e2 0 1 | class1 e1 e2 1 1 ].
Ltac class_tac := first [ class2 0 0 | class2 1 0 | class2 0 1 | class2 1 1 ].

Lemma listed_good : forall n k a d b l x y, 2 <= n -> 0 <= a < n -> 0 <= b < n ->
  raw_case n (n * k) a d b l -> ~ (d = 1 /\ a = 0 /\ b < n - 1) ->
  In (n * k + x, n * k + y) l -> good n k a d b x y.
Proof.
  intros n k a d b l x y Hn Ha Hb C NB I. unfold raw_case in C. cbv zeta in C.
  assert (SP : forall m, x + 4 * n * m = a /\ y + 4 * n * m = n * d + b ->
     (x = a /\ y = n * d + b) \/ 4 * n <= a - x \/ a - x <= - (4 * n)).
  { clear - Hn. intros m [Hx Hy]. destruct (Z.eq_dec m 0) as [->|]; [left; lia|]. right.
    assert (m <= -1 \/ 1 <= m) by lia. nia. }
  set (N := n * k) in *. clearbody N.
  destruct C as [C|[C|[C|[C|[C|[C|[C|[C|C]]]]]]]];
  [ | | | |exfalso; lia| | |  | destruct C as [[C|[C|C]] L]];
  conj; subst l; clear NB; subst; cbn [In] in I;
  repeat match type of I with _ \/ _ => destruct I as [I|I] end; try contradiction;
  pose proof (f_equal fst I) as X; pose proof (f_equal snd I) as Y; cbn [fst snd] in X, Y; clear I.
  all: split; [|split; [|intros m NP; pose proof (SP m NP); clear SP NP; lia]]; clear SP.
  all: match goal with
     | |- exists D d' a' b', _ /\ _ /\ _ /\ ?x = _ /\ ?y = _ => idtac
     | _ => unfold corner_class; class_tac end.
  all: match goal with |- exists D d' a' b', _ /\ _ /\ _ /\ ?x = _ /\ ?y = _ => try solve [face_tac n x y] end.
  all: destruct (Z_lt_le_dec x (- n)), (Z_lt_le_dec x 0), (Z_lt_le_dec x n), (Z_lt_le_dec x (2 * n)); try lia.
  all: match goal with |- exists D d' a' b', _ /\ _ /\ _ /\ ?x = _ /\ ?y = _ => try solve [face_tac n x y] end.
  all: destruct (Z_lt_le_dec y (- (2 * n))), (Z_lt_le_dec y (- n)), (Z_lt_le_dec y 0),
         (Z_lt_le_dec y n), (Z_lt_le_dec y (2 * n)), (Z_lt_le_dec y (3 * n)); try lia.
  all: match goal with |- exists D d' a' b', _ /\ _ /\ _ /\ ?x = _ /\ ?y = _ => try solve [face_tac n x y] end.

Qed.
