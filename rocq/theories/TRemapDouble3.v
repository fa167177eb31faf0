(** * Exceptions of grid remapping in double precision (C89) *)

From Coq Require Import Reals ZArith List Bool Lia.
From Flocq Require Import Core IEEE754.BinarySingleNaN.
From Verif Require Import Base BaseP MDouble MGrids MRemap MRemapDouble MRemapDouble2 MGridsDouble.
Import ListNotations.

(** A sequence with too few entries. *)
Definition short {A} (n : nat) (x : arg A) : Prop := match x with Sca _ => False | Seq l => (length l < n)%nat end.

Lemma two_short : forall A (x : arg A), short 2 x -> two x = Err IndexError.
Proof. intros A [a|[|a [|b l]]] H; cbn in *; try lia; reflexivity. Qed.
Lemma two_long : forall A (x : arg A), ~ short 2 x -> exists a b, two x = Ok (a, b).
Proof. intros A [a|[|a [|b l]]] H; cbn in *; try lia; eexists; eexists; reflexivity. Qed.
Lemma three_short : forall A (x : arg A), short 3 x -> three x = Err IndexError.
Proof. intros A [a|[|a [|b [|c l]]]] H; cbn in *; try lia; reflexivity. Qed.
Lemma three_long : forall A (x : arg A), ~ short 3 x -> exists a b c, three x = Ok (a, b, c).
Proof.
  intros A [a|[|a [|b [|c l]]]] H; cbn in *; try lia; eexists; eexists; eexists; reflexivity.
Qed.

Lemma short_dec : forall A n (x : arg A), short n x \/ ~ short n x.
Proof. intros A n [a|l]; [right; auto|]. cbn. destruct (Nat.lt_ge_cases (length l) n); [left|right]; lia. Qed.

(** The output length of the one-dimensional call must be given.  With a
    sequence of too few entries for the box, the origin or the number of cells
    the others raise an IndexError; a sequence of three cell numbers in three
    dimensions raises a ValueError; everything else succeeds. *)
Theorem C89_errors : forall oob mem memx memy memz f1 f2 f3 box ngrid org orgout boxsize ngridout origin originout boxsizeout,
  grid2grid1D_d oob mem f1 box ngrid org orgout None = Err TypeError /\
  (forall b, exists out, grid2grid1D_d oob mem f1 box ngrid org orgout (Some b) = Ok out) /\
  let sequences n := short n boxsize \/ short n origin \/ short n originout \/ exists b, boxsizeout = Some b /\ short n b in
  (sequences 2%nat \/ short 2 ngridout -> grid2grid2D_d oob memx memy f2 boxsize ngridout origin originout boxsizeout = Err IndexError) /\
  (~ (sequences 2%nat \/ short 2 ngridout) -> exists out, grid2grid2D_d oob memx memy f2 boxsize ngridout origin originout boxsizeout = Ok out) /\
  (sequences 3%nat \/ short 3 ngridout -> grid2grid3D_d oob memx memy memz f3 boxsize ngridout origin originout boxsizeout = Err IndexError) /\
  (~ (sequences 3%nat \/ short 3 ngridout) -> match ngridout with
     | Sca _ => exists out, grid2grid3D_d oob memx memy memz f3 boxsize ngridout origin originout boxsizeout = Ok out
     | Seq _ => grid2grid3D_d oob memx memy memz f3 boxsize ngridout origin originout boxsizeout = Err ValueError
     end).
Proof.
  intros oob mem memx memy memz f1 f2 f3 box ngrid org orgout boxsize ngridout origin originout boxsizeout.
  split; [reflexivity|]. split; [intros b; eexists; reflexivity|]. cbv zeta.
  assert (TWO : forall bo xb yb, (bo = boxsizeout -> match bo with None => Ok (xb, yb) | Some b => two b end = Err IndexError \/ exists p, match bo with None => Ok (xb, yb) | Some b => two b end = Ok p)).
  { intros bo xb yb _. destruct bo as [b|]; [|right; eexists; reflexivity]. destruct (short_dec double 2 b) as [H|H]; [left; now apply two_short|right].
    destruct (two_long _ b H) as (x & y & E). eexists. exact E. }
  assert (THREE : forall (xb yb zb : double), match boxsizeout with None => Ok (xb, yb, zb) | Some b => three b end = Err IndexError \/ exists p, match boxsizeout with None => Ok (xb, yb, zb) | Some b => three b end = Ok p).
  { intros xb yb zb. destruct boxsizeout as [b|]; [|right; eexists; reflexivity]. destruct (short_dec double 3 b) as [H|H]; [left; now apply three_short|right].
    destruct (three_long _ b H) as (x & y & z & E). eexists. exact E. }
  split; [|split; [|split]].
  - intros H. unfold grid2grid2D_d. destruct (short_dec _ 2 boxsize) as [B|B]; [now rewrite two_short|]. destruct (two_long _ _ B) as (xb & yb & ->). cbn [bind].
    destruct boxsizeout as [b|].
    + destruct (short_dec _ 2 b) as [C|C]; [now rewrite (two_short _ b)|]. destruct (two_long _ _ C) as (xo & yo & ->). cbn [bind].
      destruct (short_dec _ 2 origin) as [D|D]; [now rewrite two_short|]. destruct (two_long _ _ D) as (x & y & ->). cbn [bind].
      destruct (short_dec _ 2 originout) as [E|E]; [now rewrite two_short|]. destruct (two_long _ _ E) as (x' & y' & ->). cbn [bind].
      destruct (short_dec _ 2 ngridout) as [F|F]; [now rewrite two_short|]. exfalso. destruct H as [[H|[H|[H|(b' & HB & H)]]]|H]; auto. injection HB as <-. auto.
    + cbn [bind]. destruct (short_dec _ 2 origin) as [D|D]; [now rewrite two_short|]. destruct (two_long _ _ D) as (x & y & ->). cbn [bind].
      destruct (short_dec _ 2 originout) as [E|E]; [now rewrite two_short|]. destruct (two_long _ _ E) as (x' & y' & ->). cbn [bind].
      destruct (short_dec _ 2 ngridout) as [F|F]; [now rewrite two_short|]. exfalso. destruct H as [[H|[H|[H|(b' & HB & H)]]]|H]; auto. discriminate.
  - intros H. unfold grid2grid2D_d. destruct (two_long _ boxsize ltac:(tauto)) as (xb & yb & ->). cbn [bind].
    destruct (TWO boxsizeout xb yb eq_refl) as [C|([xo yo] & ->)].
    { exfalso. destruct boxsizeout as [b|]; [|discriminate]. destruct (two_long _ b) as (x & y & E); [intros S; apply H; left; right; right; right; exists b; now split|]. rewrite E in C. discriminate. }
    cbn [bind]. destruct (two_long _ origin ltac:(tauto)) as (x & y & ->). cbn [bind]. destruct (two_long _ originout ltac:(tauto)) as (x' & y' & ->). cbn [bind].
    destruct (two_long _ ngridout ltac:(tauto)) as (p & q & ->). cbn [bind]. eexists. reflexivity.
  - intros H. unfold grid2grid3D_d. destruct (short_dec _ 3 boxsize) as [B|B]; [now rewrite three_short|]. destruct (three_long _ _ B) as (xb & yb & zb & ->). cbn [bind].
    destruct (THREE xb yb zb) as [->|([[xo yo] zo] & EB)]; [reflexivity|]. rewrite EB. cbn [bind].
    destruct (short_dec _ 3 origin) as [D|D]; [now rewrite three_short|]. destruct (three_long _ _ D) as (x & y & z & ->). cbn [bind].
    destruct (short_dec _ 3 originout) as [E|E]; [now rewrite three_short|]. destruct (three_long _ _ E) as (x' & y' & z' & ->). cbn [bind].
    destruct (short_dec _ 3 ngridout) as [F|F]; [destruct ngridout; [destruct F|]; now rewrite three_short|]. exfalso.
    destruct H as [[H|[H|[H|(b' & HB & H)]]]|H]; auto. subst boxsizeout. rewrite three_short in EB by exact H. discriminate.
  - intros H. unfold grid2grid3D_d. destruct (three_long _ boxsize ltac:(tauto)) as (xb & yb & zb & ->). cbn [bind].
    destruct (THREE xb yb zb) as [C|([[xo yo] zo] & ->)].
    { exfalso. destruct boxsizeout as [b|]; [|discriminate]. destruct (three_long _ b) as (x & y & z & E); [intros S; apply H; left; right; right; right; exists b; now split|]. rewrite E in C. discriminate. }
    cbn [bind]. destruct (three_long _ origin ltac:(tauto)) as (x & y & z & ->). cbn [bind]. destruct (three_long _ originout ltac:(tauto)) as (x' & y' & z' & ->). cbn [bind].
    destruct ngridout as [m|l]; [eexists; reflexivity|]. destruct (three_long _ (Seq l) ltac:(tauto)) as (p & q & r & ->). reflexivity.
Qed.
Print Assumptions C89_errors.

Example C89_errors_example : short 3 (Seq [dint 1; dint 2]) /\ ~ short 2 (Seq [dint 1; dint 2]) /\ ~ short 3 (Sca (dint 1)) /\
  forall oob memx memy memz f3, grid2grid3D_d oob memx memy memz f3 (Sca (dint 1)) (Seq [2; 2; 2]%Z) (Sca (dint 0)) (Sca (dint 0)) None = Err ValueError.
Proof. split; [cbn; lia|]. split; [cbn; lia|]. split; [cbn; auto|]. reflexivity. Qed.
