(** * Theorems: pixel numbers outside the map in binary64 (C02) *)

From Coq Require Import Reals ZArith Bool Lia Lra.
From Flocq Require Import Core.
From Verif Require Import Base BaseP Spec MHealpixIndex MHealpixFloat PHealpixIndex PHealpixFloat THealpix.
Open Scope R_scope.

Lemma cap_fl_0 : cap_fl 0 = Some 1.
Proof.
  assert (F0 : fl 0 = 0) by (apply (fl_int 0); cbn; lia). unfold cap_fl. change 0 with (IZR 0) at 1. rewrite Zfloor_IZR.
  rewrite fsqrt_ok by lra. rewrite sqrt_0, F0, Rminus_0_r, F0. rewrite fsqrt_ok by lra. rewrite sqrt_0, F0.
  change 0 with (IZR 0) at 1. rewrite Zfloor_IZR. rewrite <- plus_IZR. f_equal. apply (fl_int 1). cbn. lia.
Qed.

Lemma cap_fl_neg : forall x, x < 0 -> cap_fl x = None.
Proof.
  intros x H. unfold cap_fl, fsqrt. rewrite Rlt_bool_true; [reflexivity|].
  apply Rle_lt_trans with x; [apply Zfloor_lb|exact H].
Qed.

(** Outside the map rounding changes nothing either: what raises in exact
    arithmetic raises, what returns an illegal pair returns it. *)
Theorem C02_outside : forall nside p, (1 <= nside <= 27397078)%Z -> ~ legal_pix nside p -> pix2ij_fl p nside = pix2ij p nside.
Proof.
  intros n p Hn Hp. destruct (C01_outside n p ltac:(lia)) as (A & B & C & D & _). unfold legal_pix in Hp.
  assert (NN : (n * n <= 27397078 * 27397078)%Z) by (apply Z.mul_le_mono_nonneg; lia).
  assert (N1 : (1 <= n * n)%Z) by (apply (Z.mul_le_mono_nonneg 1 n 1 n); lia).
  assert (NE : (n ^ 2 = n * n)%Z) by ring.
  destruct (Z_lt_le_dec (12 * n ^ 2) p) as [H|H].
  { rewrite A by exact H. unfold pix2ij_fl.
    destruct (Z.leb_spec p (2 * n * (n + 1))); [nia|]. destruct (Z.ltb_spec p (2 * n * (5 * n - 1))); [nia|]. rewrite andb_false_r.
    destruct (Z.leb_spec p (12 * n ^ 2)); [lia|]. rewrite andb_false_r. reflexivity. }
  destruct (Z_lt_le_dec p (-1)) as [K|K].
  { rewrite B by exact K. unfold pix2ij_fl. destruct (Z.leb_spec p (2 * n * (n + 1))); [|nia].
    rewrite cap_fl_neg; [reflexivity|]. apply Rle_lt_trans with (-1 / 2); [|lra]. apply fl_le; [apply (fl_half (-1)); cbn; lia|].
    assert (IZR (p + 1) <= -1) by (apply (IZR_le _ (-1)); lia). lra. }
  assert (P2 : forall m : Z, (Z.abs m <= 1000)%Z -> (Z.abs m <= 2 ^ 53)%Z) by (intros m; change (2 ^ 53)%Z with 9007199254740992%Z; lia).
  assert (EQ : p = (12 * n ^ 2)%Z \/ p = (-1)%Z) by lia. destruct EQ as [-> | ->].
  - rewrite C. unfold pix2ij_fl. destruct (Z.leb_spec (12 * n ^ 2) (2 * n * (n + 1))); [nia|].
    destruct (Z.ltb_spec (12 * n ^ 2) (2 * n * (5 * n - 1))); [nia|]. rewrite andb_false_r.
    destruct (Z.leb_spec (2 * n * (5 * n - 1)) (12 * n ^ 2)); [|nia]. rewrite Z.leb_refl. cbn [andb].
    replace (12 * n ^ 2 - 12 * n ^ 2)%Z with 0%Z by ring. rewrite fl_half by (apply P2; cbn; lia).
    replace (IZR 0 / 2) with 0 by lra. rewrite cap_fl_0.
    assert (S53 : forall m, (0 <= m <= 10)%Z -> (Z.abs (12 * n ^ 2 + m) <= 2 ^ 53)%Z) by (intros m Hm; change (2 ^ 53)%Z with 9007199254740992%Z; lia).
    rewrite (fl_mul 2 1) by (apply P2; cbn; lia). rewrite (fl_add 1 1) by (apply P2; cbn; lia). rewrite (fl_mul (2 * 1) (1 + 1)) by (apply P2; cbn; lia).
    rewrite (fl_int (12 * n ^ 2)) by (rewrite <- (Z.add_0_r (12 * n ^ 2)); apply S53; lia).
    rewrite (fl_add (12 * n ^ 2) _) by (apply S53; lia). rewrite (fl_add (12 * n ^ 2 + _) 1) by (rewrite <- Z.add_assoc; apply S53; lia).
    rewrite fl_sub by (apply P2; lia). rewrite (fl_int (4 * n)) by (change (2 ^ 53)%Z with 9007199254740992%Z; lia).
    rewrite (fl_sub (4 * n) 1) by (change (2 ^ 53)%Z with 9007199254740992%Z; lia). rewrite !Ztrunc_IZR. do 2 f_equal. lia.
  - rewrite D. unfold pix2ij_fl. destruct (Z.leb_spec (-1) (2 * n * (n + 1))); [|nia]. cbn [Z.add Z.pos_sub].
    rewrite fl_half by (apply P2; cbn; lia). replace (IZR 0 / 2) with 0 by lra. rewrite cap_fl_0.
    rewrite (fl_sub 1 1) by (apply P2; cbn; lia). rewrite (fl_mul 2 1) by (apply P2; cbn; lia). rewrite (fl_mul (2 * 1) (1 - 1)) by (apply P2; cbn; lia).
    rewrite (fl_int 0) by (apply P2; cbn; lia). rewrite (fl_sub 0) by (apply P2; cbn; lia). rewrite !Ztrunc_IZR. reflexivity.
Qed.
Print Assumptions C02_outside.

Example C02_outside_example : ~ legal_pix 3 109 /\ pix2ij_fl 109 3 = Err UnboundLocalError.
Proof.
  assert (H : ~ legal_pix 3 109) by (unfold legal_pix; lia). split; [exact H|]. rewrite C02_outside by (auto; lia). apply (C01_outside 3 109); lia.
Qed.
