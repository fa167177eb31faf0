(** * Property theorems: [healpix_pix2ij] in IEEE binary64 arithmetic *)

From Coq Require Import Reals ZArith Bool Lia.
From Verif Require Import Base BaseP Spec MHealpixIndex MHealpixFloat PHealpixIndex PHealpixFloat.
Open Scope R_scope.

(** ** C02 *)

(** Up to nside 27397078 every pixel gets its ring and position. *)
Theorem C02_exact : forall nside p, (1 <= nside <= 27397078)%Z -> legal_pix nside p ->
  exists i j, pix2ij_fl p nside = Ok (i, j) /\ pixel_at nside p i j.
Proof. exact pix2ij_fl_ok. Qed.
Print Assumptions C02_exact.

(** In particular rounding does not change the result of exact arithmetic. *)
Theorem C02_agrees : forall nside p, (1 <= nside <= 27397078)%Z -> legal_pix nside p ->
  pix2ij_fl p nside = pix2ij p nside.
Proof.
  intros n p Hn Hp. destruct (pix2ij_fl_ok n p Hn Hp) as [i [j [E A]]].
  destruct (pix2ij_correct n p ltac:(lia) Hp) as [i' [j' [E' [A' _]]]].
  destruct (pixel_at_unique n p i j i' j' ltac:(lia) A A') as [-> ->]. now rewrite E, E'.
Qed.
Print Assumptions C02_agrees.

(** Up to nside 2^25 the ring is right everywhere, and the position too above
    ring 3 nside. *)
Theorem C02_ring : forall nside p i j, (1 <= nside <= 2 ^ 25)%Z -> pixel_at nside p i j ->
  exists j', pix2ij_fl p nside = Ok (i, j') /\ ((i < 3 * nside)%Z -> j' = j).
Proof. exact pix2ij_fl_ring. Qed.
Print Assumptions C02_ring.

Example C02_case : legal_pix 27397078 9007198595257004 /\ pixel_at 27397078 9007198595257004 (4 * 27397078 - 1) 1.
Proof. exact (south_pixel 27397078 1 1 ltac:(lia) ltac:(lia)). Qed.

(** ** C03 *)

(** The bound of C02 is sharp: every larger nside has a pixel that is not
    given its ring and position. *)
Theorem C03_breaks : forall nside, (27397078 < nside)%Z ->
  exists p, legal_pix nside p /\ forall i j, pix2ij_fl p nside = Ok (i, j) -> ~ pixel_at nside p i j.
Proof. exact pix2ij_fl_wrong. Qed.
Print Assumptions C03_breaks.

Theorem C03_threshold : forall nside, (1 <= nside)%Z ->
  ((nside <= 27397078)%Z <->
   forall p, legal_pix nside p -> exists i j, pix2ij_fl p nside = Ok (i, j) /\ pixel_at nside p i j).
Proof.
  intros n Hn. split.
  - intros H p Hp. apply pix2ij_fl_ok; auto.
  - intros H. destruct (Z_le_gt_dec n 27397078) as [L|L]; auto.
    destruct (pix2ij_fl_wrong n ltac:(unfold fl_limit; lia)) as [p [Hp W]].
    destruct (H p Hp) as [i [j [E A]]]. destruct (W i j E A).
Qed.
Print Assumptions C03_threshold.

(** At nside 2^25, a legal HEALPix resolution, two pixels get the same ring
    and position. *)
Theorem C03_refuted : exists nside p q, (1 <= nside <= 2 ^ 29)%Z /\ legal_pix nside p /\ legal_pix nside q /\ p <> q /\
  pix2ij_fl p nside = pix2ij_fl q nside.
Proof.
  exists (2 ^ 25)%Z, (12 * (2 ^ 25) ^ 2 - 2)%Z, (12 * (2 ^ 25) ^ 2 - 1)%Z.
  destruct pix2ij_fl_collide as [E E']. rewrite E, E'. unfold legal_pix. repeat split; lia.
Qed.
Print Assumptions C03_refuted.

Theorem C03_collision :
  pix2ij_fl (12 * (2 ^ 25) ^ 2 - 2) (2 ^ 25) = Ok (4 * 2 ^ 25 - 1, 4)%Z /\
  pix2ij_fl (12 * (2 ^ 25) ^ 2 - 1) (2 ^ 25) = Ok (4 * 2 ^ 25 - 1, 4)%Z.
Proof. exact pix2ij_fl_collide. Qed.
Print Assumptions C03_collision.
