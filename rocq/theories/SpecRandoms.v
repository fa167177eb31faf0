(** * Specifications: random numbers, sorting, expectations

    Independent of the model files, see [Spec.v]. *)

From Coq Require Import Reals ZArith List Bool Permutation.
From Coquelicot Require Import Coquelicot.
From Verif Require Import Base.
Import ListNotations.
Open Scope R_scope.

(** What [np.random.random_sample(size)] may return. *)
Definition draws (size : Z) (u : list R) : Prop :=
  Z.of_nat (length u) = size /\ forall v, In v u -> 0 <= v < 1.

(** [idx] is a permutation of the positions of [keys] that sorts [keys]; ties
    may come in any order. *)
Definition orders (keys : list R) (idx : list nat) : Prop :=
  Permutation idx (seq 0 (length keys)) /\
  forall i j, (i <= j < length idx)%nat -> nth (nth i idx 0%nat) keys 0 <= nth (nth j idx 0%nat) keys 0.

(** A sorting routine, as [np.argsort]. *)
Definition sorts (argsort : list R -> list nat) : Prop := forall keys, orders keys (argsort keys).

(** Area of an annulus and volume of a shell between two radii. *)
Definition ring_area (a b : R) : R := PI * (b * b - a * a).
Definition shell_volume (a b : R) : R := 4 / 3 * PI * (b * b * b - a * a * a).
(** Solid angle of the zone between two colatitudes. *)
Definition zone_area (a b : R) : R := 2 * PI * RInt sin a b.

(** Expectation over one uniform draw. *)
Definition expectation (g : R -> R) (m : R) : Prop := is_RInt g 0 1 m.
