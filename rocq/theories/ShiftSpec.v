(** * ShiftSpec: the same shape at another place, or in a larger domain (C84). *)

From Coq Require Import Reals ZArith.
From Verif Require Import Base.
Local Open Scope R_scope.

(** The value at node ([x], [y]) of a mesh [W] elements wide. *)
Definition node_value (W : nat) (sd : list R) (x y : nat) : R := nth (x + y * (W + 1)) sd 0.
(** Inside nodes of [sd] (mesh [W] by [H]) lie inside the mesh, and also inside the mesh [V] by [K] when moved by [a] and [b]. *)
Definition has_room (W H V K : nat) (a b : Z) (sd : list R) : Prop :=
  forall x y, (x <= W)%nat -> (y <= H)%nat -> 0 < node_value W sd x y ->
    (0 < x < W)%nat /\ (0 < y < H)%nat /\ (0 < Z.of_nat x + a < Z.of_nat V)%Z /\ (0 < Z.of_nat y + b < Z.of_nat K)%Z.
(** [sd'] (mesh [V] by [K]) is [sd] (mesh [W] by [H]) moved by [a] to the right and [b] up: equal values where both are defined, and all else is outside. *)
Definition moved_by (W H V K : nat) (a b : Z) (sd sd' : list R) : Prop :=
  has_room W H V K a b sd /\ has_room V K W H (- a) (- b) sd' /\
  forall x y x' y', (x <= W)%nat -> (y <= H)%nat -> (x' <= V)%nat -> (y' <= K)%nat -> Z.of_nat x' = (Z.of_nat x + a)%Z -> Z.of_nat y' = (Z.of_nat y + b)%Z ->
    node_value V sd' x' y' = node_value W sd x y.
