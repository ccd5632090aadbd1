(** * SeparateSpec: a shape made of two parts that share no element (C86). *)

From Coq Require Import Reals.
From Verif Require Import Base ShiftSpec.
Local Open Scope R_scope.

(** Part of the shape lies in the element with lower left node ([x], [y]): one of its corners is inside. *)
Definition in_element (W : nat) (sd : list R) (x y : nat) : Prop :=
  0 < node_value W sd x y \/ 0 < node_value W sd (x + 1) y \/ 0 < node_value W sd (x + 1) (y + 1) \/ 0 < node_value W sd x (y + 1).
(** The level sets have the same values at the corners of that element. *)
Definition alike (W : nat) (sd sd' : list R) (x y : nat) : Prop :=
  node_value W sd' x y = node_value W sd x y /\ node_value W sd' (x + 1) y = node_value W sd (x + 1) y /\
  node_value W sd' (x + 1) (y + 1) = node_value W sd (x + 1) (y + 1) /\ node_value W sd' x (y + 1) = node_value W sd x (y + 1).
(** The shape of [sd] is made of those of [p] and [q]: no element has both, where one of them is [sd] is like it, and there is nothing else. *)
Definition made_of (W H : nat) (p q sd : list R) : Prop :=
  forall x y, (x < W)%nat -> (y < H)%nat ->
    ~ (in_element W p x y /\ in_element W q x y) /\
    (in_element W p x y -> alike W p sd x y) /\ (in_element W q x y -> alike W q sd x y) /\
    (in_element W sd x y -> in_element W p x y \/ in_element W q x y).
