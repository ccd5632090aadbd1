(** * FmmSpec: what the fast marching theorems talk about.

    Grid adjacency, the zero contour of a nodal field, and the distance from a node to the crossings
    of the contour with the grid edges at that node.  Independent of FmmModel.v. *)

From Verif Require Export MeshSpec.

(** Nodes [i] and [k] are next to each other on a row / on a column of the grid. *)
Definition adj_x (W H i k : nat) : Prop := exists x y x',
  i = node_id W x y /\ k = node_id W x' y /\ x <= W /\ x' <= W /\ y <= H /\ (x' = x + 1 \/ x = x' + 1).
Definition adj_y (W H i k : nat) : Prop := exists x y y',
  i = node_id W x y /\ k = node_id W x y' /\ x <= W /\ y <= H /\ y' <= H /\ (y' = y + 1 \/ y = y' + 1).
Definition adjacent (W H i k : nat) : Prop := adj_x W H i k \/ adj_y W H i k.

Section FmmSpec.
  Context {T : Type} `{Num T}.

  (** The field vanishes at node [i]. *)
  Definition on_contour (sd : list T) (i : nat) : Prop := exists c, sd !! i = Some c /\ (c =? n0)%num = true.
  (** The field changes sign between nodes [i] and [k]. *)
  Definition crossing (sd : list T) (i k : nat) : Prop :=
    exists c v, sd !! i = Some c /\ sd !! k = Some v /\ (c * v <? n0)%num = true.
  (** Node [i] is on the contour or the contour passes between it and an adjacent node. *)
  Definition on_front (W H : nat) (sd : list T) (i : nat) : Prop :=
    on_contour sd i \/ exists k, adjacent W H i k /\ crossing sd i k.
  (** Node [i] can be reached from the front by steps between adjacent nodes, landing only on nodes
      that satisfy [A]. *)
  Inductive reachable (W H : nat) (A : nat -> Prop) (sd : list T) : nat -> Prop :=
  | reach_front i : i < node_count W H -> on_front W H sd i -> reachable W H A sd i
  | reach_step i k : reachable W H A sd i -> adjacent W H i k -> A k -> reachable W H A sd k.
End FmmSpec.

(** ** Exact arithmetic *)
From Verif Require Import NumR.
Local Open Scope R_scope.

Section FmmSpecR.
  Variables (W H : nat) (sd : list R).

  (** [d] is the distance from node [i] along a grid edge in the given direction class to the
      linearly interpolated zero of the field, and the smallest such distance. *)
  Definition edge_crossing (adj : nat -> nat -> Prop) (i : nat) (d : R) : Prop :=
    exists k c v, adj i k /\ sd !! i = Some c /\ sd !! k = Some v /\ c * v < 0 /\ d = c / (c - v).
  Definition nearest_crossing (adj : nat -> nat -> Prop) (i : nat) (d : R) : Prop :=
    edge_crossing adj i d /\ forall d', edge_crossing adj i d' -> d <= d'.
  Definition no_crossing (adj : nat -> nat -> Prop) (i : nat) : Prop := forall d, ~ edge_crossing adj i d.

  (** [r] is the distance from node [i] to the straight line through the nearest crossing on its row
      and the nearest crossing on its column (or to the only one of the two that exists). *)
  Definition contour_distance (i : nat) (r : R) : Prop :=
    0 < r /\
    ((exists dx dy, nearest_crossing (adj_x W H) i dx /\ nearest_crossing (adj_y W H) i dy /\
        1 / (r * r) = 1 / (dx * dx) + 1 / (dy * dy)) \/
     (nearest_crossing (adj_x W H) i r /\ no_crossing (adj_y W H) i) \/
     (no_crossing (adj_x W H) i /\ nearest_crossing (adj_y W H) i r)).

  (** Same side of the contour. *)
  Definition same_side (x y : R) : Prop := (0 < x -> 0 < y) /\ (x < 0 -> y < 0) /\ (x = 0 -> y = 0).
End FmmSpecR.
