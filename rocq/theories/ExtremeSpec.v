(** * ExtremeSpec: shapes that fill nothing or everything (C87). *)

From Coq Require Import Reals.
From Verif Require Import Base ShiftSpec.
Local Open Scope R_scope.

(** Every node is outside, or inside. *)
Definition nothing (W H : nat) (sd : list R) : Prop := forall x y, (x <= W)%nat -> (y <= H)%nat -> node_value W sd x y < 0.
Definition everything (W H : nat) (sd : list R) : Prop := forall x y, (x <= W)%nat -> (y <= H)%nat -> 0 < node_value W sd x y.
