(** * UnitsSpec: an optimisation problem in other units, exact arithmetic (C77). *)

From Coq Require Import Reals.
From Verif Require Import Base Num NumR LevelSetModel NormSpec OptModel.
Local Open Scope R_scope.

(** Function [k] (0: the objective) measured in units such that its values are [u k] times as large. *)
Definition in_units (u : nat -> R) (p : BoundaryPoint R) : BoundaryPoint R := with_sens (imap (fun k s => u k * s) (bp_sens p)) p.
Definition dist_in_units (u : nat -> R) (dist : list R) : list R := imap (fun i d => u (S i) * d) dist.
Definition lambdas_in_units (u : nat -> R) (lambdas : list R) : list R := imap (fun k l => l / u k) lambdas.

(** Some point that may move has a sensitivity to function [k] that is a normalised number in both units. *)
Definition normal_in_both (u : nat -> R) (k : nat) (points : list (BoundaryPoint R)) : Prop :=
  exists p s, p ∈ points /\ bp_fixed p = false /\ bp_sens p !! k = Some s /\ / 2 ^ 1022 <= Rabs s /\ / 2 ^ 1022 <= u k * Rabs s.

(** NLopt goes by the problem it is given: dimension, bounds, start, direction, kinds of constraint, and what the callback returns. *)
Definition by_problem (nlopt : nat -> Opt R -> Nlopt R) : Prop :=
  forall k o o', op_n o' = op_n o -> op_neg o' = op_neg o -> op_pos o' = op_pos o -> op_lambdas o' = op_lambdas o -> op_isMax o' = op_isMax o -> op_isEq o' = op_isEq o ->
    nlopt k o' = nlopt k o.

(** The same outcome: both fail in the same way, or both return related results. *)
Definition same_outcome {A} (R : A -> A -> Prop) (o o' : outcome A) : Prop :=
  match o, o' with
  | Ok a, Ok b => R a b
  | Exit, Exit | UB, UB | OutOfFuel, OutOfFuel => True
  | _, _ => False
  end.
(** Results of solve in the two units: no value if an exception left solve, otherwise the same displacements, and multipliers, time step, velocities and objective in the new units. *)
Definition same_step (u : nat -> R) (r r' : Opt R * option R) : Prop :=
  match r, r' with
  | (_, None), (_, None) => True
  | (o, Some v), (o', Some v') =>
      v' = u 0%nat * v /\ op_disp o' = op_disp o /\ op_time o' = op_time o / u 0%nat /\ op_lambdas o' = lambdas_in_units u (op_lambdas o) /\
      op_points o' = map (fun p => set_bp_velocity (u 0%nat * bp_velocity p) (in_units u p)) (op_points o)
  | _, _ => False
  end.
