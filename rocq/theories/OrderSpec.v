(** * OrderSpec: the same step for the same boundary points in another order, exact arithmetic (C85). *)

From Coq Require Import Reals.
From Verif Require Import Base Num NumR LevelSetModel OptModel.
Local Open Scope R_scope.

(** Results of solve: no value if an exception left solve; otherwise the same change of the objective, time step and multipliers, and the same
    points, each with the same displacement, in some order. *)
Definition same_up_to_order (r r' : Opt R * option R) : Prop :=
  match r, r' with
  | (_, None), (_, None) => True
  | (o, Some v), (o', Some v') =>
      v' = v /\ op_time o' = op_time o /\ op_lambdas o' = op_lambdas o /\
      length (op_disp o) = length (op_points o) /\ length (op_disp o') = length (op_points o') /\
      zip (op_points o') (op_disp o') ≡ₚ zip (op_points o) (op_disp o)
  | _, _ => False
  end.
