(** * ReuseSpec: calling solve again on an Optimise object (C88). *)

From Verif Require Import Base Num LevelSetModel OptModel UnitsSpec.

Section spec.
  Context {T : Type} `{Num T}.
  (** [o] is like the newly built object [f] up to what solve leaves behind: same arguments, all constraints still there with their distances,
      vectors of the same sizes, and no displacement kept for a point that is fixed.  Scale factors, limits, displacements of other points, stored
      gradients, the order of the functions, the last return code and the time step may be anything. *)
  Record as_new (f o : Opt T) : Prop := {
    n_points : op_points o = op_points f;
    n_dist : op_dist o = op_dist f;
    n_target : op_target o = op_target f;
    n_lambdas : op_lambdas o = op_lambdas f;
    n_limit : op_limit o = op_limit f;
    n_isMax : op_isMax o = op_isMax f;
    n_isEq : op_isEq o = op_isEq f;
    n_n : op_n o = op_n f;
    n_n0 : op_n0 o = op_n0 f;
    n_neg : length (op_neg o) = length (op_neg f);
    n_pos : length (op_pos o) = length (op_pos f);
    n_scale : length (op_scale o) = length (op_scale f);
    n_fixed : forall i p d, op_points o !! i = Some p -> bp_fixed p = true -> op_disp o !! i = Some d -> d = n0
  }.
  (** NLopt goes by the problem it is given. *)
  Definition by_the_problem (nlopt : nat -> Opt T -> Nlopt T) : Prop :=
    forall k o o', op_n o' = op_n o -> op_neg o' = op_neg o -> op_pos o' = op_pos o -> op_lambdas o' = op_lambdas o -> op_isMax o' = op_isMax o -> op_isEq o' = op_isEq o ->
      nlopt k o' = nlopt k o.
  (** Whatever the callback answers, this call of NLopt returns: it does not throw. *)
  Inductive returns : Nlopt T -> Prop :=
  | returns_call index lambda g next : (forall v gr, returns (next v gr)) -> returns (NlCall index lambda g next)
  | returns_end code x value : returns (NlEnd (NlReturn code x value)).
  (** The same result of solve. *)
  Definition same_result (r r' : Opt T * option T) : Prop :=
    snd r' = snd r /\ (snd r <> None -> op_points (fst r') = op_points (fst r) /\ op_disp (fst r') = op_disp (fst r) /\ op_lambdas (fst r') = op_lambdas (fst r) /\ op_time (fst r') = op_time (fst r)).
  (** The objects of a program that builds one Optimise object without constraints and calls solve on it again and again.  Between two calls the
      vector of boundary points and the multipliers may change, as the object only refers to them; a position that holds a fixed point after the
      change held one before, or is new. *)
  Inductive used (limit : T) (isMax : bool) (isEq : list bool) : Opt T -> Prop :=
  | used_new points lambdas time o : optimise_ctor points [] lambdas time limit isMax isEq = Ok o -> used limit isMax isEq o
  | used_again o nlopt fuel o' v points lambdas : used limit isMax isEq o -> solve nlopt fuel o = Ok (o', v) ->
      (forall i p q, op_points o' !! i = Some p -> points !! i = Some q -> bp_fixed q = true -> bp_fixed p = true) ->
      used limit isMax isEq (set_lambdas lambdas (set_points points o')).
End spec.
