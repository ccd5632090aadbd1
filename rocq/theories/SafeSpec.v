(** * SafeSpec: what is asked of a caller and of NLopt so that no values break the optimiser (C79). *)

From Verif Require Import Base Num LevelSetModel OptModel.

(** Ends in memory: a result that satisfies [Q], or no end. *)
Definition safe {A} (o : outcome A) (Q : A -> Prop) : Prop :=
  match o with Ok a => Q a | OutOfFuel => True | _ => False end.
(** NLopt asks only for functions it was given (0 to [n]) and ends with a result that satisfies [P]. *)
Fixpoint asks_within {T} (n : nat) (P : NlResult T -> Prop) (t : Nlopt T) : Prop :=
  match t with
  | NlCall i _ _ next => i <= n /\ forall v g, asks_within n P (next v g)
  | NlEnd r => P r
  end.
(** The first attempt does not end with one of the exceptions that solve catches (C41: those find a return code that has no value). *)
Definition not_caught {T} (r : NlResult T) : Prop :=
  match r with NlThrow RoundoffLimited _ _ | NlThrow InvalidArgument _ _ => False | _ => True end.
Definition proper {T} (nlopt : nat -> Opt T -> Nlopt T) : Prop :=
  forall k o, asks_within (op_n o) (fun r => k = 0 -> not_caught r) (nlopt k o).
(** Constraint [i] is never dropped: it is an equality or its distance is negative. *)
Definition never_dropped {T} `{Num T} (dist : list T) (isEq : list bool) (i : nat) : Prop :=
  isEq !! i = Some true \/ exists d, dist !! i = Some d /\ (d <? n0)%num = true.
