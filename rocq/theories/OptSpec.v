(** * OptSpec: what solve is meant to do, in exact arithmetic.

    A problem consists of boundary points, each with one sensitivity per function (function 0 is the objective, the
    others are constraints), and one multiplier per function. *)

From Coq Require Import Reals Lra.
From Verif Require Import Num NumR LevelSetModel.
Open Scope R_scope.

(** The sum of the products. *)
Fixpoint dot (a b : list R) : R :=
  match a, b with x :: a', y :: b' => x * y + dot a' b' | _, _ => 0 end.

(** The displacement of a point for given multipliers: the combination of its sensitivities; a point on the border of the
    domain does not go below its negative limit; a fixed point does not move. *)
Definition move (lambda : list R) (p : BoundaryPoint R) : R :=
  if bp_fixed p then 0
  else if bp_domain p then Rmax (bp_neg p) (dot lambda (bp_sens p)) else dot lambda (bp_sens p).

(** The change of function [k] when each point [p] moves by [d p]: the boundary integral of the sensitivity. *)
Definition integral (k : nat) (points : list (BoundaryPoint R)) (d : BoundaryPoint R -> R) : R :=
  fold_right Rplus 0 (map (fun p => nth k (bp_sens p) 0 * d p * bp_length p) points).

(** The side limits are between the largest displacement and zero (true of the points discretise makes on the border,
    whose limit is within 1e-6 of zero). *)
Definition side_limits (limit : R) (points : list (BoundaryPoint R)) : Prop :=
  forall p, p ∈ points -> bp_domain p = true -> - limit <= bp_neg p <= 0.

(** Every point that may move has a sensitivity for each of the functions. *)
Definition has_sens {T} (n : nat) (points : list (BoundaryPoint T)) : Prop :=
  forall p, p ∈ points -> bp_fixed p = false -> (n <= length (bp_sens p))%nat.

(** Function [k] can change: some point that may move has a length and a sensitivity to it; no length is negative. *)
Definition sensitive (k : nat) (points : list (BoundaryPoint R)) : Prop :=
  (exists p, p ∈ points /\ bp_fixed p = false /\ nth k (bp_sens p) 0 <> 0 /\ 0 < bp_length p) /\
  (forall p, p ∈ points -> bp_fixed p = false -> 0 <= bp_length p).

(** ** Constraints *)

(** The largest magnitude of the sensitivity to function [k] of a point that may move. *)
Definition largest (k : nat) (points : list (BoundaryPoint R)) : R :=
  fold_right Rmax 0 (map (fun p => if bp_fixed p then 0 else Rabs (nth k (bp_sens p) 0)) points).

(** The range of the multiplier of function [k]: alone it moves no point by more than [limit]. *)
Definition lambda_range (limit : R) (points : list (BoundaryPoint R)) (k : nat) : R :=
  limit / Rmax (/ 2 ^ 1022) (largest k points).

(** The displacement of a point when only the functions in [keep] have multipliers. *)
Definition combined (keep : list nat) (mu : nat -> R) (p : BoundaryPoint R) : R :=
  if bp_fixed p then 0 else fold_right Rplus 0 (map (fun j => mu j * nth j (bp_sens p) 0) keep).

(** [m] is the largest change of function [k] within the ranges of the multipliers of the functions in [keep]. *)
Definition largest_change (limit : R) (points : list (BoundaryPoint R)) (keep : list nat) (k : nat) (m : R) : Prop :=
  (forall mu, (forall j, j ∈ keep -> Rabs (mu j) <= lambda_range limit points j) -> integral k points (combined keep mu) <= m) /\
  (exists mu, (forall j, j ∈ keep -> Rabs (mu j) <= lambda_range limit points j) /\ integral k points (combined keep mu) = m).
(** Either every constraint can be kept, or every constraint is removed at once. *)
Definition all_kept (limit : R) (points : list (BoundaryPoint R)) (dist lambdas : list R) (isEq : list bool) : Prop :=
  forall k m, (1 <= k < length lambdas)%nat -> largest_change limit points (seq 0 (length lambdas)) k m ->
    nth (k - 1) isEq false = true \/ nth (k - 1) dist 0 <= 99 / 100 * m.
Definition all_removed (limit : R) (points : list (BoundaryPoint R)) (dist lambdas : list R) (isEq : list bool) : Prop :=
  forall k m, (1 <= k < length lambdas)%nat -> largest_change limit points (seq 0 (length lambdas)) k m ->
    nth (k - 1) isEq false = false /\ 99 / 100 * m < nth (k - 1) dist 0.
