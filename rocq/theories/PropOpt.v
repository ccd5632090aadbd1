(** * PropOpt: theorems about Optimise (C38-C42, C53).  Proofs in OptSolve, OptRounds, OptTotal and OptMain.

    [solve nlopt fuel o = Ok (o', Some v)]: solve returned the value [v]; [o'] holds the boundary points (velocities),
    the multipliers and the time step as solve left them.  [nlopt] is the external optimiser: each theorem is about every
    one of its behaviours (every sequence of callbacks, followed by any result or exception). *)

From Coq Require Import Reals.
From Verif Require Import Base Num NumR NumF64 LevelSetModel LevelSetSpec LevelSetCalls LevelSetHist BoundaryModel BoundarySpec BoundarySpecR
  OptModel OptSpec OptSolve OptTotal OptMain OptCases OptSides OptRetry.
Local Open Scope R_scope.

(** C38, exact arithmetic: no displacement exceeds the limit and none on the border of the domain is below the side limit. *)
Theorem C38_displacements_within_the_limits points dist lambdas time limit isMax isEq (o : Opt R) nlopt fuel o' v :
  side_limits limit points -> optimise_ctor points dist lambdas time limit isMax isEq = Ok o -> solve nlopt fuel o = Ok (o', Some v) ->
  op_time o' <> 0 -> length (op_points o') = length points /\
  forall i p, op_points o' !! i = Some p -> Rabs (bp_velocity p * op_time o') <= limit /\ (bp_domain p = true -> bp_neg p <= bp_velocity p * op_time o').
Proof. exact (solve_cfl points dist lambdas time limit isMax isEq o nlopt fuel o' v). Qed.
Print Assumptions C38_displacements_within_the_limits.

(** The points discretise makes meet the condition if the limit is at least the move limit of the level set or the
    tolerance 1e-6. *)
Theorem C38_discretised_points_qualify W H (s s' : LevelSet R) tg b limit : reached W H s -> discretise s tg = Ok (s', b) ->
  ls_moveLimit s <= limit \/ tol <= limit -> side_limits limit (bd_points b).
Proof. exact (discretised_sides W H s s' tg b limit). Qed.
Print Assumptions C38_discretised_points_qualify.

(** C38 without the condition on the side limits is false: limit 1/2, a point on the border with negative limit -1 moves by -1. *)
Theorem C38_far_side_limit_refuted :
  (let! o := start64 (one64 (d64 (-1) 1)) [] [d64 1 1] in
   let! (o', _) := solve (evaluate (fun _ => d64 (-4) 1)) 100 o in Ok (map (fun d => (d =? d64 (-1) 1)%num) (moved64 o'))) = Ok [true].
Proof. vm_compute. reflexivity. Qed.
Print Assumptions C38_far_side_limit_refuted.

(** C39, exact arithmetic: the displacements are those of the multipliers solve reports, the time step is the magnitude
    of the first one and the velocity is displacement / time step; nothing else of the points changes. *)
Theorem C39_velocities_reproduce_the_displacements points dist lambdas time limit isMax isEq (o : Opt R) nlopt fuel o' v :
  optimise_ctor points dist lambdas time limit isMax isEq = Ok o -> solve nlopt fuel o = Ok (o', Some v) ->
  length (op_lambdas o') = length lambdas /\ op_time o' = Rabs (nth 0 (op_lambdas o') 0) /\
  op_points o' = map (fun p => set_bp_velocity (move (op_lambdas o') p / op_time o') p) points.
Proof. exact (solve_moves points dist lambdas time limit isMax isEq o nlopt fuel o' v). Qed.
Print Assumptions C39_velocities_reproduce_the_displacements.

(** C40, exact arithmetic: if the optimiser returns the objective's value at the multipliers it returns ([truthful]), and
    no point that may move is on the border, or no displacement has reached the limit, the value of solve is the
    boundary integral of sensitivity times displacement. *)
Theorem C40_value_is_the_change_of_the_objective points dist lambdas time limit isMax isEq (o : Opt R) nlopt fuel o' v : truthful nlopt ->
  (forall k, (k < length lambdas)%nat -> sensitive k points) ->
  optimise_ctor points dist lambdas time limit isMax isEq = Ok o -> solve nlopt fuel o = Ok (o', Some v) ->
  (forall p, p ∈ points -> bp_fixed p = false -> bp_domain p = false) \/
    (side_limits limit points /\ forall p, p ∈ points -> Rabs (move (op_lambdas o') p) < limit) ->
  v = integral 0 points (move (op_lambdas o')).
Proof. exact (solve_objective points dist lambdas time limit isMax isEq o nlopt fuel o' v). Qed.
Print Assumptions C40_value_is_the_change_of_the_objective.

(** C40 without the last condition is false: a point on the border is held at its limit -1/10 and another one is scaled
    back to the limit 1/2; the value is rescaled as if the first one had been scaled back as well. *)
Theorem C40_rescaled_side_limit_refuted :
  (let! o := start64 (side64 (d64 (-1) 10)) [] [d64 1 1] in
   let! (o', v) := solve (evaluate (fun _ => d64 (-1000) 1)) 100 o in
   match v with None => UB | Some v => Ok (nabs (v - integral64 o') >? d64 1 100)%num end) = Ok true.
Proof. vm_compute. reflexivity. Qed.
Print Assumptions C40_rescaled_side_limit_refuted.

(** C38-C40: the hypotheses are met by a problem with three points, one of them fixed, and one constraint. *)
Example C40_case (target : R) : target <= 0 -> exists o, optimise_ctor three [target] [1; 1] 0 (1 / 2) false [] = Ok o /\ truthful (evaluate mu_r) /\
  (forall k, (k < 2)%nat -> sensitive k three) /\ (forall p, p ∈ three -> bp_fixed p = false -> bp_domain p = false) /\ side_limits (1 / 2) three /\
  exists F, forall fuel, (F <= fuel)%nat -> exists o' v, solve (evaluate mu_r) fuel o = Ok (o', Some v).
Proof.
  intros Ht. destruct (three_solved target Ht) as (o & C & T & F). exists o. split; [exact C|]. split; [exact T|].
  split; [exact three_sensitive|]. split; [exact three_free|]. split; [apply three_sides|exact F].
Qed.
(** The same in double precision: the constraints stay, no displacement exceeds 1/2, the time step is not zero. *)
Example C38_case64 :
  (let! o := start64 pair64 [d64 (-1) 10; d64 1 10] [d64 1 1; d64 1 1; d64 1 1] in let! (o', _) := solve (evaluate tenth) 100 o in
   Ok (op_n o', (op_time o' >? d64 1 1000)%num, map (fun d => (nabs d <=? d64 1 2)%num) (moved64 o'))) = Ok (2%nat, true, [true; true]).
Proof. vm_compute. reflexivity. Qed.

(** C41, exact arithmetic, no moving point on the border: [op_index o1] are the functions NLopt is given (0 is the
    objective), in their order; [op_target o1] are the distances it is given.  With m the largest change of constraint k
    that the multipliers of these functions allow, constraint k is given iff it is an equality or its distance is
    at most 0.99 m, and the distance it is given is its own, cut to [-0.99 m, 0.99 m]. *)
Theorem C41_constraints_kept points dist lambdas time limit isMax isEq fuel (o o1 : Opt R) :
  optimise_ctor points dist lambdas time limit isMax isEq = Ok o ->
  (forall k, (k < length lambdas)%nat -> sensitive k points) -> (forall p, p ∈ points -> bp_fixed p = false -> bp_domain p = false) ->
  isEq = [] \/ length isEq = length dist -> prepare fuel o = Ok o1 ->
  length (op_index o1) = (op_n o1 + 1)%nat /\ op_index o1 `sublist_of` seq 0 (length lambdas) /\ op_index o1 !! 0%nat = Some 0%nat /\
  (forall k m, (1 <= k < length lambdas)%nat -> largest_change limit points (op_index o1) k m ->
    (k ∈ op_index o1 <-> nth (k - 1) isEq false = true \/ nth (k - 1) dist 0 <= 99 / 100 * m)) /\
  (forall a k m, op_index o1 !! S a = Some k -> largest_change limit points (op_index o1) k m ->
    nth a (op_target o1) 0 = Rmax (- (99 / 100 * m)) (Rmin (99 / 100 * m) (nth (k - 1) dist 0))).
Proof. exact (prepare_constraints points dist lambdas time limit isMax isEq fuel o o1). Qed.
Print Assumptions C41_constraints_kept.

(** Such a largest change exists. *)
Theorem C41_largest_change_exists limit points keep k : 0 < limit -> exists m, largest_change limit points keep k m.
Proof. exact (change_exists limit points keep k). Qed.
Print Assumptions C41_largest_change_exists.

(** C41: when solve returns, either every constraint was given to NLopt, or each is an inequality that the objective's
    multiplier cannot violate, and its multiplier is reported as zero. *)
Theorem C41_all_or_none points dist lambdas time limit isMax isEq (o : Opt R) nlopt fuel o' v :
  optimise_ctor points dist lambdas time limit isMax isEq = Ok o ->
  (forall k, (k < length lambdas)%nat -> sensitive k points) -> (forall p, p ∈ points -> bp_fixed p = false -> bp_domain p = false) ->
  isEq = [] \/ length isEq = length dist -> solve nlopt fuel o = Ok (o', Some v) ->
  (forall k m, (1 <= k < length lambdas)%nat -> largest_change limit points (seq 0 (length lambdas)) k m ->
    nth (k - 1) isEq false = true \/ nth (k - 1) dist 0 <= 99 / 100 * m) \/
  (forall k m, (1 <= k < length lambdas)%nat -> largest_change limit points [0%nat] k m ->
    nth (k - 1) isEq false = false /\ 99 / 100 * m < nth (k - 1) dist 0 /\ nth k (op_lambdas o') 0 = 0).
Proof. exact (solve_constraints points dist lambdas time limit isMax isEq o nlopt fuel o' v). Qed.
Print Assumptions C41_all_or_none.

(** C41, any numbers: when some but not all constraints are dropped, solve does not return a value. *)
Theorem C41_some_dropped_never_returns (T : Type) (NT : Num T) points dist lambdas time limit isMax isEq (o o1 : Opt T) nlopt fuel :
  optimise_ctor points dist lambdas time limit isMax isEq = Ok o -> prepare fuel o = Ok o1 -> (0 < op_n o1 < length dist)%nat ->
  forall o' v, solve nlopt fuel o <> Ok (o', Some v).
Proof. exact (solve_some_removed points dist lambdas time limit isMax isEq o o1 nlopt fuel). Qed.
Print Assumptions C41_some_dropped_never_returns.

(** One such problem, in doubles: of two constraints the second one is dropped, and solve reads past the end of its index
    map.  With the constraints exchanged it writes past the end of a gradient.  With both dropped it works. *)
Theorem C41_dropping_some_constraints_refuted :
  let lambdas := [d64 1 1; d64 1 1; d64 1 1] in
  (let! o := start64 pair64 [d64 (-1) 10; d64 1000 1] lambdas in let! o1 := prepare 100 o in Ok (op_n o1)) = Ok 1%nat /\
  (let! o := start64 pair64 [d64 (-1) 10; d64 1000 1] lambdas in let! (o', _) := solve (evaluate tenth) 100 o in Ok (op_n o')) = UB /\
  (let! o := start64 pair64 [d64 1000 1; d64 (-1) 10] lambdas in let! o1 := prepare 100 o in Ok (op_n o1)) = UB /\
  (let! o := start64 pair64 [d64 1000 1; d64 1000 1] lambdas in let! (o', v) := solve (evaluate tenth) 100 o in
   Ok (op_n o', match v with Some _ => true | None => false end)) = Ok (0%nat, true).
Proof. vm_compute. auto. Qed.
Print Assumptions C41_dropping_some_constraints_refuted.

(** C41: solve returns when every constraint can be kept, and also when every constraint is an inequality that no change
    within the ranges of the multipliers can violate.  NLopt is only assumed to ask for functions it was given and to
    report success.  With a single inequality constraint one of the two cases always holds. *)
Theorem C41_solve_ends points dist lambdas time limit isMax isEq (o : Opt R) nlopt :
  optimise_ctor points dist lambdas time limit isMax isEq = Ok o ->
  has_sens (length lambdas) points -> (forall k, (k < length lambdas)%nat -> sensitive k points) ->
  (forall p, p ∈ points -> bp_fixed p = false -> bp_domain p = false) ->
  isEq = [] \/ length isEq = length dist -> (length lambdas < 32)%nat ->
  all_kept limit points dist lambdas isEq \/ all_removed limit points dist lambdas isEq ->
  (forall o1, op_n o1 = length dist \/ op_n o1 = 0%nat -> polite (op_n o1) (nlopt 0%nat o1)) ->
  exists F, forall fuel, (F <= fuel)%nat -> exists o' v, solve nlopt fuel o = Ok (o', Some v).
Proof. exact (solve_ends points dist lambdas time limit isMax isEq o nlopt). Qed.
Print Assumptions C41_solve_ends.
Theorem C41_single_constraint limit points d lambdas isEq : 0 < limit -> length lambdas = 2%nat -> 
  all_kept limit points [d] lambdas isEq \/ all_removed limit points [d] lambdas isEq.
Proof. exact (single_constraint limit points d lambdas isEq). Qed.
Print Assumptions C41_single_constraint.
Example C41_case_removed (target : R) : 5 / 2 <= target ->
  has_sens 2 three /\ (forall k, (k < 2)%nat -> sensitive k three) /\ (forall p, p ∈ three -> bp_fixed p = false -> bp_domain p = false) /\
  all_removed (1 / 2) three [target] [1; 1] [] /\
  exists o, optimise_ctor three [target] [1; 1] 0 (1 / 2) false [] = Ok o /\
    (forall o1, op_n o1 = 1%nat \/ op_n o1 = 0%nat -> polite (op_n o1) (evaluate mu_r 0%nat o1)).
Proof. exact (fun H => conj three_has (conj three_sensitive (conj three_free (conj (three_removes target H) (three_unconstrained target H))))). Qed.

(** C41: a sufficient condition for solve to return. *)
Theorem C41_solve_returns points dist lambdas time limit isMax isEq (o : Opt R) nlopt :
  optimise_ctor points dist lambdas time limit isMax isEq = Ok o ->
  has_sens (length lambdas) points -> (forall k, (k < length lambdas)%nat -> sensitive k points) ->
  (forall p, p ∈ points -> bp_fixed p = false -> bp_domain p = false) ->
  isEq = [] \/ length isEq = length dist -> (length lambdas < 32)%nat ->
  (forall k m, (1 <= k < length lambdas)%nat -> largest_change limit points (seq 0 (length lambdas)) k m ->
    nth (k - 1) isEq false = true \/ nth (k - 1) dist 0 <= 99 / 100 * m) ->
  (forall o1, op_n o1 = length dist -> polite (length dist) (nlopt 0%nat o1)) ->
  exists F, forall fuel, (F <= fuel)%nat -> exists o' v, solve nlopt fuel o = Ok (o', Some v).
Proof. exact (solve_returns points dist lambdas time limit isMax isEq o nlopt). Qed.
Print Assumptions C41_solve_returns.

(** If the first attempt of NLopt ends with an exception, solve branches on a return code that has no value yet. *)
Theorem C41_exception_at_first_attempt_refuted :
  (let! o := start64 pair64 [d64 (-1) 10; d64 1 10] [d64 1 1; d64 1 1; d64 1 1] in let! (o', _) := solve throws 100 o in Ok (op_n o')) = UB.
Proof. vm_compute. reflexivity. Qed.
Print Assumptions C41_exception_at_first_attempt_refuted.

(** C42, exact arithmetic: function [ix] handed to NLopt is, up to the positive factor [nth ix (op_scale o1) 0], the
    change of function [ix] for the displacements of the (scaled) multipliers, minus the distance it is given.  The
    displacements, distances, multipliers and return code may be whatever NLopt and solve have made of them. *)
Theorem C42_value_of_the_callback points dist lambdas time limit isMax isEq fuel (o o1 : Opt R) :
  optimise_ctor points dist lambdas time limit isMax isEq = Ok o ->
  (forall k, (k < length lambdas)%nat -> sensitive k points) -> prepare fuel o = Ok o1 -> op_n o1 = length dist \/ op_n o1 = 0%nat ->
  forall d t l0 code la g ix o3 f gr, length la = (op_n o1 + 1)%nat ->
  opt_callback (set_disp d (set_otarget t (set_lambdas l0 (set_code code o1)))) la g ix = Ok (o3, f, gr) ->
  0 < nth ix (op_scale o1) 0 /\
  f = nth ix (op_scale o1) 0 * (integral ix points (move (zip_with Rmult (op_scale o1) la)) - (if (ix =? 0)%nat then 0 else nth (ix - 1) t 0)).
Proof. exact (callback_values points dist lambdas time limit isMax isEq fuel o o1). Qed.
Print Assumptions C42_value_of_the_callback.

(** C42, exact arithmetic, no moving point on the border: the reported gradient is the exact slope between any two points. *)
Theorem C42_gradient_of_the_callback points dist lambdas time limit isMax isEq fuel (o o1 : Opt R) :
  optimise_ctor points dist lambdas time limit isMax isEq = Ok o ->
  (forall p, p ∈ points -> bp_fixed p = false -> bp_domain p = false) -> prepare fuel o = Ok o1 -> op_n o1 = length dist \/ op_n o1 = 0%nat ->
  forall d t l0 code d' l0' code' la la' g' ix o3 o3' f f' gr gr', length la = (op_n o1 + 1)%nat -> length la' = (op_n o1 + 1)%nat ->
  opt_callback (set_disp d (set_otarget t (set_lambdas l0 (set_code code o1)))) la true ix = Ok (o3, f, gr) ->
  opt_callback (set_disp d' (set_otarget t (set_lambdas l0' (set_code code' o1)))) la' g' ix = Ok (o3', f', gr') ->
  length gr = (op_n o1 + 1)%nat /\ f' - f = dot gr (zip_with Rminus la' la).
Proof. exact (callback_gradient points dist lambdas time limit isMax isEq fuel o o1). Qed.
Print Assumptions C42_gradient_of_the_callback.

(** C42: the callback of the problem above can be called for both functions, with gradients. *)
Example C42_case : exists o, optimise_ctor three [-1] [1; 1] 0 (1 / 2) false [] = Ok o /\ exists fuel o1, prepare fuel o = Ok o1 /\ op_n o1 = 1%nat /\
  forall la ix, length la = 2%nat -> (ix < 2)%nat -> exists o3 f gr, opt_callback o1 la true ix = Ok (o3, f, gr).
Proof. exact three_callback. Qed.

(** C53, any numbers: when solve returns, NLopt was called on one problem again and again until it returned a code that is
    not negative, and not once more.  Between the attempts the distances to the constraints shrink by 0.7 for each
    roundoff error and for nothing else, and the next attempt starts from the multipliers the last one left.  The
    first attempt did not end with an exception.  [trace]: OptRetry.v. *)
Theorem C53_attempts_until_success (T : Type) (NT : Num T) points dist lambdas time limit isMax isEq (o : Opt T) nlopt fuel o' v :
  optimise_ctor points dist lambdas time limit isMax isEq = Ok o -> solve nlopt fuel o = Ok (o', Some v) ->
  exists o1 tr, prepare fuel o = Ok o1 /\ length (op_target o1) = op_n o1 /\ trace nlopt o1 tr /\
    forall q r, tr !! 0%nat = Some (q, r) -> match r with NlReturn _ _ _ => True | NlThrow _ _ _ => False end.
Proof. exact (solve_trace points dist lambdas time limit isMax isEq o nlopt fuel o' v). Qed.
Print Assumptions C53_attempts_until_success.

(** C53, any numbers: an NLopt that never succeeds keeps solve busy for ever; it never gives up with a result. *)
Theorem C53_no_success_no_result (T : Type) (NT : Num T) points dist lambdas time limit isMax isEq (o : Opt T) nlopt fuel o' v :
  optimise_ctor points dist lambdas time limit isMax isEq = Ok o ->
  (forall k q o2 r, run_nlopt (nlopt k q) q = Ok (o2, r) -> ~ succeeded r) -> solve nlopt fuel o <> Ok (o', Some v).
Proof. exact (solve_needs_success points dist lambdas time limit isMax isEq o nlopt fuel o' v). Qed.
Print Assumptions C53_no_success_no_result.

(** C53: NLopt fails, runs into a roundoff error twice, is called wrongly, and succeeds in the fifth attempt: the distances
    are 0.49 times the first ones.  *)
Example C53_case :
  (let! o := start64 pair64 [d64 (-1) 10; d64 1 10] [d64 1 1; d64 1 1; d64 1 1] in let! o1 := prepare 100 o in
   let! (o', v) := attempts fifth_time 100 0 None o1 in
   Ok (zip_with (fun a b => (a =? b * d64 7 10 * d64 7 10)%num) (op_target o') (op_target o1))) = Ok [true; true] /\
  (let! o := start64 pair64 [d64 (-1) 10; d64 1 10] [d64 1 1; d64 1 1; d64 1 1] in let! (o', v) := solve fifth_time 100 o in
   Ok (match v with Some _ => true | None => false end)) = Ok true.
Proof. vm_compute. auto. Qed.
