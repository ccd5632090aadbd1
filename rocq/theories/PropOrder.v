(** * PropOrder: the order of the boundary points does not matter (C85). *)

From Coq Require Import Reals Lra.
From Verif Require Import Base Num NumR NumF64 LevelSetModel OptModel OptSpec OptMain OptCases UnitsSpec Units OrderSpec Order.
Local Open Scope R_scope.

(** ** C85, exact arithmetic: hand the same boundary points to Optimise in another order.  Then solve ends in the same way; if it returns a value,
    the value, the time step and the multipliers are the same, and every point gets the displacement and the velocity it would have got. *)
Theorem C85_order_of_points nlopt fuel points points' (dist lambdas : list R) time limit isMax isEq : points' ≡ₚ points -> by_problem nlopt ->
  same_outcome same_up_to_order
    (let! o := optimise_ctor points dist lambdas time limit isMax isEq in solve nlopt fuel o)
    (let! o := optimise_ctor points' dist lambdas time limit isMax isEq in solve nlopt fuel o).
Proof. exact (order_of_points nlopt fuel points points' dist lambdas time limit isMax isEq). Qed.
Print Assumptions C85_order_of_points.

(** Three points, one of them fixed, backwards: solve returns a value. *)
Example C85_case (target : R) : target <= 0 -> reverse three ≡ₚ three /\ reverse three <> three /\ by_problem (evaluate mu_r) /\
  exists F, forall fuel, (F <= fuel)%nat -> exists o v, (let! o := optimise_ctor three [target] [1; 1] 0 (1 / 2) false [] in solve (evaluate mu_r) fuel o) = Ok (o, Some v).
Proof.
  intros Ht. split; [apply reverse_Permutation|]. split; [discriminate|]. split; [intros k o o' _ _ _ _ _ _; reflexivity|].
  destruct (three_solved target Ht) as (o & C & _ & F & HF). exists F. intros fuel Hf. rewrite C. cbn [obind]. exact (HF fuel Hf).
Qed.

(** ** In doubles the claim is false: the sums round differently, and solve returns another value. *)
Theorem C85_rounding_refuted : exists points points' : list (BoundaryPoint f64), points' ≡ₚ points /\
  let run points := let! o := start64 points [] [d64 1 1] in solve (fun _ _ => NlEnd (NlReturn 1 tenth (d64 1 1))) 100 o in
  (let! (_, v) := run points in let! (_, v') := run points' in
   match v, v' with Some v, Some v' => Ok (v =? v')%num | _, _ => UB end) = Ok false.
Proof.
  exists (fpoint false (d64 0 1) [d64 1 1] :: replicate 8 (fpoint false (d64 0 1) [d64 1 (2 ^ 27)])), (replicate 8 (fpoint false (d64 0 1) [d64 1 (2 ^ 27)]) ++ [fpoint false (d64 0 1) [d64 1 1]]).
  split; [symmetry; apply Permutation_cons_append|]. vm_compute. reflexivity.
Qed.
Print Assumptions C85_rounding_refuted.
