(** * PropSafe: no values break the optimiser (C79).  Proofs in SolveSafe. *)

From Verif Require Import Base Num NumF64 LevelSetModel OptModel OptSpec OptCases SafeSpec SolveSafe.

(** C79, any numbers, also infinities and NaN: with enough sensitivities in every point that can move, at most 30 constraints, and either at most one constraint
    or none that can be dropped, solve never leaves its arrays and never uses a number that has no value.  It may run for ever. *)
Theorem C79_no_values_break_solve (T : Type) (NT : Num T) points (dist lambdas : list T) time limit isMax isEq nlopt fuel o :
  (n0 =? n0)%num = true -> optimise_ctor points dist lambdas time limit isMax isEq = Ok o -> length dist < 31 -> has_sens (length lambdas) points ->
  isEq = [] \/ length isEq = length dist -> proper nlopt ->
  length dist <= 1 \/ (forall i, i < length dist -> never_dropped dist isEq i) ->
  safe (solve nlopt fuel o) (fun r => length (op_disp (fst r)) = length points /\
    (snd r <> None -> length (op_points (fst r)) = length points /\ length (op_lambdas (fst r)) = length lambdas)).
Proof. exact (solve_safe points dist lambdas time limit isMax isEq nlopt fuel o). Qed.
Print Assumptions C79_no_values_break_solve.

(** Doubles: an infinite and an undefined sensitivity, and a distance that is no number; solve returns. *)
Definition inf64 : f64 := (d64 1 1 / d64 0 1)%num.
Definition nan64 : f64 := (d64 0 1 / d64 0 1)%num.
Definition wild64 : list (BoundaryPoint f64) := [fpoint false (d64 0 1) [d64 1 1; inf64]; fpoint false (d64 0 1) [nan64; d64 1 1]].
Example C79_case : ((n0 : f64) =? n0)%num = true /\ has_sens 2 wild64 /\ proper (evaluate tenth) /\
  (let! o := start64 wild64 [nan64] [d64 1 1; d64 1 1] in let! (o', v) := solve (evaluate tenth) 100 o in
   Ok (length (op_disp o'), match v with Some _ => true | None => false end)) = Ok (2, true).
Proof.
  split; [vm_compute; reflexivity|]. split; [|split; [|vm_compute; reflexivity]].
  - intros p Hp _. apply elem_of_list_In in Hp as [<-|[<-|[]]]; cbn; lia.
  - intros k o. cbn. split; [lia|]. auto.
Qed.

(** The result need not be a number: without any sensitivity, or with the multiplier of the objective 0, the velocities of the points are not. *)
Theorem C79_no_sensitivity_refuted :
  let none64 := [fpoint false (d64 0 1) [d64 0 1]; fpoint false (d64 0 1) [d64 0 1]] in
  let numbers (o : Opt f64) := map (fun p => bp_velocity p =? bp_velocity p)%num (op_points o) in
  (let! o := start64 none64 [] [d64 1 1] in let! (o', v) := solve (evaluate tenth) 100 o in Ok (numbers o')) = Ok [false; false] /\
  (let! o := start64 (firstn 2 pair64) [] [d64 1 1] in let! (o', v) := solve (evaluate (fun _ => d64 0 1)) 100 o in Ok (numbers o')) = Ok [false; false] /\
  (let! o := start64 (firstn 2 pair64) [] [d64 1 1] in let! (o', v) := solve (evaluate tenth) 100 o in Ok (numbers o')) = Ok [true; true].
Proof. vm_compute. auto. Qed.
Print Assumptions C79_no_sensitivity_refuted.
