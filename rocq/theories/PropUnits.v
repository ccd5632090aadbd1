(** * PropUnits: the units of the functions do not matter (C77). *)

From Coq Require Import Reals Lra.
From Verif Require Import Base Num NumR NumF64 LevelSetModel OptModel OptSpec OptMain OptCases UnitsSpec Units.
Local Open Scope R_scope.

(** ** C77, exact arithmetic: measure objective and constraints in other units, each in its own.  Then solve ends in the same way; if it returns
    a value, the displacements are the same, and multipliers, time step, velocities and change of the objective are those in the new units.
    [time'] is arbitrary: the time step passed in does not matter either. *)
Theorem C77_units_do_not_matter u nlopt fuel points (dist lambdas : list R) time time' limit isMax isEq :
  (forall k, 0 < u k) -> (forall k, (k < length lambdas)%nat -> normal_in_both u k points) -> by_problem nlopt ->
  same_outcome (same_step u)
    (let! o := optimise_ctor points dist lambdas time limit isMax isEq in solve nlopt fuel o)
    (let! o := optimise_ctor (map (in_units u) points) (dist_in_units u dist) (lambdas_in_units u lambdas) time' limit isMax isEq in solve nlopt fuel o).
Proof. exact (units_do_not_matter u nlopt fuel points dist lambdas time time' limit isMax isEq). Qed.
Print Assumptions C77_units_do_not_matter.

(** Three points with an objective in units of 1/1000 and a constraint in units of 5. *)
Example C77_case (target : R) : target <= 0 -> let u k := if (k =? 0)%nat then / 1000 else 5 in
  (forall k, 0 < u k) /\ (forall k, (k < 2)%nat -> normal_in_both u k three) /\ by_problem (evaluate mu_r) /\
  exists F, forall fuel, (F <= fuel)%nat -> exists o v, (let! o := optimise_ctor three [target] [1; 1] 0 (1 / 2) false [] in solve (evaluate mu_r) fuel o) = Ok (o, Some v).
Proof. exact (units_case target). Qed.
(** In doubles, with units that are powers of two: the same displacements, and the value in the new units. *)
Example C77_case_f64 : let run c points dist lambdas := let! o := start64 points dist lambdas in solve (fun _ _ => NlEnd (NlReturn 1 tenth c)) 100 o in
  let k8 p := mkBP (bp_coord p) (bp_normal p) (bp_length p) (bp_velocity p) (bp_neg p) (bp_pos p) (bp_domain p) (bp_fixed p) (bp_nSegs p) (bp_segs p) (bp_nNeigh p) (bp_neigh p)
    (imap (fun k s => if (k =? 0)%nat then s * d64 8 1 else s * d64 1 4)%num (bp_sens p)) in
  (let! (o, v) := run (d64 1 1) pair64 [d64 (-1) 1; d64 (-1) 1] [d64 1 1; d64 1 1; d64 1 1] in
   let! (o', v') := run (d64 1 1) (map k8 pair64) [d64 (-1) 4; d64 (-1) 4] [d64 1 8; d64 4 1; d64 4 1] in
   match v, v' with
   | Some v, Some v' => Ok ((v' =? v * d64 8 1)%num, (op_time o =? op_time o' * d64 8 1)%num, forallb (fun '(a, b) => (a =? b)%num) (zip (op_disp o) (op_disp o')), length (op_disp o))
   | _, _ => UB
   end) = Ok (true, true, true, 2%nat).
Proof. vm_compute. reflexivity. Qed.
