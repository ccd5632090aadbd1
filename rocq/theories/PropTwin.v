(** * PropTwin: programs cannot tell apart level sets that show the same (C57, C58). *)

From Verif Require Import Base Num NumF64 NumInt MeshModel MeshSpec LevelSetModel LevelSetSpec LevelSetCalls BoundaryModel TwinSpec TwinRun TwinCase.
Local Open Scope nat_scope.

(** C57: two level sets of the same size that agree in signed distance, velocity, gradient, target, narrow band, mines, masks and
    parameters give the same results to every program, whatever calls brought them there: same failures, same return values, same
    boundaries, areas and normals, same fields after each call. *)
Theorem C57_future_depends_on_visible_state (T : Type) (NT : Num T) (NI : NumInt T) W H (s s' : LevelSet T) :
  reached W H s -> reached W H s' -> seen s = seen s' -> forall p : Script T, run p (s, None) = run p (s', None).
Proof. intros Hr Hr' E p. exact (future W H s s' Hr Hr' E p). Qed.
Print Assumptions C57_future_depends_on_visible_state.

Example C57_case : exists (s s' : LevelSet f64), reached 6 6 s /\ reached 6 6 s' /\ seen s = seen s' /\
  map nd_nBpts (m_nodes (ls_mesh s)) <> map nd_nBpts (m_nodes (ls_mesh s')) /\
  exists os, run cycle (s, None) = Ok os /\ length os = 6.
Proof. exact twin_case. Qed.

(** C58: a run can be restarted from the signed distance alone.  Two level sets with the same signed distance, target, masks and
    parameters are, once reinitialised, the same for every program, if the velocities and gradients are written or computed anew;
    narrow band, mines, velocities and gradients from before do not matter. *)
Theorem C58_restart_with_written_fields (T : Type) (NT : Num T) (NI : NumInt T) W H (s s' : LevelSet T) (v g : list T) (p : Script T) :
  reached W H s -> reached W H s' -> same_shape s s' -> length v = node_count W H -> length g = node_count W H ->
  (let! r := reinitialise s in run p (set_grad g (set_vel v r), None)) = (let! r := reinitialise s' in run p (set_grad g (set_vel v r), None)).
Proof. exact (restart_write W H s s' v g p). Qed.
Print Assumptions C58_restart_with_written_fields.

Theorem C58_restart_with_computed_fields (T : Type) (NT : Num T) (NI : NumInt T) W H (s s' : LevelSet T) (points : list (BoundaryPoint T)) (p : Script T) :
  reached W H s -> reached W H s' -> same_shape s s' ->
  (let! r := reinitialise s in let! r := computeVelocities r points in let! r := computeGradients r in run p (r, None)) =
  (let! r := reinitialise s' in let! r := computeVelocities r points in let! r := computeGradients r in run p (r, None)).
Proof. exact (restart_compute W H s s' points p). Qed.
Print Assumptions C58_restart_with_computed_fields.

(** A fresh level set given the signed distance of another. *)
Example C58_case : exists s s' : LevelSet f64, reached 6 6 s /\ reached 6 6 s' /\ same_shape s s' /\ band_list s <> band_list s' /\
  exists os, (let! r := reinitialise s in let! r := computeVelocities r [] in let! r := computeGradients r in run measure (r, None)) = Ok os /\ length os = 2.
Proof. exact restart_case. Qed.
