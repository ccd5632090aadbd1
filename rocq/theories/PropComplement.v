(** * PropComplement: inside and outside are treated alike (C80).  Proofs in Complement, ComplementStep, ComplementBoundary and ComplementCase. *)

From Coq Require Import Reals.
From Verif Require Import Base Num NumR NumInt MeshModel MeshSpec LevelSetModel LevelSetSpec LevelSetCalls LevelSetHist BoundaryModel Twin AreaOrderSpec AreaOrder
  ComplementSpec Complement ComplementStep ComplementBoundary ComplementCase.
Local Open Scope R_scope.

(** C80, exact arithmetic: reinitialising the complement gives the opposite distances and the same narrow band, or fails alike. *)
Theorem C80_opposite_distances W H (s : LevelSet R) : reached W H s -> resolved (ls_sd s) ->
  reinitialise (flip s) = (let! t := reinitialise s in Ok (flip t)).
Proof. exact (complement_reinitialise W H s). Qed.
Print Assumptions C80_opposite_distances.

(** C80, exact arithmetic: if the boundary points of the complement move the opposite way, so do the nodes. *)
Theorem C80_opposite_velocities W H (s : LevelSet R) ps : reached W H s -> resolved (ls_sd s) ->
  computeVelocities (flip s) (map reversed ps) = (let! t := computeVelocities s ps in Ok (flip t)).
Proof. exact (complement_velocities W H s ps). Qed.
Print Assumptions C80_opposite_velocities.

(** C80, exact arithmetic: then a whole move gives the complement again, and reinitialises if and only if the other does.  The border must be held fixed: otherwise only
    material is stopped there. *)
Theorem C80_same_motion W H (s : LevelSet R) ps dt : reached W H s -> ls_fixed s = true -> resolved (ls_sd s) -> clear_of_zero s ps dt ->
  match move s ps dt, move (flip s) (map reversed ps) dt with
  | Ok (t, reinitialised), Ok (u, reinitialised') => complement t u /\ reinitialised = reinitialised'
  | Exit, Exit | UB, UB | OutOfFuel, OutOfFuel => True
  | _, _ => False
  end.
Proof. intros A B C D. pose proof (complement_move W H s ps dt A B C D) as X. destruct (move s ps dt) as [[]| | |], (move (flip s) _ dt) as [[]| | |]; exact X. Qed.
Print Assumptions C80_same_motion.

(** C80, exact arithmetic: a shape and its complement have the same boundary (points, segments and length), with opposite normals. *)
Theorem C80_same_boundary W H (s : LevelSet R) : measurable W H s false (ls_sd s) -> (forall e, (e < W * H)%nat -> ~ balanced W (ls_sd s) e) ->
  exists s' t' b, discretise s false = Ok (s', b) /\ discretise (flip s) false = Ok (t', b) /\
    computeNormalVectors t' b = (let! c := computeNormalVectors s' b in Ok (turned_boundary c)).
Proof. exact (complement_boundary W H s). Qed.
Print Assumptions C80_same_boundary.

(** A ring with a moving point: the move succeeds. *)
Example C80_motion_case : exists (s : LevelSet R) r dt, reached 4 4 s /\ ls_fixed s = true /\ resolved (ls_sd s) /\ 12%nat ∈ band_list s /\ 0 < dt /\ clear_of_zero s [moving_point] dt /\
  move s [moving_point] dt = Ok r.
Proof. exact turn_case. Qed.
(** Every short enough time step will do. *)
Example C80_short_steps W H (s : LevelSet R) ps : reached W H s -> Forall (fun x => / 2 ^ 52 < Rabs x) (ls_sd s) -> exists q, 0 < q /\ forall dt, 0 <= dt < q -> clear_of_zero s ps dt.
Proof. exact (small_step W H s ps). Qed.
(** A unit square with one corner inside. *)
Example C80_boundary_case : exists s, ls_sd s = [1; -1; -1; -1] /\ measurable 1 1 s false (ls_sd s) /\ forall e, (e < 1 * 1)%nat -> ~ balanced 1 (ls_sd s) e.
Proof.
  destruct square_areas as (s & _ & _ & M & _ & _ & _ & _ & _ & B). exists s. pose proof (proj1 M) as E. cbv iota in E. rewrite <- E. split; [reflexivity|]. split; [exact M|].
  intros [|e] L; [exact B|lia].
Qed.
