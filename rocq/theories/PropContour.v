(** * PropContour: only the contour counts (C81).  Proofs in Contour. *)

From Coq Require Import Reals Lra.
From Verif Require Import Base Num NumR MeshModel MeshSpec FmmSpec LevelSetModel LevelSetSpec LevelSetCalls LevelSetHist BoundaryModel BoundarySpecR CycleCase AreaOrderSpec AreaOrder ContourSpec Contour.
Local Open Scope R_scope.

(** C81, exact arithmetic: multiplying a level set (or the target) by a positive number leaves its contour where it is, and discretise gives the same boundary and the same mesh status,
    or fails alike.  Nothing else changes. *)
Theorem C81_same_boundary (c : R) (tg : bool) (s : LevelSet R) : 0 < c -> same_nodes c (if tg then ls_target s else ls_sd s) ->
  discretise (scaled c tg s) tg = (let! (t, b) := discretise s tg in Ok (scaled c tg t, b)).
Proof. exact (scaled_boundary c tg s). Qed.
Print Assumptions C81_same_boundary.

(** C81, exact arithmetic: the same normals. *)
Theorem C81_same_normals (c : R) (tg : bool) (s : LevelSet R) b : 0 < c -> computeNormalVectors (scaled c tg s) b = computeNormalVectors s b.
Proof. exact (scaled_normals c tg s b). Qed.
Print Assumptions C81_same_normals.

(** C81, exact arithmetic: the same areas, of every element and in total. *)
Theorem C81_same_areas (c : R) (tg : bool) (s : LevelSet R) l A : 0 < c -> same_nodes c (if tg then ls_target s else ls_sd s) ->
  measured (scaled c tg s) tg l A <-> measured s tg l A.
Proof. exact (scaled_measured c tg s l A). Qed.
Print Assumptions C81_same_areas.

(** C81, exact arithmetic: reinitialising gives every node on or next to the contour the same distance. *)
Theorem C81_same_distances W H (c : R) (s : LevelSet R) i0 : reached W H s -> 0 < c -> (i0 < node_count W H)%nat -> on_front W H (ls_sd s) i0 ->
  exists t u, reinitialise s = Ok t /\ reinitialise (scaled c false s) = Ok u /\ forall i, (i < node_count W H)%nat -> on_front W H (ls_sd s) i -> ls_sd u !! i = ls_sd t !! i.
Proof. exact (scaled_front W H c s i0). Qed.
Print Assumptions C81_same_distances.

(** A unit square with one corner inside: discretise and computeAreaFractions succeed. *)
Example C81_boundary_case : exists s, ls_sd s = [1; -1; -1; -1] /\ same_nodes 3 (ls_sd s) /\ exists l A, measured s false l A.
Proof.
  destruct square_areas as (s & _ & _ & M & _ & _ & Me & _). exists s. pose proof (proj1 M) as Es. cbv iota in Es. rewrite <- Es.
  split; [reflexivity|]. split; [|eexists _, _; exact Me]. unfold same_nodes, tol. repeat constructor; intros X; exfalso; revert X; unfold Rabs; repeat destruct (Rcase_abs _); lra.
Qed.
(** A ring on a 4 x 4 mesh, three times too steep. *)
Example C81_distances_case : exists s, reached 4 4 s /\ ls_sd s = ring25 /\ on_front 4 4 (ls_sd s) 12.
Proof.
  destruct ring_exists as [s [Hr Es _ _ _]]. exists s. split; [exact Hr|]. split; [exact Es|]. rewrite Es. destruct (ring_front 12 ltac:(lia) eq_refl) as (k & Had & _ & a & b & Ea & Eb & P).
  right. exists k. split; [exact Had|]. exists a, b. split; [exact Ea|]. split; [exact Eb|]. apply Rltb_true, P.
Qed.
