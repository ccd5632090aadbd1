(** * PropTurn: sensitivities assigned by the demo programs (C69) and the turns of their loops (C70). *)

From Coq Require Import Reals Lra.
From Verif Require Import OptModel OptSpec OptSolve OptTotal OptCases.
From Verif Require Import Base Num NumR NumInt MeshModel MeshSpec LevelSetModel LevelSetSpec LevelSetSpecR LevelSetCalls BoundaryModel BoundarySpecR NormSpec
  DemoModel DemoSpec DemoShape DemoTurn DemoMatch DemoGrad DemoSafe DemoGood DemoKeep DemoMid.
Local Open Scope R_scope.

(** C69: the programs change only the sensitivities of the boundary points; those of minimise_perimeter are the curvatures, those of
    minimise_perimeter_constrained the curvatures with the Ito correction and -1 for the area. *)
Theorem C69_perimeter_sensitivities W H (s s' : LevelSet R) b : reached W H s -> new_boundary minimise_perimeter s = Ok (s', b) ->
  exists b', d_assign minimise_perimeter s' b = Ok b' /\ sens_set b b' /\
    forall i p q, bd_points b !! i = Some p -> bd_points b' !! i = Some q -> q = with_sens [curvature delta b p; 0] p.
Proof. exact (perimeter_assign W H s s' b). Qed.
Print Assumptions C69_perimeter_sensitivities.

Theorem C69_constrained_sensitivities W H t area (s s' : LevelSet R) b : reached W H s -> new_boundary (minimise_perimeter_constrained t area) s = Ok (s', b) ->
  exists b', d_assign (minimise_perimeter_constrained t area) s' b = Ok b' /\ sens_set b b' /\
    forall i p q, bd_points b !! i = Some p -> bd_points b' !! i = Some q ->
      q = with_sens [curvature delta b p - t * curvature delta b p / (2 * bp_length p); -1] p.
Proof. exact (constrained_assign W H t area s s' b). Qed.
Print Assumptions C69_constrained_sensitivities.

(** dumbbell, bimodal and bimodal_brolly: the rate of change of the weighted length with the Ito correction, and the mismatch with the
    target near the point, between -1 and 1. *)
Theorem C69_weighted_sensitivities W H g t (d : Demo R) (s s' : LevelSet R) b : reached W H s -> length (ls_target s) = node_count W H -> gravity_ok g ->
  (exists maxMismatch areas width, d = dumbbell g t maxMismatch areas \/ d = bimodal g t maxMismatch areas width \/ d = brolly g t maxMismatch areas) ->
  new_boundary d s = Ok (s', b) -> (forall p, p ∈ bd_points b -> well_inside W H (bp_coord p)) -> (forall n sg, bd_segs b !! n = Some sg -> sg_start sg <> sg_end sg) ->
  exists b', d_assign d s' b = Ok b' /\ sens_set b b' /\
    forall i p q, bd_points b !! i = Some p -> bd_points b' !! i = Some q ->
      exists k v, getClosestNode (ls_mesh s) (cx (bp_coord p)) (cy (bp_coord p)) = Ok k /\ mismatch_value W s (bp_coord p) k v /\ -1 <= v <= 1 /\
        q = with_sens [weighted_curvature g delta b p - t * curvature delta b p / (2 * bp_length p); v] p.
Proof. exact (weighted_assigned W H g t d s s' b). Qed.
Print Assumptions C69_weighted_sensitivities.

Example C69_case_perimeter : exists (s s' : LevelSet R) b, inside_shape 4 4 s /\ new_boundary minimise_perimeter s = Ok (s', b) /\ bd_points b <> [] /\ (exists p, p ∈ bd_points b /\ curvature delta b p <> 0).
Proof. exact perimeter_case. Qed.
Example C69_case_constrained : exists (s s' : LevelSet R) b t area, inside_shape 4 4 s /\ new_boundary (minimise_perimeter_constrained t area) s = Ok (s', b) /\ 0 < t /\
  (exists p, p ∈ bd_points b /\ curvature delta b p - t * curvature delta b p / (2 * bp_length p) <> 0).
Proof. exact constrained_case. Qed.
Example C69_case_weighted : exists (s s' : LevelSet R) b g t, inner_shape 4 4 s /\ length (ls_target s) = node_count 4 4 /\ gravity_ok g /\ 0 < t /\
  new_boundary (dumbbell g t (/ 2) (replicate 16 0)) s = Ok (s', b) /\ (forall p, p ∈ bd_points b -> well_inside 4 4 (bp_coord p)) /\ (forall n sg, bd_segs b !! n = Some sg -> sg_start sg <> sg_end sg) /\
  (exists p, p ∈ bd_points b /\ weighted_curvature g delta b p - t * curvature delta b p / (2 * bp_length p) <> 0) /\
  (exists p, p ∈ bd_points b /\ forall k v, getClosestNode (ls_mesh s) (cx (bp_coord p)) (cy (bp_coord p)) = Ok k -> mismatch_value 4 s (bp_coord p) k v -> v <> 0).
Proof. exact dumbbell_case. Qed.

(** C70: a shape inside the domain has a boundary of free points of positive length joined in closed curves, for every program. *)
Theorem C70_boundary_of_a_shape W H (s : LevelSet R) (d : Demo R) : inside_shape W H s -> exists s' b, new_boundary d s = Ok (s', b) /\ reached W H s' /\ ls_moveLimit s' = ls_moveLimit s /\
  (forall p, p ∈ bd_points b -> bp_fixed p = false /\ bp_domain p = false /\ 0 < bp_length p /\ bp_nNeigh p = 2%nat) /\
  bd_points b <> [] /\ (forall n sg, bd_segs b !! n = Some sg -> sg_start sg <> sg_end sg) /\
  (d_areas d = true -> exists a, ls_area s' = Some a /\ 0 <= a <= INR (W * H)).
Proof. exact (fun Hin => good_boundary W H s Hin d). Qed.
Print Assumptions C70_boundary_of_a_shape.

(** A turn from there neither reads nor writes out of bounds nor loops for ever: it ends the program with an error
    message, or moves the field and discretises it again.  NLopt may do anything allowed by its interface. *)
Theorem C70_minimise_area W H (s s' : LevelSet R) b nlopt rng lambdas nReinit time : inside_shape W H s -> (forall o, polite (op_n o) (nlopt 0%nat o)) ->
  new_boundary minimise_area s = Ok (s', b) -> length lambdas = 1%nat -> ends_or_moves W H minimise_area nlopt rng (mkSim s' b lambdas nReinit time) 0.
Proof. exact (area_keep W H s s' b nlopt rng lambdas nReinit time). Qed.
Print Assumptions C70_minimise_area.

Theorem C70_minimise_perimeter W H (s s' : LevelSet R) b nlopt rng lambdas nReinit time : inside_shape W H s -> (forall o, polite (op_n o) (nlopt 0%nat o)) ->
  new_boundary minimise_perimeter s = Ok (s', b) -> length lambdas = 1%nat -> (exists p, p ∈ bd_points b /\ curvature delta b p <> 0) ->
  ends_or_moves W H minimise_perimeter nlopt rng (mkSim s' b lambdas nReinit time) (sumR (map (curvature delta b) (bd_points b)) / INR (length (bd_points b))).
Proof. exact (perimeter_keep W H s s' b nlopt rng lambdas nReinit time). Qed.
Print Assumptions C70_minimise_perimeter.

Theorem C70_minimise_perimeter_constrained W H t area (s s' : LevelSet R) b nlopt rng lambdas nReinit time : inside_shape W H s -> (forall o, polite (op_n o) (nlopt 0%nat o)) ->
  new_boundary (minimise_perimeter_constrained t area) s = Ok (s', b) -> length lambdas = 2%nat ->
  (exists p, p ∈ bd_points b /\ curvature delta b p - t * curvature delta b p / (2 * bp_length p) <> 0) ->
  ends_or_moves W H (minimise_perimeter_constrained t area) nlopt rng (mkSim s' b lambdas nReinit time) 0.
Proof. exact (fun Hin Hp => constrained_keep W H s s' b nlopt rng lambdas nReinit time Hin Hp t area). Qed.
Print Assumptions C70_minimise_perimeter_constrained.

Theorem C70_shape_match W H t area (s s' : LevelSet R) b nlopt rng lambdas nReinit time : inner_shape W H s -> (forall o, polite (op_n o) (nlopt 0%nat o)) ->
  length (ls_target s) = node_count W H -> new_boundary (shape_match t area) s = Ok (s', b) -> length lambdas = 1%nat ->
  (exists p, p ∈ bd_points b /\ forall k v, getClosestNode (ls_mesh s) (cx (bp_coord p)) (cy (bp_coord p)) = Ok k -> mismatch_value W s (bp_coord p) k v -> v <> 0) ->
  ends_or_moves W H (shape_match t area) nlopt rng (mkSim s' b lambdas nReinit time) 0.
Proof. exact (fun Hin Hp => match_keep W H s s' b nlopt rng lambdas nReinit time (proj1 Hin) Hp t area Hin). Qed.
Print Assumptions C70_shape_match.

Theorem C70_weighted_programs W H g t maxMismatch areas (d : Demo R) (s s' : LevelSet R) b nlopt rng lambdas nReinit time :
  d = dumbbell g t maxMismatch areas \/ (exists width, d = bimodal g t maxMismatch areas width) \/ d = brolly g t maxMismatch areas ->
  inner_shape W H s -> (forall o, polite (op_n o) (nlopt 0%nat o)) -> length (ls_target s) = node_count W H -> gravity_ok g -> length areas = (W * H)%nat ->
  new_boundary d s = Ok (s', b) -> length lambdas = 2%nat ->
  (exists p, p ∈ bd_points b /\ weighted_curvature g delta b p - t * curvature delta b p / (2 * bp_length p) <> 0) ->
  (exists p, p ∈ bd_points b /\ forall k v, getClosestNode (ls_mesh s) (cx (bp_coord p)) (cy (bp_coord p)) = Ok k -> mismatch_value W s (bp_coord p) k v -> v <> 0) ->
  ends_or_moves W H d nlopt rng (mkSim s' b lambdas nReinit time) (L1 areas (areas_of (ls_mesh s'))).
Proof. exact (fun Hd Hin Hp => gravity_keep W H s s' b nlopt rng lambdas nReinit time (proj1 Hin) Hp g t maxMismatch areas d Hd Hin). Qed.
Print Assumptions C70_weighted_programs.

(** Every turn of a run starts with the boundary of some level set, so the above applies to all of them (shape_match recomputes the areas
    when it takes a sample, the others leave the level set alone). *)
Theorem C70_states_of_a_run (T : Type) (NT : Num T) (NI : NumInt T) (d : Demo T) W H nlopt fuel rng interval maxTime k r l r' :
  (forall c s b s' v, d_measure d c s b = Ok (s', v) -> s' = s) -> history d nlopt fuel rng interval maxTime k r l r' ->
  (exists s, reached W H s /\ new_boundary d s = Ok (sm_ls (rn_sim r), sm_bd (rn_sim r))) ->
  exists s, reached W H s /\ new_boundary d s = Ok (sm_ls (rn_sim r'), sm_bd (rn_sim r')).
Proof. exact (fun Hm => run_states d Hm W H nlopt fuel rng interval maxTime k r l r'). Qed.
Print Assumptions C70_states_of_a_run.

Theorem C70_measures_keep_the_field (d : Demo R) g t a m areas w :
  d = minimise_area \/ d = minimise_perimeter \/ d = minimise_perimeter_constrained t a \/ d = dumbbell g t m areas \/ d = bimodal g t m areas w \/ d = brolly g t m areas ->
  forall c s b s' v, d_measure d c s b = Ok (s', v) -> s' = s.
Proof. exact (measures_keep d g t a m areas w). Qed.
Print Assumptions C70_measures_keep_the_field.

Example C70_case_match : exists (s s' : LevelSet R) b, inner_shape 4 4 s /\ length (ls_target s) = node_count 4 4 /\ new_boundary (shape_match (/ 2) []) s = Ok (s', b) /\
  (exists p, p ∈ bd_points b /\ forall k v, getClosestNode (ls_mesh s) (cx (bp_coord p)) (cy (bp_coord p)) = Ok k -> mismatch_value 4 s (bp_coord p) k v -> v <> 0).
Proof. exact matching_case. Qed.
Example C70_case_polite : forall o : Opt R, polite (op_n o) (evaluate (fun _ => 0) 0 o).
Proof. exact (fun o => any_polite (fun _ => 0) 0 o). Qed.
