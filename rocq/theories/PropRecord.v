(** * PropRecord: distances given to the optimiser (C69) and values recorded by the demo programs (C71). *)

From Coq Require Import Reals Lra.
From Verif Require Import OptModel OptCases.
From Verif Require Import Base Num NumR NumF64 NumInt MeshModel MeshSpec LevelSetModel LevelSetSpec LevelSetSpecR LevelSetCalls BoundaryModel BoundarySpecR BoundaryGraph NormSpec TwinCase
  DemoModel DemoSpec DemoShape DemoRun DemoTrials DemoMid DemoRecord DemoSamples.
Local Open Scope R_scope.

(** C69: the areas of the elements are those of the shape, and the distances given to the optimiser are what the shape may still gain in
    area or in mismatch. *)
Theorem C69_areas W H (s s' : LevelSet R) (d : Demo R) b : inside_shape W H s -> d_areas d = true -> new_boundary d s = Ok (s', b) ->
  ls_area s' = Some (sumR (areas_of (ls_mesh s'))) /\ 0 <= sumR (areas_of (ls_mesh s')) <= INR (W * H) /\ length (areas_of (ls_mesh s')) = (W * H)%nat /\
  forall e a, areas_of (ls_mesh s') !! e = Some a -> area_rule (corner_value W (ls_sd s) e) a.
Proof. exact (shape_areas W H s s' d b). Qed.
Print Assumptions C69_areas.

Theorem C69_area_distance W H t maxArea (s s' : LevelSet R) b : inside_shape W H s -> new_boundary (minimise_perimeter_constrained t maxArea) s = Ok (s', b) ->
  d_dist (minimise_perimeter_constrained t maxArea) s' = Ok [INR (W * H) * maxArea - sumR (areas_of (ls_mesh s'))].
Proof. exact (area_distance W H t maxArea s s' b). Qed.
Print Assumptions C69_area_distance.

Theorem C69_mismatch_distance W H g t maxMismatch areas (d : Demo R) (s : LevelSet R) :
  d = dumbbell g t maxMismatch areas \/ (exists width, d = bimodal g t maxMismatch areas width) \/ d = brolly g t maxMismatch areas ->
  reached W H s -> length areas = (W * H)%nat -> d_dist d s = Ok [INR (W * H) * maxMismatch - L1 areas (areas_of (ls_mesh s))].
Proof. exact (mismatch_distance_value W H g t maxMismatch areas d s). Qed.
Print Assumptions C69_mismatch_distance.

(** The normals of these programs' boundaries are those of C37. *)
Theorem C69_normals W H (d : Demo R) (s s' : LevelSet R) b g t a m areas w :
  d = minimise_perimeter \/ d = minimise_perimeter_constrained t a \/ d = dumbbell g t m areas \/ d = bimodal g t m areas w \/ d = brolly g t m areas ->
  reached W H s -> new_boundary d s = Ok (s', b) -> forall k p, bd_points b !! k = Some p ->
  let v := gathered (bp_coord p) (sources W H s' k) in bp_normal p = if bp_domain p then v else scale (/ vnorm v) v.
Proof. exact (shape_normals W H d s s' b g t a m areas w). Qed.
Print Assumptions C69_normals.

Example C69_case_distance : exists (s s' : LevelSet R) b, inner_shape 4 4 s /\ new_boundary (minimise_perimeter_constrained 0 (/ 2)) s = Ok (s', b) /\ length (replicate 16 0) = (4 * 4)%nat.
Proof. destruct (mid_any (minimise_perimeter_constrained 0 (/ 2))) as (s & s' & b & A & _ & B & _). exists s, s', b. auto. Qed.

(** C71: a turn only appends to the samples, and all the samples it appends are alike. *)
Theorem C71_minimise_area (T : Type) (NT : Num T) (NI : NumInt T) nlopt fuel rng interval W H k (r r1 : Run T) ri : reached W H (sm_ls (rn_sim r)) ->
  full_turn minimise_area nlopt fuel rng interval k r = Ok (r1, ri) ->
  exists new, rn_log r1 = rn_log r ++ new /\ forall x, x ∈ new -> x = (sm_time (rn_sim r1), [bd_length (sm_bd (rn_sim r1))]).
Proof. exact (area_records nlopt fuel rng interval W H k r r1 ri). Qed.
Print Assumptions C71_minimise_area.

(** The mean curvature is that of the boundary before the turn. *)
Theorem C71_minimise_perimeter (T : Type) (NT : Num T) (NI : NumInt T) nlopt fuel rng interval W H k (r r1 : Run T) ri : reached W H (sm_ls (rn_sim r)) ->
  full_turn minimise_perimeter nlopt fuel rng interval k r = Ok (r1, ri) ->
  exists new b c, d_assign minimise_perimeter (sm_ls (rn_sim r)) (sm_bd (rn_sim r)) = Ok b /\ mean_sens b = Ok c /\
    rn_log r1 = rn_log r ++ new /\ forall x, x ∈ new -> x = (sm_time (rn_sim r1), [bd_length (sm_bd (rn_sim r1)); c]).
Proof. exact (perimeter_records nlopt fuel rng interval W H k r r1 ri). Qed.
Print Assumptions C71_minimise_perimeter.

Theorem C71_mean_curvature W H (s s' : LevelSet R) b b' c : reached W H s -> new_boundary minimise_perimeter s = Ok (s', b) ->
  d_assign minimise_perimeter s' b = Ok b' -> mean_sens b' = Ok c -> c = sumR (map (curvature delta b) (bd_points b)) / INR (length (bd_points b)).
Proof. exact (recorded_curvature W H s s' b b' c). Qed.
Print Assumptions C71_mean_curvature.

Theorem C71_minimise_perimeter_constrained (T : Type) (NT : Num T) (NI : NumInt T) nlopt fuel rng interval W H k (r r1 : Run T) ri t area : reached W H (sm_ls (rn_sim r)) ->
  full_turn (minimise_perimeter_constrained t area) nlopt fuel rng interval k r = Ok (r1, ri) ->
  exists new, rn_log r1 = rn_log r ++ new /\ forall x, x ∈ new ->
    x = (sm_time (rn_sim r1), [bd_length (sm_bd (rn_sim r1)); (fold_left nadd (map e_area (m_elements (ls_mesh (sm_ls (rn_sim r1))))) n0 / nofnat (W * H))%num]).
Proof. exact (fun Hr => constrained_records nlopt fuel rng interval W H k r r1 ri Hr t area). Qed.
Print Assumptions C71_minimise_perimeter_constrained.

Theorem C71_shape_match (T : Type) (NT : Num T) (NI : NumInt T) nlopt fuel rng interval W H k (r r1 : Run T) ri t areas : reached W H (sm_ls (rn_sim r)) ->
  full_turn (shape_match t areas) nlopt fuel rng interval k r = Ok (r1, ri) ->
  exists new, rn_log r1 = rn_log r ++ new /\ forall x, x ∈ new -> exists s s' a mm, reached W H s /\ discretise s false = Ok (s', sm_bd (rn_sim r1)) /\
    computeAreaFractions s' (sm_bd (rn_sim r1)) = Ok (sm_ls (rn_sim r1), a) /\ computeMismatch (ls_mesh (sm_ls (rn_sim r1))) areas = Ok mm /\
    x = (sm_time (rn_sim r1), [(mm / nofnat (W * H))%num]).
Proof. exact (fun Hr => match_records nlopt fuel rng interval W H k r r1 ri Hr t areas). Qed.
Print Assumptions C71_shape_match.

(** The length is that of the boundary after the turn, the mismatch that of the shape before it. *)
Theorem C71_dumbbell (T : Type) (NT : Num T) (NI : NumInt T) nlopt fuel rng interval W H k (r r1 : Run T) ri g t maxMismatch areas : reached W H (sm_ls (rn_sim r)) ->
  full_turn (dumbbell g t maxMismatch areas) nlopt fuel rng interval k r = Ok (r1, ri) ->
  exists new mm, computeMismatch (ls_mesh (sm_ls (rn_sim r))) areas = Ok mm /\ rn_log r1 = rn_log r ++ new /\
    forall x, x ∈ new -> exists l, weightedPerimeter g (bd_points (sm_bd (rn_sim r1))) = Ok l /\ x = (sm_time (rn_sim r1), [l; mm]).
Proof. exact (fun Hr => dumbbell_records nlopt fuel rng interval W H k r r1 ri Hr g t maxMismatch areas). Qed.
Print Assumptions C71_dumbbell.

Theorem C71_bimodal (T : Type) (NT : Num T) (NI : NumInt T) nlopt fuel rng interval W H k (r r1 : Run T) ri g t maxMismatch areas width : reached W H (sm_ls (rn_sim r)) ->
  full_turn (bimodal g t maxMismatch areas width) nlopt fuel rng interval k r = Ok (r1, ri) ->
  exists new mm, computeMismatch (ls_mesh (sm_ls (rn_sim r))) areas = Ok mm /\ rn_log r1 = rn_log r ++ new /\
    forall x, x ∈ new -> exists l cx cy, weightedPerimeter g (bd_points (sm_bd (rn_sim r1))) = Ok l /\ centreOfMass g (bd_points (sm_bd (rn_sim r1))) = Ok (cx, cy) /\
      x = (sm_time (rn_sim r1), [l; mm; (cx - width / nofZ 2)%num; (cy - width / nofZ 2)%num]).
Proof. exact (fun Hr => bimodal_records nlopt fuel rng interval W H k r r1 ri Hr g t maxMismatch areas width). Qed.
Print Assumptions C71_bimodal.

(** bimodal_brolly records the mismatch and the length of one and the same shape. *)
Theorem C71_brolly (T : Type) (NT : Num T) (NI : NumInt T) W H g areas (u : Umbrella T) v : reached W H (sm_ls (um_sim u)) -> umbrella_sample g areas u = Ok v ->
  exists l mm, weightedPerimeter g (bd_points (sm_bd (um_sim u))) = Ok l /\ computeMismatch (ls_mesh (sm_ls (um_sim u))) areas = Ok mm /\
    v = [um_running u; um_x u; l; (mm / nofnat (W * H))%num; (nofnat (um_accept u) / nofnat (um_trials u))%num].
Proof. exact (umbrella_records W H g areas u v). Qed.
Print Assumptions C71_brolly.

(** So the two recorded values of dumbbell need not belong to one shape. *)
Theorem C71_one_shape_refuted : exists (q r : Run f64) ri a mm, reached 4 4 (sm_ls (rn_sim q)) /\
  full_turn (dumbbell g4 (f 1 100000) (f 1 10) a) tiny 100 calm (f 1 100) 0 q = Ok (r, ri) /\
  computeMismatch (ls_mesh (sm_ls (rn_sim r))) a = Ok mm /\ rn_log q = [] /\ rn_log r <> [] /\ forall x, x ∈ rn_log r -> (nth 1 (snd x) n0 =? mm)%num = false.
Proof. exact stale_case. Qed.
Print Assumptions C71_one_shape_refuted.

Example C71_case : exists a, takes_samples minimise_area [1%nat] /\ takes_samples minimise_perimeter [2%nat] /\
  takes_samples (minimise_perimeter_constrained (f 1 100000) (f 1 10)) [2%nat] /\ takes_samples (shape_match (f 1 100000) a) [1%nat] /\
  takes_samples (dumbbell g4 (f 1 100000) (f 1 10) a) [2; 2]%nat /\ takes_samples (bimodal g4 (f 1 100000) (f 1 10) a (f 4 1)) [4; 4]%nat.
Proof. exact samples_case. Qed.
