(** * PropDemo: what the demo programs measure (C59-C62, C68). *)

From Coq Require Import Reals Lra.
From Verif Require Import Base Num NumR NumF64 NumInt MeshModel MeshSpec LevelSetModel LevelSetSpec LevelSetSpecR LevelSetCalls LevelSetHist BoundaryModel BoundarySpecR
  BoundaryReal NormSpec SensModel DemoModel DemoSpec DemoSens DemoLength DemoTurn DemoBrolly DemoCase DemoMatch DemoRun DemoTrials DemoFacts.
Local Open Scope R_scope.

(** C59: shape_match gives each boundary point the mismatch between target and signed distance, limited to [-1, 1]: at a node that
    the point coincides with, otherwise the mean over its closest node and that node's four neighbours, weighted by the inverse
    square of the distance.  Proved for shapes that stay half a cell away from the border of the domain. *)
Theorem C59_match_sensitivities_partial W H t area (s s' : LevelSet R) b : reached W H s -> length (ls_target s) = node_count W H ->
  new_boundary (shape_match t area) s = Ok (s', b) -> (forall p, p ∈ bd_points b -> well_inside W H (bp_coord p)) ->
  exists b', d_assign (shape_match t area) s' b = Ok b' /\ sens_set b b' /\ length (bd_points b') = length (bd_points b) /\
    forall i p q, bd_points b !! i = Some p -> bd_points b' !! i = Some q ->
      exists k v, getClosestNode (ls_mesh s) (cx (bp_coord p)) (cy (bp_coord p)) = Ok k /\ mismatch_value W s (bp_coord p) k v /\ q = with_sens [v; 0] p /\ -1 <= v <= 1.
Proof. exact (match_sensitivities W H t area s s' b). Qed.
Print Assumptions C59_match_sensitivities_partial.

(** It keeps between the smallest and the largest mismatch at the five nodes; in particular a point where the target lies
    further out everywhere is never drawn inwards. *)
Theorem C59_sensitivity_between_partial W H (s : LevelSet R) c k v lo hi : reached W H s -> length (ls_target s) = node_count W H ->
  getClosestNode (ls_mesh s) (cx c) (cy c) = Ok k -> (k < node_count W H)%nat -> off_border W H k -> pointSensitivity c s = Ok v ->
  (forall n, n ∈ cross W k -> lo <= gap s n <= hi) -> -1 <= v <= 1 /\ clamp lo <= v <= clamp hi.
Proof. exact (sensitivity_between W H s c k v lo hi). Qed.
Print Assumptions C59_sensitivity_between_partial.

(** Enough: every node less than two cells from the border is outside the shape. *)
Theorem C59_inner_shapes W H (s s' : LevelSet R) b : reached W H s -> off_contour W H (ls_sd s) ->
  (forall x y, (x <= W)%nat -> (y <= H)%nat -> (x <= 1 \/ W <= x + 1 \/ y <= 1 \/ H <= y + 1)%nat -> exists v, ls_sd s !! node_id W x y = Some v /\ v < 0) ->
  discretise s false = Ok (s', b) -> forall p, p ∈ bd_points b -> well_inside W H (bp_coord p).
Proof. exact (inner_points W H s s' b). Qed.
Print Assumptions C59_inner_shapes.

(** Next to the border the program reads outside its arrays. *)
Theorem C59_sensitivity_at_border_refuted W H (s : LevelSet R) c k : reached W H s -> length (ls_target s) = node_count W H ->
  getClosestNode (ls_mesh s) (cx c) (cy c) = Ok k -> (k < node_count W H)%nat -> ~ off_border W H k ->
  (forall n, (n < node_count W H)%nat -> tol <= euclid2 (grid W n) c) -> pointSensitivity c s = UB.
Proof. exact (sensitivity_border W H s c k). Qed.
Print Assumptions C59_sensitivity_at_border_refuted.

Theorem C59_match_sensitivities_refuted : exists (s s' : LevelSet f64) a b, reached 4 4 s /\ length a = 16%nat /\
  new_boundary (shape_match n0 a) s = Ok (s', b) /\ d_assign (shape_match n0 a) s' b = UB.
Proof. exact edge_case. Qed.
Print Assumptions C59_match_sensitivities_refuted.

Example C59_case : exists (s s' : LevelSet R) b, reached 4 4 s /\ length (ls_target s) = node_count 4 4 /\ new_boundary (shape_match (/ 2) []) s = Ok (s', b) /\
  (forall p, p ∈ bd_points b -> well_inside 4 4 (bp_coord p)) /\ (exists p, p ∈ bd_points b).
Proof. exact match_case. Qed.
Example C59_case_point : exists s : LevelSet R, reached 2 2 s /\ length (ls_target s) = node_count 2 2 /\
  ls_sd s = [-1; -1; -1; -1; 1; -1; -1; -1; -1] /\ ls_target s = [-1; -1; -1; -1; 1; -1/4; -1; -1; -1] /\
  getClosestNode (ls_mesh s) (5 / 4) 1 = Ok 4%nat /\ (4 < node_count 2 2)%nat /\ off_border 2 2 4.
Proof. exact sens_case. Qed.

(** C60: the recorded mismatch is the sum over the elements of the difference between target area and current area.  It is zero
    only if all areas agree, at least the difference of the totals, at most the number of elements, and obeys the triangle inequality. *)
Theorem C60_mismatch_is_distance W H (s : LevelSet R) areas : reached W H s -> length areas = (W * H)%nat ->
  exists d, computeMismatch (ls_mesh s) areas = Ok d /\ d = L1 areas (areas_of (ls_mesh s)) /\ 0 <= d /\ (d = 0 <-> areas = areas_of (ls_mesh s)) /\
    Rabs (sumR areas - sumR (areas_of (ls_mesh s))) <= d /\
    ((forall x, x ∈ areas -> 0 <= x <= 1) -> (forall x, x ∈ areas_of (ls_mesh s) -> 0 <= x <= 1) -> d <= INR (W * H)).
Proof. exact (mismatch_distance_R W H s areas). Qed.
Print Assumptions C60_mismatch_is_distance.

Theorem C60_mismatch_triangle (a b c : list R) : length a = length b -> length b = length c -> L1 a c <= L1 a b + L1 b c /\ L1 a b = L1 b a.
Proof. intros A B. split; [exact (L1_triangle a b c A B)|exact (L1_sym a b)]. Qed.
Print Assumptions C60_mismatch_triangle.

(** The target areas are those of the target's elements, one per element; the shape's own field is not changed by measuring them. *)
Theorem C60_target_areas (T : Type) (NT : Num T) (NI : NumInt T) W H (s s' : LevelSet T) areas : reached W H s -> target_areas s = Ok (s', areas) ->
  reached W H s' /\ length areas = (W * H)%nat /\ areas = map e_area (m_elements (ls_mesh s')) /\
  exists s1 b a, discretise s true = Ok (s1, b) /\ computeAreaFractions s1 b = Ok (s', a).
Proof. exact (target_areas_inv W H s s' areas). Qed.
Print Assumptions C60_target_areas.

(** With too few target areas the program reads outside their array. *)
Theorem C60_mismatch_short (T : Type) (NT : Num T) (NI : NumInt T) W H (s : LevelSet T) areas : reached W H s -> (length areas < W * H)%nat -> computeMismatch (ls_mesh s) areas = UB.
Proof. exact (mismatch_too_short W H s areas). Qed.
Print Assumptions C60_mismatch_short.

Example C60_case : exists s : LevelSet R, reached 2 2 s /\ length [0; 0; 0; 0] = (2 * 2)%nat /\ computeMismatch (ls_mesh s) [0; 0; 0; 0] = Ok (/ 2).
Proof. exact mismatch_case. Qed.
Example C60_case_target : exists (s s' : LevelSet f64) a, reached 4 4 s /\ target_areas s = Ok (s', a).
Proof. exact target_case. Qed.

(** C61: the weighted perimeter is the sum over the segments of length times mean weight, where the weight is 1 above the upper
    height, reduced below the lower one and linear in between; it lies between the reduced and the full length. *)
Theorem C61_weighted_perimeter W H (s s' : LevelSet R) tg b (ps : list (BoundaryPoint R)) g : reached W H s -> discretise s tg = Ok (s', b) ->
  Forall2 same_links (bd_points b) ps -> gravity_ok g ->
  exists l, weightedPerimeter g ps = Ok l /\
    l = sumR (map (fun sg => sg_length sg * mean_weight g (height_of b (sg_start sg)) (height_of b (sg_end sg))) (bd_segs b)) /\
    g_reduce g * bd_length b <= l <= bd_length b.
Proof. exact (weighted_perimeter W H s s' tg b ps g). Qed.
Print Assumptions C61_weighted_perimeter.

Theorem C61_weights g y : gravity_ok g -> perimeterWeight g y = weight_at g y /\ g_reduce g <= weight_at g y <= 1 /\
  (g_upper g <= y -> weight_at g y = 1) /\ (y <= g_lower g -> weight_at g y = g_reduce g) /\
  (g_lower g <= y <= g_upper g -> weight_at g y = 1 - (1 - g_reduce g) * ((g_upper g - y) / (g_upper g - g_lower g))) /\
  (forall y', y <= y' -> weight_at g y <= weight_at g y').
Proof. exact (weights_all g y). Qed.
Print Assumptions C61_weights.

Theorem C61_mean_weight g y1 y2 : gravity_ok g -> mean_weight g y1 y2 = mean_weight g y2 y1 /\
  (g_lower g <= y1 <= g_upper g -> g_lower g <= y2 <= g_upper g -> mean_weight g y1 y2 = (weight_at g y1 + weight_at g y2) / 2).
Proof. intros G. split; [exact (mean_sym g y1 y2 G)|exact (mean_linear g y1 y2 G)]. Qed.
Print Assumptions C61_mean_weight.

(** Without reduction a point's length is the perimeter of the other programs. *)
Theorem C61_unreduced g (b : Boundary R) p : gravity_ok g -> g_reduce g = 1 -> pointLength g (bd_points b) p = computePerimeter b p.
Proof. exact (unreduced_length g b p). Qed.
Print Assumptions C61_unreduced.

(** C62: the centre of mass lies in every box that contains the boundary, and moves with it: shifts and reflections in x shift and
    reflect it, and keep the weighted perimeter. *)
Theorem C62_centre_in_box g (ps : list (BoundaryPoint R)) l xlo xhi ylo yhi : gravity_ok g -> weightedPerimeter g ps = Ok l -> 0 < l ->
  (forall p, p ∈ ps -> xlo <= cx (bp_coord p) <= xhi /\ ylo <= cy (bp_coord p) <= yhi) ->
  exists x y, centreOfMass g ps = Ok (x, y) /\ xlo <= x <= xhi /\ ylo <= y <= yhi.
Proof. exact (centre_in_box g ps l xlo xhi ylo yhi). Qed.
Print Assumptions C62_centre_in_box.

Theorem C62_centre_in_domain W H (s s' : LevelSet R) tg b (ps : list (BoundaryPoint R)) g : reached W H s -> discretise s tg = Ok (s', b) ->
  Forall2 same_links (bd_points b) ps -> gravity_ok g -> 0 < g_reduce g -> 0 < bd_length b ->
  exists x y, centreOfMass g ps = Ok (x, y) /\ 0 <= x <= INR W /\ 0 <= y <= INR H.
Proof. exact (centre_in_domain W H s s' tg b ps g). Qed.
Print Assumptions C62_centre_in_domain.

Theorem C62_centre_moves g (ps : list (BoundaryPoint R)) l a d x y : weightedPerimeter g ps = Ok l -> l <> 0 -> a * a = 1 -> centreOfMass g ps = Ok (x, y) ->
  weightedPerimeter g (map (map_x a d) ps) = Ok l /\ centreOfMass g (map (map_x a d) ps) = Ok (a * x + d, y).
Proof. exact (centre_moves g ps l a d x y). Qed.
Print Assumptions C62_centre_moves.

Example C61_C62_case : exists (s s' : LevelSet R) b g l x y, reached 4 4 s /\ discretise s false = Ok (s', b) /\ Forall2 same_links (bd_points b) (bd_points b) /\ gravity_ok g /\
  0 < g_reduce g < 1 /\ 0 < bd_length b /\ weightedPerimeter g (bd_points b) = Ok l /\ 0 < l /\ centreOfMass g (bd_points b) = Ok (x, y).
Proof. exact gravity_case. Qed.

(** C68: in shape_match the Ito correction has no effect, whatever the temperature, because the normals are never computed. *)
Theorem C68_shape_match_uncorrected W H t area (s s' : LevelSet R) b : reached W H s -> new_boundary (shape_match t area) s = Ok (s', b) ->
  d_assign (shape_match t area) s' b = d_assign (shape_match 0 area) s' b.
Proof. exact (shape_match_uncorrected W H t area s s' b). Qed.
Print Assumptions C68_shape_match_uncorrected.

Example C68_case : exists (s s' : LevelSet R) b b', reached 4 4 s /\ new_boundary (shape_match (/ 2) []) s = Ok (s', b) /\ d_assign (shape_match (/ 2) []) s' b = Ok b' /\ (exists p, p ∈ bd_points b').
Proof. exact uncorrected_case. Qed.
