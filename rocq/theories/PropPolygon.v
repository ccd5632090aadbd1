(** * PropPolygon: level sets and masks given by polygons (C76). *)

From Coq Require Import Reals ZArith Lia Lra.
From Verif Require Import Base Num NumR NumF64 NumInt MeshModel MeshSpec LevelSetModel LevelSetSpec LevelSetSpecR LevelSetCalls LevelSetOps LevelSetHist StartSpec
  PolySpec PolyField PolyCases IOModel DemoSetup DemoShapes.
Local Open Scope R_scope.

(** ** C76: polygons, exact arithmetic. *)
(** For a closed polygon with corners on whole numbers the inside test of a node counts how often the polygon goes round it.  A point that
    sees all edges from one side, as the inner points of a convex polygon do, is inside; a point a line separates from the corners is not. *)
Theorem C76_inside_whole_polygons (p : Coord R) points : whole_point p -> (forall v, v ∈ points -> whole_point v) -> within 10000 p -> (forall v, v ∈ points -> within 10000 v) -> closed_polygon points ->
  isInsidePolygon p points = Ok (negb (turns p points =? 0)%Z) /\
  (left_of_all p points \/ right_of_all p points -> isInsidePolygon p points = Ok true) /\ (separated p points -> isInsidePolygon p points = Ok false).
Proof. exact (polygon_inside p points). Qed.
Print Assumptions C76_inside_whole_polygons.

(** Missing for corners elsewhere: points for which some triangle with an edge has an area below 1/2; see the next two theorems. *)
Theorem C76_inside_partial (p : Coord R) points : clear_of p points -> within 10000 p -> (forall v, v ∈ points -> within 10000 v) -> closed_polygon points ->
  isInsidePolygon p points = Ok (negb (turns p points =? 0)%Z) /\
  (left_of_all p points \/ right_of_all p points -> isInsidePolygon p points = Ok true) /\ (separated p points -> isInsidePolygon p points = Ok false).
Proof. exact (polygon_clear p points). Qed.
Print Assumptions C76_inside_partial.

(** If all these triangles are smaller the point counts as outside, wherever it is. *)
Theorem C76_small_polygons_are_missed (p : Coord R) points : points <> [] -> (forall a b, edge_of points a b -> Rabs (side a b p) < 1) -> isInsidePolygon p points = Ok false.
Proof. exact (small_missed p points). Qed.
Print Assumptions C76_small_polygons_are_missed.
(** Such as the middle of a square of width 4/5. *)
Theorem C76_inside_refuted : exists (p : Coord R) points, closed_polygon points /\ (forall v, v ∈ points -> within 10000 v) /\ left_of_all p points /\ isInsidePolygon p points = Ok false.
Proof. exact (ex_intro _ _ (ex_intro _ _ lost_middle)). Qed.
Print Assumptions C76_inside_refuted.

(** The constructor accepts every list of points that is not empty and within 10000.  The value of a node is the smallest of its distance
    to the border and its distances to the edges (C29), negative if the node is inside. *)
Theorem C76_polygon_level_set W H points (ml : R) bw fx : fits_ls W H bw -> valid_params ml bw -> (Z.of_nat W <= 10000)%Z -> (Z.of_nat H <= 10000)%Z -> points <> [] -> (forall v, v ∈ points -> within 10000 v) ->
  exists s, ls_new_points W H points ml bw fx = Ok s /\ reached W H s /\
    forall x y, (x <= W)%nat -> (y <= H)%nat -> exists v, ls_sd s !! node_id W x y = Some v /\ polygon_value W H points x y v.
Proof. exact (new_points_R W H points ml bw fx). Qed.
Print Assumptions C76_polygon_level_set.
(** With corners on whole numbers: the smallest of the distances to the border and to the polygon, negative if the polygon goes round the node. *)
Theorem C76_whole_polygon_level_set W H points (ml : R) bw fx : fits_ls W H bw -> valid_params ml bw -> (Z.of_nat W <= 10000)%Z -> (Z.of_nat H <= 10000)%Z ->
  closed_polygon points -> (forall v, v ∈ points -> whole_point v) -> (forall v, v ∈ points -> within 10000 v) ->
  exists s, ls_new_points W H points ml bw fx = Ok s /\ reached W H s /\
    forall x y, (x <= W)%nat -> (y <= H)%nat -> exists d, ls_sd s !! node_id W x y = Some (if (turns (at_node x y) points =? 0)%Z then d else - d) /\
      0 <= d <= border_dist W H x y /\ (forall q, on_polygon points q -> d <= euclid (at_node x y) q) /\
      (d = border_dist W H x y \/ exists q, on_polygon points q /\ d = euclid (at_node x y) q).
Proof. exact (whole_level_set W H points ml bw fx). Qed.
Print Assumptions C76_whole_polygon_level_set.

(** Masking with a polygon masks the nodes inside, and only these; it can fail only if no contour is left. *)
Theorem C76_polygon_mask W H (s : LevelSet R) points : reached W H s -> (Z.of_nat W <= 10000)%Z -> (Z.of_nat H <= 10000)%Z -> length points <> 2%nat -> points <> [] -> (forall v, v ∈ points -> within 10000 v) ->
  (mask_points s points = Exit \/ exists s', mask_points s points = Ok s') /\
  forall s', mask_points s points = Ok s' -> exists s1, masked_field s (inside_test s points) s1 /\ reinitialise s1 = Ok s' /\ band_ok s' /\
    forall x y, (x <= W)%nat -> (y <= H)%nat -> (masked s' (node_id W x y) <-> masked s (node_id W x y) \/ isInsidePolygon (mkCoord (INR x) (INR y)) points = Ok true).
Proof. exact (mask_polygon W H s points). Qed.
Print Assumptions C76_polygon_mask.

(** shape_match starts with a round hole and the polygon of the file as its target. *)
Theorem C76_shape_match (TT : Text R) fs points : load_shape fs = Ok points -> points <> [] -> (forall v, v ∈ points -> within 10000 v) ->
  exists s, start_shape_match (T := R) fs = Ok s /\ reached 400 400 s /\
    (forall x y, (x <= 400)%nat -> (y <= 400)%nat -> ls_sd s !! node_id 400 x y = Some (around 400 400 [(200, 200, 100)] x y)) /\
    exists s2 s3, reached 400 400 s2 /\ reinitialise s2 = Ok s3 /\ ls_target s = ls_sd s3 /\
      forall x y, (x <= 400)%nat -> (y <= 400)%nat -> exists v, ls_sd s2 !! node_id 400 x y = Some v /\ polygon_value 400 400 points x y v.
Proof. exact (shape_match_shape fs points). Qed.
Print Assumptions C76_shape_match.

(** Without points the constructors read outside the list.  Corners further out overflow the integer of the inside test. *)
Theorem C76_no_points_refuted (T : Type) (NT : Num T) (NI : NumInt T) W H (ml : T) bw fx : fits_ls W H bw -> valid_params ml bw ->
  ls_new_points W H [] ml bw fx = UB /\ forall h1, ls_new_holes_points W H h1 [] ml bw fx = UB.
Proof. exact (no_points W H ml bw fx). Qed.
Print Assumptions C76_no_points_refuted.
Theorem C76_far_corners_refuted : let q z := mkCoord (nofZ (fst z)) (nofZ (snd z)) : Coord f64 in
  isInsidePolygon (q (2, 2)%Z) (map q [(-100000, -100000); (100000, -100000); (100000, 100000); (-100000, 100000); (-100000, -100000)]%Z) = UB.
Proof. vm_compute. reflexivity. Qed.
Print Assumptions C76_far_corners_refuted.

Example C76_case : exists points, closed_polygon points /\ (forall v, v ∈ points -> whole_point v) /\ (forall v, v ∈ points -> within 10000 v) /\ left_of_all (at_node 2 2) points /\
  separated (at_node 4 2) points /\ separated (at_node 0 0) points.
Proof. exact (ex_intro _ _ whole_box). Qed.
(** In doubles: a square of width 2 makes a hole around the middle of a 4 by 4 mesh, one of width 4/5 does not. *)
Example C76_case_f64 : let square l u := [mkCoord l l; mkCoord u l; mkCoord u u; mkCoord l u; mkCoord l l] : list (Coord f64) in
  (let! s := ls_new_points 4 4 (square (nofZ 1) (nofZ 3)) (nlit 1 2) 3 false in let! v := vget (ls_sd s) 12 in
   let! t := ls_new_points 4 4 (square (nlit 8 5) (nlit 12 5)) (nlit 1 2) 3 false in let! w := vget (ls_sd t) 12 in Ok (v <? n0, n0 <? w)%num) = Ok (true, true).
Proof. vm_compute. reflexivity. Qed.
