(** * PolySpec: polygons in the plane, exact arithmetic (C76).  A polygon is the list of its corners, the first repeated at the end. *)

From Coq Require Import Reals ZArith.
From Verif Require Import Base Num NumR MeshModel LevelSetModel LevelSetSpec LevelSetSpecR.
Local Open Scope R_scope.

(** Positive if [p] is to the left of the line from [a] to [b], negative if it is to the right: twice the area of the triangle. *)
Definition side (a b p : Coord R) : R := (cx b - cx a) * (cy p - cy a) - (cx p - cx a) * (cy b - cy a).
Definition edge_of (vs : list (Coord R)) (a b : Coord R) : Prop := exists i, vs !! i = Some a /\ vs !! S i = Some b.
Definition closed_polygon (vs : list (Coord R)) : Prop := exists v us, vs = v :: us ++ [v].

(** [p] sees all edges from the same side, as the inner points of a convex polygon do that is given counterclockwise, or clockwise. *)
Definition left_of_all (p : Coord R) (vs : list (Coord R)) : Prop := forall a b, edge_of vs a b -> 0 < side a b p.
Definition right_of_all (p : Coord R) (vs : list (Coord R)) : Prop := forall a b, edge_of vs a b -> side a b p < 0.
(** A line separates [p] from all corners, as it does for all points outside a convex polygon. *)
Definition separated (p : Coord R) (vs : list (Coord R)) : Prop :=
  exists nx ny, forall v, v ∈ vs -> 0 < nx * (cx v - cx p) + ny * (cy v - cy p).

(** The code rounds [side] to an integer, towards zero.  Its sign survives if it is 0 or not below 1 in magnitude. *)
Definition clear_of (p : Coord R) (vs : list (Coord R)) : Prop := forall a b, edge_of vs a b -> side a b p = 0 \/ 1 <= Rabs (side a b p).
Definition whole (x : R) : Prop := exists z : Z, x = IZR z.
Definition whole_point (p : Coord R) : Prop := whole (cx p) /\ whole (cy p).
Definition within (B : R) (p : Coord R) : Prop := Rabs (cx p) <= B /\ Rabs (cy p) <= B.

(** How often the polygon goes round [p] counterclockwise: crossings of the horizontal ray to the right. *)
Definition turns (p : Coord R) (vs : list (Coord R)) : Z :=
  fold_right Z.add 0%Z (map (fun '(a, b) =>
    if Rle_dec (cy a) (cy p) then
      if Rlt_dec (cy p) (cy b) then if Rlt_dec 0 (side a b p) then 1%Z else 0%Z else 0%Z
    else if Rle_dec (cy b) (cy p) then if Rlt_dec (side a b p) 0 then (-1)%Z else 0%Z else 0%Z) (zip vs (tail vs))).

Definition at_node (x y : nat) : Coord R := mkCoord (INR x) (INR y).
Definition on_polygon (vs : list (Coord R)) (q : Coord R) : Prop := exists a b, edge_of vs a b /\ on_segment a b q.
(** The value of node (x, y) in terms of the library's inside test and distance to a segment (C29). *)
Definition polygon_value (W H : nat) (points : list (Coord R)) (x y : nat) (v : R) : Prop :=
  exists d ins, v = (if ins : bool then - d else d) /\ isInsidePolygon (at_node x y) points = Ok ins /\ 0 <= d <= border_dist W H x y /\
    (forall a b, edge_of points a b -> d <= pointToLineDistance a b (at_node x y)) /\
    (d = border_dist W H x y \/ exists a b, edge_of points a b /\ d = pointToLineDistance a b (at_node x y)).
