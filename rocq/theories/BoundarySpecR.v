(** * BoundarySpecR: vocabulary for the boundary properties in exact arithmetic. *)

From Verif Require Import MeshModel MeshSpec FmmSpec LevelSetModel LevelSetSpec LevelSetCalls LevelSetSpecR BoundarySpec NumR.
Local Open Scope R_scope.

Definition tol : R := / 1000000.
(** Position of node [i]. *)
Definition grid (W i : nat) : Coord R := mkCoord (INR (i mod (W + 1))) (INR (i / (W + 1))).

(** [c] is a node on the contour. *)
Definition on_contour_node (W H : nat) (sd : list R) (c : Coord R) : Prop :=
  exists i x, (i < node_count W H)%nat /\ sd !! i = Some x /\ Rabs x < tol /\ c = grid W i.
(** [c] is the zero of the linear interpolant on the edge between nodes [i] (inside) and [k] (outside). *)
Definition on_cut_edge (W H : nat) (sd : list R) (i k : nat) (c : Coord R) : Prop :=
  adjacent W H i k /\ exists x y t, sd !! i = Some x /\ sd !! k = Some y /\ tol <= x /\ y <= - tol /\
    0 < t < 1 /\ (1 - t) * x + t * y = 0 /\ c = along (grid W i) (grid W k) t.
Definition on_contour_line (W H : nat) (sd : list R) (c : Coord R) : Prop :=
  on_contour_node W H sd c \/ exists i k, on_cut_edge W H sd i k c.

(** [c] is on the border of element [e], a unit square. *)
Definition on_element_border (W e : nat) (c : Coord R) : Prop :=
  let u := cx c - INR (e mod W) in
  let v := cy c - INR (e / W) in
  0 <= u <= 1 /\ 0 <= v <= 1 /\ (u = 0 \/ u = 1 \/ v = 0 \/ v = 1).

(** Less than the tolerance apart in each coordinate. *)
Definition near (c c' : Coord R) : Prop := Rabs (cx c - cx c') < tol /\ Rabs (cy c - cy c') < tol.

(** No cut edge is cut within the tolerance of one of its ends. *)
Definition clear_cuts (W H : nat) (sd : list R) : Prop :=
  forall i k x y, adjacent W H i k -> sd !! i = Some x -> sd !! k = Some y -> tol <= x -> y <= - tol ->
    tol * (x - y) <= x /\ tol * (x - y) <= - y.

(** Distance from [c] to the border of the domain. *)
Definition border_gap (W H : nat) (c : Coord R) : R :=
  Rmin (Rmin (cx c) (INR W - cx c)) (Rmin (cy c) (INR H - cy c)).

(** No node is within the tolerance of zero. *)
Definition off_contour (W H : nat) (sd : list R) : Prop :=
  forall i, (i < node_count W H)%nat -> exists x, sd !! i = Some x /\ tol <= Rabs x.
(** Every edge between an inside and an outside node has an end in the narrow band or masked. *)
Definition covered (W H : nat) (s : LevelSet R) (sd : list R) : Prop :=
  forall i k x y, adjacent W H i k -> sd !! i = Some x -> sd !! k = Some y -> 0 < x -> y < 0 ->
    active s i \/ active s k \/ masked s i \/ masked s k.
(** Strictly inside the domain. *)
Definition within_domain (W H : nat) (c : Coord R) : Prop := 0 < cx c < INR W /\ 0 < cy c < INR H.

(** [c] is the zero of the linear interpolant on edge [a] of element [e], whose ends are on different sides. *)
Definition zero_on_side (W : nat) (sd : list R) (e a : nat) (c : Coord R) : Prop :=
  exists x y t, sd !! corner W e a = Some x /\ sd !! corner W e (next a) = Some y /\ x * y < 0 /\
    0 < t < 1 /\ (1 - t) * x + t * y = 0 /\ c = along (grid W (corner W e a)) (grid W (corner W e (next a))) t.
(** Segment [sg] has one end on edge [a] of element [e] and the other on edge [a']. *)
Definition joins_sides (W : nat) (sd : list R) (b : Boundary R) (sg : BoundarySegment R) (e a a' : nat) : Prop :=
  exists p q, bd_points b !! sg_start sg = Some p /\ bd_points b !! sg_end sg = Some q /\
    ((zero_on_side W sd e a (bp_coord p) /\ zero_on_side W sd e a' (bp_coord q)) \/
     (zero_on_side W sd e a' (bp_coord p) /\ zero_on_side W sd e a (bp_coord q))).

(** ** Areas *)
(** The part of an edge on the side of the end with value [x], when the ends have values [x] and [y] of opposite sign. *)
Definition share (x y : R) : R := Rabs x / (Rabs x + Rabs y).
(** Value at corner [j] of element [e], anticlockwise from the bottom left, counted modulo 4. *)
Definition corner_value (W : nat) (sd : list R) (e j : nat) : R := nth (corner W e (j mod 4)) sd 0.
(** Area of the triangle that the contour cuts off at corner [j]. *)
Definition tip (x : nat -> R) (j : nat) : R := share (x j) (x (j + 1)%nat) * share (x j) (x (j + 3)%nat) / 2.
(** The area [a] of the inside part of a unit square with corner values [x]; 0 is on the contour. *)
Record area_rule (x : nat -> R) (a : R) : Prop := {
  ar_range : 0 <= a <= 1;
  ar_inside : (forall j, (j < 4)%nat -> 0 <= x j) -> a = 1;
  ar_outside : (forall j, (j < 4)%nat -> x j <= 0) -> (exists j, (j < 4)%nat /\ x j < 0) -> a = 0;
  ar_one_inside : forall j, (j < 4)%nat -> 0 < x j -> x (j + 1)%nat < 0 -> x (j + 2)%nat <= 0 -> x (j + 3)%nat < 0 -> a = tip x j;
  ar_one_outside : forall j, (j < 4)%nat -> x j < 0 -> 0 <= x (j + 1)%nat -> 0 <= x (j + 2)%nat -> 0 <= x (j + 3)%nat ->
    0 < x (j + 1)%nat + x (j + 2)%nat + x (j + 3)%nat -> a = 1 - tip x j;
  ar_halves : forall j, (j < 4)%nat -> 0 <= x j -> 0 <= x (j + 1)%nat -> 0 < x j + x (j + 1)%nat -> x (j + 2)%nat < 0 -> x (j + 3)%nat < 0 ->
    a = (share (x j) (x (j + 3)%nat) + share (x (j + 1)%nat) (x (j + 2)%nat)) / 2;
  ar_saddle : forall j, (j < 4)%nat -> 0 < x j -> x (j + 1)%nat < 0 -> 0 < x (j + 2)%nat -> x (j + 3)%nat < 0 ->
    (0 < x 0%nat + x 1%nat + x 2%nat + x 3%nat -> a = 1 - tip x (j + 1) - tip x (j + 3)) /\
    (x 0%nat + x 1%nat + x 2%nat + x 3%nat <= 0 -> a = tip x j + tip x (j + 2));
}.
(** Values within the tolerance count as 0. *)
Definition snap (v : R) : R := if Rlt_dec (Rabs v) tol then 0 else v.
