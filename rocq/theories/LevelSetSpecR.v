(** * LevelSetSpecR: vocabulary for the level set properties in exact arithmetic. *)

From Verif Require Import MeshModel MeshSpec FmmSpec LevelSetModel NumR.
Local Open Scope R_scope.

(** The three third-order ENO approximations. *)
Definition eno1 (v1 v2 v3 : R) : R := (2 * v1 - 7 * v2 + 11 * v3) / 6.
Definition eno2 (v2 v3 v4 : R) : R := (- v2 + 5 * v3 + 2 * v4) / 6.
Definition eno3 (v3 v4 v5 : R) : R := (2 * v3 + 5 * v4 - v5) / 6.

(** The affine field. *)
Definition affine (a b c : R) (x y : nat) : R := a * INR x + b * INR y + c.

(** Euclidean distance and segments. *)
Definition euclid2 (p q : Coord R) : R := (cx p - cx q) * (cx p - cx q) + (cy p - cy q) * (cy p - cy q).
Definition along (v1 v2 : Coord R) (t : R) : Coord R := mkCoord (cx v1 + t * (cx v2 - cx v1)) (cy v1 + t * (cy v2 - cy v1)).
Definition euclid (p q : Coord R) : R := R_sqrt.sqrt (euclid2 p q).
Definition on_segment (v1 v2 q : Coord R) : Prop := exists t, 0 <= t <= 1 /\ q = along v1 v2 t.

(** Distance from node (x, y) to the border of the domain. *)
Definition border_dist (W H x y : nat) : R := Rmin (Rmin (INR x) (INR W - INR x)) (Rmin (INR y) (INR H - INR y)).

(** Signed distance from node (x, y) to a circle: negative inside. *)
Definition hole_dist (h : Hole R) (x y : nat) : R := euclid (h_coord h) (mkCoord (INR x) (INR y)) - h_r h.

(** Boundary point [p] is used for the velocity of node [i]: [i] is the node closest to it, or a
    neighbour of that node at a distance of at most one. *)
Definition gap (W : nat) (p : BoundaryPoint R) (i : nat) : R :=
  euclid2 (mkCoord (INR (i mod (W + 1))) (INR (i / (W + 1)))) (bp_coord p).
Definition touches (W H : nat) (m : Mesh R) (p : BoundaryPoint R) (i : nat) : Prop :=
  exists k, getClosestNode m (cx (bp_coord p)) (cy (bp_coord p)) = Ok k /\
    (i = k \/ adjacent W H k i /\ gap W p i <= 1).
Definition sumR (l : list R) : R := foldr Rplus 0 l.
Definition in_domain (W H : nat) (p : BoundaryPoint R) : Prop :=
  0 <= cx (bp_coord p) <= INR W /\ 0 <= cy (bp_coord p) <= INR H.

(** [v] is the average of the velocities of the points used for node [i], weighted by the inverse of
    their squared distance (0 if there are none). *)
Definition weighted_average (W H : nat) (m : Mesh R) (points : list (BoundaryPoint R)) (i : nat) (v : R) : Prop :=
  exists ws, length ws = length points /\
    (forall j p w, points !! j = Some p -> ws !! j = Some w ->
       (touches W H m p i -> w = / gap W p i) /\ (~ touches W H m p i -> w = 0)) /\
    v * sumR ws = sumR (zip_with (fun w p => w * bp_velocity p) ws points) /\
    ((forall p, p ∈ points -> ~ touches W H m p i) -> v = 0).
