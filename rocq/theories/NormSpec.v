(** * NormSpec: vocabulary for normal vectors and sensitivities. *)

From Coq Require Import Reals.
From Verif Require Import Num NumR LevelSetModel LevelSetSpec MeshSpec BoundarySpec BoundarySpecR BoundaryModel.

Section generic.
  Context {T : Type} `{NT : Num T}.

  (** Difference quotient of [f] on 0..n at [k]: central, one-sided at the ends. *)
  Definition slope (f : nat -> T) (n k : nat) : T :=
    if (k =? 0)%nat then (f 1 - f 0)%num else if (k =? n)%nat then (f n - f (n - 1)%nat)%num
    else (nlit 1 2 * (f (k + 1)%nat - f (k - 1)%nat))%num.
  (** Direction of the gradient at node [i]. *)
  Definition node_normal (W H : nat) (sd : list T) (i : nat) : Coord T :=
    let x := i mod (W + 1) in let y := i / (W + 1) in
    let gx := slope (fun k => field W sd k y) W x in
    let gy := slope (fun k => field W sd x k) H y in
    let g := nsqrt (gx * gx + gy * gy)%num in
    mkCoord (gx / g)%num (gy / g)%num.

  (** The boundary points listed at node [i]. *)
  Definition points_at (s : LevelSet T) (i : nat) : list nat :=
    match m_nodes (ls_mesh s) !! i with Some n => take (nd_nBpts n) (nd_bpts n) | None => [] end.
  (** For boundary point [k]: position and gradient direction of the narrow band nodes that list it, in order. *)
  Definition sources_in (W H : nat) (s : LevelSet T) (k : nat) (nodes : list nat) : list (Coord T * Coord T) :=
    concat (map (fun i => map (fun _ => (node_xy W i, node_normal W H (ls_sd s) i)) (List.filter (Nat.eqb k) (points_at s i))) nodes).
  Definition sources (W H : nat) (s : LevelSet T) (k : nat) : list (Coord T * Coord T) := sources_in W H s k (band_list s).

  (** The same boundary but for the normals. *)
  Definition same_but_normals (b b' : Boundary T) : Prop :=
    bd_segs b' = bd_segs b /\ bd_length b' = bd_length b /\ length (bd_points b') = length (bd_points b) /\
    forall k p p', bd_points b !! k = Some p -> bd_points b' !! k = Some p' -> p' = set_bp_normal (bp_normal p') p.
End generic.

Local Open Scope R_scope.
Definition sqdist (a b : Coord R) : R := (cx a - cx b) ^ 2 + (cy a - cy b) ^ 2.
Definition vnorm (a : Coord R) : R := R_sqrt.sqrt (cx a ^ 2 + cy a ^ 2).
Definition scale (t : R) (a : Coord R) : Coord R := mkCoord (t * cx a) (t * cy a).
Definition dot (a b : Coord R) : R := cx a * cx b + cy a * cy b.
Definition vsub (a b : Coord R) : Coord R := mkCoord (cx a - cx b) (cy a - cy b).
Definition vadd (a b : Coord R) : Coord R := mkCoord (cx a + cx b) (cy a + cy b).
(** The vector at a point [c]: that of the last source on top of it; without one, the sum of all weighted by the inverse square of
    the distance. *)
Definition gathered (c : Coord R) (l : list (Coord R * Coord R)) : Coord R :=
  match last (List.filter (fun qv => if Rlt_dec (sqdist (fst qv) c) tol then true else false) l) with
  | Some qv => snd qv
  | None => fold_right vadd (mkCoord 0 0) (map (fun qv => scale (/ sqdist (fst qv) c) (snd qv)) l)
  end.

(** ** Sensitivities *)
Section sensitivity.
  Context {T : Type} `{NT : Num T}.
  (** Point [p] moved to [c]. *)
  Definition at_coord (c : Coord T) (p : BoundaryPoint T) : BoundaryPoint T :=
    mkBP c (bp_normal p) (bp_length p) (bp_velocity p) (bp_neg p) (bp_pos p) (bp_domain p) (bp_fixed p)
      (bp_nSegs p) (bp_segs p) (bp_nNeigh p) (bp_neigh p) (bp_sens p).
  (** Point [p] moved forwards and backwards along its normal by [delta]. *)
  Definition ahead (delta : T) (p : BoundaryPoint T) : BoundaryPoint T :=
    at_coord (mkCoord (cx (bp_coord p) + delta * cx (bp_normal p))%num (cy (bp_coord p) + delta * cy (bp_normal p))%num) p.
  Definition behind (delta : T) (p : BoundaryPoint T) : BoundaryPoint T :=
    at_coord (mkCoord (cx (bp_coord p) - delta * cx (bp_normal p))%num (cy (bp_coord p) - delta * cy (bp_normal p))%num) p.
  Definition with_sens (l : list T) (p : BoundaryPoint T) : BoundaryPoint T :=
    mkBP (bp_coord p) (bp_normal p) (bp_length p) (bp_velocity p) (bp_neg p) (bp_pos p) (bp_domain p) (bp_fixed p)
      (bp_nSegs p) (bp_segs p) (bp_nNeigh p) (bp_neigh p) l.
  (** The neighbours of each point are points of the boundary; each point has a sensitivity. *)
  Definition neighbours_ok (b : Boundary T) : Prop := forall k p, bd_points b !! k = Some p ->
    (bp_nNeigh p <= length (bp_neigh p) /\ forall j, j ∈ take (bp_nNeigh p) (bp_neigh p) -> j < length (bd_points b))%nat.
  Definition has_sens (b : Boundary T) : Prop := forall k p, bd_points b !! k = Some p -> bp_sens p <> [].
  (** The boundary [b] with sensitivities chosen by the caller. *)
  Definition sens_set (b b' : Boundary T) : Prop := bd_segs b' = bd_segs b /\ bd_length b' = bd_length b /\
    length (bd_points b') = length (bd_points b) /\
    forall k p p', bd_points b !! k = Some p -> bd_points b' !! k = Some p' -> p' = with_sens (bp_sens p') p.
End sensitivity.

(** Positions of the neighbours of [p]. *)
Definition neighbour_coords (b : Boundary R) (p : BoundaryPoint R) : list (Coord R) :=
  concat (map (fun j => match bd_points b !! j with Some q => [bp_coord q] | None => [] end) (take (bp_nNeigh p) (bp_neigh p))).
Definition length_to (qs : list (Coord R)) (c : Coord R) : R := fold_right Rplus 0 (map (fun q => vnorm (vsub c q)) qs).
(** Rate of change of the boundary length with the displacement of [p] along its normal, per unit length. *)
Definition curvature (delta : R) (b : Boundary R) (p : BoundaryPoint R) : R :=
  let L t := length_to (neighbour_coords b p) (vadd (bp_coord p) (scale t (bp_normal p))) in
  (L delta - L (- delta)) / (2 * delta) / bp_length p.
