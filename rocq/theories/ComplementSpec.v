(** * ComplementSpec: inside and outside are treated alike (C80). *)

From Coq Require Import Reals.
From Verif Require Import Base Num NumR MeshModel LevelSetModel LevelSetSpec BoundaryModel.
Local Open Scope R_scope.

(** The complement of the shape, moving in the opposite direction: all values and velocities change sign, nothing else. *)
Definition flip (s : LevelSet R) : LevelSet R := set_vel (map Ropp (ls_vel s)) (set_sd (map Ropp (ls_sd s)) s).
Definition reversed (p : BoundaryPoint R) : BoundaryPoint R := set_bp_velocity (- bp_velocity p) p.
(** No value is so small that the fast marching method takes it for outside although it is inside. *)
Definition resolved (l : list R) : Prop := Forall (fun x => x = 0 \/ / 2 ^ 52 < Rabs x) l.
(** [t] is [s] with inside and outside swapped; where the velocity is zero the gradients may differ. *)
Definition complement (s t : LevelSet R) : Prop :=
  exists g, t = set_grad g (flip s) /\ length g = length (ls_grad s) /\ forall i, ls_vel s !! i <> Some 0 -> g !! i = ls_grad s !! i.
(** A boundary with all its normals turned round. *)
Definition turned (p : BoundaryPoint R) : BoundaryPoint R := set_bp_normal (mkCoord (- cx (bp_normal p)) (- cy (bp_normal p))) p.
Definition turned_boundary (b : Boundary R) : Boundary R := mkBoundary (map turned (bd_points b)) (bd_segs b) (bd_length b).
(** Moving the boundary as its points say: extend their velocities, take the gradients and update. *)
Definition move (s : LevelSet R) (ps : list (BoundaryPoint R)) (dt : R) : outcome (LevelSet R * bool) :=
  let! s1 := computeVelocities s ps in
  let! s2 := computeGradients s1 in
  update s2 dt.
(** No value of the narrow band is moved so close to zero. *)
Definition clear_of_zero (s : LevelSet R) (ps : list (BoundaryPoint R)) (dt : R) : Prop :=
  forall s1 s2, computeVelocities s ps = Ok s1 -> computeGradients s1 = Ok s2 ->
  forall i d g v, i ∈ band_list s2 -> ls_sd s2 !! i = Some d -> ls_grad s2 !! i = Some g -> ls_vel s2 !! i = Some v ->
  d - dt * g * v = 0 \/ / 2 ^ 52 < Rabs (d - dt * g * v).
