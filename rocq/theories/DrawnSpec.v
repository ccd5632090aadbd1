(** * DrawnSpec: areas describe the contour last discretised (C82). *)

From Verif Require Import Base Num MeshModel LevelSetModel.

Section DrawnSpec.
  Context {T : Type} {NT : Num T}.
  (** Every call of the level set, and every write of the caller, except [discretise]. *)
  Inductive other_call (s : LevelSet T) : LevelSet T -> Prop :=
  | o_update dt s' r : update s dt = Ok (s', r) -> other_call s s'
  | o_reinitialise s' : reinitialise s = Ok s' -> other_call s s'
  | o_velocities points s' : computeVelocities s points = Ok s' -> other_call s s'
  | o_velocities_noise points dt temp rng s' points' dt' scale : computeVelocities_noise s points dt temp rng = Ok (s', points', dt', scale) -> other_call s s'
  | o_gradients s' : computeGradients s = Ok s' -> other_call s s'
  | o_areas b s' a : computeAreaFractions s b = Ok (s', a) -> other_call s s'
  | o_mask_holes holes s' : mask_holes s holes = Ok s' -> other_call s s'
  | o_mask_points points s' : mask_points s points = Ok s' -> other_call s s'
  | o_write_sd v : length v = length (ls_sd s) -> other_call s (set_sd v s)
  | o_write_velocity v : length v = length (ls_vel s) -> other_call s (set_vel v s)
  | o_write_gradient v : length v = length (ls_grad s) -> other_call s (set_grad v s)
  | o_write_target v : length v = length (ls_target s) -> other_call s (set_target v s).

  (** The areas of the elements and the total that [computeAreaFractions] leaves behind. *)
  Definition areas_of (r : outcome (LevelSet T * T)) : outcome (list T * T) :=
    let! (s, A) := r in Ok (map e_area (m_elements (ls_mesh s)), A).
End DrawnSpec.
