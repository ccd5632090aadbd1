(** * LevelSetCalls: the calls a program can make on a level set, as relations. *)

From Verif Require Export LevelSetSpec BoundaryModel.
From stdpp Require Export relations.
Local Open Scope nat_scope.

Section Calls.
  Context {T : Type} {NT : Num T}.

  (** Built by one of the six constructors. *)
  Inductive constructed (W H : nat) (ml : T) (bw : nat) (fx : bool) (s : LevelSet T) : Prop :=
  | new_by_swiss : ls_new_swiss W H ml bw fx = Ok s -> constructed W H ml bw fx s
  | new_by_holes holes : ls_new_holes W H holes ml bw fx = Ok s -> constructed W H ml bw fx s
  | new_by_points ps : ls_new_points W H ps ml bw fx = Ok s -> constructed W H ml bw fx s
  | new_by_holes_holes h1 h2 : ls_new_holes_holes W H h1 h2 ml bw fx = Ok s -> constructed W H ml bw fx s
  | new_by_holes_points h1 p2 : ls_new_holes_points W H h1 p2 ml bw fx = Ok s -> constructed W H ml bw fx s
  | new_by_points_points p1 p2 : ls_new_points_points W H p1 p2 ml bw fx = Ok s -> constructed W H ml bw fx s.

  (** Calls that do not reinitialise. *)
  Inductive quiet_call (s : LevelSet T) : LevelSet T -> Prop :=
  | q_update dt s' : update s dt = Ok (s', false) -> quiet_call s s'
  | q_velocities points s' : computeVelocities s points = Ok s' -> quiet_call s s'
  | q_velocities_noise points dt temp rng s' points' dt' scale :
      computeVelocities_noise s points dt temp rng = Ok (s', points', dt', scale) -> quiet_call s s'
  | q_gradients s' : computeGradients s = Ok s' -> quiet_call s s'
  | q_areas b s' a : computeAreaFractions s b = Ok (s', a) -> quiet_call s s'
  | q_discretise tg s' b : discretise s tg = Ok (s', b) -> quiet_call s s'
  | q_write_velocity v : length v = length (ls_vel s) -> quiet_call s (set_vel v s)
  | q_write_gradient v : length v = length (ls_grad s) -> quiet_call s (set_grad v s)
  | q_write_target v : length v = length (ls_target s) -> quiet_call s (set_target v s).

  (** All calls, including a caller's own writes to the public signed distance. *)
  Inductive call (s : LevelSet T) : LevelSet T -> Prop :=
  | c_quiet s' : quiet_call s s' -> call s s'
  | c_reinitialise s' : reinitialise s = Ok s' -> call s s'
  | c_update dt s' b : update s dt = Ok (s', b) -> call s s'
  | c_mask_holes holes s' : mask_holes s holes = Ok s' -> call s s'
  | c_mask_points points s' : mask_points s points = Ok s' -> call s s'
  | c_write_sd v : length v = length (ls_sd s) -> call s (set_sd v s).

  (** What holds between any two calls. *)
  Record sound (W H : nat) (s : LevelSet T) : Prop := {
    so_ok : ls_ok W H s;
    so_safe : band_safe W H s;
    so_band : forall i, i ∈ band_list s -> movable s i;
    so_active : forall i, active s i <-> i ∈ band_list s;
  }.

  (** Any history: a constructor and then any number of calls. *)
  Definition reached (W H : nat) (s : LevelSet T) : Prop :=
    exists ml bw fx s0, fits_ls W H bw /\ constructed W H ml bw fx s0 /\ rtc call s0 s.

  Definition masked (s : LevelSet T) (i : nat) : Prop :=
    exists n, m_nodes (ls_mesh s) !! i = Some n /\ nd_masked n = true.
End Calls.
