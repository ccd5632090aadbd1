(** * PropCycle: properties C54-C56, one step of an optimisation as a whole.

    [reached W H s]: LevelSetCalls.v.  [on_front], [adjacent]: FmmSpec.v.  [same_place] (Cycle.v): the caller has changed
    neither the position nor the limits of a point discretise made; sensitivities, lengths and the fixed flag may differ. *)

From Coq Require Import Reals Lra.
From Verif Require Import OptModel OptSpec OptSolve OptMain.
From Verif Require Import Base Num NumR NumF64 NumInt NumSgn MeshModel MeshSpec FmmModel FmmSpec LevelSetModel LevelSetSpec LevelSetSpecR LevelSetCalls LevelSetHist LevelSetSign LevelSetInit
  BoundaryModel BoundarySpec BoundarySpecR LevelSetNew LevelSetTarget Cycle CycleCase.
Local Open Scope R_scope.
Local Notation sqrt := R_sqrt.sqrt.

(** C54, exact arithmetic: the time step computeVelocities returns with noise is positive and never longer than the
    caller's; over it the noise moves a point of unit length by at most half the move limit per unit normal deviate.  The step
    is cut only if it must be, and then just enough; the scale factor is the ratio of the two steps.  Each
    point's velocity gets one normal deviate times sqrt(2 temperature / (time step * length)), and the extension
    velocities come from these velocities. *)
Theorem C54_noise_keeps_the_move_limit (s s' : LevelSet R) points dt temp rng points' dt' scale : 0 < dt -> 0 <= temp -> 0 < ls_moveLimit s ->
  computeVelocities_noise s points dt temp rng = Ok (s', points', dt', scale) ->
  (0 < dt' <= dt /\ 1 <= scale /\ dt' * scale = dt /\ sqrt (2 * temp * dt') <= ls_moveLimit s / 2) /\
  (sqrt (2 * temp * dt) <= ls_moveLimit s / 2 -> dt' = dt /\ scale = 1) /\
  (ls_moveLimit s / 2 < sqrt (2 * temp * dt) -> sqrt (2 * temp * dt') = ls_moveLimit s / 2) /\
  points' = imap (fun i p => set_bp_velocity (bp_velocity p + sqrt (2 * temp / dt') / sqrt (bp_length p) * rng i) p) points /\
  computeVelocities s points' = Ok s'.
Proof. exact (noise_step s s' points dt temp rng points' dt' scale). Qed.
Print Assumptions C54_noise_keeps_the_move_limit.

(** C54: a ring with move limit 1/2, time step 1 and temperature 1: the call returns, and the step is cut. *)
Example C54_case : exists (s s' : LevelSet R) points' dt' scale, 0 < ls_moveLimit s /\
  computeVelocities_noise s [still] 1 1 (fun _ => 1) = Ok (s', points', dt', scale) /\ ls_moveLimit s / 2 < sqrt (2 * 1 * 1).
Proof. exact noise_case. Qed.

(** C55, exact arithmetic: a whole step.  The boundary is discretised, the optimiser finds velocities and a time step, these are
    extended to the band, gradients are computed and the level set is moved.  Then no node outside the band has changed, and a node in the
    band has changed by at most its gradient times the move limit. *)
Theorem C55_a_step_stays_within_the_move_limit W H (s s1 s2 s3 s4 : LevelSet R) b pts dist lambdas t0 isMax isEq o nlopt fuel o' v :
  reached W H s -> (4 <= W)%nat -> (4 <= H)%nat -> discretise s false = Ok (s1, b) -> Forall2 same_place (bd_points b) pts ->
  optimise_ctor pts dist lambdas t0 (ls_moveLimit s) isMax isEq = Ok o -> OptModel.solve nlopt fuel o = Ok (o', Some v) -> op_time o' <> 0 ->
  computeVelocities s1 (op_points o') = Ok s2 -> computeGradients s2 = Ok s3 -> update s3 (op_time o') = Ok (s4, false) ->
  (forall i, on_front W H (ls_sd s) i -> i ∈ band_list s) ->
  (forall i n d, m_nodes (ls_mesh s) !! i = Some n -> nd_domain n = true -> ls_sd s !! i = Some d -> d <= 0) ->
  (forall i, i ∉ band_list s -> ls_sd s4 !! i = ls_sd s !! i) /\
  (forall i d r, i ∈ band_list s -> ls_sd s !! i = Some d -> ls_sd s4 !! i = Some r ->
     exists g, ls_grad s3 !! i = Some g /\ 0 <= g /\ Rabs (r - d) <= g * ls_moveLimit s).
Proof. exact (step_within_limit W H s s1 s2 s3 s4 b pts dist lambdas t0 isMax isEq o nlopt fuel o' v). Qed.
Print Assumptions C55_a_step_stays_within_the_move_limit.

(** C55: a ring on a 4 x 4 mesh goes through such a step. *)
Example C55_case : exists (s s1 s2 s3 s4 : LevelSet R) b pts o nlopt fuel o' v, reached 4 4 s /\ discretise s false = Ok (s1, b) /\
  Forall2 same_place (bd_points b) pts /\
  optimise_ctor pts [] [1] 0 (ls_moveLimit s) false [] = Ok o /\ OptModel.solve nlopt fuel o = Ok (o', Some v) /\ op_time o' <> 0 /\
  computeVelocities s1 (op_points o') = Ok s2 /\ computeGradients s2 = Ok s3 /\ update s3 (op_time o') = Ok (s4, false) /\
  (forall i, on_front 4 4 (ls_sd s) i -> i ∈ band_list s) /\
  (forall i n d, m_nodes (ls_mesh s) !! i = Some n -> nd_domain n = true -> ls_sd s !! i = Some d -> d <= 0).
Proof.
  destruct ring_cycle as (s & s1 & s2 & s3 & s4 & b & o & nl & fuel & o' & v & A1 & A2 & A).
  exists s, s1, s2, s3, s4, b, (map with_area (bd_points b)), o, nl, fuel, o', v. split; [exact A1|]. split; [exact A2|]. split; [|exact A].
  apply Forall2_fmap_r. apply Forall_Forall2_diag, Forall_true. intros p. repeat split.
Qed.

(** C55, exact arithmetic: reinitialise makes the band cover the boundary (as far as nodes may move), if no inside node was within rounding
    of zero and no two neighbours of the result differ by more than one grid spacing. *)
Theorem C55_reinitialise_covers_the_boundary W H (s s' : LevelSet R) : reached W H s -> reinitialise s = Ok s' ->
  (forall i c, ls_sd s !! i = Some c -> 0 < c -> nepsilon < c) ->
  (forall i k a b, adjacent W H i k -> ls_sd s' !! i = Some a -> ls_sd s' !! k = Some b -> Rabs b <= Rabs a + 1) ->
  forall i, on_front W H (ls_sd s') i -> movable s' i -> i ∈ band_list s'.
Proof. exact (reinit_covers W H s s'). Qed.
Print Assumptions C55_reinitialise_covers_the_boundary.

Example C55_cover_case : exists s s' : LevelSet R, reached 3 2 s /\ reinitialise s = Ok s' /\
  (forall i c, ls_sd s !! i = Some c -> 0 < c -> nepsilon < c) /\
  (forall i k a b, adjacent 3 2 i k -> ls_sd s' !! i = Some a -> ls_sd s' !! k = Some b -> Rabs b <= Rabs a + 1) /\
  on_front 3 2 (ls_sd s') 10.
Proof.
  destruct line32_case as (s & s' & A & B & E & E' & _). exists s, s'. rewrite E, E'. split; [exact A|]. split; [exact B|].
  split; [exact line32_margin|]. split; [exact line32_no_jump|].
  right. exists 11%nat. split; [left; exists 2%nat, 2%nat, 3%nat; repeat split; lia|].
  exists (INR 2 - 5 / 2), (INR 3 - 5 / 2). split; [reflexivity|]. split; [reflexivity|]. apply Rltb_true.
  change ((INR 2 - 5 / 2) * (INR 3 - 5 / 2) < 0). cbn [INR]. lra.
Qed.

(** C56, any numbers: no constructor masks a node. *)
Theorem C56_constructors_mask_nothing (T : Type) (NT : Num T) (NI : NumInt T) (NS : NumSgn T) W H (ml : T) bw fx s : fits_ls W H bw ->
  constructed W H ml bw fx s -> forall i, ~ masked s i.
Proof. exact (all_unmasked W H ml bw fx s). Qed.
Print Assumptions C56_constructors_mask_nothing.

(** C56, any numbers: a constructor with a target makes the same signed distance, band and mines as the constructor without
    one, and its target is the reinitialised signed distance of the level set the target's description alone would make. *)
Theorem C56_targets_are_independent (T : Type) (NT : Num T) (NI : NumInt T) (NS : NumSgn T) W H (ml : T) bw fx : fits_ls W H bw ->
  (forall h1 h2 s, ls_new_holes_holes W H h1 h2 ml bw fx = Ok s -> pair_of s (ls_new_holes W H h1 ml bw fx) (ls_new_holes W H h2 ml bw fx)) /\
  (forall h1 p2 s, ls_new_holes_points W H h1 p2 ml bw fx = Ok s -> pair_of s (ls_new_holes W H h1 ml bw fx) (ls_new_points W H p2 ml bw fx)) /\
  (forall p1 p2 s, ls_new_points_points W H p1 p2 ml bw fx = Ok s -> pair_of s (ls_new_points W H p1 ml bw fx) (ls_new_points W H p2 ml bw fx)).
Proof. exact (all_targets W H ml bw fx). Qed.
Print Assumptions C56_targets_are_independent.

(** C56, any numbers: a constructor with a target accepts every description the constructors without one accept, unless the field of
    the target has no contour; then it gives up. *)
Theorem C56_targets_accepted (T : Type) (NT : Num T) (NI : NumInt T) W H (ml : T) bw fx : fits_ls W H bw ->
  (forall h1 h2 s1 s2, ls_new_holes W H h1 ml bw fx = Ok s1 -> ls_new_holes W H h2 ml bw fx = Ok s2 ->
     ((exists i, (i < node_count W H)%nat /\ on_front W H (ls_sd s2) i) -> exists s, ls_new_holes_holes W H h1 h2 ml bw fx = Ok s) /\
     ((forall i, (i < node_count W H)%nat -> ~ on_front W H (ls_sd s2) i) -> ls_new_holes_holes W H h1 h2 ml bw fx = Exit)) /\
  (forall h1 p2 s1 s2, ls_new_holes W H h1 ml bw fx = Ok s1 -> ls_new_points W H p2 ml bw fx = Ok s2 ->
     ((exists i, (i < node_count W H)%nat /\ on_front W H (ls_sd s2) i) -> exists s, ls_new_holes_points W H h1 p2 ml bw fx = Ok s) /\
     ((forall i, (i < node_count W H)%nat -> ~ on_front W H (ls_sd s2) i) -> ls_new_holes_points W H h1 p2 ml bw fx = Exit)) /\
  (forall p1 p2 s1 s2, ls_new_points W H p1 ml bw fx = Ok s1 -> ls_new_points W H p2 ml bw fx = Ok s2 ->
     ((exists i, (i < node_count W H)%nat /\ on_front W H (ls_sd s2) i) -> exists s, ls_new_points_points W H p1 p2 ml bw fx = Ok s) /\
     ((forall i, (i < node_count W H)%nat -> ~ on_front W H (ls_sd s2) i) -> ls_new_points_points W H p1 p2 ml bw fx = Exit)).
Proof. exact (targets_accepted W H ml bw fx). Qed.
Print Assumptions C56_targets_accepted.

Example C56_case : let h1 := [mkHole (mkCoord (nofnat 2) (nofnat 2)) (nlit 3 2 : f64)] in let h2 := [mkHole (mkCoord (nofnat 1) (nofnat 2)) (nlit 1 2 : f64)] in
  (let! s := ls_new_holes_holes 4 4 h1 h2 (nlit 1 2) 3 false in let! a := vget (ls_sd s) 12 in let! b := vget (ls_target s) 12 in
   Ok (a =? - nlit 3 2, b =? nlit 1 2)%num) = Ok (true, true).
Proof. vm_compute. reflexivity. Qed.
