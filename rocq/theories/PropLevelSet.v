(** * PropLevelSet: properties C18-C27, C29 and C49 (src/LevelSet.cpp).

    [reached W H s] (LevelSetCalls.v): [s] is a W x H level set after any history: one of the six
    constructors, then any number of calls of the public functions, in any order, including a
    caller's own writes to the public vectors.
    [band_ok], [in_band], [moved], [masked_field], ...: LevelSetSpec.v and LevelSetSpecR.v. *)

From Verif Require Import MeshModel MeshSpec FmmModel FmmSpec NumR NumF64 NumInt NumSgn
  LevelSetModel LevelSetSpec LevelSetSpecR LevelSetCalls LevelSetBand LevelSetOps LevelSetInit LevelSetGrad LevelSetVel
  LevelSetHist LevelSetReal LevelSetSign SignCases.
From Flocq Require Import IEEE754.BinarySingleNaN.
Local Open Scope nat_scope.

(** ** C18: parameters.  [NumInt T]: small integers are exact (true of R and of doubles, NumInt.v). *)
Theorem C18_invalid_parameters_exit :
  forall (T : Type) (NT : Num T) (NI : NumInt T) (W H bw : nat) (ml : T) (fx : bool),
    fits_ls W H bw -> ~ valid_params ml bw ->
    ls_new_swiss W H ml bw fx = Exit /\
    (forall holes, ls_new_holes W H holes ml bw fx = Exit) /\
    (forall points, ls_new_points W H points ml bw fx = Exit) /\
    (forall h1 h2, ls_new_holes_holes W H h1 h2 ml bw fx = Exit) /\
    (forall h1 p2, ls_new_holes_points W H h1 p2 ml bw fx = Exit) /\
    (forall p1 p2, ls_new_points_points W H p1 p2 ml bw fx = Exit).
Proof. exact @all_invalid. Qed.
Print Assumptions C18_invalid_parameters_exit.

Theorem C18_valid_parameters_accepted :
  forall (T : Type) (NT : Num T) (NI : NumInt T) (W H bw : nat) (ml : T) (fx : bool) (holes : list (Hole T)),
    fits_ls W H bw -> valid_params ml bw ->
    exists s, ls_new_holes W H holes ml bw fx = Ok s /\
      ls_moveLimit s = ml /\ ls_bandWidth s = bw /\ ls_fixed s = fx /\ ls_ok W H s /\
      ls_vel s = replicate (node_count W H) n0 /\ ls_grad s = replicate (node_count W H) n0.
Proof. exact @holes_accepted. Qed.
Print Assumptions C18_valid_parameters_accepted.

Definition f (p q : Z) : f64 := nlit p q.
Definition nanf : f64 := (f 0 1 / f 0 1)%num.
Example C18_cases :
  (* 0, 1, NaN and a negative move limit, and band width 2, are rejected; 0.5 is accepted *)
  ~ valid_params (f 0 1) 6 /\ ~ valid_params (f 1 1) 6 /\ ~ valid_params nanf 6 /\ ~ valid_params (f (-1) 2) 6 /\
  ~ valid_params (f 1 2) 2 /\ valid_params (f 1 2) 3 /\ fits_ls 8 8 3.
Proof.
  unfold valid_params, fits_ls, node_count.
  repeat split; try lia; try (intros (_ & A & B); vm_compute in A, B; discriminate); try (vm_compute; reflexivity); intros (A & _); lia.
Qed.

(** ** C19: the narrow band. *)
Theorem C19_band_after_construction :
  forall (T : Type) (NT : Num T) (NI : NumInt T) (W H bw : nat) (ml : T) (fx : bool) (s : LevelSet T),
    fits_ls W H bw -> constructed W H ml bw fx s -> band_ok s.
Proof. exact @constructed_band. Qed.
Print Assumptions C19_band_after_construction.

Theorem C19_band_after_reinitialisation :
  forall (T : Type) (NT : Num T) (NI : NumInt T) (W H : nat) (s s' : LevelSet T), reached W H s ->
    (reinitialise s = Ok s' -> band_ok s') /\
    (forall dt, update s dt = Ok (s', true) -> band_ok s') /\
    (forall holes, mask_holes s holes = Ok s' -> band_ok s').
Proof. exact @all_reinit_band. Qed.
Print Assumptions C19_band_after_reinitialisation.

(** Between reinitialisations the band is not recomputed, but its nodes are still exactly the active
    ones and all of them may move. *)
Theorem C19_band_between_reinitialisations :
  forall (T : Type) (NT : Num T) (NI : NumInt T) (W H : nat) (s : LevelSet T), reached W H s ->
    NoDup (band_list s) /\ (forall i, active s i <-> i ∈ band_list s) /\ (forall i, i ∈ band_list s -> movable s i).
Proof. exact @band_always. Qed.
Print Assumptions C19_band_between_reinitialisations.

(** ** C20: mines and the report of update. [bo_mine] of [band_ok] says which nodes are mines. *)
Theorem C20_mines_after_reinitialisation :
  forall (T : Type) (NT : Num T) (NI : NumInt T) (W H : nat) (s s' : LevelSet T), reached W H s ->
    reinitialise s = Ok s' ->
    forall i, i ∈ mine_list s' <->
      movable s' i /\ exists d, ls_sd s' !! i = Some d /\
        (nabs d <? nofnat (ls_bandWidth s'))%num = true /\ (nofnat (ls_bandWidth s' - 1) <? nabs d)%num = true.
Proof. exact @mines_explicit. Qed.
Print Assumptions C20_mines_after_reinitialisation.

Theorem C20_update_reports_mines :
  forall (T : Type) (NT : Num T) (NI : NumInt T) (W H : nat) (s : LevelSet T) (dt : T), reached W H s ->
    exists s1, moved_field s dt s1 /\
      ((exists i d, i ∈ mine_list s /\ ls_sd s1 !! i = Some d /\ (nabs d <? n1)%num = true) ->
         update s dt = obind (reinitialise s1) (fun s2 => Ok (s2, true))) /\
      (~ (exists i d, i ∈ mine_list s /\ ls_sd s1 !! i = Some d /\ (nabs d <? n1)%num = true) ->
         update s dt = Ok (s1, false)).
Proof. exact @update_reports. Qed.
Print Assumptions C20_update_reports_mines.

(** ** C21: what update changes. *)
Theorem C21_update_moves_only_the_band :
  forall (T : Type) (NT : Num T) (NI : NumInt T) (W H : nat) (s s' : LevelSet T) (dt : T), reached W H s ->
    update s dt = Ok (s', false) ->
    (forall i, i ∉ band_list s -> ls_sd s' !! i = ls_sd s !! i) /\
    (forall i, i ∈ band_list s -> exists d g v n r,
       ls_sd s !! i = Some d /\ ls_grad s !! i = Some g /\ ls_vel s !! i = Some v /\ m_nodes (ls_mesh s) !! i = Some n /\
       ls_sd s' !! i = Some r /\
       r = (if nd_domain n && (n0 <? d - dt * g * v)%num then n0 else d - dt * g * v)%num) /\
    ls_vel s' = ls_vel s /\ ls_grad s' = ls_grad s /\ ls_band s' = ls_band s /\ ls_nBand s' = ls_nBand s /\
    ls_mines s' = ls_mines s /\ ls_nMines s' = ls_nMines s /\ ls_target s' = ls_target s.
Proof. exact @update_explicit. Qed.
Print Assumptions C21_update_moves_only_the_band.

Theorem C21_border_stays_outside :
  forall (W H : nat) (s s' : LevelSet R) (dt : R), reached W H s -> update s dt = Ok (s', false) ->
    forall i n r, i ∈ band_list s -> m_nodes (ls_mesh s) !! i = Some n -> nd_domain n = true ->
      ls_sd s' !! i = Some r -> (r <= 0)%R.
Proof. exact update_border_R. Qed.
Print Assumptions C21_border_stays_outside.

(** ** C22: masked nodes. *)
Theorem C22_masked_nodes_frozen_between_reinitialisations_partial :
  (* missing: that reinitialisation keeps the sign of masked nodes (see C14) *)
  forall (T : Type) (NT : Num T) (NI : NumInt T) (W H : nat) (s s' : LevelSet T), reached W H s ->
    rtc quiet_call s s' -> forall i, masked s i -> masked s' i /\ ls_sd s' !! i = ls_sd s !! i.
Proof. exact @masked_frozen. Qed.
Print Assumptions C22_masked_nodes_frozen_between_reinitialisations_partial.

Theorem C22_masks_are_permanent_partial :
  forall (T : Type) (NT : Num T) (NI : NumInt T) (W H : nat) (s s' : LevelSet T), reached W H s ->
    rtc call s s' -> forall i, masked s i -> masked s' i /\ i ∉ band_list s' /\ ~ active s' i.
Proof. exact @masked_for_ever. Qed.
Print Assumptions C22_masks_are_permanent_partial.

(** Reinitialisation keeps masked nodes outside if its result has no jump (compare C14). *)
Theorem C22_reinitialised_masks_stay_outside_partial :
  (* missing: results with jumps; see C22_masked_node_joins_structure_refuted *)
  forall (W H : nat) (s s' : LevelSet R), reached W H s -> reinitialise s = Ok s' ->
    (forall i c, ls_sd s !! i = Some c -> 0 < c -> nepsilon < c)%R ->
    (forall i k a b, adjacent W H i k -> ls_sd s' !! i = Some a -> ls_sd s' !! k = Some b -> Rabs b <= Rabs a + 1)%R ->
    forall i d, masked s i -> ls_sd s !! i = Some d -> (d < 0)%R ->
      masked s' i /\ exists d', ls_sd s' !! i = Some d' /\ (d' < 0)%R.
Proof. exact masks_stay_outside. Qed.
Print Assumptions C22_reinitialised_masks_stay_outside_partial.
(** A line at x = 5/2 on a 3 x 2 mesh with the node at the origin masked. *)
Example C22_line_meets : exists s s' : LevelSet R, reached 3 2 s /\ reinitialise s = Ok s' /\
  (forall i c, ls_sd s !! i = Some c -> 0 < c -> nepsilon < c)%R /\
  (forall i k a b, adjacent 3 2 i k -> ls_sd s' !! i = Some a -> ls_sd s' !! k = Some b -> Rabs b <= Rabs a + 1)%R /\
  masked s 0 /\ ls_sd s !! 0 = Some (INR 0 - 5 / 2)%R.
Proof.
  destruct line32_case as (s & s' & H1 & H2 & E & E' & H3). exists s, s'. rewrite E, E'.
  split; [exact H1|]. split; [exact H2|]. split; [exact line32_margin|]. split; [exact line32_no_jump|]. split; [exact H3|reflexivity].
Qed.

(** ** C23: the initial field. *)
Theorem C23_initial_field_is_nearest_feature :
  forall (W H bw : nat) (holes : list (Hole R)) (ml : R) (fx : bool), fits_ls W H bw -> valid_params ml bw ->
    exists s, ls_new_holes W H holes ml bw fx = Ok s /\
      forall x y, x <= W -> y <= H -> exists d, ls_sd s !! node_id W x y = Some d /\
        (d <= border_dist W H x y)%R /\ (forall h, h ∈ holes -> (d <= hole_dist h x y)%R) /\
        (d = border_dist W H x y \/ exists h, h ∈ holes /\ d = hole_dist h x y) /\
        ((d < 0)%R <-> exists h, h ∈ holes /\ (euclid (h_coord h) (mkCoord (INR x) (INR y)) < h_r h)%R).
Proof. intros W H bw holes ml fx. exact (new_holes_R W H holes ml bw fx). Qed.
Print Assumptions C23_initial_field_is_nearest_feature.

Theorem C23_order_and_repetition_of_holes_irrelevant :
  forall (W H bw : nat) (holes holes' : list (Hole R)) (ml : R) (fx : bool), fits_ls W H bw ->
    (forall h, h ∈ holes <-> h ∈ holes') ->
    ls_new_holes W H holes ml bw fx = ls_new_holes W H holes' ml bw fx.
Proof. intros W H bw holes holes' ml fx. exact (new_holes_perm W H holes holes' ml bw fx). Qed.
Print Assumptions C23_order_and_repetition_of_holes_irrelevant.

(** ** C24: masks as sets. *)
Theorem C24_mask_circles :
  forall (T : Type) (NT : Num T) (NI : NumInt T) (W H : nat) (s s' : LevelSet T) (holes : list (Hole T)), reached W H s ->
    mask_holes s holes = Ok s' ->
    exists s1, masked_field s (in_circles s holes) s1 /\ reinitialise s1 = Ok s' /\ band_ok s' /\
      (forall i, masked s' i <-> masked s i \/ in_circles s holes i).
Proof. intros T NT NI W H s s' holes. exact (mask_holes_full W H s holes s'). Qed.
Print Assumptions C24_mask_circles.

Theorem C24_mask_rectangle :
  forall (T : Type) (NT : Num T) (NI : NumInt T) (W H : nat) (s s' : LevelSet T) (a b : Coord T), reached W H s ->
    mask_points s [a; b] = Ok s' ->
    exists s1, masked_field s (in_rectangle s a b) s1 /\ reinitialise s1 = Ok s' /\ band_ok s' /\
      (forall i, masked s' i <-> masked s i \/ in_rectangle s a b i).
Proof. intros T NT NI W H s s' a b. exact (mask_rect_full W H s a b s'). Qed.
Print Assumptions C24_mask_rectangle.

(** Only the set of circles matters: neither order nor repetition. *)
Theorem C24_mask_is_set_like :
  forall (T : Type) (NT : Num T) (NI : NumInt T) (W H : nat) (s : LevelSet T) (holes holes' : list (Hole T)), reached W H s ->
    (forall h, h ∈ holes <-> h ∈ holes') -> mask_holes s holes = mask_holes s holes'.
Proof. exact @mask_set_like. Qed.
Print Assumptions C24_mask_is_set_like.

(** ** C25: gradients. *)
Theorem C25_gradients_safe_zero_outside_nonneg_inside :
  forall (T : Type) (NT : Num T) (NI : NumInt T) (NS : NumSgn T) (W H : nat) (s : LevelSet T), reached W H s ->
    4 <= W -> 4 <= H ->
    exists g, computeGradients s = Ok (set_grad g s) /\ length g = node_count W H /\
      (forall i, i < node_count W H -> i ∉ band_list s -> g !! i = Some n0) /\
      (forall i, i ∈ band_list s -> exists r, g !! i = Some r /\ (r <? n0)%num = false).
Proof. exact @gradients_reached. Qed.
Print Assumptions C25_gradients_safe_zero_outside_nonneg_inside.

(** The value is the Godunov/WENO upwind gradient, with differences repeated at the border. *)
Theorem C25_gradient_values :
  forall (T : Type) (NT : Num T) (NI : NumInt T) (W H : nat) (s : LevelSet T), reached W H s -> 4 <= W -> 4 <= H ->
    exists g, computeGradients s = Ok (set_grad g s) /\
      forall x y v, x <= W -> y <= H -> node_id W x y ∈ band_list s -> ls_vel s !! node_id W x y = Some v ->
        exists r, g !! node_id W x y = Some r /\ gradient_spec (field W (ls_sd s)) W H x y v r.
Proof. exact @gradients_values_reached. Qed.
Print Assumptions C25_gradient_values.

(** ** C26: affine fields. *)
Theorem C26_affine_gradient_exact :
  forall (W H : nat) (s : LevelSet R) (a b c : R), reached W H s -> 4 <= W -> 4 <= H ->
    (forall x y, x <= W -> y <= H -> ls_sd s !! node_id W x y = Some (affine a b c x y)) ->
    exists g, computeGradients s = Ok (set_grad g s) /\
      forall x y, x <= W -> y <= H ->
        (node_id W x y ∉ band_list s -> g !! node_id W x y = Some 0%R) /\
        (node_id W x y ∈ band_list s ->
         (0 < x < W) \/ (0 < y < H) \/ (/ 1000000 <= Rabs a)%R \/ (/ 1000000 <= Rabs b)%R ->
         g !! node_id W x y = Some (R_sqrt.sqrt (a * a + b * b))).
Proof. exact affine_reached. Qed.
Print Assumptions C26_affine_gradient_exact.

(** ** C27: HJ-WENO. *)
Theorem C27_weno_is_convex_combination :
  forall v1 v2 v3 v4 v5 : R, exists w1 w2 w3, (0 < w1)%R /\ (0 < w2)%R /\ (0 < w3)%R /\ (w1 + w2 + w3 = 1)%R /\
    gradHJWENO v1 v2 v3 v4 v5 = (w1 * eno1 v1 v2 v3 + w2 * eno2 v2 v3 v4 + w3 * eno3 v3 v4 v5)%R.
Proof. exact weno_convex. Qed.
Print Assumptions C27_weno_is_convex_combination.
Theorem C27_weno_within_candidates :
  forall v1 v2 v3 v4 v5 lo hi : R, (lo <= eno1 v1 v2 v3 <= hi)%R -> (lo <= eno2 v2 v3 v4 <= hi)%R ->
    (lo <= eno3 v3 v4 v5 <= hi)%R -> (lo <= gradHJWENO v1 v2 v3 v4 v5 <= hi)%R.
Proof. exact weno_range. Qed.
Print Assumptions C27_weno_within_candidates.
Theorem C27_weno_exact_on_constant_and_linear :
  (forall v : R, gradHJWENO v v v v v = v) /\
  (forall a b : R, (gradHJWENO (a + b) (a + 2 * b) (a + 3 * b) (a + 4 * b) (a + 5 * b) = a + 7 / 2 * b)%R).
Proof. exact (conj weno_const weno_linear). Qed.
Print Assumptions C27_weno_exact_on_constant_and_linear.

(** ** C29: distance to a segment (at least a thousandth long, or a single point). *)
Theorem C29_distance_to_segment :
  forall v1 v2 p : Coord R, (/ 1000000 <= euclid2 v2 v1)%R \/ v1 = v2 ->
    (exists q, on_segment v1 v2 q /\ pointToLineDistance v1 v2 p = euclid p q) /\
    (forall q, on_segment v1 v2 q -> (pointToLineDistance v1 v2 p <= euclid p q)%R).
Proof. exact ptl_exact. Qed.
Print Assumptions C29_distance_to_segment.
(** Shorter segments are treated as their first end point; the error is below a thousandth. *)
Theorem C29_short_segments_within_a_thousandth :
  forall v1 v2 p : Coord R, (euclid2 v2 v1 < / 1000000)%R ->
    pointToLineDistance v1 v2 p = euclid p v1 /\ on_segment v1 v2 v1 /\
    (forall q, on_segment v1 v2 q -> (pointToLineDistance v1 v2 p <= euclid p q + / 1000)%R).
Proof. exact ptl_short. Qed.
Print Assumptions C29_short_segments_within_a_thousandth.

(** ** C49: no call in any history misuses memory. *)
Theorem C49_every_history_is_safe :
  forall (T : Type) (NT : Num T) (NI : NumInt T) (W H : nat) (s : LevelSet T), reached W H s ->
    (reinitialise s = Exit \/ exists s', reinitialise s = Ok s') /\
    (forall dt, update s dt = Exit \/ exists s' b, update s dt = Ok (s', b)) /\
    (forall holes, mask_holes s holes = Exit \/ exists s', mask_holes s holes = Ok s') /\
    (forall a b, mask_points s [a; b] = Exit \/ exists s', mask_points s [a; b] = Ok s') /\
    (forall points, (forall p, p ∈ points -> located W H (ls_mesh s) p) ->
       computeVelocities s points = Exit \/ exists s', computeVelocities s points = Ok s') /\
    (4 <= W -> 4 <= H -> exists s', computeGradients s = Ok s').
Proof. exact @all_safe. Qed.
Print Assumptions C49_every_history_is_safe.

(** ** Concrete cases: the hypotheses are met. *)
Definition disc12 : outcome (LevelSet f64) :=
  ls_new_holes 12 12 [mkHole (mkCoord (f 6 1) (f 6 1)) (f 1 2)] (f 1 2) 3 false.
Example disc12_reached : exists s, disc12 = Ok s /\ reached 12 12 s.
Proof.
  destruct (C18_valid_parameters_accepted f64 _ _ 12 12 3 (f 1 2) false [mkHole (mkCoord (f 6 1) (f 6 1)) (f 1 2)]) as (s & E & _).
  - unfold fits_ls, node_count. lia.
  - unfold valid_params. split; [lia|]. split; vm_compute; reflexivity.
  - exists s. split; [exact E|]. exists (f 1 2), 3, false, s. split; [unfold fits_ls, node_count; lia|].
    split; [exact (new_by_holes _ _ _ _ _ _ _ E)|apply rtc_refl].
Qed.
Example disc12_band_and_mines :
  (let! s := disc12 in Ok (length (band_list s), mine_list s)) = Ok (157, [44; 45; 46; 56; 60; 68; 74; 81; 87; 94; 100; 108; 112; 122; 123; 124]).
Proof. vm_compute. reflexivity. Qed.
(** Velocity and gradient 1: a step of 0.3 leaves the mines alone, a step of 1.5 does not. *)
Definition step (dt : f64) : outcome (LevelSet f64 * bool) :=
  let! s := disc12 in update (set_vel (replicate 169 (f 1 1)) (set_grad (replicate 169 (f 1 1)) s)) dt.
Example update_both_ways :
  (let! (s, b) := step (f 3 10) in Ok (b, length (band_list s))) = Ok (false, 157) /\
  (let! (s, b) := step (f 3 2) in Ok b) = Ok true.
Proof. split; vm_compute; reflexivity. Qed.
Example masking_removes_from_band :
  (let! s := disc12 in let! s := mask_holes s [mkHole (mkCoord (f 6 1) (f 6 1)) (f 3 2)] in
   Ok (filter (fun i => i ∉ band_list s) (seq 0 169), mine_list s)) = Ok ([70; 71; 72; 83; 84; 85; 96; 97; 98],
    [42; 43; 47; 48; 55; 61; 107; 113; 120; 121; 125; 126]).
Proof. vm_compute. reflexivity. Qed.
Example gradients_run :
  (let! s := disc12 in let! a := computeGradient (ls_mesh s) (ls_sd s) (ls_vel s) 86 in
   let! b := computeGradient (ls_mesh s) (ls_sd s) (ls_vel s) 1 in
   Ok (n0 <? a, a <? f 2 1, b <? n0)%num) = Ok (true, true, false).
Proof. vm_compute. reflexivity. Qed.

(** ** What does not hold. *)

(** C20: the flag isMine of a node is never reset: node 87 was a mine and still carries the flag
    although the band has moved away from it. *)
Definition line12 : list f64 := map (fun i => (nofnat (i mod 13) - f 2 1)%num) (seq 0 169).
Theorem C20_flag_isMine_outdated_refuted :
  (let! s := disc12 in let! s := reinitialise (set_sd line12 s) in
   let! n := vget (m_nodes (ls_mesh s)) 87 in Ok (nd_mine n, nd_active n, bool_decide (87 ∈ mine_list s))) = Ok (true, false, false).
Proof. vm_compute. reflexivity. Qed.
Print Assumptions C20_flag_isMine_outdated_refuted.

(** C22: a masked node that is outside by more than ten units ends up inside after reinitialise(),
    with only velocities and gradients written by the caller in between ([outer_wedge]: SignCases.v). *)
Definition move (s : LevelSet f64) (target : list f64) : outcome (LevelSet f64 * bool) :=
  update (set_vel (zip_with nsub (ls_sd s) target) (set_grad (replicate 255 (f 1 1)) s)) (f 1 1).
Definition line16 : list f64 := map (fun i => (nofnat (i mod 17) - f 16 1)%num) (seq 0 255).
Theorem C22_masked_node_joins_structure_refuted :
  (let! s := ls_new_holes 16 14 [] (f 1 2) 20 false in
   let! (s, b1) := move s line16 in
   let! s := mask_holes s [mkHole (mkCoord (f 5 1) (f 7 1)) (f 1 2)] in
   let! n := vget (m_nodes (ls_mesh s)) outer_tip in
   let! a := vget (ls_sd s) outer_tip in
   let! (s, b2) := move s outer_wedge in
   let! b := vget (ls_sd s) outer_tip in
   let! s := reinitialise s in
   let! c := vget (ls_sd s) outer_tip in
   Ok (b1, b2, nd_masked n, a <? f (-10) 1, b =? a, c >? f 2 5)%num) = Ok (false, false, true, true, true, true).
Proof. vm_compute. reflexivity. Qed.
Print Assumptions C22_masked_node_joins_structure_refuted.

(** C25: with three elements in one direction the stencils read outside the mesh. *)
Theorem C25_small_meshes_refuted :
  (let! s := ls_new_holes 4 3 [mkHole (mkCoord (f 1 1) (f 1 1)) (f 1 1)] (f 1 2) 3 false in
   let! s := computeGradients s in Ok tt) = UB /\
  (let! s := ls_new_holes 3 4 [mkHole (mkCoord (f 1 1) (f 1 1)) (f 1 1)] (f 1 2) 3 false in
   let! s := computeGradients s in Ok tt) = UB.
Proof. split; vm_compute; reflexivity. Qed.
Print Assumptions C25_small_meshes_refuted.

(** C24: polygons: the test truncates the cross product to an integer, so a triangle around node
    (4, 4) does not contain it; the triangle enlarged tenfold about that node does. *)
Definition triangle (k : Z) : list (Coord f64) :=
  [mkCoord (f (8 - k) 2) (f (8 - k) 2); mkCoord (f (8 + k) 2) (f (8 - k) 2); mkCoord (f 4 1) (f (8 + k) 2);
   mkCoord (f (8 - k) 2) (f (8 - k) 2)].
Theorem C24_small_polygons_refuted :
  isInsidePolygon (mkCoord (f 4 1) (f 4 1)) (triangle 1) = Ok false /\
  isInsidePolygon (mkCoord (f 4 1) (f 4 1)) (triangle 10) = Ok true.
Proof. split; vm_compute; reflexivity. Qed.
Print Assumptions C24_small_polygons_refuted.

(** C49: an empty list of points is not detected. *)
Theorem C49_empty_point_list_refuted : (let! s := disc12 in let! s := mask_points s [] in Ok tt) = UB.
Proof. vm_compute. reflexivity. Qed.
Print Assumptions C49_empty_point_list_refuted.
