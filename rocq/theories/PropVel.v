(** * PropVel: transfer of boundary point velocities to the mesh (C30). *)

From Coq Require Import Reals.
From Verif Require Import Base Num NumR NumF64 MeshModel MeshSpec FmmModel FmmSpec LevelSetModel LevelSetSpec LevelSetCalls LevelSetSpecR LevelSetVelR PropLevelSet.
Local Open Scope R_scope.

(** C30: the velocity of a node of the narrow band which is next to the zero contour: the weighted
    average of the velocities of the boundary points around it; the velocity of the last boundary point
    which coincides with it, if there is one; and always between the smallest and the largest. *)
Theorem C30_velocities_next_to_boundary W H (s s' : LevelSet R) points : reached W H s ->
  (forall p, p ∈ points -> in_domain W H p) -> computeVelocities s points = Ok s' ->
  forall i v, i ∈ band_list s -> on_front W H (ls_sd s) i -> ls_vel s' !! i = Some v ->
  ((forall p, p ∈ points -> touches W H (ls_mesh s) p i -> / 1000000 <= gap W p i) ->
     weighted_average W H (ls_mesh s) points i v) /\
  (forall l1 p l2, points = l1 ++ p :: l2 -> touches W H (ls_mesh s) p i -> gap W p i < / 1000000 ->
     (forall q, q ∈ l2 -> touches W H (ls_mesh s) q i -> / 1000000 <= gap W q i) -> v = bp_velocity p) /\
  (forall lo hi, (exists p, p ∈ points /\ touches W H (ls_mesh s) p i) ->
     (forall p, p ∈ points -> touches W H (ls_mesh s) p i -> lo <= bp_velocity p <= hi) -> lo <= v <= hi).
Proof. intros Hr Hp Hc. exact (front_velocities W H s s' points Hr Hp Hc). Qed.
Print Assumptions C30_velocities_next_to_boundary.

(** C30: the whole narrow band: no velocity leaves the range of the boundary point velocities (and zero),
    provided the narrow band covers the zero contour. *)
Theorem C30_velocities_in_range W H (s s' : LevelSet R) points lo hi : reached W H s ->
  (forall p, p ∈ points -> in_domain W H p) -> computeVelocities s points = Ok s' ->
  lo <= 0 <= hi -> (forall p, p ∈ points -> lo <= bp_velocity p <= hi) ->
  (forall i, on_front W H (ls_sd s) i -> i ∈ band_list s) ->
  forall i v, i ∈ band_list s -> ls_vel s' !! i = Some v -> lo <= v <= hi.
Proof. intros Hr Hp Hc. exact (band_velocities_range W H s s' points Hr Hp Hc lo hi). Qed.
Print Assumptions C30_velocities_in_range.

(** ** A concrete case. *)
Local Close Scope R_scope.
Definition point_with (x y v : f64) : BoundaryPoint f64 :=
  mkBP (mkCoord x y) (mkCoord n0 n0) n0 v n0 n0 false false 0 [] 0 [] [].
Definition disc8 : outcome (LevelSet f64) := ls_new_holes 8 8 [mkHole (mkCoord (f 4 1) (f 4 1)) (f 22 10)] (f 1 2) 4 false.
Definition above (l : list f64) : list nat :=
  List.map fst (List.filter (fun p => (f 101 100 <? snd p)%num) (combine (seq 0 (length l)) l)).

(** Two points next to node 38 = (2, 4), which is on the front and in the band: velocities 1/2 and 1 at
    distances 1/2 and 1/4 average to 0.9; a point at the node itself decides alone. *)
Example average_of_two :
  (let! s := disc8 in
   let! s1 := computeVelocities s [point_with (f 2 1) (f 7 2) (f 1 2); point_with (f 9 4) (f 4 1) (f 1 1)] in
   let! s2 := computeVelocities s [point_with (f 2 1) (f 4 1) (f 1 2); point_with (f 9 4) (f 4 1) (f 1 1)] in
   let! a := vget (ls_vel s1) 38 in let! b := vget (ls_vel s2) 38 in
   Ok (bool_decide (38 ∈ band_list s), (f 899 1000 <? a)%num, (a <? f 901 1000)%num, (b =? f 1 2)%num))
  = Ok (true, true, true, true).
Proof. vm_compute. reflexivity. Qed.

(** ** What does not hold. *)

(** C30 without the proviso: node 38 is masked, hence not in the band, but next to the boundary. Its sum
    of weighted velocities (25 for one point of velocity 1 at distance 0.2) is not divided by the sum of
    the weights, and it is extended to the nodes 39 and 40 of the band. *)
Theorem C30_masked_front_refuted :
  (let! s := disc8 in let! s := mask_holes s [mkHole (mkCoord (f 2 1) (f 4 1)) (f 1 5)] in
   let! s' := computeVelocities s [point_with (f 18 10) (f 4 1) (f 1 1)] in
   Ok (above (ls_vel s'), List.filter (fun i => bool_decide (i ∈ band_list s)) (above (ls_vel s')))) = Ok ([38; 39; 40], [39; 40]).
Proof. vm_compute. reflexivity. Qed.
Print Assumptions C30_masked_front_refuted.
