(** * PropFmm: properties C12-C17 (src/FastMarchingMethod.cpp).

    [topo W H m] (MeshTopo.v): [m] has the geometry and connectivity of a freshly built W x H mesh;
    its flags are arbitrary, which is what the level set code changes between calls.
    [on_contour], [on_front], [contour_distance], ... : FmmSpec.v. *)

From Verif Require Import MeshSpec MeshProofs MeshTopo FmmModel FmmSpec FmmProofs FmmFacts FmmReal FmmAxis FmmSign SignCases LevelSetSign NumR NumF64.
From Flocq Require Import IEEE754.BinarySingleNaN.
Local Open Scope nat_scope.

(** Every mesh the constructor builds has this shape. *)
Theorem C12_built_meshes_qualify :
  forall (T : Type) (NT : Num T) (W H : nat) (m : Mesh T), mesh_fits W H -> mesh_new W H = Ok m -> topo W H m.
Proof. intros T NT W H m. exact (topo_new W H m). Qed.
Print Assumptions C12_built_meshes_qualify.

(** C12. Any arithmetic, any values (NaN and infinities included): no out-of-bounds access, no
    divergence; either the documented error, exactly when there is no front, or every node final. *)
Theorem C12_march_safe_and_total :
  forall (T : Type) (NT : Num T) (W H : nat) (m : Mesh T) (sd : list T),
    topo W H m -> length sd = node_count W H ->
    (fmm_march m (fmm_new m false) sd = Exit <-> (forall i, i < node_count W H -> ~ on_front W H sd i)) /\
    ((exists i, i < node_count W H /\ on_front W H sd i) ->
       exists o' sd', fmm_march m (fmm_new m false) sd = Ok (o', sd') /\
         length sd' = length sd /\ fo_status o' = replicate (node_count W H) F_FROZEN).
Proof. intros T NT W H m sd. exact (march_total W H m false sd (fun E => False_ind _ (diff_false_true E))). Qed.
Print Assumptions C12_march_safe_and_total.

(** The self-testing mode never fails when the values are totally ordered (over the reals, say). *)
Theorem C12_self_test_passes :
  forall (W H : nat) (m : Mesh R) (sd : list R),
    topo W H m -> length sd = node_count W H -> (exists i, i < node_count W H /\ on_front W H sd i) ->
    exists o' sd', fmm_march m (fmm_new m true) sd = Ok (o', sd') /\ length sd' = length sd.
Proof. intros W H m sd Ht Hl Hx. destruct (march_total W H m true sd (fun _ => NumOrdR) Ht Hl) as [_ F].
  destruct (F Hx) as (o' & sd' & E & L & _). exact (ex_intro _ o' (ex_intro _ sd' (conj E L))). Qed.
Print Assumptions C12_self_test_passes.

(** The claim does not extend to using one object twice: the second march of the same field exits,
    because the node states of the first are still there. *)
Definition f (p q : Z) : f64 := nlit p q.
Definition tiny21 : list f64 := let row := [f (-3) 1; f 1 1; f 1 (2 ^ 60)] in row ++ row.
Definition two_corners : list f64 := <[0 := f 1 1]> (<[24 := f 1 1]> (replicate 25 (f (-1) 1))).
Theorem C12_second_march_on_same_object_refuted :
  (let! m := mesh_new 4 4 in
   let! (o, sd) := fmm_march m (fmm_new m false) two_corners in
   let! (o2, sd2) := fmm_march m o sd in Ok (length sd2)) = Exit.
Proof. vm_compute. reflexivity. Qed.
Print Assumptions C12_second_march_on_same_object_refuted.

(** C13. Contour nodes keep their value, in any arithmetic. *)
Theorem C13_contour_nodes_unchanged :
  forall (T : Type) (NT : Num T) (W H : nat) (m : Mesh T) (sd sd' : list T) o',
    topo W H m -> length sd = node_count W H -> fmm_march m (fmm_new m false) sd = Ok (o', sd') ->
    forall i, on_contour sd i -> sd' !! i = sd !! i.
Proof. intros T NT W H m sd sd' o' Ht Hl. exact (march_contour W H m Ht sd o' sd' Hl). Qed.
Print Assumptions C13_contour_nodes_unchanged.

(** Exact arithmetic: nodes next to the contour get the distance to the interpolated contour. *)
Theorem C13_front_nodes_get_contour_distance :
  forall (W H : nat) (m : Mesh R) (sd sd' : list R) o',
    topo W H m -> length sd = node_count W H -> fmm_march m (fmm_new m false) sd = Ok (o', sd') ->
    forall i c, sd !! i = Some c -> on_front W H sd i ->
      exists c', sd' !! i = Some c' /\ same_side c c' /\ (Rabs c' < 1)%R /\
        ((c = 0)%R \/ contour_distance W H sd i (Rabs c')).
Proof. intros W H m sd sd' o'. exact (march_front_R W H m false sd o' sd'). Qed.
Print Assumptions C13_front_nodes_get_contour_distance.

(** C14. Exact arithmetic.  Missing: fields for which the result has a jump; see the next theorem.
    Every node is still on its side of the contour, provided that the magnitudes of adjacent nodes of
    the result differ by at most one unit, as they do for a distance.  In other words, a sign can only
    be lost if the result is visibly not a distance. *)
Theorem C14_signs_kept_if_result_has_no_jump_partial :
  forall (W H : nat) (m : Mesh R) (t : bool) (sd sd' : list R) o',
    topo W H m -> length sd = node_count W H -> fmm_march m (fmm_new m t) sd = Ok (o', sd') ->
    (forall i c, sd !! i = Some c -> 0 < c -> nepsilon < c)%R ->
    (forall i k a b, adjacent W H i k -> sd' !! i = Some a -> sd' !! k = Some b -> Rabs b <= Rabs a + 1)%R ->
    forall i c c', sd !! i = Some c -> sd' !! i = Some c' -> same_side c c'.
Proof. intros W H m t sd sd' o' Ht Hl Hm Hp. exact (march_sign W H m Ht sd Hl Hp t o' sd' Hm). Qed.
Print Assumptions C14_signs_kept_if_result_has_no_jump_partial.

(** Without that proviso the claim is false: node (5, 6) goes in with 64 and comes out below -0.4,
    although all values are 0 or at least 1/256 in magnitude. *)
Theorem C14_sign_flip_refuted :
  (let! m := mesh_new 6 12 in let! (o, sd) := fmm_march m (fmm_new m false) wedge in
   let! a := vget wedge wedge_tip in let! b := vget sd wedge_tip in
   Ok ((length wedge =? node_count 6 12)%nat,
       forallb (fun c => (c =? n0) || (c <=? - f 1 256) || (c >=? f 1 256)) wedge,
       a =? f 64 1, b <? - f 2 5)%num) = Ok (true, true, true, true).
Proof. vm_compute. reflexivity. Qed.
Print Assumptions C14_sign_flip_refuted.

(** Nor can the assumption on small values be dropped: a positive value of at most machine epsilon is treated as outside.  On a 2 x 1 mesh with the rows -3, 1, 2^-60
    the right column comes out below -0.7. *)
Theorem C14_tiny_value_refuted :
  (let! m := mesh_new 2 1 in let! (o, sd) := fmm_march m (fmm_new m false) tiny21 in
   let! a := vget tiny21 2 in let! b := vget sd 2 in Ok (a >? n0, b <? - f 7 10)%num) = Ok (true, true).
Proof. vm_compute. reflexivity. Qed.
Print Assumptions C14_tiny_value_refuted.

(** C15. Any arithmetic: the level set comes back as passed; velocities of front nodes and of
    inactive nodes are as passed; no out-of-bounds access and no divergence. *)
Theorem C15_velocity_extension_frame :
  forall (T : Type) (NT : Num T) (W H : nat) (m : Mesh T) (t : bool) (sd vel : list T),
    topo W H m -> length sd = node_count W H -> length vel = node_count W H ->
    fmm_march_vel m (fmm_new m t) sd vel = Exit \/
    exists o' vel', fmm_march_vel m (fmm_new m t) sd vel = Ok (o', sd, vel') /\ length vel' = length vel /\
      forall i, (on_front W H sd i \/ exists n, m_nodes m !! i = Some n /\ nd_active n = false) ->
        vel' !! i = vel !! i.
Proof. intros T NT W H m t sd vel. exact (march_vel_frame W H m t sd vel). Qed.
Print Assumptions C15_velocity_extension_frame.

(** C16. Exact arithmetic: every velocity the extension changes, and every velocity at a node
    connected to the front through active nodes, is within the range of the front velocities. *)
Theorem C16_extended_velocities_in_range :
  forall (W H : nat) (m : Mesh R) (t : bool) (sd vel sd' vel' : list R) o' (lo hi : R),
    topo W H m -> length sd = node_count W H -> length vel = node_count W H ->
    fmm_march_vel m (fmm_new m t) sd vel = Ok (o', sd', vel') ->
    (forall i v, on_front W H sd i -> vel !! i = Some v -> lo <= v <= hi)%R ->
    forall i v, vel' !! i = Some v ->
      (vel' !! i <> vel !! i \/
       reachable W H (fun k => exists n, m_nodes m !! k = Some n /\ nd_active n = true) sd i) ->
      (lo <= v <= hi)%R.
Proof. intros W H m t sd vel sd' vel' o' lo hi. exact (march_vel_range W H m t sd vel o' sd' vel' lo hi). Qed.
Print Assumptions C16_extended_velocities_in_range.

(** C17. Exact arithmetic: a field that is the signed distance to a vertical or horizontal line
    meeting the mesh, either side inside, comes back unchanged. *)
Theorem C17_vertical_line_exact :
  forall (W H : nat) (m : Mesh R) (side p : R) (sd : list R),
    topo W H m -> (side = 1 \/ side = -1)%R -> (0 <= p <= INR W)%R -> length sd = node_count W H ->
    (forall x y, x <= W -> y <= H -> sd !! node_id W x y = Some (side * (INR x - p))%R) ->
    exists o', fmm_march m (fmm_new m false) sd = Ok (o', sd).
Proof. intros W H m side p sd. exact (march_axis_x W H m side p sd). Qed.
Print Assumptions C17_vertical_line_exact.
Theorem C17_horizontal_line_exact :
  forall (W H : nat) (m : Mesh R) (side p : R) (sd : list R),
    topo W H m -> (side = 1 \/ side = -1)%R -> (0 <= p <= INR H)%R -> length sd = node_count W H ->
    (forall x y, x <= W -> y <= H -> sd !! node_id W x y = Some (side * (INR y - p))%R) ->
    exists o', fmm_march m (fmm_new m false) sd = Ok (o', sd).
Proof. intros W H m side p sd. exact (march_axis_y W H m side p sd). Qed.
Print Assumptions C17_horizontal_line_exact.

(** ** The hypotheses are met *)
(** A line at a third of a cell on a 3 x 2 mesh, for both theorems' hypotheses; any real position works. *)
Example vertical_line_meets :
  exists (m : Mesh R) (sd : list R), topo 3 2 m /\ length sd = node_count 3 2 /\
    forall x y, x <= 3 -> y <= 2 -> sd !! node_id 3 x y = Some (1 * (INR x - / 3))%R.
Proof.
  assert (Hf : mesh_fits 3 2) by (unfold mesh_fits, node_count; lia).
  exists (mesh_spec 3 2), ((fun i => 1 * (INR (i mod 4) - / 3))%R <$> seq 0 12).
  split; [apply topo_new; [exact Hf|]; apply mesh_new_eq; apply Hf|]. split; [reflexivity|].
  intros x y Hx Hy. destruct x as [|[|[|[|x]]]]; [| | | |lia]; (destruct y as [|[|[|y]]]; [| | |lia]); reflexivity.
Qed.
Example two_corners_meets : length two_corners = node_count 4 4 /\ on_front 4 4 two_corners 0.
Proof.
  split; [vm_compute; reflexivity|]. right. exists 1. split.
  - left. exists 0, 0, 1. unfold node_id. lia.
  - eexists _, _. split; [reflexivity|]. split; [reflexivity|]. vm_compute. reflexivity.
Qed.
(** The reference values of tests/fmm_tests.cpp (4 x 4, signs at two corners). *)
Example two_corners_runs :
  (let! m := mesh_new 4 4 in let! (o, sd) := fmm_march m (fmm_new m true) two_corners in
   let! a := vget sd 0 in let! b := vget sd 1 in let! c := vget sd 12 in
   Ok (forallb (fun s => match s with F_FROZEN => true | _ => false end) (fo_status o),
       (b <? n0)%num, (b =? f (-1) 2)%num, (a >? n0)%num, (c <? f (-2) 1)%num, (c >? f (-3) 1)%num))
  = Ok (true, true, true, true, true, true).
Proof. vm_compute. reflexivity. Qed.
Example velocity_extension_runs :
  (let! m := mesh_new 4 4 in
   let! (o, sd, vel) := fmm_march_vel m (fmm_new m true) two_corners (<[0 := f 3 1]> (replicate 25 (f 2 1))) in
   let! a := vget vel 0 in let! b := vget vel 12 in
   Ok ((a =? f 3 1)%num, (b >=? f 2 1)%num, (b <=? f 3 1)%num))
  = Ok (true, true, true).
Proof. vm_compute. reflexivity. Qed.
(** For C14: a line at x = 5/2 on a 3 x 2 mesh; its result has no jump. *)
Example C14_line_meets : exists (m : Mesh R) o', topo 3 2 m /\ length line32 = node_count 3 2 /\
  fmm_march m (fmm_new m false) line32 = Ok (o', line32) /\
  (forall i c, line32 !! i = Some c -> 0 < c -> nepsilon < c)%R /\
  (forall i k a b, adjacent 3 2 i k -> line32 !! i = Some a -> line32 !! k = Some b -> Rabs b <= Rabs a + 1)%R.
Proof.
  assert (Hf : mesh_fits 3 2) by (unfold mesh_fits, node_count; lia).
  assert (Ht : topo (T := R) 3 2 (mesh_spec 3 2)) by (apply topo_new; [exact Hf|]; apply mesh_new_eq; apply Hf).
  destruct (C17_vertical_line_exact 3 2 (mesh_spec 3 2) 1 (5 / 2) line32 Ht) as (o & E);
    [left; reflexivity|cbn; lra|reflexivity|exact line32_at|].
  exists (mesh_spec 3 2), o. split; [exact Ht|]. split; [reflexivity|]. split; [exact E|].
  split; [exact line32_margin|exact line32_no_jump].
Qed.
