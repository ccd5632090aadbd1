(** * PropMesh: properties C06-C11 (src/Mesh.cpp).

    [mesh_fits W H] (MeshSpec.v): W, H >= 1 and the node count fits an unsigned int.
    [node_at m x y i] (MeshGeom.v): xyToIndex[x][y] = i. *)

From Verif Require Import MeshModel MeshSpec MeshProofs MeshGeom NumR NumF64.
Local Open Scope nat_scope.

(** C06 *)
Theorem C06_mesh_construction_succeeds :
  forall (T : Type) (NT : Num T) (W H : nat), mesh_fits W H -> exists m : Mesh T, mesh_new W H = Ok m.
Proof. intros T NT W H Hf. exact (ex_intro _ _ (mesh_new_eq W H Hf)). Qed.
Print Assumptions C06_mesh_construction_succeeds.

Theorem C06_mesh_sizes :
  forall (T : Type) (NT : Num T) (W H : nat) (m : Mesh T), mesh_fits W H -> mesh_new W H = Ok m ->
    m_width m = W /\ m_height m = H /\
    m_nNodes m = (W + 1) * (H + 1) /\ length (m_nodes m) = (W + 1) * (H + 1) /\
    m_nElements m = W * H /\ length (m_elements m) = W * H.
Proof. intros T NT W H m. exact (mesh_counts W H m). Qed.
Print Assumptions C06_mesh_sizes.

Theorem C06_mesh_numbering_bijection :
  forall (T : Type) (NT : Num T) (W H : nat) (m : Mesh T), mesh_fits W H -> mesh_new W H = Ok m ->
    (forall x y, x <= W -> y <= H -> exists i n,
       node_at m x y i /\ m_nodes m !! i = Some n /\ nd_coord n = mkCoord (nofnat x) (nofnat y)) /\
    (forall i n, m_nodes m !! i = Some n -> exists x y,
       x <= W /\ y <= H /\ node_at m x y i /\ nd_coord n = mkCoord (nofnat x) (nofnat y) /\
       x = i mod (W + 1) /\ y = i / (W + 1)) /\
    (forall x y x' y' i, node_at m x y i -> node_at m x' y' i -> x = x' /\ y = y') /\
    (forall x y i i', node_at m x y i -> node_at m x y i' -> i = i').
Proof. intros T NT W H m. exact (mesh_nodes_bijection W H m). Qed.
Print Assumptions C06_mesh_numbering_bijection.

Theorem C06_element_centres :
  forall (T : Type) (NT : Num T) (W H : nat) (m : Mesh T), mesh_fits W H -> mesh_new W H = Ok m ->
    forall j, j < W * H -> exists e, m_elements m !! j = Some e /\
      j mod W < W /\ j / W < H /\
      e_coord e = mkCoord (nofnat (j mod W) + nlit 1 2)%num (nofnat (j / W) + nlit 1 2)%num.
Proof. intros T NT W H m. exact (mesh_elements_centres W H m). Qed.
Print Assumptions C06_element_centres.

(** C07 *)
Theorem C07_mesh_neighbours :
  forall (T : Type) (NT : Num T) (W H : nat) (m : Mesh T), mesh_fits W H -> mesh_new W H = Ok m ->
  forall x y i n, node_at m x y i -> m_nodes m !! i = Some n ->
    exists l r d u, nd_neigh n = [l; r; d; u] /\
      (if (x =? 0)%nat then l = m_nNodes m else node_at m (x - 1) y l) /\
      (if (x =? W)%nat then r = m_nNodes m else node_at m (x + 1) y r) /\
      (if (y =? 0)%nat then d = m_nNodes m else node_at m x (y - 1) d) /\
      (if (y =? H)%nat then u = m_nNodes m else node_at m x (y + 1) u).
Proof. intros T NT W H m Hf Hm. exact (mesh_neighbours W H m Hf Hm). Qed.
Print Assumptions C07_mesh_neighbours.

(** The marker is not the index of any node. *)
Theorem C07_marker_is_no_node :
  forall (T : Type) (NT : Num T) (W H : nat) (m : Mesh T), mesh_fits W H -> mesh_new W H = Ok m ->
    m_nodes m !! m_nNodes m = None.
Proof. intros T NT W H m. exact (mesh_out_of_bounds_marker W H m). Qed.
Print Assumptions C07_marker_is_no_node.

(** With width 0 (not rejected by the constructor) the marker is missing: a node is its own right
    neighbour. *)
Theorem C07_zero_width_refuted :
  (let! m := mesh_new (T := f64) 0 2 in let! n := vget (m_nodes m) 1 in vget (nd_neigh n) 1) = Ok 1.
Proof. vm_compute. reflexivity. Qed.
Print Assumptions C07_zero_width_refuted.

(** C08 *)
Theorem C08_element_corners :
  forall (T : Type) (NT : Num T) (W H : nat) (m : Mesh T), mesh_fits W H -> mesh_new W H = Ok m ->
  forall j e, m_elements m !! j = Some e ->
    let x := j mod W in let y := j / W in
    exists a b c d, e_nodes e = [a; b; c; d] /\
      node_at m x y a /\ node_at m (x + 1) y b /\ node_at m (x + 1) (y + 1) c /\ node_at m x (y + 1) d.
Proof. intros T NT W H m Hf Hm. exact (mesh_corners W H m Hf Hm). Qed.
Print Assumptions C08_element_corners.

Theorem C08_incidence_agrees :
  forall (T : Type) (NT : Num T) (W H : nat) (m : Mesh T), mesh_fits W H -> mesh_new W H = Ok m ->
  forall i n, m_nodes m !! i = Some n ->
    nd_nElems n <= 4 /\ length (nd_elems n) = 4 /\
    NoDup (take (nd_nElems n) (nd_elems n)) /\
    (nd_nElems n = 1 \/ nd_nElems n = 2 \/ nd_nElems n = 4) /\
    forall j, In j (take (nd_nElems n) (nd_elems n)) <->
      exists e, m_elements m !! j = Some e /\ In i (e_nodes e).
Proof. intros T NT W H m Hf Hm. exact (mesh_incidence W H m Hf Hm). Qed.
Print Assumptions C08_incidence_agrees.

(** C09 *)
Theorem C09_domain_flag :
  forall (T : Type) (NT : Num T) (W H : nat) (m : Mesh T), mesh_fits W H -> mesh_new W H = Ok m ->
  forall x y i n, node_at m x y i -> m_nodes m !! i = Some n ->
    nd_domain n = true <-> x = 0 \/ x = W \/ y = 0 \/ y = H.
Proof. intros T NT W H m Hf Hm. exact (mesh_domain_flag W H m Hf Hm). Qed.
Print Assumptions C09_domain_flag.

Theorem C09_fresh_flags :
  forall (T : Type) (NT : Num T) (W H : nat) (m : Mesh T), mesh_fits W H -> mesh_new W H = Ok m ->
  forall i n, m_nodes m !! i = Some n ->
    nd_active n = false /\ nd_masked n = false /\ nd_mine n = false /\ nd_nBpts n = 0 /\
    length (nd_bpts n) = 4 /\ nd_status n = None.
Proof. intros T NT W H m Hf Hm. exact (mesh_fresh_flags W H m Hf Hm). Qed.
Print Assumptions C09_fresh_flags.

(** C10, exact arithmetic. *)
Theorem C10_getElement_contains_point :
  forall (W H : nat) (m : Mesh R), mesh_fits W H -> mesh_new W H = Ok m ->
  forall x y : R, (0 <= x <= INR W)%R -> (0 <= y <= INR H)%R ->
    exists j e, getElement m x y = Ok j /\ m_elements m !! j = Some e /\
      (cx (e_coord e) - 1 / 2 <= x < cx (e_coord e) + 1 / 2 + 1 / 1000000)%R /\
      (cy (e_coord e) - 1 / 2 <= y < cy (e_coord e) + 1 / 2 + 1 / 1000000)%R.
Proof. intros W H m Hf Hm. exact (getElement_contains W H m Hf Hm). Qed.
Print Assumptions C10_getElement_contains_point.

(** C11, exact arithmetic; also holds left of and below the domain. *)
Theorem C11_getClosestNode_nearest :
  forall (W H : nat) (m : Mesh R), mesh_fits W H -> mesh_new W H = Ok m ->
  forall x y : R, (x <= INR W)%R -> (y <= INR H)%R ->
    exists i n, getClosestNode m x y = Ok i /\ m_nodes m !! i = Some n /\
      forall i' n', m_nodes m !! i' = Some n' ->
        (dist2 (mkCoord x y) (nd_coord n) <= dist2 (mkCoord x y) (nd_coord n'))%R.
Proof. intros W H m Hf Hm. exact (getClosestNode_nearest W H m Hf Hm). Qed.
Print Assumptions C11_getClosestNode_nearest.

(** Right of the domain: a node of another row, or a read out of bounds. *)
Theorem C11_beyond_width_refuted :
  (* node 5 is (1, 1); the nearest one is node 3 *)
  (let! m := mesh_new (T := f64) 3 3 in getClosestNode m (nlit 7 2) (nlit 1 4)) = Ok 5 /\
  (let! m := mesh_new (T := f64) 3 3 in getClosestNode m (nlit 7 2) (nlit 5 2)) = UB.
Proof. split; vm_compute; reflexivity. Qed.
Print Assumptions C11_beyond_width_refuted.

(** The hypotheses are met, including by the largest square mesh the index type can count. *)
Example mesh_fits_small : mesh_fits 1 1 /\ mesh_fits 3 5.
Proof. unfold mesh_fits, node_count; cbn; lia. Qed.
Example mesh_fits_large : exists W, mesh_fits W 50 /\ (10000000 < Z.of_nat W)%Z.
Proof. exists (Z.to_nat 20000000). unfold mesh_fits, node_count. lia. Qed.
Example mesh_3x3_node :
  (let! m := mesh_new (T := f64) 3 3 in let! n := vget (m_nodes m) 7 in
   Ok (nd_neigh n, nd_domain n, take (nd_nElems n) (nd_elems n))) = Ok ([6; 16; 3; 11], true, [2; 5]).
Proof. vm_compute. reflexivity. Qed.
