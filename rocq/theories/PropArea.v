(** * PropArea: theorems about area fractions (C28).  Proofs in AreaSort, AreaRule and AreaCut. *)

From Coq Require Import Reals.
From Verif Require Import Base Num NumR MeshModel MeshTopo LevelSetModel LevelSetSpec LevelSetCalls LevelSetHist
  FmmSpec BoundaryModel BoundarySpec BoundarySpecR BoundaryGraph BoundaryRun AreaCut AreaCases.
Local Open Scope R_scope.

(** C28, any numbers and any boundary: the total is the sum, over the elements in order, of the stored areas; an
    element with status INSIDE has area 1 and one with status OUTSIDE has area 0; nothing else changes. *)
Theorem C28_total_of_the_elements (T : Type) (NT : Num T) W H (s s' : LevelSet T) b A :
  topo W H (ls_mesh s) -> computeAreaFractions s b = Ok (s', A) ->
  exists areas, length areas = (W * H)%nat /\ A = fold_left nadd areas n0 /\ ls_area s' = Some A /\
    (forall e a, areas !! e = Some a -> exists E, m_elements (ls_mesh s) !! e = Some E /\ m_elements (ls_mesh s') !! e = Some (set_e_area a E) /\
       (e_status E = Some ES_INSIDE -> a = nofZ 1) /\ (e_status E = Some ES_OUTSIDE -> a = nofZ 0) /\ e_status E <> None) /\
    s' = set_area (Some A) (set_mesh (set_elements (m_elements (ls_mesh s')) (ls_mesh s)) s) /\ length (m_elements (ls_mesh s')) = (W * H)%nat.
Proof. exact (area_total W H s s' b A). Qed.
Print Assumptions C28_total_of_the_elements.

(** C28, exact arithmetic, no node on the contour: after discretise, computeAreaFractions succeeds; the area of each
    element is that of the part where the contour's straight cuts leave the inside ([area_rule]); the total is between
    0 and width * height. *)
Theorem C28_areas_of_the_elements W H (s s' : LevelSet R) (tg : bool) b : let sd := if tg then ls_target s else ls_sd s in
  reached W H s -> off_contour W H sd -> clear_cuts W H sd -> (tg = true \/ covered W H s sd) -> discretise s tg = Ok (s', b) ->
  exists s'' A, computeAreaFractions s' b = Ok (s'', A) /\
    (forall e, (e < W * H)%nat -> exists E a, m_elements (ls_mesh s') !! e = Some E /\ m_elements (ls_mesh s'') !! e = Some (set_e_area a E) /\
       area_rule (corner_value W sd e) a) /\
    A = fold_right Rplus 0 (map e_area (m_elements (ls_mesh s''))) /\ 0 <= A <= INR (W * H) /\
    s'' = set_area (Some A) (set_mesh (set_elements (m_elements (ls_mesh s'')) (ls_mesh s')) s') /\ length (m_elements (ls_mesh s'')) = (W * H)%nat.
Proof. exact (area_fractions W H s s' tg b). Qed.
Print Assumptions C28_areas_of_the_elements.

(** A diamond with half diagonal 1/2 around the middle of a 2 by 2 mesh has area 1/2. *)
Example diamond_area : exists (s s' s'' : LevelSet R) b, reached 2 2 s /\ ls_sd s = [-1; -1; -1; -1; 1; -1; -1; -1; -1] /\
  discretise s false = Ok (s', b) /\ computeAreaFractions s' b = Ok (s'', / 2).
Proof. exact diamond_total. Qed.

(** C28, exact arithmetic, nodes on the contour allowed: if the element rules of BoundaryGraph give no element more than
    two segments and no place more than two ends, the areas are those of [area_rule] with the values within the
    tolerance counted as 0. *)
Theorem C28_areas_with_nodes_on_the_contour W H (s : LevelSet R) (tg : bool) : let sd := if tg then ls_target s else ls_sd s in
  reached W H s -> clear_cuts W H sd -> (node_count W H <= length sd)%nat ->
  (tg = true \/ forall i k, adjacent W H i k -> active s i \/ active s k \/ masked s i \/ masked s k) ->
  (forall e, (e < W * H)%nat -> (length (elem_graph W sd e) <= 2)%nat) -> (forall p, (degree W H sd p <= 2)%nat) ->
  exists s' b s'' A, discretise s tg = Ok (s', b) /\ computeAreaFractions s' b = Ok (s'', A) /\
    (forall e, (e < W * H)%nat -> exists E a, m_elements (ls_mesh s') !! e = Some E /\ m_elements (ls_mesh s'') !! e = Some (set_e_area a E) /\
       area_rule (fun j => snap (corner_value W sd e j)) a) /\
    A = fold_right Rplus 0 (map e_area (m_elements (ls_mesh s''))) /\ 0 <= A <= INR (W * H) /\
    s'' = set_area (Some A) (set_mesh (set_elements (m_elements (ls_mesh s'')) (ls_mesh s')) s') /\ length (m_elements (ls_mesh s'')) = (W * H)%nat.
Proof. exact (area_fractions_nodes W H s tg). Qed.
Print Assumptions C28_areas_with_nodes_on_the_contour.

(** The contour through two corners of a unit square halves it. *)
Example half_area : exists (s s' s'' : LevelSet R) b, reached 1 1 s /\ ls_sd s = [1; 0; 0; -1] /\
  discretise s false = Ok (s', b) /\ computeAreaFractions s' b = Ok (s'', / 2).
Proof. exact half_total. Qed.
