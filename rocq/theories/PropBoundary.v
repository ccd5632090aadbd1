(** * PropBoundary: discretisation of the boundary (C31 - C34, C36, C50, C51). *)

From Coq Require Import Reals.
From Verif Require Import Base Num NumR NumF64 NumInt MeshModel MeshSpec MeshTopo FmmSpec LevelSetModel LevelSetSpec LevelSetCalls LevelSetParams LevelSetSpecR LevelSetHist
  BoundaryModel BoundarySpec BoundarySpecR BoundaryProofs BoundaryLinks BoundaryReal PropLevelSet PropVel.
Local Open Scope nat_scope.

(** C31: the status of the nodes. *)
Theorem C31_node_status (T : Type) (NT : Num T) (NI : NumInt T) W H (s s' : LevelSet T) tg b : reached W H s -> discretise s tg = Ok (s', b) ->
  forall i n, m_nodes (ls_mesh s') !! i = Some n -> exists x, (if tg then ls_target s else ls_sd s) !! i = Some x /\
    (nd_status n = Some NS_BOUNDARY <-> (nabs x <? nlit 1 1000000)%num = true) /\
    (nd_status n = Some NS_OUTSIDE <-> (nabs x <? nlit 1 1000000)%num = false /\ (x <? n0)%num = true) /\
    (nd_status n = Some NS_INSIDE <-> (nabs x <? nlit 1 1000000)%num = false /\ (x <? n0)%num = false).
Proof. intros Hr Hd. exact (node_status_api W H s s' tg b (ok_topo _ _ _ (so_ok _ _ _ (reached_sound _ _ _ Hr))) Hd). Qed.
Print Assumptions C31_node_status.

(** C31: the status of the elements, from the status of their corners.  An element with corners strictly
    on both sides is NONE, or records the side of its centre, which happens only if all its edges are cut. *)
Theorem C31_element_status (T : Type) (NT : Num T) (NI : NumInt T) W H (s s' : LevelSet T) tg b : reached W H s -> discretise s tg = Ok (s', b) ->
  forall e x, m_elements (ls_mesh s') !! e = Some x ->
  let is j st := exists n, m_nodes (ls_mesh s') !! corner W e j = Some n /\ nd_status n = Some st in
  (e_status x = Some ES_INSIDE <-> forall j, j < 4 -> ~ is j NS_OUTSIDE) /\
  (e_status x = Some ES_OUTSIDE <-> (exists j, j < 4 /\ is j NS_OUTSIDE) /\ forall j, j < 4 -> ~ is j NS_INSIDE) /\
  (e_status x = Some ES_NONE \/ e_status x = Some ES_CENTRE_INSIDE \/ e_status x = Some ES_CENTRE_OUTSIDE <->
     (exists j, j < 4 /\ is j NS_OUTSIDE) /\ (exists j, j < 4 /\ is j NS_INSIDE)) /\
  (e_status x = Some ES_CENTRE_INSIDE \/ e_status x = Some ES_CENTRE_OUTSIDE ->
     alternating W (if tg then ls_target s else ls_sd s) e /\
     exists c0 c1 c2 c3, (if tg then ls_target s else ls_sd s) !! corner W e 0 = Some c0 /\ (if tg then ls_target s else ls_sd s) !! corner W e 1 = Some c1 /\
       (if tg then ls_target s else ls_sd s) !! corner W e 2 = Some c2 /\ (if tg then ls_target s else ls_sd s) !! corner W e 3 = Some c3 /\
       (e_status x = Some ES_CENTRE_INSIDE <-> (n0 <? n0 + c0 + c1 + c2 + c3)%num = true)).
Proof. intros Hr Hd. exact (element_status_api W H s s' tg b (ok_topo _ _ _ (so_ok _ _ _ (reached_sound _ _ _ Hr))) Hd). Qed.
Print Assumptions C31_element_status.

(** C31: nothing else about the level set or the geometry, masks and band of the mesh changes. *)
Theorem C31_rest_unchanged (T : Type) (NT : Num T) (NI : NumInt T) W H (s s' : LevelSet T) tg b : reached W H s -> discretise s tg = Ok (s', b) ->
  (ls_sd s', ls_vel s', ls_grad s', ls_target s') = (ls_sd s, ls_vel s, ls_grad s, ls_target s) /\
  (ls_band s', ls_nBand s', ls_mines s', ls_nMines s') = (ls_band s, ls_nBand s, ls_mines s, ls_nMines s) /\
  (ls_moveLimit s', ls_bandWidth s', ls_fixed s') = (ls_moveLimit s, ls_bandWidth s, ls_fixed s) /\
  (forall i n n', m_nodes (ls_mesh s) !! i = Some n -> m_nodes (ls_mesh s') !! i = Some n' ->
     (nd_coord n', nd_neigh n', nd_elems n', nd_nElems n') = (nd_coord n, nd_neigh n, nd_elems n, nd_nElems n) /\
     (nd_active n', nd_masked n', nd_domain n', nd_mine n') = (nd_active n, nd_masked n, nd_domain n, nd_mine n)) /\
  (forall e x x', m_elements (ls_mesh s) !! e = Some x -> m_elements (ls_mesh s') !! e = Some x' ->
     (e_coord x', e_nodes x', e_area x') = (e_coord x, e_nodes x, e_area x)).
Proof. intros Hr Hd. exact (frame_api W H s s' tg b (ok_topo _ _ _ (so_ok _ _ _ (reached_sound _ _ _ Hr))) Hd). Qed.
Print Assumptions C31_rest_unchanged.

(** C50: settings. *)
Theorem C50_settings_never_change (T : Type) (NT : Num T) W H ml bw fx (s s' : LevelSet T) : constructed W H ml bw fx s -> rtc call s s' ->
  ls_moveLimit s' = ml /\ ls_bandWidth s' = bw /\ ls_fixed s' = fx /\ valid_params ml bw.
Proof. exact (history_settings W H ml bw fx s s'). Qed.
Print Assumptions C50_settings_never_change.
Theorem C50_target_only_written_by_caller (T : Type) (NT : Num T) (s s' : LevelSet T) : call s s' ->
  ls_target s' = ls_target s \/ exists v, s' = set_target v s.
Proof. exact (fun C => proj2 (call_keeps s s' C)). Qed.
Print Assumptions C50_target_only_written_by_caller.

(** C51: the cross references between points, segments and elements. *)
Theorem C51_points_know_their_segments (T : Type) (NT : Num T) (NI : NumInt T) W H (s s' : LevelSet T) tg b : reached W H s -> discretise s tg = Ok (s', b) ->
  (forall k p, bd_points b !! k = Some p ->
     let l := incidence (bd_segs b) k in
     length l <= 2 /\ bp_nSegs p = length l /\ bp_nNeigh p = length l /\
     take (bp_nSegs p) (bp_segs p) = map fst l /\ take (bp_nNeigh p) (bp_neigh p) = map snd l) /\
  (forall k sg, bd_segs b !! k = Some sg -> sg_start sg < length (bd_points b) /\ sg_end sg < length (bd_points b) /\ sg_elem sg < W * H) /\
  (forall e x, m_elements (ls_mesh s') !! e = Some x -> exists k, e_nSegs x = Some k /\ k <= 2 /\ take k (e_segs x) = segments_of (bd_segs b) e) /\
  (forall i n, m_nodes (ls_mesh s') !! i = Some n -> nd_nBpts n <= 4 /\ forall k, k ∈ take (nd_nBpts n) (nd_bpts n) -> k < length (bd_points b)).
Proof. intros Hr Hd. exact (links_api W H s s' tg b (ok_topo _ _ _ (so_ok _ _ _ (reached_sound _ _ _ Hr))) Hd). Qed.
Print Assumptions C51_points_know_their_segments.

Local Open Scope R_scope.
(** C32: every boundary point is a node on the contour or the zero of the linear interpolant along an edge
    that is cut, and is in the domain. *)
Theorem C32_points_on_contour W H (s s' : LevelSet R) tg b : reached W H s -> discretise s tg = Ok (s', b) ->
  forall k p, bd_points b !! k = Some p ->
  on_contour_line W H (if tg then ls_target s else ls_sd s) (bp_coord p) /\
  0 <= cx (bp_coord p) <= INR W /\ 0 <= cy (bp_coord p) <= INR H.
Proof. intros Hr Hd. exact (points_on_contour W H s s' tg b Hr Hd). Qed.
Print Assumptions C32_points_on_contour.

(** C33: a segment joins two points, each within the tolerance of a place where the contour meets the
    border of its element; its length is their distance. *)
Theorem C33_segments_well_formed W H (s s' : LevelSet R) tg b : reached W H s -> discretise s tg = Ok (s', b) ->
  forall k sg, bd_segs b !! k = Some sg -> (sg_elem sg < W * H)%nat /\
    exists p q c c', bd_points b !! sg_start sg = Some p /\ bd_points b !! sg_end sg = Some q /\
      sg_length sg = euclid (bp_coord p) (bp_coord q) /\
      on_contour_line W H (if tg then ls_target s else ls_sd s) c /\ on_element_border W (sg_elem sg) c /\ near c (bp_coord p) /\
      on_contour_line W H (if tg then ls_target s else ls_sd s) c' /\ on_element_border W (sg_elem sg) c' /\ near c' (bp_coord q).
Proof. intros Hr Hd. exact (segments_good W H s s' tg b Hr Hd). Qed.
Print Assumptions C33_segments_well_formed.

(** C33: exactly, when no edge is cut within the tolerance of its ends. *)
Theorem C33_segments_in_elements W H (s s' : LevelSet R) tg b : reached W H s -> discretise s tg = Ok (s', b) ->
  clear_cuts W H (if tg then ls_target s else ls_sd s) ->
  forall k sg, bd_segs b !! k = Some sg ->
    exists p q, bd_points b !! sg_start sg = Some p /\ bd_points b !! sg_end sg = Some q /\
      sg_length sg = euclid (bp_coord p) (bp_coord q) /\ sg_length sg <= R_sqrt.sqrt 2 /\
      on_element_border W (sg_elem sg) (bp_coord p) /\ on_element_border W (sg_elem sg) (bp_coord q).
Proof. intros Hr Hd. exact (segments_exact W H s s' tg b Hr Hd). Qed.
Print Assumptions C33_segments_in_elements.

(** C34: the length of the boundary, by segments and by points. *)
Theorem C34_length_by_segments W H (s s' : LevelSet R) tg b : reached W H s -> discretise s tg = Ok (s', b) ->
  bd_length b = sumR (map sg_length (bd_segs b)).
Proof. intros Hr Hd. exact (total_is_sum W H s s' tg b Hr Hd). Qed.
Print Assumptions C34_length_by_segments.
Theorem C34_length_by_points W H (s s' : LevelSet R) tg b : reached W H s -> discretise s tg = Ok (s', b) ->
  bd_length b = sumR (map bp_length (bd_points b)).
Proof. intros Hr Hd. exact (total_by_points W H s s' tg b Hr Hd). Qed.
Print Assumptions C34_length_by_points.

(** C36: limits and flags. *)
Theorem C36_move_limits_and_flags W H (s s' : LevelSet R) tg b : reached W H s -> discretise s tg = Ok (s', b) ->
  forall k p, bd_points b !! k = Some p ->
  let L := ls_moveLimit s in let g := border_gap W H (bp_coord p) in
  bp_pos p = L /\ - L <= bp_neg p <= 0 /\ - g <= bp_neg p /\
  (bp_domain p = true <-> g < tol /\ g < L) /\
  (bp_fixed p = true <-> exists i, masked s i /\ near (grid W i) (bp_coord p)) /\
  ((forall i, masked s i -> 1 <= euclid (grid W i) (bp_coord p)) -> bp_neg p = - Rmin L g) /\
  (forall i, masked s i -> ~ near (grid W i) (bp_coord p) ->
     (forall i', (i' < node_count W H)%nat -> i' <> i -> euclid (grid W i) (bp_coord p) < euclid (grid W i') (bp_coord p)) ->
     bp_neg p = - Rmin (Rmin L g) (euclid (grid W i) (bp_coord p))).
Proof. intros Hr Hd. exact (limits W H s s' tg b Hr Hd). Qed.
Print Assumptions C36_move_limits_and_flags.

(** ** A concrete case: a disc in a square; every point has two segments. *)
Local Close Scope R_scope.
Example disc_boundary :
  (let! s := disc8 in let! (s', b) := discretise s false in
   Ok (length (bd_points b), length (bd_segs b), forallb (fun p => bp_nSegs p =? 2)%nat (bd_points b),
       (f 445 10 <? bd_length b)%num, (bd_length b <? f 460 10)%num)) = Ok (52, 52, true, true, true).
Proof. vm_compute. reflexivity. Qed.
