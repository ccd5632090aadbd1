(** * BoundaryModel: src/Boundary.h, src/Boundary.cpp (complete).

    Simplifications: allocation never fails (vectors, the arrays isSet[nPoints] and weight[nPoints] on
    the stack in computeNormalVectors).  nPoints and nSegments are the lengths of the vectors.  The
    local array boundaryPoints[4] is the list of the entries written so far; nCut is its length;
    reading an entry that was not written is undefined behaviour.  The member [weight] of a segment
    is never used. *)

From Verif Require Export LevelSetModel.

(** The state that discretise builds up: the mesh of the level set, points, segments, length. *)
Record Disc (T : Type) := mkDisc {
  d_mesh : Mesh T;
  d_points : list (BoundaryPoint T);
  d_segs : list (BoundarySegment T);
  d_len : T
}.
Arguments mkDisc {T} _ _ _ _.
Arguments d_mesh {T} _.
Arguments d_points {T} _.
Arguments d_segs {T} _.
Arguments d_len {T} _.

Section BoundaryModel.
  Context {T : Type} `{Num T}.

  (** Boundary.cpp:30-43, [BoundaryPoint::BoundaryPoint]. *)
  Definition point_default (c : Coord T) : BoundaryPoint T :=
    mkBP c (mkCoord n0 n0) n0 n0 n0 n0 false false 0 (replicate 2 0) 0 (replicate 2 0) (replicate 2 n0).

  Definition set_d_mesh (m : Mesh T) (d : Disc T) : Disc T := mkDisc m (d_points d) (d_segs d) (d_len d).
  Definition set_d_points (ps : list (BoundaryPoint T)) (d : Disc T) : Disc T := mkDisc (d_mesh d) ps (d_segs d) (d_len d).

  (** Boundary.cpp:703-753, [computeMeshStatus]: the nodes. *)
  Definition status_of (x : T) : NodeStatus :=
    if (nabs x <? nlit 1 1000000)%num then NS_BOUNDARY
    else if (x <? n0)%num then NS_OUTSIDE else NS_INSIDE.
  Definition status_node (sd : list T) (i : nat) (m : Mesh T) : outcome (Mesh T) :=
    let! x := vget sd i in
    node_mod i (fun n => set_nd_status (Some (status_of x)) (set_nd_bpts (nd_bpts n) 0 n)) m.

  (** Boundary.cpp:727-752, [computeMeshStatus]: the elements. *)
  Definition tally_step (m : Mesh T) (e : Element T) (j : nat) (s : nat * nat) : outcome (nat * nat) :=
    let '(tallyInside, tallyOutside) := s in
    let! node := vget (e_nodes e) j in
    let! st := node_status m node in
    Ok (if is_inside st then (tallyInside + 1, tallyOutside)
        else if is_outside st then (tallyInside, tallyOutside + 1) else s).
  Definition status_element (i : nat) (m : Mesh T) : outcome (Mesh T) :=
    let! e := vget (m_elements m) i in
    let! (tallyInside, tallyOutside) := for_ 4 (tally_step m e) (0, 0) in
    let st := if (tallyOutside =? 0)%nat then ES_INSIDE
              else if (tallyInside =? 0)%nat then ES_OUTSIDE else ES_NONE in
    elem_mod i (fun e => set_e_status (Some st) (set_e_segs (e_segs e) (Some 0) e)) m.
  Definition computeMeshStatus (m : Mesh T) (sd : list T) : outcome (Mesh T) :=
    let! m := for_ (m_nNodes m) (status_node sd) m in
    for_ (m_nElements m) status_element m.

  (** Boundary.cpp:755-789, [isAdded]: the coordinates of the point. *)
  Definition edge_point (c : Coord T) (edge : nat) (distance : T) : Coord T :=
    match edge with
    | 0 => mkCoord (cx c + distance)%num (cy c)
    | 1 => mkCoord (cx c) (cy c + distance)%num
    | 2 => mkCoord (cx c - distance)%num (cy c)
    | _ => mkCoord (cx c) (cy c - distance)%num
    end.
  (** Boundary.cpp:791-803, [isAdded]: the search through the points of a node. *)
  Fixpoint find_added (point : Coord T) (points : list (BoundaryPoint T)) (bpts : list nat) (i n : nat) : outcome (option nat) :=
    match n with
    | 0 => Ok None
    | S n' =>
        let! index := vget bpts i in
        let! p := vget points index in
        if (nabs (cx point - cx (bp_coord p)) <? nlit 1 1000000)%num &&
           (nabs (cy point - cy (bp_coord p)) <? nlit 1 1000000)%num
        then Ok (Some index)
        else find_added point points bpts (S i) n'
    end.
  (** Boundary.cpp:755-804, [isAdded]: the coordinates and the index, if any. *)
  Definition isAdded (d : Disc T) (node edge : nat) (distance : T) : outcome (Coord T * option nat) :=
    let! n := vget (m_nodes (d_mesh d)) node in
    let c := edge_point (nd_coord n) edge distance in
    let! r := find_added c (d_points d) (nd_bpts n) 0 (nd_nBpts n) in
    Ok (c, r).

  (** Boundary.cpp:806-862, [initialisePoint]. *)
  Definition domain_gap (m : Mesh T) (c : Coord T) : T :=
    let minX := nmin (cx c) (nofnat (m_width m) - cx c)%num in
    let minY := nmin (cy c) (nofnat (m_height m) - cy c)%num in
    nmin minX minY.
  Definition initialisePoint (m : Mesh T) (moveLimit : T) (c : Coord T) : outcome (BoundaryPoint T) :=
    let minBoundary := domain_gap m c in
    let neg := if (minBoundary <? moveLimit)%num then (- minBoundary)%num else (- moveLimit)%num in
    let isDomain := (minBoundary <? moveLimit)%num && (minBoundary <? nlit 1 1000000)%num in
    let! node := getClosestNode m (cx c) (cy c) in
    let! n := vget (m_nodes m) node in
    let dx := (cx (nd_coord n) - cx c)%num in
    let dy := (cy (nd_coord n) - cy c)%num in
    let onNode := (nabs dx <? nlit 1 1000000)%num && (nabs dy <? nlit 1 1000000)%num in
    let gap := nsqrt (dx * dx + dy * dy)%num in
    let isFixed := nd_masked n && onNode in
    let neg := if nd_masked n && negb onNode && ((- gap)%num >? neg)%num then (- gap)%num else neg in
    let p := point_default c in
    Ok (mkBP c (bp_normal p) (bp_length p) (bp_velocity p) neg moveLimit isDomain isFixed
          (bp_nSegs p) (bp_segs p) (bp_nNeigh p) (bp_neigh p) (bp_sens p)).

  (** Boundary.cpp:864-880, [segmentLength]. *)
  Definition coord_dist (a b : Coord T) : T :=
    let dx := (cx a - cx b)%num in
    let dy := (cy a - cy b)%num in
    nsqrt (dx * dx + dy * dy)%num.
  Definition segmentLength (d : Disc T) (start stop : nat) : outcome T :=
    let! p1 := vget (d_points d) start in
    let! p2 := vget (d_points d) stop in
    Ok (coord_dist (bp_coord p1) (bp_coord p2)).

  (** nodes[node].boundaryPoints[nodes[node].nBoundaryPoints] = k; nodes[node].nBoundaryPoints++ *)
  Definition attach (node k : nat) (d : Disc T) : outcome (Disc T) :=
    let! n := vget (m_nodes (d_mesh d)) node in
    let! l := vset (nd_bpts n) (nd_nBpts n) k in
    let! ns := vset (m_nodes (d_mesh d)) node (set_nd_bpts l (nd_nBpts n + 1) n) in
    Ok (set_d_mesh (set_nodes ns (d_mesh d)) d).

  (** BoundaryPoint point; initialisePoint(levelSet, point, coord); points.push_back(point); nPoints++ *)
  Definition create (moveLimit : T) (c : Coord T) (d : Disc T) : outcome (Disc T) :=
    let! p := initialisePoint (d_mesh d) moveLimit c in
    Ok (set_d_points (d_points d ++ [p]) d).

  (** Boundary.cpp:128-145 and its repetitions (149-166, 293-314, 461-478, 482-501): the point on top of a node. *)
  Definition node_point (moveLimit : T) (node : nat) (d : Disc T) : outcome (nat * Disc T) :=
    let! (c, index) := isAdded d node 0 n0 in
    match index with
    | Some k => Ok (k, d)
    | None =>
        let k := length (d_points d) in
        let! d := attach node k d in
        let! d := create moveLimit c d in
        Ok (k, d)
    end.

  (** Boundary.cpp:84-121: the point on a cut edge [j] from [n1] to [n2]. *)
  Definition cut_point (moveLimit : T) (sd : list T) (n1 n2 j : nat) (d : Disc T) : outcome (nat * Disc T) :=
    let! x1 := vget sd n1 in
    let! x2 := vget sd n2 in
    let! (c, index) := isAdded d n1 j (x1 / (x1 - x2))%num in
    match index with
    | Some k => Ok (k, d)
    | None =>
        let k := length (d_points d) in
        let! d := attach n1 k d in
        let! d := attach n2 k d in
        let! d := create moveLimit c d in
        Ok (k, d)
    end.

  (** Boundary.cpp:167-181 and its repetitions: compute the length of the segment, add it to the
      element and to the vector. *)
  Definition add_segment (i start stop : nat) (d : Disc T) : outcome (Disc T) :=
    let! l := segmentLength d start stop in
    let! e := vget (m_elements (d_mesh d)) i in
    let! k := init_get (e_nSegs e) in
    let! segs := vset (e_segs e) k (length (d_segs d)) in
    let! es := vset (m_elements (d_mesh d)) i (set_e_segs segs (Some (k + 1)) e) in
    Ok (mkDisc (set_elements es (d_mesh d)) (d_points d) (d_segs d ++ [mkBS start stop i l]) (d_len d + l)%num).

  (** Boundary.cpp:96-195, edge [j] of element [i]; [cuts] is boundaryPoints[0..nCut). *)
  Definition edge_step (moveLimit : T) (isTarget : bool) (sd : list T) (i j : nat) (s : list nat * Disc T)
      : outcome (list nat * Disc T) :=
    let '(cuts, d) := s in
    let! e := vget (m_elements (d_mesh d)) i in
    let! n1 := vget (e_nodes e) j in
    let! n2 := vget (e_nodes e) (if (j =? 3)%nat then 0 else j + 1) in
    let! a := vget (m_nodes (d_mesh d)) n1 in
    let! b := vget (m_nodes (d_mesh d)) n2 in
    if isTarget || (nd_active a || nd_masked a) || (nd_active b || nd_masked b) then
      let! s1 := init_get (nd_status a) in
      let! s2 := init_get (nd_status b) in
      if (is_inside s1 && is_outside s2) || (is_outside s1 && is_inside s2) then
        let! (k, d) := cut_point moveLimit sd n1 n2 j d in
        Ok (cuts ++ [k], d)
      else if is_boundary s1 && is_boundary s2 then
        let! (start, d) := node_point moveLimit n1 d in
        let! (stop, d) := node_point moveLimit n2 d in
        let! d := add_segment i start stop d in
        Ok (cuts, d)
      else Ok s
    else Ok s.

  (** Boundary.cpp:266-334, one cut edge: node [j] of element [i]. *)
  Definition one_cut_step (moveLimit : T) (i : nat) (start : nat) (j : nat) (d : Disc T) : outcome (Disc T) :=
    let! e := vget (m_elements (d_mesh d)) i in
    let! node := vget (e_nodes e) j in
    let! st := node_status (d_mesh d) node in
    if is_boundary st then
      let! nAfter := vget (e_nodes e) (if (j =? 3)%nat then 0 else j + 1) in
      let! nBefore := vget (e_nodes e) (if (j =? 0)%nat then 3 else j - 1) in
      let! sa := node_status (d_mesh d) nAfter in
      let! sb := node_status (d_mesh d) nBefore in
      if is_outside sa || is_outside sb then
        let! (stop, d) := node_point moveLimit node d in
        add_segment i start stop d
      else Ok d
    else Ok d.

  (** Boundary.cpp:341-350, the sum of the level set over the nodes of an element. *)
  Definition lsf_step (sd : list T) (e : Element T) (j : nat) (sum : T) : outcome T :=
    let! node := vget (e_nodes e) j in
    let! x := vget sd node in
    Ok (sum + x)%num.

  (** Boundary.cpp:337-430, four cut edges. *)
  Definition four_cuts (sd : list T) (i : nat) (cuts : list nat) (d : Disc T) : outcome (Disc T) :=
    let! e := vget (m_elements (d_mesh d)) i in
    let! sum := for_ 4 (lsf_step sd e) n0 in
    let! node := vget (e_nodes e) 0 in
    let! st := node_status (d_mesh d) node in
    let! p0 := vget cuts 0 in
    let! p1 := vget cuts 1 in
    let! p2 := vget cuts 2 in
    let! p3 := vget cuts 3 in
    let! d :=
      (if (is_inside st && (sum >? n0)%num) || (is_outside st && (sum <? n0)%num) then
         let! d := add_segment i p0 p1 d in
         add_segment i p2 p3 d
       else
         let! d := add_segment i p0 p3 d in
         add_segment i p1 p2 d) in
    let! m := elem_mod i (set_e_status (Some (if (sum >? n0)%num then ES_CENTRE_INSIDE else ES_CENTRE_OUTSIDE))) (d_mesh d) in
    Ok (set_d_mesh m d).

  (** Boundary.cpp:438-451, the boundary nodes of an element; [cuts] is boundaryPoints[0..nCut). *)
  Definition boundary_node_step (m : Mesh T) (e : Element T) (j : nat) (cuts : list nat) : outcome (list nat) :=
    let! node := vget (e_nodes e) j in
    let! st := node_status m node in
    Ok (if is_boundary st then cuts ++ [node] else cuts).

  (** Boundary.cpp:432-531, no cut edges: a segment along the diagonal. *)
  Definition no_cuts (moveLimit : T) (i : nat) (d : Disc T) : outcome (Disc T) :=
    let! e := vget (m_elements (d_mesh d)) i in
    let! nodes := for_ 4 (boundary_node_step (d_mesh d) e) [] in
    let! node := vget nodes 0 in
    let! (start, d) := node_point moveLimit node d in
    let! node := vget nodes 1 in
    let! (stop, d) := node_point moveLimit node d in
    add_segment i start stop d.

  (** Boundary.cpp:82-533, the body of the loop for element [i]. *)
  Definition element_step (moveLimit : T) (isTarget : bool) (sd : list T) (i : nat) (d : Disc T) : outcome (Disc T) :=
    let! e := vget (m_elements (d_mesh d)) i in
    let! st := init_get (e_status e) in
    match st with
    | ES_OUTSIDE => Ok d
    | _ =>
        let! (cuts, d) := for_ 4 (edge_step moveLimit isTarget sd i) ([], d) in
        match cuts with
        | [p0; p1] => add_segment i p0 p1 d
        | [p0] => for_ 4 (one_cut_step moveLimit i p0) d
        | [_; _; _; _] => four_cuts sd i cuts d
        | [] => match st with ES_INSIDE => Ok d | _ => no_cuts moveLimit i d end
        | _ => Ok d
        end
    end.

  (** Boundary.cpp:882-907, [computePointLengths]: the assignments for one end of a segment. *)
  Definition add_half (l : T) (p : BoundaryPoint T) : BoundaryPoint T :=
    mkBP (bp_coord p) (bp_normal p) (bp_length p + nlit 1 2 * l)%num (bp_velocity p) (bp_neg p) (bp_pos p)
      (bp_domain p) (bp_fixed p) (bp_nSegs p) (bp_segs p) (bp_nNeigh p) (bp_neigh p) (bp_sens p).
  Definition link_segment (i : nat) (p : BoundaryPoint T) : outcome (BoundaryPoint T) :=
    let! l := vset (bp_segs p) (bp_nSegs p) i in
    Ok (mkBP (bp_coord p) (bp_normal p) (bp_length p) (bp_velocity p) (bp_neg p) (bp_pos p)
      (bp_domain p) (bp_fixed p) (bp_nSegs p + 1) l (bp_nNeigh p) (bp_neigh p) (bp_sens p)).
  Definition link_neighbour (k : nat) (p : BoundaryPoint T) : outcome (BoundaryPoint T) :=
    let! l := vset (bp_neigh p) (bp_nNeigh p) k in
    Ok (mkBP (bp_coord p) (bp_normal p) (bp_length p) (bp_velocity p) (bp_neg p) (bp_pos p)
      (bp_domain p) (bp_fixed p) (bp_nSegs p) (bp_segs p) (bp_nNeigh p + 1) l (bp_sens p)).
  Definition point_mod (k : nat) (f : BoundaryPoint T -> outcome (BoundaryPoint T)) (ps : list (BoundaryPoint T))
      : outcome (list (BoundaryPoint T)) :=
    let! p := vget ps k in
    let! q := f p in
    vset ps k q.
  Definition length_step (segs : list (BoundarySegment T)) (i : nat) (ps : list (BoundaryPoint T))
      : outcome (list (BoundaryPoint T)) :=
    let! sg := vget segs i in
    let! ps := point_mod (sg_start sg) (fun p => Ok (add_half (sg_length sg) p)) ps in
    let! ps := point_mod (sg_end sg) (fun p => Ok (add_half (sg_length sg) p)) ps in
    let! ps := point_mod (sg_start sg) (link_segment i) ps in
    let! ps := point_mod (sg_end sg) (link_segment i) ps in
    let! ps := point_mod (sg_start sg) (link_neighbour (sg_end sg)) ps in
    point_mod (sg_end sg) (link_neighbour (sg_start sg)) ps.
  Definition computePointLengths (segs : list (BoundarySegment T)) (ps : list (BoundaryPoint T))
      : outcome (list (BoundaryPoint T)) :=
    for_ (length segs) (length_step segs) ps.

  (** Boundary.cpp:57-538, [discretise].  The result does not depend on the previous contents of the
      boundary object. *)
  Definition discretise (s : LevelSet T) (isTarget : bool) : outcome (LevelSet T * Boundary T) :=
    let sd := if isTarget then ls_target s else ls_sd s in
    let! m := computeMeshStatus (ls_mesh s) sd in
    let! d := for_ (m_nElements m) (element_step (ls_moveLimit s) isTarget sd) (mkDisc m [] [] n0) in
    let! ps := computePointLengths (d_segs d) (d_points d) in
    Ok (set_mesh (d_mesh d) s, mkBoundary ps (d_segs d) (d_len d)).

  (** Boundary.cpp:687-701, [computePerimeter]. *)
  Definition perimeter_step (ps : list (BoundaryPoint T)) (p : BoundaryPoint T) (i : nat) (len : T) : outcome T :=
    let! k := vget (bp_neigh p) i in
    let! q := vget ps k in
    Ok (len + coord_dist (bp_coord p) (bp_coord q))%num.
  Definition computePerimeter (b : Boundary T) (p : BoundaryPoint T) : outcome T :=
    for_ (bp_nNeigh p) (perimeter_step (bd_points b) p) n0.

  (** Boundary.cpp:540-641, [computeNormalVectors]: the normal of node (x, y). *)
  Definition central (m : Mesh T) (sd : list T) (x y : nat) : outcome (T * T) :=
    let! gx :=
      (if (x =? 0)%nat then
         let! a := sd_at m sd (uadd x 1) y in let! b := sd_at m sd x y in Ok (a - b)%num
       else if (x =? m_width m)%nat then
         let! a := sd_at m sd x y in let! b := sd_at m sd (usub x 1) y in Ok (a - b)%num
       else
         let! a := sd_at m sd (uadd x 1) y in let! b := sd_at m sd (usub x 1) y in Ok (nlit 1 2 * (a - b))%num) in
    let! gy :=
      (if (y =? 0)%nat then
         let! a := sd_at m sd x (uadd y 1) in let! b := sd_at m sd x y in Ok (a - b)%num
       else if (y =? m_height m)%nat then
         let! a := sd_at m sd x y in let! b := sd_at m sd x (usub y 1) in Ok (a - b)%num
       else
         let! a := sd_at m sd x (uadd y 1) in let! b := sd_at m sd x (usub y 1) in Ok (nlit 1 2 * (a - b))%num) in
    Ok (gx, gy).
  Definition unit_normal (m : Mesh T) (sd : list T) (x y : nat) : outcome (Coord T) :=
    let! (gx, gy) := central m sd x y in
    let grad := nsqrt (gx * gx + gy * gy)%num in
    Ok (mkCoord (gx / grad)%num (gy / grad)%num).

  (** Boundary.cpp:643-676: one boundary point of a node.  State: points, weight[], isSet[]. *)
  Definition set_bp_normal (c : Coord T) (p : BoundaryPoint T) : BoundaryPoint T :=
    mkBP (bp_coord p) c (bp_length p) (bp_velocity p) (bp_neg p) (bp_pos p) (bp_domain p) (bp_fixed p)
      (bp_nSegs p) (bp_segs p) (bp_nNeigh p) (bp_neigh p) (bp_sens p).
  Definition NormState : Type := list (BoundaryPoint T) * list T * list bool.
  Definition normal_point (nc v : Coord T) (bpts : list nat) (j : nat) (st : NormState) : outcome NormState :=
    let '(ps, weight, isSet) := st in
    let! k := vget bpts j in
    let! p := vget ps k in
    let dx := (cx nc - cx (bp_coord p))%num in
    let dy := (cy nc - cy (bp_coord p))%num in
    let rSqd := (dx * dx + dy * dy)%num in
    if (rSqd <? nlit 1 1000000)%num then
      let! ps := vset ps k (set_bp_normal v p) in
      let! weight := vset weight k n1 in
      let! isSet := vset isSet k true in
      Ok (ps, weight, isSet)
    else
      let! b := vget isSet k in
      if negb b then
        let c := mkCoord (cx (bp_normal p) + cx v / rSqd)%num (cy (bp_normal p) + cy v / rSqd)%num in
        let! ps := vset ps k (set_bp_normal c p) in
        let! w := vget weight k in
        let! weight := vset weight k (w + n1 / rSqd)%num in
        Ok (ps, weight, isSet)
      else Ok st.
  (** Boundary.cpp:557-678: narrow band node [i].  The coordinates of a node are converted to [unsigned int]. *)
  Definition normal_node (s : LevelSet T) (i : nat) (st : NormState) : outcome NormState :=
    let! node := vget (ls_band s) i in
    let! n := vget (m_nodes (ls_mesh s)) node in
    if (0 <? nd_nBpts n)%nat then
      let! x := floor_u32 (cx (nd_coord n)) in
      let! y := floor_u32 (cy (nd_coord n)) in
      let! v := unit_normal (ls_mesh s) (ls_sd s) x y in
      for_ (nd_nBpts n) (normal_point (nd_coord n) v (nd_bpts n)) st
    else Ok st.
  (** Boundary.cpp:668-684: normalise point [i]. *)
  Definition normalise_point (weight : list T) (i : nat) (ps : list (BoundaryPoint T)) : outcome (list (BoundaryPoint T)) :=
    let! p := vget ps i in
    if negb (bp_domain p) then
      let! w := vget weight i in
      let nx := (cx (bp_normal p) / w)%num in
      let ny := (cy (bp_normal p) / w)%num in
      let norm := nsqrt (nx * nx + ny * ny)%num in
      vset ps i (set_bp_normal (mkCoord (nx / norm)%num (ny / norm)%num) p)
    else Ok ps.
  (** Boundary.cpp:540-685, [computeNormalVectors]. *)
  Definition computeNormalVectors (s : LevelSet T) (b : Boundary T) : outcome (Boundary T) :=
    let ps := map (set_bp_normal (mkCoord n0 n0)) (bd_points b) in
    let! (ps, weight, _) :=
      for_ (ls_nBand s) (normal_node s) (ps, replicate (length ps) n0, replicate (length ps) false) in
    let! ps := for_ (length ps) (normalise_point weight) ps in
    Ok (mkBoundary ps (bd_segs b) (bd_length b)).
End BoundaryModel.
