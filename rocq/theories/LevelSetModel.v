(** * LevelSetModel: src/LevelSet.h, src/LevelSet.cpp (complete), src/Hole.h, src/Hole.cpp, and the
    data types of src/Boundary.h.

    Simplifications: allocation never fails (vectors, the two arrays of nNodes elements on the
    stack in initialiseVelocities); the random number generator is the sequence of its results;
    [std::sort] is the insertion sort of libstdc++ (used there for at most 16 elements; the code
    sorts at most 6).  The [MutableFloat] overload of computeVelocities (Python binding) only
    forwards its argument. *)

From Verif Require Export FmmModel.

(** Hole.h:29-62, Hole.cpp. *)
Record Hole (T : Type) := mkHole { h_coord : Coord T; h_r : T }.
Arguments mkHole {T} _ _.
Arguments h_coord {T} _.
Arguments h_r {T} _.

(** Boundary.h:39-58, [BoundaryPoint]. *)
Record BoundaryPoint (T : Type) := mkBP {
  bp_coord : Coord T;
  bp_normal : Coord T;
  bp_length : T;
  bp_velocity : T;
  bp_neg : T;                        (* negativeLimit *)
  bp_pos : T;                        (* positiveLimit *)
  bp_domain : bool;
  bp_fixed : bool;
  bp_nSegs : nat;
  bp_segs : list nat;                (* segments *)
  bp_nNeigh : nat;
  bp_neigh : list nat;               (* neighbours *)
  bp_sens : list T                   (* sensitivities *)
}.
Arguments mkBP {T} _ _ _ _ _ _ _ _ _ _ _ _ _.
Arguments bp_coord {T} _.
Arguments bp_normal {T} _.
Arguments bp_length {T} _.
Arguments bp_velocity {T} _.
Arguments bp_neg {T} _.
Arguments bp_pos {T} _.
Arguments bp_domain {T} _.
Arguments bp_fixed {T} _.
Arguments bp_nSegs {T} _.
Arguments bp_segs {T} _.
Arguments bp_nNeigh {T} _.
Arguments bp_neigh {T} _.
Arguments bp_sens {T} _.

(** Boundary.h:60-73, [BoundarySegment].  [weight] is never used. *)
Record BoundarySegment (T : Type) := mkBS { sg_start : nat; sg_end : nat; sg_elem : nat; sg_length : T }.
Arguments mkBS {T} _ _ _ _.
Arguments sg_start {T} _.
Arguments sg_end {T} _.
Arguments sg_elem {T} _.
Arguments sg_length {T} _.

(** Boundary.h:92-150, the members of [Boundary].  nPoints and nSegments are changed only together
    with the vectors, of which they are the lengths. *)
Record Boundary (T : Type) := mkBoundary {
  bd_points : list (BoundaryPoint T);
  bd_segs : list (BoundarySegment T);
  bd_length : T
}.
Arguments mkBoundary {T} _ _ _.
Arguments bd_points {T} _.
Arguments bd_segs {T} _.
Arguments bd_length {T} _.

(** LevelSet.h:280-295, the members of [LevelSet].  nNarrowBand and nMines are set by every
    constructor before anything reads them. *)
Record LevelSet (T : Type) := mkLS {
  ls_sd : list T;                    (* signedDistance *)
  ls_vel : list T;                   (* velocity *)
  ls_grad : list T;                  (* gradient *)
  ls_target : list T;                (* target *)
  ls_band : list nat;                (* narrowBand *)
  ls_mines : list nat;               (* mines *)
  ls_nBand : nat;                    (* nNarrowBand *)
  ls_nMines : nat;
  ls_moveLimit : T;
  ls_area : option T;                (* area *)
  ls_mesh : Mesh T;
  ls_bandWidth : nat;
  ls_fixed : bool                    (* isFixedDomain *)
}.
Arguments mkLS {T} _ _ _ _ _ _ _ _ _ _ _ _ _.
Arguments ls_sd {T} _.
Arguments ls_vel {T} _.
Arguments ls_grad {T} _.
Arguments ls_target {T} _.
Arguments ls_band {T} _.
Arguments ls_mines {T} _.
Arguments ls_nBand {T} _.
Arguments ls_nMines {T} _.
Arguments ls_moveLimit {T} _.
Arguments ls_area {T} _.
Arguments ls_mesh {T} _.
Arguments ls_bandWidth {T} _.
Arguments ls_fixed {T} _.

Section setters.
  Context {T : Type}.
  (* Field updates; each models one assignment to a member. *)
  Definition set_sd (v : list T) (s : LevelSet T) := mkLS v (ls_vel s) (ls_grad s) (ls_target s) (ls_band s)
    (ls_mines s) (ls_nBand s) (ls_nMines s) (ls_moveLimit s) (ls_area s) (ls_mesh s) (ls_bandWidth s) (ls_fixed s).
  Definition set_vel (v : list T) (s : LevelSet T) := mkLS (ls_sd s) v (ls_grad s) (ls_target s) (ls_band s)
    (ls_mines s) (ls_nBand s) (ls_nMines s) (ls_moveLimit s) (ls_area s) (ls_mesh s) (ls_bandWidth s) (ls_fixed s).
  Definition set_grad (v : list T) (s : LevelSet T) := mkLS (ls_sd s) (ls_vel s) v (ls_target s) (ls_band s)
    (ls_mines s) (ls_nBand s) (ls_nMines s) (ls_moveLimit s) (ls_area s) (ls_mesh s) (ls_bandWidth s) (ls_fixed s).
  Definition set_target (v : list T) (s : LevelSet T) := mkLS (ls_sd s) (ls_vel s) (ls_grad s) v (ls_band s)
    (ls_mines s) (ls_nBand s) (ls_nMines s) (ls_moveLimit s) (ls_area s) (ls_mesh s) (ls_bandWidth s) (ls_fixed s).
  Definition set_band (b : list nat) (nb : nat) (mi : list nat) (nm : nat) (s : LevelSet T) :=
    mkLS (ls_sd s) (ls_vel s) (ls_grad s) (ls_target s) b
      mi nb nm (ls_moveLimit s) (ls_area s) (ls_mesh s) (ls_bandWidth s) (ls_fixed s).
  Definition set_area (a : option T) (s : LevelSet T) := mkLS (ls_sd s) (ls_vel s) (ls_grad s) (ls_target s) (ls_band s)
    (ls_mines s) (ls_nBand s) (ls_nMines s) (ls_moveLimit s) a (ls_mesh s) (ls_bandWidth s) (ls_fixed s).
  Definition set_mesh (m : Mesh T) (s : LevelSet T) := mkLS (ls_sd s) (ls_vel s) (ls_grad s) (ls_target s) (ls_band s)
    (ls_mines s) (ls_nBand s) (ls_nMines s) (ls_moveLimit s) (ls_area s) m (ls_bandWidth s) (ls_fixed s).

  Definition set_bp_velocity (v : T) (p : BoundaryPoint T) : BoundaryPoint T :=
    mkBP (bp_coord p) (bp_normal p) (bp_length p) v (bp_neg p) (bp_pos p) (bp_domain p) (bp_fixed p)
      (bp_nSegs p) (bp_segs p) (bp_nNeigh p) (bp_neigh p) (bp_sens p).

  (** mesh.nodes[i].member = ... *)
  Definition node_mod (i : nat) (f : Node T -> Node T) (m : Mesh T) : outcome (Mesh T) :=
    let! ns := vmod (m_nodes m) i f in Ok (set_nodes ns m).
  Definition elem_mod (i : nat) (f : Element T -> Element T) (m : Mesh T) : outcome (Mesh T) :=
    let! es := vmod (m_elements m) i f in Ok (set_elements es m).
End setters.

(** [std::sort] on at most 16 elements in libstdc++ (bits/stl_algo.h, __insertion_sort): an element
    that compares below the first is moved to the front, any other is moved back from the end of
    the sorted prefix while it compares below its predecessor. *)
Section Sort.
  Context {A : Type} (comp : A -> A -> bool).
  Fixpoint insert_back (v : A) (r : list A) : list A :=      (* [r] is the prefix reversed *)
    match r with
    | [] => [v]
    | x :: r' => if comp v x then x :: insert_back v r' else v :: x :: r'
    end.
  Definition insert1 (v : A) (p : list A) : list A :=
    match p with
    | [] => [v]
    | x :: _ => if comp v x then v :: p else reverse (insert_back v (reverse p))
    end.
  Definition insertion_sort (l : list A) : list A := fold_left (fun p v => insert1 v p) l [].
End Sort.

Section LevelSetModel.
  Context {T : Type} `{Num T}.
  Let lit1em6 : T := nlit 1 1000000.

  (** xyToIndex[x][y], signedDistance[xyToIndex[x][y]] *)
  Definition xy_index (m : Mesh T) (x y : nat) : outcome nat :=
    let! col := vget (m_xy m) x in vget col y.
  Definition sd_at (m : Mesh T) (sd : list T) (x y : nat) : outcome T :=
    let! i := xy_index m x y in vget sd i.

  (** An [unsigned int] index expression [p - k] or [p + k]. *)
  Definition usub (p k : nat) : nat := u32 (Z.of_nat p - Z.of_nat k).
  Definition uadd (p k : nat) : nat := u32 (Z.of_nat p + Z.of_nat k).

  (** ** Initialisation *)

  (** LevelSet.cpp:622-636, [closestDomainBoundary]. *)
  Definition closest_step (m : Mesh T) (i : nat) (sd : list T) : outcome (list T) :=
    let! n := vget (m_nodes m) i in
    let x := cx (nd_coord n) in
    let y := cy (nd_coord n) in
    let! minX := floor_u32 (nmin x (nofnat (m_width m) - x)%num) in
    let! minY := floor_u32 (nmin y (nofnat (m_height m) - y)%num) in
    vset sd i (nofnat (Nat.min minX minY)).
  Definition closestDomainBoundary (m : Mesh T) (sd : list T) : outcome (list T) :=
    for_ (m_nNodes m) (closest_step m) sd.

  (** LevelSet.cpp:568-582: node [i] against hole [j]. *)
  Definition hole_step (m : Mesh T) (holes : list (Hole T)) (i j : nat) (sd : list T) : outcome (list T) :=
    let! h := vget holes j in
    let! n := vget (m_nodes m) i in
    let dx := (cx (h_coord h) - cx (nd_coord n))%num in
    let dy := (cy (h_coord h) - cy (nd_coord n))%num in
    let dist := nsqrt (dx * dx + dy * dy)%num in
    let dist := (dist - h_r h)%num in
    let! s := vget sd i in
    if (dist <? s)%num then vset sd i dist else Ok sd.

  (** LevelSet.cpp:552-584, [initialise(holes)]. *)
  Definition init_holes (m : Mesh T) (holes : list (Hole T)) (sd : list T) : outcome (list T) :=
    let! sd := closestDomainBoundary m sd in
    for_ (m_nNodes m) (fun i sd => for_ (length holes) (hole_step m holes i) sd) sd.

  (** [std::round] of a non-negative value, converted to [unsigned int]. *)
  Definition round_u32 (x : T) : outcome nat :=
    let! f := floor_u32 x in
    if (x - nofnat f <? nlit 1 2)%num then Ok f else Ok (u32 (Z.of_nat f + 1)).

  (** LevelSet.cpp:485-550, [initialise()]: the Swiss cheese holes. *)
  Definition swiss_holes (m : Mesh T) : outcome (list (Hole T)) :=
    let! nx := round_u32 (nofnat (m_width m) / nofZ 30)%num in
    let! ny := round_u32 (nofnat (m_height m) / nofZ 30)%num in
    let n1 := u32 (Z.of_nat nx * Z.of_nat ny) in
    let n2 := u32 ((Z.of_nat nx - 1) * (Z.of_nat ny - 1)) in
    let nHoles := u32 (Z.of_nat n1 + Z.of_nat n2) in
    let holes := replicate nHoles (mkHole (mkCoord n0 n0) n0) in
    let! _ := check ((2 <? nx)%nat && (2 <? ny)%nat) in
    let dx := (nofnat (m_width m) / nofnat (u32 (2 * Z.of_nat nx)))%num in
    let dy := (nofnat (m_height m) / nofnat (u32 (2 * Z.of_nat ny)))%num in
    let! holes := for_ n1 (fun i holes =>
      let! x := umod i nx in
      let! y := udiv i nx in
      vset holes i (mkHole (mkCoord (dx + nofnat (u32 (2 * Z.of_nat x)) * dx)
                                    (dy + nofnat (u32 (2 * Z.of_nat y)) * dy))%num (nofZ 5))) holes in
    for_ n2 (fun i holes =>
      let! x := umod i (usub nx 1) in
      let! y := udiv i (usub nx 1) in
      vset holes (uadd i n1) (mkHole (mkCoord (nofZ 2 * (dx + nofnat x * dx))
                                              (nofZ 2 * (dy + nofnat y * dy)))%num (nofZ 5))) holes.

  (** LevelSet.cpp:1242-1290, [pointToLineDistance]. *)
  Definition pointToLineDistance (v1 v2 p : Coord T) : T :=
    let dx := (cx v2 - cx v1)%num in
    let dy := (cy v2 - cy v1)%num in
    let rSqd := (dx * dx + dy * dy)%num in
    if (rSqd <? lit1em6)%num then
      let dx := (cx p - cx v1)%num in
      let dy := (cy p - cy v1)%num in
      nsqrt (dx * dx + dy * dy)%num
    else
      let t := (((cx p - cx v1) * dx + (cy p - cy v1) * dy) / rSqd)%num in
      let t := nmax n0 (nmin n1 t) in
      let x := (cx v1 + t * dx)%num in
      let y := (cy v1 + t * dy)%num in
      let dx := (x - cx p)%num in
      let dy := (y - cy p)%num in
      nsqrt (dx * dx + dy * dy)%num.

  (** LevelSet.cpp:1335-1339, [isLeftOfLine]: the [double] result is returned as [int]. *)
  Definition isLeftOfLine (v1 v2 p : Coord T) : outcome Z :=
    trunc_i32 ((cx v2 - cx v1) * (cy p - cy v1) - (cx p - cx v1) * (cy v2 - cy v1))%num.

  (** A loop over j < points.size()-1.  For an empty vector the bound is the largest size_t and the
      first iteration reads points[0]. *)
  Definition for_edges {S} (points : list (Coord T)) (f : nat -> S -> outcome S) (s : S) : outcome S :=
    match points with
    | [] => UB
    | _ => for_ (length points - 1) f s
    end.

  (** LevelSet.cpp:1292-1333, [isInsidePolygon]. *)
  Definition winding_step (p : Coord T) (vs : list (Coord T)) (i : nat) (w : Z) : outcome Z :=
    let! a := vget vs i in
    let! b := vget vs (i + 1) in
    if (cy a <=? cy p)%num then
      if (cy b >? cy p)%num then
        let! l := isLeftOfLine a b p in
        if (0 <? l)%Z then Ok (w + 1)%Z else Ok w
      else Ok w
    else
      if (cy b <=? cy p)%num then
        let! l := isLeftOfLine a b p in
        if (l <? 0)%Z then Ok (w - 1)%Z else Ok w
      else Ok w.
  Definition isInsidePolygon (p : Coord T) (vs : list (Coord T)) : outcome bool :=
    let! w := for_edges vs (winding_step p vs) 0%Z in
    Ok (negb (w =? 0)%Z).

  (** LevelSet.cpp:586-620, [initialise(points)]. *)
  Definition points_node (m : Mesh T) (points : list (Coord T)) (i : nat) (sd : list T) : outcome (list T) :=
    let! sd := for_edges points (fun j sd =>
      let! a := vget points j in
      let! b := vget points (j + 1) in
      let! n := vget (m_nodes m) i in
      let dist := pointToLineDistance a b (nd_coord n) in
      let! s := vget sd i in
      if (dist <? s)%num then vset sd i dist else Ok sd) sd in
    let! n := vget (m_nodes m) i in
    let! inside := isInsidePolygon (nd_coord n) points in
    if inside then let! s := vget sd i in vset sd i (s * nofZ (-1))%num else Ok sd.
  Definition init_points (m : Mesh T) (points : list (Coord T)) (sd : list T) : outcome (list T) :=
    let! sd := closestDomainBoundary m sd in
    for_ (m_nNodes m) (points_node m points) sd.

  (** ** The narrow band *)

  (** LevelSet.cpp:651-697, node [i]; state: mesh, narrowBand, nNarrowBand, mines, nMines. *)
  Definition Band : Type := Mesh T * list nat * nat * list nat * nat.
  Definition band_step (sd : list T) (bandWidth : nat) (isFixed : bool) (i : nat) (s : Band) : outcome Band :=
    let '(m, band, nb, mines, nm) := s in
    let mineWidth := usub bandWidth 1 in
    let! m := node_mod i (set_nd_active false) m in
    let! n := vget (m_nodes m) i in
    if negb (nd_masked n) && (negb (nd_domain n) || negb isFixed) then
      let! d := vget sd i in
      let a := nabs d in
      if (a <? nofnat bandWidth)%num then
        let! m := node_mod i (set_nd_active true) m in
        let! band := vset band nb i in
        let nb := nb + 1 in
        if (a >? nofnat mineWidth)%num then
          let! m := node_mod i (set_nd_mine true) m in
          let! mines := vset mines nm i in
          let nm := nm + 1 in
          let mines :=
            if (nm =? length mines)%nat then
              let newSize := Nat.min (u32 (2 * Z.of_nat nm)) (m_nNodes m) in
              take newSize mines ++ replicate (newSize - length mines) 0     (* mines.resize(newSize) *)
            else mines in
          Ok (m, band, nb, mines, nm)
        else Ok (m, band, nb, mines, nm)
      else Ok (m, band, nb, mines, nm)
    else Ok (m, band, nb, mines, nm).

  (** LevelSet.cpp:638-698, [initialiseNarrowBand]. *)
  Definition initialiseNarrowBand (s : LevelSet T) : outcome (LevelSet T) :=
    let! (m, band, nb, mines, nm) :=
      for_ (m_nNodes (ls_mesh s)) (band_step (ls_sd s) (ls_bandWidth s) (ls_fixed s))
        (ls_mesh s, ls_band s, 0, ls_mines s, 0) in
    Ok (set_mesh m (set_band band nb mines nm s)).

  (** LevelSet.cpp:372-382, [reinitialise]. *)
  Definition reinitialise (s : LevelSet T) : outcome (LevelSet T) :=
    let! (_, sd) := fmm_march (ls_mesh s) (fmm_new (ls_mesh s) false) (ls_sd s) in
    initialiseNarrowBand (set_sd sd s).

  (** ** Constructors *)

  (** LevelSet.cpp:35-55 and the same lines of the other constructors: member initialisers, checks,
      resizing.  [withTarget]: the constructors that also resize [target]. *)
  Definition ls_alloc (width height : nat) (moveLimit : T) (bandWidth : nat) (isFixed withTarget : bool)
      : outcome (LevelSet T) :=
    let! m := mesh_new width height in
    let! size := trunc_i32 (nlit 2 10 * nofnat (m_nNodes m))%num in
    let! _ := check (2 <? bandWidth)%nat in
    let! _ := check ((moveLimit >? n0)%num && (moveLimit <? n1)%num) in
    let zeros := replicate (m_nNodes m) n0 in
    Ok (mkLS zeros zeros zeros (if withTarget then zeros else []) (replicate (m_nNodes m) 0)
          (replicate (Z.to_nat (Z.max 25 size)) 0) 0 0 moveLimit None m bandWidth isFixed).

  Definition init_sd (f : Mesh T -> list T -> outcome (list T)) (s : LevelSet T) : outcome (LevelSet T) :=
    let! sd := f (ls_mesh s) (ls_sd s) in Ok (set_sd sd s).

  (** LevelSet.cpp:485-550 as called by the first constructor. *)
  Definition init_swiss (m : Mesh T) (sd : list T) : outcome (list T) :=
    let! holes := swiss_holes m in init_holes m holes sd.

  (** LevelSet.cpp:35-67, 69-101, 103-135: constructors without a target, by initialisation [f]. *)
  Definition ls_new (f : Mesh T -> list T -> outcome (list T))
      (width height : nat) (moveLimit : T) (bandWidth : nat) (isFixed : bool) : outcome (LevelSet T) :=
    let! s := ls_alloc width height moveLimit bandWidth isFixed false in
    let! s := init_sd f s in
    initialiseNarrowBand s.
  Definition ls_new_swiss := ls_new init_swiss.
  Definition ls_new_holes (w h : nat) (holes : list (Hole T)) := ls_new (fun m => init_holes m holes) w h.
  Definition ls_new_points (w h : nat) (points : list (Coord T)) := ls_new (fun m => init_points m points) w h.

  (** LevelSet.cpp:137-179, 181-223, 225-267: constructors with a target. *)
  Definition ls_new_target (f g : Mesh T -> list T -> outcome (list T))
      (width height : nat) (moveLimit : T) (bandWidth : nat) (isFixed : bool) : outcome (LevelSet T) :=
    let! s := ls_alloc width height moveLimit bandWidth isFixed true in
    let! s := init_sd g s in
    let! s := reinitialise s in
    let s := set_target (ls_sd s) s in
    let! s := init_sd f s in
    initialiseNarrowBand s.
  Definition ls_new_holes_holes (w h : nat) (initial target : list (Hole T)) :=
    ls_new_target (fun m => init_holes m initial) (fun m => init_holes m target) w h.
  Definition ls_new_holes_points (w h : nat) (holes : list (Hole T)) (points : list (Coord T)) :=
    ls_new_target (fun m => init_holes m holes) (fun m => init_points m points) w h.
  Definition ls_new_points_points (w h : nat) (initial target : list (Coord T)) :=
    ls_new_target (fun m => init_points m initial) (fun m => init_points m target) w h.

  (** ** Update *)

  (** LevelSet.cpp:272-287, one narrow band node; state: signedDistance, mesh. *)
  Definition update_step (s : LevelSet T) (timeStep : T) (i : nat) (st : list T * Mesh T)
      : outcome (list T * Mesh T) :=
    let '(sd, m) := st in
    let! node := vget (ls_band s) i in
    let! d := vget sd node in
    let! g := vget (ls_grad s) node in
    let! v := vget (ls_vel s) node in
    let! sd := vset sd node (d - timeStep * g * v)%num in
    let! n := vget (m_nodes m) node in
    let! sd :=
      (if nd_domain n then
         let! d := vget sd node in
         if (d >? n0)%num then vset sd node n0 else Ok sd
       else Ok sd) in
    let! m := node_mod node (fun n => set_nd_bpts (nd_bpts n) 0 n) m in
    Ok (sd, m).

  (** LevelSet.cpp:289-300: is some mine, from number [i] on, within one unit of the boundary? *)
  Fixpoint mine_hit (sd : list T) (mines : list nat) (i n : nat) : outcome bool :=
    match n with
    | 0 => Ok false
    | S n' =>
        let! k := vget mines i in
        let! d := vget sd k in
        if (nabs d <? n1)%num then Ok true else mine_hit sd mines (S i) n'
    end.

  (** LevelSet.cpp:269-303, [update]. *)
  Definition update (s : LevelSet T) (timeStep : T) : outcome (LevelSet T * bool) :=
    let! (sd, m) := for_ (ls_nBand s) (update_step s timeStep) (ls_sd s, ls_mesh s) in
    let s := set_mesh m (set_sd sd s) in
    let! hit := mine_hit (ls_sd s) (ls_mines s) 0 (ls_nMines s) in
    if hit then let! s := reinitialise s in Ok (s, true) else Ok (s, false).

  (** ** Masking *)

  (** signedDistance[i] = -1e-6; mesh.nodes[i].isMasked = true; *)
  Definition mask_node (i : nat) (st : list T * Mesh T) : outcome (list T * Mesh T) :=
    let '(sd, m) := st in
    let! sd := vset sd i (- lit1em6)%num in
    let! m := node_mod i (set_nd_masked true) m in
    Ok (sd, m).

  (** LevelSet.cpp:310-326: node [i] against hole [j]. *)
  Definition mask_hole_step (holes : list (Hole T)) (i j : nat) (st : list T * Mesh T) : outcome (list T * Mesh T) :=
    let! h := vget holes j in
    let! n := vget (m_nodes st.2) i in
    let dx := (cx (h_coord h) - cx (nd_coord n))%num in
    let dy := (cy (h_coord h) - cy (nd_coord n))%num in
    let dist := nsqrt (dx * dx + dy * dy)%num in
    if (dist <? h_r h)%num then mask_node i st else Ok st.

  Definition mask_holes_only (s : LevelSet T) (holes : list (Hole T)) : outcome (LevelSet T) :=
    let! (sd, m) := for_ (m_nNodes (ls_mesh s))
      (fun i st => for_ (length holes) (mask_hole_step holes i) st) (ls_sd s, ls_mesh s) in
    Ok (set_mesh m (set_sd sd s)).

  (** LevelSet.cpp:305-331, [mask(holes)]. *)
  Definition mask_holes (s : LevelSet T) (holes : list (Hole T)) : outcome (LevelSet T) :=
    let! s := mask_holes_only s holes in reinitialise s.

  (** LevelSet.cpp:338-351 and 354-365: node [i]. *)
  Definition mask_rect_step (a b : Coord T) (i : nat) (st : list T * Mesh T) : outcome (list T * Mesh T) :=
    let! n := vget (m_nodes st.2) i in
    let x := cx (nd_coord n) in
    let y := cy (nd_coord n) in
    if ((x >? cx a) && (y >? cy a) && (x <? cx b) && (y <? cy b))%num then mask_node i st else Ok st.
  Definition mask_poly_step (points : list (Coord T)) (i : nat) (st : list T * Mesh T) : outcome (list T * Mesh T) :=
    let! n := vget (m_nodes st.2) i in
    let! inside := isInsidePolygon (nd_coord n) points in
    if inside then mask_node i st else Ok st.

  Definition mask_points_only (s : LevelSet T) (points : list (Coord T)) : outcome (LevelSet T) :=
    let! (sd, m) :=
      for_ (m_nNodes (ls_mesh s))
        (match points with
         | [a; b] => mask_rect_step a b
         | _ => mask_poly_step points
         end) (ls_sd s, ls_mesh s) in
    Ok (set_mesh m (set_sd sd s)).

  (** LevelSet.cpp:333-370, [mask(points)]. *)
  Definition mask_points (s : LevelSet T) (points : list (Coord T)) : outcome (LevelSet T) :=
    let! s := mask_points_only s points in reinitialise s.

  (** ** Velocities *)

  (** LevelSet.cpp:726-748 and 759-782: the contribution of boundary point [p] to node [node];
      state: velocity, weight, isSet.  For a neighbour of the closest node ([limit]) the squared
      distance must not exceed 1. *)
  Definition VelState : Type := list T * list T * list bool.
  Definition vel_contrib (m : Mesh T) (p : BoundaryPoint T) (limit : bool) (node : nat) (st : VelState)
      : outcome VelState :=
    let '(vel, weight, isSet) := st in
    let! n := vget (m_nodes m) node in
    let dx := (cx (nd_coord n) - cx (bp_coord p))%num in
    let dy := (cy (nd_coord n) - cy (bp_coord p))%num in
    let rSqd := (dx * dx + dy * dy)%num in
    if (rSqd <? lit1em6)%num then
      let! vel := vset vel node (bp_velocity p) in
      let! weight := vset weight node n1 in
      let! isSet := vset isSet node true in
      Ok (vel, weight, isSet)
    else if negb limit || (rSqd <=? n1)%num then
      let! b := vget isSet node in
      if negb b then
        let! v := vget vel node in
        let! vel := vset vel node (v + bp_velocity p / rSqd)%num in
        let! w := vget weight node in
        let! weight := vset weight node (w + n1 / rSqd)%num in
        Ok (vel, weight, isSet)
      else Ok st
    else Ok st.

  (** LevelSet.cpp:720-785, boundary point [i]. *)
  Definition vel_point (m : Mesh T) (points : list (BoundaryPoint T)) (i : nat) (st : VelState) : outcome VelState :=
    let! p := vget points i in
    let! node := getClosestNode m (cx (bp_coord p)) (cy (bp_coord p)) in
    let! st := vel_contrib m p false node st in
    for_ 4 (fun j st =>
      let! neighbour := neigh m node j in
      if (neighbour <? m_nNodes m)%nat then vel_contrib m p true neighbour st else Ok st) st.

  (** LevelSet.cpp:787-792: if (velocity[node]) velocity[node] /= weight[node]; *)
  Definition vel_normalise (band : list nat) (weight : list T) (i : nat) (vel : list T) : outcome (list T) :=
    let! node := vget band i in
    let! v := vget vel node in
    if negb (v =? n0)%num then
      let! w := vget weight node in vset vel node (v / w)%num
    else Ok vel.

  (** LevelSet.cpp:700-793, [initialiseVelocities]. *)
  Definition initialiseVelocities (s : LevelSet T) (points : list (BoundaryPoint T)) : outcome (list T) :=
    let m := ls_mesh s in
    let N := m_nNodes m in
    let! vel := for_ N (fun i vel => vset vel i n0) (ls_vel s) in
    let! (vel, weight, _) :=
      for_ (length points) (vel_point m points) (vel, replicate N n0, replicate N false) in
    for_ (ls_nBand s) (vel_normalise (ls_band s) weight) vel.

  (** LevelSet.cpp:384-394, [computeVelocities(boundaryPoints)]. *)
  Definition computeVelocities (s : LevelSet T) (points : list (BoundaryPoint T)) : outcome (LevelSet T) :=
    let! vel := initialiseVelocities s points in
    let! (_, sd, vel) := fmm_march_vel (ls_mesh s) (fmm_new (ls_mesh s) false) (ls_sd s) vel in
    Ok (set_vel vel (set_sd sd s)).

  (** LevelSet.cpp:396-433, [computeVelocities(boundaryPoints, timeStep, temperature, rng)];
      [rng k] is the k-th result of rng.normal(0, 1).  Returns the level set, the boundary points,
      the time step and the scale factor. *)
  Definition noisy_points (noise : T) (rng : nat -> T) (points : list (BoundaryPoint T)) : list (BoundaryPoint T) :=
    imap (fun i p => set_bp_velocity (bp_velocity p + (noise / nsqrt (bp_length p)) * rng i)%num p) points.
  Definition computeVelocities_noise (s : LevelSet T) (points : list (BoundaryPoint T))
      (timeStep temperature : T) (rng : nat -> T) : outcome (LevelSet T * list (BoundaryPoint T) * T * T) :=
    let sqrt2T := nsqrt (nofZ 2 * temperature)%num in
    let '(timeStep, scale) :=
      if (sqrt2T * nsqrt timeStep >? nlit 1 2 * ls_moveLimit s)%num then
        let scale := ((nofZ 8 * timeStep * temperature) / (ls_moveLimit s * ls_moveLimit s))%num in
        ((timeStep / scale)%num, scale)
      else (timeStep, n1) in
    let noise := (sqrt2T / nsqrt timeStep)%num in
    let points := noisy_points noise rng points in
    let! s := computeVelocities s points in
    Ok (s, points, timeStep, scale).

  (** ** Gradients *)

  (** LevelSet.cpp:1197-1240, [gradHJWENO]. *)
  Definition gradHJWENO (v1 v2 v3 v4 v5 : T) : T :=
    let oneQuarter := (nofZ 1 / nofZ 4)%num in
    let thirteenTwelths := (nofZ 13 / nofZ 12)%num in
    let eps := lit1em6 in
    let s1 := (thirteenTwelths * (v1 - nofZ 2 * v2 + v3) * (v1 - nofZ 2 * v2 + v3)
               + oneQuarter * (v1 - nofZ 4 * v2 + nofZ 3 * v3) * (v1 - nofZ 4 * v2 + nofZ 3 * v3))%num in
    let s2 := (thirteenTwelths * (v2 - nofZ 2 * v3 + v4) * (v2 - nofZ 2 * v3 + v4)
               + oneQuarter * (v2 - v4) * (v2 - v4))%num in
    let s3 := (thirteenTwelths * (v3 - nofZ 2 * v4 + v5) * (v3 - nofZ 2 * v4 + v5)
               + oneQuarter * (nofZ 3 * v3 - nofZ 4 * v4 + v5) * (nofZ 3 * v3 - nofZ 4 * v4 + v5))%num in
    let alpha1 := (nlit 1 10 / ((s1 + eps) * (s1 + eps)))%num in
    let alpha2 := (nlit 6 10 / ((s2 + eps) * (s2 + eps)))%num in
    let alpha3 := (nlit 3 10 / ((s3 + eps) * (s3 + eps)))%num in
    let totalWeight := (alpha1 + alpha2 + alpha3)%num in
    let w1 := (alpha1 / totalWeight)%num in
    let w2 := (alpha2 / totalWeight)%num in
    let w3 := (alpha3 / totalWeight)%num in
    let grad := (w1 * (nofZ 2 * v1 - nofZ 7 * v2 + nofZ 11 * v3)
                 + w2 * (nofZ 5 * v3 - v2 + nofZ 2 * v4)
                 + w3 * (nofZ 2 * v3 + nofZ 5 * v4 - v5))%num in
    (grad * (nofZ 1 / nofZ 6))%num.

  (** The stencils.  [g k] is the signed distance at position [k] on the grid line through the node
      in the direction considered, [n] is the last position (mesh.width or mesh.height), [p] the
      node's position.  The code spells out the same cases once for x and once for y. *)
  Section Stencil.
    Variable g : nat -> outcome T.
    Variables n p : nat.
    Let diff (a b : nat) : outcome T := let! u := g a in let! v := g b in Ok (u - v)%num.

    (** LevelSet.cpp:887-957 (derivatives to right) and 1035-1105 (upward derivatives). *)
    Definition stencil_forward : outcome (T * T * T * T * T) :=
      if (p =? 0)%nat then
        let! v1 := diff 3 2 in let! v2 := diff 2 1 in let! v3 := diff 1 0 in
        Ok (v1, v2, v3, v3, v3)
      else if (p =? 1)%nat then
        let! v1 := diff 4 3 in let! v2 := diff 3 2 in let! v3 := diff 2 1 in let! v4 := diff 1 0 in
        Ok (v1, v2, v3, v4, v4)
      else if (p =? n)%nat then
        let! v5 := diff (usub p 1) (usub p 2) in let! v4 := diff p (usub p 1) in
        Ok (v4, v4, v4, v4, v5)
      else if (p =? usub n 1)%nat then
        let! v5 := diff (usub p 1) (usub p 2) in let! v4 := diff p (usub p 1) in
        let! v3 := diff (uadd p 1) p in
        Ok (v3, v3, v3, v4, v5)
      else if (p =? usub n 2)%nat then
        let! v5 := diff (usub p 1) (usub p 2) in let! v4 := diff p (usub p 1) in
        let! v3 := diff (uadd p 1) p in let! v2 := diff (uadd p 2) (uadd p 1) in
        Ok (v2, v2, v3, v4, v5)
      else
        let! v1 := diff (uadd p 3) (uadd p 2) in let! v2 := diff (uadd p 2) (uadd p 1) in
        let! v3 := diff (uadd p 1) p in let! v4 := diff p (usub p 1) in
        let! v5 := diff (usub p 1) (usub p 2) in
        Ok (v1, v2, v3, v4, v5).

    (** LevelSet.cpp:961-1031 (derivatives to left) and 1109-1179 (downward derivatives). *)
    Definition stencil_backward : outcome (T * T * T * T * T) :=
      if (p =? n)%nat then
        let! v1 := diff (usub p 2) (usub p 3) in let! v2 := diff (usub p 1) (usub p 2) in
        let! v3 := diff p (usub p 1) in
        Ok (v1, v2, v3, v3, v3)
      else if (p =? usub n 1)%nat then
        let! v1 := diff (usub p 2) (usub p 3) in let! v2 := diff (usub p 1) (usub p 2) in
        let! v3 := diff p (usub p 1) in let! v4 := diff (uadd p 1) p in
        Ok (v1, v2, v3, v4, v4)
      else if (p =? 0)%nat then
        let! v5 := diff 2 1 in let! v4 := diff 1 0 in
        Ok (v4, v4, v4, v4, v5)
      else if (p =? 1)%nat then
        let! v5 := diff 3 2 in let! v4 := diff 2 1 in let! v3 := diff 1 0 in
        Ok (v3, v3, v3, v4, v5)
      else if (p =? 2)%nat then
        let! v5 := diff 4 3 in let! v4 := diff 3 2 in let! v3 := diff 2 1 in let! v2 := diff 1 0 in
        Ok (v2, v2, v3, v4, v5)
      else
        let! v1 := diff (usub p 2) (usub p 3) in let! v2 := diff (usub p 1) (usub p 2) in
        let! v3 := diff p (usub p 1) in let! v4 := diff (uadd p 1) p in
        let! v5 := diff (uadd p 2) (uadd p 1) in
        Ok (v1, v2, v3, v4, v5).
  End Stencil.

  Definition weno_at (st : outcome (T * T * T * T * T)) (sign : T) : outcome T :=
    let! (v1, v2, v3, v4, v5) := st in Ok (sign * gradHJWENO v1 v2 v3 v4 v5)%num.

  (** LevelSet.cpp:813-826 and the three other corners (828-841, 847-860, 862-875): [None] if the
      corner node does not have the value of both neighbours, with x' and y' the neighbouring
      positions. *)
  Definition corner_gradient (m : Mesh T) (sd : list T) (lsf : T) (x y x' y' : nat) : outcome (option T) :=
    let! a := sd_at m sd x' y in
    if (nabs (a - lsf) <? lit1em6)%num then
      let! b := sd_at m sd x y' in
      if (nabs (b - lsf) <? lit1em6)%num then
        let! c := sd_at m sd x' y' in
        Ok (Some (nabs (lsf - c) * nsqrt (nofZ 2))%num)
      else Ok None
    else Ok None.

  (** LevelSet.cpp:795-1195, [computeGradient]. *)
  Definition computeGradient (m : Mesh T) (sd vel : list T) (node : nat) : outcome T :=
    let! n := vget (m_nodes m) node in
    let! x := floor_u32 (cx (nd_coord n)) in
    let! y := floor_u32 (cy (nd_coord n)) in
    let! lsf := vget sd node in
    let! corner :=
      (if (x =? 0)%nat then
         if (y =? 0)%nat then corner_gradient m sd lsf x y (uadd x 1) (uadd y 1)
         else if (y =? m_height m)%nat then corner_gradient m sd lsf x y (uadd x 1) (usub y 1)
         else Ok None
       else if (x =? m_width m)%nat then
         if (y =? 0)%nat then corner_gradient m sd lsf x y (usub x 1) (uadd y 1)
         else if (y =? m_height m)%nat then corner_gradient m sd lsf x y (usub x 1) (usub y 1)
         else Ok None
       else Ok None) in
    match corner with
    | Some grad => Ok grad
    | None =>
        let! v := vget vel node in
        let sign := if (v <? n0)%num then nofZ (-1) else nofZ 1 in
        let gx k := sd_at m sd k y in
        let gy k := sd_at m sd x k in
        let! gradRight := weno_at (stencil_forward gx (m_width m) x) sign in
        let! gradLeft := weno_at (stencil_backward gx (m_width m) x) sign in
        let! gradUp := weno_at (stencil_forward gy (m_height m) y) sign in
        let! gradDown := weno_at (stencil_backward gy (m_height m) y) sign in
        let grad := n0 in
        let grad := if (gradDown >? n0)%num then (grad + gradDown * gradDown)%num else grad in
        let grad := if (gradLeft >? n0)%num then (grad + gradLeft * gradLeft)%num else grad in
        let grad := if (gradUp <? n0)%num then (grad + gradUp * gradUp)%num else grad in
        let grad := if (gradRight <? n0)%num then (grad + gradRight * gradRight)%num else grad in
        Ok (nsqrt grad)
    end.

  (** LevelSet.cpp:443-458, [computeGradients]. *)
  Definition computeGradients (s : LevelSet T) : outcome (LevelSet T) :=
    let grad := replicate (length (ls_grad s)) n0 in
    let! grad := for_ (ls_nBand s) (fun i grad =>
      let! node := vget (ls_band s) i in
      let! g := computeGradient (ls_mesh s) (ls_sd s) (ls_vel s) node in
      vset grad node g) grad in
    Ok (set_grad grad s).

  (** ** Areas *)

  (** LevelSet.cpp:1426-1459, [isClockwise] (the statements after the second return are dead code). *)
  Definition isClockwise (c p1 p2 : Coord T) : bool :=
    let x1 := (cx p1 - cx c)%num in
    let x2 := (cx p2 - cx c)%num in
    let y1 := (cy p1 - cy c)%num in
    let y2 := (cy p2 - cy c)%num in
    if (x1 >=? n0)%num && (x2 <? n0)%num then false
    else if (x1 <? n0)%num && (x2 >=? n0)%num then true
    else if (x1 =? n0)%num && (x2 =? n0)%num then
      if (y1 >=? n0)%num || (y2 >=? n0)%num then
        if (cy p1 >? cy p2)%num then false else true
      else if (cy p2 >? cy p1)%num then false else true
    else
      let det := (x1 * y2 - x2 * y1)%num in
      if (det <? n0)%num then false else true.

  (** LevelSet.cpp:1461-1482, [polygonArea]; [vertices] are the first nVertices entries. *)
  Definition shoelace (vs : list (Coord T)) : outcome T :=
    for_ (length vs) (fun i area =>
      let j := if (i =? length vs - 1)%nat then 0 else i + 1 in
      let! a := vget vs i in
      let! b := vget vs j in
      let area := (area + cx a * cy b)%num in
      Ok (area - cx b * cy a)%num) n0.
  Definition polygonArea (vs : list (Coord T)) (c : Coord T) : outcome T :=
    let! area := shoelace (insertion_sort (isClockwise c) vs) in
    Ok (nabs (area * nlit 1 2)%num).

  Definition is_inside (s : NodeStatus) : bool := match s with NS_INSIDE => true | _ => false end.
  Definition is_outside (s : NodeStatus) : bool := match s with NS_OUTSIDE => true | _ => false end.
  Definition is_boundary (s : NodeStatus) : bool := match s with NS_BOUNDARY => true | _ => false end.
  Definition node_status (m : Mesh T) (i : nat) : outcome NodeStatus :=
    let! n := vget (m_nodes m) i in init_get (nd_status n).

  (** vertices[nVertices] = p; nVertices++; with six slots. *)
  Definition push_vertex (p : Coord T) (vs : list (Coord T)) : outcome (list (Coord T)) :=
    if (length vs <? 6)%nat then Ok (vs ++ [p]) else UB.

  (** LevelSet.cpp:1356-1396, corner [i] of the element. *)
  Definition cut_corner (m : Mesh T) (e : Element T) (outside : bool) (i : nat) (vs : list (Coord T))
      : outcome (list (Coord T)) :=
    let! node := vget (e_nodes e) i in
    let! n := vget (m_nodes m) node in
    let! st := init_get (nd_status n) in
    if (if outside then is_outside st else is_inside st) then push_vertex (nd_coord n) vs
    else if is_boundary st then
      let! k1 := vget (e_nodes e) (if (i =? 3)%nat then 0 else i + 1) in
      let! k2 := vget (e_nodes e) (if (i =? 0)%nat then 3 else i - 1) in
      let! s1 := node_status m k1 in
      if is_inside s1 then
        let! s2 := node_status m k2 in
        if is_inside s2 then push_vertex (nd_coord n) vs else Ok vs
      else Ok vs
    else Ok vs.

  (** LevelSet.cpp:1399-1417, segment [i] of the element. *)
  Definition cut_segment (b : Boundary T) (e : Element T) (i : nat) (vs : list (Coord T)) : outcome (list (Coord T)) :=
    let! k := vget (e_segs e) i in
    let! sg := vget (bd_segs b) k in
    let! p := vget (bd_points b) (sg_start sg) in
    let! vs := push_vertex (bp_coord p) vs in
    let! q := vget (bd_points b) (sg_end sg) in
    push_vertex (bp_coord q) vs.

  (** LevelSet.cpp:1341-1424, [cutArea]. *)
  Definition cutArea (m : Mesh T) (b : Boundary T) (e : Element T) : outcome T :=
    let! st := init_get (e_status e) in
    let outside := match st with ES_CENTRE_OUTSIDE => true | _ => false end in
    let! vs := for_ 4 (cut_corner m e outside) [] in
    let! nSegs := init_get (e_nSegs e) in
    let! vs := for_ nSegs (cut_segment b e) vs in
    let! a := polygonArea vs (e_coord e) in
    Ok (if outside then (n1 - a)%num else a).

  (** LevelSet.cpp:460-483, [computeAreaFractions]. *)
  Definition area_step (b : Boundary T) (i : nat) (s : Mesh T * T) : outcome (Mesh T * T) :=
    let '(m, area) := s in
    let! e := vget (m_elements m) i in
    let! st := init_get (e_status e) in
    let! a := (match st with
               | ES_INSIDE => Ok (nofZ 1)
               | ES_OUTSIDE => Ok (nofZ 0)
               | _ => cutArea m b e
               end) in
    let! m := elem_mod i (set_e_area a) m in
    Ok (m, (area + a)%num).
  Definition computeAreaFractions (s : LevelSet T) (b : Boundary T) : outcome (LevelSet T * T) :=
    let! (m, area) := for_ (m_nElements (ls_mesh s)) (area_step b) (ls_mesh s, n0) in
    Ok (set_area (Some area) (set_mesh m s), area).
End LevelSetModel.
