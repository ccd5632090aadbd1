(** * MeshModel: src/Common.h (Coord), src/Mesh.h, src/Mesh.cpp (complete). *)

From Verif Require Export Num.

(** The value of an [unsigned int] expression built from [+], [-] and [*]: the integer result
    modulo 2^32 (reducing once at the end is the same as reducing after every operation). *)
Definition u32 (z : Z) : nat := Z.to_nat (z mod 2 ^ 32).
(** [a % b], [a / b] on [unsigned int]: undefined for [b = 0]. *)
Definition umod (a b : nat) : outcome nat := if (b =? 0)%nat then UB else Ok (a mod b).
Definition udiv (a b : nat) : outcome nat := if (b =? 0)%nat then UB else Ok (a / b).

(** Mesh.h:41-56, [NodeStatus].  [CUT] is only used as the union of the statuses of two nodes. *)
Inductive NodeStatus := NS_NONE | NS_INSIDE | NS_OUTSIDE | NS_BOUNDARY.

(** Mesh.h:60-70, [ElementStatus]. *)
Inductive ElementStatus := ES_NONE | ES_INSIDE | ES_OUTSIDE | ES_CENTRE_INSIDE | ES_CENTRE_OUTSIDE.

(** Common.h:28-44, [Coord]. *)
Record Coord (T : Type) := mkCoord { cx : T; cy : T }.
Arguments mkCoord {T} _ _.
Arguments cx {T} _.
Arguments cy {T} _.

(** Mesh.h:73-84, [Element].  [nBoundarySegments] and [status] are not initialised by the
    constructor. *)
Record Element (T : Type) := mkElement {
  e_coord : Coord T;
  e_area : T;
  e_nodes : list nat;
  e_segs : list nat;                 (* boundarySegments *)
  e_nSegs : option nat;              (* nBoundarySegments *)
  e_status : option ElementStatus
}.
Arguments mkElement {T} _ _ _ _ _ _.
Arguments e_coord {T} _.
Arguments e_area {T} _.
Arguments e_nodes {T} _.
Arguments e_segs {T} _.
Arguments e_nSegs {T} _.
Arguments e_status {T} _.

(** Mesh.h:87-103, [Node].  [nBoundaryPoints] and [status] are not initialised by the
    constructor; [initialiseNodes] sets the former for every node before anything reads it, so
    it is modelled as a plain number. *)
Record Node (T : Type) := mkNode {
  nd_coord : Coord T;
  nd_neigh : list nat;               (* neighbours: left, right, down, up *)
  nd_elems : list nat;               (* elements *)
  nd_nElems : nat;                   (* nElements *)
  nd_bpts : list nat;                (* boundaryPoints *)
  nd_nBpts : nat;                    (* nBoundaryPoints *)
  nd_active : bool;
  nd_domain : bool;
  nd_masked : bool;
  nd_mine : bool;
  nd_status : option NodeStatus
}.
Arguments mkNode {T} _ _ _ _ _ _ _ _ _ _ _.
Arguments nd_coord {T} _.
Arguments nd_neigh {T} _.
Arguments nd_elems {T} _.
Arguments nd_nElems {T} _.
Arguments nd_bpts {T} _.
Arguments nd_nBpts {T} _.
Arguments nd_active {T} _.
Arguments nd_domain {T} _.
Arguments nd_masked {T} _.
Arguments nd_mine {T} _.
Arguments nd_status {T} _.

(** Mesh.h:186-196, the public data members of [Mesh]. *)
Record Mesh (T : Type) := mkMesh {
  m_elements : list (Element T);
  m_nodes : list (Node T);
  m_width : nat;
  m_height : nat;
  m_nElements : nat;
  m_nNodes : nat;
  m_xy : list (list nat)             (* xyToIndex *)
}.
Arguments mkMesh {T} _ _ _ _ _ _ _.
Arguments m_elements {T} _.
Arguments m_nodes {T} _.
Arguments m_width {T} _.
Arguments m_height {T} _.
Arguments m_nElements {T} _.
Arguments m_nNodes {T} _.
Arguments m_xy {T} _.

Section setters.
  Context {T : Type}.
  (* Field updates; each models one assignment to a member. *)
  Definition set_nodes (ns : list (Node T)) (m : Mesh T) : Mesh T :=
    mkMesh (m_elements m) ns (m_width m) (m_height m) (m_nElements m) (m_nNodes m) (m_xy m).
  Definition set_elements (es : list (Element T)) (m : Mesh T) : Mesh T :=
    mkMesh es (m_nodes m) (m_width m) (m_height m) (m_nElements m) (m_nNodes m) (m_xy m).
  Definition set_xy (xy : list (list nat)) (m : Mesh T) : Mesh T :=
    mkMesh (m_elements m) (m_nodes m) (m_width m) (m_height m) (m_nElements m) (m_nNodes m) xy.

  Definition set_nd_neigh (l : list nat) (n : Node T) : Node T :=
    mkNode (nd_coord n) l (nd_elems n) (nd_nElems n) (nd_bpts n) (nd_nBpts n)
      (nd_active n) (nd_domain n) (nd_masked n) (nd_mine n) (nd_status n).
  Definition set_nd_elems (l : list nat) (k : nat) (n : Node T) : Node T :=
    mkNode (nd_coord n) (nd_neigh n) l k (nd_bpts n) (nd_nBpts n)
      (nd_active n) (nd_domain n) (nd_masked n) (nd_mine n) (nd_status n).
  Definition set_nd_bpts (l : list nat) (k : nat) (n : Node T) : Node T :=
    mkNode (nd_coord n) (nd_neigh n) (nd_elems n) (nd_nElems n) l k
      (nd_active n) (nd_domain n) (nd_masked n) (nd_mine n) (nd_status n).
  Definition set_nd_active (b : bool) (n : Node T) : Node T :=
    mkNode (nd_coord n) (nd_neigh n) (nd_elems n) (nd_nElems n) (nd_bpts n) (nd_nBpts n)
      b (nd_domain n) (nd_masked n) (nd_mine n) (nd_status n).
  Definition set_nd_masked (b : bool) (n : Node T) : Node T :=
    mkNode (nd_coord n) (nd_neigh n) (nd_elems n) (nd_nElems n) (nd_bpts n) (nd_nBpts n)
      (nd_active n) (nd_domain n) b (nd_mine n) (nd_status n).
  Definition set_nd_mine (b : bool) (n : Node T) : Node T :=
    mkNode (nd_coord n) (nd_neigh n) (nd_elems n) (nd_nElems n) (nd_bpts n) (nd_nBpts n)
      (nd_active n) (nd_domain n) (nd_masked n) b (nd_status n).
  Definition set_nd_status (s : option NodeStatus) (n : Node T) : Node T :=
    mkNode (nd_coord n) (nd_neigh n) (nd_elems n) (nd_nElems n) (nd_bpts n) (nd_nBpts n)
      (nd_active n) (nd_domain n) (nd_masked n) (nd_mine n) s.

  Definition set_e_area (a : T) (e : Element T) : Element T :=
    mkElement (e_coord e) a (e_nodes e) (e_segs e) (e_nSegs e) (e_status e).
  Definition set_e_segs (l : list nat) (k : option nat) (e : Element T) : Element T :=
    mkElement (e_coord e) (e_area e) (e_nodes e) l k (e_status e).
  Definition set_e_status (s : option ElementStatus) (e : Element T) : Element T :=
    mkElement (e_coord e) (e_area e) (e_nodes e) (e_segs e) (e_nSegs e) s.
  Definition set_e_coord_nodes (c : Coord T) (l : list nat) (e : Element T) : Element T :=
    mkElement c (e_area e) l (e_segs e) (e_nSegs e) (e_status e).
End setters.

Section MeshModel.
  Context {T : Type} `{Num T}.

  (** Mesh.cpp:29-34, [Element::Element]. *)
  Definition element_default : Element T :=
    mkElement (mkCoord n0 n0) n0 (replicate 4 0) (replicate 2 0) None None.

  (** Mesh.cpp:36-46, [Node::Node]. *)
  Definition node_default : Node T :=
    mkNode (mkCoord n0 n0) (replicate 4 0) (replicate 4 0) 0 (replicate 4 0) 0
      false false false false None.

  (** Mesh.cpp:251-276, [initialiseNeighbours]: the four neighbours of node (x, y). *)
  Definition neighbours_of (width height nNodes x y : nat) : outcome (list nat) :=
    let w := u32 (Z.of_nat width + 1) in
    let h := u32 (Z.of_nat height + 1) in
    let W := Z.of_nat w in
    let X := Z.of_nat x in
    let Y := Z.of_nat y in
    let! l := umod (u32 (X - 1 + W)) w in
    let! r := umod (u32 (X + 1 + W)) w in
    let! d := umod (u32 (Y - 1 + Z.of_nat h)) h in
    let! u := umod (u32 (Y + 1 + Z.of_nat h)) h in
    let nl := [u32 (Z.of_nat l + Y * W); u32 (Z.of_nat r + Y * W);
               u32 (X + W * Z.of_nat d); u32 (X + W * Z.of_nat u)] in
    let nl := if (x =? 0)%nat then <[0 := nNodes]> nl
              else if (x =? width)%nat then <[1 := nNodes]> nl else nl in
    let nl := if (y =? 0)%nat then <[2 := nNodes]> nl
              else if (y =? height)%nat then <[3 := nNodes]> nl else nl in
    Ok nl.

  (** Mesh.cpp:168-206, [initialiseNodes], the body of the loop for node [i]. *)
  Definition initialise_node (i : nat) (m : Mesh T) : outcome (Mesh T) :=
    let w := u32 (Z.of_nat (m_width m) + 1) in
    let! x := umod i w in
    let! y := udiv i w in
    let isDomain := (x =? 0)%nat || (x =? m_width m)%nat || (y =? 0)%nat || (y =? m_height m)%nat in
    let! neigh := neighbours_of (m_width m) (m_height m) (m_nNodes m) x y in
    let! nodes := vmod (m_nodes m) i (fun n =>
      mkNode (mkCoord (nofnat x) (nofnat y)) neigh (nd_elems n) 0 (nd_bpts n) 0
        (nd_active n) isDomain false (nd_mine n) (nd_status n)) in
    let! col := vget (m_xy m) x in
    let! col' := vset col y i in
    let! xy := vset (m_xy m) x col' in
    Ok (set_xy xy (set_nodes nodes m)).

  (** Mesh.cpp:208-249, [initialiseElements], the body of the loop for element [i]. *)
  Definition element_nodes (w x y : nat) : list nat :=
    let W := Z.of_nat w in
    let X := Z.of_nat x in
    let Y := Z.of_nat y in
    [u32 (X + Y * W); u32 (X + 1 + Y * W); u32 (X + 1 + (Y + 1) * W); u32 (X + (Y + 1) * W)].

  (* Mesh.cpp:244-246: nodes[node].elements[nodes[node].nElements] = i; nElements++. *)
  Definition add_element (i node : nat) (nodes : list (Node T)) : outcome (list (Node T)) :=
    let! n := vget nodes node in
    let! es := vset (nd_elems n) (nd_nElems n) i in
    vset nodes node (set_nd_elems es (nd_nElems n + 1) n).

  Definition initialise_element (i : nat) (m : Mesh T) : outcome (Mesh T) :=
    let w := u32 (Z.of_nat (m_width m) + 1) in
    let! x := umod i (m_width m) in
    let! y := udiv i (m_width m) in
    let enodes := element_nodes w x y in
    let! elements := vmod (m_elements m) i
      (set_e_coord_nodes (mkCoord (nofnat x + nlit 1 2)%num (nofnat y + nlit 1 2)%num) enodes) in
    let! nodes :=
      for_ 4 (fun j nodes => let! node := vget enodes j in add_element i node nodes) (m_nodes m) in
    Ok (set_elements elements (set_nodes nodes m)).

  (** Mesh.cpp:48-70, [Mesh::Mesh]. *)
  Definition mesh_new (width height : nat) : outcome (Mesh T) :=
    let W := Z.of_nat width in
    let H := Z.of_nat height in
    let nElements := u32 (W * H) in
    let nNodes := u32 ((1 + W) * (1 + H)) in
    let m0 := mkMesh (replicate nElements element_default) (replicate nNodes node_default)
                width height nElements nNodes
                (replicate (u32 (W + 1)) (replicate (u32 (H + 1)) 0)) in
    let! m1 := for_ nNodes initialise_node m0 in
    for_ nElements initialise_element m1.

  (** Mesh.cpp:150-166, [getElement(x, y)]; the overload for [Coord] (132-148) is the same code. *)
  Definition getElement (m : Mesh T) (x y : T) : outcome nat :=
    let x := (x - nlit 1 1000000)%num in
    let y := (y - nlit 1 1000000)%num in
    let x := if (x <? n0)%num then n0 else x in
    let y := if (y <? n0)%num then n0 else y in
    let! elementX := floor_u32 x in
    let! elementY := floor_u32 y in
    Ok (u32 (Z.of_nat elementY * Z.of_nat (m_width m) + Z.of_nat elementX)).

  (** Mesh.cpp:102-130, [getClosestNode(x, y)]; the overload for [Coord] (72-100) is the same code. *)
  Definition getClosestNode (m : Mesh T) (x y : T) : outcome nat :=
    let! element := getElement m x y in
    let! e := vget (m_elements m) element in
    let dx := (x - cx (e_coord e))%num in
    let dy := (y - cy (e_coord e))%num in
    if (dx <? n0)%num then
      if (dy <? n0)%num then vget (e_nodes e) 0 else vget (e_nodes e) 3
    else
      if (dy <? n0)%num then vget (e_nodes e) 1 else vget (e_nodes e) 2.

End MeshModel.
