(** * BoundaryGraph: the boundary as a graph, computed element by element from the sides of the nodes.

    A specification of what discretise should build, without indices, coordinates or state. *)

From Verif Require Export BoundarySpec.
Local Open Scope nat_scope.

(** A place where the contour meets the grid: a node, the edge from node [i] to the right, or upwards. *)
Inductive place := AtNode (i : nat) | OnRight (i : nat) | OnUp (i : nat).
(** The same, seen from one element: corner [j], or edge [j] from corner [j] to the next. *)
Inductive vert := Corner (j : nat) | Edge (j : nat).

Definition edge_place (W e j : nat) : place :=
  match j with
  | 0 => OnRight (corner W e 0)
  | 1 => OnUp (corner W e 1)
  | 2 => OnRight (corner W e 3)
  | _ => OnUp (corner W e 0)
  end.
Definition glob (W e : nat) (v : vert) : place :=
  match v with Corner j => AtNode (corner W e j) | Edge j => edge_place W e j end.
(** The grid nodes at a place: the node itself or the two ends of the edge. *)
Definition incident (W : nat) (p : place) (i : nat) : Prop :=
  match p with
  | AtNode k => i = k
  | OnRight k => i = k \/ i = k + 1
  | OnUp k => i = k \/ i = k + (W + 1)
  end.

Definition cutb (s1 s2 : NodeStatus) : bool := (is_inside s1 && is_outside s2) || (is_outside s1 && is_inside s2).
Definition prev (j : nat) : nat := if (j =? 0)%nat then 3 else j - 1.

(** One element; [s j] is the side of corner [j]; [c]: of a saddle, the corners 1 and 3 are cut off. *)
Section Local.
  Variables (s : nat -> NodeStatus) (c : bool).
  Definition corners_where (f : NodeStatus -> bool) (n : nat) : list nat := List.filter (fun j => f (s j)) (seq 0 n).
  Definition cut_edges (n : nat) : list nat := List.filter (fun j => cutb (s j) (s (next j))) (seq 0 n).
  (** Sides of the element that lie on the contour. *)
  Definition flat_segs (n : nat) : list (vert * vert) :=
    flat_map (fun j => if is_boundary (s j) && is_boundary (s (next j)) then [(Corner j, Corner (next j))] else []) (seq 0 n).
  (** From the one cut edge to the corner where the contour leaves the element. *)
  Definition exit_segs (a n : nat) : list (vert * vert) :=
    flat_map (fun j => if is_boundary (s j) && (is_outside (s (next j)) || is_outside (s (prev j))) then [(Edge a, Corner j)] else []) (seq 0 n).
  Definition through_segs : list (vert * vert) :=
    match cut_edges 4 with
    | [a; b] => [(Edge a, Edge b)]
    | [a] => exit_segs a 4
    | [a; b; a'; b'] => if c then [(Edge a, Edge b); (Edge a', Edge b')] else [(Edge a, Edge b'); (Edge b, Edge a')]
    | [] => match corners_where is_outside 4, corners_where is_boundary 4 with
            | _ :: _, a :: b :: _ => [(Corner a, Corner b)]
            | _, _ => []
            end
    | _ => []
    end.
  Definition local_segs : list (vert * vert) :=
    match corners_where is_outside 4, corners_where is_inside 4 with
    | _ :: _, [] => []
    | _, _ => flat_segs 4 ++ through_segs
    end.
  (** The element before the saddle test. *)
  Definition base_status : ElementStatus :=
    match corners_where is_outside 4, corners_where is_inside 4 with
    | [], _ => ES_INSIDE
    | _ :: _, [] => ES_OUTSIDE
    | _ :: _, _ :: _ => ES_NONE
    end.
End Local.

Section Graph.
  Context {T : Type} {NT : Num T}.
  Definition st_of (sd : list T) (i : nat) : NodeStatus := match side sd i with Some st => st | None => NS_NONE end.
  Definition sides (W : nat) (sd : list T) (e j : nat) : NodeStatus := st_of sd (corner W e j).
  (** At a saddle, whether the centre is on the side of corner 0. *)
  Definition saddle (W : nat) (sd : list T) (e : nat) : bool :=
    match sd !! corner W e 0, sd !! corner W e 1, sd !! corner W e 2, sd !! corner W e 3 with
    | Some a, Some b, Some c, Some d =>
        let sum := (n0 + a + b + c + d)%num in
        (is_inside (st_of sd (corner W e 0)) && (sum >? n0)%num) || (is_outside (st_of sd (corner W e 0)) && (sum <? n0)%num)
    | _, _, _, _ => false
    end.
  Definition centre_positive (W : nat) (sd : list T) (e : nat) : bool :=
    match sd !! corner W e 0, sd !! corner W e 1, sd !! corner W e 2, sd !! corner W e 3 with
    | Some a, Some b, Some c, Some d => (n0 + a + b + c + d >? n0)%num
    | _, _, _, _ => false
    end.
  Definition final_status (W : nat) (sd : list T) (e : nat) : ElementStatus :=
    match cut_edges (sides W sd e) 4 with
    | [_; _; _; _] => if centre_positive W sd e then ES_CENTRE_INSIDE else ES_CENTRE_OUTSIDE
    | _ => base_status (sides W sd e)
    end.
  (** The segments in element [e]; all segments. *)
  Definition elem_graph (W : nat) (sd : list T) (e : nat) : list (place * place) :=
    map (fun '(u, v) => (glob W e u, glob W e v)) (local_segs (sides W sd e) (saddle W sd e)).
  Definition graph_upto (W : nat) (sd : list T) (n : nat) : list (nat * (place * place)) :=
    flat_map (fun e => map (pair e) (elem_graph W sd e)) (seq 0 n).

  (** Places that exist for this field. *)
  Definition valid_place (W H : nat) (sd : list T) (p : place) : Prop :=
    match p with
    | AtNode i => i < node_count W H /\ side sd i = Some NS_BOUNDARY
    | OnRight i => i + 1 < node_count W H /\ i mod (W + 1) < W /\ opposite sd i (i + 1)
    | OnUp i => i + (W + 1) < node_count W H /\ opposite sd i (i + (W + 1))
    end.
  (** The coordinates of a place, computed from either end. *)
  Definition cut_from (W : nat) (sd : list T) (i k j : nat) (c : Coord T) : Prop :=
    exists x y, sd !! i = Some x /\ sd !! k = Some y /\ c = edge_point (node_xy W i) j (x / (x - y))%num.
  Definition place_coord (W : nat) (sd : list T) (p : place) (c : Coord T) : Prop :=
    match p with
    | AtNode i => c = edge_point (node_xy W i) 0 n0
    | OnRight i => cut_from W sd i (i + 1) 0 c \/ cut_from W sd (i + 1) i 2 c
    | OnUp i => cut_from W sd i (i + (W + 1)) 1 c \/ cut_from W sd (i + (W + 1)) i 3 c
    end.
  (** Number of segment ends at a place. *)
  Definition place_eqb (p q : place) : bool :=
    match p, q with AtNode i, AtNode k | OnRight i, OnRight k | OnUp i, OnUp k => (i =? k)%nat | _, _ => false end.
  Definition ends_count (p : place) (l : list (place * place)) : nat :=
    length (List.filter (place_eqb p) (flat_map (fun '(a, b) => [a; b]) l)).
  Definition degree (W H : nat) (sd : list T) (p : place) : nat := ends_count p (map snd (graph_upto W sd (W * H))).
End Graph.
