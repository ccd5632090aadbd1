(** * BoundarySpec: vocabulary for the boundary properties, independent of the loops. *)

From Verif Require Export MeshSpec BoundaryModel.
Local Open Scope nat_scope.

Section BoundarySpec.
  Context {T : Type} {NT : Num T}.

  (** Side of the boundary: within 1e-6 of the zero contour, outside (negative) or inside. *)
  Definition side (sd : list T) (i : nat) : option NodeStatus :=
    match sd !! i with
    | Some x => Some (if (nabs x <? nlit 1 1000000)%num then NS_BOUNDARY
                      else if (x <? n0)%num then NS_OUTSIDE else NS_INSIDE)
    | None => None
    end.
  (** Corner [j] of element [e], anticlockwise from the bottom left; edge [j] joins corners [j] and [j+1]. *)
  Definition corner (W e j : nat) : nat := nth j (corners_spec W (e mod W) (e / W)) 0.
  Definition next (j : nat) : nat := if (j =? 3)%nat then 0 else j + 1.
  Definition node_xy (W i : nat) : Coord T := mkCoord (nofnat (i mod (W + 1))) (nofnat (i / (W + 1))).

  (** Nodes [a] and [b] are strictly on different sides. *)
  Definition opposite (sd : list T) (a b : nat) : Prop :=
    (side sd a = Some NS_INSIDE /\ side sd b = Some NS_OUTSIDE) \/ (side sd a = Some NS_OUTSIDE /\ side sd b = Some NS_INSIDE).

  (** All four edges of element [e] are cut. *)
  Definition alternating (W : nat) (sd : list T) (e : nat) : Prop :=
    forall j, j < 4 -> opposite sd (corner W e j) (corner W e (next j)).

  (** [c] is a place where the contour meets element [e]: a corner on the contour, or the zero of the
      linear interpolant along a cut edge. *)
  Definition contour_place (W : nat) (sd : list T) (e : nat) (c : Coord T) : Prop :=
    (exists j, j < 4 /\ side sd (corner W e j) = Some NS_BOUNDARY /\ c = edge_point (node_xy W (corner W e j)) 0 n0) \/
    (exists j x1 x2, j < 4 /\ sd !! corner W e j = Some x1 /\ sd !! corner W e (next j) = Some x2 /\
       opposite sd (corner W e j) (corner W e (next j)) /\
       c = edge_point (node_xy W (corner W e j)) j (x1 / (x1 - x2))%num).

  (** Point [p] represents the place [c]: it is there, or it passed the test of being there. *)
  Definition at_place (c : Coord T) (p : BoundaryPoint T) : Prop :=
    bp_coord p = c \/
    ((nabs (cx c - cx (bp_coord p)) <? nlit 1 1000000)%num = true /\ (nabs (cy c - cy (bp_coord p)) <? nlit 1 1000000)%num = true).

  (** A segment of the boundary. *)
  Definition good_segment (W H : nat) (sd : list T) (ps : list (BoundaryPoint T)) (sg : BoundarySegment T) : Prop :=
    sg_elem sg < W * H /\
    exists p q c c', ps !! sg_start sg = Some p /\ ps !! sg_end sg = Some q /\
      contour_place W sd (sg_elem sg) c /\ at_place c p /\ contour_place W sd (sg_elem sg) c' /\ at_place c' q /\
      sg_length sg = coord_dist (bp_coord p) (bp_coord q).

  (** Numbers of the segments of element [e]. *)
  Definition is_seg_of (segs : list (BoundarySegment T)) (e k : nat) : bool :=
    match segs !! k with Some sg => (sg_elem sg =? e)%nat | None => false end.
  Definition segments_of (segs : list (BoundarySegment T)) (e : nat) : list nat :=
    List.filter (is_seg_of segs e) (seq 0 (length segs)).
End BoundarySpec.

(** The segment ends at point [k], in the order of the segments: (number of the segment, other end). *)
Section Incidence.
  Context {T : Type} {NT : Num T}.
  Definition ends_at (k : nat) (i : nat) (sg : BoundarySegment T) : list (nat * nat) :=
    (if (k =? sg_start sg)%nat then [(i, sg_end sg)] else []) ++ (if (k =? sg_end sg)%nat then [(i, sg_start sg)] else []).
  Definition incidence (segs : list (BoundarySegment T)) (k : nat) : list (nat * nat) :=
    concat (imap (ends_at k) segs).
  Definition seg_length_of (segs : list (BoundarySegment T)) (i : nat) : T :=
    match segs !! i with Some sg => sg_length sg | None => n0 end.
End Incidence.
