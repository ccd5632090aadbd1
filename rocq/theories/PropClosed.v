(** * PropClosed: the boundary curves (C35). *)

From Coq Require Import Reals.
From Verif Require Import Base Num NumR NumF64 NumInt MeshModel MeshSpec FmmSpec LevelSetModel LevelSetSpec LevelSetCalls LevelSetSpecR LevelSetHist
  BoundaryModel BoundarySpec BoundarySpecR BoundaryGraph BoundaryRun BoundaryClosed BoundaryCases PropLevelSet PropVel.
Local Open Scope R_scope.

(** C35: if no node is on the contour, discretise succeeds and its curves have no loose ends except at the
    border of the domain.  There is one point on each edge that the contour crosses, and no other. *)
Theorem C35_closed_curves W H (s : LevelSet R) (tg : bool) : let sd := if tg then ls_target s else ls_sd s in
  reached W H s -> off_contour W H sd -> clear_cuts W H sd -> (tg = true \/ covered W H s sd) ->
  exists s' b, discretise s tg = Ok (s', b) /\
    (forall i k x y, adjacent W H i k -> sd !! i = Some x -> sd !! k = Some y -> tol <= x -> y <= - tol ->
       exists n p, bd_points b !! n = Some p /\ on_cut_edge W H sd i k (bp_coord p) /\
         forall n' p', bd_points b !! n' = Some p' -> on_cut_edge W H sd i k (bp_coord p') -> n' = n) /\
    (forall n p, bd_points b !! n = Some p ->
       (exists i k, on_cut_edge W H sd i k (bp_coord p)) /\
       (within_domain W H (bp_coord p) -> bp_nSegs p = 2%nat) /\ (~ within_domain W H (bp_coord p) -> bp_nSegs p = 1%nat)) /\
    (forall n sg, bd_segs b !! n = Some sg -> sg_start sg <> sg_end sg).
Proof. intros sd Hr Ho Hc Hv. exact (closed_curves W H s tg Hr Hc Ho Hv). Qed.
Print Assumptions C35_closed_curves.

(** C35: in every element each crossed edge is the end of exactly one of its segments, and each segment joins two
    different edges.  If all four edges are crossed, the status is the side of the mean corner value, and each
    segment cuts off a corner on the other side. *)
Theorem C35_segments_of_an_element W H (s s' : LevelSet R) (tg : bool) b e : let sd := if tg then ls_target s else ls_sd s in
  reached W H s -> off_contour W H sd -> clear_cuts W H sd -> (tg = true \/ covered W H s sd) -> discretise s tg = Ok (s', b) -> (e < W * H)%nat ->
  (forall n sg, bd_segs b !! n = Some sg -> sg_elem sg = e -> exists a a', (a < 4)%nat /\ (a' < 4)%nat /\ a <> a' /\ joins_sides W sd b sg e a a') /\
  (forall a x y, (a < 4)%nat -> sd !! corner W e a = Some x -> sd !! corner W e (next a) = Some y -> x * y < 0 ->
     exists n sg a', bd_segs b !! n = Some sg /\ sg_elem sg = e /\ joins_sides W sd b sg e a a' /\
       forall n' sg' a'', bd_segs b !! n' = Some sg' -> sg_elem sg' = e -> joins_sides W sd b sg' e a a'' -> n' = n) /\
  (forall x0 x1 x2 x3 E, sd !! corner W e 0 = Some x0 -> sd !! corner W e 1 = Some x1 -> sd !! corner W e 2 = Some x2 -> sd !! corner W e 3 = Some x3 ->
     x0 * x1 < 0 -> x1 * x2 < 0 -> x2 * x3 < 0 -> m_elements (ls_mesh s') !! e = Some E ->
     let v := x0 + x1 + x2 + x3 in
     (0 < v -> e_status E = Some ES_CENTRE_INSIDE) /\ (v <= 0 -> e_status E = Some ES_CENTRE_OUTSIDE) /\
     (v <> 0 -> forall n sg, bd_segs b !! n = Some sg -> sg_elem sg = e ->
        exists a z, (a < 4)%nat /\ joins_sides W sd b sg e a (next a) /\ sd !! corner W e (next a) = Some z /\ z * v < 0)).
Proof. intros sd Hr Ho Hc Hv Hd He. exact (element_segments W H s tg Hr Hc Ho Hv s' b e Hd He). Qed.
Print Assumptions C35_segments_of_an_element.

(** C35 with nodes on the contour: if the element rules of BoundaryGraph give no element more than two segments and
    no place more than two ends, discretise builds exactly the graph of those rules. *)
Theorem C35_built_by_the_element_rules W H (s : LevelSet R) (tg : bool) : let sd := if tg then ls_target s else ls_sd s in
  reached W H s -> clear_cuts W H sd -> (node_count W H <= length sd)%nat ->
  (tg = true \/ forall i k, adjacent W H i k -> active s i \/ active s k \/ masked s i \/ masked s k) ->
  (forall e, (e < W * H)%nat -> (length (elem_graph W sd e) <= 2)%nat) -> (forall p, (degree W H sd p <= 2)%nat) ->
  exists s' b pl, discretise s tg = Ok (s', b) /\
    NoDup pl /\ (forall p, p ∈ pl -> valid_place W H sd p) /\
    Forall2 (fun p bp => place_coord W sd p (bp_coord bp)) pl (bd_points b) /\
    Forall2 (fun t sg => sg_elem sg = fst t /\ pl !! sg_start sg = Some (fst (snd t)) /\ pl !! sg_end sg = Some (snd (snd t)))
      (graph_upto W sd (W * H)) (bd_segs b) /\
    (forall k p bp, pl !! k = Some p -> bd_points b !! k = Some bp -> bp_nSegs bp = degree W H sd p) /\
    (forall e x, m_elements (ls_mesh s') !! e = Some x -> e_status x = Some (final_status W sd e)).
Proof. intros sd Hr Hc Hl Hv Hf Hd. exact (built_by_rules W H s tg Hr Hc Hl Hv Hf Hd). Qed.
Print Assumptions C35_built_by_the_element_rules.

(** The hypotheses are met: a diamond around the middle of a 2 by 2 mesh. *)
Example diamond : exists s : LevelSet R, reached 2 2 s /\ off_contour 2 2 (ls_sd s) /\ clear_cuts 2 2 (ls_sd s) /\ covered 2 2 s (ls_sd s) /\
  ls_sd s = [-1; -1; -1; -1; 1; -1; -1; -1; -1].
Proof. exact diamond_case. Qed.

(** Not so with nodes on the contour: the solid unit square built without holes writes past the end of an element's
    segment array. *)
Theorem C35_nodes_on_contour_refuted : exists s : LevelSet f64, reached 1 1 s /\ discretise s false = UB.
Proof. exact square_out_of_bounds. Qed.
Print Assumptions C35_nodes_on_contour_refuted.

(** Not so if the corner values of a saddle add up to zero: the status says that the centre is outside, and the
    segments cut off the corner at the origin, which is outside too. *)
Theorem C35_balanced_saddle_refuted : exists (s s' : LevelSet f64) b, reached 1 1 s /\ discretise s true = Ok (s', b) /\
  ls_target s = [f (-1) 1; f 1 1; f 1 1; f (-1) 1] /\
  map e_status (m_elements (ls_mesh s')) = [Some ES_CENTRE_OUTSIDE] /\
  exists sg p q, bd_segs b !! 0%nat = Some sg /\ bd_points b !! sg_start sg = Some p /\ bd_points b !! sg_end sg = Some q /\
    same_coord (bp_coord p) (mkCoord (f 1 2) (f 0 1)) = true /\ same_coord (bp_coord q) (mkCoord (f 0 1) (f 1 2)) = true.
Proof. exact balanced_saddle. Qed.
Print Assumptions C35_balanced_saddle_refuted.
