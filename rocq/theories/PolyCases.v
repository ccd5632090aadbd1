(** * PolyCases: polygons the rounding of the inside test loses, and cases (C76). *)

From Coq Require Import Reals Lra Lia ZArith.
From Verif Require Import Base Num NumR NumF64 NumInt MeshModel LevelSetModel LevelSetSpec LevelSetCalls LevelSetHist PolySpec Polygon PolyField.
Local Open Scope R_scope.

Theorem small_missed p points : points <> [] -> (forall a b, edge_of points a b -> Rabs (side a b p) < 1) -> isInsidePolygon p points = Ok false.
Proof.
  intros Hne S. rewrite (inside_code p points Hne) by (intros a b E; specialize (S a b E); lra). rewrite total_zero; [reflexivity|].
  intros a b E. specialize (S a b E). apply Rabs_def2 in S. unfold turn_code. destruct (Rle_dec (cy a) (cy p)), (Rlt_dec (cy p) (cy b)), (Rle_dec (cy b) (cy p)), (Rle_dec 1 (side a b p)), (Rle_dec (side a b p) (-1)); try reflexivity; lra.
Qed.

Definition box (l u : R) : list (Coord R) := [mkCoord l l; mkCoord u l; mkCoord u u; mkCoord l u; mkCoord l l].
Lemma box_closed l u : closed_polygon (box l u).
Proof. exists (mkCoord l l), [mkCoord u l; mkCoord u u; mkCoord l u]. reflexivity. Qed.
Lemma box_edges l u (P : Coord R -> Coord R -> Prop) : P (mkCoord l l) (mkCoord u l) -> P (mkCoord u l) (mkCoord u u) -> P (mkCoord u u) (mkCoord l u) -> P (mkCoord l u) (mkCoord l l) ->
  forall a b, edge_of (box l u) a b -> P a b.
Proof.
  intros P1 P2 P3 P4 a b (i & A & B). destruct i as [|[|[|[|i]]]]; cbn in A, B; try (injection A as <-; injection B as <-; assumption). destruct i; discriminate.
Qed.
Lemma box_corners l u (P : Coord R -> Prop) : P (mkCoord l l) -> P (mkCoord u l) -> P (mkCoord u u) -> P (mkCoord l u) -> forall v, v ∈ box l u -> P v.
Proof.
  intros P1 P2 P3 P4 v Hv. unfold box in Hv. repeat (apply elem_of_cons in Hv as [->|Hv]; [assumption|]). apply elem_of_nil in Hv. contradiction.
Qed.

(** The middle of a square of width 4/5 around a node. *)
Lemma lost_middle : let p := at_node 2 2 in let points := box (8 / 5) (12 / 5) in
  closed_polygon points /\ (forall v, v ∈ points -> within 10000 v) /\ left_of_all p points /\ isInsidePolygon p points = Ok false.
Proof.
  cbv zeta. split; [apply box_closed|]. split; [|split].
  - apply box_corners; split; cbn [cx cy]; rewrite Rabs_pos_eq; lra.
  - unfold left_of_all. apply box_edges; unfold side; cbn [cx cy at_node INR]; lra.
  - apply small_missed; [discriminate|]. apply box_edges; unfold side; cbn [cx cy at_node INR]; apply Rabs_def1; lra.
Qed.
(** A square of width 2 on whole numbers. *)
Lemma whole_box : let points := box 1 3 in closed_polygon points /\ (forall v, v ∈ points -> whole_point v) /\ (forall v, v ∈ points -> within 10000 v) /\ left_of_all (at_node 2 2) points /\
  separated (at_node 4 2) points /\ separated (at_node 0 0) points.
Proof.
  cbv zeta. split; [apply box_closed|]. split; [|split; [|split; [|split]]].
  - apply box_corners; split; cbn [cx cy]; (exists 1%Z; reflexivity) || (exists 3%Z; reflexivity).
  - apply box_corners; split; cbn [cx cy]; rewrite Rabs_pos_eq; lra.
  - unfold left_of_all. apply box_edges; unfold side; cbn [cx cy at_node INR]; lra.
  - exists (-1), 0. apply box_corners; cbn [cx cy at_node INR]; lra.
  - exists 1, 1. apply box_corners; cbn [cx cy at_node INR]; lra.
Qed.
