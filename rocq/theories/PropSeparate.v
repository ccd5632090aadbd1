(** * PropSeparate: areas and perimeters of separate parts add up (C86).  Proofs in Separate. *)

From Coq Require Import Reals.
From Verif Require Import Base Num NumR MeshModel LevelSetModel LevelSetSpec LevelSetCalls BoundaryModel BoundarySpecR AreaOrderSpec ShiftSpec SeparateSpec Separate.
Local Open Scope R_scope.

(** C86, exact arithmetic: the area of a shape made of two parts that share no element is the sum of the areas of the parts, as a whole and in every element. *)
Theorem C86_areas_add W H s1 s2 s t1 t2 t p q sd l1 l2 l A1 A2 A : measurable W H s1 t1 p -> measurable W H s2 t2 q -> measurable W H s t sd -> made_of W H p q sd ->
  measured s1 t1 l1 A1 -> measured s2 t2 l2 A2 -> measured s t l A ->
  A = A1 + A2 /\ forall e a1 a2 a, l1 !! e = Some a1 -> l2 !! e = Some a2 -> l !! e = Some a -> a = a1 + a2.
Proof. exact (separate_areas W H s1 s2 s t1 t2 t p q sd l1 l2 l A1 A2 A). Qed.
Print Assumptions C86_areas_add.
(** C86, exact arithmetic: and so are the lengths of the boundaries. *)
Theorem C86_lengths_add W H s1 s2 s t1 t2 t p q sd s1' s2' s' c1 c2 c : measurable W H s1 t1 p -> measurable W H s2 t2 q -> measurable W H s t sd -> made_of W H p q sd ->
  discretise s1 t1 = Ok (s1', c1) -> discretise s2 t2 = Ok (s2', c2) -> discretise s t = Ok (s', c) -> bd_length c = bd_length c1 + bd_length c2.
Proof. exact (separate_length W H s1 s2 s t1 t2 t p q sd s1' s2' s' c1 c2 c). Qed.
Print Assumptions C86_lengths_add.

(** Two nodes of the middle row of a 4 by 2 mesh inside, alone and together. *)
Example C86_case : let left := [-1; -1; -1; -1; -1; -1; 1; -1; -1; -1; -1; -1; -1; -1; -1] in let right := [-1; -1; -1; -1; -1; -1; -1; -1; 1; -1; -1; -1; -1; -1; -1] in
  let both := [-1; -1; -1; -1; -1; -1; 1; -1; 1; -1; -1; -1; -1; -1; -1] in
  made_of 4 2 left right both /\ forall v, v ∈ [left; right; both] -> exists s l A, measurable 4 2 s true v /\ measured s true l A.
Proof. exact separate_case. Qed.
