(** * PropAreaOrder: comparing the areas of two level sets (C78).  Proofs in AreaOrder. *)

From Coq Require Import Reals.
From Verif Require Import Base Num NumR MeshModel MeshSpec LevelSetModel LevelSetCalls BoundarySpecR FmmSpec AreaOrderSpec AreaOrder.
Local Open Scope R_scope.

(** C78, exact arithmetic: if the values of one level set are nowhere above those of the other, no element and no total has more area. *)
Theorem C78_more_material_more_area W H s t tg tg' sd sd' l m A B : measurable W H s tg sd -> measurable W H t tg' sd' ->
  (forall i x y, (i < node_count W H)%nat -> sd !! i = Some x -> sd' !! i = Some y -> x <= y) ->
  measured s tg l A -> measured t tg' m B -> Forall2 Rle l m /\ A <= B.
Proof. exact (more_material W H s t tg tg' sd sd' l m A B). Qed.
Print Assumptions C78_more_material_more_area.

(** C78, exact arithmetic: swapping inside and outside leaves the rest of every element, unless one is a balanced saddle. *)
Theorem C78_complement W H s t tg tg' sd sd' l m A B : measurable W H s tg sd -> measurable W H t tg' sd' ->
  (forall i x y, (i < node_count W H)%nat -> sd !! i = Some x -> sd' !! i = Some y -> y = - x) -> (forall e, (e < W * H)%nat -> ~ balanced W sd e) ->
  measured s tg l A -> measured t tg' m B -> Forall2 (fun a b => a + b = 1) l m /\ A + B = INR (W * H).
Proof. exact (complement W H s t tg tg' sd sd' l m A B). Qed.
Print Assumptions C78_complement.

(** C78, the exception: a balanced saddle and its complement have area 1/4 each. *)
Theorem C78_complement_refuted : exists s t, measurable 1 1 s false [1; -1; -1; 1] /\ measurable 1 1 t false [-1; 1; 1; -1] /\
  measured s false [/ 4] (/ 4) /\ measured t false [/ 4] (/ 4) /\ balanced 1 [1; -1; -1; 1] 0.
Proof. exact complement_balanced. Qed.
Print Assumptions C78_complement_refuted.

(** C78, exact arithmetic: only the contour counts; multiplying all values by a positive number changes no area. *)
Theorem C78_only_the_contour_counts W H s t tg tg' sd sd' c l m A B : measurable W H s tg sd -> measurable W H t tg' sd' -> 0 < c ->
  (forall i x y, (i < node_count W H)%nat -> sd !! i = Some x -> sd' !! i = Some y -> y = c * x) ->
  measured s tg l A -> measured t tg' m B -> l = m /\ A = B.
Proof. exact (same_contour W H s t tg tg' sd sd' c l m A B). Qed.
Print Assumptions C78_only_the_contour_counts.

(** Unit squares with one corner inside, the same with a larger value there, and the complement of the first. *)
Example C78_case : exists s t u, measurable 1 1 s false [1; -1; -1; -1] /\ measurable 1 1 t false [2; -1; -1; -1] /\ measurable 1 1 u false [-1; 1; 1; 1] /\
  measured s false [/ 8] (/ 8) /\ measured t false [2 / 9] (2 / 9) /\ measured u false [7 / 8] (7 / 8) /\ ~ balanced 1 [1; -1; -1; -1] 0.
Proof. exact square_areas. Qed.
(** Values in [[1, 2]] give a measurable unit square, so multiplying by 2 is possible. *)
Example C78_square v : length v = 4%nat -> Forall (fun x => 1 <= Rabs x <= 2) v -> exists s, measurable 1 1 s false v /\ exists l A, measured s false l A.
Proof. exact (square_case v). Qed.
