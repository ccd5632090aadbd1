(** * PropShift: moving a shape by whole elements, or enlarging the domain, changes neither area nor perimeter (C84).  Proofs in Shift. *)

From Coq Require Import Reals ZArith.
From Verif Require Import Base Num NumR MeshModel LevelSetModel LevelSetSpec LevelSetCalls BoundaryModel BoundarySpecR AreaOrderSpec SymmetrySpec ShiftSpec Shift.
Local Open Scope R_scope.

(** C84, exact arithmetic: a shape moved by [a] elements to the right and [b] up, perhaps in a domain of another size, has the same area, and every element the area it had. *)
Theorem C84_moved_areas W H V K a b s t tg tg' sd sd' l m A B : measurable W H s tg sd -> measurable V K t tg' sd' -> moved_by W H V K a b sd sd' ->
  measured s tg l A -> measured t tg' m B ->
  A = B /\ forall x y u v, (x < W)%nat -> (y < H)%nat -> (u < V)%nat -> (v < K)%nat -> Z.of_nat u = (Z.of_nat x + a)%Z -> Z.of_nat v = (Z.of_nat y + b)%Z -> at_xy V m u v = at_xy W l x y.
Proof. exact (moved_areas W H V K a b s t tg tg' sd sd' l m A B). Qed.
Print Assumptions C84_moved_areas.
(** C84, exact arithmetic: and the same length of the boundary. *)
Theorem C84_moved_length W H V K a b s t tg tg' sd sd' s' t' c d : measurable W H s tg sd -> measurable V K t tg' sd' -> moved_by W H V K a b sd sd' ->
  discretise s tg = Ok (s', c) -> discretise t tg' = Ok (t', d) -> bd_length c = bd_length d.
Proof. exact (moved_length W H V K a b s t tg tg' sd sd' s' t' c d). Qed.
Print Assumptions C84_moved_length.

(** The middle of a 2 by 2 mesh inside, moved to the right in a 3 by 2 mesh. *)
Example C84_case : exists s t l A m B, measurable 2 2 s true [-1; -1; -1; -1; 1; -1; -1; -1; -1] /\ measurable 3 2 t true [-1; -1; -1; -1; -1; -1; 1; -1; -1; -1; -1; -1] /\
  moved_by 2 2 3 2 1 0 [-1; -1; -1; -1; 1; -1; -1; -1; -1] [-1; -1; -1; -1; -1; -1; 1; -1; -1; -1; -1; -1] /\ measured s true l A /\ measured t true m B.
Proof. exact shift_case. Qed.
