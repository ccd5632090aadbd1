(** * PropExtreme: only an empty shape has no area, only a full one all of it, and only these have no boundary (C87).  Proofs in Extreme. *)

From Coq Require Import Reals.
From Verif Require Import Base Num NumR MeshModel LevelSetModel LevelSetSpec LevelSetCalls BoundaryModel BoundarySpecR AreaOrderSpec ShiftSpec ExtremeSpec Extreme.
Local Open Scope R_scope.

(** C87, exact arithmetic: the total area is between zero and the number of elements; it is zero just if all nodes are outside and the number of elements just if all are inside. *)
Theorem C87_extreme_areas W H s tg sd l A : measurable W H s tg sd -> measured s tg l A ->
  0 <= A <= INR (W * H) /\ (A = 0 <-> nothing W H sd) /\ (A = INR (W * H) <-> everything W H sd).
Proof. exact (extreme_areas W H s tg sd l A). Qed.
Print Assumptions C87_extreme_areas.
(** C87, exact arithmetic: the boundary has length zero just if all nodes are on one side. *)
Theorem C87_no_boundary W H s tg sd s' b : measurable W H s tg sd -> discretise s tg = Ok (s', b) ->
  0 <= bd_length b /\ (bd_length b = 0 <-> nothing W H sd \/ everything W H sd).
Proof. exact (no_boundary W H s tg sd s' b). Qed.
Print Assumptions C87_no_boundary.

(** A 2 by 2 mesh with all nodes outside, with all inside, and with the middle one inside. *)
Example C87_case : forall v, v ∈ [replicate 9 (-1); replicate 9 1; [-1; -1; -1; -1; 1; -1; -1; -1; -1]] -> exists s l A, measurable 2 2 s true v /\ measured s true l A.
Proof. exact extreme_case. Qed.
