(** * PropSymmetry: turning or mirroring a shape changes neither its area nor its perimeter (C83).  Proofs in Symmetry and Perimeter. *)

From Coq Require Import Reals Lra.
From Verif Require Import Base Num NumR MeshModel LevelSetModel LevelSetSpec LevelSetCalls BoundaryModel BoundarySpecR AreaOrderSpec AreaOrder SymmetrySpec Symmetry Perimeter.
Local Open Scope R_scope.

(** C83, exact arithmetic: a level set mirrored left to right has the mirrored element areas and the same total area. *)
Theorem C83_mirrored_areas W H s t tg tg' sd sd' l m A B : measurable W H s tg sd -> measurable W H t tg' sd' -> mirrored (W + 1) (H + 1) sd sd' ->
  measured s tg l A -> measured t tg' m B -> mirrored W H l m /\ A = B.
Proof. exact (mirror_areas W H s t tg tg' sd sd' l m A B). Qed.
Print Assumptions C83_mirrored_areas.
(** C83: so does one turned upside down. *)
Theorem C83_upside_down_areas W H s t tg tg' sd sd' l m A B : measurable W H s tg sd -> measurable W H t tg' sd' -> upside_down (W + 1) (H + 1) sd sd' ->
  measured s tg l A -> measured t tg' m B -> upside_down W H l m /\ A = B.
Proof. exact (flip_areas W H s t tg tg' sd sd' l m A B). Qed.
Print Assumptions C83_upside_down_areas.
(** C83: and one with rows and columns swapped, on the mesh with width and height swapped.  The turns by 90, 180 and 270 degrees are made of these three. *)
Theorem C83_transposed_areas W H s t tg tg' sd sd' l m A B : measurable W H s tg sd -> measurable H W t tg' sd' -> transposed (W + 1) (H + 1) sd sd' ->
  measured s tg l A -> measured t tg' m B -> transposed W H l m /\ A = B.
Proof. exact (transpose_areas W H s t tg tg' sd sd' l m A B). Qed.
Print Assumptions C83_transposed_areas.

(** C83, exact arithmetic: the length of the boundary as a function of the values. *)
Theorem C83_length_of_values W H s tg sd s' b : measurable W H s tg sd -> discretise s tg = Ok (s', b) ->
  bd_length b = fold_right Rplus 0 (map (fun e => len4 (corner_value W sd e 0) (corner_value W sd e 1) (corner_value W sd e 2) (corner_value W sd e 3)) (seq 0 (W * H))).
Proof. exact (fun M D => proj2 (perimeter W H s tg sd s' b M D)). Qed.
Print Assumptions C83_length_of_values.
(** C83, exact arithmetic: the same length of the boundary, mirrored left to right, ... *)
Theorem C83_mirrored_length W H s t tg tg' sd sd' s' t' b c : measurable W H s tg sd -> measurable W H t tg' sd' -> mirrored (W + 1) (H + 1) sd sd' ->
  (forall e, (e < W * H)%nat -> ~ balanced W sd e) -> discretise s tg = Ok (s', b) -> discretise t tg' = Ok (t', c) -> bd_length b = bd_length c.
Proof. exact (mirror_length W H s t tg tg' sd sd' s' t' b c). Qed.
Print Assumptions C83_mirrored_length.
(** ... upside down, ... *)
Theorem C83_upside_down_length W H s t tg tg' sd sd' s' t' b c : measurable W H s tg sd -> measurable W H t tg' sd' -> upside_down (W + 1) (H + 1) sd sd' ->
  (forall e, (e < W * H)%nat -> ~ balanced W sd e) -> discretise s tg = Ok (s', b) -> discretise t tg' = Ok (t', c) -> bd_length b = bd_length c.
Proof. exact (flip_length W H s t tg tg' sd sd' s' t' b c). Qed.
Print Assumptions C83_upside_down_length.
(** ... and with rows and columns swapped, balanced saddles or not. *)
Theorem C83_transposed_length W H s t tg tg' sd sd' s' t' b c : measurable W H s tg sd -> measurable H W t tg' sd' -> transposed (W + 1) (H + 1) sd sd' ->
  discretise s tg = Ok (s', b) -> discretise t tg' = Ok (t', c) -> bd_length b = bd_length c.
Proof. exact (transpose_length W H s t tg tg' sd sd' s' t' b c). Qed.
Print Assumptions C83_transposed_length.
(** The condition is needed: at a balanced saddle the code cuts off the corners 0 and 2, inside or outside, so the mirror image has another boundary. *)
Theorem C83_balanced_saddle_refuted : exists s t s' t' b c, measurable 1 1 s false [3/2; -2; -1; 3/2] /\ measurable 1 1 t false [-2; 3/2; 3/2; -1] /\
  mirrored 2 2 [3/2; -2; -1; 3/2] [-2; 3/2; 3/2; -1] /\ discretise s false = Ok (s', b) /\ discretise t false = Ok (t', c) /\ bd_length b <> bd_length c.
Proof. exact balanced_length. Qed.
Print Assumptions C83_balanced_saddle_refuted.

(** One corner of a unit square inside, mirrored. *)
Example C83_case : exists s t l A m B, measurable 1 1 s false [1; -1; -1; -1] /\ measurable 1 1 t false [-1; 1; -1; -1] /\
  mirrored 2 2 [1; -1; -1; -1] [-1; 1; -1; -1] /\ ~ balanced 1 [1; -1; -1; -1] 0 /\ measured s false l A /\ measured t false m B.
Proof.
  assert (A1 : Rabs 1 = 1) by (apply Rabs_pos_eq; lra). assert (A2 : Rabs (-1) = 1) by (rewrite Rabs_left; lra).
  destruct (square_case [1; -1; -1; -1] eq_refl) as (s & Ms & l & A & Ds); [repeat constructor; rewrite ?A1, ?A2; lra|].
  destruct (square_case [-1; 1; -1; -1] eq_refl) as (t & Mt & m & B & Dt); [repeat constructor; rewrite ?A1, ?A2; lra|].
  exists s, t, l, A, m, B. split; [exact Ms|]. split; [exact Mt|]. split; [intros [|[|x]] [|[|y]] Hx Hy; try lia; reflexivity|]. split; [|auto].
  intros [N _]. specialize (N 1%nat ltac:(lia)). change (-1 * -1 < 0) in N. lra.
Qed.
