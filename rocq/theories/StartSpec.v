(** * StartSpec: the starting shapes of the demo programs, as fields over the nodes (C75). *)

From Coq Require Import Reals.
From Verif Require Import Base Num NumR MeshModel MeshSpec LevelSetModel LevelSetSpec LevelSetSpecR LevelSetCalls LevelSetHist.

(** The square from (90, 90) to (110, 110). *)
Definition in_square (x y : nat) : bool := ((90 <=? x) && (x <=? 110) && (90 <=? y) && (y <=? 110))%nat.

Local Open Scope R_scope.
(** The smaller of the distance to the border and the signed distances to the circles [discs], each with centre and radius: negative inside a circle. *)
Definition around (W H : nat) (discs : list (R * R * R)) (x y : nat) : R :=
  fold_right Rmin (border_dist W H x y) (map (fun '(cx, cy, r) => R_sqrt.sqrt ((cx - INR x) * (cx - INR x) + (cy - INR y) * (cy - INR y)) - r) discs).

(** A level set whose field is [around] one list of circles, and whose target is the reinitialised field around another. *)
Definition shape_and_target (W H : nat) (shape target : list (R * R * R)) (s : LevelSet R) : Prop :=
  reached W H s /\
  (forall x y, (x <= W)%nat -> (y <= H)%nat -> ls_sd s !! node_id W x y = Some (around W H shape x y)) /\
  exists s2 s3, reached W H s2 /\ reinitialise s2 = Ok s3 /\ ls_target s = ls_sd s3 /\
    (forall x y, (x <= W)%nat -> (y <= H)%nat -> ls_sd s2 !! node_id W x y = Some (around W H target x y)).

(** The area of two discs of radius 20 whose centres are 20 apart, from the values of pi and asin(1/2). *)
Definition lobes_area (pi asin_half : R) : R := 2 * (20 * 20) * (pi / 2 + asin_half + / 2 * R_sqrt.sqrt (1 - / 2 * / 2)).
