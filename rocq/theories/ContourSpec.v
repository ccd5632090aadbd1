(** * ContourSpec: only the contour counts (C81). *)

From Coq Require Import Reals.
From Verif Require Import Base Num NumR MeshModel LevelSetModel BoundarySpecR.
Local Open Scope R_scope.

(** All values of the level set, or of the target, multiplied by [c]: the same contour for [c > 0]. *)
Definition scaled (c : R) (tg : bool) (s : LevelSet R) : LevelSet R :=
  if tg then set_target (map (Rmult c) (ls_target s)) s else set_sd (map (Rmult c) (ls_sd s)) s.
(** The same nodes are taken to be on the contour. *)
Definition same_nodes (c : R) (l : list R) : Prop := Forall (fun x => Rabs x < tol <-> Rabs (c * x) < tol) l.
