(** * AreaOrderSpec: comparing the areas of two level sets (C78). *)

From Coq Require Import Reals.
From Verif Require Import Base Num NumR MeshModel LevelSetModel LevelSetSpec LevelSetCalls LevelSetHist BoundaryModel BoundarySpecR FmmSpec.
Local Open Scope R_scope.

(** [discretise] of the level set (or of the target) and then [computeAreaFractions] give the areas [l] of the elements and the total [A]. *)
Definition measured (s : LevelSet R) (tg : bool) (l : list R) (A : R) : Prop :=
  exists s' b s'', discretise s tg = Ok (s', b) /\ computeAreaFractions s' b = Ok (s'', A) /\ l = map e_area (m_elements (ls_mesh s'')).
(** A reachable level set with values [sd] whose contour passes no node and is found whole. *)
Definition measurable (W H : nat) (s : LevelSet R) (tg : bool) (sd : list R) : Prop :=
  sd = (if tg then ls_target s else ls_sd s) /\ reached W H s /\ off_contour W H sd /\ clear_cuts W H sd /\ (tg = true \/ covered W H s sd).
(** Element [e] is a balanced saddle: inside and outside alternate around it and its values add to zero. *)
Definition balanced (W : nat) (sd : list R) (e : nat) : Prop :=
  let x := corner_value W sd e in
  (forall j, (j < 4)%nat -> x j * x (j + 1)%nat < 0) /\ x 0%nat + x 1%nat + x 2%nat + x 3%nat = 0.
