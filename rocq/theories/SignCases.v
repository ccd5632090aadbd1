(** * SignCases: fields on which the fast marching method flips a sign (C14, C22).

    A wedge of nodes on one side of the contour.  Every node along its two slanted sides has one
    neighbour on the contour and one about a unit away from it; for those two distances the quadratic
    of updateNode has no solution, so the node keeps its old value.  The front enters only at the wide
    end, and by the time it reaches the tip it carries a large distance; the tip combines that distance
    of one neighbour with the small distance of the opposite one. *)

From Verif Require Import NumF64.
Local Open Scope nat_scope.

(** Rows from the bottom of the mesh to the top, in units of 1/256, on 6 x 12 elements. *)
Definition wedge_rows : list (list Z) := [
  [0; -1; 0; 0; 0; 0; 0];
  [16384; 16384; 0; 0; 0; 0; 0];
  [16384; 16384; 0; -1; 0; 0; 0];
  [16384; 16384; 16384; 16384; 0; 0; 0];
  [16384; 16384; 16384; 16384; 0; 16384; -1];
  [16384; 16384; 16384; 16384; 16384; 16384; -1];
  [16384; 16384; 16384; 16384; 16384; 16384; 16384];
  [16384; 16384; 16384; 16384; 16384; 0; 0];
  [16384; 16384; 16384; 16384; 16384; 16; -256];
  [16384; 16384; 16384; 0; -1; 0; 0];
  [16384; 16384; 16384; 0; 0; 0; 0];
  [16384; 0; -1; 0; 0; 0; 0];
  [16384; 0; 0; 0; 0; 0; 0]]%Z.
Definition wedge : list f64 := map (fun z => nlit z 256) (concat wedge_rows).
(** Its tip, at (5, 6). *)
Definition wedge_tip : nat := 47.

(** The mirror image, outside the structure, on 16 x 14 elements, in units of 1/4096. *)
Definition outer_rows : list (list Z) := [
  [0; 0; 0; 0; 0; 0; 0; 0; 0; 0; 0; 0; 0; 0; 0; 0; 0];
  [0; 16; 0; 0; 0; 0; 0; 0; 0; 0; 0; 0; 0; 0; 0; 0; 0];
  [-262144; -262144; 0; 0; 0; 0; 0; 0; 0; 0; 0; 0; 0; 0; 0; 0; 0];
  [-262144; -262144; 0; 16; 0; 0; 0; 0; 0; 0; 0; 0; 0; 0; 0; 0; 0];
  [-262144; -262144; -262144; -262144; 0; 0; 0; 0; 0; 0; 0; 0; 0; 0; 0; 0; 0];
  [-262144; -262144; -262144; -262144; 0; -262144; 16; 0; 0; 0; 0; 0; 0; 0; 0; 0; 0];
  [-262144; -262144; -262144; -262144; -262144; -262144; 16; 1; 0; 0; 0; 0; 0; 0; 0; 0; 0];
  [-262144; -262144; -262144; -262144; -262144; -45056; -262144; -262144; 0; 0; 0; 0; 0; 0; 0; 0; 0];
  [-262144; -262144; -262144; -262144; -262144; 0; 0; 0; 0; 0; 0; 0; 0; 0; 0; 0; 0];
  [-262144; -262144; -262144; -262144; -262144; -256; 4096; 0; 0; 0; 0; 0; 0; 0; 0; 0; 0];
  [-262144; -262144; -262144; 0; 16; 0; 0; 0; 0; 0; 0; 0; 0; 0; 0; 0; 0];
  [-262144; -262144; -262144; 0; 0; 0; 0; 0; 0; 0; 0; 0; 0; 0; 0; 0; 0];
  [-262144; 0; 16; 0; 0; 0; 0; 0; 0; 0; 0; 0; 0; 0; 0; 0; 0];
  [-262144; 0; 0; 0; 0; 0; 0; 0; 0; 0; 0; 0; 0; 0; 0; 0; 0];
  [0; 0; 0; 0; 0; 0; 0; 0; 0; 0; 0; 0; 0; 0; 0; 0; 0]]%Z.
Definition outer_wedge : list f64 := map (fun z => nlit z 4096) (concat outer_rows).
(** Its tip, at (5, 7). *)
Definition outer_tip : nat := 124.
