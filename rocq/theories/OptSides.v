(** * OptSides: the side limits of the boundary points made by discretise. *)

From Coq Require Import Reals Lra.
From Verif Require Import Num NumR LevelSetModel LevelSetSpec LevelSetCalls LevelSetHist BoundaryModel BoundarySpec BoundarySpecR BoundaryReal OptSpec.
Open Scope R_scope.

Theorem discretised_sides W H (s s' : LevelSet R) tg b limit : reached W H s -> discretise s tg = Ok (s', b) ->
  ls_moveLimit s <= limit \/ tol <= limit -> side_limits limit (bd_points b).
Proof.
  intros Hr E Hl p Hp Hd. apply elem_of_list_lookup in Hp as [k Hk]. destruct (limits W H s s' tg b Hr E k p Hk) as (_ & [A B] & C & D & _).
  apply D in Hd. lra.
Qed.
