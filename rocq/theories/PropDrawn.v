(** * PropDrawn: areas describe the contour last discretised (C82).  Proofs in Drawn. *)

From Coq Require Import Reals Lra.
From Verif Require Import Base Num NumR NumInt MeshModel MeshSpec LevelSetModel LevelSetSpec LevelSetSpecR LevelSetCalls LevelSetReal LevelSetHist BoundaryModel AreaOrderSpec AreaOrder DrawnSpec Drawn.

(** C82, any arithmetic: whatever is called or written after [discretise], and however often, [computeAreaFractions] with its boundary gives the areas it would have given at once.
    In particular the areas do not follow a level set that has moved since. *)
Theorem C82_areas_of_the_last_boundary :
  forall (T : Type) (NT : Num T) (NI : NumInt T) (W H : nat) (s s1 s2 : LevelSet T) (tg : bool) (b : Boundary T),
    reached W H s -> discretise s tg = Ok (s1, b) -> rtc other_call s1 s2 ->
    areas_of (computeAreaFractions s2 b) = areas_of (computeAreaFractions s1 b).
Proof. exact @last_drawn. Qed.
Print Assumptions C82_areas_of_the_last_boundary.

(** C82, any arithmetic: before the first [discretise], [computeAreaFractions] reads an uninitialised status, whatever boundary it is given. *)
Theorem C82_areas_before_discretise :
  forall (T : Type) (NT : Num T) (W H : nat) (ml : T) (bw : nat) (fx : bool) (s0 s : LevelSet T) (b : Boundary T),
    fits_ls W H bw -> constructed W H ml bw fx s0 -> rtc other_call s0 s -> computeAreaFractions s b = UB.
Proof. exact @not_drawn. Qed.
Print Assumptions C82_areas_before_discretise.

Local Open Scope R_scope.
(** A unit square with one corner inside that is emptied after [discretise]: the area is still an eighth. *)
Example C82_emptied_case : exists (s s1 s2 : LevelSet R) b, reached 1 1 s /\ discretise s false = Ok (s1, b) /\ rtc other_call s1 s2 /\ ls_sd s2 = [-1; -1; -1; -1] /\
  areas_of (computeAreaFractions s2 b) = Ok ([/ 8], / 8).
Proof.
  destruct square_areas as (s & _ & _ & M & _ & _ & (s1 & b & s3 & E & Ea & El) & _). destruct M as (Es & Hr & _). exists s, s1, (set_sd [-1; -1; -1; -1] s1), b.
  assert (R1 : rtc other_call s1 (set_sd [-1; -1; -1; -1] s1)).
  { apply rtc_once, o_write_sd. assert (H1 : reached 1 1 s1) by (apply (reached_call 1 1 s); [exact Hr|]; eapply c_quiet, q_discretise, E).
    rewrite (ok_sd _ _ _ (so_ok _ _ _ (reached_sound _ _ _ H1))). reflexivity. }
  split; [exact Hr|]. split; [exact E|]. split; [exact R1|]. split; [reflexivity|]. rewrite (C82_areas_of_the_last_boundary _ _ _ 1 1 s s1 _ false b Hr E R1). rewrite Ea. cbn. rewrite <- El. reflexivity.
Qed.
(** A new level set without holes. *)
Example C82_new_case : exists s : LevelSet R, fits_ls 4 4 3 /\ constructed 4 4 (/ 2) 3 false s.
Proof.
  assert (Hf : fits_ls 4 4 3) by (unfold fits_ls, node_count; lia). destruct (new_holes_R 4 4 [] (/ 2) 3 false Hf) as (s0 & E0 & _).
  { split; [lia|]. split; cbn; apply Rltb_true; lra. }
  exists s0. split; [exact Hf|]. exact (new_by_holes 4 4 (/ 2) 3 false s0 _ E0).
Qed.
