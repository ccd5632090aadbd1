(** * DemoTargets: the starting shapes and targets of dumbbell, bimodal and bimodal_brolly, and their weights, in exact arithmetic (C75). *)

From Coq Require Import Reals Lra Lia.
From Verif Require Import Base Num NumR NumInt MeshModel MeshSpec LevelSetModel LevelSetSpec LevelSetSpecR LevelSetCalls LevelSetHist StartSpec LevelSetTarget
  IOModel DemoModel DemoSpec DemoFacts DemoSetup DemoStart DemoShapes.
Local Open Scope R_scope.

Lemma outside_R h x0 y0 r (x y : nat) : disc_of h = (x0, y0, r) -> 0 <= r -> r * r <= (x0 - INR x) * (x0 - INR x) + (y0 - INR y) * (y0 - INR y) -> 0 <= hole_dist h x y.
Proof.
  unfold disc_of. intros E Hr Hd. injection E as <- <- <-. unfold hole_dist, euclid, euclid2. cbn [cx cy].
  pose proof (R_sqrt.sqrt_le_1_alt _ _ Hd) as L. rewrite R_sqrt.sqrt_square in L by exact Hr. lra.
Qed.

Lemma triple_eq (a b c a' b' c' : R) : a = a' -> b = b' -> c = c' -> (a, b, c) = (a', b', c').
Proof. intros -> -> ->. reflexivity. Qed.

Lemma shapes_any W H h1 h2 ml bw fx l1 l2 : fits_ls W H bw -> valid_params ml bw -> (forall h, h ∈ h2 -> 0 <= hole_dist h 0 0) -> map disc_of h1 = l1 -> map disc_of h2 = l2 ->
  exists s, ls_new_holes_holes W H h1 h2 ml bw fx = Ok s /\ shape_and_target W H l1 l2 s.
Proof.
  intros Hf HV HC <- <-. destruct (pair_around W H h1 h2 ml bw fx Hf HV HC) as (s & s2 & s3 & E & E2 & E3 & Et & F1 & F2).
  exists s. split; [exact E|]. split; [exists ml, bw, fx, s; split; [exact Hf|]; split; [exact (new_by_holes_holes _ _ _ _ _ _ _ _ E)|apply rtc_refl]|].
  split; [exact F1|]. exists s2, s3. split; [exists ml, bw, fx, s2; split; [exact Hf|]; split; [exact (new_by_holes _ _ _ _ _ _ _ E2)|apply rtc_refl]|]. auto.
Qed.

Lemma fits_100 : fits_ls 100 100 6.
Proof. unfold fits_ls, node_count. lia. Qed.

Theorem bimodal_shape : exists s : LevelSet R, start_bimodal = Ok s /\ shape_and_target 70 60 [(35, 15, 10)] [(45, 31, 20); (25, 30, 20)] s.
Proof.
  unfold start_bimodal. apply shapes_any; [exact fits_bimodal|apply params_R; lra| | |].
  - intros h Hh. apply elem_of_cons in Hh as [->|Hh]; [|apply elem_of_cons in Hh as [->|Hh]; [|apply elem_of_nil in Hh; contradiction]].
    + apply (outside_R _ 45 31 20); [|lra|cbn [INR]; lra]. unfold disc_of, target_lobes, bi_width_, bi_height_. cbn [h_coord h_r cx cy]. rewrite nlit_R. cbn [nmul nadd nofZ NumR]. apply triple_eq; lra.
    + apply (outside_R _ 25 30 20); [|lra|cbn [INR]; lra]. unfold disc_of, target_lobes, bi_width_, bi_height_. cbn [h_coord h_r cx cy]. rewrite nlit_R. cbn [nmul nsub nofZ NumR]. apply triple_eq; lra.
  - unfold disc_of, first_disc, bi_width_, bi_height_. cbn [map h_coord h_r cx cy]. rewrite nlit_R. cbn [nmul nofZ NumR]. f_equal. apply triple_eq; lra.
  - unfold disc_of, target_lobes, bi_width_, bi_height_. cbn [map h_coord h_r cx cy]. rewrite nlit_R. cbn [nmul nadd nsub nofZ NumR].
    f_equal; [apply triple_eq; lra|]. f_equal. apply triple_eq; lra.
Qed.

Theorem dumbbell_shape {TT : Text R} fs : exists s : LevelSet R, start_dumbbell fs None = Ok s /\ shape_and_target 100 100 [(50, 69, 15)] [(50, 69, 20); (50, 31, 20)] s.
Proof.
  assert (X : exists s : LevelSet R, ls_new_holes_holes 100 100 [hole 50 69 15] [hole 50 69 20; hole 50 31 20] (nlit 5 100) 6 true = Ok s /\ shape_and_target 100 100 [(50, 69, 15)] [(50, 69, 20); (50, 31, 20)] s).
  { apply shapes_any; [exact fits_100|apply params_R; lra| |reflexivity|reflexivity].
    intros h Hh. apply elem_of_cons in Hh as [->|Hh]; [|apply elem_of_cons in Hh as [->|Hh]; [|apply elem_of_nil in Hh; contradiction]].
    - apply (outside_R _ 50 69 20); [reflexivity|lra|cbn [INR]; lra].
    - apply (outside_R _ 50 31 20); [reflexivity|lra|cbn [INR]; lra]. }
  destruct X as (s & E & X). exists s. split; [|exact X]. unfold start_dumbbell. rewrite E. reflexivity.
Qed.

(** ** Weights *)
Theorem dumbbell_weight r y : 0 <= r <= 1 -> perimeterWeight (gravity_dumbbell r) y = 1 - (1 - r) * Rmax 0 (Rmin 1 ((69 - y) / 38)).
Proof.
  intros Hr. rewrite (proj1 (weights_all _ y (gravity_dumbbell_ok r Hr))). unfold weight_at. cbn. do 4 f_equal. f_equal. lra.
Qed.
Theorem bimodal_weight r y : 0 <= r <= 1 -> perimeterWeight (gravity_bimodal r) y = 1 - r * Rmax 0 (Rmin 1 ((51 - y) / 40)).
Proof.
  intros Hr. rewrite (proj1 (weights_all _ y (gravity_bimodal_ok r Hr))). unfold weight_at, gravity_bimodal, bi_height_. cbn [g_upper g_lower g_reduce]. unfold n1. rewrite nlit_R. cbn [nadd nsub nmul nofZ NumR].
  replace (1 / 2 * 60 + 1 + 20) with 51 by lra. replace (51 - (1 / 2 * 60 + 1 - 20)) with 40 by lra. f_equal. f_equal. lra.
Qed.
