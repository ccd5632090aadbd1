(** * DemoFacts: the measures of the demo programs on boundaries of level sets, with cases (C59-C62, C68). *)

From Coq Require Import Reals Lra.
From Verif Require Import Base Num NumR NumF64 NumInt NumSgn MeshModel MeshSpec FmmSpec LevelSetModel LevelSetSpec LevelSetSpecR LevelSetCalls LevelSetHist
  BoundaryModel BoundarySpec BoundarySpecR BoundaryLinks BoundaryReal BoundaryGraph BoundaryClosed AreaCases NormSpec SensProofs TwinCase
  DemoModel DemoSpec DemoSens DemoLength DemoBrolly DemoTurn DemoArea DemoCase DemoMatch DemoRun DemoTrials.
Local Open Scope R_scope.

Lemma L1_sym a b : L1 a b = L1 b a.
Proof.
  unfold L1. revert b. induction a as [|x a IH]; intros [|y b]; try reflexivity. cbn [zip_with sumR foldr]. rewrite Rabs_minus_sym. f_equal. apply IH.
Qed.
Lemma mismatch_distance_R W H (s : LevelSet R) areas : reached W H s -> length areas = (W * H)%nat ->
  exists d, computeMismatch (ls_mesh s) areas = Ok d /\ d = L1 areas (areas_of (ls_mesh s)) /\ 0 <= d /\ (d = 0 <-> areas = areas_of (ls_mesh s)) /\
    Rabs (sumR areas - sumR (areas_of (ls_mesh s))) <= d /\
    ((forall x, x ∈ areas -> 0 <= x <= 1) -> (forall x, x ∈ areas_of (ls_mesh s) -> 0 <= x <= 1) -> d <= INR (W * H)).
Proof.
  intros Hr La. pose proof (ok_topo _ _ _ (so_ok _ _ _ (reached_sound _ _ _ Hr))) as Ht.
  pose proof (tp_lenE _ _ _ Ht) as LE. pose proof (tp_nE _ _ _ Ht) as NE.
  assert (L : length areas = length (areas_of (ls_mesh s))) by (unfold areas_of; rewrite map_length; congruence).
  eexists. split; [apply mismatch_R; congruence|]. split; [reflexivity|]. split; [apply L1_nonneg|]. split; [apply L1_zero, L|]. split; [apply L1_total, L|].
  intros A B. rewrite <- La, L. apply L1_fractions; assumption.
Qed.
Lemma mismatch_too_short {T} {NT : Num T} {NI : NumInt T} W H (s : LevelSet T) areas : reached W H s -> (length areas < W * H)%nat -> computeMismatch (ls_mesh s) areas = UB.
Proof.
  intros Hr La. pose proof (ok_topo _ _ _ (so_ok _ _ _ (reached_sound _ _ _ Hr))) as Ht.
  apply mismatch_short; [rewrite (tp_lenE _ _ _ Ht), (tp_nE _ _ _ Ht); reflexivity|rewrite (tp_nE _ _ _ Ht); exact La].
Qed.

Lemma weights_all g y : gravity_ok g -> perimeterWeight g y = weight_at g y /\ g_reduce g <= weight_at g y <= 1 /\
  (g_upper g <= y -> weight_at g y = 1) /\ (y <= g_lower g -> weight_at g y = g_reduce g) /\
  (g_lower g <= y <= g_upper g -> weight_at g y = 1 - (1 - g_reduce g) * ((g_upper g - y) / (g_upper g - g_lower g))) /\
  (forall y', y <= y' -> weight_at g y <= weight_at g y').
Proof.
  intros G. split; [exact (weight_R g y G)|]. split; [apply weight_bounds, G|]. split; [exact (weight_above g y G)|]. split; [exact (weight_below g y G)|].
  split; [exact (weight_between g y G)|]. intros y'. exact (weight_mono g y y' G).
Qed.

Lemma weighted_perimeter W H (s s' : LevelSet R) tg b (ps : list (BoundaryPoint R)) g : reached W H s -> discretise s tg = Ok (s', b) ->
  Forall2 same_links (bd_points b) ps -> gravity_ok g ->
  exists l, weightedPerimeter g ps = Ok l /\
    l = sumR (map (fun sg => sg_length sg * mean_weight g (height_of b (sg_start sg)) (height_of b (sg_end sg))) (bd_segs b)) /\
    g_reduce g * bd_length b <= l <= bd_length b.
Proof.
  intros Hr Hd F G. eexists. split; [exact (weightedPerimeter_R W H s s' tg b ps Hr Hd F g G)|]. split; [reflexivity|]. exact (sum_bounds W H s s' tg b Hr Hd g G).
Qed.

Lemma centre_in_domain W H (s s' : LevelSet R) tg b (ps : list (BoundaryPoint R)) g : reached W H s -> discretise s tg = Ok (s', b) ->
  Forall2 same_links (bd_points b) ps -> gravity_ok g -> 0 < g_reduce g -> 0 < bd_length b ->
  exists x y, centreOfMass g ps = Ok (x, y) /\ 0 <= x <= INR W /\ 0 <= y <= INR H.
Proof.
  intros Hr Hd F G Hg Hl. destruct (weighted_perimeter W H s s' tg b ps g Hr Hd F G) as (l & El & _ & L).
  apply (centre_in_box g ps l); [exact G|exact El| |].
  - assert (0 < g_reduce g * bd_length b) by (apply Rmult_lt_0_compat; assumption). lra.
  - intros p Hp. apply elem_of_list_lookup in Hp as [k Ek]. destruct (Forall2_lookup_r _ _ _ _ _ F Ek) as (p0 & E0 & (C & _)).
    rewrite C. exact (proj2 (points_on_contour W H s s' tg b Hr Hd k p0 E0)).
Qed.

(** ** Cases *)
Lemma match_case : exists (s s' : LevelSet R) b, reached 4 4 s /\ length (ls_target s) = node_count 4 4 /\ new_boundary (shape_match (/ 2) []) s = Ok (s', b) /\
  (forall p, p ∈ bd_points b -> well_inside 4 4 (bp_coord p)) /\ (exists p, p ∈ bd_points b).
Proof.
  destruct mid_boundary as (s & s' & b & Hr & Lt & Hd & Hin & Hp & _). exists s, s', b. split; [exact Hr|]. split; [exact Lt|]. split; [|split; assumption].
  unfold new_boundary. rewrite Hd. reflexivity.
Qed.
Lemma uncorrected_case : exists (s s' : LevelSet R) b b', reached 4 4 s /\ new_boundary (shape_match (/ 2) []) s = Ok (s', b) /\ d_assign (shape_match (/ 2) []) s' b = Ok b' /\ (exists p, p ∈ bd_points b').
Proof.
  destruct match_case as (s & s' & b & Hr & Lt & Hn & Hin & (p & Hp)). destruct (match_sensitivities 4 4 (/ 2) [] s s' b Hr Lt Hn Hin) as (b' & Eb & _ & L & _).
  exists s, s', b, b'. split; [exact Hr|]. split; [exact Hn|]. split; [exact Eb|]. destruct (bd_points b') as [|q l]; [|exists q; left].
  destruct (bd_points b); [apply elem_of_nil in Hp; contradiction|discriminate L].
Qed.
Definition half_weight : Gravity R := mkGravity 4 3 1 2 (/ 2).
Lemma half_weight_ok : gravity_ok half_weight.
Proof. constructor; cbn [half_weight g_n g_upper g_lower g_range g_reduce]; [lia|lra|lra|lra]. Qed.
Lemma gravity_case : exists (s s' : LevelSet R) b g l x y, reached 4 4 s /\ discretise s false = Ok (s', b) /\ Forall2 same_links (bd_points b) (bd_points b) /\ gravity_ok g /\
  0 < g_reduce g < 1 /\ 0 < bd_length b /\ weightedPerimeter g (bd_points b) = Ok l /\ 0 < l /\ centreOfMass g (bd_points b) = Ok (x, y).
Proof.
  destruct mid_boundary as (s & s' & b & Hr & _ & Hd & _ & _ & Hl). exists s, s', b, half_weight.
  assert (F : Forall2 same_links (bd_points b) (bd_points b)) by (apply Forall_Forall2_diag, Forall_forall; intros p _; repeat split).
  destruct (weighted_perimeter 4 4 s s' false b (bd_points b) half_weight Hr Hd F half_weight_ok) as (l & El & _ & L & _).
  destruct (centre_in_domain 4 4 s s' false b (bd_points b) half_weight Hr Hd F half_weight_ok ltac:(cbn; lra) Hl) as (x & y & Ec & _).
  exists l, x, y. split; [exact Hr|]. split; [exact Hd|]. split; [exact F|]. split; [exact half_weight_ok|]. split; [cbn; lra|]. split; [exact Hl|]. split; [exact El|].
  split; [cbn [half_weight g_reduce] in L; lra|exact Ec].
Qed.
Lemma mismatch_case : exists s : LevelSet R, reached 2 2 s /\ length [0; 0; 0; 0] = (2 * 2)%nat /\ computeMismatch (ls_mesh s) [0; 0; 0; 0] = Ok (/ 2).
Proof.
  destruct diamond_shares as (s0 & s1 & s & b & R0 & _ & E1 & E2 & Ea).
  assert (R1 : reached 2 2 s1) by (apply (reached_call _ _ _ _ R0), c_quiet, (q_discretise _ _ _ _ E1)).
  assert (Hr : reached 2 2 s) by (apply (reached_call _ _ _ _ R1), c_quiet, (q_areas _ _ _ _ E2)).
  exists s. split; [exact Hr|]. split; [reflexivity|].
  destruct (mismatch_distance_R 2 2 s [0; 0; 0; 0] Hr eq_refl) as (d & Ed & -> & _). rewrite Ed. f_equal. unfold areas_of. rewrite Ea. unfold L1. cbn [zip_with sumR foldr].
  rewrite !Rminus_0_l, !Rabs_Ropp, !Rabs_right by lra. lra.
Qed.
