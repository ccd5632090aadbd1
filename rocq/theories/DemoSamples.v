(** * DemoSamples: one turn with samples of each demo program in floating point (C71). *)

From Verif Require Import OptModel OptCases.
From Verif Require Import Base Num NumF64 NumInt MeshModel MeshSpec LevelSetModel LevelSetSpec LevelSetCalls LevelSetHist LevelSetParams BoundaryModel TwinCase DemoModel DemoSpec DemoLoop DemoBrolly DemoRun DemoTrials.
Local Open Scope nat_scope.

Definition one_turn (d : Demo f64) (s : LevelSet f64) : outcome (Run f64 * Run f64) :=
  let! m := begin d s in
  let! (r, _) := full_turn d tiny 100 calm (f 1 100) 0 (mkRun m n0 []) in
  Ok (mkRun m n0 [], r).
Definition recorded (r : Run f64) : list nat := map (fun x => length (snd x)) (rn_log r).
Lemma samples_run : (let! s := pair4 in let! (s, a) := target_areas s in
  let! (q1, r1) := one_turn minimise_area s in
  let! (q2, r2) := one_turn minimise_perimeter s in
  let! (q3, r3) := one_turn (minimise_perimeter_constrained (f 1 100000) (f 1 10)) s in
  let! (q4, r4) := one_turn (shape_match (f 1 100000) a) s in
  let! (q5, r5) := one_turn (dumbbell g4 (f 1 100000) (f 1 10) a) s in
  let! (q6, r6) := one_turn (bimodal g4 (f 1 100000) (f 1 10) a (f 4 1)) s in
  let! mm := computeMismatch (ls_mesh (sm_ls (rn_sim r5))) a in
  Ok (recorded r1, recorded r2, recorded r3, recorded r4, recorded r5, recorded r6, forallb (fun x => negb (nth 1 (snd x) n0 =? mm)%num) (rn_log r5)))
  = Ok ([1], [2], [2], [1], [2; 2], [4; 4], true).
Proof. vm_compute. reflexivity. Qed.

Lemma one_turn_case W H (d : Demo f64) s q r : reached W H s -> one_turn d s = Ok (q, r) ->
  reached W H (sm_ls (rn_sim q)) /\ rn_log q = [] /\ (exists s', reached W H s' /\ new_boundary d s' = Ok (sm_ls (rn_sim q), sm_bd (rn_sim q))) /\
  exists ri, full_turn d tiny 100 calm (f 1 100) 0 q = Ok (r, ri).
Proof.
  intros Hr E. unfold one_turn in E. apply Ok_bind in E as (m & Em & E). apply Ok_bind in E as ([r1 ri] & Ef & E). injection E as <- <-. cbn [rn_sim rn_log].
  unfold begin in Em. apply Ok_bind in Em as ([s1 b1] & E1 & Em). injection Em as <-. cbn [sm_ls sm_bd]. split; [exact (proj1 (new_boundary_inv _ _ _ _ _ _ Hr E1))|]. split; [reflexivity|]. split; [exists s; split; [exact Hr|exact E1]|exists ri; exact Ef].
Qed.

(** Program [d], started on some level set, takes samples in its first turn; [l] are their numbers of values. *)
Definition takes_samples (d : Demo f64) (l : list nat) : Prop := exists q r ri, reached 4 4 (sm_ls (rn_sim q)) /\
  (exists s, reached 4 4 s /\ new_boundary d s = Ok (sm_ls (rn_sim q), sm_bd (rn_sim q))) /\
  full_turn d tiny 100 calm (f 1 100) 0 q = Ok (r, ri) /\ rn_log q = [] /\ map (fun x => length (snd x)) (rn_log r) = l.
Lemma samples_case : exists a, takes_samples minimise_area [1] /\ takes_samples minimise_perimeter [2] /\ takes_samples (minimise_perimeter_constrained (f 1 100000) (f 1 10)) [2] /\
  takes_samples (shape_match (f 1 100000) a) [1] /\ takes_samples (dumbbell g4 (f 1 100000) (f 1 10) a) [2; 2] /\ takes_samples (bimodal g4 (f 1 100000) (f 1 10) a (f 4 1)) [4; 4].
Proof.
  pose proof samples_run as X. apply Ok_bind in X as (s & E & X). apply Ok_bind in X as ([s1 a] & E1 & X).
  assert (Hr : reached 4 4 s) by (exists (f 1 2), 3, true, s; split; [exact fits4|]; split; [exact (new_by_holes_holes _ _ _ _ _ _ _ _ E)|apply rtc_refl]).
  destruct (target_areas_inv 4 4 s s1 a Hr E1) as (Hr1 & La & _).
  assert (G : forall d q r, one_turn d s1 = Ok (q, r) -> takes_samples d (recorded r)).
  { intros d q r Eo. destruct (one_turn_case 4 4 d s1 q r Hr1 Eo) as (A & B & C & ri & D). exists q, r, ri. split; [exact A|]. split; [exact C|]. split; [exact D|]. split; [exact B|reflexivity]. }
  apply Ok_bind in X as ([q1 r1] & X1 & X). apply Ok_bind in X as ([q2 r2] & X2 & X). apply Ok_bind in X as ([q3 r3] & X3 & X). apply Ok_bind in X as ([q4 r4] & X4 & X). apply Ok_bind in X as ([q5 r5] & X5 & X).
  apply Ok_bind in X as ([q6 r6] & X6 & X). apply Ok_bind in X as (mm & X7 & X). injection X as Y1 Y2 Y3 Y4 Y5 Y6 _. exists a.
  split; [rewrite <- Y1; exact (G _ _ _ X1)|]. split; [rewrite <- Y2; exact (G _ _ _ X2)|]. split; [rewrite <- Y3; exact (G _ _ _ X3)|]. split; [rewrite <- Y4; exact (G _ _ _ X4)|]. split; [rewrite <- Y5; exact (G _ _ _ X5)|rewrite <- Y6; exact (G _ _ _ X6)].
Qed.
(** The mismatch that dumbbell records is not that of the shape whose length it records. *)
Lemma stale_case : exists (q r : Run f64) ri a mm, reached 4 4 (sm_ls (rn_sim q)) /\ full_turn (dumbbell g4 (f 1 100000) (f 1 10) a) tiny 100 calm (f 1 100) 0 q = Ok (r, ri) /\
  computeMismatch (ls_mesh (sm_ls (rn_sim r))) a = Ok mm /\ rn_log q = [] /\ rn_log r <> [] /\ forall x, x ∈ rn_log r -> (nth 1 (snd x) n0 =? mm)%num = false.
Proof.
  pose proof samples_run as X. apply Ok_bind in X as (s & E & X). apply Ok_bind in X as ([s1 a] & E1 & X).
  assert (Hr : reached 4 4 s) by (exists (f 1 2), 3, true, s; split; [exact fits4|]; split; [exact (new_by_holes_holes _ _ _ _ _ _ _ _ E)|apply rtc_refl]).
  destruct (target_areas_inv 4 4 s s1 a Hr E1) as (Hr1 & La & _).
  apply Ok_bind in X as ([q1 r1] & X1 & X). apply Ok_bind in X as ([q2 r2] & X2 & X). apply Ok_bind in X as ([q3 r3] & X3 & X). apply Ok_bind in X as ([q4 r4] & X4 & X). apply Ok_bind in X as ([q5 r5] & X5 & X).
  apply Ok_bind in X as ([q6 r6] & X6 & X). apply Ok_bind in X as (mm & X7 & X). injection X as _ _ _ _ Y5 _ Y7.
  destruct (one_turn_case 4 4 _ s1 q5 r5 Hr1 X5) as (A & B & _ & ri & D). exists q5, r5, ri, a, mm. split; [exact A|]. split; [exact D|]. split; [exact X7|]. split; [exact B|]. split.
  - intros Z. unfold recorded in Y5. rewrite Z in Y5. discriminate.
  - intros x Hx. rewrite forallb_forall in Y7. specialize (Y7 x (proj1 (elem_of_list_In _ _) Hx)). apply negb_true_iff. exact Y7.
Qed.
