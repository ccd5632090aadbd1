(** * DemoTrials: shape_match at the border and two trials of umbrella sampling in floating point (C59, C66). *)

From Verif Require Import OptModel OptCases.
From Verif Require Import Base Num NumF64 NumInt MeshModel MeshSpec LevelSetModel LevelSetSpec LevelSetCalls LevelSetHist LevelSetParams BoundaryModel TwinCase DemoModel DemoSpec DemoLoop DemoBrolly DemoRun.
Local Open Scope nat_scope.

(** ** The mismatch sensitivity next to the border of the domain *)
Definition is_ub {A} (o : outcome A) : bool := match o with UB => true | _ => false end.
Lemma is_ub_spec {A} (o : outcome A) (n k : nat) : Ok (is_ub o, n) = Ok (true, k) -> o = UB.
Proof. destruct o; cbn [is_ub]; intros [=]; reflexivity. Qed.
Lemma edge_runs : (let! s := edge4 in let! (s, a) := target_areas s in let! (s, b) := new_boundary (shape_match n0 a) s in
    Ok (is_ub (d_assign (shape_match n0 a) s b), length (bd_points b))) = Ok (true, 3).
Proof. vm_compute. reflexivity. Qed.
Lemma edge_case : exists (s s' : LevelSet f64) a b, reached 4 4 s /\ length a = 16 /\ new_boundary (shape_match n0 a) s = Ok (s', b) /\ d_assign (shape_match n0 a) s' b = UB.
Proof.
  pose proof edge_runs as X. apply Ok_bind in X as (s & E & X). apply Ok_bind in X as ([s1 a] & E1 & X). apply Ok_bind in X as ([s2 b] & E2 & X).
  assert (Hr : reached 4 4 s) by (exists (f 1 2), 3, true, s; split; [exact fits4|]; split; [exact (new_by_holes_holes _ _ _ _ _ _ _ _ E)|apply rtc_refl]).
  destruct (target_areas_inv 4 4 s s1 a Hr E1) as (Hr1 & La & _). exists s1, s2, a, b. split; [exact Hr1|]. split; [exact La|]. split; [exact E2|].
  exact (is_ub_spec _ _ _ X).
Qed.

(** ** Two trials of umbrella sampling: the first is accepted, the second rejected *)
Definition g4 : Gravity f64 := mkGravity 2 (f 3 1) (f 1 1) (f 2 1) (f 1 2).
Definition bi4 : Bias f64 := mkBias (f 0 1) (f 1 1) (f 1 1) (f 4 1) (f 1 1000000).
Definition brolly4 (a : list f64) : Demo f64 := brolly g4 (f 1 100000) (f 1 10) a.
Definition dice (k : nat) : f64 := if (k =? 0)%nat then f 0 1 else f 3 4.
Lemma trials_run : (let! s := pair4 in let! (s, a) := target_areas s in let! u := umbrella_begin (brolly4 a) g4 bi4 s in
    let! (u1, a1) := trial 3 100 (brolly4 a) g4 tiny calm (fun _ => f 1 2) dice bi4 u in
    let! (u2, a2) := trial 3 100 (brolly4 a) g4 tiny calm (fun _ => f 1 2) dice bi4 u1 in
    let! (x, _) := centreOfMass g4 (bd_points (sm_bd (um_sim u))) in
    Ok (a1, a2, um_x u =? x, um_x u =? x - nlit 1 2 * bi_width bi4)%num) = Ok (true, false, true, false).
Proof. vm_compute. reflexivity. Qed.
Lemma target_case : exists (s s' : LevelSet f64) a, reached 4 4 s /\ target_areas s = Ok (s', a).
Proof.
  pose proof trials_run as X. apply Ok_bind in X as (s & E & X). apply Ok_bind in X as ([s1 a] & E1 & _). exists s, s1, a. split; [|exact E1].
  exists (f 1 2), 3, true, s. split; [exact fits4|]. split; [exact (new_by_holes_holes _ _ _ _ _ _ _ _ E)|apply rtc_refl].
Qed.
Lemma trials_case : exists (s0 : LevelSet f64) a u u1 u2 x y, reached 4 4 s0 /\ umbrella_begin (brolly4 a) g4 bi4 s0 = Ok u /\
  reached 4 4 (sm_ls (um_sim u)) /\ length (um_backup u) = node_count 4 4 /\ bias_matches bi4 u /\
  trial 3 100 (brolly4 a) g4 tiny calm (fun _ => f 1 2) dice bi4 u = Ok (u1, true) /\
  trial 3 100 (brolly4 a) g4 tiny calm (fun _ => f 1 2) dice bi4 u1 = Ok (u2, false) /\
  trials 2 3 100 (brolly4 a) g4 tiny calm (fun _ => f 1 2) dice bi4 u = Ok (u2, [true; false]) /\
  centreOfMass g4 (bd_points (sm_bd (um_sim u))) = Ok (x, y) /\ (um_x u =? x - nlit 1 2 * bi_width bi4)%num = false.
Proof.
  pose proof trials_run as X. apply Ok_bind in X as (s & E & X). apply Ok_bind in X as ([s1 a] & E1 & X). apply Ok_bind in X as (u & E2 & X).
  apply Ok_bind in X as ([u1 a1] & E3 & X). apply Ok_bind in X as ([u2 a2] & E4 & X). apply Ok_bind in X as ([x y] & E5 & X). injection X as -> -> _ X.
  assert (Hr : reached 4 4 s) by (exists (f 1 2), 3, true, s; split; [exact fits4|]; split; [exact (new_by_holes_holes _ _ _ _ _ _ _ _ E)|apply rtc_refl]).
  destruct (target_areas_inv 4 4 s s1 a Hr E1) as (Hr1 & La & _). pose proof E2 as E2'.
  unfold umbrella_begin in E2. apply Ok_bind in E2 as (m & Em & E2). apply Ok_bind in E2 as ([x0 y0] & Ec & E2). injection E2 as <-.
  unfold begin in Em. apply Ok_bind in Em as ([s2 b2] & Eb & Em). injection Em as <-.
  destruct (new_boundary_inv _ _ _ _ _ _ Hr1 Eb) as (R2 & Sd & _).
  exists s1, a. eexists _, u1, u2, x, y. split; [exact Hr1|]. split; [exact E2'|]. split; [exact R2|].
  split; [cbn [um_backup sm_ls]; exact (ok_sd _ _ _ (so_ok _ _ _ (reached_sound _ _ _ R2)))|]. split; [reflexivity|]. split; [exact E3|]. split; [exact E4|].
  split; [|split; [exact E5|exact X]]. cbn [trials]. rewrite E3. cbn [obind]. rewrite E4. reflexivity.
Qed.
Lemma first_position : exists (s : LevelSet f64) a u x y, reached 4 4 s /\ umbrella_begin (brolly4 a) g4 bi4 s = Ok u /\
  centreOfMass g4 (bd_points (sm_bd (um_sim u))) = Ok (x, y) /\ (um_x u =? x - nlit 1 2 * bi_width bi4)%num = false.
Proof. destruct trials_case as (s & a & u & u1 & u2 & x & y & A & B & _ & _ & _ & _ & _ & _ & C & D). exists s, a, u, x, y. auto. Qed.
