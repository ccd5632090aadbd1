(** * DemoTurns: 22 turns of minimise_area in floating point (C64, C65). *)

From Verif Require Import OptModel OptCases.
From Verif Require Import Base Num NumF64 NumInt MeshModel MeshSpec LevelSetModel LevelSetSpec LevelSetCalls LevelSetHist LevelSetParams BoundaryModel TwinCase DemoModel DemoSpec DemoLoop DemoBrolly DemoRun.
Local Open Scope nat_scope.

(** ** 22 turns of minimise_area *)
Lemma loop_runs : (let! s := disc4 in let! m := begin minimise_area s in
    let! (l, r) := watch minimise_area tiny 100 calm (f 1 100) (f 1 1) 22 0 (mkRun m (f 1 100) []) in
    Ok (map snd l, length (rn_log r), orderly (f 1 100) (f 1 100) 3 (map fst l))) = Ok (replicate 20 false ++ [true; false], 1, true).
Proof. vm_compute. reflexivity. Qed.
Lemma loop_case : exists (r r' : Run f64) l, reached 4 4 (sm_ls (rn_sim r)) /\ sm_nReinit (rn_sim r) = 0 /\
  history minimise_area tiny 100 calm (f 1 100) (f 1 1) 0 r l r' /\ map snd l = replicate 20 false ++ [true; false] /\
  rn_log r = [] /\ length (rn_log r') = 1 /\
  (forall t i j, t ∈ map fst l -> i <= j <= 3 -> (due (f 1 100) (rn_next r) j <=? t)%num = true -> (due (f 1 100) (rn_next r) i <=? t)%num = true).
Proof.
  pose proof loop_runs as X. apply Ok_bind in X as (s & E & X). apply Ok_bind in X as (m & Em & X). apply Ok_bind in X as ([l r] & Ew & X).
  injection X as X1 X2 X3. apply watch_history in Ew. eexists _, r, l. split; [|split; [|split; [exact Ew|split; [exact X1|split; [reflexivity|split; [exact X2|]]]]]].
  - assert (Hr : reached 4 4 s) by (exists (f 1 2), 3, true, s; split; [exact fits4|]; split; [exact (new_by_holes _ _ _ _ _ _ _ E)|apply rtc_refl]).
    unfold begin in Em. apply Ok_bind in Em as ([s1 b1] & E1 & Em). injection Em as <-. cbn [rn_sim sm_ls]. exact (proj1 (new_boundary_inv _ _ _ _ _ _ Hr E1)).
  - unfold begin in Em. apply Ok_bind in Em as ([s1 b1] & E1 & Em). injection Em as <-. reflexivity.
  - exact (orderly_spec _ _ _ _ X3).
Qed.
Lemma first_reinit : exists (r r' : Run f64) l, reached 4 4 (sm_ls (rn_sim r)) /\
  history minimise_area tiny 100 calm (f 1 100) (f 1 1) 0 r l r' /\ forall i, i < 20 -> map snd l !! i = Some false.
Proof.
  destruct loop_case as (r & r' & l & A & _ & B & C & _). exists r, r', l. split; [exact A|]. split; [exact B|]. intros i Hi. rewrite C.
  rewrite lookup_app_l by (rewrite replicate_length; exact Hi). apply lookup_replicate_2, Hi.
Qed.
