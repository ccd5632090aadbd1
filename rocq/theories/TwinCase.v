(** * TwinCase: two level sets that show the same but are not the same, and a restart. *)

From Verif Require Import Base Num NumF64 NumInt MeshModel LevelSetModel LevelSetSpec LevelSetCalls LevelSetParams LevelSetNew LevelSetHist BoundaryModel BoundaryLinks TwinSpec.
Local Open Scope nat_scope.

Definition f (p q : Z) : f64 := nlit p q.
Notation disc6 := (ls_new_holes 6 6 [mkHole (mkCoord (f 3 1) (f 3 1)) (f 5 4)] (f 1 2) 3 true).
Notation full6 := (ls_new_holes 6 6 [] (f 1 2) 3 true).
Definition slow (p : BoundaryPoint f64) : BoundaryPoint f64 := set_bp_velocity (f 1 4) p.
(** Discretise, move the boundary with velocity 1/4, measure the areas. *)
Definition cycle : Script f64 :=
  Do (AskDiscretise false) (fun o => match o_reply o with
    | Bounded b => Do (AskVelocities (map slow (bd_points b))) (fun _ => Do AskGradients (fun _ => Do (AskUpdate (f 1 2)) (fun _ =>
        Do AskNormals (fun _ => Do AskAreas (fun _ => Stop)))))
    | _ => Stop end).

(** Discretise and measure the areas. *)
Definition measure : Script f64 := Do (AskDiscretise false) (fun _ => Do AskAreas (fun _ => Stop)).
Definition looks (o : outcome (list (Obs f64))) : outcome nat := let! os := o in Ok (length os).

Definition no_points (s : LevelSet f64) : bool := forallb (fun n => nd_nBpts n =? 0)%nat (m_nodes (ls_mesh s)).
Lemma case_runs :
  (let! s := disc6 in let! (s1, b) := discretise s false in let! os := run cycle (s, None) in Ok (no_points s, no_points s1, length os)) = Ok (true, false, 6).
Proof. vm_compute. reflexivity. Qed.
Lemma restart_runs :
  (let! s := disc6 in let! s0 := full6 in
   let! n := looks (let! r := reinitialise s in let! r := computeVelocities r [] in let! r := computeGradients r in run measure (r, None)) in
   Ok (ls_nBand s =? ls_nBand s0, n, length (ls_target s), length (ls_target s0))%nat) = Ok (false, 2, 0, 0).
Proof. vm_compute. reflexivity. Qed.

Lemma Ok_bind {A B} (o : outcome A) (g : A -> outcome B) r : obind o g = Ok r -> exists x, o = Ok x /\ g x = Ok r.
Proof. destruct o; cbn; try discriminate. eauto. Qed.
Lemma fits6 : fits_ls 6 6 3.
Proof. unfold fits_ls, node_count. lia. Qed.
Lemma reached_new ml hs s : ls_new_holes 6 6 hs ml 3 true = Ok s -> reached 6 6 s.
Proof. intros E. exists ml, 3, true, s. split; [exact fits6|]. split; [exact (new_by_holes _ _ _ _ _ _ _ E)|apply rtc_refl]. Qed.

Lemma twin_case : exists (s s1 : LevelSet f64), reached 6 6 s /\ reached 6 6 s1 /\ seen s = seen s1 /\
  map nd_nBpts (m_nodes (ls_mesh s)) <> map nd_nBpts (m_nodes (ls_mesh s1)) /\
  exists os, run cycle (s, None) = Ok os /\ length os = 6.
Proof.
  pose proof case_runs as X. apply Ok_bind in X as (s & E & X). apply Ok_bind in X as ([s1 b] & E1 & X). apply Ok_bind in X as (os & E2 & X).
  injection X as X1 X2 X3. pose proof (reached_new _ _ _ E) as Hr. exists s, s1. split; [exact Hr|].
  split; [exact (reached_call _ _ s _ Hr (c_quiet _ _ (q_discretise _ _ _ _ E1)))|].
  pose proof (ok_topo _ _ _ (so_ok _ _ _ (reached_sound _ _ _ Hr))) as P.
  assert (Hr1 := reached_call _ _ s _ Hr (c_quiet _ _ (q_discretise _ _ _ _ E1))).
  pose proof (ok_topo _ _ _ (so_ok _ _ _ (reached_sound _ _ _ Hr1))) as P1.
  destruct (frame_api 6 6 s s1 false b P E1) as (F1 & F2 & F3 & F4 & _). injection F1 as A1 A2 A3 A4. injection F2 as B1 B2 B3 B4. injection F3 as C1 C2 C3.
  split; [|split].
  - unfold seen, band_list, mine_list. rewrite A1, A2, A3, A4, B1, B2, B3, B4, C1, C2, C3. f_equal.
    apply list_eq. intros i. rewrite !list_lookup_fmap. pose proof (tp_lenN _ _ _ P) as L. pose proof (tp_lenN _ _ _ P1) as L1.
    destruct (m_nodes (ls_mesh s) !! i) as [n|] eqn:D, (m_nodes (ls_mesh s1) !! i) as [n'|] eqn:D'; cbn; auto.
    + destruct (F4 i n n' D D') as [_ Z]. injection Z as _ -> _ _. reflexivity.
    + apply lookup_lt_Some in D. apply lookup_ge_None in D'. lia.
    + apply lookup_lt_Some in D'. apply lookup_ge_None in D. lia.
  - intros Z. assert (K : forall u : LevelSet f64, no_points u = forallb (fun k => k =? 0)%nat (map nd_nBpts (m_nodes (ls_mesh u)))).
    { intros u. unfold no_points. generalize (m_nodes (ls_mesh u)). induction l as [|n l IH]; [reflexivity|]. cbn. rewrite IH. reflexivity. }
    rewrite K, Z, <- K in X1. congruence.
  - exists os. auto.
Qed.

Lemma restart_case : exists s s' : LevelSet f64, reached 6 6 s /\ reached 6 6 s' /\ same_shape s s' /\ band_list s <> band_list s' /\
  exists os, (let! r := reinitialise s in let! r := computeVelocities r [] in let! r := computeGradients r in run measure (r, None)) = Ok os /\ length os = 2.
Proof.
  pose proof restart_runs as X. apply Ok_bind in X as (s & E & X). apply Ok_bind in X as (s0 & E0 & X). apply Ok_bind in X as (n & E1 & X).
  injection X as X1 X2 X3 X4. subst n. unfold looks in E1. apply Ok_bind in E1 as (os & E1 & X). injection X as X.
  pose proof (reached_new _ _ _ E) as Hr. pose proof (reached_new _ _ _ E0) as Hr0.
  pose proof (so_ok _ _ _ (reached_sound _ _ _ Hr)) as O. pose proof (so_ok _ _ _ (reached_sound _ _ _ Hr0)) as O0.
  exists s, (set_sd (ls_sd s) s0). split; [exact Hr|]. split; [apply (reached_call _ _ s0 _ Hr0), c_write_sd; rewrite (ok_sd _ _ _ O), (ok_sd _ _ _ O0); reflexivity|].
  split; [|split; [|exists os; auto]].
  - pose proof (new_by_holes 6 6 _ 3 true s _ E) as C. pose proof (new_by_holes 6 6 _ 3 true s0 _ E0) as C0.
    pose proof (all_unmasked _ _ _ _ _ _ fits6 C) as U. pose proof (all_unmasked _ _ _ _ _ _ fits6 C0) as U0.
    destruct (constructed_settings _ _ _ _ _ _ C) as [S _]. destruct (constructed_settings _ _ _ _ _ _ C0) as [S0 _]. unfold settings in S, S0.
    injection S as S1 S2 S3. injection S0 as Z1 Z2 Z3. unfold same_shape. cbn [set_sd ls_sd ls_target ls_mesh ls_moveLimit ls_bandWidth ls_fixed].
    split; [reflexivity|]. split; [|split; [|split; [congruence|split; congruence]]].
    + rewrite (nil_length_inv _ X3), (nil_length_inv _ X4). reflexivity.
    + assert (K : forall u : LevelSet f64, unmasked u -> forall i n, m_nodes (ls_mesh u) !! i = Some n -> nd_masked n = false).
      { intros u Uu i n En. destruct (nd_masked n) eqn:D; [|reflexivity]. exfalso. apply (Uu i). exists n. auto. }
      apply list_eq. intros i. rewrite !list_lookup_fmap. pose proof (tp_lenN _ _ _ (ok_topo _ _ _ O)) as L. pose proof (tp_lenN _ _ _ (ok_topo _ _ _ O0)) as L1.
      destruct (m_nodes (ls_mesh s) !! i) as [n|] eqn:D, (m_nodes (ls_mesh s0) !! i) as [n'|] eqn:D'; cbn; auto.
      * rewrite (K s U i n D), (K s0 U0 i n' D'). reflexivity.
      * apply lookup_lt_Some in D. apply lookup_ge_None in D'. lia.
      * apply lookup_lt_Some in D'. apply lookup_ge_None in D. lia.
  - intros Z. apply (f_equal length) in Z. change (band_list (set_sd (ls_sd s) s0)) with (band_list s0) in Z. unfold band_list in Z.
    pose proof (bs_nb _ _ _ (so_safe _ _ _ (reached_sound _ _ _ Hr))). pose proof (bs_nb _ _ _ (so_safe _ _ _ (reached_sound _ _ _ Hr0))).
    rewrite !take_length, !Nat.min_l in Z by assumption. apply Nat.eqb_neq in X1. contradiction.
Qed.
