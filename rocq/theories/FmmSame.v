(** * FmmSame: what the march reads from the mesh.

    Two meshes with the same number of nodes and the same neighbours give the same march; the flag isActive matters
    only when velocities are extended. *)

From Verif Require Import MeshModel MeshSpec MeshTopo FmmModel.
Local Open Scope nat_scope.

Lemma obind_ext {A B} (o : outcome A) (f g : A -> outcome B) : (forall x, o = Ok x -> f x = g x) -> obind o f = obind o g.
Proof. destruct o; cbn; auto. Qed.
Lemma for_ext {S} n (f g : nat -> S -> outcome S) s : (forall k s', k < n -> f k s' = g k s') -> for_ n f s = for_ n g s.
Proof. intros E. apply for_from_ext. intros k s' Hk. apply E. lia. Qed.

Section same.
  Context {T : Type} {NT : Num T}.
  Variables (m m' : Mesh T) (iv : bool) (copy : list T).
  Hypothesis Hn : m_nNodes m' = m_nNodes m.
  Hypothesis Hg : forall i j, neigh m' i j = neigh m i j.
  Hypothesis Ha : iv = true -> forall i, is_active m' i = is_active m i.

  Local Ltac go := repeat first
    [ reflexivity
    | rewrite Hn
    | rewrite Hg
    | apply obind_ext; intros ? _
    | match goal with |- context [if ?b then _ else _] => destruct b end
    | match goal with |- context [match ?p with pair _ _ => _ end] => destruct p end ].

  Lemma border_step_same i j s : border_step m' copy i j s = border_step m copy i j s.
  Proof. unfold border_step. destruct s as [[? ?] ?]. go. Qed.
  Lemma freeze_border_same i s : freeze_border m' copy i s = freeze_border m copy i s.
  Proof.
    unfold freeze_border. destruct s as [[? ?] ?]. apply obind_ext. intros st _. destruct (is_none st); [|reflexivity].
    rewrite (for_ext 4 (border_step m' copy i) (border_step m copy i)); [reflexivity|]. intros k s' _. apply border_step_same.
  Qed.
  Lemma initialiseFrozen_same st sd : initialiseFrozen m' copy st sd = initialiseFrozen m copy st sd.
  Proof.
    unfold initialiseFrozen. rewrite Hn. apply obind_ext. intros [st1 n1] _.
    rewrite (for_ext _ (freeze_border m' copy) (freeze_border m copy)); [reflexivity|]. intros k s' _. apply freeze_border_same.
  Qed.
  Lemma heap_capacity_same st : heap_capacity m' st = heap_capacity m st.
  Proof. unfold heap_capacity. rewrite Hn. reflexivity. Qed.
  Lemma update_dir_same st sd i j s : update_dir m' st sd i j s = update_dir m st sd i j s.
  Proof. unfold update_dir. destruct s. go. Qed.
  Lemma updateNode_same st sd i : updateNode m' copy st sd i = updateNode m copy st sd i.
  Proof.
    unfold updateNode. rewrite (for_ext 2 (update_dim m' st sd i) (update_dim m st sd i)); [reflexivity|]. intros k [[a b] c] _.
    unfold update_dim. rewrite (for_ext 2 _ (fun j => update_dir m st sd i (2 * k + j))); [reflexivity|]. intros. apply update_dir_same.
  Qed.
  Lemma active_same i : (if iv then is_active m' i else Ok true) = (if iv then is_active m i else Ok true).
  Proof. destruct iv; [apply Ha; reflexivity|reflexivity]. Qed.
  Lemma trial_step_same i j s : trial_step m' iv copy i j s = trial_step m iv copy i j s.
  Proof.
    unfold trial_step. rewrite Hg, Hn. apply obind_ext; intros ? _. destruct (negb _); [|reflexivity]. apply obind_ext; intros ? _.
    destruct (is_frozen _); [|reflexivity]. apply obind_ext; intros ? _. destruct (is_none _); [|reflexivity].
    rewrite active_same. apply obind_ext; intros [|] _; [|reflexivity]. apply obind_ext; intros ? _. rewrite updateNode_same. reflexivity.
  Qed.
  Lemma trial_node_same i s : trial_node m' iv copy i s = trial_node m iv copy i s.
  Proof.
    unfold trial_node. apply obind_ext; intros ? _. destruct (is_none _); [|reflexivity]. apply for_ext. intros. apply trial_step_same.
  Qed.
  Lemma vel_step_same s i j acc : vel_step m' s i j acc = vel_step m s i j acc.
  Proof. unfold vel_step. rewrite Hg, Hn. reflexivity. Qed.
  Lemma pop_freeze_same tf s : pop_freeze m' iv tf s = pop_freeze m iv tf s.
  Proof.
    unfold pop_freeze. apply obind_ext; intros [h [addr value]] _. apply obind_ext; intros ? _.
    replace (if iv then finaliseVelocity m' addr _ else _) with (if iv then finaliseVelocity m addr (set_f_status x (set_f_heap h s)) else Ok (set_f_status x (set_f_heap h s))).
    - rewrite Hn. reflexivity.
    - destruct iv; [|reflexivity]. unfold finaliseVelocity. f_equal. apply for_ext. intros. symmetry. apply vel_step_same.
  Qed.
  Lemma pop_equal_same fuel : forall value tf s, pop_equal m' iv fuel value tf s = pop_equal m iv fuel value tf s.
  Proof.
    induction fuel as [|fuel IH]; intros; [reflexivity|]. cbn [pop_equal]. destruct (negb _); [|reflexivity]. apply obind_ext; intros ? _.
    destruct (_ =? _)%num; [|reflexivity]. rewrite pop_freeze_same. apply obind_ext; intros [[tf' w] s'] _. apply IH.
  Qed.
  Lemma relax_same addr j s : relax m' iv copy addr j s = relax m iv copy addr j s.
  Proof.
    unfold relax. rewrite Hg, Hn. apply obind_ext; intros i _. destruct (negb _); [|reflexivity]. apply obind_ext; intros st _.
    destruct (negb (is_frozen st)); [|reflexivity]. rewrite updateNode_same. apply obind_ext; intros d _. apply obind_ext; intros sd' _.
    rewrite active_same. apply obind_ext; intros s1 _. rewrite Hg. apply obind_ext; intros i2 _. destruct (negb _); [|reflexivity].
    apply obind_ext; intros st2 _. destruct (is_trial st2); [|reflexivity]. rewrite updateNode_same. reflexivity.
  Qed.
  Lemma relax_all_same tf : forall s, relax_all m' iv copy tf s = relax_all m iv copy tf s.
  Proof.
    induction tf as [|a tf IH]; intros s; [reflexivity|]. cbn [relax_all]. rewrite (for_ext 4 _ (relax m iv copy a)) by (intros; apply relax_same).
    apply obind_ext; intros ? _. apply IH.
  Qed.
  Lemma solve_same fuel : forall s, solve m' iv copy fuel s = solve m iv copy fuel s.
  Proof.
    induction fuel as [|fuel IH]; intros s; [reflexivity|]. cbn [solve]. destruct (negb _); [|reflexivity].
    rewrite pop_freeze_same. apply obind_ext; intros [[tf w] s1] _. rewrite Hn, pop_equal_same. apply obind_ext; intros [tf2 s2] _.
    rewrite relax_all_same. apply obind_ext; intros s3 _. apply IH.
  Qed.
  Lemma march_core_same t ptr st sd vel : march_core m' iv copy t ptr st sd vel = march_core m iv copy t ptr st sd vel.
  Proof.
    unfold march_core. rewrite initialiseFrozen_same. apply obind_ext; intros [st1 sd1] _. rewrite heap_capacity_same. apply obind_ext; intros cap _.
    rewrite Hn. rewrite (for_ext _ _ (trial_node m iv copy)) by (intros; apply trial_node_same). apply obind_ext; intros s1 _. apply solve_same.
  Qed.
End same.

Section topo.
  Context {T : Type} {NT : Num T}.
  Variables (W H : nat) (m m' : Mesh T).
  Hypotheses (Ht : topo W H m) (Ht' : topo W H m').

  Lemma topo_count : m_nNodes m' = m_nNodes m.
  Proof. rewrite (tp_nN _ _ _ Ht), (tp_nN _ _ _ Ht'). reflexivity. Qed.
  Lemma topo_twin i : match m_nodes m !! i, m_nodes m' !! i with
    | Some n, Some n' => nd_coord n' = nd_coord n /\ nd_neigh n' = nd_neigh n
    | None, None => True | _, _ => False end.
  Proof.
    pose proof (tp_lenN _ _ _ Ht) as L. pose proof (tp_lenN _ _ _ Ht') as L'.
    destruct (m_nodes m !! i) as [n|] eqn:E, (m_nodes m' !! i) as [n'|] eqn:E'; auto.
    - destruct (tp_node _ _ _ Ht i n E) as (A & B & _). destruct (tp_node _ _ _ Ht' i n' E') as (A' & B' & _). rewrite A, A', B, B'. auto.
    - apply lookup_lt_Some in E. apply lookup_ge_None in E'. lia.
    - apply lookup_lt_Some in E'. apply lookup_ge_None in E. lia.
  Qed.
  Lemma topo_steps i j : neigh m' i j = neigh m i j.
  Proof.
    unfold neigh, vget. pose proof (topo_twin i) as L. destruct (m_nodes m !! i), (m_nodes m' !! i); try contradiction; cbn; [|reflexivity].
    destruct L as [_ ->]. reflexivity.
  Qed.
  Lemma march_same t sd : fmm_march m' (fmm_new m' t) sd = fmm_march m (fmm_new m t) sd.
  Proof.
    unfold fmm_march, fmm_new, take_copy. cbn [fo_copy fo_test fo_ptr fo_status]. rewrite topo_count. apply obind_ext; intros copy _.
    rewrite (march_core_same m m' false copy topo_count topo_steps); [reflexivity|discriminate].
  Qed.
  Lemma march_vel_same t sd vel : (forall i, is_active m' i = is_active m i) ->
    fmm_march_vel m' (fmm_new m' t) sd vel = fmm_march_vel m (fmm_new m t) sd vel.
  Proof.
    intros Ha. unfold fmm_march_vel, fmm_new, take_copy. cbn [fo_copy fo_test fo_ptr fo_status]. rewrite topo_count. apply obind_ext; intros copy _.
    rewrite (march_core_same m m' true copy topo_count topo_steps); auto.
  Qed.
End topo.
