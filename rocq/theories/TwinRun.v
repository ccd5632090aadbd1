(** * TwinRun: a program sees the same from two level sets that show the same. *)

From Verif Require Import NumInt MeshTopo FmmModel FmmSame LevelSetModel LevelSetSpec LevelSetCalls LevelSetHist BoundaryModel SensModel Twin TwinLs TwinSpec.
Local Open Scope nat_scope.

Section run.
  Context {T : Type} {NT : Num T} {NI : NumInt T}.
  Variables (W H : nat).

  Lemma list_same {A B} (f : A -> B) (R : A -> A -> Prop) l l' : Forall2 R l l' -> (forall a a', R a a' -> f a' = f a) -> map f l' = map f l.
  Proof. induction 1 as [|a a' l l' HR _ IH]; intros E; [reflexivity|]. cbn. rewrite (E _ _ HR), IH; auto. Qed.

  Lemma band_eq_lists (s s' : LevelSet T) : band_eq s s' -> band_list s' = band_list s /\ mine_list s' = mine_list s.
  Proof. intros [A B C D]. unfold band_list, mine_list. rewrite A, C. auto. Qed.
  Lemma active_twin R Q (s s' : LevelSet T) : mesh_twin R Q (ls_mesh s) (ls_mesh s') -> band_eq s s' -> sound W H s -> sound W H s' ->
    Forall2 (fun n n' => nd_active n' = nd_active n) (m_nodes (ls_mesh s)) (m_nodes (ls_mesh s')).
  Proof.
    intros M B S S'. apply Forall2_same_length_lookup. split; [exact (Forall2_length _ _ _ (mt_nodes _ _ _ _ M))|].
    intros i n n' E E'. destruct (band_eq_lists s s' B) as [EB _].
    pose proof (so_active _ _ _ S i) as A. pose proof (so_active _ _ _ S' i) as A'. rewrite EB, <- A in A'.
    assert (X : nd_active n = true <-> active s i). { split; [intros Y; exists n; auto|intros (x & Ex & Y)]. rewrite E in Ex. injection Ex as <-. exact Y. }
    assert (X' : nd_active n' = true <-> active s' i). { split; [intros Y; exists n'; auto|intros (x & Ex & Y)]. rewrite E' in Ex. injection Ex as <-. exact Y. }
    rewrite A', <- X in X'. destruct (nd_active n), (nd_active n'); auto; [apply X'; reflexivity|symmetry; apply X'; reflexivity].
  Qed.
  Lemma is_active_twin (s s' : LevelSet T) : Forall2 (fun n n' => nd_active n' = nd_active n) (m_nodes (ls_mesh s)) (m_nodes (ls_mesh s')) ->
    forall i, is_active (ls_mesh s') i = is_active (ls_mesh s) i.
  Proof.
    intros F i. symmetry. apply orel_eq. unfold is_active. eapply orel_bind; [apply orel_vget, F|]. intros n n' E. cbn. auto.
  Qed.
  Lemma mesh_upgrade (R R' : Node T -> Node T -> Prop) Q m m' : mesh_twin R Q m m' -> Forall2 (fun n n' => nd_active n' = nd_active n) (m_nodes m) (m_nodes m') ->
    (forall n n', R n n' -> nd_active n' = nd_active n -> R' n n') -> mesh_twin R' Q m m'.
  Proof.
    intros [M1 M2 M3 M4 M5 M6 M7] F HR. constructor; auto. apply Forall2_same_length_lookup. split; [exact (Forall2_length _ _ _ F)|].
    intros i n n' E E'. apply HR; [exact (Forall2_lookup_lr R _ _ _ _ _ M1 E E')|exact (Forall2_lookup_lr _ _ _ _ _ _ F E E')].
  Qed.
  Lemma base_weak (n n' : Node T) : node_base n n' -> nd_active n' = nd_active n -> node_weak n n'.
  Proof. intros []. constructor; auto. Qed.
  Lemma weak_base (n n' : Node T) : node_weak n n' -> node_base n n'.
  Proof. intros []. constructor; auto. Qed.
  Lemma link_same (n n' : Node T) : node_link n n' -> nd_active n' = nd_active n -> node_same n n'.
  Proof. intros [] E. constructor; auto. apply base_weak; auto. Qed.
  Lemma same_link (n n' : Node T) : node_same n n' -> node_link n n'.
  Proof. intros []. constructor; auto. apply weak_base; auto. Qed.

  (** The relation between the two runs. *)
  Definition linked (b : option (Boundary T)) : LevelSet T -> LevelSet T -> Prop :=
    match b with None => ls_core node_base elem_weak | Some _ => ls_core node_link elem_same end.
  Record twins (w w' : World (T := T)) : Prop := {
    tw_reached : reached W H (fst w);
    tw_reached' : reached W H (fst w');
    tw_core : linked (snd w) (fst w) (fst w');
    tw_band : band_eq (fst w) (fst w');
    tw_vel : ls_vel (fst w') = ls_vel (fst w);
    tw_grad : ls_grad (fst w') = ls_grad (fst w);
    tw_bound : snd w' = snd w
  }.

  Lemma twins_seen w w' r : twins w w' -> observe w r = observe w' r.
  Proof.
    intros [Hr Hr' C B V G E]. destruct w as [s b], w' as [s' b']. cbn in *. unfold observe, seen. cbn. destruct (band_eq_lists s s' B) as [-> ->].
    assert (M : exists R Q, ls_core R Q s s' /\ good R).
    { destruct b; cbn in C; do 2 eexists; (split; [exact C|]); [apply good_link|apply good_base]. }
    destruct M as (R & Q & [M E1 E2 E3 E4 E5] & HG). rewrite E1, E2, E3, E4, E5, V, G.
    rewrite (list_same nd_masked R _ _ (mt_nodes _ _ _ _ M)) by (intros n n' Hn; apply (g_base _ HG _ _ Hn)).
    rewrite (list_same nd_active _ _ _ (active_twin R Q s s' M B (reached_sound _ _ _ Hr) (reached_sound _ _ _ Hr'))) by auto. reflexivity.
  Qed.

  Lemma core_weaken (s s' : LevelSet T) : ls_core node_link elem_same s s' -> ls_core node_base elem_weak s s'.
  Proof.
    intros [M E1 E2 E3 E4 E5]. constructor; auto. eapply mesh_twin_impl; [exact M|apply nl_base|apply es_weak].
  Qed.

  Lemma normals_eq (s s' : LevelSet T) c : reached W H s -> reached W H s' -> ls_core node_link elem_same s s' -> band_eq s s' -> computeNormalVectors s c = computeNormalVectors s' c.
  Proof.
    intros Hr Hr' C B. pose proof (reached_sound _ _ _ Hr) as S. pose proof (reached_sound _ _ _ Hr') as S'. apply (normals_twin (act := true)).
    - eapply mesh_upgrade; [apply (lc_mesh _ _ _ _ C)| |apply link_same]. eapply active_twin; eauto. apply (lc_mesh _ _ _ _ C).
    - apply (be_nb _ _ B).
    - split; [rewrite (ok_band _ _ _ (so_ok _ _ _ S)), (ok_band _ _ _ (so_ok _ _ _ S')); reflexivity|apply (be_band _ _ B)].
    - apply (lc_sd _ _ _ _ C).
  Qed.

  Lemma ask_twin a w w' : twins w w' -> orel (fun x x' => snd x' = snd x /\ twins (fst x) (fst x')) (ask a w) (ask a w').
  Proof.
    intros TW. destruct w as [s b], w' as [s' b']. destruct TW as [Hr Hr' C B V G E]. cbn in *. subst b'.
    pose proof (reached_sound _ _ _ Hr) as S. pose proof (reached_sound _ _ _ Hr') as S'.
    pose proof (so_ok _ _ _ S) as Ho. pose proof (so_ok _ _ _ S') as Ho'. pose proof (ok_roomy W H _ _ Ho Ho') as RM.
    assert (HX : exists (R : Node T -> Node T -> Prop) (Q : Element T -> Element T -> Prop), good R /\ (forall e e', Q e e' -> elem_weak e e') /\ ls_core R Q s s' /\ (forall x x', ls_core R Q x x' -> linked b x x')).
    { destruct b; cbn in C; [exists node_link, elem_same|exists node_base, elem_weak]; (split; [first [apply good_link|apply good_base]|]); (split; [|split; [exact C|intros; assumption]]).
      - intros e e' []. assumption. - auto. }
    destruct HX as (R & Q & HG & HQ & HC & HL).
    assert (Ha : forall i, is_active (ls_mesh s') i = is_active (ls_mesh s) i) by (apply is_active_twin; eapply active_twin; eauto; apply (lc_mesh _ _ _ _ HC)).
    assert (mk : forall t t', reached W H t -> reached W H t' -> ls_core R Q t t' -> band_eq t t' -> ls_vel t' = ls_vel t -> ls_grad t' = ls_grad t -> twins (t, b) (t', b)).
    { intros. constructor; cbn; auto. }
    destruct a; cbn [ask].
    - destruct (reinitialise s) as [t| | |] eqn:E1, (reinitialise s') as [t'| | |] eqn:E2;
        pose proof (reinit_twin R Q HG s s' HC RM) as X; rewrite E1, E2 in X; cbn in X |- *; try contradiction; auto.
      destruct X as (A & Bd & K1 & K2 & K3 & K4). split; [reflexivity|]. apply mk; auto; try congruence;
        (first [apply (reached_call _ _ s _ Hr); (eapply c_reinitialise; eassumption)|apply (reached_call _ _ s' _ Hr'); (eapply c_reinitialise; eassumption)]).
    - pose proof (update_twin R Q HG s s' dt HC RM B V G) as X.
      destruct (update s dt) as [[t r]| | |] eqn:E1, (update s' dt) as [[t' r']| | |] eqn:E2; cbn in X |- *; try contradiction; auto.
      destruct X as (-> & A & Bd & K1 & K2 & K3 & K4). split; [reflexivity|]. apply mk; auto; try congruence;
        (first [apply (reached_call _ _ s _ Hr); (eapply c_update; eassumption)|apply (reached_call _ _ s' _ Hr'); (eapply c_update; eassumption)]).
    - pose proof (mask_holes_twin R Q HG s s' holes HC RM) as X.
      destruct (mask_holes s holes) as [t| | |] eqn:E1, (mask_holes s' holes) as [t'| | |] eqn:E2; cbn in X |- *; try contradiction; auto.
      destruct X as (A & Bd & K1 & K2 & K3 & K4). split; [reflexivity|]. apply mk; auto; try congruence;
        (first [apply (reached_call _ _ s _ Hr); (eapply c_mask_holes; eassumption)|apply (reached_call _ _ s' _ Hr'); (eapply c_mask_holes; eassumption)]).
    - pose proof (mask_points_twin R Q HG s s' points HC RM) as X.
      destruct (mask_points s points) as [t| | |] eqn:E1, (mask_points s' points) as [t'| | |] eqn:E2; cbn in X |- *; try contradiction; auto.
      destruct X as (A & Bd & K1 & K2 & K3 & K4). split; [reflexivity|]. apply mk; auto; try congruence;
        (first [apply (reached_call _ _ s _ Hr); (eapply c_mask_points; eassumption)|apply (reached_call _ _ s' _ Hr'); (eapply c_mask_points; eassumption)]).
    - pose proof (velocities_twin R Q W H HG HQ s s' points HC B Ho Ho' Ha) as X.
      destruct (computeVelocities s points) as [t| | |] eqn:E1, (computeVelocities s' points) as [t'| | |] eqn:E2; cbn in X |- *; try contradiction; auto.
      destruct X as (A & Bd & K1 & K2 & K3). split; [reflexivity|]. apply mk; auto; try congruence;
        (first [apply (reached_call _ _ s _ Hr); (eapply c_quiet, q_velocities; eassumption)|apply (reached_call _ _ s' _ Hr'); (eapply c_quiet, q_velocities; eassumption)]).
    - pose proof (velocities_noise_twin R Q W H HG HQ s s' points dt temperature rng HC B Ho Ho' Ha) as X.
      destruct (computeVelocities_noise s points dt temperature rng) as [[[[t p1] p2] p3]| | |] eqn:E1,
        (computeVelocities_noise s' points dt temperature rng) as [[[[t' p1'] p2'] p3']| | |] eqn:E2; cbn in X |- *; try contradiction; auto.
      destruct X as (-> & -> & -> & A & Bd & K1 & K2 & K3). split; [reflexivity|]. apply mk; auto; try congruence;
        (first [apply (reached_call _ _ s _ Hr); (eapply c_quiet, q_velocities_noise; eassumption)|apply (reached_call _ _ s' _ Hr'); (eapply c_quiet, q_velocities_noise; eassumption)]).
    - pose proof (gradients_twin R Q W H HG s s' HC B Ho Ho' V) as X.
      destruct (computeGradients s) as [t| | |] eqn:E1, (computeGradients s') as [t'| | |] eqn:E2; cbn in X |- *; try contradiction; auto.
      destruct X as (A & Bd & K1 & K2). split; [reflexivity|]. apply mk; auto; try congruence;
        (first [apply (reached_call _ _ s _ Hr); (eapply c_quiet, q_gradients; eassumption)|apply (reached_call _ _ s' _ Hr'); (eapply c_quiet, q_gradients; eassumption)]).
    - assert (CB : ls_core node_base elem_weak s s') by (destruct b; [apply core_weaken|]; exact C).
      assert (M : mesh_twin node_weak elem_weak (ls_mesh s) (ls_mesh s')).
      { eapply mesh_upgrade; [apply (lc_mesh _ _ _ _ CB)| |apply base_weak]. eapply active_twin; eauto. apply (lc_mesh _ _ _ _ CB). }
      assert (X := discretise_twin s s' target M).
      rewrite (tp_lenN _ _ _ (ok_topo _ _ _ Ho)), (tp_nN _ _ _ (ok_topo _ _ _ Ho)), (tp_lenE _ _ _ (ok_topo _ _ _ Ho)), (tp_nE _ _ _ (ok_topo _ _ _ Ho)) in X.
      specialize (X (le_n _) (le_n _) (lc_sd _ _ _ _ CB) (lc_target _ _ _ _ CB) (lc_ml _ _ _ _ CB)).
      destruct (discretise s target) as [[t c]| | |] eqn:E1, (discretise s' target) as [[t' c']| | |] eqn:E2; cbn in X |- *; try contradiction; auto.
      destruct X as (-> & M2 & F1 & F2). split; [reflexivity|].
      assert (R1 : reached W H t) by (eapply reached_call; [exact Hr|eapply c_quiet, q_discretise; eassumption]).
      assert (R2 : reached W H t') by (eapply reached_call; [exact Hr'|eapply c_quiet, q_discretise; eassumption]).
      rewrite F1 in R1 |- *. rewrite F2 in R2 |- *. destruct CB as [_ CB2 CB3 CB4 CB5 CB6].
      constructor; cbn; auto; [|destruct B; constructor; auto]. constructor; auto. cbn. eapply mesh_twin_impl; [exact M2|apply same_link|auto].
    - destruct b as [c|]; [|cbn; split; [reflexivity|apply mk; auto]]. cbn in C.
      assert (M : mesh_twin node_same elem_same (ls_mesh s) (ls_mesh s')).
      { eapply mesh_upgrade; [apply (lc_mesh _ _ _ _ C)| |apply link_same]. eapply active_twin; eauto. apply (lc_mesh _ _ _ _ C). }
      assert (X := areas_twin s s' c M). rewrite (tp_lenE _ _ _ (ok_topo _ _ _ Ho)), (tp_nE _ _ _ (ok_topo _ _ _ Ho)) in X. specialize (X (le_n _)).
      destruct (computeAreaFractions s c) as [[t a]| | |] eqn:E1, (computeAreaFractions s' c) as [[t' a']| | |] eqn:E2; cbn in X |- *; try contradiction; auto.
      destruct X as (-> & _ & M2). split; [rewrite (list_same e_area _ _ _ (mt_elements _ _ _ _ M2)); [reflexivity|]; intros e e' []; assumption|].
      assert (R1 : reached W H t) by (eapply reached_call; [exact Hr|eapply c_quiet, q_areas; eassumption]).
      assert (R2 : reached W H t') by (eapply reached_call; [exact Hr'|eapply c_quiet, q_areas; eassumption]).
      assert (F : forall u v x, computeAreaFractions u c = Ok (v, x) -> exists m, v = set_area (Some x) (set_mesh m u)).
      { intros u v x. unfold computeAreaFractions. destruct (for_ _ _ _) as [[m ar]| | |]; cbn; intros Z; try discriminate. injection Z as <- <-. exists m. reflexivity. }
      destruct (F _ _ _ E1) as [m1 F1]. destruct (F _ _ _ E2) as [m2 F2]. rewrite F1 in R1, M2 |- *. rewrite F2 in R2, M2 |- *. destruct C as [_ CB2 CB3 CB4 CB5 CB6].
      constructor; cbn; auto; [|destruct B; constructor; auto]. constructor; auto. cbn. eapply mesh_twin_impl; [exact M2|apply same_link|apply ea_same].
    - destruct b as [c|]; [|cbn; split; [reflexivity|apply mk; auto]]. rewrite <- (normals_eq s s' c); auto.
      destruct (computeNormalVectors s c) as [c2| | |]; cbn; auto. split; [reflexivity|]. constructor; cbn; auto.
    - destruct b as [c|]; [|cbn; split; [reflexivity|apply mk; auto]].
      assert (EI : itoCorrection_ls delta c s temperature = itoCorrection_ls delta c s' temperature).
      { unfold itoCorrection_ls. rewrite <- (normals_eq s s' c); auto. }
      rewrite <- EI. destruct (itoCorrection_ls delta c s temperature) as [c2| | |]; cbn; auto. split; [reflexivity|]. constructor; cbn; auto.
    - rewrite (lc_sd _ _ _ _ HC). destruct (Nat.eqb_spec (length v) (length (ls_sd s))) as [L|L]; [|exact I]. cbn. split; [reflexivity|].
      apply mk; auto; try (first [apply (reached_call _ _ s _ Hr); apply c_write_sd; exact L|apply (reached_call _ _ s' _ Hr'); apply c_write_sd; rewrite ?(lc_sd _ _ _ _ HC); exact L]); [destruct HC; constructor; auto|destruct B; constructor; auto].
    - rewrite V. destruct (Nat.eqb_spec (length v) (length (ls_vel s))) as [L|L]; [|exact I]. cbn. split; [reflexivity|].
      apply mk; auto; try (first [apply (reached_call _ _ s _ Hr); apply c_quiet, q_write_velocity; exact L|apply (reached_call _ _ s' _ Hr'); apply c_quiet, q_write_velocity; rewrite ?V; exact L]); [destruct HC; constructor; auto|destruct B; constructor; auto].
    - rewrite G. destruct (Nat.eqb_spec (length v) (length (ls_grad s))) as [L|L]; [|exact I]. cbn. split; [reflexivity|].
      apply mk; auto; try (first [apply (reached_call _ _ s _ Hr); apply c_quiet, q_write_gradient; exact L|apply (reached_call _ _ s' _ Hr'); apply c_quiet, q_write_gradient; rewrite ?G; exact L]); [destruct HC; constructor; auto|destruct B; constructor; auto].
    - rewrite (lc_target _ _ _ _ HC). destruct (Nat.eqb_spec (length v) (length (ls_target s))) as [L|L]; [|exact I]. cbn. split; [reflexivity|].
      apply mk; auto; try (first [apply (reached_call _ _ s _ Hr); apply c_quiet, q_write_target; exact L|apply (reached_call _ _ s' _ Hr'); apply c_quiet, q_write_target; rewrite ?(lc_target _ _ _ _ HC); exact L]); [destruct HC; constructor; auto|destruct B; constructor; auto].
  Qed.

  Lemma run_twin p : forall w w', twins w w' -> run p w = run p w'.
  Proof.
    induction p as [|a next IH]; intros w w' TW; [reflexivity|]. cbn [run]. pose proof (ask_twin a w w' TW) as X.
    destruct (ask a w) as [[v r]| | |], (ask a w') as [[v' r']| | |]; cbn in X |- *; try contradiction; auto.
    destruct X as [-> TV]. rewrite (twins_seen v v' r TV), (IH _ v v' TV). reflexivity.
  Qed.

  (** Two reached level sets. *)
  Lemma core_start (s s' : LevelSet T) : reached W H s -> reached W H s' -> map nd_masked (m_nodes (ls_mesh s')) = map nd_masked (m_nodes (ls_mesh s)) ->
    ls_sd s' = ls_sd s -> ls_target s' = ls_target s -> ls_moveLimit s' = ls_moveLimit s -> ls_bandWidth s' = ls_bandWidth s -> ls_fixed s' = ls_fixed s ->
    ls_core node_base elem_weak s s'.
  Proof.
    intros Hr Hr' EM E1 E2 E3 E4 E5. constructor; auto.
    pose proof (ok_topo _ _ _ (so_ok _ _ _ (reached_sound _ _ _ Hr))) as P. pose proof (ok_topo _ _ _ (so_ok _ _ _ (reached_sound _ _ _ Hr'))) as P'.
    constructor.
    - apply Forall2_same_length_lookup. split; [rewrite (tp_lenN _ _ _ P), (tp_lenN _ _ _ P'); reflexivity|]. intros i n n' En En'.
      destruct (tp_node _ _ _ P i n En) as (A1 & A2 & _ & _ & A3). destruct (tp_node _ _ _ P' i n' En') as (B1 & B2 & _ & _ & B3).
      constructor; [congruence|congruence|congruence| |rewrite (tp_bpts _ _ _ P i n En), (tp_bpts _ _ _ P' i n' En'); reflexivity].
      apply (f_equal (fun l => l !! i)) in EM. rewrite !list_lookup_fmap, En, En' in EM. injection EM as ->. reflexivity.
    - apply Forall2_same_length_lookup. split; [rewrite (tp_lenE _ _ _ P), (tp_lenE _ _ _ P'); reflexivity|]. intros j e e' Ee Ee'.
      destruct (tp_elem _ _ _ P j e Ee) as (A1 & A2). destruct (tp_elem _ _ _ P' j e' Ee') as (B1 & B2).
      constructor; [congruence|congruence|rewrite (tp_segs _ _ _ P j e Ee), (tp_segs _ _ _ P' j e' Ee'); reflexivity].
    - rewrite (tp_w _ _ _ P), (tp_w _ _ _ P'). reflexivity.
    - rewrite (tp_h _ _ _ P), (tp_h _ _ _ P'). reflexivity.
    - rewrite (tp_nE _ _ _ P), (tp_nE _ _ _ P'). reflexivity.
    - rewrite (tp_nN _ _ _ P), (tp_nN _ _ _ P'). reflexivity.
    - rewrite (tp_xy _ _ _ P), (tp_xy _ _ _ P'). reflexivity.
  Qed.
  Lemma twins_start (s s' : LevelSet T) : reached W H s -> reached W H s' -> seen s = seen s' -> twins (s, None) (s', None).
  Proof.
    intros Hr Hr' E. unfold seen in E. injection E as E1 E2 E3 E4 E5 E6 E7 E8 E9 E10.
    constructor; cbn; auto. - apply core_start; auto.
    - pose proof (so_safe _ _ _ (reached_sound _ _ _ Hr)) as S. pose proof (so_safe _ _ _ (reached_sound _ _ _ Hr')) as S'.
      unfold band_list, mine_list in E5, E6.
      pose proof (f_equal length E5) as L5. rewrite !take_length, !Nat.min_l in L5 by (apply (bs_nb _ _ _ S) || apply (bs_nb _ _ _ S')).
      pose proof (f_equal length E6) as L6. rewrite !take_length, !Nat.min_l in L6 by (apply (bs_nm _ _ _ S) || apply (bs_nm _ _ _ S')).
      constructor; auto; congruence.
  Qed.
  Lemma future (s s' : LevelSet T) : reached W H s -> reached W H s' -> seen s = seen s' -> forall p, run p (s, None) = run p (s', None).
  Proof. intros Hr Hr' E p. apply run_twin, twins_start; assumption. Qed.

  Lemma restart_base (s s' : LevelSet T) : reached W H s -> reached W H s' -> same_shape s s' ->
    orel (fun r r' => reached W H r /\ reached W H r' /\ ls_core node_base elem_weak r r' /\ band_eq r r') (reinitialise s) (reinitialise s').
  Proof.
    intros Hr Hr' (E1 & E2 & E3 & E4 & E5 & E6). pose proof (so_ok _ _ _ (reached_sound _ _ _ Hr)) as Ho. pose proof (so_ok _ _ _ (reached_sound _ _ _ Hr')) as Ho'.
    assert (C : ls_core node_base elem_weak s s') by (apply core_start; auto).
    pose proof (reinit_twin node_base elem_weak good_base s s' C (ok_roomy W H _ _ Ho Ho')) as X.
    destruct (reinitialise s) as [t| | |] eqn:F1, (reinitialise s') as [t'| | |] eqn:F2; cbn in X |- *; try contradiction; auto.
    destruct X as (A & B & _). split; [exact (reached_call _ _ s _ Hr (c_reinitialise _ _ F1))|]. split; [exact (reached_call _ _ s' _ Hr' (c_reinitialise _ _ F2))|]. auto.
  Qed.
  Lemma restart_write (s s' : LevelSet T) v g p : reached W H s -> reached W H s' -> same_shape s s' ->
    length v = node_count W H -> length g = node_count W H ->
    (let! r := reinitialise s in run p (set_grad g (set_vel v r), None)) = (let! r := reinitialise s' in run p (set_grad g (set_vel v r), None)).
  Proof.
    intros Hr Hr' E Lv Lg. apply orel_eq. eapply orel_bind; [apply restart_base; eassumption|]. intros r r' (R1 & R2 & C & B).
    assert (wr : forall t : LevelSet T, reached W H t -> reached W H (set_grad g (set_vel v t))).
    { intros t Rt. pose proof (so_ok _ _ _ (reached_sound _ _ _ Rt)) as Ot.
      apply (reached_call _ _ (set_vel v t)); [apply (reached_call _ _ t _ Rt)|]; apply c_quiet.
      - apply q_write_velocity. rewrite (ok_vel _ _ _ Ot). exact Lv.
      - apply q_write_gradient. cbn. rewrite (ok_grad _ _ _ Ot). exact Lg. }
    rewrite (run_twin p (set_grad g (set_vel v r), None) (set_grad g (set_vel v r'), None)); [apply orel_refl|].
    constructor; cbn; auto; [destruct C; constructor; auto|destruct B; constructor; auto].
  Qed.
  Lemma restart_compute (s s' : LevelSet T) points p : reached W H s -> reached W H s' -> same_shape s s' ->
    (let! r := reinitialise s in let! r := computeVelocities r points in let! r := computeGradients r in run p (r, None)) =
    (let! r := reinitialise s' in let! r := computeVelocities r points in let! r := computeGradients r in run p (r, None)).
  Proof.
    intros Hr Hr' E. apply orel_eq. eapply orel_bind; [apply restart_base; eassumption|]. intros r r' (R1 & R2 & C & B).
    pose proof (reached_sound _ _ _ R1) as S1. pose proof (reached_sound _ _ _ R2) as S2.
    pose proof (velocities_twin node_base elem_weak W H good_base (fun e e' X => X) r r' points C B (so_ok _ _ _ S1) (so_ok _ _ _ S2)
      (is_active_twin _ _ (active_twin _ _ r r' (lc_mesh _ _ _ _ C) B S1 S2))) as X.
    destruct (computeVelocities r points) as [t| | |] eqn:F1, (computeVelocities r' points) as [t'| | |] eqn:F2; cbn in X |- *; try contradiction; auto.
    destruct X as (C1 & B1 & V1 & _).
    assert (R3 : reached W H t) by exact (reached_call _ _ r _ R1 (c_quiet _ _ (q_velocities _ _ _ F1))).
    assert (R4 : reached W H t') by exact (reached_call _ _ r' _ R2 (c_quiet _ _ (q_velocities _ _ _ F2))).
    pose proof (reached_sound _ _ _ R3) as S3. pose proof (reached_sound _ _ _ R4) as S4.
    pose proof (gradients_twin node_base elem_weak W H good_base t t' C1 B1 (so_ok _ _ _ S3) (so_ok _ _ _ S4) V1) as X.
    destruct (computeGradients t) as [u| | |] eqn:F3, (computeGradients t') as [u'| | |] eqn:F4; cbn in X |- *; try contradiction; auto.
    destruct X as (C2 & B2 & V2 & G2).
    rewrite (run_twin p (u, None) (u', None)); [apply orel_refl|]. constructor; cbn; auto.
    - exact (reached_call _ _ t _ R3 (c_quiet _ _ (q_gradients _ _ F3))).
    - exact (reached_call _ _ t' _ R4 (c_quiet _ _ (q_gradients _ _ F4))).
  Qed.
End run.
