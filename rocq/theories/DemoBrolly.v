(** * DemoBrolly: umbrella sampling (bimodal_brolly). *)

From Coq Require Import Reals Lra.
From Verif Require Import Base Num NumR NumInt MeshSpec LevelSetModel LevelSetSpec LevelSetCalls LevelSetBand LevelSetOps LevelSetInit FmmFacts LevelSetHist LevelSetParams BoundaryModel BoundaryLinks SensModel OptModel
  Twin TwinLs TwinSpec TwinRun DemoModel DemoSpec DemoLoop.
Local Open Scope nat_scope.

Section umbrella.
  Context {T : Type} {NT : Num T}.

  (** ** Masks, target and parameters *)
  Definition masks (s : LevelSet T) : list bool := map nd_masked (m_nodes (ls_mesh s)).
  (** What no step changes. *)
  Definition setup (s : LevelSet T) : list T * list bool * (T * nat * bool) := (ls_target s, masks s, settings s).

  Lemma masks_eq W H (s s' : LevelSet T) : ls_ok W H s -> ls_ok W H s' ->
    (forall i n, m_nodes (ls_mesh s) !! i = Some n -> exists n', m_nodes (ls_mesh s') !! i = Some n' /\ nd_masked n' = nd_masked n) -> masks s' = masks s.
  Proof.
    intros O O' K. unfold masks. apply list_eq. intros i. rewrite !list_lookup_fmap. destruct (m_nodes (ls_mesh s) !! i) as [n|] eqn:E.
    - destruct (K i n E) as (n' & -> & X). cbn. rewrite X. reflexivity.
    - apply lookup_ge_None in E. rewrite (tp_lenN _ _ _ (ok_topo _ _ _ O)), <- (tp_lenN _ _ _ (ok_topo _ _ _ O')) in E. apply lookup_ge_None in E. rewrite E. reflexivity.
  Qed.
  Lemma masks_band W H (s s' : LevelSet T) : ls_ok W H s -> initialiseNarrowBand s = Ok s' -> masks s' = masks s.
  Proof.
    intros Hok E. destruct (band_ok_spec W H s Hok) as (s1 & E1 & Hok1 & _ & _ & _ & _ & _ & _ & _ & _ & _ & _ & Hnd & _).
    assert (s1 = s') by congruence. subst s1. apply (masks_eq W H); auto. intros i n En. destruct (Hnd i n En) as (n1 & En1 & Sb & _). exists n1. split; [exact En1|].
    unfold same_but_band in Sb. rewrite Sb. reflexivity.
  Qed.
  Lemma masks_reinit W H (s s' : LevelSet T) : ls_ok W H s -> reinitialise s = Ok s' -> masks s' = masks s.
  Proof.
    intros Hok E. unfold reinitialise in E. destruct (fmm_march _ _ _) as [[o sd]| | |] eqn:Em; try discriminate. cbn [obind] in E.
    assert (L : length sd = node_count W H).
    { pose proof (march_safe W H (ls_mesh s) (ok_topo _ _ _ Hok) (fmm_new (ls_mesh s) false) (ls_sd s)
        (fobj_new W H _ (ok_topo _ _ _ Hok) false) (ok_sd _ _ _ Hok) ltac:(discriminate)) as HM.
      rewrite Em in HM. apply HM. }
    exact (masks_band W H (set_sd sd s) s' (ok_set_sd _ _ _ _ Hok L) E).
  Qed.
  Lemma areas_frame (s s' : LevelSet T) b a : computeAreaFractions s b = Ok (s', a) ->
    ls_sd s' = ls_sd s /\ ls_target s' = ls_target s /\ settings s' = settings s /\ m_nodes (ls_mesh s') = m_nodes (ls_mesh s).
  Proof.
    unfold computeAreaFractions. intros E. apply obind_Ok in E as ([m x] & E & X). injection X as <- _. cbn [ls_sd ls_target set_area set_mesh ls_mesh]. repeat split.
    apply (post_for (fun st : Mesh T * T => m_nodes (fst st) = m_nodes (ls_mesh s)) _ _) in E; [exact E| |reflexivity].
    intros k [m1 x1] _ HP [m2 x2] E2. cbn [fst] in *. unfold area_step in E2. apply obind_Ok in E2 as (e & _ & E2). apply obind_Ok in E2 as (st & _ & E2).
    apply obind_Ok in E2 as (ar & _ & E2). apply obind_Ok in E2 as (m3 & E3 & E2). injection E2 as <- _. unfold elem_mod in E3.
    apply obind_Ok in E3 as (l & _ & E3). injection E3 as <-. exact HP.
  Qed.

  Context {NI : NumInt T}.
  Lemma new_boundary_inv d W H (s s' : LevelSet T) b : reached W H s -> new_boundary d s = Ok (s', b) ->
    reached W H s' /\ ls_sd s' = ls_sd s /\ setup s' = setup s.
  Proof.
    intros Hr E. unfold new_boundary in E. apply obind_Ok in E as ([s1 b1] & E1 & E). apply obind_Ok in E as (s2 & E2 & E). apply obind_Ok in E as (b2 & _ & E). injection E as <- _.
    assert (R1 : reached W H s1) by (apply (reached_call _ _ _ _ Hr), c_quiet, (q_discretise _ _ _ _ E1)).
    destruct (frame_api W H s s1 false b1 (ok_topo _ _ _ (so_ok _ _ _ (reached_sound _ _ _ Hr))) E1) as (F1 & _ & F3 & F4 & _). injection F1 as D1 _ _ T1.
    assert (M1 : masks s1 = masks s).
    { apply (masks_eq W H); [exact (so_ok _ _ _ (reached_sound _ _ _ Hr))|exact (so_ok _ _ _ (reached_sound _ _ _ R1))|]. intros i n En.
      destruct (lookup_lt_is_Some_2 (m_nodes (ls_mesh s1)) i) as [n' En'].
      { rewrite (tp_lenN _ _ _ (ok_topo _ _ _ (so_ok _ _ _ (reached_sound _ _ _ R1)))), <- (tp_lenN _ _ _ (ok_topo _ _ _ (so_ok _ _ _ (reached_sound _ _ _ Hr)))). eapply lookup_lt_Some, En. }
      exists n'. split; [exact En'|]. destruct (F4 i n n' En En') as [_ X]. injection X as _ X _ _. exact X. }
    assert (S1 : setup s1 = setup s) by (unfold setup, settings; rewrite M1, T1; injection F3 as -> -> ->; reflexivity).
    destruct (d_areas d).
    - apply obind_Ok in E2 as ([s3 a] & E2 & X). injection X as <-. assert (R3 : reached W H s3) by (apply (reached_call _ _ _ _ R1), c_quiet, (q_areas _ _ _ _ E2)).
      destruct (areas_frame _ _ _ _ E2) as (D3 & T3 & P3 & N3). split; [exact R3|]. split; [congruence|]. rewrite <- S1. unfold setup, masks. rewrite T3, P3, N3. reflexivity.
    - injection E2 as <-. auto.
  Qed.
  (** The areas recorded for the target are those of its elements. *)
  Theorem target_areas_inv W H (s s' : LevelSet T) areas : reached W H s -> target_areas s = Ok (s', areas) ->
    reached W H s' /\ length areas = W * H /\ areas = map e_area (m_elements (ls_mesh s')) /\
    exists s1 b a, discretise s true = Ok (s1, b) /\ computeAreaFractions s1 b = Ok (s', a).
  Proof.
    intros Hr E. unfold target_areas in E. apply obind_Ok in E as ([s1 b] & E1 & E). apply obind_Ok in E as ([s2 a] & E2 & E). apply obind_Ok in E as (l & E3 & E). injection E as <- <-.
    assert (R1 : reached W H s1) by (apply (reached_call _ _ _ _ Hr), c_quiet, (q_discretise _ _ _ _ E1)).
    assert (R2 : reached W H s2) by (apply (reached_call _ _ _ _ R1), c_quiet, (q_areas _ _ _ _ E2)).
    pose proof (ok_topo _ _ _ (so_ok _ _ _ (reached_sound _ _ _ R2))) as Ht.
    pose proof (tp_lenE _ _ _ Ht) as LE. pose proof (tp_nE _ _ _ Ht) as NE. rewrite NE in E3. set (es := m_elements (ls_mesh s2)) in *.
    assert (X : wp False False (for_ (W * H) (fun i (l : list T) => let! e := vget es i in vset l i (e_area e)) (replicate (W * H) n0))
      (fun l => l = map e_area es)).
    { apply (wp_for _ _ (fun i (l : list T) => length l = W * H /\ forall k, k < i -> l !! k = map e_area es !! k)).
      - split; [apply replicate_length|intros; lia].
      - intros i l' Hi (Ll & Hl). destruct (lookup_lt_is_Some_2 es i) as [e Ee]; [lia|]. unfold vget. rewrite Ee. cbn [obind]. apply wp_vset; [lia|]. split; [rewrite insert_length; exact Ll|].
        intros k Hk. destruct (Nat.eq_dec k i) as [->|]; [rewrite list_lookup_insert by lia; change (map ?g es) with (g <$> es); rewrite list_lookup_fmap, Ee; reflexivity|].
        rewrite list_lookup_insert_ne by lia. apply Hl. lia.
      - intros l' (Ll & Hl). apply list_eq. intros k. destruct (Nat.lt_ge_cases k (W * H)) as [C|C]; [apply Hl, C|].
        rewrite !lookup_ge_None_2; [reflexivity|change (map ?g es) with (g <$> es); rewrite fmap_length; lia|lia]. }
    rewrite E3 in X. cbn [wp] in X. subst l. split; [exact R2|]. split; [change (map ?g es) with (g <$> es); rewrite fmap_length; exact LE|]. split; [reflexivity|]. eauto 10.
  Qed.
  Lemma turn_setup d nl fuel rg W H (m m' : Sim T) c b : reached W H (sm_ls m) -> turn d nl fuel rg m = Ok (m', c, b) ->
    reached W H (sm_ls m') /\ setup (sm_ls m') = setup (sm_ls m).
  Proof.
    intros Hr E. apply turn_inv in E as (b1 & dist & o0 & o & v & s1 & dt & s2 & s3 & ri & s4 & n & s5 & b5 & _ & _ & _ & _ & _ & EV & EG & EU & ER & EB & ->). cbn [sm_ls].
    assert (V : reached W H s1 /\ setup s1 = setup (sm_ls m)).
    { destruct (d_temp d) as [t|].
      - destruct EV as (ps & n' & EV). split; [apply (reached_call _ _ _ _ Hr), c_quiet, (q_velocities_noise _ _ _ _ _ _ _ _ _ EV)|].
        unfold computeVelocities_noise in EV. match type of EV with context [match ?x with pair _ _ => _ end] => destruct x as [dt2 sc] end.
        apply obind_Ok in EV as (s6 & EV & X). injection X as <- _ _ _. destruct (DemoLoop.velocities_keep W H _ _ _ Hr EV) as [vel ->]. reflexivity.
      - destruct EV as [EV _]. split; [apply (reached_call _ _ _ _ Hr), c_quiet, (q_velocities _ _ _ EV)|]. destruct (DemoLoop.velocities_keep W H _ _ _ Hr EV) as [vel ->]. reflexivity. }
    destruct V as [R1 S1]. assert (R2 : reached W H s2) by (apply (reached_call _ _ _ _ R1), c_quiet, (q_gradients _ _ EG)).
    assert (S2 : setup s2 = setup (sm_ls m)) by (destruct (gradients_keep _ _ EG) as [g ->]; exact S1).
    assert (R3 : reached W H s3) by (apply (reached_call _ _ _ _ R2), (c_update _ _ _ _ EU)).
    assert (S3 : setup s3 = setup (sm_ls m)).
    { rewrite <- S2. pose proof (update_keeps s2 dt _ EU) as [K1 K2]. cbn [fst] in K1, K2. unfold setup. rewrite K1, K2.
      destruct (reached_sound _ _ _ R2) as [O2 B2 _ _]. destruct (update_cases W H s2 dt O2 B2) as (sm & Om & _ & M & U).
      assert (EM : masks sm = masks s2).
      { apply (masks_eq W H); auto. intros i n0 En. destruct (mf_nodes _ _ _ M i n0 En) as (k & X & _). eexists. split; [exact X|reflexivity]. }
      destruct U as [[_ U]|[_ U]]; rewrite U in EU.
      - apply obind_Ok in EU as (s6 & E6 & X). injection X as <- _. rewrite (masks_reinit W H _ _ Om E6), EM. reflexivity.
      - injection EU as <- _. rewrite EM. reflexivity. }
    assert (R4 : reached W H s4 /\ setup s4 = setup (sm_ls m)).
    { unfold reinit_rule in ER. apply obind_Ok in ER as ([[s' n'] r] & ER & X). injection X as -> _ _. destruct ri; cbn [negb] in ER; [injection ER as <- _ _; auto|].
      destruct (Nat.eqb _ _); [|injection ER as <- _ _; auto]. apply obind_Ok in ER as (s6 & E6 & X). injection X as <- _ _.
      split; [apply (reached_call _ _ _ _ R3), (c_reinitialise _ _ E6)|]. rewrite <- S3. pose proof (reinit_keeps s3 _ E6) as [K1 K2]. unfold setup.
      rewrite K1, K2, (masks_reinit W H _ _ (so_ok _ _ _ (reached_sound _ _ _ R3)) E6). reflexivity. }
    destruct R4 as [R4 S4]. destruct (new_boundary_inv _ _ _ _ _ _ R4 EB) as (R5 & _ & S5). split; [exact R5|congruence].
  Qed.
  Lemma trajectory_setup turns d nl fuel rg interval W H k (m m' : Sim T) k' : reached W H (sm_ls m) -> trajectory turns d nl fuel rg interval k m = Ok (m', k') ->
    reached W H (sm_ls m') /\ setup (sm_ls m') = setup (sm_ls m).
  Proof.
    revert k m. induction turns as [|n IH]; intros k m Hr E; cbn in E; destruct (sm_time m <? interval)%num; try discriminate; try (injection E as <- _; auto).
    apply obind_Ok in E as ([[m1 c] b] & E1 & E). destruct (turn_setup _ _ _ _ _ _ _ _ _ _ Hr E1) as [R1 S1]. destruct (IH _ _ R1 E) as [R2 S2]. split; [exact R2|congruence].
  Qed.

  (** ** One trial *)
  Section run.
    Variables (turns fuel : nat) (d : Demo T) (g : Gravity T) (nlopt : nat -> nat -> Opt T -> Nlopt T) (rng : nat -> nat -> T) (nexp : T -> T) (uniform : nat -> T) (bi : Bias T).
    Notation tri := (trial turns fuel d g nlopt rng nexp uniform bi).
    Notation tris := (fun n => trials n turns fuel d g nlopt rng nexp uniform bi).

    Lemma trial_inv u u' a : tri u = Ok (u', a) ->
      exists m k x y, trajectory turns d nlopt fuel rng (bi_interval bi) (um_turn u) (mkSim (sm_ls (um_sim u)) (sm_bd (um_sim u)) (sm_lambdas (um_sim u)) (sm_nReinit (um_sim u)) n0) = Ok (m, k) /\
        centreOfMass g (bd_points (sm_bd m)) = Ok (x, y) /\ um_trials u' = um_trials u + 1 /\ um_running u' = (um_running u + sm_time m)%num /\
        a = isAccepted nexp (uniform (um_trials u)) (biasPotential (x - nlit 1 2 * bi_width bi)%num (bi_centre bi) (bi_spring bi)) (um_bias u) (bi_beta bi) /\
        if a then um_sim u' = m /\ um_backup u' = ls_sd (sm_ls m) /\ um_x u' = (x - nlit 1 2 * bi_width bi)%num /\
          um_bias u' = biasPotential (um_x u') (bi_centre bi) (bi_spring bi) /\ um_accept u' = um_accept u + 1
        else um_backup u' = um_backup u /\ um_x u' = um_x u /\ um_bias u' = um_bias u /\ um_accept u' = um_accept u /\ sm_nReinit (um_sim u') = 0 /\
          exists s, reinitialise (set_sd (um_backup u) (sm_ls m)) = Ok s /\ new_boundary d s = Ok (sm_ls (um_sim u'), sm_bd (um_sim u')).
    Proof.
      unfold trial. intros E. cbv zeta in E. apply obind_Ok in E as ([m k] & E1 & E). apply obind_Ok in E as ([x y] & E2 & E).
      destruct (isAccepted _ _ _ _ _) eqn:Ea.
      - injection E as <- <-. exists m, k, x, y. cbn. rewrite Ea. auto 10.
      - apply obind_Ok in E as (s & E3 & E). apply obind_Ok in E as ([s' b] & E4 & E). injection E as <- <-. exists m, k, x, y. cbn. rewrite Ea.
        repeat (split; [assumption || reflexivity|]). exists s. auto.
    Qed.

    (** The counts, and the recorded bias. *)
    Definition bias_matches (u : Umbrella T) : Prop := um_bias u = biasPotential (um_x u) (bi_centre bi) (bi_spring bi).
    Theorem trials_ledger n u u' l : tris n u = Ok (u', l) ->
      length l = n /\ um_trials u' = um_trials u + n /\ um_accept u' = um_accept u + length (filter (fun a => a = true) l) /\
      (bias_matches u -> bias_matches u') /\
      ((forall a, a ∈ l -> a = false) -> um_backup u' = um_backup u /\ um_x u' = um_x u /\ um_bias u' = um_bias u).
    Proof.
      revert u l. induction n as [|n IH]; intros u l E; cbn in E.
      - injection E as <- <-. cbn. repeat split; auto; lia.
      - apply obind_Ok in E as ([u1 a] & E1 & E). apply obind_Ok in E as ([u2 l2] & E2 & E). injection E as <- <-.
        destruct (IH _ _ E2) as (A & B & C & D & F). apply trial_inv in E1 as (m & k & x & y & _ & _ & Ht & _ & _ & Ha). unfold bias_matches in *.
        destruct a.
        + destruct Ha as (_ & _ & _ & Hb & Hc). rewrite filter_cons_True by reflexivity. cbn [length]. split; [lia|]. split; [lia|]. split; [lia|]. split; [auto|].
          intros X. discriminate (X true). left.
        + destruct Ha as (Ea & Eb & Ec & Ed & _). rewrite filter_cons_False by discriminate. cbn [length]. split; [lia|]. split; [lia|]. split; [lia|].
          split; [intros X; apply D; congruence|]. intros X. destruct F as (F1 & F2 & F3); [intros a Hin; apply X; right; exact Hin|]. repeat split; congruence.
    Qed.
    (** What is recorded belongs to the last accepted state. *)
    Theorem trials_last u u' l l1 k : tris (length l) u = Ok (u', l) -> l = l1 ++ true :: replicate k false ->
      exists u1 u2 y, tris (length l1) u = Ok (u1, l1) /\ tri u1 = Ok (u2, true) /\
        um_backup u' = ls_sd (sm_ls (um_sim u2)) /\ um_bias u' = biasPotential (um_x u') (bi_centre bi) (bi_spring bi) /\
        exists x, centreOfMass g (bd_points (sm_bd (um_sim u2))) = Ok (x, y) /\ um_x u' = (x - nlit 1 2 * bi_width bi)%num.
    Proof.
      intros E ->. revert u E. induction l1 as [|a l1 IH]; intros u E.
      - cbn in E. apply obind_Ok in E as ([u2 a] & E1 & E). apply obind_Ok in E as ([u3 l3] & E2 & E). injection E as <- -> ->.
        destruct (trial_inv _ _ _ E1) as (m & k' & x & y & _ & Ec & _ & _ & _ & Em & Eb & Ex & Ebias & _).
        destruct (trials_ledger _ _ _ _ E2) as (_ & _ & _ & _ & K). destruct K as (K1 & K2 & K3); [intros a Ha; apply elem_of_replicate in Ha as [-> _]; reflexivity|].
        exists u, u2, y. rewrite Em. split; [reflexivity|]. split; [exact E1|]. split; [congruence|]. split; [congruence|]. exists x. split; [exact Ec|congruence].
      - cbn in E. apply obind_Ok in E as ([u3 a'] & E1 & E). apply obind_Ok in E as ([u4 l4] & E2 & E). injection E as <- -> ->.
        destruct (IH _ E2) as (u1 & u2 & y & A & B). exists u1, u2, y. split; [|exact B]. cbn [length trials]. rewrite E1. cbn [obind]. rewrite A. reflexivity.
    Qed.
  End run.

  (** ** A rejected trial *)
  (** The boundary and the area fractions are those of the signed distance, the masks and the narrow band. *)
  Definition same_boundary (d : Demo T) (r r' : LevelSet T * Boundary T) : Prop :=
    snd r' = snd r /\ ls_sd (fst r') = ls_sd (fst r) /\ band_list (fst r') = band_list (fst r) /\ mine_list (fst r') = mine_list (fst r) /\
    (d_areas d = true -> map e_area (m_elements (ls_mesh (fst r'))) = map e_area (m_elements (ls_mesh (fst r))) /\ ls_area (fst r') = ls_area (fst r)).
  Lemma boundary_of_twins d W H (r r' : LevelSet T) : reached W H r -> reached W H r' -> ls_core node_base elem_weak r r' -> band_eq r r' ->
    orel (same_boundary d) (new_boundary d r) (new_boundary d r').
  Proof.
    intros R1 R2 C B.
    pose proof (reached_sound _ _ _ R1) as S1. pose proof (reached_sound _ _ _ R2) as S2. pose proof (so_ok _ _ _ S1) as O1. pose proof (so_ok _ _ _ S2) as O2.
    unfold new_boundary.
    assert (M : mesh_twin node_weak elem_weak (ls_mesh r) (ls_mesh r')).
    { eapply mesh_upgrade; [apply (lc_mesh _ _ _ _ C)| |apply base_weak]. eapply active_twin; eauto. apply (lc_mesh _ _ _ _ C). }
    assert (X := discretise_twin r r' false M).
    rewrite (tp_lenN _ _ _ (ok_topo _ _ _ O1)), (tp_nN _ _ _ (ok_topo _ _ _ O1)), (tp_lenE _ _ _ (ok_topo _ _ _ O1)), (tp_nE _ _ _ (ok_topo _ _ _ O1)) in X.
    specialize (X (le_n _) (le_n _) (lc_sd _ _ _ _ C) (lc_target _ _ _ _ C) (lc_ml _ _ _ _ C)).
    destruct (discretise r false) as [[t c]| | |] eqn:E1, (discretise r' false) as [[t' c']| | |] eqn:E2; cbn [orel] in X; try contradiction; try exact I. cbn [fst snd] in X.
    destruct X as (-> & M2 & F1 & F2). cbn [obind].
    assert (R3 : reached W H t) by (eapply reached_call; [exact R1|eapply c_quiet, q_discretise; eassumption]).
    assert (R4 : reached W H t') by (eapply reached_call; [exact R2|eapply c_quiet, q_discretise; eassumption]).
    assert (C2 : ls_core node_link elem_same t t').
    { rewrite F1, F2 in *. destruct C as [_ C2 C3 C4 C5 C6]. constructor; auto. eapply mesh_twin_impl; [exact M2|apply same_link|auto]. }
    assert (B2 : band_eq t t') by (rewrite F1, F2 in *; destruct B; constructor; auto).
    assert (D2 : ls_sd t' = ls_sd t) by (rewrite F1, F2; exact (lc_sd _ _ _ _ C)). clear F1 F2.
    eapply orel_bind with (R := fun x x' => reached W H x /\ reached W H x' /\ ls_core node_link elem_same x x' /\ band_eq x x' /\
      (d_areas d = true -> map e_area (m_elements (ls_mesh x')) = map e_area (m_elements (ls_mesh x)) /\ ls_area x' = ls_area x)).
    - destruct (d_areas d); [|cbn; repeat (split; [assumption|]); discriminate].
      assert (X := areas_twin t t' c M2). rewrite (tp_lenE _ _ _ (ok_topo _ _ _ (so_ok _ _ _ (reached_sound _ _ _ R3)))), (tp_nE _ _ _ (ok_topo _ _ _ (so_ok _ _ _ (reached_sound _ _ _ R3)))) in X. specialize (X (le_n _)).
      destruct (computeAreaFractions t c) as [[v a]| | |] eqn:E3, (computeAreaFractions t' c) as [[v' a']| | |] eqn:E4; cbn [orel] in X; try contradiction; try exact I. cbn [fst snd] in X.
      destruct X as (-> & EA & M3). cbn.
      split; [eapply reached_call; [exact R3|eapply c_quiet, q_areas; eassumption]|]. split; [eapply reached_call; [exact R4|eapply c_quiet, q_areas; eassumption]|].
      assert (F : forall u w x, computeAreaFractions u c = Ok (w, x) -> exists m, w = set_area (Some x) (set_mesh m u)).
      { intros u w x. unfold computeAreaFractions. destruct (for_ _ _ _) as [[m ar]| | |]; cbn; intros Z; try discriminate. injection Z as <- <-. exists m. reflexivity. }
      destruct (F _ _ _ E3) as [m1 F1]. destruct (F _ _ _ E4) as [m2 F2].
      split; [|split; [|intros _; split; [|exact EA]]].
      + rewrite F1, F2 in *. destruct C2 as [_ CB2 CB3 CB4 CB5 CB6]. constructor; auto. eapply mesh_twin_impl; [exact M3|apply same_link|apply ea_same].
      + rewrite F1, F2. destruct B2; constructor; auto.
      + apply (list_same e_area _ _ _ (mt_elements _ _ _ _ M3)). intros e e' []; assumption.
    - intros x x' (Rx & Rx' & Cx & Bx & Ax). destruct (d_normals d).
      + rewrite <- (normals_eq W H x x' c Rx Rx' Cx Bx). destruct (computeNormalVectors x c); cbn; auto. unfold same_boundary. cbn. destruct (band_eq_lists x x' Bx) as [-> ->].
        split; [reflexivity|]. split; [exact (lc_sd _ _ _ _ Cx)|]. auto.
      + unfold same_boundary. cbn. destruct (band_eq_lists x x' Bx) as [-> ->]. split; [reflexivity|]. split; [exact (lc_sd _ _ _ _ Cx)|]. auto.
  Qed.
  (** After a reinitialisation they are those of the signed distance. *)
  Lemma boundary_of_shape d W H (s s' : LevelSet T) : reached W H s -> reached W H s' -> same_shape s s' ->
    orel (same_boundary d) (let! r := reinitialise s in new_boundary d r) (let! r := reinitialise s' in new_boundary d r).
  Proof.
    intros Hr Hr' E. eapply orel_bind; [exact (restart_base W H s s' Hr Hr' E)|]. intros r r' (R1 & R2 & C & B). apply (boundary_of_twins d W H); assumption.
  Qed.

  Theorem rejection_restarts turns fuel (d : Demo T) g nlopt rng nexp uniform bi W H u u' (s0 : LevelSet T) : reached W H (sm_ls (um_sim u)) -> reached W H s0 ->
    setup s0 = setup (sm_ls (um_sim u)) -> ls_sd s0 = um_backup u -> trial turns fuel d g nlopt rng nexp uniform bi u = Ok (u', false) ->
    exists s, (let! r := reinitialise s0 in new_boundary d r) = Ok (s, sm_bd (um_sim u')) /\
      ls_sd (sm_ls (um_sim u')) = ls_sd s /\ band_list (sm_ls (um_sim u')) = band_list s /\ mine_list (sm_ls (um_sim u')) = mine_list s /\
      (d_areas d = true -> map e_area (m_elements (ls_mesh (sm_ls (um_sim u')))) = map e_area (m_elements (ls_mesh s)) /\ ls_area (sm_ls (um_sim u')) = ls_area s).
  Proof.
    intros Hr H0 ES ED E. apply trial_inv in E as (m & k & x & y & Et & _ & _ & _ & _ & _ & _ & _ & _ & _ & s & E1 & E2).
    pose proof (fun h => trajectory_setup _ _ _ _ _ _ W H _ _ _ _ h Et) as X0. destruct (X0 Hr) as [Rm Sm]. cbn [sm_ls] in Sm. clear X0.
    assert (Rw : reached W H (set_sd (um_backup u) (sm_ls m))).
    { apply (reached_call _ _ _ _ Rm), c_write_sd. rewrite <- ED, (ok_sd _ _ _ (so_ok _ _ _ (reached_sound _ _ _ H0))), (ok_sd _ _ _ (so_ok _ _ _ (reached_sound _ _ _ Rm))). reflexivity. }
    assert (X := boundary_of_shape d W H s0 (set_sd (um_backup u) (sm_ls m)) H0 Rw).
    assert (SS : same_shape s0 (set_sd (um_backup u) (sm_ls m))).
    { rewrite <- Sm in ES. unfold setup, settings, masks in ES. injection ES as A1 A2 A3 A4 A5. repeat split; assumption. }
    specialize (X SS). rewrite E1 in X. cbn [obind] in X. rewrite E2 in X. destruct (let! r := reinitialise s0 in new_boundary d r) as [[t b]| | |]; cbn in X; try contradiction.
    destruct X as (X & A & B & C & D). cbn in X, A, B, C, D. exists t. rewrite X. auto.
  Qed.
  (** The premises hold before every trial. *)
  Lemma trial_keeps turns fuel (d : Demo T) g nlopt rng nexp uniform bi W H u u' a : reached W H (sm_ls (um_sim u)) -> length (um_backup u) = node_count W H ->
    trial turns fuel d g nlopt rng nexp uniform bi u = Ok (u', a) ->
    reached W H (sm_ls (um_sim u')) /\ length (um_backup u') = node_count W H /\ setup (sm_ls (um_sim u')) = setup (sm_ls (um_sim u)).
  Proof.
    intros Hr HL E. apply trial_inv in E as (m & k & x & y & Et & _ & _ & _ & _ & Ha).
    pose proof (fun h => trajectory_setup _ _ _ _ _ _ W H _ _ _ _ h Et) as X0. destruct (X0 Hr) as [Rm Sm]. cbn [sm_ls] in Sm. clear X0. destruct a.
    - destruct Ha as (-> & -> & _). split; [exact Rm|]. split; [exact (ok_sd _ _ _ (so_ok _ _ _ (reached_sound _ _ _ Rm)))|exact Sm].
    - destruct Ha as (-> & _ & _ & _ & _ & s & E1 & E2).
      assert (Rw : reached W H (set_sd (um_backup u) (sm_ls m))).
      { apply (reached_call _ _ _ _ Rm), c_write_sd. rewrite HL, (ok_sd _ _ _ (so_ok _ _ _ (reached_sound _ _ _ Rm))). reflexivity. }
      assert (Rs : reached W H s) by (apply (reached_call _ _ _ _ Rw), (c_reinitialise _ _ E1)).
      destruct (new_boundary_inv _ _ _ _ _ _ Rs E2) as (R2 & _ & S2). split; [exact R2|]. split; [exact HL|]. rewrite S2, <- Sm.
      pose proof (reinit_keeps _ _ E1) as [K1 K2]. unfold setup. rewrite K1, K2, (masks_reinit W H _ _ (so_ok _ _ _ (reached_sound _ _ _ Rw)) E1). reflexivity.
  Qed.
  Lemma trials_keep n turns fuel (d : Demo T) g nlopt rng nexp uniform bi W H u u' l : reached W H (sm_ls (um_sim u)) -> length (um_backup u) = node_count W H ->
    trials n turns fuel d g nlopt rng nexp uniform bi u = Ok (u', l) ->
    reached W H (sm_ls (um_sim u')) /\ length (um_backup u') = node_count W H /\ setup (sm_ls (um_sim u')) = setup (sm_ls (um_sim u)).
  Proof.
    revert u l. induction n as [|n IH]; intros u l Hr HL E; cbn in E; [injection E as <- _; auto|].
    apply obind_Ok in E as ([u1 a] & E1 & E). apply obind_Ok in E as ([u2 l2] & E2 & E). injection E as <- _.
    destruct (trial_keeps _ _ _ _ _ _ _ _ _ _ _ _ _ _ Hr HL E1) as (A & B & C). destruct (IH _ _ A B E2) as (A2 & B2 & C2). repeat split; auto. congruence.
  Qed.
End umbrella.

(** ** The decision in exact arithmetic *)
Lemma trial_decision turns fuel (d : Demo R) g nlopt rng uniform bi u u' a : (0 <= uniform (um_trials u) < 1)%R ->
  trial turns fuel d g nlopt rng exp uniform bi u = Ok (u', a) ->
  exists m k x y, trajectory turns d nlopt fuel rng (bi_interval bi) (um_turn u) (mkSim (sm_ls (um_sim u)) (sm_bd (um_sim u)) (sm_lambdas (um_sim u)) (sm_nReinit (um_sim u)) 0%R) = Ok (m, k) /\
    centreOfMass g (bd_points (sm_bd m)) = Ok (x, y) /\
    (a = true <-> (uniform (um_trials u) < acceptance (bi_beta bi) (um_bias u) (bi_spring bi * (x - bi_width bi / 2 - bi_centre bi) ^ 2 / 2))%R).
Proof.
  intros Hu E. apply trial_inv in E as (m & k & x & y & A & B & _ & _ & -> & _). exists m, k, x, y. split; [exact A|]. split; [exact B|].
  rewrite accepted_iff by exact Hu. rewrite bias_R. rewrite nlit_R. cbn [nsub nmul NumR]. replace (x - 1 / 2 * bi_width bi)%R with (x - bi_width bi / 2)%R by lra. reflexivity.
Qed.
