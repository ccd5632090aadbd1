(** * DemoStart: starting shapes of the demo programs, and restarting bimodal_brolly from a file. *)

From Coq Require Import Reals Lra.
From Verif Require Import Base Num NumR NumInt MeshSpec LevelSetModel LevelSetSpec LevelSetCalls LevelSetBand LevelSetOps LevelSetInit LevelSetHist LevelSetParams
  BoundaryModel BoundaryLinks SensModel OptModel Twin TwinLs TwinSpec TwinRun IOModel IOBin DemoModel DemoSpec DemoLoop DemoBrolly DemoSetup.
Local Open Scope nat_scope.

Section restart.
  Context {T : Type} {NT : Num T} {NI : NumInt T}.

  (** ** The areas of the target *)
  Lemma base_off (n n' : Node T) : node_base n n' -> nweak (act := false) n n'.
  Proof. intros []. constructor; auto. discriminate. Qed.
  Lemma meshes_base W H (r r' : LevelSet T) : reached W H r -> reached W H r' -> setup r = setup r' -> mesh_twin node_base elem_weak (ls_mesh r) (ls_mesh r').
  Proof.
    intros Hr Hr' E. unfold setup, settings, masks in E. injection E as E1 E2 E3 E4 E5.
    assert (Rw : reached W H (set_sd (ls_sd r) r')).
    { apply (reached_call _ _ _ _ Hr'), c_write_sd. rewrite (ok_sd _ _ _ (so_ok _ _ _ (reached_sound _ _ _ Hr))), (ok_sd _ _ _ (so_ok _ _ _ (reached_sound _ _ _ Hr'))). reflexivity. }
    assert (C : ls_core node_base elem_weak r (set_sd (ls_sd r) r')) by (apply (core_start W H); auto). exact (lc_mesh _ _ _ _ C).
  Qed.
  Lemma target_areas_frame W H (s s' : LevelSet T) areas : reached W H s -> target_areas s = Ok (s', areas) ->
    reached W H s' /\ setup s' = setup s /\ exists m a, s' = set_area a (set_mesh m s).
  Proof.
    intros Hr E. destruct (target_areas_inv W H s s' areas Hr E) as (R2 & _ & _ & s1 & b & a & E1 & E2). split; [exact R2|].
    assert (R1 : reached W H s1) by (apply (reached_call _ _ _ _ Hr), c_quiet, (q_discretise _ _ _ _ E1)).
    destruct (frame_api W H s s1 true b (ok_topo _ _ _ (so_ok _ _ _ (reached_sound _ _ _ Hr))) E1) as (F1 & _ & F3 & F4 & _). injection F1 as D1 _ _ T1.
    assert (M1 : masks s1 = masks s).
    { apply (masks_eq W H); [exact (so_ok _ _ _ (reached_sound _ _ _ Hr))|exact (so_ok _ _ _ (reached_sound _ _ _ R1))|]. intros i n En.
      destruct (lookup_lt_is_Some_2 (m_nodes (ls_mesh s1)) i) as [n' En'].
      { rewrite (tp_lenN _ _ _ (ok_topo _ _ _ (so_ok _ _ _ (reached_sound _ _ _ R1)))), <- (tp_lenN _ _ _ (ok_topo _ _ _ (so_ok _ _ _ (reached_sound _ _ _ Hr)))). eapply lookup_lt_Some, En. }
      exists n'. split; [exact En'|]. destruct (F4 i n n' En En') as [_ X]. injection X as _ X _ _. exact X. }
    assert (S1 : setup s1 = setup s) by (unfold setup, settings; rewrite M1, T1; injection F3 as -> -> ->; reflexivity).
    destruct (areas_frame _ _ _ _ E2) as (D3 & T3 & P3 & N3). split; [rewrite <- S1; unfold setup, masks; rewrite T3, P3, N3; reflexivity|].
    unfold discretise in E1. apply obind_Ok in E1 as (m & _ & E1). apply obind_Ok in E1 as (dd & _ & E1). apply obind_Ok in E1 as (ps & _ & E1). injection E1 as <- _.
    unfold computeAreaFractions in E2. apply obind_Ok in E2 as ([m2 x] & _ & X). injection X as <- _. exists m2, (Some x). reflexivity.
  Qed.
  (** They depend on the target alone. *)
  Lemma target_areas_same W H (r r' : LevelSet T) : reached W H r -> reached W H r' -> setup r = setup r' ->
    orel (fun x x' => snd x' = snd x) (target_areas r) (target_areas r').
  Proof.
    intros Hr Hr' E. pose proof (meshes_base W H r r' Hr Hr' E) as M.
    pose proof (ok_topo _ _ _ (so_ok _ _ _ (reached_sound _ _ _ Hr))) as Ht.
    assert (MW : mesh_twin (nweak (act := false)) elem_weak (ls_mesh r) (ls_mesh r')) by (eapply mesh_twin_impl; [exact M|apply base_off|auto]).
    unfold setup, settings in E. injection E as E1 E2 E3 E4 E5.
    assert (X := discretise_twin_on r r' true (or_introl eq_refl) MW).
    rewrite (tp_lenN _ _ _ Ht), (tp_nN _ _ _ Ht), (tp_lenE _ _ _ Ht), (tp_nE _ _ _ Ht) in X.
    specialize (X (le_n _) (le_n _) ltac:(discriminate) (eq_sym E1) (eq_sym E3)).
    unfold target_areas. eapply orel_bind with (R := fun x x' => snd x' = snd x /\ reached W H (fst x) /\ mesh_twin (nsame (act := false)) elem_same (ls_mesh (fst x)) (ls_mesh (fst x'))).
    { destruct (discretise r true) as [[t b]| | |] eqn:D1, (discretise r' true) as [[t' b']| | |] eqn:D2; cbn in X |- *; try contradiction; auto.
      destruct X as (Eb & Mt & _). split; [exact Eb|]. split; [|exact Mt]. apply (reached_call _ _ _ _ Hr), c_quiet, (q_discretise _ _ _ _ D1). }
    intros [t b] [t' b'] (Eb & Rt & Mt). cbn [fst snd] in *. subst b'. clear X.
    pose proof (ok_topo _ _ _ (so_ok _ _ _ (reached_sound _ _ _ Rt))) as Htt.
    assert (X := areas_twin t t' b Mt). rewrite (tp_lenE _ _ _ Htt), (tp_nE _ _ _ Htt) in X. specialize (X (le_n _)).
    eapply orel_bind; [exact X|]. intros [v a] [v' a'] (Ea & _ & Mv). cbn [fst snd] in *. rewrite (mt_nE _ _ _ _ Mv).
    eapply orel_bind with (R := eq); [|intros l ? <-; reflexivity].
    apply orel_for_same; [reflexivity|]. intros k l ? _ <-. eapply orel_bind; [apply orel_vget; exact (mt_elements _ _ _ _ Mv)|].
    intros e e' [_ ->]. apply orel_refl.
  Qed.

  (** ** The level set a run begins with *)
  Context {BT : Bytes T} {BL : BytesLaws T}.
  Lemma fits_bimodal : fits_ls 70 60 6.
  Proof. unfold fits_ls, node_count. lia. Qed.
  Lemma start_bimodal_reached (s : LevelSet T) : start_bimodal = Ok s -> reached 70 60 s.
  Proof. unfold start_bimodal. intros E. exists (nlit 5 100), 6, true, s. split; [exact fits_bimodal|]. split; [exact (new_by_holes_holes _ _ _ _ _ _ _ _ E)|apply rtc_refl]. Qed.

  Variables (W H : nat) (start : outcome (LevelSet T)).
  Hypothesis start_reached : forall s, start = Ok s -> reached W H s.
  Lemma load_bin_frame fs name (s s' : LevelSet T) : loadLevelSetBIN fs name s = Ok s' -> exists x, s' = set_sd x s /\ length x = length (ls_sd s).
  Proof.
    unfold loadLevelSetBIN. destruct (fs_file fs name); [|discriminate]. destruct (_ <=? _); [|discriminate]. intros X. injection X as <-. eexists. split; [reflexivity|].
    apply numbers_length.
  Qed.
  Lemma restart_or_inv fs a (s : LevelSet T) : restart_or start fs a = Ok s ->
    exists s0, start = Ok s0 /\ reached W H s /\ setup s = setup s0.
  Proof.
    unfold restart_or. intros E. apply obind_Ok in E as (s0 & E0 & E). exists s0. split; [exact E0|]. pose proof (start_reached s0 E0) as R0.
    destruct (a_restart a) as [name|]; [|injection E as <-; auto].
    destruct (load_bin_frame _ _ _ _ E) as (x & -> & L). split; [|reflexivity]. apply (reached_call _ _ _ _ R0), c_write_sd, L.
  Qed.
  Lemma brolly_begin_inv fs a d g bi u areas : brolly_begin start fs a d g bi = Ok (u, areas) ->
    exists s0 s1 s2 s3 b x y, start = Ok s0 /\ restart_or start fs a = Ok s1 /\ reinitialise s1 = Ok s2 /\ target_areas s2 = Ok (s3, areas) /\
      new_boundary (d areas) s3 = Ok (sm_ls (um_sim u), b) /\ centreOfMass g (bd_points b) = Ok (x, y) /\
      setup s2 = setup s0 /\ setup (sm_ls (um_sim u)) = setup s0 /\ reached W H s2 /\ reached W H (sm_ls (um_sim u)) /\
      u = mkUmbrella (mkSim (sm_ls (um_sim u)) b (replicate (d_lambdas (d areas)) n0) 0 n0) (ls_sd (sm_ls (um_sim u))) x (biasPotential x (bi_centre bi) (bi_spring bi)) n0 0 0 0.
  Proof.
    unfold brolly_begin. intros E. apply obind_Ok in E as (s1 & E1 & E). apply obind_Ok in E as (s2 & E2 & E). apply obind_Ok in E as ([s3 ar] & E3 & E).
    apply obind_Ok in E as (u' & E4 & E). injection E as -> ->. unfold umbrella_begin, begin in E4. apply obind_Ok in E4 as (m & E4 & E5).
    apply obind_Ok in E4 as ([s4 b] & E4 & X). injection X as <-. apply obind_Ok in E5 as ([x y] & E5 & X). injection X as <-. cbn [um_sim sm_ls sm_bd] in *.
    destruct (restart_or_inv _ _ _ E1) as (s0 & E0 & R1 & S1).
    assert (R2 : reached W H s2) by (apply (reached_call _ _ _ _ R1), (c_reinitialise _ _ E2)).
    assert (S2 : setup s2 = setup s0).
    { pose proof (reinit_keeps _ _ E2) as [K1 K2]. rewrite <- S1. unfold setup. rewrite K1, K2, (masks_reinit W H _ _ (so_ok _ _ _ (reached_sound _ _ _ R1)) E2). reflexivity. }
    destruct (target_areas_frame _ _ _ _ _ R2 E3) as (R3 & S3 & _). destruct (new_boundary_inv _ _ _ _ _ _ R3 E4) as (R4 & _ & S4).
    exists s0, s1, s2, s3, b, x, y. repeat (split; [first [assumption|congruence]|]). reflexivity.
  Qed.

  Theorem restart_from_file fs a d g bi u areas n turns fuel nlopt rng nexp uniform u1 l fs1 name a1 :
    brolly_begin start fs a d g bi = Ok (u, areas) -> trials n turns fuel (d areas) g nlopt rng nexp uniform bi u = Ok (u1, l) ->
    fs_writable fs1 name = true -> a_restart a1 = Some name ->
    exists fs2, saveLevelSetBIN fs1 name (sm_ls (um_sim u1)) = Ok fs2 /\
      forall g1 bi1,
        orel (fun r r' => snd r = areas /\ sm_bd (um_sim (fst r)) = snd r' /\ same_boundary (d areas) r' (sm_ls (um_sim (fst r)), sm_bd (um_sim (fst r))) /\
                um_backup (fst r) = ls_sd (fst r') /\ sm_nReinit (um_sim (fst r)) = 0 /\ um_running (fst r) = n0 /\ um_accept (fst r) = 0 /\ um_trials (fst r) = 0 /\
                (let! (x, _) := centreOfMass g1 (bd_points (snd r')) in Ok x) = Ok (um_x (fst r)) /\
                um_bias (fst r) = biasPotential (um_x (fst r)) (bi_centre bi1) (bi_spring bi1))
          (brolly_begin start fs2 a1 d g1 bi1)
          (let! r := reinitialise (sm_ls (um_sim u1)) in let! (s, b) := new_boundary (d areas) r in let! _ := centreOfMass g1 (bd_points b) in Ok (s, b)).
  Proof.
    intros EB ET HW HA.
    destruct (brolly_begin_inv _ _ _ _ _ _ _ EB) as (s0 & w1 & w2 & w3 & b & x & y & E0 & _ & _ & EA & _ & _ & SA & SU & RA & RU & Eu).
    assert (LB : length (um_backup u) = node_count W H) by (rewrite Eu; cbn [um_backup]; apply (ok_sd _ _ _ (so_ok _ _ _ (reached_sound _ _ _ RU)))).
    destruct (trials_keep _ _ _ _ _ _ _ _ _ _ W H _ _ _ RU LB ET) as (R1 & _ & S1). set (S := sm_ls (um_sim u1)) in *.
    pose proof (start_reached s0 E0) as R0.
    pose proof (so_ok _ _ _ (reached_sound _ _ _ R0)) as O0. pose proof (so_ok _ _ _ (reached_sound _ _ _ R1)) as O1.
    destruct (bin_roundtrip fs1 name S s0) as (fs2 & ES & _ & EL); [rewrite (tp_nN _ _ _ (ok_topo _ _ _ O1)), (ok_sd _ _ _ O1); reflexivity|
      rewrite (tp_nN _ _ _ (ok_topo _ _ _ O0)), (ok_sd _ _ _ O0); reflexivity|rewrite (ok_sd _ _ _ O1), (ok_sd _ _ _ O0); reflexivity|exact HW|].
    exists fs2. split; [exact ES|]. intros g1 bi1. unfold brolly_begin, restart_or. rewrite E0. cbn [obind]. rewrite HA, EL. cbn [obind].
    assert (RL : reached W H (set_sd (ls_sd S) s0)) by (apply (reached_call _ _ _ _ R0), c_write_sd; rewrite (ok_sd _ _ _ O1), (ok_sd _ _ _ O0); reflexivity).
    assert (SS : same_shape (set_sd (ls_sd S) s0) S).
    { assert (Z : setup S = setup s0) by congruence. unfold setup, settings, masks in Z. injection Z as Z1 Z2 Z3 Z4 Z5. repeat split; auto. }
    pose proof (restart_base W H _ _ RL R1 SS) as X.
    destruct (reinitialise (set_sd (ls_sd S) s0)) as [r| | |] eqn:F1, (reinitialise S) as [q| | |] eqn:F2; cbn [orel obind] in X |- *; try contradiction; try exact I.
    destruct X as (Rr & Rq & C & B).
    assert (Sr : setup r = setup s0).
    { pose proof (reinit_keeps _ _ F1) as [K1 K2]. unfold setup. rewrite K1, K2, (masks_reinit W H _ _ (so_ok _ _ _ (reached_sound _ _ _ RL)) F1). reflexivity. }
    assert (Sq : setup q = setup s0).
    { pose proof (reinit_keeps _ _ F2) as [K1 K2]. assert (Z : setup S = setup s0) by congruence. rewrite <- Z. unfold setup. rewrite K1, K2, (masks_reinit W H _ _ (so_ok _ _ _ (reached_sound _ _ _ R1)) F2). reflexivity. }
    pose proof (target_areas_same W H w2 r RA Rr (eq_trans SA (eq_sym Sr))) as X. rewrite EA in X.
    destruct (target_areas r) as [[t ar]| | |] eqn:F3; cbn in X; try contradiction. subst ar. cbn [obind].
    destruct (target_areas_frame _ _ _ _ _ Rr F3) as (Rt & St & m & ar & Et).
    assert (Ct : ls_core node_base elem_weak q t).
    { assert (Z : setup t = setup q) by congruence. unfold setup, settings, masks in Z. injection Z as Z1 Z2 Z3 Z4 Z5.
      apply (core_start W H); auto. rewrite Et. cbn. symmetry. exact (lc_sd _ _ _ _ C). }
    assert (Bt : band_eq q t) by (rewrite Et; destruct B as [B1 B2 B3 B4]; constructor; cbn; congruence).
    pose proof (boundary_of_twins (d areas) W H q t Rq Rt Ct Bt) as X. unfold umbrella_begin, begin.
    destruct (new_boundary (d areas) q) as [[v c]| | |], (new_boundary (d areas) t) as [[v' c']| | |]; cbn [orel obind] in X |- *; try contradiction; try exact I.
    assert (X' := X). destruct X' as (Ec & Ev & _). cbn [fst snd] in Ec, Ev. subst c'. cbn [sm_bd sm_ls]. destruct (centreOfMass g1 (bd_points c)) as [[cx cy]| | |] eqn:Em; cbn [orel obind]; try exact I.
    cbn [fst snd um_sim sm_bd sm_ls um_backup sm_nReinit um_running um_accept um_trials um_x um_bias]. rewrite Em. cbn [obind]. auto 12.
  Qed.
End restart.
