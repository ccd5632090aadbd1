(** * LevelSetHist: every history of calls on a level set (C22, C49). *)

From Verif Require Import MeshModel MeshSpec MeshProofs MeshTopo FmmModel FmmSpec FmmFacts NumInt NumSgn LevelSetModel LevelSetSpec BoundaryModel BoundaryFrame LevelSetCalls
  LevelSetBand LevelSetOps LevelSetInit LevelSetGrad LevelSetVel.
From stdpp Require Import relations.
From Coq Require Import ZifyBool ZifyNat.
Local Open Scope nat_scope.

Section Lengths.
  Context {T : Type} {NT : Num T}.

  Lemma closest_len (m : Mesh T) sd : post (closestDomainBoundary m sd) (fun sd' => length sd' = length sd).
  Proof.
    unfold closestDomainBoundary. apply post_for with (I := fun sd' => length sd' = length sd); [|reflexivity].
    intros k s _ Hs. unfold closest_step. repeat (apply post_bind, post_any; intros ?).
    eapply post_impl; [apply post_vset|]. cbv beta. intros ? ->. exact Hs.
  Qed.
  Lemma init_holes_len (m : Mesh T) holes sd sd' : init_holes m holes sd = Ok sd' -> length sd' = length sd.
  Proof.
    revert sd'. change (post (init_holes m holes sd) (fun sd' => length sd' = length sd)). unfold init_holes.
    apply post_bind. eapply post_impl; [apply closest_len|]. cbv beta. intros sd1 E1.
    apply post_for with (I := fun sd' => length sd' = length sd); [|exact E1]. intros k s _ Hs.
    apply post_for with (I := fun sd' => length sd' = length sd); [|exact Hs]. clear s Hs. intros j s _ Hs.
    unfold hole_step. apply post_bind, post_any. intros h. apply post_bind, post_any. intros n. apply post_bind, post_any. intros d.
    destruct (_ <? _)%num; [|apply post_ok, Hs]. eapply post_impl; [apply post_vset|]. cbv beta. intros a ->. exact Hs.
  Qed.
  Lemma init_points_len (m : Mesh T) points sd sd' : init_points m points sd = Ok sd' -> length sd' = length sd.
  Proof.
    revert sd'. change (post (init_points m points sd) (fun sd' => length sd' = length sd)). unfold init_points.
    apply post_bind. eapply post_impl; [apply closest_len|]. cbv beta. intros sd1 E1.
    apply post_for with (I := fun sd' => length sd' = length sd); [|exact E1]. intros k s _ Hs. unfold points_node.
    apply post_bind. apply post_impl with (P := fun sd' => length sd' = length sd).
    { unfold for_edges. destruct points as [|p ps]; [intros a; discriminate|].
      apply post_for with (I := fun sd' => length sd' = length sd); [|exact Hs]. clear s Hs. intros j s _ Hs.
      apply post_bind, post_any. intros a. apply post_bind, post_any. intros b. apply post_bind, post_any. intros n.
      apply post_bind, post_any. intros d.
      destruct (_ <? _)%num; [|apply post_ok, Hs]. eapply post_impl; [apply post_vset|]. cbv beta. intros ? ->. exact Hs. }
    intros s1 Hs1. apply post_bind, post_any. intros n. apply post_bind, post_any. intros b. destruct b; [|apply post_ok, Hs1].
    apply post_bind, post_any. intros d. eapply post_impl; [apply post_vset|]. cbv beta. intros ? ->. exact Hs1.
  Qed.

  Lemma vel_contrib_len (m : Mesh T) p limit node st N : length (fst (fst st)) = N ->
    post (vel_contrib m p limit node st) (fun st' => length (fst (fst st')) = N).
  Proof.
    destruct st as [[vel w] b]. cbn [fst]. intros L. unfold vel_contrib. apply post_bind, post_any. intros n.
    destruct (_ <? _)%num.
    - apply post_bind. eapply post_impl; [apply post_vset|]. cbv beta. intros l' E. do 2 (apply post_bind, post_any; intros ?).
      apply post_ok. cbn [fst]. congruence.
    - destruct (negb limit || _); [|apply post_ok; exact L]. apply post_bind, post_any. intros b'. destruct (negb b'); [|apply post_ok; exact L].
      apply post_bind, post_any. intros v. apply post_bind. eapply post_impl; [apply post_vset|]. cbv beta. intros l' E.
      do 2 (apply post_bind, post_any; intros ?). apply post_ok. cbn [fst]. congruence.
  Qed.
  Lemma init_vel_len (s : LevelSet T) points vel : initialiseVelocities s points = Ok vel -> length vel = length (ls_vel s).
  Proof.
    revert vel. change (post (initialiseVelocities s points) (fun vel => length vel = length (ls_vel s))). unfold initialiseVelocities.
    apply post_bind. apply post_impl with (P := fun l => length l = length (ls_vel s)).
    { apply post_for with (I := fun l => length l = length (ls_vel s)); [|reflexivity]. intros k l _ Hl.
      eapply post_impl; [apply post_vset|]. cbv beta. intros ? ->. exact Hl. }
    intros l0 L0. apply post_bind. apply post_impl with (P := fun st : VelState => length (fst (fst st)) = length (ls_vel s)).
    { apply post_for with (I := fun st : VelState => length (fst (fst st)) = length (ls_vel s)); [|exact L0]. intros k st _ Hst.
      unfold vel_point. apply post_bind, post_any. intros p. apply post_bind, post_any. intros node. apply post_bind.
      eapply post_impl; [apply vel_contrib_len, Hst|]. intros st1 Hst1.
      apply post_for with (I := fun st : VelState => length (fst (fst st)) = length (ls_vel s)); [|exact Hst1].
      intros j st2 _ Hst2. apply post_bind, post_any. intros nn. destruct (_ <? _)%nat; [apply vel_contrib_len, Hst2|apply post_ok, Hst2]. }
    intros [[vel w] b] L1. cbn [fst] in L1. apply post_for with (I := fun l => length l = length (ls_vel s)); [|exact L1].
    intros k l _ Hl. unfold vel_normalise. apply post_bind, post_any. intros node. apply post_bind, post_any. intros v.
    destruct (negb _); [|apply post_ok, Hl]. apply post_bind, post_any. intros ww. eapply post_impl; [apply post_vset|]. cbv beta. intros ? ->. exact Hl.
  Qed.
End Lengths.

Section History.
  Context {T : Type} {NT : Num T} {NI : NumInt T}.

  Lemma sound_of_band W H s : ls_ok W H s -> band_ok s -> sound W H s.
  Proof.
    intros Hs Hb. constructor; [exact Hs|exact (band_ok_safe W H s Hs Hb)| |].
    - intros i Hi. apply (bo_band _ Hb) in Hi. apply Hi.
    - intros i. rewrite (bo_active _ Hb), (bo_band _ Hb). reflexivity.
  Qed.

  Lemma alloc_init W H ml bw fx tg (s : LevelSet T) : fits_ls W H bw -> ls_alloc W H ml bw fx tg = Ok s -> ls_ok W H s.
  Proof.
    intros Hf E. destruct (alloc_spec W H ml bw fx tg Hf) as [A B].
    assert (V : valid_params ml bw \/ ~ valid_params ml bw).
    { unfold valid_params. destruct (decide (2 < bw)), (n0 <? ml)%num, (ml <? n1)%num; intuition congruence. }
    destruct V as [V|V]; [|rewrite (B V) in E; discriminate].
    destruct (A V) as (s' & E' & Hs & _). congruence.
  Qed.

  Lemma constructed_sound W H ml bw fx s : fits_ls W H bw -> constructed W H ml bw fx s -> sound W H s /\ band_ok s.
  Proof.
    intros Hf.
    assert (G : forall f, (forall m sd sd', f m sd = Ok sd' -> length sd' = length sd) ->
      ls_new f W H ml bw fx = Ok s -> sound W H s /\ band_ok s).
    { intros f Hlen. unfold ls_new. destruct (ls_alloc W H ml bw fx false) as [s0| | |] eqn:E0; cbn [obind]; try discriminate.
      pose proof (alloc_init _ _ _ _ _ _ _ Hf E0) as Hs0. unfold init_sd.
      destruct (f (ls_mesh s0) (ls_sd s0)) as [sd| | |] eqn:Ef; cbn [obind]; try discriminate.
      intros Hb. destruct (band_ok_spec W H (set_sd sd s0)) as (s' & E' & Hs' & Hb' & _).
      { apply ok_set_sd; [exact Hs0|]. rewrite (Hlen _ _ _ Ef). apply Hs0. }
      assert (s' = s) by congruence. subst s'. split; [apply sound_of_band; assumption|exact Hb']. }
    assert (G2 : forall f g, (forall m sd sd', f m sd = Ok sd' -> length sd' = length sd) ->
      (forall m sd sd', g m sd = Ok sd' -> length sd' = length sd) ->
      ls_new_target f g W H ml bw fx = Ok s -> sound W H s /\ band_ok s).
    { intros f g Hf1 Hg1 E. destruct (new_target_ok f g W H ml bw fx s Hf Hf1 Hg1 E) as (_ & Hs & Hb & _).
      split; [apply sound_of_band; assumption|exact Hb]. }
    intros [E|hs E|ps E|h1 h2 E|h1 p2 E|p1 p2 E].
    - apply (G init_swiss); [|exact E]. intros m sd sd'. unfold init_swiss. destruct (swiss_holes m); cbn [obind]; try discriminate. apply init_holes_len.
    - eapply G; [|exact E]. intros m sd sd'. apply init_holes_len.
    - eapply G; [|exact E]. intros m sd sd'. apply init_points_len.
    - eapply G2; [| |exact E]; intros m sd sd'; apply init_holes_len.
    - eapply G2; [| |exact E]; intros m sd sd'; [apply init_holes_len|apply init_points_len].
    - eapply G2; [| |exact E]; intros m sd sd'; apply init_points_len.
  Qed.

  Lemma same_mask_nodes (s s' : LevelSet T) :
    (forall i n, m_nodes (ls_mesh s) !! i = Some n -> exists n', m_nodes (ls_mesh s') !! i = Some n' /\
       nd_active n' = nd_active n /\ nd_masked n' = nd_masked n /\ nd_domain n' = nd_domain n) ->
    length (m_nodes (ls_mesh s')) = length (m_nodes (ls_mesh s)) -> ls_fixed s' = ls_fixed s ->
    (forall i, movable s i -> movable s' i) /\ (forall i, active s' i <-> active s i).
  Proof.
    intros HN HL HF. split.
    - intros i (n & E & M & D). destruct (HN i n E) as (n' & E' & A' & M' & D'). exists n'. split; [exact E'|].
      rewrite M', D', HF. auto.
    - intros i. unfold active. split.
      + intros (n' & E' & A').
        destruct (lookup_lt_is_Some_2 (m_nodes (ls_mesh s)) i) as [n E]; [apply lookup_lt_Some in E'; lia|].
        destruct (HN i n E) as (n'' & E'' & A'' & _). exists n. split; [exact E|]. congruence.
      + intros (n & E & A). destruct (HN i n E) as (n' & E' & A' & _). exists n'. split; [exact E'|congruence].
  Qed.

  Lemma band_safe_ext W H (s s' : LevelSet T) : band_safe W H s -> ls_nBand s' = ls_nBand s -> ls_band s' = ls_band s ->
    ls_nMines s' = ls_nMines s -> ls_mines s' = ls_mines s -> band_safe W H s'.
  Proof.
    intros [] E1 E2 E3 E4. constructor; unfold band_list, mine_list in *; rewrite ?E1, ?E2, ?E3, ?E4; assumption.
  Qed.

  Lemma moved_facts W H s dt s1 : ls_ok W H s -> ls_ok W H s1 -> moved_field s dt s1 ->
    (forall i, movable s i -> movable s1 i) /\ (forall i, active s1 i <-> active s i) /\ band_list s1 = band_list s /\
    (forall i, masked s1 i <-> masked s i).
  Proof.
    intros Hs Hs1 M.
    assert (HL : length (m_nodes (ls_mesh s1)) = length (m_nodes (ls_mesh s))).
    { rewrite (tp_lenN _ _ _ (ok_topo _ _ _ Hs1)), (tp_lenN _ _ _ (ok_topo _ _ _ Hs)). reflexivity. }
    destruct (same_mask_nodes s s1) as [A B].
    - intros i n E. destruct (mf_nodes _ _ _ M i n E) as (k & E1 & _). eexists. split; [exact E1|]. auto.
    - exact HL.
    - rewrite (mf_rest _ _ _ M). reflexivity.
    - split; [exact A|]. split; [exact B|]. split; [rewrite (mf_rest _ _ _ M); reflexivity|].
      intros i. split.
      + intros (n' & E' & M').
        destruct (lookup_lt_is_Some_2 (m_nodes (ls_mesh s)) i) as [n E]; [apply lookup_lt_Some in E'; lia|].
        destruct (mf_nodes _ _ _ M i n E) as (k & E1 & _). exists n. split; [exact E|]. rewrite E1 in E'. injection E' as <-. exact M'.
      + intros (n & E & Mk). destruct (mf_nodes _ _ _ M i n E) as (k & E1 & _). eexists. split; [exact E1|]. exact Mk.
  Qed.

  Lemma update_cases W H s dt : ls_ok W H s -> band_safe W H s ->
    exists s1, ls_ok W H s1 /\ band_safe W H s1 /\ moved_field s dt s1 /\
      ((exists i d, i ∈ mine_list s /\ ls_sd s1 !! i = Some d /\ (nabs d <? n1)%num = true) /\
         update s dt = obind (reinitialise s1) (fun s2 => Ok (s2, true)) \/
       ~ (exists i d, i ∈ mine_list s /\ ls_sd s1 !! i = Some d /\ (nabs d <? n1)%num = true) /\
         update s dt = Ok (s1, false)).
  Proof.
    intros Hs Hb. destruct (update_spec W H s dt Hs Hb) as (s1 & Hs1 & Hb1 & M & U1 & U2).
    exists s1. do 3 (split; [assumption|]).
    destruct (mine_hit_spec W H (ls_sd s1) (ls_mines s) (ls_nMines s) 0) as (b & _ & Hbb).
    - apply Hb.
    - apply Hs1.
    - intros k j Hk Hj. apply (bs_mine _ _ _ Hb). unfold mine_list. apply elem_of_take. exists k. split; [exact Hj|lia].
    - assert (Eq : (exists k j d, 0 <= k < 0 + ls_nMines s /\ ls_mines s !! k = Some j /\ ls_sd s1 !! j = Some d /\ (nabs d <? n1)%num = true) <->
        (exists i d, i ∈ mine_list s /\ ls_sd s1 !! i = Some d /\ (nabs d <? n1)%num = true)).
      { split.
        - intros (k & j & d & Hk & Hj & Hd & Hl). exists j, d. split; [|auto]. unfold mine_list. apply elem_of_take. exists k. split; [exact Hj|lia].
        - intros (j & d & Hin & Hd & Hl). unfold mine_list in Hin. apply elem_of_take in Hin as (k & Hj & Hk). exists k, j, d. split; [lia|auto]. }
      rewrite Eq in Hbb. destruct b.
      + left. assert (D := proj1 Hbb eq_refl). auto.
      + right. assert (D : ~ (exists i d, i ∈ mine_list s /\ ls_sd s1 !! i = Some d /\ (nabs d <? n1)%num = true)); [|auto].
        intros D. apply Hbb in D. discriminate.
  Qed.

  Lemma area_loop W H (s : LevelSet T) b s' a : ls_ok W H s -> computeAreaFractions s b = Ok (s', a) ->
    topo W H (ls_mesh s') /\ m_nodes (ls_mesh s') = m_nodes (ls_mesh s) /\ s' = set_area (Some a) (set_mesh (ls_mesh s') s).
  Proof.
    intros Hs. unfold computeAreaFractions.
    destruct (for_ _ _ _) as [[m area]| | |] eqn:E; cbn [obind]; try discriminate. intros [= <- <-]. cbn.
    assert (P : post (for_ (m_nElements (ls_mesh s)) (area_step b) (ls_mesh s, n0))
      (fun st => topo W H (fst st) /\ m_nodes (fst st) = m_nodes (ls_mesh s))).
    { apply post_for with (I := fun st => topo W H (fst st) /\ m_nodes (fst st) = m_nodes (ls_mesh s)).
      - intros k [m' ar] _ [Ht En]. unfold area_step. apply post_bind, post_any. intros e. do 2 (apply post_bind, post_any; intros ?).
        apply post_bind. intros m2. unfold elem_mod. destruct (vmod (m_elements m') k _) as [es| | |] eqn:Ev; cbn [obind]; try discriminate.
        intros [= <-]. apply post_ok. cbn [fst] in *. unfold vmod in Ev. destruct (m_elements m' !! k) as [ee|] eqn:Ee; [|discriminate].
        injection Ev as <-. split; [|exact En]. eapply topo_set_elem; [exact Ht|exact Ee|]. repeat split; reflexivity.
      - cbn. split; [apply Hs|reflexivity]. }
    specialize (P _ E). cbn in P. destruct P as [P1 P2]. auto.
  Qed.

  Lemma quiet_spec W H s s' : sound W H s -> quiet_call s s' ->
    sound W H s' /\ (forall i, masked s' i <-> masked s i) /\ band_list s' = band_list s /\
    (forall i, i ∉ band_list s -> ls_sd s' !! i = ls_sd s !! i).
  Proof.
    intros [Hs Hb Hm Ha] Q.
    assert (V : forall points s', computeVelocities s points = Ok s' -> exists vel, s' = set_vel vel s /\ length vel = node_count W H).
    { intros points s2. unfold computeVelocities. destruct (initialiseVelocities s points) as [vel0| | |] eqn:E0; cbn [obind]; try discriminate.
      apply init_vel_len in E0. rewrite (ok_vel _ _ _ Hs) in E0.
      destruct (march_vel_frame W H (ls_mesh s) false (ls_sd s) vel0 (ok_topo _ _ _ Hs) (ok_sd _ _ _ Hs) E0) as [->|(o & vel & E & L & _)];
        [discriminate|]. rewrite E. cbn [obind]. intros [= <-]. exists vel. split; [destruct s; reflexivity|lia]. }
    assert (SV : forall vel, length vel = node_count W H -> sound W H (set_vel vel s)).
    { intros vel L. constructor.
      - destruct Hs. constructor; auto.
      - destruct Hb. constructor; auto.
      - exact Hm.
      - exact Ha. }
    destruct Q as [dt s' E|points s' E|points dt temp rng s' p' dt' sc E|s' E|b s' a E|tg s' b E|v L|v L|v L].
    - destruct (update_cases W H s dt Hs Hb) as (s1 & Hs1 & Hb1 & M & [(_ & U)|(_ & U)]).
      { rewrite U in E. destruct (reinitialise s1); cbn in E; discriminate. }
      rewrite U in E. injection E as <-.
      destruct (moved_facts W H s dt s1 Hs Hs1 M) as (M1 & M2 & M3 & M4).
      split; [|split; [exact M4|split; [exact M3|intros i Hi; apply (mf_else _ _ _ M i Hi)]]].
      constructor; [exact Hs1|exact Hb1| |].
      + rewrite M3. auto.
      + intros i. rewrite M2, M3. apply Ha.
    - apply V in E as (vel & -> & L). split; [apply SV, L|]. split; [intros i; reflexivity|]. split; [reflexivity|]. intros; reflexivity.
    - unfold computeVelocities_noise in E. destruct (_ >? _)%num; destruct (computeVelocities s _) as [s2| | |] eqn:E2; cbn [obind] in E; try discriminate;
        injection E as <- _ _ _; apply V in E2 as (vel & -> & L); (split; [apply SV, L|]; split; [intros i; reflexivity|]; split; [reflexivity|]; intros; reflexivity).
    - assert (exists g, s' = set_grad g s /\ length g = node_count W H) as (g & -> & L).
      { unfold computeGradients in E. destruct (for_ (ls_nBand s) _ _) as [g1| | |] eqn:E1; cbn [obind] in E; try discriminate.
        injection E as <-. exists g1. split; [reflexivity|]. revert g1 E1.
        match goal with |- forall g1, ?o = Ok g1 -> _ => change (post o (fun g => length g = node_count W H)) end.
        apply post_for with (I := fun g => length g = node_count W H); [|rewrite replicate_length; apply Hs].
        intros k l _ Hl. apply post_bind, post_any. intros node. apply post_bind, post_any. intros gg.
        eapply post_impl; [apply post_vset|]. cbv beta. intros ? ->. exact Hl. }
      split; [|split; [intros i; reflexivity|split; [reflexivity|intros; reflexivity]]].
      constructor; [destruct Hs; constructor; auto|destruct Hb; constructor; auto|exact Hm|exact Ha].
    - destruct (area_loop W H s b s' a Hs E) as (Ht & En & ->).
      split; [|split; [|split; [reflexivity|intros; reflexivity]]].
      + constructor; [destruct Hs; constructor; auto|destruct Hb; constructor; auto| |].
        * intros i Hi. destruct (Hm i Hi) as (n & E1 & E2). exists n. cbn. rewrite En. auto.
        * intros i. rewrite <- (Ha i). unfold active. cbn. rewrite En. reflexivity.
      + intros i. unfold masked. cbn. rewrite En. reflexivity.
    - destruct (discretise_frame s s' tg b E) as [-> F]. set (m' := ls_mesh s') in *. clearbody m'.
      assert (R2 : forall i n, m_nodes (ls_mesh s) !! i = Some n -> exists n', m_nodes m' !! i = Some n' /\
        nd_active n' = nd_active n /\ nd_masked n' = nd_masked n /\ nd_domain n' = nd_domain n).
      { intros i n En. destruct (mframe_lookup' _ _ _ _ F En) as (n' & En' & X). exists n'. unfold fixed_node in X.
        injection X as _ _ _ _ -> -> -> _ _. auto. }
      pose proof (proj1 (mframe_len _ _ F)) as R3.
      destruct (same_mask_nodes s (set_mesh m' s)) as [A B]; [exact R2|exact R3|reflexivity|].
      split; [|split; [|split; [reflexivity|intros; reflexivity]]].
      + constructor; [apply ok_set_mesh; [exact Hs|eapply mframe_topo; [exact F|apply Hs]]|destruct Hb; constructor; auto| |].
        * intros i Hi. apply A, Hm, Hi.
        * intros i. rewrite B. apply Ha.
      + intros i. unfold masked. cbn. split.
        * intros (n' & E' & M'). destruct (lookup_lt_is_Some_2 (m_nodes (ls_mesh s)) i) as [n En]; [rewrite <- R3; exact (lookup_lt_Some _ _ _ E')|].
          destruct (R2 i n En) as (n'' & E'' & _ & M'' & _). exists n. split; [exact En|]. congruence.
        * intros (n & En & M'). destruct (R2 i n En) as (n'' & E'' & _ & M'' & _). exists n''. split; [exact E''|congruence].
    - split; [apply SV; rewrite L; apply Hs|]. split; [intros i; reflexivity|]. split; [reflexivity|]. intros; reflexivity.
    - split; [|split; [intros i; reflexivity|split; [reflexivity|intros; reflexivity]]].
      constructor; [destruct Hs; constructor; auto; cbn; lia|destruct Hb; constructor; auto|exact Hm|exact Ha].
    - split; [|split; [intros i; reflexivity|split; [reflexivity|intros; reflexivity]]].
      constructor; [destruct Hs; constructor; auto|destruct Hb; constructor; auto|exact Hm|exact Ha].
  Qed.

  Lemma reinit_sound W H s s' : ls_ok W H s -> reinitialise s = Ok s' -> sound W H s' /\ (forall i, masked s i -> masked s' i).
  Proof.
    intros Hs E. destruct (reinit_spec W H s Hs) as (_ & R & _). destruct (R s' E) as (Hs' & Hb' & F & _).
    split; [apply sound_of_band; assumption|]. intros i (n & En & Mn). destruct F as (_ & _ & _ & _ & _ & _ & _ & _ & F).
    destruct (F i n En) as (n' & E' & Sm). exists n'. split; [exact E'|]. rewrite Sm. exact Mn.
  Qed.

  Lemma masked_keeps s P s1 i : masked_field s P s1 -> (P i \/ ~ P i) -> masked s i -> masked s1 i.
  Proof.
    intros K D (n & E & M). destruct D as [D|D].
    - destruct (kf_in _ _ _ K i n D E) as [_ E1]. eexists. split; [exact E1|]. reflexivity.
    - destruct (kf_out _ _ _ K i D) as [_ E1]. exists n. rewrite E1. auto.
  Qed.
  Lemma in_circles_dec (s : LevelSet T) holes i : in_circles s holes i \/ ~ in_circles s holes i.
  Proof.
    destruct (m_nodes (ls_mesh s) !! i) as [n|] eqn:E; [|right; intros (n & h & E' & _); congruence].
    destruct (existsb (fun h => distance (h_coord h) (nd_coord n) <? h_r h)%num holes) eqn:D.
    - left. apply existsb_exists in D as (h & Hin & Hd). exists n, h. split; [exact E|]. split; [apply elem_of_list_In; exact Hin|exact Hd].
    - right. intros (n' & h & E' & Hin & Hd). assert (n' = n) by congruence. subst n'.
      assert (C : existsb (fun h => distance (h_coord h) (nd_coord n) <? h_r h)%num holes = true).
      { apply existsb_exists. exists h. split; [apply elem_of_list_In; exact Hin|exact Hd]. }
      congruence.
  Qed.

  Lemma in_circles_node (s : LevelSet T) holes i : in_circles s holes i -> exists n, m_nodes (ls_mesh s) !! i = Some n.
  Proof. intros (n & h & E & _). eauto. Qed.
  Lemma in_rectangle_dec (s : LevelSet T) a b i : in_rectangle s a b i \/ ~ in_rectangle s a b i.
  Proof.
    destruct (m_nodes (ls_mesh s) !! i) as [n|] eqn:E; [|right; intros (n & E' & _); congruence].
    destruct (cx a <? cx (nd_coord n))%num eqn:A1; [|right; intros (n' & E' & B & _); congruence].
    destruct (cy a <? cy (nd_coord n))%num eqn:A2; [|right; intros (n' & E' & _ & B & _); congruence].
    destruct (cx (nd_coord n) <? cx b)%num eqn:A3; [|right; intros (n' & E' & _ & _ & B & _); congruence].
    destruct (cy (nd_coord n) <? cy b)%num eqn:A4; [|right; intros (n' & E' & _ & _ & _ & B); congruence].
    left. exists n. auto.
  Qed.
  Lemma masked_after W H s P s1 s' : ls_ok W H s1 -> masked_field s P s1 -> reinitialise s1 = Ok s' ->
    (forall i, P i \/ ~ P i) -> (forall i, P i -> exists n, m_nodes (ls_mesh s) !! i = Some n) ->
    forall i, masked s' i <-> masked s i \/ P i.
  Proof.
    intros Hs1 K E D HN i. destruct (reinit_spec W H s1 Hs1) as (_ & R & _). destruct (R s' E) as (Hs' & _ & F & _).
    destruct F as (_ & _ & _ & _ & _ & _ & _ & _ & F).
    assert (HL : length (m_nodes (ls_mesh s')) = length (m_nodes (ls_mesh s1))).
    { rewrite (tp_lenN _ _ _ (ok_topo _ _ _ Hs1)), (tp_lenN _ _ _ (ok_topo _ _ _ Hs')). reflexivity. }
    assert (M1 : masked s' i <-> masked s1 i).
    { split.
      - intros (n' & E' & M'). destruct (lookup_lt_is_Some_2 (m_nodes (ls_mesh s1)) i) as [n En]; [apply lookup_lt_Some in E'; lia|].
        destruct (F i n En) as (n'' & E'' & Sm). exists n. split; [exact En|]. assert (n'' = n') by congruence. subst n''.
        rewrite Sm in M'. exact M'.
      - intros (n & En & M'). destruct (F i n En) as (n'' & E'' & Sm). exists n''. split; [exact E''|]. rewrite Sm. exact M'. }
    rewrite M1. destruct (D i) as [Hp|Hp].
    - split; [auto|]. intros _. destruct (HN i Hp) as (n & En). destruct (kf_in _ _ _ K i n Hp En) as [_ En1].
      eexists. split; [exact En1|]. reflexivity.
    - destruct (kf_out _ _ _ K i Hp) as [_ En1]. unfold masked. rewrite En1. intuition.
  Qed.

  Lemma mask_points_pc W H s points s1 : ls_ok W H s -> mask_points_only s points = Ok s1 ->
    ls_ok W H s1 /\ (forall i, masked s i -> masked s1 i).
  Proof.
    intros Hs E. unfold mask_points_only in E.
    set (f := match points with [a; b] => mask_rect_step a b | _ => mask_poly_step points end) in E.
    set (I := fun st : list T * Mesh T => length (fst st) = node_count W H /\ topo W H (snd st) /\
      (forall i n, m_nodes (ls_mesh s) !! i = Some n -> nd_masked n = true -> exists n', m_nodes (snd st) !! i = Some n' /\ nd_masked n' = true)).
    assert (N1 : forall k st, I st -> post (mask_node k st) I).
    { intros k [sd m] (L & Ht & HI). cbn [fst snd] in *. unfold mask_node. apply post_bind. intros sd' Es. apply vset_Ok in Es as [_ ->].
      apply post_bind. intros m' Em. unfold node_mod, vmod in Em. destruct (m_nodes m !! k) as [nk|] eqn:Ek; cbn [obind] in Em; [|discriminate].
      injection Em as <-. apply post_ok. unfold I. cbn [fst snd]. rewrite insert_length. split; [exact L|]. split.
      - eapply topo_set_node; [exact Ht|exact Ek|]. repeat split.
      - intros i n En Mn. cbn [set_nodes m_nodes]. destruct (Nat.eq_dec i k) as [->|Hne].
        + eexists. split; [apply list_lookup_insert; eauto using lookup_lt_Some|]. reflexivity.
        + rewrite list_lookup_insert_ne by auto. eauto. }
    assert (P : post (for_ (m_nNodes (ls_mesh s)) f (ls_sd s, ls_mesh s)) I).
    { apply post_for.
      - intros k st _ HI. assert (R : forall a b, post (mask_rect_step a b k st) I).
        { intros a b. unfold mask_rect_step. apply post_bind, post_any. intros n. destruct (_ && _)%bool; [apply N1, HI|apply post_ok, HI]. }
        assert (Q : post (mask_poly_step points k st) I).
        { unfold mask_poly_step. do 2 (apply post_bind, post_any; intros ?). match goal with |- post (if ?b then _ else _) _ => destruct b end; [apply N1, HI|apply post_ok, HI]. }
        unfold f. destruct points as [|a [|b [|c r]]]; auto.
      - unfold I. cbn [fst snd]. split; [apply Hs|]. split; [apply Hs|]. eauto. }
    destruct (for_ (m_nNodes (ls_mesh s)) f (ls_sd s, ls_mesh s)) as [[sd m]| | |] eqn:Ef; cbn [obind] in E; try discriminate.
    injection E as <-. destruct (P _ eq_refl) as (L & Ht & HI). cbn [fst snd] in *. split.
    - apply ok_set_mesh; [apply ok_set_sd; [exact Hs|exact L]|exact Ht].
    - intros i (n & En & Mn). apply (HI i n En Mn).
  Qed.

  Lemma call_sound W H s s' : sound W H s -> call s s' -> sound W H s' /\ (forall i, masked s i -> masked s' i).
  Proof.
    intros HS C. pose proof HS as [Hs Hb Hm Ha]. destruct C as [s' Q|s' E|dt s' b E|holes s' E|points s' E|v L].
    - destruct (quiet_spec W H s s' HS Q) as (A & B & _). split; [exact A|]. intros i. apply B.
    - exact (reinit_sound W H s s' Hs E).
    - destruct (update_cases W H s dt Hs Hb) as (s1 & Hs1 & Hb1 & M & [(_ & U)|(_ & U)]).
      + rewrite U in E. destruct (reinitialise s1) as [s2| | |] eqn:Er; cbn [obind] in E; try discriminate. injection E as <- <-.
        destruct (reinit_sound W H s1 s2 Hs1 Er) as [A B]. split; [exact A|]. intros i Hi. apply B.
        apply (moved_facts W H s dt s1 Hs Hs1 M), Hi.
      + rewrite U in E. injection E as <- <-.
        destruct (quiet_spec W H s s1 HS (q_update s dt s1 U)) as (A & B & _). split; [exact A|]. intros i. apply B.
    - unfold mask_holes in E. destruct (mask_holes_spec W H s Hs holes) as (s1 & E1 & Hs1 & K). rewrite E1 in E. cbn [obind] in E.
      destruct (reinit_sound W H s1 s' Hs1 E) as [A B]. split; [exact A|]. intros i Hi. apply B. eapply masked_keeps; [exact K|apply in_circles_dec|exact Hi].
    - unfold mask_points in E. destruct (mask_points_only s points) as [s1| | |] eqn:E1; cbn [obind] in E; try discriminate.
      destruct (mask_points_pc W H s points s1 Hs E1) as [Hs1 K].
      destruct (reinit_sound W H s1 s' Hs1 E) as [A B]. split; [exact A|]. intros i Hi. apply B, K, Hi.
    - split; [|auto]. constructor; [apply ok_set_sd; [exact Hs|rewrite L; apply Hs]|destruct Hb; constructor; auto|exact Hm|exact Ha].
  Qed.

  (** Histories. *)
  Lemma calls_sound W H s s' : sound W H s -> rtc call s s' -> sound W H s' /\ (forall i, masked s i -> masked s' i).
  Proof.
    intros HS C. induction C as [s|s s1 s2 C1 _ IH]; [auto|].
    destruct (call_sound W H s s1 HS C1) as [A B]. destruct (IH A) as [A2 B2]. auto.
  Qed.
  Lemma quiet_calls W H s s' : sound W H s -> rtc quiet_call s s' ->
    sound W H s' /\ (forall i, masked s' i <-> masked s i) /\ band_list s' = band_list s /\
    (forall i, i ∉ band_list s -> ls_sd s' !! i = ls_sd s !! i).
  Proof.
    intros HS C. induction C as [s|s s1 s2 C1 _ IH].
    - split; [exact HS|]. split; [reflexivity|]. auto.
    - destruct (quiet_spec W H s s1 HS C1) as (A & B & L & F). destruct (IH A) as (A2 & B2 & L2 & F2).
      split; [exact A2|]. split; [intros i; rewrite B2; apply B|]. split; [congruence|].
      intros i Hi. rewrite F2 by congruence. apply F, Hi.
  Qed.
  Lemma masked_not_band W H s i : sound W H s -> masked s i -> i ∉ band_list s.
  Proof.
    intros [_ _ Hm _] (n & E & M) Hin. destruct (Hm i Hin) as (n' & E' & M' & _). congruence.
  Qed.


  Lemma reached_sound W H s : reached W H s -> sound W H s.
  Proof.
    intros (ml & bw & fx & s0 & Hf & C & R). destruct (constructed_sound W H ml bw fx s0 Hf C) as [A _].
    apply (calls_sound W H s0 s A R).
  Qed.
  Lemma reached_call W H s s' : reached W H s -> call s s' -> reached W H s'.
  Proof.
    intros (ml & bw & fx & s0 & Hf & C & R) Hc. exists ml, bw, fx, s0. split; [exact Hf|]. split; [exact C|].
    eapply rtc_r; eassumption.
  Qed.
  Lemma reinit_band W H s s' : reached W H s -> reinitialise s = Ok s' -> band_ok s'.
  Proof.
    intros Hr E. destruct (reinit_spec W H s (so_ok _ _ _ (reached_sound _ _ _ Hr))) as (_ & R & _). apply (R s' E).
  Qed.
  Lemma update_reinit_band W H s dt s' : reached W H s -> update s dt = Ok (s', true) -> band_ok s'.
  Proof.
    intros Hr E. destruct (reached_sound _ _ _ Hr) as [Hs Hb _ _].
    destruct (update_cases W H s dt Hs Hb) as (s1 & Hs1 & Hb1 & M & [(_ & U)|(_ & U)]); rewrite U in E; [|discriminate].
    destruct (reinitialise s1) as [s2| | |] eqn:Er; cbn [obind] in E; try discriminate. injection E as <-.
    destruct (reinit_spec W H s1 Hs1) as (_ & R & _). apply (R s2 Er).
  Qed.
  Lemma mask_holes_full W H s holes s' : reached W H s -> mask_holes s holes = Ok s' ->
    exists s1, masked_field s (in_circles s holes) s1 /\ reinitialise s1 = Ok s' /\ band_ok s' /\
      (forall i, masked s' i <-> masked s i \/ in_circles s holes i).
  Proof.
    intros Hr E. destruct (reached_sound _ _ _ Hr) as [Hs Hb _ _].
    destruct (mask_holes_spec W H s Hs holes) as (s1 & E1 & Hs1 & K). unfold mask_holes in E. rewrite E1 in E. cbn [obind] in E.
    exists s1. split; [exact K|]. split; [exact E|]. destruct (reinit_spec W H s1 Hs1) as (_ & R & _).
    destruct (R s' E) as (Hs' & Hb' & F & _). split; [exact Hb'|]. apply (masked_after W H s _ s1 s' Hs1 K E); eauto using in_circles_dec, in_circles_node.
  Qed.
  Lemma mask_rect_full W H s a b s' : reached W H s -> mask_points s [a; b] = Ok s' ->
    exists s1, masked_field s (in_rectangle s a b) s1 /\ reinitialise s1 = Ok s' /\ band_ok s' /\
      (forall i, masked s' i <-> masked s i \/ in_rectangle s a b i).
  Proof.
    intros Hr E. destruct (reached_sound _ _ _ Hr) as [Hs Hb _ _].
    destruct (mask_rect_spec W H s Hs a b) as (s1 & E1 & Hs1 & K). unfold mask_points in E. rewrite E1 in E. cbn [obind] in E.
    exists s1. split; [exact K|]. split; [exact E|]. destruct (reinit_spec W H s1 Hs1) as (_ & R & _).
    destruct (R s' E) as (Hs' & Hb' & F & _). split; [exact Hb'|]. apply (masked_after W H s _ s1 s' Hs1 K E); eauto using in_rectangle_dec.
    intros i (n & En & _). eauto.
  Qed.
  Lemma mask_poly_full W H s points s' : reached W H s -> length points <> 2 -> points <> [] ->
    (forall i n, m_nodes (ls_mesh s) !! i = Some n -> exists b, isInsidePolygon (nd_coord n) points = Ok b) ->
    mask_points s points = Ok s' ->
    exists s1, masked_field s (inside_test s points) s1 /\ reinitialise s1 = Ok s' /\ band_ok s' /\
      (forall i, masked s' i <-> masked s i \/ inside_test s points i).
  Proof.
    intros Hr N2 N0 HP E. destruct (reached_sound _ _ _ Hr) as [Hs Hb _ _].
    destruct (mask_poly_spec W H s Hs points N2 N0 HP) as (s1 & E1 & Hs1 & K). unfold mask_points in E. rewrite E1 in E. cbn [obind] in E.
    exists s1. split; [exact K|]. split; [exact E|]. destruct (reinit_spec W H s1 Hs1) as (_ & R & _).
    destruct (R s' E) as (Hs' & Hb' & F & _). split; [exact Hb'|]. apply (masked_after W H s _ s1 s' Hs1 K E).
    - intros i. destruct (m_nodes (ls_mesh s) !! i) as [n|] eqn:En; [|right; intros (n & En' & _); congruence].
      destruct (HP i n En) as ([] & Eb); [left; exists n; auto|right; intros (n' & En' & Eb'); congruence].
    - intros i (n & En & _). eauto.
  Qed.

  Lemma update_frame W H s dt s' : reached W H s -> update s dt = Ok (s', false) -> moved_field s dt s'.
  Proof.
    intros Hr E. destruct (reached_sound _ _ _ Hr) as [Hs Hb _ _].
    destruct (update_cases W H s dt Hs Hb) as (s1 & Hs1 & Hb1 & M & [(_ & U)|(_ & U)]); rewrite U in E.
    - destruct (reinitialise s1); cbn in E; discriminate.
    - injection E as <-. exact M.
  Qed.
  Lemma moved_border W H s dt i n r : reached W H s -> (n0 <? n0)%num = false -> moved s dt i r ->
    m_nodes (ls_mesh s) !! i = Some n -> nd_domain n = true -> (n0 <? r)%num = false.
  Proof.
    intros _ H0 (d & g & v & n' & _ & _ & _ & En & Er) En' Hd. assert (n' = n) by congruence. subst n'.
    cbv zeta in Er. rewrite Hd in Er. cbn [andb] in Er. subst r. destruct (n0 <? d - dt * g * v)%num eqn:E; assumption.
  Qed.

  Lemma all_invalid (W H bw : nat) (ml : T) (fx : bool) : fits_ls W H bw -> ~ valid_params ml bw ->
    ls_new_swiss W H ml bw fx = Exit /\
    (forall holes, ls_new_holes W H holes ml bw fx = Exit) /\
    (forall points, ls_new_points W H points ml bw fx = Exit) /\
    (forall h1 h2, ls_new_holes_holes W H h1 h2 ml bw fx = Exit) /\
    (forall h1 p2, ls_new_holes_points W H h1 p2 ml bw fx = Exit) /\
    (forall p1 p2, ls_new_points_points W H p1 p2 ml bw fx = Exit).
  Proof.
    intros Hf Hv. repeat split; intros; first [apply new_invalid|apply new_target_invalid]; assumption.
  Qed.
  Lemma holes_accepted (W H bw : nat) (ml : T) (fx : bool) (holes : list (Hole T)) : fits_ls W H bw -> valid_params ml bw ->
    exists s, ls_new_holes W H holes ml bw fx = Ok s /\
      ls_moveLimit s = ml /\ ls_bandWidth s = bw /\ ls_fixed s = fx /\ ls_ok W H s /\
      ls_vel s = replicate (node_count W H) n0 /\ ls_grad s = replicate (node_count W H) n0.
  Proof.
    intros Hf Hv. unfold ls_new_holes.
    destruct (new_ok (fun m => init_holes m holes) W H ml bw fx (tab (node_count W H) (holes_value W H holes)) Hf Hv) as (s & E & Hs & _ & _ & A & B & C & D & G).
    - apply init_holes_spec; [|apply replicate_length]. apply topo_new with (m := mesh_spec W H).
      + exact (fits_mesh W H bw Hf).
      + apply mesh_new_eq, (fits_mesh W H bw Hf).
    - apply tab_length.
    - exists s. auto 10.
  Qed.
  Lemma constructed_band (W H bw : nat) (ml : T) (fx : bool) (s : LevelSet T) :
    fits_ls W H bw -> constructed W H ml bw fx s -> band_ok s.
  Proof. intros Hf C. apply (constructed_sound W H ml bw fx s Hf C). Qed.
  Lemma all_reinit_band (W H : nat) (s s' : LevelSet T) : reached W H s ->
    (reinitialise s = Ok s' -> band_ok s') /\
    (forall dt, update s dt = Ok (s', true) -> band_ok s') /\
    (forall holes, mask_holes s holes = Ok s' -> band_ok s').
  Proof.
    intros Hr. split; [apply (reinit_band W H s s' Hr)|]. split; [intros dt; apply (update_reinit_band W H s dt s' Hr)|].
    intros holes E. destruct (mask_holes_full W H s holes s' Hr E) as (_ & _ & _ & B & _). exact B.
  Qed.
  Lemma band_always (W H : nat) (s : LevelSet T) : reached W H s ->
    NoDup (band_list s) /\ (forall i, active s i <-> i ∈ band_list s) /\ (forall i, i ∈ band_list s -> movable s i).
  Proof. intros Hr. destruct (reached_sound _ _ _ Hr) as [Hs Hb Hm Ha]. split; [apply Hb|auto]. Qed.
  Lemma mines_explicit (W H : nat) (s s' : LevelSet T) : reached W H s -> reinitialise s = Ok s' ->
    forall i, i ∈ mine_list s' <->
      movable s' i /\ exists d, ls_sd s' !! i = Some d /\
        (nabs d <? nofnat (ls_bandWidth s'))%num = true /\ (nofnat (ls_bandWidth s' - 1) <? nabs d)%num = true.
  Proof.
    intros Hr E i. rewrite (bo_mine _ (reinit_band W H s s' Hr E)). unfold near_edge, in_band. split.
    - intros ((M & d & Ed & L) & d' & Ed' & L'). assert (d' = d) by congruence. subst d'. split; [exact M|]. exists d. auto.
    - intros (M & d & Ed & L & L'). split; [split; [exact M|]|]; exists d; auto.
  Qed.
  Lemma update_reports (W H : nat) (s : LevelSet T) (dt : T) : reached W H s ->
    exists s1, moved_field s dt s1 /\
      ((exists i d, i ∈ mine_list s /\ ls_sd s1 !! i = Some d /\ (nabs d <? n1)%num = true) ->
         update s dt = obind (reinitialise s1) (fun s2 => Ok (s2, true))) /\
      (~ (exists i d, i ∈ mine_list s /\ ls_sd s1 !! i = Some d /\ (nabs d <? n1)%num = true) ->
         update s dt = Ok (s1, false)).
  Proof.
    intros Hr. destruct (reached_sound _ _ _ Hr) as [Hs Hb Hm Ha].
    destruct (update_spec W H s dt Hs Hb) as (s1 & _ & _ & M & U). exists s1. auto.
  Qed.
  Lemma update_explicit (W H : nat) (s s' : LevelSet T) (dt : T) : reached W H s -> update s dt = Ok (s', false) ->
    (forall i, i ∉ band_list s -> ls_sd s' !! i = ls_sd s !! i) /\
    (forall i, i ∈ band_list s -> exists d g v n r,
       ls_sd s !! i = Some d /\ ls_grad s !! i = Some g /\ ls_vel s !! i = Some v /\ m_nodes (ls_mesh s) !! i = Some n /\
       ls_sd s' !! i = Some r /\
       r = (if nd_domain n && (n0 <? d - dt * g * v)%num then n0 else d - dt * g * v)%num) /\
    ls_vel s' = ls_vel s /\ ls_grad s' = ls_grad s /\ ls_band s' = ls_band s /\ ls_nBand s' = ls_nBand s /\
    ls_mines s' = ls_mines s /\ ls_nMines s' = ls_nMines s /\ ls_target s' = ls_target s.
  Proof.
    intros Hr E. pose proof (update_frame W H s dt s' Hr E) as M. split; [apply M|]. split.
    - intros i Hi. destruct (mf_band _ _ _ M i Hi) as (r & Er & d & g & v & n & A & B & C & D & Ev). exists d, g, v, n, r. auto 10.
    - rewrite (mf_rest _ _ _ M). auto 10.
  Qed.
  Lemma masked_frozen (W H : nat) (s s' : LevelSet T) : reached W H s ->
    rtc quiet_call s s' -> forall i, masked s i -> masked s' i /\ ls_sd s' !! i = ls_sd s !! i.
  Proof.
    intros Hr C i Hi. pose proof (reached_sound _ _ _ Hr) as HS. destruct (quiet_calls W H s s' HS C) as (_ & B & _ & F).
    split; [apply B, Hi|]. apply F, (masked_not_band W H s i HS Hi).
  Qed.
  Lemma masked_for_ever (W H : nat) (s s' : LevelSet T) : reached W H s ->
    rtc call s s' -> forall i, masked s i -> masked s' i /\ i ∉ band_list s' /\ ~ active s' i.
  Proof.
    intros Hr C i Hi. destruct (calls_sound W H s s' (reached_sound _ _ _ Hr) C) as [HS B].
    assert (N : i ∉ band_list s') by (apply (masked_not_band W H s' i HS), B, Hi).
    split; [apply B, Hi|]. split; [exact N|]. rewrite (so_active _ _ _ HS). exact N.
  Qed.
  Lemma mask_set_like (W H : nat) (s : LevelSet T) (holes holes' : list (Hole T)) : reached W H s ->
    (forall h, h ∈ holes <-> h ∈ holes') -> mask_holes s holes = mask_holes s holes'.
  Proof.
    intros Hr E. destruct (reached_sound _ _ _ Hr) as [Hs Hb Hm Ha].
    destruct (mask_holes_spec W H s Hs holes) as (s1 & E1 & _ & K1). destruct (mask_holes_spec W H s Hs holes') as (s2 & E2 & _ & K2).
    unfold mask_holes. rewrite E1, E2. cbn [obind].
    replace s2 with s1; [reflexivity|]. eapply (masked_field_unique W H s Hs); [exact K1|exact K2| |].
    - intros i _. unfold in_circles. split; intros (n & h & A & B & C); exists n, h; (split; [exact A|split; [apply E, B|exact C]]).
    - intros i _. apply in_circles_dec.
  Qed.
  Lemma gradients_values_reached (W H : nat) (s : LevelSet T) : reached W H s -> 4 <= W -> 4 <= H ->
    exists g, computeGradients s = Ok (set_grad g s) /\
      forall x y v, x <= W -> y <= H -> node_id W x y ∈ band_list s -> ls_vel s !! node_id W x y = Some v ->
        exists r, g !! node_id W x y = Some r /\ gradient_spec (field W (ls_sd s)) W H x y v r.
  Proof.
    intros Hr HW HH. destruct (reached_sound _ _ _ Hr) as [Hs Hb Hm Ha].
    destruct (gradients_spec W H s Hs Hb (conj HW HH)) as (g & E & _ & _ & _ & G). exists g. auto.
  Qed.
  Lemma all_safe (W H : nat) (s : LevelSet T) : reached W H s ->
    (reinitialise s = Exit \/ exists s', reinitialise s = Ok s') /\
    (forall dt, update s dt = Exit \/ exists s' b, update s dt = Ok (s', b)) /\
    (forall holes, mask_holes s holes = Exit \/ exists s', mask_holes s holes = Ok s') /\
    (forall a b, mask_points s [a; b] = Exit \/ exists s', mask_points s [a; b] = Ok s') /\
    (forall points, (forall p, p ∈ points -> located W H (ls_mesh s) p) ->
       computeVelocities s points = Exit \/ exists s', computeVelocities s points = Ok s') /\
    (4 <= W -> 4 <= H -> exists s', computeGradients s = Ok s').
  Proof.
    intros Hr. destruct (reached_sound _ _ _ Hr) as [Hs Hb Hm Ha].
    assert (RR : forall s, ls_ok W H s -> reinitialise s = Exit \/ exists s', reinitialise s = Ok s').
    { intros s2 Hs2. unfold reinitialise.
      pose proof (march_safe W H (ls_mesh s2) (ok_topo _ _ _ Hs2) (fmm_new (ls_mesh s2) false) (ls_sd s2)
        (fobj_new W H (ls_mesh s2) (ok_topo _ _ _ Hs2) false) (ok_sd _ _ _ Hs2) ltac:(discriminate)) as Hm2.
      destruct (fmm_march (ls_mesh s2) (fmm_new (ls_mesh s2) false) (ls_sd s2)) as [[o sd]| | |] eqn:E; cbn [wp obind] in Hm2 |- *;
        [|left; reflexivity|contradiction..].
      destruct Hm2 as (_ & _ & L & _). right. destruct (band_ok_spec W H (set_sd sd s2)) as (s' & E' & _); [|eauto].
      apply ok_set_sd; [exact Hs2|exact L]. }
    split; [apply RR, Hs|]. split.
    { intros dt. destruct (update_cases W H s dt Hs Hb) as (s1 & Hs1 & _ & _ & [(_ & ->)|(_ & ->)]); [|eauto].
      destruct (RR s1 Hs1) as [->|(s2 & ->)]; cbn [obind]; eauto. }
    split.
    { intros holes. unfold mask_holes. destruct (mask_holes_spec W H s Hs holes) as (s1 & -> & Hs1 & _). apply RR, Hs1. }
    split.
    { intros a b. unfold mask_points. destruct (mask_rect_spec W H s Hs a b) as (s1 & -> & Hs1 & _). apply RR, Hs1. }
    split.
    { intros points Hp. destruct (velocities_spec W H s Hs Hb points Hp) as [->|(v0 & v & o & _ & -> & _)]; eauto. }
    intros HW HH. destruct (gradients_spec W H s Hs Hb (conj HW HH)) as (g & E & _). eauto.
  Qed.
End History.

Lemma gradients_reached {T} {NT : Num T} {NI : NumInt T} {NS : NumSgn T} (W H : nat) (s : LevelSet T) : reached W H s ->
  4 <= W -> 4 <= H ->
  exists g, computeGradients s = Ok (set_grad g s) /\ length g = node_count W H /\
    (forall i, i < node_count W H -> i ∉ band_list s -> g !! i = Some n0) /\
    (forall i, i ∈ band_list s -> exists r, g !! i = Some r /\ (r <? n0)%num = false).
Proof.
  intros Hr HW HH. destruct (reached_sound _ _ _ Hr) as [Hs Hb Hm Ha]. exact (gradients_nonneg W H s Hs Hb HW HH).
Qed.
