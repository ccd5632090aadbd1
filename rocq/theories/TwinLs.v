(** * TwinLs: the calls on two level sets that differ only in leftovers of earlier calls (C57, C58). *)

From Verif Require Import MeshTopo FmmModel FmmSame LevelSetModel LevelSetSpec LevelSetCalls BoundaryModel Twin.
Local Open Scope nat_scope.

Lemma take_vget {A} k (l l' : list A) i : take k l = take k l' -> i < k -> vget l i = vget l' i.
Proof. intros E Hi. unfold vget. rewrite <- (lookup_take l k i Hi), <- (lookup_take l' k i Hi), E. reflexivity. Qed.

Section twin.
  Context {T : Type} {NT : Num T}.
  Local Ltac ob := eapply orel_bind; [apply orel_refl|intros ? ? <-].

  (** Without the flag isActive, which the narrow band determines. *)
  Record node_base (n n' : Node T) : Prop := {
    nb_coord : nd_coord n' = nd_coord n;
    nb_neigh : nd_neigh n' = nd_neigh n;
    nb_domain : nd_domain n' = nd_domain n;
    nb_masked : nd_masked n' = nd_masked n;
    nb_bpts : length (nd_bpts n') = length (nd_bpts n)
  }.
  Record node_link (n n' : Node T) : Prop := {
    nl_base : node_base n n';
    nl_count : nd_nBpts n' = nd_nBpts n;
    nl_bpts : prefix_eq (nd_nBpts n) (nd_bpts n) (nd_bpts n');
    nl_status : nd_status n' = nd_status n
  }.
  (** Relations the calls cannot break. *)
  Record good (R : Node T -> Node T -> Prop) : Prop := {
    g_base : forall n n', R n n' -> node_base n n';
    g_active : forall b n n', R n n' -> R (set_nd_active b n) (set_nd_active b n');
    g_mine : forall n n', R n n' -> R (set_nd_mine true n) (set_nd_mine true n');
    g_masked : forall n n', R n n' -> R (set_nd_masked true n) (set_nd_masked true n');
    g_clear : forall n n', R n n' -> R (set_nd_bpts (nd_bpts n) 0 n) (set_nd_bpts (nd_bpts n') 0 n')
  }.
  Lemma good_base : good node_base.
  Proof. constructor; auto; intros; destruct H || destruct H0; constructor; auto. Qed.
  Lemma good_link : good node_link.
  Proof.
    constructor; [apply nl_base|..]; intros; try match goal with X : node_link _ _ |- _ => destruct X as [[] ? [? ?] ?] end;
      (constructor; [constructor; auto|auto|split; auto|auto]).
  Qed.
  Lemma link_base n n' : node_link n n' -> node_base n n'.
  Proof. apply nl_base. Qed.

  (** ** The march *)
  Lemma neigh_twin (R : Node T -> Node T -> Prop) Q m m' i j : (forall n n', R n n' -> nd_neigh n' = nd_neigh n) -> mesh_twin R Q m m' -> neigh m' i j = neigh m i j.
  Proof.
    intros HR M. symmetry. apply orel_eq. unfold neigh. eapply orel_bind; [apply orel_vget, (mt_nodes _ _ _ _ M)|]. intros n n' Hn. rewrite (HR _ _ Hn). apply orel_refl.
  Qed.
  Lemma march_twin R Q m m' sd : good R -> mesh_twin R Q m m' -> fmm_march m' (fmm_new m' false) sd = fmm_march m (fmm_new m false) sd.
  Proof.
    intros G M. unfold fmm_march, fmm_new, take_copy. cbn [fo_copy fo_test fo_ptr fo_status]. rewrite (mt_nN _ _ _ _ M). apply obind_ext; intros copy _.
    rewrite (march_core_same m m' false copy (mt_nN _ _ _ _ M)); [reflexivity| |discriminate].
    intros i j. apply (neigh_twin R Q); [|exact M]. intros n n' Hn. apply (g_base _ G _ _ Hn).
  Qed.
  Lemma march_vel_twin R Q m m' sd vel : good R -> mesh_twin R Q m m' -> (forall i, is_active m' i = is_active m i) ->
    fmm_march_vel m' (fmm_new m' false) sd vel = fmm_march_vel m (fmm_new m false) sd vel.
  Proof.
    intros G M Ha. unfold fmm_march_vel, fmm_new, take_copy. cbn [fo_copy fo_test fo_ptr fo_status]. rewrite (mt_nN _ _ _ _ M). apply obind_ext; intros copy _.
    rewrite (march_core_same m m' true copy (mt_nN _ _ _ _ M)); auto. intros i j. apply (neigh_twin R Q); [|exact M]. intros n n' Hn. apply (g_base _ G _ _ Hn).
  Qed.

  (** ** The narrow band *)
  Definition room (N nm : nat) (mines : list nat) : Prop := nm < length mines \/ N <= nm.
  Definition band_twin R Q (N k : nat) (b b' : Band (T := T)) : Prop :=
    let '(m, band, nb, mines, nm) := b in let '(m', band', nb', mines', nm') := b' in
    mesh_twin R Q m m' /\ m_nNodes m = N /\ nb' = nb /\ prefix_eq nb band band' /\ nm' = nm /\ take nm mines = take nm mines' /\
    nm <= k /\ room N nm mines /\ room N nm mines'.

  Definition grown (N nm : nat) (mines : list nat) : list nat :=
    if (nm =? length mines)%nat then
      let newSize := Nat.min (u32 (2 * Z.of_nat nm)) N in take newSize mines ++ replicate (newSize - length mines) 0
    else mines.
  Lemma grown_room N nm mines : (Z.of_nat N < 2 ^ 31)%Z -> 1 <= nm <= N -> nm <= length mines -> take nm (grown N nm mines) = take nm mines /\ room N nm (grown N nm mines).
  Proof.
    intros HN Hn HL. unfold grown. destruct (Nat.eqb_spec nm (length mines)) as [E|E]; [|split; [reflexivity|left; lia]].
    assert (U : u32 (2 * Z.of_nat nm) = 2 * nm). { unfold u32. rewrite Z.mod_small by lia. lia. }
    cbn zeta. rewrite U. set (k := Nat.min (2 * nm) N). assert (Hk : length mines <= k) by lia. rewrite (take_ge mines k Hk). split.
    - rewrite E. rewrite take_app, firstn_all. reflexivity.
    - unfold room. rewrite app_length, replicate_length. lia.
  Qed.
  Lemma take_vset nm x (mines mines' : list nat) : take nm mines = take nm mines' -> nm < length mines -> nm < length mines' ->
    vset mines nm x = Ok (<[nm:=x]> mines) /\ vset mines' nm x = Ok (<[nm:=x]> mines') /\ take (nm + 1) (<[nm:=x]> mines) = take (nm + 1) (<[nm:=x]> mines').
  Proof.
    intros E H1 H2. unfold vset. destruct (lookup_lt_is_Some_2 mines nm H1) as [a ->]. destruct (lookup_lt_is_Some_2 mines' nm H2) as [a' ->].
    split; [reflexivity|]. split; [reflexivity|]. replace (nm + 1) with (S nm) by lia.
    rewrite !(take_S_r _ _ x) by (apply list_lookup_insert; lia). rewrite !take_insert by lia. rewrite E. reflexivity.
  Qed.

  Lemma node_mod_good (R : Node T -> Node T -> Prop) Q m m' i f : mesh_twin R Q m m' -> (forall n n', R n n' -> R (f n) (f n')) ->
    orel (fun x x' => mesh_twin R Q x x' /\ m_nNodes x = m_nNodes m) (node_mod i f m) (node_mod i f m').
  Proof.
    intros M Hf. pose proof (node_mod_twin R Q m m' i f f M Hf) as X. unfold node_mod in *.
    destruct (vmod (m_nodes m) i f), (vmod (m_nodes m') i f); cbn in *; auto.
  Qed.

  Lemma band_step_twin R Q N sd bw fx k b b' : good R -> (Z.of_nat N < 2 ^ 31)%Z -> k < N -> band_twin R Q N k b b' ->
    orel (band_twin R Q N (S k)) (band_step sd bw fx k b) (band_step sd bw fx k b').
  Proof.
    intros G HN Hk. destruct b as [[[[m band] nb] mines] nm], b' as [[[[m' band'] nb'] mines'] nm'].
    intros (M & EN & -> & Pb & -> & Em & Hnm & R1 & R2). unfold band_step.
    eapply orel_bind; [apply node_mod_good; [exact M|apply (g_active _ G)]|]. intros m1 m1' [M1 N1].
    assert (ok : forall x x' y y', mesh_twin R Q x x' -> m_nNodes x = m_nNodes m -> prefix_eq y band band' -> y' = y -> nb = y -> orel (band_twin R Q N (S k)) (Ok (x, band, nb, mines, nm)) (Ok (x', band', y', mines', nm))).
    { intros x x' y y' Hx Nx _ -> <-. cbn. repeat (split; [solve [auto|congruence]|]). repeat split; auto; lia. }
    eapply orel_bind; [apply orel_vget, (mt_nodes _ _ _ _ M1)|]. intros n n' Hn. apply (g_base _ G) in Hn as [_ _ -> -> _].
    destruct (_ && _)%bool; [|apply (ok _ _ nb); auto]. ob. destruct (_ <? _)%num; [|apply (ok _ _ nb); auto].
    eapply orel_bind; [apply node_mod_good; [exact M1|apply (g_active _ G)]|]. intros m2 m2' [M2 N2].
    eapply orel_bind; [apply prefix_vset, Pb|]. intros bd bd' Pb'. destruct (_ >? _)%num.
    - eapply orel_bind; [apply node_mod_good; [exact M2|apply (g_mine _ G)]|]. intros m3 m3' [M3 N3].
      destruct R1 as [R1|R1], R2 as [R2|R2]; try lia. destruct (take_vset nm k mines mines' Em R1 R2) as (-> & -> & E). cbn [obind].
      assert (A : m_nNodes m3 = N) by congruence. rewrite (mt_nN _ _ _ _ M3), A.
      change (band_twin R Q N (S k) (m3, bd, nb + 1, grown N (nm + 1) (<[nm:=k]> mines), nm + 1) (m3', bd', nb + 1, grown N (nm + 1) (<[nm:=k]> mines'), nm + 1)).
      destruct (grown_room N (nm + 1) (<[nm:=k]> mines) HN) as [G1 G2]; [lia|rewrite insert_length; lia|].
      destruct (grown_room N (nm + 1) (<[nm:=k]> mines') HN) as [G3 G4]; [lia|rewrite insert_length; lia|].
      cbn. rewrite G1, G3. repeat split; auto; try (apply Pb'); try lia; apply M3.
    - cbn. repeat split; auto; try (apply Pb'); try (apply M2); try lia; congruence.
  Qed.

  (** ** Level sets *)
  Record ls_core (R : Node T -> Node T -> Prop) (Q : Element T -> Element T -> Prop) (s s' : LevelSet T) : Prop := {
    lc_mesh : mesh_twin R Q (ls_mesh s) (ls_mesh s');
    lc_sd : ls_sd s' = ls_sd s;
    lc_target : ls_target s' = ls_target s;
    lc_ml : ls_moveLimit s' = ls_moveLimit s;
    lc_bw : ls_bandWidth s' = ls_bandWidth s;
    lc_fx : ls_fixed s' = ls_fixed s
  }.
  Record band_eq (s s' : LevelSet T) : Prop := {
    be_nb : ls_nBand s' = ls_nBand s;
    be_band : take (ls_nBand s) (ls_band s) = take (ls_nBand s) (ls_band s');
    be_nm : ls_nMines s' = ls_nMines s;
    be_mines : take (ls_nMines s) (ls_mines s) = take (ls_nMines s) (ls_mines s')
  }.
  (** Velocities and gradients are those of the states before. *)
  Definition keeps_vel (s s' r r' : LevelSet T) : Prop :=
    ls_vel r = ls_vel s /\ ls_vel r' = ls_vel s' /\ ls_grad r = ls_grad s /\ ls_grad r' = ls_grad s'.

  Section calls.
    Variables (R : Node T -> Node T -> Prop) (Q : Element T -> Element T -> Prop) (W H : nat).
    Hypothesis (G : good R) (GQ : forall e e', Q e e' -> elem_weak e e').

    Definition roomy (s s' : LevelSet T) : Prop := (Z.of_nat (m_nNodes (ls_mesh s)) < 2 ^ 31)%Z /\ length (ls_band s') = length (ls_band s) /\
      1 <= length (ls_mines s) /\ 1 <= length (ls_mines s').
    Lemma ok_roomy s s' : ls_ok W H s -> ls_ok W H s' -> roomy s s'.
    Proof.
      intros Ho Ho'. unfold roomy. rewrite (tp_nN _ _ _ (ok_topo _ _ _ Ho)), (ok_band _ _ _ Ho), (ok_band _ _ _ Ho').
      split; [apply (ok_small _ _ _ Ho)|]. split; [reflexivity|]. split; [apply (ok_mines _ _ _ Ho)|apply (ok_mines _ _ _ Ho')].
    Qed.
    Lemma reinit_twin s s' : ls_core R Q s s' -> roomy s s' ->
      orel (fun r r' => ls_core R Q r r' /\ band_eq r r' /\ keeps_vel s s' r r') (reinitialise s) (reinitialise s').
    Proof.
      intros [M Esd Et E1 E2 E3] (HN & LB & L1 & L2). unfold reinitialise. rewrite Esd, (march_twin R Q _ _ _ G M).
      eapply orel_bind; [apply orel_refl|]. intros [f sd] ? <-. unfold initialiseNarrowBand. cbn [set_sd ls_mesh ls_sd ls_bandWidth ls_fixed ls_band ls_mines].
      rewrite E2, E3, (mt_nN _ _ _ _ M). set (N := m_nNodes (ls_mesh s)).
      eapply orel_bind with (R := band_twin R Q N N).
      - apply (orel_for (band_twin R Q N)).
        + cbn. split; [exact M|]. split; [reflexivity|]. split; [reflexivity|]. split; [split; [congruence|rewrite !take_0; reflexivity]|].
          split; [reflexivity|]. split; [reflexivity|]. split; [lia|]. split; left; lia.
        + intros k t t' Hk Ht. apply band_step_twin; auto.
      - intros [[[[m bd] nb] mi] nm] [[[[m' bd'] nb'] mi'] nm'] (Mt & _ & -> & [_ Pb] & -> & Em & _). cbn.
        split; [constructor; auto|]. split; [constructor; auto|]. repeat split.
    Qed.

    Definition field_twin (N : nat) (a a' : list T * Mesh T) : Prop := fst a' = fst a /\ mesh_twin R Q (snd a) (snd a') /\ m_nNodes (snd a) = N.
    Lemma mask_node_twin N i a a' : field_twin N a a' -> orel (field_twin N) (mask_node i a) (mask_node i a').
    Proof.
      destruct a as [sd m], a' as [sd' m']. intros (E & M & EN). cbn in E, M, EN. subst sd'. unfold mask_node. ob.
      eapply orel_bind; [apply node_mod_good; [exact M|apply (g_masked _ G)]|]. intros x x' [Hx Nx]. split; [reflexivity|]. split; [exact Hx|cbn; congruence].
    Qed.
    Lemma mask_hole_twin N holes i j a a' : field_twin N a a' -> orel (field_twin N) (mask_hole_step holes i j a) (mask_hole_step holes i j a').
    Proof.
      intros F. unfold mask_hole_step. ob. eapply orel_bind; [apply orel_vget, (mt_nodes _ _ _ _ (proj1 (proj2 F)))|]. intros n n' Hn.
      apply (g_base _ G) in Hn. rewrite (nb_coord _ _ Hn). destruct (_ <? _)%num; [apply mask_node_twin, F|exact F].
    Qed.
    Lemma mask_rect_twin N a b i st st' : field_twin N st st' -> orel (field_twin N) (mask_rect_step a b i st) (mask_rect_step a b i st').
    Proof.
      intros F. unfold mask_rect_step. eapply orel_bind; [apply orel_vget, (mt_nodes _ _ _ _ (proj1 (proj2 F)))|]. intros n n' Hn.
      apply (g_base _ G) in Hn. rewrite (nb_coord _ _ Hn). destruct (_ && _)%bool; [apply mask_node_twin, F|exact F].
    Qed.
    Lemma mask_poly_twin N ps i st st' : field_twin N st st' -> orel (field_twin N) (mask_poly_step ps i st) (mask_poly_step ps i st').
    Proof.
      intros F. unfold mask_poly_step. eapply orel_bind; [apply orel_vget, (mt_nodes _ _ _ _ (proj1 (proj2 F)))|]. intros n n' Hn.
      apply (g_base _ G) in Hn. rewrite (nb_coord _ _ Hn). eapply orel_bind; [apply orel_refl|]. intros [|] ? <-; [apply mask_node_twin, F|exact F].
    Qed.
    (** Only signed distance and mesh differ. *)
    Definition only_field (s r : LevelSet T) : Prop := exists sd m, r = set_mesh m (set_sd sd s) /\ m_nNodes m = m_nNodes (ls_mesh s).
    Lemma mask_holes_only_twin s s' holes : ls_core R Q s s' ->
      orel (fun r r' => ls_core R Q r r' /\ only_field s r /\ only_field s' r') (mask_holes_only s holes) (mask_holes_only s' holes).
    Proof.
      intros [M Esd Et E1 E2 E3]. unfold mask_holes_only. rewrite Esd, (mt_nN _ _ _ _ M). eapply orel_bind with (R := field_twin (m_nNodes (ls_mesh s))).
      - apply orel_for_same; [split; [reflexivity|]; split; [exact M|reflexivity]|]. intros k t t' _ Ht. apply orel_for_same; [exact Ht|]. intros j u u' _ Hu. apply mask_hole_twin, Hu.
      - intros [sd m] [sd' m'] (E & M' & EN). cbn in E, M', EN. subst sd'. cbn. split; [constructor; auto|]. split; do 2 eexists; (split; [reflexivity|]); [exact EN|rewrite (mt_nN _ _ _ _ M'), (mt_nN _ _ _ _ M); exact EN].
    Qed.
    Lemma mask_points_only_twin s s' ps : ls_core R Q s s' ->
      orel (fun r r' => ls_core R Q r r' /\ only_field s r /\ only_field s' r') (mask_points_only s ps) (mask_points_only s' ps).
    Proof.
      intros [M Esd Et E1 E2 E3]. unfold mask_points_only. rewrite Esd, (mt_nN _ _ _ _ M). eapply orel_bind with (R := field_twin (m_nNodes (ls_mesh s))).
      - apply orel_for_same; [split; [reflexivity|]; split; [exact M|reflexivity]|]. intros k t t' _ Ht.
        destruct ps as [|a [|b [|]]]; first [apply mask_rect_twin, Ht|apply mask_poly_twin, Ht].
      - intros [sd m] [sd' m'] (E & M' & EN). cbn in E, M', EN. subst sd'. cbn. split; [constructor; auto|]. split; do 2 eexists; (split; [reflexivity|]); [exact EN|rewrite (mt_nN _ _ _ _ M'), (mt_nN _ _ _ _ M); exact EN].
    Qed.

    Lemma update_step_twin N s s' dt i a a' : band_eq s s' -> ls_vel s' = ls_vel s -> ls_grad s' = ls_grad s -> i < ls_nBand s ->
      field_twin N a a' -> orel (field_twin N) (update_step s dt i a) (update_step s' dt i a').
    Proof.
      intros B Ev Eg Hi. destruct a as [sd m], a' as [sd' m']. intros (E & M & EN). cbn in E, M, EN. subst sd'. unfold update_step.
      rewrite (take_vget _ _ _ i (be_band _ _ B) Hi), Ev, Eg. ob. ob. ob. ob. ob.
      eapply orel_bind; [apply orel_vget, (mt_nodes _ _ _ _ M)|]. intros n n' Hn. apply (g_base _ G) in Hn. rewrite (nb_domain _ _ Hn). ob.
      eapply orel_bind; [apply node_mod_good; [exact M|apply (g_clear _ G)]|]. intros x x' [Hx Nx]. split; [reflexivity|]. split; [exact Hx|cbn; congruence].
    Qed.
    Lemma mine_hit_twin sd l l' k : take k l = take k l' -> forall n i, i + n = k -> mine_hit sd l i n = mine_hit sd l' i n.
    Proof.
      intros E. induction n as [|n IH]; intros i Hi; [reflexivity|]. cbn [mine_hit]. rewrite (take_vget k l l' i E) by lia.
      apply obind_ext; intros ? _. apply obind_ext; intros ? _. destruct (_ <? _)%num; [reflexivity|]. apply IH. lia.
    Qed.
    (** The level set after the motion, and whether a mine was hit. *)
    Definition move (s : LevelSet T) (dt : T) : outcome (LevelSet T * bool) :=
      let! (sd, m) := for_ (ls_nBand s) (update_step s dt) (ls_sd s, ls_mesh s) in
      let! hit := mine_hit sd (ls_mines s) 0 (ls_nMines s) in Ok (set_mesh m (set_sd sd s), hit).
    Lemma update_move s dt : update s dt = let! (s, hit) := move s dt in if hit : bool then let! s := reinitialise s in Ok (s, true) else Ok (s, false).
    Proof.
      unfold update, move. destruct (for_ _ _ _) as [[sd m]| | |]; cbn [obind]; try reflexivity.
      change (ls_sd (set_mesh m (set_sd sd s))) with sd. change (ls_mines (set_mesh m (set_sd sd s))) with (ls_mines s).
      change (ls_nMines (set_mesh m (set_sd sd s))) with (ls_nMines s). destruct (mine_hit _ _ _ _) as [b| | |]; reflexivity.
    Qed.
    Lemma move_twin s s' dt : ls_core R Q s s' -> band_eq s s' -> ls_vel s' = ls_vel s -> ls_grad s' = ls_grad s ->
      orel (fun r r' => snd r' = snd r /\ ls_core R Q (fst r) (fst r') /\ only_field s (fst r) /\ only_field s' (fst r')) (move s dt) (move s' dt).
    Proof.
      intros [M Esd Et E1 E2 E3] B Ev Eg. unfold move. rewrite Esd, (be_nb _ _ B), (be_nm _ _ B). eapply orel_bind with (R := field_twin (m_nNodes (ls_mesh s))).
      - apply orel_for_same; [split; [reflexivity|]; split; [exact M|reflexivity]|]. intros k t t' Hk Ht. apply update_step_twin; auto.
      - intros [sd m] [sd' m'] (E & M' & EN). cbn in E, M', EN. subst sd'. rewrite (mine_hit_twin sd _ _ _ (be_mines _ _ B)) by lia. ob.
        cbn. split; [reflexivity|]. split; [constructor; auto|]. split; do 2 eexists; (split; [reflexivity|]); [exact EN|rewrite (mt_nN _ _ _ _ M'), (mt_nN _ _ _ _ M); exact EN].
    Qed.

    (** ** Velocities and gradients *)
    Lemma vel_contrib_twin m m' p lim node st : mesh_twin R Q m m' -> vel_contrib m p lim node st = vel_contrib m' p lim node st.
    Proof.
      intros M. apply orel_eq. unfold vel_contrib. destruct st as [[vel weight] isSet]. eapply orel_bind; [apply orel_vget, (mt_nodes _ _ _ _ M)|].
      intros n n' Hn. apply (g_base _ G) in Hn. rewrite (nb_coord _ _ Hn). apply orel_refl.
    Qed.
    Lemma vel_point_twin m m' ps i st : mesh_twin R Q m m' -> vel_point m ps i st = vel_point m' ps i st.
    Proof.
      intros M. apply orel_eq. unfold vel_point. ob. rewrite (closest_twin R Q m m' _ _ M GQ). ob. rewrite (vel_contrib_twin m m' _ _ _ _ M). ob.
      apply orel_for_same; [reflexivity|]. intros j t ? _ <-. rewrite (neigh_twin R Q m m'); [|intros n n' Hn; apply (g_base _ G _ _ Hn)|exact M]. ob.
      rewrite (mt_nN _ _ _ _ M), (vel_contrib_twin m m' _ _ _ _ M). apply orel_refl.
    Qed.
    Lemma velocities_twin s s' ps : ls_core R Q s s' -> band_eq s s' -> ls_ok W H s -> ls_ok W H s' ->
      (forall i, is_active (ls_mesh s') i = is_active (ls_mesh s) i) ->
      orel (fun r r' => ls_core R Q r r' /\ band_eq r r' /\ ls_vel r' = ls_vel r /\ ls_grad r = ls_grad s /\ ls_grad r' = ls_grad s')
        (computeVelocities s ps) (computeVelocities s' ps).
    Proof.
      intros [M Esd Et E1 E2 E3] B Ho Ho' Ha. unfold computeVelocities, initialiseVelocities. rewrite (mt_nN _ _ _ _ M).
      set (N := m_nNodes (ls_mesh s)). assert (HN : N = node_count W H) by apply (tp_nN _ _ _ (ok_topo _ _ _ Ho)).
      eapply orel_bind with (R := eq).
      - eapply orel_bind with (R := eq).
        + eapply orel_impl with (R := fun v v' => prefix_eq N v v' /\ length v = N).
          * apply (orel_for (fun k v v' => prefix_eq k v v' /\ length v = N)).
            -- pose proof (ok_vel _ _ _ Ho). pose proof (ok_vel _ _ _ Ho'). split; [split; [congruence|rewrite !take_0; reflexivity]|congruence].
            -- intros k v v' Hk [P L]. pose proof (prefix_vset k v v' n0 P) as X. unfold vset in *.
               destruct (v !! k), (v' !! k); cbn in *; try contradiction; auto. rewrite insert_length. replace (S k) with (k + 1) by lia. auto.
          * intros v v' [[L E] LN]. rewrite !take_ge in E by congruence || lia. exact E.
        + intros vel ? <-. eapply orel_bind with (R := eq).
          * apply orel_for_same; [reflexivity|]. intros i t ? _ <-. rewrite (vel_point_twin _ _ ps i t M). apply orel_refl.
          * intros [[v w] b] ? <-. rewrite (be_nb _ _ B). apply orel_for_same; [reflexivity|]. intros i t ? Hi <-.
            unfold vel_normalise. rewrite (take_vget _ _ _ i (be_band _ _ B) Hi). apply orel_refl.
      - intros vel ? <-. rewrite Esd, (march_vel_twin R Q _ _ _ _ G M Ha). eapply orel_bind; [apply orel_refl|]. intros [[f sd] v] ? <-.
        cbn. split; [constructor; auto|]. split; [destruct B; constructor; auto|]. auto.
    Qed.
    Lemma velocities_noise_twin s s' ps dt temp rng : ls_core R Q s s' -> band_eq s s' -> ls_ok W H s -> ls_ok W H s' ->
      (forall i, is_active (ls_mesh s') i = is_active (ls_mesh s) i) ->
      orel (fun r r' : LevelSet T * list (BoundaryPoint T) * T * T => snd r' = snd r /\ snd (fst r') = snd (fst r) /\ snd (fst (fst r')) = snd (fst (fst r)) /\
        let r := fst (fst (fst r)) in let r' := fst (fst (fst r')) in
        ls_core R Q r r' /\ band_eq r r' /\ ls_vel r' = ls_vel r /\ ls_grad r = ls_grad s /\ ls_grad r' = ls_grad s')
        (computeVelocities_noise s ps dt temp rng) (computeVelocities_noise s' ps dt temp rng).
    Proof.
      intros C B Ho Ho' Ha. unfold computeVelocities_noise. rewrite (lc_ml _ _ _ _ C). match goal with |- context [match ?x with pair _ _ => _ end] => destruct x as [dt2 sc] end.
      eapply orel_bind; [apply velocities_twin; eassumption|]. intros r r' X. cbn. auto.
    Qed.

    Lemma sd_at_good m m' sd x y : mesh_twin R Q m m' -> sd_at m' sd x y = sd_at m sd x y.
    Proof. intros M. symmetry. apply (sd_at_twin R Q), M. Qed.
    Lemma gradient_twin m m' sd vel node : mesh_twin R Q m m' -> computeGradient m sd vel node = computeGradient m' sd vel node.
    Proof.
      intros M. apply orel_eq. unfold computeGradient. eapply orel_bind; [apply orel_vget, (mt_nodes _ _ _ _ M)|].
      intros n n' Hn. apply (g_base _ G) in Hn. rewrite (nb_coord _ _ Hn). ob. rename a into x. ob. rename a into y. ob. rename a into lsf.
      assert (CG : forall a b c d, corner_gradient m' sd lsf a b c d = corner_gradient m sd lsf a b c d).
      { intros. unfold corner_gradient. rewrite !(sd_at_good m m' _ _ _ M). reflexivity. }
      rewrite !CG, (mt_width _ _ _ _ M), (mt_height _ _ _ _ M). ob. destruct a; [apply orel_refl|]. ob.
      assert (SF : forall (g g' : nat -> outcome T) n p, (forall k, g' k = g k) -> stencil_forward g' n p = stencil_forward g n p /\ stencil_backward g' n p = stencil_backward g n p).
      { intros g g' k p E. unfold stencil_forward, stencil_backward. rewrite !E. split; reflexivity. }
      destruct (SF (fun k => sd_at m sd k y) (fun k => sd_at m' sd k y) (m_width m) x ltac:(intros; apply sd_at_good, M)) as [-> ->].
      destruct (SF (fun k => sd_at m sd x k) (fun k => sd_at m' sd x k) (m_height m) y ltac:(intros; apply sd_at_good, M)) as [-> ->].
      apply orel_refl.
    Qed.
    Lemma gradients_twin s s' : ls_core R Q s s' -> band_eq s s' -> ls_ok W H s -> ls_ok W H s' -> ls_vel s' = ls_vel s ->
      orel (fun r r' => ls_core R Q r r' /\ band_eq r r' /\ ls_vel r' = ls_vel r /\ ls_grad r' = ls_grad r) (computeGradients s) (computeGradients s').
    Proof.
      intros [M Esd Et E1 E2 E3] B Ho Ho' Ev. unfold computeGradients. rewrite Esd, Ev, (be_nb _ _ B), (ok_grad _ _ _ Ho), (ok_grad _ _ _ Ho').
      eapply orel_bind with (R := eq).
      - apply orel_for_same; [reflexivity|]. intros i t ? Hi <-. rewrite (take_vget _ _ _ i (be_band _ _ B) Hi). ob. rewrite (gradient_twin _ _ _ _ _ M). apply orel_refl.
      - intros g ? <-. cbn. split; [constructor; auto|]. split; [destruct B; constructor; auto|]. auto.
    Qed.

    Lemma only_roomy s s' r r' : roomy s s' -> only_field s r -> only_field s' r' -> roomy r r'.
    Proof. intros (A & B & C & D) (sd & m & -> & E) (sd' & m' & -> & _). unfold roomy. cbn. rewrite E. auto. Qed.
    Lemma only_vel s s' r r' : only_field s r -> only_field s' r' -> keeps_vel s s' r r'.
    Proof. intros (sd & m & -> & E) (sd' & m' & -> & _). repeat split. Qed.
    Lemma only_band s s' r r' : band_eq s s' -> only_field s r -> only_field s' r' -> band_eq r r'.
    Proof. intros [] (sd & m & -> & E) (sd' & m' & -> & _). constructor; auto. Qed.

    (** ** The calls that reinitialise *)
    Definition linked_by (s s' r r' : LevelSet T) : Prop := ls_core R Q r r' /\ band_eq r r' /\ keeps_vel s s' r r'.
    Lemma keeps_trans s s' r r' t t' : keeps_vel s s' r r' -> keeps_vel r r' t t' -> keeps_vel s s' t t'.
    Proof. unfold keeps_vel. intros (A & B & C & D) (A' & B' & C' & D'). repeat split; congruence. Qed.
    Lemma mask_holes_twin s s' holes : ls_core R Q s s' -> roomy s s' -> orel (linked_by s s') (mask_holes s holes) (mask_holes s' holes).
    Proof.
      intros C HR. unfold mask_holes. eapply orel_bind; [apply mask_holes_only_twin, C|]. intros r r' (C1 & O1 & O2).
      eapply orel_impl; [apply reinit_twin; [exact C1|eapply only_roomy; eauto]|]. intros t t' (A & B & D). split; [exact A|]. split; [exact B|].
      eapply keeps_trans; [apply only_vel; eassumption|exact D].
    Qed.
    Lemma mask_points_twin s s' ps : ls_core R Q s s' -> roomy s s' -> orel (linked_by s s') (mask_points s ps) (mask_points s' ps).
    Proof.
      intros C HR. unfold mask_points. eapply orel_bind; [apply mask_points_only_twin, C|]. intros r r' (C1 & O1 & O2).
      eapply orel_impl; [apply reinit_twin; [exact C1|eapply only_roomy; eauto]|]. intros t t' (A & B & D). split; [exact A|]. split; [exact B|].
      eapply keeps_trans; [apply only_vel; eassumption|exact D].
    Qed.
    Lemma update_twin s s' dt : ls_core R Q s s' -> roomy s s' -> band_eq s s' -> ls_vel s' = ls_vel s -> ls_grad s' = ls_grad s ->
      orel (fun r r' => snd r' = snd r /\ linked_by s s' (fst r) (fst r')) (update s dt) (update s' dt).
    Proof.
      intros C HR B Ev Eg. rewrite !update_move. eapply orel_bind; [apply move_twin; eassumption|]. intros [r hit] [r' hit'] (E & C1 & O1 & O2). cbn in E, C1, O1, O2. subst hit'.
      destruct hit.
      - eapply orel_bind; [apply reinit_twin; [exact C1|eapply only_roomy; eauto]|]. intros t t' (A & B' & D). cbn. split; [reflexivity|]. split; [exact A|]. split; [exact B'|].
        eapply keeps_trans; [apply only_vel; eassumption|exact D].
      - cbn. split; [reflexivity|]. split; [exact C1|]. split; [eapply only_band; eauto|apply only_vel; assumption].
    Qed.
  End calls.
End twin.
