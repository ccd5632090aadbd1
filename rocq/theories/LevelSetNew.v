(** * LevelSetNew: what the constructors leave (C56). *)

From Verif Require Import MeshModel MeshSpec MeshProofs MeshTopo FmmModel FmmSpec FmmFacts FmmSame NumInt LevelSetModel LevelSetSpec LevelSetCalls
  LevelSetBand LevelSetOps LevelSetInit LevelSetHist LevelSetParams.
Local Open Scope nat_scope.

Section new.
  Context {T : Type} {NT : Num T} {NI : NumInt T}.

  Lemma spec_topo W H bw : fits_ls W H bw -> topo W H (mesh_spec (T := T) W H).
  Proof. intros Hf. apply topo_new with (m := mesh_spec W H); [exact (fits_mesh W H bw Hf)|apply mesh_new_eq, (fits_mesh W H bw Hf)]. Qed.

  (** ** Initialisations that depend on the size of the mesh only *)
  Definition fixed_init (f : Mesh T -> list T -> outcome (list T)) : Prop :=
    (forall m sd sd', f m sd = Ok sd' -> length sd' = length sd) /\
    forall W H m m' sd sd', topo W H m -> topo W H m' -> length sd = node_count W H -> length sd' = node_count W H -> f m' sd' = f m sd.
  Lemma holes_fixed holes : fixed_init (fun m => init_holes m holes).
  Proof.
    split; [intros m; apply init_holes_len|]. intros W H m m' sd sd' Ht Ht' L L'.
    rewrite (init_holes_spec W H m holes sd Ht L), (init_holes_spec W H m' holes sd' Ht' L'). reflexivity.
  Qed.
  Lemma points_fixed ps : fixed_init (fun m => init_points m ps).
  Proof.
    split; [intros m; apply init_points_len|]. intros W H m m' sd sd' Ht Ht' L L'. unfold init_points.
    rewrite (closest_spec W H m sd Ht L), (closest_spec W H m' sd' Ht' L'). cbn [obind]. rewrite (topo_count W H m m' Ht Ht').
    apply for_ext. intros i st _. unfold points_node. pose proof (topo_twin W H m m' Ht Ht' i) as Hl.
    match goal with |- obind ?x _ = obind ?y _ => assert (E : x = y) end.
    { unfold for_edges. destruct ps as [|p ps']; [reflexivity|]. apply for_ext. intros j s' _. apply obind_ext; intros a _. apply obind_ext; intros b _.
      unfold vget at 1 3. destruct (m_nodes m !! i), (m_nodes m' !! i); try contradiction; cbn [obind]; [|reflexivity]. destruct Hl as [-> _]. reflexivity. }
    rewrite E. apply obind_ext; intros st' _.
    unfold vget at 1 3. destruct (m_nodes m !! i), (m_nodes m' !! i); try contradiction; cbn [obind]; [|reflexivity]. destruct Hl as [-> _]. reflexivity.
  Qed.

  (** ** No node is masked *)
  Definition unmasked (s : LevelSet T) : Prop := forall i, ~ masked s i.
  Lemma band_unmasked W H (s s' : LevelSet T) : ls_ok W H s -> initialiseNarrowBand s = Ok s' -> unmasked s -> unmasked s'.
  Proof.
    intros Hok E U i (n' & En' & M). destruct (band_ok_spec W H s Hok) as (s1 & E1 & Hok1 & _ & _ & _ & _ & _ & _ & _ & _ & _ & _ & Hnd & _).
    assert (s1 = s') by congruence. subst s1.
    destruct (lookup_lt_is_Some_2 (m_nodes (ls_mesh s)) i) as [n En].
    { rewrite (tp_lenN _ _ _ (ok_topo _ _ _ Hok)), <- (tp_lenN _ _ _ (ok_topo _ _ _ Hok1)). eapply lookup_lt_Some, En'. }
    destruct (Hnd i n En) as (n1 & En1 & Sb & _). assert (n1 = n') by congruence. subst n1. apply (U i). exists n. split; [exact En|].
    unfold same_but_band in Sb. rewrite Sb in M. exact M.
  Qed.
  Lemma alloc_unmasked W H ml bw fx tg s : fits_ls W H bw -> ls_alloc W H ml bw fx tg = Ok s -> unmasked s.
  Proof.
    intros Hf E. assert (HV : valid_params ml bw \/ ~ valid_params ml bw).
    { unfold valid_params. destruct (n0 <? ml)%num, (ml <? n1)%num; destruct (Nat.lt_ge_cases 2 bw); intuition (try lia; try discriminate). }
    destruct HV as [HV|HV]; [|rewrite (proj2 (alloc_spec W H ml bw fx tg Hf) HV) in E; discriminate].
    destruct (proj1 (alloc_spec W H ml bw fx tg Hf) HV) as (s0 & E0 & _ & Em & _). assert (s0 = s) by congruence. subst s0.
    intros i (n & En & M). rewrite Em in En. unfold mesh_spec in En. cbn [m_nodes] in En. unfold tab in En. apply elem_of_list_lookup_2, elem_of_list_fmap in En as (k & -> & _).
    discriminate M.
  Qed.
  Lemma reinit_unmasked W H (s s' : LevelSet T) : ls_ok W H s -> reinitialise s = Ok s' -> unmasked s -> unmasked s'.
  Proof.
    intros Hok E U. unfold reinitialise in E. destruct (fmm_march _ _ _) as [[o sd]| | |] eqn:Em; try discriminate. cbn [obind] in E.
    assert (L : length sd = node_count W H).
    { pose proof (march_safe W H (ls_mesh s) (ok_topo _ _ _ Hok) (fmm_new (ls_mesh s) false) (ls_sd s)
        (fobj_new W H _ (ok_topo _ _ _ Hok) false) (ok_sd _ _ _ Hok) ltac:(discriminate)) as HM.
      rewrite Em in HM. apply HM. }
    apply (band_unmasked W H (set_sd sd s) s' (ok_set_sd _ _ _ _ Hok L) E). exact U.
  Qed.

  Lemma new_unmasked f W H ml bw fx s : fits_ls W H bw -> (forall m sd sd', f m sd = Ok sd' -> length sd' = length sd) -> ls_new f W H ml bw fx = Ok s -> unmasked s.
  Proof.
    intros Hf Hlen. unfold ls_new. destruct (ls_alloc W H ml bw fx false) as [s0| | |] eqn:E0; cbn [obind]; try discriminate.
    pose proof (alloc_init _ _ _ _ _ _ _ Hf E0) as Hs0. unfold init_sd. destruct (f (ls_mesh s0) (ls_sd s0)) as [sd| | |] eqn:Ef; cbn [obind]; try discriminate.
    intros E. apply (band_unmasked W H (set_sd sd s0) s); [|exact E|exact (alloc_unmasked _ _ _ _ _ _ _ Hf E0)].
    apply ok_set_sd; [exact Hs0|]. rewrite (Hlen _ _ _ Ef). apply Hs0.
  Qed.

  (** ** Constructors with a target *)
  Definition pair_of (s : LevelSet T) (a b : outcome (LevelSet T)) : Prop :=
    exists s1 s2 s3, a = Ok s1 /\ b = Ok s2 /\ reinitialise s2 = Ok s3 /\
      ls_target s = ls_sd s3 /\ ls_sd s = ls_sd s1 /\ (forall i, i ∈ band_list s <-> i ∈ band_list s1) /\ (forall i, i ∈ mine_list s <-> i ∈ mine_list s1).

  Lemma movable_nodes W H (s s1 : LevelSet T) : topo W H (ls_mesh s) -> topo W H (ls_mesh s1) -> unmasked s -> unmasked s1 -> ls_fixed s = ls_fixed s1 ->
    forall i, movable s i -> movable s1 i.
  Proof.
    intros Ht Ht1 U U1 F i (n & En & M & D).
    destruct (lookup_lt_is_Some_2 (m_nodes (ls_mesh s1)) i) as [n1 En1].
    { rewrite (tp_lenN _ _ _ Ht1), <- (tp_lenN _ _ _ Ht). eapply lookup_lt_Some, En. }
    exists n1. split; [exact En1|]. split.
    - destruct (nd_masked n1) eqn:M1; [|reflexivity]. exfalso. apply (U1 i). exists n1. auto.
    - destruct (tp_node _ _ _ Ht i n En) as (_ & _ & _ & _ & D0). destruct (tp_node _ _ _ Ht1 i n1 En1) as (_ & _ & _ & _ & D1). rewrite <- F. rewrite D1, <- D0. exact D.
  Qed.

  Lemma new_target_pair f g W H ml bw fx s : fits_ls W H bw -> fixed_init f -> fixed_init g -> ls_new_target f g W H ml bw fx = Ok s ->
    unmasked s /\ pair_of s (ls_new f W H ml bw fx) (ls_new g W H ml bw fx).
  Proof.
    intros Hf [Lf Ff] [Lg Fg] E. pose proof (spec_topo W H bw Hf) as Hts. set (z := replicate (node_count W H) (n0 (T := T))).
    assert (Lz : length z = node_count W H) by apply replicate_length.
    destruct (new_target_ok f g W H ml bw fx s Hf Lf Lg E) as (HV & Hok & Hb & sd0 & sd1 & o & mf & Eg & Em & Et & Es & Htf).
    assert (L0 : length sd0 = node_count W H) by (rewrite (Lg _ _ _ Eg); exact Lz).
    assert (L1 : length sd1 = node_count W H).
    { pose proof (march_safe W H _ Hts (fmm_new (mesh_spec W H) false) sd0 (fobj_new W H _ Hts false) L0 ltac:(discriminate)) as HM. rewrite Em in HM. apply HM. }
    assert (Ef : f (mesh_spec W H) z = Ok (ls_sd s)) by (rewrite <- Es; apply (Ff W H); assumption).
    destruct (new_ok f W H ml bw fx (ls_sd s) Hf HV Ef (ok_sd _ _ _ Hok)) as (s1 & E1 & Hok1 & Hb1 & D1 & _ & B1 & F1 & _).
    destruct (new_ok g W H ml bw fx sd0 Hf HV Eg L0) as (s2 & E2 & Hok2 & Hb2 & D2 & _).
    destruct (reinit_spec W H s2 Hok2) as (R1 & R2 & R3).
    assert (Em2 : fmm_march (ls_mesh s2) (fmm_new (ls_mesh s2) false) (ls_sd s2) = Ok (o, sd1)).
    { rewrite (march_same W H (mesh_spec W H) (ls_mesh s2) Hts (ok_topo _ _ _ Hok2)), D2. exact Em. }
    assert (E3 : exists s3, reinitialise s2 = Ok s3).
    { unfold reinitialise. rewrite Em2. cbn [obind]. destruct (band_ok_spec W H (set_sd sd1 s2)) as (s3 & E3 & _); [apply ok_set_sd; assumption|eauto]. }
    destruct E3 as [s3 E3]. destruct (R2 s3 E3) as (_ & _ & _ & o' & Em3).
    (* the mask *)
    assert (U : unmasked s).
    { unfold ls_new_target in E. destruct (ls_alloc W H ml bw fx true) as [sa| | |] eqn:E0; try discriminate. cbn [obind] in E.
      pose proof (alloc_init _ _ _ _ _ _ _ Hf E0) as Hsa. unfold init_sd in E at 1.
      destruct (g (ls_mesh sa) (ls_sd sa)) as [sb| | |] eqn:Egb; try discriminate. cbn [obind] in E.
      assert (Hsb : ls_ok W H (set_sd sb sa)) by (apply ok_set_sd; [exact Hsa|rewrite (Lg _ _ _ Egb); apply Hsa]).
      destruct (reinitialise (set_sd sb sa)) as [sc| | |] eqn:Er; try discriminate. cbn [obind] in E.
      pose proof (reinit_unmasked W H _ _ Hsb Er (alloc_unmasked _ _ _ _ _ _ _ Hf E0)) as Uc.
      destruct (reinit_spec W H _ Hsb) as (_ & Rc & _). destruct (Rc sc Er) as (Hsc & _).
      unfold init_sd in E. change (ls_mesh (set_target (ls_sd sc) sc)) with (ls_mesh sc) in E. change (ls_sd (set_target (ls_sd sc) sc)) with (ls_sd sc) in E.
      destruct (f (ls_mesh sc) (ls_sd sc)) as [sd2| | |] eqn:Ef2; try discriminate. cbn [obind] in E.
      apply (band_unmasked W H (set_sd sd2 (set_target (ls_sd sc) sc)) s); [|exact E|exact Uc].
      pose proof (Lf _ _ _ Ef2) as L2. rewrite (ok_sd _ _ _ Hsc) in L2. destruct Hsc. constructor; cbn; auto. }
    split; [exact U|]. exists s1, s2, s3. split; [exact E1|]. split; [exact E2|]. split; [exact E3|].
    split; [rewrite Et; congruence|]. split; [symmetry; exact D1|].
    assert (U1 : unmasked s1) by exact (new_unmasked f W H ml bw fx s1 Hf Lf E1).
    destruct (new_target_settings f g W H ml bw fx s E) as [Se _]. unfold settings in Se. injection Se as _ Bs Fs.
    assert (Eqb : forall i, in_band s i <-> in_band s1 i).
    { intros i. unfold in_band. rewrite D1, B1, Bs. split; intros [M X]; (split; [|exact X]).
      - apply (movable_nodes W H s s1 (ok_topo _ _ _ Hok) (ok_topo _ _ _ Hok1) U U1 ltac:(congruence) i M).
      - apply (movable_nodes W H s1 s (ok_topo _ _ _ Hok1) (ok_topo _ _ _ Hok) U1 U ltac:(congruence) i M). }
    split; intros i.
    - rewrite (bo_band _ Hb), (bo_band _ Hb1). apply Eqb.
    - rewrite (bo_mine _ Hb), (bo_mine _ Hb1). unfold near_edge. rewrite (Eqb i), D1, B1, Bs. reflexivity.
  Qed.

  Lemma all_unmasked W H ml bw fx s : fits_ls W H bw -> constructed W H ml bw fx s -> unmasked s.
  Proof.
    intros Hf [E|holes E|ps E|h1 h2 E|h1 p2 E|p1 p2 E].
    - apply (new_unmasked init_swiss W H ml bw fx s Hf); [|exact E].
      intros m sd sd'. unfold init_swiss. destruct (swiss_holes m); cbn [obind]; try discriminate. apply init_holes_len.
    - exact (new_unmasked _ W H ml bw fx s Hf (proj1 (holes_fixed holes)) E).
    - exact (new_unmasked _ W H ml bw fx s Hf (proj1 (points_fixed ps)) E).
    - exact (proj1 (new_target_pair _ _ W H ml bw fx s Hf (holes_fixed h1) (holes_fixed h2) E)).
    - exact (proj1 (new_target_pair _ _ W H ml bw fx s Hf (holes_fixed h1) (points_fixed p2) E)).
    - exact (proj1 (new_target_pair _ _ W H ml bw fx s Hf (points_fixed p1) (points_fixed p2) E)).
  Qed.
  Lemma all_targets W H ml bw fx : fits_ls W H bw ->
    (forall h1 h2 s, ls_new_holes_holes W H h1 h2 ml bw fx = Ok s -> pair_of s (ls_new_holes W H h1 ml bw fx) (ls_new_holes W H h2 ml bw fx)) /\
    (forall h1 p2 s, ls_new_holes_points W H h1 p2 ml bw fx = Ok s -> pair_of s (ls_new_holes W H h1 ml bw fx) (ls_new_points W H p2 ml bw fx)) /\
    (forall p1 p2 s, ls_new_points_points W H p1 p2 ml bw fx = Ok s -> pair_of s (ls_new_points W H p1 ml bw fx) (ls_new_points W H p2 ml bw fx)).
  Proof.
    intros Hf. split; [|split]; intros a b s E;
      first [exact (proj2 (new_target_pair _ _ W H ml bw fx s Hf (holes_fixed a) (holes_fixed b) E))
            |exact (proj2 (new_target_pair _ _ W H ml bw fx s Hf (holes_fixed a) (points_fixed b) E))
            |exact (proj2 (new_target_pair _ _ W H ml bw fx s Hf (points_fixed a) (points_fixed b) E))].
  Qed.
End new.
