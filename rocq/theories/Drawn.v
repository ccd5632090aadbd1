(** * Drawn: areas describe the contour last discretised (C82). *)

From Verif Require Import Base Num NumInt MeshModel MeshSpec MeshProofs MeshTopo FmmModel LevelSetModel LevelSetSpec LevelSetCalls LevelSetInit LevelSetHist BoundaryModel Twin DrawnSpec.

Lemma for_keeps {S} (I : S -> Prop) n f : (forall i s s', f i s = Ok s' -> I s -> I s') -> forall s s' : S, for_ n f s = Ok s' -> I s -> I s'.
Proof.
  intros Hf. unfold for_. generalize 0. induction n as [|n IH]; intros k s s' E Hs; cbn [for_from] in E; [injection E as <-; exact Hs|].
  destruct (f k s) as [t| | |] eqn:Et; try discriminate. cbn [obind] in E. exact (IH _ _ _ E (Hf _ _ _ Et Hs)).
Qed.

Section drawn.
  Context {T : Type} {NT : Num T}.
  Record ndrawn (n n' : Node T) : Prop := { dn_coord : nd_coord n' = nd_coord n; dn_status : nd_status n' = nd_status n }.
  Record edrawn (e e' : Element T) : Prop := { de_coord : e_coord e' = e_coord e; de_nodes : e_nodes e' = e_nodes e; de_status : e_status e' = e_status e;
    de_count : e_nSegs e' = e_nSegs e; de_segs : e_segs e' = e_segs e }.
  Definition drawn : Mesh T -> Mesh T -> Prop := mesh_twin ndrawn edrawn.
  Lemma ndrawn_refl n : ndrawn n n. Proof. split; reflexivity. Qed.
  Lemma edrawn_refl e : edrawn e e. Proof. split; reflexivity. Qed.
  Lemma ndrawn_trans a b c : ndrawn a b -> ndrawn b c -> ndrawn a c. Proof. intros [] []. split; congruence. Qed.
  Lemma edrawn_trans a b c : edrawn a b -> edrawn b c -> edrawn a c. Proof. intros [] []. split; congruence. Qed.
  Lemma drawn_refl m : drawn m m.
  Proof. constructor; try reflexivity; (apply Forall2_same_length_lookup_2; [reflexivity|]); intros i x y E E'; rewrite E in E'; injection E' as <-; [apply ndrawn_refl|apply edrawn_refl]. Qed.
  Lemma drawn_trans a b c : drawn a b -> drawn b c -> drawn a c.
  Proof.
    intros [A1 A2 A3 A4 A5 A6 A7] [B1 B2 B3 B4 B5 B6 B7]. constructor; try congruence.
    - eapply Forall2_transitive; [|exact A1|exact B1]. intros x y z. apply ndrawn_trans.
    - eapply Forall2_transitive; [|exact A2|exact B2]. intros x y z. apply edrawn_trans.
  Qed.
  Lemma set_mod {A} (R : A -> A -> Prop) (l l' : list A) i f : (forall x, R x x) -> (forall x, R x (f x)) -> vmod l i f = Ok l' -> Forall2 R l l'.
  Proof.
    intros Hr Hf E. unfold vmod in E. destruct (l !! i) as [a|] eqn:Ea; [|discriminate]. injection E as <-. apply Forall2_same_length_lookup_2; [rewrite insert_length; reflexivity|].
    intros k x y Ex Ey. apply list_lookup_insert_Some in Ey as [(<- & <- & _)|(_ & Ey)]; [rewrite Ea in Ex; injection Ex as <-; apply Hf|]. rewrite Ex in Ey. injection Ey as <-. apply Hr.
  Qed.
  Lemma node_mod_drawn i f m m' : (forall n, ndrawn n (f n)) -> node_mod i f m = Ok m' -> drawn m m'.
  Proof.
    intros Hf E. unfold node_mod in E. destruct (vmod (m_nodes m) i f) as [ns| | |] eqn:En; try discriminate. injection E as <-. pose proof (drawn_refl m) as [A1 A2 A3 A4 A5 A6 A7].
    constructor; auto. exact (set_mod ndrawn _ _ _ _ ndrawn_refl Hf En).
  Qed.
  Lemma elem_mod_drawn i f m m' : (forall n, edrawn n (f n)) -> elem_mod i f m = Ok m' -> drawn m m'.
  Proof.
    intros Hf E. unfold elem_mod in E. destruct (vmod (m_elements m) i f) as [ns| | |] eqn:En; try discriminate. injection E as <-. pose proof (drawn_refl m) as [A1 A2 A3 A4 A5 A6 A7].
    constructor; auto. exact (set_mod edrawn _ _ _ _ edrawn_refl Hf En).
  Qed.
  Ltac nm := match goal with E : node_mod _ _ ?m = Ok ?m' |- _ => assert (drawn m m') by (eapply node_mod_drawn; [|exact E]; intros []; split; reflexivity); clear E end.
  Ltac ob E := match type of E with (obind ?o _ = _) => let X := fresh "X" in destruct o as [?| | |] eqn:X; try discriminate E; cbn [obind] in E end.

  Lemma band_drawn s s' : initialiseNarrowBand s = Ok s' -> drawn (ls_mesh s) (ls_mesh s').
  Proof.
    unfold initialiseNarrowBand. intros E. destruct (for_ _ _ _) as [[[[[m b] nb] mi] nm]| | |] eqn:Ef; try discriminate. injection E as <-. cbn.
    refine (for_keeps (fun st : Band => drawn (ls_mesh s) (fst (fst (fst (fst st))))) _ _ _ _ _ Ef (drawn_refl _)). clear.
    intros i [[[[m b] nb] mi] nmi] s' E D. cbn in *. unfold band_step in E. ob E. ob E. nm. assert (D0 := drawn_trans _ _ _ D H). clear D H.
    destruct (_ && _); [|injection E as <-; exact D0]. ob E. destruct (_ <? _)%num; [|injection E as <-; exact D0]. ob E. nm. assert (D1 := drawn_trans _ _ _ D0 H). ob E.
    destruct (_ >? _)%num; [|injection E as <-; exact D1]. ob E. nm. assert (D2 := drawn_trans _ _ _ D1 H0). ob E. injection E as <-. exact D2.
  Qed.
  Lemma reinit_drawn s s' : reinitialise s = Ok s' -> drawn (ls_mesh s) (ls_mesh s').
  Proof. unfold reinitialise. intros E. destruct (fmm_march _ _ _) as [[o sd]| | |]; try discriminate. cbn [obind] in E. exact (band_drawn _ _ E). Qed.
  Lemma mask_drawn i st st' : mask_node i st = Ok st' -> drawn (snd st) (snd st').
  Proof. destruct st as [sd m]. unfold mask_node. intros E. ob E. ob E. injection E as <-. nm. exact H. Qed.
  Lemma mask_holes_drawn s h s' : mask_holes s h = Ok s' -> drawn (ls_mesh s) (ls_mesh s').
  Proof.
    unfold mask_holes, mask_holes_only. intros E. destruct (for_ _ _ _) as [[sd m]| | |] eqn:Ef; try discriminate. cbn [obind] in E. apply reinit_drawn in E. cbn in E.
    refine (drawn_trans _ m _ _ E). refine (for_keeps (fun st => drawn (ls_mesh s) (snd st)) _ _ _ _ _ Ef (drawn_refl _)). intros i st st' Es D0.
    refine (for_keeps (fun st => drawn (ls_mesh s) (snd st)) _ _ _ _ _ Es D0). clear. intros j st st' E D. unfold mask_hole_step in E. ob E. ob E.
    destruct (_ <? _)%num; [|injection E as <-; exact D]. exact (drawn_trans _ _ _ D (mask_drawn _ _ _ E)).
  Qed.
  Lemma mask_points_drawn s p s' : mask_points s p = Ok s' -> drawn (ls_mesh s) (ls_mesh s').
  Proof.
    unfold mask_points, mask_points_only. intros E. match type of E with context [for_ ?n ?f ?z] => destruct (for_ n f z) as [[sd m]| | |] eqn:Ef end; try discriminate. cbn [obind] in E. apply reinit_drawn in E. cbn in E.
    refine (drawn_trans _ m _ _ E). refine (for_keeps (fun st => drawn (ls_mesh s) (snd st)) _ _ _ _ _ Ef (drawn_refl _)). clear. intros i st st' E D.
    assert (P : mask_poly_step p i st = Ok st' -> drawn (ls_mesh s) (snd st')).
    { clear E. intros E. unfold mask_poly_step in E. ob E. ob E. destruct a0; [|injection E as <-; exact D]. exact (drawn_trans _ _ _ D (mask_drawn _ _ _ E)). }
    destruct p as [|a [|b [|c p]]]; try exact (P E). unfold mask_rect_step in E. ob E. destruct (_ && _ && _ && _); [|injection E as <-; exact D]. exact (drawn_trans _ _ _ D (mask_drawn _ _ _ E)).
  Qed.
  Lemma update_drawn s dt s' r : update s dt = Ok (s', r) -> drawn (ls_mesh s) (ls_mesh s').
  Proof.
    unfold update. intros E. destruct (for_ _ _ _) as [[sd m]| | |] eqn:Ef; try discriminate. cbn [obind] in E.
    assert (D : drawn (ls_mesh s) m).
    { refine (for_keeps (fun st => drawn (ls_mesh s) (snd st)) _ _ _ _ _ Ef (drawn_refl _)). clear. intros i [sd m] st' E D. unfold update_step in E. do 7 ob E. ob E. injection E as <-. nm. exact (drawn_trans _ _ _ D H). }
    ob E. destruct a; [|injection E as <- _; exact D]. ob E. injection E as <- _. exact (drawn_trans _ _ _ D (reinit_drawn _ _ X0)).
  Qed.
  Lemma areas_drawn s b s' a : computeAreaFractions s b = Ok (s', a) -> drawn (ls_mesh s) (ls_mesh s').
  Proof.
    unfold computeAreaFractions. intros E. destruct (for_ _ _ _) as [[m A]| | |] eqn:Ef; try discriminate. injection E as <- _. cbn.
    refine (for_keeps (fun st => drawn (ls_mesh s) (fst st)) _ _ _ _ _ Ef (drawn_refl _)). clear. intros i [m A] st' E D. unfold area_step in E. do 3 ob E. ob E. injection E as <-.
    refine (drawn_trans _ _ _ D _). eapply elem_mod_drawn; [|exact X2]. intros []; split; reflexivity.
  Qed.
  Lemma velocities_drawn s ps s' : computeVelocities s ps = Ok s' -> ls_mesh s' = ls_mesh s.
  Proof. unfold computeVelocities. intros E. ob E. destruct (fmm_march_vel _ _ _ _) as [[[o sd] v]| | |]; try discriminate. injection E as <-. reflexivity. Qed.
  Lemma other_drawn s s' : other_call s s' -> drawn (ls_mesh s) (ls_mesh s').
  Proof.
    intros [dt ? r E|? E|ps ? E|ps dt te rng ? ps' dt' sc E|? E|b ? a E|h ? E|p ? E|v _|v _|v _|v _]; try apply drawn_refl.
    - exact (update_drawn _ _ _ _ E).
    - exact (reinit_drawn _ _ E).
    - rewrite (velocities_drawn _ _ _ E). apply drawn_refl.
    - unfold computeVelocities_noise in E. destruct (if (_ >? _)%num then _ else _) as [t c]. ob E. injection E as <- _ _ _. rewrite (velocities_drawn _ _ _ X). apply drawn_refl.
    - unfold computeGradients in E. ob E. injection E as <-. apply drawn_refl.
    - exact (areas_drawn _ _ _ _ E).
    - exact (mask_holes_drawn _ _ _ E).
    - exact (mask_points_drawn _ _ _ E).
  Qed.
  Lemma history_drawn s s' : rtc other_call s s' -> drawn (ls_mesh s) (ls_mesh s').
  Proof. intros R. induction R as [|a b c Hab _ IH]; [apply drawn_refl|]. exact (drawn_trans _ _ _ (other_drawn _ _ Hab) IH). Qed.

  (** The areas. *)
  Record earea (e e' : Element T) : Prop := { ea_drawn : edrawn e e'; ea_eq : e_area e' = e_area e }.
  Lemma cutArea_drawn Q m m' b e e' : mesh_twin ndrawn Q m m' -> edrawn e e' -> cutArea m b e = cutArea m' b e'.
  Proof.
    intros M [D1 D2 D3 D4 D5]. destruct e as [ec ea en es ek est], e' as [ec' ea' en' es' ek' est']. cbn in *. subst.
    assert (NS : forall i, node_status m' i = node_status m i).
    { intros i. symmetry. apply orel_eq. unfold node_status. eapply orel_bind; [apply orel_vget; exact (mt_nodes _ _ _ _ M)|]. intros n n' [_ ->]. apply orel_refl. }
    unfold cutArea. cbn [e_status e_nSegs e_coord]. apply orel_eq. eapply orel_bind; [apply orel_refl|]. intros st ? <-. eapply orel_bind with (R := eq); [|intros ? ? <-; apply orel_refl].
    apply orel_for_same; [reflexivity|]. intros k t ? _ <-. unfold cut_corner. cbn [e_nodes]. eapply orel_bind; [apply orel_refl|]. intros x ? <-.
    eapply orel_bind; [apply orel_vget; exact (mt_nodes _ _ _ _ M)|]. intros n n' [-> ->]. eapply orel_bind; [apply orel_refl|]. intros c ? <-.
    match goal with |- orel _ (if ?x then _ else _) _ => destruct x end; [apply orel_refl|]. destruct (is_boundary c); [|apply orel_refl]. do 2 (eapply orel_bind; [apply orel_refl|]; intros ? ? <-). rewrite !NS. apply orel_refl.
  Qed.
  Lemma areas_same (s s' : LevelSet T) b : drawn (ls_mesh s) (ls_mesh s') -> length (m_elements (ls_mesh s)) <= m_nElements (ls_mesh s) ->
    areas_of (computeAreaFractions s b) = areas_of (computeAreaFractions s' b).
  Proof.
    intros M LE. unfold computeAreaFractions. rewrite (mt_nE _ _ _ _ M).
    set (J := fun k (t t' : Mesh T * T) => drawn (fst t) (fst t') /\ upto edrawn earea k (m_elements (fst t)) (m_elements (fst t')) /\ length (m_elements (fst t)) = length (m_elements (ls_mesh s)) /\ snd t' = snd t).
    assert (O : orel (J (m_nElements (ls_mesh s))) (for_ (m_nElements (ls_mesh s)) (area_step b) (ls_mesh s, n0)) (for_ (m_nElements (ls_mesh s)) (area_step b) (ls_mesh s', n0))).
    - apply (orel_for J).
      + split; [exact M|]. split; [|auto]. split; [exact (mt_elements _ _ _ _ M)|]. intros; lia.
      + intros k [t a] [t' a'] Hk (Mt & Hu & Hl & Ea). cbn [fst snd] in *. subst a'. unfold area_step.
        eapply orel_bind; [apply orel_vget; exact (proj1 Hu)|]. intros e e' He. rewrite (de_status _ _ He), <- (cutArea_drawn _ _ _ b e e' Mt He).
        eapply orel_bind; [apply orel_refl|]. intros st ? <-. eapply orel_bind; [apply orel_refl|]. intros x ? <-. unfold elem_mod.
        pose proof (upto_vmod _ _ k _ _ (set_e_area x) (set_e_area x) Hu) as HV.
        assert (HA : forall e e' : Element T, edrawn e e' -> edrawn (set_e_area x e) (set_e_area x e') /\ earea (set_e_area x e) (set_e_area x e')).
        { intros y y' [Y1 Y2 Y3 Y4 Y5]. assert (edrawn (set_e_area x y) (set_e_area x y')) by (constructor; assumption). split; [assumption|]. constructor; [assumption|reflexivity]. }
        specialize (HV HA). unfold vmod in *. destruct (m_elements t !! k) as [u|], (m_elements t' !! k) as [u'|]; cbn [orel obind] in *; auto.
        split; [cbn; eapply mt_set_elements; [exact Mt|exact (proj1 HV)]|]. split; [exact HV|]. cbn. rewrite insert_length. auto.
    - destruct (for_ _ _ (ls_mesh s, n0)) as [[t a]| | |], (for_ _ _ (ls_mesh s', n0)) as [[t' a']| | |]; cbn [orel] in O; try contradiction; try reflexivity.
      destruct O as (Mt & Hu & Hl & Ea). cbn in Ea, Hl. subst a'. cbn. f_equal. f_equal.
      assert (F : Forall2 earea (m_elements t) (m_elements t')) by (eapply upto_all; [exact Hu|]; cbn; lia). clear - F. induction F as [|x y l k [_ E] _ IH]; [reflexivity|]. cbn. rewrite E, IH. reflexivity.
  Qed.

  Lemma constructed_drawn W H ml bw fx s : fits_ls W H bw -> constructed W H ml bw fx s -> drawn (mesh_spec W H) (ls_mesh s).
  Proof.
    intros Hf.
    assert (A0 : forall t sa, ls_alloc W H ml bw fx t = Ok sa -> ls_mesh sa = mesh_spec W H).
    { intros t sa. unfold ls_alloc. rewrite mesh_new_eq by exact (fits_mesh W H bw Hf). cbn [obind]. intros E. ob E. ob E. ob E. injection E as <-. reflexivity. }
    assert (A1 : forall f, ls_new f W H ml bw fx = Ok s -> drawn (mesh_spec W H) (ls_mesh s)).
    { intros f. unfold ls_new. intros E. ob E. rewrite <- (A0 _ _ X). unfold init_sd in E. destruct (f _ _); try discriminate. exact (band_drawn _ _ E). }
    assert (A2 : forall f g, ls_new_target f g W H ml bw fx = Ok s -> drawn (mesh_spec W H) (ls_mesh s)).
    { intros f g. unfold ls_new_target. intros E. ob E. rewrite <- (A0 _ _ X). unfold init_sd in E at 1. destruct (g _ _); try discriminate. cbn [obind] in E. ob E. apply reinit_drawn in X0.
      unfold init_sd in E. destruct (f _ _); try discriminate. exact (drawn_trans _ _ _ X0 (band_drawn _ _ E)). }
    intros [E|holes E|ps E|h1 h2 E|h1 p2 E|p1 p2 E]; eauto.
  Qed.
  Lemma not_drawn W H ml bw fx s0 s b : fits_ls W H bw -> constructed W H ml bw fx s0 -> rtc other_call s0 s -> computeAreaFractions s b = UB.
  Proof.
    intros Hf C R. destruct (Hf) as (HW & HH & _). pose proof (drawn_trans _ _ _ (constructed_drawn _ _ _ _ _ _ Hf C) (history_drawn _ _ R)) as M.
    unfold computeAreaFractions. rewrite (mt_nE _ _ _ _ M). cbn [m_nElements mesh_spec].
    assert (P : 0 < W * H) by nia. assert (E0 : m_elements (mesh_spec (T := T) W H) !! 0 = Some (element_spec W 0)) by (cbn; apply tab_lookup; exact P).
    destruct (Forall2_lookup_l _ _ _ _ _ (mt_elements _ _ _ _ M) E0) as (e & E & D). pose proof (de_status _ _ D) as S. cbn in S.
    destruct (W * H) as [|n]; [lia|]. unfold for_. cbn [for_from]. unfold area_step at 1. unfold vget at 1. rewrite E. cbn [obind]. rewrite S. reflexivity.
  Qed.
End drawn.
Lemma last_drawn {T : Type} {NT : Num T} {NI : NumInt T} W H (s s1 s2 : LevelSet T) tg b : reached W H s -> discretise s tg = Ok (s1, b) -> rtc other_call s1 s2 ->
  areas_of (computeAreaFractions s2 b) = areas_of (computeAreaFractions s1 b).
Proof.
  intros Hr E R. symmetry. apply areas_same; [exact (history_drawn _ _ R)|].
  assert (H1 : reached W H s1) by (apply (reached_call W H s); [exact Hr|]; eapply c_quiet, q_discretise, E). pose proof (ok_topo _ _ _ (so_ok _ _ _ (reached_sound _ _ _ H1))) as Ht.
  rewrite (tp_lenE _ _ _ Ht), (tp_nE _ _ _ Ht). lia.
Qed.
