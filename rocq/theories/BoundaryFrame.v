(** * BoundaryFrame: what discretise leaves alone (any arithmetic). *)

From Verif Require Import MeshModel MeshSpec MeshProofs MeshTopo LevelSetModel BoundaryModel.
Local Open Scope nat_scope.

(** getElement and getClosestNode only use the geometry. *)
Lemma closest_topo {T} {NT : Num T} W H (m : Mesh T) x y : topo W H m -> getClosestNode m x y = getClosestNode (mesh_spec W H) x y.
Proof.
  intros Ht. unfold getClosestNode.
  assert (E : getElement m x y = getElement (mesh_spec W H) x y).
  { unfold getElement. rewrite (tp_w _ _ _ Ht). reflexivity. }
  rewrite E. destruct (getElement (mesh_spec W H) x y) as [j| | |]; cbn [obind]; try reflexivity.
  destruct (decide (j < W * H)%nat) as [L|L].
  - destruct (lookup_lt_is_Some_2 (m_elements m) j) as [e Ee]; [rewrite (tp_lenE _ _ _ Ht); exact L|].
    assert (E2 : m_elements (mesh_spec (T := T) W H) !! j = Some (element_spec W j)).
    { cbn [mesh_spec m_elements]. rewrite tab_lookup by exact L. reflexivity. }
    destruct (tp_elem _ _ _ Ht j e Ee) as [A B].
    rewrite (proj2 (vget_Ok _ _ _) Ee), (proj2 (vget_Ok _ _ _) E2). cbn [obind]. rewrite A, B. reflexivity.
  - assert (U1 : vget (m_elements m) j = UB).
    { unfold vget. rewrite (lookup_ge_None_2 (m_elements m)) by (rewrite (tp_lenE _ _ _ Ht); lia). reflexivity. }
    assert (U2 : vget (m_elements (mesh_spec (T := T) W H)) j = UB).
    { unfold vget. rewrite (lookup_ge_None_2 (m_elements (mesh_spec W H))) by (cbn [mesh_spec m_elements]; rewrite tab_length; lia). reflexivity. }
    rewrite U1, U2. reflexivity.
Qed.

Section Frame.
  Context {T : Type} {NT : Num T}.

  (** The part of a node and of an element that discretise does not write. *)
  Definition fixed_node (n : Node T) :=
    (nd_coord n, nd_neigh n, nd_elems n, nd_nElems n, nd_active n, nd_domain n, nd_masked n, nd_mine n, length (nd_bpts n)).
  Definition fixed_elem (e : Element T) := (e_coord e, e_area e, e_nodes e, length (e_segs e)).
  Record mframe (m m' : Mesh T) : Prop := {
    mf_w : m_width m' = m_width m;
    mf_h : m_height m' = m_height m;
    mf_nE : m_nElements m' = m_nElements m;
    mf_nN : m_nNodes m' = m_nNodes m;
    mf_xy : m_xy m' = m_xy m;
    mf_nodes : map fixed_node (m_nodes m') = map fixed_node (m_nodes m);
    mf_elems : map fixed_elem (m_elements m') = map fixed_elem (m_elements m);
  }.
  Lemma mframe_refl m : mframe m m.
  Proof. constructor; reflexivity. Qed.
  Lemma mframe_trans m1 m2 m3 : mframe m1 m2 -> mframe m2 m3 -> mframe m1 m3.
  Proof. intros [] []. constructor; congruence. Qed.

  Lemma map_insert_same {A B} (f : A -> B) (l : list A) i a b : l !! i = Some a -> f b = f a -> map f (<[i := b]> l) = map f l.
  Proof.
    intros Hi E. change (f <$> <[i := b]> l = f <$> l). rewrite list_fmap_insert. apply list_insert_id. rewrite list_lookup_fmap, Hi. cbn. congruence.
  Qed.
  Lemma mframe_node m m' i n n' : mframe m m' -> m_nodes m' !! i = Some n -> fixed_node n' = fixed_node n ->
    mframe m (set_nodes (<[i := n']> (m_nodes m')) m').
  Proof. intros [] Hi E. constructor; cbn; auto. erewrite map_insert_same; eauto. Qed.
  Lemma mframe_elem m m' i e e' : mframe m m' -> m_elements m' !! i = Some e -> fixed_elem e' = fixed_elem e ->
    mframe m (set_elements (<[i := e']> (m_elements m')) m').
  Proof. intros [] Hi E. constructor; cbn; auto. erewrite map_insert_same; eauto. Qed.

  Lemma map_lookup_eq {A B} (f : A -> B) (l l' : list A) i a : map f l' = map f l -> l' !! i = Some a -> exists b, l !! i = Some b /\ f a = f b.
  Proof.
    intros E Hi. assert (X : (f <$> l') !! i = (f <$> l) !! i) by (change (map f l' !! i = map f l !! i); congruence).
    rewrite !list_lookup_fmap, Hi in X. destruct (l !! i) as [b|]; [|discriminate]. injection X as X. eauto.
  Qed.
  Lemma mframe_lookup m m' i n' : mframe m m' -> m_nodes m' !! i = Some n' -> exists n, m_nodes m !! i = Some n /\ fixed_node n' = fixed_node n.
  Proof. intros []. apply map_lookup_eq. assumption. Qed.
  Lemma mframe_lookup' m m' i n : mframe m m' -> m_nodes m !! i = Some n -> exists n', m_nodes m' !! i = Some n' /\ fixed_node n' = fixed_node n.
  Proof. intros [] Hi. destruct (map_lookup_eq fixed_node (m_nodes m') (m_nodes m) i n) as (n' & A & B); auto. eauto. Qed.
  Lemma mframe_elookup m m' i e' : mframe m m' -> m_elements m' !! i = Some e' -> exists e, m_elements m !! i = Some e /\ fixed_elem e' = fixed_elem e.
  Proof. intros []. apply map_lookup_eq. assumption. Qed.
  Lemma mframe_elookup' m m' i e : mframe m m' -> m_elements m !! i = Some e -> exists e', m_elements m' !! i = Some e' /\ fixed_elem e' = fixed_elem e.
  Proof. intros [] Hi. destruct (map_lookup_eq fixed_elem (m_elements m') (m_elements m) i e) as (n' & A & B); auto. eauto. Qed.
  Lemma mframe_len m m' : mframe m m' -> length (m_nodes m') = length (m_nodes m) /\ length (m_elements m') = length (m_elements m).
  Proof. intros []. split; [rewrite <- (map_length fixed_node), mf_nodes0|rewrite <- (map_length fixed_elem), mf_elems0]; apply map_length. Qed.

  Lemma mframe_topo W H m m' : mframe m m' -> topo W H m -> topo W H m'.
  Proof.
    intros F Ht. pose proof (mframe_len _ _ F) as [L1 L2]. destruct Ht. pose proof F as [].
    constructor; try congruence; try lia.
    - intros i n' Hi. destruct (mframe_lookup _ _ _ _ F Hi) as (n & Hn & E). specialize (tp_node i n Hn).
      unfold fixed_node in E. injection E as -> -> -> -> _ -> _ _ _. exact tp_node.
    - intros i n' Hi. destruct (mframe_elookup _ _ _ _ F Hi) as (n & Hn & E). specialize (tp_elem i n Hn).
      unfold fixed_elem in E. injection E as -> _ -> _. exact tp_elem.
    - intros i n' Hi. destruct (mframe_lookup _ _ _ _ F Hi) as (n & Hn & E). specialize (tp_bpts i n Hn).
      unfold fixed_node in E. injection E as _ _ _ _ _ _ _ _ ->. exact tp_bpts.
    - intros i n' Hi. destruct (mframe_elookup _ _ _ _ F Hi) as (n & Hn & E). specialize (tp_segs i n Hn).
      unfold fixed_elem in E. injection E as _ _ _ ->. exact tp_segs.
  Qed.

  (** ** The functions of Boundary. *)
  Lemma node_mod_frame m0 m i f : mframe m0 m -> (forall n, fixed_node (f n) = fixed_node n) -> post (node_mod i f m) (mframe m0).
  Proof.
    intros F Hf m'. unfold node_mod, vmod. destruct (m_nodes m !! i) as [n|] eqn:E; cbn [obind]; [|discriminate].
    intros [= <-]. eapply mframe_node; eauto.
  Qed.
  Lemma elem_mod_frame m0 m i f : mframe m0 m -> (forall e, fixed_elem (f e) = fixed_elem e) -> post (elem_mod i f m) (mframe m0).
  Proof.
    intros F Hf m'. unfold elem_mod, vmod. destruct (m_elements m !! i) as [n|] eqn:E; cbn [obind]; [|discriminate].
    intros [= <-]. eapply mframe_elem; eauto.
  Qed.
  Lemma status_frame m sd : post (computeMeshStatus m sd) (mframe m).
  Proof.
    unfold computeMeshStatus. apply post_bind.
    eapply post_impl; [apply post_for with (I := mframe m)|].
    - intros k m' _ F. unfold status_node. apply post_bind, post_any. intros x. apply node_mod_frame; [exact F|reflexivity].
    - apply mframe_refl.
    - intros m1 F1. apply post_for with (I := mframe m); [|exact F1].
      intros k m' _ F. unfold status_element. do 2 (apply post_bind, post_any; intros ?). destruct a0.
      apply elem_mod_frame; [exact F|reflexivity].
  Qed.

  Section Inv.
    Variable m0 : Mesh T.
    Notation fr := (fun d => mframe m0 (d_mesh d)).
    Lemma attach_frame node k d : fr d -> post (attach node k d) fr.
    Proof.
      intros F d'. unfold attach. intros E. apply obind_Ok in E as (n & En & E). apply vget_Ok in En.
      apply obind_Ok in E as (l & El & E). apply obind_Ok in E as (ns & E2 & E). injection E as <-.
      apply vset_Ok in El as [_ ->].
      apply vset_Ok in E2 as [_ ->]. cbn. eapply mframe_node; [exact F|exact En|]. unfold fixed_node. cbn. rewrite insert_length. reflexivity.
    Qed.
    Lemma create_frame ml c d : fr d -> post (create ml c d) fr.
    Proof. intros F. unfold create. apply post_bind, post_any. intros p. apply post_ok. exact F. Qed.
    Lemma node_point_frame ml node d : fr d -> post (node_point ml node d) (fun r => fr (snd r)).
    Proof.
      intros F. unfold node_point. apply post_bind, post_any. intros [c [k|]]; [apply post_ok; exact F|].
      apply post_bind. eapply post_impl; [apply attach_frame, F|]. intros d1 F1.
      apply post_bind. eapply post_impl; [apply create_frame, F1|]. intros d2 F2. apply post_ok. exact F2.
    Qed.
    Lemma cut_point_frame ml sd n1 n2 j d : fr d -> post (cut_point ml sd n1 n2 j d) (fun r => fr (snd r)).
    Proof.
      intros F. unfold cut_point. do 2 (apply post_bind, post_any; intros ?). apply post_bind, post_any. intros [c [k|]]; [apply post_ok; exact F|].
      apply post_bind. eapply post_impl; [apply attach_frame, F|]. intros d1 F1.
      apply post_bind. eapply post_impl; [apply attach_frame, F1|]. intros d3 F3.
      apply post_bind. eapply post_impl; [apply create_frame, F3|]. intros d2 F2. apply post_ok. exact F2.
    Qed.
    Lemma add_segment_frame i a b d : fr d -> post (add_segment i a b d) fr.
    Proof.
      intros F d'. unfold add_segment. intros E. apply obind_Ok in E as (l & _ & E). apply obind_Ok in E as (e & Ee & E).
      apply vget_Ok in Ee. apply obind_Ok in E as (k & _ & E). apply obind_Ok in E as (sg & Eg & E).
      apply obind_Ok in E as (es & E2 & E). injection E as <-. apply vset_Ok in E2 as [_ ->]. apply vset_Ok in Eg as [_ ->]. cbn.
      eapply mframe_elem; [exact F|exact Ee|]. unfold fixed_elem. cbn. rewrite insert_length. reflexivity.
    Qed.
    Lemma edge_step_frame ml tg sd i j s : fr (snd s) -> post (edge_step ml tg sd i j s) (fun r => fr (snd r)).
    Proof.
      destruct s as [cuts d]. cbn [snd]. intros F. unfold edge_step. do 5 (apply post_bind, post_any; intros ?).
      destruct (_ || _); [|apply post_ok; exact F]. do 2 (apply post_bind, post_any; intros ?).
      destruct (_ || _).
      - apply post_bind. eapply post_impl; [apply cut_point_frame, F|]. intros [k d1] F1. apply post_ok. exact F1.
      - destruct (_ && _); [|apply post_ok; exact F].
        apply post_bind. eapply post_impl; [apply node_point_frame, F|]. intros [k1 d1] F1.
        apply post_bind. eapply post_impl; [apply node_point_frame, F1|]. intros [k2 d2] F2.
        apply post_bind. eapply post_impl; [apply add_segment_frame, F2|]. intros d3 F3. apply post_ok. exact F3.
    Qed.
    Lemma one_cut_frame ml i p j d : fr d -> post (one_cut_step ml i p j d) fr.
    Proof.
      intros F. unfold one_cut_step. do 3 (apply post_bind, post_any; intros ?). destruct (is_boundary _); [|apply post_ok; exact F].
      do 4 (apply post_bind, post_any; intros ?). destruct (_ || _); [|apply post_ok; exact F].
      apply post_bind. eapply post_impl; [apply node_point_frame, F|]. intros [k1 d1] F1. apply add_segment_frame, F1.
    Qed.
    Lemma four_cuts_frame sd i cuts d : fr d -> post (four_cuts sd i cuts d) fr.
    Proof.
      intros F. unfold four_cuts. do 8 (apply post_bind, post_any; intros ?). apply post_bind.
      eapply post_impl with (P := fr).
      { destruct (_ || _); (apply post_bind; eapply post_impl; [apply add_segment_frame, F|intros d1 F1; apply add_segment_frame, F1]). }
      intros d1 F1. apply post_bind. eapply post_impl; [apply elem_mod_frame; [exact F1|reflexivity]|]. intros m F2. apply post_ok. exact F2.
    Qed.
    Lemma no_cuts_frame ml i d : fr d -> post (no_cuts ml i d) fr.
    Proof.
      intros F. unfold no_cuts. do 3 (apply post_bind, post_any; intros ?).
      apply post_bind. eapply post_impl; [apply node_point_frame, F|]. intros [k1 d1] F1. apply post_bind, post_any. intros ?.
      apply post_bind. eapply post_impl; [apply node_point_frame, F1|]. intros [k2 d2] F2. apply add_segment_frame, F2.
    Qed.
    Lemma element_step_frame ml tg sd i d : fr d -> post (element_step ml tg sd i d) fr.
    Proof.
      intros F. unfold element_step. apply post_bind, post_any. intros e. apply post_bind, post_any. intros st.
      assert (R : post (let! (cuts, d0) := for_ 4 (edge_step ml tg sd i) ([], d) in
        match cuts with
        | [p0; p1] => add_segment i p0 p1 d0
        | [p0] => for_ 4 (one_cut_step ml i p0) d0
        | [_; _; _; _] => four_cuts sd i cuts d0
        | [] => match st with ES_INSIDE => Ok d0 | _ => no_cuts ml i d0 end
        | _ => Ok d0
        end) fr).
      { apply post_bind. eapply post_impl; [apply post_for with (I := fun r => fr (snd r))|].
        - intros k s _ Fs. apply edge_step_frame, Fs.
        - exact F.
        - intros [cuts d1] F1. cbn [snd] in F1. destruct cuts as [|p0 [|p1 [|p2 [|p3 [|p4 l]]]]].
          + destruct st; try (apply post_ok; exact F1); apply no_cuts_frame, F1.
          + apply post_for with (I := fr); [|exact F1]. intros k s _ Fs. apply one_cut_frame, Fs.
          + apply add_segment_frame, F1.
          + apply post_ok; exact F1.
          + apply four_cuts_frame, F1.
          + apply post_ok; exact F1. }
      destruct st; try exact R. apply post_ok. exact F.
    Qed.
  End Inv.

  Lemma discretise_frame (s s' : LevelSet T) tg b : discretise s tg = Ok (s', b) ->
    s' = set_mesh (ls_mesh s') s /\ mframe (ls_mesh s) (ls_mesh s').
  Proof.
    unfold discretise. intros E. apply obind_Ok in E as (m & Em & E). apply obind_Ok in E as (d & Ed & E).
    apply obind_Ok in E as (ps & _ & E). injection E as <- _. split; [reflexivity|]. cbn.
    apply status_frame in Em. eapply mframe_trans; [exact Em|].
    revert d Ed. match goal with |- forall d, ?o = Ok d -> _ => change (post o (fun d => mframe m (d_mesh d))) end.
    apply post_for with (I := fun d => mframe m (d_mesh d)); [|apply mframe_refl].
    intros k s1 _ F. apply element_step_frame, F.
  Qed.
End Frame.
