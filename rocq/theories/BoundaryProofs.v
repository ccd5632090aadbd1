(** * BoundaryProofs: what a completed discretise produces (any arithmetic). *)

From Verif Require Import MeshModel MeshSpec MeshProofs MeshTopo LevelSetModel BoundaryModel BoundarySpec BoundaryFrame.
Local Open Scope nat_scope.

Lemma post_fori {S} (I : nat -> S -> Prop) n (f : nat -> S -> outcome S) s (Q : S -> Prop) : I 0 s ->
  (forall k s, k < n -> I k s -> post (f k s) (I (k + 1))) -> (forall s, I n s -> Q s) -> post (for_ n f s) Q.
Proof.
  intros H0 Hf HQ. unfold for_. assert (G : forall n' i s, i + n' = n -> I i s -> post (for_from i n' f s) Q).
  { induction n' as [|n' IH]; intros i s' Hi Hs; cbn [for_from].
    - apply post_ok, HQ. replace n with i by lia. exact Hs.
    - apply post_bind. eapply post_impl; [apply Hf; [lia|exact Hs]|]. intros s'' Hs''. apply IH; [lia|]. replace (Datatypes.S i) with (i + 1) by lia. exact Hs''. }
  apply G; [lia|exact H0].
Qed.
Lemma post_vget {A} (l : list A) i (Q : A -> Prop) : (forall a, l !! i = Some a -> Q a) -> post (vget l i) Q.
Proof. intros HQ a E. apply vget_Ok in E. auto. Qed.
Lemma post_init_get {A} (o : option A) (Q : A -> Prop) : (forall a, o = Some a -> Q a) -> post (init_get o) Q.
Proof. intros HQ a. destruct o; cbn; [|discriminate]. intros [= <-]. auto. Qed.
Lemma post_vset' {A} (l : list A) i a (Q : list A -> Prop) : (i < length l -> Q (<[i := a]> l)) -> post (vset l i a) Q.
Proof. intros HQ l' E. apply vset_Ok in E as [L ->]. auto. Qed.

Lemma seq_nat_snoc n : seq 0 (n + 1) = seq 0 n ++ [n].
Proof. rewrite seq_app. reflexivity. Qed.
Lemma filter_ext_in' {A} (f g : A -> bool) l : (forall a, In a l -> f a = g a) -> List.filter f l = List.filter g l.
Proof. induction l as [|a l IH]; intros E; cbn; [reflexivity|]. rewrite (E a) by (left; reflexivity). rewrite IH; [reflexivity|]. intros b Hb. apply E. right. exact Hb. Qed.

Section Proofs.
  Context {T : Type} {NT : Num T}.

  Lemma corner_lookup W e j : j < 4 -> corners_spec W (e mod W) (e / W) !! j = Some (corner W e j).
  Proof. intros Hj. unfold corner. do 4 (destruct j as [|j]; [reflexivity|]). lia. Qed.
  Lemma corner_lt W H e j : 1 <= W -> e < W * H -> j < 4 -> corner W e j < node_count W H.
  Proof.
    intros HW He Hj. destruct (elem_id_split W H e HW He) as (A & B & _). unfold corner, corners_spec.
    do 4 (destruct j as [|j]; [cbn [nth]; apply node_id_lt; lia|]). lia.
  Qed.
  Lemma next_lt j : j < 4 -> next j < 4.
  Proof. intros Hj. unfold next. destruct (j =? 3)%nat eqn:E; [lia|]. apply Nat.eqb_neq in E. lia. Qed.

  Section Run.
    Variables (W H : nat) (m : Mesh T) (sd : list T).
    Hypothesis Ht : topo W H m.

    (** The classification of an element. *)
    Definition class_ok (e : nat) (st : ElementStatus) : Prop :=
      match st with
      | ES_INSIDE => forall j, j < 4 -> side sd (corner W e j) <> Some NS_OUTSIDE
      | ES_OUTSIDE => (exists j, j < 4 /\ side sd (corner W e j) = Some NS_OUTSIDE) /\ (forall j, j < 4 -> side sd (corner W e j) <> Some NS_INSIDE)
      | ES_NONE => (exists j, j < 4 /\ side sd (corner W e j) = Some NS_OUTSIDE) /\ (exists j, j < 4 /\ side sd (corner W e j) = Some NS_INSIDE)
      | _ => False
      end.

    (** computeMeshStatus. *)
    Record status_ok (m1 : Mesh T) : Prop := {
      st_frame : mframe m m1;
      st_node : forall i n, m_nodes m1 !! i = Some n -> nd_status n = side sd i /\ nd_nBpts n = 0;
      st_elem : forall e x, m_elements m1 !! e = Some x -> (exists st, e_status x = Some st /\ class_ok e st) /\ e_nSegs x = Some 0;
      st_len : node_count W H <= length sd;
    }.
    Lemma status_nodes_spec :
      post (for_ (m_nNodes m) (status_node sd) m) (fun m1 => mframe m m1 /\ m_elements m1 = m_elements m /\ node_count W H <= length sd /\
        forall i n, m_nodes m1 !! i = Some n -> nd_status n = side sd i /\ nd_nBpts n = 0).
    Proof.
      apply (post_fori (fun k m1 => mframe m m1 /\ m_elements m1 = m_elements m /\ k <= length sd /\
        forall i n, i < k -> m_nodes m1 !! i = Some n -> nd_status n = side sd i /\ nd_nBpts n = 0)).
      - split; [apply mframe_refl|]. split; [reflexivity|]. split; [lia|]. intros i n Hi. lia.
      - intros k m1 Hk (F & E & L & P). unfold status_node. apply post_bind, post_vget. intros x Hx.
        intros m2. unfold node_mod, vmod. destruct (m_nodes m1 !! k) as [n|] eqn:En; cbn [obind]; [|discriminate]. intros [= <-].
        split; [eapply mframe_node; [exact F|exact En|reflexivity]|]. split; [exact E|]. split; [apply lookup_lt_Some in Hx; lia|].
        cbn. intros i n' Hi Hl. destruct (Nat.eq_dec i k) as [->|Hne].
        + rewrite list_lookup_insert in Hl by eauto using lookup_lt_Some. injection Hl as <-. cbn. unfold side. rewrite Hx. split; reflexivity.
        + rewrite list_lookup_insert_ne in Hl by auto. apply (P i n'); [lia|exact Hl].
      - intros m1 (F & E & L & P). rewrite (tp_nN _ _ _ Ht) in L, P. split; [exact F|]. split; [exact E|]. split; [exact L|].
        intros i n Hl. apply P; [|exact Hl]. apply lookup_lt_Some in Hl. rewrite (tp_lenN _ _ _ (mframe_topo _ _ _ _ F Ht)) in Hl. exact Hl.
    Qed.
    Lemma tally_spec (m1 : Mesh T) e (x : Element T) : (forall i n, m_nodes m1 !! i = Some n -> nd_status n = side sd i) ->
      e_nodes x = corners_spec W (e mod W) (e / W) ->
      post (for_ 4 (tally_step m1 x) (0, 0)) (fun '(a, b) =>
        (a = 0 <-> forall j, j < 4 -> side sd (corner W e j) <> Some NS_INSIDE) /\
        (b = 0 <-> forall j, j < 4 -> side sd (corner W e j) <> Some NS_OUTSIDE)).
    Proof.
      intros Hs He. apply (post_fori (fun k '(a, b) =>
        (a = 0 <-> forall j, j < k -> side sd (corner W e j) <> Some NS_INSIDE) /\
        (b = 0 <-> forall j, j < k -> side sd (corner W e j) <> Some NS_OUTSIDE))); [split; (split; [intros _ j Hj; lia|reflexivity])| |auto].
      intros k [a b] Hk [Ha Hb]. unfold tally_step. rewrite He. apply post_bind, post_vget. intros node En.
      rewrite corner_lookup in En by exact Hk. injection En as <-.
      apply post_bind. unfold node_status. apply post_bind, post_vget. intros n En. apply post_init_get. intros st Est. apply post_ok.
      rewrite (Hs _ _ En) in Est.
      assert (X : forall st', (forall j, j < k + 1 -> side sd (corner W e j) <> Some st') <->
        (forall j, j < k -> side sd (corner W e j) <> Some st') /\ st <> st').
      { intros st'. split.
        - intros A. split; [intros j Hj; apply A; lia|]. intros ->. apply (A k); [lia|exact Est].
        - intros [A B] j Hj. destruct (Nat.eq_dec j k) as [->|Hne]; [congruence|apply A; lia]. }
      destruct st; cbn [is_inside is_outside]; rewrite !X; (split; (split; [intros E|intros [E E']]));
        first [congruence|lia|tauto|(split; [tauto|congruence])|intuition (congruence || lia)].
    Qed.
    Lemma not_all st e : ~ (forall j, j < 4 -> side sd (corner W e j) <> Some st) -> exists j, j < 4 /\ side sd (corner W e j) = Some st.
    Proof.
      intros N. assert (D : forall j, {side sd (corner W e j) = Some st} + {side sd (corner W e j) <> Some st}) by (intros j; repeat decide equality).
      destruct (D 0) as [A|A]; [exists 0; split; [lia|exact A]|]. destruct (D 1) as [A1|A1]; [exists 1; split; [lia|exact A1]|].
      destruct (D 2) as [A2|A2]; [exists 2; split; [lia|exact A2]|]. destruct (D 3) as [A3|A3]; [exists 3; split; [lia|exact A3]|].
      exfalso. apply N. intros j Hj. do 4 (destruct j as [|j]; [assumption|]). lia.
    Qed.
    Lemma status_spec : post (computeMeshStatus m sd) status_ok.
    Proof.
      unfold computeMeshStatus. apply post_bind. eapply post_impl; [apply status_nodes_spec|]. intros m1 (F1 & E1 & L & P1).
      pose proof (mframe_topo _ _ _ _ F1 Ht) as Ht1.
      apply (post_fori (fun k m2 => mframe m m2 /\ m_nodes m2 = m_nodes m1 /\
        forall e x, e < k -> m_elements m2 !! e = Some x -> (exists st, e_status x = Some st /\ class_ok e st) /\ e_nSegs x = Some 0)).
      - split; [exact F1|]. split; [reflexivity|]. intros e x He. lia.
      - intros k m2 Hk (F2 & E2 & P2). pose proof (mframe_topo _ _ _ _ F2 Ht) as Ht2.
        unfold status_element. apply post_bind, post_vget. intros x Hx. apply post_bind.
        eapply post_impl; [apply (tally_spec m2 k x); [rewrite E2; intros i n Hn; apply (P1 i n Hn)|exact (proj2 (tp_elem _ _ _ Ht2 k x Hx))]|].
        intros [a b] [Ha Hb] m3. unfold elem_mod, vmod. rewrite Hx. cbn [obind]. intros [= <-].
        split; [eapply mframe_elem; [exact F2|exact Hx|reflexivity]|]. split; [exact E2|].
        cbn. intros e y He Hl. destruct (Nat.eq_dec e k) as [->|Hne].
        + rewrite list_lookup_insert in Hl by eauto using lookup_lt_Some. injection Hl as <-. cbn. split; [|reflexivity].
          eexists. split; [reflexivity|]. destruct (b =? 0)%nat eqn:Eb.
          * apply Nat.eqb_eq in Eb. cbn. tauto.
          * apply Nat.eqb_neq in Eb. assert (NB := fun X => Eb (proj2 Hb X)). apply not_all in NB.
            destruct (a =? 0)%nat eqn:Ea; [apply Nat.eqb_eq in Ea; cbn; tauto|].
            apply Nat.eqb_neq in Ea. assert (NA := fun X => Ea (proj2 Ha X)). apply not_all in NA. cbn. tauto.
        + rewrite list_lookup_insert_ne in Hl by auto. apply (P2 e y); [lia|exact Hl].
      - intros m2 (F2 & E2 & P2). constructor; [exact F2|rewrite E2; exact P1| |exact L].
        intros e x Hx. apply P2; [|exact Hx]. rewrite (tp_nE _ _ _ Ht1). apply lookup_lt_Some in Hx.
        rewrite (tp_lenE _ _ _ (mframe_topo _ _ _ _ F2 Ht)) in Hx. exact Hx.
    Qed.

    (** ** The loop over the elements. *)
    Variable ml : T.

    (** Index [k] is a point representing a place of element [e]. *)
    Definition ref (e : nat) (ps : list (BoundaryPoint T)) (k : nat) : Prop :=
      exists c p, ps !! k = Some p /\ contour_place W sd e c /\ at_place c p.
    Definition elem_sum (e : nat) : option T :=
      match sd !! corner W e 0, sd !! corner W e 1, sd !! corner W e 2, sd !! corner W e 3 with
      | Some a, Some b, Some c, Some d => Some (n0 + a + b + c + d)%num
      | _, _, _, _ => None
      end.
    Definition final_class (e : nat) (st : ElementStatus) : Prop :=
      match st with
      | ES_CENTRE_INSIDE => alternating W sd e /\ exists x, elem_sum e = Some x /\ (x >? n0)%num = true
      | ES_CENTRE_OUTSIDE => alternating W sd e /\ exists x, elem_sum e = Some x /\ (x >? n0)%num = false
      | _ => class_ok e st
      end.
    Record dinv (N : nat) (d : Disc T) : Prop := {
      di_frame : mframe m (d_mesh d);
      di_node : forall i n, m_nodes (d_mesh d) !! i = Some n -> nd_status n = side sd i;
      di_bpts : forall i n k, m_nodes (d_mesh d) !! i = Some n -> k ∈ take (nd_nBpts n) (nd_bpts n) -> k < N;
      di_nbpts : forall i n, m_nodes (d_mesh d) !! i = Some n -> nd_nBpts n <= 4;
      di_elem : forall e x, m_elements (d_mesh d) !! e = Some x -> exists st, e_status x = Some st /\ final_class e st;
      di_esegs : forall e x, m_elements (d_mesh d) !! e = Some x ->
        exists k, e_nSegs x = Some k /\ k <= 2 /\ take k (e_segs x) = segments_of (d_segs d) e;
      di_points : forall k p, d_points d !! k = Some p ->
        exists e c, e < W * H /\ contour_place W sd e c /\ initialisePoint m ml c = Ok p;
      di_segs : forall k sg, d_segs d !! k = Some sg -> good_segment W H sd (d_points d) sg;
      di_len : d_len d = fold_left nadd (map sg_length (d_segs d)) n0;
    }.
    Notation dok d := (dinv (length (d_points d)) d).

    Lemma dinv_mono N N' d : N <= N' -> dinv N d -> dinv N' d.
    Proof. intros L []. constructor; auto. intros i n k A B. specialize (di_bpts0 i n k A B). lia. Qed.
    Lemma ref_mono e ps ps' k : ps `prefix_of` ps' -> ref e ps k -> ref e ps' k.
    Proof. intros Hp (c & p & A & B & C). exists c, p. split; [eapply prefix_lookup; eassumption|]. auto. Qed.
    Lemma good_mono ps ps' sg : ps `prefix_of` ps' -> good_segment W H sd ps sg -> good_segment W H sd ps' sg.
    Proof.
      intros Hp (A & p & q & c & c' & B & C & D). split; [exact A|]. exists p, q, c, c'.
      split; [eapply prefix_lookup; eassumption|]. split; [eapply prefix_lookup; eassumption|]. exact D.
    Qed.

    Lemma init_start m1 : status_ok m1 -> dok (mkDisc m1 [] [] n0).
    Proof.
      intros []. constructor; cbn.
      - exact st_frame0.
      - intros i n Hn. apply (st_node0 i n Hn).
      - intros i n k Hn. destruct (st_node0 i n Hn) as [_ ->]. cbn. intros X. inversion X.
      - intros i n Hn. destruct (st_node0 i n Hn) as [_ ->]. lia.
      - intros e x Hx. destruct (st_elem0 e x Hx) as [(st & A & B) _]. exists st. split; [exact A|]. destruct st; cbn in *; tauto.
      - intros e x Hx. destruct (st_elem0 e x Hx) as [_ ->]. exists 0. split; [reflexivity|]. split; [lia|reflexivity].
      - intros k p Hk. inversion Hk.
      - intros k p Hk. inversion Hk.
      - reflexivity.
    Qed.

    Lemma init_point_frame m1 c : mframe m m1 -> initialisePoint m1 ml c = initialisePoint m ml c.
    Proof.
      intros F. pose proof (mframe_topo _ _ _ _ F Ht) as Ht1. unfold initialisePoint.
      rewrite (closest_topo W H m1), (closest_topo W H m) by assumption.
      replace (domain_gap m1 c) with (domain_gap m c) by (unfold domain_gap; rewrite (mf_w _ _ F), (mf_h _ _ F); reflexivity).
      destruct (getClosestNode (mesh_spec W H) (cx c) (cy c)) as [i| | |]; cbn [obind]; try reflexivity.
      unfold vget. destruct (m_nodes m1 !! i) as [n1|] eqn:E1.
      - destruct (mframe_lookup _ _ _ _ F E1) as (n & E & X). rewrite E. cbn [obind].
        unfold fixed_node in X. injection X as -> _ _ _ _ _ -> _ _. reflexivity.
      - destruct (m_nodes m !! i) as [n|] eqn:E; [|reflexivity].
        destruct (mframe_lookup' _ _ _ _ F E) as (n' & E' & _). congruence.
    Qed.

    Lemma attach_spec N node k d : dinv N d -> k < N ->
      post (attach node k d) (fun d' => dinv N d' /\ d_points d' = d_points d /\ d_segs d' = d_segs d).
    Proof.
      intros Hd Hk. destruct Hd. unfold attach. apply post_bind, post_vget. intros n Hn. apply post_bind, post_vset'. intros L.
      apply post_bind, post_vset'. intros L'. apply post_ok. split; [|split; reflexivity].
      constructor; cbn; auto.
      - eapply mframe_node; [exact di_frame0|exact Hn|]. unfold fixed_node. cbn. rewrite insert_length. reflexivity.
      - intros i n' Hl. destruct (Nat.eq_dec i node) as [->|Hne].
        + rewrite list_lookup_insert in Hl by exact L'. injection Hl as <-. cbn. auto.
        + rewrite list_lookup_insert_ne in Hl by auto. auto.
      - intros i n' k' Hl. destruct (Nat.eq_dec i node) as [->|Hne].
        + rewrite list_lookup_insert in Hl by exact L'. injection Hl as <-. cbn.
          replace (nd_nBpts n + 1) with (S (nd_nBpts n)) by lia. rewrite (take_S_r _ _ k) by (apply list_lookup_insert; exact L).
          rewrite take_insert by lia. intros X. apply elem_of_app in X as [X|X]; [eauto|]. apply elem_of_list_singleton in X. congruence.
        + rewrite list_lookup_insert_ne in Hl by auto. eauto.
      - intros i n' Hl. destruct (Nat.eq_dec i node) as [->|Hne].
        + rewrite list_lookup_insert in Hl by exact L'. injection Hl as <-. cbn. rewrite (tp_bpts _ _ _ (mframe_topo _ _ _ _ di_frame0 Ht) _ _ Hn) in L. lia.
        + rewrite list_lookup_insert_ne in Hl by auto. eauto.
    Qed.
    Lemma create_spec e c d : dinv (length (d_points d) + 1) d -> e < W * H -> contour_place W sd e c ->
      post (create ml c d) (fun d' => dok d' /\ d_points d `prefix_of` d_points d' /\ d_segs d' = d_segs d /\
        exists p, d_points d' !! length (d_points d) = Some p /\ bp_coord p = c).
    Proof.
      intros Hd He Hc. destruct Hd. unfold create. apply post_bind. intros p Ep. rewrite (init_point_frame _ c di_frame0) in Ep.
      apply post_ok. split.
      - constructor; cbn; auto.
        + rewrite app_length. cbn. exact di_bpts0.
        + intros k q Hk. apply lookup_app_Some in Hk as [Hk|[L Hk]]; [eauto|].
          apply list_lookup_singleton_Some in Hk as [_ <-]. eauto.
        + intros k sg Hk. eapply good_mono; [|eauto]. apply prefix_app_r. reflexivity.
      - cbn. split; [apply prefix_app_r; reflexivity|]. split; [reflexivity|]. exists p.
        split; [rewrite lookup_app_r by lia; rewrite Nat.sub_diag; reflexivity|].
        unfold initialisePoint in Ep. apply obind_Ok in Ep as (i & _ & Ep). apply obind_Ok in Ep as (n & _ & Ep). injection Ep as <-. reflexivity.
    Qed.

    Lemma find_added_spec c ps bpts : forall n i, post (find_added c ps bpts i n) (fun r =>
      forall k, r = Some k -> exists p, ps !! k = Some p /\ at_place c p).
    Proof.
      induction n as [|n IH]; intros i; cbn [find_added]; [apply post_ok; discriminate|].
      apply post_bind, post_any. intros index. apply post_bind, post_vget. intros p Hp.
      destruct (_ && _) eqn:E; [|apply IH]. apply andb_prop in E as [E1 E2]. apply post_ok. intros k [= <-]. exists p.
      split; [exact Hp|]. right. auto.
    Qed.
    Lemma node_coord_xy d i n : mframe m (d_mesh d) -> m_nodes (d_mesh d) !! i = Some n -> nd_coord n = node_xy W i.
    Proof. intros F Hn. rewrite (proj1 (tp_node _ _ _ (mframe_topo _ _ _ _ F Ht) i n Hn)). reflexivity. Qed.
    Lemma isAdded_spec d node j t : mframe m (d_mesh d) -> post (isAdded d node j t) (fun '(c, r) =>
      c = edge_point (node_xy W node) j t /\ (forall k, r = Some k -> exists p, d_points d !! k = Some p /\ at_place c p)).
    Proof.
      intros F. unfold isAdded. apply post_bind, post_vget. intros n Hn. apply post_bind.
      eapply post_impl; [apply find_added_spec|]. intros r Hr. apply post_ok. rewrite <- (node_coord_xy d node n F Hn). auto.
    Qed.

    Definition step_ok (e : nat) (d : Disc T) (r : nat * Disc T) : Prop :=
      dok (snd r) /\ d_points d `prefix_of` d_points (snd r) /\ ref e (d_points (snd r)) (fst r).
    Lemma node_point_spec e j d : dok d -> e < W * H -> j < 4 -> side sd (corner W e j) = Some NS_BOUNDARY ->
      post (node_point ml (corner W e j) d) (step_ok e d).
    Proof.
      intros Hd He Hj Hs. unfold node_point. apply post_bind. eapply post_impl; [apply isAdded_spec, (di_frame _ _ Hd)|].
      intros [c r] [-> Hr].
      assert (Hc : contour_place W sd e (edge_point (node_xy W (corner W e j)) 0 n0)) by (left; exists j; auto).
      destruct r as [k|].
      - apply post_ok. split; [exact Hd|]. split; [reflexivity|]. destruct (Hr k eq_refl) as (p & A & B). exists (edge_point (node_xy W (corner W e j)) 0 n0), p. auto.
      - apply post_bind. eapply post_impl; [apply (attach_spec (length (d_points d) + 1)); [eapply dinv_mono; [|exact Hd]; lia|lia]|].
        intros d1 (H1 & P1 & S1). rewrite <- P1. apply post_bind. eapply post_impl; [apply (create_spec e); [rewrite P1; exact H1|exact He|exact Hc]|].
        intros d2 (H2 & P2 & S2 & p & Hp & Ep). apply post_ok. split; [exact H2|]. cbn [fst snd]. split; [rewrite <- P1; exact P2|].
        eexists; exists p; split; [exact Hp|]; split; [exact Hc|]. left. exact Ep.
    Qed.
    Lemma cut_point_spec e j d : dok d -> e < W * H -> j < 4 -> opposite sd (corner W e j) (corner W e (next j)) ->
      post (cut_point ml sd (corner W e j) (corner W e (next j)) j d) (step_ok e d).
    Proof.
      intros Hd He Hj Hs. unfold cut_point. apply post_bind, post_vget. intros x1 E1. apply post_bind, post_vget. intros x2 E2.
      apply post_bind. eapply post_impl; [apply isAdded_spec, (di_frame _ _ Hd)|].
      intros [c r] [Ec Hr].
      assert (Hc : contour_place W sd e c) by (right; exists j, x1, x2; auto).
      destruct r as [k|].
      - apply post_ok. split; [exact Hd|]. split; [reflexivity|]. destruct (Hr k eq_refl) as (p & A & B). exists c, p. auto.
      - apply post_bind. eapply post_impl; [apply (attach_spec (length (d_points d) + 1)); [eapply dinv_mono; [|exact Hd]; lia|lia]|].
        intros d1 (H1 & P1 & S1). rewrite <- P1. apply post_bind. eapply post_impl; [apply (attach_spec (length (d_points d) + 1)); [exact H1|rewrite P1; lia]|].
        intros d2 (H2 & P2 & S2). rewrite <- P2. apply post_bind. eapply post_impl; [apply (create_spec e); [rewrite P2, P1; exact H2|exact He|exact Hc]|].
        intros d3 (H3 & P3 & S3 & p & Hp & Ep). apply post_ok. split; [exact H3|]. cbn [fst snd]. split; [rewrite <- P1, <- P2; exact P3|].
        exists c, p; split; [exact Hp|]; split; [exact Hc|]. left. exact Ep.
    Qed.
    Lemma segments_snoc (segs : list (BoundarySegment T)) sg e : segments_of (segs ++ [sg]) e = segments_of segs e ++ (if (sg_elem sg =? e)%nat then [length segs] else []).
    Proof.
      unfold segments_of. rewrite app_length. cbn [length]. rewrite seq_nat_snoc, List.filter_app. f_equal.
      - apply filter_ext_in'. intros k Hk. apply in_seq in Hk. unfold is_seg_of. rewrite lookup_app_l by lia. reflexivity.
      - cbn [List.filter]. unfold is_seg_of. rewrite lookup_app_r by lia. rewrite Nat.sub_diag. cbn. destruct (_ =? _)%nat; reflexivity.
    Qed.
    Lemma add_segment_spec e a b (d : Disc T) : dok d -> e < W * H -> ref e (d_points d) a -> ref e (d_points d) b ->
      post (add_segment e a b d) (fun d' => dok d' /\ d_points d' = d_points d).
    Proof.
      intros Hd He (ca & pa & A1 & A2 & A3) (cb & pb & B1 & B2 & B3). destruct Hd. unfold add_segment, segmentLength. apply post_bind.
      apply post_bind, post_vget. intros p Hp. apply post_bind, post_vget. intros q Hq. apply post_ok.
      apply post_bind, post_vget. intros x Hx. apply post_bind, post_init_get. intros k Hk.
      apply post_bind, post_vset'. intros L. apply post_bind, post_vset'. intros L'. apply post_ok. split; [|reflexivity].
      assert (p = pa) by congruence. assert (q = pb) by congruence. subst p q.
      pose proof (tp_segs _ _ _ (mframe_topo _ _ _ _ di_frame0 Ht) _ _ Hx) as L2.
      constructor; cbn -[segments_of]; auto.
      - eapply mframe_elem; [exact di_frame0|exact Hx|]. unfold fixed_elem. cbn. rewrite insert_length. reflexivity.
      - intros e' x' Hl. destruct (Nat.eq_dec e' e) as [->|Hne].
        + rewrite list_lookup_insert in Hl by exact L'. injection Hl as <-. cbn. auto.
        + rewrite list_lookup_insert_ne in Hl by auto. auto.
      - intros e' x' Hl. rewrite segments_snoc. cbn [sg_elem]. destruct (Nat.eq_dec e' e) as [->|Hne].
        + rewrite list_lookup_insert in Hl by exact L'. injection Hl as <-. cbn -[segments_of take]. exists (k + 1). split; [reflexivity|]. split; [lia|].
          destruct (di_esegs0 e x Hx) as (k' & Ek & Lk & Es). assert (k' = k) by congruence. subst k'.
          rewrite Nat.eqb_refl. replace (k + 1) with (S k) by lia.
          rewrite (take_S_r _ _ (length (d_segs d))) by (apply list_lookup_insert; exact L).
          rewrite take_insert by lia. rewrite Es. reflexivity.
        + rewrite list_lookup_insert_ne in Hl by auto. replace (e =? e')%nat with false by (symmetry; apply Nat.eqb_neq; auto).
          rewrite app_nil_r. auto.
      - intros k' sg Hl. apply lookup_app_Some in Hl as [Hl|[_ Hl]]; [eauto|]. apply list_lookup_singleton_Some in Hl as [_ <-].
        split; [exact He|]. exists pa, pb, ca, cb. cbn [sg_start sg_end sg_elem sg_length]. repeat (split; [assumption|]). reflexivity.
      - rewrite map_app, fold_left_app. cbn. rewrite <- di_len0. reflexivity.
    Qed.

    Lemma status_lookup N d i n st : dinv N d -> m_nodes (d_mesh d) !! i = Some n -> nd_status n = Some st -> side sd i = Some st.
    Proof. intros Hd Hn Hs. rewrite <- (di_node _ _ Hd i n Hn). exact Hs. Qed.
    Lemma node_status_spec N d i (Q : NodeStatus -> Prop) : dinv N d -> (forall st, side sd i = Some st -> Q st) -> post (node_status (d_mesh d) i) Q.
    Proof.
      intros Hd HQ. unfold node_status. apply post_bind, post_vget. intros n Hn. apply post_init_get. intros st Hs. apply HQ. eauto using status_lookup.
    Qed.
    Lemma elem_nodes_get N d e x j : dinv N d -> m_elements (d_mesh d) !! e = Some x -> j < 4 -> e_nodes x !! j = Some (corner W e j).
    Proof.
      intros Hd Hx Hj. rewrite (proj2 (tp_elem _ _ _ (mframe_topo _ _ _ _ (di_frame _ _ Hd) Ht) e x Hx)). cbn. apply corner_lookup, Hj.
    Qed.
    Lemma post_corner N d e x j (Q : nat -> Prop) : dinv N d -> m_elements (d_mesh d) !! e = Some x -> j < 4 -> Q (corner W e j) -> post (vget (e_nodes x) j) Q.
    Proof. intros Hd Hx Hj HQ. apply post_vget. intros a. rewrite (elem_nodes_get N d e x j Hd Hx Hj). intros [= <-]. exact HQ. Qed.

    Definition cuts_ok (e j : nat) (s : list nat * Disc T) : Prop :=
      dok (snd s) /\ Forall (ref e (d_points (snd s))) (fst s) /\ length (fst s) <= j /\
      (length (fst s) = j -> forall j', j' < j -> opposite sd (corner W e j') (corner W e (next j'))).
    Lemma edge_step_spec tg e j s : e < W * H -> j < 4 -> cuts_ok e j s -> post (edge_step ml tg sd e j s) (cuts_ok e (j + 1)).
    Proof.
      destruct s as [cuts d]. intros He Hj (Hd & Hc & Lc & Ho). cbn [fst snd] in *. unfold edge_step.
      apply post_bind, post_vget. intros x Hx. apply post_bind. apply (post_corner _ d e x j _ Hd Hx Hj).
      apply post_bind. change (if (j =? 3)%nat then 0 else j + 1) with (next j). apply (post_corner _ d e x (next j) _ Hd Hx (next_lt j Hj)).
      apply post_bind, post_vget. intros a Ha. apply post_bind, post_vget. intros b Hb.
      assert (Skip : cuts_ok e (j + 1) (cuts, d)).
      { split; [exact Hd|]. split; [exact Hc|]. cbn [fst snd]. split; [lia|]. lia. }
      destruct (tg || _ || _); [|apply post_ok, Skip].
      apply post_bind, post_init_get. intros s1 E1. apply post_bind, post_init_get. intros s2 E2.
      pose proof (status_lookup _ _ _ _ _ Hd Ha E1) as S1. pose proof (status_lookup _ _ _ _ _ Hd Hb E2) as S2.
      destruct (is_inside s1 && is_outside s2 || is_outside s1 && is_inside s2) eqn:Eo.
      - assert (Op : opposite sd (corner W e j) (corner W e (next j))).
        { unfold opposite. rewrite S1, S2. destruct s1, s2; cbn in Eo; try discriminate; auto. }
        apply post_bind. eapply post_impl; [apply (cut_point_spec e j d Hd He Hj Op)|].
        intros [k d'] (H1 & P1 & R1). cbn [fst snd] in *. apply post_ok. split; [exact H1|]. cbn [fst snd]. split.
        + apply Forall_app. split; [|repeat constructor; exact R1]. eapply Forall_impl; [exact Hc|]. intros k' Hk'. eapply ref_mono; eassumption.
        + rewrite app_length. cbn [length]. split; [lia|]. intros L j' Hj'. destruct (Nat.eq_dec j' j) as [->|Hne]; [exact Op|]. apply Ho; lia.
      - destruct (is_boundary s1 && is_boundary s2) eqn:Eb; [|apply post_ok, Skip].
        apply andb_prop in Eb as [B1 B2]. destruct s1; try discriminate. destruct s2; try discriminate.
        apply post_bind. eapply post_impl; [apply (node_point_spec e j d Hd He Hj S1)|].
        intros [k1 d1] (H1 & P1 & R1). cbn [fst snd] in *.
        apply post_bind. eapply post_impl; [apply (node_point_spec e (next j) d1 H1 He (next_lt j Hj) S2)|].
        intros [k2 d2] (H2 & P2 & R2). cbn [fst snd] in *.
        apply post_bind. eapply post_impl; [apply (add_segment_spec e k1 k2 d2 H2 He); [eapply ref_mono; eassumption|exact R2]|].
        intros d3 (H3 & P3). apply post_ok. split; [exact H3|]. cbn [fst snd]. split; [|split; lia].
        rewrite P3. eapply Forall_impl; [exact Hc|]. intros k Hk. eapply ref_mono; [|exact Hk]. etransitivity; eassumption.
    Qed.
    Lemma one_cut_spec e p j d : e < W * H -> j < 4 -> dok d /\ ref e (d_points d) p ->
      post (one_cut_step ml e p j d) (fun d' => dok d' /\ ref e (d_points d') p).
    Proof.
      intros He Hj (Hd & Hp). unfold one_cut_step.
      apply post_bind, post_vget. intros x Hx. apply post_bind. apply (post_corner _ d e x j _ Hd Hx Hj).
      apply post_bind. apply (node_status_spec _ _ _ _ Hd). intros st Hst. destruct (is_boundary st) eqn:Eb; [|apply post_ok; auto].
      destruct st; try discriminate.
      do 4 (apply post_bind, post_any; intros ?). destruct (_ || _); [|apply post_ok; auto].
      apply post_bind. eapply post_impl; [apply (node_point_spec e j d Hd He Hj Hst)|].
      intros [k1 d1] (H1 & P1 & R1). cbn [fst snd] in *. pose proof (ref_mono _ _ _ _ P1 Hp) as Hp1.
      eapply post_impl; [apply (add_segment_spec e p k1 d1 H1 He Hp1 R1)|]. intros d2 (H2 & P2). split; [exact H2|rewrite P2; exact Hp1].
    Qed.
    Lemma sum_spec d e x : dok d -> m_elements (d_mesh d) !! e = Some x -> post (for_ 4 (lsf_step sd x) n0) (fun r => elem_sum e = Some r).
    Proof.
      intros Hd Hx. unfold for_. cbn [for_from]. 
      apply post_bind. unfold lsf_step at 1. apply post_bind, (post_corner _ d e x 0 _ Hd Hx); [lia|]. apply post_bind, post_vget. intros a Ea. apply post_ok.
      apply post_bind. unfold lsf_step at 1. apply post_bind, (post_corner _ d e x 1 _ Hd Hx); [lia|]. apply post_bind, post_vget. intros b Eb. apply post_ok.
      apply post_bind. unfold lsf_step at 1. apply post_bind, (post_corner _ d e x 2 _ Hd Hx); [lia|]. apply post_bind, post_vget. intros c Ec. apply post_ok.
      apply post_bind. unfold lsf_step at 1. apply post_bind, (post_corner _ d e x 3 _ Hd Hx); [lia|]. apply post_bind, post_vget. intros d' Ed. apply post_ok.
      apply post_ok. unfold elem_sum. rewrite Ea, Eb, Ec, Ed. reflexivity.
    Qed.
    Lemma four_cuts_spec e cuts d : e < W * H -> dok d -> Forall (ref e (d_points d)) cuts -> alternating W sd e ->
      post (four_cuts sd e cuts d) (fun d' => dok d').
    Proof.
      intros He Hd Hc Ha. unfold four_cuts.
      apply post_bind, post_vget. intros x Hx. apply post_bind. eapply post_impl; [apply (sum_spec d e x Hd Hx)|]. intros sum Hsum.
      do 2 (apply post_bind, post_any; intros ?).
      rewrite Forall_forall in Hc.
      apply post_bind, post_vget. intros p0 E0. apply post_bind, post_vget. intros p1 E1.
      apply post_bind, post_vget. intros p2 E2. apply post_bind, post_vget. intros p3 E3.
      apply elem_of_list_lookup_2, Hc in E0, E1, E2, E3.
      apply post_bind. eapply post_impl with (P := fun d' => dok d').
      { destruct (_ || _).
        - apply post_bind. eapply post_impl; [apply (add_segment_spec e p0 p1 d Hd He E0 E1)|]. intros d1 (H1 & P1).
          eapply post_impl; [apply (add_segment_spec e p2 p3 d1 H1 He); rewrite P1; assumption|]. intros ? [X _]. exact X.
        - apply post_bind. eapply post_impl; [apply (add_segment_spec e p0 p3 d Hd He E0 E3)|]. intros d1 (H1 & P1).
          eapply post_impl; [apply (add_segment_spec e p1 p2 d1 H1 He); rewrite P1; assumption|]. intros ? [X _]. exact X. }
      intros d1 H1. apply post_bind. intros m1. unfold elem_mod, vmod. destruct (m_elements (d_mesh d1) !! e) as [x1|] eqn:Hx1; cbn [obind]; [|discriminate].
      intros [= <-]. apply post_ok. destruct H1. constructor; cbn -[segments_of take]; auto.
      - eapply mframe_elem; [exact di_frame0|exact Hx1|reflexivity].
      - intros e' x' Hl. destruct (Nat.eq_dec e' e) as [->|Hne].
        + rewrite list_lookup_insert in Hl by eauto using lookup_lt_Some. injection Hl as <-. cbn. eexists. split; [reflexivity|].
          destruct (n0 <? sum)%num eqn:Es; (split; [exact Ha|exists sum; split; assumption]).
        + rewrite list_lookup_insert_ne in Hl by auto. auto.
      - intros e' x' Hl. destruct (Nat.eq_dec e' e) as [->|Hne].
        + rewrite list_lookup_insert in Hl by eauto using lookup_lt_Some. injection Hl as <-. exact (di_esegs0 e x1 Hx1).
        + rewrite list_lookup_insert_ne in Hl by auto. auto.
    Qed.
    Lemma boundary_nodes_spec d e x : dok d -> m_elements (d_mesh d) !! e = Some x ->
      post (for_ 4 (boundary_node_step (d_mesh d) x) []) (Forall (fun i => exists j, j < 4 /\ i = corner W e j /\ side sd i = Some NS_BOUNDARY)).
    Proof.
      intros Hd Hx. apply post_for; [|constructor]. intros j l Hj Hl. unfold boundary_node_step.
      apply post_bind, (post_corner _ d e x j _ Hd Hx Hj). apply post_bind, (node_status_spec _ _ _ _ Hd). intros st Hst.
      apply post_ok. destruct st; cbn; try exact Hl. apply Forall_app. split; [exact Hl|]. repeat constructor. eauto.
    Qed.
    Lemma no_cuts_spec e d : e < W * H -> dok d -> post (no_cuts ml e d) (fun d' => dok d').
    Proof.
      intros He Hd. unfold no_cuts. apply post_bind, post_vget. intros x Hx. apply post_bind.
      eapply post_impl; [apply (boundary_nodes_spec d e x Hd Hx)|]. intros l Hl. rewrite Forall_forall in Hl.
      apply post_bind, post_vget. intros a Ea. apply elem_of_list_lookup_2, Hl in Ea as (j & Hj & -> & Sj).
      apply post_bind. eapply post_impl; [apply (node_point_spec e j d Hd He Hj Sj)|]. intros [k1 d1] (H1 & P1 & R1). cbn [fst snd] in *.
      apply post_bind, post_vget. intros b Eb. apply elem_of_list_lookup_2, Hl in Eb as (j' & Hj' & -> & Sj').
      apply post_bind. eapply post_impl; [apply (node_point_spec e j' d1 H1 He Hj' Sj')|]. intros [k2 d2] (H2 & P2 & R2). cbn [fst snd] in *.
      eapply post_impl; [apply (add_segment_spec e k1 k2 d2 H2 He); [eapply ref_mono; eassumption|exact R2]|]. intros ? [X _]. exact X.
    Qed.
    Lemma element_step_spec tg e d : e < W * H -> dok d -> post (element_step ml tg sd e d) (fun d' => dok d').
    Proof.
      intros He Hd. unfold element_step. apply post_bind, post_any. intros x. apply post_bind, post_any. intros st.
      assert (R : post (let! (cuts, d0) := for_ 4 (edge_step ml tg sd e) ([], d) in
        match cuts with
        | [p0; p1] => add_segment e p0 p1 d0
        | [p0] => for_ 4 (one_cut_step ml e p0) d0
        | [_; _; _; _] => four_cuts sd e cuts d0
        | [] => match st with ES_INSIDE => Ok d0 | _ => no_cuts ml e d0 end
        | _ => Ok d0
        end) (fun d' => dok d')).
      { apply post_bind. apply (post_fori (cuts_ok e)).
        - split; [exact Hd|]. split; [constructor|]. cbn. split; [lia|]. intros _ j' Hj'. lia.
        - intros j s Hj Hs. apply edge_step_spec; assumption.
        - intros [cuts d1] (H1 & Hc & Lc & Ho). cbn [fst snd] in *. destruct cuts as [|p0 [|p1 [|p2 [|p3 [|p4 l]]]]].
          + destruct st; try (apply post_ok; exact H1); apply no_cuts_spec; assumption.
          + eapply post_impl; [apply (post_for (fun d' => dok d' /\ ref e (d_points d') p0))|].
            * intros j s Hj Hs. apply one_cut_spec; assumption.
            * split; [exact H1|]. apply Forall_inv in Hc. exact Hc.
            * intros ? [X _]. exact X.
          + inversion Hc as [|? ? C1 Hc']. subst. apply Forall_inv in Hc'. eapply post_impl; [apply (add_segment_spec e p0 p1 d1 H1 He C1 Hc')|]. intros ? [X _]. exact X.
          + apply post_ok; exact H1.
          + apply four_cuts_spec; try assumption. exact (Ho eq_refl).
          + apply post_ok; exact H1. }
      destruct st; try exact R. apply post_ok. exact Hd.
    Qed.
    Lemma loop_spec tg m1 : status_ok m1 -> post (for_ (m_nElements m1) (element_step ml tg sd) (mkDisc m1 [] [] n0)) (fun d => dok d).
    Proof.
      intros Hm. apply post_for; [|apply init_start, Hm]. intros e d He Hd. apply element_step_spec; [|exact Hd].
      rewrite (tp_nE _ _ _ (mframe_topo _ _ _ _ (st_frame _ Hm) Ht)) in He. exact He.
    Qed.
  End Run.
End Proofs.
