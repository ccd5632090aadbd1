(** * BoundaryRun: discretise builds the graph of BoundaryGraph (any arithmetic in which places are told apart). *)

From Verif Require Import MeshModel MeshSpec MeshProofs MeshTopo LevelSetModel BoundaryModel BoundarySpec BoundaryFrame BoundaryProofs BoundaryLinks BoundaryGraph.
Local Open Scope nat_scope.

Notation TT o Q := (wp False False o Q).
Lemma wp_post {A} E U (o : outcome A) (P Q : A -> Prop) : post o P -> wp E U o Q -> wp E U o (fun a => P a /\ Q a).
Proof. intros HP. destruct o as [a| | |]; cbn; auto. Qed.

Lemma side_st {T} {NT : Num T} (sd : list T) i st : side sd i = Some st -> st_of sd i = st.
Proof. unfold st_of. intros ->. reflexivity. Qed.
Lemma side_not_none {T} {NT : Num T} (sd : list T) i : side sd i <> Some NS_NONE.
Proof. unfold side. destruct (sd !! i); [|discriminate]. destruct (_ <? _)%num; [discriminate|]. destruct (_ <? _)%num; discriminate. Qed.

Ltac split_pair C := lazymatch type of C with _ /\ _ => let C' := fresh C "'" in destruct C as [C C'] | _ => idtac end.

(** ** Corners and edges as places. *)
Section Places.
  Context {T : Type} {NT : Num T}.
  Variables (W H : nat) (sd : list T).
  Hypothesis HW : 1 <= W.

  Definition edge_to (i k j : nat) : Prop :=
    match j with 0 => k = i + 1 /\ i mod (W + 1) < W | 1 => k = i + (W + 1) | 2 => i = k + 1 /\ k mod (W + 1) < W | _ => i = k + (W + 1) end.
  Lemma corner_val e j : e < W * H -> j < 4 -> corner W e j =
    match j with 0 => node_id W (e mod W) (e / W) | 1 => node_id W (e mod W + 1) (e / W) | 2 => node_id W (e mod W + 1) (e / W + 1) | _ => node_id W (e mod W) (e / W + 1) end.
  Proof. intros He Hj. unfold corner, corners_spec. do 4 (destruct j as [|j]; [reflexivity|]). lia. Qed.
  Lemma node_id_mod x y : x <= W -> node_id W x y mod (W + 1) = x.
  Proof. intros Hx. unfold node_id. rewrite Nat.mod_add by lia. apply Nat.mod_small. lia. Qed.
  Lemma corner_edge e j : e < W * H -> j < 4 -> edge_to (corner W e j) (corner W e (next j)) j.
  Proof.
    intros He Hj. destruct (elem_id_split W H e HW He) as (A & B & _).
    rewrite !corner_val by (try apply next_lt; assumption). unfold edge_to, next.
    destruct j as [|[|[|[|j]]]]; cbn [Nat.eqb Nat.add]; unfold node_id.
    - split; [lia|]. change (node_id W (e mod W) (e / W) mod (W + 1) < W). rewrite node_id_mod by lia. exact A.
    - lia.
    - split; [lia|]. change (node_id W (e mod W) (e / W + 1) mod (W + 1) < W). rewrite node_id_mod by lia. exact A.
    - lia.
    - lia.
  Qed.
  Lemma edge_place_eq e j : e < W * H -> j < 4 -> edge_place W e j =
    match j with 0 => OnRight (corner W e j) | 1 => OnUp (corner W e j) | 2 => OnRight (corner W e (next j)) | _ => OnUp (corner W e (next j)) end.
  Proof. intros He Hj. do 4 (destruct j as [|j]; [reflexivity|]). lia. Qed.

  Lemma edge_incident e j i : e < W * H -> j < 4 -> incident W (edge_place W e j) i <-> i = corner W e j \/ i = corner W e (next j).
  Proof.
    intros He Hj. rewrite edge_place_eq by assumption. pose proof (corner_edge e j He Hj) as C.
    do 4 (destruct j as [|j]; [cbn [edge_to incident] in *; split_pair C; rewrite ?C; tauto|]). lia.
  Qed.
  Lemma opposite_sym a b : opposite sd a b -> opposite sd b a.
  Proof. unfold opposite. tauto. Qed.
  Lemma edge_valid e j : e < W * H -> j < 4 -> opposite sd (corner W e j) (corner W e (next j)) -> valid_place W H sd (edge_place W e j).
  Proof.
    intros He Hj O. rewrite edge_place_eq by assumption. pose proof (corner_edge e j He Hj) as C.
    pose proof (corner_lt W H e j HW He Hj) as L1. pose proof (corner_lt W H e (next j) HW He (next_lt j Hj)) as L2.
    do 4 (destruct j as [|j]; [cbn [edge_to valid_place] in *; split_pair C; rewrite C in *; auto using opposite_sym|]). lia.
  Qed.
  Lemma edge_coord e j c : e < W * H -> j < 4 -> cut_from W sd (corner W e j) (corner W e (next j)) j c -> place_coord W sd (edge_place W e j) c.
  Proof.
    intros He Hj X. rewrite edge_place_eq by assumption. pose proof (corner_edge e j He Hj) as C.
    do 4 (destruct j as [|j]; [cbn [edge_to place_coord] in *; split_pair C; rewrite C in *; auto|]). lia.
  Qed.

  (** At most four places at a node. *)
  Definition places_at (i : nat) : list place :=
    match st_of sd i with
    | NS_BOUNDARY => [AtNode i]
    | _ => [OnRight i; OnRight (i - 1); OnUp i; OnUp (i - (W + 1))]
    end.
  Lemma places_at_in p i : valid_place W H sd p -> incident W p i -> p ∈ places_at i.
  Proof.
    unfold places_at. destruct p as [k|k|k]; cbn [valid_place incident].
    - intros [_ S] ->. rewrite (side_st _ _ _ S). apply elem_of_list_here.
    - intros (_ & _ & O) I.
      assert (X : OnRight k ∈ [OnRight i; OnRight (i - 1); OnUp i; OnUp (i - (W + 1))]).
      { destruct I as [->| ->]; [apply elem_of_list_here|]. replace (k + 1 - 1) with k by lia. apply elem_of_list_further, elem_of_list_here. }
      unfold st_of. destruct (side sd i) as [[| | |]|] eqn:S; try exact X. exfalso.
      destruct I as [->| ->]; destruct O as [[A B]|[A B]]; congruence.
    - intros (_ & O) I.
      assert (X : OnUp k ∈ [OnRight i; OnRight (i - 1); OnUp i; OnUp (i - (W + 1))]).
      { destruct I as [->| ->]; [do 2 apply elem_of_list_further; apply elem_of_list_here|]. replace (k + (W + 1) - (W + 1)) with k by lia. do 3 apply elem_of_list_further; apply elem_of_list_here. }
      unfold st_of. destruct (side sd i) as [[| | |]|] eqn:S; try exact X. exfalso.
      destruct I as [->| ->]; destruct O as [[A B]|[A B]]; congruence.
  Qed.
  Lemma places_at_len i : length (places_at i) <= 4.
  Proof. unfold places_at. destruct (st_of sd i); cbn; lia. Qed.
  Lemma places_at_bound i (l : list place) : NoDup l -> (forall p, p ∈ l -> valid_place W H sd p /\ incident W p i) -> length l <= 4.
  Proof.
    intros N A. etransitivity; [|apply (places_at_len i)]. apply submseteq_length, NoDup_submseteq; [exact N|].
    intros p Hp. destruct (A p Hp). apply places_at_in; assumption.
  Qed.
End Places.

Section Run.
  Context {T : Type} {NT : Num T}.
  Variables (W H : nat) (m : Mesh T) (sd : list T) (ml : T).
  Hypothesis Ht : topo W H m.
  Let HW : 1 <= W := proj1 (tp_fits _ _ _ Ht).
  Hypothesis Hlen : node_count W H <= length sd.

  (** The test of isAdded. *)
  Definition same_test (c c' : Coord T) : bool :=
    (nabs (cx c - cx c') <? nlit 1 1000000)%num && (nabs (cy c - cy c') <? nlit 1 1000000)%num.
  (** It tells the places at a node apart, and recognises the same place computed from either end. *)
  Definition places_apart : Prop := forall p q c c' i, valid_place W H sd p -> valid_place W H sd q ->
    place_coord W sd p c -> place_coord W sd q c' -> incident W p i -> incident W q i -> same_test c c' = true <-> p = q.
  (** The points can be initialised. *)
  Definition places_inside : Prop := forall p c, valid_place W H sd p -> place_coord W sd p c -> exists bp, initialisePoint m ml c = Ok bp.
  Hypothesis Hapart : places_apart.
  Hypothesis Hinside : places_inside.

  Definition attached (d : Disc T) (i : nat) : list nat :=
    match m_nodes (d_mesh d) !! i with Some n => take (nd_nBpts n) (nd_bpts n) | None => [] end.
  Definition cnt (e : nat) (done : list (nat * (place * place))) : nat := length (List.filter (fun t => (fst t =? e)%nat) done).
  Record rep (es : nat -> ElementStatus) (done : list (nat * (place * place))) (pl : list place) (d : Disc T) : Prop := {
    rp_inv : dinv W H m sd ml (length (d_points d)) d;
    rp_nd : NoDup pl;
    rp_valid : forall p, p ∈ pl -> valid_place W H sd p;
    rp_pts : Forall2 (fun p bp => place_coord W sd p (bp_coord bp)) pl (d_points d);
    rp_att : forall i, i < node_count W H -> NoDup (attached d i) /\ forall k, k ∈ attached d i <-> exists p, pl !! k = Some p /\ incident W p i;
    rp_segs : Forall2 (fun t sg => sg_elem sg = fst t /\ pl !! sg_start sg = Some (fst (snd t)) /\ pl !! sg_end sg = Some (snd (snd t))) done (d_segs d);
    rp_es : forall e x, m_elements (d_mesh d) !! e = Some x -> e_status x = Some (es e);
  }.

  Lemma rep_len es done pl d : rep es done pl d -> length pl = length (d_points d).
  Proof. intros R. apply (Forall2_length _ _ _ (rp_pts _ _ _ _ R)). Qed.
  Lemma node_at es done pl d i : rep es done pl d -> i < node_count W H -> exists n, m_nodes (d_mesh d) !! i = Some n /\
    attached d i = take (nd_nBpts n) (nd_bpts n) /\ nd_nBpts n <= 4 /\ length (nd_bpts n) = 4 /\ nd_coord n = node_xy W i /\ nd_status n = side sd i.
  Proof.
    intros R Hi. pose proof (rp_inv _ _ _ _ R) as D. pose proof (mframe_topo _ _ _ _ (di_frame _ _ _ _ _ _ _ D) Ht) as Ht'.
    destruct (lookup_lt_is_Some_2 (m_nodes (d_mesh d)) i) as [n En]; [rewrite (tp_lenN _ _ _ Ht'); exact Hi|].
    exists n. split; [exact En|]. unfold attached. rewrite En. split; [reflexivity|]. split; [exact (di_nbpts _ _ _ _ _ _ _ D i n En)|].
    split; [exact (tp_bpts _ _ _ Ht' i n En)|]. split; [rewrite (proj1 (tp_node _ _ _ Ht' i n En)); reflexivity|exact (di_node _ _ _ _ _ _ _ D i n En)].
  Qed.

  (** ** isAdded. *)
  Lemma find_added_total c ps bpts : forall n i, (forall k, k ∈ take n (drop i bpts) -> k < length ps) -> i + n <= length bpts ->
    TT (find_added c ps bpts i n) (fun r => match r with
      | Some k => k ∈ take n (drop i bpts) /\ exists p, ps !! k = Some p /\ same_test c (bp_coord p) = true
      | None => forall k p, k ∈ take n (drop i bpts) -> ps !! k = Some p -> same_test c (bp_coord p) = false
      end).
  Proof.
    induction n as [|n IH]; intros i Hk Hl; cbn [find_added].
    - apply wp_ok. intros k p X. cbn in X. inversion X.
    - destruct (lookup_lt_is_Some_2 bpts i) as [b Eb]; [lia|]. assert (D : take (S n) (drop i bpts) = b :: take n (drop (S i) bpts)).
      { rewrite (drop_S _ b) by exact Eb. reflexivity. }
      rewrite D in *. apply wp_bind. apply (wp_vget _ _ _ _ _ b); [exact Eb|]. apply wp_bind.
      apply wp_vget_lt; [apply Hk, elem_of_list_here|]. intros p Ep. fold (same_test c (bp_coord p)). destruct (same_test c (bp_coord p)) eqn:Es.
      + apply wp_ok. split; [apply elem_of_list_here|]. exists p. auto.
      + eapply wp_impl; [apply (IH (S i)); [intros k X; apply Hk, elem_of_list_further, X|lia]|]. intros [k|].
        * intros [A B]. split; [apply elem_of_list_further, A|exact B].
        * intros A k q Hq Eq. apply elem_of_cons in Hq as [->|Hq]; [congruence|eauto].
  Qed.
  Lemma isAdded_total es done pl d i p j t : rep es done pl d -> i < node_count W H -> valid_place W H sd p -> incident W p i ->
    place_coord W sd p (edge_point (node_xy W i) j t) ->
    TT (isAdded d i j t) (fun '(c, r) => c = edge_point (node_xy W i) j t /\
      match r with Some k => pl !! k = Some p | None => p ∉ pl end).
  Proof.
    intros R Hi Hv Hinc Hc. destruct (node_at _ _ _ _ i R Hi) as (n & En & A & L4 & L & Exy & _). destruct (rp_att _ _ _ _ R i Hi) as [_ At].
    rewrite A in At. unfold isAdded. apply wp_bind. apply (wp_vget _ _ _ _ _ n En). rewrite Exy. apply wp_bind.
    eapply wp_impl; [apply find_added_total; [|lia]|].
    - rewrite drop_0. intros k Hk. apply At in Hk as (q & Eq & _). rewrite <- (rep_len _ _ _ _ R). eauto using lookup_lt_Some.
    - rewrite drop_0. intros r Hr. apply wp_ok. split; [reflexivity|]. destruct r as [k|].
      + destruct Hr as (Hk & bp & Ebp & Es). apply At in Hk as (q & Eq & Iq). rewrite Eq. f_equal. symmetry.
        destruct (Forall2_lookup_l _ _ _ _ _ (rp_pts _ _ _ _ R) Eq) as (bp' & Ebp' & Cq). assert (bp' = bp) by congruence. subst bp'.
        apply (Hapart p q _ _ i Hv (rp_valid _ _ _ _ R q (elem_of_list_lookup_2 _ _ _ Eq)) Hc Cq Hinc Iq), Es.
      + intros X. apply elem_of_list_lookup_1 in X as [k Ek]. assert (Hk : k ∈ take (nd_nBpts n) (nd_bpts n)) by (apply At; eauto).
        destruct (Forall2_lookup_l _ _ _ _ _ (rp_pts _ _ _ _ R) Ek) as (bp & Ebp & Cp). specialize (Hr k bp Hk Ebp).
        rewrite (proj2 (Hapart p p _ _ i Hv Hv Hc Cp Hinc Hinc) eq_refl) in Hr. discriminate.
  Qed.

  (** ** A new point. *)
  Lemma attach_total d i k n : m_nodes (d_mesh d) !! i = Some n -> nd_nBpts n < length (nd_bpts n) ->
    TT (attach i k d) (fun d' => (forall i', attached d' i' = attached d i' ++ (if (i' =? i)%nat then [k] else [])) /\
      length (m_nodes (d_mesh d')) = length (m_nodes (d_mesh d)) /\ m_elements (d_mesh d') = m_elements (d_mesh d) /\
      (forall i', i' <> i -> m_nodes (d_mesh d') !! i' = m_nodes (d_mesh d) !! i') /\
      d_points d' = d_points d /\ d_segs d' = d_segs d /\ d_len d' = d_len d).
  Proof.
    intros En L. unfold attach. apply wp_bind. apply (wp_vget _ _ _ _ _ n En). apply wp_bind. apply wp_vset; [exact L|].
    apply wp_bind. apply wp_vset; [eauto using lookup_lt_Some|]. apply wp_ok. cbn. split; [|split; [apply insert_length|repeat split]].
    - intros i'. unfold attached. cbn. destruct (Nat.eqb_spec i' i) as [->|Hne].
      + rewrite list_lookup_insert by eauto using lookup_lt_Some. rewrite En. cbn. replace (nd_nBpts n + 1) with (S (nd_nBpts n)) by lia.
        rewrite (take_S_r _ _ k) by (apply list_lookup_insert; exact L). rewrite take_insert by lia. reflexivity.
      + rewrite list_lookup_insert_ne by auto. rewrite app_nil_r. reflexivity.
    - intros i' Hne. apply list_lookup_insert_ne. auto.
  Qed.
  (** Room for one more point at a node. *)
  Lemma room es done pl d i p n : rep es done pl d -> i < node_count W H -> valid_place W H sd p -> incident W p i -> p ∉ pl ->
    m_nodes (d_mesh d) !! i = Some n -> nd_nBpts n < length (nd_bpts n).
  Proof.
    intros R Hi Hv Hinc Hp En. destruct (node_at _ _ _ _ i R Hi) as (n' & En' & A & L4 & L & _). assert (n' = n) by congruence. subst n'. rewrite L.
    destruct (rp_att _ _ _ _ R i Hi) as [N At]. rewrite A in N, At.
    set (l := take (nd_nBpts n) (nd_bpts n)) in *. assert (Ll : length l = nd_nBpts n) by (unfold l; rewrite take_length; lia).
    rewrite <- Ll. clearbody l. clear - N At Hv Hinc Hp HW R.
    assert (B : length (p :: omap (fun k => pl !! k) l) <= 4).
    { apply (places_at_bound W H sd HW i).
      - constructor.
        + intros X. apply elem_of_list_omap in X as (k & _ & E). apply Hp. eauto using elem_of_list_lookup_2.
        + clear At. induction N as [|k l Hk N IH]; cbn; [constructor|]. destruct (pl !! k) as [q|] eqn:Eq; [|exact IH].
          constructor; [|exact IH]. intros X. apply elem_of_list_omap in X as (k' & Hk' & E).
          assert (k' = k) by (eapply NoDup_lookup; [exact (rp_nd _ _ _ _ R)|exact E|exact Eq]). congruence.
      - intros q X. apply elem_of_cons in X as [->|X]; [auto|]. apply elem_of_list_omap in X as (k & Hk & E).
        apply At in Hk as (q' & E' & I). assert (q' = q) by congruence. subst q'. split; [|exact I].
        apply (rp_valid _ _ _ _ R). eauto using elem_of_list_lookup_2. }
    cbn [length] in B. assert (E : length (omap (fun k => pl !! k) l) = length l).
    { clear - At. assert (F : forall k, k ∈ l -> exists q, pl !! k = Some q) by (intros k Hk; apply At in Hk as (q & E & _); eauto). clear At.
      induction l as [|k l IH]; cbn; [reflexivity|]. destruct (F k (elem_of_list_here _ _)) as [q ->]. cbn. f_equal. apply IH.
      intros k' Hk'. apply F, elem_of_list_further, Hk'. }
    lia.
  Qed.
  Lemma create_total d c bp : mframe m (d_mesh d) -> initialisePoint m ml c = Ok bp ->
    create ml c d = Ok (set_d_points (d_points d ++ [bp]) d).
  Proof. intros F E. unfold create. rewrite (init_point_frame W H m Ht ml _ c F), E. reflexivity. Qed.

  (** The state after a new place, once the bookkeeping is done. *)
  Lemma rep_new es done pl d d' p bp : rep es done pl d -> valid_place W H sd p -> p ∉ pl ->
    dinv W H m sd ml (length (d_points d')) d' -> d_points d' = d_points d ++ [bp] -> place_coord W sd p (bp_coord bp) ->
    d_segs d' = d_segs d -> m_elements (d_mesh d') = m_elements (d_mesh d) ->
    (forall i, i < node_count W H -> attached d' i = attached d i \/ attached d' i = attached d i ++ [length pl]) ->
    (forall i, i < node_count W H -> incident W p i <-> attached d' i = attached d i ++ [length pl]) ->
    rep es done (pl ++ [p]) d'.
  Proof.
    intros R Hv Hp D P C S E A1 A2. constructor.
    - exact D.
    - apply NoDup_app. split; [apply R|]. split; [|apply NoDup_singleton]. intros x Hx X. apply elem_of_list_singleton in X. congruence.
    - intros q X. apply elem_of_app in X as [X|X]; [apply (rp_valid _ _ _ _ R), X|]. apply elem_of_list_singleton in X. congruence.
    - rewrite P. apply Forall2_app; [apply R|]. repeat constructor. exact C.
    - intros i Hi. destruct (rp_att _ _ _ _ R i Hi) as [N At]. assert (Hk : forall k, k ∈ attached d i -> k < length pl).
      { intros k X. apply At in X as (q & Eq & _). eauto using lookup_lt_Some. }
      assert (X : forall k, (exists q, (pl ++ [p]) !! k = Some q /\ incident W q i) <-> k ∈ attached d i \/ (k = length pl /\ incident W p i)).
      { intros k. rewrite At. split.
        - intros (q & Eq & I). apply lookup_app_Some in Eq as [Eq|[L Eq]]; [left; eauto|]. apply list_lookup_singleton_Some in Eq as [L' <-]. right. split; [lia|exact I].
        - intros [(q & Eq & I)|[-> I]]; [exists q; split; [apply lookup_app_l_Some, Eq|exact I]|]. exists p. split; [|exact I].
          rewrite lookup_app_r by lia. rewrite Nat.sub_diag. reflexivity. }
      destruct (A1 i Hi) as [Q|Q].
      + rewrite Q. split; [exact N|]. intros k. rewrite X. split; [tauto|]. intros [Y|[-> I]]; [exact Y|]. apply (A2 i Hi) in I. rewrite Q in I.
        apply (f_equal length) in I. rewrite app_length in I. cbn in I. lia.
      + rewrite Q. split.
        * apply NoDup_app. split; [exact N|]. split; [|apply NoDup_singleton]. intros k Y Z. apply elem_of_list_singleton in Z. apply Hk in Y. lia.
        * intros k. rewrite X, elem_of_app, elem_of_list_singleton. apply (A2 i Hi) in Q. tauto.
    - rewrite S. eapply Forall2_impl; [apply R|]. cbv beta. intros t sg (X & Y & Z). split; [exact X|]. split; apply lookup_app_l_Some; assumption.
    - rewrite E. apply R.
  Qed.

  Definition got (es : nat -> ElementStatus) (done : list (nat * (place * place))) (pl : list place) (p : place) (r : nat * Disc T) : Prop :=
    exists pl', rep es done pl' (snd r) /\ pl `prefix_of` pl' /\ pl' !! fst r = Some p.

  Lemma node_point_total es done pl d e j : rep es done pl d -> e < W * H -> j < 4 -> side sd (corner W e j) = Some NS_BOUNDARY ->
    TT (node_point ml (corner W e j) d) (got es done pl (AtNode (corner W e j))).
  Proof.
    intros R He Hj Hs. pose proof (corner_lt W H e j HW He Hj) as Hi. set (i := corner W e j) in *.
    assert (Hv : valid_place W H sd (AtNode i)) by (split; assumption).
    assert (Hc : place_coord W sd (AtNode i) (edge_point (node_xy W i) 0 n0)) by reflexivity.
    assert (Hinc : incident W (AtNode i) i) by reflexivity.
    pose proof (node_point_spec W H m sd Ht ml e j d (rp_inv _ _ _ _ R) He Hj Hs) as P. fold i in P.
    eapply wp_impl; [apply (wp_post False False _ _ (fun r => got es done pl (AtNode i) r \/
      (exists bp, fst r = length (d_points d) /\ AtNode i ∉ pl /\ d_points (snd r) = d_points d ++ [bp] /\ bp_coord bp = edge_point (node_xy W i) 0 n0 /\
        d_segs (snd r) = d_segs d /\ m_elements (d_mesh (snd r)) = m_elements (d_mesh d) /\
        (forall i', attached (snd r) i' = attached d i' ++ (if (i' =? i)%nat then [length (d_points d)] else [])))) P)|].
    - unfold node_point. apply wp_bind. eapply wp_impl; [apply (isAdded_total _ _ _ _ i (AtNode i) 0 n0 R Hi Hv Hinc Hc)|].
      intros [c [k|]] [-> Hk].
      + apply wp_ok. left. exists pl. split; [exact R|]. split; [reflexivity|exact Hk].
      + destruct (node_at _ _ _ _ i R Hi) as (n & En & _). pose proof (room _ _ _ _ i _ n R Hi Hv Hinc Hk En) as L.
        apply wp_bind. eapply wp_impl; [eapply wp_post; [apply (attach_spec W H m sd Ht ml (length (d_points d) + 1) i (length (d_points d)) d); [eapply dinv_mono; [|exact (rp_inv _ _ _ _ R)]; lia|lia]|apply (attach_total d i (length (d_points d)) n En L)]|].
        intros d1 [(D1 & _) (A1 & L1 & E1 & N1 & P1 & S1 & _)]. destruct (Hinside _ _ Hv Hc) as [bp Ebp].
        rewrite (create_total d1 _ bp (di_frame _ _ _ _ _ _ _ D1) Ebp). cbn [obind]. apply wp_ok. right. exists bp. cbn. rewrite P1.
        split; [reflexivity|]. split; [exact Hk|]. split; [reflexivity|]. split; [apply (init_fresh _ _ _ _ Ebp)|]. split; [exact S1|]. split; [exact E1|exact A1].
    - intros r [(D & Pre & _) [G|(bp & Ek & Np & Pp & Cb & Sg & El & At)]]; [exact G|]. exists (pl ++ [AtNode i]). rewrite <- (rep_len _ _ _ _ R) in *. split; [|split].
      + apply (rep_new es done pl d (snd r) (AtNode i) bp R Hv Np D Pp); [rewrite Cb; exact Hc|exact Sg|exact El| |].
        * intros i' _. rewrite At. destruct (i' =? i)%nat; [right; reflexivity|left; apply app_nil_r].
        * intros i' _. cbn [incident]. rewrite At. destruct (Nat.eqb_spec i' i); [tauto|]. rewrite app_nil_r. split; [tauto|].
          intros X. apply (f_equal length) in X. rewrite app_length in X. cbn in X. lia.
      + apply prefix_app_r. reflexivity.
      + rewrite Ek, lookup_app_r by lia. rewrite Nat.sub_diag. reflexivity.
  Qed.

  Lemma cut_point_total es done pl d e j : rep es done pl d -> e < W * H -> j < 4 -> opposite sd (corner W e j) (corner W e (next j)) ->
    TT (cut_point ml sd (corner W e j) (corner W e (next j)) j d) (got es done pl (edge_place W e j)).
  Proof.
    intros R He Hj Ho. pose proof (corner_lt W H e j HW He Hj) as Hi. pose proof (corner_lt W H e (next j) HW He (next_lt j Hj)) as Hi2.
    pose proof (edge_valid W H sd HW e j He Hj Ho) as Hv. pose proof (edge_incident W H HW e j (corner W e j) He Hj) as I1.
    pose proof (edge_incident W H HW e j (corner W e (next j)) He Hj) as I2. pose proof (fun i => edge_incident W H HW e j i He Hj) as I.
    pose proof (cut_point_spec W H m sd Ht ml e j d (rp_inv _ _ _ _ R) He Hj Ho) as P.
    pose proof (fun c => edge_coord W H sd HW e j c He Hj) as Hc0.
    set (i := corner W e j) in *. set (i2 := corner W e (next j)) in *. set (pp := edge_place W e j) in *.
    assert (Hne : i <> i2) by (intros X; rewrite <- X in Ho; destruct Ho as [[A B]|[A B]]; congruence).
    destruct (lookup_lt_is_Some_2 sd i) as [x1 E1]; [lia|]. destruct (lookup_lt_is_Some_2 sd i2) as [x2 E2]; [lia|].
    set (c := edge_point (node_xy W i) j (x1 / (x1 - x2))%num) in *.
    assert (Hc : place_coord W sd pp c) by (apply Hc0; exists x1, x2; auto).
    assert (Hinc : incident W pp i) by (apply I1; auto). assert (Hinc2 : incident W pp i2) by (apply I2; auto).
    eapply wp_impl; [apply (wp_post False False _ _ (fun r => got es done pl pp r \/
      (exists bp, fst r = length (d_points d) /\ pp ∉ pl /\ d_points (snd r) = d_points d ++ [bp] /\ bp_coord bp = c /\
        d_segs (snd r) = d_segs d /\ m_elements (d_mesh (snd r)) = m_elements (d_mesh d) /\
        (forall i', attached (snd r) i' = (attached d i' ++ (if (i' =? i)%nat then [length (d_points d)] else [])) ++
           (if (i' =? i2)%nat then [length (d_points d)] else [])))) P)|].
    - unfold cut_point. apply wp_bind, (wp_vget _ _ _ _ _ x1 E1). apply wp_bind, (wp_vget _ _ _ _ _ x2 E2).
      apply wp_bind. eapply wp_impl; [apply (isAdded_total _ _ _ _ i pp j (x1 / (x1 - x2))%num R Hi Hv Hinc Hc)|].
      intros [c' [k|]] [-> Hk].
      + apply wp_ok. left. exists pl. split; [exact R|]. split; [reflexivity|exact Hk].
      + destruct (node_at _ _ _ _ i R Hi) as (n & En & _). pose proof (room _ _ _ _ i _ n R Hi Hv Hinc Hk En) as L.
        destruct (node_at _ _ _ _ i2 R Hi2) as (n2 & En2 & _). pose proof (room _ _ _ _ i2 _ n2 R Hi2 Hv Hinc2 Hk En2) as L2.
        apply wp_bind. eapply wp_impl; [eapply wp_post; [apply (attach_spec W H m sd Ht ml (length (d_points d) + 1) i (length (d_points d)) d); [eapply dinv_mono; [|exact (rp_inv _ _ _ _ R)]; lia|lia]|apply (attach_total d i (length (d_points d)) n En L)]|].
        intros d1 [(D1 & _) (A1 & L1 & E1' & N1 & P1 & S1 & _)].
        rewrite <- (N1 i2 ltac:(auto)) in En2.
        apply wp_bind. eapply wp_impl; [eapply wp_post; [apply (attach_spec W H m sd Ht ml (length (d_points d) + 1) i2 (length (d_points d)) d1 D1); lia|apply (attach_total d1 i2 (length (d_points d)) n2 En2 L2)]|].
        intros d2 [(D2 & _) (A2 & L2' & E2' & N2 & P2 & S2 & _)].
        destruct (Hinside _ _ Hv Hc) as [bp Ebp]. fold c.
        rewrite (create_total d2 _ bp (di_frame _ _ _ _ _ _ _ D2) Ebp). cbn [obind]. apply wp_ok. right. exists bp. cbn. rewrite P2, P1.
        split; [reflexivity|]. split; [exact Hk|]. split; [reflexivity|]. split; [apply (init_fresh _ _ _ _ Ebp)|]. split; [congruence|]. split; [congruence|].
        intros i'. change (attached (set_d_points (d_points d ++ [bp]) d2) i') with (attached d2 i'). rewrite A2, A1. reflexivity.
    - intros r [(D & Pre & _) [G|(bp & Ek & Np & Pp & Cb & Sg & El & At)]]; [exact G|]. exists (pl ++ [pp]). rewrite <- (rep_len _ _ _ _ R) in *. split; [|split].
      + apply (rep_new es done pl d (snd r) pp bp R Hv Np D Pp); [rewrite Cb; exact Hc|exact Sg|exact El| |].
        * intros i' _. rewrite At. destruct (Nat.eqb_spec i' i), (Nat.eqb_spec i' i2); rewrite ?app_nil_r; auto. exfalso. congruence.
        * intros i' _. rewrite (I i'), At. destruct (Nat.eqb_spec i' i), (Nat.eqb_spec i' i2); rewrite ?app_nil_r; try tauto; [exfalso; congruence|]. split; [tauto|].
          intros X. apply (f_equal length) in X. rewrite app_length in X. cbn in X. lia.
      + apply prefix_app_r. reflexivity.
      + rewrite Ek, lookup_app_r by lia. rewrite Nat.sub_diag. reflexivity.
  Qed.

  (** ** A new segment. *)
  Lemma seg_count es done pl d e x : rep es done pl d -> m_elements (d_mesh d) !! e = Some x -> e_nSegs x = Some (cnt e done) /\ length (e_segs x) = 2.
  Proof.
    intros R Ex. pose proof (rp_inv _ _ _ _ R) as D. pose proof (tp_segs _ _ _ (mframe_topo _ _ _ _ (di_frame _ _ _ _ _ _ _ D) Ht) e x Ex) as L2.
    destruct (di_esegs _ _ _ _ _ _ _ D e x Ex) as (k & Ek & Lk & Es). split; [|exact L2]. rewrite Ek. f_equal.
    apply (f_equal length) in Es. rewrite take_length in Es. replace k with (k `min` length (e_segs x)) by lia. rewrite Es.
    pose proof (rp_segs _ _ _ _ R) as F. unfold cnt. clear - F. revert F. generalize (d_segs d) as segs. intros segs F.
    assert (X : forall l, length (segments_of (T := T) l e) = length (List.filter (fun sg => (sg_elem sg =? e)%nat) l)).
    { intros l. induction l as [|sg l IH] using rev_ind; [reflexivity|]. rewrite segments_snoc, List.filter_app, !app_length, IH. cbn [List.filter].
      destruct (_ =? _)%nat; reflexivity. }
    rewrite X. induction F as [|t sg l l' (A & _) F IH]; [reflexivity|]. cbn [List.filter]. rewrite A. destruct (_ =? _)%nat; cbn [length]; rewrite ?IH; reflexivity.
  Qed.
  Definition vert_ok (e : nat) (v : vert) : Prop :=
    match v with
    | Corner j => j < 4 /\ side sd (corner W e j) = Some NS_BOUNDARY
    | Edge j => j < 4 /\ opposite sd (corner W e j) (corner W e (next j))
    end.
  Lemma ref_place es done pl d e v a : rep es done pl d -> e < W * H -> vert_ok e v -> pl !! a = Some (glob W e v) -> ref W sd e (d_points d) a.
  Proof.
    intros R He Hv Ea. destruct (Forall2_lookup_l _ _ _ _ _ (rp_pts _ _ _ _ R) Ea) as (bp & Ebp & C). destruct v as [j|j]; destruct Hv as [Hj Hs].
    - eexists _, bp. split; [exact Ebp|]. split; [left; exists j; split; [exact Hj|split; [exact Hs|reflexivity]]|]. left. exact C.
    - pose proof (corner_lt W H e j HW He Hj) as Hi. pose proof (corner_lt W H e (next j) HW He (next_lt j Hj)) as Hi2.
      destruct (lookup_lt_is_Some_2 sd (corner W e j)) as [x1 E1]; [lia|]. destruct (lookup_lt_is_Some_2 sd (corner W e (next j))) as [x2 E2]; [lia|].
      eexists _, bp. split; [exact Ebp|]. split; [right; exists j, x1, x2; auto|]. right. apply andb_prop.
      pose proof (edge_valid W H sd HW e j He Hj Hs) as Hv.
      assert (Hinc : incident W (edge_place W e j) (corner W e j)) by (apply (edge_incident W H HW e j _ He Hj); auto).
      apply (Hapart _ _ _ _ (corner W e j) Hv Hv (edge_coord W H sd HW e j _ He Hj (ex_intro _ x1 (ex_intro _ x2 (conj E1 (conj E2 eq_refl))))) C Hinc Hinc). reflexivity.
  Qed.
  Lemma add_segment_total es done pl d e u v a b : rep es done pl d -> e < W * H -> cnt e done < 2 -> vert_ok e u -> vert_ok e v ->
    pl !! a = Some (glob W e u) -> pl !! b = Some (glob W e v) ->
    TT (add_segment e a b d) (rep es (done ++ [(e, (glob W e u, glob W e v))]) pl).
  Proof.
    intros R He Hc Vu Vv Ea Eb. pose proof (ref_place _ _ _ _ e u a R He Vu Ea) as Ra. pose proof (ref_place _ _ _ _ e v b R He Vv Eb) as Rb. pose proof (rp_inv _ _ _ _ R) as D.
    pose proof (add_segment_spec W H m sd Ht ml e a b d D He Ra Rb) as P.
    destruct (Forall2_lookup_l _ _ _ _ _ (rp_pts _ _ _ _ R) Ea) as (pa & Epa & _). destruct (Forall2_lookup_l _ _ _ _ _ (rp_pts _ _ _ _ R) Eb) as (pb & Epb & _).
    destruct (lookup_lt_is_Some_2 (m_elements (d_mesh d)) e) as [x Ex]; [rewrite (tp_lenE _ _ _ (mframe_topo _ _ _ _ (di_frame _ _ _ _ _ _ _ D) Ht)); exact He|].
    destruct (seg_count _ _ _ _ e x R Ex) as [En L2].
    set (l := coord_dist (bp_coord pa) (bp_coord pb)).
    assert (E : add_segment e a b d = Ok (mkDisc (set_elements (<[e := set_e_segs (<[cnt e done := length (d_segs d)]> (e_segs x)) (Some (cnt e done + 1)) x]> (m_elements (d_mesh d))) (d_mesh d))
      (d_points d) (d_segs d ++ [mkBS a b e l]) (d_len d + l)%num)).
    { unfold add_segment, segmentLength, vget at 1 2. rewrite Epa. cbn [obind]. rewrite Epb. cbn [obind]. unfold vget. rewrite Ex. cbn [obind].
      rewrite En. cbn [init_get obind]. unfold vset at 1. destruct (e_segs x !! cnt e done) eqn:Y; [|apply lookup_ge_None in Y; lia]. cbn [obind]. unfold vset.
      rewrite Ex. reflexivity. }
    pose proof (P _ E) as [D' Pp]. rewrite E. apply wp_ok. constructor; cbn [d_points d_segs d_mesh d_len]; auto; try apply R.
    - apply Forall2_app; [apply R|]. repeat constructor; assumption.
    - cbn. intros e' x' Hl. destruct (Nat.eq_dec e' e) as [->|Hne].
      + rewrite list_lookup_insert in Hl by eauto using lookup_lt_Some. injection Hl as <-. exact (rp_es _ _ _ _ R e x Ex).
      + rewrite list_lookup_insert_ne in Hl by auto. exact (rp_es _ _ _ _ R e' x' Hl).
  Qed.

  (** ** One element. *)
  Variable tg : bool.
  Definition edge_seen (i k : nat) : Prop := tg = true \/
    exists n, (m_nodes m !! i = Some n \/ m_nodes m !! k = Some n) /\ (nd_active n || nd_masked n) = true.
  Definition contour_seen : Prop := forall e j, e < W * H -> j < 4 ->
    opposite sd (corner W e j) (corner W e (next j)) \/ (side sd (corner W e j) = Some NS_BOUNDARY /\ side sd (corner W e (next j)) = Some NS_BOUNDARY) ->
    edge_seen (corner W e j) (corner W e (next j)).
  Hypothesis Hseen : contour_seen.

  Section Element.
    Variables (e : nat) (es : nat -> ElementStatus) (base : list (nat * (place * place))).
    Hypothesis He : e < W * H.
    Hypothesis Hbase : cnt e base = 0.
    Notation s := (sides W sd e).
    Notation L l := (map (fun '(u, v) => (e, (glob W e u, glob W e v))) l).
    Lemma cnt_L l : cnt e (base ++ L l) = length l.
    Proof.
      unfold cnt in *. rewrite List.filter_app, app_length, Hbase. cbn [Nat.add]. induction l as [|[u v] l IH]; cbn; [reflexivity|].
      rewrite Nat.eqb_refl. cbn. f_equal. exact IH.
    Qed.
    Lemma corner_side j : j < 4 -> exists st, side sd (corner W e j) = Some st /\ s j = st /\ st <> NS_NONE.
    Proof.
      intros Hj. pose proof (corner_lt W H e j HW He Hj) as Hi. destruct (side sd (corner W e j)) as [st|] eqn:E.
      - exists st. split; [reflexivity|]. split; [apply side_st, E|]. intros ->. exact (side_not_none _ _ E).
      - exfalso. unfold side in E. destruct (sd !! corner W e j) eqn:E'; [discriminate|]. apply lookup_ge_None in E'. lia.
    Qed.
    Lemma cutb_opposite j : j < 4 -> cutb (s j) (s (next j)) = true <-> opposite sd (corner W e j) (corner W e (next j)).
    Proof.
      intros Hj. destruct (corner_side j Hj) as (s1 & A1 & B1 & C1). destruct (corner_side (next j) (next_lt j Hj)) as (s2 & A2 & B2 & C2).
      unfold opposite. rewrite B1, B2, A1, A2. destruct s1, s2; cbn; split; intros X; try discriminate; auto; try (destruct X as [[X Y]|[X Y]]; discriminate).
    Qed.
    Lemma flat_snoc n : flat_segs s (n + 1) = flat_segs s n ++ (if is_boundary (s n) && is_boundary (s (next n)) then [(Corner n, Corner (next n))] else []).
    Proof. unfold flat_segs. rewrite seq_nat_snoc, flat_map_app. cbn [flat_map]. rewrite app_nil_r. reflexivity. Qed.
    Lemma cut_snoc n : cut_edges s (n + 1) = cut_edges s n ++ (if cutb (s n) (s (next n)) then [n] else []).
    Proof. unfold cut_edges. rewrite seq_nat_snoc, List.filter_app. cbn [List.filter]. destruct (cutb _ _); reflexivity. Qed.
    Lemma flat_le n : n <= 4 -> length (flat_segs s n) <= length (flat_segs s 4).
    Proof. intros Hn. unfold flat_segs. replace 4 with (n + (4 - n)) at 1 by lia. rewrite seq_app, flat_map_app, app_length. lia. Qed.
    Lemma cut_edges_ok a : In a (cut_edges s 4) -> a < 4 /\ opposite sd (corner W e a) (corner W e (next a)).
    Proof.
      intros X. apply List.filter_In in X as [X Y]. apply in_seq in X. split; [lia|]. apply cutb_opposite; [lia|exact Y].
    Qed.

    Hypothesis Hroom : length (flat_segs s 4) <= 2.
    Definition at_edge (j : nat) (st : list nat * Disc T) : Prop :=
      exists pl, rep es (base ++ L (flat_segs s j)) pl (snd st) /\ Forall2 (fun k a => pl !! k = Some (edge_place W e a)) (fst st) (cut_edges s j).

    Lemma elem_at done pl d : rep es done pl d -> exists x, m_elements (d_mesh d) !! e = Some x /\ (forall j, j < 4 -> e_nodes x !! j = Some (corner W e j)) /\ e_status x = Some (es e).
    Proof.
      intros R. pose proof (rp_inv _ _ _ _ R) as D. pose proof (mframe_topo _ _ _ _ (di_frame _ _ _ _ _ _ _ D) Ht) as Ht'.
      destruct (lookup_lt_is_Some_2 (m_elements (d_mesh d)) e) as [x Ex]; [rewrite (tp_lenE _ _ _ Ht'); exact He|].
      exists x. split; [exact Ex|]. split; [intros j Hj; exact (elem_nodes_get W H m sd Ht ml _ d e x j D Ex Hj)|exact (rp_es _ _ _ _ R e x Ex)].
    Qed.
    Lemma seen_flags done pl d i n : rep es done pl d -> m_nodes (d_mesh d) !! i = Some n -> exists n0, m_nodes m !! i = Some n0 /\ nd_active n = nd_active n0 /\ nd_masked n = nd_masked n0.
    Proof.
      intros R En. destruct (mframe_lookup _ _ _ _ (di_frame _ _ _ _ _ _ _ (rp_inv _ _ _ _ R)) En) as (n0 & E0 & X). exists n0. split; [exact E0|].
      unfold fixed_node in X. injection X as _ _ _ _ -> _ -> _ _. auto.
    Qed.

    Lemma edge_step_total j st : j < 4 -> at_edge j st -> TT (edge_step ml tg sd e j st) (at_edge (j + 1)).
    Proof.
      destruct st as [cuts d]. intros Hj (pl & R & Hc). cbn [fst snd] in *. unfold edge_step.
      destruct (elem_at _ _ _ R) as (x & Ex & Ec & _). pose proof (next_lt j Hj) as Hj'.
      apply wp_bind, (wp_vget _ _ _ _ _ x Ex). apply wp_bind, (wp_vget _ _ _ _ _ _ (Ec j Hj)). apply wp_bind, (wp_vget _ _ _ _ _ _ (Ec (next j) Hj')).
      destruct (node_at _ _ _ _ (corner W e j) R (corner_lt W H e j HW He Hj)) as (a & Ea & _ & _ & _ & _ & Sa).
      destruct (node_at _ _ _ _ (corner W e (next j)) R (corner_lt W H e (next j) HW He Hj')) as (b & Eb & _ & _ & _ & _ & Sb).
      apply wp_bind, (wp_vget _ _ _ _ _ a Ea). apply wp_bind, (wp_vget _ _ _ _ _ b Eb).
      destruct (corner_side j Hj) as (s1 & A1 & B1 & C1). destruct (corner_side (next j) Hj') as (s2 & A2 & B2 & C2).
      assert (Hvis : opposite sd (corner W e j) (corner W e (next j)) \/ (side sd (corner W e j) = Some NS_BOUNDARY /\ side sd (corner W e (next j)) = Some NS_BOUNDARY) ->
        tg || (nd_active a || nd_masked a) || (nd_active b || nd_masked b) = true).
      { intros X. destruct (Hseen e j He Hj X) as [->|(n & En & F)]; [reflexivity|].
        destruct (seen_flags _ _ _ _ _ R Ea) as (na & Ea' & X1 & X2). destruct (seen_flags _ _ _ _ _ R Eb) as (nb & Eb' & Y1 & Y2).
        rewrite X1, X2, Y1, Y2. destruct En as [En|En]; [assert (na = n) by congruence|assert (nb = n) by congruence]; subst; rewrite F, ?orb_true_r; reflexivity. }
      assert (Skip : cutb (s j) (s (next j)) = false -> is_boundary (s j) && is_boundary (s (next j)) = false -> at_edge (j + 1) (cuts, d)).
      { intros X Y. exists pl. rewrite flat_snoc, cut_snoc, X, Y, !app_nil_r. split; assumption. }
      rewrite B1, B2 in Skip.
      destruct (cutb s1 s2) eqn:Cut.
      - assert (Op : opposite sd (corner W e j) (corner W e (next j))) by (apply cutb_opposite; [exact Hj|rewrite B1, B2; exact Cut]).
        rewrite Hvis by auto. rewrite Sa, Sb, A1, A2. cbn [init_get obind]. fold (cutb s1 s2). rewrite Cut.
        apply wp_bind. eapply wp_impl; [apply (cut_point_total _ _ _ _ e j R He Hj Op)|]. intros [k d'] (pl' & R' & Pre & Ek). cbn [fst snd] in *.
        apply wp_ok. exists pl'. rewrite flat_snoc, cut_snoc, B1, B2, Cut. cbn [fst snd].
        replace (is_boundary s1 && is_boundary s2) with false by (destruct s1, s2; try discriminate; reflexivity). rewrite app_nil_r. split; [exact R'|].
        apply Forall2_app; [|repeat constructor; exact Ek]. eapply Forall2_impl; [exact Hc|]. cbv beta. intros k' a' Y. eapply prefix_lookup; eassumption.
      - specialize (Skip eq_refl). destruct (is_boundary s1 && is_boundary s2) eqn:Bd.
        + apply andb_prop in Bd as [Bd1 Bd2]. destruct s1; try discriminate. destruct s2; try discriminate.
          rewrite Hvis by auto. rewrite Sa, Sb, A1, A2. cbn [init_get obind is_inside is_outside is_boundary andb orb].
          apply wp_bind. eapply wp_impl; [apply (node_point_total _ _ _ _ e j R He Hj A1)|]. intros [k1 d1] (pl1 & R1 & Pre1 & Ek1). cbn [fst snd] in *.
          apply wp_bind. eapply wp_impl; [apply (node_point_total _ _ _ _ e (next j) R1 He Hj' A2)|]. intros [k2 d2] (pl2 & R2 & Pre2 & Ek2). cbn [fst snd] in *.
          apply wp_bind. eapply wp_impl; [apply (add_segment_total _ _ _ _ e (Corner j) (Corner (next j)) k1 k2 R2 He)|].
          * rewrite cnt_L. pose proof (flat_le (j + 1) ltac:(lia)) as F. rewrite flat_snoc, B1, B2, app_length in F. cbn [is_boundary andb length] in F. lia.
          * split; assumption.
          * split; assumption.
          * eapply prefix_lookup; eassumption.
          * exact Ek2.
          * intros d3 R3. apply wp_ok. exists pl2. cbn [fst snd]. rewrite flat_snoc, cut_snoc, B1, B2. cbn [cutb is_inside is_outside is_boundary andb orb].
            rewrite app_nil_r, map_app, app_assoc. split; [exact R3|]. eapply Forall2_impl; [exact Hc|]. cbv beta. intros k' a' Y. eapply prefix_lookup; [eassumption|].
            etransitivity; eassumption.
        + specialize (Skip eq_refl). destruct (tg || _ || _); [|apply wp_ok, Skip]. rewrite Sa, Sb, A1, A2. cbn [init_get obind].
          fold (cutb s1 s2). rewrite Cut, Bd. apply wp_ok, Skip.
    Qed.

    Lemma edges_total d pl : rep es base pl d -> TT (for_ 4 (edge_step ml tg sd e) ([], d)) (at_edge 4).
    Proof.
      intros R. apply (wp_for _ _ at_edge).
      - exists pl. cbn. rewrite app_nil_r. split; [exact R|constructor].
      - intros k st Hk Hst. rewrite <- Nat.add_1_r. apply edge_step_total; assumption.
      - auto.
    Qed.

    (** Facts about one element, by cases on the sides of its corners. *)
    Ltac sides4 := destruct (corner_side 0 ltac:(lia)) as (s0 & _ & S0 & N0); destruct (corner_side 1 ltac:(lia)) as (s1 & _ & S1 & N1);
      destruct (corner_side 2 ltac:(lia)) as (s2 & _ & S2 & N2); destruct (corner_side 3 ltac:(lia)) as (s3 & _ & S3 & N3).
    Lemma cuts_number : length (cut_edges s 4) <> 3 /\ length (cut_edges s 4) <= 4.
    Proof.
      sides4. unfold cut_edges. cbn [seq List.filter]. change (next 0) with 1. change (next 1) with 2. change (next 2) with 3. change (next 3) with 0. rewrite S0, S1, S2, S3.
      destruct s0, s1, s2, s3; cbn; try contradiction; lia.
    Qed.
    Lemma no_cut_two : cut_edges s 4 = [] -> corners_where s is_outside 4 <> [] -> corners_where s is_inside 4 <> [] ->
      exists a b l, corners_where s is_boundary 4 = a :: b :: l.
    Proof.
      sides4. unfold cut_edges, corners_where. cbn [seq List.filter]. change (next 0) with 1. change (next 1) with 2. change (next 2) with 3. change (next 3) with 0. rewrite S0, S1, S2, S3.
      destruct s0, s1, s2, s3; cbn; try contradiction; try discriminate; intros; try contradiction; eauto.
    Qed.
    Lemma where_ok f a : In a (corners_where s f 4) -> a < 4 /\ f (s a) = true.
    Proof. intros X. apply List.filter_In in X as [X Y]. apply in_seq in X. split; [lia|exact Y]. Qed.
    Lemma boundary_corner a : a < 4 -> is_boundary (s a) = true -> side sd (corner W e a) = Some NS_BOUNDARY.
    Proof. intros Ha X. destruct (corner_side a Ha) as (st & A & B & _). rewrite B in X. destruct st; try discriminate. exact A. Qed.
    Lemma status_total done pl d j : rep es done pl d -> j < 4 -> node_status (d_mesh d) (corner W e j) = Ok (s j).
    Proof.
      intros R Hj. destruct (node_at _ _ _ _ _ R (corner_lt W H e j HW He Hj)) as (n & En & _ & _ & _ & _ & Sn).
      destruct (corner_side j Hj) as (st & A & B & _). unfold node_status, vget. rewrite En. cbn [obind]. rewrite Sn, A. cbn. rewrite B. reflexivity.
    Qed.

    (** One cut. *)
    Lemma exit_snoc a n : exit_segs s a (n + 1) = exit_segs s a n ++
      (if is_boundary (s n) && (is_outside (s (next n)) || is_outside (s (prev n))) then [(Edge a, Corner n)] else []).
    Proof. unfold exit_segs. rewrite seq_nat_snoc, flat_map_app. cbn [flat_map]. rewrite app_nil_r. reflexivity. Qed.
    Lemma exit_le a n : n <= 4 -> length (exit_segs s a n) <= length (exit_segs s a 4).
    Proof. intros Hn. unfold exit_segs. replace 4 with (n + (4 - n)) at 1 by lia. rewrite seq_app, flat_map_app, app_length. lia. Qed.
    Lemma prev_lt j : j < 4 -> prev j < 4.
    Proof. intros Hj. unfold prev. destruct (j =? 0)%nat; lia. Qed.
    Lemma one_cut_total a p0 d : a < 4 -> opposite sd (corner W e a) (corner W e (next a)) -> length (flat_segs s 4 ++ exit_segs s a 4) <= 2 ->
      (exists pl, rep es (base ++ L (flat_segs s 4)) pl d /\ pl !! p0 = Some (edge_place W e a)) ->
      TT (for_ 4 (one_cut_step ml e p0) d) (fun d' => exists pl, rep es (base ++ L (flat_segs s 4 ++ exit_segs s a 4)) pl d').
    Proof.
      intros Ha Op Hl (pl & R & Ep). apply (wp_for _ _ (fun j d => exists pl, rep es (base ++ L (flat_segs s 4 ++ exit_segs s a j)) pl d /\ pl !! p0 = Some (edge_place W e a))).
      - exists pl. cbn [exit_segs seq flat_map]. rewrite app_nil_r. split; assumption.
      - intros j d' Hj (pl' & R' & Ep'). replace (S j) with (j + 1) by lia. unfold one_cut_step. destruct (elem_at _ _ _ R') as (x & Ex & Ec & _).
        apply wp_bind, (wp_vget _ _ _ _ _ x Ex). apply wp_bind, (wp_vget _ _ _ _ _ _ (Ec j Hj)).
        rewrite (status_total _ _ _ j R' Hj). cbn [obind]. destruct (is_boundary (s j)) eqn:Eb.
        + apply wp_bind, (wp_vget _ _ _ _ _ _ (Ec (next j) (next_lt j Hj))). apply wp_bind, (wp_vget _ _ _ _ _ _ (Ec (prev j) (prev_lt j Hj))).
          rewrite (status_total _ _ _ (next j) R' (next_lt j Hj)), (status_total _ _ _ (prev j) R' (prev_lt j Hj)). cbn [obind].
          destruct (is_outside (s (next j)) || is_outside (s (prev j))) eqn:Eo.
          * pose proof (boundary_corner j Hj Eb) as Sj.
            apply wp_bind. eapply wp_impl; [apply (node_point_total _ _ _ _ e j R' He Hj Sj)|]. intros [k d1] (pl1 & R1 & Pre1 & Ek). cbn [fst snd] in *.
            eapply wp_impl; [apply (add_segment_total _ _ _ _ e (Edge a) (Corner j) p0 k R1 He)|].
            -- rewrite cnt_L. pose proof (exit_le a (j + 1) ltac:(lia)) as F. rewrite exit_snoc, Eb, Eo, app_length in F. rewrite app_length in *. cbn [andb length] in F. lia.
            -- split; assumption.
            -- split; assumption.
            -- eapply prefix_lookup; eassumption.
            -- exact Ek.
            -- intros d2 R2. exists pl1. rewrite exit_snoc, Eb, Eo. cbn [andb]. rewrite app_assoc, map_app, app_assoc. split; [exact R2|]. eapply prefix_lookup; eassumption.
          * apply wp_ok. exists pl'. rewrite exit_snoc, Eb, Eo. cbn [andb]. rewrite app_nil_r. split; assumption.
        + apply wp_ok. exists pl'. rewrite exit_snoc, Eb. cbn [andb]. rewrite app_nil_r. split; assumption.
      - intros d' (pl' & R' & _). exists pl'. exact R'.
    Qed.

    (** No cut. *)
    Lemma where_snoc f n : corners_where s f (n + 1) = corners_where s f n ++ (if f (s n) then [n] else []).
    Proof. unfold corners_where. rewrite seq_nat_snoc, List.filter_app. cbn [List.filter]. destruct (f _); reflexivity. Qed.
    Lemma boundary_nodes_total done pl d x : rep es done pl d -> m_elements (d_mesh d) !! e = Some x ->
      TT (for_ 4 (boundary_node_step (d_mesh d) x) []) (fun l => l = map (corner W e) (corners_where s is_boundary 4)).
    Proof.
      intros R Ex. destruct (elem_at _ _ _ R) as (x' & Ex' & Ec & _). assert (x' = x) by congruence. subst x'.
      apply (wp_for _ _ (fun j l => l = map (corner W e) (corners_where s is_boundary j))); [reflexivity| |auto].
      intros j l Hj ->. replace (S j) with (j + 1) by lia. unfold boundary_node_step. apply wp_bind, (wp_vget _ _ _ _ _ _ (Ec j Hj)).
      rewrite (status_total _ _ _ j R Hj). cbn [obind]. apply wp_ok. rewrite where_snoc. destruct (is_boundary (s j)); rewrite ?app_nil_r, ?map_app; reflexivity.
    Qed.
    Lemma no_cuts_total pl d a b l : corners_where s is_boundary 4 = a :: b :: l -> length (flat_segs s 4) < 2 -> rep es (base ++ L (flat_segs s 4)) pl d ->
      TT (no_cuts ml e d) (fun d' => exists pl, rep es (base ++ L (flat_segs s 4 ++ [(Corner a, Corner b)])) pl d').
    Proof.
      intros Ew Hl R. unfold no_cuts. destruct (elem_at _ _ _ R) as (x & Ex & Ec & _). apply wp_bind, (wp_vget _ _ _ _ _ x Ex).
      apply wp_bind. eapply wp_impl; [apply (boundary_nodes_total _ _ _ x R Ex)|]. intros ? ->. rewrite Ew. cbn [map].
      destruct (where_ok is_boundary a) as [Ha Ba]; [rewrite Ew; left; reflexivity|]. destruct (where_ok is_boundary b) as [Hb Bb]; [rewrite Ew; right; left; reflexivity|].
      apply (boundary_corner a Ha) in Ba. apply (boundary_corner b Hb) in Bb.
      cbn [vget lookup list_lookup obind]. unfold vget. cbn [lookup list_lookup obind].
      apply wp_bind. eapply wp_impl; [apply (node_point_total _ _ _ _ e a R He Ha Ba)|]. intros [k1 d1] (pl1 & R1 & Pre1 & Ek1). cbn [fst snd] in *.
      apply wp_bind. eapply wp_impl; [apply (node_point_total _ _ _ _ e b R1 He Hb Bb)|]. intros [k2 d2] (pl2 & R2 & Pre2 & Ek2). cbn [fst snd] in *.
      eapply wp_impl; [apply (add_segment_total _ _ _ _ e (Corner a) (Corner b) k1 k2 R2 He)|].
      - rewrite cnt_L. exact Hl.
      - split; assumption.
      - split; assumption.
      - eapply prefix_lookup; eassumption.
      - exact Ek2.
      - intros d3 R3. exists pl2. rewrite map_app, app_assoc. exact R3.
    Qed.

    (** Four cuts. *)
    Definition settle (st : ElementStatus) : nat -> ElementStatus := fun e' => if (e' =? e)%nat then st else es e'.
    Lemma sum_total done pl d x : rep es done pl d -> m_elements (d_mesh d) !! e = Some x ->
      exists a b c d', sd !! corner W e 0 = Some a /\ sd !! corner W e 1 = Some b /\ sd !! corner W e 2 = Some c /\ sd !! corner W e 3 = Some d' /\
        for_ 4 (lsf_step sd x) n0 = Ok (n0 + a + b + c + d')%num.
    Proof.
      intros R Ex. destruct (elem_at _ _ _ R) as (x' & Ex' & Ec & _). assert (x' = x) by congruence. subst x'.
      assert (G : forall j, j < 4 -> exists v, sd !! corner W e j = Some v).
      { intros j Hj. apply lookup_lt_is_Some_2. pose proof (corner_lt W H e j HW He Hj). lia. }
      destruct (G 0 ltac:(lia)) as [a Ea]. destruct (G 1 ltac:(lia)) as [b Eb]. destruct (G 2 ltac:(lia)) as [c Ec']. destruct (G 3 ltac:(lia)) as [d' Ed].
      exists a, b, c, d'. repeat (split; [assumption|]). unfold for_. cbn [for_from]. unfold lsf_step, vget.
      rewrite (Ec 0), (Ec 1), (Ec 2), (Ec 3) by lia. cbn [obind]. rewrite Ea. cbn [obind]. rewrite Eb. cbn [obind]. rewrite Ec'. cbn [obind]. rewrite Ed. reflexivity.
    Qed.
    Lemma rep_settle done pl d x st : rep es done pl d -> m_elements (d_mesh d) !! e = Some x -> final_class W sd e st ->
      rep (settle st) done pl (set_d_mesh (set_elements (<[e := set_e_status (Some st) x]> (m_elements (d_mesh d))) (d_mesh d)) d).
    Proof.
      intros R Ex Hf. destruct R. constructor; auto.
      - destruct rp_inv0. constructor; cbn -[segments_of take]; auto.
        + eapply mframe_elem; [exact di_frame|exact Ex|reflexivity].
        + intros e' x' Hl. destruct (Nat.eq_dec e' e) as [->|Hne].
          * rewrite list_lookup_insert in Hl by eauto using lookup_lt_Some. injection Hl as <-. cbn. eauto.
          * rewrite list_lookup_insert_ne in Hl by auto. auto.
        + intros e' x' Hl. destruct (Nat.eq_dec e' e) as [->|Hne].
          * rewrite list_lookup_insert in Hl by eauto using lookup_lt_Some. injection Hl as <-. exact (di_esegs e x Ex).
          * rewrite list_lookup_insert_ne in Hl by auto. auto.
      - cbn. intros e' x' Hl. unfold settle. destruct (Nat.eqb_spec e' e) as [->|Hne].
        + rewrite list_lookup_insert in Hl by eauto using lookup_lt_Some. injection Hl as <-. reflexivity.
        + rewrite list_lookup_insert_ne in Hl by auto. auto.
    Qed.
    Lemma four_cuts_total a0 a1 a2 a3 cuts d pl : cut_edges s 4 = [a0; a1; a2; a3] -> flat_segs s 4 = [] ->
      rep es (base ++ L (flat_segs s 4)) pl d -> Forall2 (fun k a => pl !! k = Some (edge_place W e a)) cuts [a0; a1; a2; a3] ->
      TT (four_cuts sd e cuts d) (fun d' => exists pl, rep (settle (final_status W sd e)) (base ++ L (through_segs s (saddle W sd e))) pl d').
    Proof.
      intros Ecut Ef R Hc. rewrite Ef in R. cbn [map] in R. rewrite app_nil_r in R.
      assert (Ok4 : forall a, In a [a0; a1; a2; a3] -> vert_ok e (Edge a)).
      { intros a Ha. rewrite <- Ecut in Ha. apply cut_edges_ok in Ha. exact Ha. }
      assert (Alt : alternating W sd e).
      { assert (X : forall j, j < 4 -> In j (cut_edges s 4)).
        { assert (E : cut_edges s 4 = seq 0 4).
          { unfold cut_edges in *. revert Ecut. cbn [seq List.filter].
            destruct (cutb (s 0) _); destruct (cutb (s 1) _); destruct (cutb (s 2) _); destruct (cutb (s 3) _); try discriminate; reflexivity. }
          intros j Hj. rewrite E. apply in_seq. lia. }
        intros j Hj. apply (cut_edges_ok j (X j Hj)). }
      inversion Hc as [|p0 ? ? ? K0 Hc1]; subst. inversion Hc1 as [|p1 ? ? ? K1 Hc2]; subst.
      inversion Hc2 as [|p2 ? ? ? K2 Hc3]; subst. inversion Hc3 as [|p3 ? ? ? K3 Hc4]; subst. inversion Hc4; subst.
      unfold four_cuts. destruct (elem_at _ _ _ R) as (x & Ex & Ec & _). apply wp_bind, (wp_vget _ _ _ _ _ x Ex).
      destruct (sum_total _ _ _ x R Ex) as (v0 & v1 & v2 & v3 & V0 & V1 & V2 & V3 & Es). rewrite Es. cbn [obind].
      apply wp_bind, (wp_vget _ _ _ _ _ _ (Ec 0 ltac:(lia))). rewrite (status_total _ _ _ 0 R) by lia. cbn [obind].
      unfold vget at 1 2 3 4. cbn [lookup list_lookup obind].
      set (sum := (n0 + v0 + v1 + v2 + v3)%num) in *.
      assert (Sad : saddle W sd e = (is_inside (s 0) && (sum >? n0)%num) || (is_outside (s 0) && (sum <? n0)%num)).
      { unfold saddle. rewrite V0, V1, V2, V3. reflexivity. }
      rewrite <- Sad. unfold through_segs. rewrite Ecut.
      apply wp_bind. apply wp_impl with (P := fun d' => exists pl, rep es (base ++ L (if saddle W sd e then [(Edge a0, Edge a1); (Edge a2, Edge a3)] else [(Edge a0, Edge a3); (Edge a1, Edge a2)])) pl d').
      { assert (C1 : forall u v, cnt e (base ++ [(e, (glob W e u, glob W e v))]) < 2) by (intros u v; pose proof (cnt_L [(u, v)]) as X; cbn [map length] in X; lia).
        destruct (saddle W sd e).
        - apply wp_bind. eapply wp_impl; [apply (add_segment_total _ _ _ _ e (Edge a0) (Edge a1) p0 p1 R He); auto|]. 
          + lia.
          + apply Ok4. cbn. auto.
          + apply Ok4. cbn. auto.
          + intros d1 R1. eapply wp_impl; [apply (add_segment_total _ _ _ _ e (Edge a2) (Edge a3) p2 p3 R1 He); auto; apply Ok4; cbn; auto|].
            intros d2 R2. exists pl. rewrite <- app_assoc in R2. exact R2.
        - apply wp_bind. eapply wp_impl; [apply (add_segment_total _ _ _ _ e (Edge a0) (Edge a3) p0 p3 R He); auto|].
          + lia.
          + apply Ok4. cbn. auto.
          + apply Ok4. cbn. auto.
          + intros d1 R1. eapply wp_impl; [apply (add_segment_total _ _ _ _ e (Edge a1) (Edge a2) p1 p2 R1 He); auto; apply Ok4; cbn; auto|].
            intros d2 R2. exists pl. rewrite <- app_assoc in R2. exact R2. }
      intros d1 (pl1 & R1). destruct (elem_at _ _ _ R1) as (x1 & Ex1 & _ & _).
      unfold elem_mod, vmod. rewrite Ex1. cbn [obind]. apply wp_ok. exists pl1.
      assert (F : (if (sum >? n0)%num then ES_CENTRE_INSIDE else ES_CENTRE_OUTSIDE) = final_status W sd e).
      { unfold final_status, centre_positive. rewrite Ecut, V0, V1, V2, V3. reflexivity. }
      rewrite F. apply rep_settle; [exact R1|exact Ex1|]. rewrite <- F.
      assert (Su : elem_sum W sd e = Some sum) by (unfold elem_sum; rewrite V0, V1, V2, V3; reflexivity).
      destruct (n0 <? sum)%num eqn:Ls; (split; [exact Alt|]); exists sum; split; assumption.
    Qed.

    Lemma rep_ext es' done pl d : (forall e', e' < W * H -> es e' = es' e') -> rep es done pl d -> rep es' done pl d.
    Proof.
      intros X R. pose proof (mframe_topo _ _ _ _ (di_frame _ _ _ _ _ _ _ (rp_inv _ _ _ _ R)) Ht) as Ht'. destruct R. constructor; auto.
      intros e' x Ex. rewrite <- X; [auto|]. rewrite <- (tp_lenE _ _ _ Ht'). eauto using lookup_lt_Some.
    Qed.
  End Element.

  (** The whole element. *)
  Lemma element_total e es base pl d : e < W * H -> cnt e base = 0 -> length (elem_graph W sd e) <= 2 -> es e = base_status (sides W sd e) ->
    rep es base pl d ->
    TT (element_step ml tg sd e d) (fun d' => exists pl', rep (settle e es (final_status W sd e)) (base ++ map (pair e) (elem_graph W sd e)) pl' d').
  Proof.
    intros He Hb Hg Hes R. unfold element_step. destruct (elem_at e es He _ _ _ R) as (x & Ex & _ & Est).
    apply wp_bind, (wp_vget _ _ _ _ _ x Ex). rewrite Est. cbn [init_get obind]. rewrite Hes.
    set (s := sides W sd e) in *. unfold elem_graph in *. rewrite map_length in Hg.
    replace (map (pair e) (map (fun '(u, v) => (glob W e u, glob W e v)) (local_segs (sides W sd e) (saddle W sd e)))) with
      (map (fun '(u, v) => (e, (glob W e u, glob W e v))) (local_segs s (saddle W sd e))) by (unfold s; rewrite map_map; apply map_ext; intros [u v]; reflexivity).
    change (sides W sd e) with s in Hg.
    assert (Keep : forall l d', final_status W sd e = base_status s -> (exists pl', rep es l pl' d') -> exists pl', rep (settle e es (final_status W sd e)) l pl' d').
    { intros l d' Hf (pl' & R'). exists pl'. eapply rep_ext; [|exact R']. intros e' He'. unfold settle. destruct (Nat.eqb_spec e' e) as [->|]; [congruence|reflexivity]. }
    assert (Main : base_status s <> ES_OUTSIDE ->
      TT (let! (cuts, d0) := for_ 4 (edge_step ml tg sd e) ([], d) in
        match cuts with
        | [p0; p1] => add_segment e p0 p1 d0
        | [p0] => for_ 4 (one_cut_step ml e p0) d0
        | [_; _; _; _] => four_cuts sd e cuts d0
        | [] => match base_status s with ES_INSIDE => Ok d0 | _ => no_cuts ml e d0 end
        | _ => Ok d0
        end) (fun d' => exists pl', rep (settle e es (final_status W sd e)) (base ++ map (fun '(u, v) => (e, (glob W e u, glob W e v))) (local_segs s (saddle W sd e))) pl' d')).
    { intros Hno. assert (El : local_segs s (saddle W sd e) = flat_segs s 4 ++ through_segs s (saddle W sd e)).
      { unfold local_segs. unfold base_status in Hno. destruct (corners_where s is_outside 4); [reflexivity|]. destruct (corners_where s is_inside 4); [contradiction|reflexivity]. }
      rewrite El in *. rewrite app_length in Hg.
      apply wp_bind. eapply wp_impl; [apply (edges_total e es base He Hb ltac:(fold s; lia) d pl R)|].
      intros [cuts d1] (pl1 & R1 & Hc). cbn [fst snd] in *. fold s in R1, Hc.
      assert (Hfl : length (flat_segs (sides W sd e) 4) <= 2) by (fold s; lia).
      pose proof (cuts_number e es base He Hb Hfl) as [N3 N4]. fold s in N3, N4.
      pose proof (fun a => cut_edges_ok e es base He Hb a) as CO. fold s in CO.
      destruct (cut_edges s 4) as [|a0 [|a1 [|a2 [|a3 [|a4 l]]]]] eqn:Ecut; [| | |exfalso; apply N3; reflexivity| |exfalso; cbn in N4; lia].
      - inversion Hc; subst cuts. assert (Ff : final_status W sd e = base_status s) by (unfold final_status; fold s; rewrite Ecut; reflexivity).
        assert (Et : through_segs s (saddle W sd e) = match corners_where s is_outside 4, corners_where s is_boundary 4 with _ :: _, a :: b :: _ => [(Corner a, Corner b)] | _, _ => [] end)
          by (unfold through_segs; rewrite Ecut; reflexivity).
        destruct (corners_where s is_outside 4) as [|o ol] eqn:Eo.
        + replace (base_status s) with ES_INSIDE by (unfold base_status; rewrite Eo; reflexivity). apply wp_ok. apply (Keep _ _ Ff). exists pl1. rewrite Et, app_nil_r. exact R1.
        + destruct (corners_where s is_inside 4) as [|i il] eqn:Ei; [exfalso; apply Hno; unfold base_status; rewrite Eo, Ei; reflexivity|].
          destruct (no_cut_two e es base He Hb Hfl Ecut) as (a & b & l & Ew); [fold s; rewrite Eo; discriminate|fold s; rewrite Ei; discriminate|]. fold s in Ew. rewrite Ew in Et. rewrite Et in Hg. cbn [length] in Hg.
          replace (base_status s) with ES_NONE by (unfold base_status; rewrite Eo, Ei; reflexivity).
          eapply wp_impl; [apply (no_cuts_total e es base He Hb Hfl pl1 d1 a b l Ew); [fold s; lia|exact R1]|]. intros d2 R2. apply (Keep _ _ Ff). rewrite Et. exact R2.
      - inversion Hc as [|p0 ? ? ? K0 Hc1]; subst. inversion Hc1; subst. assert (Ff : final_status W sd e = base_status s) by (unfold final_status; fold s; rewrite Ecut; reflexivity).
        assert (Et : through_segs s (saddle W sd e) = exit_segs s a0 4) by (unfold through_segs; rewrite Ecut; reflexivity). rewrite Et in *.
        destruct (CO a0 (or_introl eq_refl)) as [Ha Op].
        eapply wp_impl; [apply (one_cut_total e es base He Hb Hfl a0 p0 d1 Ha Op); [fold s; rewrite app_length; lia|exists pl1; split; assumption]|].
        intros d2 R2. apply (Keep _ _ Ff). exact R2.
      - inversion Hc as [|p0 ? ? ? K0 Hc1]; subst. inversion Hc1 as [|p1 ? ? ? K1 Hc2]; subst. inversion Hc2; subst.
        assert (Ff : final_status W sd e = base_status s) by (unfold final_status; fold s; rewrite Ecut; reflexivity).
        assert (Et : through_segs s (saddle W sd e) = [(Edge a0, Edge a1)]) by (unfold through_segs; rewrite Ecut; reflexivity). rewrite Et in *. cbn [length] in Hg.
        eapply wp_impl; [apply (add_segment_total _ _ _ _ e (Edge a0) (Edge a1) p0 p1 R1 He); auto|].
        + rewrite (cnt_L e base Hb). fold s. lia.
        + apply CO. left. reflexivity.
        + apply CO. right. left. reflexivity.
        + intros d2 R2. apply (Keep _ _ Ff). exists pl1. rewrite map_app, app_assoc. exact R2.
      - assert (Ff : flat_segs s 4 = []).
        { assert (length (through_segs s (saddle W sd e)) = 2) by (unfold through_segs; rewrite Ecut; destruct (saddle W sd e); reflexivity).
          destruct (flat_segs s 4); [reflexivity|]. cbn in Hg. lia. }
        assert (Lc : exists p0 p1 p2 p3, cuts = [p0; p1; p2; p3]).
        { inversion Hc as [|p0 ? ? ? K0 Hc1]; subst. inversion Hc1 as [|p1 ? ? ? K1 Hc2]; subst.
          inversion Hc2 as [|p2 ? ? ? K2 Hc3]; subst. inversion Hc3 as [|p3 ? ? ? K3 Hc4]; subst. inversion Hc4; subst. eauto. }
        destruct Lc as (p0 & p1 & p2 & p3 & ->). rewrite Ff. cbn [app].
        apply (four_cuts_total e es base He Hb Hfl a0 a1 a2 a3 _ d1 pl1 Ecut Ff R1 Hc). }
    destruct (base_status s) eqn:Eb; try (apply Main; discriminate).
    apply wp_ok. assert (El : local_segs s (saddle W sd e) = []).
    { unfold local_segs. unfold base_status in Eb. destruct (corners_where s is_outside 4); [discriminate|]. destruct (corners_where s is_inside 4); [reflexivity|discriminate]. }
    rewrite El. cbn [map]. rewrite app_nil_r. exists pl. eapply rep_ext; [|exact R]. intros e' He'. unfold settle. destruct (Nat.eqb_spec e' e) as [->|]; [|reflexivity].
    rewrite Hes. unfold final_status. fold s.
    assert (Nc : cut_edges s 4 = []).
    { unfold base_status in Eb. destruct (corners_where s is_outside 4) as [|o ol] eqn:Eo; [discriminate|]. destruct (corners_where s is_inside 4) as [|i il] eqn:Ei; [|discriminate].
      clear - Ei. unfold corners_where in Ei. unfold cut_edges, cutb. cbn [seq List.filter] in *. change (next 0) with 1. change (next 1) with 2. change (next 2) with 3. change (next 3) with 0.
      destruct (is_inside (s 0)); [discriminate|]. destruct (is_inside (s 1)); [discriminate|]. destruct (is_inside (s 2)); [discriminate|]. destruct (is_inside (s 3)); [discriminate|].
      rewrite !andb_false_r. reflexivity. }
    rewrite Nc. symmetry. exact Eb.
  Qed.

  (** ** All elements. *)
  Lemma graph_snoc n : graph_upto W sd (n + 1) = graph_upto W sd n ++ map (pair n) (elem_graph W sd n).
  Proof. unfold graph_upto. rewrite seq_nat_snoc, flat_map_app. cbn [flat_map]. rewrite app_nil_r. reflexivity. Qed.
  Lemma cnt_fresh n : cnt n (graph_upto W sd n) = 0.
  Proof.
    assert (X : forall l, (forall e, In e l -> e <> n) -> cnt n (flat_map (fun e => map (pair e) (elem_graph W sd e)) l) = 0).
    { induction l as [|e l IH]; intros Hl; [reflexivity|]. unfold cnt in *. cbn [flat_map]. rewrite List.filter_app, app_length, IH by (intros; apply Hl; right; assumption).
      assert (e <> n) by (apply Hl; left; reflexivity). induction (elem_graph W sd e) as [|t r IHr]; [reflexivity|]. cbn.
      destruct (Nat.eqb_spec e n); [contradiction|]. exact IHr. }
    apply X. intros e He. apply in_seq in He. lia.
  Qed.
  Hypothesis Hfew : forall e, e < W * H -> length (elem_graph W sd e) <= 2.
  Definition es_upto (n e : nat) : ElementStatus := if (e <? n)%nat then final_status W sd e else base_status (sides W sd e).
  Lemma loop_total m1 : rep (es_upto 0) [] [] (mkDisc m1 [] [] n0) -> m_nElements m1 = W * H ->
    TT (for_ (m_nElements m1) (element_step ml tg sd) (mkDisc m1 [] [] n0)) (fun d => exists pl, rep (final_status W sd) (graph_upto W sd (W * H)) pl d).
  Proof.
    intros R0 ->. apply wp_impl with (P := fun d => exists pl, rep (es_upto (W * H)) (graph_upto W sd (W * H)) pl d).
    - apply (wp_for False False (fun k d => exists pl, rep (es_upto k) (graph_upto W sd k) pl d)); [exists []; exact R0| |intros d X; exact X].
      intros e d He (pl & R). replace (S e) with (e + 1) by lia.
      eapply wp_impl; [apply (element_total e (es_upto e) _ pl d He (cnt_fresh e) (Hfew e He)); [unfold es_upto; rewrite Nat.ltb_irrefl; reflexivity|exact R]|].
      intros d' (pl' & R'). exists pl'. rewrite graph_snoc. eapply rep_ext; [|exact R']. intros e' _. unfold settle, es_upto.
      destruct (Nat.eqb_spec e' e) as [->|Hne]; [destruct (Nat.ltb_spec e (e + 1)); [reflexivity|lia]|].
      destruct (Nat.ltb_spec e' e), (Nat.ltb_spec e' (e + 1)); try reflexivity; lia.
    - intros d (pl & R). exists pl. eapply rep_ext; [|exact R]. intros e He. unfold es_upto. destruct (Nat.ltb_spec e (W * H)); [reflexivity|lia].
  Qed.

  (** ** The status of the mesh. *)
  Lemma status_total' : TT (computeMeshStatus m sd) (status_ok W H m sd).
  Proof.
    eapply wp_impl; [apply (wp_post False False _ (status_ok W H m sd) (fun _ => True)); [apply (status_spec W H m sd Ht)|]|intros ? [X _]; exact X].
    unfold computeMeshStatus. apply wp_bind. eapply wp_impl; [apply wp_post with (Q := fun _ => True); [apply (status_nodes_spec W H m sd Ht)|]|].
    - apply wp_impl with (P := fun m1 => length (m_nodes m1) = node_count W H); [|auto]. rewrite (tp_nN _ _ _ Ht).
      apply (wp_for False False (fun _ m1 => length (m_nodes m1) = node_count W H)); [exact (tp_lenN _ _ _ Ht)| |auto].
      intros k m1 Hk L. unfold status_node. apply wp_bind, wp_vget_lt; [lia|]. intros x Hx. unfold node_mod, vmod.
      destruct (lookup_lt_is_Some_2 (m_nodes m1) k) as [n En]; [lia|]. rewrite En. cbn [obind]. apply wp_ok. cbn. rewrite insert_length. exact L.
    - intros m1 ((F1 & E1 & _ & P1) & _). pose proof (mframe_topo _ _ _ _ F1 Ht) as Ht1.
      rewrite (tp_nE _ _ _ Ht1).
      apply (wp_for False False (fun _ m2 => mframe m m2 /\ m_nodes m2 = m_nodes m1)); [split; [exact F1|reflexivity]| |auto].
      + intros k m2 Hk (F2 & E2). pose proof (mframe_topo _ _ _ _ F2 Ht) as Ht2. unfold status_element.
        destruct (lookup_lt_is_Some_2 (m_elements m2) k) as [x Ex]; [rewrite (tp_lenE _ _ _ Ht2); exact Hk|].
        apply wp_bind, (wp_vget _ _ _ _ _ x Ex). apply wp_bind. apply wp_impl with (P := fun _ => True).
        * apply (wp_for False False (fun _ _ => True)); [exact I| |auto]. intros j [a b] Hj _. unfold tally_step.
          destruct (tp_elem _ _ _ Ht2 k x Ex) as [_ En]. rewrite En. apply wp_bind, (wp_vget _ _ _ _ _ _ (corner_lookup W k j Hj)).
          unfold node_status. pose proof (corner_lt W H k j HW Hk Hj) as L. destruct (lookup_lt_is_Some_2 (m_nodes m2) (corner W k j)) as [n Enn]; [rewrite (tp_lenN _ _ _ Ht2); exact L|].
          apply wp_bind, wp_bind, (wp_vget _ _ _ _ _ n Enn). rewrite E2 in Enn. rewrite (proj1 (P1 _ _ Enn)).
          unfold side. destruct (lookup_lt_is_Some_2 sd (corner W k j)) as [v Ev]; [lia|]. rewrite Ev. apply wp_ok, wp_ok, I.
        * intros [a b] _. unfold elem_mod, vmod. rewrite Ex. cbn [obind]. apply wp_ok. cbn. split; [|exact E2]. eapply mframe_elem; [exact F2|exact Ex|reflexivity].
  Qed.
  Lemma base_class e st : e < W * H -> class_ok W sd e st -> st = base_status (sides W sd e).
  Proof.
    intros He C. assert (G : forall j, j < 4 -> exists st, side sd (corner W e j) = Some st /\ sides W sd e j = st).
    { intros j Hj. pose proof (corner_lt W H e j HW He Hj) as L. destruct (lookup_lt_is_Some_2 sd (corner W e j)) as [v Ev]; [lia|].
      unfold sides, st_of, side. rewrite Ev. eexists. split; reflexivity. }
    assert (X : forall f st', (forall s, f s = true <-> s = st') -> (corners_where (sides W sd e) f 4 = [] <-> forall j, j < 4 -> side sd (corner W e j) <> Some st')).
    { intros f st' Hf. unfold corners_where. split.
      - intros E j Hj Y. assert (In j []) as []. rewrite <- E. apply filter_In. split; [apply in_seq; lia|]. apply Hf. destruct (G j Hj) as (st2 & E2 & ->). congruence.
      - intros A. destruct (List.filter _ _) as [|j l] eqn:E; [reflexivity|]. exfalso. assert (In j (j :: l)) as Hj by (left; reflexivity). rewrite <- E in Hj.
        apply filter_In in Hj as [Hj F]. apply in_seq in Hj. apply Hf in F. destruct (G j ltac:(lia)) as (st2 & E2 & E3). apply (A j ltac:(lia)). congruence. }
    assert (XO := X is_outside NS_OUTSIDE ltac:(intros []; split; (discriminate || reflexivity))).
    assert (XI := X is_inside NS_INSIDE ltac:(intros []; split; (discriminate || reflexivity))). clear X.
    unfold base_status. destruct (corners_where _ is_outside 4) as [|o ol], (corners_where _ is_inside 4) as [|i il]; destruct st; cbn in C; try reflexivity; try contradiction; exfalso.
    - destruct C as [(j & Hj & A) _]. apply (proj1 XO eq_refl j Hj A).
    - destruct C as [(j & Hj & A) _]. apply (proj1 XO eq_refl j Hj A).
    - destruct C as [(j & Hj & A) _]. apply (proj1 XO eq_refl j Hj A).
    - destruct C as [(j & Hj & A) _]. apply (proj1 XO eq_refl j Hj A).
    - destruct C as [_ (j & Hj & A)]. apply (proj1 XI eq_refl j Hj A).
    - assert (E := proj2 XO C). discriminate.
    - assert (E := proj2 XO C). discriminate.
    - destruct C as [_ C]. assert (E := proj2 XI C). discriminate.
  Qed.
  Lemma start_rep m1 : status_ok W H m sd m1 -> rep (es_upto 0) [] [] (mkDisc m1 [] [] n0).
  Proof.
    intros S. constructor; cbn [d_points d_segs d_mesh].
    - apply (init_start W H m sd ml m1 S).
    - constructor.
    - intros p X. inversion X.
    - constructor.
    - intros i Hi. unfold attached. cbn [d_mesh]. destruct (m_nodes m1 !! i) as [n|] eqn:En.
      + rewrite (proj2 (st_node _ _ _ _ _ S i n En)). cbn [take]. split; [constructor|]. intros k. split; [intros X; inversion X|intros (p & E & _); discriminate].
      + split; [constructor|]. intros k. split; [intros X; inversion X|intros (p & E & _); discriminate].
    - constructor.
    - intros e x Ex. destruct (st_elem _ _ _ _ _ S e x Ex) as [(st & -> & C) _]. f_equal. unfold es_upto. cbn [Nat.ltb Nat.leb].
      apply base_class; [|exact C]. rewrite <- (tp_lenE _ _ _ (mframe_topo _ _ _ _ (st_frame _ _ _ _ _ S) Ht)). eauto using lookup_lt_Some.
  Qed.
End Run.

(** ** The segments at a point. *)
Section Degree.
  Context {T : Type} {NT : Num T}.
  Lemma place_eqb_eq p q : place_eqb p q = true <-> p = q.
  Proof. destruct p, q; cbn; rewrite ?Nat.eqb_eq; split; intros X; try congruence; discriminate. Qed.
  Lemma incidence_shift (k : nat) (segs : list (BoundarySegment T)) : forall o, length (concat (imap (fun i => ends_at k (o + i)) segs)) = length (concat (imap (ends_at k) segs)).
  Proof.
    induction segs as [|sg l IH]; intros o; [reflexivity|]. rewrite !imap_cons. cbn [concat]. rewrite !app_length. f_equal.
    - unfold ends_at. rewrite !app_length. repeat destruct (_ =? _)%nat; reflexivity.
    - transitivity (length (concat (imap (fun i => ends_at k (S o + i)) l))).
      + f_equal. f_equal. apply imap_ext. intros i x _. cbn. f_equal; lia.
      + rewrite IH. symmetry. exact (IH 1).
  Qed.
  Lemma incidence_degree pl (done : list (nat * (place * place))) (segs : list (BoundarySegment T)) k p :
    NoDup pl -> pl !! k = Some p ->
    Forall2 (fun t sg => sg_elem sg = fst t /\ pl !! sg_start sg = Some (fst (snd t)) /\ pl !! sg_end sg = Some (snd (snd t))) done segs ->
    length (incidence segs k) = ends_count p (map snd done).
  Proof.
    intros Nd Ek F. assert (X : forall a q, pl !! a = Some q -> (k =? a)%nat = place_eqb p q).
    { intros a q Ea. destruct (Nat.eqb_spec k a) as [->|Hne].
      - symmetry. apply place_eqb_eq. congruence.
      - destruct (place_eqb p q) eqn:E; [|reflexivity]. apply place_eqb_eq in E. subst q. exfalso. apply Hne. exact (NoDup_lookup _ _ _ _ Nd Ek Ea). }
    unfold incidence, ends_count. induction F as [|t sg l l' (_ & A & B) F IH]; [reflexivity|].
    rewrite imap_cons. cbn [concat map flat_map]. rewrite app_length. pose proof (incidence_shift k l' 1) as Y. cbn [Nat.add] in Y. unfold compose. rewrite Y, IH. clear Y.
    destruct t as [e [u v]]. cbn [snd fst] in *. cbn [app List.filter]. unfold ends_at. rewrite (X _ _ A), (X _ _ B).
    destruct (place_eqb p u), (place_eqb p v); cbn; reflexivity.
  Qed.
  Lemma ends_count_in p l : 0 < ends_count p l <-> exists t, In t l /\ (fst t = p \/ snd t = p).
  Proof.
    unfold ends_count. split.
    - intros L. destruct (List.filter _ _) as [|q r] eqn:E; [cbn in L; lia|]. assert (In q (q :: r)) as Hq by (left; reflexivity). rewrite <- E in Hq.
      apply filter_In in Hq as [Hq Eq]. apply place_eqb_eq in Eq. subst q. apply in_flat_map in Hq as ([a b] & Hin & Hq). exists (a, b). split; [exact Hin|]. cbn in *. tauto.
    - intros ([a b] & Hin & Ho). cbn in Ho. assert (Hi : In p (List.filter (place_eqb p) (flat_map (fun '(a, b) => [a; b]) l))).
      { apply filter_In. split; [|apply place_eqb_eq; reflexivity]. apply in_flat_map. exists (a, b). split; [exact Hin|]. cbn. destruct Ho as [E | E]; rewrite <- E; auto. }
      destruct (List.filter _ _); [destruct Hi|cbn; lia].
  Qed.
End Degree.

(** ** discretise. *)
Section Whole.
  Context {T : Type} {NT : Num T}.
  Variables (W H : nat) (s : LevelSet T) (tg : bool).
  Let m := ls_mesh s.
  Let sd := field s tg.
  Hypothesis Ht : topo W H m.
  Hypothesis Hlen : node_count W H <= length sd.
  Hypothesis Hapart : places_apart W H sd.
  Hypothesis Hinside : places_inside W H m sd (ls_moveLimit s).
  Hypothesis Hseen : contour_seen W H m sd tg.
  Hypothesis Hfew : forall e, e < W * H -> length (elem_graph W sd e) <= 2.
  Hypothesis Hdeg : forall p, degree W H sd p <= 2.

  (** The boundary [b] represents the graph; [pl] gives the place of each point. *)
  Record represents (pl : list place) (s' : LevelSet T) (b : Boundary T) : Prop := {
    rs_nd : NoDup pl;
    rs_valid : forall p, p ∈ pl -> valid_place W H sd p;
    rs_pts : Forall2 (fun p bp => place_coord W sd p (bp_coord bp)) pl (bd_points b);
    rs_segs : Forall2 (fun t sg => sg_elem sg = fst t /\ pl !! sg_start sg = Some (fst (snd t)) /\ pl !! sg_end sg = Some (snd (snd t)))
      (graph_upto W sd (W * H)) (bd_segs b);
    rs_deg : forall k p bp, pl !! k = Some p -> bd_points b !! k = Some bp -> bp_nSegs bp = degree W H sd p;
    rs_es : forall e x, m_elements (ls_mesh s') !! e = Some x -> e_status x = Some (final_status W sd e);
    rs_att : forall i n, i < node_count W H -> m_nodes (ls_mesh s') !! i = Some n ->
      forall k, k ∈ take (nd_nBpts n) (nd_bpts n) <-> exists p, pl !! k = Some p /\ incident W p i;
  }.
  Lemma discretise_total : TT (discretise s tg) (fun '(s', b) => exists pl, represents pl s' b).
  Proof.
    unfold discretise. fold (field s tg). fold m. fold sd. apply wp_bind. eapply wp_impl; [apply (status_total' W H m sd Ht Hlen Hfew)|]. intros m1 Hm1.
    apply wp_bind. pose proof (mframe_topo _ _ _ _ (st_frame _ _ _ _ _ Hm1) Ht) as Ht1.
    eapply wp_impl; [apply (loop_total W H m sd (ls_moveLimit s) Ht Hlen Hapart Hinside tg Hseen Hfew m1); [|exact (tp_nE _ _ _ Ht1)]|].
    { apply start_rep; assumption. }
    intros d (pl & R). destruct (rp_inv _ _ _ _ _ _ _ _ _ R).
    assert (Hend : forall i sg, d_segs d !! i = Some sg -> sg_start sg < length (d_points d) /\ sg_end sg < length (d_points d)).
    { intros i sg E. destruct (di_segs i sg E) as (_ & p & q & _ & _ & A & B & _). split; eauto using lookup_lt_Some. }
    assert (Hfresh : forall k p, d_points d !! k = Some p ->
      bp_length p = n0 /\ bp_nSegs p = 0 /\ bp_nNeigh p = 0 /\ length (bp_segs p) = 2 /\ length (bp_neigh p) = 2).
    { intros k p E. destruct (di_points k p E) as (e & c & _ & _ & E'). apply init_fresh in E'. tauto. }
    assert (Deg : forall k p, pl !! k = Some p -> length (incidence (d_segs d) k) = degree W H sd p).
    { intros k p Ek. exact (incidence_degree pl _ _ k p (rp_nd _ _ _ _ _ _ _ _ _ R) Ek (rp_segs _ _ _ _ _ _ _ _ _ R)). }
    apply wp_bind. eapply wp_mono; [apply (lengths_spec (d_segs d) (d_points d) Hend Hfresh)|..].
    - intros [].
    - intros (k & Hk). destruct (pl !! k) as [p|] eqn:Ek; [rewrite (Deg k p Ek) in Hk; specialize (Hdeg p); lia|].
      apply lookup_ge_None in Ek. rewrite (rep_len _ _ _ _ _ _ _ _ _ R) in Ek.
      destruct (incidence (d_segs d) k) as [|[i o] r] eqn:E; [cbn in Hk; lia|]. assert (In (i, o) (incidence (d_segs d) k)) as Hi by (rewrite E; left; reflexivity).
      unfold incidence in Hi. apply in_concat in Hi as (l & Hl & Hi). apply elem_of_list_In, elem_of_lookup_imap in Hl as (i' & sg & -> & Esg).
      destruct (Hend i' sg Esg) as [L1 L2]. unfold ends_at in Hi. destruct (Nat.eqb_spec k (sg_start sg)); [lia|]. destruct (Nat.eqb_spec k (sg_end sg)); [lia|]. destruct Hi.
    - intros ps (L & I). apply wp_ok. exists pl. constructor; cbn [bd_points bd_segs ls_mesh set_mesh].
      + exact (rp_nd _ _ _ _ _ _ _ _ _ R).
      + exact (rp_valid _ _ _ _ _ _ _ _ _ R).
      + apply Forall2_same_length_lookup_2; [rewrite L; exact (rep_len _ _ _ _ _ _ _ _ _ R)|]. intros k p bp Ek Ebp.
        destruct (Forall2_lookup_l _ _ _ _ _ (rp_pts _ _ _ _ _ _ _ _ _ R) Ek) as (p0 & E0 & C). destruct (I k p0 E0) as (p' & E' & K).
        assert (p' = bp) by congruence. subst p'. rewrite (fixed_coord bp p0 (lk_fixed _ _ _ _ _ _ K)). exact C.
      + exact (rp_segs _ _ _ _ _ _ _ _ _ R).
      + intros k p bp Ek Ebp. rewrite <- (Deg k p Ek). destruct (Forall2_lookup_l _ _ _ _ _ (rp_pts _ _ _ _ _ _ _ _ _ R) Ek) as (p0 & E0 & _).
        destruct (I k p0 E0) as (p' & E' & K). assert (p' = bp) by congruence. subst p'. apply K.
      + exact (rp_es _ _ _ _ _ _ _ _ _ R).
      + intros i n Hi En k. destruct (rp_att _ _ _ _ _ _ _ _ _ R i Hi) as [_ A]. specialize (A k). unfold attached in A. rewrite En in A. exact A.
  Qed.
End Whole.
