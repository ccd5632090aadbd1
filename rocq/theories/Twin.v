(** * Twin: runs of two meshes that differ only in leftovers of earlier calls (C57).

    Relational proofs, function by function: equal inputs give equal results, whatever earlier calls left behind in the
    lists of boundary points and segments, the statuses and the element areas. *)

From Verif Require Import Base MeshModel FmmModel LevelSetModel BoundaryModel.
Local Open Scope nat_scope.

(** Two outcomes of the same kind, with related values. *)
Definition orel {A B} (R : A -> B -> Prop) (o : outcome A) (o' : outcome B) : Prop :=
  match o, o' with
  | Ok a, Ok b => R a b
  | Exit, Exit | UB, UB | OutOfFuel, OutOfFuel => True
  | _, _ => False
  end.

Lemma orel_bind {A A' B B'} (R : A -> A' -> Prop) (S : B -> B' -> Prop) o o' f f' : orel R o o' ->
  (forall a a', R a a' -> orel S (f a) (f' a')) -> orel S (obind o f) (obind o' f').
Proof. destruct o, o'; cbn; try contradiction; auto. Qed.
Lemma orel_impl {A A'} (R S : A -> A' -> Prop) o o' : orel R o o' -> (forall a a', R a a' -> S a a') -> orel S o o'.
Proof. destruct o, o'; cbn; auto. Qed.
Lemma orel_refl {A} (o : outcome A) : orel eq o o.
Proof. destruct o; cbn; auto. Qed.
Lemma orel_eq {A} (o o' : outcome A) : orel eq o o' -> o = o'.
Proof. destruct o, o'; cbn; try contradiction; congruence. Qed.
Lemma orel_for {A A'} (R : nat -> A -> A' -> Prop) n f f' s s' : R 0 s s' ->
  (forall k t t', k < n -> R k t t' -> orel (R (S k)) (f k t) (f' k t')) -> orel (R n) (for_ n f s) (for_ n f' s').
Proof.
  unfold for_. intros H0 Hs.
  assert (G : forall m i t t', i + m = n -> R i t t' -> orel (R n) (for_from i m f t) (for_from i m f' t')).
  { induction m as [|m IH]; intros i t t' E Ht; cbn [for_from].
    - cbn. replace n with i by lia. exact Ht.
    - eapply orel_bind; [apply Hs; [lia|exact Ht]|]. intros a a' Ha. apply IH; [lia|exact Ha]. }
  apply G; [lia|exact H0].
Qed.
Lemma orel_for_same {A A'} (R : A -> A' -> Prop) n f f' s s' : R s s' ->
  (forall k t t', k < n -> R t t' -> orel R (f k t) (f' k t')) -> orel R (for_ n f s) (for_ n f' s').
Proof. intros H0 Hs. apply (orel_for (fun _ => R)); assumption. Qed.
Lemma orel_vget {A A'} (R : A -> A' -> Prop) l l' i : Forall2 R l l' -> orel R (vget l i) (vget l' i).
Proof.
  intros F. unfold vget. pose proof (Forall2_length _ _ _ F) as L. destruct (l !! i) as [a|] eqn:E.
  - destruct (Forall2_lookup_l _ _ _ _ _ F E) as (b & -> & HR). exact HR.
  - apply lookup_ge_None in E. rewrite L in E. apply lookup_ge_None in E. rewrite E. exact I.
Qed.
Lemma orel_vset {A A'} (R : A -> A' -> Prop) l l' i x x' : Forall2 R l l' -> R x x' -> orel (Forall2 R) (vset l i x) (vset l' i x').
Proof.
  intros F HR. unfold vset. pose proof (Forall2_length _ _ _ F) as L. destruct (l !! i) as [a|] eqn:E.
  - destruct (Forall2_lookup_l _ _ _ _ _ F E) as (b & -> & _). apply Forall2_insert; assumption.
  - apply lookup_ge_None in E. rewrite L in E. apply lookup_ge_None in E. rewrite E. exact I.
Qed.
(** Equal in the first [k] entries, same length. *)
Definition prefix_eq {A} (k : nat) (l l' : list A) : Prop := length l = length l' /\ take k l = take k l'.
Lemma prefix_vget {A} k (l l' : list A) i : prefix_eq k l l' -> i < k -> vget l i = vget l' i.
Proof. intros [_ E] Hi. unfold vget. rewrite <- (lookup_take l k i Hi), <- (lookup_take l' k i Hi), E. reflexivity. Qed.
Lemma prefix_vset {A} k (l l' : list A) x : prefix_eq k l l' -> orel (prefix_eq (k + 1)) (vset l k x) (vset l' k x).
Proof.
  intros [L E]. unfold vset. destruct (l !! k) as [a|] eqn:Ea.
  - pose proof (lookup_lt_Some _ _ _ Ea) as Hk. destruct (lookup_lt_is_Some_2 l' k ltac:(lia)) as [a' ->]. cbn.
    split; [rewrite !insert_length; exact L|]. replace (k + 1) with (S k) by lia.
    rewrite !(take_S_r _ _ x) by (apply list_lookup_insert; lia). rewrite !take_insert by lia. rewrite E. reflexivity.
  - apply lookup_ge_None in Ea. rewrite L in Ea. apply lookup_ge_None in Ea. rewrite Ea. exact I.
Qed.

Section twin.
  Context {T : Type} {NT : Num T}.
  (** Whether the two agree on the narrow band, which the discretisation of the target does not look at. *)
  Context {act : bool}.

  (** ** Nodes, elements and meshes *)
  (** Equal but for leftovers. *)
  Record nweak (n n' : Node T) : Prop := {
    nw_coord : nd_coord n' = nd_coord n;
    nw_neigh : nd_neigh n' = nd_neigh n;
    nw_domain : nd_domain n' = nd_domain n;
    nw_masked : nd_masked n' = nd_masked n;
    nw_active : act = true -> nd_active n' = nd_active n;
    nw_bpts : length (nd_bpts n') = length (nd_bpts n)
  }.
  Record elem_weak (e e' : Element T) : Prop := {
    ew_coord : e_coord e' = e_coord e;
    ew_nodes : e_nodes e' = e_nodes e;
    ew_segs : length (e_segs e') = length (e_segs e)
  }.
  (** Equal in all that discretise sets. *)
  Record nsame (n n' : Node T) : Prop := {
    ns_weak : nweak n n';
    ns_count : nd_nBpts n' = nd_nBpts n;
    ns_bpts : prefix_eq (nd_nBpts n) (nd_bpts n) (nd_bpts n');
    ns_status : nd_status n' = nd_status n
  }.
  Record elem_same (e e' : Element T) : Prop := {
    es_weak : elem_weak e e';
    es_status : e_status e' = e_status e;
    es_count : e_nSegs e' = e_nSegs e;
    es_segs : forall k, e_nSegs e = Some k -> prefix_eq k (e_segs e) (e_segs e')
  }.
  Record mesh_twin (R : Node T -> Node T -> Prop) (Q : Element T -> Element T -> Prop) (m m' : Mesh T) : Prop := {
    mt_nodes : Forall2 R (m_nodes m) (m_nodes m');
    mt_elements : Forall2 Q (m_elements m) (m_elements m');
    mt_width : m_width m' = m_width m;
    mt_height : m_height m' = m_height m;
    mt_nE : m_nElements m' = m_nElements m;
    mt_nN : m_nNodes m' = m_nNodes m;
    mt_xy : m_xy m' = m_xy m
  }.
  Lemma mesh_twin_impl (R R' : Node T -> Node T -> Prop) (Q Q' : Element T -> Element T -> Prop) m m' : mesh_twin R Q m m' -> (forall n n', R n n' -> R' n n') -> (forall e e', Q e e' -> Q' e e') -> mesh_twin R' Q' m m'.
  Proof. intros [] HR HQ. constructor; auto; eapply Forall2_impl; eauto. Qed.
  Lemma mt_set_nodes (R R' : Node T -> Node T -> Prop) Q m m' ns ns' : mesh_twin R Q m m' -> Forall2 R' ns ns' -> mesh_twin R' Q (set_nodes ns m) (set_nodes ns' m').
  Proof. intros [] F. constructor; auto. Qed.
  Lemma mt_set_elements R (Q Q' : Element T -> Element T -> Prop) m m' es es' : mesh_twin R Q m m' -> Forall2 Q' es es' -> mesh_twin R Q' (set_elements es m) (set_elements es' m').
  Proof. intros [] F. constructor; auto. Qed.

  Lemma node_mod_twin R Q m m' i f f' : mesh_twin R Q m m' -> (forall n n', R n n' -> R (f n) (f' n')) ->
    orel (mesh_twin R Q) (node_mod i f m) (node_mod i f' m').
  Proof.
    intros M Hf. unfold node_mod. eapply orel_bind with (R := Forall2 R).
    - unfold vmod. pose proof (mt_nodes _ _ _ _ M) as F. pose proof (Forall2_length _ _ _ F) as L. destruct (m_nodes m !! i) as [a|] eqn:E.
      + destruct (Forall2_lookup_l _ _ _ _ _ F E) as (b & -> & HR). apply Forall2_insert; auto.
      + apply lookup_ge_None in E. rewrite L in E. apply lookup_ge_None in E. rewrite E. exact I.
    - intros ns ns' F. eapply mt_set_nodes; eauto.
  Qed.
  Lemma elem_mod_twin R Q m m' i f f' : mesh_twin R Q m m' -> (forall e e', Q e e' -> Q (f e) (f' e')) ->
    orel (mesh_twin R Q) (elem_mod i f m) (elem_mod i f' m').
  Proof.
    intros M Hf. unfold elem_mod. eapply orel_bind with (R := Forall2 Q).
    - unfold vmod. pose proof (mt_elements _ _ _ _ M) as F. pose proof (Forall2_length _ _ _ F) as L. destruct (m_elements m !! i) as [a|] eqn:E.
      + destruct (Forall2_lookup_l _ _ _ _ _ F E) as (b & -> & HR). apply Forall2_insert; auto.
      + apply lookup_ge_None in E. rewrite L in E. apply lookup_ge_None in E. rewrite E. exact I.
    - intros ns ns' F. eapply mt_set_elements; eauto.
  Qed.

  (** The first [k] are related by [R'] too. *)
  Definition upto {A} (R R' : A -> A -> Prop) (k : nat) (l l' : list A) : Prop :=
    Forall2 R l l' /\ forall i a a', i < k -> l !! i = Some a -> l' !! i = Some a' -> R' a a'.
  Lemma upto_all {A} (R R' : A -> A -> Prop) k l l' : upto R R' k l l' -> length l <= k -> Forall2 R' l l'.
  Proof.
    intros [F HR] L. apply Forall2_same_length_lookup. split; [exact (Forall2_length _ _ _ F)|].
    intros i a a' E E'. eapply HR; eauto. apply lookup_lt_Some in E. lia.
  Qed.
  Lemma upto_vmod {A} (R R' : A -> A -> Prop) k l l' (f f' : A -> A) : upto R R' k l l' ->
    (forall a a', R a a' -> R (f a) (f' a') /\ R' (f a) (f' a')) -> orel (upto R R' (S k)) (vmod l k f) (vmod l' k f').
  Proof.
    intros [F HR] Hf. unfold vmod. pose proof (Forall2_length _ _ _ F) as L. destruct (l !! k) as [a|] eqn:E.
    - destruct (Forall2_lookup_l _ _ _ _ _ F E) as (b & E' & Hab). rewrite E'. split; [apply Forall2_insert; [exact F|apply Hf, Hab]|].
      intros i x x' Hi Hx Hx'. destruct (Nat.eq_dec i k) as [->|Hne].
      + rewrite list_lookup_insert in Hx by (eapply lookup_lt_Some, E). rewrite list_lookup_insert in Hx' by (eapply lookup_lt_Some, E').
        injection Hx as <-. injection Hx' as <-. apply Hf, Hab.
      + rewrite list_lookup_insert_ne in Hx, Hx' by auto. eapply HR; eauto. lia.
    - apply lookup_ge_None in E. rewrite L in E. apply lookup_ge_None in E. rewrite E. exact I.
  Qed.

  (** ** Statuses *)
  Lemma status_twin m m' sd : mesh_twin nweak elem_weak m m' -> length (m_nodes m) <= m_nNodes m -> length (m_elements m) <= m_nElements m ->
    orel (mesh_twin nsame elem_same) (computeMeshStatus m sd) (computeMeshStatus m' sd).
  Proof.
    intros M LN LE. unfold computeMeshStatus. rewrite (mt_nN _ _ _ _ M).
    set (J := fun k (t t' : Mesh T) => mesh_twin (fun _ _ => True) elem_weak t t' /\ upto nweak nsame k (m_nodes t) (m_nodes t') /\
      length (m_nodes t) = length (m_nodes m) /\ m_nElements t = m_nElements m /\ length (m_elements t) = length (m_elements m)).
    eapply orel_bind with (R := J (m_nNodes m)).
    - apply (orel_for J).
      + split; [apply (mesh_twin_impl _ _ _ _ _ _ M); auto|]. split; [|auto]. split; [exact (mt_nodes _ _ _ _ M)|]. intros; lia.
      + intros k t t' Hk (Mt & Hu & Ht). unfold status_node. eapply orel_bind; [apply orel_refl|]. intros x ? <-. unfold node_mod.
        pose proof (upto_vmod _ _ k _ _ (fun n => set_nd_status (Some (status_of x)) (set_nd_bpts (nd_bpts n) 0 n)) (fun n => set_nd_status (Some (status_of x)) (set_nd_bpts (nd_bpts n) 0 n)) Hu) as HV.
        unfold vmod in *. destruct (m_nodes t !! k) as [a|], (m_nodes t' !! k) as [a'|]; cbn [orel obind] in *; try (specialize (HV ltac:(
          intros a0 a0' [W1 W2 W3 W4 W5 W6]; split; [constructor; assumption|constructor; [constructor; assumption|reflexivity|split; [symmetry; exact W6|reflexivity]|reflexivity]]))); auto; try contradiction.
        split; [apply (mt_set_nodes _ _ _ _ _ _ _ Mt); eapply Forall2_impl; [exact (proj1 HV)|auto]|]. split; [exact HV|]. cbn. rewrite insert_length. exact Ht.
    - intros t t' (Mt & Hu & L1 & N1 & L2).
      assert (M1 : mesh_twin nsame elem_weak t t').
      { destruct Mt. constructor; auto. eapply upto_all; [exact Hu|]. lia. }
      rewrite (mt_nE _ _ _ _ M1), N1.
      set (K := fun k (u u' : Mesh T) => mesh_twin nsame (fun _ _ => True) u u' /\ upto elem_weak elem_same k (m_elements u) (m_elements u') /\ length (m_elements u) = length (m_elements m)).
      apply orel_impl with (R := K (m_nElements m)).
      2:{ intros u u' (Mu & Hv & L3). destruct Mu. constructor; auto. eapply upto_all; [exact Hv|]. lia. }
      apply (orel_for K).
      + split; [apply (mesh_twin_impl _ _ _ _ _ _ M1); auto|]. split; [|exact L2]. split; [exact (mt_elements _ _ _ _ M1)|]. intros; lia.
      + intros k u u' Hk (Mu & Hv & L3). unfold status_element. eapply orel_bind; [apply orel_vget; exact (proj1 Hv)|]. intros e e' [E1 E2 E3].
        eapply orel_bind with (R := eq).
        { apply orel_for_same; [reflexivity|]. intros j [a b] ? Hj <-. unfold tally_step. rewrite E2. eapply orel_bind; [apply orel_refl|]. intros node ? <-.
          eapply orel_bind with (R := eq); [|intros st ? <-; apply orel_refl]. unfold node_status. eapply orel_bind; [apply orel_vget; exact (mt_nodes _ _ _ _ Mu)|].
          intros n n' Hn. rewrite (ns_status _ _ Hn). apply orel_refl. }
        intros [a b] ? <-. unfold elem_mod. set (st := if (b =? 0)%nat then _ else _).
        pose proof (upto_vmod _ _ k _ _ (fun e => set_e_status (Some st) (set_e_segs (e_segs e) (Some 0) e)) (fun e => set_e_status (Some st) (set_e_segs (e_segs e) (Some 0) e)) Hv) as HV.
        unfold vmod in *. destruct (m_elements u !! k) as [x|], (m_elements u' !! k) as [x'|]; cbn [orel obind] in *; try (specialize (HV ltac:(
          intros a0 a0' [W1 W2 W3]; split; [constructor; assumption|constructor; [constructor; assumption|reflexivity|reflexivity|]; cbn; intros ? [= <-]; split; [symmetry; exact W3|reflexivity]]))); auto; try contradiction.
        split; [apply (mt_set_elements _ _ _ _ _ _ _ Mu); eapply Forall2_impl; [exact (proj1 HV)|auto]|]. split; [exact HV|]. cbn. rewrite insert_length. exact L3.
  Qed.

  (** ** The boundary *)
  Local Ltac ob := eapply orel_bind; [apply orel_refl|intros ? ? <-].

  Record disc_twin (d d' : Disc T) : Prop := {
    dt_mesh : mesh_twin nsame elem_same (d_mesh d) (d_mesh d');
    dt_points : d_points d' = d_points d;
    dt_segs : d_segs d' = d_segs d;
    dt_len : d_len d' = d_len d
  }.

  Lemma closest_twin R Q m m' x y : mesh_twin R Q m m' -> (forall e e', Q e e' -> elem_weak e e') -> getClosestNode m x y = getClosestNode m' x y.
  Proof.
    intros M HQ. apply orel_eq. unfold getClosestNode, getElement. rewrite (mt_width _ _ _ _ M).
    ob. eapply orel_bind; [apply orel_vget; exact (mt_elements _ _ _ _ M)|]. intros e e' He. apply HQ in He as [-> -> _]. apply orel_refl.
  Qed.
  Lemma node_status_twin Q m m' i : mesh_twin nsame Q m m' -> node_status m i = node_status m' i.
  Proof.
    intros M. apply orel_eq. unfold node_status. eapply orel_bind; [apply orel_vget; exact (mt_nodes _ _ _ _ M)|].
    intros n n' Hn. rewrite (ns_status _ _ Hn). apply orel_refl.
  Qed.

  Lemma find_added_twin c ps l l' k : prefix_eq k l l' -> forall n i, i + n = k -> find_added c ps l i n = find_added c ps l' i n.
  Proof.
    intros P. induction n as [|n IH]; intros i E; [reflexivity|]. cbn [find_added]. rewrite (prefix_vget k l l' i P) by lia.
    destruct (vget l' i) as [index| | |]; cbn [obind]; try reflexivity. destruct (vget ps index) as [p| | |]; cbn [obind]; try reflexivity.
    destruct (_ && _)%bool; [reflexivity|]. apply IH. lia.
  Qed.
  Lemma isAdded_twin d d' node edge x : disc_twin d d' -> isAdded d node edge x = isAdded d' node edge x.
  Proof.
    intros D. apply orel_eq. unfold isAdded. eapply orel_bind; [apply orel_vget; exact (mt_nodes _ _ _ _ (dt_mesh _ _ D))|].
    intros n n' Hn. rewrite (nw_coord _ _ (ns_weak _ _ Hn)), (dt_points _ _ D), (ns_count _ _ Hn), (find_added_twin _ _ _ _ _ (ns_bpts _ _ Hn)) by lia.
    apply orel_refl.
  Qed.
  Lemma initialisePoint_twin m m' ml c : mesh_twin nsame elem_same m m' -> initialisePoint m ml c = initialisePoint m' ml c.
  Proof.
    intros M. apply orel_eq. unfold initialisePoint, domain_gap. rewrite (mt_width _ _ _ _ M), (mt_height _ _ _ _ M), (closest_twin _ _ m m' _ _ M) by (intros e e' He; apply He).
    ob. eapply orel_bind; [apply orel_vget; exact (mt_nodes _ _ _ _ M)|].
    intros n n' Hn. rewrite (nw_coord _ _ (ns_weak _ _ Hn)), (nw_masked _ _ (ns_weak _ _ Hn)). apply orel_refl.
  Qed.
  Lemma segmentLength_twin d d' a b : disc_twin d d' -> segmentLength d a b = segmentLength d' a b.
  Proof. intros D. unfold segmentLength. rewrite (dt_points _ _ D). reflexivity. Qed.

  Lemma attach_twin node k d d' : disc_twin d d' -> orel disc_twin (attach node k d) (attach node k d').
  Proof.
    intros D. unfold attach. eapply orel_bind; [apply orel_vget; exact (mt_nodes _ _ _ _ (dt_mesh _ _ D))|]. intros n n' Hn.
    eapply orel_bind; [rewrite (ns_count _ _ Hn); apply prefix_vset, (ns_bpts _ _ Hn)|]. intros l l' Hl.
    eapply orel_bind.
    - apply orel_vset; [exact (mt_nodes _ _ _ _ (dt_mesh _ _ D))|]. destruct Hn as [[W1 W2 W3 W4 W5 W6] C P S].
      assert (nsame (set_nd_bpts l (nd_nBpts n + 1) n) (set_nd_bpts l' (nd_nBpts n' + 1) n')) as HN; [|exact HN].
      rewrite C. constructor; [constructor; try assumption; symmetry; exact (proj1 Hl)|reflexivity|exact Hl|exact S].
    - intros ns ns' F. destruct D. constructor; auto. eapply mt_set_nodes; eauto.
  Qed.
  Lemma create_twin ml c d d' : disc_twin d d' -> orel disc_twin (create ml c d) (create ml c d').
  Proof.
    intros D. unfold create. rewrite (initialisePoint_twin _ _ ml c (dt_mesh _ _ D)). ob. destruct D. constructor; auto. cbn. congruence.
  Qed.
  Definition index_twin (r r' : nat * Disc T) : Prop := fst r' = fst r /\ disc_twin (snd r) (snd r').
  Lemma node_point_twin ml node d d' : disc_twin d d' -> orel index_twin (node_point ml node d) (node_point ml node d').
  Proof.
    intros D. unfold node_point. rewrite (isAdded_twin _ _ node 0 n0 D). eapply orel_bind; [apply orel_refl|]. intros [c index] ? <-.
    destruct index as [k|]; [split; [reflexivity|exact D]|]. rewrite (dt_points _ _ D).
    eapply orel_bind; [apply attach_twin, D|]. intros d1 d1' D1. eapply orel_bind; [apply create_twin, D1|]. intros d2 d2' D2. split; [reflexivity|exact D2].
  Qed.
  Lemma cut_point_twin ml sd n1 n2 j d d' : disc_twin d d' -> orel index_twin (cut_point ml sd n1 n2 j d) (cut_point ml sd n1 n2 j d').
  Proof.
    intros D. unfold cut_point. ob. ob. rewrite (isAdded_twin _ _ n1 j _ D). eapply orel_bind; [apply orel_refl|]. intros [c index] ? <-.
    destruct index as [k|]; [split; [reflexivity|exact D]|]. rewrite (dt_points _ _ D).
    eapply orel_bind; [apply attach_twin, D|]. intros d1 d1' D1. eapply orel_bind; [apply attach_twin, D1|]. intros d3 d3' D3.
    eapply orel_bind; [apply create_twin, D3|]. intros d2 d2' D2. split; [reflexivity|exact D2].
  Qed.
  Lemma add_segment_twin i a b d d' : disc_twin d d' -> orel disc_twin (add_segment i a b d) (add_segment i a b d').
  Proof.
    intros D. unfold add_segment. rewrite (segmentLength_twin _ _ a b D). ob. rename a0 into l.
    eapply orel_bind; [apply orel_vget; exact (mt_elements _ _ _ _ (dt_mesh _ _ D))|]. intros e e' [[W1 W2 W3] S C P].
    rewrite C. destruct (e_nSegs e) as [k|] eqn:Ek; [|exact I]. cbn [init_get obind]. rewrite (dt_segs _ _ D).
    eapply orel_bind; [apply prefix_vset, (P k eq_refl)|]. intros q q' Hq.
    eapply orel_bind.
    - apply orel_vset; [exact (mt_elements _ _ _ _ (dt_mesh _ _ D))|].
      assert (elem_same (set_e_segs q (Some (k + 1)) e) (set_e_segs q' (Some (k + 1)) e')) as HE; [|exact HE].
      constructor; [constructor; try assumption; symmetry; exact (proj1 Hq)|exact S|reflexivity|]. cbn. intros ? [= <-]. exact Hq.
    - intros es es' F. destruct D. constructor; cbn; [eapply mt_set_elements; eauto|assumption|congruence|congruence].
  Qed.

  Definition cuts_twin (r r' : list nat * Disc T) : Prop := fst r' = fst r /\ disc_twin (snd r) (snd r').
  Lemma edge_step_twin ml tg sd i j r r' : tg = true \/ act = true -> cuts_twin r r' -> orel cuts_twin (edge_step ml tg sd i j r) (edge_step ml tg sd i j r').
  Proof.
    destruct r as [cuts d], r' as [cuts' d']. intros HT [E D]. cbn in E, D. subst cuts'. unfold edge_step.
    eapply orel_bind; [apply orel_vget; exact (mt_elements _ _ _ _ (dt_mesh _ _ D))|]. intros e e' He. rewrite (ew_nodes _ _ (es_weak _ _ He)).
    ob. ob. eapply orel_bind; [apply orel_vget; exact (mt_nodes _ _ _ _ (dt_mesh _ _ D))|]. intros n n' Hn.
    eapply orel_bind; [apply orel_vget; exact (mt_nodes _ _ _ _ (dt_mesh _ _ D))|]. intros p p' Hp.
    assert (EC : (tg || (nd_active n' || nd_masked n') || (nd_active p' || nd_masked p'))%bool = (tg || (nd_active n || nd_masked n) || (nd_active p || nd_masked p))%bool).
    { destruct HT as [->|HT]; [reflexivity|].
      rewrite (nw_active _ _ (ns_weak _ _ Hn) HT), (nw_masked _ _ (ns_weak _ _ Hn)), (nw_active _ _ (ns_weak _ _ Hp) HT), (nw_masked _ _ (ns_weak _ _ Hp)). reflexivity. }
    rewrite EC. clear EC. destruct (_ || _)%bool; [|split; [reflexivity|exact D]]. rewrite (ns_status _ _ Hn), (ns_status _ _ Hp). ob. ob.
    destruct (_ || _)%bool.
    - eapply orel_bind; [apply cut_point_twin, D|]. intros [k d1] [k' d1'] [Ek D1]. cbn in Ek, D1. subst k'. split; [reflexivity|exact D1].
    - destruct (_ && _)%bool; [|split; [reflexivity|exact D]].
      eapply orel_bind; [apply node_point_twin, D|]. intros [k d1] [k' d1'] [Ek D1]. cbn in Ek, D1. subst k'.
      eapply orel_bind; [apply node_point_twin, D1|]. intros [q d2] [q' d2'] [Eq D2]. cbn in Eq, D2. subst q'.
      eapply orel_bind; [apply add_segment_twin, D2|]. intros d3 d3' D3. split; [reflexivity|exact D3].
  Qed.
  Lemma one_cut_twin ml i a j d d' : disc_twin d d' -> orel disc_twin (one_cut_step ml i a j d) (one_cut_step ml i a j d').
  Proof.
    intros D. unfold one_cut_step. eapply orel_bind; [apply orel_vget; exact (mt_elements _ _ _ _ (dt_mesh _ _ D))|]. intros e e' He. rewrite (ew_nodes _ _ (es_weak _ _ He)).
    ob. rewrite <- !(node_status_twin _ _ _ _ (dt_mesh _ _ D)). ob. destruct (is_boundary _); [|exact D]. ob. ob.
    rewrite <- !(node_status_twin _ _ _ _ (dt_mesh _ _ D)). ob. ob. destruct (_ || _)%bool; [|exact D].
    eapply orel_bind; [apply node_point_twin, D|]. intros [k d1] [k' d1'] [Ek D1]. cbn in Ek, D1. subst k'. apply add_segment_twin, D1.
  Qed.
  Lemma four_cuts_twin sd i cuts d d' : disc_twin d d' -> orel disc_twin (four_cuts sd i cuts d) (four_cuts sd i cuts d').
  Proof.
    intros D. unfold four_cuts. eapply orel_bind; [apply orel_vget; exact (mt_elements _ _ _ _ (dt_mesh _ _ D))|]. intros e e' He.
    eapply orel_bind with (R := eq).
    { apply orel_for_same; [reflexivity|]. intros k t ? _ <-. unfold lsf_step. rewrite (ew_nodes _ _ (es_weak _ _ He)). apply orel_refl. }
    intros sum ? <-. rewrite (ew_nodes _ _ (es_weak _ _ He)). ob. rewrite <- !(node_status_twin _ _ _ _ (dt_mesh _ _ D)). ob. ob. ob. ob. ob.
    eapply orel_bind with (R := disc_twin).
    { destruct (_ || _)%bool; (eapply orel_bind; [apply add_segment_twin, D|]; intros d1 d1' D1; apply add_segment_twin, D1). }
    intros d1 d1' D1. eapply orel_bind.
    - apply (elem_mod_twin nsame elem_same); [exact (dt_mesh _ _ D1)|]. intros x x' [W S C P]. constructor; [destruct W; constructor; assumption|reflexivity|exact C|exact P].
    - intros m m' M. destruct D1. constructor; auto.
  Qed.
  Lemma no_cuts_twin ml i d d' : disc_twin d d' -> orel disc_twin (no_cuts ml i d) (no_cuts ml i d').
  Proof.
    intros D. unfold no_cuts. eapply orel_bind; [apply orel_vget; exact (mt_elements _ _ _ _ (dt_mesh _ _ D))|]. intros e e' He.
    eapply orel_bind with (R := eq).
    { apply orel_for_same; [reflexivity|]. intros k t ? _ <-. unfold boundary_node_step. rewrite (ew_nodes _ _ (es_weak _ _ He)). ob.
      rewrite <- !(node_status_twin _ _ _ _ (dt_mesh _ _ D)). apply orel_refl. }
    intros nodes ? <-. ob. eapply orel_bind; [apply node_point_twin, D|]. intros [k d1] [k' d1'] [Ek D1]. cbn in Ek, D1. subst k'. ob.
    eapply orel_bind; [apply node_point_twin, D1|]. intros [q d2] [q' d2'] [Eq D2]. cbn in Eq, D2. subst q'. apply add_segment_twin, D2.
  Qed.
  Lemma element_step_twin ml tg sd i d d' : tg = true \/ act = true -> disc_twin d d' -> orel disc_twin (element_step ml tg sd i d) (element_step ml tg sd i d').
  Proof.
    intros HT D. unfold element_step. eapply orel_bind; [apply orel_vget; exact (mt_elements _ _ _ _ (dt_mesh _ _ D))|]. intros e e' He.
    rewrite (es_status _ _ He). eapply orel_bind; [apply orel_refl|]. intros st ? <-.
    assert (B : orel disc_twin
      (let! (cuts, d) := for_ 4 (edge_step ml tg sd i) ([], d) in
        match cuts with
        | [p0; p1] => add_segment i p0 p1 d
        | [p0] => for_ 4 (one_cut_step ml i p0) d
        | [_; _; _; _] => four_cuts sd i cuts d
        | [] => match st with ES_INSIDE => Ok d | _ => no_cuts ml i d end
        | _ => Ok d
        end)
      (let! (cuts, d) := for_ 4 (edge_step ml tg sd i) ([], d') in
        match cuts with
        | [p0; p1] => add_segment i p0 p1 d
        | [p0] => for_ 4 (one_cut_step ml i p0) d
        | [_; _; _; _] => four_cuts sd i cuts d
        | [] => match st with ES_INSIDE => Ok d | _ => no_cuts ml i d end
        | _ => Ok d
        end)).
    { eapply orel_bind.
      - apply (orel_for_same cuts_twin); [split; [reflexivity|exact D]|]. intros k t t' _ Ht. apply edge_step_twin; [exact HT|exact Ht].
      - intros [cuts d1] [cuts' d1'] [E D1]. cbn in E, D1. subst cuts'. destruct cuts as [|p0 [|p1 [|p2 [|p3 [|]]]]]; try exact D1.
        + destruct st; try exact D1; apply no_cuts_twin, D1.
        + apply orel_for_same; [exact D1|]. intros k t t' _ Ht. apply one_cut_twin, Ht.
        + apply add_segment_twin, D1.
        + apply four_cuts_twin, D1. }
    destruct st; try exact B. exact D.
  Qed.

  (** discretise makes the same boundary, and leaves meshes behind that agree in all it sets. *)
  Lemma discretise_twin_on (s s' : LevelSet T) tg : tg = true \/ act = true -> mesh_twin nweak elem_weak (ls_mesh s) (ls_mesh s') ->
    length (m_nodes (ls_mesh s)) <= m_nNodes (ls_mesh s) -> length (m_elements (ls_mesh s)) <= m_nElements (ls_mesh s) ->
    (tg = false -> ls_sd s' = ls_sd s) -> ls_target s' = ls_target s -> ls_moveLimit s' = ls_moveLimit s ->
    orel (fun r r' => snd r' = snd r /\ mesh_twin nsame elem_same (ls_mesh (fst r)) (ls_mesh (fst r')) /\ fst r = set_mesh (ls_mesh (fst r)) s /\ fst r' = set_mesh (ls_mesh (fst r')) s') (discretise s tg) (discretise s' tg).
  Proof.
    intros HT M LN LE E1 E2 E3. unfold discretise.
    assert (ES : (if tg then ls_target s' else ls_sd s') = (if tg then ls_target s else ls_sd s)) by (destruct tg; auto).
    rewrite ES, E3. set (sd := if tg then _ else _).
    eapply orel_bind; [apply status_twin; eassumption|]. intros m m' M1.
    rewrite (mt_nE _ _ _ _ M1). eapply orel_bind.
    - apply (orel_for_same disc_twin); [constructor; auto|]. intros k t t' _ Ht. apply element_step_twin; [exact HT|exact Ht].
    - intros d d' [D1 D2 D3 D4]. rewrite D2, D3, D4. eapply orel_bind; [apply orel_refl|]. intros ps ? <-. split; [reflexivity|]. split; [exact D1|]. split; reflexivity.
  Qed.

  (** ** Areas and normals *)
  Record elem_area (e e' : Element T) : Prop := { ea_same : elem_same e e'; ea_area : e_area e' = e_area e }.
  Lemma cutArea_twin Q m m' b e e' : mesh_twin nsame Q m m' -> elem_same e e' -> cutArea m b e = cutArea m' b e'.
  Proof.
    intros M He. destruct He as [[W1 W2 W3] S C P]. apply orel_eq. unfold cutArea. rewrite S. ob. set (o := match _ with ES_CENTRE_OUTSIDE => _ | _ => _ end).
    eapply orel_bind with (R := eq).
    { apply orel_for_same; [reflexivity|]. intros k t ? _ <-. unfold cut_corner. rewrite W2. ob.
      eapply orel_bind; [apply orel_vget; exact (mt_nodes _ _ _ _ M)|]. intros n n' Hn. rewrite (ns_status _ _ Hn), (nw_coord _ _ (ns_weak _ _ Hn)). ob.
      destruct (if o then _ else _); [apply orel_refl|]. destruct (is_boundary _); [|apply orel_refl]. ob. ob. rewrite <- !(node_status_twin _ _ _ _ M). apply orel_refl. }
    intros vs ? <-. rewrite C, W1. destruct (e_nSegs e) as [k|] eqn:Ek; [|exact I]. cbn [init_get obind].
    eapply orel_bind with (R := eq); [|intros ? ? <-; apply orel_refl].
    apply orel_for_same; [reflexivity|]. intros i t ? Hi <-. unfold cut_segment. rewrite (prefix_vget k _ _ i (P k eq_refl) Hi). apply orel_refl.
  Qed.
  Lemma areas_twin (s s' : LevelSet T) b : mesh_twin nsame elem_same (ls_mesh s) (ls_mesh s') -> length (m_elements (ls_mesh s)) <= m_nElements (ls_mesh s) ->
    orel (fun r r' => snd r' = snd r /\ ls_area (fst r') = ls_area (fst r) /\ mesh_twin nsame elem_area (ls_mesh (fst r)) (ls_mesh (fst r')))
      (computeAreaFractions s b) (computeAreaFractions s' b).
  Proof.
    intros M LE. unfold computeAreaFractions. rewrite (mt_nE _ _ _ _ M).
    set (J := fun k (t t' : Mesh T * T) => mesh_twin nsame elem_same (fst t) (fst t') /\ upto elem_same elem_area k (m_elements (fst t)) (m_elements (fst t')) /\ length (m_elements (fst t)) = length (m_elements (ls_mesh s)) /\ snd t' = snd t).
    eapply orel_bind with (R := J (m_nElements (ls_mesh s))).
    - apply (orel_for J).
      + split; [exact M|]. split; [|auto]. split; [exact (mt_elements _ _ _ _ M)|]. intros; lia.
      + intros k [t a] [t' a'] Hk (Mt & Hu & Hl & Ea). cbn [fst snd] in *. subst a'. unfold area_step.
        eapply orel_bind; [apply orel_vget; exact (proj1 Hu)|]. intros e e' He. rewrite (es_status _ _ He), <- (cutArea_twin _ _ _ b e e' Mt He). ob.
        eapply orel_bind; [apply orel_refl|]. intros x ? <-. unfold elem_mod.
        pose proof (upto_vmod _ _ k _ _ (set_e_area x) (set_e_area x) Hu) as HV.
        assert (HA : forall e e' : Element T, elem_same e e' -> elem_same (set_e_area x e) (set_e_area x e') /\ elem_area (set_e_area x e) (set_e_area x e')).
        { intros y y' [[Y1 Y2 Y3] Y4 Y5 Y6]. assert (elem_same (set_e_area x y) (set_e_area x y')) by (constructor; [constructor|..]; assumption).
          split; [assumption|]. constructor; [assumption|reflexivity]. }
        specialize (HV HA). unfold vmod in *. destruct (m_elements t !! k) as [u|], (m_elements t' !! k) as [u'|]; cbn [orel obind] in *; auto.
        split; [cbn; eapply mt_set_elements; [exact Mt|exact (proj1 HV)]|]. split; [exact HV|]. cbn. rewrite insert_length. auto.
    - intros [t a] [t' a'] (Mt & Hu & Hl & Ea). cbn [fst snd] in *. subst a'. split; [reflexivity|]. split; [reflexivity|]. cbn.
      destruct Mt. constructor; auto. eapply upto_all; [exact Hu|]. lia.
  Qed.

  Lemma sd_at_twin R Q m m' sd x y : mesh_twin R Q m m' -> sd_at m sd x y = sd_at m' sd x y.
  Proof. intros M. unfold sd_at, xy_index. rewrite (mt_xy _ _ _ _ M). reflexivity. Qed.
  Lemma normals_twin (s s' : LevelSet T) b : mesh_twin nsame elem_same (ls_mesh s) (ls_mesh s') -> ls_nBand s' = ls_nBand s ->
    prefix_eq (ls_nBand s) (ls_band s) (ls_band s') -> ls_sd s' = ls_sd s -> computeNormalVectors s b = computeNormalVectors s' b.
  Proof.
    intros M EN P ES. apply orel_eq. unfold computeNormalVectors. rewrite EN. eapply orel_bind with (R := eq); [|intros ? ? <-; apply orel_refl].
    apply orel_for_same; [reflexivity|]. intros i st ? Hi <-. unfold normal_node. rewrite (prefix_vget _ _ _ i P Hi), ES. ob.
    eapply orel_bind; [apply orel_vget; exact (mt_nodes _ _ _ _ M)|]. intros n n' Hn. rewrite (ns_count _ _ Hn), (nw_coord _ _ (ns_weak _ _ Hn)).
    destruct (0 <? nd_nBpts n)%nat; [|reflexivity]. ob. ob.
    assert (U : forall x y, unit_normal (ls_mesh s) (ls_sd s) x y = unit_normal (ls_mesh s') (ls_sd s) x y).
    { intros x y. unfold unit_normal, central. rewrite (mt_width _ _ _ _ M), (mt_height _ _ _ _ M), !(sd_at_twin _ _ _ _ (ls_sd s) _ _ M). reflexivity. }
    rewrite U. ob. apply orel_for_same; [reflexivity|]. intros j t ? Hj <-. unfold normal_point. destruct t as [[ps w] is].
    rewrite (prefix_vget _ _ _ j (ns_bpts _ _ Hn) Hj). apply orel_refl.
  Qed.
End twin.
Notation node_weak := (nweak (act := true)).
Notation node_same := (nsame (act := true)).
Lemma discretise_twin {T : Type} {NT : Num T} (s s' : LevelSet T) tg : mesh_twin node_weak elem_weak (ls_mesh s) (ls_mesh s') ->
  length (m_nodes (ls_mesh s)) <= m_nNodes (ls_mesh s) -> length (m_elements (ls_mesh s)) <= m_nElements (ls_mesh s) ->
  ls_sd s' = ls_sd s -> ls_target s' = ls_target s -> ls_moveLimit s' = ls_moveLimit s ->
  orel (fun r r' => snd r' = snd r /\ mesh_twin node_same elem_same (ls_mesh (fst r)) (ls_mesh (fst r')) /\ fst r = set_mesh (ls_mesh (fst r)) s /\ fst r' = set_mesh (ls_mesh (fst r')) s') (discretise s tg) (discretise s' tg).
Proof. intros M LN LE E1. apply discretise_twin_on; auto. Qed.
