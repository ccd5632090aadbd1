(** * ComplementBoundary: the boundary of the complement of a shape (C80).

    Two runs of discretise, on a field and on its negative: opposite statuses, the same points and segments. *)

From Coq Require Import Reals Lra.
From Verif Require Import Base Num NumR NumInt MeshModel MeshSpec MeshProofs MeshTopo FmmSpec LevelSetModel LevelSetSpec LevelSetSpecR LevelSetCalls LevelSetHist
  BoundaryModel BoundarySpec BoundaryFrame BoundaryProofs BoundarySpecR BoundaryReal BoundaryGraph BoundaryRun BoundaryClosed AreaOrderSpec Twin ComplementSpec Complement ComplementStep.
Local Open Scope nat_scope.

(** Whatever two runs give, if both complete. *)
Definition both {A A'} (R : A -> A' -> Prop) (o : outcome A) (o' : outcome A') : Prop := forall a a', o = Ok a -> o' = Ok a' -> R a a'.
Lemma both_orel {A A'} (R : A -> A' -> Prop) o o' : orel R o o' -> both R o o'.
Proof. intros X a a' -> ->. exact X. Qed.
Lemma both_ok {A A'} (R : A -> A' -> Prop) a a' : R a a' -> both R (Ok a) (Ok a').
Proof. intros X b b' [= <-] [= <-]. exact X. Qed.
Lemma both_bind {A A' B B'} (R : A -> A' -> Prop) (Q : B -> B' -> Prop) o o' f f' : both R o o' ->
  (forall a a', R a a' -> both Q (f a) (f' a')) -> both Q (obind o f) (obind o' f').
Proof. intros X Y b b'. destruct o; try discriminate. destruct o'; try discriminate. cbn. apply Y, X; reflexivity. Qed.
Lemma both_impl {A A'} (R Q : A -> A' -> Prop) o o' : both R o o' -> (forall a a', R a a' -> Q a a') -> both Q o o'.
Proof. intros X Y a a' E E'. auto. Qed.
Lemma both_post {A A'} (P : A -> Prop) (P' : A' -> Prop) (R : A -> A' -> Prop) o o' : post o P -> post o' P' -> both R o o' ->
  both (fun a a' => P a /\ P' a' /\ R a a') o o'.
Proof. intros X Y Z a a' E E'. auto. Qed.
Lemma both_for {A A'} (R : nat -> A -> A' -> Prop) n f f' s s' : R 0 s s' ->
  (forall k t t', k < n -> R k t t' -> both (R (k + 1)) (f k t) (f' k t')) -> both (R n) (for_ n f s) (for_ n f' s').
Proof.
  intros H0 Hs. unfold for_. assert (G : forall m i t t', i + m = n -> R i t t' -> both (R n) (for_from i m f t) (for_from i m f' t')).
  { induction m as [|m IH]; intros i t t' E X; cbn [for_from].
    - apply both_ok. replace n with i by lia. exact X.
    - eapply both_bind; [apply Hs; [lia|exact X]|]. intros u u' Y. apply IH; [lia|]. replace (S i) with (i + 1) by lia. exact Y. }
  apply G; [lia|exact H0].
Qed.

Notation nweak := (@nweak R true).
Record nmir (n n' : Node R) : Prop := {
  nm_weak : nweak n n';
  nm_count : nd_nBpts n' = nd_nBpts n;
  nm_bpts : prefix_eq (nd_nBpts n) (nd_bpts n) (nd_bpts n')
}.
Record emir (e e' : Element R) : Prop := {
  em_weak : elem_weak e e';
  em_count : e_nSegs e' = e_nSegs e;
  em_segs : forall k, e_nSegs e = Some k -> prefix_eq k (e_segs e) (e_segs e')
}.
Record disc_mir (d d' : Disc R) : Prop := {
  dm_mesh : mesh_twin nmir emir (d_mesh d) (d_mesh d');
  dm_points : d_points d' = d_points d;
  dm_segs : d_segs d' = d_segs d;
  dm_len : d_len d' = d_len d
}.
Local Ltac ob := eapply orel_bind; [apply orel_refl|intros ? ? <-].

Lemma isAdded_mir d d' node edge x : disc_mir d d' -> isAdded d node edge x = isAdded d' node edge x.
Proof.
  intros D. apply orel_eq. unfold isAdded. eapply orel_bind; [apply orel_vget; exact (mt_nodes _ _ _ _ (dm_mesh _ _ D))|].
  intros n n' Hn. rewrite (nw_coord _ _ (nm_weak _ _ Hn)), (dm_points _ _ D), (nm_count _ _ Hn), (find_added_twin _ _ _ _ _ (nm_bpts _ _ Hn)) by lia.
  apply orel_refl.
Qed.
Lemma initialisePoint_mir m m' ml c : mesh_twin nmir emir m m' -> initialisePoint m ml c = initialisePoint m' ml c.
Proof.
  intros M. apply orel_eq. unfold initialisePoint, domain_gap. rewrite (mt_width _ _ _ _ M), (mt_height _ _ _ _ M), (closest_twin _ _ m m' _ _ M) by (intros e e' He; apply He).
  ob. eapply orel_bind; [apply orel_vget; exact (mt_nodes _ _ _ _ M)|].
  intros n n' Hn. rewrite (nw_coord _ _ (nm_weak _ _ Hn)), (nw_masked _ _ (nm_weak _ _ Hn)). apply orel_refl.
Qed.
Lemma attach_mir node k d d' : disc_mir d d' -> orel disc_mir (attach node k d) (attach node k d').
Proof.
  intros D. unfold attach. eapply orel_bind; [apply orel_vget; exact (mt_nodes _ _ _ _ (dm_mesh _ _ D))|]. intros n n' Hn.
  eapply orel_bind; [rewrite (nm_count _ _ Hn); apply prefix_vset, (nm_bpts _ _ Hn)|]. intros l l' Hl.
  eapply orel_bind.
  - apply orel_vset; [exact (mt_nodes _ _ _ _ (dm_mesh _ _ D))|]. destruct Hn as [[W1 W2 W3 W4 W5 W6] C P].
    assert (nmir (set_nd_bpts l (nd_nBpts n + 1) n) (set_nd_bpts l' (nd_nBpts n' + 1) n')) as HN; [|exact HN].
    rewrite C. constructor; [constructor; try assumption; symmetry; exact (proj1 Hl)|reflexivity|exact Hl].
  - intros ns ns' F. destruct D. constructor; auto. eapply mt_set_nodes; eauto.
Qed.
Lemma create_mir ml c d d' : disc_mir d d' -> orel disc_mir (create ml c d) (create ml c d').
Proof.
  intros D. unfold create. rewrite (initialisePoint_mir _ _ ml c (dm_mesh _ _ D)). ob. destruct D. constructor; auto. cbn. congruence.
Qed.
Definition index_mir (r r' : nat * Disc R) : Prop := fst r' = fst r /\ disc_mir (snd r) (snd r').
Lemma add_segment_mir i a b d d' : disc_mir d d' -> orel disc_mir (add_segment i a b d) (add_segment i a b d').
Proof.
  intros D. unfold add_segment, segmentLength. rewrite (dm_points _ _ D). ob. rename a0 into l.
  eapply orel_bind; [apply orel_vget; exact (mt_elements _ _ _ _ (dm_mesh _ _ D))|]. intros e e' [[W1 W2 W3] C P].
  rewrite C. destruct (e_nSegs e) as [k|] eqn:Ek; [|exact I]. cbn [init_get obind]. rewrite (dm_segs _ _ D).
  eapply orel_bind; [apply prefix_vset, (P k eq_refl)|]. intros q q' Hq.
  eapply orel_bind.
  - apply orel_vset; [exact (mt_elements _ _ _ _ (dm_mesh _ _ D))|].
    assert (emir (set_e_segs q (Some (k + 1)) e) (set_e_segs q' (Some (k + 1)) e')) as HE; [|exact HE].
    constructor; [constructor; try assumption; symmetry; exact (proj1 Hq)|reflexivity|]. cbn. intros ? [= <-]. exact Hq.
  - intros es es' F. destruct D. constructor; cbn; [eapply mt_set_elements; eauto|congruence|congruence|congruence].
Qed.
Local Instance status_dec : EqDecision ElementStatus.
Proof. solve_decision. Defined.
Definition cuts_mir (r r' : list nat * Disc R) : Prop := fst r' = fst r /\ disc_mir (snd r) (snd r').

Section mirror.
  Variables (W H : nat) (m : Mesh R) (sd : list R) (ml : R) (tg : bool).
  Hypothesis Ht : topo W H m.
  Hypothesis Hoff : off_contour W H sd.
  Local Notation sd' := (map Ropp sd).
  Local Notation dok d := (dinv W H m sd ml (length (d_points d)) d).
  Local Notation dok' d := (dinv W H m sd' ml (length (d_points d)) d).

  Lemma opp_lookup i : sd' !! i = match sd !! i with Some x => Some (- x)%R | None => None end.
  Proof. change (map Ropp sd) with (Ropp <$> sd). rewrite list_lookup_fmap. destruct (sd !! i); reflexivity. Qed.
  (** A node is on one side of the one and on the other side of the other. *)
  Lemma sides i : i < node_count W H -> (side sd i = Some NS_INSIDE /\ side sd' i = Some NS_OUTSIDE) \/ (side sd i = Some NS_OUTSIDE /\ side sd' i = Some NS_INSIDE).
  Proof.
    intros Hi. destruct (Hoff i Hi) as (x & Ex & Lx). pose proof tol_pos. unfold tol in *. destruct (Rle_dec 0 x) as [P|P].
    - rewrite Rabs_pos_eq in Lx by lra. left. rewrite side_inside, side_outside. split; [exists x; split; [exact Ex|exact Lx]|].
      exists (- x)%R. rewrite opp_lookup, Ex. split; [reflexivity|]. unfold tol. lra.
    - rewrite Rabs_left in Lx by lra. right. rewrite side_inside, side_outside. split; [exists x; split; [exact Ex|unfold tol; lra]|].
      exists (- x)%R. rewrite opp_lookup, Ex. split; [reflexivity|]. unfold tol. lra.
  Qed.

  Lemma cut_point_mir n1 n2 j d d' x1 x2 : disc_mir d d' -> sd !! n1 = Some x1 -> sd !! n2 = Some x2 -> (x1 - x2 <> 0)%R ->
    orel index_mir (cut_point ml sd n1 n2 j d) (cut_point ml sd' n1 n2 j d').
  Proof.
    intros D E1 E2 NZ. unfold cut_point, vget. rewrite !opp_lookup, E1, E2. cbn [obind].
    assert (Q : (- x1 / (- x1 - - x2))%R = (x1 / (x1 - x2))%R) by (field; split; lra).
    cbn [ndiv nsub NumR]. rewrite Q. rewrite (isAdded_mir _ _ n1 j _ D). eapply orel_bind; [apply orel_refl|]. intros [c index] ? <-.
    destruct index as [k|]; [split; [reflexivity|exact D]|]. rewrite (dm_points _ _ D).
    eapply orel_bind; [apply attach_mir, D|]. intros d1 d1' D1. eapply orel_bind; [apply attach_mir, D1|]. intros d3 d3' D3.
    eapply orel_bind; [apply create_mir, D3|]. intros d2 d2' D2. split; [reflexivity|exact D2].
  Qed.

  Let HW : 1 <= W := proj1 (tp_fits _ _ _ Ht).
  Lemma node_range d N i n s : dinv W H m s ml N d -> m_nodes (d_mesh d) !! i = Some n -> i < node_count W H.
  Proof. intros Hd Hn. apply lookup_lt_Some in Hn. rewrite (tp_lenN _ _ _ (mframe_topo _ _ _ _ (di_frame _ _ _ _ _ _ _ Hd) Ht)) in Hn. exact Hn. Qed.

  Lemma edge_mir e j r r' : dok (snd r) -> dok' (snd r') -> cuts_mir r r' -> both cuts_mir (edge_step ml tg sd e j r) (edge_step ml tg sd' e j r').
  Proof.
    destruct r as [cuts d], r' as [cuts' d']. intros Hd Hd' [E D]. cbn [fst snd] in *. subst cuts'. unfold edge_step.
    eapply both_bind; [apply both_orel, orel_vget; exact (mt_elements _ _ _ _ (dm_mesh _ _ D))|]. intros x x' Hx. rewrite (ew_nodes _ _ (em_weak _ _ Hx)).
    eapply both_bind; [apply both_orel, orel_refl|]. intros n1 ? <-. eapply both_bind; [apply both_orel, orel_refl|]. intros n2 ? <-.
    assert (V : forall i, both (fun n n' => nmir n n' /\ m_nodes (d_mesh d) !! i = Some n /\ m_nodes (d_mesh d') !! i = Some n') (vget (m_nodes (d_mesh d)) i) (vget (m_nodes (d_mesh d')) i)).
    { intros i n n' E E'. apply vget_Ok in E, E'. split; [|auto]. destruct (Forall2_lookup_l _ _ _ _ _ (mt_nodes _ _ _ _ (dm_mesh _ _ D)) E) as (b & E2 & X). congruence. }
    eapply both_bind; [apply V|]. intros a a' (Ha & La & La'). eapply both_bind; [apply V|]. intros b b' (Hb & Lb & Lb').
    rewrite (nw_active _ _ (nm_weak _ _ Ha) eq_refl), (nw_masked _ _ (nm_weak _ _ Ha)), (nw_active _ _ (nm_weak _ _ Hb) eq_refl), (nw_masked _ _ (nm_weak _ _ Hb)).
    destruct (tg || _ || _)%bool; [|apply both_ok; split; [reflexivity|exact D]].
    rewrite (di_node _ _ _ _ _ _ _ Hd _ _ La), (di_node _ _ _ _ _ _ _ Hd _ _ Lb), (di_node _ _ _ _ _ _ _ Hd' _ _ La'), (di_node _ _ _ _ _ _ _ Hd' _ _ Lb').
    pose proof (node_range _ _ _ _ _ Hd La) as R1. pose proof (node_range _ _ _ _ _ Hd Lb) as R2. pose proof tol_pos.
    assert (X : forall i, i < node_count W H -> exists x, sd !! i = Some x) by (intros i Hi; destruct (Hoff i Hi) as (y & Ey & _); eauto).
    destruct (sides n1 R1) as [[S1 S1']|[S1 S1']], (sides n2 R2) as [[S2 S2']|[S2 S2']]; rewrite S1, S1', S2, S2'; cbn [obind init_get is_inside is_outside is_boundary orb andb];
      try (apply both_ok; split; [reflexivity|exact D]).
    all: first [apply side_inside in S1|apply side_outside in S1]; first [apply side_inside in S2|apply side_outside in S2]; destruct S1 as (x1 & E1 & L1), S2 as (x2 & E2 & L2).
    all: eapply both_bind; [apply both_orel, (cut_point_mir n1 n2 j d d' x1 x2 D E1 E2); lra|]; intros [k d1] [k' d1'] [Ek D1]; cbn [fst snd] in *; subst k'; apply both_ok; split; [reflexivity|exact D1].
  Qed.

  (** An element with all its corners on one side adds nothing. *)
  Lemma edge_idle s e j cuts d N : dinv W H m s ml N d -> j < 4 -> (forall k, k < 4 -> side s (corner W e k) = Some NS_INSIDE) ->
    post (edge_step ml tg s e j (cuts, d)) (eq (cuts, d)).
  Proof.
    intros Hd Hj Hin. unfold edge_step. apply post_bind, post_vget. intros x Hx.
    apply post_bind, (post_corner _ _ _ _ Ht _ _ d e x j _ Hd Hx Hj).
    apply post_bind. change (if (j =? 3)%nat then 0 else j + 1) with (next j). apply (post_corner _ _ _ _ Ht _ _ d e x (next j) _ Hd Hx (next_lt j Hj)).
    apply post_bind, post_vget. intros a Ha. apply post_bind, post_vget. intros b Hb.
    destruct (tg || _ || _)%bool; [|apply post_ok; reflexivity].
    rewrite (di_node _ _ _ _ _ _ _ Hd _ _ Ha), (di_node _ _ _ _ _ _ _ Hd _ _ Hb), (Hin _ Hj), (Hin _ (next_lt j Hj)). apply post_ok. reflexivity.
  Qed.
  Lemma edges_idle s e d N : dinv W H m s ml N d -> (forall k, k < 4 -> side s (corner W e k) = Some NS_INSIDE) ->
    post (for_ 4 (edge_step ml tg s e) ([], d)) (eq ([], d)).
  Proof. intros Hd Hin. apply (post_for (eq ([], d))); [|reflexivity]. intros j ? Hj <-. apply (edge_idle s e j [] d N Hd Hj Hin). Qed.

  Lemma elem_status s d N e x : dinv W H m s ml N d -> m_elements (d_mesh d) !! e = Some x -> exists st, e_status x = Some st /\ final_class W s e st.
  Proof. intros Hd Hx. exact (di_elem _ _ _ _ _ _ _ Hd e x Hx). Qed.

  Lemma one_cut_idle s e p j d N : dinv W H m s ml N d -> j < 4 -> (forall k, k < 4 -> side s (corner W e k) <> Some NS_BOUNDARY) ->
    post (one_cut_step ml e p j d) (eq d).
  Proof.
    intros Hd Hj Hin. unfold one_cut_step. apply post_bind, post_vget. intros x Hx.
    apply post_bind, (post_corner _ _ _ _ Ht _ _ d e x j _ Hd Hx Hj).
    apply post_bind, (node_status_spec _ _ _ _ _ _ _ _ _ Hd). intros st Hst. destruct st; try (apply post_ok; reflexivity). exfalso. exact (Hin j Hj Hst).
  Qed.
  Lemma no_cuts_fail s e d (Q : Disc R -> Prop) : dinv W H m s ml (length (d_points d)) d -> (forall k, k < 4 -> side s (corner W e k) <> Some NS_BOUNDARY) -> post (no_cuts ml e d) Q.
  Proof.
    intros Hd Hin. unfold no_cuts. apply post_bind, post_vget. intros x Hx. apply post_bind.
    eapply post_impl; [apply (boundary_nodes_spec W H m s Ht ml d e x Hd Hx)|]. intros l Hl. rewrite Forall_forall in Hl.
    apply post_bind, post_vget. intros a Ea. apply elem_of_list_lookup_2, Hl in Ea as (j & Hj & -> & Sj). exfalso. exact (Hin j Hj Sj).
  Qed.

  Hypothesis Hbal : forall e, e < W * H -> ~ balanced W sd e.
  Lemma four_mir e cuts d d' : e < W * H -> dok d -> dok' d' -> alternating W sd e -> disc_mir d d' ->
    both disc_mir (four_cuts sd e cuts d) (four_cuts sd' e cuts d').
  Proof.
    intros He Hd Hd' Al D. unfold four_cuts.
    assert (V : both (fun x x' => emir x x' /\ m_elements (d_mesh d) !! e = Some x /\ m_elements (d_mesh d') !! e = Some x') (vget (m_elements (d_mesh d)) e) (vget (m_elements (d_mesh d')) e)).
    { intros n n' E E'. apply vget_Ok in E, E'. split; [|auto]. destruct (Forall2_lookup_l _ _ _ _ _ (mt_elements _ _ _ _ (dm_mesh _ _ D)) E) as (b & E2 & X). congruence. }
    eapply both_bind; [exact V|]. intros x x' (Hx & Lx & Lx').
    eapply both_bind with (R := fun a b => elem_sum W sd e = Some a /\ elem_sum W sd' e = Some b).
    { intros a b E E'. split; [exact (sum_spec W H m sd Ht ml d e x Hd Lx a E)|exact (sum_spec W H m sd' Ht ml d' e x' Hd' Lx' b E')]. }
    intros sum sum' [Es Es'].
    assert (Eo : sum' = (- sum)%R /\ sum <> 0%R).
    { unfold elem_sum in Es, Es'. rewrite !opp_lookup in Es'.
      destruct (sd !! corner W e 0) as [v0|] eqn:E0; [|discriminate]. destruct (sd !! corner W e 1) as [v1|] eqn:E1; [|discriminate].
      destruct (sd !! corner W e 2) as [v2|] eqn:E2; [|discriminate]. destruct (sd !! corner W e 3) as [v3|] eqn:E3; [|discriminate].
      injection Es as <-. injection Es' as <-. change (@n0 R NumR) with 0%R. cbn [nadd NumR]. split; [lra|]. intros Z. apply (Hbal e He).
      assert (K : forall j v, j < 4 -> sd !! corner W e j = Some v -> corner_value W sd e j = v).
      { intros j v Hj Ev. unfold corner_value. rewrite Nat.mod_small by exact Hj. apply nth_lookup_Some, Ev. }
      assert (K4 : corner_value W sd e 4 = corner_value W sd e 0) by reflexivity.
      pose proof (K 0 v0 ltac:(lia) E0) as C0. pose proof (K 1 v1 ltac:(lia) E1) as C1. pose proof (K 2 v2 ltac:(lia) E2) as C2. pose proof (K 3 v3 ltac:(lia) E3) as C3.
      assert (A : forall j, j < 4 -> exists a b, sd !! corner W e j = Some a /\ sd !! corner W e (next j) = Some b /\ (a * b < 0)%R).
      { intros j Hj. destruct (opposite_vals sd _ _ (Al j Hj)) as (a & b & Ea & Eb & X). exists a, b. split; [exact Ea|]. split; [exact Eb|]. pose proof tol_pos. destruct X as [[? ?]|[? ?]]; nra. }
      split; [|cbn; rewrite C0, C1, C2, C3; lra]. intros j Hj.
      destruct (A j Hj) as (a & b & Ea & Eb & P).
      destruct j as [|[|[|[|j]]]]; [..|lia]; cbn [next Nat.eqb Nat.add] in *; rewrite ?K4, ?C0, ?C1, ?C2, ?C3; congruence. }
    destruct Eo as [-> NZ]. rewrite (ew_nodes _ _ (em_weak _ _ Hx)).
    eapply both_bind with (R := fun a b => a = corner W e 0 /\ b = a).
    { intros a b E E'. split; [|congruence]. apply vget_Ok in E. pose proof (elem_nodes_get W H m sd Ht ml _ d e x 0 Hd Lx ltac:(lia)). congruence. }
    intros n0' ? [-> ->].
    pose proof (sides (corner W e 0) (corner_lt W H e 0 HW He ltac:(lia))) as S0.
    eapply both_bind with (R := fun a b => (a = NS_INSIDE /\ b = NS_OUTSIDE) \/ (a = NS_OUTSIDE /\ b = NS_INSIDE)).
    { intros a b E E'. pose proof (node_status_spec W H m sd ml _ d _ (fun st => side sd (corner W e 0) = Some st) Hd (fun st X => X) a E) as Y.
      pose proof (node_status_spec W H m sd' ml _ d' _ (fun st => side sd' (corner W e 0) = Some st) Hd' (fun st X => X) b E') as Y'. cbn beta in Y, Y'.
      destruct S0 as [[A A']|[A A']]; [left|right]; split; congruence. }
    intros st st' St.
    do 4 (eapply both_bind; [apply both_orel, orel_refl|]; intros ? ? <-).
    assert (B : ((is_inside st' && nltb n0 (- sum)%R) || (is_outside st' && nltb (- sum)%R n0))%bool = ((is_inside st && (sum >? n0)%num) || (is_outside st && (sum <? n0)%num))%bool).
    { change (@n0 R NumR) with 0%R. cbn [nltb NumR]. rewrite ltb_opp0, ltb_0opp. destruct St as [[-> ->]|[-> ->]]; cbn [is_inside is_outside andb orb]; rewrite ?orb_false_r; reflexivity. }
    rewrite B. clear B. apply both_orel. eapply orel_bind with (R := disc_mir).
    { destruct (_ || _)%bool; (eapply orel_bind; [apply add_segment_mir, D|]; intros d1 d1' D1; apply add_segment_mir, D1). }
    intros d1 d1' D1. eapply orel_bind.
    - apply (elem_mod_twin nmir emir); [exact (dm_mesh _ _ D1)|]. intros y y' [X C P]. constructor; [destruct X; constructor; assumption|exact C|exact P].
    - intros u u' M. destruct D1. constructor; auto.
  Qed.

  Lemma element_mir e d d' : e < W * H -> dok d -> dok' d' -> disc_mir d d' -> both disc_mir (element_step ml tg sd e d) (element_step ml tg sd' e d').
  Proof.
    intros He Hd Hd' D. unfold element_step.
    assert (V : both (fun x x' => m_elements (d_mesh d) !! e = Some x /\ m_elements (d_mesh d') !! e = Some x') (vget (m_elements (d_mesh d)) e) (vget (m_elements (d_mesh d')) e)).
    { intros n n' E E'. apply vget_Ok in E, E'. auto. }
    eapply both_bind; [exact V|]. intros x x' (Lx & Lx').
    destruct (elem_status _ _ _ _ _ Hd Lx) as (st & -> & Cl). destruct (elem_status _ _ _ _ _ Hd' Lx') as (st' & -> & Cl'). cbn [init_get obind].
    assert (Sd := fun j (Hj : j < 4) => sides (corner W e j) (corner_lt W H e j HW He Hj)).
    assert (Nb : forall j, j < 4 -> side sd (corner W e j) <> Some NS_BOUNDARY) by (intros j Hj; destruct (Sd j Hj) as [[A _]|[A _]]; congruence).
    assert (Nb' : forall j, j < 4 -> side sd' (corner W e j) <> Some NS_BOUNDARY) by (intros j Hj; destruct (Sd j Hj) as [[_ A]|[_ A]]; congruence).
    (* The run through the edges. *)
    set (go := fun s t (u : Disc R) => (let! (cuts, d0) := for_ 4 (edge_step ml tg s e) ([], u) in
        match cuts with
        | [p0; p1] => add_segment e p0 p1 d0
        | [p0] => for_ 4 (one_cut_step ml e p0) d0
        | [_; _; _; _] => four_cuts s e cuts d0
        | [] => match t with ES_INSIDE => Ok d0 | _ => no_cuts ml e d0 end
        | _ => Ok d0
        end)).
    assert (Out : forall s u N, dinv W H m s ml N u -> (forall k, k < 4 -> side s (corner W e k) = Some NS_INSIDE) -> post (go s ES_INSIDE u) (eq u)).
    { intros s u N Hu Hin. unfold go. apply post_bind. eapply post_impl; [apply (edges_idle s e u N Hu Hin)|]. intros ? <-. apply post_ok. reflexivity. }
    assert (Alt : forall s, alternating W s e -> exists j, j < 4 /\ side s (corner W e j) = Some NS_OUTSIDE).
    { intros s A. destruct (A 0 ltac:(lia)) as [[_ X]|[X _]]; [exists (next 0)|exists 0]; (split; [cbn; lia|exact X]). }
    assert (Alt' : forall s, alternating W s e -> exists j, j < 4 /\ side s (corner W e j) = Some NS_INSIDE).
    { intros s A. destruct (A 0 ltac:(lia)) as [[X _]|[_ X]]; [exists 0|exists (next 0)]; (split; [cbn; lia|exact X]). }
    assert (Par : both disc_mir (go sd st d) (go sd' st' d') \/ st = ES_OUTSIDE \/ st' = ES_OUTSIDE).
    { destruct (decide (st = ES_OUTSIDE \/ st' = ES_OUTSIDE)) as [X|X]; [right; exact X|left].
      assert (O1 : exists j, j < 4 /\ side sd (corner W e j) = Some NS_OUTSIDE).
      { assert (I2 : exists j, j < 4 /\ side sd' (corner W e j) = Some NS_INSIDE).
        { destruct st'; cbn [final_class class_ok] in Cl'; try tauto; try (apply Alt'; tauto).
          exists 0. split; [lia|]. destruct (Sd 0 ltac:(lia)) as [[_ A]|[_ A]]; [destruct (Cl' 0 ltac:(lia) A)|exact A]. }
        destruct I2 as (j & Hj & A). exists j. split; [exact Hj|]. destruct (Sd j Hj) as [[_ B]|[B _]]; [congruence|exact B]. }
      assert (N1 : st <> ES_INSIDE) by (intros ->; destruct O1 as (j & Hj & A); exact (Cl j Hj A)).
      unfold go. eapply both_bind with (R := fun r r' => cuts_ok W H m sd ml e 4 r /\ cuts_ok W H m sd' ml e 4 r' /\ cuts_mir r r').
      { apply (both_for (fun j r r' => cuts_ok W H m sd ml e j r /\ cuts_ok W H m sd' ml e j r' /\ cuts_mir r r')).
        - split; [|split; [|split; [reflexivity|exact D]]].
          + split; [exact Hd|]. split; [constructor|]. cbn. split; [lia|]. intros _ j' Hj'. lia.
          + split; [exact Hd'|]. split; [constructor|]. cbn. split; [lia|]. intros _ j' Hj'. lia.
        - intros j r r' Hj (C1 & C2 & M). apply both_post.
          + apply (edge_step_spec W H m sd Ht ml tg e j r He Hj C1).
          + apply (edge_step_spec W H m sd' Ht ml tg e j r' He Hj C2).
          + apply edge_mir; [exact (proj1 C1)|exact (proj1 C2)|exact M]. }
      intros [cuts d1] [cuts' d1'] ((H1 & _ & _ & Ho) & (H1' & _) & E & D1). cbn [fst snd] in *. subst cuts'.
      destruct cuts as [|p0 [|p1 [|p2 [|p3 [|]]]]]; try (apply both_ok; exact D1).
      - destruct st; try congruence; try tauto; intros a a' Ea _; exact (match no_cuts_fail sd e d1 (fun _ => False) H1 Nb a Ea with end).
      - intros a a' Ea Ea'.
        assert (Q : forall s u N, dinv W H m s ml N u -> (forall k, k < 4 -> side s (corner W e k) <> Some NS_BOUNDARY) -> post (for_ 4 (one_cut_step ml e p0) u) (eq u)).
        { intros s u N Hu Hn. apply (post_for (eq u)); [|reflexivity]. intros j ? Hj <-. apply (one_cut_idle s e p0 j u N Hu Hj Hn). }
        rewrite <- (Q sd d1 _ H1 Nb a Ea), <- (Q sd' d1' _ H1' Nb' a' Ea'). exact D1.
      - apply both_orel, add_segment_mir, D1.
      - apply four_mir; try assumption. exact (Ho eq_refl). }
    assert (Fin : (st = ES_OUTSIDE -> st' = ES_INSIDE /\ forall k, k < 4 -> side sd' (corner W e k) = Some NS_INSIDE) /\
                  (st' = ES_OUTSIDE -> st = ES_INSIDE /\ forall k, k < 4 -> side sd (corner W e k) = Some NS_INSIDE)).
    { split; intros ->; cbn [final_class class_ok] in Cl, Cl'.
      - assert (A : forall k, k < 4 -> side sd' (corner W e k) = Some NS_INSIDE) by (intros k Hk; destruct (Sd k Hk) as [[B _]|[_ B]]; [destruct (proj2 Cl k Hk B)|exact B]).
        split; [|exact A]. assert (X : ~ exists j, j < 4 /\ side sd' (corner W e j) = Some NS_OUTSIDE) by (intros (j & Hj & B); rewrite (A j Hj) in B; discriminate).
        destruct st'; try reflexivity; exfalso; cbn [final_class class_ok] in Cl'; try tauto; apply X, Alt; tauto.
      - assert (A : forall k, k < 4 -> side sd (corner W e k) = Some NS_INSIDE) by (intros k Hk; destruct (Sd k Hk) as [[B _]|[_ B]]; [exact B|destruct (proj2 Cl' k Hk B)]).
        split; [|exact A]. assert (X : ~ exists j, j < 4 /\ side sd (corner W e j) = Some NS_OUTSIDE) by (intros (j & Hj & B); rewrite (A j Hj) in B; discriminate).
        destruct st; try reflexivity; exfalso; cbn [final_class class_ok] in Cl; try tauto; apply X, Alt; tauto. }
    destruct Par as [Par|[-> | ->]].
    - destruct (decide (st = ES_OUTSIDE)) as [->|N]; [|destruct (decide (st' = ES_OUTSIDE)) as [->|N']].
      + destruct (proj1 Fin eq_refl) as [-> A]. intros a a' [= <-] Ea'. rewrite <- (Out sd' d' _ Hd' A a' Ea'). exact D.
      + destruct (proj2 Fin eq_refl) as [-> A]. intros a a' Ea [= <-]. rewrite <- (Out sd d _ Hd A a Ea). exact D.
      + destruct st, st'; try congruence; exact Par.
    - destruct (proj1 Fin eq_refl) as [-> A]. intros a a' [= <-] Ea'. rewrite <- (Out sd' d' _ Hd' A a' Ea'). exact D.
    - destruct (proj2 Fin eq_refl) as [-> A]. intros a a' Ea [= <-]. rewrite <- (Out sd d _ Hd A a Ea). exact D.
  Qed.

  Lemma start_mir m1 m1' : status_ok W H m sd m1 -> status_ok W H m sd' m1' -> disc_mir (mkDisc m1 [] [] n0) (mkDisc m1' [] [] n0).
  Proof.
    intros S1 S2. constructor; try reflexivity. cbn [d_mesh]. pose proof (st_frame _ _ _ _ _ S1) as F1. pose proof (st_frame _ _ _ _ _ S2) as F2.
    pose proof (mframe_len _ _ F1) as [N1 E1]. pose proof (mframe_len _ _ F2) as [N2 E2]. constructor.
    - apply Forall2_same_length_lookup_2; [congruence|]. intros i n n' Hn Hn'.
      destruct (mframe_lookup _ _ _ _ F1 Hn) as (o & Ho & X1). destruct (mframe_lookup _ _ _ _ F2 Hn') as (o' & Ho' & X2). rewrite Ho in Ho'. injection Ho' as <-.
      rewrite <- X1 in X2. unfold fixed_node in X2. injection X2. intros. constructor; [constructor; auto|rewrite (proj2 (st_node _ _ _ _ _ S1 i n Hn)), (proj2 (st_node _ _ _ _ _ S2 i n' Hn')); reflexivity|].
      rewrite (proj2 (st_node _ _ _ _ _ S1 i n Hn)). split; [congruence|reflexivity].
    - apply Forall2_same_length_lookup_2; [congruence|]. intros i n n' Hn Hn'.
      destruct (mframe_elookup _ _ _ _ F1 Hn) as (o & Ho & X1). destruct (mframe_elookup _ _ _ _ F2 Hn') as (o' & Ho' & X2). rewrite Ho in Ho'. injection Ho' as <-.
      rewrite <- X1 in X2. unfold fixed_elem in X2. injection X2. intros. constructor; [constructor; auto|rewrite (proj2 (st_elem _ _ _ _ _ S1 i n Hn)), (proj2 (st_elem _ _ _ _ _ S2 i n' Hn')); reflexivity|].
      rewrite (proj2 (st_elem _ _ _ _ _ S1 i n Hn)). intros ? [= <-]. split; [congruence|reflexivity].
    - destruct F1, F2. congruence.
    - destruct F1, F2. congruence.
    - destruct F1, F2. congruence.
    - destruct F1, F2. congruence.
    - destruct F1, F2. congruence.
  Qed.
End mirror.

Lemma boundary_same W H s : reached W H s -> off_contour W H (ls_sd s) -> (forall e, e < W * H -> ~ balanced W (ls_sd s) e) ->
  both (fun x y => snd y = snd x /\ exists m m', mesh_twin nmir emir m m' /\ fst x = set_mesh m s /\ fst y = set_mesh m' (flip s)) (discretise s false) (discretise (flip s) false).
Proof.
  intros Hr Ho Hb. pose proof (ok_topo _ _ _ (so_ok _ _ _ (reached_sound _ _ _ Hr))) as Ht. unfold discretise. cbn [flip set_vel set_sd ls_sd ls_mesh ls_moveLimit].
  eapply both_bind; [apply (both_post (status_ok W H (ls_mesh s) (ls_sd s)) (status_ok W H (ls_mesh s) (map Ropp (ls_sd s))) (fun _ _ => True)); [apply status_spec; exact Ht|apply status_spec; exact Ht|intros ? ? ? ?; exact I]|].
  intros m1 m1' (S1 & S2 & _). pose proof (start_mir _ _ _ _ _ _ S1 S2) as D0.
  pose proof (mframe_topo _ _ _ _ (st_frame _ _ _ _ _ S1) Ht) as Ht1.
  eapply both_bind with (R := disc_mir).
  - pose proof (mt_nE _ _ _ _ (dm_mesh _ _ D0)) as EN. cbn [d_mesh] in EN. rewrite EN.
    eapply both_impl; [apply (both_for (fun _ d d' => dinv W H (ls_mesh s) (ls_sd s) (ls_moveLimit s) (length (d_points d)) d /\ dinv W H (ls_mesh s) (map Ropp (ls_sd s)) (ls_moveLimit s) (length (d_points d')) d' /\ disc_mir d d'))|].
    + split; [apply init_start, S1|]. split; [apply init_start, S2|exact D0].
    + intros e d d' He (H1 & H2 & D). rewrite (tp_nE _ _ _ Ht1) in He. apply both_post.
      * apply element_step_spec; assumption.
      * apply element_step_spec; assumption.
      * apply (element_mir W H (ls_mesh s) (ls_sd s) (ls_moveLimit s) false Ht Ho Hb); assumption.
    + cbv beta. tauto.
  - intros d d' D. rewrite (dm_points _ _ D), (dm_segs _ _ D), (dm_len _ _ D). apply both_orel. ob. split; [reflexivity|]. exists (d_mesh d), (d_mesh d'). split; [exact (dm_mesh _ _ D)|]. split; reflexivity.
Qed.

(** ** Normals *)
Local Open Scope R_scope.
Definition opposed (c : Coord R) : Coord R := mkCoord (- cx c) (- cy c).
Lemma opp_div x y : - x / y = - (x / y).
Proof. unfold Rdiv. ring. Qed.
Lemma sd_at_neg (m m' : Mesh R) sd x y : m_xy m' = m_xy m -> orel neg (sd_at m sd x y) (sd_at m' (map Ropp sd) x y).
Proof.
  intros E. unfold sd_at, xy_index. rewrite E. eapply orel_bind; [apply orel_refl|]. intros ? ? <-. apply (orel_vget neg), neg_map.
Qed.
Definition neg2 (a b : R * R) : Prop := neg a.1 b.1 /\ neg a.2 b.2.
Lemma central_neg m m' sd x y : mesh_twin nmir emir m m' -> orel neg2 (central m sd x y) (central m' (map Ropp sd) x y).
Proof.
  intros M. unfold central. rewrite (mt_width _ _ _ _ M), (mt_height _ _ _ _ M).
  assert (Df : forall x1 y1 x2 y2, orel neg (let! a := sd_at m sd x1 y1 in let! b := sd_at m sd x2 y2 in Ok (a - b)%num)
    (let! a := sd_at m' (map Ropp sd) x1 y1 in let! b := sd_at m' (map Ropp sd) x2 y2 in Ok (a - b)%num)).
  { intros. eapply orel_bind; [apply sd_at_neg, (mt_xy _ _ _ _ M)|]. intros a a' Ha. eapply orel_bind; [apply sd_at_neg, (mt_xy _ _ _ _ M)|]. intros b b' Hb.
    unfold neg in *. subst. cbn. lra. }
  assert (Dh : forall x1 y1 x2 y2, orel neg (let! a := sd_at m sd x1 y1 in let! b := sd_at m sd x2 y2 in Ok (nlit 1 2 * (a - b))%num)
    (let! a := sd_at m' (map Ropp sd) x1 y1 in let! b := sd_at m' (map Ropp sd) x2 y2 in Ok (nlit 1 2 * (a - b))%num)).
  { intros. eapply orel_bind; [apply sd_at_neg, (mt_xy _ _ _ _ M)|]. intros a a' Ha. eapply orel_bind; [apply sd_at_neg, (mt_xy _ _ _ _ M)|]. intros b b' Hb.
    unfold neg in *. subst. cbn. lra. }
  eapply (orel_bind neg).
  - destruct (x =? 0)%nat; [apply Df|]. destruct (x =? m_width m)%nat; [apply Df|apply Dh].
  - intros gx gx' Hx. eapply (orel_bind neg).
    + destruct (y =? 0)%nat; [apply Df|]. destruct (y =? m_height m)%nat; [apply Df|apply Dh].
    + intros gy gy' Hy. split; assumption.
Qed.
Lemma unit_neg m m' sd x y : mesh_twin nmir emir m m' -> orel (fun a b => b = opposed a) (unit_normal m sd x y) (unit_normal m' (map Ropp sd) x y).
Proof.
  intros M. unfold unit_normal. eapply orel_bind; [apply central_neg, M|]. intros [gx gy] [gx' gy'] [Hx Hy]. unfold neg in *. cbn [fst snd] in *. subst. cbn [orel].
  cbn [nsqrt nadd nmul ndiv NumR]. replace (- gx * - gx + - gy * - gy) with (gx * gx + gy * gy) by ring. unfold opposed. cbn [cx cy]. rewrite !opp_div. reflexivity.
Qed.
Definition tn (p p' : BoundaryPoint R) : Prop := p' = turned p.
Definition norm_mir (a b : NormState) : Prop := Forall2 tn a.1.1 b.1.1 /\ b.1.2 = a.1.2 /\ b.2 = a.2.
Lemma normal_point_neg nc v bpts bpts' n j a b : prefix_eq n bpts bpts' -> (j < n)%nat -> norm_mir a b ->
  orel norm_mir (normal_point nc v bpts j a) (normal_point nc (opposed v) bpts' j b).
Proof.
  destruct a as [[ps w] st], b as [[ps' w'] st']. intros P Lj (F & Ew & Es). cbn [fst snd] in *. subst. unfold normal_point. rewrite <- (prefix_vget n _ _ j P Lj).
  ob. rename a into k. eapply orel_bind; [apply orel_vget, F|]. intros p p' ->. cbn [turned set_bp_normal bp_coord bp_normal].
  destruct (nltb _ _).
  - eapply orel_bind; [apply orel_vset; [exact F|]|intros l l' Hl].
    { assert (tn (set_bp_normal v p) (set_bp_normal (opposed v) (turned p))) as X by reflexivity. exact X. }
    ob. ob. split; [exact Hl|]. split; reflexivity.
  - ob. rename a into s. destruct (negb s); [|split; [exact F|split; reflexivity]].
    eapply orel_bind; [apply orel_vset; [exact F|]|intros l l' Hl].
    { unfold tn, turned, opposed. unfold set_bp_normal. cbn [bp_coord bp_normal bp_length bp_velocity bp_neg bp_pos bp_domain bp_fixed bp_nSegs bp_segs bp_nNeigh bp_neigh bp_sens cx cy nadd ndiv NumR]. do 2 f_equal; unfold Rdiv; ring. }
    ob. ob. split; [exact Hl|]. split; reflexivity.
Qed.
Lemma normals_neg s m m' b : mesh_twin nmir emir m m' ->
  computeNormalVectors (set_mesh m' (flip s)) b = (let! c := computeNormalVectors (set_mesh m s) b in Ok (turned_boundary c)).
Proof.
  intros M. symmetry. apply orel_eq. assert (Q : orel (fun c c' => c' = turned_boundary c) (computeNormalVectors (set_mesh m s) b) (computeNormalVectors (set_mesh m' (flip s)) b)).
  2:{ destruct (computeNormalVectors (set_mesh m s) b), (computeNormalVectors (set_mesh m' (flip s)) b); cbn in Q |- *; auto. }
  unfold computeNormalVectors. eapply (orel_bind norm_mir).
  - change (ls_nBand (set_mesh m' (flip s))) with (ls_nBand s). change (ls_nBand (set_mesh m s)) with (ls_nBand s). apply orel_for_same.
    + split; [|split; reflexivity]. cbn [fst]. induction (bd_points b) as [|p ps IH]; constructor; [|exact IH]. unfold tn, turned, set_bp_normal. cbn [bp_coord bp_normal bp_length bp_velocity bp_neg bp_pos bp_domain bp_fixed bp_nSegs bp_segs bp_nNeigh bp_neigh bp_sens cx cy]. change (@n0 R NumR) with 0. rewrite Ropp_0. reflexivity.
    + intros i x y _ X. unfold normal_node. change (ls_band (set_mesh m' (flip s))) with (ls_band s). change (ls_band (set_mesh m s)) with (ls_band s).
      change (ls_mesh (set_mesh m' (flip s))) with m'. change (ls_mesh (set_mesh m s)) with m. change (ls_sd (set_mesh m' (flip s))) with (map Ropp (ls_sd s)). change (ls_sd (set_mesh m s)) with (ls_sd s).
      ob. eapply orel_bind; [apply orel_vget, (mt_nodes _ _ _ _ M)|]. intros n n' Hn. rewrite (nm_count _ _ Hn), (nw_coord _ _ (nm_weak _ _ Hn)).
      destruct (0 <? nd_nBpts n)%nat; [|exact X]. ob. ob. eapply orel_bind; [apply unit_neg, M|]. intros v ? ->.
      apply orel_for_same; [exact X|]. intros j u u' Lj Hu. eapply normal_point_neg; [exact (nm_bpts _ _ Hn)|exact Lj|exact Hu].
  - intros [[ps w] st] [[ps' w'] st'] (F & Ew & Es). cbn [fst snd] in *. subst. rewrite <- (Forall2_length _ _ _ F).
    eapply (orel_bind (Forall2 tn)).
    + apply orel_for_same; [exact F|]. intros i l l' _ Hl. unfold normalise_point. eapply orel_bind; [apply orel_vget, Hl|]. intros p p' ->. cbn [turned set_bp_normal bp_domain bp_normal].
      destruct (negb (bp_domain p)); [|exact Hl]. ob. apply orel_vset; [exact Hl|]. unfold tn, turned. cbn. rewrite !opp_div.
      replace (- (cx (bp_normal p) / a) * - (cx (bp_normal p) / a) + - (cy (bp_normal p) / a) * - (cy (bp_normal p) / a)) with (cx (bp_normal p) / a * (cx (bp_normal p) / a) + cy (bp_normal p) / a * (cy (bp_normal p) / a)) by ring.
      reflexivity.
    + intros l l' Hl. cbn. unfold turned_boundary. cbn. f_equal. clear - Hl. induction Hl as [|p p' l l' E _ IH]; [reflexivity|]. unfold tn in E. cbn. congruence.
Qed.

Theorem complement_boundary W H s : measurable W H s false (ls_sd s) -> (forall e, (e < W * H)%nat -> ~ balanced W (ls_sd s) e) ->
  exists s' t' b, discretise s false = Ok (s', b) /\ discretise (flip s) false = Ok (t', b) /\
    computeNormalVectors t' b = (let! c := computeNormalVectors s' b in Ok (turned_boundary c)).
Proof.
  intros (_ & Hr & Ho & Hc & [X|Cv]) Hb; [discriminate|].
  assert (L : forall i y, map Ropp (ls_sd s) !! i = Some y -> ls_sd s !! i = Some (- y)).
  { intros i y. rewrite opp_lookup. destruct (ls_sd s !! i); [|discriminate]. intros [= <-]. rewrite Ropp_involutive. reflexivity. }
  assert (HW : (1 <= W)%nat) by exact (proj1 (tp_fits _ _ _ (ok_topo _ _ _ (so_ok _ _ _ (reached_sound _ _ _ Hr))))).
  assert (Ho' : off_contour W H (ls_sd (flip s))).
  { intros i Hi. destruct (Ho i Hi) as (x & Ex & Lx). exists (- x). cbn. rewrite opp_lookup, Ex, Rabs_Ropp. auto. }
  assert (Hc' : clear_cuts W H (ls_sd (flip s))).
  { intros i k x y Ad Ex Ey Lx Ly. cbn in Ex, Ey. apply L in Ex, Ey. destruct (Hc k i (- y) (- x) (adjacent_sym W H HW _ _ Ad) Ey Ex ltac:(lra) ltac:(lra)) as [A B].
    split; replace (x - y) with (- y - - x) by ring; lra. }
  assert (Cv' : covered W H (flip s) (ls_sd (flip s))).
  { intros i k x y Ad Ex Ey Lx Ly. cbn in Ex, Ey. apply L in Ex, Ey. destruct (Cv k i (- y) (- x) (adjacent_sym W H HW _ _ Ad) Ey Ex ltac:(lra) ltac:(lra)) as [A|[A|[A|A]]]; tauto. }
  destruct (closed_curves W H s false Hr Hc Ho (or_intror Cv)) as (s' & b & E & _).
  destruct (closed_curves W H (flip s) false (reached_flip W H s Hr) Hc' Ho' (or_intror Cv')) as (t' & b' & E' & _).
  destruct (boundary_same W H s Hr Ho Hb _ _ E E') as (Eb & m & m' & M & Es & Et). cbn [fst snd] in *. subst b' s' t'.
  exists (set_mesh m s), (set_mesh m' (flip s)), b. split; [exact E|]. split; [exact E'|]. apply normals_neg, M.
Qed.
