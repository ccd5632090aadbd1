(** * BoundaryLinks: computePointLengths and the result of discretise (any arithmetic). *)

From Verif Require Import MeshModel MeshSpec MeshProofs MeshTopo LevelSetModel BoundaryModel BoundarySpec BoundaryFrame BoundaryProofs.
Local Open Scope nat_scope.

Section Links.
  Context {T : Type} {NT : Num T}.
  Definition fixed_bp (p : BoundaryPoint T) :=
    (bp_coord p, bp_normal p, bp_velocity p, bp_neg p, bp_pos p, bp_domain p, bp_fixed p, bp_sens p).

  Section Loop.
    Variables (segs : list (BoundarySegment T)) (ps0 : list (BoundaryPoint T)).
    Hypothesis Hend : forall i sg, segs !! i = Some sg -> sg_start sg < length ps0 /\ sg_end sg < length ps0.
    Hypothesis Hfresh : forall k p, ps0 !! k = Some p ->
      bp_length p = n0 /\ bp_nSegs p = 0 /\ bp_nNeigh p = 0 /\ length (bp_segs p) = 2 /\ length (bp_neigh p) = 2.

    Definition half_sum (l : list (nat * nat)) (a : T) : T := fold_left (fun acc x => acc + nlit 1 2 * seg_length_of segs (fst x))%num l a.
    Record linked (l1 l2 l3 : list (nat * nat)) (p0 p : BoundaryPoint T) : Prop := {
      lk_fixed : fixed_bp p = fixed_bp p0;
      lk_len : bp_length p = half_sum l1 n0;
      lk_nS : bp_nSegs p = length l2;
      lk_S : take (length l2) (bp_segs p) = map fst l2;
      lk_lS : length (bp_segs p) = 2;
      lk_nN : bp_nNeigh p = length l3;
      lk_N : take (length l3) (bp_neigh p) = map snd l3;
      lk_lN : length (bp_neigh p) = 2;
    }.
    Notation fam := (nat -> list (nat * nat)).
    Definition put (f : fam) (s : nat) (x : nat * nat) : fam := fun k => f k ++ (if (k =? s)%nat then [x] else []).
    Definition inv (f1 f2 f3 : fam) (ps : list (BoundaryPoint T)) : Prop :=
      length ps = length ps0 /\ forall k p0, ps0 !! k = Some p0 -> exists p, ps !! k = Some p /\ linked (f1 k) (f2 k) (f3 k) p0 p.

    Lemma point_mod_inv U f1 f2 f3 g1 g2 g3 s h ps : s < length ps0 -> inv f1 f2 f3 ps ->
      (forall k, k <> s -> g1 k = f1 k /\ g2 k = f2 k /\ g3 k = f3 k) ->
      (forall p0 p, ps0 !! s = Some p0 -> linked (f1 s) (f2 s) (f3 s) p0 p -> wp False U (h p) (linked (g1 s) (g2 s) (g3 s) p0)) ->
      wp False U (point_mod s h ps) (inv g1 g2 g3).
    Proof.
      intros Hs (L & I) Hg Hh. destruct (lookup_lt_is_Some_2 ps0 s Hs) as [p0 E0]. destruct (I s p0 E0) as (p & E & K).
      unfold point_mod. apply wp_bind, (wp_vget _ _ _ _ _ p E). apply wp_bind. eapply wp_impl; [apply (Hh p0 p E0 K)|]. intros q Kq.
      apply wp_vset; [eauto using lookup_lt_Some|]. split; [rewrite insert_length; exact L|].
      intros k q0 Eq. destruct (Nat.eq_dec k s) as [->|Hne].
      - exists q. assert (q0 = p0) by congruence. subst q0. split; [apply list_lookup_insert; eauto using lookup_lt_Some|exact Kq].
      - rewrite list_lookup_insert_ne by auto. destruct (Hg k Hne) as (-> & -> & ->). apply I, Eq.
    Qed.
    Lemma put_ne f s x k : k <> s -> put f s x k = f k.
    Proof. intros Hne. unfold put. rewrite (proj2 (Nat.eqb_neq k s) Hne). apply app_nil_r. Qed.
    Lemma put_eq f s x : put f s x s = f s ++ [x].
    Proof. unfold put. rewrite Nat.eqb_refl. reflexivity. Qed.

    Lemma half_inv U f1 f2 f3 i s t sg ps : segs !! i = Some sg -> s < length ps0 -> inv f1 f2 f3 ps ->
      wp False U (point_mod s (fun p => Ok (add_half (sg_length sg) p)) ps) (inv (put f1 s (i, t)) f2 f3).
    Proof.
      intros Hi Hs I. apply (point_mod_inv U f1 f2 f3); [exact Hs|exact I|intros k Hne; rewrite put_ne by exact Hne; auto|].
      intros p0 p _ []. apply wp_ok. rewrite put_eq. constructor; cbn; auto.
      unfold half_sum. rewrite fold_left_app. cbn. unfold seg_length_of at 2. rewrite Hi. rewrite lk_len0. reflexivity.
    Qed.
    Lemma seg_inv (U : Prop) f1 f2 f3 i s t ps : s < length ps0 -> inv f1 f2 f3 ps -> (2 <= length (f2 s) -> U) ->
      wp False U (point_mod s (link_segment i) ps) (inv f1 (put f2 s (i, t)) f3).
    Proof.
      intros Hs I HU. apply (point_mod_inv U f1 f2 f3); [exact Hs|exact I|intros k Hne; rewrite put_ne by exact Hne; auto|].
      intros p0 p _ []. unfold link_segment. rewrite put_eq.
      destruct (decide (2 <= length (f2 s))) as [L|L].
      { apply wp_bind. unfold vset. rewrite lookup_ge_None_2 by lia. cbn. auto. }
      apply wp_bind, wp_vset; [lia|]. apply wp_ok. constructor; cbn; auto.
      - rewrite app_length. cbn. lia.
      - rewrite app_length, lk_nS0. cbn [length]. rewrite Nat.add_1_r. rewrite (take_S_r _ _ i) by (apply list_lookup_insert; lia).
        rewrite take_insert by lia. rewrite map_app, lk_S0. reflexivity.
      - rewrite insert_length. auto.
    Qed.
    Lemma neigh_inv (U : Prop) f1 f2 f3 i s t ps : s < length ps0 -> inv f1 f2 f3 ps -> (2 <= length (f3 s) -> U) ->
      wp False U (point_mod s (link_neighbour t) ps) (inv f1 f2 (put f3 s (i, t))).
    Proof.
      intros Hs I HU. apply (point_mod_inv U f1 f2 f3); [exact Hs|exact I|intros k Hne; rewrite put_ne by exact Hne; auto|].
      intros p0 p _ []. unfold link_neighbour. rewrite put_eq.
      destruct (decide (2 <= length (f3 s))) as [L|L].
      { apply wp_bind. unfold vset. rewrite lookup_ge_None_2 by lia. cbn. auto. }
      apply wp_bind, wp_vset; [lia|]. apply wp_ok. constructor; cbn; auto.
      - rewrite app_length. cbn. lia.
      - rewrite app_length, lk_nN0. cbn [length]. rewrite Nat.add_1_r. rewrite (take_S_r _ _ t) by (apply list_lookup_insert; lia).
        rewrite take_insert by lia. rewrite map_app, lk_N0. reflexivity.
      - rewrite insert_length. auto.
    Qed.

    Lemma incidence_snoc i sg k : segs !! i = Some sg ->
      incidence (take (i + 1) segs) k = incidence (take i segs) k ++ ends_at k i sg.
    Proof.
      intros Hi. unfold incidence. rewrite Nat.add_1_r, (take_S_r _ _ _ Hi), imap_app, concat_app. cbn.
      rewrite take_length, app_nil_r, Nat.add_0_r. rewrite Nat.min_l by (apply lookup_lt_Some in Hi; lia). reflexivity.
    Qed.
    Lemma incidence_prefix i k : length (incidence (take i segs) k) <= length (incidence segs k).
    Proof.
      rewrite <- (take_drop i segs) at 2. unfold incidence. rewrite imap_app, concat_app, app_length. lia.
    Qed.

    (** Succeeds if no point is the end of more than two segments. *)
    Definition crowded : Prop := exists k, 2 < length (incidence segs k).
    Notation inc i := (incidence (take i segs)).
    Lemma inv_ext f1 f2 f3 g1 g2 g3 ps : (forall k, f1 k = g1 k) -> (forall k, f2 k = g2 k) -> (forall k, f3 k = g3 k) -> inv f1 f2 f3 ps -> inv g1 g2 g3 ps.
    Proof. intros A B C (L & I). split; [exact L|]. intros k p0 E. destruct (I k p0 E) as (p & Ep & K). exists p. rewrite <- A, <- B, <- C. auto. Qed.
    Lemma length_step_inv i ps : i < length segs -> inv (inc i) (inc i) (inc i) ps ->
      wp False crowded (length_step segs i ps) (inv (inc (i + 1)) (inc (i + 1)) (inc (i + 1))).
    Proof.
      intros Hi I. destruct (lookup_lt_is_Some_2 segs i Hi) as [sg Hsg]. destruct (Hend i sg Hsg) as [Ha Hb].
      set (a := sg_start sg) in *. set (b := sg_end sg) in *.
      assert (E : forall k, put (put (inc i) a (i, b)) b (i, a) k = inc (i + 1) k).
      { intros k. rewrite (incidence_snoc i sg k Hsg). unfold put, ends_at. rewrite <- app_assoc. reflexivity. }
      assert (U1 : 2 <= length (inc i a) -> crowded).
      { intros L. exists a. pose proof (incidence_prefix (i + 1) a) as P. rewrite <- E in P. unfold put in P. rewrite Nat.eqb_refl in P.
        rewrite !app_length in P. cbn [length] in P. lia. }
      assert (U2 : 2 <= length (put (inc i) a (i, b) b) -> crowded).
      { intros L. exists b. pose proof (incidence_prefix (i + 1) b) as P. rewrite <- E in P. rewrite put_eq, app_length in P. cbn [length] in P. lia. }
      unfold length_step. apply wp_bind, (wp_vget _ _ _ _ _ sg Hsg). fold a. fold b.
      apply wp_bind. eapply wp_impl; [apply (half_inv crowded _ _ _ i a b sg ps Hsg Ha I)|]. clear I ps. intros ps I.
      apply wp_bind. eapply wp_impl; [apply (half_inv crowded _ _ _ i b a sg ps Hsg Hb I)|]. clear I ps. intros ps I.
      apply wp_bind. eapply wp_impl; [apply (seg_inv crowded _ _ _ i a b ps Ha I U1)|]. clear I ps. intros ps I.
      apply wp_bind. eapply wp_impl; [apply (seg_inv crowded _ _ _ i b a ps Hb I U2)|]. clear I ps. intros ps I.
      apply wp_bind. eapply wp_impl; [apply (neigh_inv crowded _ _ _ i a b ps Ha I U1)|]. clear I ps. intros ps I.
      eapply wp_impl; [apply (neigh_inv crowded _ _ _ i b a ps Hb I U2)|]. clear I ps. intros ps I.
      eapply inv_ext; [..|exact I]; exact E.
    Qed.
    Lemma lengths_spec : wp False crowded (computePointLengths segs ps0) (inv (incidence segs) (incidence segs) (incidence segs)).
    Proof.
      unfold computePointLengths. apply (wp_for _ _ (fun i => inv (inc i) (inc i) (inc i))).
      - cbn. split; [reflexivity|]. intros k p E. exists p. split; [exact E|]. destruct (Hfresh k p E) as (A & B & C & D & F).
        constructor; cbn; auto.
      - intros i ps Hi I. rewrite <- Nat.add_1_r. apply length_step_inv; assumption.
      - intros ps I. rewrite firstn_all in I. exact I.
    Qed.
    Lemma linked_two p0 p l : linked l l l p0 p -> length l <= 2.
    Proof. intros []. rewrite <- (map_length fst l), <- lk_S0, take_length. clear - lk_lS0. lia. Qed.
  End Loop.

  (** ** discretise. *)
  Definition field (s : LevelSet T) (tg : bool) : list T := if tg then ls_target s else ls_sd s.
  Record disc_ok (W H : nat) (s : LevelSet T) (tg : bool) (s' : LevelSet T) (b : Boundary T) : Prop := {
    dk_len_sd : node_count W H <= length (field s tg);
    dk_rest : s' = set_mesh (ls_mesh s') s;
    dk_frame : mframe (ls_mesh s) (ls_mesh s');
    dk_node : forall i n, m_nodes (ls_mesh s') !! i = Some n -> nd_status n = side (field s tg) i;
    dk_bpts : forall i n k, m_nodes (ls_mesh s') !! i = Some n -> k ∈ take (nd_nBpts n) (nd_bpts n) -> k < length (bd_points b);
    dk_nbpts : forall i n, m_nodes (ls_mesh s') !! i = Some n -> nd_nBpts n <= 4;
    dk_elem : forall e x, m_elements (ls_mesh s') !! e = Some x -> exists st, e_status x = Some st /\ final_class W (field s tg) e st;
    dk_esegs : forall e x, m_elements (ls_mesh s') !! e = Some x ->
      exists k, e_nSegs x = Some k /\ k <= 2 /\ take k (e_segs x) = segments_of (bd_segs b) e;
    dk_points : forall k p, bd_points b !! k = Some p ->
      exists e c p0, e < W * H /\ contour_place W (field s tg) e c /\ initialisePoint (ls_mesh s) (ls_moveLimit s) c = Ok p0 /\
        linked (bd_segs b) (incidence (bd_segs b) k) (incidence (bd_segs b) k) (incidence (bd_segs b) k) p0 p;
    dk_segs : forall k sg, bd_segs b !! k = Some sg -> good_segment W H (field s tg) (bd_points b) sg;
    dk_len : bd_length b = fold_left nadd (map sg_length (bd_segs b)) n0;
  }.
  Lemma init_fresh (m : Mesh T) ml c p : initialisePoint m ml c = Ok p ->
    bp_coord p = c /\ bp_length p = n0 /\ bp_nSegs p = 0 /\ bp_nNeigh p = 0 /\ length (bp_segs p) = 2 /\ length (bp_neigh p) = 2.
  Proof.
    unfold initialisePoint. intros E. apply obind_Ok in E as (i & _ & E). apply obind_Ok in E as (n & _ & E). injection E as <-. cbn. auto 10.
  Qed.
  Lemma fixed_coord p p0 : fixed_bp p = fixed_bp p0 -> bp_coord p = bp_coord p0.
  Proof. unfold fixed_bp. congruence. Qed.
  Lemma good_same W H sd ps ps' sg :
    (forall k p0, ps !! k = Some p0 -> exists p, ps' !! k = Some p /\ bp_coord p = bp_coord p0) ->
    good_segment (T := T) W H sd ps sg -> good_segment W H sd ps' sg.
  Proof.
    intros HP (A & p & q & c & c' & P1 & P2 & P3 & P4 & P5 & P6 & P7). split; [exact A|].
    destruct (HP _ _ P1) as (p' & Q1 & E1). destruct (HP _ _ P2) as (q' & Q2 & E2). exists p', q', c, c'.
    unfold at_place in *. rewrite E1, E2. auto 10.
  Qed.
  Lemma discretise_ok W H s tg : topo W H (ls_mesh s) -> post (discretise s tg) (fun '(s', b) => disc_ok W H s tg s' b).
  Proof.
    intros Ht. unfold discretise. fold (field s tg). apply post_bind. eapply post_impl; [apply (status_spec W H _ _ Ht)|]. intros m1 Hm1.
    apply post_bind. eapply post_impl; [apply (loop_spec W H (ls_mesh s) (field s tg) Ht (ls_moveLimit s) tg m1 Hm1)|]. intros d Hd.
    apply post_bind. intros ps Eps. apply post_ok. destruct Hd.
    assert (Hend : forall i sg, d_segs d !! i = Some sg -> sg_start sg < length (d_points d) /\ sg_end sg < length (d_points d)).
    { intros i sg E. destruct (di_segs i sg E) as (_ & p & q & _ & _ & A & B & _). split; eauto using lookup_lt_Some. }
    assert (Hfresh : forall k p, d_points d !! k = Some p ->
      bp_length p = n0 /\ bp_nSegs p = 0 /\ bp_nNeigh p = 0 /\ length (bp_segs p) = 2 /\ length (bp_neigh p) = 2).
    { intros k p E. destruct (di_points k p E) as (e & c & _ & _ & E'). apply init_fresh in E'. tauto. }
    pose proof (wp_inv_ok _ _ _ _ _ (lengths_spec (d_segs d) (d_points d) Hend Hfresh) Eps) as (L & I).
    assert (I' : forall k p, ps !! k = Some p -> exists p0, d_points d !! k = Some p0 /\
      linked (d_segs d) (incidence (d_segs d) k) (incidence (d_segs d) k) (incidence (d_segs d) k) p0 p).
    { intros k p E. destruct (lookup_lt_is_Some_2 (d_points d) k) as [p0 E0]; [rewrite <- L; eauto using lookup_lt_Some|].
      destruct (I k p0 E0) as (p' & E' & K). assert (p' = p) by congruence. subst p'. eauto. }
    constructor; cbn; auto.
    - apply (st_len _ _ _ _ _ Hm1).
    - rewrite L. exact di_bpts.
    - intros k p E. destruct (I' k p E) as (p0 & E0 & K). destruct (di_points k p0 E0) as (e & c & A & B & C). exists e, c, p0. auto.
    - intros k sg E. eapply good_same; [|eauto]. intros k' p0 E0. destruct (I k' p0 E0) as (p & Ep & K). exists p.
      split; [exact Ep|]. apply fixed_coord, (lk_fixed _ _ _ _ _ _ K).
  Qed.
End Links.

Section LinksApi.
  Context {T : Type} {NT : Num T}.
  Variables (W H : nat) (s s' : LevelSet T) (tg : bool) (b : Boundary T).
  Hypothesis Ht : topo W H (ls_mesh s).
  Hypothesis Hd : discretise s tg = Ok (s', b).
  Let K : disc_ok W H s tg s' b := discretise_ok W H s tg Ht _ Hd.

  Lemma topo_after : topo W H (ls_mesh s').
  Proof. exact (mframe_topo _ _ _ _ (dk_frame _ _ _ _ _ _ K) Ht). Qed.
  Lemma field_lookup i n : m_nodes (ls_mesh s') !! i = Some n -> exists x, field s tg !! i = Some x.
  Proof.
    intros E. apply lookup_lt_Some in E. rewrite (tp_lenN _ _ _ topo_after) in E. pose proof (dk_len_sd _ _ _ _ _ _ K).
    destruct (lookup_lt_is_Some_2 (field s tg) i) as [x Ex]; [lia|eauto].
  Qed.
  Lemma node_status_api i n : m_nodes (ls_mesh s') !! i = Some n -> exists x, (if tg then ls_target s else ls_sd s) !! i = Some x /\
    (nd_status n = Some NS_BOUNDARY <-> (nabs x <? nlit 1 1000000)%num = true) /\
    (nd_status n = Some NS_OUTSIDE <-> (nabs x <? nlit 1 1000000)%num = false /\ (x <? n0)%num = true) /\
    (nd_status n = Some NS_INSIDE <-> (nabs x <? nlit 1 1000000)%num = false /\ (x <? n0)%num = false).
  Proof.
    intros E. destruct (field_lookup i n E) as [x Ex]. exists x. split; [exact Ex|].
    rewrite (dk_node _ _ _ _ _ _ K i n E). unfold side. rewrite Ex.
    destruct (nabs x <? nlit 1 1000000)%num, (x <? n0)%num; repeat split; intros; try discriminate; try tauto; destruct_and?; discriminate.
  Qed.
  Lemma corner_status e j x st : m_elements (ls_mesh s') !! e = Some x -> j < 4 ->
    (exists n, m_nodes (ls_mesh s') !! corner W e j = Some n /\ nd_status n = Some st) <-> side (field s tg) (corner W e j) = Some st.
  Proof.
    intros Ex Hj. pose proof (tp_fits _ _ _ Ht) as (HW & _). apply lookup_lt_Some in Ex. rewrite (tp_lenE _ _ _ topo_after) in Ex.
    pose proof (corner_lt W H e j HW Ex Hj) as L. rewrite <- (tp_lenN _ _ _ topo_after) in L. apply lookup_lt_is_Some_2 in L as [n En]. split.
    - intros (n' & En' & S). rewrite <- (dk_node _ _ _ _ _ _ K _ _ En'). exact S.
    - intros S. exists n. split; [exact En|]. rewrite (dk_node _ _ _ _ _ _ K _ _ En). exact S.
  Qed.
  Lemma element_status_api e x : m_elements (ls_mesh s') !! e = Some x ->
    let is j st := exists n, m_nodes (ls_mesh s') !! corner W e j = Some n /\ nd_status n = Some st in
    (e_status x = Some ES_INSIDE <-> forall j, j < 4 -> ~ is j NS_OUTSIDE) /\
    (e_status x = Some ES_OUTSIDE <-> (exists j, j < 4 /\ is j NS_OUTSIDE) /\ forall j, j < 4 -> ~ is j NS_INSIDE) /\
    (e_status x = Some ES_NONE \/ e_status x = Some ES_CENTRE_INSIDE \/ e_status x = Some ES_CENTRE_OUTSIDE <->
       (exists j, j < 4 /\ is j NS_OUTSIDE) /\ (exists j, j < 4 /\ is j NS_INSIDE)) /\
    (e_status x = Some ES_CENTRE_INSIDE \/ e_status x = Some ES_CENTRE_OUTSIDE ->
       alternating W (if tg then ls_target s else ls_sd s) e /\
       exists c0 c1 c2 c3, (if tg then ls_target s else ls_sd s) !! corner W e 0 = Some c0 /\ (if tg then ls_target s else ls_sd s) !! corner W e 1 = Some c1 /\
         (if tg then ls_target s else ls_sd s) !! corner W e 2 = Some c2 /\ (if tg then ls_target s else ls_sd s) !! corner W e 3 = Some c3 /\
         (e_status x = Some ES_CENTRE_INSIDE <-> (n0 <? n0 + c0 + c1 + c2 + c3)%num = true)).
  Proof.
    intros Ex is. fold (field s tg).
    assert (IS : forall j st, j < 4 -> is j st <-> side (field s tg) (corner W e j) = Some st) by (intros j st Hj; apply (corner_status e j x st Ex Hj)).
    assert (ALL : forall st, (forall j, j < 4 -> ~ is j st) <-> (forall j, j < 4 -> side (field s tg) (corner W e j) <> Some st)).
    { intros st. split; intros X j Hj Y; apply (X j Hj); apply IS; assumption. }
    assert (EX : forall st, (exists j, j < 4 /\ is j st) <-> (exists j, j < 4 /\ side (field s tg) (corner W e j) = Some st)).
    { intros st. split; intros (j & Hj & Y); exists j; (split; [exact Hj|]); apply (IS j st Hj); exact Y. }
    rewrite !ALL, !EX. destruct (dk_elem _ _ _ _ _ _ K e x Ex) as (st & -> & C).
    assert (CX : forall st, (forall j, j < 4 -> side (field s tg) (corner W e j) <> Some st) -> (exists j, j < 4 /\ side (field s tg) (corner W e j) = Some st) -> False)
      by (intros st' A (j & Hj & B); exact (A j Hj B)).
    assert (AL : alternating W (field s tg) e -> (exists j, j < 4 /\ side (field s tg) (corner W e j) = Some NS_OUTSIDE) /\ (exists j, j < 4 /\ side (field s tg) (corner W e j) = Some NS_INSIDE)).
    { intros A. destruct (A 0) as [[A1 A2]|[A1 A2]]; [lia|split; [exists 1|exists 0]|split; [exists 0|exists 1]]; (split; [lia|assumption]). }
    assert (SU : forall z, elem_sum W (field s tg) e = Some z -> exists c0 c1 c2 c3, field s tg !! corner W e 0 = Some c0 /\ field s tg !! corner W e 1 = Some c1 /\
         field s tg !! corner W e 2 = Some c2 /\ field s tg !! corner W e 3 = Some c3 /\ z = (n0 + c0 + c1 + c2 + c3)%num).
    { unfold elem_sum. intros z. destruct (_ !! corner W e 0) as [c0|], (_ !! corner W e 1) as [c1|], (_ !! corner W e 2) as [c2|], (_ !! corner W e 3) as [c3|]; try discriminate.
      intros [= <-]. exists c0, c1, c2, c3. auto. }
    destruct st; cbn [final_class class_ok] in C.
    - split; [split; [discriminate|intros A; exfalso; apply (CX _ A), C]|].
      split; [split; [discriminate|intros [_ A]; exfalso; apply (CX _ A), C]|].
      split; [split; [intros _; exact C|auto]|]. intros [X|X]; discriminate.
    - split; [split; auto|]. split; [split; [discriminate|intros [A _]; exfalso; exact (CX _ C A)]|].
      split; [split; [intros [X|[X|X]]; discriminate|intros [A _]; exfalso; exact (CX _ C A)]|]. intros [X|X]; discriminate.
    - destruct C as [C1 C2]. split; [split; [discriminate|intros A; exfalso; exact (CX _ A C1)]|].
      split; [split; auto|]. split; [split; [intros [X|[X|X]]; discriminate|intros [_ A]; exfalso; exact (CX _ C2 A)]|]. intros [X|X]; discriminate.
    - destruct C as (C & z & Ez & Lz). pose proof (AL C) as [A1 A2].
      split; [split; [discriminate|intros A; exfalso; exact (CX _ A A1)]|].
      split; [split; [discriminate|intros [_ A]; exfalso; exact (CX _ A A2)]|]. split; [tauto|]. intros _. split; [exact C|].
      destruct (SU z Ez) as (c0 & c1 & c2 & c3 & E0 & E1 & E2 & E3 & ->). exists c0, c1, c2, c3. repeat (split; [assumption|]). tauto.
    - destruct C as (C & z & Ez & Lz). pose proof (AL C) as [A1 A2].
      split; [split; [discriminate|intros A; exfalso; exact (CX _ A A1)]|].
      split; [split; [discriminate|intros [_ A]; exfalso; exact (CX _ A A2)]|]. split; [tauto|]. intros _. split; [exact C|].
      destruct (SU z Ez) as (c0 & c1 & c2 & c3 & E0 & E1 & E2 & E3 & ->). exists c0, c1, c2, c3. repeat (split; [assumption|]). split; [discriminate|congruence].
  Qed.
  Lemma frame_api :
    (ls_sd s', ls_vel s', ls_grad s', ls_target s') = (ls_sd s, ls_vel s, ls_grad s, ls_target s) /\
    (ls_band s', ls_nBand s', ls_mines s', ls_nMines s') = (ls_band s, ls_nBand s, ls_mines s, ls_nMines s) /\
    (ls_moveLimit s', ls_bandWidth s', ls_fixed s') = (ls_moveLimit s, ls_bandWidth s, ls_fixed s) /\
    (forall i n n', m_nodes (ls_mesh s) !! i = Some n -> m_nodes (ls_mesh s') !! i = Some n' ->
       (nd_coord n', nd_neigh n', nd_elems n', nd_nElems n') = (nd_coord n, nd_neigh n, nd_elems n, nd_nElems n) /\
       (nd_active n', nd_masked n', nd_domain n', nd_mine n') = (nd_active n, nd_masked n, nd_domain n, nd_mine n)) /\
    (forall e x x', m_elements (ls_mesh s) !! e = Some x -> m_elements (ls_mesh s') !! e = Some x' ->
       (e_coord x', e_nodes x', e_area x') = (e_coord x, e_nodes x, e_area x)).
  Proof.
    pose proof (dk_rest _ _ _ _ _ _ K) as R. pose proof (dk_frame _ _ _ _ _ _ K) as F.
    split; [rewrite R; reflexivity|]. split; [rewrite R; reflexivity|]. split; [rewrite R; reflexivity|]. split.
    - intros i n n' E E'. destruct (mframe_lookup _ _ _ _ F E') as (n1 & E1 & X). rewrite E in E1. injection E1 as <-. unfold fixed_node in X.
      injection X as -> -> -> -> -> -> -> -> _. auto.
    - intros e x x' E E'. destruct (mframe_elookup _ _ _ _ F E') as (n1 & E1 & X). rewrite E in E1. injection E1 as <-. unfold fixed_elem in X.
      injection X as -> -> -> _. auto.
  Qed.
  Lemma links_api :
    (forall k p, bd_points b !! k = Some p ->
       let l := incidence (bd_segs b) k in
       length l <= 2 /\ bp_nSegs p = length l /\ bp_nNeigh p = length l /\
       take (bp_nSegs p) (bp_segs p) = map fst l /\ take (bp_nNeigh p) (bp_neigh p) = map snd l) /\
    (forall k sg, bd_segs b !! k = Some sg -> sg_start sg < length (bd_points b) /\ sg_end sg < length (bd_points b) /\ sg_elem sg < W * H) /\
    (forall e x, m_elements (ls_mesh s') !! e = Some x -> exists k, e_nSegs x = Some k /\ k <= 2 /\ take k (e_segs x) = segments_of (bd_segs b) e) /\
    (forall i n, m_nodes (ls_mesh s') !! i = Some n -> nd_nBpts n <= 4 /\ forall k, k ∈ take (nd_nBpts n) (nd_bpts n) -> k < length (bd_points b)).
  Proof.
    split; [|split; [|split]].
    - intros k p E. destruct (dk_points _ _ _ _ _ _ K k p E) as (e & c & p0 & _ & _ & _ & L). cbv zeta.
      destruct L. rewrite lk_nS0, lk_nN0. split; [rewrite <- (map_length fst), <- lk_S0, take_length; clear - lk_lS0; lia|auto].
    - intros k sg E. destruct (dk_segs _ _ _ _ _ _ K k sg E) as (A & p & q & _ & _ & B & C & _). split; [|split]; eauto using lookup_lt_Some.
    - exact (dk_esegs _ _ _ _ _ _ K).
    - intros i n E. split; [exact (dk_nbpts _ _ _ _ _ _ K i n E)|]. intros k. exact (dk_bpts _ _ _ _ _ _ K i n k E).
  Qed.
End LinksApi.
