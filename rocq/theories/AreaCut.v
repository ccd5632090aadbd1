(** * AreaCut: computeAreaFractions after discretise (C28). *)

From Verif Require Import MeshModel MeshSpec MeshProofs MeshTopo FmmSpec LevelSetModel LevelSetSpec LevelSetSpecR LevelSetCalls LevelSetHist
  BoundaryModel BoundarySpec BoundaryFrame BoundaryProofs BoundaryLinks BoundarySpecR BoundaryReal BoundaryGraph BoundaryRun BoundaryLocal BoundaryClosed NumInt NumR FmmReal AreaSort AreaRule.
From Coq Require Import Reals Lra Psatz.
Local Open Scope nat_scope.

(** ** The loop over the elements. *)
Section Loop.
  Context {T : Type} {NT : Num T}.
  Definition elem_area (m : Mesh T) (b : Boundary T) (e : Element T) : outcome T :=
    let! st := init_get (e_status e) in
    match st with ES_INSIDE => Ok (nofZ 1) | ES_OUTSIDE => Ok (nofZ 0) | _ => cutArea m b e end.
  Variables (m0 : Mesh T) (b : Boundary T) (areas : nat -> T).
  Hypothesis Hareas : forall e E, m_elements m0 !! e = Some E -> elem_area m0 b E = Ok (areas e).
  Definition fill (k : nat) : list (Element T) := imap (fun j E => if (j <? k)%nat then set_e_area (areas j) E else E) (m_elements m0).
  Lemma fill_lookup k e : fill k !! e = option_map (fun E => if (e <? k)%nat then set_e_area (areas e) E else E) (m_elements m0 !! e).
  Proof. unfold fill. rewrite list_lookup_imap. destruct (m_elements m0 !! e); reflexivity. Qed.
  Lemma fill_loop n : n <= length (m_elements m0) ->
    for_ n (area_step b) (m0, n0) = Ok (set_elements (fill n) m0, fold_left nadd (map areas (seq 0 n)) n0).
  Proof.
    intros Hn.
    assert (G : wp False False (for_ n (area_step b) (m0, n0)) (fun r => r = (set_elements (fill n) m0, fold_left nadd (map areas (seq 0 n)) n0))).
    { apply (wp_for _ _ (fun k st => st = (set_elements (fill k) m0, fold_left nadd (map areas (seq 0 k)) n0))).
      - assert (F0 : fill 0 = m_elements m0) by (apply list_eq; intros i; rewrite fill_lookup; destruct (m_elements m0 !! i); reflexivity).
        rewrite F0. destruct m0; reflexivity.
      - intros k st Hk ->. unfold area_step.
        destruct (lookup_lt_is_Some_2 (m_elements m0) k ltac:(lia)) as [E EE].
        assert (Ef : fill k !! k = Some E) by (rewrite fill_lookup, EE; cbn; rewrite Nat.ltb_irrefl; reflexivity).
        cbn [m_elements set_elements]. unfold vget at 1. rewrite Ef. cbn [obind].
        pose proof (Hareas k E EE) as A. unfold elem_area in A.
        destruct (init_get (e_status E)) as [st| | |]; cbn [obind] in A |- *; try discriminate A.
        change (cutArea (set_elements (fill k) m0) b E) with (cutArea m0 b E). rewrite A. cbn [obind].
        unfold elem_mod, vmod. cbn [m_elements set_elements]. rewrite Ef. cbn [obind]. apply wp_ok. f_equal.
        + unfold set_elements. cbn. f_equal. apply list_eq. intros i. rewrite !fill_lookup. destruct (decide (i = k)) as [->|Ne].
          * rewrite list_lookup_insert by (apply lookup_lt_Some in Ef; exact Ef). rewrite EE. cbn. rewrite (proj2 (Nat.ltb_lt k (S k))) by lia. reflexivity.
          * rewrite list_lookup_insert_ne by congruence. rewrite fill_lookup. destruct (m_elements m0 !! i); cbn; [|reflexivity]. f_equal.
            destruct (Nat.ltb_spec i k), (Nat.ltb_spec i (S k)); try reflexivity; lia.
        + replace (S k) with (k + 1) by lia. rewrite seq_app, map_app, fold_left_app. reflexivity.
      - intros st X. exact X. }
    destruct (for_ _ _ _) as [r| | |]; [cbn in G; congruence|destruct G..].
  Qed.
End Loop.

(** Any completed run. *)
Lemma post_for_i {S} (I : nat -> S -> Prop) n (f : nat -> S -> outcome S) : (forall k s, k < n -> I k s -> post (f k s) (I (Datatypes.S k))) ->
  forall s, I 0 s -> post (for_ n f s) (I n).
Proof.
  intros Hf. unfold for_. assert (G : forall n' i s, i + n' = n -> I i s -> post (for_from i n' f s) (I n)).
  { induction n' as [|n' IH]; intros i s Hi Hs; cbn [for_from]; [apply post_ok; replace n with i by lia; exact Hs|].
    apply post_bind. eapply post_impl; [apply Hf; [lia|exact Hs]|]. intros s' Hs'. apply IH; [lia|exact Hs']. }
  intros s Hs. apply G; [lia|exact Hs].
Qed.
Section Completed.
  Context {T : Type} {NT : Num T}.
  Variables (m0 : Mesh T) (b : Boundary T).
  Definition areas_of (e : nat) : T := match m_elements m0 !! e with Some E => match elem_area m0 b E with Ok a => a | _ => n0 end | None => n0 end.
  Lemma area_step_eq k (m : Mesh T) a : area_step b k (m, a) = (let! E := vget (m_elements m) k in let! x := elem_area m b E in let! m' := elem_mod k (set_e_area x) m in Ok (m', (a + x)%num)).
  Proof. unfold area_step, elem_area. destruct (vget (m_elements m) k) as [E| | |]; cbn [obind]; [|reflexivity..]. destruct (init_get (e_status E)); reflexivity. Qed.
  Lemma done_loop n r : n <= length (m_elements m0) -> for_ n (area_step b) (m0, n0) = Ok r ->
    r = (set_elements (fill m0 areas_of n) m0, fold_left nadd (map areas_of (seq 0 n)) n0) /\
    forall e E, e < n -> m_elements m0 !! e = Some E -> elem_area m0 b E = Ok (areas_of e).
  Proof.
    intros Hn. revert r.
    refine (post_for_i (fun k st => st = (set_elements (fill m0 areas_of k) m0, fold_left nadd (map areas_of (seq 0 k)) n0) /\
      forall e E, e < k -> m_elements m0 !! e = Some E -> elem_area m0 b E = Ok (areas_of e)) n _ _ _ _).
    2: {split; [|intros; lia]. assert (F0 : fill m0 areas_of 0 = m_elements m0) by (apply list_eq; intros i; rewrite fill_lookup; destruct (m_elements m0 !! i); reflexivity).
      rewrite F0. destruct m0; reflexivity. }
    - intros k st Hk [-> HA].
      destruct (lookup_lt_is_Some_2 (m_elements m0) k ltac:(lia)) as [E EE].
      assert (Ef : fill m0 areas_of k !! k = Some E) by (rewrite fill_lookup, EE; cbn; rewrite Nat.ltb_irrefl; reflexivity).
      rewrite area_step_eq. cbn [m_elements set_elements]. unfold vget at 1. rewrite Ef. cbn [obind].
      change (elem_area (set_elements (fill m0 areas_of k) m0) b E) with (elem_area m0 b E).
      destruct (elem_area m0 b E) as [a| | |] eqn:A; cbn [obind]; try (intros ? X; discriminate X).
      assert (Ea : areas_of k = a) by (unfold areas_of; rewrite EE, A; reflexivity).
      unfold elem_mod, vmod. cbn [m_elements set_elements]. rewrite Ef. cbn [obind]. apply post_ok. split; [f_equal|].
      + unfold set_elements. cbn. f_equal. apply list_eq. intros i. rewrite !fill_lookup. destruct (decide (i = k)) as [->|Ne].
        * rewrite list_lookup_insert by (apply lookup_lt_Some in Ef; exact Ef). rewrite EE. cbn. rewrite (proj2 (Nat.ltb_lt k (S k))) by lia. rewrite Ea. reflexivity.
        * rewrite list_lookup_insert_ne by congruence. rewrite fill_lookup. destruct (m_elements m0 !! i); cbn; [|reflexivity]. f_equal.
          destruct (Nat.ltb_spec i k), (Nat.ltb_spec i (S k)); try reflexivity; lia.
      + replace (S k) with (k + 1) by lia. rewrite seq_app, map_app, fold_left_app. cbn. rewrite Ea. reflexivity.
      + intros e E' He EE'. destruct (decide (e = k)) as [->|Ne]; [|apply HA; [lia|exact EE']]. assert (E' = E) by congruence. subst E'. rewrite Ea. exact A.
  Qed.
End Completed.

(** ** Filtering. *)
Lemma filter_seq {A} (f : A -> bool) l : map (fun k => l !! k) (List.filter (fun k => match l !! k with Some x => f x | None => false end) (seq 0 (length l))) = map Some (List.filter f l).
Proof.
  induction l as [|x l IH] using rev_ind; [reflexivity|]. rewrite app_length, seq_app, List.filter_app, map_app. cbn [length seq Nat.add].
  rewrite List.filter_app, map_app. f_equal.
  - rewrite <- IH. clear IH. assert (G : forall n, n <= length l -> map (fun k => (l ++ [x]) !! k) (List.filter (fun k => match (l ++ [x]) !! k with Some y => f y | None => false end) (seq 0 n)) =
      map (fun k => l !! k) (List.filter (fun k => match l !! k with Some y => f y | None => false end) (seq 0 n))); [|apply G; lia].
    induction n as [|n IHn]; intros Hn; [reflexivity|]. replace (S n) with (n + 1) by lia. rewrite seq_app, !List.filter_app, !map_app, IHn by lia. f_equal. cbn [seq Nat.add List.filter].
    rewrite lookup_app_l by lia. destruct (l !! n) as [y|] eqn:E; [|reflexivity]. destruct (f y); [|reflexivity]. cbn. rewrite lookup_app_l by lia. rewrite E. reflexivity.
  - cbn [List.filter map]. rewrite lookup_app_r, Nat.sub_diag by lia. cbn. destruct (f x); [|reflexivity]. cbn. rewrite lookup_app_r, Nat.sub_diag by lia. reflexivity.
Qed.
Lemma filter_Forall2 {A B} (P : A -> B -> Prop) (f : A -> bool) (g : B -> bool) l l' : Forall2 P l l' -> (forall x y, P x y -> f x = g y) -> Forall2 P (List.filter f l) (List.filter g l').
Proof. induction 1 as [|x y l l' Hxy F IH]; intros E; [constructor|]. cbn. rewrite (E x y Hxy). destruct (g y); [constructor; auto|auto]. Qed.

Lemma graph_block {T} {NT : Num T} W (sd : list T) e n : (e < n)%nat ->
  List.filter (fun t => (fst t =? e)%nat) (graph_upto W sd n) = map (pair e) (elem_graph W sd e).
Proof.
  assert (Z : forall l k, k <> e -> List.filter (fun t : nat * (place * place) => (fst t =? e)%nat) (map (pair k) l) = []).
  { intros l k Hk. induction l as [|a l IH]; [reflexivity|]. cbn. rewrite (proj2 (Nat.eqb_neq k e)) by exact Hk. exact IH. }
  assert (I : forall l, List.filter (fun t : nat * (place * place) => (fst t =? e)%nat) (map (pair e) l) = map (pair e) l).
  { induction l as [|a l IH]; [reflexivity|]. cbn. rewrite Nat.eqb_refl, IH. reflexivity. }
  assert (N : forall m, m <= e -> List.filter (fun t => (fst t =? e)%nat) (graph_upto W sd m) = []).
  { induction m as [|m IH]; intros Hm; [reflexivity|]. replace (S m) with (m + 1) by lia. rewrite graph_snoc, List.filter_app, IH, Z by lia. reflexivity. }
  intros He. induction n as [|n IH]; [lia|]. replace (S n) with (n + 1) by lia. rewrite graph_snoc, List.filter_app. destruct (decide (n = e)) as [->|Ne].
  - rewrite N, I by lia. reflexivity.
  - rewrite IH, Z, app_nil_r by lia. reflexivity.
Qed.
Definition ok_vert (s : nat -> NodeStatus) (v : vert) : bool := match v with Corner j => (j <? 4)%nat | Edge a => (a <? 4)%nat && cutb (s a) (s (next a)) end.
Lemma local_valid s0 s1 s2 s3 c : three s0 -> three s1 -> three s2 -> three s3 -> let s := tab4 s0 s1 s2 s3 in
  forallb (fun t => ok_vert s (fst t) && ok_vert s (snd t)) (local_segs s c) = true.
Proof. intros [-> | [-> | ->]] [-> | [-> | ->]] [-> | [-> | ->]] [-> | [-> | ->]]; destruct c; reflexivity. Qed.

(** ** One element. *)
Local Open Scope R_scope.
Lemma snap_sgn v : sgn (snap v) = if Rlt_dec (Rabs v) tol then NS_BOUNDARY else if Rlt_dec v 0 then NS_OUTSIDE else NS_INSIDE.
Proof.
  pose proof tol_pos. unfold snap. destruct (Rlt_dec (Rabs v) tol) as [L|L]; [apply sgn_zero; reflexivity|]. destruct (Rlt_dec v 0); [apply sgn_neg; assumption|]. apply sgn_pos.
  rewrite Rabs_right in L by lra. lra.
Qed.
Lemma snap_strict v : sgn (snap v) <> NS_BOUNDARY -> snap v = v /\ tol <= Rabs v.
Proof. rewrite snap_sgn. unfold snap. destruct (Rlt_dec (Rabs v) tol) as [L|L]; [congruence|]. intros _. split; [reflexivity|lra]. Qed.
Section Cut.
  Variables (W H : nat) (s s' : LevelSet R) (tg : bool) (b : Boundary R) (e : nat) (pl : list place).
  Hypothesis Hr : reached W H s.
  Local Notation sd := (field s tg).
  Hypothesis Hclear : clear_cuts W H sd.
  Hypothesis Hlen : (node_count W H <= length sd)%nat.
  Hypothesis Hd : discretise s tg = Ok (s', b).
  Hypothesis Rp : represents W H s tg pl s' b.
  Hypothesis He : (e < W * H)%nat.
  Let Ht : topo W H (ls_mesh s) := ok_topo _ _ _ (so_ok _ _ _ (reached_sound _ _ _ Hr)).
  Let HW : (1 <= W)%nat := proj1 (tp_fits _ _ _ Ht).
  Let Ht' : topo W H (ls_mesh s') := topo_after W H s s' tg b Ht Hd.
  Let x := corner_value W sd e.
  Let z := fun j => snap (x j).
  Let S := sides W sd e.
  Let S4 := tab4 (sgn (z 0%nat)) (sgn (z 1%nat)) (sgn (z 2%nat)) (sgn (z 3%nat)).
  Let X := INR (e mod W).
  Let Y := INR (e / W).

  Lemma z_per j : z (j + 4)%nat = z j.
  Proof. unfold z, x, corner_value. do 3 f_equal. rewrite Nat.add_mod by lia. cbn. rewrite Nat.add_0_r, Nat.mod_mod by lia. reflexivity. Qed.
  Lemma x_val j : (j < 4)%nat -> sd !! corner W e j = Some (x j) /\ S j = sgn (z j).
  Proof.
    intros Hj. destruct (lookup_lt_is_Some_2 sd (corner W e j)) as [v Ev]; [pose proof (corner_lt W H e j HW He Hj); lia|].
    assert (Ex : x j = v) by (unfold x, corner_value; rewrite Nat.mod_small by exact Hj; apply nth_lookup_Some, Ev). rewrite Ex. split; [exact Ev|].
    unfold S, sides, st_of, side, z. rewrite Ev, Ex, snap_sgn, tol_lit. cbn [nabs nltb NumR]. change (@n0 R NumR) with 0.
    destruct (Rltb_spec (Rabs v) tol), (Rlt_dec (Rabs v) tol); try lra; [reflexivity|]. destruct (Rltb_spec v 0), (Rlt_dec v 0); try lra; reflexivity.
  Qed.
  Lemma S_three j : (j < 4)%nat -> three (S j).
  Proof. intros Hj. rewrite (proj2 (x_val j Hj)). apply sgn_three. Qed.
  Lemma S_tab j : (j < 4)%nat -> S j = S4 j.
  Proof. intros Hj. rewrite (proj2 (x_val j Hj)). destruct j as [|[|[|[|j]]]]; [reflexivity..|lia]. Qed.
  Lemma z_next a : (a < 4)%nat -> z (next a) = z (a + 1)%nat.
  Proof. intros Ha. unfold next. destruct a as [|[|[|[|a]]]]; [reflexivity..| |lia]. cbn. symmetry. apply (z_per 0). Qed.
  Lemma local_S c : local_segs S c = local_segs S4 c.
  Proof. rewrite local_tab, !S_tab by lia. reflexivity. Qed.

  (** The points. *)
  Lemma cut_side a : (a < 4)%nat -> cutb (S a) (S (next a)) = true -> z a = x a /\ z (next a) = x (next a) /\ x a * x (next a) < 0 /\ opposite sd (corner W e a) (corner W e (next a)).
  Proof.
    intros Ha C. destruct (x_val a Ha) as [Ea Sa]. destruct (x_val (next a) (next_lt a Ha)) as [Eb Sb]. pose proof (sgn_spec (z a)) as Va. pose proof (sgn_spec (z (next a))) as Vb. rewrite Sa, Sb in C.
    assert (Na : sgn (z a) <> NS_BOUNDARY) by (intros Q; rewrite Q in C; discriminate C). assert (Nb : sgn (z (next a)) <> NS_BOUNDARY) by (intros Q; rewrite Q in C; destruct (sgn (z a)); discriminate C).
    destruct (snap_strict (x a) Na) as [Za La]. destruct (snap_strict (x (next a)) Nb) as [Zb Lb]. fold (z a) in Za. fold (z (next a)) in Zb. split; [exact Za|]. split; [exact Zb|]. clear Va Vb.
    assert (Sd : forall i v, sd !! i = Some v -> tol <= Rabs v -> (0 < v -> side sd i = Some NS_INSIDE) /\ (v < 0 -> side sd i = Some NS_OUTSIDE)).
    { intros i v Ei Lv. split; intros Q; [apply side_inside|apply side_outside]; exists v; (split; [exact Ei|]); [rewrite Rabs_right in Lv|rewrite Rabs_left in Lv]; lra. }
    unfold opposite. destruct (Sd _ _ Ea La) as [P1 P2]. destruct (Sd _ _ Eb Lb) as [Q1 Q2].
    pose proof (sgn_spec (z a)) as V1. pose proof (sgn_spec (z (next a))) as V2. rewrite <- Za in P1, P2 |- *. rewrite <- Zb in Q1, Q2 |- *.
    destruct (sgn (z a)), (sgn (z (next a))); try discriminate C; (split; [nra|auto]).
  Qed.
  Lemma edge_rim a c : (a < 4)%nat -> cutb (S a) (S (next a)) = true -> place_at W sd (edge_place W e a) c -> c = rim X Y (base4 a + u z a).
  Proof.
    intros Ha C P. destruct (cut_side a Ha C) as (Za & Zb & Lxy & _). destruct (x_val a Ha) as [Ex _]. destruct (x_val (next a) (next_lt a Ha)) as [Ey _].
    assert (Et : u z a = x a / (x a - x (next a))).
    { unfold u. rewrite <- z_next, Za, Zb by exact Ha. destruct (share_opp _ _ Lxy) as (_ & _ & E). exact E. }
    rewrite (edge_place_eq W H HW e a He Ha) in P.
    assert (D : x a - x (next a) <> 0) by nra.
    assert (Ut : forall t, (1 - t) * x a + t * x (next a) = 0 -> u z a = t) by (intros t Z; rewrite Et; apply (Rmult_eq_reg_r (x a - x (next a))); [|exact D]; field_simplify; [lra|exact D]).
    destruct (elem_id_split W H e HW He) as (A & B & _). pose proof (corner_edge W H HW e a He Ha) as Ce.
    pose proof (corner_val W H HW e a He Ha) as V1. pose proof tol_pos as Tp. clear Et.
    destruct a as [|[|[|[|a]]]]; [..|lia]; cbn [next Nat.eqb Nat.add] in *; cbn [edge_to place_at base4] in *.
    - destruct P as (x' & y' & t & Ex' & Ey' & (B1 & B2 & _) & ->). destruct Ce as [Ce _]. rewrite <- Ce in Ey'. assert (x' = x 0%nat) by congruence. assert (y' = x 1%nat) by congruence. subst x' y'.
      rewrite (Ut t) by lra. rewrite rim0 by lra. rewrite V1, node_id_mod, node_id_div by lia. unfold cut_pos, X, Y. f_equal; ring.
    - destruct P as (x' & y' & t & Ex' & Ey' & (B1 & B2 & _) & ->). rewrite <- Ce in Ey'. assert (x' = x 1%nat) by congruence. assert (y' = x 2%nat) by congruence. subst x' y'.
      rewrite (Ut t) by lra. rewrite rim1 by lra. rewrite V1, node_id_mod, node_id_div by lia. unfold cut_pos, X, Y. rewrite !plus_INR. cbn [INR]. f_equal; ring.
    - destruct P as (y' & x' & t & Ey' & Ex' & (B1 & B2 & _) & ->). destruct Ce as [Ce _]. rewrite <- Ce in Ex'. assert (x' = x 2%nat) by congruence. assert (y' = x 3%nat) by congruence. subst x' y'.
      pose proof (corner_val W H HW e 3 He ltac:(lia)) as V2. rewrite (Ut (1 - t)) by lra. rewrite rim2 by lra. rewrite V2, node_id_mod, node_id_div by lia. unfold cut_pos, X, Y. rewrite ?plus_INR. cbn [INR]. f_equal; ring.
    - destruct P as (y' & x' & t & Ey' & Ex' & (B1 & B2 & _) & ->). rewrite <- Ce in Ex'. assert (x' = x 3%nat) by congruence. assert (y' = x 0%nat) by congruence. subst x' y'.
      pose proof (corner_val W H HW e 0 He ltac:(lia)) as V2. rewrite (Ut (1 - t)) by lra. rewrite rim3 by lra. rewrite V2, node_id_mod, node_id_div by lia. unfold cut_pos, X, Y. rewrite ?plus_INR. cbn [INR]. f_equal; ring.
  Qed.
  Lemma corner_rim j : (j < 4)%nat -> grid W (corner W e j) = rim X Y (base4 j + 0).
  Proof.
    intros Hj. rewrite (corner_val W H HW e j He Hj). destruct (elem_id_split W H e HW He) as (A & B & _).
    destruct j as [|[|[|[|j]]]]; [..|lia]; cbn [base4]; rewrite grid_id by lia; [rewrite rim0|rewrite rim1|rewrite rim2|rewrite rim3]; try lra; unfold X, Y; rewrite ?plus_INR; cbn [INR]; f_equal; lra.
  Qed.

  (** Status. *)
  Definition all_cut : bool := cutb (S4 0%nat) (S4 1%nat) && cutb (S4 1%nat) (S4 2%nat) && cutb (S4 2%nat) (S4 3%nat) && cutb (S4 3%nat) (S4 0%nat).
  Lemma status_eq : final_status W sd e =
    match base_status S4 with
    | ES_NONE => if all_cut then if big z then ES_CENTRE_INSIDE else ES_CENTRE_OUTSIDE else ES_NONE
    | st => st
    end.
  Proof.
    assert (Ec : all_cut = true -> centre_positive W sd e = big z).
    { intros C. unfold all_cut in C. rewrite !andb_true_iff in C. destruct C as (((C0 & C1) & C2) & C3).
      destruct (cut_side 0 ltac:(lia)) as (Z0 & Z1 & _); [rewrite !S_tab by (cbn; lia); exact C0|]. destruct (cut_side 2 ltac:(lia)) as (Z2 & Z3 & _); [rewrite !S_tab by (cbn; lia); exact C2|].
      cbn [next Nat.eqb Nat.add] in *.
      unfold centre_positive, big. rewrite (proj1 (x_val 0 ltac:(lia))), (proj1 (x_val 1 ltac:(lia))), (proj1 (x_val 2 ltac:(lia))), (proj1 (x_val 3 ltac:(lia))), Z0, Z1, Z2, Z3.
      change (Rltb 0 (0 + x 0%nat + x 1%nat + x 2%nat + x 3%nat) = Rltb 0 (x 0%nat + x 1%nat + x 2%nat + x 3%nat)). f_equal. ring. }
    assert (Bs : base_status S = base_status S4) by (unfold base_status, corners_where; cbn [seq List.filter]; rewrite !S_tab by lia; reflexivity).
    unfold final_status. fold S. rewrite Bs, cut_tab, !S_tab by lia.
    revert Ec. unfold all_cut, S4, tab4.
    destruct (sgn_three (z 0%nat)) as [-> | [-> | ->]], (sgn_three (z 1%nat)) as [-> | [-> | ->]], (sgn_three (z 2%nat)) as [-> | [-> | ->]], (sgn_three (z 3%nat)) as [-> | [-> | ->]]; intros Ec; try reflexivity; rewrite Ec by reflexivity; reflexivity.
  Qed.

  (** Corners. *)
  Variable E : Element R.
  Hypothesis HE : m_elements (ls_mesh s') !! e = Some E.
  Let m := ls_mesh s'.
  Lemma node_j j : (j < 4)%nat -> e_nodes E !! j = Some (corner W e j) /\ exists n, m_nodes m !! corner W e j = Some n /\ nd_status n = Some (S j) /\ nd_coord n = rim X Y (base4 j + 0).
  Proof.
    intros Hj. destruct (tp_elem _ _ _ Ht' e E HE) as [_ En]. split.
    { rewrite En. cbn [element_spec e_nodes]. unfold corner, corners_spec. do 4 (destruct j as [|j]; [reflexivity|]). lia. }
    destruct (lookup_lt_is_Some_2 (m_nodes (ls_mesh s')) (corner W e j)) as [n Hn]; [rewrite (tp_lenN _ _ _ Ht'); apply (corner_lt W H e j HW He Hj)|].
    exists n. split; [exact Hn|]. split.
    - rewrite (dk_node _ _ _ _ _ _ (discretise_ok W H s tg Ht _ Hd) _ _ Hn). destruct (x_val j Hj) as [Ex _]. unfold S, sides, st_of. destruct (side sd (corner W e j)) eqn:Q; [reflexivity|]. exfalso. unfold side in Q. rewrite Ex in Q. discriminate.
    - rewrite <- corner_rim by exact Hj. destruct (tp_node _ _ _ Ht' _ _ Hn) as (-> & _). cbn [node_spec nd_coord]. unfold grid. rewrite !nofnat_R. reflexivity.
  Qed.
  Lemma status_j j : (j < 4)%nat -> node_status m (corner W e j) = Ok (S j).
  Proof. intros Hj. destruct (node_j j Hj) as (_ & n & En & Es & _). unfold node_status, vget. rewrite En. cbn [obind]. rewrite Es. reflexivity. Qed.
  Lemma corner_step j vs : (j < 4)%nat -> (length vs < 6)%nat -> forall o : bool,
    cut_corner m E o j vs = Ok (vs ++ if sel S o j then [rim X Y (base4 j + 0)] else []).
  Proof.
    intros Hj Hl o. unfold cut_corner. destruct (node_j j Hj) as (Ec & n & Hn & Es & Ecd). unfold vget at 1. rewrite Ec. cbn [obind]. unfold vget at 1. rewrite Hn. cbn [obind].
    rewrite Es. cbn [init_get obind]. change (if (j =? 3)%nat then 0%nat else (j + 1)%nat) with (next j). change (if (j =? 0)%nat then 3%nat else (j - 1)%nat) with (prev j).
    assert (Hp : (prev j < 4)%nat) by (unfold prev; destruct (Nat.eqb_spec j 0); lia).
    unfold vget. rewrite (proj1 (node_j (next j) (next_lt j Hj))), (proj1 (node_j (prev j) Hp)). cbn [obind]. rewrite (status_j _ (next_lt j Hj)), (status_j _ Hp). cbn [obind]. unfold sel.
    unfold push_vertex. rewrite (proj2 (Nat.ltb_lt _ _) Hl), Ecd.
    destruct o, (S j), (is_inside (S (next j))), (is_inside (S (prev j))); cbn; rewrite ?app_nil_r; reflexivity.
  Qed.
  Lemma corners_loop o : for_ 4 (cut_corner m E o) [] = Ok (flat_map (fun j => if sel S o j then [rim X Y (base4 j + 0)] else []) [0; 1; 2; 3]%nat).
  Proof.
    unfold for_. cbn [for_from].
    assert (L : forall (c : bool) (p : Coord R), (length (if c then [p] else []) <= 1)%nat) by (intros [] ?; cbn; lia).
    rewrite corner_step by (cbn; lia). cbn [obind app]. rewrite corner_step by (rewrite ?app_length; repeat match goal with |- context [length (if ?c then [?p] else [])] => pose proof (L c p); generalize dependent (length (if c then [p] else [])); intros end; lia).
    cbn [obind]. rewrite corner_step by (rewrite ?app_length; repeat match goal with |- context [length (if ?c then [?p] else [])] => pose proof (L c p); generalize dependent (length (if c then [p] else [])); intros end; lia).
    cbn [obind]. rewrite corner_step by (rewrite ?app_length; repeat match goal with |- context [length (if ?c then [?p] else [])] => pose proof (L c p); generalize dependent (length (if c then [p] else [])); intros end; lia).
    cbn [obind flat_map]. rewrite <- !app_assoc, app_nil_r. reflexivity.
  Qed.

  (** Segments. *)
  Definition vr (v : vert) : Coord R := rim X Y (spot4 (u z 0) (u z 1) (u z 2) (u z 3) v).
  Lemma vr_edge a : (a < 4)%nat -> vr (Edge a) = rim X Y (base4 a + u z a).
  Proof. intros Ha. destruct a as [|[|[|[|a]]]]; [reflexivity..|lia]. Qed.
  Let L := local_segs S (saddle W sd e).
  Lemma seg_ends : Forall2 (fun t sg => exists p q, bd_points b !! sg_start sg = Some p /\ bd_points b !! sg_end sg = Some q /\ bp_coord p = vr (fst t) /\ bp_coord q = vr (snd t))
    L (List.filter (fun sg => (sg_elem sg =? e)%nat) (bd_segs b)).
  Proof.
    destruct Rp.
    assert (PT : forall n v, pl !! n = Some (glob W e v) -> ok_vert S v = true -> exists bp, bd_points b !! n = Some bp /\ bp_coord bp = vr v).
    { intros n v Ep Ov. destruct (Forall2_lookup_l _ _ _ _ _ rs_pts Ep) as (bp & Ebp & Cp). exists bp. split; [exact Ebp|].
      apply (place_R W H sd HW Hclear) in Cp; [|apply rs_valid; eapply elem_of_list_lookup_2, Ep].
      destruct v as [j|a]; cbn [ok_vert glob] in *.
      - apply Nat.ltb_lt in Ov. cbn [place_at] in Cp. rewrite Cp. apply corner_rim, Ov.
      - apply andb_true_iff in Ov as [Ha C]. apply Nat.ltb_lt in Ha. rewrite vr_edge by exact Ha. apply edge_rim; assumption. }
    assert (F : Forall2 (fun t sg => sg_elem sg = fst t /\ pl !! sg_start sg = Some (fst (snd t)) /\ pl !! sg_end sg = Some (snd (snd t)))
      (map (pair e) (elem_graph W sd e)) (List.filter (fun sg => (sg_elem sg =? e)%nat) (bd_segs b))).
    { rewrite <- (graph_block W sd e (W * H) He). apply (filter_Forall2 _ _ _ _ _ rs_segs). intros t sg (-> & _). reflexivity. }
    unfold elem_graph in F. rewrite map_map in F. apply Forall2_fmap_l in F.
    assert (G : Forall (fun t => ok_vert S (fst t) && ok_vert S (snd t) = true) L).
    { apply Forall_forall. intros t Hin. apply elem_of_list_In in Hin. unfold L in Hin. rewrite local_S in Hin.
      pose proof (local_valid (sgn (z 0%nat)) (sgn (z 1%nat)) (sgn (z 2%nat)) (sgn (z 3%nat)) (saddle W sd e) (sgn_three _) (sgn_three _) (sgn_three _) (sgn_three _)) as V. cbv zeta in V. fold S4 in V.
      rewrite forallb_forall in V. specialize (V t Hin).
      assert (Q : forall v, ok_vert S4 v = true -> ok_vert S v = true).
      { intros [j|a]; cbn; [auto|]. intros Q. apply andb_true_iff in Q as [Qa Qc]. rewrite Qa. apply Nat.ltb_lt in Qa. rewrite !S_tab by (try apply next_lt; exact Qa). exact Qc. }
      apply andb_true_iff in V as [V1 V2]. rewrite (Q _ V1), (Q _ V2). reflexivity. }
    fold S in F. fold L in F. revert F G. generalize (List.filter (fun sg => (sg_elem sg =? e)%nat) (bd_segs b)).
    enough (Z : forall l1 (l2 : list (BoundarySegment R)), Forall2 (fun t sg => sg_elem sg = e /\ pl !! sg_start sg = Some (glob W e (fst t)) /\ pl !! sg_end sg = Some (glob W e (snd t))) l1 l2 -> Forall (fun t => ok_vert S (fst t) && ok_vert S (snd t) = true) l1 ->
      Forall2 (fun t sg => exists p q, bd_points b !! sg_start sg = Some p /\ bd_points b !! sg_end sg = Some q /\ bp_coord p = vr (fst t) /\ bp_coord q = vr (snd t)) l1 l2).
    { intros l F G. apply Z; [|exact G]. eapply Forall2_impl; [exact F|]. intros [v w] sg. cbn. tauto. }
    intros l1 l2 F. induction F as [|[v w] sg l1' l2' Hx F IH]; intros G; [constructor|]. inversion G as [|? ? G1 G2]; subst. constructor; [|apply IH, G2].
    cbn in Hx, G1. destruct Hx as (_ & S1 & S2). apply andb_true_iff in G1 as [O1 O2].
    destruct (PT _ _ S1 O1) as (p & Ep & Cp). destruct (PT _ _ S2 O2) as (q & Eq & Cq). exists p, q. auto.
  Qed.
  Lemma segs_loop vs : (length vs + length (verts L) <= 6)%nat -> exists k, e_nSegs E = Some k /\ for_ k (cut_segment b E) vs = Ok (vs ++ map vr (verts L)).
  Proof.
    intros Hl. destruct (links_api W H s s' tg b Ht Hd) as (_ & _ & HL & _). destruct (HL e E HE) as (k & Ek & Lk & Sk). exists k. split; [exact Ek|].
    pose proof seg_ends as F. pose proof (filter_seq (fun sg => (sg_elem sg =? e)%nat) (bd_segs b)) as Q.
    change (List.filter _ (seq 0 _)) with (segments_of (bd_segs b) e) in Q. rewrite <- Sk in Q.
    assert (Lg : k = length L).
    { rewrite (Forall2_length _ _ _ F). apply (f_equal length) in Q. rewrite !map_length, take_length in Q. rewrite (tp_segs _ _ _ Ht' e E HE) in Q. lia. }
    assert (V : forall i v w, L !! i = Some (v, w) -> forall vs, (length vs <= 4)%nat -> cut_segment b E i vs = Ok (vs ++ [vr v; vr w])).
    { intros i v w Ei vs' Hv. destruct (Forall2_lookup_l _ _ _ _ _ F Ei) as (sg & Esg & p & q & Ep & Eq & Cp & Cq). cbn [fst snd] in *.
      apply (f_equal (fun l => l !! i)) in Q. rewrite !list_lookup_fmap, Esg in Q. cbn in Q. destruct (take k (e_segs E) !! i) as [n|] eqn:En; [|discriminate Q]. cbn in Q. injection Q as Q.
      assert (En' : e_segs E !! i = Some n) by (rewrite <- En; symmetry; apply lookup_take; apply lookup_lt_Some in En; rewrite take_length in En; lia).
      unfold cut_segment, vget. rewrite En'. cbn [obind]. rewrite Q. cbn [obind]. rewrite Ep. cbn [obind]. unfold push_vertex. rewrite (proj2 (Nat.ltb_lt _ _)) by lia. cbn [obind]. rewrite Eq. cbn [obind].
      rewrite (proj2 (Nat.ltb_lt _ _)) by (rewrite app_length; cbn; lia). rewrite Cp, Cq, <- app_assoc. reflexivity. }
    subst k. clear - V Lk Hl. destruct L as [|[v w] [|[v' w'] [|t l]]]; cbn [length] in Lk; [..|lia]; cbn [length]; unfold for_; cbn [for_from].
    - rewrite app_nil_r. reflexivity.
    - rewrite (V 0%nat v w eq_refl) by (cbn in Hl; lia). reflexivity.
    - rewrite (V 0%nat v w eq_refl) by (cbn in Hl; lia). cbn [obind]. rewrite (V 1%nat v' w' eq_refl) by (rewrite app_length; cbn in Hl |- *; lia). rewrite <- app_assoc. reflexivity.
  Qed.
  Lemma flat_map_split {A B} (f g : A -> list B) l : flat_map (fun a => f a ++ g a) l ≡ₚ flat_map f l ++ flat_map g l.
  Proof. induction l as [|a l IH]; [reflexivity|]. cbn. rewrite IH. solve_Permutation. Qed.
  Let o := out4 (sgn (z 0%nat)) (sgn (z 1%nat)) (sgn (z 2%nat)) (sgn (z 3%nat)) (big z).
  Lemma verts_perm : flat_map (fun j => if sel S o j then [rim X Y (base4 j + 0)] else []) [0; 1; 2; 3]%nat ++ map vr (verts L) ≡ₚ map (rim X Y) (AreaRule.poly (saddle W sd e) z).
  Proof.
    unfold L. rewrite local_S. unfold AreaRule.poly, poly4. fold o. fold S4. rewrite map_map. fold vr.
    pose proof (around_perm (sgn (z 0%nat)) (sgn (z 1%nat)) (sgn (z 2%nat)) (sgn (z 3%nat)) (saddle W sd e) o (sgn_three _) (sgn_three _) (sgn_three _) (sgn_three _)) as P. cbv zeta in P. fold S4 in P. rewrite <- P, map_app. apply Permutation_app_tail.
    assert (Q : forall j, (j < 4)%nat -> sel S o j = sel S4 o j).
    { intros j Hj. unfold sel. assert (Hp : (prev j < 4)%nat) by (unfold prev; destruct (Nat.eqb_spec j 0); lia). rewrite !S_tab by (try apply next_lt; assumption). reflexivity. }
    cbn [flat_map List.filter]. rewrite !Q by lia. destruct (sel S4 o 0), (sel S4 o 1), (sel S4 o 2), (sel S4 o 3); reflexivity.
  Qed.
  Lemma elem_area_eq : elem_area m b E = Ok (part X Y (saddle W sd e) z).
  Proof.
    pose proof (rs_es _ _ _ _ _ _ _ Rp e E HE) as Es. rewrite status_eq in Es.
    assert (Cut : base_status S4 = ES_NONE -> forall st, e_status E = Some st -> match st with ES_CENTRE_OUTSIDE => true | _ => false end = o ->
      cutArea m b E = Ok (let A := Rabs (cyc (map (rim X Y) (AreaRule.poly (saddle W sd e) z)) * / 2) in if o then 1 - A else A)).
    { intros Hb st Est Eo. unfold cutArea. rewrite Est. cbn [init_get obind]. rewrite Eo, corners_loop. cbn [obind].
      destruct (poly_sorted (saddle W sd e) z z_per Hb) as (P1 & P2 & P3). pose proof verts_perm as Pm.
      destruct (segs_loop (flat_map (fun j => if sel S o j then [rim X Y (base4 j + 0)] else []) [0; 1; 2; 3]%nat)) as (k & Ek & Lp).
      { rewrite <- (map_length vr), <- app_length, Pm, map_length. exact P3. }
      rewrite Ek. cbn [init_get obind]. rewrite Lp. cbn [obind].
      assert (Ec : e_coord E = mkCoord (X + / 2) (Y + / 2)).
      { destruct (tp_elem _ _ _ Ht' e E HE) as [-> _]. cbn [element_spec e_coord]. rewrite !nofnat_R. unfold X, Y. f_equal; cbn; lra. }
      rewrite Ec, (polygon_rim X Y _ _ P1 P2 Pm P3). cbn [obind]. reflexivity. }
    unfold elem_area, part, part4. fold S4. rewrite Es. destruct (base_status S4) eqn:Hb; cbn [init_get obind]; try reflexivity.
    all: try (exfalso; revert Hb; clear; generalize S4; intros f; unfold base_status; destruct (corners_where f is_outside 4); [discriminate|destruct (corners_where f is_inside 4); discriminate]).
    specialize (Cut eq_refl). assert (Eo : o = all_cut && negb (big z)) by reflexivity.
    change (out4 (sgn (z 0%nat)) (sgn (z 1%nat)) (sgn (z 2%nat)) (sgn (z 3%nat)) (big z)) with o. fold (AreaRule.poly (saddle W sd e) z).
    destruct all_cut, (big z); cbn [andb negb] in Eo; rewrite (Cut _ Es); rewrite ?Eo; reflexivity.
  Qed.
End Cut.

(** ** All elements. *)
Lemma sum_fold (l : list R) : fold_left Rplus l 0 = fold_right Rplus 0 l.
Proof.
  assert (G : forall l a, fold_left Rplus l a = a + fold_right Rplus 0 l) by (induction l0 as [|y l0 IH]; intros a; cbn; [lra|rewrite IH; lra]).
  rewrite G. lra.
Qed.
Lemma sum_range (l : list R) : Forall (fun a => 0 <= a <= 1) l -> 0 <= fold_right Rplus 0 l <= INR (length l).
Proof. induction 1 as [|y l Hy F IH]; cbn [fold_right length]; [cbn; lra|]. rewrite S_INR. lra. Qed.
Section Fractions.
  Variables (W H : nat) (s s' : LevelSet R) (tg : bool) (b : Boundary R) (pl : list place).
  Local Notation sd := (field s tg).
  Hypothesis Hr : reached W H s.
  Hypothesis Hclear : clear_cuts W H sd.
  Hypothesis Hlen : (node_count W H <= length sd)%nat.
  Hypothesis Hd : discretise s tg = Ok (s', b).
  Hypothesis Rp : represents W H s tg pl s' b.
  Lemma fractions :
  exists s'' A, computeAreaFractions s' b = Ok (s'', A) /\
    (forall e, (e < W * H)%nat -> exists E a, m_elements (ls_mesh s') !! e = Some E /\ m_elements (ls_mesh s'') !! e = Some (set_e_area a E) /\
       area_rule (fun j => snap (corner_value W sd e j)) a) /\
    A = fold_right Rplus 0 (map e_area (m_elements (ls_mesh s''))) /\ 0 <= A <= INR (W * H) /\
    s'' = set_area (Some A) (set_mesh (set_elements (m_elements (ls_mesh s'')) (ls_mesh s')) s') /\ length (m_elements (ls_mesh s'')) = (W * H)%nat.
  Proof.
  pose proof (ok_topo _ _ _ (so_ok _ _ _ (reached_sound _ _ _ Hr))) as Ht.
  pose proof (topo_after W H s s' tg b Ht Hd) as Ht'.
  set (areas := fun e => part (INR (e mod W)) (INR (e / W)) (saddle W sd e) (fun j => snap (corner_value W sd e j))).
  assert (Ha : forall e E, m_elements (ls_mesh s') !! e = Some E -> elem_area (ls_mesh s') b E = Ok (areas e)).
  { intros e E HE. assert (He : (e < W * H)%nat) by (rewrite <- (tp_lenE _ _ _ Ht'); eapply lookup_lt_Some, HE).
    apply (elem_area_eq W H s s' tg b e pl Hr Hclear Hlen Hd Rp He E HE). }
  assert (Hrule : forall e, (e < W * H)%nat -> area_rule (fun j => snap (corner_value W sd e j)) (areas e)).
  { intros e He. apply part_rule. intros j. unfold corner_value. do 3 f_equal. rewrite Nat.add_mod by lia. cbn. rewrite Nat.add_0_r, Nat.mod_mod by lia. reflexivity. }
  unfold computeAreaFractions. rewrite (tp_nE _ _ _ Ht').
  rewrite (fill_loop (ls_mesh s') b areas Ha) by (rewrite (tp_lenE _ _ _ Ht'); lia). cbn [obind].
  eexists _, _. split; [reflexivity|].
  assert (Es : map e_area (fill (ls_mesh s') areas (W * H)) = map areas (seq 0 (W * H))).
  { apply list_eq. intros i. rewrite !list_lookup_fmap, fill_lookup. destruct (decide (i < W * H)%nat) as [Hi|Hi].
    - rewrite lookup_seq_lt by exact Hi. destruct (lookup_lt_is_Some_2 (m_elements (ls_mesh s')) i) as [E HE]; [rewrite (tp_lenE _ _ _ Ht'); exact Hi|]. rewrite HE. cbn. rewrite (proj2 (Nat.ltb_lt _ _) Hi). reflexivity.
    - rewrite lookup_seq_ge by lia. rewrite lookup_ge_None_2 by (rewrite (tp_lenE _ _ _ Ht'); lia). reflexivity. }
  cbn [set_area set_mesh set_elements ls_mesh m_elements]. rewrite Es.
  change (fold_left nadd (map areas (seq 0 (W * H))) n0) with (fold_left Rplus (map areas (seq 0 (W * H))) 0). rewrite sum_fold.
  split; [|split; [reflexivity|split; [|split]]].
  - intros e He. destruct (lookup_lt_is_Some_2 (m_elements (ls_mesh s')) e) as [E HE]; [rewrite (tp_lenE _ _ _ Ht'); exact He|].
    exists E, (areas e). split; [exact HE|]. split; [|apply Hrule, He]. rewrite fill_lookup, HE. cbn. rewrite (proj2 (Nat.ltb_lt _ _) He). reflexivity.
  - assert (L : length (map areas (seq 0 (W * H))) = (W * H)%nat) by (rewrite map_length, seq_length; reflexivity). rewrite <- L at 3. apply sum_range.
    apply Forall_fmap, Forall_forall. intros e He. apply elem_of_seq in He. cbn. apply (ar_range _ _ (Hrule e ltac:(lia))).
  - reflexivity.
  - unfold fill. rewrite imap_length. apply (tp_lenE _ _ _ Ht').
Qed.
End Fractions.
(** Nodes on the contour allowed, if the element rules give a graph that fits. *)
Theorem area_fractions_nodes W H (s : LevelSet R) (tg : bool) : reached W H s -> clear_cuts W H (field s tg) -> (node_count W H <= length (field s tg))%nat ->
  (tg = true \/ forall i k, adjacent W H i k -> active s i \/ active s k \/ masked s i \/ masked s k) ->
  (forall e, (e < W * H)%nat -> (length (elem_graph W (field s tg) e) <= 2)%nat) -> (forall p, (degree W H (field s tg) p <= 2)%nat) ->
  exists s' b s'' A, discretise s tg = Ok (s', b) /\ computeAreaFractions s' b = Ok (s'', A) /\
    (forall e, (e < W * H)%nat -> exists E a, m_elements (ls_mesh s') !! e = Some E /\ m_elements (ls_mesh s'') !! e = Some (set_e_area a E) /\
       area_rule (fun j => snap (corner_value W (field s tg) e j)) a) /\
    A = fold_right Rplus 0 (map e_area (m_elements (ls_mesh s''))) /\ 0 <= A <= INR (W * H) /\
    s'' = set_area (Some A) (set_mesh (set_elements (m_elements (ls_mesh s'')) (ls_mesh s')) s') /\ length (m_elements (ls_mesh s'')) = (W * H)%nat.
Proof.
  intros Hr Hc Hl Hv Hf Hdg. pose proof (ok_topo _ _ _ (so_ok _ _ _ (reached_sound _ _ _ Hr))) as Ht.
  destruct (graph_built W H s tg Hr Hc Hl) as (s' & b & pl & Ed & Rp); [|exact Hf|exact Hdg|].
  - intros e j He Hj i k _. destruct Hv as [->|Hv]; [auto|]. right. apply Hv. apply corner_adjacent; [apply (tp_fits _ _ _ Ht)|assumption..].
  - destruct (fractions W H s s' tg b pl Hr Hc Hl Ed Rp) as (s'' & A & Q). exists s', b, s'', A. tauto.
Qed.
(** No node on the contour. *)
Theorem area_fractions W H (s s' : LevelSet R) tg b : let sd := field s tg in
  reached W H s -> off_contour W H sd -> clear_cuts W H sd -> (tg = true \/ covered W H s sd) -> discretise s tg = Ok (s', b) ->
  exists s'' A, computeAreaFractions s' b = Ok (s'', A) /\
    (forall e, (e < W * H)%nat -> exists E a, m_elements (ls_mesh s') !! e = Some E /\ m_elements (ls_mesh s'') !! e = Some (set_e_area a E) /\
       area_rule (corner_value W sd e) a) /\
    A = fold_right Rplus 0 (map e_area (m_elements (ls_mesh s''))) /\ 0 <= A <= INR (W * H) /\
    s'' = set_area (Some A) (set_mesh (set_elements (m_elements (ls_mesh s'')) (ls_mesh s')) s') /\ length (m_elements (ls_mesh s'')) = (W * H)%nat.
Proof.
  intros sd Hr Hoff Hclear Hcov Hd. pose proof (ok_topo _ _ _ (so_ok _ _ _ (reached_sound _ _ _ Hr))) as Ht. pose proof (proj1 (tp_fits _ _ _ Ht)) as HW.
  destruct (closed_rep W H s tg Hr Hclear Hoff Hcov s' b Hd) as [pl Rp].
  destruct (fractions W H s s' tg b pl Hr Hclear (off_len W H s tg Hr Hoff) Hd Rp) as (s'' & A & Q1 & Q2 & Q). exists s'', A. split; [exact Q1|]. split; [|exact Q].
  intros e He. destruct (Q2 e He) as (E & a & E1 & E2 & Ra). exists E, a. split; [exact E1|]. split; [exact E2|].
  assert (Es : (fun j => snap (corner_value W sd e j)) = corner_value W sd e); [|rewrite <- Es; exact Ra].
  apply FunctionalExtensionality.functional_extensionality. intros j. unfold snap. destruct (Rlt_dec _ _) as [L|L]; [|reflexivity]. exfalso.
  assert (Hj : (j mod 4 < 4)%nat) by (apply Nat.mod_upper_bound; lia).
  destruct (Hoff (corner W e (j mod 4))) as (v & Ev & Lv); [apply (corner_lt W H e _ HW He Hj)|]. unfold corner_value in L. rewrite (nth_lookup_Some _ _ _ _ Ev) in L. lra.
Qed.

(** Any numbers, any boundary. *)
Theorem area_total {T : Type} {NT : Num T} W H (s s' : LevelSet T) b A : topo W H (ls_mesh s) -> computeAreaFractions s b = Ok (s', A) ->
  exists areas, length areas = (W * H)%nat /\ A = fold_left nadd areas n0 /\ ls_area s' = Some A /\
    (forall e a, areas !! e = Some a -> exists E, m_elements (ls_mesh s) !! e = Some E /\ m_elements (ls_mesh s') !! e = Some (set_e_area a E) /\
       (e_status E = Some ES_INSIDE -> a = nofZ 1) /\ (e_status E = Some ES_OUTSIDE -> a = nofZ 0) /\ e_status E <> None) /\
    s' = set_area (Some A) (set_mesh (set_elements (m_elements (ls_mesh s')) (ls_mesh s)) s) /\ length (m_elements (ls_mesh s')) = (W * H)%nat.
Proof.
  intros Ht Hc. unfold computeAreaFractions in Hc. destruct (for_ _ _ _) as [[m a]| | |] eqn:E; try discriminate Hc. cbn [obind] in Hc. injection Hc as <- <-.
  rewrite (tp_nE _ _ _ Ht) in E. apply done_loop in E as [E HA]; [|rewrite (tp_lenE _ _ _ Ht); lia]. injection E as -> ->.
  exists (map (areas_of (ls_mesh s) b) (seq 0 (W * H))). split; [rewrite map_length, seq_length; reflexivity|]. split; [reflexivity|]. split; [reflexivity|]. split; [|split].
  - intros e a Ea. rewrite list_lookup_fmap in Ea. destruct (seq 0 (W * H) !! e) as [e'|] eqn:Q; [|discriminate Ea]. apply lookup_seq in Q as [-> Le]. cbn in Ea. injection Ea as <-.
    destruct (lookup_lt_is_Some_2 (m_elements (ls_mesh s)) e) as [E HE]; [rewrite (tp_lenE _ _ _ Ht); exact Le|]. exists E. split; [exact HE|].
    pose proof (HA e E Le HE) as Ea. cbn [set_area set_mesh set_elements ls_mesh m_elements]. rewrite fill_lookup, HE. cbn [option_map]. rewrite (proj2 (Nat.ltb_lt _ _) Le). split; [reflexivity|].
    unfold elem_area in Ea. destruct (e_status E) as [st|]; [|discriminate Ea]. cbn [init_get obind] in Ea. split; [|split; [|discriminate]]; intros [= ->]; congruence.
  - reflexivity.
  - cbn. unfold fill. rewrite imap_length. apply (tp_lenE _ _ _ Ht).
Qed.
