(** * BoundaryClosed: in exact arithmetic discretise succeeds and its curves are closed (C35). *)

From Verif Require Import MeshModel MeshSpec MeshProofs MeshGeom MeshTopo FmmSpec FmmFacts LevelSetModel LevelSetSpec LevelSetSpecR LevelSetCalls LevelSetHist LevelSetParams
  BoundaryModel BoundarySpec BoundaryFrame BoundaryProofs BoundaryLinks BoundarySpecR BoundaryReal BoundaryGraph BoundaryRun BoundaryLocal NumInt NumR FmmReal.
From Coq Require Import Reals Lra Psatz.
Local Open Scope R_scope.

Section Places.
  Variables (W H : nat) (sd : list R).
  Hypothesis HW : (1 <= W)%nat.
  Hypothesis Hclear : clear_cuts W H sd.

  Definition between (a b u : R) : Prop := tol <= u <= 1 - tol /\ (1 - u) * a + u * b = 0 /\ ((tol <= a /\ b <= - tol) \/ (a <= - tol /\ tol <= b)).
  Definition place_at (p : place) (c : Coord R) : Prop :=
    match p with
    | AtNode i => c = grid W i
    | OnRight i => exists a b u, sd !! i = Some a /\ sd !! (i + 1)%nat = Some b /\ between a b u /\ c = cut_pos true (i mod (W + 1)) (i / (W + 1)) u
    | OnUp i => exists a b u, sd !! i = Some a /\ sd !! (i + (W + 1))%nat = Some b /\ between a b u /\ c = cut_pos false (i mod (W + 1)) (i / (W + 1)) u
    end.
  Lemma node_of i : i = node_id W (i mod (W + 1)) (i / (W + 1)).
  Proof. unfold node_id. rewrite Nat.mul_comm, Nat.add_comm. apply Nat.div_mod. lia. Qed.
  Lemma row_le i : (i < node_count W H)%nat -> (i / (W + 1) <= H)%nat.
  Proof. unfold node_count. intros L. apply Nat.lt_succ_r, Nat.div_lt_upper_bound; lia. Qed.
  Lemma col_le i : (i mod (W + 1) <= W)%nat.
  Proof. pose proof (Nat.mod_upper_bound i (W + 1)). lia. Qed.
  Lemma right_id i : (i mod (W + 1) < W)%nat -> (i + 1)%nat = node_id W (i mod (W + 1) + 1) (i / (W + 1)).
  Proof. intros L. rewrite (node_of i) at 1. unfold node_id. lia. Qed.
  Lemma up_id i : (i + (W + 1))%nat = node_id W (i mod (W + 1)) (i / (W + 1) + 1).
  Proof. rewrite (node_of i) at 1. unfold node_id. lia. Qed.
  Lemma right_adj i : (i + 1 < node_count W H)%nat -> (i mod (W + 1) < W)%nat -> adjacent W H i (i + 1).
  Proof.
    intros L Lx. left. exists (i mod (W + 1))%nat, (i / (W + 1))%nat, (i mod (W + 1) + 1)%nat. split; [apply node_of|]. split; [apply right_id, Lx|].
    pose proof (row_le i ltac:(lia)). lia.
  Qed.
  Lemma up_adj i : (i + (W + 1) < node_count W H)%nat -> adjacent W H i (i + (W + 1)).
  Proof.
    intros L. right. exists (i mod (W + 1))%nat, (i / (W + 1))%nat, (i / (W + 1) + 1)%nat. split; [apply node_of|]. split; [apply up_id|].
    pose proof (row_le _ L) as A. rewrite up_id in A. unfold node_id in A. rewrite Nat.div_add in A by lia. pose proof (col_le i).
    rewrite (Nat.div_small (i mod (W + 1))) in A by lia. lia.
  Qed.
  Lemma adjacent_sym i k : adjacent W H i k -> adjacent W H k i.
  Proof.
    intros [(x & y & x' & A)|(x & y & y' & A)]; [left; exists x', y, x|right; exists x, y', y]; destruct A as (-> & -> & A1 & A2 & A3 & A4); repeat split; lia.
  Qed.
  Lemma opposite_vals i k : opposite sd i k -> exists a b, sd !! i = Some a /\ sd !! k = Some b /\ ((tol <= a /\ b <= - tol) \/ (a <= - tol /\ tol <= b)).
  Proof.
    intros [[A B]|[A B]].
    - apply side_inside in A as (a & A & L). apply side_outside in B as (b & B & L'). exists a, b. auto.
    - apply side_outside in A as (a & A & L). apply side_inside in B as (b & B & L'). exists a, b. auto.
  Qed.
  Lemma between_ratio i k a b : adjacent W H i k -> sd !! i = Some a -> sd !! k = Some b -> ((tol <= a /\ b <= - tol) \/ (a <= - tol /\ tol <= b)) ->
    between a b (a / (a - b)) /\ 1 - b / (b - a) = a / (a - b).
  Proof.
    intros Ad Ea Eb Hab. pose proof tol_pos. assert (Hne : a - b <> 0) by (destruct Hab; lra). assert (Hne' : b - a <> 0) by lra.
    split; [|field; auto]. set (u := a / (a - b)). assert (Eu : u * (a - b) = a) by (unfold u; field; auto). split; [|split; [lra|exact Hab]].
    destruct Hab as [[L1 L2]|[L1 L2]].
    - destruct (Hclear i k a b Ad Ea Eb L1 L2). split; nra.
    - destruct (Hclear k i b a (adjacent_sym _ _ Ad) Eb Ea L2 L1). split; nra.
  Qed.
  Lemma place_R p c : valid_place W H sd p -> place_coord W sd p c -> place_at p c.
  Proof.
    destruct p as [i|i|i]; cbn [valid_place place_coord place_at].
    - intros _ ->. rewrite node_xy_grid. apply edge_point_node.
    - intros (L & Lx & O) C. destruct (opposite_vals _ _ O) as (a & b & Ea & Eb & Hab).
      destruct (between_ratio _ _ a b (right_adj i L Lx) Ea Eb Hab) as [B1 B2]. exists a, b, (a / (a - b)). split; [exact Ea|]. split; [exact Eb|]. split; [exact B1|].
      destruct C as [(x & y & Ex & Ey & ->)|(x & y & Ex & Ey & ->)].
      + assert (x = a) by congruence. assert (y = b) by congruence. subst. rewrite node_xy_grid. reflexivity.
      + assert (x = b) by congruence. assert (y = a) by congruence. subst. rewrite node_xy_grid. rewrite (right_id i Lx), grid_id by lia. unfold cut_pos. cbn -[INR].
        rewrite plus_INR. cbn [INR]. f_equal. lra.
    - intros (L & O) C. destruct (opposite_vals _ _ O) as (a & b & Ea & Eb & Hab).
      destruct (between_ratio _ _ a b (up_adj i L) Ea Eb Hab) as [B1 B2]. exists a, b, (a / (a - b)). split; [exact Ea|]. split; [exact Eb|]. split; [exact B1|].
      destruct C as [(x & y & Ex & Ey & ->)|(x & y & Ex & Ey & ->)].
      + assert (x = a) by congruence. assert (y = b) by congruence. subst. rewrite node_xy_grid. reflexivity.
      + assert (x = b) by congruence. assert (y = a) by congruence. subst. rewrite node_xy_grid. rewrite (up_id i), grid_id by apply col_le. unfold cut_pos. cbn -[INR].
        rewrite plus_INR. cbn [INR]. f_equal. lra.
  Qed.
  Lemma between_unique a b u u' : between a b u -> between a b u' -> u = u'.
  Proof.
    intros (_ & Z & Hab) (_ & Z' & _). pose proof tol_pos. assert (u * (a - b) = a) by lra. assert (u' * (a - b) = a) by lra. apply (Rmult_eq_reg_r (a - b)); destruct Hab; lra.
  Qed.
  Lemma place_at_fun p c c' : place_at p c -> place_at p c' -> c = c'.
  Proof.
    destruct p as [i|i|i]; cbn [place_at].
    - congruence.
    - intros (a & b & u & Ea & Eb & B & ->) (a' & b' & u' & Ea' & Eb' & B' & ->). assert (a' = a) by congruence. assert (b' = b) by congruence. subst. rewrite (between_unique _ _ _ _ B B'). reflexivity.
    - intros (a & b & u & Ea & Eb & B & ->) (a' & b' & u' & Ea' & Eb' & B' & ->). assert (a' = a) by congruence. assert (b' = b) by congruence. subst. rewrite (between_unique _ _ _ _ B B'). reflexivity.
  Qed.
  Lemma same_cell (p p' : nat) v v' : tol <= v <= 1 - tol -> tol <= v' <= 1 - tol -> Rabs (INR p + v - (INR p' + v')) < tol -> p = p'.
  Proof.
    intros V V' L. apply Rabs_def2 in L. destruct (Nat.lt_trichotomy p p') as [X|[X|X]]; [|exact X|].
    - assert (INR p + 1 <= INR p') by (rewrite <- S_INR; apply le_INR; lia). lra.
    - assert (INR p' + 1 <= INR p) by (rewrite <- S_INR; apply le_INR; lia). lra.
  Qed.
  Lemma same_node i k : (i mod (W + 1) = k mod (W + 1))%nat -> (i / (W + 1) = k / (W + 1))%nat -> i = k.
  Proof. intros A B. rewrite (node_of i), (node_of k), A, B. reflexivity. Qed.
  Lemma place_at_near p q c c' : place_at p c -> place_at q c' -> near c c' -> p = q.
  Proof.
    unfold near. destruct p as [i|i|i], q as [k|k|k]; cbn [place_at].
    - intros -> -> [Nx Ny]. unfold grid in *. cbn [cx cy] in *. apply near_int_eq in Nx, Ny. f_equal. apply same_node; assumption.
    - intros -> (a & b & u & _ & _ & (B & _) & ->) [Nx Ny]. exfalso. cbn [cut_pos grid cx cy] in *. eapply near_int; [exact Nx|exact B].
    - intros -> (a & b & u & _ & _ & (B & _) & ->) [Nx Ny]. exfalso. cbn [cut_pos grid cx cy] in *. eapply near_int; [exact Ny|exact B].
    - intros (a & b & u & _ & _ & (B & _) & ->) -> [Nx Ny]. exfalso. cbn [cut_pos grid cx cy] in *. rewrite Rabs_minus_sym in Nx. eapply near_int; [exact Nx|exact B].
    - intros (a & b & u & _ & _ & (B & _) & ->) (a' & b' & u' & _ & _ & (B' & _) & ->) [Nx Ny]. cbn [cut_pos cx cy] in *. f_equal. apply same_node; [exact (same_cell _ _ u u' B B' Nx)|apply near_int_eq, Ny].
    - intros (a & b & u & _ & _ & (B & _) & ->) (a' & b' & u' & _ & _ & (B' & _) & ->) [Nx Ny]. exfalso. cbn [cut_pos grid cx cy] in *. eapply near_int; [exact Ny|exact B'].
    - intros (a & b & u & _ & _ & (B & _) & ->) -> [Nx Ny]. exfalso. cbn [cut_pos grid cx cy] in *. rewrite Rabs_minus_sym in Ny. eapply near_int; [exact Ny|exact B].
    - intros (a & b & u & _ & _ & (B & _) & ->) (a' & b' & u' & _ & _ & (B' & _) & ->) [Nx Ny]. exfalso. cbn [cut_pos grid cx cy] in *. eapply near_int; [exact Nx|exact B'].
    - intros (a & b & u & _ & _ & (B & _) & ->) (a' & b' & u' & _ & _ & (B' & _) & ->) [Nx Ny]. cbn [cut_pos cx cy] in *. f_equal. apply same_node; [apply near_int_eq, Nx|exact (same_cell _ _ u u' B B' Ny)].
  Qed.
  Lemma same_test_near (c c' : Coord R) : same_test c c' = true <-> near c c'.
  Proof. unfold same_test, near. rewrite tol_lit, andb_true_iff. cbn [nltb NumR nabs nsub]. rewrite !Rltb_true. reflexivity. Qed.
  Lemma near_refl (c : Coord R) : near c c.
  Proof. pose proof tol_pos. unfold near. rewrite !Rminus_diag_eq by reflexivity. rewrite Rabs_R0. lra. Qed.
  Lemma apart_R : places_apart W H sd.
  Proof.
    intros p q c c' i Vp Vq Cp Cq _ _. apply place_R in Cp; [|exact Vp]. apply place_R in Cq; [|exact Vq]. rewrite same_test_near. split.
    - intros N. eapply place_at_near; eassumption.
    - intros <-. rewrite (place_at_fun _ _ _ Cp Cq). apply near_refl.
  Qed.
  Lemma cut_pos_domain p c : valid_place W H sd p -> place_at p c -> 0 <= cx c <= INR W /\ 0 <= cy c <= INR H.
  Proof.
    pose proof tol_pos. destruct p as [i|i|i]; cbn [valid_place place_at].
    - intros [L _] ->. apply grid_domain, L.
    - intros (L & Lx & _) (a & b & u & _ & _ & (B & _) & ->). pose proof (grid_domain W H i ltac:(lia)) as [Gx Gy]. unfold grid in *. cbn [cut_pos cx cy] in *.
      assert (INR (i mod (W + 1)) + 1 <= INR W) by (rewrite <- S_INR; apply le_INR; lia). lra.
    - intros (L & _) (a & b & u & _ & _ & (B & _) & ->). pose proof (grid_domain W H i ltac:(lia)) as [Gx Gy]. pose proof (grid_domain W H _ L) as [_ Gy'].
      rewrite up_id, grid_id in Gy' by apply col_le. unfold grid in *. cbn [cut_pos cx cy] in *. rewrite plus_INR in Gy'. cbn [INR] in Gy'. lra.
  Qed.
End Places.

Section Closed.
  Variables (W H : nat) (s : LevelSet R) (tg : bool).
  Hypothesis Hr : reached W H s.
  Local Notation sd := (field s tg).
  Hypothesis Hclear : clear_cuts W H sd.
  Let Ht : topo W H (ls_mesh s) := ok_topo _ _ _ (so_ok _ _ _ (reached_sound _ _ _ Hr)).
  Let HW : (1 <= W)%nat := proj1 (tp_fits _ _ _ Ht).
  Let HH : (1 <= H)%nat := proj1 (proj2 (tp_fits _ _ _ Ht)).

  Lemma inside_R : places_inside W H (ls_mesh s) sd (ls_moveLimit s).
  Proof.
    intros p c V C. apply (place_R W H sd HW Hclear) in C; [|exact V]. destruct (cut_pos_domain W H sd HW p c V C) as [[_ X] [_ Y]].
    destruct (closest_R W H (ls_mesh s) c Ht X Y) as (i & n & Ec & En & _). unfold initialisePoint. rewrite Ec. cbn [obind]. unfold vget. rewrite En. cbn [obind]. eauto.
  Qed.

  (** With nodes on the contour: what the run needs, and the graph it then builds. *)
  Definition all_seen : Prop := forall e j, (e < W * H)%nat -> (j < 4)%nat ->
    let i := corner W e j in let k := corner W e (next j) in
    opposite sd i k \/ (side sd i = Some NS_BOUNDARY /\ side sd k = Some NS_BOUNDARY) ->
    tg = true \/ active s i \/ active s k \/ masked s i \/ masked s k.
  Lemma seen_R : all_seen -> contour_seen W H (ls_mesh s) sd tg.
  Proof.
    intros A e j He Hj X. destruct (A e j He Hj X) as [X1|[(n & E & F)|[(n & E & F)|[(n & E & F)|(n & E & F)]]]]; [left; exact X1|right; exists n..];
      rewrite F, ?orb_true_r; auto.
  Qed.
  Lemma graph_built : (node_count W H <= length sd)%nat -> all_seen -> (forall e, (e < W * H)%nat -> (length (elem_graph W sd e) <= 2)%nat) ->
    (forall p, (degree W H sd p <= 2)%nat) -> exists s' b pl, discretise s tg = Ok (s', b) /\ represents W H s tg pl s' b.
  Proof.
    intros Hl Hs Hf Hd.
    pose proof (discretise_total W H s tg Ht Hl (apart_R W H sd HW Hclear) inside_R (seen_R Hs) Hf Hd) as X.
    destruct (discretise s tg) as [[s' b]| | |]; [|destruct X..]. destruct X as [pl R]. exists s', b, pl. auto.
  Qed.

  (** ** No nodes on the contour. *)
  Hypothesis Hoff : off_contour W H sd.
  Hypothesis Hcov : tg = true \/ covered W H s sd.
  Lemma off_strict i : (i < node_count W H)%nat -> off_side (st_of sd i).
  Proof.
    intros Hi. destruct (Hoff i Hi) as (x & Ex & Lx). unfold st_of, off_side. destruct (Rle_dec 0 x).
    - rewrite (proj2 (side_inside sd i)); [auto|]. exists x. split; [exact Ex|]. rewrite Rabs_right in Lx by lra. exact Lx.
    - rewrite (proj2 (side_outside sd i)); [auto|]. exists x. split; [exact Ex|]. rewrite Rabs_left in Lx by lra. lra.
  Qed.
  Lemma off_len : (node_count W H <= length sd)%nat.
  Proof.
    destruct (Nat.eq_0_gt_0_cases (node_count W H)) as [E|E]; [lia|]. destruct (Hoff (node_count W H - 1)%nat ltac:(lia)) as (x & Ex & _). apply lookup_lt_Some in Ex. lia.
  Qed.
  Lemma off_seen : all_seen.
  Proof.
    intros e j He Hj i k X. destruct Hcov as [T|C]; [auto|]. right. pose proof tol_pos.
    assert (Ad : adjacent W H i k) by (apply corner_adjacent; assumption).
    destruct X as [O|[B _]].
    - destruct (opposite_vals sd _ _ O) as (a & b & Ea & Eb & [[L1 L2]|[L1 L2]]).
      + destruct (C i k a b Ad Ea Eb) as [Y|[Y|[Y|Y]]]; auto; lra.
      + destruct (C k i b a (adjacent_sym W H HW _ _ Ad) Eb Ea) as [Y|[Y|[Y|Y]]]; auto; lra.
    - exfalso. apply side_boundary in B as (x & Ex & Lx). destruct (Hoff i) as (x' & Ex' & Lx'); [apply (corner_lt W H e j HW He Hj)|].
      assert (x' = x) by congruence. subst. lra.
  Qed.
  Lemma cut_place i k x y : adjacent W H i k -> sd !! i = Some x -> sd !! k = Some y -> tol <= x -> y <= - tol ->
    exists p, valid_place W H sd p /\ (exists i', p = OnRight i' \/ p = OnUp i') /\ forall c, place_at W sd p c -> on_cut_edge W H sd i k c.
  Proof.
    intros Ad Ei Ek Lx Ly. pose proof tol_pos. assert (Si : side sd i = Some NS_INSIDE) by (apply side_inside; eauto). assert (Sk : side sd k = Some NS_OUTSIDE) by (apply side_outside; eauto).
    assert (Bt : forall a b u, between a b u -> u * (a - b) = a) by (intros a b u (_ & Z & _); lra).
    pose proof Ad as Ad'.
    destruct Ad as [(p & q & p' & -> & -> & P1 & P2 & P3 & [->| ->])|(p & q & q' & -> & -> & P1 & P2 & P3 & [->| ->])].
    - exists (OnRight (node_id W p q)). assert (E1 : (node_id W p q + 1 = node_id W (p + 1) q)%nat) by (unfold node_id; lia).
      cbn [valid_place place_at]. rewrite !E1, node_id_mod, node_id_div by lia. split; [|split; [eauto|]].
      + split; [unfold node_id, node_count; nia|]. split; [lia|]. left. auto.
      + intros c (a & b & u & Ea & Eb & B & ->). assert (a = x) by congruence. assert (b = y) by congruence. subst a b. split; [exact Ad'|].
        exists x, y, u. repeat (split; [assumption|]). destruct B as (B & Z & _). split; [lra|]. split; [exact Z|]. rewrite !grid_id by lia. unfold along, cut_pos. cbn [cx cy]. rewrite plus_INR. cbn [INR]. f_equal; ring.
    - exists (OnRight (node_id W p' q)). assert (E1 : (node_id W p' q + 1 = node_id W (p' + 1) q)%nat) by (unfold node_id; lia).
      cbn [valid_place place_at]. rewrite !E1, node_id_mod, node_id_div by lia. split; [|split; [eauto|]].
      + split; [unfold node_id, node_count; nia|]. split; [lia|]. right. auto.
      + intros c (a & b & u & Ea & Eb & B & ->). assert (a = y) by congruence. assert (b = x) by congruence. subst a b. split; [exact Ad'|].
        exists x, y, (1 - u). repeat (split; [assumption|]). destruct B as (B & Z & _). split; [lra|]. split; [lra|]. rewrite !grid_id by lia. unfold along, cut_pos. cbn [cx cy]. rewrite plus_INR. cbn [INR]. f_equal; ring.
    - exists (OnUp (node_id W p q)). assert (E1 : (node_id W p q + (W + 1) = node_id W p (q + 1))%nat) by (unfold node_id; lia).
      cbn [valid_place place_at]. rewrite !E1, node_id_mod, node_id_div by lia. split; [|split; [eauto|]].
      + split; [unfold node_id, node_count; nia|]. left. auto.
      + intros c (a & b & u & Ea & Eb & B & ->). assert (a = x) by congruence. assert (b = y) by congruence. subst a b. split; [exact Ad'|].
        exists x, y, u. repeat (split; [assumption|]). destruct B as (B & Z & _). split; [lra|]. split; [exact Z|]. rewrite !grid_id by lia. unfold along, cut_pos. cbn [cx cy]. rewrite plus_INR. cbn [INR]. f_equal; ring.
    - exists (OnUp (node_id W p q')). assert (E1 : (node_id W p q' + (W + 1) = node_id W p (q' + 1))%nat) by (unfold node_id; lia).
      cbn [valid_place place_at]. rewrite !E1, node_id_mod, node_id_div by lia. split; [|split; [eauto|]].
      + split; [unfold node_id, node_count; nia|]. right. auto.
      + intros c (a & b & u & Ea & Eb & B & ->). assert (a = y) by congruence. assert (b = x) by congruence. subst a b. split; [exact Ad'|].
        exists x, y, (1 - u). repeat (split; [assumption|]). destruct B as (B & Z & _). split; [lra|]. split; [lra|]. rewrite !grid_id by lia. unfold along, cut_pos. cbn [cx cy]. rewrite plus_INR. cbn [INR]. f_equal; ring.
  Qed.
  Lemma cut_edge_fun i k c c' : on_cut_edge W H sd i k c -> on_cut_edge W H sd i k c' -> c = c'.
  Proof.
    intros (_ & x & y & t & Ei & Ek & Lx & Ly & _ & Z & ->) (_ & x' & y' & t' & Ei' & Ek' & _ & _ & _ & Z' & ->). pose proof tol_pos.
    assert (x' = x) by congruence. assert (y' = y) by congruence. subst. f_equal. apply (Rmult_eq_reg_r (x - y)); lra.
  Qed.
  Lemma sides_interior p c : valid_place W H sd p -> place_at W sd p c -> (exists i', p = OnRight i' \/ p = OnUp i') ->
    (within_domain W H c -> sides_of W H p = 2%nat) /\ (~ within_domain W H c -> sides_of W H p = 1%nat).
  Proof.
    intros V C (i & [-> | ->]); cbn [valid_place place_at sides_of] in *; pose proof tol_pos.
    - destruct V as (L & Lx & _), C as (a & b & u & _ & _ & (B & _) & ->). pose proof (row_le W H HW i ltac:(lia)) as Ly. unfold within_domain. cbn [cut_pos cx cy].
      assert (0 <= INR (i mod (W + 1))) by apply pos_INR. assert (INR (i mod (W + 1)) + 1 <= INR W) by (rewrite <- S_INR; apply le_INR; lia).
      set (y := (i / (W + 1))%nat) in *. split.
      + intros [_ [A1 A2]]. apply (INR_lt 0) in A1. apply INR_lt in A2. apply Nat.ltb_lt in A1, A2. rewrite A1, A2. reflexivity.
      + intros N. destruct (Nat.ltb_spec y H), (Nat.ltb_spec 0 y); cbn; try reflexivity; [exfalso; apply N|lia]. split; [lra|]. split; [apply (lt_INR 0); lia|apply lt_INR; lia].
    - destruct V as (L & _), C as (a & b & u & _ & _ & (B & _) & ->). pose proof (row_le W H HW _ L) as Ly. pose proof (col_le W HW i) as Lx.
      rewrite (up_id W HW i) in Ly. rewrite node_id_div in Ly by exact Lx. unfold within_domain. cbn [cut_pos cx cy].
      assert (0 <= INR (i / (W + 1))) by apply pos_INR. assert (INR (i / (W + 1)) + 1 <= INR H) by (rewrite <- S_INR; apply le_INR; lia).
      set (x := (i mod (W + 1))%nat) in *. split.
      + intros [[A1 A2] _]. apply (INR_lt 0) in A1. apply INR_lt in A2. apply Nat.ltb_lt in A1, A2. rewrite A1, A2. reflexivity.
      + intros N. destruct (Nat.ltb_spec x W), (Nat.ltb_spec 0 x); cbn; try reflexivity; [exfalso; apply N|lia]. split; [|lra]. split; [apply (lt_INR 0); lia|apply lt_INR; lia].
  Qed.
  Lemma off_edges p : valid_place W H sd p -> exists i', p = OnRight i' \/ p = OnUp i'.
  Proof.
    destruct p as [i|i|i]; cbn [valid_place]; [|eauto..]. intros [Hi B]. exfalso. apply side_boundary in B as (x & Ex & Lx).
    destruct (Hoff i Hi) as (x' & Ex' & Lx'). assert (x' = x) by congruence. subst. lra.
  Qed.
  Lemma graph_in e p q n : In (e, (p, q)) (graph_upto W sd n) -> (e < n)%nat /\ In (p, q) (elem_graph W sd e).
  Proof.
    unfold graph_upto. rewrite in_flat_map. intros (e' & He & Hi). apply in_seq in He. apply in_map_iff in Hi as (t & [= <- <-] & Hi). split; [lia|exact Hi].
  Qed.
  Lemma closed_curves : exists s' b, discretise s tg = Ok (s', b) /\
    (forall i k x y, adjacent W H i k -> sd !! i = Some x -> sd !! k = Some y -> tol <= x -> y <= - tol ->
       exists n p, bd_points b !! n = Some p /\ on_cut_edge W H sd i k (bp_coord p) /\
         forall n' p', bd_points b !! n' = Some p' -> on_cut_edge W H sd i k (bp_coord p') -> n' = n) /\
    (forall n p, bd_points b !! n = Some p ->
       (exists i k, on_cut_edge W H sd i k (bp_coord p)) /\
       (within_domain W H (bp_coord p) -> bp_nSegs p = 2%nat) /\ (~ within_domain W H (bp_coord p) -> bp_nSegs p = 1%nat)) /\
    (forall n sg, bd_segs b !! n = Some sg -> sg_start sg <> sg_end sg).
  Proof.
    destruct (graph_built off_len off_seen (few W H sd HW off_strict) (degree_le W H sd HW off_strict)) as (s' & b & pl & E & R). destruct R.
    exists s', b. split; [exact E|].
    assert (PT : forall n bp, bd_points b !! n = Some bp -> exists p, pl !! n = Some p /\ valid_place W H sd p /\ place_at W sd p (bp_coord bp)).
    { intros n bp Ebp. destruct (Forall2_lookup_r _ _ _ _ _ rs_pts Ebp) as (p & Ep & C). exists p. split; [exact Ep|].
      assert (V := rs_valid p (elem_of_list_lookup_2 _ _ _ Ep)). split; [exact V|]. apply (place_R W H sd HW Hclear); assumption. }
    split; [|split].
    - intros i k x y Ad Ei Ek Lx Ly. destruct (cut_place i k x y Ad Ei Ek Lx Ly) as (p & V & Pe & C).
      assert (Hd : (0 < degree W H sd p)%nat).
      { rewrite (degree_valid W H sd HW off_strict p V). clear C. destruct Pe as (i' & [-> | ->]); cbn [sides_of valid_place] in *.
        - destruct (Nat.ltb_spec (i' / (W + 1)) H), (Nat.ltb_spec 0 (i' / (W + 1))); cbn; lia.
        - destruct (Nat.ltb_spec (i' mod (W + 1)) W), (Nat.ltb_spec 0 (i' mod (W + 1))); cbn; lia. }
      apply ends_count_in in Hd as ([u v] & Hin & Hp). apply in_map_iff in Hin as ([e [u' v']] & Et & Hin); cbn in Et; injection Et as -> ->.
      apply elem_of_list_In, elem_of_list_lookup_1 in Hin as [n Hn]. destruct (Forall2_lookup_l _ _ _ _ _ rs_segs Hn) as (sg & _ & _ & S1 & S2). cbn [fst snd] in *.
      assert (exists n0, pl !! n0 = Some p) as [n1 En1] by (destruct Hp as [Hp|Hp]; rewrite Hp in *; eauto).
      destruct (Forall2_lookup_l _ _ _ _ _ rs_pts En1) as (bp & Ebp & Cbp). apply (place_R W H sd HW Hclear) in Cbp; [|exact V].
      exists n1, bp. split; [exact Ebp|]. split; [apply C, Cbp|]. intros n' bp' Ebp' O'. destruct (PT n' bp' Ebp') as (p' & Ep' & V' & C').
      assert (Ec : bp_coord bp' = bp_coord bp) by (eapply cut_edge_fun; [exact O'|apply C, Cbp]). rewrite Ec in C'.
      assert (p' = p) by (eapply place_at_near; [exact HW|exact C'|exact Cbp|apply near_refl]). subst p'. exact (NoDup_lookup _ _ _ _ rs_nd Ep' En1).
    - intros n bp Ebp. destruct (PT n bp Ebp) as (p & Ep & V & C). rewrite (rs_deg n p bp Ep Ebp), (degree_valid W H sd HW off_strict p V).
      split; [|apply sides_interior; auto using off_edges].
      destruct (points_on_contour W H s s' tg b Hr E n bp Ebp) as [[(i & x & Hi & Ex & Lx & _)|O] _]; [|exact O]. exfalso.
      destruct (Hoff i Hi) as (x' & Ex' & Lx'). assert (x' = x) by congruence. subst. lra.
    - intros n sg Esg. destruct (Forall2_lookup_r _ _ _ _ _ rs_segs Esg) as ([e [p q]] & Hn & _ & S1 & S2). cbn [fst snd] in *.
      apply elem_of_list_lookup_2, elem_of_list_In, graph_in in Hn as [He Hin]. unfold elem_graph in Hin. apply in_map_iff in Hin as ([u v] & [= <- <-] & Hin).
      apply local_distinct in Hin as (a & b' & -> & -> & Ha & Hb & Hab); [|intros j Hj; apply (sides_strict W H sd HW off_strict e j He Hj)].
      intros Eq. rewrite Eq, S2 in S1. injection S1 as S1. cbn [glob] in S1. apply Hab. symmetry. exact (edge_place_inj W H sd HW off_strict e b' a He Hb Ha S1).
  Qed.

  Lemma map_nodup {A B} (f : A -> B) l : (forall x y, In x l -> In y l -> f x = f y -> x = y) -> List.NoDup l -> List.NoDup (map f l).
  Proof.
    induction l as [|x l IH]; intros Inj N; [constructor|]. inversion N as [|? ? N1 N2]; subst. cbn. constructor.
    - intros X. apply in_map_iff in X as (y & Eq & Hy). apply N1. rewrite (Inj x y); [exact Hy|left; reflexivity|right; exact Hy|symmetry; exact Eq].
    - apply IH; [|exact N2]. intros a b' Ha Hb. apply Inj; right; assumption.
  Qed.
  Lemma graph_nodup : NoDup (graph_upto W sd (W * H)).
  Proof.
    apply NoDup_ListNoDup. assert (G : forall n, (n <= W * H)%nat -> List.NoDup (graph_upto W sd n)); [|apply G; lia].
    induction n as [|n IH]; intros L; [constructor|]. replace (S n) with (n + 1)%nat by lia. rewrite graph_snoc. apply NoDup_ListNoDup, NoDup_app. split; [apply NoDup_ListNoDup, IH; lia|]. split.
    - intros [e [p q]] X Y. apply elem_of_list_In, graph_in in X as [X _]. apply elem_of_list_In, in_map_iff in Y as (z & [= Y _] & _). lia.
    - apply NoDup_ListNoDup, map_nodup; [congruence|]. unfold elem_graph.
      assert (St : forall j, (j < 4)%nat -> off_side (sides W sd n j)) by (intros j Hj; apply (sides_strict W H sd HW off_strict n j ltac:(lia) Hj)).
      apply map_nodup; [|apply local_nodup, St]. intros [u v] [u' v'] X Y Eq.
      destruct (local_distinct _ _ _ _ St X) as (a & b & -> & -> & La & Lb & _), (local_distinct _ _ _ _ St Y) as (a' & b' & -> & -> & La' & Lb' & _).
      injection Eq as E1 E2. apply (edge_place_inj W H sd HW off_strict n) in E1; [|lia..]. apply (edge_place_inj W H sd HW off_strict n) in E2; [|lia..]. congruence.
  Qed.
  (** ** The segments of one element. *)
  Section Element.
    Variables (s' : LevelSet R) (b : Boundary R) (e : nat).
    Hypothesis Hd : discretise s tg = Ok (s', b).
    Hypothesis He : (e < W * H)%nat.
    Let S := sides W sd e.
    Lemma Hstr j : (j < 4)%nat -> off_side (S j).
    Proof. intros Hj. apply (sides_strict W H sd HW off_strict e j He Hj). Qed.
    Lemma closed_rep : exists pl, represents W H s tg pl s' b.
    Proof.
      destruct (graph_built off_len off_seen (few W H sd HW off_strict) (degree_le W H sd HW off_strict)) as (s'' & b' & pl & E' & R).
      rewrite Hd in E'. injection E' as <- <-. eauto.
    Qed.
    Lemma side_val j : (j < 4)%nat -> exists x, sd !! corner W e j = Some x /\ ((tol <= x /\ S j = NS_INSIDE) \/ (x <= - tol /\ S j = NS_OUTSIDE)).
    Proof.
      intros Hj. unfold S, sides, st_of. destruct (Hoff (corner W e j)) as (x & Ex & Lx); [apply (corner_lt W H e j HW He Hj)|]. exists x. split; [exact Ex|].
      destruct (Rle_dec 0 x).
      - left. assert (L : tol <= x) by (rewrite Rabs_right in Lx by lra; exact Lx). split; [exact L|]. rewrite (proj2 (side_inside sd _)); eauto.
      - right. assert (L : x <= - tol) by (rewrite Rabs_left in Lx by lra; lra). split; [exact L|]. rewrite (proj2 (side_outside sd _)); eauto.
    Qed.
    Lemma cut_val a x y : (a < 4)%nat -> sd !! corner W e a = Some x -> sd !! corner W e (next a) = Some y -> (cutb (S a) (S (next a)) = true <-> x * y < 0).
    Proof.
      intros Ha Ex Ey. pose proof tol_pos. destruct (side_val a Ha) as (x' & Ex' & Hx). destruct (side_val (next a) (next_lt a Ha)) as (y' & Ey' & Hy).
      assert (x' = x) by congruence. assert (y' = y) by congruence. subst x' y'.
      destruct Hx as [[Lx ->]|[Lx ->]], Hy as [[Ly ->]|[Ly ->]]; cbn; split; intros X; first [discriminate X|reflexivity|exfalso; nra|nra].
    Qed.
    Lemma in_cut a : In a (cut_edges S 4) <-> (a < 4)%nat /\ cutb (S a) (S (next a)) = true.
    Proof. unfold cut_edges. rewrite filter_In, in_seq. intuition lia. Qed.
    Lemma cut_opposite a : (a < 4)%nat -> cutb (S a) (S (next a)) = true -> opposite sd (corner W e a) (corner W e (next a)).
    Proof.
      intros Ha C. destruct (side_val a Ha) as (x & Ex & Hx). destruct (side_val (next a) (next_lt a Ha)) as (y & Ey & Hy). unfold opposite.
      destruct Hx as [[Lx Ea]|[Lx Ea]], Hy as [[Ly Eb]|[Ly Eb]]; rewrite Ea, Eb in C; try discriminate C; [left|right];
        split; first [solve [apply side_inside; eauto]|solve [apply side_outside; eauto]].
    Qed.
    Lemma edge_zero a c : (a < 4)%nat -> cutb (S a) (S (next a)) = true -> place_at W sd (edge_place W e a) c -> zero_on_side W sd e a c.
    Proof.
      intros Ha C P. destruct (side_val a Ha) as (x & Ex & _). destruct (side_val (next a) (next_lt a Ha)) as (y & Ey & _).
      pose proof (proj1 (cut_val a x y Ha Ex Ey) C) as Lxy. rewrite (edge_place_eq W H HW e a He Ha) in P.
      destruct (elem_id_split W H e HW He) as (A & B & _). pose proof tol_pos. unfold zero_on_side.
      pose proof (corner_edge W H HW e a He Ha) as Ce.
      pose proof (corner_val W H HW e a He Ha) as V1. pose proof (corner_val W H HW e (next a) He (next_lt a Ha)) as V2.
      destruct a as [|[|[|[|a]]]]; [..|lia]; cbn [next Nat.eqb Nat.add] in *; cbn [edge_to place_at] in *.
      - destruct P as (x' & y' & u & Ex' & Ey' & (B1 & B2 & _) & ->). destruct Ce as [Ce _]. rewrite <- Ce in Ey'. assert (x' = x) by congruence. assert (y' = y) by congruence. subst x' y'.
        exists x, y, u. repeat (split; [first [assumption|lra]|]). rewrite V1, V2, !grid_id, node_id_mod, node_id_div by lia. unfold along, cut_pos. cbn [cx cy]. rewrite plus_INR. cbn [INR]. f_equal; ring.
      - destruct P as (x' & y' & u & Ex' & Ey' & (B1 & B2 & _) & ->). rewrite <- Ce in Ey'. assert (x' = x) by congruence. assert (y' = y) by congruence. subst x' y'.
        exists x, y, u. repeat (split; [first [assumption|lra]|]). rewrite V1, V2, !grid_id, node_id_mod, node_id_div by lia. unfold along, cut_pos. cbn [cx cy]. rewrite !plus_INR. cbn [INR]. f_equal; ring.
      - destruct P as (y' & x' & u & Ey' & Ex' & (B1 & B2 & _) & ->). destruct Ce as [Ce _]. rewrite <- Ce in Ex'. assert (x' = x) by congruence. assert (y' = y) by congruence. subst x' y'.
        exists x, y, (1 - u). repeat (split; [first [assumption|lra]|]). rewrite V1, V2, !grid_id, node_id_mod, node_id_div by lia. unfold along, cut_pos. cbn [cx cy]. rewrite !plus_INR. cbn [INR]. f_equal; ring.
      - destruct P as (y' & x' & u & Ey' & Ex' & (B1 & B2 & _) & ->). rewrite <- Ce in Ex'. assert (x' = x) by congruence. assert (y' = y) by congruence. subst x' y'.
        exists x, y, (1 - u). repeat (split; [first [assumption|lra]|]). rewrite V1, V2, !grid_id, node_id_mod, node_id_div by lia. unfold along, cut_pos. cbn [cx cy]. rewrite !plus_INR. cbn [INR]. f_equal; ring.
    Qed.
    Lemma zero_coord a c : (a < 4)%nat -> zero_on_side W sd e a c ->
      let u := cx c - INR (e mod W) in let v := cy c - INR (e / W) in
      match a with 0%nat => v = 0 /\ 0 < u < 1 | 1%nat => u = 1 /\ 0 < v < 1 | 2%nat => v = 1 /\ 0 < u < 1 | _ => u = 0 /\ 0 < v < 1 end.
    Proof.
      intros Ha (x & y & t & _ & _ & _ & Lt & _ & ->). destruct (elem_id_split W H e HW He) as (A & B & _).
      pose proof (corner_val W H HW e a He Ha) as V1. pose proof (corner_val W H HW e (next a) He (next_lt a Ha)) as V2.
      destruct a as [|[|[|[|a]]]]; [..|lia]; cbn [next Nat.eqb Nat.add] in *; rewrite V1, V2, !grid_id by lia; unfold along; cbn [cx cy]; rewrite ?plus_INR; cbn [INR]; lra.
    Qed.
    Lemma zero_inj a a' c : (a < 4)%nat -> (a' < 4)%nat -> zero_on_side W sd e a c -> zero_on_side W sd e a' c -> a = a'.
    Proof.
      intros Ha Ha' Z Z'. apply zero_coord in Z; [|exact Ha]. apply zero_coord in Z'; [|exact Ha']. cbn zeta in *.
      destruct a as [|[|[|[|a]]]]; [..|lia]; (destruct a' as [|[|[|[|a']]]]; [..|lia]); first [reflexivity|exfalso; lra].
    Qed.
    Lemma element_segments :
      (forall n sg, bd_segs b !! n = Some sg -> sg_elem sg = e -> exists a a', (a < 4)%nat /\ (a' < 4)%nat /\ a <> a' /\ joins_sides W sd b sg e a a') /\
      (forall a x y, (a < 4)%nat -> sd !! corner W e a = Some x -> sd !! corner W e (next a) = Some y -> x * y < 0 ->
         exists n sg a', bd_segs b !! n = Some sg /\ sg_elem sg = e /\ joins_sides W sd b sg e a a' /\
           forall n' sg' a'', bd_segs b !! n' = Some sg' -> sg_elem sg' = e -> joins_sides W sd b sg' e a a'' -> n' = n) /\
      (forall x0 x1 x2 x3 E, sd !! corner W e 0 = Some x0 -> sd !! corner W e 1 = Some x1 -> sd !! corner W e 2 = Some x2 -> sd !! corner W e 3 = Some x3 ->
         x0 * x1 < 0 -> x1 * x2 < 0 -> x2 * x3 < 0 -> m_elements (ls_mesh s') !! e = Some E ->
         let v := x0 + x1 + x2 + x3 in
         (0 < v -> e_status E = Some ES_CENTRE_INSIDE) /\ (v <= 0 -> e_status E = Some ES_CENTRE_OUTSIDE) /\
         (v <> 0 -> forall n sg, bd_segs b !! n = Some sg -> sg_elem sg = e ->
            exists a z, (a < 4)%nat /\ joins_sides W sd b sg e a (next a) /\ sd !! corner W e (next a) = Some z /\ z * v < 0)).
    Proof.
      destruct closed_rep as [pl R]. destruct R.
      assert (PT : forall n bp a, pl !! n = Some (edge_place W e a) -> (a < 4)%nat -> cutb (S a) (S (next a)) = true -> bd_points b !! n = Some bp -> zero_on_side W sd e a (bp_coord bp)).
      { intros n bp a Ep Ha C Ebp. destruct (Forall2_lookup_l _ _ _ _ _ rs_pts Ep) as (bp' & Ebp' & Cp). assert (bp' = bp) by congruence. subst bp'.
        apply edge_zero; [assumption..|]. apply (place_R W H sd HW Hclear); [|exact Cp]. apply (edge_valid W H sd HW); auto using cut_opposite. }
      assert (PP : forall n p, pl !! n = Some p -> exists bp, bd_points b !! n = Some bp).
      { intros n p Ep. destruct (Forall2_lookup_l _ _ _ _ _ rs_pts Ep) as (bp & Ebp & _). eauto. }
      assert (JN : forall n sg, bd_segs b !! n = Some sg -> sg_elem sg = e -> exists u v a a', graph_upto W sd (W * H) !! n = Some (e, (glob W e u, glob W e v)) /\
        In (u, v) (local_segs S (saddle W sd e)) /\ u = Edge a /\ v = Edge a' /\ In a (cut_edges S 4) /\ In a' (cut_edges S 4) /\ a <> a' /\ joins_sides W sd b sg e a a' /\
        (length (cut_edges S 4) = 4%nat -> exists j, (j < 4)%nat /\ ((a = j /\ a' = prev j) \/ (a = prev j /\ a' = j)) /\ S j = if saddle W sd e then other (S 0%nat) else S 0%nat)).
      { intros n sg Esg Ee. destruct (Forall2_lookup_r _ _ _ _ _ rs_segs Esg) as ([e' [p q]] & Hn & E' & S1 & S2). cbn [fst snd] in *. rewrite Ee in E'. subst e'.
        pose proof Hn as Hn'. apply elem_of_list_lookup_2, elem_of_list_In, graph_in in Hn' as [_ Hin]. unfold elem_graph in Hin. apply in_map_iff in Hin as ([u v] & [= <- <-] & Hin).
        destruct (local_edges S (saddle W sd e) u v Hstr Hin) as (a & a' & -> & -> & Ca & Ca' & Ne & Sd). exists (Edge a), (Edge a'), a, a'. repeat (split; [solve [assumption|reflexivity]|]).
        split; [|exact Sd]. destruct (PP _ _ S1) as [bp Ebp]. destruct (PP _ _ S2) as [bq Ebq]. exists bp, bq. split; [exact Ebp|]. split; [exact Ebq|]. left.
        apply in_cut in Ca, Ca'. split; eapply PT; intuition eassumption. }
      split; [|split].
      - intros n sg Esg Ee. destruct (JN n sg Esg Ee) as (u & v & a & a' & _ & _ & _ & _ & Ca & Ca' & Ne & J & _). apply in_cut in Ca, Ca'. exists a, a'. intuition.
      - intros a x y Ha Ex Ey Lxy. assert (Ca : In a (cut_edges S 4)) by (apply in_cut; split; [exact Ha|]; apply (cut_val a x y); assumption).
        destruct (local_hit S (saddle W sd e) a Hstr Ca) as (u & v & Hin & Huv).
        assert (Hg : In (e, (glob W e u, glob W e v)) (graph_upto W sd (W * H))).
        { unfold graph_upto. apply in_flat_map. exists e. split; [apply in_seq; lia|]. apply in_map. unfold elem_graph. apply in_map_iff. exists (u, v). auto. }
        apply elem_of_list_In, elem_of_list_lookup_1 in Hg as [n Hn]. destruct (Forall2_lookup_l _ _ _ _ _ rs_segs Hn) as (sg & Esg & Ee & _). cbn [fst] in Ee.
        destruct (JN n sg Esg Ee) as (u1 & v1 & a1 & a1' & Hn1 & Hin1 & -> & -> & Ca1 & Ca1' & Ne & J & _).
        assert (GI : forall c c', In c (cut_edges S 4) -> In c' (cut_edges S 4) -> edge_place W e c = edge_place W e c' -> c = c').
        { intros c c' C1 C2 Eq. apply in_cut in C1 as [L1 _], C2 as [L2 _]. exact (edge_place_inj W H sd HW off_strict e c c' He L1 L2 Eq). }
        destruct (local_edges S (saddle W sd e) u v Hstr Hin) as (a0 & a0' & -> & -> & Ca0 & Ca0' & _ & _). rewrite Hn in Hn1. injection Hn1 as G1 G2.
        apply GI in G1; [|assumption..]. apply GI in G2; [|assumption..]. subst a1 a1'.
        assert (Ja : exists a', joins_sides W sd b sg e a a').
        { destruct Huv as [[= ->]|[= ->]]; [eauto|]. exists a0. destruct J as (p & q & E1 & E2 & J). exists p, q. split; [exact E1|]. split; [exact E2|]. tauto. }
        destruct Ja as [a' Ja]. exists n, sg, a'. split; [exact Esg|]. split; [exact Ee|]. split; [exact Ja|].
        intros n' sg' a'' Esg' Ee' J'. destruct (JN n' sg' Esg' Ee') as (u2 & v2 & a2 & a2' & Hn2 & Hin2 & -> & -> & Ca2 & Ca2' & Ne2 & J2 & _).
        assert (Hit : a2 = a \/ a2' = a).
        { apply in_cut in Ca2 as [L2 _], Ca2' as [L2' _]. destruct J' as (p & q & E1 & E2 & J'), J2 as (p2 & q2 & E1' & E2' & J2).
          assert (p2 = p) by congruence. assert (q2 = q) by congruence. subst p2 q2.
          destruct J' as [[Z1 _]|[_ Z1]], J2 as [[Y1 Y2]|[Y1 Y2]]; first [left; solve [eapply zero_inj; eassumption]|right; solve [eapply zero_inj; eassumption]]. }
        assert (Eq : (Edge a0, Edge a0') = (Edge a2, Edge a2')).
        { apply (local_once S (saddle W sd e) a _ _ _ _ Hstr Hin Hin2 Huv). destruct Hit as [-> | ->]; auto. }
        injection Eq as -> ->. eapply (NoDup_lookup (graph_upto W sd (W * H))); [|exact Hn2|exact Hn].
        exact graph_nodup.
      - intros x0 x1 x2 x3 E E0 E1 E2 E3 L0 L1 L2 EE v. pose proof tol_pos.
        assert (L3 : x3 * x0 < 0) by nra.
        assert (C0 := proj2 (cut_val 0 x0 x1 ltac:(lia) E0 E1) L0). assert (C1 := proj2 (cut_val 1 x1 x2 ltac:(lia) E1 E2) L1).
        assert (C2 := proj2 (cut_val 2 x2 x3 ltac:(lia) E2 E3) L2). assert (C3 := proj2 (cut_val 3 x3 x0 ltac:(lia) E3 E0) L3). cbn [next Nat.eqb Nat.add] in *.
        assert (Ec : cut_edges S 4 = [0; 1; 2; 3]%nat) by (unfold cut_edges; cbn [seq List.filter next Nat.eqb Nat.add]; rewrite C0, C1, C2, C3; reflexivity).
        assert (Ef : final_status W sd e = if centre_positive W sd e then ES_CENTRE_INSIDE else ES_CENTRE_OUTSIDE) by (unfold final_status; fold S; rewrite Ec; reflexivity).
        assert (Ecp : centre_positive W sd e = Rltb 0 v).
        { unfold centre_positive. rewrite E0, E1, E2, E3. change (Rltb 0 (0 + x0 + x1 + x2 + x3) = Rltb 0 v). f_equal. unfold v. ring. }
        assert (Esa : saddle W sd e = (is_inside (S 0%nat) && Rltb 0 v) || (is_outside (S 0%nat) && Rltb v 0)).
        { unfold saddle. rewrite E0, E1, E2, E3. replace v with (0 + x0 + x1 + x2 + x3) by (unfold v; ring). reflexivity. }
        rewrite (rs_es e E EE), Ef, Ecp. split; [|split].
        + intros Lv. apply Rltb_true in Lv. rewrite Lv. reflexivity.
        + intros Lv. destruct (Rltb 0 v) eqn:X; [apply Rltb_true in X; lra|reflexivity].
        + intros Nv n sg Esg Ee. destruct (JN n sg Esg Ee) as (u & w & a & a' & _ & _ & _ & _ & _ & _ & _ & J & Sd). destruct (Sd ltac:(rewrite Ec; reflexivity)) as (j & Hj & Haj & Sj).
          exists (prev j). assert (Np : next (prev j) = j) by (destruct j as [|[|[|[|j]]]]; [reflexivity..|lia]). assert (Lp : (prev j < 4)%nat) by (destruct j as [|[|[|[|j]]]]; cbn; lia).
          rewrite Np. destruct (side_val j Hj) as (z & Ez & Hz). exists z. split; [exact Lp|]. split; [|split; [exact Ez|]].
          * destruct J as (p & q & P1 & P2 & J). exists p, q. split; [exact P1|]. split; [exact P2|]. destruct Haj as [[-> ->]|[-> ->]]; tauto.
          * rewrite Esa in Sj. destruct (side_val 0%nat ltac:(lia)) as (y & _ & Hy).
            destruct (Rltb 0 v) eqn:V1, (Rltb v 0) eqn:V2; try apply Rltb_true in V1; try apply Rltb_true in V2; try lra.
            -- destruct Hy as [[_ Y]|[_ Y]], Hz as [[Lz Z]|[Lz Z]]; rewrite Y, Z in Sj; cbn in Sj; try discriminate Sj; nra.
            -- destruct Hy as [[_ Y]|[_ Y]], Hz as [[Lz Z]|[Lz Z]]; rewrite Y, Z in Sj; cbn in Sj; try discriminate Sj; nra.
            -- exfalso. apply Rltb_false in V1, V2. lra.
    Qed.
  End Element.
End Closed.
