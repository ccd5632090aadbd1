(** * MeshGeom: the observable facts about a constructed mesh (C06-C11). *)

From Verif Require Import MeshModel MeshSpec MeshProofs NumR.
From Coq Require Import ZifyBool ZifyNat.
From Flocq Require Import Core.Raux.
Local Open Scope nat_scope.

(** Node number [i] is the one the mesh files under grid position (x, y). *)
Definition node_at {T} (m : Mesh T) (x y i : nat) : Prop :=
  exists col, m_xy m !! x = Some col /\ col !! y = Some i.

Lemma sorted_NoDup (l : list nat) : Sorted.StronglySorted lt l -> NoDup l.
Proof.
  induction 1 as [|a l HS IH Ha]; [constructor|]. constructor; [|exact IH].
  rewrite elem_of_list_In. intros Hin. rewrite List.Forall_forall in Ha. specialize (Ha a Hin). lia.
Qed.

Section geom.
  Context {T : Type} `{NT : Num T}.
  Variables (W H : nat) (m : Mesh T).
  Hypothesis Hf : mesh_fits W H.
  Hypothesis Hm : mesh_new W H = Ok m.

  Lemma mesh_is_spec : m = mesh_spec W H.
  Proof. rewrite (mesh_new_eq W H Hf) in Hm. congruence. Qed.

  Lemma mesh_node_lookup i n : m_nodes m !! i = Some n <-> i < node_count W H /\ n = node_spec W H i.
  Proof. rewrite mesh_is_spec. apply tab_lookup_Some. Qed.
  Lemma mesh_elem_lookup i e : m_elements m !! i = Some e <-> i < W * H /\ e = element_spec W i.
  Proof. rewrite mesh_is_spec. apply tab_lookup_Some. Qed.
  Lemma mesh_node_at x y i : node_at m x y i <-> x <= W /\ y <= H /\ i = node_id W x y.
  Proof.
    unfold node_at. rewrite mesh_is_spec. cbn [mesh_spec m_xy]. split.
    - intros (col & E1 & E2). apply tab_lookup_Some in E1 as [Hx ->].
      apply tab_lookup_Some in E2 as [Hy ->]. split; [lia|]. split; [lia|reflexivity].
    - intros (Hx & Hy & ->). eexists. split.
      + apply tab_lookup. lia.
      + rewrite tab_lookup by lia. reflexivity.
  Qed.

  Lemma mesh_counts :
    m_width m = W /\ m_height m = H /\
    m_nNodes m = (W + 1) * (H + 1) /\ length (m_nodes m) = (W + 1) * (H + 1) /\
    m_nElements m = W * H /\ length (m_elements m) = W * H.
  Proof.
    rewrite mesh_is_spec. cbn [mesh_spec m_width m_height m_nNodes m_nodes m_nElements m_elements].
    rewrite !tab_length. unfold node_count. auto 10.
  Qed.

  Lemma mesh_nodes_bijection :
    (forall x y, x <= W -> y <= H -> exists i n,
       node_at m x y i /\ m_nodes m !! i = Some n /\ nd_coord n = mkCoord (nofnat x) (nofnat y)) /\
    (forall i n, m_nodes m !! i = Some n -> exists x y,
       x <= W /\ y <= H /\ node_at m x y i /\ nd_coord n = mkCoord (nofnat x) (nofnat y) /\
       x = i mod (W + 1) /\ y = i / (W + 1)) /\
    (forall x y x' y' i, node_at m x y i -> node_at m x' y' i -> x = x' /\ y = y') /\
    (forall x y i i', node_at m x y i -> node_at m x y i' -> i = i').
  Proof.
    split; [|split; [|split]].
    - intros x y Hx Hy. exists (node_id W x y), (node_spec W H (node_id W x y)).
      rewrite mesh_node_at, mesh_node_lookup. split; [auto|]. split; [split; [apply node_id_lt; assumption|reflexivity]|].
      unfold node_spec. rewrite node_id_mod, node_id_div by exact Hx. reflexivity.
    - intros i n. rewrite mesh_node_lookup. intros [Hi ->].
      destruct (node_id_split W H i Hi) as (Hx & Hy & E).
      exists (i mod (W + 1)), (i / (W + 1)). rewrite mesh_node_at. auto 10.
    - intros x y x' y' i. rewrite !mesh_node_at. intros (Hx & _ & ->) (Hx' & _ & E).
      apply node_id_inj in E; auto.
    - intros x y i i'. rewrite !mesh_node_at. intros (_ & _ & ->) (_ & _ & ->). reflexivity.
  Qed.

  Lemma mesh_elements_centres :
    forall j, j < W * H -> exists e, m_elements m !! j = Some e /\
      j mod W < W /\ j / W < H /\
      e_coord e = mkCoord (nofnat (j mod W) + nlit 1 2)%num (nofnat (j / W) + nlit 1 2)%num.
  Proof.
    intros j Hj. exists (element_spec W j). rewrite mesh_elem_lookup. destruct Hf as (HW & _).
    destruct (elem_id_split W H j HW Hj) as (A & B & C). auto 10.
  Qed.

  Lemma mesh_neighbours x y i n :
    node_at m x y i -> m_nodes m !! i = Some n ->
    exists l r d u, nd_neigh n = [l; r; d; u] /\
      (if (x =? 0)%nat then l = m_nNodes m else node_at m (x - 1) y l) /\
      (if (x =? W)%nat then r = m_nNodes m else node_at m (x + 1) y r) /\
      (if (y =? 0)%nat then d = m_nNodes m else node_at m x (y - 1) d) /\
      (if (y =? H)%nat then u = m_nNodes m else node_at m x (y + 1) u).
  Proof.
    rewrite mesh_node_at, mesh_node_lookup. intros (Hx & Hy & ->) [_ ->].
    assert (HN : m_nNodes m = node_count W H) by (rewrite mesh_is_spec; reflexivity).
    unfold node_spec. rewrite node_id_mod, node_id_div by exact Hx. cbn [nd_neigh]. unfold neighbours_spec.
    do 4 eexists. split; [reflexivity|]. rewrite HN.
    destruct (Nat.eqb_spec x 0), (Nat.eqb_spec x W), (Nat.eqb_spec y 0), (Nat.eqb_spec y H);
    rewrite ?mesh_node_at; repeat split; lia.
  Qed.

  Lemma mesh_out_of_bounds_marker : m_nodes m !! m_nNodes m = None.
  Proof. rewrite mesh_is_spec. cbn [mesh_spec m_nodes m_nNodes]. apply tab_lookup_None. lia. Qed.

  Lemma mesh_corners j e : m_elements m !! j = Some e ->
    let x := j mod W in let y := j / W in
    exists a b c d, e_nodes e = [a; b; c; d] /\
      node_at m x y a /\ node_at m (x + 1) y b /\ node_at m (x + 1) (y + 1) c /\ node_at m x (y + 1) d.
  Proof.
    rewrite mesh_elem_lookup. intros [Hj ->]. destruct Hf as (HW & _).
    destruct (elem_id_split W H j HW Hj) as (A & B & C). cbn zeta.
    unfold element_spec. cbn [e_nodes]. unfold corners_spec.
    do 4 eexists. split; [reflexivity|]. rewrite !mesh_node_at. repeat split; lia.
  Qed.

  Lemma mesh_incidence i n : m_nodes m !! i = Some n ->
    nd_nElems n <= 4 /\ length (nd_elems n) = 4 /\
    NoDup (take (nd_nElems n) (nd_elems n)) /\
    (nd_nElems n = 1 \/ nd_nElems n = 2 \/ nd_nElems n = 4) /\
    forall j, In j (take (nd_nElems n) (nd_elems n)) <->
      exists e, m_elements m !! j = Some e /\ In i (e_nodes e).
  Proof.
    rewrite mesh_node_lookup. intros [Hi ->].
    destruct (node_id_split W H i Hi) as (Hx & Hy & Ei).
    unfold node_spec. cbn [nd_nElems nd_elems].
    set (x := i mod (W + 1)) in *. set (y := i / (W + 1)) in *.
    pose proof (incident_length W H x y) as HL.
    assert (ET : take (length (incident_spec W H x y)) (pad4 (incident_spec W H x y)) = incident_spec W H x y).
    { unfold pad4. apply take_app. }
    rewrite ET. split; [exact HL|]. split; [apply pad4_length; exact HL|]. split; [|split].
    - apply sorted_NoDup, incident_sorted. exact Hx.
    - destruct Hf as (HW & HH & _). unfold incident_spec.
      destruct (Nat.ltb_spec 0 x), (Nat.ltb_spec x W), (Nat.ltb_spec 0 y), (Nat.ltb_spec y H); cbn; lia.
    - intros j. split.
      + intros Hin. pose proof Hin as Hin'. apply in_incident in Hin' as (ex & ey & A & B & -> & _); [|assumption..].
        exists (element_spec W (elem_id W ex ey)). rewrite mesh_elem_lookup.
        split; [split; [apply elem_id_lt; assumption|reflexivity]|].
        unfold element_spec. cbn [e_nodes]. rewrite elem_id_mod, elem_id_div by assumption.
        rewrite Ei. apply (incident_corner W H); assumption.
      + intros (e & He & Hin). apply mesh_elem_lookup in He as [Hj ->]. destruct Hf as (HW & _).
        destruct (elem_id_split W H j HW Hj) as (A & B & C). rewrite C.
        apply incident_corner; try assumption. rewrite <- Ei. exact Hin.
  Qed.

  Lemma mesh_domain_flag x y i n : node_at m x y i -> m_nodes m !! i = Some n ->
    nd_domain n = true <-> x = 0 \/ x = W \/ y = 0 \/ y = H.
  Proof.
    rewrite mesh_node_at, mesh_node_lookup. intros (Hx & Hy & ->) [_ ->].
    unfold node_spec. rewrite node_id_mod, node_id_div by exact Hx. cbn [nd_domain]. unfold domain_spec.
    rewrite !orb_true_iff, !Nat.eqb_eq. tauto.
  Qed.

  Lemma mesh_fresh_flags i n : m_nodes m !! i = Some n ->
    nd_active n = false /\ nd_masked n = false /\ nd_mine n = false /\ nd_nBpts n = 0 /\
    length (nd_bpts n) = 4 /\ nd_status n = None.
  Proof. rewrite mesh_node_lookup. intros [_ ->]. unfold node_spec. cbn. auto 10. Qed.
End geom.

(** ** Points, over the reals *)
Section points.
  Variables (W H : nat) (m : Mesh R).
  Hypothesis Hf : mesh_fits W H.
  Hypothesis Hm : mesh_new W H = Ok m.
  Local Open Scope R_scope.

  Definition tol : R := 1 / 1000000.

  (* The clamped, shifted coordinate and the cell it falls in. *)
  Lemma cell_of (L : nat) (x : R) : (1 <= L)%nat -> (Z.of_nat L < 2 ^ 31)%Z -> x <= INR L ->
    exists c : nat, (c < L)%nat /\
      floor_u32 (if Rltb (x - IZR 1 / IZR 1000000) (IZR 0) then IZR 0 else x - IZR 1 / IZR 1000000) = Ok c /\
      (0 <= x -> INR c <= x) /\ (x <= 0 -> c = 0%nat) /\ x < INR c + 1 + tol.
  Proof.
    intros HL HL2 Hx.
    set (x' := if Rltb _ _ then _ else _).
    assert (Hx'0 : 0 <= x' /\ (x - tol <= x') /\ x' < INR L /\ (0 <= x -> x' <= x) /\ (x <= 0 -> x' = 0)).
    { assert (1 <= INR L) by (apply (le_INR 1); exact HL).
      subst x'. unfold tol. destruct (Rltb_spec (x - IZR 1 / IZR 1000000) (IZR 0)) as [Hl|Hl];
        repeat split; intros; try lra. }
    destruct Hx'0 as (A & B & C & D & E).
    pose proof (Zfloor_lb x') as F1. pose proof (Zfloor_ub x') as F2.
    assert (G0 : (0 <= Zfloor x')%Z) by (apply Zfloor_lub; exact A).
    assert (G1 : (Zfloor x' < Z.of_nat L)%Z).
    { apply lt_IZR. rewrite <- INR_IZR_INZ. lra. }
    exists (Z.to_nat (Zfloor x')). split; [lia|]. split.
    - unfold floor_u32. cbn [nfloorZ NumR].
      destruct ((0 <=? Zfloor x') && (Zfloor x' <? 2 ^ 32))%Z eqn:Eb; [reflexivity|].
      exfalso. lia.
    - rewrite INR_IZR_INZ, Z2Nat.id by exact G0.
      split; [intros; specialize (D ltac:(assumption)); lra|]. split; [|lra].
      intros Hx0. rewrite (E Hx0). rewrite Zfloor_IZR. reflexivity.
  Qed.

  Lemma getElement_cell x y : x <= INR W -> y <= INR H ->
    exists ex ey, (ex < W)%nat /\ (ey < H)%nat /\ getElement m x y = Ok (elem_id W ex ey) /\
      (0 <= x -> INR ex <= x) /\ (x <= 0 -> ex = 0%nat) /\ x < INR ex + 1 + tol /\
      (0 <= y -> INR ey <= y) /\ (y <= 0 -> ey = 0%nat) /\ y < INR ey + 1 + tol.
  Proof.
    intros Hx Hy. destruct (mesh_fits_facts W H Hf) as (HW & HH & F1 & F2 & F3 & F4).
    destruct (cell_of W x) as (ex & A1 & A2 & A3 & A4 & A5); [exact HW|lia|exact Hx|].
    destruct (cell_of H y) as (ey & B1 & B2 & B3 & B4 & B5); [exact HH|lia|exact Hy|].
    exists ex, ey. split; [exact A1|]. split; [exact B1|]. split; [|auto 10].
    unfold getElement. cbn [nsub nltb nofZ NumR n0 nlit ndiv]. unfold n0, nlit. cbn [ndiv nofZ NumR].
    rewrite A2, B2. cbn [obind]. f_equal.
    replace (m_width m) with W by (rewrite (mesh_is_spec W H m Hf Hm); reflexivity).
    pose proof (elem_id_lt W H ex ey A1 B1). apply u32_id; unfold elem_id in *; lia.
  Qed.

  Lemma getElement_contains x y : 0 <= x <= INR W -> 0 <= y <= INR H ->
    exists j e, getElement m x y = Ok j /\ m_elements m !! j = Some e /\
      cx (e_coord e) - 1 / 2 <= x < cx (e_coord e) + 1 / 2 + 1 / 1000000 /\
      cy (e_coord e) - 1 / 2 <= y < cy (e_coord e) + 1 / 2 + 1 / 1000000.
  Proof.
    intros Hx Hy. destruct (getElement_cell x y) as (ex & ey & A & B & E & C1 & C2 & C3 & D1 & D2 & D3); [lra..|].
    exists (elem_id W ex ey), (element_spec W (elem_id W ex ey)).
    split; [exact E|]. split; [apply (mesh_elem_lookup W H m Hf Hm); split; [apply elem_id_lt; assumption|reflexivity]|].
    unfold element_spec. cbn [e_coord cx cy]. rewrite elem_id_mod, elem_id_div by exact A.
    unfold nlit. cbn [nadd ndiv nofZ NumR]. rewrite !nofnat_R. unfold tol in *.
    specialize (C1 ltac:(lra)). specialize (D1 ltac:(lra)). lra.
  Qed.

  (* One coordinate: the chosen grid line is a nearest one. *)
  Lemma nearest_line (L : nat) (x : R) (c k : nat) : (c < L)%nat -> (k <= L)%nat ->
    (0 <= x -> INR c <= x) -> (x <= 0 -> c = 0%nat) -> x < INR c + 1 + tol ->
    Rabs (x - INR (if Rltb (x - (INR c + IZR 1 / IZR 2)) (IZR 0) then c else c + 1)%nat) <= Rabs (x - INR k).
  Proof.
    intros Hc Hk H1 H2 H3. unfold tol in H3.
    assert (Hx : 0 <= x \/ (x < 0 /\ c = 0%nat)).
    { destruct (Rle_lt_dec 0 x); [left; assumption|right; split; [assumption|apply H2; lra]]. }
    destruct (Rltb_spec (x - (INR c + IZR 1 / IZR 2)) (IZR 0)) as [Hl|Hl].
    - destruct Hx as [Hx|[Hx ->]].
      + specialize (H1 Hx). rewrite (Rabs_right (x - INR c)) by lra.
        destruct (Nat.le_gt_cases k c) as [Hkc|Hkc].
        * apply le_INR in Hkc. rewrite Rabs_right by lra. lra.
        * assert (INR c + 1 <= INR k) by (rewrite <- S_INR; apply le_INR; lia).
          rewrite Rabs_left1 by lra. lra.
      + pose proof (pos_INR k). cbn [INR] in *. rewrite !Rabs_left1 by lra. lra.
    - destruct Hx as [Hx|[Hx ->]]; [|cbn [INR] in *; lra].
      specialize (H1 Hx). rewrite plus_INR. cbn [INR].
      destruct (Nat.le_gt_cases k c) as [Hkc|Hkc].
      + apply le_INR in Hkc. rewrite (Rabs_right (x - INR k)) by lra.
        unfold Rabs. destruct (Rcase_abs _); lra.
      + assert (INR c + 1 <= INR k) by (rewrite <- S_INR; apply le_INR; lia).
        destruct (Nat.eq_dec k (c + 1)) as [->|Hne].
        * rewrite plus_INR. cbn [INR]. lra.
        * assert (INR c + 1 + 1 <= INR k) by (rewrite <- !S_INR; apply le_INR; lia).
          rewrite (Rabs_left1 (x - INR k)) by lra. unfold Rabs. destruct (Rcase_abs _); lra.
  Qed.

  Definition dist2 (p q : Coord R) : R := (cx p - cx q) * (cx p - cx q) + (cy p - cy q) * (cy p - cy q).

  Lemma Rabs_sq_le a b : Rabs a <= Rabs b -> a * a <= b * b.
  Proof. intros Hab. apply Rsqr_le_abs_1 in Hab. exact Hab. Qed.

  Lemma getClosestNode_nearest x y : x <= INR W -> y <= INR H ->
    exists i n, getClosestNode m x y = Ok i /\ m_nodes m !! i = Some n /\
      forall i' n', m_nodes m !! i' = Some n' ->
        dist2 (mkCoord x y) (nd_coord n) <= dist2 (mkCoord x y) (nd_coord n').
  Proof.
    intros Hx Hy. destruct (getElement_cell x y) as (ex & ey & A & B & E & C1 & C2 & C3 & D1 & D2 & D3); [lra..|].
    assert (Hsel : exists nx ny, (nx = ex \/ nx = ex + 1)%nat /\ (ny = ey \/ ny = ey + 1)%nat /\
       getClosestNode m x y = Ok (node_id W nx ny) /\
       nx = (if Rltb (x - (INR ex + IZR 1 / IZR 2)) (IZR 0) then ex else ex + 1)%nat /\
       ny = (if Rltb (y - (INR ey + IZR 1 / IZR 2)) (IZR 0) then ey else ey + 1)%nat).
    { unfold getClosestNode. rewrite E. cbn [obind].
      rewrite (proj2 (vget_Ok _ _ (element_spec W (elem_id W ex ey)))).
      2: { apply (mesh_elem_lookup W H m Hf Hm). split; [apply elem_id_lt; assumption|reflexivity]. }
      cbn [obind]. unfold element_spec. cbn [e_coord e_nodes cx cy]. rewrite elem_id_mod, elem_id_div by exact A.
      unfold nlit, n0. cbn [nadd nsub nltb ndiv nofZ NumR]. rewrite !nofnat_R.
      destruct (Rltb (x - _) _), (Rltb (y - _) _); do 2 eexists;
        (split; [|split; [|split; [reflexivity|split; reflexivity]]]; auto). }
    destruct Hsel as (nx & ny & Hnx & Hny & EQ & Ex & Ey).
    exists (node_id W nx ny), (node_spec W H (node_id W nx ny)). split; [exact EQ|].
    split; [apply (mesh_node_lookup W H m Hf Hm); split; [apply node_id_lt; lia|reflexivity]|].
    intros i' n' Hi'. apply (mesh_node_lookup W H m Hf Hm) in Hi' as [Hi' ->].
    destruct (node_id_split W H i' Hi') as (Hx' & Hy' & _).
    unfold dist2, node_spec. cbn [nd_coord cx cy]. rewrite node_id_mod, node_id_div by lia. rewrite !nofnat_R.
    apply Rplus_le_compat; apply Rabs_sq_le.
    - rewrite Ex. apply (nearest_line W); assumption.
    - rewrite Ey. apply (nearest_line H); assumption.
  Qed.
End points.
