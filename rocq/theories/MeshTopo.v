(** * MeshTopo: the part of a mesh that no function changes after construction.

    LevelSet and Boundary change the flags, statuses, areas and boundary bookkeeping of nodes and
    elements; [topo W H m] says that the geometry and connectivity are still those of a
    [Mesh(W, H)]. *)

From Verif Require Import MeshModel MeshSpec MeshProofs MeshGeom.
From Coq Require Import ZifyBool ZifyNat.
Local Open Scope nat_scope.

Section topo.
  Context {T : Type} `{NT : Num T}.

  Record topo (W H : nat) (m : Mesh T) : Prop := {
    tp_fits : mesh_fits W H;
    tp_w : m_width m = W;
    tp_h : m_height m = H;
    tp_nE : m_nElements m = W * H;
    tp_nN : m_nNodes m = node_count W H;
    tp_xy : m_xy m = m_xy (mesh_spec (T := T) W H);
    tp_lenN : length (m_nodes m) = node_count W H;
    tp_lenE : length (m_elements m) = W * H;
    tp_node : forall i n, m_nodes m !! i = Some n ->
      nd_coord n = nd_coord (node_spec W H i) /\ nd_neigh n = nd_neigh (T := T) (node_spec W H i) /\
      nd_elems n = nd_elems (T := T) (node_spec W H i) /\ nd_nElems n = nd_nElems (T := T) (node_spec W H i) /\
      nd_domain n = nd_domain (T := T) (node_spec W H i);
    tp_elem : forall j e, m_elements m !! j = Some e ->
      e_coord e = e_coord (element_spec W j) /\ e_nodes e = e_nodes (T := T) (element_spec W j);
    (* The sizes of the vectors of boundary points and boundary segments. *)
    tp_bpts : forall i n, m_nodes m !! i = Some n -> length (nd_bpts n) = 4;
    tp_segs : forall j e, m_elements m !! j = Some e -> length (e_segs e) = 2
  }.

  Lemma topo_new W H m : mesh_fits W H -> mesh_new W H = Ok m -> topo W H m.
  Proof.
    intros Hf Hm. pose proof (mesh_is_spec W H m Hf Hm) as ->.
    constructor; try reflexivity.
    - exact Hf.
    - apply tab_length.
    - apply tab_length.
    - intros i n E. apply tab_lookup_Some in E as [_ ->]. auto.
    - intros j e E. apply tab_lookup_Some in E as [_ ->]. auto.
    - intros i n E. apply tab_lookup_Some in E as [_ ->]. auto.
    - intros j e E. apply tab_lookup_Some in E as [_ ->]. auto.
  Qed.

  (** Replacing nodes or elements by ones with the same geometry keeps [topo]. *)
  Definition same_geom (n n' : Node T) : Prop :=
    nd_coord n' = nd_coord n /\ nd_neigh n' = nd_neigh n /\ nd_elems n' = nd_elems n /\
    nd_nElems n' = nd_nElems n /\ nd_domain n' = nd_domain n /\ length (nd_bpts n') = length (nd_bpts n).
  Definition same_egeom (e e' : Element T) : Prop := e_coord e' = e_coord e /\ e_nodes e' = e_nodes e /\ length (e_segs e') = length (e_segs e).

  Lemma topo_set_node W H m i n n' : topo W H m -> m_nodes m !! i = Some n -> same_geom n n' ->
    topo W H (set_nodes (<[i := n']> (m_nodes m)) m).
  Proof.
    intros [] Hi (G1 & G2 & G3 & G4 & G5 & G6).
    constructor; cbn [set_nodes m_width m_height m_nElements m_nNodes m_xy m_nodes m_elements]; auto.
    - rewrite insert_length. assumption.
    - intros k x Hk. destruct (Nat.eq_dec k i) as [->|Hne].
      + rewrite list_lookup_insert in Hk by eauto using lookup_lt_Some. inversion Hk; subst x.
        rewrite G1, G2, G3, G4, G5. auto.
      + rewrite list_lookup_insert_ne in Hk by auto. auto.
    - intros k x Hk. destruct (Nat.eq_dec k i) as [->|Hne].
      + rewrite list_lookup_insert in Hk by eauto using lookup_lt_Some. inversion Hk; subst x. rewrite G6. eauto.
      + rewrite list_lookup_insert_ne in Hk by auto. eauto.
  Qed.
  Lemma topo_set_elem W H m i e e' : topo W H m -> m_elements m !! i = Some e -> same_egeom e e' ->
    topo W H (set_elements (<[i := e']> (m_elements m)) m).
  Proof.
    intros [] Hi (G1 & G2 & G3).
    constructor; cbn [set_elements m_width m_height m_nElements m_nNodes m_xy m_nodes m_elements]; auto.
    - rewrite insert_length. assumption.
    - intros k x Hk. destruct (Nat.eq_dec k i) as [->|Hne].
      + rewrite list_lookup_insert in Hk by eauto using lookup_lt_Some. inversion Hk; subst x.
        rewrite G1, G2. auto.
      + rewrite list_lookup_insert_ne in Hk by auto. auto.
    - intros k x Hk. destruct (Nat.eq_dec k i) as [->|Hne].
      + rewrite list_lookup_insert in Hk by eauto using lookup_lt_Some. inversion Hk; subst x. rewrite G3. eauto.
      + rewrite list_lookup_insert_ne in Hk by auto. eauto.
  Qed.

  (** ** Neighbours *)
  Definition nb (W H i j : nat) : nat :=
    nth j (neighbours_spec W H (i mod (W + 1)) (i / (W + 1))) (node_count W H).

  Section with_topo.
    Variables (W H : nat) (m : Mesh T).
    Hypothesis Ht : topo W H m.
    Let N := node_count W H.

    Lemma topo_node i : i < N -> exists n, m_nodes m !! i = Some n /\ length (nd_neigh n) = 4 /\
      forall j, j < 4 -> nd_neigh n !! j = Some (nb W H i j).
    Proof.
      intros Hi. destruct (lookup_lt_is_Some_2 (m_nodes m) i) as [n Hn]; [rewrite (tp_lenN _ _ _ Ht); exact Hi|].
      exists n. split; [exact Hn|]. destruct (tp_node _ _ _ Ht i n Hn) as (_ & E & _).
      rewrite E. unfold node_spec. cbn [nd_neigh]. split; [reflexivity|].
      intros j Hj. unfold nb, neighbours_spec. destruct j as [|[|[|[|j]]]]; [reflexivity..|lia].
    Qed.

    Lemma nb_range i j : i < N -> j < 4 -> nb W H i j = N \/ nb W H i j < N.
    Proof.
      intros Hi Hj. destruct (node_id_split W H i Hi) as (Hx & Hy & E). unfold nb, neighbours_spec.
      set (x := i mod (W + 1)) in *. set (y := i / (W + 1)) in *.
      destruct j as [|[|[|[|j]]]]; cbn [nth]; [| | | |lia].
      all: destruct (Nat.eqb_spec x 0), (Nat.eqb_spec x W), (Nat.eqb_spec y 0), (Nat.eqb_spec y H); auto.
      all: right; apply node_id_lt; lia.
    Qed.
  End with_topo.

  (** Opposite directions: left/right, down/up. *)
  Definition opp (j : nat) : nat := match j with 0 => 1 | 1 => 0 | 2 => 3 | _ => 2 end.

  Lemma nb_opp W H i j : i < node_count W H -> j < 4 -> nb W H i j < node_count W H ->
    nb W H (nb W H i j) (opp j) = i.
  Proof.
    intros Hi Hj. destruct (node_id_split W H i Hi) as (Hx & Hy & E). unfold nb at 1 3. unfold neighbours_spec.
    set (x := i mod (W + 1)) in *. set (y := i / (W + 1)) in *.
    destruct j as [|[|[|[|j]]]]; cbn [nth opp]; [| | | |lia].
    - destruct (Nat.eqb_spec x 0); [lia|]. intros _. unfold nb. rewrite node_id_mod, node_id_div by lia.
      cbn [nth neighbours_spec]. destruct (Nat.eqb_spec (x - 1) W); [lia|]. rewrite E at 1. f_equal; lia.
    - destruct (Nat.eqb_spec x W); [lia|]. intros _. unfold nb. rewrite node_id_mod, node_id_div by lia.
      cbn [nth neighbours_spec]. destruct (Nat.eqb_spec (x + 1) 0); [lia|]. rewrite E at 1. f_equal; lia.
    - destruct (Nat.eqb_spec y 0); [lia|]. intros _. unfold nb. rewrite node_id_mod, node_id_div by lia.
      cbn [nth neighbours_spec]. destruct (Nat.eqb_spec (y - 1) H); [lia|]. rewrite E at 1. f_equal; lia.
    - destruct (Nat.eqb_spec y H); [lia|]. intros _. unfold nb. rewrite node_id_mod, node_id_div by lia.
      cbn [nth neighbours_spec]. destruct (Nat.eqb_spec (y + 1) 0); [lia|]. rewrite E at 1. f_equal; lia.
  Qed.
  Lemma opp_lt j : opp j < 4.
  Proof. destruct j as [|[|[|j]]]; cbn; lia. Qed.
  Lemma opp_opp j : j < 4 -> opp (opp j) = j.
  Proof. destruct j as [|[|[|[|j]]]]; cbn; lia. Qed.

  Lemma nb_ne W H i j : i < node_count W H -> j < 4 -> nb W H i j <> i.
  Proof.
    intros Hi Hj. destruct (node_id_split W H i Hi) as (Hx & Hy & E). unfold nb, neighbours_spec.
    set (x := i mod (W + 1)) in *. set (y := i / (W + 1)) in *.
    destruct j as [|[|[|[|j]]]]; cbn [nth]; [| | | |lia].
    all: destruct (Nat.eqb_spec x 0), (Nat.eqb_spec x W), (Nat.eqb_spec y 0), (Nat.eqb_spec y H); try lia.
    all: rewrite E; intros Heq; apply node_id_inj in Heq; lia.
  Qed.

  (** ** The grid is connected: a non-empty set of nodes closed under neighbours is everything. *)
  Lemma nb_left W H x y : x <= W -> 0 < x -> nb W H (node_id W x y) 0 = node_id W (x - 1) y.
  Proof. intros Hx H0. unfold nb. rewrite node_id_mod, node_id_div by lia. cbn. destruct (Nat.eqb_spec x 0); [lia|reflexivity]. Qed.
  Lemma nb_right W H x y : x < W -> nb W H (node_id W x y) 1 = node_id W (x + 1) y.
  Proof. intros Hx. unfold nb. rewrite node_id_mod, node_id_div by lia. cbn. destruct (Nat.eqb_spec x W); [lia|reflexivity]. Qed.
  Lemma nb_down W H x y : x <= W -> 0 < y -> nb W H (node_id W x y) 2 = node_id W x (y - 1).
  Proof. intros Hx H0. unfold nb. rewrite node_id_mod, node_id_div by lia. cbn. destruct (Nat.eqb_spec y 0); [lia|reflexivity]. Qed.
  Lemma nb_up W H x y : x <= W -> y < H -> nb W H (node_id W x y) 3 = node_id W x (y + 1).
  Proof. intros Hx H0. unfold nb. rewrite node_id_mod, node_id_div by lia. cbn. destruct (Nat.eqb_spec y H); [lia|reflexivity]. Qed.

  Lemma grid_connected W H (S : nat -> Prop) :
    (exists i, i < node_count W H /\ S i) ->
    (forall i j, i < node_count W H -> j < 4 -> S i -> nb W H i j < node_count W H -> S (nb W H i j)) ->
    forall i, i < node_count W H -> S i.
  Proof.
    intros (i0 & Hi0 & HS0) Hcl.
    destruct (node_id_split W H i0 Hi0) as (Hx0 & Hy0 & E0).
    set (x0 := i0 mod (W + 1)) in *. set (y0 := i0 / (W + 1)) in *. rewrite E0 in HS0. clearbody x0 y0.
    assert (L : forall d x y, x <= W -> y <= H -> d <= x -> S (node_id W x y) -> S (node_id W (x - d) y)).
    { induction d as [|d IH]; intros x y Hx Hy Hd HS; [rewrite Nat.sub_0_r; exact HS|].
      replace (x - Datatypes.S d) with ((x - d) - 1) by lia. rewrite <- (nb_left W H) by lia.
      apply Hcl; [apply node_id_lt; lia|lia|apply IH; auto; lia|].
      rewrite nb_left by lia. apply node_id_lt; lia. }
    assert (R : forall d x y, y <= H -> x + d <= W -> S (node_id W x y) -> S (node_id W (x + d) y)).
    { induction d as [|d IH]; intros x y Hy Hd HS; [rewrite Nat.add_0_r; exact HS|].
      replace (x + Datatypes.S d) with ((x + d) + 1) by lia. rewrite <- (nb_right W H) by lia.
      apply Hcl; [apply node_id_lt; lia|lia|apply IH; auto; lia|].
      rewrite nb_right by lia. apply node_id_lt; lia. }
    assert (D : forall d x y, x <= W -> y <= H -> d <= y -> S (node_id W x y) -> S (node_id W x (y - d))).
    { induction d as [|d IH]; intros x y Hx Hy Hd HS; [rewrite Nat.sub_0_r; exact HS|].
      replace (y - Datatypes.S d) with ((y - d) - 1) by lia. rewrite <- (nb_down W H) by lia.
      apply Hcl; [apply node_id_lt; lia|lia|apply IH; auto; lia|].
      rewrite nb_down by lia. apply node_id_lt; lia. }
    assert (U : forall d x y, x <= W -> y + d <= H -> S (node_id W x y) -> S (node_id W x (y + d))).
    { induction d as [|d IH]; intros x y Hx Hd HS; [rewrite Nat.add_0_r; exact HS|].
      replace (y + Datatypes.S d) with ((y + d) + 1) by lia. rewrite <- (nb_up W H) by lia.
      apply Hcl; [apply node_id_lt; lia|lia|apply IH; auto; lia|].
      rewrite nb_up by lia. apply node_id_lt; lia. }
    intros i Hi. destruct (node_id_split W H i Hi) as (Hx & Hy & E). rewrite E.
    set (x := i mod (W + 1)) in *. set (y := i / (W + 1)) in *. clearbody x y.
    assert (S1 : S (node_id W x y0)).
    { destruct (Nat.le_gt_cases x x0).
      - replace x with (x0 - (x0 - x)) by lia. apply L; auto; lia.
      - replace x with (x0 + (x - x0)) by lia. apply R; auto; lia. }
    destruct (Nat.le_gt_cases y y0).
    - replace y with (y0 - (y0 - y)) by lia. apply D; auto; lia.
    - replace y with (y0 + (y - y0)) by lia. apply U; auto; lia.
  Qed.
End topo.
