(** * BoundaryReal: the result of discretise in exact arithmetic (C32, C33, C34, C36). *)

From Verif Require Import MeshModel MeshSpec MeshProofs MeshGeom MeshTopo FmmSpec FmmFacts LevelSetModel LevelSetSpec LevelSetSpecR LevelSetCalls LevelSetHist LevelSetParams
  BoundaryModel BoundarySpec BoundaryFrame BoundaryProofs BoundaryLinks BoundarySpecR NumInt NumR FmmReal.
From Coq Require Import Reals Lra Psatz.
Local Open Scope R_scope.

Lemma tol_pos : 0 < tol < / 2.
Proof. unfold tol. lra. Qed.
Lemma tol_lit : nlit (T := R) 1 1000000 = tol.
Proof. unfold tol. rewrite nlit_R. lra. Qed.

Lemma side_boundary sd i : side sd i = Some NS_BOUNDARY <-> exists x : R, sd !! i = Some x /\ Rabs x < tol.
Proof.
  unfold side. rewrite tol_lit. destruct (sd !! i) as [x|] eqn:E; cbn; [|split; [discriminate|intros (y & A & _); discriminate]].
  destruct (Rltb_spec (Rabs x) tol).
  - split; [eauto|reflexivity].
  - split; [destruct (Rltb x 0); discriminate|]. intros (y & [= <-] & L). lra.
Qed.
Lemma side_inside sd i : side sd i = Some NS_INSIDE <-> exists x : R, sd !! i = Some x /\ tol <= x.
Proof.
  unfold side. rewrite tol_lit. pose proof tol_pos. destruct (sd !! i) as [x|] eqn:E; cbn; [|split; [discriminate|intros (y & A & _); discriminate]].
  destruct (Rltb_spec (Rabs x) tol); unfold Rabs in *; destruct (Rcase_abs x); (destruct (Rltb_spec x 0); [|]);
    (split; [first [discriminate|intros _; exists x; split; [reflexivity|lra]]|intros (y & [= <-] & L); first [reflexivity|exfalso; lra]]).
Qed.
Lemma side_outside sd i : side sd i = Some NS_OUTSIDE <-> exists x : R, sd !! i = Some x /\ x <= - tol.
Proof.
  unfold side. rewrite tol_lit. pose proof tol_pos. destruct (sd !! i) as [x|] eqn:E; cbn; [|split; [discriminate|intros (y & A & _); discriminate]].
  destruct (Rltb_spec (Rabs x) tol); unfold Rabs in *; destruct (Rcase_abs x); (destruct (Rltb_spec x 0); [|]);
    (split; [first [discriminate|intros _; exists x; split; [reflexivity|lra]]|intros (y & [= <-] & L); first [reflexivity|exfalso; lra]]).
Qed.

Lemma node_xy_grid W i : node_xy (T := R) W i = grid W i.
Proof. unfold node_xy, grid. rewrite !nofnat_R. reflexivity. Qed.
Lemma grid_id W x y : (x <= W)%nat -> grid W (node_id W x y) = mkCoord (INR x) (INR y).
Proof. intros L. unfold grid. rewrite node_id_mod, node_id_div by exact L. reflexivity. Qed.
Lemma edge_point_node (c : Coord R) : edge_point c 0 n0 = c.
Proof. destruct c. cbn. f_equal. unfold n0. cbn. lra. Qed.

Section Elem.
  Variables (W H e : nat).
  Hypothesis HW : (1 <= W)%nat.
  Hypothesis He : (e < W * H)%nat.
  Lemma corner_grid j : (j < 4)%nat -> exists dx dy, (dx <= 1)%nat /\ (dy <= 1)%nat /\ corner W e j = node_id W (e mod W + dx) (e / W + dy) /\
    grid W (corner W e j) = mkCoord (INR (e mod W) + INR dx) (INR (e / W) + INR dy).
  Proof.
    intros Hj. destruct (elem_id_split W H e HW He) as (A & B & _). unfold corner, corners_spec.
    destruct j as [|[|[|[|j]]]]; [exists 0%nat, 0%nat|exists 1%nat, 0%nat|exists 1%nat, 1%nat|exists 0%nat, 1%nat|lia]; cbn [nth];
      (split; [lia|split; [lia|split; [f_equal; lia|]]]); rewrite grid_id by lia; rewrite ?plus_INR; cbn [INR]; f_equal; lra.
  Qed.
  Lemma corner_adjacent j : (j < 4)%nat -> adjacent W H (corner W e j) (corner W e (next j)).
  Proof.
    intros Hj. destruct (elem_id_split W H e HW He) as (A & B & _). unfold corner, corners_spec, next.
    set (x := (e mod W)%nat) in *. set (y := (e / W)%nat) in *.
    destruct j as [|[|[|[|j]]]]; cbn [nth Nat.eqb Nat.add]; [left; exists x, y, (x + 1)%nat|right; exists (x + 1)%nat, y, (y + 1)%nat|left; exists (x + 1)%nat, (y + 1)%nat, x|right; exists x, (y + 1)%nat, y|lia];
      repeat split; lia.
  Qed.
  Lemma edge_along j t : (j < 4)%nat -> edge_point (node_xy (T := R) W (corner W e j)) j t = along (grid W (corner W e j)) (grid W (corner W e (next j))) t.
  Proof.
    intros Hj. rewrite node_xy_grid. destruct (elem_id_split W H e HW He) as (A & B & _). unfold corner, corners_spec, next.
    set (x := (e mod W)%nat) in *. set (y := (e / W)%nat) in *.
    destruct j as [|[|[|[|j]]]]; cbn [nth Nat.eqb Nat.add]; [..|lia]; rewrite !grid_id by lia; unfold along, edge_point; cbn [cx cy nadd nsub NumR]; rewrite ?plus_INR; cbn [INR]; f_equal; ring.
  Qed.
  Lemma edge_border j t : (j < 4)%nat -> 0 <= t <= 1 -> on_element_border W e (along (grid W (corner W e j)) (grid W (corner W e (next j))) t).
  Proof.
    intros Hj Ht. destruct (elem_id_split W H e HW He) as (A & B & _). unfold corner, corners_spec, next, on_element_border.
    set (x := (e mod W)%nat) in *. set (y := (e / W)%nat) in *.
    destruct j as [|[|[|[|j]]]]; cbn [nth Nat.eqb Nat.add]; [..|lia]; rewrite !grid_id by lia; unfold along; cbn [cx cy]; rewrite ?plus_INR; cbn [INR]; cbv zeta;
      (split; [lra|split; [lra|]]); [right; right; left|right; left|right; right; right|left]; lra.
  Qed.
  Lemma corner_border j : (j < 4)%nat -> on_element_border W e (grid W (corner W e j)).
  Proof.
    intros Hj. destruct (corner_grid j Hj) as (dx & dy & Lx & Ly & _ & ->). unfold on_element_border. cbn [cx cy].
    assert (Dx : INR dx = 0 \/ INR dx = 1) by (destruct dx as [|[|]]; [left|right|lia]; reflexivity).
    assert (Dy : INR dy = 0 \/ INR dy = 1) by (destruct dy as [|[|]]; [left|right|lia]; reflexivity).
    split; [lra|]. split; [lra|]. lra.
  Qed.
  Lemma along_swap (a b : Coord R) t : along a b t = along b a (1 - t).
  Proof. unfold along. f_equal; ring. Qed.
  Lemma adjacent_swap i k : adjacent W H i k -> adjacent W H k i.
  Proof.
    intros [(x & y & x' & A & B & C & D & E & F)|(x & y & y' & A & B & C & D & E & F)]; [left; exists x', y, x|right; exists x, y', y]; repeat split; auto; lia.
  Qed.

  (** The places of the contour. *)
  Lemma contour_place_R sd c : contour_place W sd e c -> on_contour_line W H sd c /\ on_element_border W e c.
  Proof.
    intros [(j & Hj & Hs & ->)|(j & x1 & x2 & Hj & E1 & E2 & Ho & ->)].
    - rewrite edge_point_node, node_xy_grid. split; [|apply corner_border, Hj]. left. apply side_boundary in Hs as (x & Ex & Lx).
      exists (corner W e j), x. split; [apply corner_lt; assumption|]. auto.
    - pose proof tol_pos as Tp. assert (D : x1 / (x1 - x2) * (x1 - x2) = x1 /\ 0 < x1 / (x1 - x2) < 1 /\ ((tol <= x1 /\ x2 <= - tol) \/ (x1 <= - tol /\ tol <= x2))).
      { destruct Ho as [[A B]|[A B]].
        - apply side_inside in A as (y1 & F1 & L1). apply side_outside in B as (y2 & F2 & L2).
          assert (y1 = x1) by congruence. assert (y2 = x2) by congruence. subst y1 y2.
          split; [field; lra|]. split; [|auto]. split; [apply Rdiv_lt_0_compat; lra|].
          apply (Rmult_lt_reg_r (x1 - x2)); [lra|]. replace (x1 / (x1 - x2) * (x1 - x2)) with x1 by (field; lra). lra.
        - apply side_outside in A as (y1 & F1 & L1). apply side_inside in B as (y2 & F2 & L2).
          assert (y1 = x1) by congruence. assert (y2 = x2) by congruence. subst y1 y2.
          split; [field; lra|]. split; [|auto]. replace (x1 / (x1 - x2)) with ((- x1) / (x2 - x1)) by (field; lra).
          split; [apply Rdiv_lt_0_compat; lra|].
          apply (Rmult_lt_reg_r (x2 - x1)); [lra|]. replace (- x1 / (x2 - x1) * (x2 - x1)) with (- x1) by (field; lra). lra. }
      change (ndiv x1 (nsub x1 x2)) with (x1 / (x1 - x2)). set (t := x1 / (x1 - x2)) in *. destruct D as (D1 & D2 & D3).
      rewrite edge_along by exact Hj. split; [|apply edge_border; [exact Hj|lra]]. right.
      destruct D3 as [[L1 L2]|[L1 L2]].
      + exists (corner W e j), (corner W e (next j)). split; [apply corner_adjacent, Hj|]. exists x1, x2, t.
        repeat (split; [assumption||lra|]). reflexivity.
      + exists (corner W e (next j)), (corner W e j). split; [apply adjacent_swap, corner_adjacent, Hj|]. exists x2, x1, (1 - t).
        repeat (split; [assumption||lra|]). apply along_swap.
  Qed.
End Elem.

(** Points of the contour are in the domain. *)
Lemma grid_domain W H i : (i < node_count W H)%nat -> 0 <= cx (grid W i) <= INR W /\ 0 <= cy (grid W i) <= INR H.
Proof.
  intros Hi. destruct (node_id_split W H i Hi) as (A & B & _). apply le_INR in A, B. unfold grid. cbn [cx cy].
  pose proof (pos_INR (i mod (W + 1))). pose proof (pos_INR (i / (W + 1))). lra.
Qed.
Lemma along_range a b t lo hi : 0 <= t <= 1 -> lo <= a <= hi -> lo <= b <= hi -> lo <= a + t * (b - a) <= hi.
Proof. intros. split; nra. Qed.
Lemma contour_domain W H sd c : on_contour_line W H sd c -> 0 <= cx c <= INR W /\ 0 <= cy c <= INR H.
Proof.
  intros [(i & x & Hi & _ & _ & ->)|(i & k & Ha & x & y & t & _ & _ & _ & _ & Ht & _ & ->)]; [apply grid_domain, Hi|].
  apply adjacent_nb in Ha as (Hi & Hk & _). pose proof (grid_domain W H i Hi) as [A B]. pose proof (grid_domain W H k Hk) as [C D].
  unfold along. cbn [cx cy]. split; apply along_range; auto; lra.
Qed.

(** Two places of the contour that are near each other are equal, unless an edge is cut near its end. *)
Lemma near_int (a b : nat) d : Rabs (INR a - (INR b + d)) < tol -> tol <= d <= 1 - tol -> False.
Proof.
  pose proof tol_pos. intros L D. apply Rabs_def2 in L. destruct (Nat.le_gt_cases a b) as [C|C].
  - apply le_INR in C. lra.
  - assert (INR b + 1 <= INR a) by (rewrite <- S_INR; apply le_INR; lia). lra.
Qed.
Lemma near_int_eq (a b : nat) : Rabs (INR a - INR b) < tol -> a = b.
Proof.
  pose proof tol_pos. intros L. apply Rabs_def2 in L. destruct (Nat.lt_trichotomy a b) as [C|[C|C]]; [|exact C|].
  - assert (INR a + 1 <= INR b) by (rewrite <- S_INR; apply le_INR; lia). lra.
  - assert (INR b + 1 <= INR a) by (rewrite <- S_INR; apply le_INR; lia). lra.
Qed.
Lemma near_sym c c' : near c c' -> near c' c.
Proof. unfold near. rewrite (Rabs_minus_sym (cx c)), (Rabs_minus_sym (cy c)). auto. Qed.

(** A cut edge, from its lower left end. *)
Record cut_at (W H : nat) (sd : list R) (hor : bool) (x y : nat) (u a b : R) : Prop := {
  ca_x : (x <= W)%nat;
  ca_x' : hor = true -> (x + 1 <= W)%nat;
  ca_a : sd !! node_id W x y = Some a;
  ca_b : sd !! (if hor then node_id W (x + 1) y else node_id W x (y + 1)) = Some b;
  ca_u : 0 < u < 1;
  ca_zero : (1 - u) * a + u * b = 0;
  ca_ab : (tol <= a /\ b <= - tol) \/ (a <= - tol /\ tol <= b);
  ca_clear : tol * Rabs (a - b) <= Rabs a /\ tol * Rabs (a - b) <= Rabs b;
}.
Definition cut_pos (hor : bool) (x y : nat) (u : R) : Coord R :=
  if hor then mkCoord (INR x + u) (INR y) else mkCoord (INR x) (INR y + u).
Lemma cut_edge_at W H sd i k c : clear_cuts W H sd -> on_cut_edge W H sd i k c ->
  exists hor x y u a b, cut_at W H sd hor x y u a b /\ c = cut_pos hor x y u.
Proof.
  intros Hc (Ha & x & y & t & Ei & Ek & Lx & Ly & Lt & Z & ->). pose proof tol_pos. destruct (Hc i k x y Ha Ei Ek Lx Ly) as [C1 C2].
  assert (A1 : Rabs (x - y) = x - y) by (apply Rabs_right; lra). assert (A2 : Rabs (y - x) = x - y) by (rewrite Rabs_minus_sym; exact A1).
  assert (A3 : Rabs x = x) by (apply Rabs_right; lra). assert (A4 : Rabs y = - y) by (apply Rabs_left1; lra).
  destruct Ha as [(p & q & p' & -> & -> & P1 & P2 & P3 & [->| ->])|(p & q & q' & -> & -> & P1 & P2 & P3 & [->| ->])]; rewrite !grid_id by lia; unfold along; cbn [cx cy].
  - exists true, p, q, t, x, y. split.
    + constructor; auto; try discriminate; try lra. rewrite A1, A3, A4. lra.
    + unfold cut_pos. rewrite plus_INR. cbn [INR]. f_equal; ring.
  - exists true, p', q, (1 - t), y, x. split.
    + constructor; auto; try discriminate; try lra. rewrite A2, A3, A4. lra.
    + unfold cut_pos. rewrite plus_INR. cbn [INR]. f_equal; ring.
  - exists false, p, q, t, x, y. split.
    + constructor; auto; try discriminate; try lra. rewrite A1, A3, A4. lra.
    + unfold cut_pos. rewrite plus_INR. cbn [INR]. f_equal; ring.
  - exists false, p, q', (1 - t), y, x. split.
    + constructor; auto; try discriminate; try lra. rewrite A2, A3, A4. lra.
    + unfold cut_pos. rewrite plus_INR. cbn [INR]. f_equal; ring.
Qed.
Lemma cut_middle W H sd hor x y u a b : cut_at W H sd hor x y u a b -> tol <= u <= 1 - tol.
Proof.
  intros []. pose proof tol_pos. destruct ca_ab0 as [[L1 L2]|[L1 L2]].
  - rewrite (Rabs_right (a - b)), (Rabs_right a), (Rabs_left1 b) in ca_clear0 by lra. 
    assert (u * (a - b) = a) by lra. split; nra.
  - rewrite (Rabs_left1 (a - b)), (Rabs_left1 a), (Rabs_right b) in ca_clear0 by lra.
    assert (u * (b - a) = - a) by lra. split; nra.
Qed.
Lemma near_same W H sd c c' : clear_cuts W H sd -> on_contour_line W H sd c -> on_contour_line W H sd c' -> near c c' -> c = c'.
Proof.
  intros Hcl. assert (NE : forall i k q, on_cut_edge W H sd i k q -> forall n, (n < node_count W H)%nat -> near (grid W n) q -> False).
  { intros i k q Hq n Hn [Nx Ny]. destruct (cut_edge_at W H sd i k q Hcl Hq) as (hor & x & y & u & a & b & C & ->).
    pose proof (cut_middle _ _ _ _ _ _ _ _ _ C). unfold grid, cut_pos in *. destruct hor; cbn [cx cy] in *; eapply near_int; eassumption. }
  intros [(i & x & Hi & _ & _ & ->)|(i & k & Hc)] [(i' & x' & Hi' & _ & _ & ->)|(i' & k' & Hc')] N.
  - destruct N as [Nx Ny]. unfold grid in *. cbn [cx cy] in *. apply near_int_eq in Nx, Ny. rewrite Nx, Ny. reflexivity.
  - exfalso. eapply NE; eassumption.
  - exfalso. eapply NE; [exact Hc|exact Hi'|]. apply near_sym, N.
  - destruct (cut_edge_at W H sd i k c Hcl Hc) as (hor & x & y & u & a & b & C & ->).
    destruct (cut_edge_at W H sd i' k' c' Hcl Hc') as (hor' & x' & y' & u' & a' & b' & C' & ->).
    pose proof (cut_middle _ _ _ _ _ _ _ _ _ C) as M. pose proof (cut_middle _ _ _ _ _ _ _ _ _ C') as M'.
    pose proof tol_pos as Tp. destruct N as [Nx Ny]. unfold cut_pos in *.
    assert (Same : forall (p p' : nat) v v', tol <= v <= 1 - tol -> tol <= v' <= 1 - tol -> Rabs (INR p + v - (INR p' + v')) < tol -> p = p').
    { intros p p' v v' V V' L. apply Rabs_def2 in L. destruct (Nat.lt_trichotomy p p') as [X|[X|X]]; [|exact X|].
      - assert (INR p + 1 <= INR p') by (rewrite <- S_INR; apply le_INR; lia). lra.
      - assert (INR p' + 1 <= INR p) by (rewrite <- S_INR; apply le_INR; lia). lra. }
    assert (Uniq : a = a' -> b = b' -> u = u').
    { intros <- <-. destruct C as [_ _ _ _ _ Z AB _], C' as [_ _ _ _ _ Z' _ _]. assert (u * (a - b) = a) by lra. assert (u' * (a - b) = a) by lra.
      apply (Rmult_eq_reg_r (a - b)); lra. }
    destruct hor, hor'; cbn [cx cy] in *.
    + apply near_int_eq in Ny. apply (Same x x' u u' M M') in Nx. subst x' y'. f_equal. f_equal. apply Uniq.
      * pose proof (ca_a _ _ _ _ _ _ _ _ _ C). pose proof (ca_a _ _ _ _ _ _ _ _ _ C'). congruence.
      * pose proof (ca_b _ _ _ _ _ _ _ _ _ C). pose proof (ca_b _ _ _ _ _ _ _ _ _ C'). cbn in *. congruence.
    + exfalso. rewrite Rabs_minus_sym in Nx. eapply near_int; [exact Nx|exact M].
    + exfalso. eapply near_int; [exact Nx|exact M'].
    + apply near_int_eq in Nx. apply (Same y y' u u' M M') in Ny. subst x' y'. f_equal. f_equal. apply Uniq.
      * pose proof (ca_a _ _ _ _ _ _ _ _ _ C). pose proof (ca_a _ _ _ _ _ _ _ _ _ C'). congruence.
      * pose proof (ca_b _ _ _ _ _ _ _ _ _ C). pose proof (ca_b _ _ _ _ _ _ _ _ _ C'). cbn in *. congruence.
Qed.

Lemma at_place_near (c : Coord R) p : at_place c p -> near c (bp_coord p).
Proof.
  pose proof tol_pos. unfold at_place, near. rewrite tol_lit. intros [->|[A B]].
  - rewrite !Rminus_diag_eq by reflexivity. rewrite Rabs_R0. lra.
  - split; apply Rltb_true; assumption.
Qed.
Lemma coord_dist_R (p q : Coord R) : coord_dist p q = euclid p q.
Proof. reflexivity. Qed.
Lemma element_diameter W e c c' : on_element_border W e c -> on_element_border W e c' -> euclid c c' <= R_sqrt.sqrt 2.
Proof. intros (A & B & _) (C & D & _). apply sqrt_le_1_alt. unfold euclid2. nra. Qed.

(** ** The theorems. *)
Section Api.
  Variables (W H : nat) (s s' : LevelSet R) (tg : bool) (b : Boundary R).
  Hypothesis Hr : reached W H s.
  Hypothesis Hd : discretise s tg = Ok (s', b).
  Local Notation sd := (field s tg).

  Lemma Hok : disc_ok W H s tg s' b.
  Proof. exact (discretise_ok W H s tg (ok_topo _ _ _ (so_ok _ _ _ (reached_sound _ _ _ Hr))) _ Hd). Qed.
  Lemma HWH : (1 <= W)%nat.
  Proof. apply (tp_fits _ _ _ (ok_topo _ _ _ (so_ok _ _ _ (reached_sound _ _ _ Hr)))). Qed.

  Lemma points_on_contour k p : bd_points b !! k = Some p ->
    on_contour_line W H sd (bp_coord p) /\ 0 <= cx (bp_coord p) <= INR W /\ 0 <= cy (bp_coord p) <= INR H.
  Proof.
    intros E. destruct (dk_points _ _ _ _ _ _ Hok k p E) as (e & c & p0 & He & Hc & Ei & K).
    rewrite (fixed_coord _ _ (lk_fixed _ _ _ _ _ _ K)). destruct (init_fresh _ _ _ _ Ei) as (-> & _).
    destruct (contour_place_R W H e HWH He sd c Hc) as [A _]. split; [exact A|]. eapply contour_domain, A.
  Qed.
  Lemma segments_good k sg : bd_segs b !! k = Some sg -> (sg_elem sg < W * H)%nat /\
    exists p q c c', bd_points b !! sg_start sg = Some p /\ bd_points b !! sg_end sg = Some q /\
      sg_length sg = euclid (bp_coord p) (bp_coord q) /\
      on_contour_line W H sd c /\ on_element_border W (sg_elem sg) c /\ near c (bp_coord p) /\
      on_contour_line W H sd c' /\ on_element_border W (sg_elem sg) c' /\ near c' (bp_coord q).
  Proof.
    intros E. destruct (dk_segs _ _ _ _ _ _ Hok k sg E) as (He & p & q & c & c' & Ep & Eq & Pc & Ac & Pc' & Ac' & L).
    split; [exact He|]. exists p, q, c, c'. destruct (contour_place_R W H _ HWH He sd c Pc) as [P1 P2].
    destruct (contour_place_R W H _ HWH He sd c' Pc') as [P3 P4]. apply at_place_near in Ac, Ac'. auto 15.
  Qed.
  Lemma segments_exact : clear_cuts W H sd -> forall k sg, bd_segs b !! k = Some sg ->
    exists p q, bd_points b !! sg_start sg = Some p /\ bd_points b !! sg_end sg = Some q /\
      sg_length sg = euclid (bp_coord p) (bp_coord q) /\ sg_length sg <= R_sqrt.sqrt 2 /\
      on_element_border W (sg_elem sg) (bp_coord p) /\ on_element_border W (sg_elem sg) (bp_coord q).
  Proof.
    intros Hcl k sg E. destruct (segments_good k sg E) as (_ & p & q & c & c' & Ep & Eq & L & C1 & C2 & C3 & D1 & D2 & D3).
    assert (c = bp_coord p) as -> by (eapply near_same; [exact Hcl|exact C1|eapply points_on_contour; exact Ep|exact C3]).
    assert (c' = bp_coord q) as -> by (eapply near_same; [exact Hcl|exact D1|eapply points_on_contour; exact Eq|exact D3]).
    exists p, q. repeat (split; [assumption|]). split; [rewrite L; eapply element_diameter; eassumption|]. auto.
  Qed.

  (** Totals. *)
  Lemma fold_sumR l a : fold_left Rplus l a = a + sumR l.
  Proof. revert a. induction l as [|x l IH]; intros a; cbn; [lra|]. rewrite IH. unfold sumR. lra. Qed.
  Lemma total_is_sum : bd_length b = sumR (map sg_length (bd_segs b)).
  Proof. rewrite (dk_len _ _ _ _ _ _ Hok). change (@nadd R NumR) with Rplus. rewrite fold_sumR. unfold n0. cbn. lra. Qed.
End Api.

Lemma sumR_app l l' : sumR (l ++ l') = sumR l + sumR l'.
Proof. induction l as [|x l IH]; cbn; [unfold sumR; cbn; lra|]. unfold sumR in *. cbn. rewrite IH. lra. Qed.
Lemma half_sum_R segs l a : half_sum (T := R) segs l a = a + sumR (map (fun x => seg_length_of segs (fst x) / 2) l).
Proof.
  revert a. induction l as [|x l IH]; intros a; [cbn; unfold sumR; cbn; lra|].
  unfold half_sum in *. cbn [fold_left map]. rewrite IH. unfold sumR. cbn [foldr]. rewrite nlit_R. cbn [nadd nmul NumR]. lra.
Qed.
(** Sum of a function over 0..n-1. *)
Definition sumf (n : nat) (f : nat -> R) : R := sumR (map f (seq 0 n)).
Lemma sumf_add n f g : sumf n (fun k => f k + g k) = sumf n f + sumf n g.
Proof. unfold sumf. induction (seq 0 n) as [|k l IH]; unfold sumR in *; cbn; [lra|]. rewrite IH. lra. Qed.
Lemma sumf_ext n f g : (forall k, (k < n)%nat -> f k = g k) -> sumf n f = sumf n g.
Proof. intros E. unfold sumf. f_equal. apply map_ext_in. intros k Hk. apply in_seq in Hk. apply E. lia. Qed.
Lemma sumf_zero n : sumf n (fun _ => 0) = 0.
Proof. unfold sumf. induction (seq 0 n); unfold sumR in *; cbn; lra. Qed.
Lemma sumf_single n j v : (j < n)%nat -> sumf n (fun k => if (k =? j)%nat then v else 0) = v.
Proof.
  unfold sumf. intros Hj. induction n as [|n IH]; [lia|]. rewrite seq_S, map_app, sumR_app. cbn [map]. unfold sumR at 2. cbn [foldr Nat.add].
  destruct (Nat.eq_dec j n) as [->|Hne].
  - rewrite Nat.eqb_refl. replace (sumR _) with 0; [lra|]. symmetry.
    rewrite (map_ext_in _ (fun _ => 0)); [apply sumf_zero|]. intros k Hk. apply in_seq in Hk. rewrite (proj2 (Nat.eqb_neq k n)) by lia. reflexivity.
  - rewrite IH by lia. rewrite (proj2 (Nat.eqb_neq n j)) by lia. lra.
Qed.
Lemma incidence_total n (segs : list (BoundarySegment R)) g :
  (forall i sg, segs !! i = Some sg -> (sg_start sg < n)%nat /\ (sg_end sg < n)%nat) ->
  sumf n (fun k => sumR (map (fun x => g (fst x) / 2) (incidence segs k))) = sumR (imap (fun i _ => g i) segs).
Proof.
  induction segs as [|sg segs IH] using rev_ind; intros Hb; [unfold incidence; cbn; apply sumf_zero|].
  rewrite imap_app, sumR_app. cbn [imap]. unfold sumR at 3. cbn [foldr]. rewrite Nat.add_0_r, Rplus_0_r.
  rewrite <- IH by (intros i x Hx; apply (Hb i); rewrite lookup_app_l by eauto using lookup_lt_Some; exact Hx).
  destruct (Hb (length segs) sg) as [B1 B2]; [rewrite lookup_app_r, Nat.sub_diag by lia; reflexivity|].
  transitivity (sumf n (fun k => sumR (map (fun x => g (fst x) / 2) (incidence segs k)) + ((if (k =? sg_start sg)%nat then g (length segs) / 2 else 0) + (if (k =? sg_end sg)%nat then g (length segs) / 2 else 0)))).
  - apply sumf_ext. intros k _. unfold incidence. rewrite imap_app, concat_app, map_app, sumR_app. f_equal. cbn [imap concat]. rewrite app_nil_r, Nat.add_0_r.
    unfold ends_at. destruct (k =? sg_start sg)%nat, (k =? sg_end sg)%nat; unfold sumR; cbn; lra.
  - rewrite !sumf_add, !sumf_single by assumption. lra.
Qed.
Lemma map_seq_list {A} (l : list A) (f : nat -> A -> R) (g : nat -> R) : (forall k a, l !! k = Some a -> f k a = g k) -> sumR (imap f l) = sumf (length l) g.
Proof.
  intros E. unfold sumf. f_equal. apply list_eq. intros k. rewrite list_lookup_imap. change (map g) with (fmap (M := list) g). rewrite list_lookup_fmap.
  destruct (l !! k) as [a|] eqn:El; cbn.
  - rewrite lookup_seq_lt by eauto using lookup_lt_Some. cbn. f_equal. auto.
  - rewrite lookup_seq_ge by (apply lookup_ge_None, El). reflexivity.
Qed.
Lemma imap_const {A} (f : A -> R) (l : list A) : imap (fun _ a => f a) l = map f l.
Proof. apply list_eq. intros k. rewrite list_lookup_imap. change (map f l) with (f <$> l). rewrite list_lookup_fmap. destruct (l !! k); reflexivity. Qed.
Lemma total_by_points W H (s s' : LevelSet R) tg b : reached W H s -> discretise s tg = Ok (s', b) -> bd_length b = sumR (map bp_length (bd_points b)).
Proof.
  intros Hr Hd. pose proof (Hok W H s s' tg b Hr Hd) as K. rewrite (total_is_sum W H s s' tg b Hr Hd).
  rewrite <- (imap_const sg_length), <- (imap_const bp_length).
  rewrite (map_seq_list (bd_points b) _ (fun k => sumR (map (fun x => seg_length_of (bd_segs b) (fst x) / 2) (incidence (bd_segs b) k)))).
  - rewrite (incidence_total (length (bd_points b)) (bd_segs b) (seg_length_of (bd_segs b))).
    + rewrite (map_seq_list (bd_segs b) _ (seg_length_of (bd_segs b))), (map_seq_list (bd_segs b) (fun i _ => _) (seg_length_of (bd_segs b))); auto.
      intros k sg E. unfold seg_length_of. rewrite E. reflexivity.
    + intros i sg E. destruct (dk_segs _ _ _ _ _ _ K i sg E) as (_ & p & q & _ & _ & A & B & _). split; eauto using lookup_lt_Some.
  - intros k p E. destruct (dk_points _ _ _ _ _ _ K k p E) as (e & c & p0 & _ & _ & _ & L). rewrite (lk_len _ _ _ _ _ _ L).
    rewrite half_sum_R. unfold n0. cbn. lra.
Qed.

(** Limits and flags of the points. *)
Lemma domain_gap_R W H (m : Mesh R) c : topo W H m -> domain_gap m c = border_gap W H c.
Proof. intros Ht. unfold domain_gap, border_gap. rewrite (tp_w _ _ _ Ht), (tp_h _ _ _ Ht), !nofnat_R, !nmin_R. reflexivity. Qed.
Lemma closest_R W H (m : Mesh R) c : topo W H m -> cx c <= INR W -> cy c <= INR H ->
  exists i n, getClosestNode m (cx c) (cy c) = Ok i /\ m_nodes m !! i = Some n /\ nd_coord n = grid W i /\
    forall i', (i' < node_count W H)%nat -> euclid2 c (grid W i) <= euclid2 c (grid W i').
Proof.
  intros Ht Hx Hy. pose proof (tp_fits _ _ _ Ht) as Hf.
  assert (Hm : mesh_new (T := R) W H = Ok (mesh_spec W H)) by (apply mesh_new_eq, Hf).
  destruct (getClosestNode_nearest W H (mesh_spec W H) Hf Hm (cx c) (cy c) Hx Hy) as (i & n & E & En & Hmin).
  assert (Hi : (i < node_count W H)%nat) by (apply lookup_lt_Some in En; cbn [mesh_spec m_nodes] in En; rewrite tab_length in En; exact En).
  destruct (lookup_lt_is_Some_2 (m_nodes m) i) as [n' En']; [rewrite (tp_lenN _ _ _ Ht); exact Hi|].
  exists i, n'. split; [rewrite (closest_topo W H m _ _ Ht); exact E|]. split; [exact En'|].
  assert (G : forall j, (j < node_count W H)%nat -> nd_coord (node_spec (T := R) W H j) = grid W j) by (intros j _; unfold node_spec, grid; cbn [nd_coord]; rewrite !nofnat_R; reflexivity).
  split; [rewrite (proj1 (tp_node _ _ _ Ht i n' En')); apply G, Hi|].
  intros i' Hi'. specialize (Hmin i' (node_spec W H i')). cbn [mesh_spec m_nodes] in Hmin. rewrite tab_lookup in Hmin by exact Hi'.
  specialize (Hmin eq_refl). cbn [mesh_spec m_nodes] in En. rewrite tab_lookup in En by exact Hi. injection En as <-.
  rewrite !G in Hmin by assumption. exact Hmin.
Qed.
Lemma euclid2_sym p q : euclid2 p q = euclid2 q p.
Proof. unfold euclid2. ring. Qed.
Lemma border_gap_nonneg W H c : 0 <= cx c <= INR W -> 0 <= cy c <= INR H -> 0 <= border_gap W H c.
Proof. intros. unfold border_gap. repeat apply Rmin_glb; lra. Qed.

Lemma near_unique W i i' c : near (grid W i') c -> euclid2 c (grid W i) <= euclid2 c (grid W i') -> grid W i = grid W i'.
Proof.
  intros [Nx Ny] L. pose proof tol_pos as Tp. unfold euclid2, grid in *. cbn [cx cy] in *.
  set (a := (i mod (W + 1))%nat) in *. set (a' := (i' mod (W + 1))%nat) in *. set (b := (i / (W + 1))%nat) in *. set (b' := (i' / (W + 1))%nat) in *.
  apply Rabs_def2 in Nx, Ny.
  assert (S1 : Rabs (cx c - INR a) < 1 / 2 /\ Rabs (cy c - INR b) < 1 / 2).
  { assert (Q : (cx c - INR a') * (cx c - INR a') + (cy c - INR b') * (cy c - INR b') < 1 / 4).
    { unfold tol in *. assert ((cx c - INR a') * (cx c - INR a') <= / 1000000 * / 1000000) by nra. assert ((cy c - INR b') * (cy c - INR b') <= / 1000000 * / 1000000) by nra. lra. }
    pose proof (Rle_0_sqr (cx c - INR a)) as P1. pose proof (Rle_0_sqr (cy c - INR b)) as P2. unfold Rsqr in *.
    split; apply Rabs_def1; nra. }
  destruct S1 as [S1 S2]. apply Rabs_def2 in S1, S2.
  assert (E : forall p q : nat, Rabs (INR p - INR q) < 1 -> p = q).
  { intros p q D. apply Rabs_def2 in D. destruct (Nat.lt_trichotomy p q) as [C|[C|C]]; [|exact C|].
    - assert (INR p + 1 <= INR q) by (rewrite <- S_INR; apply le_INR; lia). lra.
    - assert (INR q + 1 <= INR p) by (rewrite <- S_INR; apply le_INR; lia). lra. }
  unfold tol in *. rewrite (E a a'), (E b b'); [reflexivity|apply Rabs_def1; lra..].
Qed.

Lemma init_point_R W H (m : Mesh R) L c p : topo W H m -> 0 < L -> 0 <= cx c <= INR W -> 0 <= cy c <= INR H ->
  initialisePoint m L c = Ok p ->
  bp_coord p = c /\ bp_pos p = L /\
  (bp_domain p = true <-> border_gap W H c < tol /\ border_gap W H c < L) /\
  exists i n, m_nodes m !! i = Some n /\ (forall i', (i' < node_count W H)%nat -> euclid2 c (grid W i) <= euclid2 c (grid W i')) /\
    (bp_fixed p = true <-> nd_masked n = true /\ near (grid W i) c) /\
    (nd_masked n = true -> ~ near (grid W i) c -> bp_neg p = - Rmin (Rmin L (border_gap W H c)) (euclid (grid W i) c)) /\
    (nd_masked n = false \/ near (grid W i) c -> bp_neg p = - Rmin L (border_gap W H c)).
Proof.
  intros Ht HL Hx Hy E. destruct (closest_R W H m c Ht (proj2 Hx) (proj2 Hy)) as (i & n & Ec & En & Eg & Hmin).
  unfold initialisePoint in E. rewrite (domain_gap_R W H m c Ht), tol_lit, Ec in E. cbn [obind] in E. rewrite (proj2 (vget_Ok _ _ _) En) in E. cbn [obind] in E.
  rewrite Eg in E. injection E as <-. cbn [bp_coord bp_pos bp_domain bp_fixed bp_neg]. split; [reflexivity|]. split; [reflexivity|].
  cbn [nltb NumR nneg nsqrt nabs nmul nadd nsub].
  set (g := border_gap W H c).
  split; [rewrite andb_true_iff, !Rltb_true; tauto|].
  exists i, n. split; [exact En|]. split; [exact Hmin|].
  assert (NB : (Rltb (Rabs (cx (grid W i) - cx c)) tol && Rltb (Rabs (cy (grid W i) - cy c)) tol)%bool = true <-> near (grid W i) c).
  { rewrite andb_true_iff, !Rltb_true. reflexivity. }
  assert (NEG : (if Rltb g L then - g else - L) = - Rmin L g).
  { destruct (Rltb_spec g L); unfold Rmin; destruct (Rle_dec L g); lra. }
  rewrite NEG. change (R_sqrt.sqrt _) with (euclid (grid W i) c).
  destruct (_ && _)%bool.
  - split; [rewrite andb_true_r, <- NB; tauto|]. split; [intros _ X; exfalso; apply X, NB; reflexivity|].
    intros _. cbn [negb]. rewrite andb_false_r. cbn [andb]. reflexivity.
  - split; [rewrite andb_false_r, <- NB; split; [discriminate|intros [_ X]; exact X]|].
    split.
    + intros -> _. cbn [negb andb]. destruct (Rltb_spec (- Rmin L g) (- euclid (grid W i) c)).
      * rewrite (Rmin_right (Rmin L g)) by lra. reflexivity.
      * rewrite (Rmin_left (Rmin L g)) by lra. reflexivity.
    + intros [->|X]; [reflexivity|]. apply NB in X. discriminate.
Qed.

Section Limits.
  Variables (W H : nat) (s s' : LevelSet R) (tg : bool) (b : Boundary R).
  Hypothesis Hr : reached W H s.
  Hypothesis Hd : discretise s tg = Ok (s', b).

  Lemma limits k p : bd_points b !! k = Some p ->
    let L := ls_moveLimit s in let g := border_gap W H (bp_coord p) in
    bp_pos p = L /\ - L <= bp_neg p <= 0 /\ - g <= bp_neg p /\
    (bp_domain p = true <-> g < tol /\ g < L) /\
    (bp_fixed p = true <-> exists i, masked s i /\ near (grid W i) (bp_coord p)) /\
    ((forall i, masked s i -> 1 <= euclid (grid W i) (bp_coord p)) -> bp_neg p = - Rmin L g) /\
    (forall i, masked s i -> ~ near (grid W i) (bp_coord p) ->
       (forall i', (i' < node_count W H)%nat -> i' <> i -> euclid (grid W i) (bp_coord p) < euclid (grid W i') (bp_coord p)) ->
       bp_neg p = - Rmin (Rmin L g) (euclid (grid W i) (bp_coord p))).
  Proof.
    intros E. destruct (dk_points _ _ _ _ _ _ (Hok W H s s' tg b Hr Hd) k p E) as (e & c & p0 & He & Hc & Ei & K).
    pose proof (ok_topo _ _ _ (so_ok _ _ _ (reached_sound _ _ _ Hr))) as Ht.
    pose proof (points_on_contour W H s s' tg b Hr Hd k p E) as (_ & Dx & Dy).
    pose proof (lk_fixed _ _ _ _ _ _ K) as F. unfold fixed_bp in F. injection F as Fc _ _ Fn Fp Fd Ff _.
    destruct (init_fresh _ _ _ _ Ei) as (Ec & _). rewrite Fc, Ec in *.
    destruct (reached_settings W H s Hr) as (_ & V & V'). apply Rltb_true in V, V'. unfold n0, n1 in V, V'. cbn in V, V'.
    destruct (init_point_R W H (ls_mesh s) (ls_moveLimit s) c p0 Ht V Dx Dy Ei) as (_ & Ep & Ed & i & n & En & Hmin & Efx & N1 & N2).
    rewrite Fn, Fp, Fd, Ff. cbv zeta. set (L := ls_moveLimit s) in *. set (g := border_gap W H c) in *.
    pose proof (border_gap_nonneg W H c Dx Dy) as Gn. fold g in Gn.
    assert (D0 : forall j, 0 <= euclid (grid W j) c) by (intros j; apply sqrt_pos).
    assert (Hi : (i < node_count W H)%nat) by (rewrite <- (tp_lenN _ _ _ Ht); eauto using lookup_lt_Some).
    assert (ND : near (grid W i) c \/ ~ near (grid W i) c) by (apply Classical_Prop.classic).
    assert (M1 : Rmin L g <= L) by apply Rmin_l. assert (M2 : Rmin L g <= g) by apply Rmin_r. assert (M3 : 0 <= Rmin L g) by (apply Rmin_glb; lra).
    split; [exact Ep|]. split; [|split; [|split; [exact Ed|split; [|split]]]].
    - destruct (nd_masked n) eqn:Em, ND as [ND|ND].
      + rewrite N2 by auto. lra.
      + rewrite N1 by auto. pose proof (Rmin_l (Rmin L g) (euclid (grid W i) c)). assert (0 <= Rmin (Rmin L g) (euclid (grid W i) c)) by (apply Rmin_glb; auto). lra.
      + rewrite N2 by auto. lra.
      + rewrite N2 by auto. lra.
    - destruct (nd_masked n) eqn:Em, ND as [ND|ND].
      + rewrite N2 by auto. lra.
      + rewrite N1 by auto. pose proof (Rmin_l (Rmin L g) (euclid (grid W i) c)). lra.
      + rewrite N2 by auto. lra.
      + rewrite N2 by auto. lra.
    - rewrite Efx. split.
      + intros [A B]. exists i. split; [exists n; auto|exact B].
      + intros (i' & (n' & En' & Mn') & B).
        assert (Hi' : (i' < node_count W H)%nat) by (rewrite <- (tp_lenN _ _ _ Ht); eauto using lookup_lt_Some).
        pose proof (near_unique W i i' c B (Hmin i' Hi')) as G.
        assert (i = i') as <-.
        { destruct (node_id_split W H i Hi) as (_ & _ & ->). destruct (node_id_split W H i' Hi') as (_ & _ & ->).
          unfold grid in G. injection G as G1 G2. apply INR_eq in G1, G2. rewrite G1, G2. reflexivity. }
        split; [congruence|exact B].
    - intros Far. apply N2. left. destruct (nd_masked n) eqn:Em; [|reflexivity]. exfalso.
      assert (A : 1 <= euclid (grid W i) c) by (apply Far; exists n; auto).
      (* the closest node is closer than 1 *)
      assert (B : exists j, (j < node_count W H)%nat /\ euclid2 c (grid W j) < 1).
      { destruct (contour_place_R W H e (HWH W H s Hr) He _ c Hc) as [_ (U & V1 & _)].
        destruct (elem_id_split W H e (HWH W H s Hr) He) as (X1 & X2 & _).
        set (x := (e mod W)%nat) in *. set (y := (e / W)%nat) in *.
        exists (node_id W (if Rle_dec (cx c - INR x) (1/2) then x else x + 1) (if Rle_dec (cy c - INR y) (1/2) then y else y + 1)).
        split; [apply node_id_lt; destruct (Rle_dec (cx c - INR x) (1/2)), (Rle_dec (cy c - INR y) (1/2)); lia|].
        rewrite grid_id by (destruct (Rle_dec (cx c - INR x) _); lia). unfold euclid2. cbn [cx cy].
        destruct (Rle_dec (cx c - INR x) (1/2)), (Rle_dec (cy c - INR y) (1/2)); rewrite ?plus_INR; cbn [INR]; nra. }
      destruct B as (j & Hj & Bj). specialize (Hmin j Hj). rewrite euclid2_sym in Hmin. unfold euclid in A.
      assert (R_sqrt.sqrt (euclid2 (grid W i) c) < R_sqrt.sqrt 1).
      { apply sqrt_lt_1_alt. split; [|lra]. unfold euclid2. pose proof (Rle_0_sqr (cx (grid W i) - cx c)). pose proof (Rle_0_sqr (cy (grid W i) - cy c)). unfold Rsqr in *. lra. }
      rewrite sqrt_1 in *. lra.
    - intros j (n' & En' & Mn') Nj Cl. assert (i = j) as <-.
      { destruct (Nat.eq_dec i j) as [X|X]; [exact X|]. exfalso. specialize (Cl i Hi X).
        assert (Hj : (j < node_count W H)%nat) by (rewrite <- (tp_lenN _ _ _ Ht); eauto using lookup_lt_Some).
        specialize (Hmin j Hj). rewrite !(euclid2_sym c) in Hmin. apply sqrt_le_1_alt in Hmin. unfold euclid in Cl. lra. }
      apply N1; [congruence|exact Nj].
  Qed.
End Limits.
