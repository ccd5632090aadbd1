(** * BoundaryLocal: the graph of a field without nodes on the contour. *)

From Verif Require Import MeshModel MeshSpec MeshProofs MeshTopo LevelSetModel BoundaryModel BoundarySpec BoundaryProofs BoundaryGraph BoundaryRun.
Local Open Scope nat_scope.

Definition off_side (st : NodeStatus) : Prop := st = NS_INSIDE \/ st = NS_OUTSIDE.
Definition tab4 {A} (a b c d : A) (j : nat) : A := match j with 0 => a | 1 => b | 2 => c | _ => d end.
Lemma local_tab s c : local_segs s c = local_segs (tab4 (s 0) (s 1) (s 2) (s 3)) c.
Proof. reflexivity. Qed.
Lemma cut_tab s : cut_edges s 4 = cut_edges (tab4 (s 0) (s 1) (s 2) (s 3)) 4.
Proof. reflexivity. Qed.
Definition verts (l : list (vert * vert)) : list vert := flat_map (fun '(u, v) => [u; v]) l.
Lemma local_few s c : (forall j, j < 4 -> off_side (s j)) -> length (local_segs s c) <= 2.
Proof.
  intros S. rewrite local_tab. destruct (S 0 ltac:(lia)) as [-> | ->], (S 1 ltac:(lia)) as [-> | ->], (S 2 ltac:(lia)) as [-> | ->], (S 3 ltac:(lia)) as [-> | ->], c; cbn; lia.
Qed.
(** Every cut edge is the end of exactly one segment of the element. *)
Lemma local_ends s c (f : vert -> bool) : (forall j, j < 4 -> off_side (s j)) ->
  length (List.filter f (verts (local_segs s c))) = length (List.filter f (map Edge (cut_edges s 4))).
Proof.
  intros S. rewrite local_tab, cut_tab.
  destruct (S 0 ltac:(lia)) as [-> | ->], (S 1 ltac:(lia)) as [-> | ->], (S 2 ltac:(lia)) as [-> | ->], (S 3 ltac:(lia)) as [-> | ->], c; cbn;
    repeat destruct (f _); reflexivity.
Qed.
Lemma local_distinct s c u v : (forall j, j < 4 -> off_side (s j)) -> In (u, v) (local_segs s c) -> exists a b, u = Edge a /\ v = Edge b /\ a < 4 /\ b < 4 /\ a <> b.
Proof.
  intros S. rewrite local_tab.
  destruct (S 0 ltac:(lia)) as [-> | ->], (S 1 ltac:(lia)) as [-> | ->], (S 2 ltac:(lia)) as [-> | ->], (S 3 ltac:(lia)) as [-> | ->], c; cbn; intuition;
    match goal with X : _ = (_, _) |- _ => injection X as <- <-; eexists _, _; repeat split; lia end.
Qed.

(** The ends of a segment are on cut edges; in a saddle it cuts off one corner. *)
Definition other (st : NodeStatus) : NodeStatus := match st with NS_INSIDE => NS_OUTSIDE | _ => NS_INSIDE end.
Lemma local_edges s c u v : (forall j, j < 4 -> off_side (s j)) -> In (u, v) (local_segs s c) ->
  exists a b, u = Edge a /\ v = Edge b /\ In a (cut_edges s 4) /\ In b (cut_edges s 4) /\ a <> b /\
    (length (cut_edges s 4) = 4 -> exists j, j < 4 /\ ((a = j /\ b = prev j) \/ (a = prev j /\ b = j)) /\ s j = if c then other (s 0) else s 0).
Proof.
  intros S. rewrite local_tab, cut_tab.
  destruct (S 0 ltac:(lia)) as [E0|E0], (S 1 ltac:(lia)) as [E1|E1], (S 2 ltac:(lia)) as [E2|E2], (S 3 ltac:(lia)) as [E3|E3], c; rewrite E0, E1, E2, E3; cbn; intuition;
    match goal with X : _ = (_, _) |- _ => injection X as <- <-; eexists _, _; repeat (split; [first [reflexivity|lia|tauto]|]); intros Hn; try discriminate Hn end;
    [exists 1|exists 3|exists 0|exists 2|exists 1|exists 3|exists 0|exists 2]; (split; [lia|split; [cbn; tauto|assumption]]).
Qed.
Lemma local_count s c : (forall j, j < 4 -> off_side (s j)) -> 2 * length (local_segs s c) = length (cut_edges s 4).
Proof.
  intros S. rewrite local_tab, cut_tab.
  destruct (S 0 ltac:(lia)) as [E0|E0], (S 1 ltac:(lia)) as [E1|E1], (S 2 ltac:(lia)) as [E2|E2], (S 3 ltac:(lia)) as [E3|E3], c; rewrite E0, E1, E2, E3; reflexivity.
Qed.

Lemma local_hit s c a : (forall j, j < 4 -> off_side (s j)) -> In a (cut_edges s 4) -> exists u v, In (u, v) (local_segs s c) /\ (u = Edge a \/ v = Edge a).
Proof.
  intros S. rewrite local_tab, cut_tab.
  destruct (S 0 ltac:(lia)) as [E0|E0], (S 1 ltac:(lia)) as [E1|E1], (S 2 ltac:(lia)) as [E2|E2], (S 3 ltac:(lia)) as [E3|E3], c; rewrite E0, E1, E2, E3; cbn; intuition; subst a;
    first [solve [eexists _, _; split; [left; reflexivity|auto]]|solve [eexists _, _; split; [right; left; reflexivity|auto]]].
Qed.
Lemma local_nodup s c : (forall j, j < 4 -> off_side (s j)) -> List.NoDup (local_segs s c).
Proof.
  intros S. rewrite local_tab.
  destruct (S 0 ltac:(lia)) as [E0|E0], (S 1 ltac:(lia)) as [E1|E1], (S 2 ltac:(lia)) as [E2|E2], (S 3 ltac:(lia)) as [E3|E3], c; rewrite E0, E1, E2, E3; cbn;
    repeat constructor; cbn; intuition discriminate.
Qed.
Lemma local_once s c a u v u' v' : (forall j, j < 4 -> off_side (s j)) -> In (u, v) (local_segs s c) -> In (u', v') (local_segs s c) ->
  (u = Edge a \/ v = Edge a) -> (u' = Edge a \/ v' = Edge a) -> (u, v) = (u', v').
Proof.
  intros S. rewrite local_tab.
  destruct (S 0 ltac:(lia)) as [E0|E0], (S 1 ltac:(lia)) as [E1|E1], (S 2 ltac:(lia)) as [E2|E2], (S 3 ltac:(lia)) as [E3|E3], c; rewrite E0, E1, E2, E3; cbn;
    intros X Y A B; repeat match goal with X : _ \/ _ |- _ => destruct X end; try contradiction; congruence.
Qed.

Section Degree.
  Context {T : Type} {NT : Num T}.
  Variables (W H : nat) (sd : list T).
  Hypothesis HW : 1 <= W.
  Hypothesis Hstrict : forall i, i < node_count W H -> off_side (st_of sd i).
  Lemma sides_strict e j : e < W * H -> j < 4 -> off_side (sides W sd e j).
  Proof. intros He Hj. apply Hstrict, (corner_lt W H e j HW He Hj). Qed.
  Lemma edge_place_inj e a b : e < W * H -> a < 4 -> b < 4 -> edge_place W e a = edge_place W e b -> a = b.
  Proof.
    intros He Ha Hb. destruct a as [|[|[|[|a]]]], b as [|[|[|[|b]]]]; try lia; cbn [edge_place]; try discriminate; rewrite !(corner_val W H) by first [exact He|lia];
      unfold node_id; intros [= X]; exfalso; revert X; generalize (e / W), (e mod W); intros; nia.
  Qed.
  Lemma few e : e < W * H -> length (elem_graph W sd e) <= 2.
  Proof. intros He. unfold elem_graph. rewrite map_length. apply local_few. intros j Hj. apply sides_strict; assumption. Qed.

  Definition b2n (b : bool) : nat := if b then 1 else 0.
  (** The segment ends at [p] in element [e]. *)
  Definition edge_hit (p : place) (e j : nat) : nat := b2n (cutb (sides W sd e j) (sides W sd e (next j)) && place_eqb p (edge_place W e j)).
  Lemma ends_elem p e : e < W * H -> ends_count p (elem_graph W sd e) = edge_hit p e 0 + edge_hit p e 1 + edge_hit p e 2 + edge_hit p e 3.
  Proof.
    intros He. set (g := fun v => place_eqb p (glob W e v)).
    assert (E : ends_count p (elem_graph W sd e) = length (List.filter g (verts (local_segs (sides W sd e) (saddle W sd e))))).
    { unfold ends_count, elem_graph, verts. induction (local_segs _ _) as [|[u v] l IH]; [reflexivity|]. cbn [map flat_map app List.filter]. fold (g u) (g v).
      change (place_eqb p (glob W e u)) with (g u). change (place_eqb p (glob W e v)) with (g v).
      destruct (g u), (g v); cbn [length]; rewrite ?IH; reflexivity. }
    rewrite E, local_ends by (intros j Hj; apply sides_strict; assumption). unfold cut_edges, edge_hit, b2n, g. cbn [seq List.filter].
    destruct (cutb (sides W sd e 0) _), (cutb (sides W sd e 1) _), (cutb (sides W sd e 2) _), (cutb (sides W sd e 3) _); cbn [map List.filter glob andb];
      destruct (place_eqb p (edge_place W e 0)), (place_eqb p (edge_place W e 1)), (place_eqb p (edge_place W e 2)), (place_eqb p (edge_place W e 3)); reflexivity.
  Qed.

  (** The elements beside an edge. *)
  Definition beside (p : place) (e : nat) : nat :=
    match p with
    | AtNode _ => 0
    | OnRight i => let x := i mod (W + 1) in let y := i / (W + 1) in
        b2n ((y <? H)%nat && (e =? y * W + x)%nat) + b2n ((0 <? y)%nat && (e =? (y - 1) * W + x)%nat)
    | OnUp i => let x := i mod (W + 1) in let y := i / (W + 1) in
        b2n ((x <? W)%nat && (e =? y * W + x)%nat) + b2n ((0 <? x)%nat && (e =? y * W + (x - 1))%nat)
    end.
  Definition sides_of (p : place) : nat :=
    match p with
    | AtNode _ => 0
    | OnRight i => b2n (i / (W + 1) <? H)%nat + b2n (0 <? i / (W + 1))%nat
    | OnUp i => b2n (i mod (W + 1) <? W)%nat + b2n (0 <? i mod (W + 1))%nat
    end.
  Lemma elem_split e : e < W * H -> e = (e / W) * W + e mod W /\ e mod W < W /\ e / W < H.
  Proof. intros He. destruct (elem_id_split W H e HW He) as (A & B & _). split; [|auto]. rewrite Nat.mul_comm. apply Nat.div_mod. lia. Qed.
  Lemma node_split i x y : x <= W -> i = node_id W x y <-> x = i mod (W + 1) /\ y = i / (W + 1).
  Proof.
    intros Hx. unfold node_id. split.
    - intros ->. rewrite Nat.mod_add, Nat.div_add by lia. rewrite Nat.mod_small, Nat.div_small by lia. split; lia.
    - intros [-> ->]. rewrite Nat.mul_comm, Nat.add_comm. apply Nat.div_mod. lia.
  Qed.
  Lemma elem_unique x y e : x < W -> e < W * H -> (e mod W = x /\ e / W = y) <-> (e = y * W + x).
  Proof.
    intros Hx He. destruct (elem_split e He) as (E & A & B). split; [intros [<- <-]; exact E|]. intros ->.
    rewrite (Nat.add_comm (y * W)), Nat.mod_add, Nat.div_add by lia. rewrite Nat.mod_small, Nat.div_small by lia. split; lia.
  Qed.
  Lemma b2n_le (a b : bool) : (a = true -> b = true) -> b2n a <= b2n b.
  Proof. destruct a, b; cbn; intros X; try lia. Qed.
  Lemma b2n_eq (a b : bool) : (a = true <-> b = true) -> b2n a = b2n b.
  Proof. destruct a, b; cbn; intros [X Y]; try reflexivity; [discriminate (X eq_refl)|discriminate (Y eq_refl)]. Qed.
  Lemma edge_hit_le p e j c : (place_eqb p (edge_place W e j) = true -> c = true) -> edge_hit p e j <= b2n c.
  Proof. intros X. apply b2n_le. intros Y. apply andb_prop in Y as [_ Y]. auto. Qed.
  Lemma cut_opposite a b : opposite sd a b -> cutb (st_of sd a) (st_of sd b) = true.
  Proof. unfold st_of. intros [[-> ->]|[-> ->]]; reflexivity. Qed.
  Lemma valid_hit p e j : e < W * H -> j < 4 -> valid_place W H sd p -> p = edge_place W e j -> cutb (sides W sd e j) (sides W sd e (next j)) = true.
  Proof.
    intros He Hj V ->. rewrite (edge_place_eq W H) in V by assumption. pose proof (corner_edge W H HW e j He Hj) as C. unfold sides. apply cut_opposite.
    do 4 (destruct j as [|j]; [cbn [edge_to valid_place] in *; split_pair C; rewrite C; solve [apply V|apply opposite_sym, V]|]). lia.
  Qed.
  Lemma edge_hit_eq p e j c : e < W * H -> j < 4 -> valid_place W H sd p -> (p = edge_place W e j <-> c = true) -> edge_hit p e j = b2n c.
  Proof.
    intros He Hj V X. apply b2n_eq. rewrite <- X, andb_true_iff, place_eqb_eq. split; [tauto|]. intros Y. split; [eapply valid_hit; eassumption|exact Y].
  Qed.
  (** Which edge of which element a place is. *)
  Lemma place_edge p e j : e < W * H -> j < 4 -> (p = edge_place W e j <->
    match p, j with
    | OnRight i, 0 => ((i mod (W + 1) <? W)%nat && ((i / (W + 1) <? H)%nat && (e =? (i / (W + 1)) * W + i mod (W + 1))%nat))
    | OnRight i, 2 => ((i mod (W + 1) <? W)%nat && ((0 <? i / (W + 1))%nat && (e =? (i / (W + 1) - 1) * W + i mod (W + 1))%nat))
    | OnUp i, 3 => ((i mod (W + 1) <? W)%nat && (e =? (i / (W + 1)) * W + i mod (W + 1))%nat)
    | OnUp i, 1 => ((0 <? i mod (W + 1))%nat && (e =? (i / (W + 1)) * W + (i mod (W + 1) - 1))%nat)
    | _, _ => false
    end = true).
  Proof.
    intros He Hj. destruct (elem_split e He) as (E & A & B).
    destruct p as [i|i|i], j as [|[|[|[|j]]]]; try lia; cbn [edge_place]; try (split; discriminate); rewrite !(corner_val W H) by first [exact He|lia];
      rewrite ?andb_true_iff, ?Nat.ltb_lt, ?Nat.eqb_eq.
    - split; [intros [= X]; apply node_split in X as [X Y]; [|lia]; rewrite <- X, <- Y; repeat split; assumption|].
      intros (L1 & L2 & X). f_equal. apply elem_unique in X as [X Y]; [|exact L1|exact He]. rewrite X, Y. apply node_split; [lia|auto].
    - split; [intros [= X]; apply node_split in X as [X Y]; [|lia]; rewrite <- X, <- Y; rewrite Nat.add_sub; split; [exact A|split; [apply Nat.add_pos_r, Nat.lt_0_1|exact E]]|].
      intros (L1 & L2 & X). f_equal. apply elem_unique in X as [X Y]; [|exact L1|exact He]. rewrite X, Y. apply node_split; [lia|split; [reflexivity|lia]].
    - split; [intros [= X]; apply node_split in X as [X Y]; [|lia]; rewrite <- X, <- Y; rewrite Nat.add_sub; split; [apply Nat.add_pos_r, Nat.lt_0_1|exact E]|].
      intros (L1 & X). f_equal. pose proof (Nat.mod_upper_bound i (W + 1) ltac:(lia)). apply elem_unique in X as [X Y]; [|lia|exact He]. rewrite X, Y. apply node_split; [lia|split; [lia|reflexivity]].
    - split; [intros [= X]; apply node_split in X as [X Y]; [|lia]; rewrite <- X, <- Y; repeat split; assumption|].
      intros (L1 & X). f_equal. apply elem_unique in X as [X Y]; [|exact L1|exact He]. rewrite X, Y. apply node_split; [lia|auto].
  Qed.
  Lemma ends_beside_le p e : e < W * H -> ends_count p (elem_graph W sd e) <= beside p e.
  Proof.
    intros He. rewrite ends_elem by exact He.
    assert (P := fun j Hj => proj1 (place_edge p e j He Hj)).
    assert (Z : forall j, (place_eqb p (edge_place W e j) = true -> False) -> edge_hit p e j = 0).
    { intros j X. unfold edge_hit. destruct (place_eqb p (edge_place W e j)); [destruct (X eq_refl)|]. rewrite andb_false_r. reflexivity. }
    destruct p as [i|i|i]; cbn [beside].
    - rewrite !Z; [lia|intros X; apply place_eqb_eq in X; discriminate..].
    - rewrite (Z 1), (Z 3) by (intros X; apply place_eqb_eq in X; discriminate).
      pose proof (edge_hit_le (OnRight i) e 0 ((i / (W + 1) <? H)%nat && (e =? i / (W + 1) * W + i mod (W + 1))%nat)) as A.
      pose proof (edge_hit_le (OnRight i) e 2 ((0 <? i / (W + 1))%nat && (e =? (i / (W + 1) - 1) * W + i mod (W + 1))%nat)) as B.
      assert (A' := A ltac:(intros X; apply place_eqb_eq in X; apply (P 0 ltac:(lia)) in X; apply andb_prop in X; apply X)).
      assert (B' := B ltac:(intros X; apply place_eqb_eq in X; apply (P 2 ltac:(lia)) in X; apply andb_prop in X; apply X)). lia.
    - rewrite (Z 0), (Z 2) by (intros X; apply place_eqb_eq in X; discriminate).
      pose proof (edge_hit_le (OnUp i) e 3 ((i mod (W + 1) <? W)%nat && (e =? i / (W + 1) * W + i mod (W + 1))%nat)) as A.
      pose proof (edge_hit_le (OnUp i) e 1 ((0 <? i mod (W + 1))%nat && (e =? i / (W + 1) * W + (i mod (W + 1) - 1))%nat)) as B.
      assert (A' := A ltac:(intros X; apply place_eqb_eq in X; apply (P 3 ltac:(lia)) in X; exact X)).
      assert (B' := B ltac:(intros X; apply place_eqb_eq in X; apply (P 1 ltac:(lia)) in X; exact X)). lia.
  Qed.
  Lemma ends_beside p e : valid_place W H sd p -> e < W * H -> ends_count p (elem_graph W sd e) = beside p e.
  Proof.
    intros V He. rewrite ends_elem by exact He. 
    assert (J : forall j, j < 4 -> _) by (intros j Hj; exact (edge_hit_eq p e j _ He Hj V (place_edge p e j He Hj))).
    rewrite (J 0), (J 1), (J 2), (J 3) by lia. clear J.
    destruct p as [i|i|i]; cbn [beside b2n]; [reflexivity| |repeat match goal with |- context [b2n ?b] => generalize (b2n b); intros end; lia]. cbn [valid_place] in V. destruct V as (_ & Lx & _).
    apply Nat.ltb_lt in Lx. rewrite Lx. cbn [andb]. repeat match goal with |- context [b2n ?b] => generalize (b2n b); intros end; lia.
  Qed.

  Lemma ends_app p l l' : ends_count p (l ++ l') = ends_count p l + ends_count p l'.
  Proof. unfold ends_count. rewrite flat_map_app, List.filter_app, app_length. reflexivity. Qed.
  Lemma map_snd_pair (e : nat) (l : list (place * place)) : map snd (map (pair e) l) = l.
  Proof. rewrite map_map. cbn. apply map_id. Qed.
  Fixpoint total_beside (p : place) (n : nat) : nat := match n with 0 => 0 | S n => total_beside p n + beside p n end.
  Lemma degree_upto p n : n <= W * H -> ends_count p (map snd (graph_upto W sd n)) <= total_beside p n /\
    (valid_place W H sd p -> ends_count p (map snd (graph_upto W sd n)) = total_beside p n).
  Proof.
    induction n as [|n IH]; intros Hn; [split; reflexivity|]. destruct IH as [A B]; [lia|]. replace (S n) with (n + 1) at 1 3 by lia.
    rewrite graph_snoc, map_app, ends_app, map_snd_pair. cbn [total_beside]. pose proof (ends_beside_le p n ltac:(lia)). split; [lia|].
    intros V. rewrite (B V), (ends_beside p n V) by lia. reflexivity.
  Qed.
  Lemma count_one (c : bool) a n : b2n (c && (a <? n)%nat) + b2n (c && (n =? a)%nat) = b2n (c && (a <? S n)%nat).
  Proof. destruct c; [|reflexivity]. cbn [andb]. destruct (Nat.ltb_spec a n), (Nat.eqb_spec n a), (Nat.ltb_spec a (S n)); cbn; lia. Qed.
  Lemma total_form p n : total_beside p n = match p with
    | AtNode _ => 0
    | OnRight i => let x := i mod (W + 1) in let y := i / (W + 1) in
        b2n ((y <? H)%nat && (y * W + x <? n)%nat) + b2n ((0 <? y)%nat && ((y - 1) * W + x <? n)%nat)
    | OnUp i => let x := i mod (W + 1) in let y := i / (W + 1) in
        b2n ((x <? W)%nat && (y * W + x <? n)%nat) + b2n ((0 <? x)%nat && (y * W + (x - 1) <? n)%nat)
    end.
  Proof.
    induction n as [|n IH]; cbn [total_beside].
    - destruct p; cbv zeta; rewrite ?Nat.ltb_irrefl; try reflexivity; cbn [Nat.ltb Nat.leb]; rewrite !andb_false_r; reflexivity.
    - rewrite IH. destruct p as [i|i|i]; cbv zeta; cbn [beside]; [reflexivity| |]; cbv zeta; rewrite <- !count_one; lia.
  Qed.
  Lemma degree_le p : degree W H sd p <= 2.
  Proof.
    etransitivity; [apply (degree_upto p (W * H) ltac:(lia))|]. rewrite total_form. assert (B : forall b, b2n b <= 1) by (intros []; cbn; lia).
    destruct p as [i|i|i]; cbv zeta; [lia| |];
      match goal with |- b2n ?a + b2n ?b <= 2 => pose proof (B a); pose proof (B b); lia end.
  Qed.
  Lemma degree_valid p : valid_place W H sd p -> degree W H sd p = sides_of p.
  Proof.
    intros V. unfold degree. rewrite (proj2 (degree_upto p (W * H) ltac:(lia)) V), total_form.
    destruct p as [i|i|i]; cbn [valid_place sides_of] in *; cbv zeta; [reflexivity| |].
    - destruct V as (L & Lx & _). assert (Y : i / (W + 1) <= H).
      { unfold node_count in L. apply Nat.lt_succ_r. apply Nat.div_lt_upper_bound; [lia|]. lia. }
      set (x := i mod (W + 1)) in *. set (y := i / (W + 1)) in *. f_equal; apply b2n_eq; rewrite andb_true_iff, !Nat.ltb_lt.
      + split; [tauto|]. intros A. split; [exact A|]. assert (y * W + W <= H * W) by (change (y * W + W) with (y * W + 1 * W + 0) || idtac; nia). nia.
      + split; [tauto|]. intros A. split; [exact A|]. nia.
    - destruct V as (L & _). assert (Y : i / (W + 1) < H).
      { unfold node_count in L. apply Nat.div_lt_upper_bound; [lia|]. nia. }
      pose proof (Nat.mod_upper_bound i (W + 1) ltac:(lia)) as Lx. set (x := i mod (W + 1)) in *. set (y := i / (W + 1)) in *.
      f_equal; apply b2n_eq; rewrite andb_true_iff, !Nat.ltb_lt; (split; [tauto|]); intros A; (split; [exact A|]); nia.
  Qed.
End Degree.
