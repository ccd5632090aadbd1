(** * LevelSetInit: the constructors and the initial signed distance (C18, C23), any arithmetic in
    which integers below 2^32 are exact. *)

From Verif Require Import MeshModel MeshSpec MeshProofs MeshTopo FmmModel FmmSpec FmmFacts LevelSetModel LevelSetSpec
  LevelSetBand LevelSetOps NumInt.
From Coq Require Import ZifyBool ZifyNat.
Local Open Scope nat_scope.

Section Init.
  Context {T : Type} {NT : Num T} {NI : NumInt T}.

  Lemma fits_mesh W H bw : fits_ls W H bw -> mesh_fits W H.
  Proof. intros (A & B & C & D). unfold mesh_fits. lia. Qed.

  Lemma alloc_spec W H ml bw fx tg : fits_ls W H bw ->
    (valid_params ml bw -> exists s, ls_alloc W H ml bw fx tg = Ok s /\ ls_ok W H s /\ ls_mesh s = mesh_spec W H /\
       ls_bandWidth s = bw /\ ls_moveLimit s = ml /\ ls_fixed s = fx /\
       ls_sd s = replicate (node_count W H) n0 /\ ls_vel s = replicate (node_count W H) n0 /\
       ls_grad s = replicate (node_count W H) n0) /\
    (~ valid_params ml bw -> ls_alloc W H ml bw fx tg = Exit).
  Proof.
    intros Hf. pose proof (fits_mesh _ _ _ Hf) as Hm. unfold ls_alloc.
    rewrite mesh_new_eq by apply Hm. cbn [obind]. change (m_nNodes (mesh_spec W H)) with (node_count W H).
    destruct Hf as (F1 & F2 & F3 & F4).
    destruct (nfifth (T := T) (node_count W H)) as [z Hz]; [lia|]. rewrite Hz. cbn [obind].
    unfold valid_params. split.
    - intros (V1 & V2 & V3). destruct (Nat.ltb_spec 2 bw); [|lia]. cbn [check obind]. rewrite V2, V3. cbn [andb check obind].
      eexists. split; [reflexivity|]. split; [|repeat split; reflexivity].
      constructor; cbn [ls_mesh ls_sd ls_vel ls_grad ls_band ls_mines ls_bandWidth]; rewrite ?replicate_length; auto; try lia.
      apply topo_new; [exact Hm|]. apply mesh_new_eq; apply Hm.
    - intros HV. destruct (Nat.ltb_spec 2 bw) as [L|L]; [|reflexivity]. cbn [check obind].
      destruct (n0 <? ml)%num eqn:E1; [|reflexivity]. destruct (ml <? n1)%num eqn:E2; [|reflexivity]. exfalso. auto.
  Qed.

  (** C18: every constructor. *)
  Lemma new_invalid f W H ml bw fx : fits_ls W H bw -> ~ valid_params ml bw -> ls_new f W H ml bw fx = Exit.
  Proof. intros Hf HV. unfold ls_new. rewrite (proj2 (alloc_spec W H ml bw fx false Hf) HV). reflexivity. Qed.
  Lemma new_target_invalid f g W H ml bw fx : fits_ls W H bw -> ~ valid_params ml bw -> ls_new_target f g W H ml bw fx = Exit.
  Proof. intros Hf HV. unfold ls_new_target. rewrite (proj2 (alloc_spec W H ml bw fx true Hf) HV). reflexivity. Qed.

  (** Without a target a constructor fails only if the initial field cannot be computed. *)
  Lemma new_ok f W H ml bw fx sd : fits_ls W H bw -> valid_params ml bw ->
    f (mesh_spec W H) (replicate (node_count W H) n0) = Ok sd -> length sd = node_count W H ->
    exists s, ls_new f W H ml bw fx = Ok s /\ ls_ok W H s /\ band_ok s /\ ls_sd s = sd /\
      ls_moveLimit s = ml /\ ls_bandWidth s = bw /\ ls_fixed s = fx /\
      ls_vel s = replicate (node_count W H) n0 /\ ls_grad s = replicate (node_count W H) n0.
  Proof.
    intros Hf HV Hsd Hl. unfold ls_new.
    destruct (proj1 (alloc_spec W H ml bw fx false Hf) HV) as (s & -> & Hok & Em & E1 & E2 & E3 & E4 & E5 & E6).
    cbn [obind]. unfold init_sd. rewrite Em, E4, Hsd. cbn [obind].
    destruct (band_ok_spec W H (set_sd sd s)) as (s' & -> & H1 & H2 & G1 & G2 & G3 & G4 & G5 & G6 & G7 & G8 & _).
    { apply ok_set_sd; assumption. }
    exists s'. split; [reflexivity|]. split; [exact H1|]. split; [exact H2|]. split; [exact G1|].
    rewrite G5, G7, G8, G2, G3. cbn. auto.
  Qed.

  Lemma new_target_ok f g W H ml bw fx s : fits_ls W H bw ->
    (forall m sd sd', f m sd = Ok sd' -> length sd' = length sd) ->
    (forall m sd sd', g m sd = Ok sd' -> length sd' = length sd) ->
    ls_new_target f g W H ml bw fx = Ok s ->
    valid_params ml bw /\ ls_ok W H s /\ band_ok s /\
    exists sd0 sd1 o sdf, g (mesh_spec W H) (replicate (node_count W H) n0) = Ok sd0 /\
      fmm_march (mesh_spec W H) (fmm_new (mesh_spec W H) false) sd0 = Ok (o, sd1) /\ ls_target s = sd1 /\
      f sdf sd1 = Ok (ls_sd s) /\ topo W H sdf.
  Proof.
    intros Hf Lf Lg. unfold ls_new_target.
    assert (HV : valid_params ml bw \/ ~ valid_params ml bw).
    { unfold valid_params. destruct (n0 <? ml)%num, (ml <? n1)%num; destruct (Nat.lt_ge_cases 2 bw); intuition (try lia; try discriminate). }
    destruct HV as [HV|HV]; [|rewrite (proj2 (alloc_spec W H ml bw fx true Hf) HV); discriminate].
    destruct (proj1 (alloc_spec W H ml bw fx true Hf) HV) as (s0 & -> & Hok & Em & E1 & E2 & E3 & E4 & E5 & E6).
    cbn [obind]. unfold init_sd at 1. rewrite Em, E4.
    destruct (g _ _) as [sd0| | |] eqn:Eg; cbn [obind]; try discriminate.
    assert (L0 : length sd0 = node_count W H) by (rewrite (Lg _ _ _ Eg), replicate_length; reflexivity).
    destruct (reinit_spec W H (set_sd sd0 s0) (ok_set_sd _ _ _ _ Hok L0)) as (_ & R & _).
    destruct (reinitialise _) as [s1| | |]; cbn [obind]; try discriminate.
    destruct (R s1 eq_refl) as (Hok1 & _ & _ & o & Ho).
    cbn [ls_mesh ls_sd set_sd] in Ho. rewrite Em in Ho.
    unfold init_sd. change (ls_mesh (set_target (ls_sd s1) s1)) with (ls_mesh s1).
    change (ls_sd (set_target (ls_sd s1) s1)) with (ls_sd s1).
    destruct (f _ _) as [sd2| | |] eqn:Ef; cbn [obind]; try discriminate.
    assert (Hok2 : ls_ok W H (set_sd sd2 (set_target (ls_sd s1) s1))).
    { pose proof (ok_sd _ _ _ Hok1). pose proof (Lf _ _ _ Ef). destruct Hok1. constructor; cbn; auto. lia. }
    destruct (band_ok_spec W H _ Hok2) as (s' & -> & H1 & H2 & G1 & G2 & G3 & G4 & _). intros Es. inversion Es; subst s'.
    split; [exact HV|]. split; [exact H1|]. split; [exact H2|].
    exists sd0, (ls_sd s1), o, (ls_mesh s1). split; [reflexivity|]. split; [exact Ho|]. split; [rewrite G4; reflexivity|].
    split; [rewrite G1; exact Ef|]. apply (ok_topo _ _ _ Hok1).
  Qed.

  (** ** The border distance *)
  Definition edge_distance (W H i : nat) : nat :=
    let x := i mod (W + 1) in let y := i / (W + 1) in
    Nat.min (Nat.min x (W - x)) (Nat.min y (H - y)).

  Lemma nmin_nofnat a b : (Z.of_nat a < 2 ^ 32)%Z -> (Z.of_nat b < 2 ^ 32)%Z ->
    nmin (nofnat (T := T) a) (nofnat b) = nofnat (Nat.min a b).
  Proof.
    intros Ha Hb. unfold nmin. rewrite nlt_nofnat by assumption.
    destruct (Nat.ltb_spec b a); f_equal; lia.
  Qed.
  Lemma floor_u32_nofnat n : (Z.of_nat n < 2 ^ 32)%Z -> floor_u32 (nofnat (T := T) n) = Ok n.
  Proof.
    intros Hn. unfold floor_u32. rewrite nfloor_nofnat by exact Hn.
    destruct ((0 <=? Z.of_nat n)%Z && (Z.of_nat n <? 2 ^ 32)%Z) eqn:E; [|lia]. rewrite Nat2Z.id. reflexivity.
  Qed.

  Lemma topo_coord W H (m : Mesh T) i n : topo W H m -> m_nodes m !! i = Some n ->
    nd_coord n = mkCoord (nofnat (i mod (W + 1))) (nofnat (i / (W + 1))).
  Proof. intros Ht Hi. apply (tp_node _ _ _ Ht i n Hi). Qed.
  Lemma fits_w W H : mesh_fits W H -> (Z.of_nat W < 2 ^ 32)%Z /\ (Z.of_nat H < 2 ^ 32)%Z.
  Proof. intros (A & B & C). unfold node_count in C. nia. Qed.

  Lemma closest_spec W H (m : Mesh T) sd : topo W H m -> length sd = node_count W H ->
    closestDomainBoundary m sd = Ok (tab (node_count W H) (fun i => nofnat (edge_distance W H i))).
  Proof.
    intros Ht Hl. unfold closestDomainBoundary. rewrite (tp_nN _ _ _ Ht).
    pose proof (fits_w W H (tp_fits _ _ _ Ht)) as [FW FH].
    assert (L : wp False False (for_ (node_count W H) (closest_step m) sd)
      (fun l => l = tab (node_count W H) (fun i => nofnat (edge_distance W H i)))).
    { apply wp_for_pointwise; [exact Hl|]. intros k l Hk Hll _. unfold closest_step.
      destruct (topo_node W H m Ht k Hk) as (n & Hn & _). apply wp_bind. eapply wp_vget; [exact Hn|].
      rewrite (topo_coord W H m k n Ht Hn). cbn [cx cy]. rewrite (tp_w _ _ _ Ht), (tp_h _ _ _ Ht).
      destruct (node_id_split W H k Hk) as (Hx & Hy & _).
      assert (HF : forall a b, (Z.of_nat b < 2 ^ 32)%Z -> a <= b ->
        floor_u32 (nmin (nofnat (T := T) a) (nofnat b - nofnat a)%num) = Ok (Nat.min a (b - a))).
      { intros a b Hb Hab. rewrite nsub_nofnat, nmin_nofnat, floor_u32_nofnat by lia. reflexivity. }
      rewrite HF by assumption. cbn [obind]. rewrite HF by assumption. cbn [obind].
      apply wp_vset; [lia|reflexivity]. }
    apply wp_total in L as (l & -> & ->). reflexivity.
  Qed.

  (** ** Holes *)
  Definition hole_distance (h : Hole T) (p : Coord T) : T := (distance (h_coord h) p - h_r h)%num.
  Definition smaller (d s : T) : T := if (d <? s)%num then d else s.
  Definition holes_value (W H : nat) (holes : list (Hole T)) (i : nat) : T :=
    fold_left (fun s h => smaller (hole_distance h (mkCoord (nofnat (i mod (W + 1))) (nofnat (i / (W + 1))))) s)
      holes (nofnat (edge_distance W H i)).

  Lemma init_holes_spec W H (m : Mesh T) holes sd : topo W H m -> length sd = node_count W H ->
    init_holes m holes sd = Ok (tab (node_count W H) (holes_value W H holes)).
  Proof.
    intros Ht Hl. unfold init_holes. rewrite (closest_spec W H m sd Ht Hl). cbn [obind]. rewrite (tp_nN _ _ _ Ht).
    assert (L : wp False False (for_ (node_count W H) (fun i sd => for_ (length holes) (hole_step m holes i) sd)
        (tab (node_count W H) (fun i => nofnat (edge_distance W H i))))
      (fun l => l = tab (node_count W H) (holes_value W H holes))).
    { apply wp_for_pointwise; [apply tab_length|]. intros k l Hk Hll Hold.
      destruct (topo_node W H m Ht k Hk) as (n & Hn & _).
      set (p := mkCoord (nofnat (T := T) (k mod (W + 1))) (nofnat (k / (W + 1)))).
      set (val := fun j => fold_left (fun s h => smaller (hole_distance h p) s) (take j holes) (nofnat (edge_distance W H k))).
      apply wp_for with (I := fun j l' => l' = <[k := val j]> l).
      - unfold val. rewrite take_0. cbn [fold_left]. symmetry. apply list_insert_id.
        rewrite Hold, tab_lookup by lia. reflexivity.
      - intros j l' Hj ->. unfold hole_step. destruct (lookup_lt_is_Some_2 holes j Hj) as [h Hh].
        apply wp_bind. eapply wp_vget; [exact Hh|]. apply wp_bind. eapply wp_vget; [exact Hn|].
        rewrite (topo_coord W H m k n Ht Hn). fold p. fold (distance (h_coord h) p). fold (hole_distance h p).
        apply wp_bind. eapply wp_vget; [apply list_lookup_insert; lia|].
        assert (Ev : val (S j) = smaller (hole_distance h p) (val j)).
        { unfold val. rewrite (take_S_r _ _ h Hh), fold_left_app. reflexivity. }
        rewrite Ev. unfold smaller. destruct (hole_distance h p <? val j)%num.
        + apply wp_vset; [rewrite insert_length; lia|]. apply list_insert_insert.
        + apply wp_ok. reflexivity.
      - intros l' ->. unfold val. rewrite firstn_all. reflexivity. }
    apply wp_total in L as (l & -> & ->). reflexivity.
  Qed.

  (** ** Polylines *)
  Definition edges (points : list (Coord T)) : list (Coord T * Coord T) := zip points (tail points).
  Lemma edges_lookup points j a b : points !! j = Some a -> points !! (j + 1) = Some b -> edges points !! j = Some (a, b).
  Proof.
    intros Ha Hb. unfold edges. apply lookup_zip_with_Some. exists a, b. split; [reflexivity|]. split; [exact Ha|].
    rewrite lookup_tail. replace (S j) with (j + 1) by lia. exact Hb.
  Qed.
  Lemma edges_length points : length (edges points) = length points - 1.
  Proof. unfold edges. rewrite zip_with_length. destruct points; cbn [length tail]; lia. Qed.

  Definition points_distance (W H : nat) (points : list (Coord T)) (i : nat) : T :=
    fold_left (fun s '(a, b) => smaller (pointToLineDistance a b (mkCoord (nofnat (i mod (W + 1))) (nofnat (i / (W + 1))))) s)
      (edges points) (nofnat (edge_distance W H i)).

  Lemma init_points_spec W H (m : Mesh T) points sd (ins : nat -> bool) : topo W H m -> length sd = node_count W H ->
    points <> [] ->
    (forall i, i < node_count W H ->
       isInsidePolygon (mkCoord (nofnat (i mod (W + 1))) (nofnat (i / (W + 1)))) points = Ok (ins i)) ->
    init_points m points sd = Ok (tab (node_count W H) (fun i =>
      if ins i then (points_distance W H points i * nofZ (-1))%num else points_distance W H points i)).
  Proof.
    intros Ht Hl Hne Hins. unfold init_points. rewrite (closest_spec W H m sd Ht Hl). cbn [obind]. rewrite (tp_nN _ _ _ Ht).
    assert (L : wp False False (for_ (node_count W H) (points_node m points)
        (tab (node_count W H) (fun i => nofnat (edge_distance W H i))))
      (fun l => l = tab (node_count W H) (fun i =>
        if ins i then (points_distance W H points i * nofZ (-1))%num else points_distance W H points i))).
    { apply wp_for_pointwise; [apply tab_length|]. intros k l Hk Hll Hold.
      destruct (topo_node W H m Ht k Hk) as (n & Hn & _). unfold points_node.
      set (p := mkCoord (nofnat (T := T) (k mod (W + 1))) (nofnat (k / (W + 1)))).
      set (val := fun j => fold_left (fun s '(a, b) => smaller (pointToLineDistance a b p) s) (take j (edges points)) (nofnat (edge_distance W H k))).
      apply wp_bind. apply wp_impl with (P := fun l' => l' = <[k := points_distance W H points k]> l).
      { unfold for_edges.
        assert (Em : forall (f : nat -> list T -> outcome (list T)) s, match points with [] => UB | _ :: _ => for_ (length points - 1) f s end
                     = for_ (length points - 1) f s) by (destruct points; [congruence|reflexivity]).
        rewrite Em. apply wp_for with (I := fun j l' => l' = <[k := val j]> l).
        - unfold val. rewrite take_0. cbn [fold_left]. symmetry. apply list_insert_id.
          rewrite Hold, tab_lookup by lia. reflexivity.
        - intros j l' Hj ->. destruct (lookup_lt_is_Some_2 points j) as [a Ha]; [lia|].
          destruct (lookup_lt_is_Some_2 points (j + 1)) as [b Hb]; [lia|].
          apply wp_bind. eapply wp_vget; [exact Ha|]. apply wp_bind. eapply wp_vget; [exact Hb|].
          apply wp_bind. eapply wp_vget; [exact Hn|]. rewrite (topo_coord W H m k n Ht Hn). fold p.
          apply wp_bind. eapply wp_vget; [apply list_lookup_insert; lia|].
          assert (Ev : val (S j) = smaller (pointToLineDistance a b p) (val j)).
          { unfold val. rewrite (take_S_r _ _ _ (edges_lookup _ _ _ _ Ha Hb)), fold_left_app. reflexivity. }
          rewrite Ev. unfold smaller. destruct (pointToLineDistance a b p <? val j)%num.
          + apply wp_vset; [rewrite insert_length; lia|]. apply list_insert_insert.
          + apply wp_ok. reflexivity.
        - intros l' ->. unfold val. rewrite <- edges_length, firstn_all. reflexivity. }
      intros l' ->. apply wp_bind. eapply wp_vget; [exact Hn|]. rewrite (topo_coord W H m k n Ht Hn).
      rewrite (Hins k Hk). cbn [obind]. destruct (ins k).
      - apply wp_bind. eapply wp_vget; [apply list_lookup_insert; lia|].
        apply wp_vset; [rewrite insert_length; lia|]. apply list_insert_insert.
      - apply wp_ok. reflexivity. }
    apply wp_total in L as (l & -> & ->). reflexivity.
  Qed.
End Init.
