(** * NormProofs: computeNormalVectors. *)

From Coq Require Import Reals.
From Verif Require Import Num NumInt MeshModel MeshSpec MeshTopo LevelSetModel LevelSetSpec LevelSetBand LevelSetOps LevelSetInit LevelSetGrad FmmModel FmmSpec FmmFacts MeshProofs BoundarySpec BoundaryModel NormSpec.
From Coq Require Import ZifyBool ZifyNat.
Local Open Scope nat_scope.

Lemma lookup_map {A B} (f : A -> B) l i : map f l !! i = f <$> (l !! i).
Proof. revert i. induction l as [|a l IH]; intros [|i]; cbn; auto. Qed.

Section Norm.
  Context {T : Type} {NT : Num T} {NI : NumInt T}.
  Variables (W H : nat) (s : LevelSet T) (b : Boundary T).
  Hypothesis Ht : topo W H (ls_mesh s).
  Hypothesis Hsd : length (ls_sd s) = node_count W H.
  Hypothesis Hnb : ls_nBand s <= length (ls_band s).
  Hypothesis Hband : forall i, i ∈ band_list s -> i < node_count W H.
  Hypothesis Hn4 : forall i n, m_nodes (ls_mesh s) !! i = Some n -> nd_nBpts n <= 4.
  Hypothesis Hpts : forall i k, k ∈ points_at s i -> k < length (bd_points b).

  (** What one source does to the normal, weight and flag of a point at [c]. *)
  Definition take_in (c : Coord T) (st : Coord T * T * bool) (qv : Coord T * Coord T) : Coord T * T * bool :=
    let '(N, w, f) := st in
    let '(q, v) := qv in
    let r := ((cx q - cx c) * (cx q - cx c) + (cy q - cy c) * (cy q - cy c))%num in
    if (r <? nlit 1 1000000)%num then (v, n1, true)
    else if f then st
    else (mkCoord (cx N + cx v / r)%num (cy N + cy v / r)%num, (w + n1 / r)%num, f).
  Definition mixed (c : Coord T) (l : list (Coord T * Coord T)) : Coord T * T * bool :=
    fold_left (take_in c) l (mkCoord n0 n0, n0, false).

  (** The state when the sources [src k] of each point [k] have been taken in. *)
  Definition taken (src : nat -> list (Coord T * Coord T)) (st : NormState) : Prop :=
    let '(ps, ws, fs) := st in
    length ps = length (bd_points b) /\ length ws = length ps /\ length fs = length ps /\
    forall k p, bd_points b !! k = Some p -> exists N w f, mixed (bp_coord p) (src k) = (N, w, f) /\
      ps !! k = Some (set_bp_normal N p) /\ ws !! k = Some w /\ fs !! k = Some f.

  Lemma slope_ok (g : nat -> outcome T) (h : nat -> T) n k : 1 <= n -> (Z.of_nat n < 2 ^ 32)%Z -> k <= n ->
    (forall j, j <= n -> g j = Ok (h j)) ->
    (if (k =? 0)%nat then let! a := g (uadd k 1) in let! c := g k in Ok (a - c)%num
     else if (k =? n)%nat then let! a := g k in let! c := g (usub k 1) in Ok (a - c)%num
     else let! a := g (uadd k 1) in let! c := g (usub k 1) in Ok (nlit 1 2 * (a - c))%num) = Ok (slope h n k).
  Proof.
    intros Hn Hb Hk Hg. unfold slope. destruct (Nat.eqb_spec k 0) as [->|H0].
    - rewrite uadd_ok by lia. rewrite !Hg by lia. reflexivity.
    - destruct (Nat.eqb_spec k n) as [->|H1].
      + rewrite usub_ok by lia. rewrite !Hg by lia. reflexivity.
      + rewrite uadd_ok, usub_ok by lia. rewrite !Hg by lia. reflexivity.
  Qed.

  Lemma sd_here x y : x <= W -> y <= H -> sd_at (ls_mesh s) (ls_sd s) x y = Ok (field W (ls_sd s) x y).
  Proof.
    intros Hx Hy. unfold sd_at, xy_index. rewrite (tp_xy _ _ _ Ht). cbn [mesh_spec m_xy].
    unfold vget at 1. rewrite tab_lookup by lia. cbn [obind]. unfold vget at 1. rewrite tab_lookup by lia. cbn [obind].
    unfold vget. rewrite (field_lookup W H _ Hsd) by assumption. reflexivity.
  Qed.

  Lemma unit_normal_ok i : i < node_count W H ->
    unit_normal (ls_mesh s) (ls_sd s) (i mod (W + 1)) (i / (W + 1)) = Ok (node_normal W H (ls_sd s) i).
  Proof.
    intros Hi. destruct (node_id_split W H i Hi) as (Hx & Hy & _). set (x := i mod (W + 1)) in *. set (y := i / (W + 1)) in *.
    pose proof (tp_fits _ _ _ Ht) as F. pose proof (fits_w W H F) as [FW FH].
    unfold unit_normal, central. rewrite (tp_w _ _ _ Ht), (tp_h _ _ _ Ht).
    rewrite (slope_ok (fun j => sd_at (ls_mesh s) (ls_sd s) j y) (fun j => field W (ls_sd s) j y) W x);
      [|destruct F; lia|lia|exact Hx|intros j Hj; apply sd_here; assumption].
    cbn [obind].
    rewrite (slope_ok (fun j => sd_at (ls_mesh s) (ls_sd s) x j) (fun j => field W (ls_sd s) x j) H y);
      [|destruct F; lia|lia|exact Hy|intros j Hj; apply sd_here; assumption].
    reflexivity.
  Qed.

  Lemma point_step nc v bpts j st src : taken src st -> (exists k, bpts !! j = Some k /\ k < length (bd_points b)) ->
    wp False False (normal_point nc v bpts j st)
      (taken (fun k => src k ++ map (fun _ => (nc, v)) (List.filter (Nat.eqb k) (match bpts !! j with Some k' => [k'] | None => [] end)))).
  Proof.
    destruct st as [[ps ws] fs]. intros (L1 & L2 & L3 & K) (k & Ek & Hk). rewrite Ek.
    destruct (lookup_lt_is_Some_2 _ _ Hk) as [p Ep]. destruct (K k p Ep) as (N & w & f & M & P1 & P2 & P3).
    assert (G : forall N' w' f' ps' ws' fs', take_in (bp_coord p) (N, w, f) (nc, v) = (N', w', f') ->
      ps' = <[k := set_bp_normal N' p]> ps -> ws' = <[k := w']> ws -> fs' = <[k := f']> fs ->
      taken (fun k0 => src k0 ++ map (fun _ => (nc, v)) (List.filter (Nat.eqb k0) [k])) (ps', ws', fs')).
    { intros N' w' f' ps' ws' fs' Et -> -> ->. unfold taken. rewrite !insert_length. split; [exact L1|]. split; [exact L2|]. split; [exact L3|].
      intros k0 p0 E0. cbn [List.filter]. destruct (Nat.eqb_spec k0 k) as [->|Hne].
      - assert (p0 = p) as -> by congruence. exists N', w', f'. unfold mixed in *. cbn [map]. rewrite fold_left_app, M. cbn [fold_left]. rewrite Et.
        rewrite !list_lookup_insert by lia. auto.
      - cbn [map]. rewrite app_nil_r. rewrite !list_lookup_insert_ne by auto. exact (K k0 p0 E0). }
    unfold normal_point. apply wp_bind. apply (wp_vget _ _ _ _ _ k Ek). apply wp_bind. apply (wp_vget _ _ _ _ _ _ P1). cbn [bp_coord set_bp_normal].
    cbv zeta. unfold take_in in G. cbv zeta in G.
    destruct (_ <? nlit 1 1000000)%num.
    - do 3 (apply wp_bind; apply wp_vset; [lia|]). cbn. apply (G v n1 true); reflexivity.
    - apply wp_bind. apply (wp_vget _ _ _ _ _ _ P3). destruct f; cbn [negb].
      + cbn. apply (G N w true); [reflexivity|symmetry; apply list_insert_id; assumption..].
      + apply wp_bind, wp_vset; [lia|]. apply wp_bind. apply (wp_vget _ _ _ _ _ _ P2). apply wp_bind, wp_vset; [lia|]. cbn [wp].
        eapply G; [reflexivity|cbn [bp_normal set_bp_normal]..]; [reflexivity|reflexivity|symmetry; apply list_insert_id; assumption].
  Qed.

  Lemma taken_ext src src' st : (forall k, k < length (bd_points b) -> src k = src' k) -> taken src st -> taken src' st.
  Proof.
    destruct st as [[ps ws] fs]. intros E (L1 & L2 & L3 & K). split; [exact L1|]. split; [exact L2|]. split; [exact L3|].
    intros k p Ep. rewrite <- E by eauto using lookup_lt_Some. exact (K k p Ep).
  Qed.

  Lemma node_step i node st src : i < ls_nBand s -> ls_band s !! i = Some node -> taken src st ->
    wp False False (normal_node s i st) (taken (fun k => src k ++ sources_in W H s k [node])).
  Proof.
    intros Hi En St. assert (Hnode : node < node_count W H).
    { apply Hband. unfold band_list. apply elem_of_list_lookup. exists i. rewrite lookup_take by exact Hi. exact En. }
    unfold normal_node. apply wp_bind. apply (wp_vget _ _ _ _ _ _ En). apply wp_bind.
    destruct (topo_node W H _ Ht node Hnode) as (n & Ex & _). apply (wp_vget _ _ _ _ _ _ Ex).
    assert (Pa : points_at s node = take (nd_nBpts n) (nd_bpts n)) by (unfold points_at; rewrite Ex; reflexivity).
    pose proof (tp_bpts _ _ _ Ht _ _ Ex) as L4. pose proof (Hn4 _ _ Ex) as Le.
    destruct (Nat.ltb_spec 0 (nd_nBpts n)) as [L|L].
    2: { cbn. eapply taken_ext; [|exact St]. intros k _. unfold sources_in. cbn. rewrite Pa. replace (nd_nBpts n) with 0 by lia. cbn. rewrite app_nil_r. reflexivity. }
    destruct (node_id_split W H node Hnode) as (Hx & Hy & _). pose proof (tp_fits _ _ _ Ht) as F. pose proof (fits_w W H F) as [FW FH].
    rewrite (topo_coord W H _ _ n Ht Ex). cbn [cx cy]. rewrite !floor_u32_nofnat by lia. cbn [obind]. rewrite unit_normal_ok by exact Hnode. cbn [obind].
    fold (@node_xy T NT W node). set (v := node_normal W H (ls_sd s) node).
    apply (wp_for _ _ (fun j => taken (fun k => src k ++ map (fun _ => (node_xy W node, v)) (List.filter (Nat.eqb k) (take j (nd_bpts n)))))).
    - eapply taken_ext; [|exact St]. intros k _. cbn. rewrite app_nil_r. reflexivity.
    - intros j st' Hj St'. destruct (lookup_lt_is_Some_2 (nd_bpts n) j) as [k Ek]; [lia|].
      eapply wp_impl; [apply (point_step _ _ _ _ _ _ St')|].
      + exists k. split; [exact Ek|]. apply (Hpts node). rewrite Pa. apply elem_of_list_lookup. exists j. rewrite lookup_take by exact Hj. exact Ek.
      + intros st2. apply taken_ext. intros k0 _. rewrite Ek. rewrite (take_S_r _ _ _ Ek), List.filter_app, map_app, app_assoc. reflexivity.
    - intros st'. apply taken_ext. intros k _. unfold sources_in. cbn [map concat]. rewrite app_nil_r, Pa. reflexivity.
  Qed.

  Theorem normals_returns : wp False False (computeNormalVectors s b) (fun b' => same_but_normals b b' /\
    forall k p p', bd_points b !! k = Some p -> bd_points b' !! k = Some p' ->
      exists N w f, mixed (bp_coord p) (sources W H s k) = (N, w, f) /\
        bp_normal p' = if bp_domain p then N else
          let nx := (cx N / w)%num in let ny := (cy N / w)%num in let norm := nsqrt (nx * nx + ny * ny)%num in mkCoord (nx / norm)%num (ny / norm)%num).
  Proof.
    unfold computeNormalVectors. apply wp_bind.
    apply (wp_for _ _ (fun i => taken (fun k => sources_in W H s k (take i (ls_band s))))).
    - cbn. rewrite map_length, !replicate_length. split; [reflexivity|]. split; [reflexivity|]. split; [reflexivity|].
      intros k p Ep. exists (mkCoord n0 n0), n0, false. split; [reflexivity|]. pose proof (lookup_lt_Some _ _ _ Ep).
      rewrite !lookup_replicate_2 by assumption. rewrite lookup_map, Ep. auto.
    - intros i st Hi St. destruct (lookup_lt_is_Some_2 (ls_band s) i) as [node En]; [lia|].
      eapply wp_impl; [apply (node_step _ _ _ _ Hi En St)|]. intros st2. apply taken_ext. intros k _.
      rewrite (take_S_r _ _ _ En). unfold sources_in. rewrite map_app, concat_app. reflexivity.
    - intros [[ps ws] fs] (L1 & L2 & L3 & K). apply wp_bind.
      apply (wp_for _ _ (fun i qs => length qs = length ps /\
        (forall k, i <= k -> qs !! k = ps !! k) /\ (forall k q, k < i -> ps !! k = Some q -> exists w, ws !! k = Some w /\ qs !! k = Some (
          if bp_domain q then q else set_bp_normal (
            let nx := (cx (bp_normal q) / w)%num in let ny := (cy (bp_normal q) / w)%num in let norm := nsqrt (nx * nx + ny * ny)%num in mkCoord (nx / norm)%num (ny / norm)%num) q)))).
      + split; [reflexivity|]. split; [reflexivity|]. intros k q Hk. lia.
      + intros i qs Hi (Lq & Q1 & Q2). unfold normalise_point. destruct (lookup_lt_is_Some_2 ps i Hi) as [q Eq].
        apply wp_bind. apply (wp_vget _ _ _ _ _ q); [rewrite Q1 by lia; exact Eq|]. destruct (lookup_lt_is_Some_2 ws i) as [w Ew]; [lia|].
        destruct (bp_domain q) eqn:Ed; cbn [negb].
        * cbn. split; [exact Lq|]. split; [intros k Hk; apply Q1; lia|]. intros k q' Hk Ek. destruct (Nat.eq_dec k i) as [->|Hne]; [|apply Q2; [lia|exact Ek]].
          exists w. split; [exact Ew|]. assert (q' = q) as -> by congruence. rewrite Ed, Q1 by lia. exact Eq.
        * apply wp_bind. apply (wp_vget _ _ _ _ _ _ Ew). apply wp_vset; [lia|]. rewrite insert_length. split; [exact Lq|]. split.
          { intros k Hk. rewrite list_lookup_insert_ne by lia. apply Q1. lia. }
          intros k q' Hk Ek. destruct (Nat.eq_dec k i) as [->|Hne].
          -- assert (q' = q) as -> by congruence. exists w. split; [exact Ew|]. rewrite list_lookup_insert by lia. rewrite Ed. reflexivity.
          -- rewrite list_lookup_insert_ne by auto. apply Q2; [lia|exact Ek].
      + intros qs (Lq & _ & Q2). cbn [wp]. unfold same_but_normals. cbn [bd_segs bd_length bd_points].
        assert (X : forall k p p', bd_points b !! k = Some p -> qs !! k = Some p' ->
          exists N w f, mixed (bp_coord p) (sources W H s k) = (N, w, f) /\ p' = set_bp_normal (if bp_domain p then N else
          let nx := (cx N / w)%num in let ny := (cy N / w)%num in let norm := nsqrt (nx * nx + ny * ny)%num in mkCoord (nx / norm)%num (ny / norm)%num) p).
        { intros k p p' Ep Eq. destruct (K k p Ep) as (N & w & f & M & P1 & P2 & _). destruct (Q2 k _ ltac:(rewrite L1; eauto using lookup_lt_Some) P1) as (w' & Ew & Eq').
          assert (w' = w) as -> by congruence. exists N, w, f. split; [exact M|]. rewrite Eq in Eq'. injection Eq' as ->. cbn [bp_domain set_bp_normal bp_normal].
          destruct (bp_domain p); reflexivity. }
        split; [split; [reflexivity|]; split; [reflexivity|]; split; [lia|]|].
        * intros k p p' Ep Eq. destruct (X k p p' Ep Eq) as (N & w & f & _ & ->). reflexivity.
        * intros k p p' Ep Eq. destruct (X k p p' Ep Eq) as (N & w & f & M & ->). exists N, w, f. split; [exact M|reflexivity].
  Qed.
End Norm.
