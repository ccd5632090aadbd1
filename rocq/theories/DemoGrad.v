(** * DemoGrad: the sensitivities the demo programs assign (C69). *)

From Coq Require Import Reals Lra.
From Verif Require Import Base Num NumR NumInt NumSgn MeshModel MeshSpec LevelSetModel LevelSetSpec LevelSetSpecR LevelSetCalls LevelSetHist LevelSetParams
  BoundaryModel BoundarySpec BoundarySpecR BoundaryFrame BoundaryLinks BoundaryReal BoundaryClosed NormSpec NormProofs NormMain SensModel SensProofs SensReal
  DemoModel DemoSpec DemoSens DemoLength DemoTurn DemoBrolly DemoMatch.

(** ** What a new boundary consists of *)
Section parts.
  Context {T : Type} {NT : Num T} {NI : NumInt T}.
  Lemma normals_of W H (s s1 s' : LevelSet T) b : reached W H s -> discretise s false = Ok (s1, b) -> reached W H s' -> m_nodes (ls_mesh s') = m_nodes (ls_mesh s1) ->
    exists b', computeNormalVectors s' b = Ok b' /\ same_but_normals b b'.
  Proof.
    intros Hr E R' N. destruct (reached_sound _ _ _ R') as [Ho Hb _ _].
    destruct (links_api W H s s1 false b (ok_topo _ _ _ (so_ok _ _ _ (reached_sound _ _ _ Hr))) E) as (_ & _ & _ & L).
    assert (Y : wp False False (computeNormalVectors s' b) (fun b3 => same_but_normals b b3)).
    { eapply wp_impl; [apply (normals_returns W H)|].
      - exact (ok_topo _ _ _ Ho).
      - exact (ok_sd _ _ _ Ho).
      - exact (bs_nb _ _ _ Hb).
      - exact (bs_band _ _ _ Hb).
      - intros i n En. rewrite N in En. apply (L i n En).
      - intros i k. unfold points_at. rewrite N. destruct (m_nodes (ls_mesh s1) !! i) as [n|] eqn:En; [|intros X; inversion X]. apply (L i n En).
      - cbn beta. intros b3 Y. apply Y. }
    apply wp_total in Y. exact Y.
  Qed.
  Lemma same_normals_refl (b : Boundary T) : same_but_normals b b.
  Proof. split; [reflexivity|]. split; [reflexivity|]. split; [reflexivity|]. intros k p p' Ep Ep'. rewrite Ep in Ep'. injection Ep' as <-. destruct p; reflexivity. Qed.
  Lemma new_boundary_parts (d : Demo T) W H (s s' : LevelSet T) b : reached W H s -> new_boundary d s = Ok (s', b) ->
    exists s1 b1, discretise s false = Ok (s1, b1) /\ reached W H s1 /\ reached W H s' /\ m_nodes (ls_mesh s') = m_nodes (ls_mesh s1) /\ same_but_normals b1 b /\
      (d_areas d = true -> exists a, computeAreaFractions s1 b1 = Ok (s', a)) /\ (d_areas d = false -> s' = s1).
  Proof.
    intros Hr E. unfold new_boundary in E. apply obind_Ok in E as ([s1 b1] & E1 & E). apply obind_Ok in E as (s2 & E2 & E). apply obind_Ok in E as (b2 & E3 & E). injection E as <- <-.
    assert (R1 : reached W H s1) by (apply (reached_call _ _ _ _ Hr), c_quiet, (q_discretise _ _ _ _ E1)).
    exists s1, b1. split; [exact E1|]. split; [exact R1|].
    assert (A : reached W H s2 /\ m_nodes (ls_mesh s2) = m_nodes (ls_mesh s1) /\ (d_areas d = true -> exists a, computeAreaFractions s1 b1 = Ok (s2, a)) /\ (d_areas d = false -> s2 = s1)).
    { destruct (d_areas d).
      - apply obind_Ok in E2 as ([s3 a] & E2 & X). injection X as <-. split; [apply (reached_call _ _ _ _ R1), c_quiet, (q_areas _ _ _ _ E2)|].
        destruct (areas_frame _ _ _ _ E2) as (_ & _ & _ & N3). split; [exact N3|]. split; [eauto|discriminate].
      - injection E2 as <-. split; [exact R1|]. split; [reflexivity|]. split; [discriminate|reflexivity]. }
    destruct A as (R2 & N2 & A1 & A2). split; [exact R2|]. split; [exact N2|]. split; [|auto].
    destruct (d_normals d).
    - destruct (normals_of W H s s1 s2 b1 Hr E1 R2 N2) as (b' & E' & S). assert (b' = b2) as -> by congruence. exact S.
    - injection E3 as <-. apply same_normals_refl.
  Qed.
  (** Points of a new boundary. *)
  Lemma new_points (d : Demo T) W H (s s' : LevelSet T) b : reached W H s -> new_boundary d s = Ok (s', b) ->
    neighbours_ok b /\ forall k p, bd_points b !! k = Some p -> bp_sens p = [n0; n0].
  Proof.
    intros Hr E. destruct (new_boundary_parts d W H s s' b Hr E) as (s1 & b1 & E1 & _ & _ & _ & S & _). split.
    - exact (normals_neighbours b1 b (discretised_neighbours W H s s1 false b1 Hr E1) S).
    - destruct S as (_ & _ & L & K). intros k p Ep. destruct (lookup_lt_is_Some_2 (bd_points b1) k) as [p1 Ep1]; [rewrite <- L; eauto using lookup_lt_Some|].
      rewrite (K k p1 p Ep1 Ep). cbn. apply (discretised_blank W H s s1 false b1 (ok_topo _ _ _ (so_ok _ _ _ (reached_sound _ _ _ Hr))) E1 k p1 Ep1).
  Qed.
End parts.
Local Open Scope R_scope.

(** ** Length *)
Lemma delta_R : delta (T := R) = / 10000.
Proof. unfold delta. rewrite nlit_R. lra. Qed.
Lemma perimeterSensitivity_R (b : Boundary R) k p : neighbours_ok b -> bd_points b !! k = Some p -> perimeterSensitivity b p = Ok (curvature delta b p).
Proof.
  intros Hn Ep. destruct (Hn k p Ep) as [N1 N2]. unfold perimeterSensitivity.
  erewrite sens_returns.
  2: rewrite ahead_R, (perimeter_R b p _ N1 N2); reflexivity.
  2: rewrite behind_R, (perimeter_R b p _ N1 N2); reflexivity.
  reflexivity.
Qed.

Lemma coords_linked (b : Boundary R) i p c ps : neighbours_ok b -> bd_points b !! i = Some p -> Forall2 only_sens (bd_points b) ps ->
  (forall j, j ∈ take (bp_nNeigh p) (bp_neigh p) -> j <> i) ->
  linked_to (<[i := at_coord c p]> ps) (at_coord c p) (neighbour_coords b p).
Proof.
  intros Hn Ep F Ne. destruct (Hn i p Ep) as [N1 N2]. unfold linked_to, neighbour_coords. cbn [at_coord bp_nNeigh bp_neigh].
  assert (G : forall l, (forall j, j ∈ l -> (j < length (bd_points b))%nat) ->
    concat (map (fun j => match bd_points b !! j with Some q => [bp_coord q] | None => [] end) l) = map (fun j => match bd_points b !! j with Some q => bp_coord q | None => mkCoord 0 0 end) l).
  { induction l as [|j l IH]; intros Hl; [reflexivity|]. cbn [map concat]. rewrite IH by (intros; apply Hl; right; assumption).
    destruct (lookup_lt_is_Some_2 (bd_points b) j) as [q Eq]; [apply Hl; left|]. rewrite Eq. reflexivity. }
  rewrite G by exact N2. split; [rewrite map_length, take_length; lia|].
  intros n c' En. change (map (fun j => match bd_points b !! j with Some q => bp_coord q | None => mkCoord 0 0 end)) with (fmap (M := list) (fun j => match bd_points b !! j with Some q => bp_coord q | None => mkCoord 0 0 end)) in En.
  rewrite list_lookup_fmap in En. destruct (take (bp_nNeigh p) (bp_neigh p) !! n) as [j|] eqn:Ej; [|discriminate]. cbn in En. injection En as <-.
  pose proof (elem_of_list_lookup_2 _ _ _ Ej) as Hj. destruct (lookup_lt_is_Some_2 (bd_points b) j (N2 j Hj)) as [q0 Eq0].
  destruct (Forall2_lookup_l _ _ _ _ _ F Eq0) as (q & Eq & O). exists j, q. apply lookup_take_Some in Ej as [Ej _]. split; [exact Ej|].
  split; [rewrite list_lookup_insert_ne by (intros X; exact (Ne j Hj (eq_sym X))); exact Eq|]. rewrite Eq0, O. reflexivity.
Qed.

Lemma lengthSensitivity_R g (b : Boundary R) i p ps : gravity_ok g -> neighbours_ok b -> bd_points b !! i = Some p -> Forall2 only_sens (bd_points b) ps ->
  (forall j, j ∈ take (bp_nNeigh p) (bp_neigh p) -> j <> i) ->
  lengthSensitivity g i ps p = Ok (weighted_curvature g delta b p).
Proof.
  intros Hg Hn Ep F Ne. unfold lengthSensitivity.
  assert (X : forall c, pointLength g (<[i := at_coord c p]> ps) (at_coord c p) = Ok (weighted_length_to g (neighbour_coords b p) c)).
  { intros c. apply (pointLength_R g _ _ _ Hg (coords_linked b i p c ps Hn Ep F Ne)). }
  erewrite sens_returns.
  2: rewrite ahead_R, X; reflexivity.
  2: rewrite behind_R, X; reflexivity.
  reflexivity.
Qed.

(** ** The Ito correction after sensitivities have been set *)
Lemma coords_kept (b b2 : Boundary R) l p : sens_set b b2 -> neighbour_coords b2 (with_sens l p) = neighbour_coords b p.
Proof.
  intros (_ & _ & L & K). unfold neighbour_coords. cbn [with_sens bp_nNeigh bp_neigh]. f_equal. apply map_ext. intros j.
  destruct (bd_points b2 !! j) as [q2|] eqn:E2.
  - destruct (lookup_lt_is_Some_2 (bd_points b) j) as [q Eq]; [rewrite <- L; eauto using lookup_lt_Some|]. rewrite Eq, (K j q q2 Eq E2). reflexivity.
  - apply lookup_ge_None in E2. rewrite L in E2. apply lookup_ge_None in E2. rewrite E2. reflexivity.
Qed.
Lemma ito_after (b b2 : Boundary R) t (s0 : nat -> R) (rest : nat -> list R) : neighbours_ok b -> sens_set b b2 ->
  (forall i p q, bd_points b !! i = Some p -> bd_points b2 !! i = Some q -> bp_sens q = s0 i :: rest i) ->
  exists b3, itoCorrection delta b2 t = Ok b3 /\ sens_set b b3 /\
    forall i p q, bd_points b !! i = Some p -> bd_points b3 !! i = Some q -> q = with_sens ((s0 i - t * curvature delta b p / (2 * bp_length p)) :: rest i) p.
Proof.
  intros Hn S Hs. pose proof (sens_set_neighbours b b2 Hn S) as N2. assert (S' := S). destruct S' as (S1 & S2 & L & K).
  assert (H2 : has_sens b2).
  { intros k q Eq. destruct (lookup_lt_is_Some_2 (bd_points b) k) as [p Ep]; [rewrite <- L; eauto using lookup_lt_Some|]. rewrite (Hs k p q Ep Eq). discriminate. }
  destruct (ito_returns delta b2 t N2 H2) as (b3 & E3). exists b3. split; [exact E3|].
  destruct (ito_only_first delta b2 b3 t E3) as (A & B & C & D).
  assert (Q : forall i p q, bd_points b !! i = Some p -> bd_points b3 !! i = Some q -> q = with_sens ((s0 i - t * curvature delta b p / (2 * bp_length p)) :: rest i) p).
  { intros i p q Ep Eq. destruct (lookup_lt_is_Some_2 (bd_points b2) i) as [p2 E2]; [rewrite <- C; eauto using lookup_lt_Some|].
    pose proof (K i p p2 Ep E2) as Kp. rewrite (Hs i p p2 Ep E2) in Kp. destruct (Req_dec t 0) as [->|Ht].
    - unfold itoCorrection in E3. cbn [neqb NumR] in E3. change (n0 (T := R)) with 0 in E3. rewrite (proj2 (Reqb_true 0 0) eq_refl) in E3. injection E3 as <-.
      assert (q = p2) as -> by congruence. rewrite Kp. f_equal. f_equal. unfold Rdiv. ring.
    - destruct (ito_R delta b2 b3 t N2 E3 i p2 q E2 Eq Ht) as (x & r & Ex & ->). rewrite (Hs i p p2 Ep E2) in Ex. injection Ex as <- <-.
      unfold curvature. rewrite Kp, (coords_kept b b2 _ p S). reflexivity. }
  split; [|exact Q]. split; [congruence|]. split; [congruence|]. split; [congruence|]. intros k p q Ep Eq. rewrite (Q k p q Ep Eq). reflexivity.
Qed.

(** ** The programs *)
Theorem perimeter_assign W H (s s' : LevelSet R) b : reached W H s -> new_boundary minimise_perimeter s = Ok (s', b) ->
  exists b', d_assign minimise_perimeter s' b = Ok b' /\ sens_set b b' /\
    forall i p q, bd_points b !! i = Some p -> bd_points b' !! i = Some q -> q = with_sens [curvature delta b p; 0] p.
Proof.
  intros Hr E. destruct (new_points _ W H s s' b Hr E) as [Hn Bl]. cbn [minimise_perimeter d_assign].
  assert (X := each_point_spec (fun _ _ p => let! v := perimeterSensitivity b p in set_sens 0 v p) b (fun _ p l => l = [curvature delta b p; 0]) False False).
  apply wp_total in X as (b' & Eb & S & F & HP).
  - exists b'. split; [exact Eb|]. split; [exact S|]. intros i p q Ep Eq. rewrite <- (HP i p q Ep Eq). apply (proj2 (proj2 (proj2 S)) i p q Ep Eq).
  - intros i p ps Ep _ _. rewrite (perimeterSensitivity_R b i p Hn Ep). cbn [obind]. unfold set_sens. rewrite (Bl i p Ep). cbn [vset obind wp]. eexists. split; reflexivity.
Qed.

Theorem constrained_assign W H t area (s s' : LevelSet R) b : reached W H s -> new_boundary (minimise_perimeter_constrained t area) s = Ok (s', b) ->
  exists b', d_assign (minimise_perimeter_constrained t area) s' b = Ok b' /\ sens_set b b' /\
    forall i p q, bd_points b !! i = Some p -> bd_points b' !! i = Some q ->
      q = with_sens [curvature delta b p - t * curvature delta b p / (2 * bp_length p); -1] p.
Proof.
  intros Hr E. destruct (new_points _ W H s s' b Hr E) as [Hn Bl]. cbn [minimise_perimeter_constrained d_assign].
  assert (X := each_point_spec (fun _ _ p => let! v := perimeterSensitivity b p in let! p := set_sens 0 v p in set_sens 1 (nofZ (-1)) p) b (fun _ p l => l = [curvature delta b p; -1]) False False).
  apply wp_total in X as (b' & Eb & S & F & HP).
  - rewrite Eb. cbn [obind].
    destruct (ito_after b b' t (fun i => match bd_points b !! i with Some p => curvature delta b p | None => 0 end) (fun _ => [-1]) Hn S) as (b3 & E3 & S3 & Q).
    + intros i p q Ep Eq. rewrite Ep. exact (HP i p q Ep Eq).
    + exists b3. split; [exact E3|]. split; [exact S3|]. intros i p q Ep Eq. pose proof (Q i p q Ep Eq) as X. rewrite Ep in X. exact X.
  - intros i p ps Ep _ _. rewrite (perimeterSensitivity_R b i p Hn Ep). cbn [obind]. unfold set_sens. rewrite (Bl i p Ep). cbn [vset obind wp set_bp_sens bp_sens]. eexists. split; reflexivity.
Qed.

Lemma no_loops W H (s s1 : LevelSet R) b1 b i p : reached W H s -> discretise s false = Ok (s1, b1) -> same_but_normals b1 b ->
  (forall n sg, bd_segs b !! n = Some sg -> sg_start sg <> sg_end sg) -> bd_points b !! i = Some p -> forall j, j ∈ take (bp_nNeigh p) (bp_neigh p) -> j <> i.
Proof.
  intros Hr E (Sg & _ & L & K) Ne Ep j Hj ->. destruct (links_api W H s s1 false b1 (ok_topo _ _ _ (so_ok _ _ _ (reached_sound _ _ _ Hr))) E) as (Lk & _).
  destruct (lookup_lt_is_Some_2 (bd_points b1) i) as [p1 Ep1]; [rewrite <- L; eauto using lookup_lt_Some|].
  rewrite (K i p1 p Ep1 Ep) in Hj. cbn in Hj. destruct (Lk i p1 Ep1) as (_ & _ & _ & _ & D). rewrite D in Hj.
  apply elem_of_list_In, in_map_iff in Hj as ([n o] & <- & Hj). apply elem_of_list_In in Hj.
  destruct (incidence_seg b1 o n o Hj) as (sg & Es & Hs). rewrite <- Sg in Es. apply (Ne n sg Es). cbn in Hs. destruct Hs as [[-> ->]|[-> ->]]; reflexivity.
Qed.

Theorem gravity_assigned W H g t (d : Demo R) (s s' : LevelSet R) b : reached W H s -> length (ls_target s) = node_count W H -> gravity_ok g ->
  new_boundary d s = Ok (s', b) -> (forall p, p ∈ bd_points b -> well_inside W H (bp_coord p)) -> (forall n sg, bd_segs b !! n = Some sg -> sg_start sg <> sg_end sg) ->
  exists b', gravity_assign g t s' b = Ok b' /\ sens_set b b' /\
    forall i p q, bd_points b !! i = Some p -> bd_points b' !! i = Some q ->
      exists k v, getClosestNode (ls_mesh s) (cx (bp_coord p)) (cy (bp_coord p)) = Ok k /\ mismatch_value W s (bp_coord p) k v /\ -1 <= v <= 1 /\
        q = with_sens [weighted_curvature g delta b p - t * curvature delta b p / (2 * bp_length p); v] p.
Proof.
  intros Hr Lt Hg E Hin Ne. destruct (new_points _ W H s s' b Hr E) as [Hn Bl]. destruct (new_boundary_parts _ W H s s' b Hr E) as (s1 & b1 & E1 & _ & R' & _ & Sb & _).
  destruct (new_boundary_inv _ W H s s' b Hr E) as (_ & D1 & U). unfold setup in U.
  assert (T1 : ls_target s' = ls_target s) by (injection U; intros; congruence). clear U.
  pose proof (ok_topo _ _ _ (so_ok _ _ _ (reached_sound _ _ _ Hr))) as Ht. pose proof (ok_topo _ _ _ (so_ok _ _ _ (reached_sound _ _ _ R'))) as Ht1.
  assert (Gap : forall n, gap s' n = gap s n) by (intros n; unfold gap; rewrite D1, T1; reflexivity).
  unfold gravity_assign. set (f := fun i ps p => _).
  pose (P := fun (i : nat) p (l : list R) => exists k v, getClosestNode (ls_mesh s) (cx (bp_coord p)) (cy (bp_coord p)) = Ok k /\ mismatch_value W s (bp_coord p) k v /\ -1 <= v <= 1 /\
    l = [weighted_curvature g delta b p; v]).
  assert (X := each_point_spec f b P False False). apply wp_total in X as (b' & Eb & S & F & HP).
  - rewrite Eb. cbn [obind].
    destruct (ito_after b b' t (fun i => match bd_points b !! i with Some p => weighted_curvature g delta b p | None => 0 end) (fun i => match bd_points b' !! i with Some q => tail (bp_sens q) | None => [] end) Hn S) as (b3 & E3 & S3 & Q).
    + intros i p q Ep Eq. rewrite Ep, Eq. destruct (HP i p q Ep Eq) as (k & v & _ & _ & _ & ->). reflexivity.
    + exists b3. split; [exact E3|]. split; [exact S3|]. intros i p q Ep Eq. pose proof (Q i p q Ep Eq) as X. rewrite Ep in X.
      destruct (lookup_lt_is_Some_2 (bd_points b') i) as [q' Eq']; [destruct S as (_ & _ & -> & _); eauto using lookup_lt_Some|]. rewrite Eq' in X.
      destruct (HP i p q' Ep Eq') as (k & v & A & B & C & D). rewrite D in X. exists k, v. auto.
  - intros i p ps Ep Eps F. unfold f. rewrite (lengthSensitivity_R g b i p ps Hg Hn Ep F (no_loops W H s s1 b1 b i p Hr E1 Sb Ne Ep)). cbn [obind].
    unfold set_sens. rewrite (Bl i p Ep). cbn [vset obind set_bp_sens bp_sens bp_coord].
    destruct (closest_inner W H (ls_mesh s') (bp_coord p) Ht1 (Hin p (elem_of_list_lookup_2 _ _ _ Ep))) as (k & Ek & Hk & Ok).
    destruct (sensitivity_R W H s' (bp_coord p) k R' ltac:(rewrite T1; exact Lt) Ek Hk Ok) as (v & Ev & Hv).
    change (vset [n0; n0] 0 (weighted_curvature g delta b p)) with (Base.Ok [weighted_curvature g delta b p; 0]). cbn [obind set_bp_sens bp_sens bp_coord]. rewrite Ev. cbn [obind].
    change (vset [weighted_curvature g delta b p; 0] 1 v) with (Base.Ok [weighted_curvature g delta b p; v]). cbn [obind wp]. eexists. split; [reflexivity|].
    exists k, v. split; [rewrite (closest_topo W H _ _ _ Ht), <- (closest_topo W H _ _ _ Ht1); exact Ek|].
    assert (V : mismatch_value W s (bp_coord p) k v).
    { destruct Hv as [(n & In & Ln & ->)|[A ->]]; [left; exists n; rewrite Gap; auto|right]. split; [exact A|]. unfold weighted_gap.
      do 3 f_equal. apply map_ext. intros n. rewrite Gap. reflexivity. }
    split; [exact V|]. split; [|reflexivity]. destruct V as [(n & _ & _ & ->)|[_ ->]]; apply clamp_bounds.
Qed.
Theorem weighted_assigned W H g t (d : Demo R) (s s' : LevelSet R) b : reached W H s -> length (ls_target s) = node_count W H -> gravity_ok g ->
  (exists maxMismatch areas width, d = dumbbell g t maxMismatch areas \/ d = bimodal g t maxMismatch areas width \/ d = brolly g t maxMismatch areas) ->
  new_boundary d s = Ok (s', b) -> (forall p, p ∈ bd_points b -> well_inside W H (bp_coord p)) -> (forall n sg, bd_segs b !! n = Some sg -> sg_start sg <> sg_end sg) ->
  exists b', d_assign d s' b = Ok b' /\ sens_set b b' /\
    forall i p q, bd_points b !! i = Some p -> bd_points b' !! i = Some q ->
      exists k v, getClosestNode (ls_mesh s) (cx (bp_coord p)) (cy (bp_coord p)) = Ok k /\ mismatch_value W s (bp_coord p) k v /\ -1 <= v <= 1 /\
        q = with_sens [weighted_curvature g delta b p - t * curvature delta b p / (2 * bp_length p); v] p.
Proof.
  intros Hr Lt Hg (mm & ar & w & Hd) E Hin Ne. assert (X : d_assign d = gravity_assign g t) by (destruct Hd as [->|[->| ->]]; reflexivity). rewrite X.
  exact (gravity_assigned W H g t d s s' b Hr Lt Hg E Hin Ne).
Qed.
