(** * DemoKeep: a turn of each demo program that starts with a shape inside the domain (C70). *)

From Coq Require Import Reals Lra.
From Verif Require Import OptModel OptSpec OptSolve OptMain OptTotal OptCases.
From Verif Require Import Base Num NumR NumInt NumSgn MeshModel MeshSpec FmmSpec LevelSetModel LevelSetSpec LevelSetSpecR LevelSetCalls LevelSetHist LevelSetNew LevelSetParams
  BoundaryModel BoundarySpec BoundarySpecR BoundaryLinks BoundaryReal BoundaryGraph NormSpec DemoModel DemoSpec DemoShape DemoSens DemoLength DemoTurn DemoBrolly DemoArea DemoLoop DemoMatch DemoGrad DemoSafe DemoGood.
Local Open Scope R_scope.

Section keep.
  Variables (W H : nat) (s s' : LevelSet R) (b : Boundary R) (nlopt : nat -> Opt R -> Nlopt R) (rng : nat -> R) (lambdas : list R) (nReinit : nat) (time : R).
  Hypothesis Hin : inside_shape W H s.
  Hypothesis Hpol : forall o, polite (op_n o) (nlopt 0%nat o).
  Let m := mkSim s' b lambdas nReinit time.

  Lemma shape_turn (d : Demo R) b2 c dist : new_boundary d s = Ok (s', b) -> d_assign d s' b = Ok b2 -> sens_set b b2 -> d_carry d s' b2 = Ok c -> d_dist d s' = Ok dist ->
    length lambdas = S (length dist) -> (length dist <= 1)%nat -> (forall q, q ∈ bd_points b2 -> length (bp_sens q) = 2%nat) ->
    (forall k, (k < length lambdas)%nat -> exists q, q ∈ bd_points b2 /\ nth k (bp_sens q) 0 <> 0) -> ends_or_moves W H d nlopt rng m c.
  Proof.
    intros E Ea Ss Ec Ed Ll Ld Hs Hk. destruct (good_boundary W H s Hin d) as (s2 & b0 & E' & Hr' & Lim & Pts & _). assert (s2 = s' /\ b0 = b) as [-> ->] by (split; congruence).
    assert (P2 : forall q, q ∈ bd_points b2 -> bp_fixed q = false /\ bp_domain q = false /\ 0 < bp_length q).
    { intros q Hq. apply elem_of_list_lookup in Hq as [k Ek]. destruct Ss as (_ & _ & L & K). destruct (lookup_lt_is_Some_2 (bd_points b) k) as [p Ep]; [rewrite <- L; eauto using lookup_lt_Some|].
      rewrite (K k p q Ep Ek). cbn. destruct (Pts p (elem_of_list_lookup_2 _ _ _ Ep)) as (A & B & C & _). auto. }
    apply (turn_safe W H d s m nlopt rng b2 c dist (is_reached _ _ _ Hin) (is_width _ _ _ Hin) (is_height _ _ _ Hin) E Ea Ss Ec Ed Ll).
    - cbn [m sm_lambdas]. lia.
    - intros q Hq _. cbn [m sm_lambdas]. rewrite (Hs q Hq). lia.
    - intros k Hk'. destruct (Hk k Hk') as (q & Hq & Nz). destruct (P2 q Hq) as (A & B & C). split; [exists q; auto|]. intros z Hz _. destruct (P2 z Hz) as (_ & _ & L). lra.
    - intros q Hq _. apply (P2 q Hq).
    - cbn [m sm_lambdas sm_ls]. destruct dist as [|x [|y l]]; [|apply single_constraint|cbn in Ld; lia].
      + left. intros k z Hk'. cbn in Ll. lia.
      + destruct (reached_settings W H s' Hr') as (_ & V & V'). apply Rltb_true in V. unfold n0 in V. cbn in V. lra.
      + exact Ll.
    - intros o _. apply Hpol.
  Qed.

  Lemma same_count (b2 : Boundary R) : sens_set b b2 -> forall q, q ∈ bd_points b2 -> exists i p, bd_points b !! i = Some p /\ bd_points b2 !! i = Some q.
  Proof.
    intros (_ & _ & L & _) q Hq. apply elem_of_list_lookup in Hq as [k Ek]. destruct (lookup_lt_is_Some_2 (bd_points b) k) as [p Ep]; [rewrite <- L; eauto using lookup_lt_Some|]. eauto.
  Qed.
  Lemma same_count' (b2 : Boundary R) : sens_set b b2 -> forall p, p ∈ bd_points b -> exists i q, bd_points b !! i = Some p /\ bd_points b2 !! i = Some q.
  Proof.
    intros (_ & _ & L & _) q Hq. apply elem_of_list_lookup in Hq as [k Ek]. destruct (lookup_lt_is_Some_2 (bd_points b2) k) as [p Ep]; [rewrite L; eauto using lookup_lt_Some|]. eauto.
  Qed.

  (** minimise_perimeter *)
  Lemma mean_sens_R (b2 : Boundary R) (f : BoundaryPoint R -> R) : (forall i q, bd_points b2 !! i = Some q -> exists r, bp_sens q = f q :: r) ->
    mean_sens b2 = Ok (sumR (map f (bd_points b2)) / INR (length (bd_points b2))).
  Proof.
    intros Hs. unfold mean_sens. set (g := fun i c => _).
    assert (X : wp False False (for_ (length (bd_points b2)) g n0) (fun c => c = sumR (map f (bd_points b2)))).
    { apply (wp_for _ _ (fun i (c : R) => c = sumR (map f (take i (bd_points b2))))).
      - reflexivity.
      - intros i c Hi ->. unfold g. destruct (lookup_lt_is_Some_2 (bd_points b2) i Hi) as [q Eq]. unfold vget. rewrite Eq. cbn [obind]. destruct (Hs i q Eq) as [r ->]. cbn.
        rewrite (take_S_r _ _ _ Eq), map_app. unfold sumR. rewrite fold_right_app. cbn. generalize (map f (take i (bd_points b2))). intros l. induction l as [|x l IH]; cbn; [lra|]. rewrite <- IH. lra.
      - intros c ->. rewrite firstn_all. reflexivity. }
    apply wp_total in X as (c & -> & ->). cbn [obind]. rewrite nofnat_R. reflexivity.
  Qed.

  Theorem perimeter_keep : new_boundary minimise_perimeter s = Ok (s', b) -> length lambdas = 1%nat -> (exists p, p ∈ bd_points b /\ curvature delta b p <> 0) ->
    ends_or_moves W H minimise_perimeter nlopt rng m (sumR (map (curvature delta b) (bd_points b)) / INR (length (bd_points b))).
  Proof.
    intros E Ll (p & Hp & Nz). destruct (perimeter_assign W H s s' b (is_reached _ _ _ Hin) E) as (b2 & Ea & Ss & K).
    apply (shape_turn minimise_perimeter b2 _ [] E Ea Ss).
    - cbn [minimise_perimeter d_carry].
      assert (A : map (fun q => nth 0 (bp_sens q) 0) (bd_points b2) = map (curvature delta b) (bd_points b)).
      { apply list_eq. intros i. change (map ?f ?l) with (f <$> l). rewrite !list_lookup_fmap. destruct (bd_points b !! i) as [q|] eqn:Eq.
        - destruct (lookup_lt_is_Some_2 (bd_points b2) i) as [q2 Eq2]; [destruct Ss as (_ & _ & -> & _); eauto using lookup_lt_Some|]. rewrite Eq2. cbn. rewrite (K i q q2 Eq Eq2). reflexivity.
        - apply lookup_ge_None in Eq. rewrite (proj2 (lookup_ge_None (bd_points b2) i)); [reflexivity|]. destruct Ss as (_ & _ & -> & _). exact Eq. }
      rewrite (mean_sens_R b2 (fun q => nth 0 (bp_sens q) 0)).
      + rewrite A. destruct Ss as (_ & _ & -> & _). reflexivity.
      + intros i q Eq. destruct (same_count b2 Ss q (elem_of_list_lookup_2 _ _ _ Eq)) as (i' & p' & Ep' & Eq'). rewrite (K i' p' q Ep' Eq'). cbn. eexists. reflexivity.
    - reflexivity.
    - exact Ll.
    - cbn; lia.
    - intros q Hq. destruct (same_count b2 Ss q Hq) as (i & p' & Ep' & Eq'). rewrite (K i p' q Ep' Eq'). reflexivity.
    - intros k Hk. assert (k = 0%nat) as -> by lia. destruct (same_count' b2 Ss p Hp) as (i & q & Ep & Eq). exists q. split; [exact (elem_of_list_lookup_2 _ _ _ Eq)|].
      rewrite (K i p q Ep Eq). exact Nz.
  Qed.

  (** minimise_area *)
  Theorem area_keep : new_boundary minimise_area s = Ok (s', b) -> length lambdas = 1%nat -> ends_or_moves W H minimise_area nlopt rng m 0.
  Proof.
    intros E Ll. destruct (new_points _ W H s s' b (is_reached _ _ _ Hin) E) as [_ Bl].
    assert (X := each_point_spec (fun _ _ p => set_sens 0 n1 p) b (fun _ p l => l = [1; 0]) False False). apply wp_total in X as (b2 & Eb & Ss & _ & K).
    2: { intros i p ps Ep _ _. unfold set_sens. rewrite (Bl i p Ep). cbn [vset obind wp]. eexists. split; reflexivity. }
    destruct (good_boundary W H s Hin minimise_area) as (s2 & b0 & E' & _ & _ & _ & Ne & _). assert (s2 = s' /\ b0 = b) as [-> ->] by (split; congruence).
    apply (shape_turn minimise_area b2 _ [] E Eb Ss eq_refl eq_refl Ll).
    - cbn; lia.
    - intros q Hq. destruct (same_count b2 Ss q Hq) as (i & p' & Ep' & Eq'). rewrite (K i p' q Ep' Eq'). reflexivity.
    - intros k Hk. assert (k = 0%nat) as -> by lia. assert (Hp : exists p, p ∈ bd_points b) by (destruct (bd_points b) as [|p l]; [congruence|exists p; left]). destruct Hp as [p Hp].
      destruct (same_count' b2 Ss p Hp) as (i & q & Ep & Eq). exists q. split; [exact (elem_of_list_lookup_2 _ _ _ Eq)|]. rewrite (K i p q Ep Eq). cbn. lra.
  Qed.

  (** minimise_perimeter_constrained *)
  Theorem constrained_keep t area : new_boundary (minimise_perimeter_constrained t area) s = Ok (s', b) -> length lambdas = 2%nat ->
    (exists p, p ∈ bd_points b /\ curvature delta b p - t * curvature delta b p / (2 * bp_length p) <> 0) ->
    ends_or_moves W H (minimise_perimeter_constrained t area) nlopt rng m 0.
  Proof.
    intros E Ll (p & Hp & Nz). destruct (constrained_assign W H t area s s' b (is_reached _ _ _ Hin) E) as (b2 & Ea & Ss & K).
    destruct (good_boundary W H s Hin (minimise_perimeter_constrained t area)) as (s2 & b0 & E' & _ & _ & _ & _ & _ & Ar). assert (s2 = s' /\ b0 = b) as [-> ->] by (split; congruence).
    destruct (Ar eq_refl) as (A & EA & _).
    apply (shape_turn (minimise_perimeter_constrained t area) b2 _ [(meshArea s' * area - A)%num] E Ea Ss eq_refl).
    - cbn [minimise_perimeter_constrained d_dist]. rewrite EA. reflexivity.
    - exact Ll.
    - cbn; lia.
    - intros q Hq. destruct (same_count b2 Ss q Hq) as (i & p' & Ep' & Eq'). rewrite (K i p' q Ep' Eq'). reflexivity.
    - intros k Hk. destruct (same_count' b2 Ss p Hp) as (i & q & Ep & Eq). exists q. split; [exact (elem_of_list_lookup_2 _ _ _ Eq)|].
      rewrite (K i p q Ep Eq). cbn [with_sens bp_sens]. destruct k as [|[|k]]; [exact Nz|cbn; lra|lia].
  Qed.

  Lemma inner_inside d : inner_shape W H s -> new_boundary d s = Ok (s', b) -> forall p, p ∈ bd_points b -> well_inside W H (bp_coord p).
  Proof.
    intros [_ Inn] E p Hp. destruct (new_boundary_parts d W H s s' b (is_reached _ _ _ Hin) E) as (s1 & b1 & E1 & _ & _ & _ & (_ & _ & L & K) & _).
    apply elem_of_list_lookup in Hp as [k Ek]. destruct (lookup_lt_is_Some_2 (bd_points b1) k) as [p1 Ek1]; [rewrite <- L; eauto using lookup_lt_Some|].
    rewrite (K k p1 p Ek1 Ek). exact (inner_points W H s s1 b1 (is_reached _ _ _ Hin) (is_off _ _ _ Hin) Inn E1 p1 (elem_of_list_lookup_2 _ _ _ Ek1)).
  Qed.

  (** shape_match *)
  Theorem match_keep t area : inner_shape W H s -> length (ls_target s) = node_count W H -> new_boundary (shape_match t area) s = Ok (s', b) -> length lambdas = 1%nat ->
    (exists p, p ∈ bd_points b /\ forall k v, getClosestNode (ls_mesh s) (cx (bp_coord p)) (cy (bp_coord p)) = Ok k -> mismatch_value W s (bp_coord p) k v -> v <> 0) ->
    ends_or_moves W H (shape_match t area) nlopt rng m 0.
  Proof.
    intros Inn Lt E Ll (p & Hp & Nz). destruct (match_sensitivities W H t area s s' b (is_reached _ _ _ Hin) Lt E (inner_inside _ Inn E)) as (b2 & Ea & Ss & _ & K).
    apply (shape_turn (shape_match t area) b2 _ [] E Ea Ss eq_refl eq_refl Ll).
    - cbn; lia.
    - intros q Hq. destruct (same_count b2 Ss q Hq) as (i & p' & Ep' & Eq'). destruct (K i p' q Ep' Eq') as (k & v & _ & _ & -> & _). reflexivity.
    - intros j Hj. assert (j = 0%nat) as -> by lia. destruct (same_count' b2 Ss p Hp) as (i & q & Ep & Eq). exists q. split; [exact (elem_of_list_lookup_2 _ _ _ Eq)|].
      destruct (K i p q Ep Eq) as (k & v & Ek & Mv & -> & _). exact (Nz k v Ek Mv).
  Qed.

  (** dumbbell, bimodal, bimodal_brolly *)
  Theorem gravity_keep g t maxMismatch areas (d : Demo R) :
    d = dumbbell g t maxMismatch areas \/ (exists width, d = bimodal g t maxMismatch areas width) \/ d = brolly g t maxMismatch areas ->
    inner_shape W H s -> length (ls_target s) = node_count W H -> gravity_ok g -> length areas = (W * H)%nat -> new_boundary d s = Ok (s', b) -> length lambdas = 2%nat ->
    (exists p, p ∈ bd_points b /\ weighted_curvature g delta b p - t * curvature delta b p / (2 * bp_length p) <> 0) ->
    (exists p, p ∈ bd_points b /\ forall k v, getClosestNode (ls_mesh s) (cx (bp_coord p)) (cy (bp_coord p)) = Ok k -> mismatch_value W s (bp_coord p) k v -> v <> 0) ->
    ends_or_moves W H d nlopt rng m (L1 areas (areas_of (ls_mesh s'))).
  Proof.
    intros Hd Inn Lt Hg La E Ll (p & Hp & Nz) (p' & Hp' & Nz').
    destruct (good_boundary W H s Hin d) as (s2 & b0 & E' & Hr' & _ & _ & _ & Ns & _). assert (s2 = s' /\ b0 = b) as [-> ->] by (split; congruence).
    destruct (gravity_assigned W H g t d s s' b (is_reached _ _ _ Hin) Lt Hg E (inner_inside _ Inn E) Ns) as (b2 & Ea & Ss & K).
    pose proof (ok_topo _ _ _ (so_ok _ _ _ (reached_sound _ _ _ Hr'))) as Ht.
    assert (Mm : computeMismatch (ls_mesh s') areas = Ok (L1 areas (areas_of (ls_mesh s')))).
    { apply mismatch_R; rewrite (tp_nE _ _ _ Ht); [exact (tp_lenE _ _ _ Ht)|exact La]. }
    assert (D : d_assign d = gravity_assign g t /\ d_carry d s' b2 = Ok (L1 areas (areas_of (ls_mesh s'))) /\ exists x, d_dist d s' = Ok [x]).
    { destruct Hd as [->|[[w ->]| ->]]; cbn [dumbbell bimodal brolly d_assign d_carry d_dist]; unfold mismatch_distance; rewrite Mm; (split; [reflexivity|]; split; [reflexivity|]; eexists; reflexivity). }
    destruct D as (D1 & D2 & x & D3).
    apply (shape_turn d b2 _ [x] E ltac:(rewrite D1; exact Ea) Ss D2 D3 Ll).
    - cbn; lia.
    - intros q Hq. destruct (same_count b2 Ss q Hq) as (i & z & Ez & Eq'). destruct (K i z q Ez Eq') as (k & v & _ & _ & _ & ->). reflexivity.
    - intros j Hj. destruct j as [|[|j]]; [| |lia].
      + destruct (same_count' b2 Ss p Hp) as (i & q & Ep & Eq). exists q. split; [exact (elem_of_list_lookup_2 _ _ _ Eq)|]. destruct (K i p q Ep Eq) as (k & v & _ & _ & _ & ->). exact Nz.
      + destruct (same_count' b2 Ss p' Hp') as (i & q & Ep & Eq). exists q. split; [exact (elem_of_list_lookup_2 _ _ _ Eq)|]. destruct (K i p' q Ep Eq) as (k & v & Ek & Mv & _ & ->). exact (Nz' k v Ek Mv).
  Qed.
End keep.

(** Every turn of a run starts with the boundary of some level set, so the theorems above apply to all of them. *)
Section states.
  Context {T : Type} {NT : Num T} {NI : NumInt T}.
  Variable d : Demo T.
  Hypothesis Hm : forall c s b s' v, d_measure d c s b = Ok (s', v) -> s' = s.
  Lemma sampling_same interval : forall fl carried m next log m' next' log', sampling fl d interval carried m next log = Ok (m', next', log') -> m' = m.
  Proof.
    induction fl as [|fl IH]; intros carried m next log m' next' log' E; cbn [sampling] in E; destruct (next <=? sm_time m)%num; try discriminate; try (injection E as <- _ _; reflexivity).
    apply obind_Ok in E as ([s v] & E1 & E). apply IH in E. rewrite (Hm _ _ _ _ _ E1) in E. rewrite E. destruct m; reflexivity.
  Qed.
  Theorem run_states W H nlopt fuel rng interval maxTime k r l r' : history d nlopt fuel rng interval maxTime k r l r' ->
    (exists s, reached W H s /\ new_boundary d s = Ok (sm_ls (rn_sim r), sm_bd (rn_sim r))) ->
    exists s, reached W H s /\ new_boundary d s = Ok (sm_ls (rn_sim r'), sm_bd (rn_sim r')).
  Proof.
    induction 1 as [|k r r1 b l r2 _ E _ IH]; [auto|]. intros (s & Hr & En). apply IH. unfold full_turn in E. apply obind_Ok in E as ([[m c] ri] & E1 & E). apply obind_Ok in E as ([[m' nx] lg] & E2 & E). injection E as <- _. cbn [rn_sim].
    rewrite (sampling_same _ _ _ _ _ _ _ _ _ E2).
    destruct (flag_meaning d fuel W H _ _ _ _ _ _ (proj1 (new_boundary_inv d W H s _ _ Hr En)) E1) as (_ & _ & _ & _ & s3 & _ & _ & _ & _ & _ & _ & _ & _ & R3 & N3 & _). eauto.
  Qed.
End states.
Lemma measures_keep (d : Demo R) g t a m areas w :
  d = minimise_area \/ d = minimise_perimeter \/ d = minimise_perimeter_constrained t a \/ d = dumbbell g t m areas \/ d = bimodal g t m areas w \/ d = brolly g t m areas ->
  forall c s b s' v, d_measure d c s b = Ok (s', v) -> s' = s.
Proof.
  intros Hd c s b s' v E. destruct Hd as [->|[->|[->|[->|[->| ->]]]]]; cbn [minimise_area minimise_perimeter minimise_perimeter_constrained dumbbell bimodal brolly d_measure] in E;
    repeat (apply obind_Ok in E as (? & _ & E)); repeat match goal with z : (R * R)%type |- _ => destruct z end; injection E as <- _; reflexivity.
Qed.
Lemma any_polite (x : nat -> R) k (o : Opt R) : polite (op_n o) (evaluate x k o).
Proof. split; [lia|]. intros v gr. cbn. lia. Qed.
