(** * DemoRecord: the values the demo programs record (C71) and the distances they give to the optimiser (C69). *)

From Coq Require Import Reals Lra.
From Verif Require Import Base Num NumR NumInt MeshModel MeshSpec MeshTopo LevelSetModel LevelSetSpec LevelSetSpecR LevelSetCalls LevelSetHist
  BoundaryModel BoundarySpec BoundarySpecR BoundaryGraph NormSpec NormMain AreaCut Twin DemoModel DemoSpec DemoShape DemoLength DemoLoop DemoBrolly DemoGrad DemoGood DemoKeep.
Local Open Scope nat_scope.

Section areas.
  Context {T : Type} {NT : Num T} {NI : NumInt T}.

  Lemma mesh_area W H (s : LevelSet T) : reached W H s -> meshArea s = nofnat (W * H).
  Proof.
    intros Hr. pose proof (ok_topo _ _ _ (so_ok _ _ _ (reached_sound _ _ _ Hr))) as Ht. unfold meshArea. rewrite (tp_w _ _ _ Ht), (tp_h _ _ _ Ht). f_equal. unfold u32.
    destruct (tp_fits _ _ _ Ht) as (F1 & F2 & F3). unfold node_count in *. rewrite Z.mod_small by (split; [nia|]; eapply Z.le_lt_trans; [|exact F3]; nia). lia.
  Qed.
  Lemma area_sum W H (s s' : LevelSet T) b a : reached W H s -> computeAreaFractions s b = Ok (s', a) ->
    a = fold_left nadd (map e_area (m_elements (ls_mesh s'))) n0 /\ ls_area s' = Some a.
  Proof.
    intros Hr E. pose proof (ok_topo _ _ _ (so_ok _ _ _ (reached_sound _ _ _ Hr))) as Ht. destruct (area_total W H s s' b a Ht E) as (l & Ll & -> & Ea & K & _ & Le).
    split; [|exact Ea]. f_equal. apply list_eq. intros i. change (map ?f ?x) with (f <$> x). rewrite list_lookup_fmap. destruct (l !! i) as [x|] eqn:Ei.
    - destruct (K i x Ei) as (E0 & _ & -> & _). reflexivity.
    - apply lookup_ge_None in Ei. rewrite (proj2 (lookup_ge_None (m_elements (ls_mesh s')) i)); [reflexivity|lia].
  Qed.
  (** Computing the areas again gives the same. *)
  Lemma areas_again W H (s s' : LevelSet T) b a : reached W H s -> computeAreaFractions s b = Ok (s', a) -> computeAreaFractions s' b = Ok (s', a).
  Proof.
    intros Hr E. pose proof (ok_topo _ _ _ (so_ok _ _ _ (reached_sound _ _ _ Hr))) as Ht. destruct (area_total W H s s' b a Ht E) as (l & Ll & _ & Ea & K & Fs & Le).
    assert (Hr' : reached W H s') by (apply (reached_call _ _ _ _ Hr), c_quiet, (q_areas _ _ _ _ E)). pose proof (ok_topo _ _ _ (so_ok _ _ _ (reached_sound _ _ _ Hr'))) as Ht'.
    assert (Es : forall e x, elem_same e (set_e_area (T := T) x e)) by (intros e x; constructor; [constructor; reflexivity|reflexivity|reflexivity|intros k _; split; reflexivity]).
    assert (M : mesh_twin node_same elem_same (ls_mesh s) (ls_mesh s')).
    { rewrite Fs. cbn [ls_mesh set_area set_mesh]. constructor; try reflexivity; cbn [m_nodes m_elements set_elements].
      - apply Forall2_same_length_lookup_2; [reflexivity|]. intros i n n' E1 E2. assert (n' = n) as -> by congruence. constructor; [constructor; reflexivity|reflexivity|split; reflexivity|reflexivity].
      - apply Forall2_same_length_lookup_2; [rewrite Le; exact (tp_lenE _ _ _ Ht)|]. intros i e e' E1 E2. destruct (lookup_lt_is_Some_2 l i) as [x Ex]; [rewrite Ll, <- Le; eauto using lookup_lt_Some|].
        destruct (K i x Ex) as (E0 & X1 & X2 & _). assert (E0 = e) as -> by congruence. assert (e' = set_e_area x e) as -> by congruence. apply Es. }
    assert (X := areas_twin s s' b M ltac:(rewrite (tp_nE _ _ _ Ht), (tp_lenE _ _ _ Ht); lia)). rewrite E in X.
    destruct (computeAreaFractions s' b) as [[s2 a2]| | |] eqn:E2; cbn [orel] in X; try contradiction. cbn [fst snd] in X. destruct X as (-> & A2 & [_ X _ _ _ _ _]).
    destruct (area_total W H s' s2 b a Ht' E2) as (l2 & Ll2 & _ & _ & K2 & Fs2 & Le2).
    assert (Eq : m_elements (ls_mesh s2) = m_elements (ls_mesh s')).
    { apply list_eq. intros i. destruct (l2 !! i) as [x|] eqn:Ei.
      - destruct (K2 i x Ei) as (E0 & X1 & X2 & _). rewrite X1, X2. f_equal. destruct (Forall2_lookup_l _ _ _ _ _ X X1) as (e' & X3 & [_ X4]). assert (e' = set_e_area x E0) as -> by congruence.
        cbn in X4. rewrite X4. destruct E0; reflexivity.
      - apply lookup_ge_None in Ei. rewrite !(proj2 (lookup_ge_None _ i)); [reflexivity|lia|lia]. }
    rewrite Fs2, Eq. rewrite Fs at 1. rewrite Fs at 4. do 2 f_equal. rewrite Fs. reflexivity.
  Qed.
End areas.

(** ** Samples *)
Section records.
  Context {T : Type} {NT : Num T} {NI : NumInt T}.
  Variable d : Demo T.
  Variables (nlopt : nat -> nat -> OptModel.Opt T -> OptModel.Nlopt T) (fuel : nat) (rng : nat -> nat -> T) (interval : T).

  Lemma sampling_values : (forall c s b s' v, d_measure d c s b = Ok (s', v) -> s' = s) ->
    forall fl c m next log m' next' log', sampling fl d interval c m next log = Ok (m', next', log') ->
    m' = m /\ exists new, log' = log ++ new /\ forall x, x ∈ new -> exists v, d_measure d c (sm_ls m) (sm_bd m) = Ok (sm_ls m, v) /\ x = (sm_time m, v).
  Proof.
    intros Hm. induction fl as [|fl IH]; intros c m next log m' next' log' E; cbn [sampling] in E; destruct (next <=? sm_time m)%num; try discriminate.
    - injection E as <- _ <-. split; [reflexivity|]. exists []. rewrite app_nil_r. split; [reflexivity|]. intros x X. inversion X.
    - apply obind_Ok in E as ([s v] & E1 & E). pose proof (Hm _ _ _ _ _ E1) as ->. destruct m as [ls bd la n t]. cbn [sm_ls sm_bd sm_time sm_lambdas sm_nReinit] in *.
      apply IH in E as (-> & new & -> & K). split; [reflexivity|]. exists ((t, v) :: new). rewrite <- app_assoc. split; [reflexivity|].
      intros x X. apply elem_of_cons in X as [->|X]; [eauto|exact (K x X)].
    - injection E as <- _ <-. split; [reflexivity|]. exists []. rewrite app_nil_r. split; [reflexivity|]. intros x X. inversion X.
  Qed.
  Lemma turn_values W H : (forall c s b s' v, d_measure d c s b = Ok (s', v) -> s' = s) -> forall k r r1 ri, reached W H (sm_ls (rn_sim r)) ->
    full_turn d nlopt fuel rng interval k r = Ok (r1, ri) ->
    exists b c new s, d_assign d (sm_ls (rn_sim r)) (sm_bd (rn_sim r)) = Ok b /\ d_carry d (sm_ls (rn_sim r)) b = Ok c /\
      reached W H s /\ new_boundary d s = Ok (sm_ls (rn_sim r1), sm_bd (rn_sim r1)) /\ rn_log r1 = rn_log r ++ new /\
      forall x, x ∈ new -> exists v, d_measure d c (sm_ls (rn_sim r1)) (sm_bd (rn_sim r1)) = Ok (sm_ls (rn_sim r1), v) /\ x = (sm_time (rn_sim r1), v).
  Proof.
    intros Hm k r r1 ri Hr E. unfold full_turn in E. apply obind_Ok in E as ([[m c] b0] & E1 & E). apply obind_Ok in E as ([[m2 next] log] & E2 & E). injection E as <- <-. cbn [rn_sim rn_log].
    apply (sampling_values Hm) in E2 as (-> & new & -> & K).
    destruct (flag_meaning d fuel W H _ _ _ _ _ _ Hr E1) as (_ & _ & _ & _ & s3 & _ & _ & _ & _ & _ & _ & _ & _ & R3 & N3 & _).
    apply turn_inv in E1 as (b & dist & o0 & o & v & s1 & dt & s2 & s4 & r3 & s5 & n & s6 & b5 & Ea & Ec & _). exists b, c, new, s3. auto 10.
  Qed.

  (** When the areas are computed for a sample (shape_match). *)
  Lemma match_values fl c m next log m' next' log' : (forall s' v, d_measure d c (sm_ls m) (sm_bd m) = Ok (s', v) -> d_measure d c s' (sm_bd m) = Ok (s', v)) -> sampling fl d interval c m next log = Ok (m', next', log') ->
    exists new, log' = log ++ new /\ sm_bd m' = sm_bd m /\ sm_time m' = sm_time m /\
      ((new = [] /\ m' = m) \/ exists v, d_measure d c (sm_ls m) (sm_bd m) = Ok (sm_ls m', v) /\ forall x, x ∈ new -> x = (sm_time m, v)).
  Proof.
    intros Hi. assert (G : forall fl m next log m' next' log' v, sampling fl d interval c m next log = Ok (m', next', log') -> d_measure d c (sm_ls m) (sm_bd m) = Ok (sm_ls m, v) ->
      m' = m /\ exists new, log' = log ++ new /\ forall x, x ∈ new -> x = (sm_time m, v)).
    { clear fl m next log m' next' log' Hi. induction fl as [|fl IH]; intros m next log m' next' log' v E Ev; cbn [sampling] in E; destruct (next <=? sm_time m)%num; try discriminate.
      1,3: injection E as <- _ <-; split; [reflexivity|]; exists []; rewrite app_nil_r; split; [reflexivity|]; intros x X; inversion X.
      rewrite Ev in E. cbn [obind] in E. destruct m as [ls bd la n t]. cbn [sm_ls sm_bd sm_time sm_lambdas sm_nReinit] in *. apply (IH _ _ _ _ _ _ v) in E as (-> & new & -> & K); [|exact Ev].
      split; [reflexivity|]. exists ((t, v) :: new). rewrite <- app_assoc. split; [reflexivity|]. intros x X. apply elem_of_cons in X as [->|X]; [reflexivity|exact (K x X)]. }
    intros E. destruct fl as [|fl]; cbn [sampling] in E; destruct (next <=? sm_time m)%num; try discriminate.
    1,3: injection E as <- _ <-; exists []; rewrite app_nil_r; auto 10.
    apply obind_Ok in E as ([s v] & E1 & E). destruct (G _ _ _ _ _ _ _ v E (Hi _ _ E1)) as (-> & new & -> & K). cbn [sm_ls sm_bd sm_time] in *.
    exists ((sm_time m, v) :: new). rewrite <- app_assoc. split; [reflexivity|]. split; [reflexivity|]. split; [reflexivity|]. right. exists v. split; [exact E1|].
    intros x X. apply elem_of_cons in X as [->|X]; [reflexivity|exact (K x X)].
  Qed.
End records.

(** ** What each program records *)
Section programs.
  Context {T : Type} {NT : Num T} {NI : NumInt T}.
  Variables (nlopt : nat -> nat -> OptModel.Opt T -> OptModel.Nlopt T) (fuel : nat) (rng : nat -> nat -> T) (interval : T) (W H k : nat) (r r1 : Run T) (ri : bool).
  Hypothesis Hr : reached W H (sm_ls (rn_sim r)).

  Theorem area_records : full_turn minimise_area nlopt fuel rng interval k r = Ok (r1, ri) ->
    exists new, rn_log r1 = rn_log r ++ new /\ forall x, x ∈ new -> x = (sm_time (rn_sim r1), [bd_length (sm_bd (rn_sim r1))]).
  Proof.
    intros E. apply (turn_values minimise_area nlopt fuel rng interval W H) in E as (b & c & new & s & _ & _ & _ & _ & L & K); [|intros c s b s' v [= <- _]; reflexivity|exact Hr].
    exists new. split; [exact L|]. intros x X. destruct (K x X) as (v & Ev & ->). cbn in Ev. injection Ev as <-. reflexivity.
  Qed.
  Theorem perimeter_records : full_turn minimise_perimeter nlopt fuel rng interval k r = Ok (r1, ri) ->
    exists new b c, d_assign minimise_perimeter (sm_ls (rn_sim r)) (sm_bd (rn_sim r)) = Ok b /\ mean_sens b = Ok c /\
      rn_log r1 = rn_log r ++ new /\ forall x, x ∈ new -> x = (sm_time (rn_sim r1), [bd_length (sm_bd (rn_sim r1)); c]).
  Proof.
    intros E. apply (turn_values minimise_perimeter nlopt fuel rng interval W H) in E as (b & c & new & s & Ea & Ec & _ & _ & L & K); [|intros c s b s' v [= <- _]; reflexivity|exact Hr].
    exists new, b, c. split; [exact Ea|]. split; [exact Ec|]. split; [exact L|]. intros x X. destruct (K x X) as (v & Ev & ->). cbn in Ev. injection Ev as <-. reflexivity.
  Qed.
  Theorem constrained_records t area : full_turn (minimise_perimeter_constrained t area) nlopt fuel rng interval k r = Ok (r1, ri) ->
    exists new, rn_log r1 = rn_log r ++ new /\
      forall x, x ∈ new -> x = (sm_time (rn_sim r1), [bd_length (sm_bd (rn_sim r1)); (fold_left nadd (map e_area (m_elements (ls_mesh (sm_ls (rn_sim r1))))) n0 / nofnat (W * H))%num]).
  Proof.
    intros E. apply (turn_values _ nlopt fuel rng interval W H) in E as (b & c & new & s & _ & _ & Rs & En & L & K);
      [|intros c s b s' v E0; cbn in E0; apply obind_Ok in E0 as (a & _ & E0); injection E0 as <- _; reflexivity|exact Hr].
    exists new. split; [exact L|]. intros x X. destruct (K x X) as (v & Ev & ->). cbn [minimise_perimeter_constrained d_measure] in Ev.
    destruct (new_boundary_parts _ W H s _ _ Rs En) as (s1 & b1 & _ & R1 & R' & _ & _ & A & _). destruct (A eq_refl) as (a & Ea). destruct (area_sum W H _ _ _ _ R1 Ea) as [Es Ei].
    rewrite Ei in Ev. cbn [init_get obind] in Ev. injection Ev as <-. rewrite (mesh_area W H _ R'), Es. reflexivity.
  Qed.
  Theorem match_records t areas : full_turn (shape_match t areas) nlopt fuel rng interval k r = Ok (r1, ri) ->
    exists new, rn_log r1 = rn_log r ++ new /\ forall x, x ∈ new -> exists s s' a mm, reached W H s /\ discretise s false = Ok (s', sm_bd (rn_sim r1)) /\
      computeAreaFractions s' (sm_bd (rn_sim r1)) = Ok (sm_ls (rn_sim r1), a) /\ computeMismatch (ls_mesh (sm_ls (rn_sim r1))) areas = Ok mm /\
      x = (sm_time (rn_sim r1), [(mm / nofnat (W * H))%num]).
  Proof.
    intros E. unfold full_turn in E. apply obind_Ok in E as ([[m c] b0] & E1 & E). apply obind_Ok in E as ([[m2 next] log] & E2 & E). injection E as <- <-. cbn [rn_sim rn_log].
    destruct (flag_meaning (shape_match t areas) fuel W H _ _ _ _ _ _ Hr E1) as (_ & _ & _ & _ & s3 & _ & _ & _ & _ & _ & _ & _ & _ & R3 & N3 & _).
    unfold new_boundary in N3. apply obind_Ok in N3 as ([s1 b1] & D1 & N3). cbn [shape_match d_areas d_normals obind] in N3. injection N3 as -> ->.
    assert (Rm : reached W H (sm_ls m)) by (apply (reached_call _ _ _ _ R3), c_quiet, (q_discretise _ _ _ _ D1)).
    apply match_values in E2 as (new & -> & Eb & Et & D).
    - exists new. split; [reflexivity|]. intros x X. destruct D as [[-> _]|(v & Ev & K)]; [inversion X|]. rewrite (K x X). cbn [shape_match d_measure] in Ev.
      apply obind_Ok in Ev as ([s2 a] & Ea & Ev). apply obind_Ok in Ev as (mm & Em & Ev). injection Ev as -> <-.
      assert (R' : reached W H (sm_ls m2)) by (apply (reached_call _ _ _ _ Rm), c_quiet, (q_areas _ _ _ _ Ea)).
      exists s3, (sm_ls m), a, mm. rewrite Eb, Et, (mesh_area W H _ R'). auto 10.
    - intros s' v Ev. cbn [shape_match d_measure] in Ev |- *. apply obind_Ok in Ev as ([s2 a] & Ea & Ev). apply obind_Ok in Ev as (mm & Em & Ev). injection Ev as -> <-.
      rewrite (areas_again W H _ _ _ _ Rm Ea). cbn [obind]. rewrite Em. reflexivity.
  Qed.
  Theorem dumbbell_records g t maxMismatch areas : full_turn (dumbbell g t maxMismatch areas) nlopt fuel rng interval k r = Ok (r1, ri) ->
    exists new mm, computeMismatch (ls_mesh (sm_ls (rn_sim r))) areas = Ok mm /\ rn_log r1 = rn_log r ++ new /\
      forall x, x ∈ new -> exists l, weightedPerimeter g (bd_points (sm_bd (rn_sim r1))) = Ok l /\ x = (sm_time (rn_sim r1), [l; mm]).
  Proof.
    intros E. apply (turn_values _ nlopt fuel rng interval W H) in E as (b & c & new & s & _ & Ec & _ & _ & L & K);
      [|intros c s b s' v E0; cbn in E0; apply obind_Ok in E0 as (a & _ & E0); injection E0 as <- _; reflexivity|exact Hr].
    exists new, c. split; [exact Ec|]. split; [exact L|]. intros x X. destruct (K x X) as (v & Ev & ->). cbn [dumbbell d_measure] in Ev. apply obind_Ok in Ev as (l & El & Ev). injection Ev as <-. eauto.
  Qed.
  Theorem bimodal_records g t maxMismatch areas width : full_turn (bimodal g t maxMismatch areas width) nlopt fuel rng interval k r = Ok (r1, ri) ->
    exists new mm, computeMismatch (ls_mesh (sm_ls (rn_sim r))) areas = Ok mm /\ rn_log r1 = rn_log r ++ new /\
      forall x, x ∈ new -> exists l cx cy, weightedPerimeter g (bd_points (sm_bd (rn_sim r1))) = Ok l /\ centreOfMass g (bd_points (sm_bd (rn_sim r1))) = Ok (cx, cy) /\
        x = (sm_time (rn_sim r1), [l; mm; (cx - width / nofZ 2)%num; (cy - width / nofZ 2)%num]).
  Proof.
    intros E. apply (turn_values _ nlopt fuel rng interval W H) in E as (b & c & new & s & _ & Ec & _ & _ & L & K);
      [|intros c s b s' v E0; cbn in E0; apply obind_Ok in E0 as (a & _ & E0); apply obind_Ok in E0 as ([x y] & _ & E0); injection E0 as <- _; reflexivity|exact Hr].
    exists new, c. split; [exact Ec|]. split; [exact L|]. intros x X. destruct (K x X) as (v & Ev & ->). cbn [bimodal d_measure] in Ev. apply obind_Ok in Ev as (l & El & Ev). apply obind_Ok in Ev as ([cx cy] & Ex & Ev). injection Ev as <-. eauto 10.
  Qed.
End programs.
Theorem umbrella_records {T : Type} {NT : Num T} {NI : NumInt T} W H g areas (u : Umbrella T) v : reached W H (sm_ls (um_sim u)) -> umbrella_sample g areas u = Ok v ->
  exists l mm, weightedPerimeter g (bd_points (sm_bd (um_sim u))) = Ok l /\ computeMismatch (ls_mesh (sm_ls (um_sim u))) areas = Ok mm /\
    v = [um_running u; um_x u; l; (mm / nofnat (W * H))%num; (nofnat (um_accept u) / nofnat (um_trials u))%num].
Proof.
  intros Hr E. unfold umbrella_sample in E. apply obind_Ok in E as (mm & Em & E). apply obind_Ok in E as (l & El & E). injection E as <-. rewrite (mesh_area W H _ Hr). eauto.
Qed.

(** ** Distances from the constraints *)
Section distances.
  Local Open Scope R_scope.
  Lemma sum_left (l : list R) : fold_left nadd l n0 = sumR l.
  Proof.
    assert (G : forall a, fold_left nadd l a = a + sumR l); [|rewrite G; unfold n0; cbn; lra].
    induction l as [|x l IH]; intros a; cbn; [unfold sumR; cbn; lra|]. rewrite IH. unfold sumR. cbn. lra.
  Qed.
  (** The areas of the elements of a shape inside the domain. *)
  Theorem shape_areas W H (s s' : LevelSet R) (d : Demo R) b : inside_shape W H s -> d_areas d = true -> new_boundary d s = Ok (s', b) ->
    ls_area s' = Some (sumR (areas_of (ls_mesh s'))) /\ 0 <= sumR (areas_of (ls_mesh s')) <= INR (W * H) /\ length (areas_of (ls_mesh s')) = (W * H)%nat /\
    forall e a, areas_of (ls_mesh s') !! e = Some a -> area_rule (corner_value W (ls_sd s) e) a.
  Proof.
    intros Hin Ed E. pose proof (is_reached _ _ _ Hin) as Hr. destruct (new_boundary_parts d W H s s' b Hr E) as (s1 & b1 & E1 & R1 & _ & _ & _ & A & _). destruct (A Ed) as (a & Ea).
    destruct (area_fractions W H s s1 false b1 Hr (is_off _ _ _ Hin) (is_clear _ _ _ Hin) (or_intror (is_covered _ _ _ Hin)) E1) as (s2 & a' & Ea' & K & _ & Ra & _ & Le).
    assert (s2 = s' /\ a' = a) as [-> ->] by (split; congruence). destruct (area_sum W H _ _ _ _ R1 Ea) as [Es Ei]. rewrite sum_left in Es. unfold areas_of. rewrite <- Es.
    split; [exact Ei|]. split; [exact Ra|]. split; [rewrite map_length; exact Le|]. intros e x Ex. change (map ?f ?l) with (f <$> l) in Ex. rewrite list_lookup_fmap in Ex.
    destruct (m_elements (ls_mesh s') !! e) as [el|] eqn:Ee; [|discriminate]. cbn in Ex. injection Ex as <-.
    destruct (K e) as (el0 & a0 & _ & Ee' & Ar); [rewrite <- Le; eauto using lookup_lt_Some|]. rewrite Ee in Ee'. injection Ee' as ->. exact Ar.
  Qed.
  Theorem area_distance W H t maxArea (s s' : LevelSet R) b : inside_shape W H s -> new_boundary (minimise_perimeter_constrained t maxArea) s = Ok (s', b) ->
    d_dist (minimise_perimeter_constrained t maxArea) s' = Ok [INR (W * H) * maxArea - sumR (areas_of (ls_mesh s'))].
  Proof.
    intros Hin E. destruct (shape_areas W H s s' (minimise_perimeter_constrained t maxArea) b Hin eq_refl E) as (Ea & _). destruct (new_boundary_parts _ W H s s' b (is_reached _ _ _ Hin) E) as (_ & _ & _ & _ & R' & _).
    cbn [minimise_perimeter_constrained d_dist]. rewrite Ea. cbn [init_get obind]. rewrite (mesh_area W H _ R'), nofnat_R. reflexivity.
  Qed.
  Theorem mismatch_distance_value W H g t maxMismatch areas (d : Demo R) (s : LevelSet R) :
    d = dumbbell g t maxMismatch areas \/ (exists width, d = bimodal g t maxMismatch areas width) \/ d = brolly g t maxMismatch areas ->
    reached W H s -> length areas = (W * H)%nat -> d_dist d s = Ok [INR (W * H) * maxMismatch - L1 areas (areas_of (ls_mesh s))].
  Proof.
    intros Hd Hr La. pose proof (ok_topo _ _ _ (so_ok _ _ _ (reached_sound _ _ _ Hr))) as Ht.
    assert (X : mismatch_distance maxMismatch areas s = Ok [INR (W * H) * maxMismatch - L1 areas (areas_of (ls_mesh s))]).
    { unfold mismatch_distance. rewrite (mismatch_R (ls_mesh s) areas) by (rewrite (tp_nE _ _ _ Ht); first [exact (tp_lenE _ _ _ Ht)|exact La]). cbn [obind]. rewrite (mesh_area W H _ Hr), nofnat_R. reflexivity. }
    destruct Hd as [->|[[w ->]| ->]]; exact X.
  Qed.
  (** The normals behind the curvatures. *)
  Theorem shape_normals W H (d : Demo R) (s s' : LevelSet R) b g t a m areas w :
    d = minimise_perimeter \/ d = minimise_perimeter_constrained t a \/ d = dumbbell g t m areas \/ d = bimodal g t m areas w \/ d = brolly g t m areas ->
    reached W H s -> new_boundary d s = Ok (s', b) -> forall k p, bd_points b !! k = Some p ->
    let v := gathered (bp_coord p) (sources W H s' k) in bp_normal p = if bp_domain p then v else scale (/ vnorm v) v.
  Proof.
    intros Hd Hr E k p Ep. assert (Dn : d_normals d = true) by (destruct Hd as [->|[->|[->|[->| ->]]]]; reflexivity).
    unfold new_boundary in E. rewrite Dn in E. apply obind_Ok in E as ([s1 b1] & E1 & E). apply obind_Ok in E as (s2 & E2 & E). apply obind_Ok in E as (b2 & E3 & E). injection E as <- <-.
    assert (R1 : reached W H s1) by (apply (reached_call _ _ _ _ Hr), c_quiet, (q_discretise _ _ _ _ E1)). pose proof (ok_topo _ _ _ (so_ok _ _ _ (reached_sound _ _ _ R1))) as Ht.
    assert (F : computeNormalVectors s2 b1 = computeNormalVectors s1 b1 /\ sources W H s2 k = sources W H s1 k).
    { destruct (d_areas d); [|injection E2 as <-; auto]. apply obind_Ok in E2 as ([s3 x] & E2 & X). injection X as <-.
      destruct (area_total W H s1 s3 b1 x Ht E2) as (_ & _ & _ & _ & _ & -> & _). destruct s1 as [], ls_mesh as []. split; reflexivity. }
    destruct F as [F1 F2]. rewrite F1 in E3. rewrite F2.
    destruct (normals_discretised W H s s1 false b1 Hr E1) as (b' & Eb & (_ & _ & L & K) & _). assert (b' = b2) as -> by congruence.
    destruct (lookup_lt_is_Some_2 (bd_points b1) k) as [p1 Ep1]; [rewrite <- L; eauto using lookup_lt_Some|].
    pose proof (normals_R W H s s1 false b1 b2 Hr E1 E3 k p1 p Ep1 Ep) as X. cbv zeta in X |- *. rewrite (K k p1 p Ep1 Ep). rewrite X. reflexivity.
  Qed.
  (** The curvature recorded by minimise_perimeter. *)
  Theorem recorded_curvature W H (s s' : LevelSet R) b b' c : reached W H s -> new_boundary minimise_perimeter s = Ok (s', b) -> d_assign minimise_perimeter s' b = Ok b' -> mean_sens b' = Ok c ->
    c = sumR (map (curvature delta b) (bd_points b)) / INR (length (bd_points b)).
  Proof.
    intros Hr E Ea' Ec. destruct (perimeter_assign W H s s' b Hr E) as (b2 & Ea & Ss & K). assert (b2 = b') as -> by congruence.
    assert (A : map (fun q => nth 0 (bp_sens q) 0) (bd_points b') = map (curvature delta b) (bd_points b)).
    { apply list_eq. intros i. change (map ?f ?l) with (f <$> l). rewrite !list_lookup_fmap. destruct (bd_points b !! i) as [q|] eqn:Eq.
      - destruct (lookup_lt_is_Some_2 (bd_points b') i) as [q2 Eq2]; [destruct Ss as (_ & _ & -> & _); eauto using lookup_lt_Some|]. rewrite Eq2. cbn. rewrite (K i q q2 Eq Eq2). reflexivity.
      - apply lookup_ge_None in Eq. rewrite (proj2 (lookup_ge_None (bd_points b') i)); [reflexivity|]. destruct Ss as (_ & _ & -> & _). exact Eq. }
    rewrite (mean_sens_R b' (fun q => nth 0 (bp_sens q) 0)) in Ec.
    - rewrite A in Ec. injection Ec as <-. destruct Ss as (_ & _ & -> & _). reflexivity.
    - intros i q Eq. destruct (same_count b b' Ss q (elem_of_list_lookup_2 _ _ _ Eq)) as (i' & p' & Ep' & Eq'). rewrite (K i' p' q Ep' Eq'). cbn. eexists. reflexivity.
  Qed.
End distances.
