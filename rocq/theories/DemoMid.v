(** * DemoMid: a single inside node in the middle of a 4 by 4 mesh meets the hypotheses of C69 and C70. *)

From Coq Require Import Reals Lra.
From Verif Require Import Base Num NumR NumInt NumSgn MeshModel MeshProofs MeshTopo MeshSpec FmmSpec LevelSetModel LevelSetSpec LevelSetSpecR LevelSetCalls LevelSetHist LevelSetNew LevelSetBand LevelSetOps LevelSetInit LevelSetReal
  BoundaryModel BoundarySpec BoundarySpecR BoundaryFrame BoundaryLinks BoundaryReal BoundaryGraph BoundaryRun BoundaryClosed AreaCases NormSpec NormProofs NormReal NormMain SensReal
  DemoModel DemoSpec DemoShape DemoSens DemoLength DemoTurn DemoBrolly DemoArea DemoCase DemoMatch DemoGrad DemoGood.
Local Open Scope R_scope.

Definition three25 : list R := replicate 25 3.
Lemma mid_shape : exists s : LevelSet R, inner_shape 4 4 s /\ ls_sd s = mid25 /\ ls_target s = three25 /\ forall i, (i < 25)%nat -> active s i.
Proof.
  assert (HF : fits_ls 4 4 3) by (unfold fits_ls, node_count; cbn; lia).
  assert (HV : valid_params (/ 2) 3). { split; [lia|]. split; apply Rltb_true; cbn; lra. }
  destruct (target_accepted 4 4 (/ 2) 3 false [] HF HV) as (s & E & LT & D & Ebw & Efx).
  assert (C : constructed 4 4 (/ 2) 3 false s) by exact (new_by_holes_holes _ _ _ _ _ _ _ _ E).
  destruct (constructed_sound 4 4 (/ 2) 3 false s HF C) as [So Bo]. pose proof (all_unmasked _ _ _ _ _ _ HF C) as U.
  assert (Lv : length mid25 = length (ls_sd s)) by (rewrite (ok_sd _ _ _ (so_ok _ _ _ So)); reflexivity).
  pose proof tol_pos as Tp. assert (Tl : tol <= / 2) by (unfold tol; lra).
  assert (Get : forall i, (i < 25)%nat -> exists x, mid25 !! i = Some x) by (intros i Hi; apply lookup_lt_is_Some_2; exact Hi).
  assert (R0 : reached 4 4 s) by (exists (/ 2), 3%nat, false, s; split; [exact HF|]; split; [exact C|apply rtc_refl]).
  assert (R1 : reached 4 4 (set_sd mid25 s)) by (apply (reached_call _ _ _ _ R0), c_write_sd, Lv).
  assert (R2 : reached 4 4 (set_target three25 (set_sd mid25 s))) by (apply (reached_call _ _ _ _ R1), c_quiet, q_write_target; cbn [ls_target set_sd]; rewrite LT; reflexivity).
  assert (Ac : forall i, (i < 25)%nat -> active s i).
  { intros i Hi. assert (Li : (i < length (m_nodes (ls_mesh s)))%nat) by (rewrite (tp_lenN _ _ _ (ok_topo _ _ _ (so_ok _ _ _ So))); exact Hi).
    apply lookup_lt_is_Some in Li as [n En]. apply (bo_active _ Bo). split.
    - exists n. split; [exact En|]. split; [|intros _; exact Efx]. destruct (nd_masked n) eqn:M; [|reflexivity]. exfalso. apply (U i). exists n. auto.
    - exists (holes_value 4 4 [] i). split; [rewrite D; apply tab_lookup; exact Hi|]. rewrite Ebw. destruct (node_id_split 4 4 i Hi) as (Hx & Hy & ->).
      set (x := (i mod (4 + 1))%nat) in *. set (y := (i / (4 + 1))%nat) in *.
      apply Rltb_true. rewrite nofnat_R. cbn [nabs NumR]. rewrite holes_value_R by lia. cbn [fold_left]. unfold border_dist.
      apply le_INR in Hx, Hy. pose proof (pos_INR x). pose proof (pos_INR y). cbn [INR] in *. unfold Rmin; repeat destruct (Rle_dec _ _); rewrite Rabs_right; lra. }
  exists (set_target three25 (set_sd mid25 s)). split; [|split; [reflexivity|split; [reflexivity|exact Ac]]].
  assert (B2 : forall x y, (x <= 4)%nat -> (y <= 4)%nat -> (x <= 1 \/ 4 <= x + 1 \/ y <= 1 \/ 4 <= y + 1)%nat -> exists v, mid25 !! node_id 4 x y = Some v /\ v < 0).
  { intros x y Hx Hy Hb. destruct (Get (node_id 4 x y)) as [v Ev]; [unfold node_id; lia|]. exists v. split; [exact Ev|].
    destruct (mid_values _ _ Ev) as [_ [[Z _]|[_ ->]]]; [exfalso; unfold node_id in Z; lia|lra]. }
  split; [|exact B2]. constructor; try lia; try assumption.
  - intros i Hi. cbn [ls_sd set_sd set_target]. destruct (Get i Hi) as [x Ex]. exists x. split; [exact Ex|].
    destruct (mid_values i x Ex) as [_ [[_ ->]|[_ ->]]]; [rewrite Rabs_right by lra|rewrite Rabs_left by lra]; lra.
  - intros i k x y _ Ei Ek Lx Ly. cbn [ls_sd set_sd set_target] in *. destruct (mid_values i x Ei) as [_ [[_ ->]|[_ ->]]], (mid_values k y Ek) as [_ [[_ ->]|[_ ->]]]; lra.
  - intros i k x y _ Ei _ _ _. left. exact (Ac i (proj1 (mid_values i x Ei))).
  - intros x y Hx Hy Hb. apply B2; lia.
  - exists 12%nat, 1. split; [unfold node_count; lia|]. split; [reflexivity|lra].
Qed.

Ltac spot_eq := unfold cut_pos; apply coord_ext; cbn [cx cy];
  repeat match goal with |- context [INR ?n] => let m := eval vm_compute in n in progress change (INR n) with (INR m) end; cbn [INR]; lra.
Section mid.
  Variables (s s1 : LevelSet R) (b1 b : Boundary R).
  Hypothesis Hin : inner_shape 4 4 s.
  Hypothesis Es : ls_sd s = mid25.
  Hypothesis Ha : forall i, (i < 25)%nat -> active s i.
  Hypothesis Hd : discretise s false = Ok (s1, b1).
  Let Hr := is_reached _ _ _ (proj1 Hin).
  Let Ho := is_off _ _ _ (proj1 Hin).
  Let Hc := is_clear _ _ _ (proj1 Hin).
  Let Hv := is_covered _ _ _ (proj1 Hin).

  (** The outer node of a cut edge, the cut, and the direction to the middle. *)
  Inductive spot : nat -> Coord R -> Coord R -> place -> Prop :=
  | sp_left : spot 11 (mkCoord (3/2) 2) (mkCoord 1 0) (OnRight 11)
  | sp_right : spot 13 (mkCoord (5/2) 2) (mkCoord (-1) 0) (OnRight 12)
  | sp_down : spot 7 (mkCoord 2 (3/2)) (mkCoord 0 1) (OnUp 7)
  | sp_up : spot 17 (mkCoord 2 (5/2)) (mkCoord 0 (-1)) (OnUp 12).
  Lemma spots : exists pl, represents 4 4 s false pl s1 b1 /\ forall k p, bd_points b1 !! k = Some p -> exists o v pc, spot o (bp_coord p) v pc /\ pl !! k = Some pc.
  Proof.
    destruct (closed_rep 4 4 s false Hr Hc Ho (or_intror Hv) s1 b1 Hd) as (pl & Rp). exists pl. split; [exact Rp|]. intros k p Ep.
    destruct (Forall2_lookup_r _ _ _ _ _ (rs_pts _ _ _ _ _ _ _ Rp) Ep) as (pc & Epc & Pc).
    pose proof (rs_valid _ _ _ _ _ _ _ Rp pc (elem_of_list_lookup_2 _ _ _ Epc)) as V. change (BoundaryLinks.field s false) with (ls_sd s) in V, Pc.
    assert (Nn : forall i, pc <> AtNode i) by (intros i ->; destruct (off_edges 4 4 s false Ho (AtNode i) V) as (i' & [X|X]); discriminate).
    assert (X := place_R 4 4 (ls_sd s) ltac:(lia) Hc pc _ V Pc). pose proof tol_pos as Tp. rewrite Es in V, X.
    assert (Opp : forall i j, opposite mid25 i j -> (i = 12 \/ j = 12)%nat).
    { intros i j O. destruct (opposite_vals _ _ _ O) as (x & y & Ex & Ey & Xy). destruct (mid_values i x Ex) as [_ [[-> _]|[_ ->]]]; [auto|]. destruct (mid_values j y Ey) as [_ [[-> _]|[_ ->]]]; [auto|]. lra. }
    assert (Tt : forall i j x y t, mid25 !! i = Some x -> mid25 !! j = Some y -> BoundaryClosed.between x y t -> t = 1 / 2).
    { intros i j x y t Ex Ey (Bt & Eq & Xy). destruct (mid_values i x Ex) as [_ [[_ ->]|[_ ->]]], (mid_values j y Ey) as [_ [[_ ->]|[_ ->]]]; lra. }
    destruct pc as [i|i|i]; cbn [valid_place place_at] in V, X.
    - exfalso. exact (Nn i eq_refl).
    - destruct V as (V1 & V2 & V3). destruct X as (x & y & t & Ex & Ey & Bt & Ec). rewrite (Tt _ _ _ _ _ Ex Ey Bt) in Ec.
      destruct (Opp _ _ V3) as [->|Z]; [|assert (i = 11%nat) as -> by lia].
      + exists 13%nat, (mkCoord (-1) 0), (OnRight 12). split; [|exact Epc]. rewrite Ec. replace (cut_pos _ _ _ _) with (mkCoord (5/2) 2); [constructor|]. spot_eq.
      + exists 11%nat, (mkCoord 1 0), (OnRight 11). split; [|exact Epc]. rewrite Ec. replace (cut_pos _ _ _ _) with (mkCoord (3/2) 2); [constructor|]. spot_eq.
    - destruct V as (V1 & V3). destruct X as (x & y & t & Ex & Ey & Bt & Ec). rewrite (Tt _ _ _ _ _ Ex Ey Bt) in Ec.
      destruct (Opp _ _ V3) as [->|Z]; [|assert (i = 7%nat) as -> by lia].
      + exists 17%nat, (mkCoord 0 (-1)), (OnUp 12). split; [|exact Epc]. rewrite Ec. replace (cut_pos _ _ _ _) with (mkCoord 2 (5/2)); [constructor|]. spot_eq.
      + exists 7%nat, (mkCoord 0 1), (OnUp 7). split; [|exact Epc]. rewrite Ec. replace (cut_pos _ _ _ _) with (mkCoord 2 (3/2)); [constructor|]. spot_eq.
  Qed.

  Lemma sd1 : ls_sd s1 = mid25.
  Proof. rewrite <- Es. exact (sd_kept 4 4 s s1 b1 Hr Hd). Qed.
  Ltac nums := cbv zeta beta; repeat match goal with |- context [(?a mod ?b)%nat] => let m := eval vm_compute in (a mod b)%nat in change (a mod b)%nat with m
    | |- context [(?a / ?b)%nat] => let m := eval vm_compute in (a / b)%nat in change (a / b)%nat with m end.
  Lemma mid_normal : node_normal 4 4 mid25 12 = mkCoord 0 0.
  Proof.
    unfold node_normal, slope, LevelSetSpec.field. rewrite nlit_R. cbn [nsub nmul nadd ndiv nsqrt NumR]. nums. cbn -[R_sqrt.sqrt].
    match goal with |- mkCoord (?x / _) (?y / _) = _ => apply coord_ext; cbn [cx cy]; [replace x with 0 by lra|replace y with 0 by lra]; unfold Rdiv; ring end.
  Qed.
  Lemma outer_normal o c v pc : spot o c v pc -> node_normal 4 4 mid25 o = v.
  Proof.
    intros Sp. unfold node_normal, slope, LevelSetSpec.field. rewrite nlit_R. cbn [nsub nmul nadd ndiv nsqrt NumR].
    destruct Sp; nums; cbn -[R_sqrt.sqrt];
      match goal with |- mkCoord (?x / R_sqrt.sqrt ?e) (?y / _) = _ => replace e with 1 by lra; rewrite sqrt_1; apply coord_ext; cbn; lra end.
  Qed.
  Lemma spot_grid o c v pc : spot o c v pc -> (o < 25)%nat /\ incident 4 pc o /\ (forall i, incident 4 pc i -> i = 12%nat \/ i = o) /\
    sqdist (node_xy 4 12) c = / 4 /\ sqdist (node_xy 4 o) c = / 4.
  Proof.
    intros Sp. unfold sqdist, node_xy. rewrite !nofnat_R. cbn [cx cy].
    destruct Sp; cbn [incident cx cy]; (split; [lia|]; split; [lia|]; split; [intros i; lia|]);
    repeat match goal with |- context [INR ?n] => let m := eval vm_compute in n in progress change (INR n) with (INR m) end; cbn [INR]; split; lra.
  Qed.
  Lemma in_sources (s' : LevelSet R) k qv : ls_sd s' = mid25 -> In qv (sources 4 4 s' k) <-> exists i, i ∈ band_list s' /\ k ∈ points_at s' i /\ qv = (node_xy 4 i, node_normal 4 4 mid25 i).
  Proof using.
    intros E. unfold sources, sources_in. rewrite E. split.
    - intros Hq. apply in_concat in Hq as (l & Hl & Hq). apply in_map_iff in Hl as (i & <- & Hi). apply in_map_iff in Hq as (j & <- & Hj). apply filter_In in Hj as [Hj Ej]. apply Nat.eqb_eq in Ej. subst j.
      exists i. split; [apply elem_of_list_In, Hi|]. split; [apply elem_of_list_In, Hj|reflexivity].
    - intros (i & Hi & Hk & ->). apply in_concat. eexists. split; [apply in_map_iff; exists i; split; [reflexivity|apply elem_of_list_In, Hi]|].
      apply in_map_iff. exists k. split; [reflexivity|]. apply filter_In. split; [apply elem_of_list_In, Hk|apply Nat.eqb_refl].
  Qed.
  Lemma gathered_two c v l : (forall qv, In qv l -> sqdist (fst qv) c = / 4 /\ (snd qv = mkCoord 0 0 \/ snd qv = v)) -> (exists qv, In qv l /\ snd qv = v) -> exists t, 0 < t /\ gathered c l = scale t v.
  Proof using.
    intros Hl Hex. pose proof tol_pos as Tp. assert (T4 : tol < / 4) by (unfold tol; lra). rewrite gathered_top. replace (List.filter (on_top c) l) with (@nil (Coord R * Coord R)).
    2: { symmetry. clear Hex. induction l as [|qv l IH]; [reflexivity|]. cbn. unfold on_top at 1. destruct (Hl qv (or_introl eq_refl)) as [-> _]. destruct (Rlt_dec (/ 4) tol); [lra|]. apply IH. intros; apply Hl; right; assumption. }
    cbn [last]. assert (G : exists t, 0 <= t /\ ((exists qv, In qv l /\ snd qv = v) -> v = mkCoord 0 0 \/ 0 < t) /\ fold_right vadd (mkCoord 0 0) (map (fun qv => scale (/ sqdist (fst qv) c) (snd qv)) l) = scale t v).
    { clear Hex. induction l as [|qv l IH].
      - exists 0. split; [lra|]. split; [intros (qv & [] & _)|apply coord_ext; cbn; ring].
      - destruct IH as (t & Ht & Hp & Et); [intros; apply Hl; right; assumption|]. destruct (Hl qv (or_introl eq_refl)) as [D [Z|Z]].
        + exists t. split; [exact Ht|]. split.
          * intros (q & [<-|Hq] & Eq); [left; congruence|apply Hp; eauto].
          * cbn [map fold_right]. rewrite Et, Z. apply coord_ext; cbn; ring.
        + exists (4 + t). split; [lra|]. split; [right; lra|]. cbn [map fold_right]. rewrite Et, D, Z, Rinv_inv. apply coord_ext; cbn; ring. }
    destruct G as (t & Ht & Hp & Et). destruct (Hp Hex) as [Z|P]; [|eauto]. exists 1. split; [lra|]. rewrite Et, Z. apply coord_ext; cbn; ring.
  Qed.

  Lemma areas_band (x x' : LevelSet R) y a : computeAreaFractions x y = Ok (x', a) -> band_list x' = band_list x.
  Proof using. unfold computeAreaFractions. intros E. apply obind_Ok in E as ([m z] & _ & X). injection X as <- _. reflexivity. Qed.

  Variables (d : Demo R) (s' : LevelSet R).
  Hypothesis Hn : d_normals d = true.
  Hypothesis Hb : new_boundary d s = Ok (s', b).

  Lemma mid_points k p : bd_points b !! k = Some p ->
    exists o v pc, spot o (bp_coord p) v pc /\ bp_normal p = v /\
      forall q, q ∈ neighbour_coords b p -> exists o' v' pc', spot o' q v' pc' /\ pc' <> pc.
  Proof.
    intros Ep. destruct (good_boundary 4 4 s (proj1 Hin) d) as (s2 & b2 & E2 & _ & _ & Pts & _ & Ns & _). assert (s2 = s' /\ b2 = b) as [-> ->] by (split; congruence). clear E2.
    destruct (new_boundary_parts d 4 4 s s' b Hr Hb) as (s3 & b3 & E1 & R1 & R' & Nn & Sb & Ar & Na). assert (s3 = s1 /\ b3 = b1) as [-> ->] by (split; congruence). clear E1.
    assert (Sd : ls_sd s' = mid25) by (rewrite <- Es; apply (new_boundary_inv d 4 4 s s' b Hr Hb)).
    assert (Bd : band_list s' = band_list s1).
    { destruct (d_areas d); [destruct (Ar eq_refl) as [a Ea]; exact (areas_band _ _ _ _ Ea)|rewrite (Na eq_refl); reflexivity]. }
    assert (Bl : forall i, (i < 25)%nat -> i ∈ band_list s').
    { intros i Hi. rewrite Bd. destruct (frame_api 4 4 s s1 false b1 (ok_topo _ _ _ (so_ok _ _ _ (reached_sound _ _ _ Hr))) Hd) as (_ & F2 & _). injection F2 as B1 B2 _ _. unfold band_list. rewrite B1, B2.
      apply (so_active _ _ _ (reached_sound _ _ _ Hr)), Ha, Hi. }
    destruct spots as (pl & Rp & Sp). assert (Sb' := Sb). destruct Sb' as (Sg & _ & Ln & K).
    assert (Q : forall j q, bd_points b !! j = Some q -> exists q1, bd_points b1 !! j = Some q1 /\ bp_coord q = bp_coord q1).
    { intros j q Eq. destruct (lookup_lt_is_Some_2 (bd_points b1) j) as [q1 Eq1]; [rewrite <- Ln; eauto using lookup_lt_Some|]. exists q1. split; [exact Eq1|]. rewrite (K j q1 q Eq1 Eq). reflexivity. }
    destruct (Q k p Ep) as (p1 & Ep1 & Cp). destruct (Sp k p1 Ep1) as (o & v & pc & S & Epc). rewrite <- Cp in S.
    destruct (spot_grid o _ v pc S) as (Lo & Io & Inc & D12 & Do). pose proof (ok_topo _ _ _ (so_ok _ _ _ (reached_sound _ _ _ R1))) as Ht1.
    assert (At : forall i, (i < 25)%nat -> k ∈ points_at s' i <-> incident 4 pc i).
    { intros i Hi. unfold points_at. rewrite Nn. destruct (topo_node 4 4 _ Ht1 i Hi) as (n & En & _). rewrite En. rewrite (rs_att _ _ _ _ _ _ _ Rp i n Hi En). split; [intros (z & Ez & Iz); congruence|eauto]. }
    destruct (gathered_two (bp_coord p) v (sources 4 4 s' k)) as (t & Pt & Gt).
    { intros qv Hq. apply (in_sources s' k qv Sd) in Hq as (i & Hi & Hk & ->). cbn [fst snd].
      assert (Li : (i < 25)%nat). { unfold points_at in Hk. rewrite Nn in Hk. destruct (m_nodes (ls_mesh s1) !! i) as [n|] eqn:En; [|inversion Hk]. apply lookup_lt_Some in En. rewrite (tp_lenN _ _ _ Ht1) in En. exact En. }
      apply (At i Li) in Hk. destruct (Inc i Hk) as [->| ->]; [rewrite mid_normal; auto|]. rewrite (outer_normal o _ v pc S). auto. }
    { exists (node_xy 4 o, node_normal 4 4 mid25 o). split; [|exact (outer_normal o _ v pc S)]. apply (in_sources s' k _ Sd). exists o. split; [exact (Bl o Lo)|]. split; [apply At; assumption|reflexivity]. }
    assert (Nv : bp_normal p = scale (/ vnorm (scale t v)) (scale t v)).
    { pose proof Hb as X. unfold new_boundary in X. rewrite Hd in X. cbn [obind] in X. apply obind_Ok in X as (s4 & X1 & X2). rewrite Hn in X2. apply obind_Ok in X2 as (b4 & X2 & X3). injection X3 as -> ->.
      destruct (reached_sound _ _ _ R') as [Ho' Hb' _ _]. destruct (links_api 4 4 s s1 false b1 (ok_topo _ _ _ (so_ok _ _ _ (reached_sound _ _ _ Hr))) Hd) as (_ & _ & _ & L).
      assert (Y : wp False False (computeNormalVectors s' b1) (fun b' => forall k p p', bd_points b1 !! k = Some p -> bd_points b' !! k = Some p' ->
        exists N w f, mixed (bp_coord p) (sources 4 4 s' k) = (N, w, f) /\
        bp_normal p' = if bp_domain p then N else let nx := (cx N / w)%num in let ny := (cy N / w)%num in let norm := nsqrt (nx * nx + ny * ny)%num in mkCoord (nx / norm)%num (ny / norm)%num)).
      { eapply wp_impl; [apply (normals_returns 4 4)|].
        - exact (ok_topo _ _ _ Ho').
        - exact (ok_sd _ _ _ Ho').
        - exact (bs_nb _ _ _ Hb').
        - exact (bs_band _ _ _ Hb').
        - intros i n En. rewrite Nn in En. apply (L i n En).
        - intros i j. unfold points_at. rewrite Nn. destruct (m_nodes (ls_mesh s1) !! i) as [n|] eqn:En; [|intros Z; inversion Z]. apply (L i n En).
        - cbn beta. intros b5 Y. apply Y. }
      rewrite X2 in Y. cbn [wp] in Y. destruct (Y k p1 p Ep1 Ep) as (N & w & f & M & ->). rewrite <- Cp in M.
      destruct (mixed_R (bp_coord p) (sources 4 4 s' k)) as (w' & f' & M' & Hp & _). rewrite M in M'. injection M' as -> -> ->.
      assert (Dm : bp_domain p1 = false). { destruct (Pts p (elem_of_list_lookup_2 _ _ _ Ep)) as (_ & Z & _). rewrite (K k p1 p Ep1 Ep) in Z. exact Z. }
      rewrite Dm, Gt. apply normalised. apply Hp. intros Z. rewrite Z, gathered_nil in Gt. clear - Gt Pt S. injection Gt as Z1 Z2. destruct S; cbn in Z1, Z2; lra. }
    assert (Vn : vnorm (scale t v) = t).
    { unfold vnorm. replace (cx (scale t v) ^ 2 + cy (scale t v) ^ 2) with (t ^ 2) by (destruct S; cbn; ring). apply sqrt_pow2. lra. }
    exists o, v, pc. split; [exact S|]. split.
    { rewrite Nv, Vn. apply coord_ext; cbn; field; lra. }
    intros q Hq. unfold neighbour_coords in Hq. apply elem_of_list_In, in_concat in Hq as (l & Hl & Hq). apply in_map_iff in Hl as (j & <- & Hj). apply elem_of_list_In in Hj.
    pose proof (no_loops 4 4 s s1 b1 b k p Hr Hd Sb Ns Ep j Hj) as Ne. destruct (bd_points b !! j) as [z|] eqn:Ez; [|contradiction]. destruct Hq as [<-|[]].
    destruct (Q j z Ez) as (z1 & Ez1 & Cz). destruct (Sp j z1 Ez1) as (o' & v' & pc' & S' & Epc'). rewrite <- Cz in S'. exists o', v', pc'. split; [exact S'|].
    intros ->. apply Ne. exact (NoDup_lookup _ _ _ _ (rs_nd _ _ _ _ _ _ _ Rp) Epc' Epc).
  Qed.

  Lemma mid_weighted p : p ∈ bd_points b -> Rabs (cy (bp_normal p)) <= 1 /\ cy (bp_coord p) <= 9 /\ forall q, q ∈ neighbour_coords b p -> cy q <= 10.
  Proof.
    intros Hp. apply elem_of_list_lookup in Hp as [k Ek]. destruct (mid_points k p Ek) as (o & v & pc & S & En & Nb). rewrite En. split; [|split].
    - clear - S. destruct S; cbn [cy]; unfold Rabs; destruct (Rcase_abs _); lra.
    - remember (bp_coord p) as c. clear - S. destruct S; cbn [cy]; lra.
    - intros q Hq. destruct (Nb q Hq) as (o' & v' & pc' & S' & _). clear - S'. destruct S'; cbn [cy]; lra.
  Qed.
  Theorem mid_curved p : p ∈ bd_points b -> curvature delta b p < 0.
  Proof.
    intros Hp. apply elem_of_list_lookup in Hp as [k Ek]. destruct (mid_points k p Ek) as (o & v & pc & S & En & Nb).
    destruct (good_boundary 4 4 s (proj1 Hin) d) as (s2 & b2 & E2 & _ & _ & Pts & _). assert (s2 = s' /\ b2 = b) as [-> ->] by (split; congruence).
    destruct (Pts p (elem_of_list_lookup_2 _ _ _ Ek)) as (_ & _ & Lp & N2).
    destruct (curvature_sign delta b p ltac:(rewrite delta_R; lra) Lp) as (_ & C & _). apply C.
    - intros q Hq. destruct (Nb q Hq) as (o' & v' & pc' & S' & Ne). rewrite En. unfold NormSpec.dot, vsub, scale. remember (bp_coord p) as cp. clear - S S' Ne. destruct S, S'; try congruence; cbn; nra.
    - destruct (new_points d 4 4 s s' b Hr Hb) as [Nk _]. destruct (Nk k p Ek) as [N1 N2']. intros Z. unfold neighbour_coords in Z.
      destruct (take (bp_nNeigh p) (bp_neigh p)) as [|j l] eqn:Et.
      + apply (f_equal length) in Et. rewrite take_length, N2 in Et. change (length (@nil nat)) with 0%nat in Et. lia.
      + cbn [map concat] in Z. destruct (lookup_lt_is_Some_2 (bd_points b) j) as [q Eq]; [apply N2'; left|]. rewrite Eq in Z. discriminate.
  Qed.
End mid.

(** Weight 1/2 everywhere on the mesh. *)
Definition far_weight : Gravity R := mkGravity 4 11 10 1 (/ 2).
Lemma far_weight_ok : gravity_ok far_weight.
Proof. constructor; cbn [far_weight g_n g_upper g_lower g_range g_reduce]; [lia|lra|lra|lra]. Qed.
Lemma far_mean y1 y2 : y1 <= 10 -> y2 <= 10 -> mean_weight far_weight y1 y2 = / 2.
Proof.
  intros H1 H2. unfold mean_weight. cbn [far_weight g_n]. assert (X : forall y, y <= 10 -> weight_at far_weight y = / 2).
  { intros y Hy. unfold weight_at. cbn [far_weight g_upper g_lower g_reduce]. replace ((11 - y) / (11 - 10)) with (11 - y) by field. unfold Rmax, Rmin. repeat destruct (Rle_dec _ _); lra. }
  cbn [seq map sumR fold_right INR]. rewrite !X by nra. field.
Qed.
Lemma far_curvature (b : Boundary R) p : (forall q, q ∈ neighbour_coords b p -> cy q <= 10) -> cy (bp_coord p) <= 9 -> Rabs (cy (bp_normal p)) <= 1 ->
  weighted_curvature far_weight delta b p = curvature delta b p / 2.
Proof.
  intros Hq Hp Hn. unfold weighted_curvature, curvature. set (qs := neighbour_coords b p) in *.
  assert (X : forall c, cy c <= 10 -> weighted_length_to far_weight qs c = length_to qs c / 2).
  { intros c Hc. unfold weighted_length_to, length_to. induction qs as [|q qs IH]; [cbn; lra|]. cbn [map fold_right]. match goal with |- sumR (?a :: ?r) = _ => change (sumR (a :: r)) with (a + sumR r) end.
    rewrite IH by (intros; apply Hq; right; assumption). rewrite (far_mean _ _ Hc (Hq q ltac:(left))). unfold euclid, euclid2, vnorm, vsub. cbn [cx cy].
    replace ((cx c - cx q) ^ 2 + (cy c - cy q) ^ 2) with ((cx c - cx q) * (cx c - cx q) + (cy c - cy q) * (cy c - cy q)) by ring. lra. }
  rewrite delta_R. assert (A : - 1 <= cy (bp_normal p) <= 1) by (unfold Rabs in Hn; destruct (Rcase_abs _) in Hn; lra).
  rewrite !X by (unfold vadd, scale; cbn [cy]; nra). unfold Rdiv. ring.
Qed.

(** ** The hypotheses of C69 and C70 *)
Lemma mid_any (d : Demo R) : exists (s s' : LevelSet R) b, inner_shape 4 4 s /\ length (ls_target s) = node_count 4 4 /\ new_boundary d s = Ok (s', b) /\
  bd_points b <> [] /\ (forall p, p ∈ bd_points b -> well_inside 4 4 (bp_coord p) /\ 0 < bp_length p) /\ (forall n sg, bd_segs b !! n = Some sg -> sg_start sg <> sg_end sg) /\
  (d_normals d = true -> forall p, p ∈ bd_points b -> curvature delta b p < 0 /\ weighted_curvature far_weight delta b p = curvature delta b p / 2) /\
  (forall p k v, p ∈ bd_points b -> getClosestNode (ls_mesh s) (cx (bp_coord p)) (cy (bp_coord p)) = Ok k -> mismatch_value 4 s (bp_coord p) k v -> 0 < v).
Proof.
  destruct mid_shape as (s & Hin & Es & Et & Ha). destruct (good_boundary 4 4 s (proj1 Hin) d) as (s' & b & E & _ & _ & Pts & Ne & Ns & _). pose proof (is_reached _ _ _ (proj1 Hin)) as Hr.
  exists s, s', b. split; [exact Hin|]. split; [rewrite Et; reflexivity|]. split; [exact E|]. split; [exact Ne|].
  destruct (new_boundary_parts d 4 4 s s' b Hr E) as (s1 & b1 & E1 & _ & _ & _ & Sb & _).
  assert (Wi : forall p, p ∈ bd_points b -> well_inside 4 4 (bp_coord p)).
  { intros p Hp. apply elem_of_list_lookup in Hp as [k Ek]. destruct Sb as (_ & _ & L & K). destruct (lookup_lt_is_Some_2 (bd_points b1) k) as [p1 Ek1]; [rewrite <- L; eauto using lookup_lt_Some|].
    rewrite (K k p1 p Ek1 Ek). exact (inner_points 4 4 s s1 b1 Hr (is_off _ _ _ (proj1 Hin)) (proj2 Hin) E1 p1 (elem_of_list_lookup_2 _ _ _ Ek1)). }
  split; [intros p Hp; split; [exact (Wi p Hp)|apply (Pts p Hp)]|]. split; [exact Ns|]. split.
  - intros Hn p Hp. split; [exact (mid_curved s s1 b1 b Hin Es Ha E1 d s' Hn E p Hp)|].
    destruct (mid_weighted s s1 b1 b Hin Es Ha E1 d s' Hn E p Hp) as (A & B & C). exact (far_curvature b p C B A).
  - intros p k v Hp Ek Mv. pose proof (ok_topo _ _ _ (so_ok _ _ _ (reached_sound _ _ _ Hr))) as Ht.
    destruct (closest_inner 4 4 (ls_mesh s) (bp_coord p) Ht (Wi p Hp)) as (k' & Ek' & Hk & Ob). assert (k' = k) as -> by congruence.
    assert (G : forall n, n ∈ cross 4 k -> 0 < gap s n).
    { intros n Hc. assert (Ln : (n < 25)%nat).
      { unfold off_border in Ob. pose proof (Nat.div_mod k 5 ltac:(lia)). unfold cross in Hc. rewrite !elem_of_cons, elem_of_nil in Hc. change (4 + 1)%nat with 5%nat in *. lia. }
      unfold gap. rewrite Et, Es. unfold three25. rewrite (nth_lookup_Some (replicate 25 3) n 0 3 (lookup_replicate_2 _ _ _ Ln)). destruct (lookup_lt_is_Some_2 mid25 n Ln) as [x Ex]. rewrite (nth_lookup_Some _ _ _ _ Ex). destruct (mid_values n x Ex) as [_ [[_ ->]|[_ ->]]]; lra. }
    assert (Cl : forall x, 0 < x -> 0 < clamp x) by (intros x Hx; unfold clamp, Rmax, Rmin; repeat destruct (Rle_dec _ _); lra).
    destruct Mv as [(n & Hc & _ & ->)|[Far ->]]; apply Cl; [exact (G n Hc)|]. unfold weighted_gap.
    assert (P : forall f : nat -> R, (forall n, n ∈ cross 4 k -> 0 < f n) -> 0 < sumR (map f (cross 4 k))).
    { intros f Hf. unfold cross in *. cbn [map sumR fold_right]. pose proof (Hf k ltac:(repeat constructor)). pose proof (Hf (k - 1)%nat ltac:(repeat constructor)). pose proof (Hf (k + 1)%nat ltac:(repeat constructor)).
      pose proof (Hf (k - (4 + 1))%nat ltac:(repeat constructor)). pose proof (Hf (k + (4 + 1))%nat ltac:(repeat constructor)). lra. }
    pose proof tol_pos as Tp. apply Rdiv_lt_0_compat; apply P; intros n Hc; pose proof (Far n Hc); [apply Rdiv_lt_0_compat; [exact (G n Hc)|lra]|apply Rinv_0_lt_compat; lra].
Qed.

Lemma perimeter_case : exists (s s' : LevelSet R) b, inside_shape 4 4 s /\ new_boundary minimise_perimeter s = Ok (s', b) /\ bd_points b <> [] /\ (exists p, p ∈ bd_points b /\ curvature delta b p <> 0).
Proof.
  destruct (mid_any minimise_perimeter) as (s & s' & b & [Hin _] & _ & E & Ne & _ & _ & C & _). exists s, s', b. split; [exact Hin|]. split; [exact E|]. split; [exact Ne|].
  destruct (bd_points b) as [|p l] eqn:Eb; [congruence|]. exists p. split; [left|]. destruct (C eq_refl p) as [Z _]; [left|]. lra.
Qed.
Lemma constrained_case : exists (s s' : LevelSet R) b t area, inside_shape 4 4 s /\ new_boundary (minimise_perimeter_constrained t area) s = Ok (s', b) /\ 0 < t /\
  (exists p, p ∈ bd_points b /\ curvature delta b p - t * curvature delta b p / (2 * bp_length p) <> 0).
Proof.
  destruct (mid_any (minimise_perimeter_constrained 0 (/ 2))) as (s & s' & b & [Hin _] & _ & E & Ne & P & _ & C & _). assert (X : exists p, p ∈ bd_points b) by (destruct (bd_points b) as [|p l]; [congruence|exists p; left]).
  destruct X as [p Hp]. destruct (P p Hp) as [_ L]. destruct (C eq_refl p Hp) as [Z _]. exists s, s', b, (bp_length p), (/ 2). split; [exact Hin|]. split; [exact E|]. split; [exact L|]. exists p. split; [exact Hp|].
  replace (curvature delta b p - bp_length p * curvature delta b p / (2 * bp_length p)) with (curvature delta b p / 2) by (field; lra). lra.
Qed.
Lemma matching_case : exists (s s' : LevelSet R) b, inner_shape 4 4 s /\ length (ls_target s) = node_count 4 4 /\ new_boundary (shape_match (/ 2) []) s = Ok (s', b) /\
  (exists p, p ∈ bd_points b /\ forall k v, getClosestNode (ls_mesh s) (cx (bp_coord p)) (cy (bp_coord p)) = Ok k -> mismatch_value 4 s (bp_coord p) k v -> v <> 0).
Proof.
  destruct (mid_any (shape_match (/ 2) [])) as (s & s' & b & Hin & Lt & E & Ne & _ & _ & _ & M). assert (X : exists p, p ∈ bd_points b) by (destruct (bd_points b) as [|p l]; [congruence|exists p; left]).
  destruct X as [p Hp]. exists s, s', b. split; [exact Hin|]. split; [exact Lt|]. split; [exact E|]. exists p. split; [exact Hp|]. intros k v Ek Mv. pose proof (M p k v Hp Ek Mv). lra.
Qed.
Lemma dumbbell_case : exists (s s' : LevelSet R) b g t, inner_shape 4 4 s /\ length (ls_target s) = node_count 4 4 /\ gravity_ok g /\ 0 < t /\
  new_boundary (dumbbell g t (/ 2) (replicate 16 0)) s = Ok (s', b) /\ (forall p, p ∈ bd_points b -> well_inside 4 4 (bp_coord p)) /\ (forall n sg, bd_segs b !! n = Some sg -> sg_start sg <> sg_end sg) /\
  (exists p, p ∈ bd_points b /\ weighted_curvature g delta b p - t * curvature delta b p / (2 * bp_length p) <> 0) /\
  (exists p, p ∈ bd_points b /\ forall k v, getClosestNode (ls_mesh s) (cx (bp_coord p)) (cy (bp_coord p)) = Ok k -> mismatch_value 4 s (bp_coord p) k v -> v <> 0).
Proof.
  destruct (mid_any (dumbbell far_weight 0 (/ 2) (replicate 16 0))) as (s & s' & b & Hin & Lt & E & Ne & P & Ns & C & M). assert (X : exists p, p ∈ bd_points b) by (destruct (bd_points b) as [|p l]; [congruence|exists p; left]).
  destruct X as [p Hp]. destruct (P p Hp) as [_ L]. destruct (C eq_refl p Hp) as [Z W]. exists s, s', b, far_weight, (bp_length p / 2). split; [exact Hin|]. split; [exact Lt|]. split; [exact far_weight_ok|]. split; [lra|].
  split; [exact E|]. split; [intros q Hq; apply (P q Hq)|]. split; [exact Ns|]. split; exists p; (split; [exact Hp|]).
  - rewrite W. replace (curvature delta b p / 2 - bp_length p / 2 * curvature delta b p / (2 * bp_length p)) with (curvature delta b p / 4) by (field; lra). lra.
  - intros k v Ek Mv. pose proof (M p k v Hp Ek Mv). lra.
Qed.
