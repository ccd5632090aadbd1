(** * Cycle: one step of an optimisation, from the boundary to the moved level set (C55), and noise (C54).  Exact arithmetic. *)

From Coq Require Import Reals Lra.
From Verif Require Import OptModel OptSpec OptSolve OptMain OptSides.
From Verif Require Import Num NumR NumInt NumSgn MeshModel MeshSpec MeshTopo FmmModel FmmSpec FmmFacts FmmReal FmmSign LevelSetModel LevelSetSpec LevelSetSpecR
  LevelSetCalls LevelSetOps LevelSetGrad LevelSetVel LevelSetHist LevelSetReal LevelSetVelR BoundaryModel BoundarySpec BoundarySpecR BoundaryFrame BoundaryLinks BoundaryReal LevelSetParams.
Open Scope R_scope.
Local Notation sqrt := R_sqrt.sqrt.

(** ** Noise *)
Lemma noise_step (s s' : LevelSet R) points dt temp rng points' dt' scale : 0 < dt -> 0 <= temp -> 0 < ls_moveLimit s ->
  computeVelocities_noise s points dt temp rng = Ok (s', points', dt', scale) ->
  (0 < dt' <= dt /\ 1 <= scale /\ dt' * scale = dt /\ sqrt (2 * temp * dt') <= ls_moveLimit s / 2) /\
  (sqrt (2 * temp * dt) <= ls_moveLimit s / 2 -> dt' = dt /\ scale = 1) /\
  (ls_moveLimit s / 2 < sqrt (2 * temp * dt) -> sqrt (2 * temp * dt') = ls_moveLimit s / 2) /\
  points' = imap (fun i p => set_bp_velocity (bp_velocity p + sqrt (2 * temp / dt') / sqrt (bp_length p) * rng i) p) points /\
  computeVelocities s points' = Ok s'.
Proof.
  intros Hd Ht Hl E. unfold computeVelocities_noise in E.
  set (L := ls_moveLimit s) in *.
  assert (HS : sqrt (2 * temp) * sqrt dt = sqrt (2 * temp * dt)) by (symmetry; apply sqrt_mult; lra).
  assert (Ec : (nsqrt (nofZ 2 * temp) * nsqrt dt >? nlit 1 2 * L)%num = Rltb (L / 2) (sqrt (2 * temp * dt))).
  { rewrite <- HS. cbn. f_equal. field. }
  rewrite Ec in E.
  assert (HN : forall x, 0 < x -> sqrt (2 * temp) / sqrt x = sqrt (2 * temp / x)) by (intros x Hx; symmetry; apply sqrt_div; lra).
  destruct (Rltb_spec (L / 2) (sqrt (2 * temp * dt))) as [C|C].
  - set (sc := 8 * dt * temp / (L * L)).
    assert (HT : 0 < temp).
    { destruct (Rle_lt_or_eq_dec _ _ Ht) as [G|G]; [exact G|]. exfalso. rewrite <- G in C. replace (2 * 0 * dt) with 0 in C by ring. rewrite sqrt_0 in C. lra. }
    assert (Hsc : 1 < sc).
    { assert (Q : (L / 2) * (L / 2) < sqrt (2 * temp * dt) * sqrt (2 * temp * dt)) by (apply Rmult_le_0_lt_compat; lra).
      rewrite sqrt_sqrt in Q by nra. unfold sc. apply (Rmult_lt_reg_r (L * L)); [nra|]. field_simplify; [|lra]. nra. }
    assert (Hdt : dt / sc = L * L / (8 * temp)) by (unfold sc; field; repeat split; lra).
    assert (Hs : sqrt (2 * temp * (dt / sc)) = L / 2).
    { rewrite Hdt. replace (2 * temp * (L * L / (8 * temp))) with ((L / 2) * (L / 2)) by (field; lra). apply sqrt_square. lra. }
    assert (Hp : 0 < dt / sc) by (apply Rdiv_lt_0_compat; lra).
    destruct (computeVelocities s _) as [s2| | |] eqn:EV in E; cbn [obind] in E; try discriminate.
    assert (K : s2 = s' /\ points' = imap (fun i p => set_bp_velocity (bp_velocity p + sqrt (2 * temp) / sqrt (dt / sc) / sqrt (bp_length p) * rng i) p) points /\ dt' = dt / sc /\ scale = sc).
    { injection E as <- <- <- <-. auto. }
    destruct K as (-> & -> & -> & ->). split; [|split; [|split; [|split]]].
    + split; [split; [exact Hp|]|]. { apply (Rmult_le_reg_r sc); [lra|]. unfold Rdiv. rewrite Rmult_assoc, Rinv_l by lra. nra. }
      split; [lra|]. split; [field; lra|lra].
    + intros F. lra.
    + intros _. exact Hs.
    + rewrite (HN _ Hp). reflexivity.
    + exact EV.
  - destruct (computeVelocities s _) as [s2| | |] eqn:EV in E; cbn [obind] in E; try discriminate.
    assert (K : s2 = s' /\ points' = imap (fun i p => set_bp_velocity (bp_velocity p + sqrt (2 * temp) / sqrt dt / sqrt (bp_length p) * rng i) p) points /\ dt' = dt /\ scale = 1).
    { injection E as <- <- <- <-. auto. }
    destruct K as (-> & -> & -> & ->). split; [|split; [|split; [|split]]].
    + repeat split; try lra.
    + intros _. auto.
    + intros F. lra.
    + rewrite (HN _ Hd). reflexivity.
    + exact EV.
Qed.

(** ** One step *)
Lemma abs_le_inv x y : Rabs x <= y -> - y <= x <= y.
Proof. unfold Rabs. destruct Rcase_abs; lra. Qed.

(** The caller may write the sensitivities (and anything else that solve does not read for the limits). *)
Definition same_place (p q : BoundaryPoint R) : Prop := bp_coord q = bp_coord p /\ bp_neg q = bp_neg p /\ bp_domain q = bp_domain p.

Lemma step_within_limit W H (s s1 s2 s3 s4 : LevelSet R) b pts dist lambdas t0 isMax isEq o nlopt fuel o' v :
  reached W H s -> (4 <= W)%nat -> (4 <= H)%nat -> discretise s false = Ok (s1, b) -> Forall2 same_place (bd_points b) pts ->
  optimise_ctor pts dist lambdas t0 (ls_moveLimit s) isMax isEq = Ok o -> OptModel.solve nlopt fuel o = Ok (o', Some v) -> op_time o' <> 0 ->
  computeVelocities s1 (op_points o') = Ok s2 -> computeGradients s2 = Ok s3 -> update s3 (op_time o') = Ok (s4, false) ->
  (forall i, on_front W H (ls_sd s) i -> i ∈ band_list s) ->
  (forall i n d, m_nodes (ls_mesh s) !! i = Some n -> nd_domain n = true -> ls_sd s !! i = Some d -> d <= 0) ->
  (forall i, i ∉ band_list s -> ls_sd s4 !! i = ls_sd s !! i) /\
  (forall i d r, i ∈ band_list s -> ls_sd s !! i = Some d -> ls_sd s4 !! i = Some r ->
     exists g, ls_grad s3 !! i = Some g /\ 0 <= g /\ Rabs (r - d) <= g * ls_moveLimit s).
Proof.
  intros Hr HW HH ED HP EO ES Ht EV EG EU Hcov Hbord.
  assert (R1 : reached W H s1) by (apply (reached_call _ _ _ _ Hr), c_quiet, (q_discretise _ _ _ _ ED)).
  assert (R2 : reached W H s2) by (apply (reached_call _ _ _ _ R1), c_quiet, (q_velocities _ _ _ EV)).
  assert (R3 : reached W H s3) by (apply (reached_call _ _ _ _ R2), c_quiet, (q_gradients _ _ EG)).
  pose proof (frame_api W H s s1 false b (ok_topo _ _ _ (so_ok _ _ _ (reached_sound _ _ _ Hr))) ED) as (F1 & F2 & _ & FN & _).
  injection F1 as Fsd _ _ _. injection F2 as Fb Fn _ _.
  assert (Fband : band_list s1 = band_list s) by (unfold band_list; rewrite Fb, Fn; reflexivity).
  (* the points lie in the domain, and so do those solve has given velocities *)
  destruct (solve_moves _ _ _ _ _ _ _ _ _ _ _ _ EO ES) as (_ & Et & Ep).
  assert (Hin : forall p, p ∈ op_points o' -> in_domain W H p).
  { intros p Hp. rewrite Ep in Hp. apply elem_of_list_fmap in Hp as (q & -> & Hq). apply elem_of_list_lookup in Hq as [k Hk].
    destruct (Forall2_lookup_r _ _ _ _ _ HP Hk) as (p0 & Hp0 & E0 & _). unfold in_domain. cbn [bp_coord set_bp_velocity]. rewrite E0.
    apply (points_on_contour W H s s1 false b Hr ED k p0 Hp0). }
  assert (Hside : side_limits (ls_moveLimit s) pts).
  { intros q Hq Hd. apply elem_of_list_lookup in Hq as [k Hk]. destruct (Forall2_lookup_r _ _ _ _ _ HP Hk) as (p0 & Hp0 & _ & E1 & E2).
    rewrite E1. apply (discretised_sides W H s s1 false b (ls_moveLimit s) Hr ED (or_introl (Rle_refl _)) p0); [eapply elem_of_list_lookup_2, Hp0|congruence]. }
  destruct (solve_cfl _ _ _ _ _ _ _ _ _ _ _ _ Hside EO ES Ht) as [_ Hcfl].
  set (L := ls_moveLimit s) in *. set (dt := op_time o') in *.
  assert (Hdt : 0 < dt) by (pose proof (Rabs_pos (nth 0 (op_lambdas o') 0)); lra).
  assert (HL : 0 <= L).
  { pose proof (proj1 (proj2 (reached_settings W H s Hr))) as Hp. apply Rltb_true in Hp. unfold L. cbn in Hp. lra. }
  assert (Hvel : forall p, p ∈ op_points o' -> - (L / dt) <= bp_velocity p <= L / dt).
  { intros p Hp. apply elem_of_list_lookup in Hp as [k Hk]. destruct (Hcfl k p Hk) as [A _]. apply abs_le_inv in A.
    assert (X : bp_velocity p = bp_velocity p * dt / dt) by (field; lra). rewrite X. unfold Rdiv.
    assert (0 < / dt) by (apply Rinv_0_lt_compat; lra). split; [|apply Rmult_le_compat_r; lra]. nra. }
  assert (HLd : 0 <= L / dt) by (apply Rmult_le_pos; [lra|left; apply Rinv_0_lt_compat; lra]).
  assert (Hcov1 : forall i, on_front W H (ls_sd s1) i -> i ∈ band_list s1) by (rewrite Fsd, Fband; exact Hcov).
  pose proof (band_velocities_range W H s1 s2 (op_points o') R1 Hin EV (- (L / dt)) (L / dt) ltac:(lra) Hvel Hcov1) as HV.
  (* velocities and gradients touch nothing else *)
  assert (E2 : exists vel, s2 = set_vel vel s1).
  { destruct (velocities_spec W H s1 (so_ok _ _ _ (reached_sound _ _ _ R1)) (so_safe _ _ _ (reached_sound _ _ _ R1)) (op_points o')) as [X|(vel0 & vel & ob & _ & X & _)].
    - intros p Hp. apply located_R; [exact (ok_topo _ _ _ (so_ok _ _ _ (reached_sound _ _ _ R1)))|exact (Hin p Hp)].
    - congruence.
    - exists vel. congruence. }
  destruct E2 as [vel E2].
  destruct (gradients_reached W H s2 R2 HW HH) as (g & E3 & _ & _ & Hg). assert (E3' : s3 = set_grad g s2) by congruence.
  assert (B3 : band_list s3 = band_list s) by (rewrite E3', E2; exact Fband).
  assert (D3 : ls_sd s3 = ls_sd s) by (rewrite E3', E2; exact Fsd).
  destruct (update_explicit W H s3 s4 dt R3 EU) as (U1 & U2 & _). rewrite B3, D3 in U1, U2. split; [exact U1|].
  intros i d r Hi Hd Hrr. destruct (U2 i Hi) as (d0 & g0 & v0 & n0' & r0 & A1 & A2 & A3 & A4 & A5 & A6).
  rewrite Hd in A1. injection A1 as <-. rewrite Hrr in A5. injection A5 as <-. exists g0. split; [exact A2|].
  destruct (Hg i) as (g1 & G1 & G2). { rewrite E2. change (band_list (set_vel vel s1)) with (band_list s1). rewrite Fband. exact Hi. }
  assert (g1 = g0) as -> by (rewrite E3' in A2; change (g !! i = Some g0) in A2; congruence).
  apply Rltb_false in G2. change (n0 (T:=R)) with 0 in G2. split; [exact G2|].
  assert (V0 : - (L / dt) <= v0 <= L / dt).
  { apply (HV i v0); [rewrite Fband; exact Hi|]. rewrite E3' in A3. exact A3. }
  assert (Q : Rabs (dt * g0 * v0) <= g0 * L).
  { replace (dt * g0 * v0) with (g0 * (dt * v0)) by ring. rewrite Rabs_mult, (Rabs_right g0) by lra. apply Rmult_le_compat_l; [exact G2|].
    apply Rabs_le. assert (L = dt * (L / dt)) as Heq by (field; lra). set (q := L / dt) in *. rewrite Heq. nra. }
  set (m := dt * g0 * v0) in *. change (d - dt * g0 * v0)%num with (d - m) in A6.
  destruct (nd_domain n0') eqn:Dn; cbn [andb] in A6.
  - assert (Hd0 : d <= 0).
    { rewrite E3', E2 in A4. cbn [ls_mesh set_grad set_vel] in A4.
      destruct (lookup_lt_is_Some_2 (m_nodes (ls_mesh s)) i) as [n Hn].
      { pose proof (ok_topo _ _ _ (so_ok _ _ _ (reached_sound _ _ _ Hr))) as T0. pose proof (ok_topo _ _ _ (so_ok _ _ _ (reached_sound _ _ _ R1))) as T1.
        rewrite (tp_lenN _ _ _ T0), <- (tp_lenN _ _ _ T1). eapply lookup_lt_Some, A4. }
      destruct (FN i n n0' Hn A4) as [_ X]. injection X as _ _ X _. apply (Hbord i n d Hn); [congruence|exact Hd]. }
    change (r = if Rltb 0 (d - m) then 0 else d - m) in A6. apply abs_le_inv in Q.
    destruct (Rltb_spec 0 (d - m)) as [Cm|Cm]; subst r; apply Rabs_le; lra.
  - subst r. replace (d - m - d) with (- m) by ring. rewrite Rabs_Ropp. exact Q.
Qed.

(** ** Reinitialisation makes the band cover the boundary *)
Lemma same_side_inv x y : same_side x y -> (0 < y -> 0 < x) /\ (y < 0 -> x < 0) /\ (y = 0 -> x = 0).
Proof. intros (A & B & C). destruct (Rtotal_order x 0) as [L|[E|G]]; repeat split; intros; try lra; first [specialize (B L)|specialize (C E)|specialize (A G)]; lra. Qed.

Lemma reinit_covers W H (s s' : LevelSet R) : reached W H s -> reinitialise s = Ok s' ->
  (forall i c, ls_sd s !! i = Some c -> 0 < c -> nepsilon < c) ->
  (forall i k a b, adjacent W H i k -> ls_sd s' !! i = Some a -> ls_sd s' !! k = Some b -> Rabs b <= Rabs a + 1) ->
  forall i, on_front W H (ls_sd s') i -> movable s' i -> i ∈ band_list s'.
Proof.
  intros Hr E Hp Hj i Hf Hm. pose proof (so_ok _ _ _ (reached_sound _ _ _ Hr)) as Ho.
  destruct (reinit_spec W H s Ho) as (_ & HS & _). destruct (HS s' E) as (Ho' & Hb & _ & o & Hmarch).
  assert (Hr' : reached W H s') by (apply (reached_call _ _ _ _ Hr), c_reinitialise, E).
  pose proof (reached_settings W H s' Hr') as [Hbw _].
  pose proof (march_sign W H (ls_mesh s) (ok_topo _ _ _ Ho) (ls_sd s) (ok_sd _ _ _ Ho) Hp false o (ls_sd s') Hmarch Hj) as Hsign.
  assert (Hlk : forall k b, ls_sd s' !! k = Some b -> exists a, ls_sd s !! k = Some a).
  { intros k b Hk. apply lookup_lt_is_Some_2. rewrite (ok_sd _ _ _ Ho), <- (ok_sd _ _ _ Ho'). eapply lookup_lt_Some, Hk. }
  apply (bo_band _ Hb). split; [exact Hm|].
  assert (Hsmall : exists c', ls_sd s' !! i = Some c' /\ Rabs c' < 1).
  { destruct Hf as [(c' & Hc' & Hz)|(k & Had & c' & v' & Hc' & Hv' & Hx)].
    - exists c'. split; [exact Hc'|]. apply Reqb_true in Hz. change (n0 (T := R)) with 0 in Hz. rewrite Hz, Rabs_R0. lra.
    - exists c'. split; [exact Hc'|]. destruct (Hlk i c' Hc') as [c Hc]. destruct (Hlk k v' Hv') as [v Hv].
      destruct (same_side_inv _ _ (Hsign i c c' Hc Hc')) as (A1 & A2 & _). destruct (same_side_inv _ _ (Hsign k v v' Hv Hv')) as (B1 & B2 & _).
      apply Rltb_true in Hx. change (c' * v' < 0) in Hx.
      destruct (march_front_R W H (ls_mesh s) false (ls_sd s) o (ls_sd s') (ok_topo _ _ _ Ho) (ok_sd _ _ _ Ho) Hmarch i c Hc) as (c2 & Hc2 & _ & L & _).
      { right. exists k. split; [exact Had|]. exists c, v. split; [exact Hc|]. split; [exact Hv|]. apply Rltb_true. change (c * v < 0).
        assert (c' <> 0) by (intros ->; lra). destruct (Rtotal_order c' 0) as [N|[Z|P]]; [|lra|].
        - assert (V : 0 < v') by nra. specialize (A2 N). specialize (B1 V). nra.
        - assert (V : v' < 0) by nra. specialize (A1 P). specialize (B2 V). nra. }
      assert (c2 = c') by congruence. subst c2. exact L. }
  destruct Hsmall as (c' & Hc' & L). exists c'. split; [exact Hc'|]. apply Rltb_true. rewrite nofnat_R. cbn [nabs NumR].
  apply Rlt_trans with 1; [exact L|]. apply (lt_INR 1). lia.
Qed.
