(** * ComplementCase: one turn of the two shapes, and a case (C80). *)

From Coq Require Import Reals Lra.
From Verif Require Import Base Num NumR NumInt NumSgn HeapModel MeshModel MeshSpec MeshProofs MeshTopo FmmModel FmmSpec FmmProofs FmmFacts FmmReal LevelSetModel LevelSetSpec LevelSetSpecR
  LevelSetCalls LevelSetBand LevelSetOps LevelSetInit LevelSetGrad LevelSetVel LevelSetHist LevelSetReal LevelSetVelR BoundaryModel BoundarySpec BoundarySpecR LevelSetParams LevelSetNew
  Cycle CycleCase Twin AreaOrderSpec AreaOrder ComplementSpec Complement ComplementStep.
From Verif Require DemoLoop.
Local Open Scope R_scope.

Lemma complement_move W H s ps dt : reached W H s -> ls_fixed s = true -> resolved (ls_sd s) -> clear_of_zero s ps dt ->
  orel (fun x y => complement x.1 y.1 /\ x.2 = y.2) (move s ps dt) (move (flip s) (map reversed ps) dt).
Proof.
  intros Hr Fx Rs HM. unfold move. rewrite (complement_velocities W H s ps Hr Rs).
  destruct (computeVelocities s ps) as [s1| | |] eqn:E1; cbn [obind]; try exact I.
  pose proof (gradients_neg s1) as G. destruct (computeGradients s1) as [s2| | |] eqn:E2; destruct (computeGradients (flip s1)) as [t2| | |] eqn:E2'; cbn in G; try contradiction; cbn [obind]; try exact I.
  destruct (DemoLoop.velocities_keep W H s s1 ps Hr E1) as [v ->]. pose proof (DemoLoop.gradients_keep _ _ E2) as [g ->].
  assert (R2 : reached W H (set_grad g (set_vel v s))).
  { apply (reached_call W H (set_vel v s)); [|apply c_quiet, q_gradients, E2]. apply (reached_call W H s); [exact Hr|]. apply c_quiet, (q_velocities s ps), E1. }
  apply (update_neg W H _ _ dt R2 G); [exact Fx|exact Rs|]. intros i d gr w Hi Ed Eg Ev. exact (HM _ _ E1 E2 i d gr w Hi Ed Eg Ev).
Qed.

(** For small enough time steps no value comes close to zero. *)
Lemma small_step W H (s : LevelSet R) ps : reached W H s -> Forall (fun x => / 2 ^ 52 < Rabs x) (ls_sd s) -> exists q, 0 < q /\ forall dt, 0 <= dt < q -> clear_of_zero s ps dt.
Proof.
  intros Hr Fs. unfold clear_of_zero. destruct (computeVelocities s ps) as [s1| | |] eqn:E1; [|exists 1; split; [lra|intros ? ? ? ? [=]]..].
  destruct (DemoLoop.velocities_keep W H s s1 ps Hr E1) as [w ->].
  destruct (computeGradients (set_vel w s)) as [s2| | |] eqn:E2; [|exists 1; split; [lra|]; intros dt _ a b [= <-] E; rewrite E2 in E; discriminate..].
  destruct (DemoLoop.gradients_keep _ _ E2) as [h ->].
  enough (Q : forall l : list nat, exists q, 0 < q /\ forall dt, 0 <= dt < q -> forall i d g v, i ∈ l -> ls_sd s !! i = Some d -> h !! i = Some g -> w !! i = Some v -> / 2 ^ 52 < Rabs (d - dt * g * v)).
  { destruct (Q (band_list s)) as (q & Pq & Hq). exists q. split; [exact Pq|]. intros dt Hdt a b [= <-] E. rewrite E2 in E. injection E as <-. intros i d g v Hi Ed Eg Ev. right. exact (Hq dt Hdt i d g v Hi Ed Eg Ev). }
  induction l as [|i l (q & Pq & IH)]; [exists 1; split; [lra|]; intros ? ? ? ? ? ? X; apply elem_of_nil in X; contradiction|].
  destruct (ls_sd s !! i) as [d|] eqn:Ed; [|exists q; split; [exact Pq|]; intros dt Hdt k d g v Hk Ek; apply elem_of_cons in Hk as [->|Hk]; [congruence|exact (IH dt Hdt k d g v Hk Ek)]].
  destruct (h !! i) as [g|] eqn:Eg; [|exists q; split; [exact Pq|]; intros dt Hdt k d' g v Hk Ek Eg'; apply elem_of_cons in Hk as [->|Hk]; [congruence|exact (IH dt Hdt k d' g v Hk Ek Eg')]].
  destruct (w !! i) as [v|] eqn:Ev; [|exists q; split; [exact Pq|]; intros dt Hdt k d' g' v Hk Ek Eg' Ev'; apply elem_of_cons in Hk as [->|Hk]; [congruence|exact (IH dt Hdt k d' g' v Hk Ek Eg' Ev')]].
  pose proof (Forall_lookup_1 _ _ _ _ Fs Ed) as Ld. cbn beta in Ld.
  set (e := Rabs d - / 2 ^ 52) in *. assert (Pe : 0 < e) by (unfold e; lra). set (c := Rabs (g * v) + 1). assert (Pc : 0 < c) by (unfold c; pose proof (Rabs_pos (g * v)); lra).
  assert (Pec : 0 < e / c) by (apply Rdiv_lt_0_compat; assumption).
  exists (Rmin q (e / c)). split; [apply Rmin_glb_lt; assumption|]. intros dt [D0 D1] k d' g' v' Hk Ek Eg' Ev'.
  pose proof (Rmin_l q (e / c)). pose proof (Rmin_r q (e / c)). apply elem_of_cons in Hk as [->|Hk]; [|apply (IH dt ltac:(lra) k d' g' v' Hk Ek Eg' Ev')].
  assert (d' = d) by congruence. assert (g' = g) by congruence. assert (v' = v) by congruence. subst d' g' v'.
  pose proof (Rabs_triang_inv d (dt * g * v)) as Ti. assert (Lt : Rabs (dt * g * v) < e); [|unfold e in Lt; lra].
  rewrite Rmult_assoc, Rabs_mult, (Rabs_pos_eq dt) by exact D0. assert (dt * c < e); [|unfold c in *; pose proof (Rabs_pos (g * v)); nra].
  assert (X : dt < e / c) by lra. apply (Rmult_lt_compat_r c) in X; [|exact Pc]. replace (e / c * c) with e in X by (field; lra). exact X.
Qed.

(** A ring on a 4 x 4 mesh whose border is held fixed. *)
Definition moving_point : BoundaryPoint R := mkBP (mkCoord 1 (/ 2)) (mkCoord 0 0) 1 1 0 0 false false 0 [] 0 [] [].
Lemma turn_case : exists (s : LevelSet R) r dt, reached 4 4 s /\ ls_fixed s = true /\ resolved (ls_sd s) /\ 12%nat ∈ band_list s /\ 0 < dt /\ clear_of_zero s [moving_point] dt /\
  move s [moving_point] dt = Ok r.
Proof.
  assert (Hf : fits_ls 4 4 3) by (unfold fits_ls, node_count; lia).
  destruct (new_holes_R 4 4 [] (/ 2) 3 true Hf) as (s0 & E0 & D0).
  { split; [lia|]. split; cbn; apply Rltb_true; lra. }
  pose proof (new_by_holes 4 4 (/ 2) 3 true s0 _ E0) as C0. destruct (constructed_settings _ _ _ _ _ _ C0) as [S0 _]. unfold settings in S0. injection S0 as Sl Sw Sf.
  pose proof (all_unmasked _ _ _ _ _ _ Hf C0) as U0.
  destruct (constructed_sound 4 4 (/ 2) 3 true s0 Hf C0) as [So Bo].
  assert (H0 : reached 4 4 s0) by (exists (/ 2), 3%nat, true, s0; split; [exact Hf|]; split; [exact C0|apply rtc_refl]).
  pose proof (so_ok _ _ _ (reached_sound _ _ _ H0)) as O0.
  assert (H1 : reached 4 4 (set_sd ring25 s0)) by (apply (reached_call _ _ _ _ H0), c_write_sd; rewrite (ok_sd _ _ _ O0); reflexivity).
  set (s := set_sd ring25 s0) in *. pose proof (reached_sound _ _ _ H1) as Ss. pose proof (so_ok _ _ _ Ss) as O.
  assert (V : Forall (fun x => / 2 ^ 52 < Rabs x) (ls_sd s)).
  { apply Forall_lookup. intros i x Ex. change (ring25 !! i = Some x) in Ex. apply ring_values in Ex as [Ex _]. assert (/ 2 ^ 52 < 1) by (rewrite <- Rinv_1; apply Rinv_lt_contravar; lra).
    destruct Ex as [-> | ->]; [rewrite Rabs_R1|rewrite Rabs_left by lra]; lra. }
  destruct (small_step 4 4 s [moving_point] H1 V) as (q & Pq & Hq).
  assert (B12 : 12%nat ∈ band_list s).
  { change (12%nat ∈ band_list s0). apply (bo_band _ Bo). assert (Li : (12 < length (m_nodes (ls_mesh s0)))%nat) by (rewrite (tp_lenN _ _ _ (ok_topo _ _ _ O0)); unfold node_count; lia).
    apply lookup_lt_is_Some in Li as [n En]. split.
    - exists n. split; [exact En|]. split; [destruct (nd_masked n) eqn:Em; [exfalso; apply (U0 12%nat); exists n; auto|reflexivity]|].
      rewrite (proj2 (proj2 (proj2 (proj2 (tp_node _ _ _ (ok_topo _ _ _ O0) 12%nat n En))))). vm_compute. discriminate.
    - destruct (D0 2%nat 2%nat ltac:(lia) ltac:(lia)) as (d & Ed & L1 & _ & L2 & _). exists d. split; [exact Ed|]. rewrite Sw.
      destruct L2 as [L2|(h & Hh & _)]; [|apply elem_of_nil in Hh; contradiction]. apply Rltb_true. rewrite nofnat_R. cbn [nabs NumR]. rewrite L2. unfold border_dist.
      cbn [INR]. unfold Rmin. repeat destruct (Rle_dec _ _); rewrite Rabs_right; lra. }
  assert (Hp : forall p, p ∈ [moving_point] -> in_domain 4 4 p) by (intros p Hp; apply elem_of_list_singleton in Hp as ->; unfold in_domain; cbn; lra).
  assert (Hfront : forall i, (i < 25)%nat -> corner i = false -> on_front 4 4 (ls_sd s) i).
  { intros i Hi Hc. change (ls_sd s) with ring25. destruct (ring_front i Hi Hc) as (k & Had & _ & a & c & Ha & Hb & Hab). right. exists k. split; [exact Had|].
    exists a, c. split; [exact Ha|]. split; [exact Hb|]. apply Rltb_true, Hab. }
  assert (EV : exists s1, computeVelocities s [moving_point] = Ok s1).
  { assert (Hloc : forall q, q ∈ [moving_point] -> located 4 4 (ls_mesh s) q) by (intros p Hq'; apply located_R; [exact (ok_topo _ _ _ O)|exact (Hp p Hq')]).
    destruct (init_vel_spec 4 4 s O (so_safe _ _ _ Ss) [moving_point] Hloc) as (vel0 & EI & _).
    destruct (march_vel_front 4 4 (ls_mesh s) (ls_sd s) vel0 (ok_topo _ _ _ O) (ok_sd _ _ _ O)) as ([[of sd] vel] & EM).
    - exists 1%nat. split; [unfold node_count; lia|]. apply Hfront; [lia|reflexivity].
    - intros i n0 Hn0 Ha. assert (Hb : i ∈ band_list s) by (apply (so_active _ _ _ Ss); exists n0; auto).
      destruct (so_band _ _ _ Ss i Hb) as (n & En & _ & Dm). assert (n = n0) by congruence. subst n.
      assert (Hi : (i < 25)%nat) by (apply lookup_lt_Some in En; rewrite (tp_lenN _ _ _ (ok_topo _ _ _ O)) in En; exact En). apply Hfront; [exact Hi|].
      destruct (corner i) eqn:Ec; [|reflexivity]. exfalso. change (ls_fixed s) with (ls_fixed s0) in Dm. rewrite Sf in Dm.
      rewrite (proj2 (proj2 (proj2 (proj2 (tp_node _ _ _ (ok_topo _ _ _ O) i n0 En))))) in Dm.
      unfold corner in Ec. apply bool_decide_eq_true in Ec. rewrite !elem_of_cons in Ec. destruct Ec as [->|[->|[->|[->|Ec]]]]; [discriminate (Dm eq_refl)..|]. apply elem_of_nil in Ec. contradiction.
    - unfold computeVelocities. rewrite EI. cbn [obind]. rewrite EM. cbn [obind]. eauto. }
  destruct EV as (s1 & E1).
  assert (R1 : reached 4 4 s1) by (apply (reached_call 4 4 s); [exact H1|]; apply c_quiet, (q_velocities s _ _ E1)).
  pose proof (reached_sound _ _ _ R1) as S1.
  destruct (gradients_spec 4 4 s1 (so_ok _ _ _ S1) (so_safe _ _ _ S1) ltac:(lia)) as (g & E2 & _).
  assert (R2 : reached 4 4 (set_grad g s1)) by (apply (reached_call 4 4 s1); [exact R1|]; apply c_quiet, q_gradients, E2).
  assert (Nm : forall i, i ∉ mine_list s0).
  { intros i Hi. apply (bo_mine _ Bo) in Hi as [[(n & En & _) _] (d & Ed & Ld)].
    assert (Hi : (i < 25)%nat) by (apply lookup_lt_Some in En; rewrite (tp_lenN _ _ _ (ok_topo _ _ _ O0)) in En; exact En).
    destruct (D0 (i mod 5)%nat (i / 5)%nat) as (d' & Ed' & _ & _ & L2 & _).
    { pose proof (Nat.mod_upper_bound i 5). lia. }
    { assert (i / 5 < 5)%nat; [|lia]. apply Nat.div_lt_upper_bound; lia. }
    assert (Ei : node_id 4 (i mod 5) (i / 5) = i) by (unfold node_id; change (4 + 1)%nat with 5%nat; pose proof (Nat.div_mod i 5); lia). rewrite Ei in Ed'. assert (d' = d) by congruence. subst d'.
    destruct L2 as [L2|(h & Hh & _)]; [|apply elem_of_nil in Hh; contradiction]. rewrite Sw in Ld. apply Rltb_true in Ld. rewrite nofnat_R in Ld. change (nabs d) with (Rabs d) in Ld.
    assert (B : Rabs d <= 2); [|cbn [INR Nat.sub] in Ld; lra]. rewrite L2. unfold border_dist.
    assert (Hx : forall k : nat, (k <= 4)%nat -> 0 <= Rmin (INR k) (INR 4 - INR k) <= 2).
    { intros k Hk. do 5 (destruct k as [|k]; [cbn [INR]; unfold Rmin; destruct (Rle_dec _ _); lra|]). lia. }
    assert (X : (i mod 5 <= 4)%nat) by (pose proof (Nat.mod_upper_bound i 5); lia). assert (Y : (i / 5 <= 4)%nat) by (assert (i / 5 < 5)%nat; [apply Nat.div_lt_upper_bound|]; lia).
    pose proof (Hx _ X) as QX. pose proof (Hx _ Y) as QY. pose proof (Rmin_l (Rmin (INR (i mod 5)) (INR 4 - INR (i mod 5))) (Rmin (INR (i / 5)) (INR 4 - INR (i / 5)))) as Q1.
    rewrite Rabs_pos_eq by (apply Rmin_glb; [apply QX|apply QY]). lra. }
  destruct (DemoLoop.velocities_keep 4 4 s s1 _ H1 E1) as [w ->].
  destruct (update_reports 4 4 (set_grad g (set_vel w s)) (q / 2) R2) as (s4 & _ & _ & EU).
  exists s, (s4, false), (q / 2). split; [exact H1|]. split; [exact Sf|]. split; [eapply Forall_impl; [exact V|]; cbn beta; auto|]. split; [exact B12|]. split; [lra|]. split; [apply Hq; lra|].
  unfold move. rewrite E1. cbn [obind]. rewrite E2. cbn [obind]. apply EU. intros (i & d & Hi & _). exact (Nm i Hi).
Qed.
