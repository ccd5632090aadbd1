(** * CycleCase: a level set and an optimisation problem that meet the hypotheses of C54 and C55. *)

From Coq Require Import Reals Lra.
From Verif Require Import OptModel OptSpec OptFrame OptReal OptGrad OptSolve OptConstr OptRounds OptTotal OptMain OptSides OptCases.
From Verif Require Import Num NumR NumInt NumSgn HeapModel MeshModel MeshSpec MeshProofs MeshTopo FmmModel FmmSpec FmmProofs FmmFacts FmmReal FmmSign LevelSetModel LevelSetSpec LevelSetSpecR
  LevelSetCalls LevelSetBand LevelSetOps LevelSetInit LevelSetGrad LevelSetVel LevelSetHist LevelSetReal LevelSetVelR BoundaryModel BoundarySpec BoundarySpecR BoundaryFrame
  BoundaryLinks BoundaryReal BoundaryGraph BoundaryRun BoundaryClosed LevelSetParams LevelSetNew Cycle.

(** ** Velocities when every active node is next to the boundary: nothing is extended *)
Lemma march_vel_front {T} {NT : Num T} W H (mesh : Mesh T) sd vel : topo W H mesh -> length sd = node_count W H ->
  (exists i, (i < node_count W H)%nat /\ on_front W H sd i) ->
  (forall i n, m_nodes mesh !! i = Some n -> nd_active n = true -> on_front W H sd i) ->
  exists r, fmm_march_vel mesh (fmm_new mesh false) sd vel = Ok r.
Proof.
  intros Ht Hl (i0 & Hi0 & Hf0) Hact. destruct (fobj_new W H mesh Ht false) as [Lp Ls Lc Hp].
  unfold fmm_march_vel. rewrite (take_copy_ok W H) by assumption. cbn [obind].
  pose proof (initialiseFrozen_spec W H mesh Ht sd Hl _ sd Ls Hl Hp) as HI. unfold march_core.
  destruct (initialiseFrozen mesh sd _ sd) as [[st1 sd1]| | |]; cbn [wp] in HI; [|exfalso|contradiction..].
  2:{ destruct (HI i0 Hi0) as [Hz Hb]. apply (front_b W H mesh Ht sd Hl i0 Hi0) in Hf0. rewrite Hz, (Hb (fresh_none W H mesh Ht false i0 Hi0)) in Hf0. discriminate. }
  destruct HI as (L1 & Ld1 & _ & HS & _). cbn [obind]. rewrite (heap_capacity_spec W H mesh Ht sd Hl st1 L1). cbn [obind]. rewrite (tp_nN _ _ _ Ht).
  set (s0 := mkFmm _ _ _ _ _).
  assert (Hstay : forall i, (i < node_count W H)%nat -> trial_node mesh true sd i s0 = Ok s0).
  { intros i Hi. unfold trial_node. cbn [f_status s0]. unfold vget at 1. rewrite (HS i _ (fresh_none W H mesh Ht false i Hi)). cbn [is_frozen orb obind].
    destruct (zero_b sd i || border_b mesh sd i) eqn:Eb; cbn [fr is_none]; [reflexivity|].
    assert (Hstep : forall j, (j < 4)%nat -> trial_step mesh true sd i j s0 = Ok s0).
    { intros j Hj. unfold trial_step. rewrite (neigh_ok W H mesh Ht i j Hi Hj). cbn [obind]. rewrite (tp_nN _ _ _ Ht).
      destruct (negb _) eqn:En; [|reflexivity]. apply negb_true_iff, Nat.eqb_neq in En.
      destruct (nb_range W H i j Hi Hj) as [Hb|Hb]; [congruence|]. destruct (lookup_lt_is_Some_2 st1 (nb W H i j)) as [x Hx]; [lia|].
      cbn [f_status s0]. unfold vget at 1. rewrite Hx. cbn [obind]. destruct (is_frozen x); [|reflexivity].
      unfold vget at 1. rewrite (HS i _ (fresh_none W H mesh Ht false i Hi)). cbn [is_frozen orb obind]. rewrite Eb. cbn [fr is_none].
      unfold is_active, vget. destruct (topo_node W H mesh Ht i Hi) as (n & Hn & _). rewrite Hn. cbn [obind].
      destruct (nd_active n) eqn:Ea; [|reflexivity]. exfalso. pose proof (Hact i n Hn Ea) as Hf. apply (front_b W H mesh Ht sd Hl i Hi) in Hf. congruence. }
    cbn [for_ for_from]. do 4 (rewrite Hstep by lia; cbn [obind]). reflexivity. }
  assert (Hloop : forall n i, (i + n <= node_count W H)%nat -> for_from i n (trial_node mesh true sd) s0 = Ok s0).
  { induction n as [|n IH]; intros i Hi; [reflexivity|]. cbn [for_from]. rewrite Hstay by lia. cbn [obind]. apply IH. lia. }
  unfold for_. rewrite Hloop by lia. cbn [obind FmmModel.solve heap_empty f_heap s0 h_len heap_new]. cbn. eauto.
Qed.

(** ** A ring on a 4 x 4 mesh, with the corners masked *)
Local Open Scope R_scope.

(** The border and the centre are outside, the nodes between them inside. *)
Definition ringZ : list Z := [-1; -1; -1; -1; -1;  -1; 1; 1; 1; -1;  -1; 1; -1; 1; -1;  -1; 1; 1; 1; -1;  -1; -1; -1; -1; -1]%Z.
Definition ring25 : list R := IZR <$> ringZ.
Definition corner (i : nat) : bool := bool_decide (i ∈ [0; 4; 20; 24]%nat).

Lemma ring_front i : (i < 25)%nat -> corner i = false -> exists k, adjacent 4 4 i k /\ corner k = false /\
  exists a b, ring25 !! i = Some a /\ ring25 !! k = Some b /\ a * b < 0.
Proof.
  intros Hi Hc.
  assert (A : forallb (fun i => corner i || existsb (fun j => (nb 4 4 i j <? 25)%nat && negb (corner (nb 4 4 i j)) &&
    match ringZ !! i, ringZ !! nb 4 4 i j with Some a, Some b => (a * b <? 0)%Z | _, _ => false end) (seq 0 4)) (seq 0 25) = true) by (vm_compute; reflexivity).
  rewrite forallb_forall in A. specialize (A i). rewrite Hc in A. cbn [orb] in A.
  rewrite existsb_exists in A. destruct A as (j & Hj & A); [apply in_seq; lia|]. apply in_seq in Hj.
  apply andb_true_iff in A as [A Ax]. apply andb_true_iff in A as [An Ac]. apply Nat.ltb_lt in An. apply negb_true_iff in Ac.
  exists (nb 4 4 i j). split; [apply adjacent_nb; split; [exact Hi|]; split; [exact An|]; exists j; split; [lia|reflexivity]|].
  split; [exact Ac|]. unfold ring25. rewrite !list_lookup_fmap.
  destruct (ringZ !! i) as [a|]; [|discriminate]. destruct (ringZ !! nb 4 4 i j) as [b|]; [|discriminate]. apply Z.ltb_lt in Ax.
  exists (IZR a), (IZR b). split; [reflexivity|]. split; [reflexivity|]. rewrite <- mult_IZR. apply IZR_lt, Ax.
Qed.

Lemma ring_values i c : ring25 !! i = Some c -> (c = 1 \/ c = -1) /\ (domain_spec 4 4 (i mod 5) (i / 5) = true -> c = -1).
Proof.
  intros E. unfold ring25 in E. rewrite list_lookup_fmap in E. destruct (ringZ !! i) as [z|] eqn:Ez; [|discriminate].
  apply (inj Some) in E. subst c.
  assert (A : forallb (fun i => match ringZ !! i with Some z => ((z =? 1)%Z || (z =? -1)%Z) && (negb (domain_spec 4 4 (i mod 5) (i / 5)) || (z =? -1)%Z) | None => false end)
    (seq 0 25) = true) by (vm_compute; reflexivity).
  rewrite forallb_forall in A. specialize (A i). rewrite Ez in A. apply lookup_lt_Some in Ez. change (length ringZ) with 25%nat in Ez.
  assert (B := A ltac:(apply in_seq; lia)). apply andb_true_iff in B as [B C]. rewrite orb_true_iff, !Z.eqb_eq in B.
  split; [destruct B as [-> | ->]; [left|right]; reflexivity|]. intros D. rewrite D in C. cbn in C. apply Z.eqb_eq in C as ->. reflexivity.
Qed.

Definition corner_holes : list (Hole R) := map (fun p => mkHole (mkCoord (INR (fst p)) (INR (snd p))) (/ 2)) [(0, 0); (4, 0); (0, 4); (4, 4)]%nat.

Lemma close_grid (a b x y : nat) : R_sqrt.sqrt ((INR a - INR x) * (INR a - INR x) + (INR b - INR y) * (INR b - INR y)) < / 2 -> a = x /\ b = y.
Proof.
  intros E.
  assert (K : forall u v : nat, u <> v -> 1 <= (INR u - INR v) * (INR u - INR v)).
  { intros u v Huv. destruct (Nat.lt_total u v) as [L|[L|L]]; [|contradiction|].
    - apply le_INR in L. rewrite S_INR in L. nra.
    - apply le_INR in L. rewrite S_INR in L. nra. }
  assert (S : forall e, 1 <= e -> ~ R_sqrt.sqrt e < / 2).
  { intros e He. pose proof (sqrt_le_1_alt 1 e He) as Q. rewrite sqrt_1 in Q. lra. }
  pose proof (Rle_0_sqr (INR a - INR x)) as Q1. pose proof (Rle_0_sqr (INR b - INR y)) as Q2. unfold Rsqr in *.
  split.
  - destruct (Nat.eq_dec a x) as [|n]; [assumption|]. exfalso. apply (S _) in E; [exact E|]. pose proof (K a x n). lra.
  - destruct (Nat.eq_dec b y) as [|n]; [assumption|]. exfalso. apply (S _) in E; [exact E|]. pose proof (K b y n). lra.
Qed.

Lemma corner_circles (s : LevelSet R) i : topo 4 4 (ls_mesh s) -> (i < 25)%nat -> in_circles s corner_holes i <-> corner i = true.
Proof.
  intros Ht Hi.
  assert (Hat : exists n, m_nodes (ls_mesh s) !! i = Some n /\ nd_coord n = mkCoord (INR (i mod 5)) (INR (i / 5))).
  { destruct (lookup_lt_is_Some_2 (m_nodes (ls_mesh s)) i) as [n Hn]. { rewrite (tp_lenN _ _ _ Ht). exact Hi. }
    exists n. split; [exact Hn|]. rewrite (topo_coord _ _ _ _ _ Ht Hn). change (4 + 1)%nat with 5%nat. rewrite !nofnat_R. reflexivity. }
  destruct Hat as (n & Hn & Ec). pose proof (Nat.div_mod i 5 ltac:(lia)) as Hdm.
  assert (K : in_circles s corner_holes i <-> exists p, p ∈ [(0, 0); (4, 0); (0, 4); (4, 4)]%nat /\ fst p = (i mod 5)%nat /\ snd p = (i / 5)%nat).
  { split.
    - intros (n' & h & Hn' & Hh & Hd). rewrite Hn in Hn'. injection Hn' as <-. rewrite Ec in Hd.
      unfold corner_holes in Hh. apply elem_of_list_fmap in Hh as (p & -> & Hp). apply Rltb_true in Hd. exists p. split; [exact Hp|].
      apply close_grid. exact Hd.
    - intros (p & Hp & E1 & E2). exists n, (mkHole (mkCoord (INR (fst p)) (INR (snd p))) (/ 2)). split; [exact Hn|].
      split; [unfold corner_holes; apply elem_of_list_fmap; exists p; auto|]. rewrite Ec, <- E1, <- E2. apply Rltb_true.
      change (R_sqrt.sqrt ((INR (fst p) - INR (fst p)) * (INR (fst p) - INR (fst p)) + (INR (snd p) - INR (snd p)) * (INR (snd p) - INR (snd p))) < / 2).
      rewrite !Rminus_diag_eq by reflexivity. rewrite !Rmult_0_l, Rplus_0_l, sqrt_0. lra. }
  rewrite K. unfold corner. rewrite bool_decide_eq_true, !elem_of_cons. split.
  - intros (p & Hp & E1 & E2). rewrite !elem_of_cons in Hp. destruct Hp as [-> | [-> | [-> | [-> | Hp]]]]; cbn [fst snd] in *; try lia. inversion Hp.
  - intros Hp. destruct Hp as [-> | [-> | [-> | [-> | Hp]]]].
    + exists (0, 0)%nat. split; [left|split; reflexivity].
    + exists (4, 0)%nat. split; [right; left|split; reflexivity].
    + exists (0, 4)%nat. split; [right; right; left|split; reflexivity].
    + exists (4, 4)%nat. split; [right; right; right; left|split; reflexivity].
    + inversion Hp.
Qed.

Record ring_state (s : LevelSet R) : Prop := {
  rs_reached : reached 4 4 s;
  rs_sd : ls_sd s = ring25;
  rs_limit : ls_moveLimit s = / 2;
  rs_band : forall i, i ∈ band_list s <-> (i < 25)%nat /\ corner i = false;
  rs_mine : forall i, i ∉ mine_list s
}.

Lemma ring_exists : exists s, ring_state s.
Proof.
  assert (Hf : fits_ls 4 4 3) by (unfold fits_ls, node_count; lia).
  destruct (new_holes_R 4 4 [] (/ 2) 3 false Hf) as (s0 & E0 & _).
  { split; [lia|]. split; cbn; apply Rltb_true; lra. }
  pose proof (new_by_holes 4 4 (/ 2) 3 false s0 _ E0) as C0.
  pose proof (all_unmasked _ _ _ _ _ _ Hf C0) as U0. destruct (constructed_settings _ _ _ _ _ _ C0) as [S0 _].
  assert (H0 : reached 4 4 s0) by (exists (/ 2), 3%nat, false, s0; split; [exact Hf|]; split; [exact C0|apply rtc_refl]).
  pose proof (so_ok _ _ _ (reached_sound _ _ _ H0)) as O0.
  assert (H1 : reached 4 4 (set_sd ring25 s0)) by (apply (reached_call _ _ _ _ H0), c_write_sd; rewrite (ok_sd _ _ _ O0); reflexivity).
  set (s1 := set_sd ring25 s0) in *. pose proof (so_ok _ _ _ (reached_sound _ _ _ H1)) as O1.
  destruct (mask_holes_spec 4 4 s1 O1 corner_holes) as (s2 & E2 & O2 & K2).
  assert (Hin : forall i, (i < 25)%nat -> in_circles s1 corner_holes i <-> corner i = true) by (intros i Hi; apply corner_circles; [exact (ok_topo _ _ _ O1)|exact Hi]).
  assert (Hkeep : forall i, (i < 25)%nat -> corner i = false -> ls_sd s2 !! i = ring25 !! i).
  { intros i Hi Hc. apply (kf_out _ _ _ K2). rewrite (Hin i Hi). congruence. }
  assert (Hfr : forall i, (i < 25)%nat -> corner i = false -> on_front 4 4 (ls_sd s2) i).
  { intros i Hi Hc. destruct (ring_front i Hi Hc) as (k & Had & Hck & a & b & Ha & Hb & Hab). right. exists k. split; [exact Had|].
    exists a, b. rewrite !Hkeep by (try assumption; apply adjacent_nb in Had; exact (proj1 (proj2 Had))). split; [exact Ha|]. split; [exact Hb|]. apply Rltb_true, Hab. }
  destruct (reinit_spec 4 4 s2 O2) as (_ & R3 & R3').
  destruct (R3' (ex_intro _ 1%nat (conj (ltac:(unfold node_count; lia) : (1 < node_count 4 4)%nat) (Hfr 1%nat ltac:(lia) eq_refl)))) as (s3 & E3).
  assert (E3' : mask_holes s1 corner_holes = Ok s3) by (unfold mask_holes; rewrite E2; exact E3).
  assert (H3 : reached 4 4 s3) by (apply (reached_call _ _ _ _ H1); exact (c_mask_holes _ _ _ E3')).
  pose proof (so_ok _ _ _ (reached_sound _ _ _ H3)) as O3.
  destruct (mask_holes_full 4 4 s1 corner_holes s3 H1 E3') as (_ & _ & _ & _ & M3).
  destruct (R3 s3 E3) as (_ & B3 & F3 & o & Eo).
  assert (S3 : settings s3 = (/ 2, 3%nat, false)).
  { rewrite <- S0. destruct F3 as (_ & _ & _ & f1 & _ & f2 & f3 & _). unfold settings. rewrite f1, f2, f3. rewrite (kf_rest _ _ _ K2). reflexivity. }
  unfold settings in S3. injection S3 as Sl Sw Sf.
  assert (Hsmall : forall i, (i < 25)%nat -> corner i = false -> exists d, ls_sd s3 !! i = Some d /\ Rabs d < 1).
  { intros i Hi Hc. destruct (lookup_lt_is_Some_2 (ls_sd s2) i) as [c Ec]; [rewrite (ok_sd _ _ _ O2); exact Hi|].
    destruct (march_front_R 4 4 _ _ _ _ _ (ok_topo _ _ _ O2) (ok_sd _ _ _ O2) Eo i c Ec (Hfr i Hi Hc)) as (d & Ed & _ & Hd & _). eauto. }
  assert (Hband : forall i, i ∈ band_list s3 <-> (i < 25)%nat /\ corner i = false).
  { intros i. rewrite (bo_band _ B3). split.
    - intros [(n & Hn & Hm & _) _]. assert (Hi : (i < 25)%nat) by (apply lookup_lt_Some in Hn; rewrite (tp_lenN _ _ _ (ok_topo _ _ _ O3)) in Hn; exact Hn).
      split; [exact Hi|]. destruct (corner i) eqn:Ec; [|reflexivity]. exfalso.
      destruct (proj2 (M3 i)) as (n' & Hn' & Hm'); [right; apply Hin; assumption|]. congruence.
    - intros [Hi Hc]. destruct (Hsmall i Hi Hc) as (d & Ed & Hd). split.
      + destruct (lookup_lt_is_Some_2 (m_nodes (ls_mesh s3)) i) as [n Hn]; [rewrite (tp_lenN _ _ _ (ok_topo _ _ _ O3)); exact Hi|].
        exists n. split; [exact Hn|]. split; [|intros _; exact Sf]. destruct (nd_masked n) eqn:Em; [|reflexivity]. exfalso.
        destruct (proj1 (M3 i)) as [Hu|Hu]; [exists n; auto| |].
        * exact (U0 i Hu). * apply (Hin i Hi) in Hu. congruence.
      + exists d. split; [exact Ed|]. rewrite Sw. apply Rltb_true. rewrite nofnat_R. change (nabs d) with (Rabs d). cbn [INR]. lra. }
  assert (H4 : reached 4 4 (set_sd ring25 s3)) by (apply (reached_call _ _ _ _ H3), c_write_sd; rewrite (ok_sd _ _ _ O3); reflexivity).
  exists (set_sd ring25 s3). constructor; [exact H4|reflexivity|exact Sl|exact Hband|].
  intros i Hi. change (i ∈ mine_list s3) in Hi. apply (bo_mine _ B3) in Hi as [Hb (d & Ed & Hd)].
  apply (bo_band _ B3), Hband in Hb as [Hi Hc]. destruct (Hsmall i Hi Hc) as (d' & Ed' & Hd'). rewrite Ed in Ed'. injection Ed' as <-.
  rewrite Sw in Hd. apply Rltb_true in Hd. rewrite nofnat_R in Hd. change (nabs d) with (Rabs d) in Hd. cbn [INR Nat.sub] in Hd. lra.
Qed.

(** The sensitivities the caller writes: one per unit of area, for every point away from the border of the domain. *)
Definition with_area (p : BoundaryPoint R) : BoundaryPoint R :=
  mkBP (bp_coord p) (bp_normal p) 1 (bp_velocity p) (bp_neg p) (bp_pos p) (bp_domain p) (bp_domain p) (bp_nSegs p) (bp_segs p) (bp_nNeigh p) (bp_neigh p) [1].

(** ** One objective and no constraint: the optimiser's step is not zero *)
Lemma one_step points (o o' : Opt R) v fuel limit : optimise_ctor points [] [1] 0 limit false [] = Ok o ->
  (forall p, p ∈ points -> bp_sens p = [1]) -> sensitive 0 points ->
  OptModel.solve (evaluate (fun _ => 1)) fuel o = Ok (o', Some v) -> op_time o' <> 0.
Proof.
  intros EO Hs Hsen ES Hz. destruct (solve_parts _ _ _ _ _ _ _ _ _ _ _ _ EO ES) as (o1 & o2 & ob & E1 & G1 & EA & G2 & HL & EC).
  assert (Hn0 : op_n0 o = 0%nat /\ 0 < op_limit o).
  { unfold optimise_ctor in EO. cbn [length Nat.eqb negb] in EO. destruct (n0 <? limit)%num eqn:E; cbn [andb check obind] in EO; [|discriminate].
    destruct (limit <? n1)%num; cbn [check obind] in EO; [|discriminate]. destruct (length points =? 0)%nat; cbn in EO; [discriminate|]. injection EO as <-. cbn. split; [reflexivity|].
    apply Rltb_true in E. exact E. }
  destruct Hn0 as [Hn0 Hlim].
  assert (Hn2 : op_n o2 = 0%nat) by (pose proof (g_n _ _ G2); lia).
  assert (Hn1 : op_n o1 = 0%nat) by (pose proof (g_n _ _ G1); lia).
  destruct (prepare_real _ _ _ _ _ _ _ fuel _ EO o1 E1) as (_ & Hsc & _).
  assert (Hsc0 : 0 < nth 0 (op_scale o1) 0).
  { apply Hsc; [|lia]. cbn [length]. intros k Hk. replace k with 0%nat by lia. exact Hsen. }
  destruct (attempts_scale _ o fuel 0 None o1 G1 _ EA) as [Es _]. cbn [fst] in Es. rewrite <- Es in Hsc0.
  destruct HL as (k & oa & ob' & code & x & w & Ga & Er & _ & _ & Eo2).
  assert (Hx : x = fun _ => 1).
  { unfold evaluate in Er. cbn [run_nlopt] in Er. destruct (opt_callback oa _ false 0) as [[[o3 v3] gr]| | |]; try discriminate. cbn [obind] in Er. congruence. }
  assert (Hla : nth 0 (op_lambdas o2) 0 = 1).
  { rewrite Eo2, Hx. cbn [op_lambdas set_code set_lambdas]. replace (op_n ob' + 1)%nat with (S (op_n ob')) by lia. reflexivity. }
  pose proof (conclude_real o o2 ob Hlim G2 _ EC) as (value & s & _ & _ & Hlen & Ht & _ & Hclamp & Hscale).
  rewrite Ht in Hz. destruct (Req_dec (nth 0 (op_lambdas o') 0) 0) as [Hz'|Hz']; [|apply Rabs_no_R0 in Hz'; contradiction].
  set (p := mkBP (mkCoord 0 0) (mkCoord 0 0) 1 0 0 0 false false 0 [] 0 [] [1]).
  specialize (Hclamp p). unfold clamp in Hclamp. cbn [bp_domain p bp_sens] in Hclamp.
  unfold lin in Hclamp. rewrite Hn2 in Hclamp. unfold rsum in Hclamp. cbn [Nat.add seq map fold_right bp_sens p] in Hclamp.
  rewrite (nth_index _ _ _ (g_zero _ _ G2)) in Hclamp. cbn [nth] in Hclamp. rewrite Hla in Hclamp.
  assert (Hs0 : 0 < s).
  { destruct Hscale as [[-> _]|(M & HM & -> & _)]; [lra|]. apply Rdiv_lt_0_compat; lra. }
  rewrite Hn0 in Hlen. destruct (op_lambdas o') as [|l0 [|? ?]]; try discriminate. cbn [nth] in Hz'. subst l0.
  assert (Hd : dot [0] [1] = 0) by (unfold dot; cbn; lra).
  rewrite Hd in Hclamp. 
  assert (0 < nth 0 (op_scale o2) 0 * s) by (apply Rmult_lt_0_compat; assumption). nra.
Qed.

(** ** One step of the whole cycle on the ring *)
Lemma ring_cycle : exists (s s1 s2 s3 s4 : LevelSet R) b o nlopt fuel o' v, reached 4 4 s /\ discretise s false = Ok (s1, b) /\
  optimise_ctor (map with_area (bd_points b)) [] [1] 0 (ls_moveLimit s) false [] = Ok o /\ OptModel.solve nlopt fuel o = Ok (o', Some v) /\ op_time o' <> 0 /\
  computeVelocities s1 (op_points o') = Ok s2 /\ computeGradients s2 = Ok s3 /\ update s3 (op_time o') = Ok (s4, false) /\
  (forall i, on_front 4 4 (ls_sd s) i -> i ∈ band_list s) /\
  (forall i n d, m_nodes (ls_mesh s) !! i = Some n -> nd_domain n = true -> ls_sd s !! i = Some d -> d <= 0).
Proof.
  destruct ring_exists as (s & [Hr Hsd Hlim Hband Hmine]). pose proof (reached_sound _ _ _ Hr) as So. pose proof (so_ok _ _ _ So) as O.
  assert (Hcor : forall i k, adjacent 4 4 i k -> corner i = true -> domain_spec 4 4 (k mod 5) (k / 5) = true).
  { intros i k Had Hc. apply adjacent_nb in Had as (Hi & Hk & j & Hj & ->).
    assert (A : forallb (fun i => negb (corner i) || forallb (fun j => (25 <=? nb 4 4 i j)%nat || domain_spec 4 4 (nb 4 4 i j mod 5) (nb 4 4 i j / 5)) (seq 0 4)) (seq 0 25) = true)
      by (vm_compute; reflexivity).
    rewrite forallb_forall in A. specialize (A i ltac:(apply in_seq; exact (conj (Nat.le_0_l i) Hi))). rewrite Hc in A. cbn [negb orb] in A.
    rewrite forallb_forall in A. specialize (A j ltac:(apply in_seq; lia)). apply orb_true_iff in A as [A|A]; [|exact A].
    apply Nat.leb_le in A. change (node_count 4 4) with 25%nat in Hk. lia. }
  assert (Hcd : forall i, corner i = true -> domain_spec 4 4 (i mod 5) (i / 5) = true).
  { intros i Hc. unfold corner in Hc. apply bool_decide_eq_true in Hc. rewrite !elem_of_cons in Hc. destruct Hc as [-> | [-> | [-> | [-> | Hc]]]]; try reflexivity. inversion Hc. }
  assert (Hcov : forall i, on_front 4 4 (ls_sd s) i -> i ∈ band_list s).
  { intros i Hf. rewrite Hsd in Hf. apply Hband. destruct Hf as [(c & Hc & Hz)|(k & Had & a & b & Ha & Hb & Hx)].
    - exfalso. apply ring_values in Hc as [Hc _]. unfold neqb in Hz. cbn in Hz. revert Hz. unfold Reqb. destruct (Req_EM_T c 0); [|discriminate]. lra.
    - split; [apply adjacent_nb in Had; exact (proj1 Had)|]. destruct (corner i) eqn:Ec; [|reflexivity]. exfalso.
      apply ring_values in Ha as [_ Ha]. apply ring_values in Hb as [_ Hb]. specialize (Ha (Hcd i Ec)). specialize (Hb (Hcor i k Had Ec)). subst a b.
      apply Rltb_true in Hx. change (-1 * -1 < 0) in Hx. lra. }
  assert (Hbord : forall i n d, m_nodes (ls_mesh s) !! i = Some n -> nd_domain n = true -> ls_sd s !! i = Some d -> d <= 0).
  { intros i n d Hn Hd Ed. rewrite Hsd in Ed. apply ring_values in Ed as [_ Ed]. destruct (tp_node _ _ _ (ok_topo _ _ _ O) i n Hn) as (_ & _ & _ & _ & Edom).
    rewrite Hd in Edom. symmetry in Edom. rewrite (Ed Edom). lra. }
  assert (Hside : forall i x, field s false !! i = Some x -> x = 1 \/ x = -1) by (intros i x E; cbn [field] in E; rewrite Hsd in E; apply (ring_values i x E)).
  destruct (closed_curves 4 4 s false Hr) as (s1 & b & ED & Hpts & _).
  { intros i k x y _ Hx Hy L1 L2. apply Hside in Hx, Hy. unfold tol in *. destruct Hx as [-> | ->], Hy as [-> | ->]; lra. }
  { intros i Hi. destruct (lookup_lt_is_Some_2 (field s false) i) as [x Hx]; [cbn [field]; rewrite (ok_sd _ _ _ O); exact Hi|].
    exists x. split; [exact Hx|]. apply Hside in Hx. unfold tol. destruct Hx as [-> | ->]; unfold Rabs; destruct Rcase_abs; lra. }
  { right. intros i k x y Had Hx Hy L1 L2. left. apply (so_active _ _ _ So), Hcov. right. exists k. split; [exact Had|]. exists x, y.
    split; [exact Hx|]. split; [exact Hy|]. apply Rltb_true. change (x * y < 0). nra. }
  assert (Hadj : adjacent 4 4 6 1) by (right; exists 1%nat, 1%nat, 0%nat; repeat split; lia).
  destruct (Hpts 6%nat 1%nat 1 (-1) Hadj) as (n & p & Ep & Hp & _); [cbn [field]; rewrite Hsd; reflexivity..|unfold tol; lra|unfold tol; lra|].
  assert (Hdom : bp_domain p = false).
  { pose proof (limits 4 4 s s1 false b Hr ED n p Ep) as (_ & _ & _ & Hd & _). destruct (bp_domain p); [|reflexivity]. exfalso.
    destruct (proj1 Hd eq_refl) as [Hg _]. destruct Hp as (_ & x & y & t & Hx & Hy & _ & _ & Ht & Hz & Ec).
    cbn [field] in Hx, Hy. rewrite Hsd in Hx, Hy. cbn in Hx, Hy. injection Hx as <-. injection Hy as <-. rewrite Ec in Hg.
    unfold border_gap, along, grid in Hg. cbn [cx cy] in Hg. change (6 mod (4 + 1))%nat with 1%nat in Hg. change (1 mod (4 + 1))%nat with 1%nat in Hg.
    change (6 / (4 + 1))%nat with 1%nat in Hg. change (1 / (4 + 1))%nat with 0%nat in Hg. cbn [INR] in Hg. unfold tol in Hg.
    revert Hg. unfold Rmin. repeat destruct Rle_dec; lra. }
  set (pts := map with_area (bd_points b)).
  assert (Hin : with_area p ∈ pts) by (apply elem_of_list_fmap; exists p; split; [reflexivity|eapply elem_of_list_lookup_2, Ep]).
  assert (Hform : forall q, q ∈ pts -> bp_sens q = [1] /\ bp_length q = 1 /\ bp_fixed q = bp_domain q).
  { intros q Hq. apply elem_of_list_fmap in Hq as (q0 & -> & _). repeat split. }
  assert (Hsen : sensitive 0 pts).
  { split; [exists (with_area p); split; [exact Hin|]; split; [exact Hdom|]; cbn; lra|]. intros q Hq _. destruct (Hform q Hq) as (_ & -> & _). lra. }
  assert (EO : exists o, optimise_ctor pts [] [1] 0 (ls_moveLimit s) false [] = Ok o).
  { rewrite Hlim. unfold optimise_ctor. replace ((n0 <? / 2) && (/ 2 <? n1))%num with true.
    2:{ symmetry. apply andb_true_iff. split; apply Rltb_true; cbn; lra. }
    destruct pts as [|q0 qs] eqn:Epts; [inversion Hin|]. cbn. eauto. }
  destruct EO as (o & EO).
  destruct (solve_returns pts [] [1] 0 (ls_moveLimit s) false [] o (evaluate (fun _ => 1)) EO) as (F & HF).
  { intros q Hq _. destruct (Hform q Hq) as (-> & _). cbn. lia. }
  { intros k Hk. cbn [length] in Hk. replace k with 0%nat by lia. exact Hsen. }
  { intros q Hq Hfx. destruct (Hform q Hq) as (_ & _ & <-). exact Hfx. }
  { left; reflexivity. }
  { cbn; lia. }
  { intros k m Hk. cbn [length] in Hk. lia. }
  { intros o1 Ho1. cbn. split; [lia|]. intros _ _. lia. }
  destruct (HF F (le_n F)) as (o' & v & ES).
  pose proof (one_step pts o o' v F _ EO (fun q Hq => proj1 (Hform q Hq)) Hsen ES) as Ht.
  assert (R1 : reached 4 4 s1) by (apply (reached_call _ _ _ _ Hr), c_quiet, (q_discretise _ _ _ _ ED)).
  pose proof (frame_api 4 4 s s1 false b (ok_topo _ _ _ O) ED) as (F1 & F2 & _ & _). injection F1 as F1 _ _ _. injection F2 as F2 F3 F4 F5.
  assert (B1 : band_list s1 = band_list s) by (unfold band_list; rewrite F2, F3; reflexivity).
  assert (M1 : mine_list s1 = mine_list s) by (unfold mine_list; rewrite F4, F5; reflexivity).
  pose proof (reached_sound _ _ _ R1) as So1. pose proof (so_ok _ _ _ So1) as O1.
  assert (Hpo : forall q, q ∈ op_points o' -> in_domain 4 4 q).
  { destruct (solve_moves _ _ _ _ _ _ _ _ _ _ _ _ EO ES) as (_ & _ & HM). intros q Hq. rewrite HM in Hq. apply elem_of_list_fmap in Hq as (q1 & -> & Hq).
    apply elem_of_list_fmap in Hq as (q0 & -> & Hq). apply elem_of_list_lookup in Hq as [k Hk].
    apply (points_on_contour 4 4 s s1 false b Hr ED k q0 Hk). }
  assert (Hloc : forall q, q ∈ op_points o' -> located 4 4 (ls_mesh s1) q).
  { intros q Hq. apply located_R; [exact (ok_topo _ _ _ O1)|exact (Hpo q Hq)]. }
  assert (Hfront : forall i, (i < 25)%nat -> corner i = false -> on_front 4 4 (ls_sd s1) i).
  { intros i Hi Hc. rewrite F1, Hsd. destruct (ring_front i Hi Hc) as (k & Had & _ & a & c & Ha & Hb & Hab). right. exists k. split; [exact Had|].
    exists a, c. split; [exact Ha|]. split; [exact Hb|]. apply Rltb_true, Hab. }
  destruct (velocities_spec 4 4 s1 O1 (so_safe _ _ _ So1) (op_points o') Hloc) as [EV|(vel0 & vel & of & _ & EV & _)].
  { exfalso. destruct (init_vel_spec 4 4 s1 O1 (so_safe _ _ _ So1) (op_points o') Hloc) as (vel0 & EI & _).
    destruct (march_vel_front 4 4 (ls_mesh s1) (ls_sd s1) vel0 (ok_topo _ _ _ O1) (ok_sd _ _ _ O1)) as ([[of sd] vel] & EM).
    - exists 1%nat. split; [unfold node_count; lia|]. apply Hfront; [lia|reflexivity].
    - intros i n0 Hn0 Ha. assert (Hb : i ∈ band_list s1) by (apply (so_active _ _ _ So1); exists n0; auto). rewrite B1 in Hb. apply Hband in Hb as [Hi Hc]. exact (Hfront i Hi Hc).
    - unfold computeVelocities in EV. rewrite EI in EV. cbn [obind] in EV. rewrite EM in EV. discriminate. }
  set (s2 := set_vel vel s1) in *.
  assert (R2 : reached 4 4 s2) by (apply (reached_call _ _ _ _ R1), c_quiet, (q_velocities _ _ _ EV)).
  destruct (gradients_reached 4 4 s2 R2 (le_n 4) (le_n 4)) as (g & EG & _).
  assert (R3 : reached 4 4 (set_grad g s2)) by (apply (reached_call _ _ _ _ R2), c_quiet, (q_gradients _ _ EG)).
  destruct (update_reports 4 4 (set_grad g s2) (op_time o') R3) as (s4 & _ & _ & EU).
  exists s, s1, s2, (set_grad g s2), s4, b, o, (evaluate (fun _ => 1)), F, o', v. 
  split; [exact Hr|]. split; [exact ED|]. split; [exact EO|]. split; [exact ES|]. split; [exact Ht|]. split; [exact EV|]. split; [exact EG|].
  split; [|split; [exact Hcov|exact Hbord]]. apply EU. intros (i & d & Hi & _). change (i ∈ mine_list s1) in Hi. rewrite M1 in Hi. exact (Hmine i Hi).
Qed.

(** ** Velocities on the ring: any points in the domain *)
Lemma ring_velocities (s : LevelSet R) points : ring_state s -> (forall p, p ∈ points -> in_domain 4 4 p) -> exists s', computeVelocities s points = Ok s'.
Proof.
  intros [Hr Hsd Hlim Hband Hmine] Hp. pose proof (reached_sound _ _ _ Hr) as So. pose proof (so_ok _ _ _ So) as O.
  assert (Hloc : forall q, q ∈ points -> located 4 4 (ls_mesh s) q) by (intros q Hq; apply located_R; [exact (ok_topo _ _ _ O)|exact (Hp q Hq)]).
  assert (Hfront : forall i, (i < 25)%nat -> corner i = false -> on_front 4 4 (ls_sd s) i).
  { intros i Hi Hc. rewrite Hsd. destruct (ring_front i Hi Hc) as (k & Had & _ & a & c & Ha & Hb & Hab). right. exists k. split; [exact Had|].
    exists a, c. split; [exact Ha|]. split; [exact Hb|]. apply Rltb_true, Hab. }
  destruct (init_vel_spec 4 4 s O (so_safe _ _ _ So) points Hloc) as (vel0 & EI & _).
  destruct (march_vel_front 4 4 (ls_mesh s) (ls_sd s) vel0 (ok_topo _ _ _ O) (ok_sd _ _ _ O)) as ([[of sd] vel] & EM).
  - exists 1%nat. split; [unfold node_count; lia|]. apply Hfront; [lia|reflexivity].
  - intros i n0 Hn0 Ha. assert (Hb : i ∈ band_list s) by (apply (so_active _ _ _ So); exists n0; auto). apply Hband in Hb as [Hi Hc]. exact (Hfront i Hi Hc).
  - unfold computeVelocities. rewrite EI. cbn [obind]. rewrite EM. cbn [obind]. eauto.
Qed.

(** A point on the ring that does not move, with noise: the time step is cut. *)
Definition still : BoundaryPoint R := mkBP (mkCoord 1 (/ 2)) (mkCoord 0 0) 1 0 0 0 false false 0 [] 0 [] [].
Lemma noise_case : exists (s s' : LevelSet R) points' dt' scale, 0 < ls_moveLimit s /\
  computeVelocities_noise s [still] 1 1 (fun _ => 1) = Ok (s', points', dt', scale) /\ ls_moveLimit s / 2 < R_sqrt.sqrt (2 * 1 * 1).
Proof.
  destruct ring_exists as (s & Hs). exists s.
  assert (Hv : forall v : R, exists s', computeVelocities s [set_bp_velocity v still] = Ok s').
  { intros v. apply ring_velocities; [exact Hs|]. intros p Hp. apply elem_of_list_singleton in Hp as ->. unfold in_domain. cbn. lra. }
  assert (Hq : ls_moveLimit s / 2 < R_sqrt.sqrt (2 * 1 * 1)).
  { rewrite (rs_limit _ Hs). replace (2 * 1 * 1) with 2 by lra. pose proof (sqrt_le_1_alt 1 2 ltac:(lra)) as Q. rewrite sqrt_1 in Q. lra. }
  assert (Hl : 0 < ls_moveLimit s) by (rewrite (rs_limit _ Hs); lra).
  unfold computeVelocities_noise, noisy_points. cbn [imap].
  match goal with |- context [if ?c then _ else _] => destruct c end;
    (match goal with |- context [computeVelocities s [set_bp_velocity ?v still]] => destruct (Hv v) as [s' Es] end;
     rewrite Es; cbn [obind]; repeat eexists; assumption).
Qed.
