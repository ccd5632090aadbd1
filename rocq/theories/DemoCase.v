(** * DemoCase: concrete states for the properties of the demo programs (C59-C68), in exact arithmetic. *)

From Coq Require Import Reals Lra.
From Verif Require Import OptModel OptSpec OptTotal OptCases.
From Verif Require Import Base Num NumR NumInt NumSgn MeshModel MeshSpec MeshProofs MeshTopo FmmSpec LevelSetModel LevelSetSpec LevelSetSpecR LevelSetCalls LevelSetBand LevelSetOps LevelSetInit LevelSetHist LevelSetReal LevelSetNew
  BoundaryModel BoundarySpec BoundarySpecR BoundaryReal BoundaryGraph BoundaryClosed BoundaryCases AreaCases DemoModel DemoSpec DemoSens DemoLength DemoTurn DemoArea.
Local Open Scope R_scope.

(** ** A level set with a target *)
Lemma target_accepted W H ml bw fx holes : fits_ls W H bw -> valid_params ml bw ->
  exists s, ls_new_holes_holes (T := R) W H holes [] ml bw fx = Ok s /\ length (ls_target s) = node_count W H /\
    ls_sd s = tab (node_count W H) (holes_value W H holes) /\ ls_bandWidth s = bw /\ ls_fixed s = fx.
Proof.
  intros Hf HV. unfold ls_new_holes_holes, ls_new_target.
  destruct (proj1 (alloc_spec W H ml bw fx true Hf) HV) as (s0 & -> & Hok & _ & Ebw & _ & Efx & _). cbn [obind]. unfold init_sd at 1.
  rewrite (init_holes_spec W H _ [] _ (ok_topo _ _ _ Hok) (ok_sd _ _ _ Hok)). cbn [obind].
  set (sd0 := tab (node_count W H) (holes_value W H [])).
  assert (Hok1 : ls_ok W H (set_sd sd0 s0)) by (apply ok_set_sd; [exact Hok|apply tab_length]).
  destruct (reinit_spec W H _ Hok1) as (_ & R2 & R3).
  assert (N : (node_id W 0 0 < node_count W H)%nat) by (unfold node_id, node_count; nia).
  destruct R3 as (s1 & E1).
  { exists (node_id W 0 0). split; [exact N|]. left. exists (holes_value W H [] (node_id W 0 0)).
    split; [cbn [ls_sd set_sd]; unfold sd0; apply tab_lookup, N|]. rewrite holes_value_R by lia. cbn [fold_left neqb NumR].
    assert (Z : border_dist W H 0 0 = 0).
    { unfold border_dist. pose proof (pos_INR W). pose proof (pos_INR H). cbn [INR]. unfold Rmin; repeat destruct (Rle_dec _ _); lra. }
    rewrite Z. unfold n0. cbn [nofZ NumR]. unfold Reqb. destruct (Req_EM_T _ _); [reflexivity|]. exfalso. auto. }
  rewrite E1. cbn [obind]. destruct (R2 s1 E1) as (Hok2 & _ & Fr & _).
  unfold init_sd. change (ls_mesh (set_target (ls_sd s1) s1)) with (ls_mesh s1). change (ls_sd (set_target (ls_sd s1) s1)) with (ls_sd s1).
  rewrite (init_holes_spec W H _ holes _ (ok_topo _ _ _ Hok2) (ok_sd _ _ _ Hok2)). cbn [obind].
  match goal with |- context [initialiseNarrowBand ?x] => destruct (band_ok_spec W H x) as (s2 & E2 & _ & _ & G1 & _ & _ & G4 & _ & _ & G5 & G6 & _) end.
  { destruct Hok2. constructor; cbn; auto. rewrite tab_length. reflexivity. }
  exists s2. split; [exact E2|]. split; [rewrite G4; cbn; exact (ok_sd _ _ _ Hok2)|]. split; [rewrite G1; reflexivity|].
  rewrite G5, G6. cbn [ls_bandWidth ls_fixed set_sd set_target]. destruct Fr as (_ & _ & _ & _ & _ & F1 & F2 & _). cbn [ls_bandWidth ls_fixed set_sd] in F1, F2. split; congruence.
Qed.

(** Between the middle of a 2 by 2 mesh and the node to its right; the target differs most on the right. *)
Lemma sens_case : exists s : LevelSet R, reached 2 2 s /\ length (ls_target s) = node_count 2 2 /\
  ls_sd s = [-1; -1; -1; -1; 1; -1; -1; -1; -1] /\ ls_target s = [-1; -1; -1; -1; 1; -1/4; -1; -1; -1] /\
  getClosestNode (ls_mesh s) (5 / 4) 1 = Ok 4%nat /\ (4 < node_count 2 2)%nat /\ off_border 2 2 4.
Proof.
  assert (HF : fits_ls 2 2 3) by (unfold fits_ls, node_count; cbn; lia).
  assert (HV : valid_params (/ 2) 3). { split; [lia|]. split; apply Rltb_true; cbn; lra. }
  destruct (target_accepted 2 2 (/ 2) 3 false [] HF HV) as (s & E & L & _).
  assert (R0 : reached 2 2 s) by (exists (/ 2), 3%nat, false, s; split; [exact HF|]; split; [exact (new_by_holes_holes _ _ _ _ _ _ _ _ E)|apply rtc_refl]).
  set (v := [-1; -1; -1; -1; 1; -1; -1; -1; -1]). set (t := [-1; -1; -1; -1; 1; -1/4; -1; -1; -1]).
  assert (R1 : reached 2 2 (set_sd v s)).
  { apply (reached_call _ _ _ _ R0), c_write_sd. rewrite (ok_sd _ _ _ (so_ok _ _ _ (reached_sound _ _ _ R0))). reflexivity. }
  assert (R2 : reached 2 2 (set_target t (set_sd v s))).
  { apply (reached_call _ _ _ _ R1), c_quiet, q_write_target. cbn [ls_target set_sd]. rewrite L. reflexivity. }
  exists (set_target t (set_sd v s)). split; [exact R2|]. split; [reflexivity|]. split; [reflexivity|]. split; [reflexivity|].
  split; [|split; [unfold node_count; cbn; lia|unfold off_border; cbn; lia]].
  pose proof (ok_topo _ _ _ (so_ok _ _ _ (reached_sound _ _ _ R2))) as Ht.
  destruct (closest_R 2 2 _ (mkCoord (5 / 4) 1) Ht) as (i & n & Ei & En & _ & M); [cbn; lra|cbn; lra|]. cbn [cx cy] in Ei. rewrite Ei. f_equal.
  specialize (M 4%nat ltac:(unfold node_count; cbn; lia)). apply lookup_lt_Some in En. rewrite (tp_lenN _ _ _ Ht) in En. unfold node_count in En. cbn in En.
  unfold euclid2, grid in M. cbn [cx cy] in M. change (4 mod (2 + 1))%nat with 1%nat in M. change (4 / (2 + 1))%nat with 1%nat in M.
  do 9 (destruct i as [|i]; [first [reflexivity|exfalso;
    match type of M with context [INR (?a mod _)] => let u := eval vm_compute in (a mod 3)%nat in let w := eval vm_compute in (a / 3)%nat in
      change (a mod (2 + 1))%nat with u in M; change (a / (2 + 1))%nat with w in M end; cbn [INR] in M; lra]|]). lia.
Qed.

(** ** A single inside node in the middle of a 4 by 4 mesh *)
Definition midZ : list Z := map (fun i => if (i =? 12)%nat then 1%Z else (-1)%Z) (seq 0 25).
Definition mid25 : list R := IZR <$> midZ.
Lemma mid_values i x : mid25 !! i = Some x -> (i < 25)%nat /\ ((i = 12%nat /\ x = 1) \/ (i <> 12%nat /\ x = -1)).
Proof.
  unfold mid25. rewrite list_lookup_fmap. destruct (midZ !! i) as [z|] eqn:E; [|discriminate]. intros [= <-].
  unfold midZ in E. change (map ?g ?l) with (g <$> l) in E. rewrite list_lookup_fmap in E. destruct (seq 0 25 !! i) as [j|] eqn:Ej; [|discriminate].
  apply lookup_seq in Ej as [-> Hj]. cbn [Nat.add] in E. injection E as <-. split; [exact Hj|].
  destruct (Nat.eqb_spec i 12); [left|right]; auto.
Qed.
Lemma mid_case : exists s : LevelSet R, reached 4 4 s /\ length (ls_target s) = node_count 4 4 /\ ls_sd s = mid25 /\ off_contour 4 4 (ls_sd s) /\ clear_cuts 4 4 (ls_sd s) /\ covered 4 4 s (ls_sd s) /\ (forall i, ~ masked s i) /\
  (forall x y, (x <= 4)%nat -> (y <= 4)%nat -> (x = 0 \/ x = 4 \/ y = 0 \/ y = 4)%nat -> exists v, ls_sd s !! node_id 4 x y = Some v /\ v < 0) /\
  (exists i x, (i < node_count 4 4)%nat /\ ls_sd s !! i = Some x /\ 0 < x).
Proof.
  assert (HF : fits_ls 4 4 3) by (unfold fits_ls, node_count; cbn; lia).
  assert (HV : valid_params (/ 2) 3). { split; [lia|]. split; apply Rltb_true; cbn; lra. }
  destruct (target_accepted 4 4 (/ 2) 3 false [] HF HV) as (s & E & LT & D & Ebw & Efx).
  assert (C : constructed 4 4 (/ 2) 3 false s) by exact (new_by_holes_holes _ _ _ _ _ _ _ _ E).
  destruct (constructed_sound 4 4 (/ 2) 3 false s HF C) as [So Bo]. pose proof (all_unmasked _ _ _ _ _ _ HF C) as U.
  assert (Lv : length mid25 = length (ls_sd s)) by (rewrite (ok_sd _ _ _ (so_ok _ _ _ So)); reflexivity).
  pose proof tol_pos as Tp. assert (Tl : tol <= / 2) by (unfold tol; lra).
  assert (Get : forall i, (i < 25)%nat -> exists x, mid25 !! i = Some x) by (intros i Hi; apply lookup_lt_is_Some_2; exact Hi).
  exists (set_sd mid25 s). split; [|split; [exact LT|split; [reflexivity|split; [|split; [|split; [|split; [|split]]]]]]].
  - exists (/ 2), 3%nat, false, s. split; [exact HF|]. split; [exact C|]. apply rtc_once, c_write_sd, Lv.
  - intros i Hi. cbn [ls_sd set_sd]. destruct (Get i Hi) as [x Ex]. exists x. split; [exact Ex|].
    destruct (mid_values i x Ex) as [_ [[_ ->]|[_ ->]]]; [rewrite Rabs_right by lra|rewrite Rabs_left by lra]; lra.
  - intros i k x y _ Ei Ek Lx Ly. cbn [ls_sd set_sd] in *. destruct (mid_values i x Ei) as [_ [[_ ->]|[_ ->]]], (mid_values k y Ek) as [_ [[_ ->]|[_ ->]]]; lra.
  - intros i k x y _ Ei Ek Lx Ly. cbn [ls_sd set_sd] in *. destruct (mid_values i x Ei) as [_ [[-> ->]|[_ ->]]]; [|lra]. left.
    assert (L12 : (12 < length (m_nodes (ls_mesh s)))%nat) by (rewrite (tp_lenN _ _ _ (ok_topo _ _ _ (so_ok _ _ _ So))); unfold node_count; lia).
    apply lookup_lt_is_Some in L12 as [n En]. apply (bo_active _ Bo). split.
    + exists n. split; [exact En|]. split; [|intros _; exact Efx]. destruct (nd_masked n) eqn:M; [|reflexivity]. exfalso. apply (U 12%nat). exists n. auto.
    + exists (holes_value 4 4 [] 12%nat). split; [rewrite D; apply tab_lookup; unfold node_count; lia|]. rewrite Ebw. change 12%nat with (node_id 4 2 2).
      apply Rltb_true. rewrite nofnat_R. cbn [nabs NumR]. rewrite holes_value_R by lia. cbn [fold_left]. unfold border_dist. cbn [INR]. unfold Rmin; repeat destruct (Rle_dec _ _); rewrite Rabs_right; lra.
  - exact U.
  - intros x y Hx Hy Hb. cbn [ls_sd set_sd]. destruct (Get (node_id 4 x y)) as [v Ev]; [unfold node_id; lia|]. exists v. split; [exact Ev|].
    destruct (mid_values _ _ Ev) as [_ [[Z _]|[_ ->]]]; [exfalso; unfold node_id in Z; lia|lra].
  - exists 12%nat, 1. split; [unfold node_count; lia|]. split; [reflexivity|lra].
Qed.
Lemma evaluate_polite (x : nat -> R) k (o : Opt R) : polite 0 (evaluate x k o).
Proof. split; [lia|]. intros v gr. cbn. lia. Qed.
