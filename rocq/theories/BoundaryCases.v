(** * BoundaryCases: concrete boundaries for C35. *)

From Coq Require Import Reals Lra.
From Verif Require Import Base Num NumR NumF64 NumInt MeshModel MeshSpec MeshProofs MeshTopo FmmSpec LevelSetModel LevelSetSpec LevelSetCalls LevelSetSpecR LevelSetHist LevelSetInit LevelSetReal
  BoundaryModel BoundarySpec BoundaryFrame BoundaryProofs BoundarySpecR BoundaryGraph BoundaryRun BoundaryReal BoundaryClosed PropLevelSet PropVel.
Local Open Scope R_scope.

Lemma built_by_rules W H (s : LevelSet R) (tg : bool) : reached W H s -> clear_cuts W H (if tg then ls_target s else ls_sd s) -> (node_count W H <= length (if tg then ls_target s else ls_sd s))%nat ->
  (tg = true \/ forall i k, adjacent W H i k -> active s i \/ active s k \/ masked s i \/ masked s k) ->
  (forall e, (e < W * H)%nat -> (length (elem_graph W (if tg then ls_target s else ls_sd s) e) <= 2)%nat) -> (forall p, (degree W H (if tg then ls_target s else ls_sd s) p <= 2)%nat) ->
  exists s' b pl, discretise s tg = Ok (s', b) /\
    NoDup pl /\ (forall p, p ∈ pl -> valid_place W H (if tg then ls_target s else ls_sd s) p) /\
    Forall2 (fun p bp => place_coord W (if tg then ls_target s else ls_sd s) p (bp_coord bp)) pl (bd_points b) /\
    Forall2 (fun t sg => sg_elem sg = fst t /\ pl !! sg_start sg = Some (fst (snd t)) /\ pl !! sg_end sg = Some (snd (snd t)))
      (graph_upto W (if tg then ls_target s else ls_sd s) (W * H)) (bd_segs b) /\
    (forall k p bp, pl !! k = Some p -> bd_points b !! k = Some bp -> bp_nSegs bp = degree W H (if tg then ls_target s else ls_sd s) p) /\
    (forall e x, m_elements (ls_mesh s') !! e = Some x -> e_status x = Some (final_status W (if tg then ls_target s else ls_sd s) e)).
Proof.
  intros Hr Hc Hl Hv Hf Hd. pose proof (ok_topo _ _ _ (so_ok _ _ _ (reached_sound _ _ _ Hr))) as Ht.
  destruct (graph_built W H s tg Hr Hc Hl) as (s' & b & pl & E & R); [|exact Hf|exact Hd|].
  - intros e j He Hj i k _. destruct Hv as [->|Hv]; [auto|]. right. apply Hv. apply corner_adjacent; [apply (tp_fits _ _ _ Ht)|assumption..].
  - exists s', b, pl. destruct R. auto 10.
Qed.

Definition is_ok {A} (o : outcome A) : bool := match o with Ok _ => true | _ => false end.
Lemma square_out_of_bounds : exists s : LevelSet f64, reached 1 1 s /\ discretise s false = UB.
Proof.
  destruct (ls_new_holes 1 1 [] (f 1 2) 3 false) as [s| | |] eqn:E.
  2-4: exfalso; match type of E with ?o = _ => assert (X : is_ok o = true) by (vm_compute; reflexivity) end; rewrite E in X; discriminate X.
  exists s. split.
  - exists (f 1 2), 3%nat, false, s. split; [unfold fits_ls, node_count; cbn; lia|]. split; [exact (new_by_holes _ _ _ _ _ _ _ E)|apply rtc_refl].
  - assert (X : match obind (ls_new_holes 1 1 [] (f 1 2) 3 false) (fun s => discretise s false) with UB => true | _ => false end = true) by (vm_compute; reflexivity).
    rewrite E in X. cbn [obind] in X. destruct (discretise s false); first [reflexivity|discriminate X].
Qed.

(** Equality of floats by computation. *)
Definition same_coord (c c' : Coord f64) : bool := (cx c =? cx c')%num && (cy c =? cy c')%num.
Lemma balanced_saddle : exists (s s' : LevelSet f64) b, reached 1 1 s /\ discretise s true = Ok (s', b) /\
  ls_target s = [f (-1) 1; f 1 1; f 1 1; f (-1) 1] /\
  map e_status (m_elements (ls_mesh s')) = [Some ES_CENTRE_OUTSIDE] /\
  exists sg p q, bd_segs b !! 0%nat = Some sg /\ bd_points b !! sg_start sg = Some p /\ bd_points b !! sg_end sg = Some q /\
    same_coord (bp_coord p) (mkCoord (f 1 2) (f 0 1)) = true /\ same_coord (bp_coord q) (mkCoord (f 0 1) (f 1 2)) = true.
Proof.
  destruct (ls_new_holes_holes 1 1 [] [] (f 1 2) 3 false) as [s| | |] eqn:E.
  2-4: exfalso; match type of E with ?o = _ => assert (X : is_ok o = true) by (vm_compute; reflexivity) end; rewrite E in X; discriminate X.
  set (v := [f (-1) 1; f 1 1; f 1 1; f (-1) 1]).
  assert (L : length v = length (ls_target s)).
  { assert (X : obind (ls_new_holes_holes 1 1 [] [] (f 1 2) 3 false) (fun s => Ok (length (ls_target s))) = Ok 4%nat) by (vm_compute; reflexivity).
    rewrite E in X. cbn [obind] in X. injection X as X. rewrite X. reflexivity. }
  destruct (discretise (set_target v s) true) as [[s' b]| | |] eqn:D.
  - exists (set_target v s), s', b. split; [|split; [exact D|split; [reflexivity|]]].
    + exists (f 1 2), 3%nat, false, s. split; [unfold fits_ls, node_count; cbn; lia|]. split; [exact (new_by_holes_holes _ _ _ _ _ _ _ _ E)|].
      apply rtc_once, c_quiet, q_write_target, L.
    + assert (X : obind (ls_new_holes_holes 1 1 [] [] (f 1 2) 3 false) (fun s => obind (discretise (set_target v s) true) (fun '(s', b) => Ok
        (map e_status (m_elements (ls_mesh s')), map (fun sg => (sg_start sg, sg_end sg)) (bd_segs b)))) = Ok ([Some ES_CENTRE_OUTSIDE], [(0, 3); (1, 2)]%nat)) by (vm_compute; reflexivity).
      assert (Y : obind (ls_new_holes_holes 1 1 [] [] (f 1 2) 3 false) (fun s => obind (discretise (set_target v s) true) (fun '(s', b) =>
        Ok (match bd_points b !! 0%nat, bd_points b !! 3%nat with Some p, Some q => same_coord (bp_coord p) (mkCoord (f 1 2) (f 0 1)) && same_coord (bp_coord q) (mkCoord (f 0 1) (f 1 2)) | _, _ => false end))) = Ok true) by (vm_compute; reflexivity).
      rewrite E in X, Y. cbn [obind] in X, Y. rewrite D in X, Y. cbn [obind] in X, Y. injection X as X1 X2. injection Y as Y.
      split; [exact X1|]. destruct (bd_segs b) as [|sg l]; [discriminate X2|]. cbn [map] in X2. injection X2 as Z1 Z2 _. exists sg. rewrite Z1, Z2.
      destruct (bd_points b !! 0%nat) as [p|]; [|discriminate Y]. destruct (bd_points b !! 3%nat) as [q|]; [|discriminate Y]. apply andb_true_iff in Y as [Y1 Y2].
      exists p, q. auto 10.
  - exfalso. assert (X : obind (ls_new_holes_holes 1 1 [] [] (f 1 2) 3 false) (fun s => obind (discretise (set_target v s) true) (fun _ => Ok tt)) = Ok tt) by (vm_compute; reflexivity).
    rewrite E in X. cbn [obind] in X. rewrite D in X. discriminate X.
  - exfalso. assert (X : obind (ls_new_holes_holes 1 1 [] [] (f 1 2) 3 false) (fun s => obind (discretise (set_target v s) true) (fun _ => Ok tt)) = Ok tt) by (vm_compute; reflexivity).
    rewrite E in X. cbn [obind] in X. rewrite D in X. discriminate X.
  - exfalso. assert (X : obind (ls_new_holes_holes 1 1 [] [] (f 1 2) 3 false) (fun s => obind (discretise (set_target v s) true) (fun _ => Ok tt)) = Ok tt) by (vm_compute; reflexivity).
    rewrite E in X. cbn [obind] in X. rewrite D in X. discriminate X.
Qed.

Lemma diamond_case : exists s : LevelSet R, reached 2 2 s /\ off_contour 2 2 (ls_sd s) /\ clear_cuts 2 2 (ls_sd s) /\ covered 2 2 s (ls_sd s) /\
  ls_sd s = [-1; -1; -1; -1; 1; -1; -1; -1; -1].
Proof.
  assert (HF : fits_ls 2 2 3) by (unfold fits_ls, node_count; cbn; lia).
  assert (HV : valid_params (/ 2) 3).
  { split; [lia|]. split; apply Rltb_true; cbn; lra. }
  destruct (new_holes_R 2 2 [] (/ 2) 3 false HF HV) as (s & E & D).
  assert (C : constructed 2 2 (/ 2) 3 false s) by exact (new_by_holes _ _ _ _ _ _ _ E).
  destruct (constructed_sound 2 2 (/ 2) 3 false s HF C) as [So Bo].
  destruct (holes_accepted 2 2 3 (/ 2) false [] HF HV) as (s0 & E0 & _ & Ebw & Efx & _). assert (s0 = s) by congruence. subst s0.
  set (v := [-1; -1; -1; -1; 1; -1; -1; -1; -1]).
  assert (Lv : length v = length (ls_sd s)) by (rewrite (ok_sd _ _ _ (so_ok _ _ _ So)); reflexivity).
  assert (V : forall i x, v !! i = Some x -> (i < 9)%nat /\ ((i = 4%nat /\ x = 1) \/ x = -1)).
  { intros i x. do 9 (destruct i as [|i]; [cbn; intros [= <-]; split; [lia|tauto]|]). discriminate. }
  assert (Ht : / 1000000 <= 1) by lra. pose proof tol_pos as Tp.
  assert (Tl : tol <= / 2) by (unfold tol; lra).
  exists (set_sd v s). split; [|split; [|split; [|split; [|reflexivity]]]].
  - exists (/ 2), 3%nat, false, s. split; [exact HF|]. split; [exact C|]. apply rtc_once, c_write_sd, Lv.
  - intros i Hi. cbn [ls_sd set_sd]. destruct (v !! i) as [x|] eqn:Ex.
    + exists x. split; [reflexivity|]. destruct (V i x Ex) as [_ [[_ ->]| ->]]; [rewrite Rabs_right by lra|rewrite Rabs_left by lra]; lra.
    + apply lookup_ge_None in Ex. cbn in Ex, Hi. lia.
  - intros i k x y _ Ei Ek Lx Ly. cbn [ls_sd set_sd] in *. destruct (V i x Ei) as [_ [[_ ->]| ->]], (V k y Ek) as [_ [[_ ->]| ->]]; lra.
  - intros i k x y _ Ei Ek Lx Ly. cbn [ls_sd set_sd] in *. destruct (V i x Ei) as [_ [[-> ->]| ->]]; [|lra].
    assert (L4 : (4 < length (m_nodes (ls_mesh s)))%nat).
    { rewrite (tp_lenN _ _ _ (ok_topo _ _ _ (so_ok _ _ _ So))). cbn. lia. }
    apply lookup_lt_is_Some in L4 as [n En]. destruct (nd_masked n) eqn:M; [right; right; left; exists n; auto|left].
    apply (bo_active _ Bo). split.
    + exists n. split; [exact En|]. split; [exact M|]. intros _. exact Efx.
    + destruct (D 1%nat 1%nat ltac:(lia) ltac:(lia)) as (d & Ed & L1 & _ & L2 & _). exists d. split; [exact Ed|]. rewrite Ebw.
      destruct L2 as [L2|(h & Hh & _)]; [|apply elem_of_nil in Hh; contradiction].
      apply Rltb_true. rewrite nofnat_R. cbn [nabs NumR]. rewrite L2. unfold border_dist. cbn [INR]. unfold Rmin; repeat destruct (Rle_dec _ _); rewrite Rabs_right; lra.
Qed.
