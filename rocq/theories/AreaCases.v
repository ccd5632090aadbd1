(** * AreaCases: a concrete total area (C28). *)

From Coq Require Import Reals Lra.
From Verif Require Import Base Num NumR NumInt MeshModel MeshSpec MeshTopo LevelSetModel LevelSetSpec LevelSetCalls LevelSetHist
  BoundaryModel BoundarySpec BoundarySpecR BoundaryReal BoundaryGraph BoundaryRun BoundaryLocal BoundaryClosed LevelSetInit LevelSetReal LevelSetSpecR FmmSpec FmmReal BoundaryCases AreaCut.
Local Open Scope R_scope.

Lemma diamond_shares : exists (s s' s'' : LevelSet R) b, reached 2 2 s /\ ls_sd s = [-1; -1; -1; -1; 1; -1; -1; -1; -1] /\
  discretise s false = Ok (s', b) /\ computeAreaFractions s' b = Ok (s'', / 2) /\ map e_area (m_elements (ls_mesh s'')) = [/ 8; / 8; / 8; / 8].
Proof.
  destruct diamond_case as (s & Hr & Ho & Hc & Hv & Es).
  destruct (closed_curves 2 2 s false Hr Hc Ho (or_intror Hv)) as (s' & b & Hd & _).
  destruct (area_fractions 2 2 s s' false b Hr Ho Hc (or_intror Hv) Hd) as (s'' & A & Hcomp & Hel & HA & _ & _ & Hl).
  exists s, s', s'', b. split; [exact Hr|]. split; [exact Es|]. split; [exact Hd|]. rewrite Hcomp, HA.
  assert (Q : forall e, (e < 4)%nat -> exists E, m_elements (ls_mesh s'') !! e = Some E /\ e_area E = / 8).
  { intros e He. destruct (Hel e He) as (E & a & _ & EE & Ra). eexists. split; [exact EE|]. cbn [e_area set_e_area].
    assert (E1 : share 1 (-1) = / 2) by (unfold share; rewrite Rabs_R1, (Rabs_left (-1)) by lra; field).
    assert (G : exists j, (j < 4)%nat /\ let x := corner_value 2 (ls_sd s) e in x j = 1 /\ x (j + 1)%nat = -1 /\ x (j + 2)%nat = -1 /\ x (j + 3)%nat = -1).
    { rewrite Es. unfold corner_value. destruct e as [|[|[|[|e]]]]; [exists 2%nat|exists 3%nat|exists 1%nat|exists 0%nat|lia]; (split; [lia|]); cbn; repeat split; lra. }
    destruct G as (j & Hj & X0 & X1 & X2 & X3). change (BoundaryLinks.field s false) with (ls_sd s) in Ra.
    rewrite (ar_one_inside _ _ Ra j Hj); [unfold tip; rewrite X0, X1, X3, E1; lra|rewrite ?X0, ?X1, ?X2, ?X3; lra..]. }
  destruct (m_elements (ls_mesh s'')) as [|E0 [|E1 [|E2 [|E3 [|? l]]]]]; try discriminate Hl.
  destruct (Q 0%nat ltac:(lia)) as (? & [= <-] & Q0). destruct (Q 1%nat ltac:(lia)) as (? & [= <-] & Q1). destruct (Q 2%nat ltac:(lia)) as (? & [= <-] & Q2). destruct (Q 3%nat ltac:(lia)) as (? & [= <-] & Q3).
  cbn [map fold_right]. rewrite Q0, Q1, Q2, Q3. split; [do 2 f_equal; lra|reflexivity].
Qed.

Lemma diamond_total : exists (s s' s'' : LevelSet R) b, reached 2 2 s /\ ls_sd s = [-1; -1; -1; -1; 1; -1; -1; -1; -1] /\
  discretise s false = Ok (s', b) /\ computeAreaFractions s' b = Ok (s'', / 2).
Proof. destruct diamond_shares as (s & s' & s'' & b & A & B & C & D & _). exists s, s', s'', b. auto. Qed.

(** Nodes on the contour: half of a unit square. *)
Lemma half_case : exists s : LevelSet R, reached 1 1 s /\ clear_cuts 1 1 (ls_sd s) /\ (node_count 1 1 <= length (ls_sd s))%nat /\
  (forall i k, adjacent 1 1 i k -> active s i \/ active s k \/ masked s i \/ masked s k) /\
  (forall e, (e < 1 * 1)%nat -> (length (elem_graph 1 (ls_sd s) e) <= 2)%nat) /\ (forall p, (degree 1 1 (ls_sd s) p <= 2)%nat) /\
  ls_sd s = [1; 0; 0; -1].
Proof.
  assert (HF : fits_ls 1 1 3) by (unfold fits_ls, node_count; cbn; lia).
  assert (HV : valid_params (/ 2) 3).
  { split; [lia|]. split; apply Rltb_true; cbn; lra. }
  destruct (new_holes_R 1 1 [] (/ 2) 3 false HF HV) as (s & E & D).
  assert (C : constructed 1 1 (/ 2) 3 false s) by exact (new_by_holes _ _ _ _ _ _ _ E).
  destruct (constructed_sound 1 1 (/ 2) 3 false s HF C) as [So Bo].
  destruct (holes_accepted 1 1 3 (/ 2) false [] HF HV) as (s0 & E0 & _ & Ebw & Efx & _). assert (s0 = s) by congruence. subst s0.
  set (v := [1; 0; 0; -1]).
  assert (Lv : length v = length (ls_sd s)) by (rewrite (ok_sd _ _ _ (so_ok _ _ _ So)); reflexivity).
  pose proof tol_pos as Tp. assert (T1 : tol <= 1) by lra.
  assert (S0 : side v 0 = Some NS_INSIDE) by (apply side_inside; exists 1; split; [reflexivity|exact T1]).
  assert (S1 : side v 1 = Some NS_BOUNDARY) by (apply side_boundary; exists 0; split; [reflexivity|rewrite Rabs_R0; lra]).
  assert (S2 : side v 2 = Some NS_BOUNDARY) by (apply side_boundary; exists 0; split; [reflexivity|rewrite Rabs_R0; lra]).
  assert (S3 : side v 3 = Some NS_OUTSIDE) by (apply side_outside; exists (-1); split; [reflexivity|lra]).
  assert (G : elem_graph 1 v 0 = [(AtNode 1, AtNode 2)]).
  { unfold elem_graph. rewrite local_tab. unfold sides, st_of. change (corner 1 0 0) with 0%nat. change (corner 1 0 1) with 1%nat. change (corner 1 0 2) with 3%nat. change (corner 1 0 3) with 2%nat.
    rewrite S0, S1, S2, S3. reflexivity. }
  exists (set_sd v s). split; [|split; [|split; [|split; [|split; [|split; [|reflexivity]]]]]].
  - exists (/ 2), 3%nat, false, s. split; [exact HF|]. split; [exact C|]. apply rtc_once, c_write_sd, Lv.
  - intros i k x y Ad Ei Ek Lx Ly. cbn [ls_sd set_sd] in *.
    assert (V : forall i x, v !! i = Some x -> x = 0 \/ (i = 0%nat /\ x = 1) \/ (i = 3%nat /\ x = -1)).
    { intros i' x'. do 4 (destruct i' as [|i']; [cbn; intros [= <-]; auto|]). discriminate. }
    destruct (V i x Ei) as [-> |[[-> ->]|[-> ->]]]; [lra| |lra]. destruct (V k y Ek) as [-> |[[-> ->]|[-> ->]]]; [lra|lra|]. lra.
  - cbn. lia.
  - intros i k Ad. assert (Hi : (i < 4)%nat).
    { unfold adjacent, adj_x, adj_y in Ad. destruct Ad as [(x & y & x' & -> & _ & Lx & _ & Ly & _)|(x & y & y' & -> & _ & Lx & Ly & _)]; unfold node_id; lia. }
    assert (Li : (i < length (m_nodes (ls_mesh s)))%nat) by (rewrite (tp_lenN _ _ _ (ok_topo _ _ _ (so_ok _ _ _ So))); exact Hi).
    apply lookup_lt_is_Some in Li as [n En]. destruct (nd_masked n) eqn:M; [right; right; left; exists n; auto|left].
    apply (bo_active _ Bo). split.
    + exists n. split; [exact En|]. split; [exact M|]. intros _. exact Efx.
    + assert (Q : exists x y, (x <= 1)%nat /\ (y <= 1)%nat /\ i = node_id 1 x y).
      { destruct i as [|[|[|[|i]]]]; [exists 0%nat, 0%nat|exists 1%nat, 0%nat|exists 0%nat, 1%nat|exists 1%nat, 1%nat|]; unfold node_id; lia. }
      destruct Q as (x & y & Hx & Hy & ->).
      destruct (D x y ltac:(lia) ltac:(lia)) as (d & Ed & L1 & _ & L2 & _). exists d. split; [exact Ed|]. rewrite Ebw.
      destruct L2 as [L2|(h & Hh & _)]; [|apply elem_of_nil in Hh; contradiction].
      apply Rltb_true. rewrite nofnat_R. cbn [nabs NumR]. rewrite L2. unfold border_dist.
      destruct x as [|[|x]]; [| |lia]; (destruct y as [|[|y]]; [| |lia]); cbn [INR]; unfold Rmin; repeat destruct (Rle_dec _ _); rewrite Rabs_right; lra.
  - intros e He. assert (e = 0%nat) as -> by lia. cbn [ls_sd set_sd]. rewrite G. cbn. lia.
  - intros p. unfold degree, graph_upto. cbn [ls_sd set_sd Nat.mul seq flat_map Nat.add]. rewrite G. unfold ends_count. cbn [map app flat_map snd List.filter].
    destruct (place_eqb p (AtNode 1)), (place_eqb p (AtNode 2)); cbn; lia.
Qed.
Lemma half_total : exists (s s' s'' : LevelSet R) b, reached 1 1 s /\ ls_sd s = [1; 0; 0; -1] /\
  discretise s false = Ok (s', b) /\ computeAreaFractions s' b = Ok (s'', / 2).
Proof.
  destruct half_case as (s & Hr & Hc & Hl & Hv & Hf & Hg & Es).
  destruct (area_fractions_nodes 1 1 s false Hr Hc Hl (or_intror Hv) Hf Hg) as (s' & b & s'' & A & Hd & Hcomp & Hel & HA & _ & _ & Hle).
  exists s, s', s'', b. split; [exact Hr|]. split; [exact Es|]. split; [exact Hd|]. rewrite Hcomp. do 2 f_equal. rewrite HA.
  destruct (Hel 0%nat ltac:(lia)) as (E & a & _ & EE & Ra). change (BoundaryLinks.field s false) with (ls_sd s) in Ra. rewrite Es in Ra. pose proof tol_pos.
  assert (X0 : snap (corner_value 1 [1; 0; 0; -1] 0 2) = -1) by (change (corner_value 1 [1; 0; 0; -1] 0 2) with (-1); unfold snap; destruct (Rlt_dec _ _) as [L|L]; [rewrite (Rabs_left (-1)) in L by lra; exfalso; lra|reflexivity]).
  assert (X1 : snap (corner_value 1 [1; 0; 0; -1] 0 3) = 0) by (change (corner_value 1 [1; 0; 0; -1] 0 3) with 0; unfold snap; destruct (Rlt_dec _ _); reflexivity).
  assert (X2 : snap (corner_value 1 [1; 0; 0; -1] 0 4) = 1) by (change (corner_value 1 [1; 0; 0; -1] 0 4) with 1; unfold snap; destruct (Rlt_dec _ _) as [L|L]; [rewrite (Rabs_right 1) in L by lra; exfalso; lra|reflexivity]).
  assert (X3 : snap (corner_value 1 [1; 0; 0; -1] 0 5) = 0) by (change (corner_value 1 [1; 0; 0; -1] 0 5) with 0; unfold snap; destruct (Rlt_dec _ _); reflexivity).
  assert (Sh : share (-1) 0 = 1) by (unfold share; rewrite Rabs_R0, (Rabs_left (-1)) by lra; field).
  destruct (m_elements (ls_mesh s'')) as [|E0 [|? l]]; try discriminate Hle. injection EE as ->. cbn [map fold_right e_area set_e_area].
  rewrite (ar_one_outside _ _ Ra 2%nat ltac:(lia)); unfold tip; cbn [Nat.add]; rewrite ?X0, ?X1, ?X2, ?X3, ?Sh; lra.
Qed.
