(** * LevelSetSign: masked nodes and reinitialisation in exact arithmetic (C22). *)

From Verif Require Import MeshModel MeshSpec MeshProofs MeshTopo FmmModel FmmSpec FmmFacts FmmSign LevelSetModel LevelSetSpec
  LevelSetOps LevelSetInit LevelSetCalls LevelSetHist LevelSetReal FmmReal FmmAxis NumInt NumR.
Local Open Scope R_scope.

Lemma masks_stay_outside (W H : nat) (s s' : LevelSet R) : reached W H s -> reinitialise s = Ok s' ->
  (forall i c, ls_sd s !! i = Some c -> 0 < c -> nepsilon < c) ->
  (forall i k a b, adjacent W H i k -> ls_sd s' !! i = Some a -> ls_sd s' !! k = Some b -> Rabs b <= Rabs a + 1) ->
  forall i d, masked s i -> ls_sd s !! i = Some d -> d < 0 -> masked s' i /\ exists d', ls_sd s' !! i = Some d' /\ d' < 0.
Proof.
  intros Hr E Hp Hj i d Hm Hd Hneg. pose proof (so_ok _ _ _ (reached_sound _ _ _ Hr)) as Ho.
  destruct (reinit_sound W H s s' Ho E) as [_ HM]. split; [exact (HM i Hm)|].
  destruct (reinit_spec W H s Ho) as (_ & HS & _). destruct (HS s' E) as (Ho' & _ & _ & o & Hmarch).
  destruct (lookup_lt_is_Some_2 (ls_sd s') i) as [d' Hd'].
  { rewrite (ok_sd _ _ _ Ho'). apply lookup_lt_Some in Hd. rewrite (ok_sd _ _ _ Ho) in Hd. exact Hd. }
  exists d'. split; [exact Hd'|].
  exact (proj1 (proj2 (march_sign W H (ls_mesh s) (ok_topo _ _ _ Ho) (ls_sd s) (ok_sd _ _ _ Ho) Hp false o (ls_sd s') Hmarch Hj i d d' Hd Hd')) Hneg).
Qed.

(** ** A line at x = 5/2 on a 3 x 2 mesh, with the node at the origin masked *)
Definition line32 : list R := (fun i => INR (i mod 4) - 5 / 2) <$> seq 0 12.

Lemma line32_at x y : (x <= 3)%nat -> (y <= 2)%nat -> line32 !! node_id 3 x y = Some (1 * (INR x - 5 / 2)).
Proof.
  intros Hx Hy. rewrite Rmult_1_l.
  destruct x as [|[|[|[|x]]]]; [| | | |lia]; (destruct y as [|[|[|y]]]; [| | |lia]); reflexivity.
Qed.
Lemma line32_inv i c : line32 !! i = Some c -> exists x y, (x <= 3)%nat /\ (y <= 2)%nat /\ i = node_id 3 x y /\ c = INR x - 5 / 2.
Proof.
  intros E. assert (Hi : (i < 12)%nat) by (apply lookup_lt_Some in E; exact E).
  exists (i mod 4)%nat, (i / 4)%nat. pose proof (Nat.div_mod i 4 ltac:(lia)). pose proof (Nat.mod_upper_bound i 4 ltac:(lia)).
  assert (i = node_id 3 (i mod 4) (i / 4)) as Hn by (unfold node_id; lia).
  split; [lia|]. split; [lia|]. split; [exact Hn|]. rewrite Hn, line32_at in E by lia. injection E. lra.
Qed.
Lemma line32_margin i c : line32 !! i = Some c -> 0 < c -> nepsilon < c.
Proof.
  intros E. destruct (line32_inv i c E) as (x & y & Hx & _ & _ & ->). unfold nepsilon. cbn -[INR].
  destruct x as [|[|[|[|x]]]]; [| | | |lia]; cbn [INR]; lra.
Qed.
Lemma line32_no_jump i k a b : adjacent 3 2 i k -> line32 !! i = Some a -> line32 !! k = Some b -> Rabs b <= Rabs a + 1.
Proof.
  intros [(x & y & x' & -> & -> & H1 & H2 & H3 & H4)|(x & y & y' & -> & -> & H1 & H2 & H3 & H4)] Ha Hb;
    rewrite line32_at in Ha, Hb by lia; injection Ha as <-; injection Hb as <-.
  - assert (INR x' = INR x + 1 \/ INR x = INR x' + 1) by (destruct H4 as [-> | ->]; rewrite plus_INR; [left|right]; reflexivity).
    unfold Rabs. repeat destruct Rcase_abs; lra.
  - unfold Rabs. repeat destruct Rcase_abs; lra.
Qed.

Lemma line32_case : exists s s' : LevelSet R, reached 3 2 s /\ reinitialise s = Ok s' /\ ls_sd s = line32 /\ ls_sd s' = line32 /\
  masked s 0.
Proof.
  assert (Hf : fits_ls 3 2 3) by (unfold fits_ls, node_count; lia).
  destruct (new_holes_R 3 2 [] (/ 2) 3 false Hf) as (s0 & E0 & _).
  { split; [lia|]. split; cbn; apply Rltb_true; lra. }
  assert (H0 : reached 3 2 s0).
  { exists (/ 2), 3%nat, false, s0. split; [exact Hf|]. split; [exact (new_by_holes _ _ _ _ _ _ _ E0)|apply rtc_refl]. }
  pose proof (so_ok _ _ _ (reached_sound _ _ _ H0)) as O0.
  assert (H1 : reached 3 2 (set_sd line32 s0)).
  { destruct H0 as (ml & bw & fx & s00 & A & B & C). exists ml, bw, fx, s00. split; [exact A|]. split; [exact B|].
    eapply rtc_r; [exact C|]. apply c_write_sd. rewrite (ok_sd _ _ _ O0). reflexivity. }
  set (s1 := set_sd line32 s0) in *. pose proof (so_ok _ _ _ (reached_sound _ _ _ H1)) as O1.
  set (hs := [mkHole (mkCoord 0 0) (/ 2)] : list (Hole R)).
  destruct (mask_holes_spec 3 2 s1 O1 hs) as (s2 & E2 & O2 & K2).
  assert (Hat : forall i, (i < 12)%nat -> exists n, m_nodes (ls_mesh s1) !! i = Some n /\ nd_coord n = mkCoord (INR (i mod 4)) (INR (i / 4))).
  { intros i Hi. destruct (lookup_lt_is_Some_2 (m_nodes (ls_mesh s1)) i) as [n Hn].
    { rewrite (tp_lenN _ _ _ (ok_topo _ _ _ O1)). exact Hi. }
    exists n. split; [exact Hn|]. rewrite (topo_coord _ _ _ _ _ (ok_topo _ _ _ O1) Hn). change (3 + 1)%nat with 4%nat.
    rewrite !nofnat_R. reflexivity. }
  assert (Hin : in_circles s1 hs 0).
  { destruct (Hat 0%nat ltac:(lia)) as (n & Hn & Ec). exists n, (mkHole (mkCoord 0 0) (/ 2)). split; [exact Hn|].
    split; [apply elem_of_list_here|]. rewrite Ec. apply Rltb_true. change (R_sqrt.sqrt ((0 - 0) * (0 - 0) + (0 - 0) * (0 - 0)) < / 2).
    replace ((0 - 0) * (0 - 0) + (0 - 0) * (0 - 0)) with 0 by ring. rewrite sqrt_0. lra. }
  assert (Hout : forall i, i = 10%nat \/ i = 11%nat -> ~ in_circles s1 hs i).
  { intros i Hi (n & h & Hn & Hh & Hd). apply elem_of_list_singleton in Hh as ->.
    destruct (Hat i ltac:(lia)) as (n' & Hn' & Ec). rewrite Hn' in Hn. injection Hn as <-. rewrite Ec in Hd.
    apply Rltb_true in Hd. change (R_sqrt.sqrt ((0 - INR (i mod 4)) * (0 - INR (i mod 4)) + (0 - INR (i / 4)) * (0 - INR (i / 4))) < / 2) in Hd.
    assert (2 <= R_sqrt.sqrt 4) by (replace 4 with (2 * 2) by lra; rewrite sqrt_square; lra).
    match type of Hd with R_sqrt.sqrt ?e < _ => assert (4 <= e) as He; [|pose proof (sqrt_le_1_alt 4 e He); lra] end.
    destruct Hi as [-> | ->]; [change (10 mod 4)%nat with 2%nat; change (10 / 4)%nat with 2%nat
      |change (11 mod 4)%nat with 3%nat; change (11 / 4)%nat with 2%nat]; cbn [INR]; lra. }
  assert (H10 : (10 < node_count 3 2)%nat) by (unfold node_count; lia).
  assert (Hfr : on_front 3 2 (ls_sd s2) 10).
  { right. exists 11%nat. split.
    - left. exists 2%nat, 2%nat, 3%nat. repeat split; lia.
    - exists (INR 2 - 5 / 2), (INR 3 - 5 / 2).
      destruct (kf_out _ _ _ K2 10%nat (Hout 10%nat ltac:(lia))) as [-> _].
      destruct (kf_out _ _ _ K2 11%nat (Hout 11%nat ltac:(lia))) as [-> _].
      split; [reflexivity|]. split; [reflexivity|]. apply Rltb_true.
      change ((INR 2 - 5 / 2) * (INR 3 - 5 / 2) < 0). cbn [INR]. lra. }
  destruct (reinit_spec 3 2 s2 O2) as (_ & _ & R3).
  destruct (R3 (ex_intro _ 10%nat (conj H10 Hfr))) as (s3 & E3).
  assert (E3' : mask_holes s1 hs = Ok s3) by (unfold mask_holes; rewrite E2; exact E3).
  assert (H3 : reached 3 2 s3) by (apply (reached_call _ _ _ _ H1); exact (c_mask_holes _ _ _ E3')).
  pose proof (so_ok _ _ _ (reached_sound _ _ _ H3)) as O3.
  assert (M3 : masked s3 0).
  { destruct (mask_holes_full 3 2 s1 hs s3 H1 E3') as (_ & _ & _ & _ & M). apply M. right. exact Hin. }
  assert (H4 : reached 3 2 (set_sd line32 s3)).
  { apply (reached_call _ _ _ _ H3). apply c_write_sd. rewrite (ok_sd _ _ _ O3). reflexivity. }
  set (s4 := set_sd line32 s3) in *. pose proof (so_ok _ _ _ (reached_sound _ _ _ H4)) as O4.
  destruct (march_axis_x 3 2 (ls_mesh s4) 1 (5 / 2) line32 (ok_topo _ _ _ O4)) as (o & Eo).
  { left; reflexivity. } { cbn; lra. } { reflexivity. } { exact line32_at. }
  destruct (reinit_spec 3 2 s4 O4) as (_ & R4 & R5).
  assert (Hfr4 : on_front 3 2 (ls_sd s4) 10).
  { right. exists 11%nat. split.
    - left. exists 2%nat, 2%nat, 3%nat. repeat split; lia.
    - exists (INR 2 - 5 / 2), (INR 3 - 5 / 2). split; [reflexivity|]. split; [reflexivity|]. apply Rltb_true.
      change ((INR 2 - 5 / 2) * (INR 3 - 5 / 2) < 0). cbn [INR]. lra. }
  destruct (R5 (ex_intro _ 10%nat (conj H10 Hfr4))) as (s5 & E5).
  destruct (R4 s5 E5) as (_ & _ & _ & o' & Eo').
  exists s4, s5. split; [exact H4|]. split; [exact E5|]. split; [reflexivity|]. split; [|exact M3].
  change (ls_sd s4) with line32 in Eo'. rewrite Eo in Eo'. congruence.
Qed.
