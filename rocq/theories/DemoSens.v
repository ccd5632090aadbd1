(** * DemoSens: the mismatch sensitivity in exact arithmetic. *)

From Coq Require Import Reals Lra.
From Verif Require Import Base Num NumR NumInt MeshModel MeshSpec MeshProofs MeshTopo MeshGeom FmmSpec FmmAxis LevelSetModel LevelSetSpec LevelSetCalls LevelSetHist LevelSetSpecR
  BoundaryModel BoundarySpec BoundarySpecR BoundaryReal DemoModel DemoSpec.
Local Open Scope R_scope.

Lemma smooth_R (x : R) : smooth x = clamp x.
Proof.
  unfold smooth, clamp, n0, n1. cbn [nabs nltb nofZ NumR].
  destruct (Rltb_spec (Rabs x) 1) as [A|A].
  - apply Rabs_def2 in A. rewrite Rmin_right, Rmax_right by lra. reflexivity.
  - destruct (Rltb_spec x 0) as [B|B].
    + rewrite Rabs_left in A by lra. rewrite Rmin_right, Rmax_left by lra. reflexivity.
    + rewrite Rabs_right in A by lra. rewrite Rmin_left, Rmax_right by lra. reflexivity.
Qed.

Lemma sens_node_R W H s c n a : topo W H (ls_mesh s) -> length (ls_sd s) = node_count W H -> length (ls_target s) = node_count W H -> (n < node_count W H)%nat ->
  sens_node s c n a = Ok (if Rltb (euclid2 (grid W n) c) tol then inr (clamp (gap s n))
                          else inl (fst a + gap s n / euclid2 (grid W n) c, snd a + / euclid2 (grid W n) c)).
Proof.
  intros Ht Ls Lt Hn. destruct a as [m w]. unfold sens_node, mismatch_at, vget.
  destruct (lookup_lt_is_Some_2 (m_nodes (ls_mesh s)) n) as [nd En]; [rewrite (tp_lenN _ _ _ Ht); exact Hn|].
  destruct (lookup_lt_is_Some_2 (ls_sd s) n) as [d Ed]; [lia|]. destruct (lookup_lt_is_Some_2 (ls_target s) n) as [t Et]; [lia|].
  rewrite En, Ed, Et. cbn [obind fst snd]. rewrite (proj1 (tp_node _ _ _ Ht n nd En)).
  assert (G : gap s n = t - d) by (unfold gap; rewrite (nth_lookup_Some _ _ _ _ Ed), (nth_lookup_Some _ _ _ _ Et); reflexivity).
  rewrite smooth_R, G. unfold node_spec, grid, euclid2, tol, n1. rewrite nlit_R. cbn [nd_coord cx cy nadd nsub nmul ndiv nltb nofZ NumR]. rewrite !nofnat_R.
  replace (1 / 1000000) with (/ 1000000) by lra.
  destruct (Rltb _ _); [reflexivity|]. do 3 f_equal. unfold Rdiv. rewrite Rmult_1_l. reflexivity.
Qed.

(** The five nodes the loop visits. *)
Lemma sens_turn_nodes W H s c k i a : topo W H (ls_mesh s) -> (k < node_count W H)%nat -> (i < 5)%nat ->
  sens_turn s c k i (inl a) = sens_node s c (match i with 0%nat => k | S j => nb W H k j end) a.
Proof.
  intros Ht Hk Hi. destruct (topo_node W H _ Ht k Hk) as (nd & En & L & Hn). unfold sens_turn. destruct i as [|i].
  - reflexivity.
  - cbn [Nat.eqb obind]. unfold vget. rewrite En. cbn [obind]. replace (S i - 1)%nat with i by lia. rewrite Hn by lia. reflexivity.
Qed.

Lemma cross_nb W H k : (k < node_count W H)%nat -> off_border W H k ->
  cross W k = [k; nb W H k 0; nb W H k 1; nb W H k 2; nb W H k 3] /\ Forall (fun n => (n < node_count W H)%nat) (cross W k).
Proof.
  intros Hk [[X0 X1] [Y0 Y1]]. destruct (node_id_split W H k Hk) as (Hx & Hy & E).
  set (x := (k mod (W + 1))%nat) in *. set (y := (k / (W + 1))%nat) in *. rewrite E. clearbody x y. clear E Hk.
  rewrite nb_left, nb_right, nb_down, nb_up by lia.
  assert (Ids : cross W (node_id W x y) = [node_id W x y; node_id W (x - 1) y; node_id W (x + 1) y; node_id W x (y - 1); node_id W x (y + 1)]).
  { unfold cross, node_id. destruct y as [|y]; [lia|]. destruct x as [|x]; [lia|]. cbn [Nat.sub]. rewrite !Nat.sub_0_r.
    repeat (apply f_equal2; [lia|]). reflexivity. }
  rewrite Ids. split; [reflexivity|]. repeat constructor; apply node_id_lt; lia.
Qed.

Lemma sens_fold W H s c k : topo W H (ls_mesh s) -> length (ls_sd s) = node_count W H -> length (ls_target s) = node_count W H ->
  (k < node_count W H)%nat -> off_border W H k ->
  exists st, for_ 5 (sens_turn s c k) (inl (n0, n0)) = Ok st /\
    match st with
    | inr v => exists n, n ∈ cross W k /\ euclid2 (grid W n) c < tol /\ v = clamp (gap s n)
    | inl (m, w) => (forall n, n ∈ cross W k -> tol <= euclid2 (grid W n) c) /\
        m = sumR (map (fun n => gap s n / euclid2 (grid W n) c) (cross W k)) /\ w = sumR (map (fun n => / euclid2 (grid W n) c) (cross W k))
    end.
Proof.
  intros Ht Ls Lt Hk Ho. destruct (cross_nb W H k Hk Ho) as [Ec Hf].
  set (ns := cross W k) in *.
  assert (S1 : forall i n a, ns !! i = Some n -> sens_turn s c k i (inl a) =
    Ok (if Rltb (euclid2 (grid W n) c) tol then inr (clamp (gap s n)) else inl (fst a + gap s n / euclid2 (grid W n) c, snd a + / euclid2 (grid W n) c))).
  { intros i n a Hi. assert (Li : (i < 5)%nat) by (apply lookup_lt_Some in Hi; rewrite Ec in Hi; exact Hi).
    rewrite (sens_turn_nodes W H) by assumption. rewrite <- (sens_node_R W H s c n a Ht Ls Lt (proj1 (Forall_lookup _ _) Hf i n Hi)).
    rewrite Ec in Hi. destruct i as [|[|[|[|[|i]]]]]; cbn in Hi; try lia; injection Hi as <-; reflexivity. }
  apply wp_total.
  apply (wp_for False False (fun i st => match st with
    | inr v => exists n, n ∈ ns /\ euclid2 (grid W n) c < tol /\ v = clamp (gap s n)
    | inl (m, w) => (forall n, n ∈ take i ns -> tol <= euclid2 (grid W n) c) /\
        m = sumR (map (fun n => gap s n / euclid2 (grid W n) c) (take i ns)) /\ w = sumR (map (fun n => / euclid2 (grid W n) c) (take i ns)) end)).
  - cbn. repeat split. intros n Hn. inversion Hn.
  - intros i st Li I. destruct st as [[m w]|v]; [|exact I].
    destruct (lookup_lt_is_Some_2 ns i) as [n Hn]; [rewrite Ec; exact Li|]. rewrite (S1 i n _ Hn). cbn [wp fst snd].
    destruct (Rltb_spec (euclid2 (grid W n) c) tol) as [A|A].
    + exists n. split; [eapply elem_of_list_lookup_2, Hn|]. split; [exact A|reflexivity].
    + destruct I as (I1 & -> & ->). rewrite (take_S_r _ _ _ Hn). rewrite !map_app. cbn [map].
      assert (Rs : forall l x, sumR (l ++ [x]) = sumR l + x) by (intros l x; unfold sumR; induction l as [|y l IH]; cbn; [lra|rewrite IH; lra]).
      rewrite !Rs. repeat split. intros n' Hn'. apply elem_of_app in Hn' as [Hn'|Hn']; [apply I1, Hn'|]. apply elem_of_list_singleton in Hn' as ->. lra.
  - intros st I. destruct st as [[m w]|v]; [|exact I]. rewrite take_ge in I by (rewrite Ec; cbn; lia). exact I.
Qed.

Theorem sensitivity_R W H (s : LevelSet R) c k : reached W H s -> length (ls_target s) = node_count W H ->
  getClosestNode (ls_mesh s) (cx c) (cy c) = Ok k -> (k < node_count W H)%nat -> off_border W H k ->
  exists v, pointSensitivity c s = Ok v /\
    ((exists n, n ∈ cross W k /\ euclid2 (grid W n) c < tol /\ v = clamp (gap s n)) \/
     ((forall n, n ∈ cross W k -> tol <= euclid2 (grid W n) c) /\ v = clamp (weighted_gap W s c (cross W k)))).
Proof.
  intros Hr Lt Ek Hk Ho. pose proof (so_ok _ _ _ (reached_sound _ _ _ Hr)) as O.
  destruct (sens_fold W H s c k (ok_topo _ _ _ O) (ok_sd _ _ _ O) Lt Hk Ho) as (st & E & Q).
  unfold pointSensitivity. rewrite Ek. cbn [obind]. rewrite E. cbn [obind]. eexists. split; [reflexivity|].
  destruct st as [[m w]|v]; [|left; exact Q]. right. destruct Q as (Q1 & -> & ->). split; [exact Q1|]. rewrite smooth_R. reflexivity.
Qed.

(** ** Consequences *)
Lemma clamp_bounds x : -1 <= clamp x <= 1.
Proof. unfold clamp. split; [apply Rmax_l|]. apply Rmax_lub; [lra|apply Rmin_l]. Qed.
Lemma clamp_mono x y : x <= y -> clamp x <= clamp y.
Proof. intros L. unfold clamp. apply Rle_max_compat_l, Rle_min_compat_l, L. Qed.

Lemma mean_between (g r : nat -> R) ns lo hi : ns <> [] -> (forall n, n ∈ ns -> 0 < r n) -> (forall n, n ∈ ns -> lo <= g n <= hi) ->
  lo <= sumR (map (fun n => g n / r n) ns) / sumR (map (fun n => / r n) ns) <= hi.
Proof.
  intros Hne Hr Hg.
  assert (A : (ns <> [] -> 0 < sumR (map (fun n => / r n) ns)) /\ lo * sumR (map (fun n => / r n) ns) <= sumR (map (fun n => g n / r n) ns) <= hi * sumR (map (fun n => / r n) ns)).
  { clear Hne. unfold sumR. induction ns as [|n ns IH]; cbn; [split; [congruence|lra]|].
    destruct IH as [P [IH1 IH2]]; [intros; apply Hr; now right|intros; apply Hg; now right|].
    assert (Ir : 0 < / r n) by (apply Rinv_0_lt_compat, Hr; now left). pose proof (Hg n ltac:(now left)) as Gn. unfold Rdiv.
    split.
    - intros _. destruct ns as [|n' ns]; [cbn; lra|]. specialize (P ltac:(discriminate)). lra.
    - split; nra. }
  destruct A as [P [A1 A2]]. specialize (P Hne). set (w := sumR (map (fun n => / r n) ns)) in *.
  split; apply (Rmult_le_reg_r w); try lra; unfold Rdiv; rewrite Rmult_assoc, Rinv_l by lra; lra.
Qed.

Theorem sensitivity_between W H (s : LevelSet R) c k v lo hi : reached W H s -> length (ls_target s) = node_count W H ->
  getClosestNode (ls_mesh s) (cx c) (cy c) = Ok k -> (k < node_count W H)%nat -> off_border W H k -> pointSensitivity c s = Ok v ->
  (forall n, n ∈ cross W k -> lo <= gap s n <= hi) -> -1 <= v <= 1 /\ clamp lo <= v <= clamp hi.
Proof.
  intros Hr Lt Ek Hk Ho Ev Hg. destruct (sensitivity_R W H s c k Hr Lt Ek Hk Ho) as (v' & E & Q). assert (v' = v) as -> by congruence.
  destruct Q as [(n & Hn & _ & ->)|[Q ->]].
  - split; [apply clamp_bounds|]. split; apply clamp_mono, Hg, Hn.
  - split; [apply clamp_bounds|]. unfold weighted_gap.
    pose proof (mean_between (gap s) (fun n => euclid2 (grid W n) c) (cross W k) lo hi ltac:(discriminate)) as M. cbv beta in M.
    destruct M as [M1 M2]; [|exact Hg|split; apply clamp_mono; assumption].
    intros n Hn. specialize (Q n Hn). unfold tol in Q. lra.
Qed.

(** Next to the border of the mesh the loop reads past the nodes. *)
Theorem sensitivity_border W H (s : LevelSet R) c k : reached W H s -> length (ls_target s) = node_count W H ->
  getClosestNode (ls_mesh s) (cx c) (cy c) = Ok k -> (k < node_count W H)%nat -> ~ off_border W H k ->
  (forall n, (n < node_count W H)%nat -> tol <= euclid2 (grid W n) c) -> pointSensitivity c s = UB.
Proof.
  intros Hr Lt Ek Hk Ho Hfar. pose proof (so_ok _ _ _ (reached_sound _ _ _ Hr)) as O. pose proof (ok_topo _ _ _ O) as Ht.
  assert (Hj : exists j, (j < 4)%nat /\ nb W H k j = node_count W H).
  { destruct (node_id_split W H k Hk) as (Hx & Hy & _). unfold off_border in Ho. unfold nb, neighbours_spec.
    set (x := (k mod (W + 1))%nat) in *. set (y := (k / (W + 1))%nat) in *.
    assert (C : (x = 0 \/ x = W \/ y = 0 \/ y = H)%nat) by lia.
    destruct C as [C|[C|[C|C]]]; [exists 0%nat|exists 1%nat|exists 2%nat|exists 3%nat]; (split; [lia|]); cbn [nth];
      rewrite (proj2 (Nat.eqb_eq _ _) C); reflexivity. }
  unfold pointSensitivity. rewrite Ek. cbn [obind].
  assert (N : for_ 5 (sens_turn s c k) (inl (n0, n0)) = UB); [|rewrite N; reflexivity].
  assert (G : forall n i a, (exists j, (i <= S j)%nat /\ (S j < i + n)%nat /\ (j < 4)%nat /\ nb W H k j = node_count W H) -> (i + n <= 5)%nat ->
     for_from i n (sens_turn s c k) (inl a) = UB).
  { induction n as [|n IH]; intros i a (j & J1 & J2 & J3 & J4) L; [lia|]. cbn [for_from].
    rewrite (sens_turn_nodes W H) by (assumption || lia).
    set (nn := match i with 0%nat => k | S j0 => nb W H k j0 end).
    assert (Nn : nn = node_count W H \/ (nn < node_count W H)%nat) by (unfold nn; destruct i; [now right|apply (nb_range W H k i Hk); lia]).
    destruct Nn as [Nn|Nn].
    - unfold sens_node. destruct a. rewrite Nn. unfold vget. rewrite lookup_ge_None_2 by (rewrite (tp_lenN _ _ _ Ht); lia). reflexivity.
    - rewrite (sens_node_R W H) by (exact Ht || exact (ok_sd _ _ _ O) || exact Lt || exact Nn).
      destruct (Rltb_spec (euclid2 (grid W nn) c) tol) as [A|A]; [specialize (Hfar nn Nn); lra|]. cbn [obind].
      apply IH; [|lia]. exists j. repeat split; try lia.
      destruct (Nat.eq_dec (S j) i) as [e|e]; [|lia]. subst i. unfold nn in Nn. lia. }
  destruct Hj as (j & Hj & Ej). apply G; [|lia]. exists j. lia.
Qed.
