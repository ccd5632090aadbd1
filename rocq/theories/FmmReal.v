(** * FmmReal: fast marching in exact arithmetic. *)

From Verif Require Import NumR HeapSift HeapRefine MeshModel MeshSpec MeshProofs MeshGeom MeshTopo HeapModel HeapProofs
  FmmModel FmmSpec FmmProofs FmmFacts.
From stdpp Require Import relations.
From Coq Require Import Psatz.
Local Open Scope R_scope.

Lemma n0_R : n0 = 0 :> R. Proof. reflexivity. Qed.
Lemma n1_R : n1 = 1 :> R. Proof. reflexivity. Qed.
Ltac num_R := unfold n0, n1, nlit, nepsilon in *;
  cbn [nadd nsub nmul ndiv nneg nabs nsqrt nltb nleb neqb nofZ NumR] in *.

Lemma div_le_1 c v : c * v < 0 -> 0 < c / (c - v) < 1.
Proof.
  intros Hcv. destruct (Rtotal_order c 0) as [Hc|[Hc|Hc]].
  - assert (0 < v) by nra. replace (c / (c - v)) with ((- c) / (v - c)) by (field; lra).
    split; [apply Rdiv_lt_0_compat; lra|]. apply (Rmult_lt_reg_r (v - c)); [lra|]. field_simplify; lra.
  - nra.
  - assert (v < 0) by nra. split; [apply Rdiv_lt_0_compat; lra|]. apply (Rmult_lt_reg_r (c - v)); [lra|]. field_simplify; lra.
Qed.

Section front.
  Variables (W H : nat) (mesh : Mesh R).
  Hypothesis Ht : topo W H mesh.
  Variable copy : list R.
  Notation N := (node_count W H).
  Hypothesis Hcopy : length copy = N.

  Definition crossd (i j : nat) (d : R) : Prop :=
    exists c v, copy !! i = Some c /\ copy !! nb W H i j = Some v /\ c * v < 0 /\ d = c / (c - v).
  Lemma crossd_range i j d : crossd i j d -> 0 < d < 1.
  Proof. intros (c & v & _ & _ & Hcv & ->). apply div_le_1. exact Hcv. Qed.
  Lemma crossd_fun i j d d' : crossd i j d -> crossd i j d' -> d = d'.
  Proof. intros (c & v & A & B & _ & ->) (c' & v' & A' & B' & _ & ->). congruence. Qed.

  (** The nearest crossing over the directions [J]; 0 if there is none. *)
  Definition part (J : nat -> Prop) (i : nat) (d : R) : Prop :=
    (d = 0 /\ forall j d', J j -> ~ crossd i j d') \/
    (0 < d /\ (exists j, J j /\ crossd i j d) /\ forall j d', J j -> crossd i j d' -> d <= d').

  Lemma border_step_R i j b d0 d1 (J0 J1 : nat -> Prop) : (i < N)%nat -> (j < 4)%nat ->
    part J0 i d0 -> part J1 i d1 ->
    exists b' d0' d1', border_step mesh copy i j (b, d0, d1) = Ok (b', d0', d1') /\
      part (fun k => J0 k \/ (k = j /\ (j < 2)%nat)) i d0' /\ part (fun k => J1 k \/ (k = j /\ ~ (j < 2)%nat)) i d1' .
  Proof.
    intros Hi Hj P0 P1.
    assert (Hno : forall J d (Q : Prop), part J i d -> (Q -> forall d', ~ crossd i j d') -> part (fun k => J k \/ (k = j /\ Q)) i d).
    { intros J d Q [[-> HP]|(Hd & (k & HJ & Hk) & HP)] HQ.
      - left. split; [reflexivity|]. intros k d' [HJ|[-> Hq]]; [eauto|auto].
      - right. split; [exact Hd|]. split; [exists k; auto|]. intros k' d' [HJ'|[-> Hq]] Hc; [eauto|]. exfalso. exact (HQ Hq _ Hc). }
    assert (Hskip : (forall d', ~ crossd i j d') -> exists b' d0' d1', Ok (b, d0, d1) = Ok (b', d0', d1') /\
      part (fun k => J0 k \/ (k = j /\ (j < 2)%nat)) i d0' /\ part (fun k => J1 k \/ (k = j /\ ~ (j < 2)%nat)) i d1').
    { intros Hn. exists b, d0, d1. split; [reflexivity|]. split; apply Hno; auto. }
    unfold border_step. rewrite (neigh_ok W H mesh Ht) by assumption. cbn [obind]. rewrite (mesh_N W H mesh Ht).
    destruct (nb_range W H i j Hi Hj) as [Eb|Hb].
    { rewrite Eb, Nat.eqb_refl. cbn [negb]. apply Hskip. intros d' (c & v & _ & Hv & _). apply lookup_lt_Some in Hv. lia. }
    destruct (Nat.eqb_spec (nb W H i j) N); [lia|]. cbn [negb].
    destruct (vget_lt copy i) as (c & Hc & ->); [lia|]. destruct (vget_lt copy (nb W H i j)) as (v & Hv & ->); [lia|].
    cbn [obind]. num_R. destruct (Rltb_spec (c * v) 0) as [Hcv|Hcv].
    2: { apply Hskip. intros d' (c' & v' & Hc' & Hv' & Hx & _). assert (c' = c) by congruence. assert (v' = v) by congruence. subst. lra. }
    assert (HX : crossd i j (c / (c - v))) by (exists c, v; auto).
    pose proof (crossd_range _ _ _ HX) as Hrange.
    assert (Hyes : forall J d (Q : Prop), Q -> part J i d -> part (fun k => J k \/ (k = j /\ Q)) i
        (if Reqb d 0 || Rltb (c / (c - v)) d then c / (c - v) else d)).
    { intros J d Q HQ HP. right. destruct HP as [[-> HP]|(Hd & (k & HJ & Hk) & HP)].
      - destruct (Reqb_spec 0 0); [|lra]. cbn [orb]. split; [lra|]. split; [exists j; auto|].
        intros k d' [HJ|[-> _]] Hc'; [exfalso; eapply HP; eauto|]. rewrite (crossd_fun _ _ _ _ HX Hc'). lra.
      - destruct (Reqb_spec d 0); [lra|]. cbn [orb]. destruct (Rltb_spec (c / (c - v)) d) as [Hlt|Hge].
        + split; [lra|]. split; [exists j; auto|]. intros k' d' [HJ'|[-> _]] Hc'.
          * specialize (HP _ _ HJ' Hc'). lra.
          * rewrite (crossd_fun _ _ _ _ HX Hc'). lra.
        + split; [lra|]. split; [exists k; auto|]. intros k' d' [HJ'|[-> _]] Hc'; [eauto|].
          rewrite <- (crossd_fun _ _ _ _ HX Hc'). lra. }
    destruct (Nat.ltb_spec j 2) as [Hlt|Hge]; eexists _, _, _; (split; [reflexivity|]); split.
    - apply Hyes; auto.
    - apply Hno; [auto|]. intros Hn. contradiction.
    - apply Hno; [auto|]. intros Hn. lia.
    - apply Hyes; [lia|auto].
  Qed.

  Lemma border_fold_R i : (i < N)%nat -> exists b d0 d1, border_fold mesh copy i = Ok (b, d0, d1) /\
    part (fun j => j = 0 \/ j = 1)%nat i d0 /\ part (fun j => j = 2 \/ j = 3)%nat i d1.
  Proof.
    intros Hi. unfold border_fold, for_. cbn [for_from].
    assert (P0 : part (fun _ => False) i n0) by (left; split; [reflexivity|auto]).
    destruct (border_step_R i 0 false n0 n0 _ _ Hi ltac:(lia) P0 P0) as (b1 & x1 & y1 & -> & A1 & B1). cbn [obind].
    destruct (border_step_R i 1 b1 x1 y1 _ _ Hi ltac:(lia) A1 B1) as (b2 & x2 & y2 & -> & A2 & B2). cbn [obind].
    destruct (border_step_R i 2 b2 x2 y2 _ _ Hi ltac:(lia) A2 B2) as (b3 & x3 & y3 & -> & A3 & B3). cbn [obind].
    destruct (border_step_R i 3 b3 x3 y3 _ _ Hi ltac:(lia) A3 B3) as (b4 & x4 & y4 & -> & A4 & B4). cbn [obind].
    exists b4, x4, y4. split; [reflexivity|].
    assert (Hext : forall J J' d, (forall j, J j <-> J' j) -> part J i d -> part J' i d).
    { intros J J' d HJ [[-> HP]|(Hd & (k & HJk & Hk) & HP)].
      - left. split; [reflexivity|]. intros j d' Hj. apply HJ in Hj. eauto.
      - right. split; [exact Hd|]. split; [exists k; split; [apply HJ; exact HJk|exact Hk]|].
        intros j d' Hj. apply HJ in Hj. eauto. }
    split; [eapply Hext; [|exact A4]|eapply Hext; [|exact B4]]; intros j; cbv beta; intuition lia.
  Qed.

  Lemma edge_crossing_x i d : (i < N)%nat -> edge_crossing copy (adj_x W H) i d <-> exists j, (j = 0 \/ j = 1)%nat /\ crossd i j d.
  Proof.
    intros Hi. split.
    - intros (k & c & v & Hadj & Hc & Hv & Hcv & Hd). apply adj_x_nb in Hadj as (_ & _ & [->| ->]); [exists 0%nat|exists 1%nat]; (split; [lia|]); exists c, v; auto.
    - intros (j & Hj & c & v & Hc & Hv & Hcv & Hd). exists (nb W H i j), c, v. split; [|auto].
      apply adj_x_nb. split; [exact Hi|]. split; [apply lookup_lt_Some in Hv; lia|]. destruct Hj as [->| ->]; auto.
  Qed.
  Lemma edge_crossing_y i d : (i < N)%nat -> edge_crossing copy (adj_y W H) i d <-> exists j, (j = 2 \/ j = 3)%nat /\ crossd i j d.
  Proof.
    intros Hi. split.
    - intros (k & c & v & Hadj & Hc & Hv & Hcv & Hd). apply adj_y_nb in Hadj as (_ & _ & [->| ->]); [exists 2%nat|exists 3%nat]; (split; [lia|]); exists c, v; auto.
    - intros (j & Hj & c & v & Hc & Hv & Hcv & Hd). exists (nb W H i j), c, v. split; [|auto].
      apply adj_y_nb. split; [exact Hi|]. split; [apply lookup_lt_Some in Hv; lia|]. destruct Hj as [->| ->]; auto.
  Qed.

  Lemma part_nearest (J : nat -> Prop) adj i d : (forall d, edge_crossing copy adj i d <-> exists j, J j /\ crossd i j d) ->
    part J i d -> (d = 0 /\ no_crossing copy adj i) \/ (0 < d < 1 /\ nearest_crossing copy adj i d).
  Proof.
    intros HJ [[-> HP]|(Hd & (k & HJk & Hk) & HP)].
    - left. split; [reflexivity|]. intros d Hd. apply HJ in Hd as (j & Hj & Hc). exact (HP j d Hj Hc).
    - right. split; [apply (crossd_range _ _ _ Hk)|]. split; [apply HJ; eauto|].
      intros d' Hd'. apply HJ in Hd' as (j & Hj & Hc). eauto.
  Qed.

  Lemma border_distance_R d0 d1 : 0 <= d0 < 1 -> 0 <= d1 < 1 -> 0 < d0 \/ 0 < d1 ->
    let r := border_distance d0 d1 in
    0 < r < 1 /\ (0 < d0 -> 0 < d1 -> 1 / (r * r) = 1 / (d0 * d0) + 1 / (d1 * d1)) /\
    (d1 = 0 -> r = d0) /\ (d0 = 0 -> r = d1).
  Proof.
    intros H0 H1 Hor. unfold border_distance. num_R.
    assert (Hsq : forall d, 0 < d -> R_sqrt.sqrt (1 / (0 + 1 / (d * d))) = d).
    { intros d Hd. replace (1 / (0 + 1 / (d * d))) with (d * d) by (field; lra). apply sqrt_square. lra. }
    destruct (Rltb_spec 0 d0) as [P0|P0], (Rltb_spec 0 d1) as [P1|P1].
    - set (S := 0 + 1 / (d0 * d0) + 1 / (d1 * d1)).
      assert (A0 : 1 < 1 / (d0 * d0)).
      { apply (Rmult_lt_reg_r (d0 * d0)); [nra|]. replace (1 / (d0 * d0) * (d0 * d0)) with 1 by (field; lra). nra. }
      assert (A1 : 1 < 1 / (d1 * d1)).
      { apply (Rmult_lt_reg_r (d1 * d1)); [nra|]. replace (1 / (d1 * d1) * (d1 * d1)) with 1 by (field; lra). nra. }
      assert (HS : 2 < S) by (unfold S; lra).
      assert (HI : 0 < 1 / S < 1).
      { split; [apply Rdiv_lt_0_compat; lra|]. apply (Rmult_lt_reg_r S); [lra|]. replace (1 / S * S) with 1 by (field; lra). lra. }
      split; [|split; [|split; intros; lra]].
      + split; [apply sqrt_lt_R0; lra|]. apply Rlt_le_trans with (R_sqrt.sqrt 1); [apply sqrt_lt_1; lra|rewrite sqrt_1; lra].
      + intros _ _. rewrite sqrt_sqrt by lra. replace (1 / (1 / S)) with S by (field; lra). unfold S. lra.
    - rewrite Hsq by exact P0. repeat split; intros; lra.
    - rewrite Hsq by exact P1. repeat split; intros; lra.
    - lra.
  Qed.

  Lemma border_new_R i c : (i < N)%nat -> copy !! i = Some c -> (exists k, adjacent W H i k /\ crossing copy i k) ->
    same_side c (border_new mesh copy i) /\ 0 < Rabs (border_new mesh copy i) < 1 /\
    contour_distance W H copy i (Rabs (border_new mesh copy i)).
  Proof.
    intros Hi Hc (k & Hadj & Hx). destruct (border_fold_R i Hi) as (b & d0 & d1 & HB & P0 & P1).
    unfold border_new. rewrite HB, Hc.
    apply (part_nearest _ (adj_x W H) i d0 (fun d => edge_crossing_x i d Hi)) in P0.
    apply (part_nearest _ (adj_y W H) i d1 (fun d => edge_crossing_y i d Hi)) in P1.
    assert (H0 : 0 <= d0 < 1) by (destruct P0 as [[-> _]|[? _]]; lra).
    assert (H1 : 0 <= d1 < 1) by (destruct P1 as [[-> _]|[? _]]; lra).
    destruct Hx as (c' & v & Hc' & Hv & Hcv). assert (c' = c) by congruence. subst c'.
    num_R. apply Rltb_true in Hcv. assert (Hcne : c <> 0) by nra.
    assert (Hor : 0 < d0 \/ 0 < d1).
    { destruct Hadj as [Ha|Ha].
      - left. destruct P0 as [[_ Hn]|[? _]]; [|lra]. exfalso. apply (Hn (c / (c - v))). exists k, c, v. auto.
      - right. destruct P1 as [[_ Hn]|[? _]]; [|lra]. exfalso. apply (Hn (c / (c - v))). exists k, c, v. auto. }
    destruct (border_distance_R d0 d1 H0 H1 Hor) as (R0 & R1 & R2 & R3).
    set (r := border_distance d0 d1) in *.
    assert (Habs : Rabs (if Rltb c 0 then - r else r) = r).
    { destruct (Rltb c 0); [rewrite Rabs_Ropp|]; apply Rabs_pos_eq; lra. }
    rewrite Habs. split; [|split; [lra|split; [lra|]]].
    - destruct (Rltb_spec c 0); unfold same_side; repeat split; intros; lra.
    - destruct P0 as [[E0 N0]|[L0 N0]], P1 as [[E1 N1]|[L1 N1]].
      + lra.
      + right. right. rewrite (R3 E0). auto.
      + right. left. rewrite (R2 E1). auto.
      + left. exists d0, d1. split; [exact N0|]. split; [exact N1|]. apply R1; lra.
  Qed.
End front.

(** ** C16: averages *)
Section velocity.
  Variables (W H : nat) (mesh : Mesh R).
  Hypothesis Ht : topo W H mesh.
  Variable copy : list R.
  Notation N := (node_count W H).

  Variables lo hi : R.
  Definition acc_ok (a : VelAcc R) : Prop :=
    (va_set a = false /\ va_dist a = 0) \/ (va_set a = true /\ 0 <= va_dist a /\ lo <= va_vel a <= hi).

  Lemma vel_step_R s node i acc acc' : (node < N)%nat -> (i < 4)%nat ->
    (forall k v, k <> node -> f_status s !! k = Some F_FROZEN -> f_vel s !! k = Some v -> lo <= v <= hi) ->
    acc_ok acc.1 -> acc_ok acc.2 -> vel_step mesh s node i acc = Ok acc' -> acc_ok acc'.1 /\ acc_ok acc'.2.
  Proof.
    intros Hn Hi HF A0 A1. unfold vel_step. rewrite (neigh_ok W H mesh Ht) by assumption. cbn [obind].
    destruct (negb _); [|intros E; inversion E; subst; auto].
    intros E. apply obind_Ok in E as (st & Hst & E). apply vget_Ok in Hst.
    destruct st; cbn [is_frozen] in E; try (inversion E; subst; solve [auto]).
    apply obind_Ok in E as (sdn & _ & E).
    match type of E with (if ?b then _ else _) = _ => destruct b end; [|inversion E; subst; auto].
    apply obind_Ok in E as (sdi & _ & E). apply obind_Ok in E as (v & Hv & E). apply vget_Ok in Hv.
    assert (HA : acc_ok (mkVelAcc (nabs (sdi - sdn)%num) (nabs sdn) true v)).
    { right. cbn. split; [reflexivity|]. split; [apply Rabs_pos|]. apply (HF (nb W H node i) v); [apply nb_ne; assumption|exact Hst|exact Hv]. }
    destruct (i <? 2)%nat; inversion E; subst; cbn [fst snd]; auto.
  Qed.

  Lemma finalise_R s s' node v : (node < N)%nat -> (node < length (f_vel s))%nat ->
    (forall k v, k <> node -> f_status s !! k = Some F_FROZEN -> f_vel s !! k = Some v -> lo <= v <= hi) ->
    finaliseVelocity mesh node s = Ok s' -> f_vel s' !! node = Some v -> lo <= v <= hi.
  Proof.
    intros Hn Hlen HF E Hv. unfold finaliseVelocity in E. apply obind_Ok in E as ([ax ay] & EF & E).
    assert (HA : acc_ok ax /\ acc_ok ay).
    { assert (HZ : acc_ok (mkVelAcc n0 n0 false n0)) by (left; auto).
      unfold for_ in EF. cbn [for_from] in EF.
      apply obind_Ok in EF as (a1 & E1 & EF). apply obind_Ok in EF as (a2 & E2 & EF).
      apply obind_Ok in EF as (a3 & E3 & EF). apply obind_Ok in EF as (a4 & E4 & EF). inversion EF; subst a4.
      destruct (vel_step_R s node 0 (mkVelAcc n0 n0 false n0, mkVelAcc n0 n0 false n0) _ Hn ltac:(lia) HF HZ HZ E1) as [X1 Y1].
      destruct (vel_step_R s node 1 _ _ Hn ltac:(lia) HF ltac:(eassumption) ltac:(eassumption) E2) as [X2 Y2].
      destruct (vel_step_R s node 2 _ _ Hn ltac:(lia) HF ltac:(eassumption) ltac:(eassumption) E3) as [X3 Y3].
      destruct (vel_step_R s node 3 _ _ Hn ltac:(lia) HF ltac:(eassumption) ltac:(eassumption) E4) as [X4 Y4]. auto. }
    apply obind_Ok in E as (u & Hd & E). unfold check in Hd. num_R.
    destruct (Reqb_spec (0 + va_dist ax + va_dist ay) 0) as [Hz|Hz]; cbn [negb] in Hd; [discriminate|].
    apply obind_Ok in E as (vel' & Hvs & E). inversion E; subst s'. apply vset_Ok in Hvs as [Hlt ->].
    cbn [set_f_vel f_vel] in Hv. rewrite list_lookup_insert in Hv by assumption. inversion Hv as [Hv']. clear Hv.
    destruct ax as [dx fx bx vx], ay as [dy fy by_ vy]. unfold acc_ok in HA. cbn [va_dist va_vel va_set] in *.
    assert (Hbnd : forall a b x, 0 < b -> lo * b <= a <= hi * b -> x = a / b -> lo <= x <= hi).
    { intros a b x Hb Hab ->. split.
      - apply (Rmult_le_reg_r b); [exact Hb|]. replace (a / b * b) with a by (field; lra). lra.
      - apply (Rmult_le_reg_r b); [exact Hb|]. replace (a / b * b) with a by (field; lra). lra. }
    apply (Hbnd (0 + dx * vx + dy * vy) (0 + dx + dy)); [| |reflexivity].
    - destruct HA as [[[_ ->]|(_ & ? & ?)] [[_ ->]|(_ & ? & ?)]]; lra.
    - destruct HA as [[[_ ->]|(_ & ? & ?)] [[_ ->]|(_ & ? & ?)]]; nra.
  Qed.

  Definition vel_in (a : list FStatus * list R * list R) : Prop :=
    forall k v, a.1.1 !! k = Some F_FROZEN -> a.2 !! k = Some v -> lo <= v <= hi.
  Lemma fstep_vel_in isVel a b : length a.1.1 = N -> fstep W H mesh isVel copy a b -> isVel = true -> vel_in a -> vel_in b.
  Proof.
    intros HL Hs Ev HV. inversion Hs as [a' b' Hu|st sd vel vel' i x Hst Hx Hmin Hv1 Hv2]; subst.
    - inversion Hu as [? ? ? i d Hst Hd|? ? ? i d Hst Hfn Hv Hin Hd|st sd vel i d Hst Hfn Hact Hd]; subst; [exact HV|exact HV|].
      intros k v Hk Hv. apply (HV k v); [|exact Hv]. cbn [fst snd] in *.
      destruct (Nat.eq_dec k i) as [->|Hne]; [|rewrite list_lookup_insert_ne in Hk by auto; exact Hk].
      rewrite list_lookup_insert in Hk by eauto using lookup_lt_Some. discriminate.
    - cbn [fst snd] in *. destruct (Hv2 eq_refl) as (s & s' & Ha & Hf & ->). unfold abs in Ha.
      destruct (finalise_shape mesh s s' i Hf) as (w & Es').
      assert (Hst_s : f_status s = <[i := F_FROZEN]> st) by congruence. assert (Hvel_s : f_vel s = vel) by congruence.
      pose proof (lookup_lt_Some _ _ _ Hst) as Hi.
      intros k v Hk Hv. cbn [fst snd] in *. destruct (Nat.eq_dec k i) as [->|Hne].
      + assert (Hlv : (i < length (f_vel s))%nat).
        { rewrite Es' in Hv. cbn [set_f_vel f_vel] in Hv. apply lookup_lt_Some in Hv. rewrite insert_length in Hv. exact Hv. }
        eapply (finalise_R s s' i v); [lia|exact Hlv| |exact Hf|exact Hv].
        intros k' v' Hne' Hk' Hv'. rewrite Hst_s, list_lookup_insert_ne in Hk' by auto. rewrite Hvel_s in Hv'. eapply HV; eauto.
      + rewrite list_lookup_insert_ne in Hk by auto. rewrite Es' in Hv. cbn [set_f_vel f_vel] in Hv.
        rewrite list_lookup_insert_ne, Hvel_s in Hv by auto. eapply HV; eauto.
  Qed.
  Lemma fsteps_vel_in a b : length a.1.1 = N -> rtc (fstep W H mesh true copy) a b -> vel_in a -> vel_in b.
  Proof.
    intros HL Hr. induction Hr as [|a b c Hs Hr IH]; [auto|]. intros HV. apply IH.
    - destruct a as [[? ?] ?], b as [[? ?] ?]. apply fstep_keep in Hs as (HL' & _). cbn [fst snd] in *. congruence.
    - eapply fstep_vel_in; eauto.
  Qed.
End velocity.

Lemma march_vel_range W H (mesh : Mesh R) t sd vel o' sd' vel' lo hi :
  topo W H mesh -> length sd = node_count W H -> length vel = node_count W H ->
  fmm_march_vel mesh (fmm_new mesh t) sd vel = Ok (o', sd', vel') ->
  (forall i v, on_front W H sd i -> vel !! i = Some v -> lo <= v <= hi) ->
  forall i v, vel' !! i = Some v ->
    (vel' !! i <> vel !! i \/ reachable W H (active mesh) sd i) -> lo <= v <= hi.
Proof.
  intros Ht Hl Hv Hm HR i v Hi Hne.
  pose proof (march_vel_safe W H mesh Ht (fmm_new mesh t) sd vel (fobj_new W H mesh Ht t) Hl Hv) as HM. rewrite Hm in HM. cbn [wp] in HM.
  destruct HM as (_ & FO & _ & _ & _ & _ & _ & st1 & sd1 & s & HF & Rr & -> & Est & C).
  destruct (fobj_new W H mesh Ht t) as [Lp Ls Lc Hp].
  pose proof (initialiseFrozen_spec W H mesh Ht sd Hl _ sd Ls Hl Hp) as HI. rewrite HF in HI. cbn [wp] in HI.
  destruct HI as (L1 & Ld1 & _ & HS & HD).
  assert (V0 : vel_in lo hi (st1, sd1, vel)).
  { intros k w Hk Hw. cbn [fst snd] in *. assert (Hkn : (k < node_count W H)%nat) by (apply lookup_lt_Some in Hk; lia).
    apply (HR k w); [|exact Hw]. apply (front_b W H mesh Ht sd Hl k Hkn).
    pose proof (HS k _ (fresh_none W H mesh Ht t k Hkn)) as Hs. rewrite Hk in Hs. cbn [is_frozen orb] in Hs.
    destruct (zero_b sd k || border_b mesh sd k); [reflexivity|discriminate]. }
  pose proof (fsteps_vel_in W H mesh Ht sd lo hi (st1, sd1, vel) _ L1 Rr V0) as V1.
  destruct (fsteps_keep W H mesh true sd _ _ Rr) as (K1 & _ & _ & _ & K5 & _ & K7). cbn [fst snd abs] in *.
  assert (HFr : forall k, reachable W H (active mesh) sd k -> f_status s !! k = Some F_FROZEN).
  { intros k Hk. induction Hk as [k Hk Hf|a k _ IH Hadj (n & Hn & Ha)].
    - apply K5. pose proof (HS k _ (fresh_none W H mesh Ht t k Hk)) as Hs. cbn [is_frozen orb] in Hs.
      apply (front_b W H mesh Ht sd Hl k Hk) in Hf. rewrite Hf in Hs. exact Hs.
    - apply adjacent_nb in Hadj. destruct Hadj as (Ha' & Hk' & j & Hj & ->).
      destruct (lookup_lt_is_Some_2 (f_status s) (nb W H a j)) as [x Hx]; [lia|].
      pose proof (fo_plain _ _ _ FO) as HP. rewrite Est in HP.
      pose proof (proj1 (Forall_lookup _ _) HP _ _ Hx) as [E|E]; [|congruence]. subst x.
      destruct (C a j Ha' Hj IH Hk' Hx) as [[]|[_ (n' & Hn' & Hna)]]. congruence. }
  destruct Hne as [Hne|Hre].
  - destruct (K7 i) as [E|(_ & E2)]; [contradiction|]. eapply (V1 i v); [exact E2|exact Hi].
  - eapply (V1 i v); [apply HFr; exact Hre|exact Hi].
Qed.

Lemma march_front_R W H (mesh : Mesh R) t sd o' sd' : topo W H mesh -> length sd = node_count W H ->
  fmm_march mesh (fmm_new mesh t) sd = Ok (o', sd') ->
  forall i c, sd !! i = Some c -> on_front W H sd i ->
    exists c', sd' !! i = Some c' /\ same_side c c' /\ Rabs c' < 1 /\ (c = 0 \/ contour_distance W H sd i (Rabs c')).
Proof.
  intros Ht Hl Hm i c Hc Hf. assert (Hi : (i < node_count W H)%nat) by (apply lookup_lt_Some in Hc; lia).
  destruct (march_front_values W H mesh Ht t sd o' sd' Hl Hm (fun _ => NumOrdR) i Hi) as [F1 F2].
  destruct (Req_dec c 0) as [->|Hne].
  - exists 0. assert (Hcc : on_contour sd i). { exists 0. split; [exact Hc|]. apply Reqb_true. reflexivity. }
    rewrite (F1 Hcc). split; [exact Hc|]. split; [split; [auto|split; auto]|]. rewrite Rabs_R0. split; [lra|left; reflexivity].
  - assert (Hnc : ~ on_contour sd i). { intros (c0 & Hc0 & E). apply Reqb_true in E. rewrite n0_R in E. congruence. }
    destruct Hf as [Hf|Hf]; [contradiction|].
    destruct (border_new_R W H mesh Ht sd Hl i c Hi Hc Hf) as (S & B & D).
    exists (border_new mesh sd i). split; [apply F2; [exact Hnc|right; exact Hf]|]. split; [exact S|]. split; [lra|right; exact D].
Qed.
