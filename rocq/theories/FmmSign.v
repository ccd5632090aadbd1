(** * FmmSign: where the march can lose the sign of a node (C14). *)

From Verif Require Import MeshProofs MeshTopo FmmModel FmmSpec FmmProofs FmmFacts FmmReal FmmQuad NumR.
From stdpp Require Import relations.
From Coq Require Import Psatz.
Local Open Scope R_scope.

(** The root on the wrong side of zero needs a target far below it. *)
Lemma root_sign a0 t0 a1 t1 z :
  (a0 = 0 \/ a0 = 1 /\ 0 <= t0 \/ a0 = 9 / 4 /\ - (z + 1) / 3 <= t0) ->
  (a1 = 0 \/ a1 = 1 /\ 0 <= t1 \/ a1 = 9 / 4 /\ - (z + 1) / 3 <= t1) ->
  0 <= z ->
  let a := a0 + a1 in let B := a0 * t0 + a1 * t1 in let C := a0 * t0 * t0 + a1 * t1 * t1 - 1 in
  let D := B * B - a * C in
  0 < D -> (B + R_sqrt.sqrt D) / a = - z -> False.
Proof.
  intros H0 H1 Hz a B C D HD Hx.
  assert (Ha : 0 < a).
  { assert (0 <= a) by (unfold a; lra). destruct (Rle_lt_dec a 0) as [Hle|]; [|assumption]. exfalso.
    assert (E0 : a0 = 0) by (unfold a in *; lra). assert (E1 : a1 = 0) by (unfold a in *; lra).
    revert HD. unfold D, B, C, a. rewrite E0, E1. lra. }
  assert (Hs : R_sqrt.sqrt D = - (a * z + B)).
  { apply (f_equal (fun q => q * a)) in Hx. unfold Rdiv in Hx. rewrite Rmult_assoc, Rinv_l, Rmult_1_r in Hx by lra. lra. }
  pose proof (sqrt_lt_R0 D HD) as Hpos. pose proof (sqrt_sqrt D (Rlt_le _ _ HD)) as Hsq.
  rewrite Hs in Hpos, Hsq.
  assert (Hone : a0 * ((t0 + z) * (t0 + z)) + a1 * ((t1 + z) * (t1 + z)) = 1).
  { assert (E : a * (a0 * ((t0 + z) * (t0 + z)) + a1 * ((t1 + z) * (t1 + z)) - 1) = 0); [|].
    - transitivity (- (a * z + B) * - (a * z + B) - D); [unfold D, B, C, a; ring|lra].
    - apply Rmult_integral in E as [E|E]; lra. }
  assert (Hneg : a0 * (t0 + z) + a1 * (t1 + z) < 0) by (unfold a, B in Hpos; lra).
  clear - H0 H1 Hz Hone Hneg.
  remember (t0 + z) as s0. remember (t1 + z) as s1.
  assert (K0 : a0 = 0 \/ a0 = 1 /\ 0 <= s0 \/ a0 = 9 / 4 /\ - (1 / 3) <= s0) by (destruct H0 as [|[[]|[]]]; [left|right; left|right; right]; lra).
  assert (K1 : a1 = 0 \/ a1 = 1 /\ 0 <= s1 \/ a1 = 9 / 4 /\ - (1 / 3) <= s1) by (destruct H1 as [|[[]|[]]]; [left|right; left|right; right]; lra).
  clear - K0 K1 Hone Hneg.
  destruct K0 as [->|[[-> A]|[-> A]]], K1 as [->|[[-> B]|[-> B]]]; nra.
Qed.

Section sign.
  Context (W H : nat) (mesh : Mesh R).
  Hypothesis Ht : topo W H mesh.
  Notation N := (node_count W H).
  Variable copy : list R.
  Hypothesis Hcopy : length copy = N.
  Hypothesis Hpos : forall i c, copy !! i = Some c -> 0 < c -> nepsilon < c.

  Definition kept (i : nat) (x : R) : Prop := forall c, copy !! i = Some c -> same_side c x.
  Definition jump (st : list FStatus) (sd : list R) (i : nat) (x : R) : Prop :=
    exists j y, (j < 4)%nat /\ (nb W H i j < N)%nat /\ st !! nb W H i j = Some F_FROZEN /\
      sd !! nb W H i j = Some y /\ Rabs x + 1 < Rabs y.
  Definition lost (st : list FStatus) (sd : list R) : Prop :=
    exists i x, (i < N)%nat /\ st !! i = Some F_FROZEN /\ sd !! i = Some x /\ jump st sd i x.
  Record SG (st : list FStatus) (sd : list R) : Prop := {
    sg_ls : length st = N;
    sg_ld : length sd = N;
    sg_front : forall k, (k < N)%nat -> on_front W H copy k -> st !! k = Some F_FROZEN;
    sg_ok : lost st sd \/ forall i x, sd !! i = Some x -> kept i x \/ jump st sd i x
  }.

  (** One dimension: the target is on the node's own side, up to a third of a frozen neighbour. *)
  Lemma coef_side (f : nat -> option R) e i a z : (e = 1 \/ e = -1) -> (a < 2)%nat ->
    (forall j x, (j < 4)%nat -> f (nb W H i j) = Some x -> 0 <= e * x /\ Rabs x <= z + 1) ->
    forall al t, coef (pairR W H f i a) = (al, t) ->
    al = 0 \/ al = 1 /\ 0 <= e * t \/ al = 9 / 4 /\ - (z + 1) / 3 <= e * t.
  Proof.
    intros He Ha Hf.
    assert (Habs : forall x, 0 <= e * x -> e * x = Rabs x).
    { intros x Hx. destruct He as [->| ->]; [rewrite Rabs_pos_eq; lra|].
      destruct (Rle_lt_dec 0 x); [rewrite Rabs_pos_eq by assumption; lra|rewrite Rabs_left by assumption; lra]. }
    assert (Hle : forall x, e * x <= Rabs x).
    { intros x. destruct He as [->| ->]; [pose proof (Rle_abs x); lra|]. pose proof (Rle_abs (- x)). rewrite Rabs_Ropp in *. lra. }
    (* what one direction leaves behind *)
    set (good := fun s : R * R => s = (M, M) \/
      (0 <= e * s.1 /\ (s.2 = M \/ exists l, 0 <= l <= z + 1 /\ Rabs s.2 <= l))).
    assert (Hd : forall j s, (j < 4)%nat -> good s -> good (dstep W H f i j s)).
    { intros j [d1 d2] Hj Hg. unfold dstep. destruct (f (nb W H i j)) as [x|] eqn:E1; [|exact Hg].
      destruct (Hf j x Hj E1) as [Hx Hx1]. cbn [nabs nltb nleb NumR].
      destruct (Rltb (Rabs x) (Rabs d1)); [|exact Hg].
      assert (Hold : forall d, d = d2 -> good (x, d)).
      { intros d ->. right. split; [exact Hx|]. destruct Hg as [Hg|[_ Hg]]; [left; cbn; congruence|exact Hg]. }
      destruct (f (nb W H (nb W H i j) j)) as [y|]; [|apply Hold; reflexivity].
      destruct (Rleb_spec (Rabs y) (Rabs x)) as [Hy|_]; [|apply Hold; reflexivity].
      right. split; [exact Hx|]. right. exists (Rabs x). cbn. pose proof (Rabs_pos x). lra. }
    intros al t Hc. assert (HG : good (pairR W H f i a)).
    { unfold pairR. apply Hd; [lia|]. apply Hd; [lia|]. left. reflexivity. }
    destruct (pairR W H f i a) as [d1 d2]. unfold coef in Hc.
    destruct HG as [HG|[HG1 HG2]].
    - inversion HG; subst. destruct (Rltb_spec M M); [lra|]. inversion Hc; subst. auto.
    - cbn [fst snd] in *. destruct (Rltb_spec d2 M) as [Hlt|Hge].
      + inversion Hc; subst. right. right. split; [reflexivity|].
        destruct HG2 as [->|(l & Hl & Hd2)]; [lra|]. pose proof (Hle d2). lra.
      + destruct (Rltb_spec d1 M); inversion Hc; subst; auto.
  Qed.

  Lemma off_front_side i k j c v : (i < N)%nat -> (j < 4)%nat -> ~ on_front W H copy i -> nb W H i j = k -> (k < N)%nat ->
    copy !! i = Some c -> copy !! k = Some v -> c <> 0 /\ 0 <= c * v.
  Proof.
    intros Hi Hj Hnf Hk Hkn Hc Hv. split.
    - intros ->. apply Hnf. left. exists 0. split; [exact Hc|]. apply Reqb_true. reflexivity.
    - destruct (Rle_lt_dec 0 (c * v)) as [|Hlt]; [assumption|]. exfalso. apply Hnf. right. exists k. split.
      + apply adjacent_nb. split; [exact Hi|]. split; [exact Hkn|]. exists j. auto.
      + exists c, v. split; [exact Hc|]. split; [exact Hv|]. apply Rltb_true. exact Hlt.
  Qed.

  Lemma update_sign st sd i d : SG st sd -> ~ lost st sd -> (i < N)%nat -> st !! i <> Some F_FROZEN ->
    updateNode mesh copy st sd i = Ok d -> kept i d \/ jump st sd i d.
  Proof.
    intros [Ls Ld Hfr Hok] Hnl Hi Hst Hup. destruct Hok as [Hok|Hok]; [contradiction|].
    assert (Hnf : ~ on_front W H copy i) by (intros X; apply Hst, Hfr; assumption).
    destruct (updateNode_pure W H mesh Ht copy Hcopy st sd i Ls Ld Hi) as (d' & Hd' & Hupd).
    rewrite Hd' in Hup. injection Hup as <-. clear Hd'.
    destruct (lookup_lt_is_Some_2 copy i) as [c Hc]; [lia|].
    pose proof (upd_R W H copy (fz st sd) (sd !! i) i c Hc) as HU.
    destruct (coef (pairR W H (fz st sd) i 0)) as [a0 t0] eqn:C0.
    destruct (coef (pairR W H (fz st sd) i 1)) as [a1 t1] eqn:C1. cbv zeta in HU. destruct HU as [HU1 HU2].
    set (D := (a0 * t0 + a1 * t1) * (a0 * t0 + a1 * t1) - (a0 + a1) * (a0 * t0 * t0 + a1 * t1 * t1 - 1)) in *.
    destruct (Rlt_le_dec 0 D) as [HD|HD].
    2:{ rewrite (HU2 HD) in Hupd. apply Hok. exact Hupd. }
    pose proof (HU1 HD) as Hx. rewrite Hupd in Hx. apply (inj Some) in Hx.
    assert (Hc0 : c <> 0).
    { intros ->. apply Hnf. left. exists 0. split; [exact Hc|]. apply Reqb_true. reflexivity. }
    (* the side of the node *)
    assert (Hside : exists e, (e = 1 \/ e = -1) /\ 0 < e * c /\
      e * d' = (a0 * (e * t0) + a1 * (e * t1) + R_sqrt.sqrt D) / (a0 + a1)).
    { destruct (Rtotal_order c 0) as [Hlt|[?|Hgt]]; [|contradiction|].
      - exists (-1). split; [auto|]. split; [lra|]. revert Hx. destruct (Rltb_spec nepsilon c) as [HE|_]; [pose proof eps_small; lra|].
        intros ->. unfold Rdiv. ring.
      - exists 1. split; [auto|]. split; [lra|]. revert Hx. destruct (Rltb_spec nepsilon c) as [_|HE]; [|pose proof (Hpos i c Hc Hgt); lra].
        intros ->. unfold Rdiv. ring. }
    destruct Hside as (e & He & Hec & Hed).
    destruct (Rlt_le_dec 0 (e * d')) as [Hgood|Hbad].
    { left. intros c' Hc'. assert (c' = c) by congruence. subst c'. unfold same_side. destruct He as [->| ->]; repeat split; intros; lra. }
    (* all frozen neighbours are on the right side *)
    assert (Hside1 : forall j x, (j < 4)%nat -> fz st sd (nb W H i j) = Some x -> (nb W H i j < N)%nat /\ st !! nb W H i j = Some F_FROZEN /\
       sd !! nb W H i j = Some x /\ 0 <= e * x).
    { intros j x Hj Hfz. unfold fz in Hfz. destruct (st !! nb W H i j) as [[]|] eqn:E; try discriminate.
      assert (Hb : (nb W H i j < N)%nat) by (apply lookup_lt_Some in E; lia).
      split; [exact Hb|]. split; [reflexivity|]. split; [exact Hfz|].
      destruct (lookup_lt_is_Some_2 copy (nb W H i j)) as [v Hv]; [lia|].
      destruct (off_front_side i _ j c v Hi Hj Hnf eq_refl Hb Hc Hv) as [_ Hcv].
      destruct (Hok _ _ Hfz) as [Hk|Hjmp]; [|exfalso; apply Hnl; exists (nb W H i j), x; auto].
      destruct (Hk v Hv) as (S1 & S2 & S3).
      destruct (Rtotal_order v 0) as [Hv0|[Hv0|Hv0]]; [specialize (S2 Hv0)|specialize (S3 Hv0); rewrite S3; lra|specialize (S1 Hv0)];
        destruct He as [->| ->]; nra. }
    assert (Hz : Rabs d' = - (e * d')).
    { destruct He as [->| ->]; [rewrite Rabs_left1 by lra; lra|rewrite Rabs_pos_eq by lra; lra]. }
    (* either a frozen neighbour is far away or there is a contradiction *)
    assert (Hdec : (exists j, (j < 4)%nat /\ exists x, fz st sd (nb W H i j) = Some x /\ Rabs d' + 1 < Rabs x) \/
      ~ exists j, (j < 4)%nat /\ exists x, fz st sd (nb W H i j) = Some x /\ Rabs d' + 1 < Rabs x).
    { generalize 4%nat. intros n. induction n as [|n [(j & Hj & IH)|IH]].
      - right. intros (j & Hj & _). lia.
      - left. exists j. split; [lia|exact IH].
      - assert (Hn : (exists x, fz st sd (nb W H i n) = Some x /\ Rabs d' + 1 < Rabs x) \/ ~ exists x, fz st sd (nb W H i n) = Some x /\ Rabs d' + 1 < Rabs x).
        { destruct (fz st sd (nb W H i n)) as [x|]; [|right; intros (x & E & _); discriminate].
          destruct (Rlt_le_dec (Rabs d' + 1) (Rabs x)); [left; eauto|right; intros (y & E & Hy); injection E as <-; lra]. }
        destruct Hn as [Hn|Hn]; [left; exists n; split; [lia|exact Hn]|]. right. intros (j & Hj & Hx').
        destruct (Nat.eq_dec j n) as [->|]; [contradiction|]. apply IH. exists j. split; [lia|exact Hx']. }
    destruct Hdec as [(j & Hj & x & Hfz & Hfar)|Hnone].
    { destruct (Hside1 j x Hj Hfz) as (A & B & C & _). right. exists j, x. auto. }
    exfalso.
    assert (Hall : forall j x, (j < 4)%nat -> fz st sd (nb W H i j) = Some x -> 0 <= e * x /\ Rabs x <= - (e * d') + 1).
    { intros j x Hj Hfz. split; [apply (Hside1 j x Hj Hfz)|]. destruct (Rle_lt_dec (Rabs x) (- (e * d') + 1)) as [|Hlt]; [assumption|].
      exfalso. apply Hnone. exists j. split; [exact Hj|]. exists x. split; [exact Hfz|]. lra. }
    pose proof (coef_side _ e i 0 _ He ltac:(lia) Hall _ _ C0) as K0.
    pose proof (coef_side _ e i 1 _ He ltac:(lia) Hall _ _ C1) as K1.
    apply (root_sign a0 (e * t0) a1 (e * t1) (- (e * d')) K0 K1 ltac:(lra)).
    - replace (_ - _) with D; [exact HD|]. unfold D. destruct He as [->| ->]; ring.
    - replace ((a0 * (e * t0) + a1 * (e * t1)) * (a0 * (e * t0) + a1 * (e * t1)) - (a0 + a1) * (a0 * (e * t0) * (e * t0) + a1 * (e * t1) * (e * t1) - 1)) with D.
      + rewrite <- Hed. lra.
      + unfold D. destruct He as [->| ->]; ring.
  Qed.

  Lemma jump_mono st sd st' sd' i x : (forall k, st !! k = Some F_FROZEN -> st' !! k = Some F_FROZEN /\ sd' !! k = sd !! k) ->
    jump st sd i x -> jump st' sd' i x.
  Proof.
    intros HM (j & y & Hj & Hb & Hf & Hy & Hlt). destruct (HM _ Hf) as [Hf' Hd]. exists j, y. rewrite Hd. auto.
  Qed.
  Lemma lost_mono st sd st' sd' : (forall k, st !! k = Some F_FROZEN -> st' !! k = Some F_FROZEN /\ sd' !! k = sd !! k) ->
    lost st sd -> lost st' sd'.
  Proof.
    intros HM (i & x & Hi & Hf & Hx & Hj). destruct (HM _ Hf) as [Hf' Hd]. exists i, x. rewrite Hd.
    repeat (split; [assumption|]). eapply jump_mono; eauto.
  Qed.

  Lemma SG_step st sd vel st' sd' vel' : SG st sd -> fstep W H mesh false copy (st, sd, vel) (st', sd', vel') -> SG st' sd'.
  Proof.
    intros HS Hs. pose proof HS as [Ls Ld Hfr Hok].
    destruct (fstep_keep W H mesh false copy _ _ _ _ _ _ Hs) as (K1 & K2 & _ & _ & K5 & K6 & _).
    assert (HM : forall k, st !! k = Some F_FROZEN -> st' !! k = Some F_FROZEN /\ sd' !! k = sd !! k).
    { intros k Hk. destruct (K5 k Hk) as (A & B & _). auto. }
    constructor; [congruence|congruence|intros k Hk Hf; apply HM; auto|].
    destruct (Classical_Prop.classic (lost st sd)) as [Hl|Hnl]; [left; eapply lost_mono; eauto|].
    destruct Hok as [Hl|Hok]; [contradiction|]. right.
    assert (HU : forall i d, (i < N)%nat -> st !! i <> Some F_FROZEN -> updateNode mesh copy st sd i = Ok d -> sd' = <[i := d]> sd ->
      forall k x, sd' !! k = Some x -> kept k x \/ jump st' sd' k x).
    { intros i d Hi Hn Hd -> k x Hx. destruct (Nat.eq_dec k i) as [->|Hne].
      - rewrite list_lookup_insert in Hx by lia. injection Hx as <-.
        destruct (update_sign st sd i d HS Hnl Hi Hn Hd) as [A|A]; [left; exact A|right; eapply jump_mono; eauto].
      - rewrite list_lookup_insert_ne in Hx by auto. destruct (Hok k x Hx) as [A|A]; [left; exact A|right; eapply jump_mono; eauto]. }
    inversion Hs as [a b Hu|? ? ? ? i x Hst Hx Hmin Hv1 Hv2]; subst.
    - inversion Hu as [? ? ? i d Hst Hd|? ? ? i d Hst Hfn Hv Hin Hd|? ? ? i d Hst Hfn Hact Hd]; subst; [|discriminate|];
        apply (HU i d); auto; try congruence; apply lookup_lt_Some in Hst; lia.
    - intros k y Hy. destruct (Hok k y Hy) as [A|A]; [left; exact A|right; eapply jump_mono; eauto].
  Qed.
  Lemma SG_steps (a b : flat (T := R)) : rtc (fstep W H mesh false copy) a b -> SG a.1.1 a.1.2 -> SG b.1.1 b.1.2.
  Proof.
    induction 1 as [|a b c Hs _ IH]; [auto|]. intros HL. apply IH. destruct a as [[sta sda] va], b as [[stb sdb] vb]. cbn [fst snd] in *.
    eapply SG_step; eauto.
  Qed.

  Lemma march_sign t o' sd' : fmm_march mesh (fmm_new mesh t) copy = Ok (o', sd') ->
    (forall i k a b, adjacent W H i k -> sd' !! i = Some a -> sd' !! k = Some b -> Rabs b <= Rabs a + 1) ->
    forall i c c', copy !! i = Some c -> sd' !! i = Some c' -> same_side c c'.
  Proof.
    intros Hm Hsm.
    pose proof (march_safe W H mesh Ht (fmm_new mesh t) copy (fobj_new W H mesh Ht t) Hcopy (fun _ => NumOrdR)) as HM.
    rewrite Hm in HM. cbn [wp] in HM. destruct HM as (_ & _ & Lsd & Hall & st1 & sd1 & s & HF & R & ->).
    destruct (fobj_new W H mesh Ht t) as [Lp Ls Lc Hp].
    pose proof (initialiseFrozen_spec W H mesh Ht copy Hcopy _ copy Ls Hcopy Hp) as HI. rewrite HF in HI. cbn [wp] in HI.
    destruct HI as (L1 & Ld1 & _ & HS & HD).
    assert (S0 : SG st1 sd1).
    { constructor; [exact L1|exact Ld1| |].
      - intros k Hk Hf. rewrite (HS k _ (fresh_none W H mesh Ht t k Hk)). cbn [is_frozen orb].
        apply (front_b W H mesh Ht copy Hcopy k Hk) in Hf. cbn in Hf |- *. rewrite Hf. reflexivity.
      - right. intros k x Hx. left. intros c Hc. assert (Hk : (k < N)%nat) by (apply lookup_lt_Some in Hc; lia).
        rewrite (HD k _ (fresh_none W H mesh Ht t k Hk)) in Hx. cbn [is_none andb] in Hx.
        pose proof (border_b_front W H mesh Ht copy Hcopy k Hk) as HB. pose proof (zero_b_spec copy k) as HZ.
        destruct (zero_b copy k); cbn [negb andb] in Hx.
        + assert (x = c) by congruence. subst x. unfold same_side. auto.
        + destruct (border_b mesh copy k).
          * injection Hx as <-. apply (border_new_R W H mesh Ht copy Hcopy k c Hk Hc). apply HB. reflexivity.
          * assert (x = c) by congruence. subst x. unfold same_side. auto. }
    pose proof (SG_steps _ _ R S0) as SE. cbn [abs fst snd] in SE. destruct SE as [E1 E2 _ E4].
    assert (HJ : forall i x, f_sd s !! i = Some x -> ~ jump (f_status s) (f_sd s) i x).
    { intros i x Hx (j & y & Hj & Hb & _ & Hy & Hlt). assert (Hi : (i < N)%nat) by (apply lookup_lt_Some in Hx; lia).
      assert (HA : adjacent W H i (nb W H i j)) by (apply adjacent_nb; eauto).
      pose proof (Hsm _ _ _ _ HA Hx Hy). lra. }
    destruct E4 as [(i & x & _ & _ & Hx & Hj)|E4]; [exfalso; exact (HJ i x Hx Hj)|].
    intros i c c' Hc Hc'. destruct (E4 i c' Hc') as [Hk|Hj]; [exact (Hk c Hc)|exfalso; exact (HJ i c' Hc' Hj)].
  Qed.
End sign.
