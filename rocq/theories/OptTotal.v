(** * OptTotal: solve comes to an end without undefined behaviour when all constraints are kept, and when all are removed. *)

From Coq Require Import Reals Lra.
From Verif Require Import Num NumR LevelSetModel OptModel OptSpec OptFrame OptReal OptGrad OptSolve OptConstr OptRounds.
Open Scope R_scope.

Notation tot o Q := (wp False False o Q).
Lemma tot_post {A} (o : outcome A) (P Q : A -> Prop) : tot o P -> post o Q -> tot o (fun a => P a /\ Q a).
Proof. destruct o; cbn; auto. Qed.
Lemma tot_only {A} (o : outcome A) (P Q : A -> Prop) : tot o P -> post o Q -> tot o Q.
Proof. destruct o; cbn; auto. Qed.
Lemma tot_impl {A} (o : outcome A) (P Q : A -> Prop) : tot o P -> (forall a, P a -> Q a) -> tot o Q.
Proof. apply wp_impl. Qed.
Lemma tot_get {A} (l : list A) i (Q : A -> Prop) : (i < length l)%nat -> (forall a, l !! i = Some a -> Q a) -> tot (vget l i) Q.
Proof. apply wp_vget_lt. Qed.

Lemma oupdate_tot {A B} (f : A -> B -> outcome B) l1 : forall l2, (length l1 <= length l2)%nat -> (forall a b, a ∈ l1 -> tot (f a b) (fun _ => True)) ->
  tot (oupdate f l1 l2) (fun _ => True).
Proof.
  induction l1 as [|a l1 IH]; intros l2 L Hf; cbn [oupdate]; [exact I|]. destruct l2 as [|b l2]; cbn in L; [lia|].
  apply wp_bind. eapply wp_impl; [apply Hf; left|]. intros c _. apply wp_bind. eapply wp_impl; [apply IH; [lia|]|].
  - intros x y Hx. apply Hf. right. exact Hx.
  - intros r _. exact I.
Qed.
Lemma ofold_tot {S A} (J : S -> Prop) (f : S -> A -> outcome S) l : (forall s a, a ∈ l -> J s -> tot (f s a) J) -> forall s, J s -> tot (ofold f l s) J.
Proof.
  induction l as [|a l IH]; intros Hf s Hs; cbn [ofold]; [exact Hs|]. apply wp_bind. eapply wp_impl; [apply Hf; [left|exact Hs]|].
  intros s' Hs'. apply IH; [|exact Hs']. intros s2 a2 H2. apply Hf. right. exact H2.
Qed.
(** A loop over the points that counts them. *)
Lemma ofold_count {S A} (J : S * nat -> Prop) (f : S * nat -> A -> outcome (S * nat)) l : forall s i,
  (forall k a s, l !! k = Some a -> tot (f (s, i + k)%nat a) (fun r => snd r = Datatypes.S (i + k))) -> tot (ofold f l (s, i)) (fun _ => True).
Proof.
  induction l as [|a l IH]; intros s i Hf; cbn [ofold]; [exact I|]. apply wp_bind. eapply wp_impl.
  - pose proof (Hf 0%nat a s eq_refl) as H0. rewrite Nat.add_0_r in H0. exact H0.
  - intros [s' i'] E. cbn in E. subst i'. apply IH. intros k b s2 Hk. replace (Datatypes.S i + k)%nat with (i + Datatypes.S k)%nat by lia. apply Hf. exact Hk.
Qed.

Section total.
  Variable o0 : Opt R.
  Hypothesis Hsens : has_sens (op_n0 o0 + 1) (op_points o0).

  (** All constraints are left, or none. *)
  Variable left : nat.
  Hypothesis Hleft : left = op_n0 o0 \/ left = 0%nat.
  Definition whole (o : Opt R) : Prop := good o0 o /\ op_n o = left.
  Lemma whole_index o j : whole o -> (j < op_n o + 1)%nat -> op_index o !! j = Some j.
  Proof.
    intros [G E] Hj. destruct Hleft as [X|X]; [rewrite (g_all _ _ G) by lia; rewrite lookup_seq_lt by exact Hj; reflexivity|].
    assert (j = 0%nat) as -> by lia. apply G.
  Qed.
  Lemma whole_set_disp o d : good o0 (set_disp d o) -> whole o -> whole (set_disp d o).
  Proof. intros G [_ E]. split; [exact G|exact E]. Qed.

  Ltac get := apply wp_bind, tot_get; [try lia|].
  Lemma sens_get o p k (Q : R -> Prop) : whole o -> p ∈ op_points o -> bp_fixed p = false -> (k < op_n o + 1)%nat -> (forall s, Q s) -> tot (vget (bp_sens p) k) Q.
  Proof.
    intros [G E] Hp Hf Hk HQ. apply tot_get; [|intros a _; apply HQ]. rewrite (g_points _ _ G) in Hp. specialize (Hsens p Hp Hf). pose proof (g_n _ _ G). lia.
  Qed.

  Lemma displacements_tot o la : whole o -> length la = (op_n o + 1)%nat -> tot (computeDisplacements la o) (fun o' => whole o' /\ o' = set_disp (op_disp o') o).
  Proof.
    intros W La. pose proof W as [G E]. assert (T : tot (computeDisplacements la o) (fun _ => True)).
    { unfold computeDisplacements. apply wp_bind. eapply wp_impl; [apply oupdate_tot|intros; exact I].
      - rewrite (g_disp _ _ G), (g_points _ _ G). lia.
      - intros p b Hp. unfold disp_point. destruct (bp_fixed p) eqn:Hf; [exact I|].
        apply wp_bind, tot_get; [rewrite (g_scale _ _ G); lia|]. intros c0 _. apply wp_bind, tot_get; [lia|]. intros l0 _.
        apply wp_bind, (sens_get o); auto; [lia|]. intros s0. apply wp_bind.
        eapply wp_impl; [apply (wp_for_from _ _ (fun _ _ => True)); [exact I|]|intros; exact I].
        intros j d Hj _. apply wp_bind, tot_get; [rewrite (g_index _ _ G); lia|]. intros k Hk. rewrite whole_index in Hk by (auto; lia). injection Hk as <-.
        apply wp_bind, tot_get; [rewrite (g_scale _ _ G); lia|]. intros c _. apply wp_bind, tot_get; [lia|]. intros l _.
        apply wp_bind, (sens_get o); auto; [lia|]. intros s. exact I. }
    eapply tot_only; [exact T|]. eapply post_impl; [apply displacements_good, G|]. intros o' (G' & E' & _). split; [|exact E'].
    split; [exact G'|]. rewrite E'. exact E.
  Qed.

  Lemma sum_tot {S} o (f : S * nat -> BoundaryPoint R -> outcome (S * nat)) s : whole o ->
    (forall k p s, op_points o !! k = Some p -> bp_fixed p = true -> tot (f (s, k) p) (fun r => snd r = Datatypes.S k)) ->
    (forall k p s, op_points o !! k = Some p -> bp_fixed p = false -> (k < length (op_disp o))%nat -> tot (f (s, k) p) (fun r => snd r = Datatypes.S k)) ->
    tot (ofold f (op_points o) (s, 0%nat)) (fun _ => True).
  Proof.
    intros [G E] H1 H2. apply (ofold_count (fun _ => True)). intros k p s' Hp. cbn [Nat.add]. destruct (bp_fixed p) eqn:Hf; [apply H1; assumption|].
    apply H2; auto. rewrite (g_disp _ _ G), <- (g_points _ _ G). eapply lookup_lt_Some, Hp.
  Qed.

  Lemma function_tot o ix : whole o -> (ix < op_n o + 1)%nat -> length (op_target o) = op_n o -> tot (computeFunction o ix) (fun _ => True).
  Proof.
    intros W Hix Lt. pose proof W as [G E]. unfold computeFunction. apply wp_bind, tot_get; [rewrite (g_index _ _ G); lia|]. intros j Hj.
    rewrite whole_index in Hj by auto. injection Hj as <-. apply wp_bind, tot_get; [rewrite (g_scale _ _ G); lia|]. intros c _. apply wp_bind.
    eapply wp_impl; [apply (sum_tot o); [exact W|..]|].
    - intros k p s Hp Hf. unfold fun_step. rewrite Hf. reflexivity.
    - intros k p s Hp Hf Hk. unfold fun_step. rewrite Hf. apply wp_bind, tot_get; [exact Hk|]. intros d _.
      apply wp_bind, (sens_get o); auto; [eapply elem_of_list_lookup_2, Hp|]. intros a. reflexivity.
    - intros [f i] _. destruct (Nat.eqb_spec ix 0); [exact I|]. apply wp_bind, tot_get; [lia|]. intros t _. exact I.
  Qed.

  Lemma gradients_tot o gr ix : whole o -> (ix < op_n o + 1)%nat -> length gr = (op_n o + 1)%nat -> tot (computeGradients o gr ix) (fun g => length g = (op_n o + 1)%nat).
  Proof.
    intros W Hix Lg. pose proof W as [G E]. unfold computeGradients. apply wp_bind.
    apply (wp_for _ _ (fun _ g => length g = (op_n o + 1)%nat)); [exact Lg|..].
    - intros k g Hk L. apply wp_vset; [lia|]. rewrite insert_length. exact L.
    - intros g L. apply (ofold_tot (fun g => length g = (op_n o + 1)%nat)); [|exact L]. clear g L. intros g p Hp L. unfold grad_point.
      destruct (bp_fixed p) eqn:Hf; [exact L|]. apply (wp_for _ _ (fun _ g => length g = (op_n o + 1)%nat)); [exact L|..|auto].
      clear g L. intros j g Hj L. unfold grad_entry. apply wp_bind, tot_get; [rewrite (g_index _ _ G); lia|]. intros k Hk.
      rewrite whole_index in Hk by auto. injection Hk as <-.
      apply wp_bind, tot_get; [rewrite (g_scale _ _ G); lia|]. intros ci _. apply wp_bind, tot_get; [rewrite (g_scale _ _ G); lia|]. intros cj _.
      apply wp_bind, tot_get; [rewrite (g_index _ _ G); lia|]. intros ki Hki. rewrite whole_index in Hki by auto. injection Hki as <-.
      apply wp_bind, (sens_get o); auto. intros a. apply wp_bind, (sens_get o); auto. intros b. apply wp_bind, tot_get; [lia|]. intros v _.
      apply wp_vset; [lia|]. rewrite insert_length. exact L.
  Qed.

  Lemma callback_tot o la g ix : whole o -> length la = (op_n o + 1)%nat -> (ix < op_n o + 1)%nat -> length (op_target o) = op_n o -> length (op_grads o) = (op_n o + 1)%nat ->
    tot (opt_callback o la g ix) (fun r => let '(o', _, _) := r in whole o' /\ o' = set_disp (op_disp o') o).
  Proof.
    intros W La Hix Lt Lg. unfold opt_callback. apply wp_bind. eapply wp_impl; [apply displacements_tot; assumption|]. intros o' [W' E'].
    assert (En : op_n o' = op_n o) by (rewrite E'; reflexivity).
    apply wp_bind. apply (wp_impl _ _ _ (fun _ => True)).
    { destruct g; [|exact I]. apply tot_get; [rewrite E'; cbn; lia|]. intros; exact I. }
    intros gr _. apply wp_bind. eapply wp_impl; [apply function_tot; [exact W'|lia|]|].
    - rewrite En, E'. exact Lt.
    - intros v _. split; assumption.
  Qed.

  Lemma max_sens_tot o k init : whole o -> (k < op_n o + 1)%nat -> tot (max_sens (op_points o) k init) (fun _ => True).
  Proof.
    intros W Hk. unfold max_sens. apply (ofold_tot (fun _ => True)); [|exact I]. intros m p Hp _. destruct (bp_fixed p) eqn:Hf; [exact I|].
    apply wp_bind, (sens_get o); auto. intros s. exact I.
  Qed.

  Lemma scale_tot o : whole o -> tot (computeScaleFactors o) (fun o' => whole o' /\ o' = set_scale (op_scale o') o).
  Proof.
    intros W. pose proof W as [G E]. assert (T : tot (computeScaleFactors o) (fun _ => True)).
    { unfold computeScaleFactors. apply wp_bind. apply (wp_for _ _ (fun _ o' => whole o')); [exact W|..].
      - intros k o' Hk [G' E']. unfold scale_sens. apply wp_bind. eapply wp_impl; [apply max_sens_tot; [split; assumption|lia]|]. intros m _.
        apply wp_bind, wp_vset; [rewrite (g_scale _ _ G'); lia|]. split; [|exact E']. apply good_scale; [exact G'|]. rewrite insert_length. apply G'.
      - intros o1 [G1 E1]. apply wp_bind. apply (wp_for _ _ (fun _ s => whole (fst s) /\ length (snd s) = (left + 1)%nat)).
        + cbn. split; [split; assumption|]. rewrite replicate_length. lia.
        + intros k [o' gr] Hk [[G' E'] L]. cbn [fst snd] in *. unfold scale_grad. apply wp_bind.
          eapply wp_impl; [apply gradients_tot; [split; assumption|lia|lia]|]. intros g Lg. cbn beta in Lg.
          apply wp_bind, tot_get; [lia|]. intros gi _. apply wp_bind, tot_get; [rewrite (g_scale _ _ G'); lia|]. intros ci _.
          apply wp_bind, wp_vset; [rewrite (g_scale _ _ G'); lia|]. cbn. split; [|lia]. split; [|exact E']. apply good_scale; [exact G'|]. rewrite insert_length. apply G'.
        + intros [o' gr] _. exact I. }
    eapply tot_only; [exact T|]. eapply post_impl; [apply scale_good, G|]. intros o' [G' E']. split; [|exact E']. split; [exact G'|]. rewrite E'. exact E.
  Qed.

  (** Bringing the multipliers into range. *)
  Definition out_low (lo l : R) : bool := Rltb l lo.
  Definition out_high (hi l : R) : bool := Rltb hi l.
  Lemma shrink_tot out N : forall l fuel, out (l * (9 / 10) ^ N) = false -> (N <= fuel)%nat -> tot (shrink fuel out l) (fun r => exists j, r = l * (9 / 10) ^ j).
  Proof using.
    clear Hleft.
    induction N as [|N IH]; intros l fuel Hout Hf.
    - rewrite pow_O, Rmult_1_r in Hout. destruct fuel; cbn [shrink]; rewrite Hout; exists 0%nat; cbn; lra.
    - destruct fuel as [|fuel]; [lia|]. cbn [shrink]. destruct (out l) eqn:Ho; [|exists 0%nat; cbn; lra].
      change (l * nlit 9 10)%num with (l * (9 / 10)). eapply wp_impl; [apply IH; [|lia]|].
      + rewrite <- Hout. f_equal. rewrite <- tech_pow_Rmult. ring.
      + intros r [j ->]. exists (S j). rewrite <- tech_pow_Rmult. ring.
  Qed.
  Lemma power_small x e : 0 < e -> exists N, forall j l, Rabs l <= x -> (N <= j)%nat -> Rabs (l * (9 / 10) ^ j) <= e.
  Proof.
    intros He. destruct (Rle_dec x 0) as [Hx|Hx].
    - exists 0%nat. intros j l Hl _. pose proof (Rabs_pos l). assert (Rabs l = 0) by lra. rewrite Rabs_mult, H0, Rmult_0_l. lra.
    - destruct (pow_lt_1_zero (9 / 10)) with (y := e / x) as [N HN]; [rewrite Rabs_right by lra; lra|apply Rdiv_lt_0_compat; lra|].
      exists N. intros j l Hl Hj. specialize (HN j Hj). rewrite Rabs_mult. pose proof (Rabs_pos l). pose proof (Rabs_pos ((9 / 10) ^ j)).
      eapply Rle_trans; [apply Rmult_le_compat; [assumption|assumption|exact Hl|apply Rlt_le, HN]|]. apply Req_le. field. lra.
  Qed.
  Lemma shrinks_tot lo hi l : lo < 0 -> 0 < hi -> exists F, forall fuel, (F <= fuel)%nat ->
    tot (let! l := shrink fuel (fun l => Rltb l lo) l in shrink fuel (fun l => Rltb hi l) l) (fun _ => True).
  Proof.
    intros Hlo Hhi. destruct (power_small (Rabs l) (Rmin (- lo) hi)) as [N HN]; [apply Rmin_glb_lt; lra|]. exists N. intros fuel Hf.
    pose proof (Rmin_l (- lo) hi). pose proof (Rmin_r (- lo) hi). apply wp_bind.
    eapply wp_impl; [apply (shrink_tot _ N); [|exact Hf]|].
    - cbn beta. apply Rltb_false. specialize (HN N l (Rle_refl _) (le_n _)). apply abs_le in HN. lra.
    - intros r [j ->]. eapply wp_impl; [apply (shrink_tot _ N); [|exact Hf]|intros; exact I]. cbn beta. apply Rltb_false.
      assert (K : Rabs (l * (9 / 10) ^ j) <= Rabs l).
      { rewrite Rabs_mult, (Rabs_right ((9 / 10) ^ j)) by (apply Rle_ge, pow_le; lra). rewrite <- (Rmult_1_r (Rabs l)) at 2. apply Rmult_le_compat_l; [apply Rabs_pos|].
        rewrite <- (pow1 j). apply pow_incr. lra. }
      specialize (HN N _ K (le_n _)). apply abs_le in HN. lra.
  Qed.
  Lemma common_fuel n (P : nat -> nat -> Prop) : (forall i, (i < n)%nat -> exists F, forall f, (F <= f)%nat -> P i f) ->
    exists F, forall i f, (i < n)%nat -> (F <= f)%nat -> P i f.
  Proof.
    induction n as [|n IH]; intros H1; [exists 0%nat; intros i f Hi; lia|].
    destruct (IH (fun i Hi => H1 i (Nat.lt_lt_succ_r _ _ Hi))) as [F HF]. destruct (H1 n ltac:(lia)) as [F' HF'].
    exists (F + F')%nat. intros i f Hi Hf. destruct (decide (i = n)) as [->|]; [apply HF'|apply HF]; lia.
  Qed.

  Lemma limits_tot o : whole o -> 0 < op_limit o -> (forall k, (k < op_n o + 1)%nat -> 0 < nth k (op_scale o) 0) ->
    length (op_neg o) = (op_n o + 1)%nat -> length (op_pos o) = (op_n o + 1)%nat ->
    exists F, forall fuel, (F <= fuel)%nat -> tot (computeLambdaLimits fuel o) (fun _ => True).
  Proof.
    intros W Hl P Ln Lp. pose proof W as [G E].
    set (m := fun k => Rmax (/ 2 ^ 1022) (largest k (op_points o))).
    assert (Mp : forall k, 0 < m k) by (intros k; eapply Rlt_le_trans; [apply tiny_pos|apply Rmax_l]).
    destruct (common_fuel (op_n o + 1) (fun i fuel =>
      tot (let! l := shrink fuel (fun l => Rltb l (- op_limit o / m i / nth i (op_scale o) 0)) (nth i (op_lambdas o) 0) in
           shrink fuel (fun l => Rltb (op_limit o / m i / nth i (op_scale o) 0) l) l) (fun _ => True))) as [F HF].
    { intros i Hi. specialize (P i Hi). specialize (Mp i). apply shrinks_tot.
      - apply Ropp_lt_cancel. rewrite Ropp_0. replace (- (- op_limit o / m i / nth i (op_scale o) 0)) with (op_limit o / m i / nth i (op_scale o) 0) by (field; lra).
        apply Rdiv_lt_0_compat; [apply Rdiv_lt_0_compat; assumption|exact P].
      - apply Rdiv_lt_0_compat; [apply Rdiv_lt_0_compat; assumption|exact P]. }
    exists F. intros fuel Hf. unfold computeLambdaLimits.
    apply (wp_for _ _ (fun k o' => whole o' /\ o' = set_limits (op_neg o') (op_pos o') (op_lambdas o') o /\ length (op_neg o') = (op_n o + 1)%nat /\ length (op_pos o') = (op_n o + 1)%nat /\
      forall i, (k <= i)%nat -> nth i (op_lambdas o') 0 = nth i (op_lambdas o) 0)); [|..|intros; exact I].
    - split; [exact W|]. split; [destruct o; reflexivity|]. auto.
    - intros k o' Hk ([G' E'] & E1 & Ln' & Lp' & D). assert (En : op_n o' = op_n o) by lia.
      assert (Es : op_scale o' = op_scale o) by (rewrite E1; reflexivity). assert (Ep : op_points o' = op_points o) by (rewrite E1; reflexivity).
      assert (El : op_limit o' = op_limit o) by (rewrite E1; reflexivity). assert (Ei : op_index o' = op_index o) by (rewrite E1; reflexivity).
      unfold lambda_limit. rewrite Es, Ep, El, Ei.
      apply wp_bind, tot_get; [rewrite (g_index _ _ G); lia|]. intros j Hj. rewrite whole_index in Hj by auto. injection Hj as <-.
      apply wp_bind. eapply tot_impl; [apply (tot_only _ _ _ (max_sens_tot o k nminDouble W Hk)), max_sens_largest|]. intros mk Emk. change (mk = m k) in Emk. subst mk.
      apply wp_bind, tot_get; [rewrite (g_scale _ _ G); lia|]. intros c Hc. rewrite <- (nth_lookup' _ _ _ Hc).
      apply wp_bind, wp_vset; [lia|]. apply wp_bind, wp_vset; [lia|]. apply wp_bind, tot_get; [rewrite (g_lam _ _ G'); lia|]. intros l Hlk.
      apply nth_lookup' in Hlk. rewrite D in Hlk by lia. subst l.
      specialize (HF k fuel Hk Hf). cbn [nltb ndiv nneg NumR] in *.
      destruct (shrink fuel (fun l => Rltb l (- op_limit o / m k / nth k (op_scale o) 0)) (nth k (op_lambdas o) 0)) as [l1| | |]; cbn [obind] in *; try contradiction.
      change (tot (shrink fuel (fun l => Rltb (op_limit o / m k / nth k (op_scale o) 0) l) l1) (fun _ => True)) in HF.
      destruct (shrink fuel (fun l => Rltb (op_limit o / m k / nth k (op_scale o) 0) l) l1) as [l2| | |]; cbn [obind] in *; try contradiction.
      apply wp_bind, wp_vset; [rewrite (g_lam _ _ G'); lia|]. cbn [wp]. cbn [op_neg op_pos op_lambdas set_limits]. rewrite !insert_length.
      split; [split; [|exact E']; apply good_limits; [exact G'|rewrite insert_length; apply G']|]. split; [rewrite E1; reflexivity|].
      split; [exact Ln'|]. split; [exact Lp'|]. intros i Hi. rewrite nth_insert by (rewrite (g_lam _ _ G'); lia). destruct (decide (i = k)); [lia|]. apply D. lia.
  Qed.

  (** The constraint changes. *)
  Lemma vertex_tot (o : Opt R) v n : forall k, (k + n <= length (op_pos o))%nat -> (k + n <= length (op_neg o))%nat -> tot (vertex_lambda o v k n) (fun la => length la = n).
  Proof using.
    clear Hleft.
    induction n as [|n IH]; intros k H1 H2; cbn [vertex_lambda]; [reflexivity|]. apply wp_bind. apply (wp_impl _ _ _ (fun _ => True)).
    - destruct (Nat.testbit v k); (apply tot_get; [lia|intros; exact I]).
    - intros l _. apply wp_bind. eapply wp_impl; [apply IH; lia|]. intros r Hr. cbn. cbn beta in Hr. congruence.
  Qed.
  Lemma change_tot o i v : whole o -> length (op_pos o) = (op_n o + 1)%nat -> length (op_neg o) = (op_n o + 1)%nat -> (i < op_n o)%nat ->
    tot (constraint_change (op_n o + 1) i v o) (fun r => whole (fst r) /\ fst r = set_disp (op_disp (fst r)) o).
  Proof.
    intros W Lp Ln Hi. unfold constraint_change. apply wp_bind. eapply wp_impl; [apply vertex_tot; lia|]. intros la La. cbn beta in La.
    apply wp_bind. eapply wp_impl; [apply displacements_tot; [exact W|exact La]|]. intros o' [W' E']. pose proof W' as [G' N'].
    assert (En : op_n o' = op_n o) by (rewrite E'; reflexivity).
    apply wp_bind, tot_get; [rewrite (g_index _ _ G'); lia|]. intros j Hj. rewrite whole_index in Hj by (auto; lia). injection Hj as <-.
    apply wp_bind. eapply wp_impl; [apply (sum_tot o'); [exact W'|..]|].
    - intros k p s Hp Hf. unfold change_step. rewrite Hf. reflexivity.
    - intros k p s Hp Hf Hk. unfold change_step. rewrite Hf. apply wp_bind, tot_get; [exact Hk|]. intros d _.
      apply wp_bind, (sens_get o'); auto; [eapply elem_of_list_lookup_2, Hp|lia|]. intros a. reflexivity.
    - intros [c k] _. cbn. split; assumption.
  Qed.

  Lemma one_tot o i : whole o -> length (op_pos o) = (op_n o + 1)%nat -> length (op_neg o) = (op_n o + 1)%nat -> length (op_dist o) = op_n o ->
    length (op_target o) = op_n o -> length (op_isEq o) = op_n o -> (i < op_n o)%nat -> tot (one_constraint (op_n o + 1) i o) (fun _ => True).
  Proof.
    intros W Lp Ln Ld Lt Le Hi. unfold one_constraint. apply wp_bind.
    apply (wp_for _ _ (fun v s => whole (fst s) /\ fst s = set_disp (op_disp (fst s)) o /\ length (snd s) = v)).
    - cbn. split; [exact W|]. split; [destruct o; reflexivity|reflexivity].
    - intros v [o' ch] Hv (W' & E' & L). cbn [fst snd] in *. apply wp_bind.
      assert (En : op_n o' = op_n o) by (rewrite E'; reflexivity). rewrite <- En.
      eapply wp_impl; [apply change_tot; [exact W'|rewrite E'; cbn; auto|rewrite E'; cbn; auto|lia]|].
      intros [o2 c] [W2 E2]. cbn [fst snd wp] in *. split; [exact W2|]. split; [rewrite E2, E'; reflexivity|]. rewrite app_length. cbn. lia.
    - intros [o' ch] (W' & E' & L). cbn [fst snd] in *.
      assert (Ls : length (nsort ch) = (2 ^ (op_n o + 1))%nat). { destruct (nsort_spec ch) as [P _]. rewrite P. exact L. }
      assert (P2 : (2 ^ (op_n o + 1) <> 0)%nat) by (apply Nat.pow_nonzero; lia).
      apply wp_bind, tot_get; [lia|]. intros mn _. apply wp_bind, tot_get; [lia|]. intros mx _.
      apply wp_bind, tot_get; [rewrite E'; cbn; lia|]. intros d _. destruct (_ <? _)%num.
      + destruct (_ <? _)%num; [|exact I]. apply wp_bind, wp_vset; [rewrite E'; cbn; lia|]. exact I.
      + destruct (_ <? _)%num; [|exact I]. apply wp_bind, tot_get; [rewrite E'; cbn; lia|]. intros e _. destruct e; [|exact I].
        apply wp_bind, wp_vset; [rewrite E'; cbn; lia|]. exact I.
  Qed.

  Lemma round_tot points limit o : op_points o0 = points -> 0 < limit -> (forall p, p ∈ points -> bp_fixed p = false -> bp_domain p = false) ->
    round_inv o0 points limit o -> op_n o = left ->
    tot (for_ (op_n o) (fun i s => let '(o', active) := s in let! (o', b) := one_constraint (op_n o + 1) i o' in Ok (o', active ++ [b])) (o, [])) (fun _ => True).
  Proof.
    intros Hp Hl Nd I En. pose proof (r_good _ _ _ _ I) as G.
    apply (wp_for _ _ (fun k s => whole (fst s) /\ length (op_target (fst s)) = op_n o /\ fst s = set_otarget (op_target (fst s)) (set_disp (op_disp (fst s)) o))); [|..|auto].
    - cbn. split; [split; assumption|]. split; [apply I|]. destruct o; reflexivity.
    - intros k [o' ac] Hk (W' & L' & E'). cbn [fst] in *. apply wp_bind. pose proof W' as [G' N'].
      assert (En' : op_n o' = op_n o) by lia.
      assert (Bx : boxed points limit o') by (rewrite E'; exact (r_boxed _ _ _ _ I)).
      rewrite <- En'. eapply tot_impl; [eapply tot_only|].
      + apply (one_tot o' k W'); rewrite ?En'; try lia; rewrite E'; cbn; apply I.
      + apply (one_real o0 points limit Hp Hl Nd k o' G' Bx). rewrite E'. cbn. rewrite (r_lisEq _ _ _ _ I). exact Hk.
      + intros [o2 b] (G2 & E2 & _ & L2 & _). cbn [fst wp]. split; [split; [exact G2|rewrite E2; exact N']|]. split; [congruence|]. rewrite E2, E'. reflexivity.
  Qed.

  Lemma distances_tot points limit o fuel : op_points o0 = points -> 0 < limit -> (forall p, p ∈ points -> bp_fixed p = false -> bp_domain p = false) ->
    round_inv o0 points limit o -> op_n o = left -> (op_n o + 1 < 32)%nat -> (forall j, (j < op_n o)%nat -> stays points limit o j = true) ->
    tot (computeConstraintDistances (S fuel) (op_n o) o) (fun o' => whole o' /\ length (op_target o') = op_n o').
  Proof.
    intros Hp Hl Nd I En H32 St. pose proof (r_good _ _ _ _ I) as G. cbn [computeConstraintDistances].
    destruct (Nat.leb_spec 32 (op_n o + 1)); [lia|].
    apply wp_bind. pose proof (round_tot points limit o Hp Hl Nd I En) as T.
    eapply tot_impl; [apply (tot_only _ _ _ T), (round_targets o0 points limit Hp Hl Nd o I)|]. clear T. intros [o1 active] (G1 & E1 & A & L1 & _).
    assert (N1 : op_n o1 = op_n o) by (rewrite E1; reflexivity).
    assert (Act : forall k, (k < op_n o)%nat -> active !! k = Some true).
    { intros k Hk. rewrite A, lookup_map, lookup_seq_lt by exact Hk. cbn. f_equal. apply St, Hk. }
    assert (Lens : length (op_lambdas o1) = (op_n o + 1)%nat /\ length (op_scale o1) = (op_n o + 1)%nat /\ length (op_neg o1) = (op_n o + 1)%nat /\ length (op_pos o1) = (op_n o + 1)%nat /\
      length (op_index o1) = (op_n o + 1)%nat /\ length (op_dist o1) = op_n o /\ length (op_target o1) = op_n o /\ length (op_isEq o1) = op_n o).
    { split; [rewrite (g_lam _ _ G1); lia|]. split; [rewrite (g_scale _ _ G1); lia|]. split; [rewrite E1; apply I|]. split; [rewrite E1; apply I|].
      split; [rewrite (g_index _ _ G1); lia|]. split; [rewrite E1; apply I|]. split; [exact L1|]. rewrite E1. apply I. }
    clear E1 A. destruct Lens as (La & Lb & Lc & Ld & Le & Lf & Lg & Lh).
    apply wp_bind. apply (wp_for _ _ (fun k s => s = (o1, k))); [reflexivity|..].
    - intros k s Hk ->. unfold shift_constraint. apply wp_bind, (wp_vget _ _ _ _ _ _ (Act k Hk)).
      do 8 (apply wp_bind, tot_get; [lia|]; intros ? ?; apply wp_bind, wp_vset; [lia|]). cbn [wp]. rewrite !insert_same by assumption. destruct o1; reflexivity.
    - intros s ->. rewrite N1, Nat.ltb_irrefl, andb_false_r. cbn [wp]. split; [split; [exact G1|lia]|lia].
  Qed.

  Lemma store_tot o : whole o -> length (op_grads o) = (op_n o + 1)%nat -> tot (for_ (op_n o + 1) store_gradient o) (fun o' => whole o' /\ o' = set_grads (op_grads o') o /\ length (op_grads o') = (op_n o + 1)%nat).
  Proof.
    intros W L. apply (wp_for _ _ (fun _ o' => whole o' /\ o' = set_grads (op_grads o') o /\ length (op_grads o') = (op_n o + 1)%nat)); [|..|auto].
    - split; [exact W|]. split; [destruct o; reflexivity|exact L].
    - intros k o' Hk (W' & E' & L'). assert (En : op_n o' = op_n o) by (rewrite E'; reflexivity). unfold store_gradient. apply wp_bind.
      eapply wp_impl; [apply gradients_tot; [exact W'|lia|rewrite replicate_length; lia]|]. intros g _. apply wp_bind, wp_vset; [lia|]. cbn [wp].
      destruct W' as [G' N']. split; [split; [apply good_grads, G'|exact N']|]. split; [rewrite E'; reflexivity|]. cbn. rewrite insert_length. exact L'.
  Qed.

  (** NLopt. *)
  Fixpoint polite (n : nat) (t : Nlopt R) : Prop :=
    match t with
    | NlCall ix _ _ next => (ix <= n)%nat /\ forall v gr, polite n (next v gr)
    | NlEnd (NlReturn code _ _) => (0 <= code)%Z
    | NlEnd (NlThrow _ _ _) => False
    end.
  Lemma run_tot t : forall o, whole o -> length (op_target o) = op_n o -> length (op_grads o) = (op_n o + 1)%nat -> polite (op_n o) t ->
    tot (run_nlopt t o) (fun r => whole (fst r) /\ exists code x v, snd r = NlReturn code x v /\ (0 <= code)%Z).
  Proof.
    induction t as [ix la g next IH|r]; intros o W Lt Lg P; cbn [run_nlopt].
    - destruct P as [Hix P]. apply wp_bind. eapply wp_impl; [apply callback_tot; auto; [apply tabulate_length|lia]|].
      intros [[o' v] gr] [W' E']. assert (En : op_n o' = op_n o) by (rewrite E'; reflexivity). apply IH; [exact W'| | |].
      + rewrite En, E'. exact Lt.
      + rewrite En, E'. exact Lg.
      + rewrite En. apply P.
    - cbn [wp fst snd]. split; [exact W|]. destruct r as [code x v|]; [|contradiction P]. exists code, x, v. split; [reflexivity|exact P].
  Qed.

  Lemma attempts_tot nlopt fuel o : whole o -> length (op_target o) = op_n o -> length (op_grads o) = (op_n o + 1)%nat -> polite (op_n o) (nlopt 0%nat o) ->
    tot (attempts nlopt (S fuel) 0 None o) (fun r => whole (fst r) /\ exists v, snd r = Some (Some v)).
  Proof.
    intros W Lt Lg P. cbn [attempts]. apply wp_bind. eapply wp_impl; [apply run_tot; eassumption|]. intros [o1 r] [[G1 N1] (code & x & v & Er & Hc)]. cbn [fst snd] in *. subst r.
    cbn [op_code set_code init_get obind]. destruct (Z.ltb_spec code 0); [lia|]. cbn [wp fst snd]. split; [|eauto].
    split; [apply good_code, good_lambdas; [exact G1|apply tabulate_length]|exact N1].
  Qed.

  (** The end. *)
  Lemma max_disp_tot limit ps : forall disp M sc, length disp = length ps -> tot (ofold (max_disp limit) ps (M, sc, disp)) (fun _ => True).
  Proof using.
    clear Hleft.
    induction ps as [|p ps IH]; intros disp M sc L; cbn [ofold]; [exact I|]. destruct disp as [|d disp]; cbn in L; [lia|]. unfold max_disp at 1.
    destruct (bp_fixed p); [cbn [obind]; apply IH; lia|]. destruct (_ && _); cbn [obind]; apply IH; lia.
  Qed.
  Lemma for_map_tot {A} (f : nat -> list A -> outcome (list A)) (g : nat -> A -> outcome A) n (l : list A) : length l = n ->
    (forall i l, f i l = let! x := vget l i in let! y := g i x in vset l i y) -> (forall i x, (i < n)%nat -> tot (g i x) (fun _ => True)) ->
    tot (for_ n f l) (fun r => length r = n).
  Proof using.
    clear Hleft.
    intros L Hf Hg. apply (wp_for _ _ (fun _ r => length r = n)); [exact L|..|auto]. intros k r Hk Lr. rewrite Hf. apply wp_bind, tot_get; [lia|]. intros x _.
    apply wp_bind. eapply wp_impl; [apply Hg, Hk|]. intros y _. apply wp_vset; [lia|]. rewrite insert_length. exact Lr.
  Qed.
  Lemma conclude_tot o v : whole o -> 0 < op_limit o0 -> tot (conclude (Some v) o) (fun _ => True).
  Proof.
    intros W Hl. pose proof W as [G N]. unfold conclude. apply wp_bind. eapply wp_impl; [apply displacements_tot; [exact W|apply G]|]. intros o1 [W1 E1].
    apply wp_bind. eapply (wp_impl _ _ _ (fun r => whole (fst r))).
    { pose proof W1 as [G1 N1]. unfold rescaleDisplacements. apply wp_bind. rewrite (g_limit _ _ G1).
      eapply tot_impl; [eapply tot_only|].
      - apply max_disp_tot. rewrite (g_disp _ _ G1), (g_points _ _ G1). reflexivity.
      - apply (max_disp_real (op_limit o0) (op_points o1) (op_disp o1) n0 None Hl). left. reflexivity.
      - intros [[M sc] r] (_ & HM & _). destruct (M =? n0)%num eqn:Em; [exact W1|].
        destruct HM as [->|[_ ->]]; [exfalso; cbn in Em; destruct (Reqb_spec 0 0); congruence|]. cbn [init_get obind].
        apply wp_bind. eapply wp_impl; [apply (for_map_tot _ (fun _ x => Ok (x * (op_limit o0 / M)))); [apply G1|reflexivity|intros; exact I]|].
        intros la L. cbn beta in L. apply wp_bind. eapply wp_impl; [apply displacements_tot; [split; [apply good_lambdas; [exact G1|exact L]|exact N1]|exact L]|].
        intros o2 [W2 _]. exact W2. }
    intros [o2 s] W2. cbn [fst] in W2. pose proof W2 as [G2 N2]. cbn [init_get obind]. apply wp_bind.
    eapply wp_impl; [apply (for_map_tot _ (fun i x => let! c := vget (op_scale o2) i in Ok (x * c)))|].
    - apply G2.
    - intros i l. destruct (vget l i); cbn [obind]; auto. rewrite obind_assoc. reflexivity.
    - intros i x Hi. apply wp_bind, tot_get; [rewrite (g_scale _ _ G2); lia|]. intros; exact I.
    - intros la L. cbn beta in L. apply wp_bind, tot_get; [cbn; lia|]. intros l0 _. apply wp_bind. eapply wp_impl; [apply oupdate_tot|].
      + cbn. rewrite take_length, (g_disp _ _ G2), (g_points _ _ G2). lia.
      + intros; exact I.
      + intros ps _. cbn [op_n op_n0 set_points set_time set_lambdas]. rewrite (g_n0 _ _ G2), N2. apply wp_bind. apply (wp_impl _ _ _ (fun o' => op_scale o' = op_scale o2)).
        * destruct (Nat.ltb_spec left (op_n0 o0)); [|reflexivity]. destruct (Nat.ltb_spec 0 left); [lia|]. reflexivity.
        * intros o' Es. apply wp_bind, tot_get; [rewrite Es, (g_scale _ _ G2); lia|]. intros; exact I.
  Qed.
End total.

(** All constraints are removed in the first round. *)
Lemma none_tot o0 points limit o fuel : has_sens (op_n0 o0 + 1) (op_points o0) -> op_points o0 = points -> 0 < limit ->
  (forall p, p ∈ points -> bp_fixed p = false -> bp_domain p = false) ->
  round_inv o0 points limit o -> op_n o = op_n0 o0 -> (0 < op_n o)%nat -> (op_n o + 1 < 32)%nat -> (forall j, (j < op_n o)%nat -> stays points limit o j = false) ->
  tot (computeConstraintDistances (S fuel) (op_n o) o) (fun o' => whole o0 0 o' /\ length (op_target o') = op_n o').
Proof.
  intros Hsens Hp Hl Nd I En Pos H32 St. pose proof (r_good _ _ _ _ I) as G. cbn [computeConstraintDistances].
  destruct (Nat.leb_spec 32 (op_n o + 1)); [lia|]. apply wp_bind.
  pose proof (round_tot o0 Hsens (op_n0 o0) (or_introl eq_refl) points limit o Hp Hl Nd I En) as T.
  eapply tot_impl; [apply (tot_only _ _ _ T), (round_targets o0 points limit Hp Hl Nd o I)|]. clear T. intros [o1 active] (G1 & E1 & A & L1 & D1).
  assert (N1 : op_n o1 = op_n o) by (rewrite E1; reflexivity).
  assert (Act : forall k, (k < op_n o)%nat -> active !! k = Some false).
  { intros k Hk. rewrite A, lookup_map, lookup_seq_lt by exact Hk. cbn. f_equal. apply St, Hk. }
  assert (Sh : for_ (op_n o) (shift_constraint active) (o1, 0%nat) = Ok (o1, 0%nat)).
  { assert (T : tot (for_ (op_n o) (shift_constraint active) (o1, 0%nat)) (fun s => s = (o1, 0%nat))); [|apply wp_total in T as (s & -> & ->); reflexivity].
    apply (wp_for _ _ (fun _ s => s = (o1, 0%nat))); [reflexivity| |auto].
    intros k s Hk ->. unfold shift_constraint. apply wp_bind, (wp_vget _ _ _ _ _ _ (Act k Hk)). reflexivity. }
  assert (S2 : shifted o1 (op_n o) (o1, 0%nat)).
  { revert Sh. apply (for_post_i (shifted o1)); [|constructor; cbn; auto]. intros k s _ S. apply shift_shifted, S. }
  assert (P2 : shift_inv active o1 (op_n o) (o1, 0%nat)).
  { revert Sh. apply (for_post_i (shift_inv active o1)); [intros k s _ S; apply shift_packs, S|].
    constructor; cbn [fst snd]; [reflexivity|..]; apply packed_refl. }
  rewrite Sh. cbn [obind]. rewrite N1. destruct (Nat.ltb_spec 0 (op_n o)); [|lia]. cbn [andb Nat.ltb Nat.leb wp].
  pose proof (round_next o0 points limit Hl o o1 active o1 0 I G1 E1 L1 D1 A S2 P2 Pos) as I3.
  split; [split; [apply I3|reflexivity]|]. apply I3.
Qed.

(** The preparation succeeds in both cases. *)
Theorem prepare_ends left points dist lambdas time limit isMax isEq (o : Opt R) :
  optimise_ctor points dist lambdas time limit isMax isEq = Ok o ->
  has_sens (length lambdas) points -> (forall k, (k < length lambdas)%nat -> sensitive k points) ->
  (forall p, p ∈ points -> bp_fixed p = false -> bp_domain p = false) ->
  isEq = [] \/ length isEq = length dist -> (length lambdas < 32)%nat ->
  left = length dist /\ all_kept limit points dist lambdas isEq \/ left = 0%nat /\ all_removed limit points dist lambdas isEq ->
  exists F, forall fuel, (F <= fuel)%nat -> exists o5, prepare fuel o = Ok o5 /\ whole o left o5 /\ length (op_target o5) = op_n o5 /\ length (op_grads o5) = (op_n o5 + 1)%nat.
Proof.
  intros E Hs Se Nd Le H32 Keep. pose proof (start_good _ _ _ _ _ _ _ _ E) as G. cbn [op_n set_disp] in *. set (o1 := set_index _ _) in *.
  pose proof (ctor_inv _ _ _ _ _ _ _ _ E) as (Hl & _ & _ & Ln & Eo). apply (proj1 (Rltb_true _ _)) in Hl. change (0 < limit) in Hl.
  assert (N0 : op_n0 o = length dist) by (rewrite Eo; reflexivity). assert (Nn : op_n o = length dist) by (rewrite Eo; reflexivity).
  assert (Ep : op_points o = points) by (rewrite Eo; reflexivity). assert (Elim : op_limit o = limit) by (rewrite Eo; reflexivity).
  assert (Hsens : has_sens (op_n0 o + 1) (op_points o)) by (rewrite N0, Ep, Nat.add_1_r, <- Ln; exact Hs).
  assert (W1 : whole o (op_n0 o) o1) by (split; [exact G|unfold o1; cbn; congruence]).
  (* scale factors *)
  pose proof (scale_tot o Hsens _ (or_introl eq_refl) o1 W1) as T1. apply wp_total in T1 as (o2 & Eo2 & W2 & E2). pose proof W2 as [G2 N2].
  assert (P2 : forall k, (k < op_n o2 + 1)%nat -> 0 < nth k (op_scale o2) 0).
  { rewrite E2. cbn [op_n set_scale]. refine (proj2 (proj2 (scale_real o o1 G eq_refl _ _ Eo2))). rewrite Ep. intros k Hk. apply Se. rewrite Ln. change (op_n o1) with (op_n o) in Hk. lia. }
  (* the multipliers *)
  assert (T2 : tot (for_ (op_n o2 + 1) (fun i la => let! x := vget la i in let! c := vget (op_scale o2) i in vset la i (x / c)%num) (op_lambdas o2)) (fun la => length la = (op_n o2 + 1)%nat)).
  { apply (for_map_tot _ (fun i x => let! c := vget (op_scale o2) i in Ok (x / c)%num)); [apply G2|..].
    - intros i l. destruct (vget l i); cbn [obind]; auto. rewrite obind_assoc. reflexivity.
    - intros i x Hi. apply wp_bind, tot_get; [rewrite (g_scale _ _ G2); lia|]. intros; exact I. }
  apply wp_total in T2 as (la & Ela & L).
  (* the ranges *)
  assert (W2' : whole o (op_n0 o) (set_lambdas la o2)) by (split; [apply good_lambdas; [exact G2|exact L]|exact N2]).
  destruct (limits_tot o Hsens _ (or_introl eq_refl) (set_lambdas la o2) W2') as [F HF].
  { rewrite (g_limit _ _ (proj1 W2')), Elim. exact Hl. }
  { exact P2. }
  { cbn. rewrite E2. cbn. unfold o1. rewrite Eo. cbn. apply replicate_length. }
  { cbn. rewrite E2. cbn. unfold o1. rewrite Eo. cbn. apply replicate_length. }
  exists (S F). intros fuel Hf. specialize (HF fuel ltac:(lia)). apply wp_total in HF as (o3 & Eo3 & _).
  pose proof (start_round _ _ _ _ _ _ _ fuel o E Se Le o2 la o3 Eo2 Ela Eo3) as [I3 N3].
  (* the constraints *)
  assert (T4 : tot (if (0 <? op_n o3)%nat then computeConstraintDistances (op_n o3 + 1) (op_n o3) o3 else Ok o3) (fun o' => whole o left o' /\ length (op_target o') = op_n o')).
  { assert (Ei : op_index o3 = seq 0 (length lambdas)). { rewrite (g_all _ _ (r_good _ _ _ _ I3)) by lia. f_equal. lia. }
    assert (Eq : op_isEq o = if (length isEq =? 0)%nat then replicate (length dist) false else isEq) by (rewrite Eo; reflexivity).
    assert (Ed : op_dist o = dist) by (rewrite Eo; reflexivity).
    destruct (Nat.ltb_spec 0 (op_n o3)) as [Pos|Zero].
    - rewrite Nat.add_1_r. destruct Keep as [[-> Keep]|[-> Gone]].
      + rewrite <- N0. apply (distances_tot o Hsens (op_n0 o) (or_introl eq_refl) points limit o3 (op_n o3)); auto; try lia.
        intros j Hj. unfold stays. rewrite (r_isEq _ _ _ _ I3 j Hj), (r_dist _ _ _ _ I3 j Hj). unfold cap.
        rewrite Ei, seq_nth by lia. cbn [Nat.add]. specialize (Keep (j + 1)%nat _ ltac:(lia) (reach_largest limit points (seq 0 (length lambdas)) (j + 1) Hl)).
        rewrite Eq, Ed.
        destruct Keep as [Keep|Keep]; [|apply orb_true_intro; right; apply Rleb_true; exact Keep].
        destruct (Nat.eqb_spec (length isEq) 0) as [Z|Z]; [|rewrite Keep; reflexivity].
        destruct isEq; [|discriminate]. destruct (j + 1 - 1)%nat; discriminate.
      + apply (none_tot o points limit o3 (op_n o3)); auto; try lia.
        intros j Hj. unfold stays. rewrite (r_isEq _ _ _ _ I3 j Hj), (r_dist _ _ _ _ I3 j Hj). unfold cap.
        rewrite Ei, seq_nth by lia. cbn [Nat.add]. destruct (Gone (j + 1)%nat _ ltac:(lia) (reach_largest limit points (seq 0 (length lambdas)) (j + 1) Hl)) as [Q B].
        rewrite Eq, Ed. apply orb_false_intro; [|apply Rleb_false; exact B].
        destruct (Nat.eqb_spec (length isEq) 0) as [Z|Z]; [|exact Q]. rewrite nth_lookup. destruct (_ !! _) eqn:Er; [|reflexivity]. apply lookup_replicate in Er as [-> _]. reflexivity.
    - split; [split; [apply I3|]|rewrite (r_ltarget _ _ _ _ I3); reflexivity]. destruct Keep as [[-> _]|[-> _]]; lia. }
  apply wp_total in T4 as (o4 & Eo4 & W4 & L4). pose proof W4 as [G4 N4].
  (* the gradients *)
  assert (Hleft : left = op_n0 o \/ left = 0%nat) by (destruct Keep as [[-> _]|[-> _]]; lia).
  pose proof (store_tot o Hsens left Hleft (set_grads (resize (op_n o4 + 1) [] (op_grads o4)) o4)) as T5.
  apply wp_total in T5 as (o5 & Eo5 & W5 & E5 & L5); [|split; [apply good_grads, G4|exact N4]|cbn; apply resize_length].
  assert (Prep : prepare fuel o = Ok o5).
  { unfold prepare. change (set_index _ _) with o1. rewrite Eo2. cbn [obind]. rewrite Ela. cbn [obind]. rewrite Eo3. cbn [obind]. rewrite Eo4. cbn [obind]. exact Eo5. }
  cbn [op_n set_grads] in L5. assert (N5 : op_n o5 = op_n o4) by (rewrite E5; reflexivity).
  exists o5. split; [exact Prep|]. split; [exact W5|]. split; [rewrite N5, E5; exact L4|rewrite N5; exact L5].
Qed.

(** solve returns a result in both cases. *)
Theorem solve_ends points dist lambdas time limit isMax isEq (o : Opt R) nlopt :
  optimise_ctor points dist lambdas time limit isMax isEq = Ok o ->
  has_sens (length lambdas) points -> (forall k, (k < length lambdas)%nat -> sensitive k points) ->
  (forall p, p ∈ points -> bp_fixed p = false -> bp_domain p = false) ->
  isEq = [] \/ length isEq = length dist -> (length lambdas < 32)%nat ->
  all_kept limit points dist lambdas isEq \/ all_removed limit points dist lambdas isEq ->
  (forall o1, op_n o1 = length dist \/ op_n o1 = 0%nat -> polite (op_n o1) (nlopt 0%nat o1)) ->
  exists F, forall fuel, (F <= fuel)%nat -> exists o' v, solve nlopt fuel o = Ok (o', Some v).
Proof.
  intros E Hs Se Nd Le H32 Keep Pol.
  assert (exists left, left = length dist /\ all_kept limit points dist lambdas isEq \/ left = 0%nat /\ all_removed limit points dist lambdas isEq) as [left Hl0].
  { destruct Keep; [exists (length dist)|exists 0%nat]; auto. }
  destruct (prepare_ends left _ _ _ _ _ _ _ o E Hs Se Nd Le H32 Hl0) as [F HF].
  pose proof (ctor_inv _ _ _ _ _ _ _ _ E) as (Hl & _ & _ & Ln & Eo). apply (proj1 (Rltb_true _ _)) in Hl. change (0 < limit) in Hl.
  assert (N0 : op_n0 o = length dist) by (rewrite Eo; reflexivity). assert (Elim : op_limit o = limit) by (rewrite Eo; reflexivity).
  assert (Hsens : has_sens (op_n0 o + 1) (op_points o)).
  { replace (op_points o) with points by (rewrite Eo; reflexivity). rewrite N0, Nat.add_1_r, <- Ln. exact Hs. }
  assert (Hleft : left = op_n0 o \/ left = 0%nat) by (destruct Hl0 as [[-> _]|[-> _]]; lia).
  exists (S F). intros fuel Hf. destruct (HF fuel ltac:(lia)) as (o5 & Prep & W5 & Lt & Lg). pose proof W5 as [_ N5].
  unfold solve. rewrite Prep. cbn [obind]. destruct fuel as [|fuel]; [lia|].
  pose proof (attempts_tot o Hsens left Hleft nlopt fuel o5 W5 Lt Lg) as T6. apply wp_total in T6 as ([o6 r] & Eo6 & W6 & v & Er).
  - cbn [fst snd] in *. subst r. rewrite Eo6. cbn [obind].
    pose proof (conclude_tot o Hsens left Hleft o6 v W6) as T7. rewrite Elim in T7. apply wp_total in T7 as ([o7 w] & Eo7 & _); [|exact Hl].
    rewrite Eo7. cbn [obind]. eauto.
  - apply Pol. lia.
Qed.

(** When no constraint has to be removed. *)
Theorem prepare_returns points dist lambdas time limit isMax isEq (o : Opt R) :
  optimise_ctor points dist lambdas time limit isMax isEq = Ok o ->
  has_sens (length lambdas) points -> (forall k, (k < length lambdas)%nat -> sensitive k points) ->
  (forall p, p ∈ points -> bp_fixed p = false -> bp_domain p = false) ->
  isEq = [] \/ length isEq = length dist -> (length lambdas < 32)%nat -> all_kept limit points dist lambdas isEq ->
  exists F, forall fuel, (F <= fuel)%nat -> exists o5, prepare fuel o = Ok o5 /\ whole o (length dist) o5 /\ length (op_target o5) = op_n o5 /\ length (op_grads o5) = (op_n o5 + 1)%nat.
Proof. intros E Hs Se Nd Le H32 Keep. apply (prepare_ends (length dist) points dist lambdas time limit isMax isEq); auto. Qed.
Theorem solve_returns points dist lambdas time limit isMax isEq (o : Opt R) nlopt :
  optimise_ctor points dist lambdas time limit isMax isEq = Ok o ->
  has_sens (length lambdas) points -> (forall k, (k < length lambdas)%nat -> sensitive k points) ->
  (forall p, p ∈ points -> bp_fixed p = false -> bp_domain p = false) ->
  isEq = [] \/ length isEq = length dist -> (length lambdas < 32)%nat ->
  (forall k m, (1 <= k < length lambdas)%nat -> largest_change limit points (seq 0 (length lambdas)) k m ->
    nth (k - 1) isEq false = true \/ nth (k - 1) dist 0 <= 99 / 100 * m) ->
  (forall o1, op_n o1 = length dist -> polite (length dist) (nlopt 0%nat o1)) ->
  exists F, forall fuel, (F <= fuel)%nat -> exists o' v, solve nlopt fuel o = Ok (o', Some v).
Proof.
  intros E Hs Se Nd Le H32 Keep Pol. destruct (prepare_returns _ _ _ _ _ _ _ o E Hs Se Nd Le H32 Keep) as [F HF].
  pose proof (ctor_inv _ _ _ _ _ _ _ _ E) as (Hl & _ & _ & Ln & Eo). apply (proj1 (Rltb_true _ _)) in Hl. change (0 < limit) in Hl.
  assert (N0 : op_n0 o = length dist) by (rewrite Eo; reflexivity). assert (Elim : op_limit o = limit) by (rewrite Eo; reflexivity).
  assert (Hsens : has_sens (op_n0 o + 1) (op_points o)).
  { replace (op_points o) with points by (rewrite Eo; reflexivity). rewrite N0, Nat.add_1_r, <- Ln. exact Hs. }
  assert (Hleft : length dist = op_n0 o \/ length dist = 0%nat) by lia.
  exists (S F). intros fuel Hf. destruct (HF fuel ltac:(lia)) as (o5 & Prep & W5 & Lt & Lg). pose proof W5 as [_ N5].
  unfold solve. rewrite Prep. cbn [obind]. destruct fuel as [|fuel]; [lia|].
  pose proof (attempts_tot o Hsens (length dist) Hleft nlopt fuel o5 W5 Lt Lg) as T6. apply wp_total in T6 as ([o6 r] & Eo6 & W6 & v & Er).
  - cbn [fst snd] in *. subst r. rewrite Eo6. cbn [obind].
    pose proof (conclude_tot o Hsens (length dist) Hleft o6 v W6) as T7. rewrite Elim in T7. apply wp_total in T7 as ([o7 w] & Eo7 & _); [|exact Hl].
    rewrite Eo7. cbn [obind]. eauto.
  - replace (op_n o5) with (length dist) by lia. apply Pol. lia.
Qed.

(** One inequality constraint is kept or removed. *)
Lemma single_constraint limit points d lambdas isEq : 0 < limit -> length lambdas = 2%nat ->
  all_kept limit points [d] lambdas isEq \/ all_removed limit points [d] lambdas isEq.
Proof.
  intros Hl L. set (r := reach limit points (seq 0 (length lambdas)) 1).
  assert (U : forall k m, (1 <= k < length lambdas)%nat -> largest_change limit points (seq 0 (length lambdas)) k m -> k = 1%nat /\ m = r).
  { intros k m Hk Hm. assert (k = 1%nat) as -> by lia. split; [reflexivity|]. apply largest_unique; assumption. }
  destruct (nth 0 isEq false) eqn:Eq.
  - left. intros k m Hk Hm. destruct (U k m Hk Hm) as [-> ->]. left. exact Eq.
  - destruct (Rle_dec d (99 / 100 * r)) as [B|B].
    + left. intros k m Hk Hm. destruct (U k m Hk Hm) as [-> ->]. right. exact B.
    + right. intros k m Hk Hm. destruct (U k m Hk Hm) as [-> ->]. split; [exact Eq|]. cbn. lra.
Qed.
