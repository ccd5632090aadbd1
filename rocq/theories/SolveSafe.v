(** * SolveSafe: solve stays within its arrays whatever the values are (C79). *)

From Verif Require Import Base Num LevelSetModel OptModel OptSpec OptFrame SafeSpec.

Lemma safe_ok {A} (a : A) (Q : A -> Prop) : Q a -> safe (Ok a) Q. Proof. exact id. Qed.
Lemma safe_bind {A B} (o : outcome A) (f : A -> outcome B) (P : A -> Prop) Q : safe o P -> (forall a, P a -> safe (f a) Q) -> safe (obind o f) Q.
Proof. destruct o; cbn; auto. Qed.
Lemma safe_impl {A} (o : outcome A) (P Q : A -> Prop) : safe o P -> (forall a, P a -> Q a) -> safe o Q.
Proof. destruct o; cbn; auto. Qed.
Lemma safe_vget {A} (l : list A) i : i < length l -> safe (vget l i) (fun a => l !! i = Some a).
Proof. intros L. apply lookup_lt_is_Some in L as [a E]. unfold vget. rewrite E. exact eq_refl. Qed.
Lemma safe_vset {A} (l : list A) i a : i < length l -> safe (vset l i a) (fun r => r = <[i := a]> l).
Proof. intros L. apply lookup_lt_is_Some in L as [b E]. unfold vset. rewrite E. exact eq_refl. Qed.
Lemma safe_vset_len {A} (l : list A) i a n : i < length l -> length l = n -> safe (vset l i a) (fun r => length r = n).
Proof. intros L E. eapply safe_impl; [apply safe_vset, L|]. intros r ->. rewrite insert_length. exact E. Qed.
Lemma safe_from {S} (I : nat -> S -> Prop) (f : nat -> S -> outcome S) n : forall i s,
  (forall k t, i <= k < i + n -> I k t -> safe (f k t) (I (Datatypes.S k))) -> I i s -> safe (for_from i n f s) (I (i + n)).
Proof.
  induction n as [|n IH]; intros i s Hf Hs; cbn [for_from]; [rewrite Nat.add_0_r; exact Hs|].
  eapply safe_bind; [apply Hf; [lia|exact Hs]|]. intros t Ht. replace (i + Datatypes.S n) with (Datatypes.S i + n) by lia. apply IH; [|exact Ht]. intros k u Hk. apply Hf. lia.
Qed.
Lemma safe_for_i {S} (I : nat -> S -> Prop) (f : nat -> S -> outcome S) n s : (forall k t, k < n -> I k t -> safe (f k t) (I (Datatypes.S k))) -> I 0 s -> safe (for_ n f s) (I n).
Proof. intros Hf Hs. apply (safe_from I f n 0 s); [|exact Hs]. intros k t Hk. apply Hf. lia. Qed.
Lemma safe_for {S} (I : S -> Prop) (f : nat -> S -> outcome S) n s : (forall k t, k < n -> I t -> safe (f k t) I) -> I s -> safe (for_ n f s) I.
Proof. exact (safe_for_i (fun _ => I) f n s). Qed.
Lemma safe_ofold {S A} (I : S -> Prop) (f : S -> A -> outcome S) l : (forall s a, a ∈ l -> I s -> safe (f s a) I) -> forall s, I s -> safe (ofold f l s) I.
Proof.
  induction l as [|a l IH]; intros Hf s Hs; cbn [ofold]; [exact Hs|]. eapply safe_bind; [apply Hf; [left|exact Hs]|]. intros t Ht. apply IH; [|exact Ht].
  intros s2 a2 H2. apply Hf. right. exact H2.
Qed.
Lemma safe_oupdate {A B} (f : A -> B -> outcome B) l : forall m, (forall a b, a ∈ l -> safe (f a b) (fun _ => True)) -> length l <= length m -> safe (oupdate f l m) (fun r => length r = length m).
Proof.
  induction l as [|a l IH]; intros m Hf L; cbn [oupdate]; [reflexivity|]. destruct m as [|b m]; [cbn in L; lia|]. cbn in L.
  eapply safe_bind; [apply Hf; left|]. intros c _. eapply safe_bind; [apply IH; [intros a' b' Ha; apply Hf; right; exact Ha|lia]|]. intros r Lr. cbn. congruence.
Qed.
(** for (i = 0; i < n; i++) l[i] = g(i, l[i]) *)
Lemma safe_map {A} (g : nat -> A -> outcome A) (l : list A) n : n <= length l -> (forall i x, i < n -> safe (g i x) (fun _ => True)) ->
  safe (for_ n (fun i l => let! x := vget l i in let! y := g i x in vset l i y) l) (fun r => length r = length l).
Proof.
  intros L Hg. apply (safe_for (fun r => length r = length l)); [|reflexivity]. intros k r Hk Lr. eapply safe_bind; [apply safe_vget; lia|]. intros x _.
  eapply safe_bind; [apply Hg, Hk|]. intros y _. apply safe_vset_len; lia.
Qed.
Lemma safe_map2 {A} (g : nat -> A -> outcome A) (f : nat -> list A -> outcome (list A)) (l : list A) n : (forall i l, f i l = (let! x := vget l i in let! y := g i x in vset l i y)) -> n <= length l -> (forall i x, i < n -> safe (g i x) (fun _ => True)) ->
  safe (for_ n f l) (fun r => length r = length l).
Proof.
  intros Ef L Hg. apply (safe_for (fun r => length r = length l)); [|reflexivity]. intros k r Hk Lr. rewrite Ef. eapply safe_bind; [apply safe_vget; lia|]. intros x _.
  eapply safe_bind; [apply Hg, Hk|]. intros y _. apply safe_vset_len; lia.
Qed.

Section safety.
  Context {T : Type} {NT : Num T}.
  Hypothesis zero_zero : (n0 =? n0)%num = true.
  Variable ps : list (BoundaryPoint T).
  Variable N : nat.
  Hypothesis Hps : has_sens (N + 1) ps.
  Implicit Types o : Opt T.

  Record fit o : Prop := {
    fi_points : op_points o = ps; fi_n : op_n o = N \/ op_n o = 0; fi_n0 : op_n0 o = N;
    fi_dist : length (op_dist o) = op_n o; fi_target : length (op_target o) = op_n o; fi_isEq : length (op_isEq o) = op_n o;
    fi_lam : length (op_lambdas o) = op_n o + 1; fi_neg : length (op_neg o) = op_n o + 1; fi_pos : length (op_pos o) = op_n o + 1; fi_scale : length (op_scale o) = op_n o + 1;
    fi_index : op_index o = seq 0 (op_n o + 1); fi_disp : length (op_disp o) = length ps }.
  Lemma sens_safe p k : p ∈ ps -> bp_fixed p = false -> k < N + 1 -> safe (vget (bp_sens p) k) (fun _ => True).
  Proof. intros Hp Hf Hk. eapply safe_impl; [apply safe_vget; specialize (Hps p Hp Hf); lia|]. auto. Qed.
  Lemma index_safe o j : fit o -> j < op_n o + 1 -> safe (vget (op_index o) j) (fun k => k = j).
  Proof. intros F Hj. rewrite (fi_index _ F). eapply safe_impl; [apply safe_vget; rewrite seq_length; exact Hj|]. intros k E. apply lookup_seq in E. lia. Qed.

  Lemma disp_safe o la p old : fit o -> length la = op_n o + 1 -> p ∈ ps -> safe (disp_point o la p old) (fun _ => True).
  Proof.
    intros F L Hp. unfold disp_point. destruct (bp_fixed p) eqn:Hf; [exact I|]. pose proof (fi_n _ F). pose proof (fi_scale _ F).
    eapply safe_bind; [apply safe_vget; lia|]. intros c0 _. eapply safe_bind; [apply safe_vget; lia|]. intros l0 _. eapply safe_bind; [apply sens_safe; [exact Hp|exact Hf|lia]|]. intros s0 _.
    eapply safe_bind; [apply (safe_from (fun _ _ => True)); [|exact I]|intros; exact I].
    intros j d Hj _. eapply safe_bind; [apply index_safe; [exact F|lia]|]. intros k ->. eapply safe_bind; [apply safe_vget; lia|]. intros c _. eapply safe_bind; [apply safe_vget; lia|]. intros l _.
    eapply safe_bind; [apply sens_safe; [exact Hp|exact Hf|lia]|]. intros; exact I.
  Qed.
  Lemma fit_disp o d : fit o -> length d = length ps -> fit (set_disp d o).
  Proof. intros [] L. constructor; cbn; auto. Qed.
  Lemma displacements_safe o la : fit o -> length la = op_n o + 1 -> safe (computeDisplacements la o) (fun o' => exists d, length d = length ps /\ o' = set_disp d o).
  Proof.
    intros F L. unfold computeDisplacements. eapply safe_bind; [apply safe_oupdate|].
    - intros p b Hp. rewrite (fi_points _ F) in Hp. apply disp_safe; assumption.
    - rewrite (fi_points _ F), (fi_disp _ F). lia.
    - intros d Ld. exists d. rewrite Ld, (fi_disp _ F). auto.
  Qed.
  (** A loop over the points that reads [displacements] in step with them. *)
  Lemma points_safe {S} o (f : S * nat -> BoundaryPoint T -> outcome (S * nat)) s : fit o -> (forall s i p, p ∈ ps -> i < length ps -> safe (f (s, i) p) (fun r => snd r = Datatypes.S i)) ->
    safe (ofold f (op_points o) (s, 0)) (fun _ => True).
  Proof.
    intros F Hf. rewrite (fi_points _ F). assert (G : forall l s i, (forall p, p ∈ l -> p ∈ ps) -> i + length l = length ps -> safe (ofold f l (s, i)) (fun _ => True)); [|apply G; auto].
    clear s. induction l as [|p l IH]; intros s i Hl L; cbn [ofold]; [exact I|]. cbn in L. eapply safe_bind; [apply Hf; [apply Hl; left|lia]|]. intros [s' i'] E. cbn in E. subst i'. apply IH; [intros q Hq; apply Hl; right; exact Hq|lia].
  Qed.
  Lemma function_safe o i : fit o -> i < op_n o + 1 -> safe (computeFunction o i) (fun _ => True).
  Proof.
    intros F Hi. unfold computeFunction. pose proof (fi_n _ F). eapply safe_bind; [apply index_safe; [exact F|exact Hi]|]. intros j ->. eapply safe_bind; [apply safe_vget; rewrite (fi_scale _ F); exact Hi|]. intros c _.
    eapply safe_bind; [apply (points_safe o); [exact F|]|].
    - intros s k p Hp Hk. unfold fun_step. destruct (bp_fixed p) eqn:Hf; [reflexivity|]. eapply safe_bind; [apply safe_vget; rewrite (fi_disp _ F); exact Hk|]. intros d _.
      eapply safe_bind; [apply sens_safe; [exact Hp|exact Hf|lia]|]. intros a _. reflexivity.
    - intros [f k] _. destruct (Nat.eqb_spec i 0); [exact I|]. eapply safe_bind; [apply safe_vget; rewrite (fi_target _ F); lia|]. intros; exact I.
  Qed.
  Lemma gradients_safe o g i : fit o -> i < op_n o + 1 -> length g = op_n o + 1 -> safe (computeGradients o g i) (fun r => length r = op_n o + 1).
  Proof.
    intros F Hi L. unfold computeGradients. pose proof (fi_n _ F). pose proof (fi_scale _ F). eapply safe_bind; [apply (safe_for (fun r => length r = op_n o + 1)); [|exact L]|].
    - intros k t Hk Lt. apply safe_vset_len; lia.
    - intros g' Lg. apply (safe_ofold (fun r => length r = op_n o + 1)); [|exact Lg]. intros r p Hp Lr. rewrite (fi_points _ F) in Hp. unfold grad_point. destruct (bp_fixed p) eqn:Hf; [exact Lr|].
      apply (safe_for (fun r => length r = op_n o + 1)); [|exact Lr]. intros j t Hj Lt. unfold grad_entry. eapply safe_bind; [apply index_safe; [exact F|exact Hj]|]. intros k ->.
      eapply safe_bind; [apply safe_vget; lia|]. intros ci _. eapply safe_bind; [apply safe_vget; lia|]. intros cj _. cbv zeta. eapply safe_bind; [apply index_safe; [exact F|exact Hi]|]. intros ki ->.
      eapply safe_bind; [apply sens_safe; [exact Hp|exact Hf|lia]|]. intros a _. eapply safe_bind; [apply sens_safe; [exact Hp|exact Hf|lia]|]. intros b _. eapply safe_bind; [apply safe_vget; lia|]. intros v _. apply safe_vset_len; lia.
  Qed.
  Lemma max_safe o k m : fit o -> k < N + 1 -> safe (max_sens (op_points o) k m) (fun _ => True).
  Proof.
    intros F Hk. unfold max_sens. apply safe_ofold; [|exact I]. intros s p Hp _. rewrite (fi_points _ F) in Hp. destruct (bp_fixed p) eqn:Hf; [exact I|].
    eapply safe_bind; [apply sens_safe; [exact Hp|exact Hf|exact Hk]|]. intros; exact I.
  Qed.
  Lemma fit_scale o c : fit o -> length c = op_n o + 1 -> fit (set_scale c o).
  Proof. intros [] L. constructor; cbn; auto. Qed.
  Lemma fit_lambdas o c : fit o -> length c = op_n o + 1 -> fit (set_lambdas c o).
  Proof. intros [] L. constructor; cbn; auto. Qed.
  Lemma fit_limits o a b c : fit o -> length a = op_n o + 1 -> length b = op_n o + 1 -> length c = op_n o + 1 -> fit (set_limits a b c o).
  Proof. intros [] La Lb L. constructor; cbn; auto. Qed.
  Lemma fit_target o c : fit o -> length c = op_n o -> fit (set_otarget c o).
  Proof. intros [] L. constructor; cbn; auto. Qed.
  Lemma fit_grads o c : fit o -> fit (set_grads c o).
  Proof. intros []. constructor; cbn; auto. Qed.
  Lemma fit_code o c : fit o -> fit (set_code c o).
  Proof. intros []. constructor; cbn; auto. Qed.
  Lemma fit_time o c : fit o -> fit (set_time c o).
  Proof. intros []. constructor; cbn; auto. Qed.

  Lemma scale_safe o : fit o -> safe (computeScaleFactors o) (fun o' => fit o' /\ exists c, o' = set_scale c o).
  Proof.
    intros F. unfold computeScaleFactors. pose proof (fi_n _ F) as Hn. assert (E0 : exists c, o = set_scale c o) by (exists (op_scale o); destruct o; reflexivity).
    eapply safe_bind; [apply (safe_for (fun o' => fit o' /\ exists c, o' = set_scale c o)); [|auto]|].
    - intros k o' Hk [F' [c ->]]. unfold scale_sens. eapply safe_bind; [apply max_safe; [exact F'|lia]|]. intros m _. eapply safe_bind; [apply (safe_vset_len _ _ _ (op_n o + 1)); [pose proof (fi_scale _ F') as L|exact (fi_scale _ F')]|].
      + cbn in *. lia.
      + intros c' L. split; [apply fit_scale; [exact F'|exact L]|]. eexists. reflexivity.
    - intros o1 [F1 [c1 ->]]. eapply safe_bind; [apply (safe_for (fun s => fit (fst s) /\ (exists c, fst s = set_scale c o) /\ length (snd s) = op_n o + 1)); [|cbn; rewrite replicate_length; eauto]|].
      + intros k [o' g] Hk (F' & [c E] & Lg). cbn [fst snd] in *. subst o'. unfold scale_grad. eapply safe_bind; [apply gradients_safe; [exact F'|exact Hk|exact Lg]|]. intros g' Lg'. cbn in Lg', Hk. pose proof (fi_scale _ F') as L. cbn in L.
        eapply safe_bind; [apply safe_vget; lia|]. intros gi _. eapply safe_bind; [apply safe_vget; cbn; lia|]. intros ci _. eapply safe_bind; [apply (safe_vset_len _ _ _ (op_n o + 1)); cbn; lia|].
        intros c' L'. cbn [safe fst snd]. split; [apply fit_scale; [exact F'|exact L']|]. split; [eexists; reflexivity|exact Lg'].
      + intros [o' g] (F' & E & _). exact (conj F' E).
  Qed.
  Lemma shrink_safe fuel (out : T -> bool) l : safe (shrink fuel out l) (fun _ => True).
  Proof. revert l. induction fuel as [|f IH]; intros l; cbn [shrink]; destruct (out l); cbn; auto. Qed.
  Lemma limits_safe fuel o : fit o -> safe (computeLambdaLimits fuel o) (fun o' => fit o' /\ exists a b c, o' = set_limits a b c o).
  Proof.
    intros F. unfold computeLambdaLimits. pose proof (fi_n _ F) as Hn. apply (safe_for (fun o' => fit o' /\ exists a b c, o' = set_limits a b c o)).
    - intros k o' Hk (F' & a & b & c & ->). unfold lambda_limit. set (o' := set_limits a b c o) in *. assert (En : op_n o' = op_n o) by reflexivity. rewrite <- En in Hk.
      eapply safe_bind; [apply index_safe; [exact F'|exact Hk]|]. intros j ->. eapply safe_bind; [apply max_safe; [exact F'|lia]|]. intros m _.
      eapply safe_bind; [apply safe_vget; rewrite (fi_scale _ F'); exact Hk|]. intros sc _. cbv zeta. eapply safe_bind; [apply (safe_vset_len _ _ _ (op_n o' + 1)); rewrite (fi_neg _ F'); [exact Hk|reflexivity]|]. intros ne Lne.
      eapply safe_bind; [apply (safe_vset_len _ _ _ (op_n o' + 1)); rewrite (fi_pos _ F'); [exact Hk|reflexivity]|]. intros po Lpo. eapply safe_bind; [apply safe_vget; rewrite (fi_lam _ F'); exact Hk|]. intros l _.
      eapply safe_bind; [apply shrink_safe|]. intros l1 _. eapply safe_bind; [apply shrink_safe|]. intros l2 _.
      eapply safe_bind; [apply (safe_vset_len _ _ _ (op_n o' + 1)); rewrite (fi_lam _ F'); [exact Hk|reflexivity]|]. intros la Lla. split; [apply fit_limits; assumption|]. exists ne, po, la. reflexivity.
    - split; [exact F|]. exists (op_neg o), (op_pos o), (op_lambdas o). destruct o; reflexivity.
  Qed.

  (** ** Constraints *)
  Lemma vertex_safe o v : fit o -> forall n k, k + n <= op_n o + 1 -> safe (vertex_lambda o v k n) (fun la => length la = n).
  Proof.
    intros F. induction n as [|n IH]; intros k Hk; cbn [vertex_lambda]; [reflexivity|]. eapply safe_bind with (P := fun _ => True).
    - destruct (Nat.testbit v k); (eapply safe_impl; [apply safe_vget; rewrite ?(fi_pos _ F), ?(fi_neg _ F); lia|auto]).
    - intros l _. eapply safe_bind; [apply IH; lia|]. intros r L. cbn. congruence.
  Qed.
  Lemma change_safe i v o : fit o -> i < op_n o -> safe (constraint_change (op_n o + 1) i v o) (fun r => exists d, length d = length ps /\ fst r = set_disp d o).
  Proof.
    intros F Hi. unfold constraint_change. pose proof (fi_n _ F). eapply safe_bind; [apply (vertex_safe o v F); lia|]. intros la L. eapply safe_bind; [apply displacements_safe; assumption|]. intros o' (d & Ld & ->).
    assert (F' : fit (set_disp d o)) by (apply fit_disp; assumption). eapply safe_bind; [apply index_safe; [exact F'|cbn; lia]|]. intros j ->.
    eapply safe_bind; [apply (points_safe (set_disp d o)); [exact F'|]|].
    - intros s k p Hp Hk. unfold change_step. destruct (bp_fixed p) eqn:Hf; [reflexivity|]. eapply safe_bind; [apply safe_vget; cbn; lia|]. intros d' _. eapply safe_bind; [apply sens_safe; [exact Hp|exact Hf|lia]|]. intros a _. reflexivity.
    - intros [c k] _. exists d. auto.
  Qed.
  Lemma ninsert_length (x : T) l : length (ninsert x l) = S (length l).
  Proof. induction l as [|y l IH]; cbn; [reflexivity|]. destruct (x <? y)%num; cbn; lia. Qed.
  Lemma nsort_length (l : list T) : length (nsort l) = length l.
  Proof.
    unfold nsort. assert (G : forall m s, length (foldl (fun s x => ninsert x s) s m) = length s + length m); [|rewrite G; reflexivity].
    induction m as [|x m IH]; intros s; cbn; [lia|]. rewrite IH, ninsert_length. lia.
  Qed.
  Lemma one_safe i o : fit o -> i < op_n o -> safe (one_constraint (op_n o + 1) i o) (fun r => fit (fst r) /\ (exists d t, fst r = set_otarget t (set_disp d o)) /\ (never_dropped (op_dist o) (op_isEq o) i -> snd r = true)).
  Proof.
    intros F Hi. unfold one_constraint. eapply safe_bind; [apply (safe_for_i (fun k s => (exists d, length d = length ps /\ fst s = set_disp d o) /\ length (snd s) = k))|].
    - intros k [o' ch] Hk [(d & Ld & E) Lc]. cbn [fst snd] in *. subst o'. assert (F' : fit (set_disp d o)) by (apply fit_disp; assumption).
      eapply safe_bind; [exact (change_safe i k (set_disp d o) F' Hi)|]. intros [o2 c] (d2 & L2 & E2). cbn [fst] in E2. subst o2. cbn [safe fst snd]. split; [exists d2; auto|]. rewrite app_length. cbn. lia.
    - cbn. split; [|reflexivity]. exists (op_disp o). split; [apply F|]. destruct o; reflexivity.
    - intros [o' ch] [(d & Ld & E) Lc]. cbn [fst snd] in *. subst o'. assert (F' : fit (set_disp d o)) by (apply fit_disp; assumption). pose proof (Nat.pow_nonzero 2 (op_n o + 1) ltac:(lia)) as P.
      eapply safe_bind; [apply safe_vget; rewrite nsort_length; lia|]. intros mn _. eapply safe_bind; [apply safe_vget; rewrite nsort_length; lia|]. intros mx _. cbv zeta.
      eapply safe_bind; [apply safe_vget; cbn; rewrite (fi_dist _ F); exact Hi|]. intros x Ex. cbn in Ex.
      assert (E0 : exists d' t, set_disp d o = set_otarget t (set_disp d' o)) by (exists d, (op_target o); destruct o; reflexivity).
      assert (Ht : forall y, safe (vset (op_target (set_disp d o)) i y) (fun t => length t = op_n o)) by (intros y; apply safe_vset_len; cbn; rewrite (fi_target _ F); [exact Hi|reflexivity]).
      destruct (x <? n0)%num eqn:Lx; [destruct (x <? mn * nlit 99 100)%num|destruct (x >? mx * nlit 99 100)%num].
      + eapply safe_bind; [apply Ht|]. intros t Lt. cbn [safe fst snd]. split; [apply fit_target; [exact F'|exact Lt]|]. split; [exists d, t; reflexivity|auto].
      + cbn [safe fst snd]. auto.
      + eapply safe_bind; [apply safe_vget; cbn; rewrite (fi_isEq _ F); exact Hi|]. intros e Ee. cbn in Ee. destruct e.
        * eapply safe_bind; [apply Ht|]. intros t Lt. cbn [safe fst snd]. split; [apply fit_target; [exact F'|exact Lt]|]. split; [exists d, t; reflexivity|auto].
        * cbn [safe fst snd]. split; [exact F'|]. split; [exact E0|]. intros [Q|(d' & Ed & Ld')]; congruence.
      + cbn [safe fst snd]. auto.
  Qed.
  Lemma fit_cut_none o : fit o -> fit (cut_constraints 0 o).
  Proof.
    intros []. constructor; cbn; rewrite ?resize_length; auto; try lia. rewrite fi_index0. replace (op_n o + 1) with (S (op_n o)) by lia. apply list_eq. intros [|i]; [reflexivity|]. apply lookup_ge_None_2. rewrite resize_length. lia.
  Qed.
  Lemma shift_safe o active k : fit o -> length active = op_n o -> k < op_n o -> forall a, a = k \/ (active !! k = Some false) ->
    safe (shift_constraint active k (o, a)) (fun r => fst r = o /\ snd r = if decide (active !! k = Some true) then S a else a).
  Proof.
    intros F L Hk a Ha. unfold shift_constraint. eapply safe_bind; [apply safe_vget; lia|]. intros b Eb. rewrite Eb in *. destruct b.
    - destruct Ha as [->|Ha]; [|discriminate]. destruct F.
      do 4 (eapply safe_bind; [apply safe_vget; lia|]; intros ? ?; eapply safe_bind; [apply safe_vset; lia|]; intros ? ->; rewrite list_insert_id by assumption).
      eapply safe_bind; [apply safe_vget; rewrite fi_index0, seq_length; lia|]; intros ? ?; eapply safe_bind; [apply safe_vset; rewrite fi_index0, seq_length; lia|]; intros ? ->; rewrite list_insert_id by assumption.
      do 3 (eapply safe_bind; [apply safe_vget; lia|]; intros ? ?; eapply safe_bind; [apply safe_vset; lia|]; intros ? ->; rewrite list_insert_id by assumption).
      cbn [safe fst snd]. rewrite decide_True by reflexivity. split; [destruct o; reflexivity|reflexivity].
    - cbn [safe fst snd]. rewrite decide_False by discriminate. auto.
  Qed.
  Lemma distances_safe fuel o : fit o -> N < 31 -> op_n o <= 1 \/ (forall i, i < op_n o -> never_dropped (op_dist o) (op_isEq o) i) -> safe (computeConstraintDistances fuel (op_n o) o) fit.
  Proof.
    intros F HN Hk. destruct fuel as [|fuel]; [exact I|]. cbn [computeConstraintDistances]. pose proof (fi_n _ F) as Hn. destruct (Nat.leb_spec 32 (op_n o + 1)); [lia|].
    eapply safe_bind; [apply (safe_for_i (fun k s => fit (fst s) /\ (exists d t, fst s = set_otarget t (set_disp d o)) /\ length (snd s) = k /\
      ((forall i, i < op_n o -> never_dropped (op_dist o) (op_isEq o) i) -> forall i, i < k -> snd s !! i = Some true)))|].
    - intros k [o' ac] Hkn (F' & (d & t & E) & La & Ht). cbn [fst snd] in *. subst o'. eapply safe_bind; [apply (one_safe k (set_otarget t (set_disp d o))); [exact F'|exact Hkn]|].
      intros [o2 b] (F2 & (d2 & t2 & E2) & Hb). cbn [fst snd] in *. subst o2. cbn [safe fst snd]. split; [exact F2|]. split; [exists d2, t2; reflexivity|]. rewrite app_length. split; [cbn; lia|].
      intros Hnd i Hi. destruct (decide (i < k)) as [L|L]; [rewrite lookup_app_l by lia; apply Ht; auto|]. replace i with k by lia. rewrite lookup_app_r, La, Nat.sub_diag by lia. cbn. f_equal. apply Hb. cbn. apply Hnd, Hkn.
    - cbn. split; [exact F|]. split; [exists (op_disp o), (op_target o); destruct o; reflexivity|]. split; [reflexivity|]. intros; lia.
    - intros [o1 ac] (F1 & (d & t & E1) & La & Ht). cbn [fst snd] in *. assert (En : op_n o1 = op_n o) by (subst o1; reflexivity). rewrite <- En in *.
      assert (Cases : (forall i, i < op_n o1 -> ac !! i = Some true) \/ (op_n o1 = 1 /\ ac = [false])).
      { destruct Hk as [Hk|Hk]; [|left; apply Ht; exact Hk]. destruct ac as [|[|] [|? ac]]; cbn in La; [left; intros; lia|left; intros [|i] Hi; [reflexivity|lia]|lia|right; auto|lia]. }
      destruct Cases as [All|[E ->]].
      + eapply safe_bind; [apply (safe_for_i (fun k s => s = (o1, k))); [|reflexivity]|].
        * intros k s Hk' ->. eapply safe_impl; [apply (shift_safe o1 ac k F1 La Hk' k); auto|]. intros [o2 a] [E2 Ea]. cbn [fst snd] in *. rewrite decide_True in Ea by (apply All, Hk'). rewrite E2, Ea. reflexivity.
        * intros s ->. rewrite Nat.ltb_irrefl. rewrite andb_false_r. exact F1.
      + rewrite E. cbn [for_ for_from]. eapply safe_bind; [eapply safe_bind; [apply (shift_safe o1 [false] 0 F1 La ltac:(lia) 0); auto|]|].
        * intros [o2 a] [E2 Ea]. cbn [fst snd] in *. rewrite decide_False in Ea by discriminate. rewrite E2, Ea. exact (eq_refl (o1, 0)).
        * intros s <-. rewrite E. cbn. apply fit_cut_none, F1.
  Qed.

  (** ** solve *)
  Definition ready o : Prop := fit o /\ length (op_grads o) = op_n o + 1.
  Lemma store_safe o k : ready o -> k < op_n o + 1 -> safe (store_gradient k o) (fun o' => ready o' /\ op_n o' = op_n o /\ op_code o' = op_code o).
  Proof.
    intros [F L] Hk. unfold store_gradient. eapply safe_bind; [apply gradients_safe; [exact F|exact Hk|apply replicate_length]|]. intros g _. eapply safe_bind; [apply (safe_vset_len _ _ _ (op_n o + 1)); lia|].
    intros gs Lg. split; [|split; reflexivity]. split; [apply fit_grads, F|exact Lg].
  Qed.
  Lemma callback_safe o la g i : ready o -> length la = op_n o + 1 -> i <= op_n o -> safe (opt_callback o la g i) (fun r => exists d, length d = length ps /\ fst (fst r) = set_disp d o).
  Proof.
    intros [F L] Ll Hi. unfold opt_callback. eapply safe_bind; [apply displacements_safe; assumption|]. intros o' (d & Ld & ->). assert (F' : fit (set_disp d o)) by (apply fit_disp; assumption).
    eapply safe_bind with (P := fun _ => True); [destruct g; [eapply safe_impl; [apply safe_vget; cbn; lia|auto]|exact I]|]. intros gr _. eapply safe_bind; [apply function_safe; [exact F'|cbn; lia]|]. intros v _. exists d. auto.
  Qed.
  Lemma run_safe P t : forall o, ready o -> asks_within (op_n o) P t -> safe (run_nlopt t o) (fun r => P (snd r) /\ exists d, length d = length ps /\ fst r = set_disp d o).
  Proof.
    induction t as [i la g next IH|r]; intros o R A; cbn [run_nlopt asks_within] in *.
    - destruct A as [Hi A]. eapply safe_bind; [apply callback_safe; [exact R|apply tabulate_length|exact Hi]|]. intros [[o' v] gr] (d & Ld & E). cbn [fst] in E. subst o'.
      assert (R' : ready (set_disp d o)) by (destruct R; split; [apply fit_disp; assumption|assumption]). eapply safe_impl; [apply IH; [exact R'|apply A]|]. intros [o2 r] (Pr & d2 & L2 & E2). cbn [fst snd] in *. split; [exact Pr|]. exists d2. split; [exact L2|]. rewrite E2. reflexivity.
    - cbn. split; [exact A|]. exists (op_disp o). split; [apply R|]. destruct o; reflexivity.
  Qed.
  Lemma attempts_safe nlopt fuel : proper nlopt -> forall k ob o, ready o -> (k = 0 \/ op_code o <> None /\ ob <> None) ->
    safe (attempts nlopt fuel k ob o) (fun r => ready (fst r) /\ match snd r with Some ob' => ob' <> None | None => True end).
  Proof.
    intros Hp. induction fuel as [|fuel IH]; intros k ob o R Hc; [exact I|]. cbn [attempts]. eapply safe_bind; [apply (run_safe (fun r => k = 0 -> not_caught r)); [exact R|apply Hp]|].
    intros [o1 r] (Nc & d & Ld & E). cbn [fst snd] in *.
    assert (R1 : ready o1) by (subst o1; destruct R; split; [apply fit_disp; assumption|assumption]). assert (Ec : op_code o1 = op_code o) by (subst o1; reflexivity).
    assert (Again : forall o2 ob2, ready o2 -> op_code o2 <> None -> ob2 <> None -> safe (let! code := init_get (op_code o2) in if (code <? 0)%Z then attempts nlopt fuel (S k) ob2 o2 else Ok (o2, Some ob2))
      (fun r => ready (fst r) /\ match snd r with Some ob' => ob' <> None | None => True end)).
    { intros o2 ob2 R2 C2 B2. destruct (op_code o2) as [c|] eqn:Ec2; [|congruence]. cbn [init_get obind]. destruct (c <? 0)%Z; [|cbn; auto]. apply IH; [exact R2|]. right. split; [congruence|exact B2]. }
    assert (RL : forall x, ready (set_lambdas (tabulate (op_n o1 + 1) x) o1)) by (intros x; destruct R1; split; [apply fit_lambdas; [assumption|apply tabulate_length]|assumption]).
    destruct r as [code x v|e x v].
    - apply Again; [destruct (RL x); split; [apply fit_code; assumption|assumption]|discriminate|discriminate].
    - destruct e; [| |cbn; auto].
      + destruct Hc as [->|[C B]]; [destruct (Nc eq_refl)|]. eapply safe_bind.
        * eapply (safe_impl _ (fun r => length r = length (op_target o1))); [apply (safe_map (fun _ x => Ok (x * nlit 7 10)%num))|].
          -- destruct R1 as [F1 _]. cbn. rewrite (fi_target _ F1). lia.
          -- intros; exact I.
          -- intros t Lt. exact Lt.
        * intros t Lt. apply Again; [destruct (RL x) as [F' L']; split; [apply fit_target; [exact F'|]|assumption]; cbn; rewrite Lt; apply (fi_target _ (proj1 R1))|cbn; congruence|destruct v; [discriminate|exact B]].
      + destruct Hc as [->|[C B]]; [destruct (Nc eq_refl)|]. apply Again; [apply RL|cbn; congruence|destruct v; [discriminate|exact B]].
  Qed.
  Lemma rescale_safe o : fit o -> safe (rescaleDisplacements o) (fun r => fit (fst r) /\ op_n (fst r) = op_n o).
  Proof.
    intros F. unfold rescaleDisplacements. eapply safe_bind.
    - assert (G : forall l m sc di, (forall p, p ∈ l -> p ∈ ps) -> length l = length di -> (m = n0 \/ sc <> None) -> safe (ofold (max_disp (op_limit o)) l (m, sc, di)) (fun r => fst (fst r) = n0 \/ snd (fst r) <> None)).
      { induction l as [|p l IH]; intros m sc di Hl L Hm; cbn [ofold]; [exact Hm|]. destruct di as [|d di]; [discriminate|]. cbn in L. unfold max_disp at 1.
        destruct (bp_fixed p); [apply IH; [intros q Hq; apply Hl; right; exact Hq|lia|exact Hm]|]. destruct (_ && _); cbn [obind]; apply IH; try (intros q Hq; apply Hl; right; exact Hq); try lia; [right; discriminate|exact Hm]. }
      apply (G (op_points o) n0 None (op_disp o)); [rewrite (fi_points _ F); auto|rewrite (fi_points _ F), (fi_disp _ F); reflexivity|auto].
    - intros [[m sc] di] Hm. cbn [fst snd] in Hm. destruct (m =? n0)%num eqn:E; [cbn; auto|]. destruct Hm as [->|Hm]; [congruence|]. destruct sc as [sc|]; [|congruence]. cbn [init_get obind].
      eapply safe_bind.
      + eapply (safe_impl _ (fun r => length r = length (op_lambdas o))); [apply (safe_map (fun _ x => Ok (x * sc)%num)); [rewrite (fi_lam _ F); lia|intros; exact I]|]. intros la L. exact L.
      + intros la L. rewrite (fi_lam _ F) in L. assert (F' : fit (set_lambdas la o)) by (apply fit_lambdas; assumption). eapply safe_bind; [apply displacements_safe; [exact F'|exact L]|]. intros o' (d & Ld & ->). split; [apply fit_disp; assumption|reflexivity].
  Qed.
  Lemma conclude_safe ob o : fit o -> ob <> None -> safe (conclude ob o) (fun r => length (op_disp (fst r)) = length ps /\ length (op_points (fst r)) = length ps /\ length (op_lambdas (fst r)) = N + 1).
  Proof.
    intros F Ob. pose proof (fi_n _ F) as Hn. unfold conclude. eapply safe_bind; [apply displacements_safe; [exact F|apply F]|]. intros o1 (d & Ld & ->). eapply safe_bind; [apply rescale_safe, fit_disp; assumption|].
    intros [o2 sc] [F2 E2]. cbn [fst] in *. cbn [op_n set_disp] in E2. destruct ob as [ob|]; [|congruence]. cbn [init_get obind]. cbv zeta. eapply safe_bind.
    - eapply (safe_impl _ (fun r => length r = length (op_lambdas o2))); [apply (safe_map2 (fun i x => let! c := vget (op_scale o2) i in Ok (x * c)%num))|].
      + intros i l. destruct (vget l i); cbn [obind]; auto. rewrite obind_assoc. reflexivity.
      + rewrite (fi_lam _ F2). lia.
      + intros i x Hi. eapply safe_bind; [apply safe_vget; rewrite (fi_scale _ F2); exact Hi|]. intros; exact I.
      + intros la L. exact L.
    - intros la L. rewrite (fi_lam _ F2) in L. assert (F3 : fit (set_lambdas la o2)) by (apply fit_lambdas; assumption). eapply safe_bind; [apply safe_vget; cbn; lia|]. intros l0 _.
      eapply safe_bind; [apply safe_oupdate; [intros; exact I|cbn; rewrite take_length; lia]|]. intros p' Lp. cbn [op_points set_time set_lambdas] in Lp. rewrite (fi_points _ F2) in Lp.
      eapply safe_bind with (P := fun o' => length (op_disp o') = length ps /\ length (op_points o') = length ps /\ length (op_lambdas o') = N + 1 /\ length (op_scale o') = op_n o2 + 1).
      + cbn [op_n op_n0 set_points set_time set_lambdas]. rewrite (fi_n0 _ F2). destruct (Nat.ltb_spec (op_n o2) N) as [Lt|Ge].
        * destruct Hn as [Hn|Hn]; [lia|]. rewrite E2, Hn. cbn [Nat.ltb Nat.leb safe]. cbn [op_disp op_points op_lambdas op_scale set_points set_time set_lambdas]. rewrite resize_length. rewrite (fi_disp _ F2), (fi_scale _ F2), E2, Hn. repeat split; try lia; exact Lp.
        * cbn [safe]. cbn [op_disp op_points op_lambdas op_scale set_points set_time set_lambdas]. rewrite (fi_disp _ F2), (fi_scale _ F2). pose proof (fi_n _ F2). repeat split; try lia; exact Lp.
      + intros o4 (A & B & C & D). eapply safe_bind; [apply safe_vget; lia|]. intros c0 _. cbn. auto.
  Qed.
End safety.

Theorem solve_safe {T : Type} {NT : Num T} points (dist lambdas : list T) time limit isMax isEq nlopt fuel o :
  (n0 =? n0)%num = true -> optimise_ctor points dist lambdas time limit isMax isEq = Ok o -> length dist < 31 -> has_sens (length lambdas) points ->
  isEq = [] \/ length isEq = length dist -> proper nlopt ->
  length dist <= 1 \/ (forall i, i < length dist -> never_dropped dist isEq i) ->
  safe (solve nlopt fuel o) (fun r => length (op_disp (fst r)) = length points /\ (snd r <> None -> length (op_points (fst r)) = length points /\ length (op_lambdas (fst r)) = length lambdas)).
Proof.
  intros Z E HN Hs He Hp Hk. apply ctor_inv in E as (_ & _ & _ & L & ->). set (N := length dist) in *. assert (Ll : length lambdas = N + 1) by (unfold N; lia). rewrite Ll in Hs |- *.
  unfold solve. set (o := mkOpt _ _ _ _ _ _ _ _ _ _ _ _ _ _ _ _ _).
  eapply safe_bind with (P := ready points N).
  - unfold prepare. cbn [op_points op_disp o]. set (o1 := set_index _ _).
    assert (F1 : fit points N o1).
    { constructor; cbn; rewrite ?replicate_length, ?resize_length; auto; try lia. destruct He as [->|He]; cbn; [apply replicate_length|]. destruct (Nat.eqb_spec (length isEq) 0); [rewrite replicate_length; reflexivity|exact He]. }
    eapply safe_bind; [apply (scale_safe points N Hs o1 F1)|]. intros o2 [F2 [c ->]]. eapply safe_bind.
    { eapply (safe_impl _ (fun r => length r = N + 1)); [|intros r Lr; exact Lr]. eapply safe_impl; [apply (safe_map2 (fun i x => let! c := vget (op_scale (set_scale c o1)) i in Ok (x / c)%num))|].
      - intros i l. destruct (vget l i); cbn [obind]; auto. rewrite obind_assoc. reflexivity.
      - cbn. lia.
      - intros i x Hi. eapply safe_bind; [apply safe_vget; rewrite (fi_scale _ _ _ F2); exact Hi|]. intros; exact I.
      - intros r Lr. cbn in Lr. lia. }
    intros la Lla. eapply safe_bind; [apply limits_safe; [exact Hs|apply fit_lambdas; [exact F2|exact Lla]]|]. intros o3 (F3 & a & b & c' & ->).
    eapply safe_bind with (P := fit points N).
    + set (o3 := set_limits a b c' _) in *.
      assert (D : safe (computeConstraintDistances (op_n o3 + 1) (op_n o3) o3) (fit points N)).
      { apply distances_safe; [exact Z|exact Hs|exact F3|lia|]. destruct Hk as [Hk|Hk]; [left; exact Hk|right]. intros i Hi. destruct (Hk i Hi) as [Q|Q]; [left|right; exact Q]. cbn. destruct He as [->|He]; [discriminate|].
        destruct (Nat.eqb_spec (length isEq) 0); [change (op_n o3) with N in Hi; lia|exact Q]. }
      destruct (0 <? op_n o3); [exact D|exact F3].
    + intros o4 F4. set (o5 := set_grads _ _). assert (R5 : ready points N o5) by (split; [apply fit_grads, F4|cbn; apply resize_length]).
      eapply safe_impl; [apply (safe_for (fun o' => ready points N o' /\ op_n o' = op_n o4)); [|auto]|].
      * intros k o' Hk' [R' E']. eapply safe_impl; [apply store_safe; [exact Hs|exact R'|rewrite E'; exact Hk']|]. intros o6 (R6 & E6 & _). split; [exact R6|congruence].
      * intros o6 [R6 E6]. exact R6.
  - intros o1 R1. eapply safe_bind; [apply (attempts_safe points N Hs nlopt fuel Hp); [exact R1|auto]|]. intros [o2 r] [R2 Hr]. cbn [fst snd] in *. destruct r as [ob|].
    + eapply safe_bind; [apply (conclude_safe Z points N Hs); [apply R2|exact Hr]|]. intros [o3 v] (A & B & C). cbn [fst snd] in *. cbn. auto.
    + cbn. split; [apply R2|congruence].
Qed.
