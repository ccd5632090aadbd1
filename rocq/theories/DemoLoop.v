(** * DemoLoop: the main loops of the demo programs. *)

From Coq Require Import Reals Lra.
From Verif Require Import Base Num NumR NumInt MeshSpec LevelSetModel LevelSetSpec LevelSetCalls FmmFacts LevelSetHist BoundaryModel OptModel DemoModel DemoSpec.

Section generic.
  Context {T : Type} {NT : Num T}.
  Variables (d : Demo T) (nlopt : nat -> nat -> Opt T -> Nlopt T) (fuel : nat) (rng : nat -> nat -> T) (interval maxTime : T).

  Lemma main_loop_history turns k r r' : main_loop turns d nlopt fuel rng interval maxTime k r = Ok r' ->
    exists l, history d nlopt fuel rng interval maxTime k r l r' /\ length l <= turns /\ (sm_time (rn_sim r') <? maxTime)%num = false.
  Proof.
    revert k r. induction turns as [|n IH]; intros k r E; cbn in E; destruct (sm_time (rn_sim r) <? maxTime)%num eqn:Et; try discriminate.
    - injection E as <-. exists []. repeat split; [constructor|cbn; lia|exact Et].
    - destruct (full_turn d nlopt fuel rng interval k r) as [[r1 b]| | |] eqn:Ef; try discriminate. cbn [obind] in E.
      destruct (IH _ _ E) as (l & Hl & Ll & Hend). exists ((sm_time (rn_sim r1), b) :: l). repeat split; [econstructor; eassumption|cbn; lia|exact Hend].
    - injection E as <-. exists []. repeat split; [constructor|cbn; lia|exact Et].
  Qed.

  (** ** Reinitialisation *)
  Lemma sampling_keeps fl carried m next log m' next' log' : sampling fl d interval carried m next log = Ok (m', next', log') ->
    sm_nReinit m' = sm_nReinit m /\ sm_time m' = sm_time m /\ sm_bd m' = sm_bd m /\ sm_lambdas m' = sm_lambdas m.
  Proof using d interval. clear nlopt rng maxTime fuel.
    revert m next log. induction fl as [|f IH]; intros m next log E; cbn in E; destruct (next <=? sm_time m)%num; try discriminate.
    - injection E as <- _ _. auto.
    - destruct (d_measure d carried (sm_ls m) (sm_bd m)) as [[s v]| | |]; try discriminate. cbn [obind] in E. apply IH in E. cbn in E. exact E.
    - injection E as <- _ _. auto.
  Qed.
  Lemma turn_inv nl rg m m' c b : turn d nl fuel rg m = Ok (m', c, b) ->
    exists b1 dist o0 o v s1 dt s2 s3 ri s4 n s5 b5,
      d_assign d (sm_ls m) (sm_bd m) = Ok b1 /\ d_carry d (sm_ls m) b1 = Ok c /\ d_dist d (sm_ls m) = Ok dist /\
      optimise_ctor (bd_points b1) dist (sm_lambdas m) n0 (ls_moveLimit (sm_ls m)) false [] = Ok o0 /\ OptModel.solve nl fuel o0 = Ok (o, Some v) /\
      (match d_temp d with
       | None => computeVelocities (sm_ls m) (op_points o) = Ok s1 /\ dt = op_time o
       | Some t => exists ps n', computeVelocities_noise (sm_ls m) (op_points o) (op_time o) t rg = Ok (s1, ps, dt, n')
       end) /\
      LevelSetModel.computeGradients s1 = Ok s2 /\ update s2 dt = Ok (s3, ri) /\ reinit_rule ri (sm_nReinit m) s3 = Ok (s4, n, b) /\
      new_boundary d s4 = Ok (s5, b5) /\ m' = mkSim s5 b5 (op_lambdas o) n (sm_time m + dt)%num.
  Proof.
    unfold turn. intros E. cbv zeta in E.
    apply obind_Ok in E as (b1 & E1 & E). apply obind_Ok in E as (c1 & E2 & E). apply obind_Ok in E as (dist & E3 & E). apply obind_Ok in E as (o0 & E4 & E).
    apply obind_Ok in E as ([o v] & E5 & E). destruct v as [v|]; [|discriminate]. apply obind_Ok in E as ([s1 dt] & E6 & E).
    apply obind_Ok in E as (s2 & E7 & E). apply obind_Ok in E as ([s3 ri] & E8 & E). apply obind_Ok in E as ([[s4 n] b'] & E9 & E).
    apply obind_Ok in E as ([s5 b5] & E10 & E). injection E as <- <- <-.
    exists b1, dist, o0, o, v, s1, dt, s2, s3, ri, s4, n, s5, b5. repeat (split; [eassumption|]). split; [|auto 10].
    destruct (d_temp d) as [t|].
    - apply obind_Ok in E6 as ([[[s1' ps] dt'] n'] & X & Y). injection Y as <- <-. eauto.
    - apply obind_Ok in E6 as (s1' & X & Y). injection Y as <- <-. auto.
  Qed.

  Lemma turn_counts nl rg m m' c b : turn d nl fuel rg m = Ok (m', c, b) ->
    (b = true /\ sm_nReinit m' = 1) \/ (b = false /\ sm_nReinit m <> 20 /\ sm_nReinit m' = sm_nReinit m + 1).
  Proof.
    intros E. apply turn_inv in E as (b1 & dist & o0 & o & v & s1 & dt & s2 & s3 & ri & s4 & n & s5 & b5 & _ & _ & _ & _ & _ & _ & _ & _ & E & _ & ->). cbn [sm_nReinit].
    unfold reinit_rule in E. apply obind_Ok in E as ([[s' n'] r] & E & X). injection X as <- <- <-.
    destruct ri; cbn [negb] in E; [injection E as _ <- <-; left; auto|].
    destruct (Nat.eqb_spec (sm_nReinit m) 20) as [e|e].
    - apply obind_Ok in E as (s6 & _ & X). injection X as _ <- <-. left; auto.
    - injection E as _ <- <-. right; auto.
  Qed.
  Lemma full_turn_counts k r r' b : full_turn d nlopt fuel rng interval k r = Ok (r', b) ->
    (b = true /\ sm_nReinit (rn_sim r') = 1) \/ (b = false /\ sm_nReinit (rn_sim r) <> 20 /\ sm_nReinit (rn_sim r') = sm_nReinit (rn_sim r) + 1).
  Proof.
    unfold full_turn. intros E. apply obind_Ok in E as ([[m c] ri] & E1 & E). apply obind_Ok in E as ([[m2 next] log] & E2 & E). injection E as <- <-.
    cbn [rn_sim]. apply sampling_keeps in E2 as (-> & _). exact (turn_counts _ _ _ _ _ _ E1).
  Qed.

  Notation hist := (history d nlopt fuel rng interval maxTime).
  (** [q] counts the turns since the last reinitialisation; it never passes 20. *)
  Lemma quiet_run k r l r' q : hist k r l r' -> sm_nReinit (rn_sim r) = q -> q <= 20 ->
    sm_nReinit (rn_sim r') <= 20 /\
    forall l1 n l2, map snd l = l1 ++ replicate n false ++ l2 -> (l1 = [] -> n + q <= 20) /\ (true ∈ l1 \/ l1 <> [] /\ 1 <= q -> n + 1 <= 20) /\ n <= 20.
  Proof.
    intros Hh. revert q. induction Hh as [k r|k r r1 b l r2 Ht Hf Hh IH]; intros q Eq Hq.
    - split; [lia|]. intros l1 n l2 E. cbn in E. destruct l1; [|discriminate]. destruct n; [|discriminate]. repeat split; intros; lia.
    - destruct (full_turn_counts _ _ _ _ Hf) as [[Hb Hn]|(Hb & Hq' & Hn)].
      + destruct (IH 1 Hn ltac:(lia)) as [I0 I]. split; [exact I0|]. intros l1 n l2 E. cbn [map snd] in E. rewrite Hb in E. destruct l1 as [|x l1].
        * destruct n; [|discriminate]. repeat split; intros; lia.
        * injection E as <- E. destruct (I l1 n l2 E) as (A & B & C). split; [discriminate|]. split; [|exact C]. intros _.
          destruct l1 as [|y l1]; [specialize (A eq_refl); lia|]. apply B. right. split; [discriminate|lia].
      + destruct (IH (q + 1)) as [I0 I]; [lia|lia|]. split; [exact I0|]. intros l1 n l2 E. cbn [map snd] in E. rewrite Hb in E. destruct l1 as [|x l1].
        * split; [|split].
          -- intros _. destruct n as [|n]; [lia|]. cbn in E. injection E as E. destruct (I [] n l2 E) as [A _]. specialize (A eq_refl). lia.
          -- intros [X|[X _]]; [inversion X|congruence].
          -- destruct n as [|n]; [lia|]. cbn in E. injection E as E. destruct (I [] n l2 E) as [A _]. specialize (A eq_refl). lia.
        * injection E as <- E. destruct (I l1 n l2 E) as (A & B & C). split; [discriminate|]. split; [|exact C]. intros X.
          destruct l1 as [|y l1].
          -- specialize (A eq_refl). lia.
          -- apply B. destruct X as [X|[_ X]]; [left; inversion X; subst; assumption|right; split; [discriminate|lia]].
  Qed.
  Theorem reinit_cadence k r l r' : hist k r l r' -> sm_nReinit (rn_sim r) = 0 ->
    forall l1 n l2, map snd l = l1 ++ replicate n false ++ l2 -> n <= 20 /\ (true ∈ l1 -> n <= 19).
  Proof.
    intros Hh H0 l1 n l2 E. destruct (quiet_run k r l r' 0 Hh H0 ltac:(lia)) as [_ Q]. destruct (Q l1 n l2 E) as (_ & B & C). split; [exact C|]. intros X. specialize (B (or_introl X)). lia.
  Qed.

  (** What the flag means. *)
  Lemma velocities_keep {NI : NumInt T} W H (s s' : LevelSet T) points : reached W H s -> computeVelocities s points = Ok s' -> exists vel, s' = set_vel vel s.
  Proof.
    intros Hr. pose proof (so_ok _ _ _ (reached_sound _ _ _ Hr)) as Hs. unfold computeVelocities. destruct (initialiseVelocities s points) as [vel0| | |] eqn:E0; cbn [obind]; try discriminate.
    apply init_vel_len in E0. rewrite (ok_vel _ _ _ Hs) in E0.
    destruct (march_vel_frame W H (ls_mesh s) false (ls_sd s) vel0 (ok_topo _ _ _ Hs) (ok_sd _ _ _ Hs) E0) as [->|(o & vel & E & L & _)]; [discriminate|].
    rewrite E. cbn [obind]. intros [= <-]. exists vel. destruct s; reflexivity.
  Qed.
  Lemma gradients_keep (s s' : LevelSet T) : LevelSetModel.computeGradients s = Ok s' -> exists g, s' = set_grad g s.
  Proof. unfold LevelSetModel.computeGradients. intros E. apply obind_Ok in E as (g & _ & E). injection E as <-. eauto. Qed.
  Theorem flag_meaning {NI : NumInt T} W H nl rg m m' c b : reached W H (sm_ls m) -> turn d nl fuel rg m = Ok (m', c, b) ->
    exists points sv s1 s2 s3 dt, velocities_from d rg (sm_ls m) points sv dt /\ LevelSetModel.computeGradients sv = Ok s1 /\
      reached W H s1 /\ ls_sd s1 = ls_sd (sm_ls m) /\ ls_vel s1 = ls_vel sv /\ moved_field s1 dt s2 /\
      (if b then reinitialise s2 = Ok s3 else s3 = s2) /\ reached W H s3 /\ new_boundary d s3 = Ok (sm_ls m', sm_bd m') /\ sm_time m' = (sm_time m + dt)%num.
  Proof.
    intros Hr E. apply turn_inv in E as (b1 & dist & o0 & o & v & s1 & dt & s2 & s3 & ri & s4 & n & s5 & b5 & _ & _ & _ & _ & _ & EV & EG & EU & ER & EB & ->). cbn [sm_ls sm_bd sm_time].
    assert (V : reached W H s1 /\ ls_sd s1 = ls_sd (sm_ls m)).
    { destruct (d_temp d) as [t|].
      - destruct EV as (ps & n' & EV). split; [apply (reached_call _ _ _ _ Hr), c_quiet, (q_velocities_noise _ _ _ _ _ _ _ _ _ EV)|].
        unfold computeVelocities_noise in EV. match type of EV with context [match ?x with pair _ _ => _ end] => destruct x as [dt2 sc] end.
        apply obind_Ok in EV as (s6 & EV & X). injection X as <- _ _ _. destruct (velocities_keep W H _ _ _ Hr EV) as [vel ->]. reflexivity.
      - destruct EV as [EV _]. split; [apply (reached_call _ _ _ _ Hr), c_quiet, (q_velocities _ _ _ EV)|]. destruct (velocities_keep W H _ _ _ Hr EV) as [vel ->]. reflexivity. }
    assert (VF : velocities_from d rg (sm_ls m) (op_points o) s1 dt).
    { unfold velocities_from. destruct (d_temp d); [destruct EV as (ps & n' & EV); eauto|apply EV]. }
    destruct V as [R1 D1]. assert (R2 : reached W H s2) by (apply (reached_call _ _ _ _ R1), c_quiet, (q_gradients _ _ EG)).
    assert (D2 : ls_sd s2 = ls_sd (sm_ls m) /\ ls_vel s2 = ls_vel s1) by (destruct (gradients_keep _ _ EG) as [g ->]; split; [exact D1|reflexivity]). destruct D2 as [D2 D3].
    assert (R3 : reached W H s3) by (apply (reached_call _ _ _ _ R2), (c_update _ _ _ _ EU)).
    destruct (reached_sound _ _ _ R2) as [O2 B2 _ _].
    unfold reinit_rule in ER. apply obind_Ok in ER as ([[s' n'] r] & ER & X). injection X as <- <- <-.
    destruct (update_cases W H s2 dt O2 B2) as (sm & _ & _ & M & [[_ U]|[_ U]]).
    - rewrite U in EU. apply obind_Ok in EU as (s6 & E6 & X). injection X as <- <-. cbn [negb] in ER. injection ER as <- <- <-.
      exists (op_points o), s1, s2, sm, s6, dt. auto 12.
    - rewrite U in EU. injection EU as <- <-. cbn [negb] in ER. destruct (Nat.eqb_spec (sm_nReinit m) 20) as [e|e].
      + apply obind_Ok in ER as (s6 & E6 & X). injection X as <- <- <-. exists (op_points o), s1, s2, sm, s6, dt.
        assert (reached W H s6) by (apply (reached_call _ _ _ _ R3), (c_reinitialise _ _ E6)). auto 12.
      + injection ER as <- <- <-. exists (op_points o), s1, s2, sm, sm, dt. auto 12.
  Qed.

  (** ** Sampling *)
  Lemma sampling_time fl carried m next log m' next' log' : sampling fl d interval carried m next log = Ok (m', next', log') ->
    exists new, log' = log ++ new /\ (forall x, x ∈ new -> fst x = sm_time m) /\ next' = Nat.iter (length new) (fun x => (x + interval)%num) next /\
      (next' <=? sm_time m)%num = false /\ forall j, j < length new -> (Nat.iter j (fun x => (x + interval)%num) next <=? sm_time m)%num = true.
  Proof using d interval. clear nlopt rng maxTime fuel.
    revert m next log. induction fl as [|f IH]; intros m next log E; cbn in E; destruct (next <=? sm_time m)%num eqn:Et; try discriminate.
    - injection E as <- <- <-. exists []. rewrite app_nil_r. repeat split; [intros x Hx; inversion Hx|exact Et|cbn; intros; lia].
    - apply obind_Ok in E as ([s v] & E1 & E). apply IH in E as (new & -> & A & B & C & D). cbn [sm_time] in *. exists ((sm_time m, v) :: new).
      rewrite <- app_assoc. split; [reflexivity|]. split; [|split; [|split; [exact C|]]].
      + intros x Hx. inversion Hx; subst; [reflexivity|auto].
      + rewrite B. cbn [length]. rewrite Nat.iter_succ_r. reflexivity.
      + intros j Hj. cbn [length] in Hj. destruct j as [|j]; [exact Et|]. rewrite Nat.iter_succ_r. apply D. lia.
    - injection E as <- <- <-. exists []. rewrite app_nil_r. repeat split; [intros x Hx; inversion Hx|exact Et|cbn; intros; lia].
  Qed.

  Lemma due_add next a b : due interval (due interval next a) b = due interval next (a + b).
  Proof. unfold due. rewrite Nat.add_comm, Nat.iter_add. reflexivity. Qed.
  Lemma turn_samples k r r' b : full_turn d nlopt fuel rng interval k r = Ok (r', b) ->
    exists new, rn_log r' = rn_log r ++ new /\ (forall x, x ∈ new -> fst x = sm_time (rn_sim r')) /\ rn_next r' = due interval (rn_next r) (length new) /\
      (rn_next r' <=? sm_time (rn_sim r'))%num = false /\ forall j, j < length new -> (due interval (rn_next r) j <=? sm_time (rn_sim r'))%num = true.
  Proof.
    unfold full_turn. intros E. apply obind_Ok in E as ([[m c] ri] & E1 & E). apply obind_Ok in E as ([[m2 next] log] & E2 & E). injection E as <- <-.
    cbn [rn_sim rn_log rn_next]. destruct (sampling_keeps _ _ _ _ _ _ _ _ E2) as (_ & Et & _). apply sampling_time in E2 as (new & -> & A & B & C & D).
    exists new. rewrite Et. auto.
  Qed.
  Theorem samples_due N k r l r' : history d nlopt fuel rng interval maxTime k r l r' ->
    (forall t i j, t ∈ map fst l -> i <= j <= N -> (due interval (rn_next r) j <=? t)%num = true -> (due interval (rn_next r) i <=? t)%num = true) ->
    exists new, rn_log r' = rn_log r ++ new /\ rn_next r' = due interval (rn_next r) (length new) /\
      (length new <= N ->
       (forall j t v, new !! j = Some (t, v) -> exists i, map fst l !! i = Some t /\ (due interval (rn_next r) j <=? t)%num = true /\
          forall i' t', i' < i -> map fst l !! i' = Some t' -> (due interval (rn_next r) j <=? t')%num = false) /\
       (forall i t j, map fst l !! i = Some t -> j <= N -> (due interval (rn_next r) j <=? t)%num = true -> j < length new)).
  Proof.
    intros Hh. revert N. induction Hh as [k r|k r r1 b l r2 Ht Hf Hh IH]; intros N Hord.
    - exists []. rewrite app_nil_r. split; [reflexivity|]. split; [reflexivity|]. intros _. split; intros; discriminate.
    - destruct (turn_samples _ _ _ _ Hf) as (n1' & L1 & T1 & N1 & X1 & Y1). set (t0 := sm_time (rn_sim r1)) in *. cbn [map fst] in *.
      destruct (IH (N - length n1')) as (n2 & L2 & N2 & A2).
      { intros t i j Hin Hij Hj. rewrite N1 in Hj |- *. rewrite due_add in Hj |- *.
        destruct (Nat.le_gt_cases (length n1') N) as [C|C]; [|assert (i = 0 /\ j = 0) as [-> ->] by lia; exact Hj].
        apply (Hord t (length n1' + i) (length n1' + j)); [right; exact Hin|lia|exact Hj]. }
      exists (n1' ++ n2). rewrite L2, L1, app_assoc. split; [reflexivity|]. rewrite app_length. split; [rewrite N2, N1, due_add; reflexivity|].
      intros HN. destruct (A2 ltac:(lia)) as [B2 C2]. clear A2. rewrite N1 in X1, B2, C2. split.
      + intros j t v Ej. apply lookup_app_Some in Ej as [Ej|[Lj Ej]].
        * exists 0. pose proof (T1 _ (elem_of_list_lookup_2 _ _ _ Ej)) as E. cbn in E. subst t. split; [reflexivity|]. split; [apply Y1; eapply lookup_lt_Some, Ej|]. intros; lia.
        * destruct (B2 _ _ _ Ej) as (i & Ei & Gi & Fi). exists (S i). rewrite due_add in Gi. replace (length n1' + (j - length n1')) with j in Gi by lia.
          split; [exact Ei|]. split; [exact Gi|]. intros i' t' Hi' Et'. destruct i' as [|i']; cbn in Et'.
          -- injection Et' as <-. destruct (due interval (rn_next r) j <=? t0)%num eqn:Q; [|reflexivity]. rewrite <- X1. symmetry.
             apply (Hord t0 (length n1') j); [left|apply lookup_lt_Some in Ej; lia|exact Q].
          -- specialize (Fi i' t' ltac:(lia) Et'). rewrite due_add in Fi. replace (length n1' + (j - length n1')) with j in Fi by lia. exact Fi.
      + intros i t j Ei Hj Gt. destruct (Nat.lt_ge_cases j (length n1')) as [|C]; [lia|]. destruct i as [|i]; cbn in Ei.
        * injection Ei as <-. exfalso. rewrite (Hord t0 (length n1') j) in X1; [discriminate|left|lia|exact Gt].
        * assert (j - length n1' < length n2); [|lia]. apply (C2 i t _ Ei); [lia|]. rewrite due_add. replace (length n1' + (j - length n1')) with j by lia. exact Gt.
  Qed.
End generic.

(** ** Sampling in exact arithmetic *)
Local Open Scope R_scope.
Section real.
  Variables (d : Demo R) (nlopt : nat -> nat -> Opt R -> Nlopt R) (fuel : nat) (rng : nat -> nat -> R) (interval maxTime : R).
  Notation hist := (history d nlopt fuel rng interval maxTime).

  Lemma iter_R n x : Nat.iter n (fun y => (y + interval)%num) x = x + INR n * interval.
  Proof. induction n as [|n IH]; [cbn; lra|]. rewrite Nat.iter_succ, IH, S_INR. cbn. lra. Qed.
  Lemma full_turn_samples k r r' b : full_turn d nlopt fuel rng interval k r = Ok (r', b) ->
    exists new, rn_log r' = rn_log r ++ new /\ (forall x, x ∈ new -> fst x = sm_time (rn_sim r')) /\ rn_next r' = rn_next r + INR (length new) * interval /\
      sm_time (rn_sim r') < rn_next r' /\ forall j, (j < length new)%nat -> rn_next r + INR j * interval <= sm_time (rn_sim r').
  Proof.
    unfold full_turn. intros E. apply obind_Ok in E as ([[m c] ri] & E1 & E). apply obind_Ok in E as ([[m2 next] log] & E2 & E). injection E as <- <-.
    cbn [rn_sim rn_log rn_next]. destruct (sampling_keeps _ _ _ _ _ _ _ _ _ _ E2) as (_ & Et & _). apply sampling_time in E2 as (new & -> & A & B & C & D).
    rewrite iter_R in B. exists new. rewrite Et. split; [reflexivity|]. split; [exact A|]. split; [exact B|]. split; [apply Rleb_false in C; exact C|].
    intros j Hj. specialize (D j Hj). rewrite iter_R in D. apply Rleb_true in D. exact D.
  Qed.

  Theorem samples_on_schedule k r l r' : 0 < interval -> hist k r l r' ->
    exists new, rn_log r' = rn_log r ++ new /\ rn_next r' = rn_next r + INR (length new) * interval /\
    (forall j t v, new !! j = Some (t, v) -> exists i, map fst l !! i = Some t /\ rn_next r + INR j * interval <= t /\
       forall i' t', (i' < i)%nat -> map fst l !! i' = Some t' -> t' < rn_next r + INR j * interval) /\
    (forall i t j, map fst l !! i = Some t -> rn_next r + INR j * interval <= t -> (j < length new)%nat).
  Proof.
    intros Hi Hh. induction Hh as [k r|k r r1 b l r2 Ht Hf Hh IH].
    - exists []. rewrite app_nil_r. cbn. repeat split; [lra|intros; discriminate|intros; discriminate].
    - destruct (full_turn_samples _ _ _ _ Hf) as (n1' & L1 & T1 & N1 & X1 & Y1). destruct IH as (n2 & L2 & N2 & A2 & B2).
      exists (n1' ++ n2). rewrite L2, L1, app_assoc. split; [reflexivity|]. split; [rewrite N2, N1, app_length, plus_INR; lra|]. split.
      + intros j t v Ej. cbn [map fst]. apply lookup_app_Some in Ej as [Ej|[Lj Ej]].
        * exists 0%nat. pose proof (T1 _ (elem_of_list_lookup_2 _ _ _ Ej)) as E. cbn in E. subst t. split; [reflexivity|]. split; [apply Y1; eapply lookup_lt_Some, Ej|]. intros; lia.
        * destruct (A2 _ _ _ Ej) as (i & Ei & Gi & Fi). exists (S i). split; [exact Ei|]. rewrite N1 in Gi, Fi.
          assert (Q : INR (length n1') + INR (j - length n1') = INR j) by (rewrite <- plus_INR; apply f_equal; clear - Lj; lia).
          rewrite <- Q. split; [lra|]. intros i' t' Hi' Et'. destruct i' as [|i']; cbn in Et'.
          -- injection Et' as <-. rewrite N1 in X1. pose proof (pos_INR (j - length n1')). nra.
          -- specialize (Fi i' t' ltac:(lia) Et'). lra.
      + intros i t j Ei Gt. rewrite app_length. destruct i as [|i]; cbn in Ei.
        * injection Ei as <-. rewrite N1 in X1. destruct (Nat.lt_ge_cases j (length n1')) as [|C]; [lia|]. exfalso. apply le_INR in C. assert (INR (length n1') * interval <= INR j * interval) by (apply Rmult_le_compat_r; lra). lra.
        * destruct (Nat.lt_ge_cases j (length n1')) as [|C]; [lia|]. assert (Q : INR (length n1') + INR (j - length n1') = INR j) by (rewrite <- plus_INR; apply f_equal; clear - C; lia).
          specialize (B2 i t (j - length n1')%nat Ei). rewrite N1 in B2. assert ((j - length n1' < length n2)%nat) by (apply B2; rewrite <- Q in Gt; lra). lia.
  Qed.

  (** Enough fuel for the sampling loop. *)
  Theorem sampling_ends fl carried m next log : 0 < interval -> sm_time m - next < INR fl * interval ->
    (forall s b, d_measure d carried s b <> OutOfFuel) -> sampling fl d interval carried m next log <> OutOfFuel.
  Proof.
    intros Hi. revert m next log. induction fl as [|f IH]; intros m next log Hf Hm.
    - cbn [sampling nleb NumR]. destruct (Rleb_spec next (sm_time m)) as [A|A]; [cbn in Hf; lra|discriminate].
    - cbn [sampling nleb NumR]. destruct (Rleb next (sm_time m)); [|discriminate]. specialize (Hm (sm_ls m) (sm_bd m)) as Hm0. destruct (d_measure d carried (sm_ls m) (sm_bd m)) as [[s v]| | |]; cbn [obind]; try discriminate; [|congruence].
      apply IH; [|exact Hm]. cbn [sm_time nadd NumR]. rewrite S_INR in Hf. lra.
  Qed.
End real.

(** ** Umbrella sampling *)
Theorem accepted_iff u cur prev beta : 0 <= u < 1 -> isAccepted exp u cur prev beta = true <-> u < acceptance beta prev cur.
Proof.
  intros Hu. unfold isAccepted, acceptance. cbn [nltb nmul nsub nneg NumR]. rewrite Rltb_true.
  replace (- beta * (cur - prev)) with (- (beta * (cur - prev))) by lra. split; intros X.
  - apply Rmin_glb_lt; lra.
  - eapply Rlt_le_trans; [exact X|apply Rmin_r].
Qed.
Theorem downhill u cur prev beta : 0 <= u < 1 -> 0 <= beta -> cur <= prev -> isAccepted exp u cur prev beta = true.
Proof.
  intros Hu Hb L. apply accepted_iff; [exact Hu|]. unfold acceptance. apply Rmin_glb_lt; [lra|]. eapply Rlt_le_trans; [exact (proj2 Hu)|].
  rewrite <- exp_0. destruct (Req_dec (- (beta * (cur - prev))) 0) as [->|N]; [lra|]. left. apply exp_increasing. nra.
Qed.
Theorem detailed_balance beta a b : exp (- (beta * a)) * acceptance beta a b = exp (- (beta * b)) * acceptance beta b a.
Proof.
  assert (G : forall a b, beta * a <= beta * b -> exp (- (beta * a)) * acceptance beta a b = exp (- (beta * b)) * acceptance beta b a).
  { clear. intros a b L. unfold acceptance. rewrite Rmin_right, Rmin_left.
    - rewrite <- exp_plus, Rmult_1_r. f_equal. lra.
    - rewrite <- exp_0. destruct (Req_dec (- (beta * (a - b))) 0) as [->|N]; [lra|]. left. apply exp_increasing. lra.
    - rewrite <- exp_0. destruct (Req_dec (- (beta * (b - a))) 0) as [->|N]; [lra|]. left. apply exp_increasing. lra. }
  destruct (Rle_dec (beta * a) (beta * b)) as [L|L]; [apply G, L|symmetry; apply G; lra].
Qed.
Theorem bias_R v c k : biasPotential v c k = k * (v - c) ^ 2 / 2.
Proof. unfold biasPotential. rewrite nlit_R. cbn [nmul nsub NumR]. cbn. lra. Qed.

Lemma accept_case : 0 <= / 2 < 1 /\ isAccepted exp (/ 2) 1 1 1 = true /\ isAccepted exp (/ 2) 2 1 1 = false.
Proof.
  split; [lra|]. split; [apply downhill; lra|]. destruct (isAccepted exp (/ 2) 2 1 1) eqn:E; [|reflexivity]. apply accepted_iff in E; [|lra].
  unfold acceptance in E. assert (X : exp (- (1 * (2 - 1))) <= / 2).
  { replace (- (1 * (2 - 1))) with (Ropp 1) by ring. rewrite exp_Ropp. apply Rinv_le_contravar; [lra|]. left. pose proof (exp_ineq1 1 ltac:(lra)). lra. }
  pose proof (Rmin_r 1 (exp (- (1 * (2 - 1))))). lra.
Qed.
