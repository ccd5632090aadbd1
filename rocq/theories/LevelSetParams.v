(** * LevelSetParams: the settings of a level set (any arithmetic). *)

From Verif Require Import MeshModel LevelSetModel LevelSetSpec LevelSetCalls BoundaryModel.
Local Open Scope nat_scope.

Section Params.
  Context {T : Type} {NT : Num T}.
  Definition settings (s : LevelSet T) : T * nat * bool := (ls_moveLimit s, ls_bandWidth s, ls_fixed s).
  Definition keeps (s s' : LevelSet T) : Prop := settings s' = settings s /\ ls_target s' = ls_target s.

  Ltac any := apply post_bind, post_any; intros ?.
  Lemma band_keeps s : post (initialiseNarrowBand s) (keeps s).
  Proof. unfold initialiseNarrowBand. any. destruct a as [[[[? ?] ?] ?] ?]. apply post_ok. split; reflexivity. Qed.
  Lemma reinit_keeps s : post (reinitialise s) (keeps s).
  Proof. unfold reinitialise. any. destruct a. apply (band_keeps (set_sd _ s)). Qed.
  Lemma update_keeps s dt : post (update s dt) (fun r => keeps s (fst r)).
  Proof.
    unfold update. any. destruct a as [sd m]. any. destruct a; [|apply post_ok; split; reflexivity].
    apply post_bind. eapply post_impl; [apply reinit_keeps|]. intros s' K. apply post_ok. exact K.
  Qed.
  Lemma velocities_keep s points : post (computeVelocities s points) (keeps s).
  Proof. unfold computeVelocities. any. any. destruct a0 as [[? ?] ?]. apply post_ok. split; reflexivity. Qed.
  Lemma mask_holes_keeps s holes : post (mask_holes s holes) (keeps s).
  Proof.
    unfold mask_holes, mask_holes_only. apply post_bind. apply post_bind, post_any. intros [sd m]. apply post_ok.
    apply (reinit_keeps (set_mesh m (set_sd sd s))).
  Qed.
  Lemma mask_points_keeps s points : post (mask_points s points) (keeps s).
  Proof.
    unfold mask_points, mask_points_only. apply post_bind. apply post_bind, post_any. intros [sd m]. apply post_ok.
    apply (reinit_keeps (set_mesh m (set_sd sd s))).
  Qed.
  Lemma discretise_keeps s tg : post (discretise s tg) (fun r => keeps s (fst r)).
  Proof. unfold discretise. any. any. any. apply post_ok. split; reflexivity. Qed.

  Lemma call_keeps s s' : call s s' -> settings s' = settings s /\ (ls_target s' = ls_target s \/ exists v, s' = set_target v s).
  Proof.
    assert (K : forall s1, keeps s s1 -> settings s1 = settings s /\ (ls_target s1 = ls_target s \/ exists v, s1 = set_target v s)) by (intros s1 []; auto).
    intros [s1 Q|s1 E|dt s1 b E|holes s1 E|points s1 E|v L].
    - destruct Q as [dt s2 E|points s2 E|points dt temp rng s2 points' dt' scale E|s2 E|b s2 a E|tg s2 b E|v L|v L|v L].
      + exact (K _ (update_keeps s dt _ E)).
      + exact (K _ (velocities_keep s points _ E)).
      + unfold computeVelocities_noise in E. match type of E with (let '(_, _) := ?x in _) = _ => destruct x as [dt1 sc] end.
        apply obind_Ok in E as (s3 & E & E'). injection E' as <- _ _ _. exact (K _ (velocities_keep s _ _ E)).
      + unfold computeGradients in E. apply obind_Ok in E as (g & _ & E). injection E as <-. apply K; split; reflexivity.
      + unfold computeAreaFractions in E. apply obind_Ok in E as ([m x] & _ & E). injection E as <- _. apply K; split; reflexivity.
      + exact (K _ (discretise_keeps s tg _ E)).
      + apply K; split; reflexivity.
      + apply K; split; reflexivity.
      + split; [reflexivity|right; exists v; reflexivity].
    - exact (K _ (reinit_keeps s _ E)).
    - exact (K _ (update_keeps s dt _ E)).
    - exact (K _ (mask_holes_keeps s holes _ E)).
    - exact (K _ (mask_points_keeps s points _ E)).
    - apply K; split; reflexivity.
  Qed.
  Lemma calls_keep s s' : rtc call s s' -> settings s' = settings s.
  Proof. induction 1 as [s|s s1 s2 C _ A]; [reflexivity|]. destruct (call_keeps s s1 C) as [A1 _]. congruence. Qed.

  Lemma alloc_settings W H ml bw fx tg : post (ls_alloc (T := T) W H ml bw fx tg) (fun s => settings s = (ml, bw, fx) /\ valid_params ml bw).
  Proof.
    unfold ls_alloc. any. any. apply post_bind. intros u1 E1. unfold check in E1. destruct (2 <? bw)%nat eqn:L; [|discriminate].
    apply post_bind. intros u2 E2. unfold check in E2. destruct (_ && _)%bool eqn:L2; [|discriminate]. apply post_ok. split; [reflexivity|].
    apply Nat.ltb_lt in L. apply andb_prop in L2 as [A B]. repeat split; assumption.
  Qed.
  Lemma init_settings f s : post (init_sd f s) (fun s' => settings s' = settings s).
  Proof. unfold init_sd. any. apply post_ok. reflexivity. Qed.
  Lemma new_settings f W H ml bw fx : post (ls_new f W H ml bw fx) (fun s => settings s = (ml, bw, fx) /\ valid_params ml bw).
  Proof.
    unfold ls_new. apply post_bind. eapply post_impl; [apply alloc_settings|]. intros s [E V].
    apply post_bind. eapply post_impl; [apply init_settings|]. intros s1 E1.
    eapply post_impl; [apply band_keeps|]. intros s2 [E2 _]. split; [congruence|exact V].
  Qed.
  Lemma new_target_settings f g W H ml bw fx : post (ls_new_target f g W H ml bw fx) (fun s => settings s = (ml, bw, fx) /\ valid_params ml bw).
  Proof.
    unfold ls_new_target. apply post_bind. eapply post_impl; [apply alloc_settings|]. intros s [E V].
    apply post_bind. eapply post_impl; [apply init_settings|]. intros s1 E1.
    apply post_bind. eapply post_impl; [apply reinit_keeps|]. intros s2 [E2 _].
    apply post_bind. eapply post_impl; [apply init_settings|]. intros s3 E3.
    eapply post_impl; [apply band_keeps|]. intros s4 [E4 _]. change (settings (set_target (ls_sd s2) s2)) with (settings s2) in E3.
    split; [congruence|exact V].
  Qed.
  Lemma constructed_settings W H ml bw fx (s : LevelSet T) : constructed W H ml bw fx s -> settings s = (ml, bw, fx) /\ valid_params ml bw.
  Proof.
    intros [E|holes E|ps E|h1 h2 E|h1 p2 E|p1 p2 E]; first [exact (new_settings _ _ _ _ _ _ _ E)|exact (new_target_settings _ _ _ _ _ _ _ _ E)].
  Qed.
  Lemma reached_settings W H (s : LevelSet T) : reached W H s -> valid_params (ls_moveLimit s) (ls_bandWidth s).
  Proof.
    intros (ml & bw & fx & s0 & _ & C & R). apply constructed_settings in C as [E V]. apply calls_keep in R as E'.
    unfold settings in *. rewrite E in E'. injection E' as -> -> _. exact V.
  Qed.
  Lemma history_settings W H ml bw fx (s s' : LevelSet T) : constructed W H ml bw fx s -> rtc call s s' ->
    ls_moveLimit s' = ml /\ ls_bandWidth s' = bw /\ ls_fixed s' = fx /\ valid_params ml bw.
  Proof.
    intros C R. apply constructed_settings in C as [E V]. apply calls_keep in R as E'. unfold settings in *. rewrite E in E'.
    injection E' as -> -> ->. auto.
  Qed.
End Params.
