(** * OptRetry: what solve does when NLopt fails (Optimise.cpp:224-256). *)

From Verif Require Import Num LevelSetModel OptModel OptFrame OptSolve.
Local Open Scope nat_scope.

Section Retry.
  Context {T : Type} `{Num T}.

  (** An attempt succeeds if NLopt returns a code that is not negative. *)
  Definition succeeded (r : NlResult T) : Prop := match r with NlReturn code _ _ => (0 <= code)%Z | NlThrow _ _ _ => False end.
  Definition roundoff (r : NlResult T) : bool := match r with NlThrow RoundoffLimited _ _ => true | _ => false end.
  (** The multipliers an attempt leaves behind. *)
  Definition left_behind (n : nat) (r : NlResult T) : list T := match r with NlReturn _ x _ | NlThrow _ x _ => map x (seq 0 n) end.
  (** The distances after these attempts: 0.7 times as large for every roundoff error. *)
  Definition relaxed (rs : list (NlResult T)) (t : list T) : list T :=
    Nat.iter (length (filter (fun r => roundoff r = true) rs)) (map (fun x => x * nlit 7 10)%num) t.
  (** The same problem, up to the current displacements, distances, multipliers and return code. *)
  Definition same_problem (o q : Opt T) : Prop := exists d t l c, q = set_disp d (set_otarget t (set_lambdas l (set_code c o))).

  (** [tr] lists the problem and the result of each attempt, the last of which succeeds. *)
  Record trace (nlopt : nat -> Opt T -> Nlopt T) (o1 : Opt T) (tr : list (Opt T * NlResult T)) : Prop := {
    tr_asked : forall j q r, tr !! j = Some (q, r) -> exists o, run_nlopt (nlopt j q) q = Ok (o, r);
    tr_same : forall j q r, tr !! j = Some (q, r) -> same_problem o1 q;
    tr_target : forall j q r, tr !! j = Some (q, r) -> op_target q = relaxed (take j tr.*2) (op_target o1);
    tr_first : forall q r, tr !! 0 = Some (q, r) -> q = o1;
    tr_next : forall j q r q' r', tr !! j = Some (q, r) -> tr !! S j = Some (q', r') -> op_lambdas q' = left_behind (op_n o1 + 1) r;
    tr_end : forall j q r, tr !! j = Some (q, r) -> (succeeded r <-> S j = length tr);
    tr_some : 0 < length tr
  }.

  Lemma same_n o q : same_problem o q -> op_n q = op_n o.
  Proof. intros (d & t & l & c & ->). reflexivity. Qed.
  Lemma same_trans o q r : same_problem o q -> same_problem q r -> same_problem o r.
  Proof. intros (d & t & l & c & ->) (d' & t' & l' & c' & ->). exists d', t', l', c'. reflexivity. Qed.
  Lemma same_refl o : same_problem o o.
  Proof. exists (op_disp o), (op_target o), (op_lambdas o), (op_code o). destruct o; reflexivity. Qed.
  Lemma iter_map_comm {A} n (f : A -> A) x : Nat.iter n f (f x) = f (Nat.iter n f x).
  Proof. induction n as [|n IH]; [reflexivity|]. change (f (Nat.iter n f (f x)) = f (f (Nat.iter n f x))). rewrite IH. reflexivity. Qed.
  Lemma relaxed_cons r rs t : relaxed (r :: rs) t = relaxed rs (if roundoff r then map (fun x => x * nlit 7 10)%num t else t).
  Proof.
    unfold relaxed. rewrite filter_cons. destruct (decide (roundoff r = true)) as [E|E].
    - rewrite E. cbn. symmetry. apply iter_map_comm.
    - destruct (roundoff r); [congruence|reflexivity].
  Qed.

  (** One attempt in front. *)
  Lemma trace_cons nlopt o1 o2 r (tr : list (Opt T * NlResult T)) oe :
    run_nlopt (nlopt 0 o1) o1 = Ok (oe, r) -> ~ succeeded r -> same_problem o1 o2 -> op_lambdas o2 = left_behind (op_n o1 + 1) r ->
    op_target o2 = (if roundoff r then map (fun x => x * nlit 7 10)%num (op_target o1) else op_target o1) ->
    trace (fun j => nlopt (S j)) o2 tr -> trace nlopt o1 ((o1, r) :: tr).
  Proof.
    intros E F S L Tg [A B C D Nx En So]. constructor.
    - intros [|j] q r' Hj; [injection Hj as <- <-; eauto|exact (A j q r' Hj)].
    - intros [|j] q r' Hj; [injection Hj as <- <-; apply same_refl|]. eapply same_trans; [exact S|exact (B j q r' Hj)].
    - intros [|j] q r' Hj; [injection Hj as <- <-; reflexivity|]. rewrite fmap_cons. cbn [take snd]. rewrite relaxed_cons, <- Tg. exact (C j q r' Hj).
    - intros q r' Hj. injection Hj as <- <-. reflexivity.
    - intros [|j] q r' q' r'' Hj Hk.
      + injection Hj as <- <-. cbn in Hk. rewrite (D q' r'' Hk). exact L.
      + cbn in Hj, Hk. rewrite <- (same_n _ _ S). exact (Nx j q r' q' r'' Hj Hk).
    - intros [|j] q r' Hj; [injection Hj as <- <-; cbn; split; [tauto|lia]|]. cbn in Hj. rewrite (En j q r' Hj). cbn. lia.
    - cbn. lia.
  Qed.

  Lemma attempts_trace o0 fuel : forall nlopt k ob o, good o0 o -> length (op_target o) = op_n o -> (match op_code o with Some c => (c < 0)%Z | None => True end) ->
    post (attempts nlopt fuel k ob o) (fun r => match snd r with Some _ => exists tr, trace (fun j => nlopt (k + j)) o tr | None => True end).
  Proof.
    induction fuel as [|fuel IH]; intros nlopt k ob o G Lt C; [intros ? E; discriminate|]. cbn [attempts].
    apply post_bind. intros [o1 r] E. pose proof (run_good o0 _ _ G _ E) as [G1 E1]. cbn [fst] in G1, E1.
    assert (E0 : run_nlopt (nlopt (k + 0) o) o = Ok (o1, r)) by (rewrite Nat.add_0_r; exact E).
    assert (C1 : op_code o1 = op_code o) by (rewrite E1; reflexivity).
    assert (N1 : op_n o1 = op_n o) by (rewrite E1; reflexivity).
    assert (S1 : same_problem o o1) by (rewrite E1; exists (op_disp o1), (op_target o), (op_lambdas o), (op_code o); destruct o; reflexivity).
    assert (R : forall o2 ob', good o0 o2 -> length (op_target o2) = op_n o2 -> (match op_code o2 with Some c => (c < 0)%Z | None => True end) ->
      ~ succeeded r -> same_problem o o2 -> op_lambdas o2 = left_behind (op_n o + 1) r ->
      op_target o2 = (if roundoff r then map (fun x => x * nlit 7 10)%num (op_target o) else op_target o) ->
      post (attempts nlopt fuel (S k) ob' o2) (fun r => match snd r with Some _ => exists tr, trace (fun j => nlopt (k + j)) o tr | None => True end)).
    { intros o2 ob' G2 L2 C2 F S2 La Ta. eapply post_impl; [apply (IH nlopt (S k) ob' o2 G2 L2 C2)|]. intros [o3 [v|]] Q; [|exact I].
      destruct Q as [tr Q]. exists ((o, r) :: tr). apply (trace_cons _ o o2 r tr o1); auto. 
      destruct Q as [A B Cc D Nx En So]. constructor; auto. intros j q r' Hj. rewrite Nat.add_succ_r. exact (A j q r' Hj). }
    assert (A : forall o2 ob', good o0 o2 -> length (op_target o2) = op_n o2 -> op_code o2 = op_code o ->
      ~ succeeded r -> same_problem o o2 -> op_lambdas o2 = left_behind (op_n o + 1) r ->
      op_target o2 = (if roundoff r then map (fun x => x * nlit 7 10)%num (op_target o) else op_target o) ->
      post (let! code := init_get (op_code o2) in if (code <? 0)%Z then attempts nlopt fuel (S k) ob' o2 else Ok (o2, Some ob'))
        (fun r => match snd r with Some _ => exists tr, trace (fun j => nlopt (k + j)) o tr | None => True end)).
    { intros o2 ob' G2 L2 C2 F S2 La Ta. rewrite C2. destruct (op_code o) as [c|] eqn:Ec; [|intros ? E'; discriminate]. cbn [init_get obind].
      replace (c <? 0)%Z with true by (symmetry; apply Z.ltb_lt, C). apply R; auto. rewrite C2. exact C. }
    destruct r as [code x v|e x v].
    - cbn [op_code set_code init_get obind]. destruct (Z.ltb_spec code 0) as [L|L].
      + apply R; auto.
        * apply good_code, good_lambdas; [exact G1|apply tabulate_length].
        * cbn. rewrite E1. exact Lt.
        * cbn. lia.
        * eapply same_trans; [exact S1|]. exists (op_disp o1), (op_target o1), (tabulate (op_n o1 + 1) x), (Some code). destruct o1; reflexivity.
        * cbn. rewrite N1. reflexivity.
        * cbn. rewrite E1. reflexivity.
      + apply post_ok. cbn. exists [(o, NlReturn code x v)]. constructor.
        * intros [|j] q r Hj; [injection Hj as <- <-; eauto|discriminate].
        * intros [|j] q r Hj; [injection Hj as <- <-; apply same_refl|discriminate].
        * intros [|j] q r Hj; [injection Hj as <- <-; reflexivity|discriminate].
        * intros q r Hj. injection Hj as <- <-. reflexivity.
        * intros [|j] q r q' r' _ Hk; discriminate.
        * intros [|j] q r Hj; [injection Hj as <- <-; cbn; tauto|discriminate].
        * cbn. lia.
    - assert (G2 : good o0 (set_lambdas (tabulate (op_n o1 + 1) x) o1)) by (apply good_lambdas; [exact G1|apply tabulate_length]).
      assert (S2 : forall t, same_problem o (set_otarget t (set_lambdas (tabulate (op_n o1 + 1) x) o1))).
      { intros t. eapply same_trans; [exact S1|]. exists (op_disp o1), t, (tabulate (op_n o1 + 1) x), (op_code o1). destruct o1; reflexivity. }
      destruct e.
      + apply post_bind. intros t Et. cbn [op_n op_target set_lambdas] in Et.
        assert (t = map (fun x => x * nlit 7 10)%num (op_target o)) as ->.
        { pose proof (for_map_ext (fun i t => let! x := vget t i in vset t i (x * nlit 7 10)%num) (fun _ x => Ok (x * nlit 7 10)%num) (op_n o1) (op_target o1)) as F.
          destruct (F ltac:(rewrite E1; exact Lt) ltac:(reflexivity) _ Et) as [Ll Fa]. apply list_eq. intros i.
          replace (op_target o) with (op_target o1) by (rewrite E1; reflexivity).
          change (map (fun x => x * nlit 7 10)%num (op_target o1)) with ((fun x => x * nlit 7 10)%num <$> op_target o1).
          rewrite list_lookup_fmap. destruct (op_target o1 !! i) as [b|] eqn:Hb; cbn.
          - assert (Hi : i < op_n o1) by (apply lookup_lt_Some in Hb; rewrite E1 in Hb; cbn in Hb; lia).
            destruct (Fa i Hi) as (b' & c & Hb' & Ec & Hc). rewrite Hb in Hb'. injection Hb' as <-. injection Ec as <-. exact Hc.
          - apply lookup_ge_None in Hb. apply lookup_ge_None. rewrite Ll. rewrite E1 in Hb. cbn in Hb. lia. }
        apply A; auto.
        * apply good_otarget, G2.
        * cbn. rewrite map_length, N1. exact Lt.
        * cbn. rewrite N1. reflexivity.
      + apply A; auto.
        * cbn. rewrite E1. exact Lt.
        * exact (S2 (op_target o1)) || (replace (set_lambdas (tabulate (op_n o1 + 1) x) o1) with (set_otarget (op_target o1) (set_lambdas (tabulate (op_n o1 + 1) x) o1)) by (destruct o1; reflexivity); apply S2).
        * cbn. rewrite N1. reflexivity.
        * cbn. rewrite E1. reflexivity.
      + apply post_ok. exact I.
  Qed.

  (** ** prepare leaves one distance per constraint *)
  Definition fitting (o : Opt T) : Prop := length (op_target o) = op_n o.
  Lemma shift_target active k (s : Opt T * nat) :
    post (shift_constraint active k s) (fun r => length (op_target (fst r)) = length (op_target (fst s))).
  Proof.
    destruct s as [o a]. unfold shift_constraint. apply post_bind, post_any. intros b. destruct b; [|apply post_ok; reflexivity].
    do 8 (apply post_bind, post_vget; intros ? ?; apply post_bind, post_vset_ins; intros ?). apply post_ok. cbn. apply insert_length.
  Qed.
  Lemma one_target (o0 : Opt T) nd i o : good o0 o -> post (one_constraint nd i o) (fun r => length (op_target (fst r)) = length (op_target o)).
  Proof.
    intros G. unfold one_constraint. apply post_bind.
    eapply post_impl; [apply (post_for (fun s => good o0 (fst s) /\ fst s = set_disp (op_disp (fst s)) o))|].
    - intros k [o' ch] _ [G' E]. cbn [fst] in *. apply post_bind. eapply post_impl; [apply change_good, G'|].
      intros [o2 c] [G2 E2]. cbn [fst] in *. apply post_ok. cbn [fst]. split; [exact G2|]. rewrite E2, E. reflexivity.
    - cbn. split; [exact G|]. destruct o; reflexivity.
    - intros [o' ch] [G' E]. cbn [fst] in *. do 3 (apply post_bind, post_any; intros ?).
      assert (K : length (op_target o') = length (op_target o)) by (rewrite E; reflexivity).
      destruct (_ <? _)%num; [destruct (_ <? _)%num|destruct (_ <? _)%num].
      + apply post_bind, post_vset_ins. intros _. apply post_ok. cbn. rewrite insert_length. exact K.
      + apply post_ok. exact K.
      + apply post_bind, post_any. intros e. destruct e; [|apply post_ok; exact K].
        apply post_bind, post_vset_ins. intros _. apply post_ok. cbn. rewrite insert_length. exact K.
      + apply post_ok. exact K.
  Qed.
  Lemma distances_target (o0 : Opt T) fuel : forall o, good o0 o -> fitting o -> post (computeConstraintDistances fuel (op_n o) o) fitting.
  Proof.
    unfold fitting. induction fuel as [|fuel IH]; intros o G Lt; [intros ? E; discriminate|]. cbn [computeConstraintDistances].
    destruct (32 <=? op_n o + 1)%nat; [intros ? E; discriminate|]. apply post_bind.
    eapply post_impl; [apply (post_for (fun s => good o0 (fst s) /\ op_n (fst s) = op_n o /\ length (op_target (fst s)) = op_n o))|].
    - intros k [o' ac] _ (G' & E & C). cbn [fst] in *. apply post_bind. intros [o2 b] E2.
      destruct (one_good o0 _ _ _ G' _ E2) as [G2 E3]. pose proof (one_target o0 _ _ _ G' _ E2) as L2. cbn [fst] in *. apply post_ok. cbn [fst].
      split; [exact G2|]. rewrite L2. split; [rewrite E3; exact E|exact C].
    - cbn. auto.
    - intros [o1 ac] (G1 & E1 & C1). cbn [fst] in *. apply post_bind.
      intros [o2 a] E2.
      assert (S2 : shifted o1 (op_n o) (o2, a)).
      { revert E2. apply (for_post_i (shifted o1)); [|constructor; cbn; auto]. intros k s _ S. apply shift_shifted, S. }
      assert (C2 : length (op_target o2) = length (op_target o1)).
      { revert E2. apply (post_for (fun s => length (op_target (fst s)) = length (op_target o1))); [|reflexivity]. intros k s _ <-. apply shift_target. }
      set (o3 := if (a <? op_n o2)%nat then cut_constraints a o2 else o2).
      destruct S2 as [S1 S2 S3 S4 S5 S6 S7 S8 S9 S10 S11 S12]. cbn [fst snd] in *.
      assert (C3 : length (op_target o3) = op_n o3).
      { unfold o3. destruct (a <? op_n o2)%nat; cbn; [apply resize_length|]. rewrite S5, E1, C2. exact C1. }
      destruct (_ && _); [|apply post_ok, C3]. apply IH; [|exact C3].
      unfold o3. rewrite S5, E1.
      destruct (Nat.ltb_spec a (op_n o)) as [L|L].
      + destruct G1. constructor; cbn; try congruence; rewrite ?resize_length; auto.
        * lia.
        * rewrite lookup_resize by lia. congruence.
        * intros E. lia.
        * intros i p Hp Hf. rewrite S7. apply g_fixed with p; auto.
      + rewrite S12 by lia. exact G1.
  Qed.
  Lemma prepare_target points dist lambdas time limit isMax isEq fuel (o : Opt T) : optimise_ctor points dist lambdas time limit isMax isEq = Ok o ->
    post (prepare fuel o) fitting.
  Proof.
    intros E. unfold prepare. pose proof (start_good _ _ _ _ _ _ _ _ E) as G. cbn [op_n set_disp] in *. set (o1 := set_index _ _) in *.
    assert (C1 : fitting o1). { apply ctor_inv in E as (_ & _ & _ & E' & ->). unfold fitting. cbn. lia. }
    apply post_bind. eapply post_impl; [apply scale_good, G|]. intros o2 [G2 E2]. apply post_bind.
    eapply post_impl.
    { apply (for_map_ext _ (fun i x => let! c := vget (op_scale o2) i in Ok (x / c)%num)); [apply G2|].
      intros i l. destruct (vget l i); cbn [obind]; auto. rewrite obind_assoc. reflexivity. }
    intros la [L _]. apply post_bind. eapply post_impl; [apply limits_good, good_lambdas; [exact G2|exact L]|]. intros o3 [G3 E3].
    assert (C3 : fitting o3) by (unfold fitting; rewrite E3, E2; exact C1).
    apply post_bind. eapply (post_impl _ fitting).
    { destruct (0 <? op_n o3)%nat; [apply (distances_target o); [exact G3|exact C3]|apply post_ok, C3]. }
    intros o4 C4. apply (post_for fitting); [|exact C4]. intros k o' _ C'. unfold store_gradient. do 2 (apply post_bind, post_any; intros ?).
    apply post_ok, C'.
  Qed.

  Lemma solve_trace points dist lambdas time limit isMax isEq (o : Opt T) nlopt fuel o' v :
    optimise_ctor points dist lambdas time limit isMax isEq = Ok o -> solve nlopt fuel o = Ok (o', Some v) ->
    exists o1 tr, prepare fuel o = Ok o1 /\ length (op_target o1) = op_n o1 /\ trace nlopt o1 tr /\
      forall q r, tr !! 0 = Some (q, r) -> match r with NlReturn _ _ _ => True | NlThrow _ _ _ => False end.
  Proof.
    intros C E. destruct (solve_parts _ _ _ _ _ _ _ o nlopt fuel o' v C E) as (o1 & o2 & ob & E1 & G1 & E2 & _).
    pose proof (prepare_target _ _ _ _ _ _ _ fuel o C _ E1) as Lt. pose proof (prepare_code _ _ _ _ _ _ _ fuel _ C _ E1) as C1.
    assert (K : match op_code o1 with Some c => (c < 0)%Z | None => True end) by (rewrite C1; exact I).
    destruct (attempts_trace o fuel nlopt 0 None o1 G1 Lt K _ E2) as [tr Q]. exists o1, tr. split; [exact E1|]. split; [exact Lt|]. split; [exact Q|].
    intros q r Hq.
    assert (Eq : q = o1) by exact (tr_first _ _ _ Q q r Hq). subst q. destruct (tr_asked _ _ _ Q 0 o1 r Hq) as [oe Er]. cbn [Nat.add] in Er.
    destruct fuel as [|fuel]; [discriminate|]. cbn [attempts] in E2. rewrite Er in E2. cbn [obind] in E2.
    assert (Ce : op_code oe = None) by (destruct (run_good o _ _ G1 _ Er) as [_ Ex]; cbn [fst] in Ex; rewrite Ex; exact C1).
    destruct r as [|[] x w]; [exact I|exfalso..].
    - destruct (for_ _ _ _); cbn [obind] in E2; try discriminate. cbn [op_code set_otarget set_lambdas] in E2. rewrite Ce in E2. discriminate.
    - cbn [op_code set_otarget set_lambdas] in E2. rewrite Ce in E2. discriminate.
    - discriminate.
  Qed.

  Lemma solve_needs_success points dist lambdas time limit isMax isEq (o : Opt T) nlopt fuel o' v :
    optimise_ctor points dist lambdas time limit isMax isEq = Ok o ->
    (forall k q o2 r, run_nlopt (nlopt k q) q = Ok (o2, r) -> ~ succeeded r) -> solve nlopt fuel o <> Ok (o', Some v).
  Proof.
    intros C F E. destruct (solve_trace _ _ _ _ _ _ _ o nlopt fuel o' v C E) as (o1 & tr & _ & _ & Q & _).
    destruct (lookup_lt_is_Some_2 tr (length tr - 1)) as [[q r] Hq]. { pose proof (tr_some _ _ _ Q). lia. }
    destruct (tr_asked _ _ _ Q _ q r Hq) as [o2 Er]. apply (F _ _ _ _ Er). apply (tr_end _ _ _ Q _ q r Hq). pose proof (tr_some _ _ _ Q). lia.
  Qed.
End Retry.

(** Four failures of all kinds before a success. *)
From Verif Require Import NumF64 OptCases.
Definition fifth_time : nat -> Opt f64 -> Nlopt f64 := fun k _ =>
  match k with
  | 0 => NlEnd (NlReturn (-1) tenth (d64 1 1))
  | 1 | 2 => NlEnd (NlThrow RoundoffLimited tenth (Some (d64 1 1)))
  | 3 => NlEnd (NlThrow InvalidArgument tenth None)
  | _ => NlCall 0 tenth false (fun v _ => NlEnd (NlReturn 1 tenth v))
  end.
