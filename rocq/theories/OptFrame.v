(** * OptFrame: what the steps of solve leave alone, for every number type. *)

From Verif Require Import Num LevelSetModel OptModel.

Lemma ofold_post {S A} (I : S -> Prop) (f : S -> A -> outcome S) l : (forall s a, a ∈ l -> I s -> post (f s a) I) ->
  forall s, I s -> post (ofold f l s) I.
Proof.
  induction l as [|a l IH]; intros Hf s Hs; cbn [ofold]; [apply post_ok, Hs|].
  apply post_bind. eapply post_impl; [apply Hf; [left|exact Hs]|]. intros s' Hs'. apply IH; [|exact Hs'].
  intros s2 a2 H2. apply Hf. right. exact H2.
Qed.

Lemma oupdate_post {A B} (f : A -> B -> outcome B) l1 : forall l2 r, oupdate f l1 l2 = Ok r ->
  length l1 <= length l2 /\ length r = length l2 /\
  (forall i a, l1 !! i = Some a -> exists b c, l2 !! i = Some b /\ r !! i = Some c /\ f a b = Ok c) /\
  (forall i, length l1 <= i -> r !! i = l2 !! i).
Proof.
  induction l1 as [|a l1 IH]; intros l2 r E; cbn [oupdate] in E.
  - injection E as <-. repeat split; auto. { cbn. lia. } intros i a Hi. discriminate.
  - destruct l2 as [|b l2]; [discriminate|]. destruct (f a b) as [c| | |] eqn:F; cbn in E; try discriminate.
    destruct (oupdate f l1 l2) as [r'| | |] eqn:G; cbn in E; try discriminate. injection E as <-.
    destruct (IH _ _ G) as (H1 & H2 & H3 & H4). cbn. repeat split; try lia.
    + intros [|i] x Hi; cbn in *; [injection Hi as <-; eauto|]. apply H3, Hi.
    + intros [|i] Hi; [lia|]. cbn. apply H4. lia.
Qed.

Lemma for_from_post_i {S} (I : nat -> S -> Prop) (f : nat -> S -> outcome S) n : forall i s,
  (forall k s', i <= k < i + n -> I k s' -> post (f k s') (I (Datatypes.S k))) -> I i s -> post (for_from i n f s) (I (i + n)).
Proof.
  induction n as [|n IH]; intros i s Hf Hs; cbn [for_from].
  - rewrite Nat.add_0_r. apply post_ok, Hs.
  - apply post_bind. eapply post_impl; [apply Hf; [lia|exact Hs]|]. intros s' Hs'.
    replace (i + Datatypes.S n) with (Datatypes.S i + n) by lia. apply IH; [|exact Hs']. intros k s2 Hk. apply Hf. lia.
Qed.
Lemma for_post_i {S} (I : nat -> S -> Prop) (f : nat -> S -> outcome S) n s :
  (forall k s', k < n -> I k s' -> post (f k s') (I (Datatypes.S k))) -> I 0 s -> post (for_ n f s) (I n).
Proof. intros Hf Hs. apply (for_from_post_i I f n 0 s); [|exact Hs]. intros k s' Hk. apply Hf. lia. Qed.

Lemma post_vget {A} (l : list A) i (Q : A -> Prop) : (forall a, l !! i = Some a -> Q a) -> post (vget l i) Q.
Proof. intros HQ a E. apply HQ. unfold vget in E. destruct (l !! i); congruence. Qed.
Lemma post_vset_ins {A} (l : list A) i a (Q : list A -> Prop) : (i < length l -> Q (<[i := a]> l)) -> post (vset l i a) Q.
Proof.
  intros HQ r E. unfold vset in E. destruct (l !! i) eqn:L; [|discriminate]. injection E as <-. apply HQ. eapply lookup_lt_Some, L.
Qed.

(** for (i = 0; i < n; i++) l[i] = g(i, l[i]) on a vector of n entries. *)
Lemma for_map {A} (g : nat -> A -> outcome A) n (l : list A) : length l = n ->
  post (for_ n (fun i l => let! x := vget l i in let! y := g i x in vset l i y) l)
    (fun r => length r = n /\ forall i, i < n -> exists x y, l !! i = Some x /\ g i x = Ok y /\ r !! i = Some y).
Proof.
  intros Hn. eapply post_impl; [apply (for_post_i (fun k r => length r = n /\ (forall i, k <= i -> r !! i = l !! i) /\
    forall i, i < k -> exists x y, l !! i = Some x /\ g i x = Ok y /\ r !! i = Some y))|].
  - intros k r Hk (L & E & D). apply post_bind, post_vget. intros x Hx. apply post_bind. intros y Hy.
    apply post_vset_ins. intros Hl. rewrite insert_length. split; [exact L|]. split.
    + intros i Hi. rewrite list_lookup_insert_ne by lia. apply E. lia.
    + intros i Hi. destruct (decide (i = k)) as [->|Hne].
      * exists x, y. rewrite list_lookup_insert by lia. rewrite <- (E k) by lia. auto.
      * rewrite list_lookup_insert_ne by lia. apply D. lia.
  - split; [exact Hn|]. split; [reflexivity|]. intros i Hi. lia.
  - cbn. intros r (L & _ & D). auto.
Qed.

Lemma for_map_ext {A} (f : nat -> list A -> outcome (list A)) (g : nat -> A -> outcome A) n (l : list A) : length l = n ->
  (forall i l, f i l = let! x := vget l i in let! y := g i x in vset l i y) ->
  post (for_ n f l) (fun r => length r = n /\ forall i, i < n -> exists x y, l !! i = Some x /\ g i x = Ok y /\ r !! i = Some y).
Proof.
  intros Hn Hf. unfold for_. rewrite (for_from_ext n f (fun i l => let! x := vget l i in let! y := g i x in vset l i y)) by auto. apply for_map, Hn.
Qed.
Lemma obind_assoc {A B C} (x : outcome A) (f : A -> outcome B) (g : B -> outcome C) : obind (obind x f) g = obind x (fun a => obind (f a) g).
Proof. destruct x; reflexivity. Qed.

Section frame.
  Context {T : Type} `{Num T}.
  Implicit Types (o : Opt T).

  (** The state [o] of an object made from [o0] by the constructor, between the steps of solve. *)
  Record good (o0 o : Opt T) : Prop := {
    g_points : op_points o = op_points o0;
    g_limit : op_limit o = op_limit o0;
    g_max : op_isMax o = op_isMax o0;
    g_n0 : op_n0 o = op_n0 o0;
    g_n : op_n o <= op_n0 o0;
    g_lam : length (op_lambdas o) = op_n o + 1;
    g_scale : length (op_scale o) = op_n o + 1;
    g_index : length (op_index o) = op_n o + 1;
    g_zero : op_index o !! 0 = Some 0;
    g_all : op_n o = op_n0 o0 -> op_index o = seq 0 (op_n o + 1);
    g_disp : length (op_disp o) = length (op_points o0);
    g_fixed : forall i p, op_points o0 !! i = Some p -> bp_fixed p = true -> op_disp o !! i = Some n0
  }.

  Lemma disp_fixed o la p old d : bp_fixed p = true -> disp_point o la p old = Ok d -> d = old.
  Proof. unfold disp_point. intros ->. intros E. injection E as <-. reflexivity. Qed.

  Lemma displacements_good o0 o la : good o0 o -> post (computeDisplacements la o) (fun o' =>
    good o0 o' /\ o' = set_disp (op_disp o') o /\
    forall i p, op_points o0 !! i = Some p -> exists d, op_disp o' !! i = Some d /\ disp_point o la p (if bp_fixed p then n0 else d) = Ok d).
  Proof.
    intros G. unfold computeDisplacements. apply post_bind. intros d E. apply post_ok.
    destruct (oupdate_post _ _ _ _ E) as (H1 & H2 & H3 & _). destruct G. rewrite g_points0 in *. split; [|split].
    - constructor; cbn; auto. { congruence. }
      intros i p Hp Hf. destruct (H3 i p Hp) as (b & c & Hb & Hc & F). rewrite (g_fixed0 i p Hp Hf) in Hb. injection Hb as <-.
      apply (disp_fixed _ _ _ _ _ Hf) in F. congruence.
    - reflexivity.
    - intros i p Hp. cbn [op_disp set_disp]. destruct (H3 i p Hp) as (b & c & Hb & Hc & F). exists c. split; [exact Hc|].
      destruct (bp_fixed p) eqn:Hf.
      + rewrite (g_fixed0 i p Hp Hf) in Hb. injection Hb as <-. exact F.
      + revert F. unfold disp_point. rewrite Hf. exact id.
  Qed.

  Lemma callback_good o0 o la g ix : good o0 o -> post (opt_callback o la g ix) (fun r =>
    let '(o', _, _) := r in good o0 o' /\ o' = set_disp (op_disp o') o).
  Proof.
    intros G. unfold opt_callback. apply post_bind. eapply post_impl; [apply displacements_good, G|].
    intros o' (G' & E & _). do 2 (apply post_bind, post_any; intros ?). apply post_ok. auto.
  Qed.

  Lemma run_good o0 t : forall o, good o0 o -> post (run_nlopt t o) (fun r => good o0 (fst r) /\ fst r = set_disp (op_disp (fst r)) o).
  Proof.
    induction t as [ix la g next IH|r]; intros o G; cbn [run_nlopt].
    - apply post_bind. eapply post_impl; [apply callback_good, G|]. intros [[o' v] gr] [G' E]. cbn in *.
      eapply post_impl; [apply IH, G'|]. intros [o2 r] [G2 E2]. cbn in *. split; [exact G2|]. rewrite E2, E. reflexivity.
    - apply post_ok. split; [exact G|]. destruct o; reflexivity.
  Qed.

  Lemma tabulate_length n (x : nat -> T) : length (tabulate n x) = n.
  Proof. unfold tabulate. rewrite map_length, seq_length. reflexivity. Qed.

  Lemma good_lambdas o0 o la : good o0 o -> length la = op_n o + 1 -> good o0 (set_lambdas la o).
  Proof. intros []. constructor; cbn; auto. Qed.
  Lemma good_code o0 o c : good o0 o -> good o0 (set_code c o).
  Proof. intros []. constructor; cbn; auto. Qed.
  Lemma good_otarget o0 o t : good o0 o -> good o0 (set_otarget t o).
  Proof. intros []. constructor; cbn; auto. Qed.
  Lemma good_grads o0 o t : good o0 o -> good o0 (set_grads t o).
  Proof. intros []. constructor; cbn; auto. Qed.

  Lemma attempts_good nlopt o0 fuel : forall k ob o, good o0 o -> post (attempts nlopt fuel k ob o) (fun r => good o0 (fst r)).
  Proof.
    induction fuel as [|fuel IH]; intros k ob o G; [intros ? E; discriminate|]. cbn [attempts].
    apply post_bind. eapply post_impl; [apply run_good, G|]. intros [o1 r] [G1 _]. cbn [fst] in G1.
    assert (A : forall o' ob', good o0 o' -> post (let! code := init_get (op_code o') in
      if (code <? 0)%Z then attempts nlopt fuel (S k) ob' o' else Ok (o', Some ob')) (fun r => good o0 (fst r))).
    { intros o' ob' G'. apply post_bind, post_any. intros code. destruct (code <? 0)%Z; [apply IH, G'|apply post_ok, G']. }
    destruct r as [code x v|e x v].
    - apply A, good_code, good_lambdas; [exact G1|apply tabulate_length].
    - assert (G2 : good o0 (set_lambdas (tabulate (op_n o1 + 1) x) o1)) by (apply good_lambdas; [exact G1|apply tabulate_length]).
      destruct e.
      + apply post_bind, post_any. intros t. apply A, good_otarget, G2.
      + apply A, G2.
      + apply post_ok, G2.
  Qed.

  Lemma good_scale o0 o c : good o0 o -> length c = op_n o + 1 -> good o0 (set_scale c o).
  Proof. intros []. constructor; cbn; auto. Qed.
  Lemma good_limits o0 o ne po la : good o0 o -> length la = op_n o + 1 -> good o0 (set_limits ne po la o).
  Proof. intros []. constructor; cbn; auto. Qed.

  Lemma scale_good o0 o : good o0 o -> post (computeScaleFactors o) (fun o' => good o0 o' /\ o' = set_scale (op_scale o') o).
  Proof.
    intros G. unfold computeScaleFactors. apply post_bind.
    eapply post_impl; [apply (post_for (fun o' => good o0 o' /\ o' = set_scale (op_scale o') o))|].
    - intros k o' _ [G' E]. unfold scale_sens. apply post_bind, post_any. intros m. apply post_bind, post_vset_ins. intros Hk.
      apply post_ok. split; [apply good_scale; [exact G'|rewrite insert_length; apply G']|]. rewrite E. reflexivity.
    - split; [exact G|]. destruct o; reflexivity.
    - intros o1 [G1 E1]. apply post_bind.
      eapply post_impl; [apply (post_for (fun s => good o0 (fst s) /\ fst s = set_scale (op_scale (fst s)) o))|].
      + intros k [o' gr] _ [G' E]. cbn [fst] in *. unfold scale_grad. do 3 (apply post_bind, post_any; intros ?).
        apply post_bind, post_vset_ins. intros Hk. apply post_ok. cbn [fst].
        split; [apply good_scale; [exact G'|rewrite insert_length; apply G']|]. rewrite E. reflexivity.
      + cbn [fst]. auto.
      + intros [o' gr] [G' E]. cbn [fst] in *. apply post_ok. auto.
  Qed.

  Lemma limits_good o0 fuel o : good o0 o -> post (computeLambdaLimits fuel o) (fun o' => good o0 o' /\ o' = set_limits (op_neg o') (op_pos o') (op_lambdas o') o).
  Proof.
    intros G. unfold computeLambdaLimits. apply (post_for (fun o' => good o0 o' /\ o' = set_limits (op_neg o') (op_pos o') (op_lambdas o') o)).
    - intros k o' _ [G' E]. unfold lambda_limit. do 8 (apply post_bind, post_any; intros ?). apply post_bind, post_vset_ins. intros Hk.
      apply post_ok. split; [apply good_limits; [exact G'|rewrite insert_length; apply G']|]. rewrite E. reflexivity.
    - split; [exact G|]. destruct o; reflexivity.
  Qed.

  Lemma change_good o0 nDim i v o : good o0 o -> post (constraint_change nDim i v o) (fun r => good o0 (fst r) /\ fst r = set_disp (op_disp (fst r)) o).
  Proof.
    intros G. unfold constraint_change. apply post_bind, post_any. intros la. apply post_bind.
    eapply post_impl; [apply displacements_good, G|]. intros o' (G' & E & _). apply post_bind, post_any. intros j.
    apply post_bind, post_any. intros [c i']. apply post_ok. auto.
  Qed.

  Lemma one_good o0 nDim i o : good o0 o -> post (one_constraint nDim i o) (fun r =>
    good o0 (fst r) /\ fst r = set_otarget (op_target (fst r)) (set_disp (op_disp (fst r)) o)).
  Proof.
    intros G. unfold one_constraint. apply post_bind.
    eapply post_impl; [apply (post_for (fun s => good o0 (fst s) /\ fst s = set_disp (op_disp (fst s)) o))|].
    - intros k [o' ch] _ [G' E]. cbn [fst] in *. apply post_bind. eapply post_impl; [apply change_good, G'|].
      intros [o2 c] [G2 E2]. cbn [fst] in *. apply post_ok. cbn [fst]. split; [exact G2|]. rewrite E2, E. reflexivity.
    - cbn. split; [exact G|]. destruct o; reflexivity.
    - intros [o' ch] [G' E]. cbn [fst] in *. do 3 (apply post_bind, post_any; intros ?).
      assert (K : o' = set_otarget (op_target o') (set_disp (op_disp o') o)) by (rewrite E; reflexivity).
      destruct (_ <? _)%num; [destruct (_ <? _)%num|destruct (_ <? _)%num].
      + apply post_bind, post_any. intros t. apply post_ok. split; [apply good_otarget, G'|]. cbn [fst]. rewrite E. reflexivity.
      + apply post_ok. auto.
      + apply post_bind, post_any. intros e. destruct e; [|apply post_ok; auto].
        apply post_bind, post_any. intros t. apply post_ok. split; [apply good_otarget, G'|]. cbn [fst]. rewrite E. reflexivity.
      + apply post_ok. auto.
  Qed.

  (** The vectors that move together when a constraint is removed: all of them, up to the entries beyond the active ones. *)
  Record shifted (o1 : Opt T) (k : nat) (s : Opt T * nat) : Prop := {
    sh_le : snd s <= k;
    sh_points : op_points (fst s) = op_points o1; sh_limit : op_limit (fst s) = op_limit o1; sh_max : op_isMax (fst s) = op_isMax o1;
    sh_n : op_n (fst s) = op_n o1; sh_n0 : op_n0 (fst s) = op_n0 o1; sh_disp : op_disp (fst s) = op_disp o1;
    sh_lam : length (op_lambdas (fst s)) = length (op_lambdas o1); sh_scale : length (op_scale (fst s)) = length (op_scale o1);
    sh_index : length (op_index (fst s)) = length (op_index o1); sh_zero : op_index (fst s) !! 0 = op_index o1 !! 0;
    sh_all : snd s = k -> fst s = o1
  }.
  Lemma insert_same {A} (l : list A) i x : l !! i = Some x -> <[i := x]> l = l.
  Proof. apply list_insert_id. Qed.
  Lemma shift_shifted o1 active k s : shifted o1 k s -> post (shift_constraint active k s) (shifted o1 (S k)).
  Proof.
    destruct s as [o a]. intros []. cbn [fst snd] in *. unfold shift_constraint. apply post_bind, post_any. intros b. destruct b.
    - do 8 (apply post_bind, post_vget; intros ? ?; apply post_bind, post_vset_ins; intros ?). apply post_ok. constructor; cbn [fst snd]; auto;
        try (cbn; rewrite ?insert_length; auto; fail); try lia.
      + cbn [op_index]. rewrite list_lookup_insert_ne by lia. exact sh_zero0.
      + intros E. assert (E' : a = k) by lia. specialize (sh_all0 E'). subst a o. cbn [op_points op_limit].
        rewrite !insert_same by assumption. destruct o1; reflexivity.
    - apply post_ok. constructor; cbn [fst snd]; auto. intros E. lia.
  Qed.

  Lemma distances_good o0 fuel : forall o, good o0 o -> post (computeConstraintDistances fuel (op_n o) o) (good o0).
  Proof.
    induction fuel as [|fuel IH]; intros o G; [intros ? E; discriminate|]. cbn [computeConstraintDistances].
    destruct (32 <=? op_n o + 1); [intros ? E; discriminate|]. apply post_bind.
    eapply post_impl; [apply (post_for (fun s => good o0 (fst s) /\ op_n (fst s) = op_n o))|].
    - intros k [o' ac] _ [G' E]. cbn [fst] in *. apply post_bind. eapply post_impl; [apply one_good, G'|].
      intros [o2 b] [G2 E2]. cbn [fst] in *. apply post_ok. cbn [fst]. split; [exact G2|]. rewrite E2. exact E.
    - cbn. auto.
    - intros [o1 ac] [G1 E1]. cbn [fst] in *. apply post_bind.
      eapply post_impl; [apply (for_post_i (shifted o1))|].
      + intros k s _ S. apply shift_shifted, S.
      + constructor; cbn; auto.
      + intros [o2 a] S. destruct S as [S1 S2 S3 S4 S5 S6 S7 S8 S9 S10 S11 S12]. cbn [fst snd] in *.
        rewrite S5, E1. assert (G3 : good o0 (if a <? op_n o then cut_constraints a o2 else o2)).
        { destruct (Nat.ltb_spec a (op_n o)) as [L|L].
          - destruct G1. constructor; cbn; try congruence; rewrite ?resize_length; auto.
            + lia.
            + rewrite lookup_resize by lia. congruence.
            + intros E. lia.
            + intros i p Hp Hf. rewrite S7. apply g_fixed0 with p; auto.
          - rewrite S12 by lia. exact G1. }
        destruct (_ && _); [apply IH, G3|apply post_ok, G3].
  Qed.

  (** An object just made by the constructor. *)
  Lemma ctor_inv points dist lambdas time limit isMax isEq o : optimise_ctor points dist lambdas time limit isMax isEq = Ok o ->
    (limit >? n0)%num = true /\ (limit <? n1)%num = true /\ points <> [] /\ length lambdas = S (length dist) /\
    o = mkOpt points dist lambdas time limit isMax (if (length isEq =? 0)%nat then replicate (length dist) false else isEq) (length dist) (length dist)
      (replicate (length dist + 1) n0) (replicate (length dist + 1) n0) (replicate (length dist + 1) n0) dist [] [] [] None.
  Proof.
    unfold optimise_ctor, check. destruct (_ >? _)%num; cbn; [|discriminate]. destruct (_ <? _)%num; cbn; [|discriminate].
    destruct points as [|p points]; cbn; [discriminate|]. destruct lambdas as [|l lambdas]; cbn; [discriminate|].
    rewrite Nat.sub_0_r. destruct (negb _); cbn; [|discriminate]. destruct (Nat.eqb_spec (length lambdas) (length dist)) as [E|]; [|discriminate].
    cbn. intros F. rewrite E in F. injection F as <-. repeat split; congruence.
  Qed.

  Lemma start_good points dist lambdas time limit isMax isEq o : optimise_ctor points dist lambdas time limit isMax isEq = Ok o ->
    good o (set_index (seq 0 (op_n o + 1)) (set_disp (resize (length (op_points o)) n0 (op_disp o)) o)).
  Proof.
    intros E. apply ctor_inv in E as (_ & _ & _ & L & ->). constructor; cbn; auto; rewrite ?resize_length, ?seq_length, ?replicate_length; auto; try lia.
    - rewrite Nat.add_comm. reflexivity.
    - intros i p Hp _. rewrite resize_nil. apply lookup_replicate_2. eapply lookup_lt_Some, Hp.
  Qed.

  Lemma prepare_good points dist lambdas time limit isMax isEq fuel o : optimise_ctor points dist lambdas time limit isMax isEq = Ok o ->
    post (prepare fuel o) (good o).
  Proof.
    intros E. unfold prepare. pose proof (start_good _ _ _ _ _ _ _ _ E) as G. cbn [op_n set_disp] in *. set (o1 := set_index _ _) in *.
    apply post_bind. eapply post_impl; [apply scale_good, G|]. intros o2 [G2 E2]. apply post_bind.
    eapply post_impl. { apply (for_map_ext _ (fun i x => let! c := vget (op_scale o2) i in Ok (x / c)%num)); [apply G2|].
      intros i l. destruct (vget l i); cbn [obind]; auto. rewrite obind_assoc. reflexivity. }
    intros la [L _]. apply post_bind. eapply post_impl; [apply limits_good, good_lambdas; [exact G2|exact L]|]. intros o3 [G3 _].
    apply post_bind. eapply post_impl. { destruct (0 <? op_n o3); [apply distances_good, G3|apply post_ok, G3]. }
    intros o4 G4. apply post_for; [|apply good_grads, G4]. intros k o' _ G'. unfold store_gradient. do 2 (apply post_bind, post_any; intros ?).
    apply post_ok, good_grads, G'.
  Qed.
End frame.
