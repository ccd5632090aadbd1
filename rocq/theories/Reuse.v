(** * Reuse: solve on a new object and on one with leftovers, side by side (C88). *)

From Coq Require Import Lia.
From Verif Require Import Base Num LevelSetModel OptModel OptFrame OptMain Twin UnitsSpec Units ReuseSpec.

Ltac same x := eapply orel_bind; [apply orel_refl|]; intros x ? <-.
Ltac fields := cbn [set_points set_disp set_lambdas set_time set_limits set_scale set_otarget set_index set_grads set_code op_points op_dist op_lambdas op_time op_limit op_isMax op_isEq op_n op_n0 op_neg op_pos op_scale op_target op_disp op_index op_grads op_code].

Section reuse.
  Context {T : Type} `{Num T}.
  (** [o] with other leftovers. *)
  Definition lft ne po sc ds gr co ti (o : Opt T) : Opt T :=
    mkOpt (op_points o) (op_dist o) (op_lambdas o) ti (op_limit o) (op_isMax o) (op_isEq o) (op_n o) (op_n0 o) ne po sc (op_target o) ds (op_index o) gr co.
  Ltac fl := cbn [lft set_points set_disp set_lambdas set_time set_limits set_scale set_otarget set_index set_grads set_code op_points op_dist op_lambdas op_time op_limit op_isMax op_isEq op_n op_n0 op_neg op_pos op_scale op_target op_disp op_index op_grads op_code].
  Definition fixed_same (ps : list (BoundaryPoint T)) (ds ds' : list T) : Prop :=
    length ds = length ps /\ length ds' = length ps /\ forall i p, ps !! i = Some p -> bp_fixed p = true -> ds' !! i = ds !! i.
  Definition rel (sg sc : bool) (o o' : Opt T) : Prop := exists ds gr co ti,
    o' = lft (op_neg o) (op_pos o) (op_scale o) ds gr co ti o /\ fixed_same (op_points o) (op_disp o) ds /\ (sg = true -> gr = op_grads o) /\ (sc = true -> co = op_code o).
  Lemma rel_n sg sc o o' : rel sg sc o o' -> op_n o' = op_n o.
  Proof. intros (ds & gr & co & ti & -> & _). reflexivity. Qed.

  Lemma update_same (f : BoundaryPoint T -> T -> outcome T) ps ds ds' : (forall p d d', bp_fixed p = false -> f p d = f p d') -> fixed_same ps ds ds' -> oupdate f ps ds' = oupdate f ps ds.
  Proof.
    intros Hf. revert ds ds'. induction ps as [|p ps IH]; intros ds ds' (L & L' & E).
    - destruct ds, ds'; cbn in L, L'; try discriminate. reflexivity.
    - destruct ds as [|d ds], ds' as [|d' ds']; cbn in L, L'; try discriminate. cbn [oupdate]. rewrite (IH ds ds') by (split; [lia|]; split; [lia|]; intros i q Hq Fq; exact (E (S i) q Hq Fq)).
      destruct (bp_fixed p) eqn:F; [|rewrite (Hf p d' d F); reflexivity]. specialize (E 0 p eq_refl F). cbn in E. injection E as ->. reflexivity.
  Qed.
  Lemma disp_same o la p d d' : bp_fixed p = false -> disp_point o la p d = disp_point o la p d'.
  Proof. intros F. unfold disp_point. rewrite F. reflexivity. Qed.
  Lemma displacements_reuse sg sc la o o' : rel sg sc o o' -> orel (fun r r' => rel sg sc r r' /\ op_disp r' = op_disp r) (computeDisplacements la o) (computeDisplacements la o').
  Proof.
    intros (ds & gr & co & ti & -> & F & G & C). unfold computeDisplacements. fl. change (disp_point (lft (op_neg o) (op_pos o) (op_scale o) ds gr co ti o) la) with (disp_point o la).
    rewrite (update_same (disp_point o la) _ _ _ (disp_same o la) F). pose proof (oupdate_length (disp_point o la) (op_points o) (op_disp o)) as L.
    destruct (oupdate _ _ _) as [d| | |]; cbn; try exact I. specialize (L d eq_refl). split; [|reflexivity]. exists d, gr, co, ti. split; [reflexivity|]. split; [|auto]. fl.
    destruct F as (L1 & _). split; [congruence|]. split; [congruence|auto].
  Qed.
  Lemma gradients_reuse ne po ds gr co ti o g i : computeGradients (lft ne po (op_scale o) ds gr co ti o) g i = computeGradients o g i.
  Proof. reflexivity. Qed.
  Lemma prefix_full {A} n (l l' : list A) : prefix_eq n l l' -> length l = n -> l' = l.
  Proof. intros [L E] Ln. rewrite !take_ge in E by lia. auto. Qed.
  Lemma vset_length {A} (l l1 : list A) i x : vset l i x = Ok l1 -> length l1 = length l.
  Proof. unfold vset. destruct (l !! i); [|discriminate]. intros [= <-]. apply insert_length. Qed.

  (** ** Preparation *)
  (** Before the scale factors: [k] of them are known. *)
  Definition rel0 (k : nat) (o o' : Opt T) : Prop := exists ne po sc ds gr co ti, o' = lft ne po sc ds gr co ti o /\ length (op_neg o) = op_n o + 1 /\ length (op_pos o) = op_n o + 1 /\ length (op_scale o) = op_n o + 1 /\
    prefix_eq 0 (op_neg o) ne /\ prefix_eq 0 (op_pos o) po /\ prefix_eq k (op_scale o) sc /\ fixed_same (op_points o) (op_disp o) ds.
  (** Before the limits: [k] of them are known. *)
  Definition rel1 (k : nat) (o o' : Opt T) : Prop := exists ne po ds gr co ti, o' = lft ne po (op_scale o) ds gr co ti o /\ length (op_neg o) = op_n o + 1 /\ length (op_pos o) = op_n o + 1 /\
    prefix_eq k (op_neg o) ne /\ prefix_eq k (op_pos o) po /\ fixed_same (op_points o) (op_disp o) ds.
  Lemma sens_reuse k o o' : rel0 k o o' -> orel (rel0 (S k)) (scale_sens k o) (scale_sens k o').
  Proof.
    intros (ne & po & sc & ds & gr & co & ti & -> & L1 & L2 & L3 & P1 & P2 & P3 & F). unfold scale_sens. fl. same m.
    pose proof (prefix_vset k (op_scale o) sc (n1 / m)%num P3) as Q. destruct (vset (op_scale o) k _) as [c| | |] eqn:E, (vset sc k _) as [c'| | |]; cbn in Q |- *; try contradiction; try exact I.
    exists ne, po, c', ds, gr, co, ti. apply vset_length in E. fl. replace (S k) with (k + 1) by lia. rewrite E. auto 12.
  Qed.
  Lemma grad_reuse k o o' g : rel1 0 o o' -> orel (fun x x' => rel1 0 (fst x) (fst x') /\ snd x' = snd x) (scale_grad k (o, g)) (scale_grad k (o', g)).
  Proof.
    intros (ne & po & ds & gr & co & ti & -> & Q). unfold scale_grad. rewrite gradients_reuse. same g1. same gi. fl. same ci. same c. cbn. split; [|reflexivity]. exists ne, po, ds, gr, co, ti. split; [reflexivity|exact Q].
  Qed.
  Lemma for_keeps {A} (P : A -> Prop) n f s t : P s -> (forall i s t, f i s = Ok t -> P s -> P t) -> for_ n f s = Ok t -> P t.
  Proof.
    unfold for_. intros P0 Hf. generalize 0 as i. revert s P0. induction n as [|n IH]; intros s P0 i; cbn [for_from]; [intros [= <-]; exact P0|].
    destruct (f i s) as [a| | |] eqn:E; cbn [obind]; try discriminate. apply IH. exact (Hf _ _ _ E P0).
  Qed.
  Lemma factors_reuse o o' : rel0 0 o o' -> orel (rel1 0) (computeScaleFactors o) (computeScaleFactors o').
  Proof.
    intros R. unfold computeScaleFactors. assert (En : op_n o' = op_n o) by (destruct R as (? & ? & ? & ? & ? & ? & ? & -> & _); reflexivity). rewrite En.
    eapply orel_bind.
    - eapply orel_mine with (Q := fun r => op_n r = op_n o); [apply (orel_for rel0 (op_n o + 1)); [exact R|]; intros k t t' _; apply sens_reuse|].
      intros r. apply (for_keeps (fun r => op_n r = op_n o)); [reflexivity|]. intros i s t. unfold scale_sens. destruct (max_sens _ _ _); cbn [obind]; try discriminate. destruct (vset _ _ _); cbn [obind]; try discriminate. intros [= <-]. auto.
    - clear R En. intros r r' [(ne & po & sc & ds & gr & co & ti & -> & L1 & L2 & L3 & P1 & P2 & P3 & F) En]. rewrite <- En in P3. rewrite (prefix_full _ _ _ P3 L3). fl.
      eapply orel_bind with (R := fun x x' => rel1 0 (fst x) (fst x') /\ snd x' = snd x).
      + apply orel_for_same; [cbn; split; [exists ne, po, ds, gr, co, ti; auto 10|reflexivity]|]. intros i [t g] [t' g'] _ [Rt E]. cbn [fst snd] in *. subst. apply grad_reuse, Rt.
      + intros [t g] [t' g'] [Rt _]. exact Rt.
  Qed.
  Lemma limit_reuse fuel k o o' : rel1 k o o' -> orel (rel1 (S k)) (lambda_limit fuel k o) (lambda_limit fuel k o').
  Proof.
    intros (ne & po & ds & gr & co & ti & -> & L1 & L2 & P1 & P2 & F). unfold lambda_limit. fl. same j. same m. same c.
    pose proof (prefix_vset k (op_neg o) ne (- op_limit o / m / c)%num P1) as Q1. pose proof (prefix_vset k (op_pos o) po (op_limit o / m / c)%num P2) as Q2.
    destruct (vset (op_neg o) k _) as [a| | |] eqn:E1, (vset ne k _) as [a'| | |]; cbn [orel] in Q1; try contradiction; try exact I. cbn [obind].
    destruct (vset (op_pos o) k _) as [b| | |] eqn:E2, (vset po k _) as [b'| | |]; cbn [orel] in Q2; try contradiction; try exact I. cbn [obind].
    same l. same l1. same l2. same la. exists a', b', ds, gr, co, ti. apply vset_length in E1, E2. fl. replace (S k) with (k + 1) by lia. rewrite E1, E2. auto 10.
  Qed.
  Lemma limits_reuse fuel o o' : rel1 0 o o' -> orel (rel false false) (computeLambdaLimits fuel o) (computeLambdaLimits fuel o').
  Proof.
    intros R. unfold computeLambdaLimits. assert (En : op_n o' = op_n o) by (destruct R as (? & ? & ? & ? & ? & ? & -> & _); reflexivity). rewrite En.
    eapply orel_impl; [eapply orel_mine with (Q := fun r => op_n r = op_n o); [apply (orel_for rel1 (op_n o + 1)); [exact R|]; intros k t t' _; apply limit_reuse|]|].
    - intros r. apply (for_keeps (fun r => op_n r = op_n o)); [reflexivity|]. intros i s t. unfold lambda_limit. repeat match goal with |- obind ?x _ = _ -> _ => destruct x; cbn [obind]; try discriminate end. intros [= <-]. auto.
    - clear R En. intros r r' [(ne & po & ds & gr & co & ti & -> & L1 & L2 & P1 & P2 & F) En]. rewrite <- En in P1, P2. rewrite (prefix_full _ _ _ P1 L1), (prefix_full _ _ _ P2 L2). exists ds, gr, co, ti. split; [reflexivity|]. split; [exact F|]. split; discriminate.
  Qed.
  Lemma rel_step sg sc o o' r : rel sg sc o o' -> op_points r = op_points o -> op_disp r = op_disp o -> op_grads r = op_grads o -> op_code r = op_code o ->
    forall ds gr co ti, o' = lft (op_neg o) (op_pos o) (op_scale o) ds gr co ti o -> rel sg sc r (lft (op_neg r) (op_pos r) (op_scale r) ds gr co ti r).
  Proof.
    intros (ds & gr & co & ti & E & F & G & C) E1 E2 E3 E4 ds' gr' co' ti' E'. rewrite E in E'. injection E' as <- <- <- <-. exists ds, gr, co, ti. split; [reflexivity|]. rewrite E1, E2, E3, E4. auto.
  Qed.
  Lemma vertex_reuse ne po sc ds gr co ti o v k n : ne = op_neg o -> po = op_pos o -> vertex_lambda (lft ne po sc ds gr co ti o) v k n = vertex_lambda o v k n.
  Proof. intros -> ->. revert k. induction n as [|n IH]; intros k; cbn [vertex_lambda]; [reflexivity|]. rewrite IH. reflexivity. Qed.
  Lemma change_reuse sg sc nDim i v o o' : rel sg sc o o' -> orel (fun x x' => rel sg sc (fst x) (fst x') /\ snd x' = snd x) (constraint_change nDim i v o) (constraint_change nDim i v o').
  Proof.
    intros R. unfold constraint_change. assert (E : vertex_lambda o' v 0 nDim = vertex_lambda o v 0 nDim) by (destruct R as (ds & gr & co & ti & -> & _); apply vertex_reuse; reflexivity). rewrite E. same la.
    eapply orel_bind; [apply displacements_reuse; exact R|]. clear. intros o o' [R Ed]. pose proof R as (ds & gr & co & ti & -> & _). fl. cbn [lft op_disp] in Ed. subst ds. same j.
    change (change_step (lft (op_neg o) (op_pos o) (op_scale o) (op_disp o) gr co ti o) j) with (change_step o j). eapply orel_bind; [apply orel_refl|]. intros [c x] ? <-. cbn. auto.
  Qed.
  Lemma constraint_reuse sg sc nDim i o o' : rel sg sc o o' -> orel (fun x x' => rel sg sc (fst x) (fst x') /\ snd x' = snd x) (one_constraint nDim i o) (one_constraint nDim i o').
  Proof.
    intros R. unfold one_constraint. eapply orel_bind with (R := fun x x' => rel sg sc (fst x) (fst x') /\ snd x' = snd x).
    - apply orel_for_same; [cbn; auto|]. intros v [r c] [r' c'] _ [Rr E]. cbn [fst snd] in *. subst. eapply orel_bind; [apply change_reuse; exact Rr|]. intros [q e] [q' e'] [Rq E]. cbn in *. subst. auto.
    - clear. intros [o c] [o' c'] [R E]. cbn [fst snd] in *. subst. same mn. same mx. pose proof R as (ds & gr & co & ti & -> & _). fl. same d.
      destruct (d <? n0)%num; [destruct (d <? _)%num; [same t; cbn; split; [exact (rel_step _ _ _ _ (set_otarget t o) R eq_refl eq_refl eq_refl eq_refl _ _ _ _ eq_refl)|reflexivity]|cbn; auto]|].
      destruct (d >? _)%num; [|cbn; auto]. same e. destruct e; [same t; cbn; split; [exact (rel_step _ _ _ _ (set_otarget t o) R eq_refl eq_refl eq_refl eq_refl _ _ _ _ eq_refl)|reflexivity]|cbn; auto].
  Qed.
  Lemma shift_reuse sg sc active i o o' a : rel sg sc o o' -> orel (fun x x' => rel sg sc (fst x) (fst x') /\ snd x' = snd x) (shift_constraint active i (o, a)) (shift_constraint active i (o', a)).
  Proof.
    intros R. unfold shift_constraint. same b. destruct b; [|cbn; auto]. pose proof R as (ds & gr & co & ti & -> & F & G & C). fl.
    same x1. same la. same x2. same sc1. same x3. same ne. same x4. same po. same k. same ix. same x5. same di. same x6. same ta. same e. same qs. cbn. split; [|reflexivity].
    exists ds, gr, co, ti. split; [reflexivity|]. auto.
  Qed.
  Lemma distances_reuse sg sc fuel n o o' : rel sg sc o o' -> orel (rel sg sc) (computeConstraintDistances fuel n o) (computeConstraintDistances fuel n o').
  Proof.
    revert n o o'. induction fuel as [|fuel IH]; intros n o o' R; cbn [computeConstraintDistances]; [exact I|]. destruct (32 <=? n + 1); [exact I|].
    eapply orel_bind with (R := fun x x' => rel sg sc (fst x) (fst x') /\ snd x' = snd x).
    - apply orel_for_same; [cbn; auto|]. intros i [r c] [r' c'] _ [Rr E]. cbn [fst snd] in *. subst. eapply orel_bind; [apply constraint_reuse; exact Rr|]. intros [q e] [q' e'] [Rq E]. cbn in *. subst. auto.
    - clear o o' R. intros [o c] [o' c'] [R E]. cbn [fst snd] in *. subst. eapply orel_bind with (R := fun x x' => rel sg sc (fst x) (fst x') /\ snd x' = snd x).
      + apply orel_for_same; [cbn; auto|]. intros i [r a] [r' a'] _ [Rr E]. cbn [fst snd] in *. subst. apply shift_reuse, Rr.
      + clear o o' R. intros [o a] [o' a'] [R E]. cbn [fst snd] in *. subst. rewrite (rel_n _ _ _ _ R).
        assert (R1 : rel sg sc (if a <? op_n o then cut_constraints a o else o) (if a <? op_n o then cut_constraints a o' else o')).
        { destruct (a <? op_n o); [|exact R]. destruct R as (ds & gr & co & ti & -> & F & G & C). exists ds, gr, co, ti. split; [reflexivity|]. auto. }
        destruct ((0 <? a) && (a <? n)); [|exact R1]. rewrite (rel_n _ _ _ _ R1). apply IH, R1.
  Qed.
  (** While gradients are stored: [k] of them are known. *)
  Definition rel2 (k : nat) (o o' : Opt T) : Prop := exists ds gr co ti, o' = lft (op_neg o) (op_pos o) (op_scale o) ds gr co ti o /\ fixed_same (op_points o) (op_disp o) ds /\ prefix_eq k (op_grads o) gr /\ length (op_grads o) = op_n o + 1.
  Lemma store_reuse k o o' : rel2 k o o' -> orel (rel2 (S k)) (store_gradient k o) (store_gradient k o').
  Proof.
    intros (ds & gr & co & ti & -> & F & P & L). unfold store_gradient. fl. rewrite gradients_reuse. same g. pose proof (prefix_vset k (op_grads o) gr g P) as Q.
    destruct (vset (op_grads o) k g) as [a| | |] eqn:E, (vset gr k g) as [a'| | |]; cbn in Q |- *; try contradiction; try exact I. exists ds, a', co, ti. apply vset_length in E. fl. replace (S k) with (k + 1) by lia. rewrite E. auto.
  Qed.
  Lemma prepare_reuse fuel f o : as_new f o -> op_disp f = [] -> length (op_neg f) = op_n f + 1 -> length (op_pos f) = op_n f + 1 -> length (op_scale f) = op_n f + 1 -> orel (rel true false) (prepare fuel f) (prepare fuel o).
  Proof.
    intros N Hd L1 L2 L3. unfold prepare. fl.
    match goal with |- orel _ (let! _ := computeScaleFactors ?x in _) (let! _ := computeScaleFactors ?y in _) => assert (R : rel0 0 x y) end.
    { destruct N as [E1 E2 E3 E4 E5 E6 E7 E8 E9 N1 N2 N3 N4]. exists (op_neg o), (op_pos o), (op_scale o), (resize (length (op_points o)) n0 (op_disp o)), (op_grads o), (op_code o), (op_time o).
      split; [destruct f, o; cbn in *; subst; reflexivity|]. fl. rewrite Hd. repeat (split; [assumption|]). repeat (split; [split; [congruence|reflexivity]|]). rewrite E1. split; [apply resize_length|]. split; [apply resize_length|].
      intros i p Hp Fp. pose proof (lookup_lt_Some _ _ _ Hp) as Li. rewrite (lookup_resize_new []) by (cbn; lia). destruct (decide (i < length (op_disp o))) as [Lo|Lo].
      - rewrite lookup_resize by lia. destruct (lookup_lt_is_Some_2 (op_disp o) i Lo) as [d Ed]. rewrite Ed. f_equal. apply (N4 i p d); [congruence|exact Fp|exact Ed].
      - rewrite lookup_resize_new by lia. reflexivity. }
    eapply orel_bind; [apply factors_reuse; exact R|]. clear. intros o o' R. assert (E : op_n o' = op_n o /\ op_lambdas o' = op_lambdas o /\ op_scale o' = op_scale o) by (destruct R as (? & ? & ? & ? & ? & ? & -> & _); auto). destruct E as (-> & -> & ->). same la.
    eapply orel_bind with (R := rel false false).
    - apply limits_reuse. destruct R as (ne & po & ds & gr & co & ti & -> & Q). exists ne, po, ds, gr, co, ti. split; [reflexivity|exact Q].
    - clear. intros o o' R. rewrite (rel_n _ _ _ _ R). eapply orel_bind with (R := rel false false); [destruct (0 <? op_n o); [apply distances_reuse; exact R|exact R]|].
      clear. intros o o' R. fl. rewrite (rel_n _ _ _ _ R). eapply orel_impl.
      + eapply orel_mine with (Q := fun r => op_n r = op_n o); [apply (orel_for rel2 (op_n o + 1)); [|intros k t t' _; apply store_reuse]|].
        * destruct R as (ds & gr & co & ti & -> & F & _). exists ds, (resize (op_n o + 1) [] gr), co, ti. split; [reflexivity|]. fl. split; [exact F|]. split; [split; [rewrite !resize_length; reflexivity|reflexivity]|apply resize_length].
        * intros r. apply (for_keeps (fun r => op_n r = op_n o)); [reflexivity|]. intros i s t. unfold store_gradient. repeat match goal with |- obind ?x _ = _ -> _ => destruct x; cbn [obind]; try discriminate end. intros [= <-]. auto.
      + clear. intros r r' [(ds & gr & co & ti & -> & F & P & L) En]. rewrite <- En in P. exists ds, gr, co, ti. split; [reflexivity|]. split; [exact F|]. split; [intros _; exact (prefix_full _ _ _ P L)|discriminate].
  Qed.

  (** ** The optimisation *)
  Lemma run_reuse sc t o o' : rel true sc o o' -> orel (fun x x' => rel true sc (fst x) (fst x') /\ snd x' = snd x) (run_nlopt t o) (run_nlopt t o').
  Proof.
    revert o o'. induction t as [i la g next IH|r]; intros o o' R; cbn [run_nlopt]; [|cbn; auto]. rewrite (rel_n _ _ _ _ R).
    eapply orel_bind with (R := fun x x' => rel true sc (fst (fst x)) (fst (fst x')) /\ snd (fst x') = snd (fst x) /\ snd x' = snd x).
    - unfold opt_callback. eapply orel_bind; [apply displacements_reuse; exact R|]. clear. intros r r' [R Ed]. pose proof R as (ds & gr & co & ti & -> & _ & G & _). cbn [lft op_disp] in Ed. subst ds. rewrite (G eq_refl) in *. fl. same g1.
      change (computeFunction (lft (op_neg r) (op_pos r) (op_scale r) (op_disp r) (op_grads r) co ti r) i) with (computeFunction r i). same v. cbn. auto.
    - intros [[r v] gr] [[r' v'] gr'] (Rr & E1 & E2). cbn [fst snd] in *. subst. apply IH, Rr.
  Qed.
  Lemma run_returns t o o1 r : returns t -> run_nlopt t o = Ok (o1, r) -> exists code x v, r = NlReturn code x v.
  Proof.
    intros R. revert o. induction R as [i la g next _ IH|code x v]; intros o; cbn [run_nlopt]; [|intros [= _ <-]; eauto].
    destruct (opt_callback _ _ _ _) as [[[q v] gr]| | |]; cbn [obind]; try discriminate. apply IH.
  Qed.
  Variable nlopt : nat -> Opt T -> Nlopt T.
  Hypothesis Hp : by_the_problem nlopt.
  Lemma attempts_reuse fuel k ob sc o o' : rel true sc o o' -> sc = true \/ returns (nlopt k o) ->
    orel (fun x x' => snd x' = snd x /\ (snd x <> None -> rel true true (fst x) (fst x'))) (attempts nlopt fuel k ob o) (attempts nlopt fuel k ob o').
  Proof.
    revert k ob sc o o'. induction fuel as [|fuel IH]; intros k ob sc o o' R S; cbn [attempts]; [exact I|].
    assert (E : nlopt k o' = nlopt k o) by (destruct R as (ds & gr & co & ti & -> & _); apply Hp; reflexivity). rewrite E. clear E.
    eapply orel_bind.
    - eapply orel_mine with (Q := fun x => sc = true \/ exists code y v, snd x = NlReturn code y v); [apply run_reuse; exact R|]. intros [o1 r] Er. destruct S as [S|S]; [left; exact S|right]. destruct (run_returns _ _ _ _ S Er) as (code & y & v & ->). eauto.
    - clear o o' R S. intros [o q] [o' q'] [[R E] S]. cbn [fst snd] in *. subst q'.
      assert (G : forall x x' ob, rel true true x x' ->
        orel (fun x x' => snd x' = snd x /\ (snd x <> None -> rel true true (fst x) (fst x')))
          (let! code := init_get (op_code x) in if (code <? 0)%Z then attempts nlopt fuel (Datatypes.S k) ob x else Ok (x, Some ob))
          (let! code := init_get (op_code x') in if (code <? 0)%Z then attempts nlopt fuel (Datatypes.S k) ob x' else Ok (x', Some ob))).
      { intros x x' ob1 Rx. assert (Ec : op_code x' = op_code x) by (destruct Rx as (ds & gr & co & ti & -> & _ & _ & C); exact (C eq_refl)). rewrite Ec. same code. destruct (code <? 0)%Z; [apply (IH _ _ true); auto|]. cbn. auto. }
      rewrite (rel_n _ _ _ _ R). pose proof R as (ds & gr & co & ti & -> & F & Gg & C). destruct q as [code x v|e x v].
      + apply G. exists ds, gr, (Some code), ti. split; [reflexivity|]. fl. auto.
      + destruct S as [-> | (code & y & w & Eq)]; [|discriminate]. specialize (C eq_refl). subst co. set (la := tabulate (op_n o + 1) x).
        assert (R1 : forall t, rel true true (set_otarget t (set_lambdas la o)) (set_otarget t (set_lambdas la (lft (op_neg o) (op_pos o) (op_scale o) ds gr (op_code o) ti o)))).
        { intros t. exists ds, gr, (op_code o), ti. split; [reflexivity|]. fl. auto. }
        destruct e; fl.
        * same t. apply (G (set_otarget t (set_lambdas la o)) (set_otarget t (set_lambdas la (lft (op_neg o) (op_pos o) (op_scale o) ds gr (op_code o) ti o)))), R1.
        * apply (G (set_otarget (op_target o) (set_lambdas la o)) (set_otarget (op_target o) (set_lambdas la (lft (op_neg o) (op_pos o) (op_scale o) ds gr (op_code o) ti o)))), R1.
        * cbn. split; [reflexivity|]. intros X. destruct (X eq_refl).
  Qed.
  Lemma rescale_reuse o o' : rel true true o o' -> op_disp o' = op_disp o -> orel (fun x x' => rel true true (fst x) (fst x') /\ snd x' = snd x /\ op_disp (fst x') = op_disp (fst x)) (rescaleDisplacements o) (rescaleDisplacements o').
  Proof.
    intros R Ed. unfold rescaleDisplacements. pose proof R as (ds & gr & co & ti & -> & F & G & C). cbn [lft op_disp] in Ed. subst ds. fl. eapply orel_bind; [apply orel_refl|]. intros [[m s] x] ? <-.
    destruct (m =? n0)%num; [cbn; auto|]. same scale. same la. eapply orel_bind; [apply (displacements_reuse true true)|].
    - exists (op_disp o), gr, co, ti. split; [reflexivity|]. auto.
    - intros r r' [Rr E]. cbn. auto.
  Qed.
  Lemma conclude_reuse ob o o' : rel true true o o' -> orel (fun x x' => same_result (fst x, Some (snd x)) (fst x', Some (snd x'))) (conclude ob o) (conclude ob o').
  Proof.
    intros R. unfold conclude. assert (El : op_lambdas o' = op_lambdas o) by (destruct R as (ds & gr & co & ti & -> & _); reflexivity). rewrite El.
    eapply orel_bind; [apply displacements_reuse; exact R|]. clear. intros o o' [R Ed]. eapply orel_bind; [apply rescale_reuse; eassumption|]. clear. intros [o scale] [o' scale'] (R & E & Ed). cbn [fst snd] in *. subst scale'.
    destruct R as (ds & gr & co & ti & -> & F & G & C). cbn [lft op_disp] in Ed. subst ds. rewrite (G eq_refl), (C eq_refl). clear. same obj. fl. same la. same l0. fl. same vs. fl.
    change (set_points vs (set_time (nabs l0) (set_lambdas la (lft (op_neg o) (op_pos o) (op_scale o) (op_disp o) (op_grads o) (op_code o) ti o)))) with (set_points vs (set_time (nabs l0) (set_lambdas la o))).
    same q. same c0. cbn. split; [reflexivity|]. auto.
  Qed.
End reuse.

Theorem reuse {T : Type} `{Num T} nlopt fuel points dist lambdas time limit isMax isEq (f o : Opt T) : optimise_ctor points dist lambdas time limit isMax isEq = Ok f -> as_new f o ->
  by_the_problem nlopt -> (forall p, returns (nlopt 0 p)) -> same_outcome same_result (solve nlopt fuel f) (solve nlopt fuel o).
Proof.
  intros E N Hp Hr. change (@same_outcome (Opt T * option T)) with (@orel (Opt T * option T) (Opt T * option T)).
  assert (Q : op_disp f = [] /\ length (op_neg f) = op_n f + 1 /\ length (op_pos f) = op_n f + 1 /\ length (op_scale f) = op_n f + 1).
  { revert E. unfold optimise_ctor. repeat match goal with |- obind ?x _ = _ -> _ => destruct x; cbn [obind]; try discriminate end. intros [= <-]. cbn. rewrite !replicate_length. auto. }
  destruct Q as (Q1 & Q2 & Q3 & Q4). unfold solve. eapply orel_bind; [apply prepare_reuse; assumption|]. clear -Hp Hr. intros f o R.
  eapply orel_bind; [apply (attempts_reuse nlopt Hp fuel 0 None false f o R); right; apply Hr|]. clear. intros [o v] [o' v'] [E R]. cbn [fst snd] in *. subst. destruct v as [ob|].
  - eapply orel_bind; [apply conclude_reuse, R; discriminate|]. intros [q w] [q' w'] X. exact X.
  - cbn. split; [reflexivity|]. cbn. intros X. destruct (X eq_refl).
Qed.

(** ** After a solve without constraints *)
Section after.
  Context {T : Type} `{Num T}.
  Record kept (e : list bool) (l : T) (m : bool) (o : Opt T) : Prop := {
    k_dist : op_dist o = []; k_target : op_target o = []; k_isEq : op_isEq o = e; k_limit : op_limit o = l; k_isMax : op_isMax o = m; k_n : op_n o = 0; k_n0 : op_n0 o = 0;
    k_neg : length (op_neg o) = 1; k_pos : length (op_pos o) = 1; k_scale : length (op_scale o) = 1;
    k_len : length (op_disp o) = length (op_points o); k_zero : forall i p, op_points o !! i = Some p -> bp_fixed p = true -> op_disp o !! i = Some n0 }.
  Variables (e : list bool) (l : T) (m : bool).
  Notation K := (kept e l m).
  Ltac keep := constructor; cbn; auto; try congruence.
  Lemma displacements_kept la o o1 : computeDisplacements la o = Ok o1 -> K o -> K o1.
  Proof.
    unfold computeDisplacements. destruct (oupdate _ _ _) as [d| | |] eqn:E; cbn [obind]; try discriminate. intros [= <-] []. destruct (oupdate_post _ _ _ _ E) as (H1 & H2 & H3 & _). keep.
    intros i p Hp Hf. destruct (H3 i p Hp) as (b & c & Hb & Hc & F). rewrite (k_zero0 i p Hp Hf) in Hb. injection Hb as <-. apply (disp_fixed _ _ _ _ _ Hf) in F. congruence.
  Qed.
  Lemma scale_kept o c : K o -> length c = 1 -> K (set_scale c o).
  Proof. intros [] L. keep. Qed.
  Lemma lambdas_kept o la : K o -> K (set_lambdas la o).
  Proof. intros []. keep. Qed.
  Lemma code_kept o c : K o -> K (set_code c o).
  Proof. intros []. keep. Qed.
  Lemma grads_kept o g : K o -> K (set_grads g o).
  Proof. intros []. keep. Qed.
  Lemma factors_kept o o1 : computeScaleFactors o = Ok o1 -> K o -> K o1.
  Proof.
    unfold computeScaleFactors. destruct (for_ _ scale_sens o) as [o2| | |] eqn:E; cbn [obind]; try discriminate. intros E1 Ko.
    assert (K2 : K o2).
    { revert E. apply for_keeps; [exact Ko|]. clear. intros i o t. unfold scale_sens. destruct (max_sens _ _ _); cbn [obind]; try discriminate. destruct (vset _ _ _) as [c| | |] eqn:E; cbn [obind]; try discriminate. intros [= <-] Ko. apply scale_kept; [exact Ko|]. rewrite (vset_length _ _ _ _ E). apply Ko. }
    clear E Ko. destruct (for_ _ scale_grad _) as [[o3 g]| | |] eqn:E3; cbn [obind] in E1; try discriminate. injection E1 as <-.
    apply (for_keeps (fun x => K (fst x))) in E3; [exact E3|exact K2|]. clear. intros i [o g] [t g']. unfold scale_grad. destruct (computeGradients _ _ _) as [g1| | |]; cbn [obind]; try discriminate.
    destruct (vget g1 i); cbn [obind]; try discriminate. destruct (vget (op_scale o) i); cbn [obind]; try discriminate. destruct (vset (op_scale o) i _) as [c| | |] eqn:E; cbn [obind]; try discriminate.
    intros [= <- <-] Ko. cbn [fst] in *. apply scale_kept; [exact Ko|]. rewrite (vset_length _ _ _ _ E). apply Ko.
  Qed.
  Lemma limits_kept fuel o o1 : computeLambdaLimits fuel o = Ok o1 -> K o -> K o1.
  Proof.
    unfold computeLambdaLimits. intros E Ko. revert E. apply for_keeps; [exact Ko|]. clear. intros i o t. unfold lambda_limit. do 3 (match goal with |- obind ?x _ = _ -> _ => destruct x; cbn [obind]; try discriminate end).
    destruct (vset (op_neg o) _ _) eqn:E1; cbn [obind]; try discriminate. destruct (vset (op_pos o) _ _) eqn:E2; cbn [obind]; try discriminate.
    repeat match goal with |- obind ?x _ = _ -> _ => destruct x; cbn [obind]; try discriminate end. intros [= <-] []. apply vset_length in E1, E2. keep.
  Qed.
  (** The same before solve has made room for the displacements. *)
  Record kept0 (o : Opt T) : Prop := {
    k0_dist : op_dist o = []; k0_target : op_target o = []; k0_isEq : op_isEq o = e; k0_limit : op_limit o = l; k0_isMax : op_isMax o = m; k0_n : op_n o = 0; k0_n0 : op_n0 o = 0;
    k0_neg : length (op_neg o) = 1; k0_pos : length (op_pos o) = 1; k0_scale : length (op_scale o) = 1;
    k0_zero : forall i p d, op_points o !! i = Some p -> bp_fixed p = true -> op_disp o !! i = Some d -> d = n0 }.
  Lemma prepare_kept fuel o : kept0 o -> post (prepare fuel o) K.
  Proof.
    intros []. unfold prepare. match goal with |- post (obind (computeScaleFactors ?x) _) _ => assert (K0 : K x) end.
    { keep; [apply resize_length|]. intros i p Hp Hf. pose proof (lookup_lt_Some _ _ _ Hp) as Li. destruct (decide (i < length (op_disp o))) as [Lo|Lo].
      - rewrite lookup_resize by lia. destruct (lookup_lt_is_Some_2 (op_disp o) i Lo) as [d Ed]. rewrite Ed. f_equal. exact (k0_zero0 i p d Hp Hf Ed).
      - rewrite lookup_resize_new by lia. reflexivity. }
    clear -K0. apply post_bind. intros o2 E2. apply (factors_kept _ _ E2) in K0. clear E2. apply post_bind, post_any. intros la. apply post_bind. intros o3 E3. apply limits_kept in E3; [|apply lambdas_kept, K0]. clear -E3.
    rewrite (k_n _ _ _ _ E3). cbn [Nat.ltb Nat.leb obind]. apply post_for; [|apply grads_kept, E3]. intros k t _ Kt. unfold store_gradient. do 2 (apply post_bind, post_any; intros ?). apply post_ok, grads_kept, Kt.
  Qed.
  Lemma run_kept t : forall o, K o -> post (run_nlopt t o) (fun r => K (fst r)).
  Proof.
    induction t as [i la g next IH|r]; intros o Ko; cbn [run_nlopt]; [|apply post_ok, Ko]. apply post_bind. intros [[o1 v] gr] E. apply IH. revert E. unfold opt_callback.
    destruct (computeDisplacements _ o) as [o2| | |] eqn:E; cbn [obind]; try discriminate. apply displacements_kept in E; [|exact Ko]. repeat match goal with |- obind ?x _ = _ -> _ => destruct x; cbn [obind]; try discriminate end. intros [= <- _ _]. exact E.
  Qed.
  Lemma attempts_kept nlopt fuel : forall k ob o, K o -> post (attempts nlopt fuel k ob o) (fun r => K (fst r)).
  Proof.
    induction fuel as [|fuel IH]; intros k ob o Ko; cbn [attempts]; [discriminate|]. apply post_bind. eapply post_impl; [apply run_kept, Ko|]. clear o Ko. intros [o r] Ko. cbn [fst] in Ko.
    assert (A : forall x ob, K x -> post (let! code := init_get (op_code x) in if (code <? 0)%Z then attempts nlopt fuel (S k) ob x else Ok (x, Some ob)) (fun r => K (fst r))).
    { intros x ob1 Kx. apply post_bind, post_any. intros c. destruct (c <? 0)%Z; [apply IH, Kx|apply post_ok, Kx]. }
    destruct r as [code x v|ex x v]; [apply A, code_kept, lambdas_kept, Ko|]. destruct ex; [|apply A, lambdas_kept, Ko|apply post_ok, lambdas_kept, Ko].
    cbn [op_n op_target set_lambdas]. rewrite (k_n _ _ _ _ Ko), (k_target _ _ _ _ Ko). cbn [for_ for_from obind]. apply (A (set_otarget [] (set_lambdas (tabulate (0 + 1) x) o))). destruct Ko. keep.
  Qed.
  Lemma conclude_kept ob o : K o -> post (conclude ob o) (fun r => K (fst r)).
  Proof.
    intros Ko. unfold conclude. apply post_bind. intros o1 E1. apply displacements_kept in E1; [|exact Ko]. clear o Ko. apply post_bind. intros [o2 s] E2.
    assert (K2 : K o2).
    { revert E2. unfold rescaleDisplacements. destruct (ofold _ _ _) as [[[mx sc] x]| | |]; cbn [obind]; try discriminate. destruct (mx =? n0)%num; [intros [= <- _]; exact E1|]. destruct (init_get sc); cbn [obind]; try discriminate. destruct (for_ _ _ _) as [la| | |]; cbn [obind]; try discriminate.
      destruct (computeDisplacements la _) as [o3| | |] eqn:E3; cbn [obind]; try discriminate. intros [= <- _]. apply (displacements_kept _ _ _ E3), lambdas_kept, E1. }
    clear o1 E1 E2. apply post_bind, post_any. intros v. apply post_bind, post_any. intros la. apply post_bind, post_any. intros l0. apply post_bind. intros ps E. cbn [op_n op_n0 set_points set_time set_lambdas].
    rewrite (k_n _ _ _ _ K2), (k_n0 _ _ _ _ K2). change (0 <? 0) with false. cbv iota. cbn [obind]. apply post_bind, post_any. intros c. apply post_ok. cbn [fst]. cbn [op_points op_disp op_time set_time set_lambdas] in E. destruct (oupdate_post _ _ _ _ E) as (_ & Lp & H3 & _). destruct K2. keep.
    intros i p Hp Hf. destruct (op_disp o2 !! i) as [d|] eqn:Ed.
    - pose proof (lookup_lt_Some _ _ _ Ed) as Li. destruct (H3 i d) as (b & c1 & Hb & Hc & F); [rewrite lookup_take by lia; exact Ed|]. assert (p = c1) by congruence. subst c1. injection F as <-. rewrite <- Ed. apply (k_zero0 i b Hb Hf).
    - apply lookup_ge_None in Ed. apply lookup_lt_Some in Hp. lia.
  Qed.
  Lemma solve_kept nlopt fuel o : kept0 o -> post (solve nlopt fuel o) (fun r => K (fst r)).
  Proof.
    intros Ko. unfold solve. apply post_bind. eapply post_impl; [apply prepare_kept, Ko|]. clear o Ko. intros o Ko. apply post_bind. eapply post_impl; [apply attempts_kept, Ko|]. clear o Ko. intros [o r] Ko. cbn [fst] in Ko.
    destruct r as [ob|]; [|apply post_ok, Ko]. apply post_bind. eapply post_impl; [apply conclude_kept, Ko|]. intros [q w] Kq. apply post_ok, Kq.
  Qed.
End after.

Lemma used_kept {T : Type} `{Num T} limit isMax isEq (o : Opt T) : used limit isMax isEq o -> kept0 (if (length isEq =? 0)%nat then [] else isEq) limit isMax o.
Proof.
  induction 1 as [points lambdas time o C|o nlopt fuel o' v ps la _ IH E F].
  - apply ctor_inv in C as (_ & _ & _ & _ & ->). constructor; cbn; auto. intros i p d _ _. rewrite lookup_nil. discriminate.
  - pose proof (solve_kept _ _ _ nlopt fuel o IH _ E) as K. cbn [fst] in K. destruct K. constructor; cbn; auto. intros i q d Hq Hf Hd. pose proof (lookup_lt_Some _ _ _ Hd) as Li. rewrite k_len0 in Li.
    destruct (lookup_lt_is_Some_2 (op_points o') i Li) as [p Hp]. pose proof (k_zero0 i p Hp (F i p q Hp Hq Hf)). congruence.
Qed.

Theorem reuse_used {T : Type} `{Num T} nlopt fuel time limit isMax isEq (f o : Opt T) : used limit isMax isEq o -> optimise_ctor (op_points o) [] (op_lambdas o) time limit isMax isEq = Ok f ->
  by_the_problem nlopt -> (forall p, returns (nlopt 0 p)) -> same_outcome same_result (solve nlopt fuel f) (solve nlopt fuel o).
Proof.
  intros U C Hp Hr. apply (reuse nlopt fuel _ _ _ _ _ _ _ f o C); [|exact Hp|exact Hr]. apply used_kept in U as []. apply ctor_inv in C as (_ & _ & _ & _ & ->). constructor; cbn; auto.
Qed.
