(** * OptSolve: the results of solve. *)

From Coq Require Import Reals Lra.
From Verif Require Import Num NumR LevelSetModel OptModel OptSpec OptFrame OptReal OptGrad.
Open Scope R_scope.

(** The state in which the last attempt started, and what NLopt returned from it. *)
Definition last_attempt {T} `{Num T} (nlopt : nat -> Opt T -> Nlopt T) (o0 : Opt T) (o : Opt T) (ob : option T) : Prop :=
  exists k oa ob' code x v, good o0 oa /\ run_nlopt (nlopt k oa) oa = Ok (ob', NlReturn code x v) /\ (0 <= code)%Z /\ ob = Some v /\
    o = set_code (Some code) (set_lambdas (tabulate (op_n ob' + 1) x) ob').

Lemma attempts_last {T} `{Num T} nlopt (o0 : Opt T) fuel : forall k ob o, good o0 o -> (match op_code o with Some c => (c < 0)%Z | None => True end) ->
  post (attempts nlopt fuel k ob o) (fun r => match snd r with Some ob' => last_attempt nlopt o0 (fst r) ob' | None => True end).
Proof.
  induction fuel as [|fuel IH]; intros k ob o G C; [intros ? E; discriminate|]. cbn [attempts].
  apply post_bind. intros [o1 r] E. pose proof (run_good o0 _ _ G _ E) as [G1 E1]. cbn [fst] in G1, E1.
  assert (C1 : op_code o1 = op_code o) by (rewrite E1; reflexivity).
  assert (A : forall o' ob', good o0 o' -> op_code o' = op_code o -> post (let! code := init_get (op_code o') in
    if (code <? 0)%Z then attempts nlopt fuel (S k) ob' o' else Ok (o', Some ob')) (fun r => match snd r with Some ob' => last_attempt nlopt o0 (fst r) ob' | None => True end)).
  { intros o' ob' G' C'. rewrite C'. destruct (op_code o) as [c|] eqn:Ec; [|intros ? E'; discriminate]. cbn [init_get obind].
    replace (c <? 0)%Z with true by (symmetry; apply Z.ltb_lt, C). apply IH; [exact G'|]. rewrite C'. exact C. }
  destruct r as [code x v|e x v].
  - cbn [op_code set_code init_get obind]. destruct (Z.ltb_spec code 0) as [L|L].
    + apply IH; [|exact L]. apply good_code, good_lambdas; [exact G1|apply tabulate_length].
    + apply post_ok. cbn. exists k, o, o1, code, x, v. auto.
  - assert (G2 : good o0 (set_lambdas (tabulate (op_n o1 + 1) x) o1)) by (apply good_lambdas; [exact G1|apply tabulate_length]).
    destruct e.
    + apply post_bind, post_any. intros t. apply A; [apply good_otarget, G2|exact C1].
    + apply A; [exact G2|exact C1].
    + apply post_ok. exact I.
Qed.

(** prepare does not touch the return code. *)
Lemma shift_code {T} `{Num T} active k (s : Opt T * nat) : post (shift_constraint active k s) (fun r => op_code (fst r) = op_code (fst s)).
Proof.
  destruct s as [o a]. unfold shift_constraint. apply post_bind, post_any. intros b. destruct b; [|apply post_ok; reflexivity].
  do 16 (apply post_bind, post_any; intros ?). apply post_ok. reflexivity.
Qed.
Lemma distances_code {T} `{Num T} (o0 : Opt T) fuel : forall o, good o0 o -> post (computeConstraintDistances fuel (op_n o) o) (fun o' => op_code o' = op_code o).
Proof.
  induction fuel as [|fuel IH]; intros o G; [intros ? E; discriminate|]. cbn [computeConstraintDistances].
  destruct (32 <=? op_n o + 1)%nat; [intros ? E; discriminate|]. apply post_bind.
  eapply post_impl; [apply (post_for (fun s => good o0 (fst s) /\ op_n (fst s) = op_n o /\ op_code (fst s) = op_code o))|].
  - intros k [o' ac] _ (G' & E & C). cbn [fst] in *. apply post_bind. eapply post_impl; [apply (one_good o0), G'|].
    intros [o2 b] [G2 E2]. cbn [fst] in *. apply post_ok. cbn [fst]. split; [exact G2|]. rewrite E2. auto.
  - cbn. auto.
  - intros [o1 ac] (G1 & E1 & C1). cbn [fst] in *. apply post_bind.
    intros [o2 a] E2.
    assert (S2 : shifted o1 (op_n o) (o2, a)).
    { revert E2. apply (for_post_i (shifted o1)); [|constructor; cbn; auto]. intros k s _ S. apply shift_shifted, S. }
    assert (C2 : op_code o2 = op_code o1).
    { revert E2. apply (post_for (fun s => op_code (fst s) = op_code o1)); [|reflexivity]. intros k s _ <-. apply shift_code. }
    set (o3 := if (a <? op_n o2)%nat then cut_constraints a o2 else o2).
    assert (C3 : op_code o3 = op_code o) by (unfold o3; destruct (a <? op_n o2)%nat; cbn; congruence).
    destruct (_ && _); [|apply post_ok, C3]. rewrite <- C3. apply IH.
    destruct S2 as [S1 S2 S3 S4 S5 S6 S7 S8 S9 S10 S11 S12]. cbn [fst snd] in *. unfold o3. rewrite S5, E1.
    destruct (Nat.ltb_spec a (op_n o)) as [L|L].
    + destruct G1. constructor; cbn; try congruence; rewrite ?resize_length; auto.
      * lia.
      * rewrite lookup_resize by lia. congruence.
      * intros E. lia.
      * intros i p Hp Hf. rewrite S7. apply g_fixed with p; auto.
    + rewrite S12 by lia. exact G1.
Qed.
Lemma prepare_code {T} `{Num T} points dist lambdas time limit isMax isEq fuel (o : Opt T) : optimise_ctor points dist lambdas time limit isMax isEq = Ok o ->
  post (prepare fuel o) (fun o' => op_code o' = None).
Proof.
  intros E. unfold prepare. pose proof (start_good _ _ _ _ _ _ _ _ E) as G. cbn [op_n set_disp] in *. set (o1 := set_index _ _) in *.
  assert (C1 : op_code o1 = None). { apply ctor_inv in E as (_ & _ & _ & _ & ->). reflexivity. }
  apply post_bind. eapply post_impl; [apply scale_good, G|]. intros o2 [G2 E2]. apply post_bind.
  eapply post_impl.
  { apply (for_map_ext _ (fun i x => let! c := vget (op_scale o2) i in Ok (x / c)%num)); [apply G2|].
    intros i l. destruct (vget l i); cbn [obind]; auto. rewrite obind_assoc. reflexivity. }
  intros la [L _]. apply post_bind. eapply post_impl; [apply limits_good, good_lambdas; [exact G2|exact L]|]. intros o3 [G3 E3].
  assert (C3 : op_code o3 = None) by (rewrite E3, E2; exact C1).
  apply post_bind. eapply (post_impl _ (fun o' => op_code o' = None)).
  { destruct (0 <? op_n o3)%nat; [rewrite <- C3; apply (distances_code o), G3|apply post_ok, C3]. }
  intros o4 C4. apply (post_for (fun o' => op_code o' = None)); [|exact C4]. intros k o' _ C'. unfold store_gradient. do 2 (apply post_bind, post_any; intros ?).
  apply post_ok, C'.
Qed.

(** solve, taken apart. *)
Lemma solve_parts {T} `{Num T} points dist lambdas time limit isMax isEq (o : Opt T) nlopt fuel o' v :
  optimise_ctor points dist lambdas time limit isMax isEq = Ok o -> solve nlopt fuel o = Ok (o', Some v) ->
  exists o1 o2 ob, prepare fuel o = Ok o1 /\ good o o1 /\ attempts nlopt fuel 0 None o1 = Ok (o2, Some ob) /\ good o o2 /\
    last_attempt nlopt o o2 ob /\ conclude ob o2 = Ok (o', v).
Proof.
  intros C E. unfold solve in E. destruct (prepare fuel o) as [o1| | |] eqn:E1; cbn [obind] in E; try discriminate.
  pose proof (prepare_good _ _ _ _ _ _ _ fuel _ C _ E1) as G1. pose proof (prepare_code _ _ _ _ _ _ _ fuel _ C _ E1) as C1.
  destruct (attempts nlopt fuel 0 None o1) as [[o2 r]| | |] eqn:E2; cbn [obind] in E; try discriminate.
  destruct r as [ob|]; [|discriminate]. destruct (conclude ob o2) as [[o3 v3]| | |] eqn:E3; cbn [obind] in E; try discriminate.
  injection E as -> ->. exists o1, o2, ob. split; [reflexivity|]. split; [exact G1|]. split; [exact E2|].
  split; [exact (attempts_good nlopt o fuel 0 None o1 G1 _ E2)|]. split; [|exact E3].
  assert (K : match op_code o1 with Some c => (c < 0)%Z | None => True end) by (rewrite C1; exact I).
  exact (attempts_last nlopt o fuel 0 None o1 G1 K _ E2).
Qed.

(** ** Velocities, time step and multipliers *)
Theorem solve_moves points dist lambdas time limit isMax isEq (o : Opt R) nlopt fuel o' v :
  optimise_ctor points dist lambdas time limit isMax isEq = Ok o -> solve nlopt fuel o = Ok (o', Some v) ->
  length (op_lambdas o') = length lambdas /\ op_time o' = Rabs (nth 0 (op_lambdas o') 0) /\
  op_points o' = map (fun p => set_bp_velocity (move (op_lambdas o') p / op_time o') p) points.
Proof.
  intros C E. destruct (solve_parts _ _ _ _ _ _ _ _ _ _ _ _ C E) as (o1 & o2 & ob & _ & _ & _ & G2 & _ & E3).
  apply ctor_inv in C as (Hl & _ & _ & L & Eo). apply (proj1 (Rltb_true _ _)) in Hl.
  assert (Hlim : 0 < op_limit o) by (rewrite Eo; exact Hl).
  destruct (conclude_real o o2 ob Hlim G2 _ E3) as (w & s & _ & _ & L' & T' & P' & _).
  split; [rewrite L', Eo; cbn; lia|]. split; [exact T'|]. rewrite P', Eo. reflexivity.
Qed.

Theorem solve_within_limit points dist lambdas time limit isMax isEq (o : Opt R) nlopt fuel o' v :
  side_limits limit points ->
  optimise_ctor points dist lambdas time limit isMax isEq = Ok o -> solve nlopt fuel o = Ok (o', Some v) ->
  forall p, p ∈ points -> Rabs (move (op_lambdas o') p) <= limit.
Proof.
  intros SL C E. destruct (solve_parts _ _ _ _ _ _ _ _ _ _ _ _ C E) as (o1 & o2 & ob & _ & _ & _ & G2 & _ & E3).
  apply ctor_inv in C as (Hl & _ & _ & L & Eo). apply (proj1 (Rltb_true _ _)) in Hl.
  assert (Hlim : 0 < op_limit o) by (rewrite Eo; exact Hl). change (0 < limit) in Hl.
  destruct (conclude_real o o2 ob Hlim G2 _ E3) as (w & s & _ & _ & _ & _ & _ & Mv & Alt).
  intros p Hp. unfold move. destruct (bp_fixed p) eqn:Hf; [rewrite Rabs_R0; lra|]. specialize (Mv p). unfold clamp at 1 in Mv. rewrite Mv.
  replace (op_limit o) with limit in Alt by (rewrite Eo; reflexivity). replace (op_points o) with points in Alt by (rewrite Eo; reflexivity).
  destruct Alt as [[-> A]|(M & HM & -> & A & _)].
  - rewrite Rmult_1_r. exact (A p Hp Hf).
  - apply clamp_rescaled; auto.
Qed.

(** ** What prepare leaves: positive scale factors, and the gradients unless some but not all constraints were removed *)
Lemma scale_of_distances (o0 : Opt R) fuel : forall o, good o0 o -> (forall k, (k < op_n o + 1)%nat -> 0 < nth k (op_scale o) 0) ->
  post (computeConstraintDistances fuel (op_n o) o) (fun o' => forall k, (k < op_n o' + 1)%nat -> 0 < nth k (op_scale o') 0).
Proof.
  induction fuel as [|fuel IH]; intros o G P; [intros ? E; discriminate|]. cbn [computeConstraintDistances].
  destruct (32 <=? op_n o + 1)%nat; [intros ? E; discriminate|]. apply post_bind.
  eapply post_impl; [apply (post_for (fun s => good o0 (fst s) /\ op_n (fst s) = op_n o /\ op_scale (fst s) = op_scale o))|].
  - intros k [o' ac] _ (G' & E & C). cbn [fst] in *. apply post_bind. eapply post_impl; [apply (one_good o0), G'|].
    intros [o2 b] [G2 E2]. cbn [fst] in *. apply post_ok. cbn [fst]. split; [exact G2|]. rewrite E2. auto.
  - cbn. auto.
  - intros [o1 ac] (G1 & E1 & C1). cbn [fst] in *. apply post_bind.
    intros [o2 a] E2.
    assert (S2 : shifted o1 (op_n o) (o2, a)).
    { revert E2. apply (for_post_i (shifted o1)); [|constructor; cbn; auto]. intros k s _ S. apply shift_shifted, S. }
    assert (C2 : forall k, (k < op_n o + 1)%nat -> 0 < nth k (op_scale o2) 0).
    { revert E2. apply (post_for (fun s => forall k, (k < op_n o + 1)%nat -> 0 < nth k (op_scale (fst s)) 0)).
      - intros k [o' a'] Hk P'. cbn [fst] in P'. unfold shift_constraint. apply post_bind, post_any. intros b. destruct b; [|apply post_ok; exact P'].
        do 2 (apply post_bind, post_any; intros ?). apply post_bind, post_vget. intros x Hx. apply post_bind, post_vset_ins. intros Hl.
        do 12 (apply post_bind, post_any; intros ?). apply post_ok. cbn [fst op_scale]. intros j Hj. rewrite nth_insert by exact Hl.
        destruct (decide (j = a' + 1)%nat); [|apply P', Hj]. rewrite <- (nth_lookup' _ _ _ Hx). apply P'. lia.
      - cbn [fst]. rewrite C1. exact P. }
    set (o3 := if (a <? op_n o2)%nat then cut_constraints a o2 else o2).
    destruct S2 as [S1 S2 S3 S4 S5 S6 S7 S8 S9 S10 S11 S12]. cbn [fst snd] in *.
    assert (C3 : forall k, (k < op_n o3 + 1)%nat -> 0 < nth k (op_scale o3) 0).
    { unfold o3. destruct (a <? op_n o2)%nat; cbn [op_scale op_n cut_constraints].
      - intros k Hk. rewrite nth_lookup, lookup_resize by (rewrite ?S9, ?(g_scale _ _ G1); lia). rewrite <- nth_lookup. apply C2. lia.
      - rewrite S5, E1. exact C2. }
    destruct (_ && _); [|apply post_ok, C3]. apply IH; [|exact C3]. unfold o3. rewrite S5, E1.
    destruct (Nat.ltb_spec a (op_n o)) as [L|L].
    + destruct G1. constructor; cbn; try congruence; rewrite ?resize_length; auto.
      * lia.
      * rewrite lookup_resize by lia. congruence.
      * intros E. lia.
      * intros i p Hp Hf. rewrite S7. apply g_fixed with p; auto.
    + rewrite S12 by lia. exact G1.
Qed.

Lemma good_index o0 (o : Opt R) : good o0 o -> op_n o = op_n0 o0 \/ op_n o = 0%nat -> op_index o = seq 0 (op_n o + 1).
Proof.
  intros G [E|E]; [apply (g_all _ _ G), E|]. pose proof (g_index _ _ G) as L. pose proof (g_zero _ _ G) as Z. rewrite E in *.
  destruct (op_index o) as [|x [|y l]]; cbn in *; try discriminate; congruence.
Qed.

Lemma prepare_real points dist lambdas time limit isMax isEq fuel (o : Opt R) : optimise_ctor points dist lambdas time limit isMax isEq = Ok o ->
  post (prepare fuel o) (fun o' => good o o' /\
    ((forall k, (k < length lambdas)%nat -> sensitive k points) -> forall k, (k < op_n o' + 1)%nat -> 0 < nth k (op_scale o') 0) /\
    (op_n o' = op_n0 o \/ op_n o' = 0%nat -> grads_ok o')).
Proof.
  intros E. unfold prepare. pose proof (start_good _ _ _ _ _ _ _ _ E) as G. cbn [op_n set_disp] in *. set (o1 := set_index _ _) in *.
  pose proof (ctor_inv _ _ _ _ _ _ _ _ E) as (_ & _ & _ & Ln & Eo).
  apply post_bind. intros o2 Eo2. pose proof (scale_good o o1 G _ Eo2) as [G2 E2]. apply post_bind.
  assert (P2 : (forall k, (k < length lambdas)%nat -> sensitive k points) -> forall k, (k < op_n o1 + 1)%nat -> 0 < nth k (op_scale o2) 0).
  { intros S. refine (proj2 (proj2 (scale_real o o1 G eq_refl _ _ Eo2))). rewrite Eo. intros k Hk. apply S. rewrite Ln. unfold o1 in Hk. rewrite Eo in Hk. cbn in Hk. lia. }
  eapply post_impl.
  { apply (for_map_ext _ (fun i x => let! c := vget (op_scale o2) i in Ok (x / c)%num)); [apply G2|].
    intros i l. destruct (vget l i); cbn [obind]; auto. rewrite obind_assoc. reflexivity. }
  intros la [L _]. apply post_bind. eapply post_impl; [apply limits_good, good_lambdas; [exact G2|exact L]|]. intros o3 [G3 E3].
  assert (P3 : (forall k, (k < length lambdas)%nat -> sensitive k points) -> forall k, (k < op_n o3 + 1)%nat -> 0 < nth k (op_scale o3) 0).
  { intros S k Hk. replace (op_scale o3) with (op_scale o2) by (rewrite E3; reflexivity). apply P2; [exact S|]. rewrite E3, E2 in Hk. exact Hk. }
  apply post_bind. intros o4 E4.
  assert (G4 : good o o4). { destruct (0 <? op_n o3)%nat; [exact (distances_good o _ o3 G3 _ E4)|]. injection E4 as <-. exact G3. }
  assert (P4 : (forall k, (k < length lambdas)%nat -> sensitive k points) -> forall k, (k < op_n o4 + 1)%nat -> 0 < nth k (op_scale o4) 0).
  { intros S. destruct (0 <? op_n o3)%nat; [exact (scale_of_distances o _ o3 G3 (P3 S) _ E4)|]. injection E4 as <-. exact (P3 S). }
  intros o5 E5. set (o4' := set_grads _ o4) in E5.
  assert (F5 : good o o5 /\ o5 = set_grads (op_grads o5) o4).
  { revert E5. apply (post_for (fun o' => good o o' /\ o' = set_grads (op_grads o') o4)).
    - intros k o' _ [G' E']. unfold store_gradient. do 2 (apply post_bind, post_any; intros ?). apply post_ok. split; [apply good_grads, G'|]. rewrite E'. reflexivity.
    - split; [apply good_grads, G4|reflexivity]. }
  destruct F5 as [G5 E5']. split; [exact G5|]. split.
  - rewrite E5'. exact P4.
  - intros N. assert (N4 : op_n o4 = op_n0 o \/ op_n o4 = 0%nat) by (rewrite E5' in N; exact N).
    refine (proj2 (store_real o4' _ _ _ E5)).
    + exact (good_index o o4 G4 N4).
    + cbn. apply resize_length.
Qed.

(** ** The predicted change of the objective *)

(** NLopt returns the value of the objective function at the multipliers it returns. *)
Definition truthful (nlopt : nat -> Opt R -> Nlopt R) : Prop := forall k o o1 code x v,
  run_nlopt (nlopt k o) o = Ok (o1, NlReturn code x v) -> exists o2, opt_callback o1 (tabulate (op_n o1 + 1) x) false 0 = Ok (o2, v, []).

Lemma integral_scal k ps D s : integral k ps (fun p => D p * s) = integral k ps D * s.
Proof. unfold integral. induction ps as [|p ps IH]; cbn [map fold_right]; [lra|]. rewrite IH. ring. Qed.
Lemma integral_ext k ps D D' : (forall p, p ∈ ps -> D p = D' p) -> integral k ps D = integral k ps D'.
Proof. unfold integral. induction ps as [|p ps IH]; intros E; cbn [map fold_right]; [reflexivity|]. rewrite IH, (E p) by (auto using elem_of_list_here, elem_of_list_further). reflexivity. Qed.

Lemma attempts_scale nlopt (o0 : Opt R) fuel : forall k ob o, good o0 o -> post (attempts nlopt fuel k ob o) (fun r => op_scale (fst r) = op_scale o /\ op_n (fst r) = op_n o).
Proof.
  induction fuel as [|fuel IH]; intros k ob o G; [intros ? E; discriminate|]. cbn [attempts].
  apply post_bind. eapply post_impl; [apply run_good, G|]. intros [o1 r] [G1 E1]. cbn [fst] in G1, E1.
  assert (A : forall o' ob', good o0 o' -> op_scale o' = op_scale o /\ op_n o' = op_n o -> post (let! code := init_get (op_code o') in
    if (code <? 0)%Z then attempts nlopt fuel (S k) ob' o' else Ok (o', Some ob')) (fun r => op_scale (fst r) = op_scale o /\ op_n (fst r) = op_n o)).
  { intros o' ob' G' [S1 S2]. apply post_bind, post_any. intros code. destruct (code <? 0)%Z; [|apply post_ok; auto].
    eapply post_impl; [apply IH, G'|]. intros r' [-> ->]. auto. }
  assert (S : op_scale o1 = op_scale o /\ op_n o1 = op_n o) by (rewrite E1; auto).
  destruct r as [code x v|e x v].
  - apply A; [|exact S]. apply good_code, good_lambdas; [exact G1|apply tabulate_length].
  - assert (G2 : good o0 (set_lambdas (tabulate (op_n o1 + 1) x) o1)) by (apply good_lambdas; [exact G1|apply tabulate_length]).
    destruct e.
    + apply post_bind, post_any. intros t. apply A; [apply good_otarget, G2|exact S].
    + apply A; [exact G2|exact S].
    + apply post_ok. exact S.
Qed.

Lemma conclude_kept {T} `{Num T} (o0 o : Opt T) ob : good o0 o -> post (conclude ob o) (fun _ => op_n o = op_n0 o0 \/ op_n o = 0%nat).
Proof.
  intros G. unfold conclude. apply post_bind. eapply post_impl; [apply displacements_good, G|]. intros o1 (G1 & E1 & _).
  apply post_bind. eapply (post_impl _ (fun r => good o0 (fst r) /\ op_n (fst r) = op_n o)).
  { assert (E1n : op_n o1 = op_n o) by (rewrite E1; reflexivity).
    unfold rescaleDisplacements. apply post_bind, post_any. intros [[M sc] r]. destruct (M =? n0)%num; [apply post_ok; auto|].
    apply post_bind, post_any. intros s. apply post_bind. eapply post_impl.
    { apply (for_map_ext _ (fun _ x => Ok (x * s)%num)); [apply G1|]. reflexivity. }
    intros la [L _]. apply post_bind. eapply post_impl; [apply displacements_good, good_lambdas; [exact G1|exact L]|].
    intros o' (G' & E' & _). apply post_ok. cbn [fst]. split; [exact G'|]. rewrite E'. exact E1n. }
  intros [o2 s] [G2 E2]. cbn [fst] in *. do 4 (apply post_bind, post_any; intros ?). cbn [op_n op_n0 set_points set_time set_lambdas].
  intros r E. pose proof (g_n _ _ G2). rewrite (g_n0 _ _ G2), E2 in *. destruct (Nat.ltb_spec (op_n o) (op_n0 o0)) as [Lt|Ge]; [|lia].
  destruct (Nat.ltb_spec 0 (op_n o)) as [Pos|Zero]; [|lia]. exfalso.
  rewrite (Nat.add_comm (op_n o)) in E. cbn [remap Nat.add] in E. unfold vget at 1 in E. cbn [op_index set_lambdas set_points set_time] in E.
  replace (op_index o2 !! S (op_n o)) with (None : option nat) in E; [discriminate|]. symmetry. apply lookup_ge_None_2. rewrite (g_index _ _ G2). lia.
Qed.

Theorem solve_objective points dist lambdas time limit isMax isEq (o : Opt R) nlopt fuel o' v : truthful nlopt ->
  (forall k, (k < length lambdas)%nat -> sensitive k points) ->
  optimise_ctor points dist lambdas time limit isMax isEq = Ok o -> solve nlopt fuel o = Ok (o', Some v) ->
  (forall p, p ∈ points -> bp_fixed p = false -> bp_domain p = false) \/
    (side_limits limit points /\ forall p, p ∈ points -> Rabs (move (op_lambdas o') p) < limit) ->
  v = integral 0 points (move (op_lambdas o')).
Proof.
  intros Tr Se C E Nd. destruct (solve_parts _ _ _ _ _ _ _ _ _ _ _ _ C E) as (o1 & o2 & ob & E1 & G1 & E2 & G2 & La & E3).
  destruct (prepare_real _ _ _ _ _ _ _ fuel _ C _ E1) as (_ & P1 & _). specialize (P1 Se).
  destruct (attempts_scale nlopt o fuel 0%nat None o1 G1 _ E2) as [Es En]. cbn [fst] in Es, En.
  pose proof (ctor_inv _ _ _ _ _ _ _ _ C) as (Hl & _ & _ & L & Eo). apply (proj1 (Rltb_true _ _)) in Hl.
  assert (Hlim : 0 < op_limit o) by (rewrite Eo; exact Hl). assert (Epts : op_points o = points) by (rewrite Eo; reflexivity).
  pose proof (conclude_kept o o2 ob G2 _ E3) as Kept. cbn beta in Kept.
  destruct (conclude_real o o2 ob Hlim G2 _ E3) as (w & s & Ew & Ev & L' & _ & _ & Mv & Alt).
  destruct La as (k & oa & ob' & code & x & v' & Ga & Er & _ & Eob & Eo2). rewrite Eob in Ew. injection Ew as <-.
  destruct (Tr _ _ _ _ _ _ Er) as [o3 Ecb].
  pose proof (run_good o _ _ Ga _ Er) as [Gb _]. cbn [fst] in Gb.
  assert (I : op_index ob' = seq 0 (op_n ob' + 1)). { apply (good_index o); [exact Gb|]. rewrite Eo2 in Kept. exact Kept. }
  destruct (callback_real ob' _ false 0%nat I _ Ecb) as (_ & _ & _ & Hv). cbn [Nat.eqb] in Hv.
  rewrite (g_points _ _ Gb), Epts in Hv. rewrite Ev, Hv.
  assert (Esc : op_scale o2 = op_scale ob') by (rewrite Eo2; reflexivity). rewrite Esc.
  assert (C0 : 0 < nth 0 (op_scale ob') 0). { rewrite <- Esc, Es. apply P1. lia. }
  rewrite (integral_ext 0 points (move (op_lambdas o')) (fun p => (if bp_fixed p then 0 else clamp p (lin ob' (tabulate (op_n ob' + 1) x) p)) * s)).
  - rewrite integral_scal. field. lra.
  - intros p Hp. unfold move. destruct (bp_fixed p) eqn:Hf; [lra|].
    destruct Nd as [Nd|[SL Nd]].
    { specialize (Mv p). unfold clamp in Mv |- *. rewrite (Nd p Hp Hf) in *. rewrite Mv, Eo2. reflexivity. }
    destruct Alt as [[-> _]|(M & HM & -> & _ & q & Hq & Fq & Aq)].
    { specialize (Mv p). unfold clamp at 1 in Mv. rewrite Mv, !Rmult_1_r, Eo2. reflexivity. }
    exfalso. rewrite Epts in Hq. specialize (Nd q Hq). specialize (SL q Hq). unfold move in Nd. rewrite Fq in Nd. specialize (Mv q). unfold clamp at 1 in Mv. rewrite Mv in Nd.
    assert (Elim : op_limit o = limit) by (rewrite Eo; reflexivity). rewrite Elim in *. change (IZR 0) with 0 in Hl.
    set (y := lin o2 (op_lambdas o2) q) in *. clear Mv.
    assert (S : 0 < limit / M < 1).
    { split; [apply Rdiv_lt_0_compat; lra|]. apply (Rmult_lt_reg_r M); [lra|]. unfold Rdiv. rewrite Rmult_assoc, Rinv_l by lra. lra. }
    assert (K : M * (limit / M) = limit) by (field; lra). set (r := limit / M) in *.
    assert (Ay : Rabs y = M -> Rabs (y * r) = limit) by (intros Hy; rewrite Rabs_mult, Hy, (Rabs_right r) by lra; exact K).
    unfold clamp in *. destruct (bp_domain q); [|rewrite (Ay Aq) in Nd; lra].
    specialize (SL eq_refl). unfold Rmax at 1 in Aq. destruct (Rle_dec (bp_neg q) y) as [B|B].
    + specialize (Ay Aq). assert (0 < y). { unfold Rabs in Aq. destruct (Rcase_abs y); lra. }
      assert (0 < y * r) by (apply Rmult_lt_0_compat; lra). rewrite Rmax_right in Nd by lra. lra.
    + rewrite Rabs_left1 in Aq by lra. lra.
Qed.
