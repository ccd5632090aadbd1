(** * OptMain: the constraints and the callback as solve's caller and NLopt see them; worked examples. *)

From Coq Require Import Reals Lra.
From Verif Require Import Num NumR NumF64 LevelSetModel OptModel OptSpec OptFrame OptReal OptGrad OptSolve OptConstr OptRounds OptTotal.
Open Scope R_scope.

Lemma isEq_default isEq n k : nth k (if (length isEq =? 0)%nat then replicate n false else isEq) false = nth k isEq false.
Proof.
  destruct isEq as [|e isEq]; cbn [length Nat.eqb]; [|reflexivity]. replace (nth k [] false) with false by (destruct k; reflexivity).
  revert k. induction n as [|n IH]; intros [|k]; cbn; auto.
Qed.

Theorem change_exists limit points keep k : 0 < limit -> exists m, largest_change limit points keep k m.
Proof. intros Hl. exists (reach limit points keep k). apply reach_largest, Hl. Qed.

(** ** The constraints that are kept and their targets *)
Theorem prepare_constraints points dist lambdas time limit isMax isEq fuel (o o1 : Opt R) :
  optimise_ctor points dist lambdas time limit isMax isEq = Ok o ->
  (forall k, (k < length lambdas)%nat -> sensitive k points) -> (forall p, p ∈ points -> bp_fixed p = false -> bp_domain p = false) ->
  isEq = [] \/ length isEq = length dist -> prepare fuel o = Ok o1 ->
  length (op_index o1) = (op_n o1 + 1)%nat /\ op_index o1 `sublist_of` seq 0 (length lambdas) /\ op_index o1 !! 0%nat = Some 0%nat /\
  (forall k m, (1 <= k < length lambdas)%nat -> largest_change limit points (op_index o1) k m ->
    (k ∈ op_index o1 <-> nth (k - 1) isEq false = true \/ nth (k - 1) dist 0 <= 99 / 100 * m)) /\
  (forall a k m, op_index o1 !! S a = Some k -> largest_change limit points (op_index o1) k m ->
    nth a (op_target o1) 0 = Rmax (- (99 / 100 * m)) (Rmin (99 / 100 * m) (nth (k - 1) dist 0))).
Proof.
  intros C Se Nd Le E. destruct (prepare_settled _ _ _ _ _ _ _ fuel o C Se Nd Le _ E) as (G & Sub & _ & K & T).
  pose proof (ctor_inv _ _ _ _ _ _ _ _ C) as (Hl & _ & _ & L & Eo). apply (proj1 (Rltb_true _ _)) in Hl. change (0 < limit) in Hl.
  assert (N0 : (op_n0 o + 1)%nat = length lambdas) by (rewrite Eo, L; cbn; lia).
  assert (Ed : op_dist o = dist) by (rewrite Eo; reflexivity).
  assert (Eq : forall k, nth k (op_isEq o) false = nth k isEq false) by (intros k; rewrite Eo; cbn; apply isEq_default).
  split; [apply G|]. split; [rewrite <- N0; exact Sub|]. split; [apply G|]. split.
  - intros k m Hk Hm. rewrite (largest_unique _ _ _ _ _ Hl Hm). rewrite K by lia. rewrite Eq, Ed. reflexivity.
  - intros a k m Hk Hm. rewrite (largest_unique _ _ _ _ _ Hl Hm). rewrite (T a k Hk), Ed. reflexivity.
Qed.

Lemma conclude_zero {T} `{Num T} (o0 o : Opt T) ob : good o0 o -> op_n o = 0%nat -> post (conclude ob o) (fun r => forall k, 1 <= k < op_n0 o0 + 1 -> op_lambdas (fst r) !! k = Some n0)%nat.
Proof.
  intros G Z. unfold conclude. apply post_bind. eapply post_impl; [apply displacements_good, G|]. intros o1 (G1 & E1 & _).
  apply post_bind. eapply (post_impl _ (fun r => good o0 (fst r) /\ op_n (fst r) = op_n o)).
  { assert (E1n : op_n o1 = op_n o) by (rewrite E1; reflexivity).
    unfold rescaleDisplacements. apply post_bind, post_any. intros [[M sc] r]. destruct (M =? n0)%num; [apply post_ok; auto|].
    apply post_bind, post_any. intros s. apply post_bind. eapply post_impl.
    { apply (for_map_ext _ (fun _ x => Ok (x * s)%num)); [apply G1|]. reflexivity. }
    intros la [L _]. apply post_bind. eapply post_impl; [apply displacements_good, good_lambdas; [exact G1|exact L]|].
    intros o' (G' & E' & _). apply post_ok. cbn [fst]. split; [exact G'|]. rewrite E'. exact E1n. }
  intros [o2 s] [G2 E2]. cbn [fst] in *. apply post_bind, post_any. intros v. apply post_bind. eapply post_impl.
  { apply (for_map_ext _ (fun i x => let! c := vget (op_scale o2) i in Ok (x * c)%num)); [apply G2|].
    intros i l. destruct (vget l i); cbn [obind]; auto. rewrite obind_assoc. reflexivity. }
  intros la [L _]. do 2 (apply post_bind, post_any; intros ?). cbn [op_n op_n0 set_points set_time set_lambdas].
  rewrite (g_n0 _ _ G2), E2, Z. cbn [Nat.ltb Nat.leb]. destruct (op_n0 o0) as [|n] eqn:En.
  - cbn [obind]. apply post_bind, post_any. intros c. apply post_ok. intros k Hk. lia.
  - cbn [obind Nat.leb]. apply post_bind, post_any. intros c. apply post_ok. intros k Hk. cbn [fst op_lambdas set_lambdas set_points set_time].
    rewrite lookup_resize_new by lia. reflexivity.
Qed.

(** When solve has a result, either every constraint had to be kept, or none had: then their multipliers are zero. *)
Theorem solve_constraints points dist lambdas time limit isMax isEq (o : Opt R) nlopt fuel o' v :
  optimise_ctor points dist lambdas time limit isMax isEq = Ok o ->
  (forall k, (k < length lambdas)%nat -> sensitive k points) -> (forall p, p ∈ points -> bp_fixed p = false -> bp_domain p = false) ->
  isEq = [] \/ length isEq = length dist -> solve nlopt fuel o = Ok (o', Some v) ->
  (forall k m, (1 <= k < length lambdas)%nat -> largest_change limit points (seq 0 (length lambdas)) k m ->
    nth (k - 1) isEq false = true \/ nth (k - 1) dist 0 <= 99 / 100 * m) \/
  (forall k m, (1 <= k < length lambdas)%nat -> largest_change limit points [0%nat] k m ->
    nth (k - 1) isEq false = false /\ 99 / 100 * m < nth (k - 1) dist 0 /\ nth k (op_lambdas o') 0 = 0).
Proof.
  intros C Se Nd Le E. destruct (solve_parts _ _ _ _ _ _ _ _ _ _ _ _ C E) as (o1 & o2 & ob & E1 & G1 & E2 & G2 & _ & E3).
  destruct (prepare_constraints _ _ _ _ _ _ _ fuel o o1 C Se Nd Le E1) as (Li & _ & Z1 & K & _).
  destruct (attempts_scale nlopt o fuel 0%nat None o1 G1 _ E2) as [_ En]. cbn [fst] in En.
  pose proof (ctor_inv _ _ _ _ _ _ _ _ C) as (_ & _ & _ & L & Eo). assert (N0 : (op_n0 o + 1)%nat = length lambdas) by (rewrite Eo, L; cbn; lia).
  destruct (conclude_kept o o2 ob G2 _ E3) as [All|None_].
  - left. rewrite En in All. intros k m Hk Hm. assert (I : op_index o1 = seq 0 (length lambdas)) by (rewrite (g_all _ _ G1 All), All; f_equal; lia).
    rewrite I in K. apply (K k m Hk Hm), elem_of_seq. lia.
  - right. intros k m Hk Hm. pose proof None_ as N1. rewrite En in N1. rewrite N1 in Li. destruct (op_index o1) as [|x [|y l]]; cbn in Li, Z1; try lia. injection Z1 as ->.
    specialize (K k m Hk Hm). assert (Hn : k ∉ [0%nat]) by (rewrite elem_of_list_singleton; lia).
    assert (A : ~ (nth (k - 1) isEq false = true \/ nth (k - 1) dist 0 <= 99 / 100 * m)) by (intros A; apply Hn, K, A).
    split; [destruct (nth (k - 1) isEq false); [exfalso; apply A; left; reflexivity|reflexivity]|].
    split; [destruct (Rlt_dec (99 / 100 * m) (nth (k - 1) dist 0)) as [|B]; [assumption|exfalso; apply A; right; lra]|].
    apply nth_lookup'. rewrite <- N0 in Hk. exact (conclude_zero o o2 ob G2 None_ _ E3 k Hk).
Qed.

(** When some but not all constraints are removed, solve has no result: it reads past the end of the index map. *)
Theorem solve_some_removed {T} `{Num T} points dist lambdas time limit isMax isEq (o o1 : Opt T) nlopt fuel :
  optimise_ctor points dist lambdas time limit isMax isEq = Ok o -> prepare fuel o = Ok o1 -> (0 < op_n o1 < length dist)%nat ->
  forall o' v, solve nlopt fuel o <> Ok (o', Some v).
Proof.
  intros C E Hn o' v E'. destruct (solve_parts _ _ _ _ _ _ _ _ _ _ _ _ C E') as (o1' & o2 & ob & E1 & G1 & E2 & G2 & _ & E3).
  rewrite E in E1. injection E1 as <-. pose proof (conclude_kept o o2 ob G2 _ E3) as K. cbn beta in K.
  assert (N0 : op_n0 o = length dist) by (apply ctor_inv in C as (_ & _ & _ & _ & ->); reflexivity).
  assert (N2 : op_n o2 = op_n o1).
  { refine (post_impl _ (fun r => op_n (fst r) = op_n o1) _ _ (fun _ X => X) _ E2). clear - G1.
    generalize dependent o1. generalize (None : option T). generalize 0%nat. induction fuel as [|fuel IH]; intros k ob o1 G1; [intros ? E; discriminate|]. cbn [attempts].
    apply post_bind. eapply post_impl; [apply run_good, G1|]. intros [o2 r] [G2 E2]. cbn [fst] in G2, E2.
    assert (S : op_n o2 = op_n o1) by (rewrite E2; reflexivity).
    assert (A : forall o' ob', good o o' -> op_n o' = op_n o1 -> post (let! code := init_get (op_code o') in
      if (code <? 0)%Z then attempts nlopt fuel (Datatypes.S k) ob' o' else Ok (o', Some ob')) (fun r => op_n (fst r) = op_n o1)).
    { intros o' ob' G' S'. apply post_bind, post_any. intros code. destruct (code <? 0)%Z; [|apply post_ok; exact S'].
      eapply post_impl; [apply IH, G'|]. intros r' ->. exact S'. }
    destruct r as [code x v|e x v].
    - apply A; [|exact S]. apply good_code, good_lambdas; [exact G2|apply tabulate_length].
    - assert (G3 : good o (set_lambdas (tabulate (op_n o2 + 1) x) o2)) by (apply good_lambdas; [exact G2|apply tabulate_length]).
      destruct e.
      + apply post_bind, post_any. intros t. apply A; [apply good_otarget, G3|exact S].
      + apply A; [exact G3|exact S].
      + apply post_ok. exact S. }
  lia.
Qed.

(** ** The functions handed to NLopt *)
Theorem callback_values points dist lambdas time limit isMax isEq fuel (o o1 : Opt R) :
  optimise_ctor points dist lambdas time limit isMax isEq = Ok o ->
  (forall k, (k < length lambdas)%nat -> sensitive k points) -> prepare fuel o = Ok o1 -> op_n o1 = length dist \/ op_n o1 = 0%nat ->
  forall d t l0 code la g ix o3 f gr, length la = (op_n o1 + 1)%nat ->
  opt_callback (set_disp d (set_otarget t (set_lambdas l0 (set_code code o1)))) la g ix = Ok (o3, f, gr) ->
  0 < nth ix (op_scale o1) 0 /\
  f = nth ix (op_scale o1) 0 * (integral ix points (move (zip_with Rmult (op_scale o1) la)) - (if (ix =? 0)%nat then 0 else nth (ix - 1) t 0)).
Proof.
  intros C Se E Hn d t l0 code la g ix o3 f gr La Ec.
  destruct (prepare_real _ _ _ _ _ _ _ fuel o C _ E) as (G & P & _). specialize (P Se).
  pose proof (ctor_inv _ _ _ _ _ _ _ _ C) as (_ & _ & _ & L & Eo). assert (N0 : op_n0 o = length dist) by (rewrite Eo; reflexivity).
  assert (Ep : op_points o1 = points) by (rewrite (g_points _ _ G), Eo; reflexivity).
  assert (I : op_index o1 = seq 0 (op_n o1 + 1)) by (apply (good_index o); [exact G|rewrite N0; exact Hn]).
  set (o2 := set_disp d _) in Ec. destruct (callback_real o2 la g ix I _ Ec) as (Hix & _ & _ & ->). change (op_n o2) with (op_n o1) in Hix.
  change (op_scale o2) with (op_scale o1). change (op_points o2) with (op_points o1). change (op_target o2) with t. rewrite Ep.
  split; [apply P, Hix|].
  assert (M : integral ix points (fun p => if bp_fixed p then 0 else clamp p (lin o2 la p)) = integral ix points (move (zip_with Rmult (op_scale o1) la))).
  { apply integral_ext. intros p _. unfold move. destruct (bp_fixed p); [reflexivity|]. unfold clamp.
    assert (Ld : lin o2 la p = dot (zip_with Rmult (op_scale o1) la) (bp_sens p)).
    { rewrite (dot_rsum _ _ (op_n o1 + 1)) by (rewrite zip_with_length, (g_scale _ _ G); lia). unfold lin. change (op_n o2) with (op_n o1).
      apply rsum_ext. intros j Hj. change (op_index o2) with (op_index o1). change (op_scale o2) with (op_scale o1). rewrite I, seq_nth by exact Hj. cbn [Nat.add].
      replace (nth j (zip_with Rmult (op_scale o1) la) 0) with (nth j (op_scale o1) 0 * nth j la 0); [reflexivity|].
      destruct (lookup_lt_is_Some_2 (op_scale o1) j) as [x Hx]; [rewrite (g_scale _ _ G); exact Hj|]. destruct (lookup_lt_is_Some_2 la j) as [y Hy]; [lia|].
      rewrite (nth_lookup' _ _ _ Hx), (nth_lookup' _ _ _ Hy). symmetry. apply nth_lookup'. rewrite lookup_zip_with, Hx, Hy. reflexivity. }
    rewrite Ld. reflexivity. }
  rewrite M. destruct (ix =? 0)%nat; ring.
Qed.

Lemma dot_minus a : forall b c, length b = length c -> dot a (zip_with Rminus c b) = dot a c - dot a b.
Proof.
  induction a as [|x a IH]; intros b c L; [cbn; lra|]. destruct b as [|y b], c as [|z c]; cbn in *; try lia; try lra. rewrite IH by lia. lra.
Qed.

Theorem callback_gradient points dist lambdas time limit isMax isEq fuel (o o1 : Opt R) :
  optimise_ctor points dist lambdas time limit isMax isEq = Ok o ->
  (forall p, p ∈ points -> bp_fixed p = false -> bp_domain p = false) -> prepare fuel o = Ok o1 -> op_n o1 = length dist \/ op_n o1 = 0%nat ->
  forall d t l0 code d' l0' code' la la' g' ix o3 o3' f f' gr gr', length la = (op_n o1 + 1)%nat -> length la' = (op_n o1 + 1)%nat ->
  opt_callback (set_disp d (set_otarget t (set_lambdas l0 (set_code code o1)))) la true ix = Ok (o3, f, gr) ->
  opt_callback (set_disp d' (set_otarget t (set_lambdas l0' (set_code code' o1)))) la' g' ix = Ok (o3', f', gr') ->
  length gr = (op_n o1 + 1)%nat /\ f' - f = dot gr (zip_with Rminus la' la).
Proof.
  intros C Nd E Hn d t l0 code d' l0' code' la la' g' ix o3 o3' f f' gr gr' La La' Ec Ec'.
  destruct (prepare_real _ _ _ _ _ _ _ fuel o C _ E) as (G & _ & Gr).
  pose proof (ctor_inv _ _ _ _ _ _ _ _ C) as (_ & _ & _ & L & Eo). assert (N0 : op_n0 o = length dist) by (rewrite Eo; reflexivity).
  assert (Ep : op_points o1 = points) by (rewrite (g_points _ _ G), Eo; reflexivity).
  assert (I : op_index o1 = seq 0 (op_n o1 + 1)) by (apply (good_index o); [exact G|rewrite N0; exact Hn]).
  rewrite N0 in Gr. specialize (Gr Hn).
  set (o2 := set_disp d _) in Ec. set (o2' := set_disp d' _) in Ec'.
  assert (Nd1 : forall p, p ∈ op_points o2 -> bp_fixed p = false -> bp_domain p = false) by (change (op_points o2) with (op_points o1); rewrite Ep; exact Nd).
  pose proof (callback_linear o2 la ix I Gr La Nd1 _ Ec) as [L1 F1].
  (* the second call, asked for the gradient as well, gives the same value *)
  destruct (callback_real o2 la true ix I _ Ec) as (_ & _ & Egr & _).
  destruct (callback_real o2' la' g' ix I _ Ec') as (Hix & _ & _ & F2).
  change (op_points o2') with (op_points o2) in F2. rewrite (integral_linear o2' la' ix _ Nd1 I) in F2.
  assert (F2' : f' = dot gr la' - (if (ix =? 0)%nat then 0 else nth ix (op_scale o1) 0 * nth (ix - 1) t 0)).
  { rewrite F2. change (op_scale o2') with (op_scale o1). change (op_target o2') with t. f_equal. change (op_n o2') with (op_n o1).
    destruct Gr as [_ Gr]. destruct (Gr ix Hix) as [Lg Dg]. rewrite Egr. change (op_grads o2) with (op_grads o1). rewrite (dot_rsum _ _ (op_n o1 + 1)) by lia.
    rewrite <- rsum_scal. apply rsum_ext. intros j Hj. rewrite Dg by exact Hj. change (op_points o2) with (op_points o1). change (op_scale o2') with (op_scale o1). ring. }
  split; [lia|]. rewrite dot_minus by lia. rewrite F1, F2'. change (op_scale o2) with (op_scale o1). change (op_target o2) with t. ring.
Qed.

(** ** The points as solve leaves them *)
Theorem solve_cfl points dist lambdas time limit isMax isEq (o : Opt R) nlopt fuel o' v :
  side_limits limit points -> optimise_ctor points dist lambdas time limit isMax isEq = Ok o -> solve nlopt fuel o = Ok (o', Some v) ->
  op_time o' <> 0 -> length (op_points o') = length points /\
  forall i p, op_points o' !! i = Some p -> Rabs (bp_velocity p * op_time o') <= limit /\ (bp_domain p = true -> bp_neg p <= bp_velocity p * op_time o').
Proof.
  intros SL C E Ht. destruct (solve_moves _ _ _ _ _ _ _ _ _ _ _ _ C E) as (_ & _ & P). split; [rewrite P; apply map_length|].
  intros i p Hp. rewrite P, lookup_map in Hp. destruct (points !! i) as [q|] eqn:Hq; [|discriminate]. cbn in Hp. injection Hp as <-.
  assert (Hq' : q ∈ points) by (eapply elem_of_list_lookup_2; exact Hq). cbn [bp_velocity set_bp_velocity bp_domain bp_neg].
  replace (move (op_lambdas o') q / op_time o' * op_time o') with (move (op_lambdas o') q) by (field; exact Ht).
  split; [eapply solve_within_limit; eauto|]. intros Hd. unfold move. rewrite Hd. destruct (bp_fixed q); [apply SL; assumption|apply Rmax_l].
Qed.
