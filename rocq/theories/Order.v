(** * Order: solve on the same boundary points in two orders, side by side (C85). *)

From Coq Require Import Reals Lra Lia Permutation.
From Verif Require Import Base Num NumR LevelSetModel OptModel OptSpec OptMain OptCases Twin UnitsSpec Units OrderSpec.
Local Open Scope R_scope.

(** ** Loops whose steps may change places. *)
Definition commute {S} (F G : S -> outcome S) : Prop := forall s, obind (F s) G = obind (G s) F.
Lemma commute_sym {S} (F G : S -> outcome S) : commute F G -> commute G F.
Proof. intros C s. symmetry. apply C. Qed.
Lemma bind_assoc {A B C} (o : outcome A) (f : A -> outcome B) (g : B -> outcome C) : obind (obind o f) g = obind o (fun a => obind (f a) g).
Proof. destruct o; reflexivity. Qed.
Lemma bind_ext {A B} (o : outcome A) (f g : A -> outcome B) : (forall a, f a = g a) -> obind o f = obind o g.
Proof. destruct o; cbn; auto. Qed.
Lemma from_commute {S} i n (F : nat -> S -> outcome S) G : (forall j, commute (F j) G) -> commute (for_from i n F) G.
Proof.
  intros C. revert i. induction n as [|n IH]; intros i s; cbn [for_from]; [cbn; destruct (G s); reflexivity|].
  rewrite bind_assoc. rewrite (bind_ext _ _ (fun a => obind (G a) (for_from (Datatypes.S i) n F))) by (intros a; apply IH). rewrite <- bind_assoc, (C i s), bind_assoc. reflexivity.
Qed.
Lemma ofold_perm {S A} (f : S -> A -> outcome S) l l' s : (forall a b, commute (fun s => f s a) (fun s => f s b)) -> l ≡ₚ l' -> ofold f l s = ofold f l' s.
Proof.
  intros C P. revert s. induction P as [|a l l' P IH|a b l|l l' l'' P1 IH1 P2 IH2]; intros s; cbn [ofold]; [reflexivity| | |congruence].
  - apply bind_ext, IH.
  - rewrite <- !bind_assoc, (C b a s). reflexivity.
Qed.

(** Ok or undefined. *)
Definition calm {A} (o : outcome A) : Prop := match o with Ok _ | UB => True | _ => False end.
Lemma calm_bind {A B} (o : outcome A) (f : A -> outcome B) : calm o -> (forall a, calm (f a)) -> calm (obind o f).
Proof. destruct o; cbn; auto. Qed.
Lemma calm_vget {A} (l : list A) i : calm (vget l i).
Proof. unfold vget. destruct (l !! i); exact I. Qed.
Lemma calm_from {S} i n (F : nat -> S -> outcome S) s : (forall j s, calm (F j s)) -> calm (for_from i n F s).
Proof. intros C. revert i s. induction n as [|n IH]; intros i s; cbn [for_from]; [exact I|]. apply calm_bind; auto. Qed.

Lemma oupdate_pairs {A B} (f : A -> B -> outcome B) (z z' : list (A * B)) : (forall a b, calm (f a b)) -> z ≡ₚ z' ->
  orel (fun d d' => length d = length z /\ length d' = length z' /\ zip z.*1 d ≡ₚ zip z'.*1 d') (oupdate f z.*1 z.*2) (oupdate f z'.*1 z'.*2).
Proof.
  intros C P. induction P as [|[a b] z z' P IH|[a b] [a1 b1] z|z z' z'' P1 IH1 P2 IH2].
  - cbn. auto.
  - cbn. eapply orel_bind; [apply orel_refl|]. intros x ? <-. eapply orel_bind; [exact IH|]. intros d d' (L & L' & Q). cbn. split; [lia|]. split; [lia|]. constructor. exact Q.
  - cbn. pose proof (C a b) as C1. pose proof (C a1 b1) as C2. assert (C3 : forall m, calm (oupdate f z.*1 m)).
    { generalize z.*1 as l. induction l as [|c l IH]; intros m; cbn [oupdate]; [exact I|]. destruct m; [exact I|]. apply calm_bind; [apply C|]. intros x. apply calm_bind; [apply IH|]. intros. exact I. }
    specialize (C3 z.*2). pose proof (oupdate_length f z.*1 z.*2) as L.
    destruct (f a b); cbn in C1 |- *; try contradiction; destruct (f a1 b1); cbn in C2 |- *; try contradiction; try exact I; destruct (oupdate f z.*1 z.*2); cbn in C3 |- *; try contradiction; try exact I.
    specialize (L _ eq_refl). rewrite fmap_length in L. cbn. rewrite L. split; [reflexivity|]. split; [reflexivity|]. apply perm_swap.
  - destruct (oupdate f z.*1 z.*2), (oupdate f z'.*1 z'.*2), (oupdate f z''.*1 z''.*2); cbn in IH1, IH2 |- *; try contradiction; try exact I.
    destruct IH1 as (L1 & L2 & Q1), IH2 as (L3 & L4 & Q2). split; [exact L1|]. split; [exact L4|]. etransitivity; eassumption.
Qed.
Lemma zip_fst {A B} (l : list A) (m : list B) : length m = length l -> (zip l m).*1 = l.
Proof. intros E. apply fst_zip. lia. Qed.
Lemma zip_snd {A B} (l : list A) (m : list B) : length m = length l -> (zip l m).*2 = m.
Proof. intros E. apply snd_zip. lia. Qed.

(** ** The two problems *)
Definition put (ps : list (BoundaryPoint R)) (ds : list R) (o : Opt R) : Opt R := set_points ps (set_disp ds o).
Definition paired (ps : list (BoundaryPoint R)) (ds : list R) (ps' : list (BoundaryPoint R)) (ds' : list R) : Prop :=
  length ds = length ps /\ length ds' = length ps' /\ zip ps ds ≡ₚ zip ps' ds'.
Definition prel (o o' : Opt R) : Prop := exists ps' ds', o' = put ps' ds' o /\ paired (op_points o) (op_disp o) ps' ds'.
Lemma paired_points ps ds ps' ds' : paired ps ds ps' ds' -> ps ≡ₚ ps'.
Proof. intros (L & L' & P). rewrite <- (zip_fst ps ds L), <- (zip_fst ps' ds' L'). apply (fmap_Permutation fst), P. Qed.
Lemma paired_length ps ds ps' ds' : paired ps ds ps' ds' -> length ps' = length ps.
Proof. intros P. symmetry. apply Permutation_length, (paired_points _ _ _ _ P). Qed.

Ltac fields := cbn [put set_points set_disp set_lambdas set_time set_limits set_scale set_otarget set_index set_grads set_code op_points op_dist op_lambdas op_time op_limit op_isMax op_isEq op_n op_n0 op_neg op_pos op_scale op_target op_disp op_index op_grads op_code].
Ltac same x := eapply orel_bind; [apply orel_refl|]; intros x ? <-.

Lemma disp_put ps' ds' o la p d : disp_point (put ps' ds' o) la p d = disp_point o la p d.
Proof. reflexivity. Qed.
Lemma disp_calm o la p d : calm (disp_point o la p d).
Proof.
  unfold disp_point. destruct (bp_fixed p); [exact I|]. repeat (apply calm_bind; [apply calm_vget|intros ?]). apply calm_bind; [|intros; exact I].
  apply calm_from. intros j s. repeat (apply calm_bind; [apply calm_vget|intros ?]). exact I.
Qed.
Lemma displacements_order la o o' : prel o o' -> orel prel (computeDisplacements la o) (computeDisplacements la o').
Proof.
  intros (ps' & ds' & -> & L & L' & P). unfold computeDisplacements. fields. pose proof (oupdate_pairs (disp_point o la) _ _ (disp_calm o la) P) as Q.
  rewrite !zip_fst, !zip_snd in Q by assumption. change (disp_point (put ps' ds' o) la) with (disp_point o la). eapply orel_bind; [exact Q|].
  intros d d' (E & E' & X). exists ps', d'. split; [reflexivity|]. fields. rewrite !zip_with_length in E, E'. split; [lia|]. split; [lia|exact X].
Qed.

(** Sums over the points with their displacements. *)
Definition pair_step (j : nat) (w : R -> R -> R -> R) (x : R) (z : BoundaryPoint R * R) : outcome R :=
  if bp_fixed (fst z) then Ok x else let! a := vget (bp_sens (fst z)) j in Ok (x + w (snd z) a (bp_length (fst z))).
Definition index_step (ds : list R) (j : nat) (w : R -> R -> R -> R) (s : R * nat) (p : BoundaryPoint R) : outcome (R * nat) :=
  let '(x, i) := s in
  if bp_fixed p then Ok (x, S i) else let! d := vget ds i in let! a := vget (bp_sens p) j in Ok (x + w d a (bp_length p), S i).
Lemma index_pairs ds j w ps i x : length ds = (i + length ps)%nat ->
  (let! (y, _) := ofold (index_step ds j w) ps (x, i) in Ok y) = ofold (pair_step j w) (zip ps (drop i ds)) x.
Proof.
  revert i x. induction ps as [|p ps IH]; intros i x E; cbn [ofold zip_with]; [reflexivity|]. cbn [length] in E.
  destruct (lookup_lt_is_Some_2 ds i ltac:(lia)) as [d Ed]. rewrite (drop_S ds d i Ed). cbn [zip_with ofold].
  assert (A : index_step ds j w (x, i) p = let! y := pair_step j w x (p, d) in Ok (y, S i)).
  { unfold index_step, pair_step. cbn [fst snd]. destruct (bp_fixed p); [reflexivity|]. unfold vget at 1. rewrite Ed. cbn [obind]. destruct (vget (bp_sens p) j); reflexivity. }
  rewrite A. destruct (pair_step j w x (p, d)); cbn [obind]; [apply IH; lia| | |]; reflexivity.
Qed.
Lemma pair_commute j w a b : commute (fun s => pair_step j w s a) (fun s => pair_step j w s b).
Proof.
  intros s. unfold pair_step. destruct (bp_fixed (fst a)), (bp_fixed (fst b)); cbn [obind]; try reflexivity.
  - unfold vget. destruct (bp_sens (fst b) !! j); reflexivity.
  - unfold vget. destruct (bp_sens (fst a) !! j); reflexivity.
  - unfold vget. destruct (bp_sens (fst a) !! j), (bp_sens (fst b) !! j); cbn; try reflexivity. f_equal. ring.
Qed.
Lemma sums_order j w ps ds ps' ds' : paired ps ds ps' ds' ->
  (let! (y, _) := ofold (index_step ds j w) ps (0, 0%nat) in Ok y) = (let! (y, _) := ofold (index_step ds' j w) ps' (0, 0%nat) in Ok y).
Proof. intros (L & L' & P). rewrite !index_pairs by assumption. rewrite !drop_0. apply ofold_perm; [apply pair_commute|exact P]. Qed.
Lemma function_order o o' i : prel o o' -> computeFunction o' i = computeFunction o i.
Proof.
  intros (ps' & ds' & -> & P). unfold computeFunction. fields. apply bind_ext. intros j. apply bind_ext. intros c.
  pose proof (sums_order j (fun d a l => c * d * a * l) _ _ _ _ P) as Q.
  change (ofold (fun_step (put ps' ds' o) c j) ps' (n0, 0%nat)) with (ofold (index_step ds' j (fun d a l => c * d * a * l)) ps' (0, 0%nat)).
  change (ofold (fun_step o c j) (op_points o) (n0, 0%nat)) with (ofold (index_step (op_disp o) j (fun d a l => c * d * a * l)) (op_points o) (0, 0%nat)).
  destruct (ofold (index_step ds' _ _) _ _) as [[y' i']| | |], (ofold (index_step (op_disp o) _ _) _ _) as [[y i0]| | |]; cbn in Q; try discriminate; try reflexivity. cbn [obind]. injection Q as ->. reflexivity.
Qed.

(** Gradients. *)
Definition add_to (k : nat) (x : R) (g : list R) : outcome (list R) := let! v := vget g k in vset g k (v + x).
Lemma add_eq k x g : add_to k x g = match g !! k with Some v => Ok (<[k:=v + x]> g) | None => UB end.
Proof. unfold add_to, vget, vset. destruct (g !! k) as [v|]; reflexivity. Qed.
Lemma add_commute k x k' x' : commute (add_to k x) (add_to k' x').
Proof.
  intros g. rewrite !add_eq. destruct (g !! k) as [v|] eqn:E, (g !! k') as [v'|] eqn:E'; cbn [obind]; rewrite ?add_eq; try reflexivity.
  - pose proof (lookup_lt_Some _ _ _ E). pose proof (lookup_lt_Some _ _ _ E'). destruct (decide (k = k')) as [->|N].
    + rewrite !list_lookup_insert by assumption. rewrite !list_insert_insert. replace v' with v by congruence. do 2 f_equal. ring.
    + rewrite (list_lookup_insert_ne g k k') by assumption. rewrite (list_lookup_insert_ne g k' k) by congruence. rewrite E, E'. f_equal. symmetry. apply list_insert_commute. exact N.
  - destruct (decide (k = k')) as [->|N]; [congruence|]. rewrite list_lookup_insert_ne by assumption. rewrite E'. reflexivity.
  - destruct (decide (k = k')) as [->|N]; [congruence|]. rewrite list_lookup_insert_ne by congruence. rewrite E. reflexivity.
Qed.
Lemma add_calm k x g : calm (add_to k x g).
Proof. rewrite add_eq. destruct (g !! k); exact I. Qed.
Lemma entry_form o index p j : (forall g, grad_entry o index p j g = UB) \/ exists k x, forall g, grad_entry o index p j g = add_to k x g.
Proof.
  unfold grad_entry, vget. destruct (op_index o !! j) as [k|]; [|left; reflexivity]. cbn [obind]. destruct (op_scale o !! index) as [ci|]; [|left; reflexivity]. cbn [obind].
  destruct (op_scale o !! j) as [cj|]; [|left; reflexivity]. cbn [obind]. destruct (op_index o !! index) as [ki|]; [|left; reflexivity]. cbn [obind].
  destruct (bp_sens p !! ki) as [a|]; [|left; reflexivity]. cbn [obind]. destruct (bp_sens p !! k) as [b|]; [|left; reflexivity]. cbn [obind].
  right. exists k, (a * b * bp_length p * (ci * cj)). reflexivity.
Qed.
Lemma entry_commute o index p q i j : commute (grad_entry o index p i) (grad_entry o index q j).
Proof.
  intros g. destruct (entry_form o index p i) as [E|(k & x & E)], (entry_form o index q j) as [F|(k' & x' & F)].
  - rewrite E, F. reflexivity.
  - rewrite E, F. cbn [obind]. pose proof (add_calm k' x' g) as C. destruct (add_to k' x' g); cbn in C |- *; try contradiction; [symmetry; apply E|reflexivity].
  - rewrite E, F. cbn [obind]. pose proof (add_calm k x g) as C. destruct (add_to k x g); cbn in C |- *; try contradiction; [apply F|reflexivity].
  - rewrite E, F. rewrite (bind_ext _ _ (add_to k' x')) by exact F. rewrite (bind_ext _ (grad_entry o index p i) (add_to k x)) by exact E. apply add_commute.
Qed.
Lemma point_commute o index p q : commute (fun g => grad_point o index g p) (fun g => grad_point o index g q).
Proof.
  intros g. unfold grad_point. destruct (bp_fixed p); cbn [obind]; [destruct (bp_fixed q); [reflexivity|]; destruct (for_ _ _ g); reflexivity|].
  destruct (bp_fixed q); cbn [obind]; [destruct (for_ _ _ g); reflexivity|]. unfold for_. apply from_commute. intros i. apply commute_sym, from_commute. intros j. apply entry_commute.
Qed.
Lemma gradients_order o o' g i : prel o o' -> computeGradients o' g i = computeGradients o g i.
Proof.
  intros (ps' & ds' & -> & P). unfold computeGradients. fields. apply bind_ext. intros g1. change (grad_point (put ps' ds' o) i) with (grad_point o i).
  symmetry. apply ofold_perm; [apply point_commute|apply (paired_points _ _ _ _ P)].
Qed.

(** Maxima. *)
Lemma max_order (ps ps' : list (BoundaryPoint R)) k m : ps ≡ₚ ps' -> max_sens ps k m = max_sens ps' k m.
Proof.
  intros P. unfold max_sens. apply ofold_perm; [|exact P]. intros p q s. cbn beta. destruct (bp_fixed p), (bp_fixed q); cbn [obind]; try reflexivity.
  - unfold vget. destruct (bp_sens q !! k); reflexivity.
  - unfold vget. destruct (bp_sens p !! k); reflexivity.
  - unfold vget. destruct (bp_sens p !! k) as [a|], (bp_sens q !! k) as [b|]; cbn; try reflexivity. f_equal.
    destruct (Rltb_spec s (Rabs a)), (Rltb_spec s (Rabs b)); repeat match goal with |- context [Rltb ?x ?y] => destruct (Rltb_spec x y) end; lra.
Qed.

(** ** Preparation *)
Lemma prel_put o ps' ds' r : paired (op_points o) (op_disp o) ps' ds' -> op_points r = op_points o -> op_disp r = op_disp o -> prel r (put ps' ds' r).
Proof. intros P E1 E2. exists ps', ds'. split; [reflexivity|]. rewrite E1, E2. exact P. Qed.
Lemma sens_order i o o' : prel o o' -> orel prel (scale_sens i o) (scale_sens i o').
Proof.
  intros (ps' & ds' & -> & P). unfold scale_sens. fields. rewrite <- (max_order _ _ i n0 (paired_points _ _ _ _ P)). same m. same c. exact (prel_put o ps' ds' (set_scale c o) P eq_refl eq_refl).
Qed.
Lemma grad_order i o o' g : prel o o' -> orel (fun x x' => prel (fst x) (fst x') /\ snd x' = snd x) (scale_grad i (o, g)) (scale_grad i (o', g)).
Proof.
  intros R. unfold scale_grad. rewrite (gradients_order _ _ _ _ R). destruct R as (ps' & ds' & -> & P). same g1. same gi. fields. same ci. same c. cbn. split; [|reflexivity].
  exact (prel_put o ps' ds' (set_scale c o) P eq_refl eq_refl).
Qed.
Lemma prel_n o o' : prel o o' -> op_n o' = op_n o.
Proof. intros (ps' & ds' & -> & P). reflexivity. Qed.
Lemma factors_order o o' : prel o o' -> orel prel (computeScaleFactors o) (computeScaleFactors o').
Proof.
  intros R. unfold computeScaleFactors. rewrite (prel_n _ _ R). eapply orel_bind; [apply orel_for_same; [exact R|]; intros i t t' _; apply sens_order|].
  intros r r' R1. rewrite (prel_n _ _ R1). eapply orel_bind with (R := fun x x' => prel (fst x) (fst x') /\ snd x' = snd x).
  - apply orel_for_same; [cbn; auto|]. intros i [t g] [t' g'] _ [Rt E]. cbn [fst snd] in *. subst. apply grad_order, Rt.
  - intros [t g] [t' g'] [Rt _]. exact Rt.
Qed.
Lemma limit_order fuel i o o' : prel o o' -> orel prel (lambda_limit fuel i o) (lambda_limit fuel i o').
Proof.
  intros (ps' & ds' & -> & P). unfold lambda_limit. fields. same k. rewrite <- (max_order _ _ k nminDouble (paired_points _ _ _ _ P)). same m. same c. same ne. same po. same l. same l1. same l2. same la.
  exact (prel_put o ps' ds' (set_limits ne po la o) P eq_refl eq_refl).
Qed.

Lemma vertex_order o ps' ds' v k n : vertex_lambda (put ps' ds' o) v k n = vertex_lambda o v k n.
Proof. revert k. induction n as [|n IH]; intros k; cbn [vertex_lambda]; [reflexivity|]. rewrite IH. reflexivity. Qed.
Lemma change_order nDim i v o o' : prel o o' -> orel (fun x x' => prel (fst x) (fst x') /\ snd x' = snd x) (constraint_change nDim i v o) (constraint_change nDim i v o').
Proof.
  intros R. unfold constraint_change. assert (E : vertex_lambda o' v 0 nDim = vertex_lambda o v 0 nDim) by (destruct R as (ps' & ds' & -> & _); apply vertex_order). rewrite E. same la.
  eapply orel_bind; [apply displacements_order; exact R|]. clear. intros o o' R. pose proof R as (ps' & ds' & -> & P). fields. same j.
  pose proof (sums_order j (fun d a l => d * a * l) _ _ _ _ P) as Q.
  change (ofold (change_step (put ps' ds' o) j) ps' (n0, 0%nat)) with (ofold (index_step ds' j (fun d a l => d * a * l)) ps' (0, 0%nat)).
  change (ofold (change_step o j) (op_points o) (n0, 0%nat)) with (ofold (index_step (op_disp o) j (fun d a l => d * a * l)) (op_points o) (0, 0%nat)).
  destruct (ofold (index_step ds' _ _) _ _) as [[y' i']| | |], (ofold (index_step (op_disp o) _ _) _ _) as [[y i0]| | |]; cbn in Q; try discriminate; try exact I. cbn. split; [exact R|congruence].
Qed.
Lemma constraint_order nDim i o o' : prel o o' -> orel (fun x x' => prel (fst x) (fst x') /\ snd x' = snd x) (one_constraint nDim i o) (one_constraint nDim i o').
Proof.
  intros R. unfold one_constraint. eapply orel_bind with (R := fun x x' => prel (fst x) (fst x') /\ snd x' = snd x).
  - apply orel_for_same; [cbn; auto|]. intros v [r c] [r' c'] _ [Rr E]. cbn [fst snd] in *. subst. eapply orel_bind; [apply change_order; exact Rr|]. intros [q e] [q' e'] [Rq E]. cbn in *. subst. auto.
  - clear. intros [o c] [o' c'] [R E]. cbn [fst snd] in *. subst. same mn. same mx. pose proof R as (ps' & ds' & -> & P). fields. same d.
    destruct (d <? n0)%num; [destruct (d <? _)%num; [same t; cbn; split; [exact (prel_put o ps' ds' (set_otarget t o) P eq_refl eq_refl)|reflexivity]|cbn; auto]|].
    destruct (d >? _)%num; [|cbn; auto]. same e. destruct e; [same t; cbn; split; [exact (prel_put o ps' ds' (set_otarget t o) P eq_refl eq_refl)|reflexivity]|cbn; auto].
Qed.
Lemma shift_order active i o o' a : prel o o' -> orel (fun x x' => prel (fst x) (fst x') /\ snd x' = snd x) (shift_constraint active i (o, a)) (shift_constraint active i (o', a)).
Proof.
  intros R. unfold shift_constraint. same b. destruct b; [|cbn; auto]. pose proof R as (ps' & ds' & -> & P). fields.
  same x1. same la. same x2. same sc. same x3. same ne. same x4. same po. same k. same ix. same x5. same di. same x6. same ta. same e. same qs. cbn. split; [|reflexivity].
  exists ps', ds'. split; [reflexivity|exact P].
Qed.
Lemma distances_order fuel n o o' : prel o o' -> orel prel (computeConstraintDistances fuel n o) (computeConstraintDistances fuel n o').
Proof.
  revert n o o'. induction fuel as [|fuel IH]; intros n o o' R; cbn [computeConstraintDistances]; [exact I|]. destruct (32 <=? n + 1)%nat; [exact I|].
  eapply orel_bind with (R := fun x x' => prel (fst x) (fst x') /\ snd x' = snd x).
  - apply orel_for_same; [cbn; auto|]. intros i [r c] [r' c'] _ [Rr E]. cbn [fst snd] in *. subst. eapply orel_bind; [apply constraint_order; exact Rr|]. intros [q e] [q' e'] [Rq E]. cbn in *. subst. auto.
  - clear o o' R. intros [o c] [o' c'] [R E]. cbn [fst snd] in *. subst. eapply orel_bind with (R := fun x x' => prel (fst x) (fst x') /\ snd x' = snd x).
    + apply orel_for_same; [cbn; auto|]. intros i [r a] [r' a'] _ [Rr E]. cbn [fst snd] in *. subst. apply shift_order, Rr.
    + clear o o' R. intros [o a] [o' a'] [R E]. cbn [fst snd] in *. subst. rewrite (prel_n _ _ R).
      assert (R1 : prel (if (a <? op_n o)%nat then cut_constraints a o else o) (if (a <? op_n o)%nat then cut_constraints a o' else o')).
      { destruct (a <? op_n o)%nat; [|exact R]. destruct R as (ps' & ds' & -> & P). exists ps', ds'. split; [reflexivity|exact P]. }
      destruct ((0 <? a)%nat && (a <? n)%nat); [|exact R1]. rewrite (prel_n _ _ R1). apply IH, R1.
Qed.
Lemma prepare_order fuel (ps ps' : list (BoundaryPoint R)) o : ps ≡ₚ ps' -> op_disp o = [] -> orel prel (prepare fuel (set_points ps o)) (prepare fuel (set_points ps' o)).
Proof.
  intros P E. unfold prepare. fields. rewrite E.
  match goal with |- orel _ (let! _ := computeScaleFactors ?x in _) (let! _ := computeScaleFactors ?y in _) => assert (R : prel x y) end.
  { exists ps', (resize (length ps') n0 []). split; [reflexivity|]. fields. assert (G : forall l : list (BoundaryPoint R), zip l (resize (length l) (n0 : R) []) = map (fun p => (p, n0)) l).
    { intros l. rewrite resize_nil. induction l as [|p l IH]; cbn [length replicate zip_with map]; [reflexivity|]. rewrite IH. reflexivity. }
    split; [apply resize_length|]. split; [apply resize_length|]. rewrite !G. apply Permutation_map, P. }
  eapply orel_bind; [apply factors_order; exact R|]. clear. intros o o' R. rewrite (prel_n _ _ R).
  assert (El : op_lambdas o' = op_lambdas o /\ op_scale o' = op_scale o) by (destruct R as (ps' & ds' & -> & _); split; reflexivity). destruct El as [-> ->]. same la.
  eapply orel_bind with (R := prel).
  - unfold computeLambdaLimits. fields. rewrite (prel_n _ _ R). apply orel_for_same; [|intros i t t' _; apply limit_order]. destruct R as (ps' & ds' & -> & P). exact (prel_put o ps' ds' (set_lambdas la o) P eq_refl eq_refl).
  - clear. intros o o' R. rewrite (prel_n _ _ R). eapply orel_bind with (R := prel); [destruct (0 <? op_n o)%nat; [apply distances_order; exact R|exact R]|].
    clear. intros o o' R. fields. rewrite (prel_n _ _ R). apply orel_for_same.
    + destruct R as (ps' & ds' & -> & P). exact (prel_put o ps' ds' (set_grads (resize (op_n o + 1) [] (op_grads o)) o) P eq_refl eq_refl).
    + intros i t t' _ Rt. unfold store_gradient. rewrite (prel_n _ _ Rt), (gradients_order _ _ _ _ Rt). same g. destruct Rt as (ps' & ds' & -> & P). fields. same gs. exact (prel_put t ps' ds' (set_grads gs t) P eq_refl eq_refl).
Qed.

(** ** The optimisation *)
Lemma run_order t o o' : prel o o' -> orel (fun x x' => prel (fst x) (fst x') /\ snd x' = snd x) (run_nlopt t o) (run_nlopt t o').
Proof.
  revert o o'. induction t as [i la g next IH|r]; intros o o' R; cbn [run_nlopt]; [|cbn; auto]. rewrite (prel_n _ _ R).
  eapply orel_bind with (R := fun x x' => prel (fst (fst x)) (fst (fst x')) /\ snd (fst x') = snd (fst x) /\ snd x' = snd x).
  - unfold opt_callback. eapply orel_bind; [apply displacements_order; exact R|]. intros r r' Rr. assert (Eg : op_grads r' = op_grads r) by (destruct Rr as (ps' & ds' & -> & _); reflexivity). rewrite Eg. same gr.
    rewrite (function_order _ _ _ Rr). same v. cbn. auto.
  - intros [[r v] gr] [[r' v'] gr'] (Rr & E1 & E2). cbn [fst snd] in *. subst. apply IH, Rr.
Qed.
Lemma attempts_order nlopt fuel k ob o o' : by_problem nlopt -> prel o o' -> orel (fun x x' => prel (fst x) (fst x') /\ snd x' = snd x) (attempts nlopt fuel k ob o) (attempts nlopt fuel k ob o').
Proof.
  intros Hp. revert k ob o o'. induction fuel as [|fuel IH]; intros k ob o o' R; cbn [attempts]; [exact I|].
  assert (E : nlopt k o' = nlopt k o) by (destruct R as (ps' & ds' & -> & _); apply Hp; reflexivity). rewrite E. eapply orel_bind; [apply run_order; exact R|].
  clear o o' R E. intros [o q] [o' q'] [R E]. cbn [fst snd] in *. subst.
  assert (G : forall x x' ob, prel x x' ->
    orel (fun x x' => prel (fst x) (fst x') /\ snd x' = snd x)
      (let! code := init_get (op_code x) in if (code <? 0)%Z then attempts nlopt fuel (Datatypes.S k) ob x else Ok (x, Some ob))
      (let! code := init_get (op_code x') in if (code <? 0)%Z then attempts nlopt fuel (Datatypes.S k) ob x' else Ok (x', Some ob))).
  { intros x x' ob1 Rx. assert (Ec : op_code x' = op_code x) by (destruct Rx as (ps' & ds' & -> & _); reflexivity). rewrite Ec. same code. destruct (code <? 0)%Z; [apply IH, Rx|]. cbn. auto. }
  rewrite (prel_n _ _ R). destruct R as (ps' & ds' & -> & P). destruct q as [code x v|e x v].
  - apply G. exact (prel_put o ps' ds' (set_code (Some code) (set_lambdas (tabulate (op_n o + 1) x) o)) P eq_refl eq_refl).
  - set (la := tabulate (op_n o + 1) x). destruct e; fields.
    + same t. apply (G (set_otarget t (set_lambdas la o)) (set_otarget t (set_lambdas la (put ps' ds' o)))). exact (prel_put o ps' ds' (set_otarget t (set_lambdas la o)) P eq_refl eq_refl).
    + apply (G (set_lambdas la o) (set_lambdas la (put ps' ds' o))). exact (prel_put o ps' ds' (set_lambdas la o) P eq_refl eq_refl).
    + cbn. split; [|reflexivity]. exact (prel_put o ps' ds' (set_lambdas la o) P eq_refl eq_refl).
Qed.

(** ** The result *)
Definition max_pair (limit : R) (s : R * option R) (z : BoundaryPoint R * R) : outcome (R * option R) :=
  if bp_fixed (fst z) then Ok s else if (Rltb limit (Rabs (snd z)) && Rltb (fst s) (Rabs (snd z)))%bool then Ok (Rabs (snd z), Some (limit / Rabs (snd z))) else Ok s.
Lemma max_pairs limit ps ds m sc : length ds = length ps ->
  (let! (m, sc, _) := ofold (max_disp limit) ps (m, sc, ds) in Ok (m, sc)) = ofold (max_pair limit) (zip ps ds) (m, sc).
Proof.
  revert ds m sc. induction ps as [|p ps IH]; intros [|d ds] m sc E; cbn in E; try discriminate; cbn [ofold zip_with]; [reflexivity|].
  assert (A : max_disp limit (m, sc, d :: ds) p = let! y := max_pair limit (m, sc) (p, d) in Ok (y, ds)).
  { unfold max_disp, max_pair. cbn [fst snd]. destruct (bp_fixed p); [reflexivity|]. cbn [nltb nabs NumR ndiv]. destruct (_ && _)%bool; reflexivity. }
  rewrite A. destruct (max_pair limit (m, sc) (p, d)) as [[m1 sc1]| | |]; cbn [obind]; [apply IH; lia| | |]; reflexivity.
Qed.
Lemma max_pair_commute limit a b : commute (fun s => max_pair limit s a) (fun s => max_pair limit s b).
Proof.
  intros [m sc]. unfold max_pair. destruct (bp_fixed (fst a)), (bp_fixed (fst b)); cbn [obind]; try reflexivity; try (destruct (_ && _)%bool; reflexivity). cbn [fst].
  set (x := Rabs (snd a)). set (y := Rabs (snd b)).
  destruct (Rltb_spec limit x), (Rltb_spec limit y), (Rltb_spec m x), (Rltb_spec m y); cbn [andb obind fst];
    repeat match goal with |- context [Rltb ?x ?y] => destruct (Rltb_spec x y) end; cbn [andb]; try reflexivity; try lra.
  assert (x = y) as -> by lra. reflexivity.
Qed.
Lemma rescale_order o o' : prel o o' -> orel (fun x x' => prel (fst x) (fst x') /\ snd x' = snd x) (rescaleDisplacements o) (rescaleDisplacements o').
Proof.
  intros R. unfold rescaleDisplacements. pose proof R as (ps' & ds' & -> & P). pose proof P as (L & L' & Q). fields.
  eapply orel_bind with (R := fun x x' => fst x' = fst x).
  - pose proof (max_pairs (op_limit o) _ _ n0 None L) as A. pose proof (max_pairs (op_limit o) _ _ n0 None L') as B.
    rewrite (ofold_perm _ _ _ (n0, None) (max_pair_commute (op_limit o)) Q), <- B in A.
    destruct (ofold _ (op_points o) _) as [[[m s] r]| | |], (ofold _ ps' _) as [[[m' s'] r']| | |]; cbn in A; try discriminate; try exact I. cbn. congruence.
  - intros [[m sc] x] [[m' sc'] x'] E. cbn [fst] in E. injection E as -> ->. destruct (m =? n0)%num; [cbn; auto|]. same scale. same la.
    eapply orel_bind; [apply displacements_order; exact (prel_put o ps' ds' (set_lambdas la o) P eq_refl eq_refl)|]. intros r r' Rr. cbn. auto.
Qed.
Lemma velocities (t : R) ds (ps : list (BoundaryPoint R)) : length ds = length ps ->
  exists vs, oupdate (fun d p => Ok (set_velocity t d p)) (take (length ps) ds) ps = Ok vs /\ length vs = length ps /\ zip vs ds = map (fun z => (set_velocity t (snd z) (fst z), snd z)) (zip ps ds).
Proof.
  revert ds. induction ps as [|p ps IH]; intros [|d ds] E; cbn in E; try discriminate; cbn [length take oupdate zip_with map obind]; [exists []; auto|].
  destruct (IH ds ltac:(lia)) as (vs & Ev & Lv & Zv). rewrite Ev. exists (set_velocity t d p :: vs). cbn. rewrite Zv. auto.
Qed.
Lemma conclude_order ob o o' : prel o o' -> orel (fun x x' => same_up_to_order (fst x, Some (snd x)) (fst x', Some (snd x'))) (conclude ob o) (conclude ob o').
Proof.
  intros R. unfold conclude. assert (El : op_lambdas o' = op_lambdas o) by (destruct R as (ps' & ds' & -> & _); reflexivity). rewrite El.
  eapply orel_bind; [apply displacements_order; exact R|]. clear. intros o o' R. eapply orel_bind; [apply rescale_order; exact R|]. clear. intros [o scale] [o' scale'] [R E]. cbn [fst snd] in *. subst.
  destruct R as (ps' & ds' & -> & L & L' & P). same obj. fields. same la. same l0. fields.
  destruct (velocities (nabs l0) _ _ L) as (vs & -> & Lv & Zv). destruct (velocities (nabs l0) _ _ L') as (vs' & -> & Lv' & Zv'). cbn [obind]. fields.
  assert (R : prel (set_points vs (set_time (nabs l0) (set_lambdas la o))) (put vs' ds' (set_points vs (set_time (nabs l0) (set_lambdas la o))))).
  { exists vs', ds'. split; [reflexivity|]. fields. split; [lia|]. split; [lia|]. rewrite Zv, Zv'. apply Permutation_map, P. }
  change (set_points vs' (set_time (nabs l0) (set_lambdas la (put ps' ds' o)))) with (put vs' ds' (set_points vs (set_time (nabs l0) (set_lambdas la o)))).
  change (op_scale o) with (op_scale (set_points vs (set_time (nabs l0) (set_lambdas la o)))). change (op_n0 o) with (op_n0 (set_points vs (set_time (nabs l0) (set_lambdas la o)))).
  change (op_n o) with (op_n (set_points vs (set_time (nabs l0) (set_lambdas la o)))).
  revert R. generalize (set_points vs (set_time (nabs l0) (set_lambdas la o))) as q. clear. intros q R.
  eapply orel_bind with (R := prel).
  - destruct (op_n q <? op_n0 q)%nat; [|exact R]. destruct R as (ps1 & ds1 & E1 & P). 
    assert (R1 : prel (set_lambdas (resize (1 + op_n0 q) n0 la) q) (set_lambdas (resize (1 + op_n0 q) n0 la) (put vs' ds' q))).
    { rewrite E1. exact (prel_put q ps1 ds1 (set_lambdas (resize (1 + op_n0 q) n0 la) q) P eq_refl eq_refl). }
    destruct (0 <? op_n q)%nat; [|exact R1]. fields. revert R1.
    match goal with |- prel ?x ?y -> _ => generalize x y end. clear. generalize (op_n q + 1)%nat as n. induction n as [|n IH]; intros x y R; cbn [remap]; [exact R|].
    destruct R as (ps1 & ds1 & -> & P). fields. same k. same v. same la. apply IH. exact (prel_put x ps1 ds1 (set_lambdas la x) P eq_refl eq_refl).
  - clear. intros q q' (ps1 & ds1 & -> & L & L' & P). fields. same c0. cbn. repeat (split; [reflexivity|]). split; [exact L|]. split; [exact L'|]. symmetry. exact P.
Qed.

Theorem order_of_points nlopt fuel points points' (dist lambdas : list R) time limit isMax isEq : points' ≡ₚ points -> by_problem nlopt ->
  same_outcome same_up_to_order
    (let! o := optimise_ctor points dist lambdas time limit isMax isEq in solve nlopt fuel o)
    (let! o := optimise_ctor points' dist lambdas time limit isMax isEq in solve nlopt fuel o).
Proof.
  intros P Hp. change (@same_outcome (Opt R * option R)) with (@orel (Opt R * option R) (Opt R * option R)). unfold optimise_ctor. rewrite (Permutation_length P).
  unfold check. destruct (_ && _)%bool; cbn [obind]; [|exact I]. destruct (negb (length points =? 0)%nat); cbn [obind]; [|exact I]. destruct (negb (length lambdas =? 0)%nat); cbn [obind]; [|exact I].
  destruct (negb _); cbn [obind]; [|exact I]. destruct (_ =? _)%nat; cbn [obind]; [|exact I]. unfold solve.
  match goal with |- orel _ (let! _ := prepare _ ?x in _) (let! _ := prepare _ ?y in _) => pose proof (prepare_order fuel points points' x (symmetry P) eq_refl) as Q end.
  eapply orel_bind; [exact Q|]. clear -Hp. intros o o' R. eapply orel_bind; [apply attempts_order; [assumption|exact R]|].
  clear. intros [o v] [o' v'] [R E]. cbn [fst snd] in *. subst. destruct v as [ob|]; [|exact I]. eapply orel_bind; [apply conclude_order; exact R|]. intros [q w] [q' w'] H. exact H.
Qed.
