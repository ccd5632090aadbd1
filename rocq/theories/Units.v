(** * Units: solve in two systems of units, side by side (C77). *)

From Coq Require Import Reals Lra Lia.
From Verif Require Import Base Num NumR LevelSetModel NormSpec OptModel OptSpec OptMain OptCases OptRounds Twin UnitsSpec.
Local Open Scope R_scope.

(** ** Lists whose entries correspond position by position. *)
Definition pw {A B} (f : nat -> A -> B) (l : list A) (l' : list B) : Prop := forall i, l' !! i = f i <$> (l !! i).
Lemma pw_vget {A B} (f : nat -> A -> B) l l' i : pw f l l' -> orel (fun a b => b = f i a /\ l !! i = Some a) (vget l i) (vget l' i).
Proof. intros P. unfold vget. rewrite (P i). destruct (l !! i) eqn:E; cbn; auto. Qed.
Lemma pw_length {A B} (f : nat -> A -> B) l l' : pw f l l' -> length l' = length l.
Proof.
  intros P. apply Nat.le_antisymm; apply Nat.nlt_ge; intros Hlt.
  - destruct (lookup_lt_is_Some_2 l' _ Hlt) as [b E]. rewrite P, lookup_ge_None_2 in E by lia. discriminate.
  - destruct (lookup_lt_is_Some_2 l _ Hlt) as [b E]. pose proof (P (length l')) as Q. rewrite E, lookup_ge_None_2 in Q by lia. discriminate.
Qed.
Lemma pw_vset {A B} (f g : nat -> A -> B) l l' i x x' : pw f l l' -> x' = g i x -> (forall j a, j <> i -> f j a = g j a) -> orel (pw g) (vset l i x) (vset l' i x').
Proof.
  intros P E Hj. unfold vset. rewrite (P i). destruct (l !! i) as [a|] eqn:Ea; cbn; [|exact I]. pose proof (lookup_lt_Some _ _ _ Ea) as Hi. pose proof (pw_length _ _ _ P) as L. intros j.
  destruct (decide (j = i)) as [->|N].
  - rewrite !list_lookup_insert by lia. cbn. congruence.
  - rewrite !list_lookup_insert_ne by congruence. rewrite P. destruct (l !! j); cbn; [|reflexivity]. rewrite Hj by assumption. reflexivity.
Qed.
Lemma pw_impl {A B} (f g : nat -> A -> B) l l' : pw f l l' -> (forall i a, l !! i = Some a -> f i a = g i a) -> pw g l l'.
Proof. intros P E i. rewrite P. destruct (l !! i) eqn:Ea; cbn; [|reflexivity]. rewrite (E i _ Ea). reflexivity. Qed.
Lemma pw_eq {A} (f : nat -> A -> A) (l l' : list A) : pw f l l' -> (forall i a, l !! i = Some a -> f i a = a) -> l' = l.
Proof. intros P E. apply list_eq. intros i. rewrite P. destruct (l !! i) eqn:Ea; cbn; [|reflexivity]. rewrite (E i _ Ea). reflexivity. Qed.
Lemma pw_imap {A B} (f : nat -> A -> B) l : pw f l (imap f l).
Proof. intros i. rewrite list_lookup_imap. reflexivity. Qed.
Lemma pw_resize {A B} (f g : nat -> A -> B) n x x' l l' : pw f l l' -> (forall i a, (i < n)%nat -> f i a = g i a) -> (forall i, x' = g i x) -> pw g (resize n x l) (resize n x' l').
Proof.
  intros P E X i. pose proof (pw_length _ _ _ P) as L. destruct (decide (i < n)%nat) as [Hi|Hi].
  - destruct (decide (i < length l)%nat) as [Hl|Hl].
    + rewrite !lookup_resize by lia. rewrite P. destruct (l !! i); cbn; [|reflexivity]. rewrite E by assumption. reflexivity.
    + rewrite !lookup_resize_new by lia. cbn. rewrite (X i). reflexivity.
  - rewrite !lookup_resize_old by lia. reflexivity.
Qed.

Lemma orel_from {A A'} (R : A -> A' -> Prop) n i f f' s s' : R s s' -> (forall k t t', (i <= k < i + n)%nat -> R t t' -> orel R (f k t) (f' k t')) -> orel R (for_from i n f s) (for_from i n f' s').
Proof.
  revert i s s'. induction n as [|n IH]; intros i s s' H0 Hs; cbn [for_from]; [exact H0|]. eapply orel_bind; [apply Hs; [lia|exact H0]|]. intros a a' Ha. apply IH; [exact Ha|].
  intros k t t' Hk. apply Hs. lia.
Qed.
Lemma orel_ofold {A S S'} (g : A -> A) (R : S -> S' -> Prop) (f : S -> A -> outcome S) (f' : S' -> A -> outcome S') l s s' : R s s' ->
  (forall a t t', R t t' -> orel R (f t a) (f' t' (g a))) -> orel R (ofold f l s) (ofold f' (map g l) s').
Proof. intros H0 Hs. revert s s' H0. induction l as [|a l IH]; intros s s' H0; cbn [ofold map]; [exact H0|]. eapply orel_bind; [apply Hs; exact H0|]. intros t t' Ht. apply IH, Ht. Qed.
Lemma orel_oupdate {A B} (g : A -> A) (f f' : A -> B -> outcome B) l m : (forall a b, orel eq (f a b) (f' (g a) b)) -> orel eq (oupdate f l m) (oupdate f' (map g l) m).
Proof.
  intros Hf. revert m. induction l as [|a l IH]; intros m; cbn [oupdate map]; [reflexivity|]. destruct m as [|b m]; [exact I|].
  eapply orel_bind; [apply Hf|]. intros x ? <-. eapply orel_bind; [apply IH|]. intros y ? <-. reflexivity.
Qed.
Lemma oupdate_length {A B} (f : A -> B -> outcome B) l m r : oupdate f l m = Ok r -> length r = length m.
Proof.
  revert m r. induction l as [|a l IH]; intros m r; cbn [oupdate]; [intros [= <-]; reflexivity|]. destruct m as [|b m]; [discriminate|].
  destruct (f a b); cbn; try discriminate. destruct (oupdate f l m) eqn:E; cbn; try discriminate. intros [= <-]. cbn. rewrite (IH _ _ E). reflexivity.
Qed.
Lemma orel_mine {A B} (R : A -> B -> Prop) (o : outcome A) (o' : outcome B) (Q : A -> Prop) : orel R o o' -> (forall a, o = Ok a -> Q a) -> orel (fun a b => R a b /\ Q a) o o'.
Proof. destruct o, o'; cbn; auto. Qed.

Section units.
  Variable u : nat -> R.
  Hypothesis Hu : forall k, 0 < u k.
  Variable ps : list (BoundaryPoint R).
  Variable N : nat.
  Hypothesis Big : forall k, (k < N + 1)%nat -> forall M, max_sens ps k n0 = Ok M -> nminDouble <= M /\ nminDouble <= u k * M.

  Lemma u0 k : u k <> 0.
  Proof. specialize (Hu k). lra. Qed.
  Lemma sens_vget p k : orel (fun a b => b = u k * a) (vget (bp_sens p) k) (vget (bp_sens (in_units u p)) k).
  Proof. eapply orel_impl; [exact (pw_vget _ _ _ k (pw_imap (fun k s => u k * s) (bp_sens p)))|]. intros a b [-> _]. reflexivity. Qed.

  (** The unit of the function in position [i]. *)
  Definition wt (ix : list nat) (i : nat) : R := u (nth i ix 0%nat).
  Lemma wt_pos ix i : 0 < wt ix i.
  Proof. apply Hu. Qed.
  Lemma wt_ne ix i : wt ix i <> 0.
  Proof. apply u0. Qed.
  Lemma wt_get ix i k : ix !! i = Some k -> wt ix i = u k.
  Proof. intros E. unfold wt. rewrite (nth_lookup_Some _ _ _ _ E). reflexivity. Qed.
  Lemma wt_seq n i : (i < n)%nat -> wt (seq 0 n) i = u i.
  Proof. intros Hi. apply wt_get. rewrite lookup_seq. split; [reflexivity|assumption]. Qed.

  Record srel (o o' : Opt R) : Prop := {
    s_ps : op_points o = ps;
    s_points : op_points o' = map (in_units u) ps;
    s_dist : pw (fun i d => wt (op_index o) (S i) * d) (op_dist o) (op_dist o');
    s_target : pw (fun i d => wt (op_index o) (S i) * d) (op_target o) (op_target o');
    s_scale : pw (fun i c => c / wt (op_index o) i) (op_scale o) (op_scale o');
    s_limit : op_limit o' = op_limit o;
    s_isMax : op_isMax o' = op_isMax o;
    s_isEq : op_isEq o' = op_isEq o;
    s_n : op_n o' = op_n o;
    s_n0 : op_n0 o' = op_n0 o;
    s_neg : op_neg o' = op_neg o;
    s_pos : op_pos o' = op_pos o;
    s_disp : op_disp o' = op_disp o;
    s_dlen : length (op_disp o) = length ps;
    s_index : op_index o' = op_index o;
    s_first : nth 0 (op_index o) 0%nat = 0%nat;
    s_ilen : length (op_index o) = (op_n o + 1)%nat;
    s_grads : op_grads o' = op_grads o;
    s_code : op_code o' = op_code o
  }.

  (** ** Displacements and functions *)
  Lemma disp_rel o o' lambda p old : srel o o' -> orel eq (disp_point o lambda p old) (disp_point o' lambda (in_units u p) old).
  Proof.
    intros S. unfold disp_point. cbn [in_units with_sens bp_fixed bp_domain bp_neg]. destruct (bp_fixed p); [reflexivity|].
    eapply orel_bind; [apply (pw_vget _ _ _ 0 (s_scale _ _ S))|]. intros c0 c0' [-> _]. eapply orel_bind; [apply orel_refl|]. intros l0 ? <-.
    eapply orel_bind; [apply (sens_vget p 0)|]. intros s0 s0' ->. rewrite (s_n _ _ S).
    eapply orel_bind with (R := eq).
    - apply orel_from.
      + unfold wt. rewrite (s_first _ _ S). cbn [nmul NumR]. field. apply u0.
      + intros j d ? Hj <-. rewrite (s_index _ _ S). unfold vget at 1 5. destruct (op_index o !! j) as [k|] eqn:Ek; [|exact I]. cbn [obind].
        eapply orel_bind; [apply (pw_vget _ _ _ j (s_scale _ _ S))|]. intros c c' [-> _]. rewrite (wt_get _ _ _ Ek). eapply orel_bind; [apply orel_refl|]. intros l ? <-.
        eapply orel_bind; [apply (sens_vget p k)|]. intros s s' ->. cbn. field. apply u0.
    - intros d ? <-. reflexivity.
  Qed.
  Lemma displacements_rel lambda o o' : srel o o' ->
    orel (fun r r' => exists d, length d = length (op_disp o) /\ r = set_disp d o /\ r' = set_disp d o') (computeDisplacements lambda o) (computeDisplacements lambda o').
  Proof.
    intros S. unfold computeDisplacements. rewrite (s_points _ _ S), (s_disp _ _ S), (s_ps _ _ S). eapply orel_bind; [eapply orel_mine; [apply orel_oupdate; intros p old; exact (disp_rel o o' lambda p old S)|]|].
    - intros d E. exact (oupdate_length _ _ _ _ E).
    - intros d ? [<- L]. exists d. auto.
  Qed.
  Lemma srel_disp o o' d : srel o o' -> length d = length (op_disp o) -> srel (set_disp d o) (set_disp d o').
  Proof. intros [] L. constructor; cbn; try assumption; try reflexivity. congruence. Qed.

  Lemma function_rel o o' i : srel o o' -> orel eq (computeFunction o i) (computeFunction o' i).
  Proof.
    intros S. unfold computeFunction. rewrite (s_index _ _ S). unfold vget at 1 4. destruct (op_index o !! i) as [j|] eqn:Ej; [|exact I]. cbn [obind].
    eapply orel_bind; [apply (pw_vget _ _ _ i (s_scale _ _ S))|]. intros c c' [-> _]. rewrite (s_points _ _ S), (s_ps _ _ S), (wt_get _ _ _ Ej).
    eapply orel_bind with (R := eq).
    - apply orel_ofold; [reflexivity|]. intros p [f k] ? <-. unfold fun_step. cbn [in_units with_sens bp_fixed bp_length]. destruct (bp_fixed p); [reflexivity|]. rewrite (s_disp _ _ S).
      eapply orel_bind; [apply orel_refl|]. intros d ? <-. eapply orel_bind; [apply (sens_vget p j)|]. intros a a' ->. cbn. f_equal. field. apply u0.
    - intros [f k] ? <-. destruct (i =? 0)%nat eqn:Ei; [reflexivity|]. apply Nat.eqb_neq in Ei.
      eapply orel_bind; [apply (pw_vget _ _ _ (i - 1) (s_target _ _ S))|]. intros t t' [-> _]. replace (Datatypes.S (i - 1)) with i by lia. rewrite (wt_get _ _ _ Ej). cbn. field. apply u0.
  Qed.
  Lemma gradients_rel o o' g i : srel o o' -> orel eq (computeGradients o g i) (computeGradients o' g i).
  Proof.
    intros S. unfold computeGradients. rewrite (s_n _ _ S). eapply orel_bind; [apply orel_refl|]. intros g1 ? <-. rewrite (s_points _ _ S), (s_ps _ _ S).
    apply orel_ofold; [reflexivity|]. intros p l ? <-. unfold grad_point. cbn [in_units with_sens bp_fixed]. destruct (bp_fixed p); [reflexivity|]. rewrite (s_n _ _ S).
    apply orel_for_same; [reflexivity|]. intros j t ? Hj <-. unfold grad_entry. rewrite (s_index _ _ S). unfold vget at 1 8. destruct (op_index o !! j) as [k|] eqn:Ek; [|exact I]. cbn [obind].
    eapply orel_bind; [apply (pw_vget _ _ _ i (s_scale _ _ S))|]. intros ci ci' [-> _]. eapply orel_bind; [apply (pw_vget _ _ _ j (s_scale _ _ S))|]. intros cj cj' [-> _].
    unfold vget at 1 5. destruct (op_index o !! i) as [ki|] eqn:Ei; [|exact I]. cbn [obind].
    eapply orel_bind; [apply (sens_vget p ki)|]. intros a a' ->. eapply orel_bind; [apply (sens_vget p k)|]. intros b b' ->. eapply orel_bind; [apply orel_refl|]. intros v ? <-.
    rewrite (wt_get _ _ _ Ek), (wt_get _ _ _ Ei). cbn [in_units with_sens bp_length].
    match goal with |- orel _ (vset _ _ ?x) (vset _ _ ?y) => replace y with x; [apply orel_refl|] end. cbn. field. split; apply u0.
  Qed.

  (** ** Scale factors *)
  Lemma max_rel k init : orel (fun m m' => m' = u k * m) (max_sens ps k init) (max_sens (map (in_units u) ps) k (u k * init)).
  Proof.
    unfold max_sens. apply orel_ofold; [reflexivity|]. intros p m m' ->. cbn [in_units with_sens bp_fixed]. destruct (bp_fixed p); [reflexivity|].
    eapply orel_bind; [apply (sens_vget p k)|]. intros s s' ->. cbn. rewrite Rabs_mult, (Rabs_pos_eq (u k)) by (specialize (Hu k); lra). specialize (Hu k).
    destruct (Rltb_spec m (Rabs s)), (Rltb_spec (u k * m) (u k * Rabs s)); try reflexivity; exfalso.
    - apply n. apply Rmult_lt_compat_l; assumption.
    - apply n. apply (Rmult_lt_reg_l (u k)); assumption.
  Qed.
  Lemma max_init (l : list (BoundaryPoint R)) k a b : orel (fun m m' => m' = Rmax a m) (max_sens l k b) (max_sens l k (Rmax a b)).
  Proof.
    unfold max_sens. rewrite <- (map_id l) at 2. apply orel_ofold; [reflexivity|]. intros p m m' ->. destruct (bp_fixed p); [reflexivity|]. eapply orel_bind; [apply orel_refl|]. intros s ? <-. cbn.
    unfold Rmax. destruct (Rle_dec a m), (Rltb_spec m (Rabs s)); repeat match goal with |- context [Rle_dec ?x ?y] => destruct (Rle_dec x y) | |- context [Rltb ?x ?y] => destruct (Rltb_spec x y) end; lra.
  Qed.
  Lemma min_pos : 0 < (nminDouble : R).
  Proof. rewrite minDouble_real. apply Rinv_0_lt_compat, pow_lt. lra. Qed.
  Lemma max_rel_min k : (k < N + 1)%nat -> orel (fun m m' => m' = u k * m) (max_sens ps k nminDouble) (max_sens (map (in_units u) ps) k nminDouble).
  Proof.
    intros Hk. pose proof (max_init ps k nminDouble n0) as A. pose proof (max_init (map (in_units u) ps) k nminDouble n0) as B. pose proof (max_rel k n0) as C. specialize (Big k Hk).
    pose proof min_pos as Hm. change (n0 : R) with 0 in *. rewrite Rmult_0_r in C. rewrite (Rmax_left nminDouble 0) in A, B by lra.
    destruct (max_sens ps k 0) as [M| | |] eqn:E1, (max_sens (map (in_units u) ps) k 0) as [M'| | |] eqn:E2; cbn in C; try contradiction;
      destruct (max_sens ps k nminDouble), (max_sens (map (in_units u) ps) k nminDouble); cbn in A, B; try contradiction; try exact I.
    destruct (Big M eq_refl) as [B1 B2]. cbn. subst. rewrite !Rmax_right by assumption. reflexivity.
  Qed.

  Lemma scale_sens_rel o o' i : srel o o' -> op_index o = seq 0 (op_n o + 1) -> (i < op_n o + 1)%nat ->
    orel (fun r r' => srel r r' /\ exists c c', r = set_scale c o /\ r' = set_scale c' o') (scale_sens i o) (scale_sens i o').
  Proof.
    intros S Hix Hi. unfold scale_sens. rewrite (s_points _ _ S), (s_ps _ _ S). eapply orel_bind.
    { pose proof (max_rel i n0) as M. change (n0 : R) with 0 in *. rewrite Rmult_0_r in M. exact M. }
    intros m m' ->. eapply orel_bind; [eapply (pw_vset _ (fun i c => c / wt (op_index o) i)); [exact (s_scale _ _ S)| |reflexivity]|].
    - rewrite Hix, wt_seq by assumption. cbn. unfold Rdiv. rewrite Rinv_mult. ring.
    - intros c c' P. split; [|eauto]. destruct S. constructor; cbn; assumption.
  Qed.
  Lemma scale_grad_rel o o' g i : srel o o' ->
    orel (fun r r' => srel (fst r) (fst r') /\ snd r' = snd r /\ exists c c', fst r = set_scale c o /\ fst r' = set_scale c' o') (scale_grad i (o, g)) (scale_grad i (o', g)).
  Proof.
    intros S. unfold scale_grad. eapply orel_bind; [apply gradients_rel; exact S|]. intros g1 ? <-. eapply orel_bind; [apply orel_refl|]. intros gi ? <-.
    eapply orel_bind; [apply (pw_vget _ _ _ i (s_scale _ _ S))|]. intros ci ci' [-> _].
    eapply orel_bind; [eapply (pw_vset _ (fun i c => c / wt (op_index o) i)); [exact (s_scale _ _ S)| |reflexivity]|].
    - cbn. unfold Rdiv. ring.
    - intros c c' P. cbn. split; [|eauto]. destruct S. constructor; cbn; assumption.
  Qed.
  Lemma factors_rel o o' : srel o o' -> op_index o = seq 0 (op_n o + 1) ->
    orel (fun r r' => srel r r' /\ exists c c', r = set_scale c o /\ r' = set_scale c' o') (computeScaleFactors o) (computeScaleFactors o').
  Proof.
    intros S Hix. unfold computeScaleFactors. rewrite (s_n _ _ S).
    eapply orel_bind with (R := fun r r' => srel r r' /\ exists c c', r = set_scale c o /\ r' = set_scale c' o').
    - apply orel_for_same.
      + split; [exact S|]. exists (op_scale o), (op_scale o'). destruct o, o'. auto.
      + intros i r r' Hi (S1 & c & c' & -> & ->). eapply orel_impl; [apply scale_sens_rel; [exact S1|exact Hix|exact Hi]|]. intros a a' (S2 & d & d' & -> & ->). split; [exact S2|]. exists d, d'. auto.
    - intros r r' (S1 & c & c' & -> & ->). cbn [set_scale op_n]. rewrite (s_n _ _ S).
      eapply orel_bind with (R := fun x x' => srel (fst x) (fst x') /\ snd x' = snd x /\ exists c c', fst x = set_scale c o /\ fst x' = set_scale c' o').
      + apply orel_for_same.
        * cbn. split; [exact S1|]. split; [reflexivity|]. eauto.
        * intros i [r g] [r' g'] Hi (S2 & Eg & d & d' & E1 & E2). cbn [fst snd] in *. subst. eapply orel_impl; [apply scale_grad_rel; exact S2|]. intros x x' (S3 & Es & e & e' & F1 & F2).
          split; [exact S3|]. split; [exact Es|]. exists e, e'. rewrite F1, F2. auto.
      + intros [r g] [r' g'] (S2 & _ & d & d' & E1 & E2). cbn [fst] in *. split; [exact S2|]. eauto.
  Qed.

  (** ** Limits of the multipliers *)
  Definition kept (o r : Opt R) : Prop := op_index r = op_index o /\ op_n r = op_n o /\ op_n0 r = op_n0 o.
  Definition lrel (o o' : Opt R) : Prop := srel o o' /\ op_lambdas o' = op_lambdas o.
  Lemma limit_rel fuel o o' i : lrel o o' -> op_index o = seq 0 (op_n o + 1) -> op_n o = N -> (i < op_n o + 1)%nat ->
    orel (fun r r' => lrel r r' /\ op_index r = op_index o /\ op_n r = op_n o /\ op_n0 r = op_n0 o) (lambda_limit fuel i o) (lambda_limit fuel i o').
  Proof.
    intros [S L] Hix Hn Hi. unfold lambda_limit. rewrite (s_index _ _ S), (s_points _ _ S), (s_ps _ _ S), (s_limit _ _ S), (s_neg _ _ S), (s_pos _ _ S), L.
    unfold vget at 1 4. destruct (op_index o !! i) as [k|] eqn:Ek; [|exact I]. cbn [obind].
    assert (k = i) as -> by (rewrite Hix in Ek; apply lookup_seq in Ek; lia).
    eapply orel_bind; [apply max_rel_min; lia|]. intros m m' ->. eapply orel_bind; [apply (pw_vget _ _ _ i (s_scale _ _ S))|]. intros c c' [-> _]. rewrite (wt_get _ _ _ Ek).
    assert (Q : forall x, x / (u i * m) / (c / u i) = x / m / c).
    { intros x. unfold Rdiv. rewrite !Rinv_mult, Rinv_inv. pose proof (Rinv_r (u i) (u0 i)). replace (x * (/ u i * / m) * (/ c * u i)) with (x * / m * / c * (u i * / u i)) by ring. rewrite H. ring. }
    cbn [ndiv nneg NumR]. rewrite !Q. eapply orel_bind; [apply orel_refl|]. intros ne ? <-. eapply orel_bind; [apply orel_refl|]. intros po ? <-. eapply orel_bind; [apply orel_refl|]. intros l ? <-.
    eapply orel_bind; [apply orel_refl|]. intros l1 ? <-. eapply orel_bind; [apply orel_refl|]. intros l2 ? <-. eapply orel_bind; [apply orel_refl|]. intros la ? <-.
    cbn. split; [split; [|reflexivity]|auto]. destruct S. constructor; cbn; assumption || reflexivity.
  Qed.
  Lemma limits_rel fuel o o' : lrel o o' -> op_index o = seq 0 (op_n o + 1) -> op_n o = N ->
    orel (fun r r' => lrel r r' /\ kept o r) (computeLambdaLimits fuel o) (computeLambdaLimits fuel o').
  Proof.
    intros L Hix Hn. unfold computeLambdaLimits. rewrite (s_n _ _ (proj1 L)).
    eapply orel_impl; [apply (orel_for_same (fun r r' => lrel r r' /\ op_index r = op_index o /\ op_n r = op_n o /\ op_n0 r = op_n0 o)); [auto|]|].
    - intros i r r' Hi (L1 & E1 & E2 & E3). eapply orel_impl; [apply limit_rel; [exact L1|congruence|congruence|rewrite E2; exact Hi]|]. intros x x' (L2 & F1 & F2 & F3). split; [exact L2|]. repeat split; congruence.
    - intros r r' (L1 & K). split; [exact L1|exact K].
  Qed.

  (** ** Constraint distances *)
  Lemma vertex_rel o o' v k n : srel o o' -> vertex_lambda o' v k n = vertex_lambda o v k n.
  Proof. intros S. revert k. induction n as [|n IH]; intros k; cbn [vertex_lambda]; [reflexivity|]. rewrite (s_neg _ _ S), (s_pos _ _ S), IH. reflexivity. Qed.
  Lemma change_rel nDim i v o o' : lrel o o' ->
    orel (fun x x' => lrel (fst x) (fst x') /\ (exists d, fst x = set_disp d o) /\ snd x' = wt (op_index o) (S i) * snd x) (constraint_change nDim i v o) (constraint_change nDim i v o').
  Proof.
    intros [S L]. unfold constraint_change. rewrite (vertex_rel o o' _ _ _ S). eapply orel_bind; [apply orel_refl|]. intros la ? <-.
    eapply orel_bind; [apply displacements_rel; exact S|]. intros r r' (d & Ld & -> & ->). pose proof (srel_disp o o' d S Ld) as S1.
    cbn [set_disp op_index op_points]. rewrite (s_index _ _ S), (s_points _ _ S), (s_ps _ _ S). replace (i + 1)%nat with (Datatypes.S i) by lia.
    unfold vget. destruct (op_index o !! Datatypes.S i) as [j|] eqn:Ej; [|exact I]. cbn [obind]. rewrite (wt_get _ _ _ Ej).
    eapply orel_bind with (R := fun x x' => fst x' = u j * fst x /\ snd x' = snd x).
    - apply orel_ofold; [cbn; split; [ring|reflexivity]|]. intros p [f k] [f' k'] [E1 E2]. cbn [fst snd] in *. subst. unfold change_step. cbn [in_units with_sens bp_fixed bp_length]. destruct (bp_fixed p); [cbn; auto|].
      cbn [set_disp op_disp]. eapply orel_bind; [apply orel_refl|]. intros e ? <-. eapply orel_bind; [apply (sens_vget p j)|]. intros a a' ->. cbn. split; [ring|reflexivity].
    - intros [f k] [f' k'] [E1 E2]. cbn [fst snd] in *. cbn. split; [split; [exact S1|exact L]|]. split; [eauto|exact E1].
  Qed.
  Lemma insert_map w x l : 0 < w -> ninsert (w * x) (map (Rmult w) l) = map (Rmult w) (ninsert x l).
  Proof.
    intros Hw. induction l as [|y l IH]; cbn; [reflexivity|]. rewrite IH. destruct (Rltb_spec x y), (Rltb_spec (w * x) (w * y)); try reflexivity; exfalso.
    - apply n. apply Rmult_lt_compat_l; assumption.
    - apply n. apply (Rmult_lt_reg_l w); assumption.
  Qed.
  Lemma sort_map w l : 0 < w -> nsort (map (Rmult w) l) = map (Rmult w) (nsort l).
  Proof.
    intros Hw. unfold nsort. change (@nil R) with (map (Rmult w) []) at 1. generalize (@nil R) as acc. induction l as [|x l IH]; intros acc; cbn; [reflexivity|].
    rewrite insert_map by assumption. apply IH.
  Qed.
  Lemma ltb_scale w x y : 0 < w -> Rltb (w * x) (w * y) = Rltb x y.
  Proof.
    intros Hw. destruct (Rltb_spec x y), (Rltb_spec (w * x) (w * y)); try reflexivity; exfalso.
    - apply n. apply Rmult_lt_compat_l; assumption.
    - apply n. apply (Rmult_lt_reg_l w); assumption.
  Qed.
  Lemma map_vget w (l : list R) i : orel (fun a b => b = w * a) (vget l i) (vget (map (Rmult w) l) i).
  Proof. unfold vget. change (map (Rmult w) l) with (Rmult w <$> l). rewrite list_lookup_fmap. destruct (l !! i); cbn; auto. Qed.
  Lemma srel_target o o' t t' : srel o o' -> pw (fun i d => wt (op_index o) (S i) * d) t t' -> srel (set_otarget t o) (set_otarget t' o').
  Proof. intros [] P. constructor; cbn; assumption. Qed.
  Lemma constraint_rel nDim i o o' : lrel o o' ->
    orel (fun x x' => lrel (fst x) (fst x') /\ kept o (fst x) /\ snd x' = snd x) (one_constraint nDim i o) (one_constraint nDim i o').
  Proof.
    intros L. unfold one_constraint. set (w := wt (op_index o) (S i)). assert (Hw : 0 < w) by apply wt_pos.
    eapply orel_bind with (R := fun x x' => lrel (fst x) (fst x') /\ kept o (fst x) /\ snd x' = map (Rmult w) (snd x)).
    - apply orel_for_same; [cbn; split; [exact L|]; split; [repeat split|reflexivity]|].
      intros v [r c] [r' c'] _ (L1 & (K1 & K2 & K3) & E). cbn [fst snd] in *. eapply orel_bind; [apply change_rel; exact L1|].
      intros [q e] [q' e'] (L2 & (d & Eq) & Ee). cbn [fst snd] in *. subst q. cbn. split; [exact L2|]. split; [split; cbn; auto|]. rewrite E, Ee, K1. fold w. rewrite map_app. reflexivity.
    - intros [r c] [r' c'] ([S1 L1] & K & E). cbn [fst snd] in *. subst c'. rewrite sort_map, map_length by assumption.
      eapply orel_bind; [apply map_vget|]. intros mn mn' ->. eapply orel_bind; [apply map_vget|]. intros mx mx' ->.
      assert (Wr : wt (op_index r) (S i) = w) by (destruct K as (-> & _); reflexivity).
      eapply orel_bind; [apply (pw_vget _ _ _ i (s_dist _ _ S1))|]. intros d d' [-> _]. rewrite Wr.
      cbn [nmul nltb NumR]. change (n0 : R) with 0. replace (Rltb (w * d) 0) with (Rltb d 0) by (rewrite <- (ltb_scale w d 0 Hw), Rmult_0_r; reflexivity).
      cbn [nmul NumR]. rewrite !Rmult_assoc. set (lo := mn * nlit 99 100). set (hi := mx * nlit 99 100). rewrite !ltb_scale by assumption.
      destruct (Rltb d 0).
      + destruct (Rltb d lo); [|exact (conj (conj S1 L1) (conj K eq_refl))].
        eapply orel_bind; [eapply (pw_vset _ (fun i d => wt (op_index r) (S i) * d)); [exact (s_target _ _ S1)|rewrite Wr; reflexivity|reflexivity]|].
        intros t t' P. cbn. split; [split; [exact (srel_target _ _ _ _ S1 P)|exact L1]|]. split; [exact K|reflexivity].
      + destruct (Rltb hi d); [|exact (conj (conj S1 L1) (conj K eq_refl))]. rewrite (s_isEq _ _ S1). eapply orel_bind; [apply orel_refl|]. intros e ? <-. destruct e; [|exact (conj (conj S1 L1) (conj K eq_refl))].
        eapply orel_bind; [eapply (pw_vset _ (fun i d => wt (op_index r) (S i) * d)); [exact (s_target _ _ S1)|rewrite Wr; reflexivity|reflexivity]|].
        intros t t' P. cbn. split; [split; [exact (srel_target _ _ _ _ S1 P)|exact L1]|]. split; [exact K|reflexivity].
  Qed.

  Lemma wt_insert ix i k j : (i < length ix)%nat -> wt (<[i:=k]> ix) j = if decide (j = i) then u k else wt ix j.
  Proof.
    intros Hi. unfold wt. destruct (decide (j = i)) as [->|Nj].
    - rewrite (nth_lookup_Some _ _ _ k) by (apply list_lookup_insert; exact Hi). reflexivity.
    - rewrite !nth_lookup, list_lookup_insert_ne by congruence. reflexivity.
  Qed.
  (** While constraints move to the front; [ix]: the positions before, [i] entries have been looked at, [a] of them kept. *)
  Definition shifting (n n0 : nat) (ix : list nat) (i : nat) (x x' : Opt R * nat) : Prop :=
    snd x' = snd x /\ (snd x <= i)%nat /\ (snd x = i -> op_index (fst x) = ix) /\ op_n (fst x) = n /\ op_n0 (fst x) = n0 /\ lrel (fst x) (fst x').
  Lemma shift_rel n n0 ix active i x x' : (i < n)%nat -> shifting n n0 ix i x x' -> orel (shifting n n0 ix (S i)) (shift_constraint active i x) (shift_constraint active i x').
  Proof.
    intros Hi. destruct x as [o a], x' as [o' a']. intros (Ea & Ha & Hx & Hn & Hn0 & S & L). cbn [fst snd] in *. subst a'. unfold shift_constraint.
    eapply orel_bind; [apply orel_refl|]. intros b ? <-. destruct b; [|cbn; split; [reflexivity|]; split; [cbn; lia|]; split; [cbn; lia|]; exact (conj Hn (conj Hn0 (conj S L)))].
    pose proof (s_ilen _ _ S) as Li. assert (Hlt : (a + 1 < length (op_index o))%nat) by lia.
    destruct (lookup_lt_is_Some_2 (op_index o) (i + 1) ltac:(lia)) as [k Ek]. set (ix2 := <[(a + 1)%nat:=k]> (op_index o)).
    assert (W2 : forall j, wt ix2 j = if decide (j = (a + 1)%nat) then u k else wt (op_index o) j) by (intros j; apply wt_insert; exact Hlt).
    assert (Wk : wt (op_index o) (Datatypes.S i) = u k) by (apply wt_get; replace (Datatypes.S i) with (i + 1)%nat by lia; exact Ek).
    rewrite L, (s_neg _ _ S), (s_pos _ _ S), (s_index _ _ S), (s_isEq _ _ S), (s_limit _ _ S), (s_isMax _ _ S), (s_n _ _ S), (s_n0 _ _ S), (s_disp _ _ S), (s_grads _ _ S), (s_code _ _ S).
    eapply orel_bind; [apply orel_refl|]. intros l ? <-. eapply orel_bind; [apply orel_refl|]. intros la ? <-.
    eapply orel_bind; [apply (pw_vget _ _ _ (i + 1) (s_scale _ _ S))|]. intros c c' [-> _].
    eapply orel_bind; [eapply (pw_vset _ (fun j c => c / wt ix2 j)); [exact (s_scale _ _ S)| |]|].
    { cbn beta. rewrite W2, decide_True by reflexivity. replace (i + 1)%nat with (Datatypes.S i) by lia. rewrite Wk. reflexivity. }
    { intros j v Hj. cbn beta. rewrite W2, decide_False by assumption. reflexivity. }
    intros sc sc' Psc. eapply orel_bind; [apply orel_refl|]. intros ne0 ? <-. eapply orel_bind; [apply orel_refl|]. intros ne ? <-.
    eapply orel_bind; [apply orel_refl|]. intros po0 ? <-. eapply orel_bind; [apply orel_refl|]. intros po ? <-.
    assert (Gk : vget (op_index o) (i + 1) = Ok k) by (unfold vget; rewrite Ek; reflexivity).
    assert (Gs : vset (op_index o) (a + 1) k = Ok ix2) by (unfold vset; destruct (lookup_lt_is_Some_2 (op_index o) (a + 1) Hlt) as [k0 ->]; reflexivity).
    rewrite !Gk. cbn [obind]. rewrite !Gs. cbn [obind].
    eapply orel_bind; [apply (pw_vget _ _ _ i (s_dist _ _ S))|]. intros d d' [-> _].
    eapply orel_bind; [eapply (pw_vset _ (fun j c => wt ix2 (Datatypes.S j) * c)); [exact (s_dist _ _ S)| |]|].
    { cbn beta. rewrite W2, decide_True by lia. rewrite Wk. reflexivity. }
    { intros j v Hj. cbn beta. rewrite W2, decide_False by lia. reflexivity. }
    intros di di' Pdi. eapply orel_bind; [apply (pw_vget _ _ _ i (s_target _ _ S))|]. intros t t' [-> _].
    eapply orel_bind; [eapply (pw_vset _ (fun j c => wt ix2 (Datatypes.S j) * c)); [exact (s_target _ _ S)| |]|].
    { cbn beta. rewrite W2, decide_True by lia. rewrite Wk. reflexivity. }
    { intros j v Hj. cbn beta. rewrite W2, decide_False by lia. reflexivity. }
    intros ta ta' Pta. eapply orel_bind; [apply orel_refl|]. intros e ? <-. eapply orel_bind; [apply orel_refl|]. intros eq ? <-.
    cbn. split; [reflexivity|]. split; [cbn; lia|]. split; [|split; [exact Hn|split; [exact Hn0|split; [|reflexivity]]]].
    - cbn. intros E. unfold ix2. replace (a + 1)%nat with (i + 1)%nat by lia. rewrite list_insert_id by exact Ek. apply Hx. lia.
    - destruct S. constructor; cbn; try assumption; try reflexivity.
      + unfold ix2. destruct (op_index o) as [|h t0]; cbn in Hlt |- *; [lia|]. replace (a + 1)%nat with (Datatypes.S a) by lia. cbn. assumption.
      + unfold ix2. rewrite insert_length. assumption.
  Qed.
  Lemma cut_rel a o o' : (a < op_n o)%nat -> lrel o o' -> lrel (cut_constraints a o) (cut_constraints a o').
  Proof.
    intros Ha [S L]. pose proof (s_ilen _ _ S) as Li.
    assert (W : forall j, (j < a + 1)%nat -> wt (resize (a + 1) 0%nat (op_index o)) j = wt (op_index o) j).
    { intros j Hj. unfold wt. rewrite !nth_lookup, lookup_resize by lia. reflexivity. }
    split; [|cbn; rewrite L; reflexivity]. destruct S. constructor; cbn; try assumption; try (rewrite ?s_isEq0, ?s_neg0, ?s_pos0, ?s_index0; reflexivity).
    - eapply pw_resize; [exact s_dist0| |]; cbn; [intros i d Hi; rewrite W by lia; reflexivity|intros; ring].
    - eapply pw_resize; [exact s_target0| |]; cbn; [intros i d Hi; rewrite W by lia; reflexivity|intros; ring].
    - eapply pw_resize; [exact s_scale0| |]; cbn; [intros i d Hi; rewrite W by lia; reflexivity|intros; unfold Rdiv; ring].
    - rewrite nth_lookup, lookup_resize by lia. rewrite <- nth_lookup. assumption.
    - apply resize_length.
  Qed.

  (** All functions are in place unless some were dropped. *)
  Definition in_place (o : Opt R) : Prop := (op_n o <= op_n0 o)%nat /\ (op_n o = op_n0 o -> op_index o = seq 0 (op_n o + 1)).
  Lemma distances_rel fuel o o' : lrel o o' -> in_place o -> orel (fun r r' => lrel r r' /\ in_place r) (computeConstraintDistances fuel (op_n o) o) (computeConstraintDistances fuel (op_n o) o').
  Proof.
    revert o o'. induction fuel as [|fuel IH]; intros o o' L IP; cbn [computeConstraintDistances]; [exact I|]. destruct (32 <=? op_n o + 1)%nat; [exact I|].
    eapply orel_bind with (R := fun x x' => lrel (fst x) (fst x') /\ kept o (fst x) /\ snd x' = snd x).
    - apply orel_for_same; [cbn; split; [exact L|split; [repeat split|reflexivity]]|]. intros i [r c] [r' c'] Hi (L1 & (K1 & K2 & K3) & E). cbn [fst snd] in *. subst c'.
      eapply orel_bind; [apply constraint_rel; exact L1|]. intros [q b] [q' b'] (L2 & (J1 & J2 & J3) & Eb). cbn [fst snd] in *. cbn. split; [exact L2|]. split; [repeat split; congruence|congruence].
    - intros [r c] [r' c'] (L1 & (K1 & K2 & K3) & E). cbn [fst snd] in *. subst c'.
      eapply orel_bind with (R := shifting (op_n o) (op_n0 o) (op_index o) (op_n o)).
      + apply orel_for; [exact (conj eq_refl (conj (le_n 0) (conj (fun _ => K1) (conj K2 (conj K3 L1)))))|]. intros i x x' Hi Sh. apply shift_rel; assumption.
      + intros [q a] [q' a'] (Ea & Ha & Hx & Hn & Hn0 & L2). cbn [fst snd] in *. subst a'. rewrite (s_n _ _ (proj1 L2)), Hn.
        destruct (Nat.ltb_spec a (op_n o)) as [Hlt|Hge].
        * pose proof (cut_rel a q q' ltac:(lia) L2) as L3. rewrite Bool.andb_true_r. destruct (Nat.ltb_spec 0 a).
          -- change a with (op_n (cut_constraints a q)) at 1 3. cbn [cut_constraints op_n]. change a with (op_n (cut_constraints a q)) at 1 3. apply IH; [exact L3|]. destruct IP. split; cbn; rewrite Hn0; lia.
          -- cbn. split; [exact L3|]. destruct IP. split; cbn; rewrite Hn0; lia.
        * rewrite Bool.andb_false_r. cbn. split; [exact L2|]. destruct IP as [I1 I2]. split; [lia|]. rewrite Hn, Hn0, Hx by lia. exact I2.
  Qed.

  (** ** Preparation *)
  Lemma cancel_units k x c : (x / u k) / (c / u k) = x / c.
  Proof.
    unfold Rdiv. rewrite Rinv_mult, Rinv_inv. pose proof (Rinv_r (u k) (u0 k)) as H. replace (x * / u k * (/ c * u k)) with (x * / c * (u k * / u k)) by ring. rewrite H. ring.
  Qed.
  Lemma units_out k x c : x / (c / u k) = u k * (x / c).
  Proof. unfold Rdiv. rewrite Rinv_mult, Rinv_inv. ring. Qed.
  Lemma in_place_kept o r : in_place o -> kept o r -> in_place r.
  Proof. intros [A B] (K1 & K2 & K3). unfold in_place. rewrite K1, K2, K3. split; assumption. Qed.
  Lemma store_rel o o' i : lrel o o' -> orel (fun r r' => lrel r r' /\ kept o r) (store_gradient i o) (store_gradient i o').
  Proof.
    intros [S L]. unfold store_gradient. rewrite (s_n _ _ S), (s_grads _ _ S). eapply orel_bind; [apply gradients_rel; exact S|]. intros g ? <-. eapply orel_bind; [apply orel_refl|]. intros gs ? <-.
    cbn. split; [split; [|exact L]|repeat split]. destruct S. constructor; cbn; assumption || reflexivity.
  Qed.
  Lemma prepare_rel fuel (dist lambdas : list R) time time' limit isMax isEq : length lambdas = (N + 1)%nat -> length dist = N ->
    let o0 ps dist lambdas time := mkOpt ps dist lambdas time limit isMax isEq N N (replicate (N + 1) n0) (replicate (N + 1) n0) (replicate (N + 1) n0) dist [] [] [] None in
    orel (fun r r' => lrel r r' /\ in_place r) (prepare fuel (o0 ps dist lambdas time)) (prepare fuel (o0 (map (in_units u) ps) (dist_in_units u dist) (lambdas_in_units u lambdas) time')).
  Proof.
    intros Ll Ld. cbv zeta. unfold prepare. cbn [set_disp set_index op_points op_dist op_lambdas op_n op_disp op_time op_limit op_isMax op_isEq op_n0 op_neg op_pos op_scale op_target op_index op_grads op_code].
    rewrite map_length.
    match goal with |- orel _ (let! _ := computeScaleFactors ?x in _) (let! _ := computeScaleFactors ?y in _) => assert (S : srel x y); [|set (o := x) in *; set (o' := y) in *] end.
    { assert (P : pw (fun i d => wt (seq 0 (N + 1)) (S i) * d) dist (dist_in_units u dist)).
      { eapply pw_impl; [apply pw_imap|]. intros i d Hi. apply lookup_lt_Some in Hi. cbn beta. rewrite wt_seq by lia. reflexivity. }
      constructor; cbn; try reflexivity; try assumption.
      - intros i. destruct (decide (i < N + 1)%nat); [rewrite lookup_replicate_2 by assumption; cbn; f_equal; unfold Rdiv; ring|rewrite lookup_ge_None_2 by (rewrite replicate_length; lia); reflexivity].
      - apply resize_length.
      - rewrite Nat.add_1_r. reflexivity.
      - rewrite seq_length. reflexivity. }
    eapply orel_bind; [apply factors_rel; [exact S|reflexivity]|]. intros r r' (S1 & c & c' & -> & ->). cbn [set_scale op_n op_lambdas op_scale]. unfold o at 1 2 3, o' at 1 2 3. cbn [op_n op_lambdas].
    eapply orel_bind with (R := fun la la' => la' = la /\ length la = (N + 1)%nat).
    - eapply orel_impl; [apply (orel_for (fun k la la' => pw (fun j x => if (j <? k)%nat then x else x / u j) la la' /\ length la = (N + 1)%nat)); [split; [exact (pw_imap (fun j x => x / u j) lambdas)|exact Ll]|]|].
      + intros k la la' Hk [P L]. eapply orel_bind; [apply (pw_vget _ _ _ k P)|]. intros x x' [-> _]. rewrite Nat.ltb_irrefl.
        pose proof (s_scale _ _ S1) as Ps. cbn [set_scale op_scale op_index] in Ps. eapply orel_bind; [apply (pw_vget _ _ _ k Ps)|]. intros e e' [-> _].
        change (op_index o) with (seq 0 (N + 1)). rewrite wt_seq by assumption. cbn [ndiv NumR]. rewrite cancel_units.
        eapply orel_impl; [eapply orel_mine with (Q := fun l => length l = (N + 1)%nat); [eapply (pw_vset _ (fun j x => if (j <? Datatypes.S k)%nat then x else x / u j)); [exact P| |]|]|].
        * cbn beta. destruct (Nat.ltb_spec k (Datatypes.S k)); [reflexivity|lia].
        * intros j a Hj. cbn beta. destruct (Nat.ltb_spec j k), (Nat.ltb_spec j (Datatypes.S k)); try reflexivity; lia.
        * intros l. unfold vset. destruct (la !! k); [|discriminate]. intros [= <-]. rewrite insert_length. exact L.
        * intros a a' H. exact H.
      + intros la la' [P L]. cbn in P. split; [|exact L]. apply (pw_eq _ _ _ P). intros i a Hi. apply lookup_lt_Some in Hi. destruct (Nat.ltb_spec i (N + 1)); [reflexivity|lia].
    - intros la ? [-> Lla]. eapply orel_bind; [apply limits_rel; [split; [|reflexivity]|reflexivity|reflexivity]|].
      + clear -S1. destruct S1. constructor; cbn in *; assumption.
      + intros q q' (L2 & K2). assert (IP : in_place q). { eapply in_place_kept; [|exact K2]. split; [reflexivity|]. intros _. reflexivity. }
        rewrite (s_n _ _ (proj1 L2)). eapply orel_bind with (R := fun r r' => lrel r r' /\ in_place r).
        * destruct (0 <? op_n q)%nat; [apply distances_rel; assumption|]. split; assumption.
        * intros x x' (L3 & IP3). cbn [set_grads op_n op_grads]. rewrite (s_n _ _ (proj1 L3)), (s_grads _ _ (proj1 L3)).
          apply orel_for_same.
          -- split; [|exact IP3]. destruct L3 as [S3 L3]. split; [|exact L3]. destruct S3. constructor; cbn; assumption || reflexivity.
          -- intros i y y' _ [Ly Iy]. eapply orel_impl; [apply store_rel; exact Ly|]. intros z z' [Lz Kz]. split; [exact Lz|]. exact (in_place_kept _ _ Iy Kz).
  Qed.

  (** ** The optimisation *)
  Lemma callback_rel o o' la g i : lrel o o' ->
    orel (fun x x' => lrel (fst (fst x)) (fst (fst x')) /\ kept o (fst (fst x)) /\ snd (fst x') = snd (fst x) /\ snd x' = snd x) (opt_callback o la g i) (opt_callback o' la g i).
  Proof.
    intros [S L]. unfold opt_callback. eapply orel_bind; [apply displacements_rel; exact S|]. intros r r' (d & Ld & -> & ->). pose proof (srel_disp o o' d S Ld) as S1.
    cbn [set_disp op_grads]. rewrite (s_grads _ _ S). eapply orel_bind; [apply orel_refl|]. intros gr ? <-. eapply orel_bind; [apply function_rel; exact S1|]. intros v ? <-.
    cbn. split; [split; [exact S1|exact L]|]. repeat split.
  Qed.
  Lemma run_rel t o o' : lrel o o' -> orel (fun x x' => lrel (fst x) (fst x') /\ kept o (fst x) /\ snd x' = snd x) (run_nlopt t o) (run_nlopt t o').
  Proof.
    revert o o'. induction t as [i la g next IH|r]; intros o o' L; cbn [run_nlopt].
    - rewrite (s_n _ _ (proj1 L)). eapply orel_bind; [apply callback_rel; exact L|]. intros [[r v] gr] [[r' v'] gr'] (L1 & K & Ev & Eg). cbn [fst snd] in *. subst.
      eapply orel_impl; [apply IH; exact L1|]. intros x x' (L2 & (J1 & J2 & J3) & E). destruct K as (K1 & K2 & K3). split; [exact L2|]. split; [repeat split; congruence|exact E].
    - cbn. split; [exact L|]. repeat split.
  Qed.
  Definition ready (o o' : Opt R) : Prop := lrel o o' /\ in_place o /\ length (op_lambdas o) = (op_n o + 1)%nat.
  Lemma lrel_lambdas la o o' : srel o o' -> lrel (set_lambdas la o) (set_lambdas la o').
  Proof. intros S. split; [|reflexivity]. destruct S. constructor; cbn; assumption. Qed.
  Lemma lrel_code c o o' : lrel o o' -> lrel (set_code c o) (set_code c o').
  Proof. intros [S L]. split; [|exact L]. destruct S. constructor; cbn; assumption || reflexivity. Qed.
  Lemma tabulate_length n (x : nat -> R) : length (tabulate n x) = n.
  Proof. unfold tabulate. rewrite map_length, seq_length. reflexivity. Qed.
  Variable nlopt : nat -> Opt R -> Nlopt R.
  Hypothesis Hp : by_problem nlopt.
  Lemma attempts_rel fuel k ob o o' : lrel o o' -> in_place o ->
    orel (fun x x' => snd x' = snd x /\ forall v, snd x = Some v -> ready (fst x) (fst x')) (attempts nlopt fuel k ob o) (attempts nlopt fuel k ob o').
  Proof.
    revert k ob o o'. induction fuel as [|fuel IH]; intros k ob o o' L IP; cbn [attempts]; [exact I|]. pose proof (proj1 L) as S.
    rewrite (Hp k o o' (s_n _ _ S) (s_neg _ _ S) (s_pos _ _ S) (proj2 L) (s_isMax _ _ S) (s_isEq _ _ S)).
    eapply orel_bind; [apply run_rel; exact L|]. intros [r q] [r' q'] (L1 & K & E). cbn [fst snd] in *. subst q'. pose proof (in_place_kept _ _ IP K) as IP1. rewrite (s_n _ _ (proj1 L1)).
    assert (G : forall x x' ob, ready x x' ->
      orel (fun x x' => snd x' = snd x /\ forall v, snd x = Some v -> ready (fst x) (fst x'))
        (let! code := init_get (op_code x) in if (code <? 0)%Z then attempts nlopt fuel (Datatypes.S k) ob x else Ok (x, Some ob))
        (let! code := init_get (op_code x') in if (code <? 0)%Z then attempts nlopt fuel (Datatypes.S k) ob x' else Ok (x', Some ob))).
    { intros x x' ob1 (Lx & Ix & Nx). rewrite (s_code _ _ (proj1 Lx)). eapply orel_bind; [apply orel_refl|]. intros code ? <-. destruct (code <? 0)%Z; [apply IH; assumption|].
      cbn. split; [reflexivity|]. intros _ _. split; [exact Lx|]. split; assumption. }
    destruct q as [code x v|e x v].
    - apply G. split; [apply lrel_code, lrel_lambdas, L1|]. split; [exact IP1|]. cbn. apply tabulate_length.
    - pose proof (lrel_lambdas (tabulate (op_n r + 1) x) r r' (proj1 L1)) as L2. destruct e.
      + cbn [set_lambdas op_n op_target]. rewrite (s_n _ _ (proj1 L1)).
        eapply orel_bind with (R := pw (fun i d => wt (op_index r) (Datatypes.S i) * d)).
        * apply orel_for_same; [exact (s_target _ _ (proj1 L1))|]. intros i t t' _ P. eapply orel_bind; [apply (pw_vget _ _ _ i P)|]. intros y y' [-> _].
          eapply pw_vset; [exact P| |reflexivity]. cbn. ring.
        * intros t t' P. apply G. split; [|split; [exact IP1|cbn; apply tabulate_length]]. split; [|reflexivity]. apply srel_target; [exact (proj1 L2)|exact P].
      + apply G. split; [exact L2|]. split; [exact IP1|]. cbn. apply tabulate_length.
      + cbn. split; [reflexivity|]. discriminate.
  Qed.

  (** ** The result *)
  Lemma rescale_rel o o' : ready o o' -> orel (fun x x' => ready (fst x) (fst x') /\ snd x' = snd x) (rescaleDisplacements o) (rescaleDisplacements o').
  Proof.
    intros (L & IP & Nl). pose proof (proj1 L) as S. unfold rescaleDisplacements. rewrite (s_points _ _ S), (s_ps _ _ S), (s_limit _ _ S), (s_disp _ _ S), (s_n _ _ S), (proj2 L).
    eapply orel_bind; [apply (orel_ofold (in_units u) eq); [reflexivity|]|].
    - intros p [[m sc] ds] ? <-. apply orel_refl.
    - intros [[m sc] ds] ? <-. destruct (m =? n0)%num; [cbn; split; [split; [exact L|split; assumption]|reflexivity]|].
      eapply orel_bind; [apply orel_refl|]. intros scale ? <-.
      eapply orel_bind with (R := fun la la' => la' = la /\ length la = (op_n o + 1)%nat).
      + apply orel_for_same; [split; [reflexivity|exact Nl]|]. intros i la ? _ [-> Hl]. eapply orel_bind; [apply orel_refl|]. intros x ? <-. eapply orel_impl; [eapply orel_mine with (Q := fun l => length l = (op_n o + 1)%nat); [apply orel_refl|]|].
        * intros l. unfold vset. destruct (la !! i); [|discriminate]. intros [= <-]. rewrite insert_length. exact Hl.
        * intros a b [<- Hl2]. auto.
      + intros la ? [-> Hl]. pose proof (lrel_lambdas la o o' S) as L1. eapply orel_bind; [apply displacements_rel; exact (proj1 L1)|]. intros r r' (d & Ld & -> & ->).
        cbn. split; [|reflexivity]. split; [split; [exact (srel_disp _ _ d (proj1 L1) Ld)|reflexivity]|]. split; [exact IP|exact Hl].
  Qed.
  Lemma velocities_rel t ds (l : list (BoundaryPoint R)) : length ds = length l ->
    orel (fun r r' => r' = map (fun p => set_bp_velocity (u 0%nat * bp_velocity p) (in_units u p)) r)
      (oupdate (fun d p => Ok (set_velocity t d p)) ds l) (oupdate (fun d p => Ok (set_velocity (t / u 0%nat) d p)) ds (map (in_units u) l)).
  Proof.
    revert l. induction ds as [|d ds IH]; intros [|p l] E; cbn in E; try discriminate; cbn [oupdate map obind]; [reflexivity|].
    eapply orel_bind; [apply IH; lia|]. intros r r' ->. cbn. f_equal. unfold set_velocity. cbn [ndiv NumR]. rewrite units_out. reflexivity.
  Qed.
  Lemma pw_imap_eq {A B} (f : nat -> A -> B) l l' : pw f l l' -> l' = imap f l.
  Proof. intros P. apply list_eq. intros i. rewrite P, list_lookup_imap. reflexivity. Qed.
  Lemma conclude_rel ob o o' : ready o o' -> orel (fun x x' => same_step u (fst x, Some (snd x)) (fst x', Some (snd x'))) (conclude ob o) (conclude ob o').
  Proof.
    intros (L & IP & Nl). unfold conclude. rewrite (proj2 L). eapply orel_bind; [apply displacements_rel; exact (proj1 L)|]. intros q q' (d & Ld & -> & ->).
    eapply orel_bind; [apply rescale_rel; split; [split; [exact (srel_disp _ _ d (proj1 L) Ld)|exact (proj2 L)]|split; [exact IP|exact Nl]]|].
    clear o o' L IP Nl d Ld. intros [o scale] [o' scale'] [(L & IP & Nl) Es]. cbn [fst snd] in *. subst scale'. pose proof (proj1 L) as S.
    eapply orel_bind; [apply orel_refl|]. intros value ? <-. rewrite (s_n _ _ S), (proj2 L).
    eapply orel_bind with (R := fun la la' => pw (fun j x => x / wt (op_index o) j) la la' /\ length la = (op_n o + 1)%nat).
    - eapply orel_impl; [apply (orel_for (fun k la la' => pw (fun j x => if (j <? k)%nat then x / wt (op_index o) j else x) la la' /\ length la = (op_n o + 1)%nat))|].
      + split; [|exact Nl]. intros j. destruct (op_lambdas o !! j); reflexivity.
      + intros k la la' Hk [P Hl]. eapply orel_bind; [apply (pw_vget _ _ _ k P)|]. intros x x' [-> _]. rewrite Nat.ltb_irrefl.
        eapply orel_bind; [apply (pw_vget _ _ _ k (s_scale _ _ S))|]. intros c c' [-> _].
        eapply orel_impl; [eapply orel_mine with (Q := fun l => length l = (op_n o + 1)%nat); [eapply (pw_vset _ (fun j x => if (j <? Datatypes.S k)%nat then x / wt (op_index o) j else x)); [exact P| |]|]|].
        * cbn beta. destruct (Nat.ltb_spec k (Datatypes.S k)); [|lia]. cbn. unfold Rdiv. ring.
        * intros j a Hj. cbn beta. destruct (Nat.ltb_spec j k), (Nat.ltb_spec j (Datatypes.S k)); try reflexivity; lia.
        * intros l. unfold vset. destruct (la !! k); [|discriminate]. intros [= <-]. rewrite insert_length. exact Hl.
        * intros a a' H. exact H.
      + intros la la' [P Hl]. split; [|exact Hl]. eapply pw_impl; [exact P|]. intros i a Hi. apply lookup_lt_Some in Hi. cbn beta. destruct (Nat.ltb_spec i (op_n o + 1)); [reflexivity|lia].
    - intros la la' [P Hl]. cbn [set_lambdas op_lambdas op_points op_disp op_time]. eapply orel_bind; [apply (pw_vget _ _ _ 0 P)|]. intros l0 l0' [-> _].
      assert (W0 : wt (op_index o) 0 = u 0%nat) by (unfold wt; rewrite (s_first _ _ S); reflexivity). rewrite W0.
      cbn [set_lambdas set_time op_time op_points op_disp nabs NumR]. rewrite (s_points _ _ S), (s_ps _ _ S), (s_disp _ _ S), map_length.
      replace (Rabs (l0 / u 0%nat)) with (Rabs l0 / u 0%nat) by (unfold Rdiv; rewrite Rabs_mult, Rabs_inv, (Rabs_pos_eq (u 0%nat)); [reflexivity|]; specialize (Hu 0%nat); lra).
      eapply orel_bind; [apply velocities_rel; rewrite take_length, (s_dlen _ _ S); lia|]. intros vs vs' ->.
      cbn [set_points set_time set_lambdas op_n op_n0]. rewrite (s_n _ _ S), (s_n0 _ _ S).
      eapply orel_bind with (R := fun r r' => op_disp r' = op_disp r /\ op_time r' = op_time r / u 0%nat /\ op_lambdas r' = lambdas_in_units u (op_lambdas r) /\
        op_points r' = map (fun p => set_bp_velocity (u 0%nat * bp_velocity p) (in_units u p)) (op_points r) /\ op_scale r = op_scale o /\ op_scale r' = op_scale o').
      + destruct (Nat.ltb_spec (op_n o) (op_n0 o)) as [Hlt|Hge].
        * destruct (Nat.ltb_spec 0 (op_n o)) as [Hp0|Hz].
          -- replace (op_n o + 1)%nat with (Datatypes.S (op_n o)) by lia. cbn [remap set_lambdas set_points set_time op_index]. rewrite (s_index _ _ S).
             assert (X : vget (op_index o) (Datatypes.S (op_n o)) = UB) by (unfold vget; rewrite lookup_ge_None_2 by (rewrite (s_ilen _ _ S); lia); reflexivity). rewrite X. exact I.
          -- cbn. split; [exact (s_disp _ _ S)|]. split; [reflexivity|]. split; [|repeat split]. apply pw_imap_eq. eapply (pw_resize (fun j x => x / u j)).
             ++ eapply pw_impl; [exact P|]. intros i a Hi. apply lookup_lt_Some in Hi. cbn beta. replace i with 0%nat by lia. rewrite W0. reflexivity.
             ++ reflexivity.
             ++ intros i. cbn. unfold Rdiv. ring.
        * cbn. split; [exact (s_disp _ _ S)|]. split; [reflexivity|]. split; [|repeat split]. apply pw_imap_eq. eapply pw_impl; [exact P|]. intros i a Hi. apply lookup_lt_Some in Hi. cbn beta.
          destruct IP as [I1 I2]. rewrite (I2 ltac:(lia)), wt_seq by lia. reflexivity.
      + intros r r' (E1 & E2 & E3 & E4 & E5 & E6). rewrite E5, E6. eapply orel_bind; [apply (pw_vget _ _ _ 0 (s_scale _ _ S))|]. intros c c' [-> _]. cbn. rewrite W0.
        split; [apply units_out|]. auto.
  Qed.

  Lemma solve_rel fuel (dist lambdas : list R) time time' limit isMax isEq : length lambdas = (N + 1)%nat -> length dist = N ->
    let o0 ps dist lambdas time := mkOpt ps dist lambdas time limit isMax isEq N N (replicate (N + 1) n0) (replicate (N + 1) n0) (replicate (N + 1) n0) dist [] [] [] None in
    orel (same_step u) (solve nlopt fuel (o0 ps dist lambdas time)) (solve nlopt fuel (o0 (map (in_units u) ps) (dist_in_units u dist) (lambdas_in_units u lambdas) time')).
  Proof.
    intros Ll Ld. cbv zeta. unfold solve. eapply orel_bind; [apply prepare_rel; assumption|]. intros o o' [L IP]. eapply orel_bind; [apply attempts_rel; assumption|].
    intros [r v] [r' v'] [E R]. cbn [fst snd] in *. subst v'. destruct v as [ob|]; [|exact I]. eapply orel_bind; [apply conclude_rel, (R ob eq_refl)|]. intros [q w] [q' w'] H. exact H.
  Qed.
End units.

(** ** All of it *)
Lemma max_reaches (l : list (BoundaryPoint R)) k M p s : max_sens l k n0 = Ok M -> p ∈ l -> bp_fixed p = false -> bp_sens p !! k = Some s -> Rabs s <= M.
Proof.
  unfold max_sens. change (n0 : R) with 0. generalize 0 as m. 
  assert (G : forall l m M, ofold (fun m p => if bp_fixed p then Ok m else let! s := vget (bp_sens p) k in Ok (if (nabs s >? m)%num then nabs s else m)) l m = Ok M -> m <= M).
  { intros l'. induction l' as [|q l' IH]; intros m M'; cbn [ofold]; [intros [= ->]; lra|]. destruct (bp_fixed q); cbn [obind]; [apply IH|]. unfold vget. destruct (bp_sens q !! k) as [x|]; cbn [obind]; [|discriminate].
    intros E. apply IH in E. cbn in E. destruct (Rltb_spec m (Rabs x)); lra. }
  induction l as [|q l IH]; intros m E Hin Hf Hs; [apply elem_of_nil in Hin; contradiction|]. cbn [ofold] in E. apply elem_of_cons in Hin as [<-|Hin].
  - rewrite Hf in E. unfold vget in E. rewrite Hs in E. cbn [obind] in E. apply G in E. cbn in E. destruct (Rltb_spec m (Rabs s)); lra.
  - destruct (if bp_fixed q then _ else _) as [m1| | |]; cbn [obind] in E; try discriminate. exact (IH m1 E Hin Hf Hs).
Qed.
Theorem units_do_not_matter u nlopt fuel points (dist lambdas : list R) time time' limit isMax isEq :
  (forall k, 0 < u k) -> (forall k, (k < length lambdas)%nat -> normal_in_both u k points) -> by_problem nlopt ->
  same_outcome (same_step u)
    (let! o := optimise_ctor points dist lambdas time limit isMax isEq in solve nlopt fuel o)
    (let! o := optimise_ctor (map (in_units u) points) (dist_in_units u dist) (lambdas_in_units u lambdas) time' limit isMax isEq in solve nlopt fuel o).
Proof.
  intros Hu Hn Hp. change (@same_outcome (Opt R * option R)) with (@orel (Opt R * option R) (Opt R * option R)). unfold optimise_ctor, dist_in_units, lambdas_in_units. rewrite map_length, !imap_length.
  unfold check. destruct (_ && _)%bool; cbn [obind]; [|exact I]. destruct (negb (length points =? 0)%nat); cbn [obind]; [|exact I]. destruct (Nat.eqb_spec (length lambdas) 0) as [|Nl]; cbn [negb obind]; [exact I|].
  destruct (negb _); cbn [obind]; [|exact I]. destruct (Nat.eqb_spec (length lambdas - 1) (length dist)) as [El|]; cbn [obind]; [|exact I].
  assert (B : forall k, (k < length lambdas - 1 + 1)%nat -> forall M, max_sens points k n0 = Ok M -> nminDouble <= M /\ nminDouble <= u k * M).
  { intros k Hk M EM. destruct (Hn k ltac:(lia)) as (p & s & Hin & Hf & Hs & B1 & B2). pose proof (max_reaches _ _ _ _ _ EM Hin Hf Hs) as Q. rewrite minDouble_real. split; [lra|].
    eapply Rle_trans; [exact B2|]. apply Rmult_le_compat_l; [specialize (Hu k); lra|exact Q]. }
  apply (solve_rel u Hu points (length lambdas - 1) B nlopt Hp fuel dist lambdas time time' limit isMax); lia.
Qed.

Lemma units_case (target : R) : target <= 0 -> let u k := if (k =? 0)%nat then / 1000 else 5 in
  (forall k, 0 < u k) /\ (forall k, (k < 2)%nat -> normal_in_both u k three) /\ by_problem (evaluate mu_r) /\
  exists F, forall fuel, (F <= fuel)%nat -> exists o v, (let! o := optimise_ctor three [target] [1; 1] 0 (1 / 2) false [] in solve (evaluate mu_r) fuel o) = Ok (o, Some v).
Proof.
  intros Ht. cbv zeta. split; [intros k; destruct (k =? 0)%nat; lra|]. split; [|split].
  - intros k Hk. assert (B : / 2 ^ 1022 <= / 1000).
    { apply Rinv_le_contravar; [lra|]. replace 1022%nat with (10 + 1012)%nat by reflexivity. rewrite pow_add. assert (1 <= 2 ^ 1012) by (apply pow_R1_Rle; lra). replace (2 ^ 10) with 1024 by ring. lra. }
    destruct k as [|[|k]]; [| |lia]; [exists (rpoint 1 false [1; 2]), 1|exists (rpoint 1 false [1; 2]), 2];
      (split; [left|]; split; [reflexivity|]; split; [reflexivity|]; rewrite Rabs_pos_eq by lra; cbn [Nat.eqb]; split; lra).
  - intros k o o' _ _ _ _ _ _. reflexivity.
  - destruct (three_solved target Ht) as (o & C & _ & F & HF). exists F. intros fuel Hf. rewrite C. cbn [obind]. exact (HF fuel Hf).
Qed.
