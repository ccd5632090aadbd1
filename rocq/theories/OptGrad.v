(** * OptGrad: the function values and gradients handed to NLopt, and the scale factors, in exact arithmetic. *)

From Coq Require Import Reals Lra.
From Verif Require Import Num NumR LevelSetModel OptModel OptSpec OptFrame OptReal.
Open Scope R_scope.

(** The boundary integral of the product of the sensitivities to two functions, over the points that may move. *)
Definition gram (i k : nat) (points : list (BoundaryPoint R)) : R :=
  fold_right Rplus 0 (map (fun p => if bp_fixed p then 0 else nth i (bp_sens p) 0 * nth k (bp_sens p) 0 * bp_length p) points).

Lemma vget_sens (p : BoundaryPoint R) k (Q : R -> Prop) : Q (nth k (bp_sens p) 0) -> post (vget (bp_sens p) k) Q.
Proof. intros HQ. apply post_vget. intros a Ha. rewrite <- (nth_lookup' _ _ _ Ha). exact HQ. Qed.
Lemma vget_nth (l : list R) k (Q : R -> Prop) : Q (nth k l 0) -> post (vget l k) Q.
Proof. intros HQ. apply post_vget. intros a Ha. rewrite <- (nth_lookup' _ _ _ Ha). exact HQ. Qed.

Section gradients.
  Variables (o : Opt R) (ix : nat).
  Hypothesis Hindex : op_index o = seq 0 (op_n o + 1).

  Let c := fun j => nth j (op_scale o) 0.

  Lemma index_at j k : op_index o !! j = Some k -> k = j /\ (j < op_n o + 1)%nat.
  Proof. rewrite Hindex. intros E. apply lookup_seq in E. cbn in E. lia. Qed.

  Lemma nth_insert (l : list R) i j x : (i < length l)%nat -> nth j (<[i := x]> l) 0 = if decide (j = i) then x else nth j l 0.
  Proof.
    intros Hi. rewrite !nth_lookup. destruct (decide (j = i)) as [->|Hne]; [rewrite list_lookup_insert by exact Hi; reflexivity|].
    rewrite list_lookup_insert_ne by auto. reflexivity.
  Qed.

  Lemma grad_entry_real p j g : post (grad_entry o ix p j g) (fun g' => length g' = length g /\
    forall k, nth k g' 0 = if decide (k = j) then nth k g 0 + nth ix (bp_sens p) 0 * nth j (bp_sens p) 0 * bp_length p * (c ix * c j) else nth k g 0).
  Proof.
    unfold grad_entry. apply post_bind, post_vget. intros k Hk. apply index_at in Hk as [-> Hj].
    apply post_bind, vget_nth. apply post_bind, vget_nth. apply post_bind, post_vget. intros ki Hki. apply index_at in Hki as [-> Hix].
    apply post_bind, vget_sens. apply post_bind, vget_sens. apply post_bind, vget_nth. apply post_vset_ins. intros Hl.
    rewrite insert_length. split; [reflexivity|]. intros k. rewrite nth_insert by exact Hl. destruct (decide (k = j)) as [->|]; reflexivity.
  Qed.

  Lemma grad_point_real p g : post (grad_point o ix g p) (fun g' => length g' = length g /\
    forall k, nth k g' 0 = if decide (k < op_n o + 1)%nat then nth k g 0 + (if bp_fixed p then 0 else nth ix (bp_sens p) 0 * nth k (bp_sens p) 0 * bp_length p) * (c ix * c k) else nth k g 0).
  Proof.
    unfold grad_point. destruct (bp_fixed p).
    - apply post_ok. split; [reflexivity|]. intros k. destruct (decide _); lra.
    - eapply post_impl; [apply (for_post_i (fun j g' => length g' = length g /\ forall k, nth k g' 0 =
        if decide (k < j)%nat then nth k g 0 + nth ix (bp_sens p) 0 * nth k (bp_sens p) 0 * bp_length p * (c ix * c k) else nth k g 0))|].
      + intros j g1 _ [L D]. eapply post_impl; [apply grad_entry_real|]. intros g2 [L2 D2]. split; [congruence|]. intros k. rewrite D2, D.
        destruct (decide (k = j)) as [->|Hne].
        * destruct (decide (j < j)%nat); [lia|]. destruct (decide (j < S j)%nat); [reflexivity|lia].
        * destruct (decide (k < j)%nat), (decide (k < S j)%nat); try lia; reflexivity.
      + split; [reflexivity|]. intros k. destruct (decide (k < 0)%nat); [lia|reflexivity].
      + intros g' [L D]. split; [exact L|]. exact D.
  Qed.

  Lemma grad_points_real ps : forall g, post (ofold (grad_point o ix) ps g) (fun g' => length g' = length g /\ forall k, (k < op_n o + 1)%nat ->
    nth k g' 0 = nth k g 0 + gram ix k ps * (c ix * c k)).
  Proof.
    unfold gram. induction ps as [|p ps IH]; intros g; cbn [ofold map fold_right].
    - apply post_ok. split; [reflexivity|]. intros k _. lra.
    - apply post_bind. eapply post_impl; [apply grad_point_real|]. intros g1 [L1 D1]. eapply post_impl; [apply IH|].
      intros g2 [L2 D2]. split; [congruence|]. intros k Hk. rewrite D2, D1 by exact Hk. destruct (decide _); [lra|lia].
  Qed.

  Lemma gradients_real gradient : post (computeGradients o gradient ix) (fun g => length g = length gradient /\
    forall k, (k < op_n o + 1)%nat -> nth k g 0 = gram ix k (op_points o) * (c ix * c k)).
  Proof.
    unfold computeGradients. apply post_bind.
    eapply post_impl; [apply (for_post_i (fun j g => length g = length gradient /\ forall k, (k < j)%nat -> nth k g 0 = 0))|].
    - intros j g _ [L D]. apply post_vset_ins. intros Hj. rewrite insert_length. split; [exact L|]. intros k Hk. rewrite nth_insert by exact Hj.
      destruct (decide (k = j)); [reflexivity|]. apply D. lia.
    - split; [reflexivity|]. intros k Hk. lia.
    - intros g [L D]. eapply post_impl; [apply grad_points_real|]. intros g' [L' D']. split; [congruence|]. intros k Hk.
      rewrite D', D by exact Hk. unfold gram. lra.
  Qed.
End gradients.

(** ** Scale factors *)

Lemma fold_pos (l : list R) : (forall x, x ∈ l -> 0 <= x) -> 0 <= fold_right Rplus 0 l.
Proof. induction l as [|x l IH]; intros Hl; cbn; [lra|]. assert (0 <= x) by (apply Hl; left). assert (0 <= fold_right Rplus 0 l) by (apply IH; intros y Hy; apply Hl; right; exact Hy). lra. Qed.
Lemma fold_pos_strict (l : list R) x : (forall x, x ∈ l -> 0 <= x) -> x ∈ l -> 0 < x -> 0 < fold_right Rplus 0 l.
Proof.
  induction l as [|y l IH]; intros Hl Hx Hp; [inversion Hx|]. cbn. assert (0 <= y) by (apply Hl; left).
  assert (P : forall z, z ∈ l -> 0 <= z) by (intros z Hz; apply Hl; right; exact Hz). pose proof (fold_pos l P).
  apply elem_of_cons in Hx as [->|Hx]; [lra|]. specialize (IH P Hx Hp). lra.
Qed.
Lemma sq_pos x : x <> 0 -> 0 < x * x.
Proof. intros Hx. destruct (Rdichotomy _ _ Hx); [replace (x * x) with (- x * - x) by ring|]; apply Rmult_lt_0_compat; lra. Qed.

Lemma gram_pos k points : sensitive k points -> 0 < gram k k points.
Proof.
  intros [(p & Hp & Hf & Hs & Hl) Hn]. unfold gram.
  apply fold_pos_strict with (x := nth k (bp_sens p) 0 * nth k (bp_sens p) 0 * bp_length p).
  - intros x Hx. apply elem_of_list_fmap in Hx as (q & -> & Hq). destruct (bp_fixed q) eqn:F; [lra|].
    apply Rmult_le_pos; [apply Rle_0_sqr|apply Hn; assumption].
  - apply elem_of_list_fmap. exists p. rewrite Hf. auto.
  - apply Rmult_lt_0_compat; [apply sq_pos, Hs|exact Hl].
Qed.

Lemma max_sens_real points k : forall init, post (max_sens points k init) (fun m => init <= m /\
  (forall p, p ∈ points -> bp_fixed p = false -> Rabs (nth k (bp_sens p) 0) <= m) /\
  (m = init \/ exists p, p ∈ points /\ bp_fixed p = false /\ m = Rabs (nth k (bp_sens p) 0))).
Proof.
  unfold max_sens. induction points as [|p points IH]; intros init; cbn [ofold].
  - apply post_ok. split; [lra|]. split; [intros p Hp; inversion Hp|auto].
  - apply post_bind. destruct (bp_fixed p) eqn:Hf.
    + apply post_ok. eapply post_impl; [apply IH|]. intros m (A & B & C). split; [exact A|]. split.
      * intros q Hq Fq. apply elem_of_cons in Hq as [->|Hq]; [congruence|]. exact (B q Hq Fq).
      * destruct C as [C|(q & Q1 & Q2)]; [auto|]. right. exists q. split; [right; exact Q1|exact Q2].
    + apply post_bind, vget_sens. apply post_ok. cbn [nltb nabs NumR]. set (s := Rabs (nth k (bp_sens p) 0)).
      eapply post_impl; [apply IH|]. intros m (A & B & C). destruct (Rltb_spec init s) as [L|L].
      * split; [lra|]. split.
        -- intros q Hq Fq. apply elem_of_cons in Hq as [->|Hq]; [exact A|]. exact (B q Hq Fq).
        -- right. destruct C as [C|(q & Q1 & Q2)]; [exists p; split; [left|]; auto|]. exists q. split; [right; exact Q1|exact Q2].
      * split; [exact A|]. split.
        -- intros q Hq Fq. apply elem_of_cons in Hq as [->|Hq]; [fold s; lra|]. exact (B q Hq Fq).
        -- destruct C as [C|(q & Q1 & Q2)]; [auto|]. right. exists q. split; [right; exact Q1|exact Q2].
Qed.

Lemma max_sens_pos points k : sensitive k points -> post (max_sens points k 0) (fun m => 0 < m).
Proof.
  intros [(p & Hp & Hf & Hs & _) _]. eapply post_impl; [apply max_sens_real|]. intros m (_ & B & _).
  specialize (B p Hp Hf). pose proof (Rabs_pos_lt _ Hs). lra.
Qed.

Lemma scale_real o0 o : good o0 o -> op_index o = seq 0 (op_n o + 1) -> (forall k, (k < op_n o + 1)%nat -> sensitive k (op_points o0)) ->
  post (computeScaleFactors o) (fun o' => good o0 o' /\ o' = set_scale (op_scale o') o /\ forall k, (k < op_n o + 1)%nat -> 0 < nth k (op_scale o') 0).
Proof.
  intros G I S. unfold computeScaleFactors. apply post_bind.
  eapply post_impl; [apply (for_post_i (fun j o' => good o0 o' /\ o' = set_scale (op_scale o') o /\ forall k, (k < j)%nat -> 0 < nth k (op_scale o') 0))|].
  - intros j o' Hj (G' & E & P). unfold scale_sens. apply post_bind. rewrite (g_points _ _ G').
    eapply post_impl; [apply max_sens_pos, S, Hj|]. intros m Hm. apply post_bind, post_vset_ins. intros Hl. apply post_ok.
    split; [apply good_scale; [exact G'|rewrite insert_length; apply G']|]. split; [rewrite E; reflexivity|].
    intros k Hk. cbn [op_scale set_scale]. rewrite nth_insert by exact Hl. destruct (decide (k = j)); [|apply P; lia].
    cbn. apply Rdiv_lt_0_compat; lra.
  - split; [exact G|]. split; [destruct o; reflexivity|]. intros k Hk. lia.
  - intros o1 (G1 & E1 & P1). apply post_bind.
    assert (En : op_n o1 = op_n o) by (rewrite E1; reflexivity). rewrite En.
    eapply post_impl; [apply (for_post_i (fun j s => good o0 (fst s) /\ fst s = set_scale (op_scale (fst s)) o /\ forall k, (k < op_n o + 1)%nat -> 0 < nth k (op_scale (fst s)) 0))|].
    + intros j [o' gr] Hj (G' & E & P). cbn [fst] in *. unfold scale_grad. apply post_bind.
      assert (En' : op_n o' = op_n o) by (rewrite E; reflexivity).
      eapply post_impl; [apply (gradients_real o' j)|].
      { rewrite E. exact I. }
      intros g [L D]. specialize (D j). rewrite En' in D. specialize (D Hj). rewrite (g_points _ _ G') in D.
      apply post_bind, vget_nth. apply post_bind, vget_nth. apply post_bind, post_vset_ins. intros Hl. apply post_ok. cbn [fst].
      split; [apply good_scale; [exact G'|rewrite insert_length; apply G']|]. split; [rewrite E; reflexivity|].
      intros k Hk. cbn [op_scale set_scale]. rewrite nth_insert by exact Hl. destruct (decide (k = j)) as [->|]; [|apply P; exact Hk].
      cbn. apply Rmult_lt_0_compat; [apply P, Hk|]. apply Rdiv_lt_0_compat; [lra|]. apply Rabs_pos_lt. rewrite D.
      assert (0 < gram j j (op_points o0)) by (apply gram_pos, S, Hk). assert (0 < nth j (op_scale o') 0) by (apply P, Hk).
      apply Rgt_not_eq. apply Rmult_lt_0_compat; [assumption|]. apply Rmult_lt_0_compat; assumption.
    + cbn [fst]. auto.
    + intros [o' gr] (G' & E & P). cbn [fst] in *. apply post_ok. auto.
Qed.

(** ** Function values *)
Definition free_moved (o : Opt R) (la : list R) : Prop := forall i p, op_points o !! i = Some p -> bp_fixed p = false ->
  op_disp o !! i = Some (clamp p (lin o la p)).

Lemma displacements_free o la : op_index o !! 0%nat = Some 0%nat -> post (computeDisplacements la o) (fun o' => o' = set_disp (op_disp o') o /\ free_moved o' la).
Proof.
  intros Z. unfold computeDisplacements. apply post_bind. intros d E. apply post_ok. split; [reflexivity|]. intros i p Hp Hf. cbn in Hp.
  destruct (oupdate_post _ _ _ _ E) as (_ & _ & D & _). destruct (D i p Hp) as (b & x & _ & Hx & F).
  apply (disp_real _ _ _ _ Hf Z) in F. cbn. rewrite Hx, F. reflexivity.
Qed.

Lemma fun_sum o c j (D : BoundaryPoint R -> R) ps : forall f i,
  (forall k p, ps !! k = Some p -> bp_fixed p = false -> op_disp o !! (i + k)%nat = Some (D p)) ->
  post (ofold (fun_step o c j) ps (f, i)) (fun r => fst r = f + c * integral j ps (fun p => if bp_fixed p then 0 else D p)).
Proof.
  unfold integral. induction ps as [|p ps IH]; intros f i Hd; cbn [ofold map fold_right].
  - apply post_ok. cbn. lra.
  - assert (Hd' : forall k q, ps !! k = Some q -> bp_fixed q = false -> op_disp o !! (S i + k)%nat = Some (D q)).
    { intros k q Hq. replace (S i + k)%nat with (i + S k)%nat by lia. apply Hd. exact Hq. }
    pose proof (Hd 0%nat p eq_refl) as H0. rewrite Nat.add_0_r in H0. apply post_bind. unfold fun_step at 1. destruct (bp_fixed p) eqn:Hf.
    + apply post_ok. eapply post_impl; [apply IH, Hd'|]. intros r ->. lra.
    + apply post_bind, post_vget. intros d Hdd. rewrite (H0 eq_refl) in Hdd. injection Hdd as <-.
      apply post_bind, vget_sens. apply post_ok. eapply post_impl; [apply IH, Hd'|]. intros r ->. cbn. lra.
Qed.

Lemma function_real o la ix : free_moved o la -> op_index o = seq 0 (op_n o + 1) ->
  post (computeFunction o ix) (fun f => (ix < op_n o + 1)%nat /\ f = nth ix (op_scale o) 0 * integral ix (op_points o) (fun p => if bp_fixed p then 0 else clamp p (lin o la p))
    - (if (ix =? 0)%nat then 0 else nth ix (op_scale o) 0 * nth (ix - 1) (op_target o) 0)).
Proof.
  intros M I. unfold computeFunction. apply post_bind, post_vget. intros j Hj. apply (index_at o I) in Hj as [-> Hj].
  apply post_bind, vget_nth. apply post_bind.
  eapply post_impl; [apply (fun_sum o _ ix (fun p => clamp p (lin o la p)))|].
  { intros k p Hp. cbn [Nat.add]. apply M, Hp. }
  intros [f i] Hf. cbn [fst] in Hf. destruct (Nat.eqb_spec ix 0).
  - apply post_ok. split; [exact Hj|]. rewrite Hf. cbn. lra.
  - apply post_bind, vget_nth. apply post_ok. split; [exact Hj|]. rewrite Hf. cbn. lra.
Qed.

Lemma lin_ext o o' la p : op_scale o' = op_scale o -> op_index o' = op_index o -> op_n o' = op_n o -> lin o' la p = lin o la p.
Proof. unfold lin. intros -> -> ->. reflexivity. Qed.

(** A call of the callback. *)
Lemma callback_real o la g ix : op_index o = seq 0 (op_n o + 1) ->
  post (opt_callback o la g ix) (fun r => let '(o', f, gr) := r in (ix < op_n o + 1)%nat /\ o' = set_disp (op_disp o') o /\
    gr = (if g then nth ix (op_grads o) [] else []) /\
    f = nth ix (op_scale o) 0 * integral ix (op_points o) (fun p => if bp_fixed p then 0 else clamp p (lin o la p))
    - (if (ix =? 0)%nat then 0 else nth ix (op_scale o) 0 * nth (ix - 1) (op_target o) 0)).
Proof.
  intros I. unfold opt_callback. apply post_bind. eapply post_impl; [apply displacements_free|].
  { rewrite I, Nat.add_comm. reflexivity. }
  intros o1 [E1 M1]. apply post_bind. intros gr Hgr. apply post_bind.
  assert (I1 : op_index o1 = seq 0 (op_n o1 + 1)) by (rewrite E1; exact I).
  eapply post_impl; [apply (function_real o1 la ix M1 I1)|]. intros f [Hix Hf]. apply post_ok.
  assert (Ep : op_points o1 = op_points o) by (rewrite E1; reflexivity). assert (Es : op_scale o1 = op_scale o) by (rewrite E1; reflexivity).
  assert (Et : op_target o1 = op_target o) by (rewrite E1; reflexivity). assert (En : op_n o1 = op_n o) by (rewrite E1; reflexivity).
  assert (Ei : op_index o1 = op_index o) by (rewrite E1; reflexivity). assert (Eg : op_grads o1 = op_grads o) by (rewrite E1; reflexivity).
  split; [rewrite En in Hix; exact Hix|]. split; [exact E1|]. split.
  - destruct g; [|injection Hgr as <-; reflexivity]. rewrite Eg in Hgr. unfold vget in Hgr. destruct (op_grads o !! ix) as [x|] eqn:F; [|discriminate].
    injection Hgr as <-. symmetry. apply nth_lookup_Some with (d := []) in F. exact F.
  - rewrite Hf, Ep, Es, Et. f_equal. f_equal. unfold integral. f_equal. apply map_ext. intros p. destruct (bp_fixed p); [reflexivity|].
    rewrite (lin_ext o o1) by assumption. reflexivity.
Qed.

(** Without side limits the boundary integral is linear in the multipliers. *)
Lemma integral_linear o la ix ps : (forall p, p ∈ ps -> bp_fixed p = false -> bp_domain p = false) -> op_index o = seq 0 (op_n o + 1) ->
  integral ix ps (fun p => if bp_fixed p then 0 else clamp p (lin o la p)) =
  rsum (fun k => gram ix k ps * nth k (op_scale o) 0 * nth k la 0) (op_n o + 1).
Proof.
  intros Nd I. unfold integral, gram. induction ps as [|p ps IH]; cbn [map fold_right].
  - symmetry. apply rsum_zero. intros j _. lra.
  - rewrite IH by (intros q Hq; apply Nd; right; exact Hq). clear IH.
    assert (A : nth ix (bp_sens p) 0 * (if bp_fixed p then 0 else clamp p (lin o la p)) * bp_length p =
      rsum (fun k => (if bp_fixed p then 0 else nth ix (bp_sens p) 0 * nth k (bp_sens p) 0 * bp_length p) * nth k (op_scale o) 0 * nth k la 0) (op_n o + 1)).
    { destruct (bp_fixed p) eqn:Hf; [rewrite rsum_zero; [lra|intros; lra]|]. unfold clamp. rewrite (Nd p ltac:(left) Hf). unfold lin.
      replace (nth ix (bp_sens p) 0 * _ * bp_length p) with ((nth ix (bp_sens p) 0 * bp_length p) *
        rsum (fun j => nth j (op_scale o) 0 * nth j la 0 * nth (nth j (op_index o) 0%nat) (bp_sens p) 0) (op_n o + 1)) by ring.
      rewrite <- rsum_scal. apply rsum_ext. intros j Hj. rewrite I, seq_nth by lia. cbn [Nat.add]. ring. }
    rewrite A. clear A I. induction (op_n o + 1)%nat as [|m IHm]; [unfold rsum; cbn; lra|]. rewrite !rsum_S, <- IHm. ring.
Qed.

(** The stored gradients. *)
Definition grads_ok (o : Opt R) : Prop := length (op_grads o) = (op_n o + 1)%nat /\ forall ix, (ix < op_n o + 1)%nat ->
  length (nth ix (op_grads o) []) = (op_n o + 1)%nat /\
  forall k, (k < op_n o + 1)%nat -> nth k (nth ix (op_grads o) []) 0 = gram ix k (op_points o) * (nth ix (op_scale o) 0 * nth k (op_scale o) 0).

Lemma store_real o : op_index o = seq 0 (op_n o + 1) -> length (op_grads o) = (op_n o + 1)%nat ->
  post (for_ (op_n o + 1) store_gradient o) (fun o' => o' = set_grads (op_grads o') o /\ grads_ok o').
Proof.
  intros I L. eapply post_impl; [apply (for_post_i (fun j o' => o' = set_grads (op_grads o') o /\ length (op_grads o') = (op_n o + 1)%nat /\
    forall ix, (ix < j)%nat -> length (nth ix (op_grads o') []) = (op_n o + 1)%nat /\
      forall k, (k < op_n o + 1)%nat -> nth k (nth ix (op_grads o') []) 0 = gram ix k (op_points o) * (nth ix (op_scale o) 0 * nth k (op_scale o) 0)))|].
  - intros j o' Hj (E & L' & D). unfold store_gradient.
    assert (En : op_n o' = op_n o) by (rewrite E; reflexivity). assert (Es : op_scale o' = op_scale o) by (rewrite E; reflexivity).
    assert (Ep : op_points o' = op_points o) by (rewrite E; reflexivity).
    apply post_bind. eapply post_impl; [apply (gradients_real o' j); rewrite E; exact I|]. intros g [Lg Dg]. rewrite replicate_length, En in Lg. rewrite En, Es, Ep in Dg.
    apply post_bind, post_vset_ins. intros Hl. apply post_ok. cbn [op_grads set_grads]. split; [rewrite E; reflexivity|].
    rewrite insert_length. split; [exact L'|]. intros ix Hix.
    assert (Q : nth ix (<[j := g]> (op_grads o')) [] = if decide (ix = j) then g else nth ix (op_grads o') []).
    { rewrite !nth_lookup. destruct (decide (ix = j)) as [->|Hne]; [rewrite list_lookup_insert by exact Hl; reflexivity|]. rewrite list_lookup_insert_ne by auto. reflexivity. }
    rewrite Q. destruct (decide (ix = j)) as [->|Hne]; [auto|]. apply D. lia.
  - split; [destruct o; reflexivity|]. split; [exact L|]. intros ix Hix. lia.
  - intros o' (E & L' & D). split; [exact E|]. unfold grads_ok. replace (op_n o') with (op_n o) by (rewrite E; reflexivity).
    replace (op_points o') with (op_points o) by (rewrite E; reflexivity). replace (op_scale o') with (op_scale o) by (rewrite E; reflexivity). auto.
Qed.

(** The value is the gradient times the multipliers, minus a constant. *)
Lemma callback_linear o la ix : op_index o = seq 0 (op_n o + 1) -> grads_ok o -> length la = (op_n o + 1)%nat ->
  (forall p, p ∈ op_points o -> bp_fixed p = false -> bp_domain p = false) ->
  post (opt_callback o la true ix) (fun r => let '(_, f, gr) := r in length gr = length la /\
    f = dot gr la - (if (ix =? 0)%nat then 0 else nth ix (op_scale o) 0 * nth (ix - 1) (op_target o) 0)).
Proof.
  intros I [Lg Dg] La Nd. eapply post_impl; [apply callback_real, I|]. intros [[o' f] gr] (Hix & _ & -> & ->).
  destruct (Dg ix Hix) as [L D]. split; [congruence|]. f_equal. rewrite (integral_linear o la ix _ Nd I), (dot_rsum _ _ (op_n o + 1)) by lia.
  rewrite <- rsum_scal. apply rsum_ext. intros j Hj. rewrite D by exact Hj. ring.
Qed.
