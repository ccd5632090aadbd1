(** * OptConstr: which constraints computeConstraintDistances removes and which targets it sets, in exact arithmetic. *)

From Coq Require Import Reals Lra Sorting.Permutation.
From Verif Require Import Num NumR LevelSetModel OptModel OptSpec OptFrame OptReal OptGrad OptSolve.
Open Scope R_scope.

Definition lsum (f : nat -> R) (l : list nat) : R := fold_right Rplus 0 (map f l).
Lemma lsum_ext f g l : (forall j, j ∈ l -> f j = g j) -> lsum f l = lsum g l.
Proof. unfold lsum. induction l as [|x l IH]; intros E; cbn; [reflexivity|]. rewrite (E x), IH by (auto using elem_of_list_here, elem_of_list_further). reflexivity. Qed.
Lemma lsum_app f l l' : lsum f (l ++ l') = lsum f l + lsum f l'.
Proof. unfold lsum. rewrite map_app, fold_app. reflexivity. Qed.
Lemma lsum_sub f l l' : (forall j, 0 <= f j) -> l ⊆+ l' -> lsum f l <= lsum f l'.
Proof.
  intros P S. induction S; unfold lsum in *; cbn in *; try lra. specialize (P x). lra.
Qed.
Lemma lsum_incl f l l' : (forall j, 0 <= f j) -> NoDup l -> (forall j, j ∈ l -> j ∈ l') -> lsum f l <= lsum f l'.
Proof. intros P N I. apply lsum_sub; [exact P|]. apply NoDup_submseteq; [exact N|exact I]. Qed.

(** The largest change, as a formula. *)
Definition reach (limit : R) (points : list (BoundaryPoint R)) (keep : list nat) (k : nat) : R :=
  lsum (fun j => lambda_range limit points j * Rabs (gram k j points)) keep.

Lemma tiny_pos : 0 < / 2 ^ 1022.
Proof. apply Rinv_0_lt_compat, pow_lt. lra. Qed.
Lemma range_pos limit points k : 0 < limit -> 0 < lambda_range limit points k.
Proof. intros Hl. apply Rdiv_lt_0_compat; [exact Hl|]. eapply Rlt_le_trans; [apply tiny_pos|apply Rmax_l]. Qed.

Lemma integral_combined k points keep mu : integral k points (combined keep mu) = lsum (fun j => mu j * gram k j points) keep.
Proof.
  unfold integral, combined, gram, lsum. induction points as [|p ps IH]; cbn [map fold_right].
  - induction keep as [|j l IHl]; cbn; [reflexivity|]. rewrite <- IHl. lra.
  - rewrite IH. clear IH. induction keep as [|j l IHl]; cbn [map fold_right].
    + destruct (bp_fixed p); lra.
    + rewrite <- IHl. destruct (bp_fixed p); lra.
Qed.

Lemma reach_largest limit points keep k : 0 < limit -> largest_change limit points keep k (reach limit points keep k).
Proof.
  intros Hl. split.
  - intros mu B. rewrite integral_combined. unfold reach, lsum. induction keep as [|j l IH]; cbn [map fold_right]; [lra|].
    specialize (IH (fun i Hi => B i (elem_of_list_further _ _ _ Hi))). specialize (B j (elem_of_list_here _ _)).
    assert (mu j * gram k j points <= lambda_range limit points j * Rabs (gram k j points)); [|lra].
    eapply Rle_trans; [apply Rle_abs|]. rewrite Rabs_mult. apply Rmult_le_compat_r; [apply Rabs_pos|exact B].
  - exists (fun j => if Rle_dec 0 (gram k j points) then lambda_range limit points j else - lambda_range limit points j). split.
    + intros j _. pose proof (range_pos limit points j Hl). destruct (Rle_dec _ _); [rewrite Rabs_right by lra; lra|rewrite Rabs_left by lra; lra].
    + rewrite integral_combined. apply lsum_ext. intros j _. unfold Rabs. destruct (Rle_dec _ _), (Rcase_abs _); lra.
Qed.
Lemma largest_unique limit points keep k m : 0 < limit -> largest_change limit points keep k m -> m = reach limit points keep k.
Proof.
  intros Hl [A (mu & B & <-)]. destruct (reach_largest limit points keep k Hl) as [A' (mu' & B' & E')].
  apply Rle_antisym; [apply A', B|]. rewrite <- E'. apply A. exact B'.
Qed.
Lemma reach_pos limit points keep k : 0 < limit -> 0 <= reach limit points keep k.
Proof.
  intros Hl. unfold reach, lsum. apply fold_pos. intros x Hx. apply elem_of_list_fmap in Hx as (j & -> & _).
  apply Rmult_le_pos; [apply Rlt_le, range_pos, Hl|apply Rabs_pos].
Qed.
Lemma reach_incl limit points keep keep' k : 0 < limit -> NoDup keep -> (forall j, j ∈ keep -> j ∈ keep') -> reach limit points keep k <= reach limit points keep' k.
Proof.
  intros Hl N I. apply lsum_incl; auto. intros j. apply Rmult_le_pos; [apply Rlt_le, range_pos, Hl|apply Rabs_pos].
Qed.

(** ** The vertices of the box *)
Lemma odd_even (v : nat) : exists w (b : bool), v = (2 * w + (if b then 1 else 0))%nat.
Proof.
  destruct (Nat.Even_or_Odd v) as [[w ->]|[w ->]]; [exists w, false; lia|exists w, true; lia].
Qed.
Lemma bit_0 w (b : bool) : Nat.testbit (2 * w + (if b then 1 else 0)) 0 = b.
Proof. destruct b; [apply Nat.testbit_odd_0|rewrite Nat.add_0_r; apply Nat.testbit_even_0]. Qed.
Lemma bit_S w (b : bool) j : Nat.testbit (2 * w + (if b then 1 else 0)) (S j) = Nat.testbit w j.
Proof. destruct b; [apply Nat.testbit_odd_succ; lia|rewrite Nat.add_0_r; apply Nat.testbit_even_succ; lia]. Qed.

Lemma signs n : forall (b : nat -> bool), exists v, (v < 2 ^ n)%nat /\ forall j, (j < n)%nat -> Nat.testbit v j = b j.
Proof.
  induction n as [|n IH]; intros b.
  - exists 0%nat. split; [cbn; lia|]. intros j Hj. lia.
  - destruct (IH (fun j => b (S j))) as (w & Hw & Bw). exists (2 * w + (if b 0%nat then 1 else 0))%nat. split.
    + cbn [Nat.pow]. destruct (b 0%nat); lia.
    + intros [|j] Hj; [apply bit_0|]. rewrite bit_S. apply Bw. lia.
Qed.

Definition signed (x : nat -> R) (v n : nat) : R := rsum (fun j => if Nat.testbit v j then x j else - x j) n.
Lemma rsum_le f g n : (forall j, (j < n)%nat -> f j <= g j) -> rsum f n <= rsum g n.
Proof. induction n as [|n IH]; intros E; [rewrite !rsum_0; lra|]. rewrite !rsum_S. assert (rsum f n <= rsum g n) by (apply IH; auto). specialize (E n ltac:(lia)). lra. Qed.
Lemma rsum_opp f n : rsum (fun j => - f j) n = - rsum f n.
Proof. induction n as [|n IH]; [unfold rsum; cbn; lra|]. rewrite !rsum_S, IH. lra. Qed.
Lemma signed_bounds x v n : - rsum (fun j => Rabs (x j)) n <= signed x v n <= rsum (fun j => Rabs (x j)) n.
Proof.
  unfold signed. split; [rewrite <- rsum_opp|]; apply rsum_le; intros j _; destruct (Nat.testbit v j); unfold Rabs; destruct (Rcase_abs _); lra.
Qed.
Lemma signed_max x n : exists v, (v < 2 ^ n)%nat /\ signed x v n = rsum (fun j => Rabs (x j)) n.
Proof.
  destruct (signs n (fun j => if Rle_dec 0 (x j) then true else false)) as (v & Hv & B). exists v. split; [exact Hv|].
  apply rsum_ext. intros j Hj. rewrite B by exact Hj. unfold Rabs. destruct (Rle_dec _ _), (Rcase_abs _); lra.
Qed.
Lemma signed_min x n : exists v, (v < 2 ^ n)%nat /\ signed x v n = - rsum (fun j => Rabs (x j)) n.
Proof.
  destruct (signs n (fun j => if Rle_dec 0 (x j) then false else true)) as (v & Hv & B). exists v. split; [exact Hv|].
  rewrite <- rsum_opp. apply rsum_ext. intros j Hj. rewrite B by exact Hj. unfold Rabs. destruct (Rle_dec _ _), (Rcase_abs _); lra.
Qed.

(** ** Sorting *)
Definition ascending (l : list R) : Prop := forall i j x y, (i <= j)%nat -> l !! i = Some x -> l !! j = Some y -> x <= y.
Lemma ascending_cons x l : ascending (x :: l) <-> (forall y, y ∈ l -> x <= y) /\ ascending l.
Proof.
  split.
  - intros A. split.
    + intros y Hy. apply elem_of_list_lookup in Hy as [i Hi]. apply (A 0%nat (S i)); [lia|reflexivity|exact Hi].
    + intros i j a b Hij Ha Hb. apply (A (S i) (S j)); [lia|exact Ha|exact Hb].
  - intros [A B] [|i] [|j] a b Hij Ha Hb; cbn in *; try lia.
    + injection Ha as <-. injection Hb as <-. lra.
    + injection Ha as <-. apply A. eapply elem_of_list_lookup_2, Hb.
    + apply (B i j); auto. lia.
Qed.
Lemma ninsert_perm (x : R) l : ninsert x l ≡ₚ x :: l.
Proof. induction l as [|y l IH]; cbn [ninsert]; [reflexivity|]. destruct (x <? y)%num; [reflexivity|]. rewrite IH. apply Permutation_swap. Qed.
Lemma ninsert_ascending (x : R) l : ascending l -> ascending (ninsert x l).
Proof.
  induction l as [|y l IH]; intros A; cbn [ninsert].
  - apply ascending_cons. split; [|exact A]. intros y Hy. inversion Hy.
  - pose proof A as A0. apply ascending_cons in A as [A1 A2]. cbn [nltb NumR]. destruct (Rltb_spec x y) as [L|L].
    + apply ascending_cons. split; [|exact A0]. intros z Hz. apply elem_of_cons in Hz as [->|Hz]; [lra|]. specialize (A1 z Hz). lra.
    + apply ascending_cons. split; [|apply IH, A2]. intros z Hz. rewrite ninsert_perm in Hz. apply elem_of_cons in Hz as [->|Hz]; [lra|]. apply A1, Hz.
Qed.
Lemma nsort_spec (l : list R) : nsort l ≡ₚ l /\ ascending (nsort l).
Proof.
  unfold nsort. assert (G : forall l s, ascending s -> foldl (fun s x => ninsert x s) s l ≡ₚ s ++ l /\ ascending (foldl (fun s x => ninsert x s) s l)).
  { clear l. induction l as [|x l IH]; intros s A; cbn [foldl]; [rewrite app_nil_r; auto|].
    destruct (IH _ (ninsert_ascending x s A)) as [P Q]. split; [|exact Q]. rewrite P, ninsert_perm. cbn. rewrite Permutation_middle. reflexivity. }
  destruct (G l []) as [P Q]; [|auto]. intros i j x y _ E. discriminate.
Qed.
Lemma nsort_first (l : list R) x m : nsort l !! 0%nat = Some x -> m ∈ l -> (forall y, y ∈ l -> m <= y) -> x = m.
Proof.
  intros E Hm Hmin. destruct (nsort_spec l) as [P A]. apply Rle_antisym.
  - rewrite <- P in Hm. apply elem_of_list_lookup in Hm as [i Hi]. apply (A 0%nat i); [lia|exact E|exact Hi].
  - apply Hmin. rewrite <- P. eapply elem_of_list_lookup_2, E.
Qed.
Lemma nsort_last (l : list R) x m : nsort l !! (length (nsort l) - 1)%nat = Some x -> m ∈ l -> (forall y, y ∈ l -> y <= m) -> x = m.
Proof.
  intros E Hm Hmax. destruct (nsort_spec l) as [P A]. apply Rle_antisym.
  - apply Hmax. rewrite <- P. eapply elem_of_list_lookup_2, E.
  - rewrite <- P in Hm. apply elem_of_list_lookup in Hm as [i Hi]. apply (A i (length (nsort l) - 1)%nat); [|exact Hi|exact E].
    apply lookup_lt_Some in Hi. lia.
Qed.

(** ** One constraint *)
Lemma rsum_nth (f : nat -> R) l : rsum (fun j => f (nth j l 0%nat)) (length l) = lsum f l.
Proof.
  induction l as [|x l IH]; [reflexivity|]. cbn [length]. rewrite rsum_shift. unfold lsum in *. cbn [map fold_right nth]. rewrite <- IH. reflexivity.
Qed.

Lemma change_linear o la k ps : (forall p, p ∈ ps -> bp_fixed p = false -> bp_domain p = false) ->
  integral k ps (fun p => if bp_fixed p then 0 else clamp p (lin o la p)) =
  rsum (fun j => gram k (nth j (op_index o) 0%nat) ps * (nth j (op_scale o) 0 * nth j la 0)) (op_n o + 1).
Proof.
  intros Nd. unfold integral, gram. induction ps as [|p ps IH]; cbn [map fold_right].
  - symmetry. apply rsum_zero. intros j _. lra.
  - rewrite IH by (intros q Hq; apply Nd; right; exact Hq). clear IH.
    assert (A : nth k (bp_sens p) 0 * (if bp_fixed p then 0 else clamp p (lin o la p)) * bp_length p =
      rsum (fun j => (if bp_fixed p then 0 else nth k (bp_sens p) 0 * nth (nth j (op_index o) 0%nat) (bp_sens p) 0 * bp_length p) * (nth j (op_scale o) 0 * nth j la 0)) (op_n o + 1)).
    { destruct (bp_fixed p) eqn:Hf; [rewrite rsum_zero; [lra|intros; lra]|]. unfold clamp. rewrite (Nd p ltac:(left) Hf). unfold lin.
      replace (nth k (bp_sens p) 0 * _ * bp_length p) with ((nth k (bp_sens p) 0 * bp_length p) *
        rsum (fun j => nth j (op_scale o) 0 * nth j la 0 * nth (nth j (op_index o) 0%nat) (bp_sens p) 0) (op_n o + 1)) by ring.
      rewrite <- rsum_scal. apply rsum_ext. intros j Hj. ring. }
    rewrite A. clear A. induction (op_n o + 1)%nat as [|m IHm]; [unfold rsum; cbn; lra|]. rewrite !rsum_S, <- IHm. ring.
Qed.

Lemma vertex_real (o : Opt R) v n : forall k, post (vertex_lambda o v k n) (fun la => length la = n /\ forall j, (j < n)%nat ->
  nth j la 0 = if Nat.testbit v (k + j) then nth (k + j) (op_pos o) 0 else nth (k + j) (op_neg o) 0).
Proof.
  induction n as [|n IH]; intros k; cbn [vertex_lambda].
  - apply post_ok. split; [reflexivity|]. intros j Hj. lia.
  - apply post_bind. eapply (post_impl _ (fun l => l = if Nat.testbit v k then nth k (op_pos o) 0 else nth k (op_neg o) 0)).
    { destruct (Nat.testbit v k); apply vget_nth; reflexivity. }
    intros l ->. apply post_bind. eapply post_impl; [apply IH|]. intros r [L D]. apply post_ok. cbn [length]. split; [lia|].
    intros [|j] Hj; cbn [nth]; [rewrite Nat.add_0_r; reflexivity|]. rewrite D by lia. replace (S k + j)%nat with (k + S j)%nat by lia. reflexivity.
Qed.

Lemma change_sum o j (D : BoundaryPoint R -> R) ps : forall f i,
  (forall k p, ps !! k = Some p -> bp_fixed p = false -> op_disp o !! (i + k)%nat = Some (D p)) ->
  post (ofold (change_step o j) ps (f, i)) (fun r => fst r = f + integral j ps (fun p => if bp_fixed p then 0 else D p)).
Proof.
  unfold integral. induction ps as [|p ps IH]; intros f i Hd; cbn [ofold map fold_right].
  - apply post_ok. cbn. lra.
  - assert (Hd' : forall k q, ps !! k = Some q -> bp_fixed q = false -> op_disp o !! (S i + k)%nat = Some (D q)).
    { intros k q Hq. replace (S i + k)%nat with (i + S k)%nat by lia. apply Hd. exact Hq. }
    pose proof (Hd 0%nat p eq_refl) as H0. rewrite Nat.add_0_r in H0. apply post_bind. unfold change_step at 1. destruct (bp_fixed p) eqn:Hf.
    + apply post_ok. eapply post_impl; [apply IH, Hd'|]. intros r ->. lra.
    + apply post_bind, post_vget. intros d Hdd. rewrite (H0 eq_refl) in Hdd. injection Hdd as <-.
      apply post_bind, vget_sens. apply post_ok. eapply post_impl; [apply IH, Hd'|]. intros r ->. cbn. lra.
Qed.

Section rounds.
  Variables (o0 : Opt R) (points : list (BoundaryPoint R)) (limit : R).
  Hypothesis Hpoints : op_points o0 = points.
  Hypothesis Hlimit : 0 < limit.
  Hypothesis Nd : forall p, p ∈ points -> bp_fixed p = false -> bp_domain p = false.

  Notation B := (lambda_range limit points).
  Notation idx o j := (nth j (op_index o) 0%nat).

  (** The box: in terms of the unscaled multipliers, the ranges. *)
  Definition boxed (o : Opt R) : Prop := forall j, (j < op_n o + 1)%nat ->
    nth j (op_scale o) 0 * nth j (op_pos o) 0 = B (idx o j) /\ nth j (op_scale o) 0 * nth j (op_neg o) 0 = - B (idx o j).

  Lemma change_real i v o : good o0 o -> boxed o ->
    post (constraint_change (op_n o + 1) i v o) (fun r => good o0 (fst r) /\ fst r = set_disp (op_disp (fst r)) o /\
      snd r = signed (fun j => B (idx o j) * gram (idx o (i + 1)) (idx o j) points) v (op_n o + 1)).
  Proof.
    intros G Bx. unfold constraint_change. apply post_bind. eapply post_impl; [apply vertex_real|]. intros la [L D]. cbn [Nat.add] in D.
    apply post_bind. intros o' E. pose proof (displacements_good o0 o la G _ E) as (G' & E' & _).
    destruct (displacements_free o la (g_zero _ _ G) _ E) as [_ F]. apply post_bind, post_vget. intros k Hk.
    assert (Ei : op_index o' = op_index o) by (rewrite E'; reflexivity). rewrite Ei in Hk.
    assert (Ep : op_points o' = points) by (rewrite (g_points _ _ G'); exact Hpoints).
    apply post_bind. eapply post_impl; [apply (change_sum o' k (fun p => clamp p (lin o' la p)))|].
    { intros j p Hp Hf. cbn [Nat.add]. apply F; assumption. }
    intros [c n] Hc. cbn [fst] in Hc. apply post_ok. cbn [fst snd]. split; [exact G'|]. split; [exact E'|].
    rewrite Hc, Ep, change_linear by exact Nd. replace (op_n o') with (op_n o) by (rewrite E'; reflexivity).
    replace (op_scale o') with (op_scale o) by (rewrite E'; reflexivity). rewrite Ei. cbn [n0 nofZ NumR]. rewrite Rplus_0_l. unfold signed.
    apply rsum_ext. intros j Hj. rewrite D by exact Hj. destruct (Bx j Hj) as [B1 B2]. rewrite (nth_index _ _ _ Hk).
    destruct (Nat.testbit v j); [rewrite B1|rewrite B2]; ring.
  Qed.

  Lemma reach_positions o k : good o0 o -> rsum (fun j => Rabs (B (idx o j) * gram k (idx o j) points)) (op_n o + 1) = reach limit points (op_index o) k.
  Proof.
    intros G. rewrite <- (g_index _ _ G). unfold reach. rewrite <- rsum_nth. apply rsum_ext. intros j _.
    rewrite Rabs_mult, (Rabs_right (B _)); [reflexivity|]. apply Rle_ge, Rlt_le, range_pos, Hlimit.
  Qed.

  (** What one constraint becomes. *)
  Definition cap (o : Opt R) (i : nat) : R := 99 / 100 * reach limit points (op_index o) (idx o (i + 1)).
  Definition stays (o : Opt R) (i : nat) : bool := (nth i (op_isEq o) false || Rleb (nth i (op_dist o) 0) (cap o i))%bool.
  Definition new_target (o : Opt R) (i : nat) (old : R) : R :=
    let d := nth i (op_dist o) 0 in
    if Rltb d 0 then if Rltb d (- cap o i) then - cap o i else old
    else if Rltb (cap o i) d then if nth i (op_isEq o) false then cap o i else old else old.

  Lemma cap_pos o i : 0 <= cap o i.
  Proof. unfold cap. pose proof (reach_pos limit points (op_index o) (idx o (i + 1)) Hlimit). lra. Qed.

  Lemma one_real i o : good o0 o -> boxed o -> (i < length (op_isEq o))%nat ->
    post (one_constraint (op_n o + 1) i o) (fun r => let '(o', b) := r in good o0 o' /\ o' = set_otarget (op_target o') (set_disp (op_disp o') o) /\
      b = stays o i /\ length (op_target o') = length (op_target o) /\
      forall j, nth j (op_target o') 0 = if decide (j = i) then new_target o i (nth i (op_target o) 0) else nth j (op_target o) 0).
  Proof.
    intros G Bx Hi. unfold one_constraint.
    set (x := fun j => B (idx o j) * gram (idx o (i + 1)) (idx o j) points).
    apply post_bind. eapply post_impl; [apply (for_post_i (fun v s => good o0 (fst s) /\ fst s = set_disp (op_disp (fst s)) o /\
      snd s = map (fun v => signed x v (op_n o + 1)) (seq 0 v)))|].
    - intros v [o' ch] _ (G' & E & C). cbn [fst snd] in *. apply post_bind.
      assert (En : op_n o' = op_n o) by (rewrite E; reflexivity). assert (Ei : op_index o' = op_index o) by (rewrite E; reflexivity).
      rewrite <- En. eapply post_impl; [apply change_real; [exact G'|]|].
      { intros j Hj. rewrite E. cbn. apply Bx. rewrite En in Hj. exact Hj. }
      intros [o2 c] (G2 & E2 & C2). cbn [fst snd] in *. apply post_ok. cbn [fst snd]. split; [exact G2|]. split; [rewrite E2, E; reflexivity|].
      rewrite seq_S, map_app. cbn [map Nat.add]. rewrite C, C2, En, Ei. reflexivity.
    - cbn [fst snd]. split; [exact G|]. split; [destruct o; reflexivity|reflexivity].
    - intros [o' ch] (G' & E & C). cbn [fst snd] in *.
      set (R0 := reach limit points (op_index o) (idx o (i + 1))).
      assert (HR : rsum (fun j => Rabs (x j)) (op_n o + 1) = R0) by (apply reach_positions, G).
      assert (Hmem : forall y, y ∈ ch -> - R0 <= y <= R0).
      { intros y Hy. rewrite C in Hy. apply elem_of_list_fmap in Hy as (v & -> & _). rewrite <- HR. apply signed_bounds. }
      assert (Hmax : R0 ∈ ch).
      { destruct (signed_max x (op_n o + 1)) as (v & Hv & Ev). rewrite C. apply elem_of_list_fmap. exists v. split; [rewrite Ev; congruence|]. apply elem_of_seq. lia. }
      assert (Hmin : - R0 ∈ ch).
      { destruct (signed_min x (op_n o + 1)) as (v & Hv & Ev). rewrite C. apply elem_of_list_fmap. exists v. split; [rewrite Ev, HR; reflexivity|]. apply elem_of_seq. lia. }
      apply post_bind, post_vget. intros mn Emn. apply (nsort_first _ _ (- R0)) in Emn; [|exact Hmin|intros y Hy; apply Hmem, Hy].
      apply post_bind, post_vget. intros mx Emx. apply (nsort_last _ _ R0) in Emx; [|exact Hmax|intros y Hy; apply Hmem, Hy]. subst mn mx.
      assert (Ed : op_dist o' = op_dist o) by (rewrite E; reflexivity). assert (Eq : op_isEq o' = op_isEq o) by (rewrite E; reflexivity).
      assert (Et : op_target o' = op_target o) by (rewrite E; reflexivity).
      apply post_bind. rewrite Ed. apply vget_nth. set (d := nth i (op_dist o) 0).
      cbn [nltb NumR nmul]. change (nlit 99 100 : R) with (99 / 100). change (n0 : R) with 0.
      replace (- R0 * (99 / 100)) with (- cap o i) by (unfold cap; fold R0; ring). replace (R0 * (99 / 100)) with (cap o i) by (unfold cap; fold R0; ring).
      pose proof (cap_pos o i) as Cp.
      assert (Set_t : forall w, post (let! t := vset (op_target o') i w in Ok (set_otarget t o', true)) (fun r => let '(o2, b) := r in
        good o0 o2 /\ o2 = set_otarget (op_target o2) (set_disp (op_disp o2) o) /\ b = true /\ length (op_target o2) = length (op_target o) /\
        forall j, nth j (op_target o2) 0 = if decide (j = i) then w else nth j (op_target o) 0)).
      { intros w. apply post_bind, post_vset_ins. intros Hl. apply post_ok. split; [apply good_otarget, G'|]. split; [cbn; rewrite E; reflexivity|].
        split; [reflexivity|]. cbn [op_target set_otarget]. rewrite insert_length, Et. split; [reflexivity|]. intros j. rewrite nth_insert by (rewrite <- Et; exact Hl). reflexivity. }
      assert (Keep : forall (b : bool) w, w = nth i (op_target o) 0 -> post (Ok (o', b)) (fun r => let '(o2, b2) := r in
        good o0 o2 /\ o2 = set_otarget (op_target o2) (set_disp (op_disp o2) o) /\ b2 = b /\ length (op_target o2) = length (op_target o) /\
        forall j, nth j (op_target o2) 0 = if decide (j = i) then w else nth j (op_target o) 0)).
      { intros b w ->. apply post_ok. split; [exact G'|]. split; [rewrite E; reflexivity|]. split; [reflexivity|]. rewrite Et. split; [reflexivity|].
        intros j. destruct (decide (j = i)) as [->|]; reflexivity. }
      unfold new_target, stays. fold d. destruct (Rltb_spec d 0) as [D0|D0].
      + assert (Sb : Rleb d (cap o i) = true) by (apply Rleb_true; lra). rewrite Sb, orb_true_r.
        destruct (Rltb_spec d (- cap o i)); [apply Set_t|apply Keep; reflexivity].
      + destruct (Rltb_spec (cap o i) d) as [D1|D1].
        * assert (Sb : Rleb d (cap o i) = false) by (apply Rleb_false; lra). rewrite Sb, orb_false_r.
          apply post_bind, post_vget. intros e He. rewrite Eq in He. apply nth_lookup_Some with (d := false) in He. rewrite He.
          destruct e; [apply Set_t|apply Keep; reflexivity].
        * assert (Sb : Rleb d (cap o i) = true) by (apply Rleb_true; lra). rewrite Sb, orb_true_r. apply Keep. reflexivity.
  Qed.
End rounds.
