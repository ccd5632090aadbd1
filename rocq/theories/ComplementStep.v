(** * ComplementStep: gradients and update of the complement of a shape (C80). *)

From Coq Require Import Reals Lra.
From Verif Require Import Base Num NumR MeshModel MeshSpec MeshTopo LevelSetModel LevelSetSpec LevelSetCalls LevelSetOps LevelSetHist NumInt Twin ComplementSpec Complement.
Local Open Scope R_scope.

Lemma weno_neg a b c d e : gradHJWENO (- a) (- b) (- c) (- d) (- e) = - gradHJWENO a b c d e.
Proof.
  unfold gradHJWENO. cbn [nadd nsub nmul ndiv nofZ NumR].
  replace (- a - 2 * - b + - c) with (- (a - 2 * b + c)) by ring.
  replace (- a - 4 * - b + 3 * - c) with (- (a - 4 * b + 3 * c)) by ring.
  replace (- b - 2 * - c + - d) with (- (b - 2 * c + d)) by ring.
  replace (- b - - d) with (- (b - d)) by ring.
  replace (- c - 2 * - d + - e) with (- (c - 2 * d + e)) by ring.
  replace (3 * - c - 4 * - d + - e) with (- (3 * c - 4 * d + e)) by ring.
  assert (Q : forall k x, k * - x * - x = k * x * x) by (intros; ring). rewrite !Q.
  unfold Rdiv. ring.
Qed.
Definition five (x y : R * R * R * R * R) : Prop :=
  y = (- x.1.1.1.1, - x.1.1.1.2, - x.1.1.2, - x.1.2, - x.2).
Section stencils.
  Variables g g' : nat -> outcome R.
  Hypothesis G : forall k, orel neg (g k) (g' k).
  Lemma diff_neg {B B'} (S : B -> B' -> Prop) a b f f' : (forall x, orel S (f x) (f' (- x))) ->
    orel S (obind (let! u := g a in let! v := g b in Ok (u - v)%num) f) (obind (let! u := g' a in let! v := g' b in Ok (u - v)%num) f').
  Proof.
    intros HS. eapply (orel_bind neg); [|intros x y E; unfold neg in E; subst y; apply HS].
    eapply orel_bind; [apply G|]. intros u u' Eu. eapply orel_bind; [apply G|]. intros v v' Ev. unfold neg in *. subst. cbn. unfold neg. ring.
  Qed.
  Lemma forward_neg n p : orel five (stencil_forward g n p) (stencil_forward g' n p).
  Proof. unfold stencil_forward. repeat (destruct (_ =? _)%nat); repeat (apply diff_neg; intros ?); reflexivity. Qed.
  Lemma backward_neg n p : orel five (stencil_backward g n p) (stencil_backward g' n p).
  Proof. unfold stencil_backward. repeat (destruct (_ =? _)%nat); repeat (apply diff_neg; intros ?); reflexivity. Qed.
End stencils.
Lemma weno_at_neg st st' sign : orel five st st' -> weno_at st' (- sign) = weno_at st sign.
Proof.
  intros F. unfold weno_at. destruct st as [[[[[a b] c] d] e]| | |], st' as [p| | |]; cbn [orel] in F; try contradiction; try reflexivity.
  unfold five in F. cbn [fst snd] in F. subst p. cbn [obind]. rewrite weno_neg. cbn [nmul NumR]. f_equal. ring.
Qed.
Lemma weno_at_ends st st' sign sign' : orel five st st' -> orel (fun _ _ => True) (weno_at st sign) (weno_at st' sign').
Proof. intros F. unfold weno_at. eapply orel_bind; [exact F|]. intros [[[[a b] c] d] e] [[[[a' b'] c'] d'] e'] _. exact I. Qed.
Lemma sd_at_neg m sd x y : orel neg (sd_at m sd x y) (sd_at m (map Ropp sd) x y).
Proof. unfold sd_at. apply orel_same. intros i _. apply orel_vget, neg_map. Qed.
Lemma corner_neg m sd l x y x' y' : corner_gradient m (map Ropp sd) (- l) x y x' y' = corner_gradient m sd l x y x' y'.
Proof.
  symmetry. apply orel_eq. unfold corner_gradient. cbn [nsub nabs nmul NumR].
  eapply orel_bind; [apply sd_at_neg|]. intros a a' E. unfold neg in E. subst a'. replace (- a - - l) with (- (a - l)) by ring. rewrite Rabs_Ropp. destruct (_ <? _)%num; [|reflexivity].
  eapply orel_bind; [apply sd_at_neg|]. intros b b' E. unfold neg in E. subst b'. replace (- b - - l) with (- (b - l)) by ring. rewrite Rabs_Ropp. destruct (_ <? _)%num; [|reflexivity].
  eapply orel_bind; [apply sd_at_neg|]. intros c c' E. unfold neg in E. subst c'. replace (- l - - c) with (- (l - c)) by ring. rewrite Rabs_Ropp. reflexivity.
Qed.
Lemma gradient_neg m sd vel node : orel (fun a b => vel !! node <> Some 0 -> b = a) (computeGradient m sd vel node) (computeGradient m (map Ropp sd) (map Ropp vel) node).
Proof.
  unfold computeGradient. apply orel_same. intros n _. apply orel_same. intros x _. apply orel_same. intros y _.
  apply orel_neg; [apply neg_map|]. intros l _. rewrite !corner_neg. apply orel_same. intros [gr|] _; [intros _; reflexivity|].
  apply orel_neg; [apply neg_map|]. intros v Ev. cbn zeta.
  pose proof (forward_neg _ _ (fun k => sd_at_neg m sd k y) (m_width m) x) as F1. pose proof (backward_neg _ _ (fun k => sd_at_neg m sd k y) (m_width m) x) as F2.
  pose proof (forward_neg _ _ (fun k => sd_at_neg m sd x k) (m_height m) y) as F3. pose proof (backward_neg _ _ (fun k => sd_at_neg m sd x k) (m_height m) y) as F4.
  destruct (Req_dec v 0) as [->|Nv].
  - eapply orel_bind; [apply weno_at_ends, F1|]. intros ? ? _. eapply orel_bind; [apply weno_at_ends, F2|]. intros ? ? _.
    eapply orel_bind; [apply weno_at_ends, F3|]. intros ? ? _. eapply orel_bind; [apply weno_at_ends, F4|]. intros ? ? _.
    intros Q. exfalso. apply Q. exact Ev.
  - cbn [nltb nofZ NumR]. change (@n0 R NumR) with 0.
    assert (E : (if Rltb (- v) 0 then -1 else 1) = - (if Rltb v 0 then -1 else 1)).
    { rewrite ltb_opp0. destruct (Rltb_spec 0 v), (Rltb_spec v 0); try (exfalso; lra); lra. }
    rewrite E, (weno_at_neg _ _ _ F1), (weno_at_neg _ _ _ F2), (weno_at_neg _ _ _ F3), (weno_at_neg _ _ _ F4).
    apply orel_same. intros ? _. apply orel_same. intros ? _. apply orel_same. intros ? _. apply orel_same. intros ? _. intros _. reflexivity.
Qed.

Definition alike (vel g g' : list R) : Prop := length g' = length g /\ forall i, vel !! i <> Some 0 -> g' !! i = g !! i.
Lemma gradients_neg s : orel complement (computeGradients s) (computeGradients (flip s)).
Proof.
  unfold computeGradients. change (ls_mesh (flip s)) with (ls_mesh s). change (ls_nBand (flip s)) with (ls_nBand s). change (ls_band (flip s)) with (ls_band s).
  change (ls_grad (flip s)) with (ls_grad s). change (ls_sd (flip s)) with (map Ropp (ls_sd s)). change (ls_vel (flip s)) with (map Ropp (ls_vel s)).
  eapply (orel_bind (alike (ls_vel s))).
  - apply (orel_for_same (alike (ls_vel s))); [split; reflexivity|]. intros k g g' _ [L A]. apply orel_same. intros node _.
    eapply orel_bind; [apply gradient_neg|]. intros x y E. unfold vset. pose proof (lookup_lt_is_Some g node) as P. pose proof (lookup_lt_is_Some g' node) as P'. rewrite L in P'.
    destruct (g !! node) as [a|] eqn:Ea, (g' !! node) as [a'|] eqn:Ea'; cbn [orel].
    + assert (Hn : (node < length g)%nat) by (apply P; eauto). split; [rewrite !insert_length; exact L|]. intros i Hi. destruct (decide (i = node)) as [->|N].
      * rewrite !list_lookup_insert by lia. f_equal. apply E, Hi.
      * rewrite !list_lookup_insert_ne by congruence. apply A, Hi.
    + destruct P' as [_ P']. destruct (P' (proj1 P (ex_intro _ a eq_refl))) as [? ?]; discriminate.
    + destruct P as [_ P]. destruct (P (proj1 P' (ex_intro _ a' eq_refl))) as [? ?]; discriminate.
    + exact I.
  - intros g g' [L A]. exists g'. cbn. split; [reflexivity|]. split; [exact L|]. intros i Hi. apply A, Hi.
Qed.

(** ** Update *)
Definition moving (s : LevelSet R) (k : nat) (x y : list R * Mesh R) : Prop :=
  Forall2 neg x.1 y.1 /\ x.2 = y.2 /\ resolved x.1 /\
  (forall j node, (k <= j < ls_nBand s)%nat -> ls_band s !! j = Some node -> x.1 !! node = ls_sd s !! node) /\
  (forall node n, node ∈ band_list s -> m_nodes x.2 !! node = Some n -> nd_domain n = false).
Lemma resolved_set l i x : resolved l -> (x = 0 \/ / 2 ^ 52 < Rabs x) -> resolved (<[i := x]> l).
Proof. intros R Hx. apply Forall_insert; [exact R|exact Hx]. Qed.
Lemma update_step_neg s g dt k x y : alike (ls_vel s) (ls_grad s) g -> NoDup (band_list s) -> (ls_nBand s <= length (ls_band s))%nat -> (k < ls_nBand s)%nat ->
  (forall i d gr v, i ∈ band_list s -> ls_sd s !! i = Some d -> ls_grad s !! i = Some gr -> ls_vel s !! i = Some v -> d - dt * gr * v = 0 \/ / 2 ^ 52 < Rabs (d - dt * gr * v)) ->
  moving s k x y -> orel (moving s (S k)) (update_step s dt k x) (update_step (set_grad g (flip s)) dt k y).
Proof.
  intros [Lg A] ND LB Hk HR (F & Em & R & U & D). destruct x as [sd m], y as [sd' m']. cbn [fst snd] in *. subst m'. unfold update_step.
  change (ls_band (set_grad g (flip s))) with (ls_band s). change (ls_grad (set_grad g (flip s))) with g. change (ls_vel (set_grad g (flip s))) with (map Ropp (ls_vel s)).
  apply orel_same. intros node En. apply vget_Ok in En.
  assert (Hin : node ∈ band_list s) by (unfold band_list; apply elem_of_list_lookup; exists k; rewrite lookup_take by exact Hk; exact En).
  apply orel_neg; [exact F|]. intros d Ed.
  assert (Ed0 : ls_sd s !! node = Some d) by (rewrite <- (U k node ltac:(lia) En); exact Ed).
  eapply (orel_bind (fun a b => ls_grad s !! node = Some a /\ (ls_vel s !! node <> Some 0 -> b = a))).
  { unfold vget. pose proof (lookup_lt_is_Some (ls_grad s) node) as P. pose proof (lookup_lt_is_Some g node) as P'. rewrite Lg in P'.
    destruct (ls_grad s !! node) as [a|] eqn:Ea, (g !! node) as [a'|] eqn:Ea'; cbn [orel].
    - split; [reflexivity|]. intros Nv. specialize (A node Nv). congruence.
    - destruct (proj2 P' (proj1 P (ex_intro _ a eq_refl))) as [? ?]; discriminate.
    - destruct (proj2 P (proj1 P' (ex_intro _ a' eq_refl))) as [? ?]; discriminate.
    - exact I. }
  intros gr gr' [Egr Eg]. apply orel_neg; [apply neg_map|]. intros v Ev. cbn [nsub nmul NumR].
  replace (- d - dt * gr' * - v) with (- (d - dt * gr * v)).
  2:{ destruct (Req_dec v 0) as [->|Nv]; [ring|]. rewrite Eg by congruence. ring. }
  pose proof (HR node d gr v Hin Ed0 Egr Ev) as Hx.
  eapply (orel_bind (fun a b => Forall2 neg a b /\ resolved a /\ forall i, i <> node -> a !! i = sd !! i)).
  { pose proof (orel_vset neg sd sd' node (d - dt * gr * v) (- (d - dt * gr * v)) F eq_refl) as G. unfold vset in *. destruct (sd !! node), (sd' !! node); cbn [orel] in *; try contradiction; auto.
    split; [exact G|]. split; [apply resolved_set; assumption|]. intros i Hi. apply list_lookup_insert_ne. congruence. }
  intros u u' (Fu & Ru & Eu). apply orel_same. intros n En2. apply vget_Ok in En2. rewrite (D node n Hin En2). cbn [obind].
  apply orel_same. intros m2 Em2. split; [exact Fu|]. split; [reflexivity|]. split; [exact Ru|]. cbn [fst snd]. split.
  - intros j nd Hj Ej. rewrite Eu.
    + apply (U j nd); [lia|exact Ej].
    + intros ->. assert (k = j); [|lia]. eapply NoDup_lookup; [exact ND| |]; unfold band_list; (rewrite lookup_take by lia); eassumption.
  - intros nd q Hq. unfold node_mod, vmod in Em2. destruct (m_nodes m !! node) as [n'|] eqn:Vn; try discriminate. cbn [obind] in Em2.
    injection Em2 as <-. pose proof (lookup_lt_Some _ _ _ Vn) as Hl. cbn.
    destruct (decide (nd = node)) as [->|N].
    + rewrite list_lookup_insert by exact Hl. intros [= <-]. cbn. apply (D node n' Hin Vn).
    + rewrite list_lookup_insert_ne by congruence. apply D, Hq.
Qed.
Lemma mine_hit_neg sd mines : forall n i, mine_hit (map Ropp sd) mines i n = mine_hit sd mines i n.
Proof.
  induction n as [|n IH]; intros i; cbn [mine_hit]; [reflexivity|]. symmetry. apply orel_eq. apply orel_same. intros k _. apply orel_neg; [apply neg_map|]. intros x _. cbn [nabs NumR].
  rewrite Rabs_Ropp, IH. apply orel_refl.
Qed.
Lemma reinitialise_grad g (s : LevelSet R) : reinitialise (set_grad g s) = (let! t := reinitialise s in Ok (set_grad g t)).
Proof.
  unfold reinitialise. cbn. destruct (fmm_march _ _ _) as [[o sd]| | |]; cbn; try reflexivity. unfold initialiseNarrowBand. cbn.
  match goal with |- context [for_ ?n ?f ?z] => destruct (for_ n f z) as [[[[[m b] nb] mi] nm]| | |] end; reflexivity.
Qed.
Lemma reinitialise_keeps (s t : LevelSet R) : reinitialise s = Ok t -> ls_vel t = ls_vel s /\ ls_grad t = ls_grad s.
Proof.
  unfold reinitialise. destruct (fmm_march _ _ _) as [[o sd]| | |]; cbn; try discriminate. unfold initialiseNarrowBand. cbn.
  match goal with |- context [for_ ?n ?f ?z] => destruct (for_ n f z) as [[[[[m b] nb] mi] nm]| | |] end; cbn; try discriminate. intros [= <-]. split; reflexivity.
Qed.

Lemma update_neg W H s t dt : reached W H s -> complement s t -> ls_fixed s = true -> resolved (ls_sd s) ->
  (forall i d gr v, i ∈ band_list s -> ls_sd s !! i = Some d -> ls_grad s !! i = Some gr -> ls_vel s !! i = Some v -> d - dt * gr * v = 0 \/ / 2 ^ 52 < Rabs (d - dt * gr * v)) ->
  orel (fun x y => complement x.1 y.1 /\ x.2 = y.2) (update s dt) (update t dt).
Proof.
  intros Hr (g & -> & Lg & A) Fx Rs HR. destruct (reached_sound _ _ _ Hr) as [Hs Hb Hm Ha]. unfold update.
  change (ls_nBand (set_grad g (flip s))) with (ls_nBand s). change (ls_sd (set_grad g (flip s))) with (map Ropp (ls_sd s)). change (ls_mesh (set_grad g (flip s))) with (ls_mesh s).
  eapply (orel_bind (fun x y => moving s (ls_nBand s) x y /\ topo W H x.2 /\ length x.1 = node_count W H)).
  - assert (M : orel (moving s (ls_nBand s)) (for_ (ls_nBand s) (update_step s dt) (ls_sd s, ls_mesh s)) (for_ (ls_nBand s) (update_step (set_grad g (flip s)) dt) (map Ropp (ls_sd s), ls_mesh s))).
    { apply (orel_for (moving s)).
      - split; [apply neg_map|]. split; [reflexivity|]. split; [exact Rs|]. split; [reflexivity|]. intros node n Hn En. destruct (Hm node Hn) as (n' & En' & _ & Hd). cbn [snd] in En.
        assert (n' = n) by congruence. subst n'. destruct (nd_domain n); [|reflexivity]. rewrite Fx in Hd. discriminate (Hd eq_refl).
      - intros k x y Hk Mk. apply update_step_neg; try assumption; [split; assumption|apply Hb|apply Hb]. }
    assert (HL : wp False False (for_ (ls_nBand s) (update_step s dt) (ls_sd s, ls_mesh s)) (upd_inv W H s dt (ls_nBand s))).
    { apply wp_for with (I := upd_inv W H s dt); [|intros k st Hk; apply upd_step; assumption|auto].
      split; [exact (ok_sd _ _ _ Hs)|]. split; [exact (ok_topo _ _ _ Hs)|]. split; [destruct (ls_mesh s); reflexivity|].
      rewrite take_0. split; [intros i Hi; apply elem_of_nil in Hi; contradiction|]. split; [reflexivity|].
      intros i n Hn. exists (nd_nBpts n). split; [|reflexivity]. rewrite Hn. destruct n; reflexivity. }
    destruct (for_ (ls_nBand s) (update_step s dt) (ls_sd s, ls_mesh s)) as [[sd m]| | |]; cbn in HL; try contradiction.
    destruct HL as (L & T & _). destruct (for_ (ls_nBand s) _ (map Ropp (ls_sd s), ls_mesh s)) as [[sd' m']| | |]; cbn in M |- *; try contradiction. split; [exact M|]. split; assumption.
  - intros [sd m] [sd' m'] [(F & E & R & _) [T L]]. cbn [fst snd] in *. subst m'. apply neg_eq in F. subst sd'. cbn zeta.
    change (set_mesh m (set_sd (map Ropp sd) (set_grad g (flip s)))) with (set_grad g (flip (set_mesh m (set_sd sd s)))).
    change (ls_sd (set_grad g (flip (set_mesh m (set_sd sd s))))) with (map Ropp sd).
    change (ls_mines (set_grad g (flip (set_mesh m (set_sd sd s))))) with (ls_mines s). change (ls_nMines (set_grad g (flip (set_mesh m (set_sd sd s))))) with (ls_nMines s).
    rewrite mine_hit_neg. apply orel_same. intros hit _. destruct hit.
    + rewrite reinitialise_grad, (reinitialise_neg W H) by assumption.
      destruct (reinitialise (set_mesh m (set_sd sd s))) as [u| | |] eqn:Er; cbn [obind orel]; auto. apply reinitialise_keeps in Er as [E1 E2]. cbn in E1, E2.
      split; [|reflexivity]. exists g. cbn [fst]. rewrite E1, E2. auto.
    + cbn [orel]. split; [|reflexivity]. exists g. auto.
Qed.

(** ** From here on: calls on reachable level sets *)
Lemma reached_flip W H s : reached W H s -> reached W H (flip s).
Proof.
  intros Hr. apply (reached_call W H (set_sd (map Ropp (ls_sd s)) s)).
  - apply (reached_call W H s); [exact Hr|]. apply c_write_sd. apply map_length.
  - apply c_quiet. unfold flip. apply (q_write_velocity (set_sd (map Ropp (ls_sd s)) s)). cbn. apply map_length.
Qed.
Lemma reached_sizes W H s : reached W H s -> topo W H (ls_mesh s) /\ length (ls_sd s) = node_count W H.
Proof. intros Hr. destruct (reached_sound _ _ _ Hr) as [Hs _ _ _]. split; [apply (ok_topo _ _ _ Hs)|apply (ok_sd _ _ _ Hs)]. Qed.
Lemma complement_reinitialise W H s : reached W H s -> resolved (ls_sd s) -> reinitialise (flip s) = (let! t := reinitialise s in Ok (flip t)).
Proof. intros Hr R. destruct (reached_sizes W H s Hr) as [T L]. apply (reinitialise_neg W H); assumption. Qed.
Lemma complement_velocities W H s ps : reached W H s -> resolved (ls_sd s) -> computeVelocities (flip s) (map reversed ps) = (let! t := computeVelocities s ps in Ok (flip t)).
Proof. intros Hr R. destruct (reached_sizes W H s Hr) as [T L]. apply (velocities_neg W H); assumption. Qed.
