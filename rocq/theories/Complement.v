(** * Complement: the fast marching method on the complement of a shape (C80).

    Two runs, on a field and on its negative, step by step: same states of the nodes, same heap, opposite values. *)

From Coq Require Import Reals Lra.
From Verif Require Import Base Num NumR MeshModel MeshSpec MeshTopo HeapModel FmmModel FmmFacts LevelSetModel Twin ComplementSpec.
Local Open Scope R_scope.

Definition neg (x y : R) : Prop := y = - x.
Lemma neg_map l : Forall2 neg l (map Ropp l).
Proof. induction l; constructor; [reflexivity|assumption]. Qed.
Lemma neg_eq l l' : Forall2 neg l l' -> l' = map Ropp l.
Proof. induction 1 as [|x y l l' E _ ->]; [reflexivity|]. unfold neg in E. subst. reflexivity. Qed.
Lemma ltb_opp x y : Rltb (- x) (- y) = Rltb y x.
Proof. destruct (Rltb_spec (- x) (- y)), (Rltb_spec y x); try reflexivity; exfalso; lra. Qed.
Lemma ltb_opp0 x : Rltb (- x) 0 = Rltb 0 x.
Proof. rewrite <- (ltb_opp x 0), Ropp_0. reflexivity. Qed.
Lemma ltb_0opp x : Rltb 0 (- x) = Rltb x 0.
Proof. rewrite <- (ltb_opp 0 x), Ropp_0. reflexivity. Qed.
Lemma eqb_opp0 x : Reqb (- x) 0 = Reqb x 0.
Proof. destruct (Reqb_spec (- x) 0), (Reqb_spec x 0); try reflexivity; exfalso; lra. Qed.

Section march.
  Variable mesh : Mesh R.
  Variable isVelocity : bool.
  Variables copy copy' : list R.
  Hypothesis Cn : Forall2 neg copy copy'.
  Hypothesis Cr : resolved copy.

  Definition zeros_frozen (st : list FStatus) : Prop := forall i, copy !! i = Some 0 -> st !! i = Some F_FROZEN.

  Lemma freeze_zeros_neg i s : freeze_zeros copy' i s = freeze_zeros copy i s.
  Proof.
    destruct s as [st n]. apply orel_eq. unfold freeze_zeros. eapply orel_bind; [apply orel_refl|]. intros a _ <-. destruct (negb _); [|reflexivity].
    eapply (orel_bind (fun x y => neg y x)); [apply orel_vget, Forall2_flip; exact Cn|]. intros x y E. unfold neg in E. subst x.
    cbn [neqb n0 nofZ NumR]. rewrite eqb_opp0. destruct (Reqb y 0); [|reflexivity]. apply orel_refl.
  Qed.
  Lemma border_step_neg i j s : border_step mesh copy' i j s = border_step mesh copy i j s.
  Proof.
    destruct s as [[b d0] d1]. apply orel_eq. unfold border_step. eapply orel_bind; [apply orel_refl|]. intros k _ <-. destruct (negb _); [|apply orel_refl].
    eapply (orel_bind (fun x y => neg y x)); [apply orel_vget, Forall2_flip; exact Cn|]. intros x y E. unfold neg in E. subst x.
    eapply (orel_bind (fun x y => neg y x)); [apply orel_vget, Forall2_flip; exact Cn|]. intros x z E. unfold neg in E. subst x.
    cbn [nmul nsub ndiv nltb neqb NumR]. replace (- y * - z) with (y * z) by ring.
    destruct (Rltb_spec (y * z) n0) as [L|L]; [|apply orel_refl].
    replace (- y / (- y - - z)) with (y / (y - z)).
    - apply orel_refl.
    - assert (y - z <> 0). { intros E. assert (y = z) by lra. subst z. unfold n0 in L. cbn in L. pose proof (Rle_0_sqr y). unfold Rsqr in *. lra. }
      replace (- y - - z) with (- (y - z)) by ring. unfold Rdiv. rewrite Rinv_opp. ring.
  Qed.
  Definition bord (x y : list FStatus * list R * nat) : Prop := x.1.1 = y.1.1 /\ Forall2 neg x.1.2 y.1.2 /\ x.2 = y.2 /\ zeros_frozen x.1.1.
  Lemma for_ext {A} n (f g : nat -> A -> outcome A) s : (forall i t, f i t = g i t) -> for_ n f s = for_ n g s.
  Proof. intros E. apply orel_eq. apply (orel_for_same eq); [reflexivity|]. intros k t _ _ <-. rewrite E. apply orel_refl. Qed.
  Lemma vget_Ok {A} (l : list A) i x : vget l i = Ok x -> l !! i = Some x.
  Proof. unfold vget. destruct (l !! i); congruence. Qed.
  Lemma vset_Ok {A} (l l' : list A) i x : vset l i x = Ok l' -> l' = <[i := x]> l /\ (i < length l)%nat.
  Proof. unfold vset. destruct (l !! i) eqn:E; [|discriminate]. intros [= <-]. split; [reflexivity|]. eapply lookup_lt_Some, E. Qed.
  (** Binds on the same computation, remembering what it gave. *)
  Lemma orel_same {A B B'} (S : B -> B' -> Prop) (o : outcome A) f f' : (forall a, o = Ok a -> orel S (f a) (f' a)) -> orel S (obind o f) (obind o f').
  Proof. destruct o; cbn; auto. Qed.
  Lemma orel_neg {B B'} (S : B -> B' -> Prop) l l' i f f' : Forall2 neg l l' -> (forall x, l !! i = Some x -> orel S (f x) (f' (- x))) -> orel S (obind (vget l i) f) (obind (vget l' i) f').
  Proof.
    intros F HS. pose proof (orel_vget neg l l' i F) as G. destruct (vget l i) as [x| | |] eqn:E, (vget l' i) as [y| | |]; cbn in G |- *; try contradiction; auto.
    unfold neg in G. subst y. apply HS, vget_Ok, E.
  Qed.
  Lemma orel_negset {B B'} (S : B -> B' -> Prop) l l' i x f f' : Forall2 neg l l' -> (forall m m', Forall2 neg m m' -> orel S (f m) (f' m')) -> orel S (obind (vset l i x) f) (obind (vset l' i (- x)) f').
  Proof. intros F HS. eapply orel_bind; [apply (orel_vset neg); [exact F|reflexivity]|]. exact HS. Qed.
  Lemma zeros_set st i a : zeros_frozen st -> (forall x, copy !! i = Some x -> x = 0 -> a = F_FROZEN) -> zeros_frozen (<[i := a]> st).
  Proof.
    intros Z Ha k Ek. destruct (decide (k = i)) as [->|N].
    - rewrite list_lookup_insert by (eapply lookup_lt_Some, Z, Ek). rewrite (Ha 0 Ek eq_refl). reflexivity.
    - rewrite list_lookup_insert_ne by congruence. apply Z, Ek.
  Qed.
  Lemma not_zero st i a x : zeros_frozen st -> st !! i = Some a -> is_frozen a = false -> copy !! i = Some x -> x <> 0.
  Proof. intros Z Ea Fa Ex ->. rewrite (Z i Ex) in Ea. injection Ea as <-. discriminate. Qed.

  Lemma freeze_border_neg i s s' : bord s s' -> orel bord (freeze_border mesh copy i s) (freeze_border mesh copy' i s').
  Proof.
    destruct s as [[st sd] n], s' as [[st' sd'] n']. intros (E1 & F & E2 & Z). cbn [fst snd] in E1, F, E2, Z. subst st' n'. unfold freeze_border.
    apply orel_same. intros a Ea. apply vget_Ok in Ea. destruct (is_none a) eqn:Na; [|repeat split; assumption].
    rewrite (for_ext 4 (border_step mesh copy' i) (border_step mesh copy i)) by (intros; apply border_step_neg).
    apply orel_same. intros [[b d0] d1] _. destruct b; [|repeat split; assumption].
    apply orel_neg; [exact Cn|]. intros c Ec. cbn zeta.
    assert (Hc : c <> 0) by (eapply not_zero; [exact Z|exact Ea|destruct a; try discriminate; reflexivity|exact Ec]).
    generalize (border_distance (H:=NumR) d0 d1). intros r. cbn [nltb nneg NumR]. change (@n0 R NumR) with 0.
    replace (if Rltb (- c) 0 then - r else r) with (- (if Rltb c 0 then - r else r)).
    - apply orel_negset; [exact F|]. intros m m' Fm. apply orel_same. intros st2 E2. apply vset_Ok in E2 as [-> _]. repeat split; [exact Fm|].
      apply zeros_set; [exact Z|]. reflexivity.
    - rewrite ltb_opp0. destruct (Rltb_spec c 0), (Rltb_spec 0 c); try (exfalso; lra); lra.
  Qed.

  Lemma zeros_done N st n : length st = N -> length copy = N -> (forall i a, st !! i = Some a -> is_masked a = false) ->
    orel (fun s s' => s = s' /\ zeros_frozen s.1 /\ length s.1 = N) (for_ N (freeze_zeros copy) (st, n)) (for_ N (freeze_zeros copy') (st, n)).
  Proof.
    intros L Lc HM.
    eapply orel_impl; [apply (orel_for (fun k s s' => s = s' /\ (forall i, (i < k)%nat -> copy !! i = Some 0 -> s.1 !! i = Some F_FROZEN) /\ length s.1 = N /\ (forall i a, s.1 !! i = Some a -> is_masked a = false)))|].
    - repeat split; [lia|exact L|exact HM].
    - intros k [s m] _ Hk (<- & Hz & Hl & Hm). rewrite freeze_zeros_neg. cbn [fst snd] in *. unfold freeze_zeros. apply orel_same. intros a Ea. apply vget_Ok in Ea.
      rewrite (Hm k a Ea). cbn [negb]. apply orel_same. intros c Ec. apply vget_Ok in Ec. cbn [neqb NumR]. change n0 with 0. destruct (Reqb_spec c 0) as [->|Nc].
      + apply orel_same. intros s2 E2. apply vset_Ok in E2 as [-> Hk2]. split; [reflexivity|]. cbn [fst]. split; [|split].
        * intros i Hi Ei. destruct (decide (i = k)) as [->|N1]; [apply list_lookup_insert; lia|]. rewrite list_lookup_insert_ne by congruence. apply Hz; [lia|exact Ei].
        * rewrite insert_length. exact Hl.
        * intros i b. destruct (decide (i = k)) as [->|N1]; [rewrite list_lookup_insert by lia; intros [= <-]; reflexivity|]. rewrite list_lookup_insert_ne by congruence. apply Hm.
      + cbn. split; [reflexivity|]. split; [|split; assumption]. intros i Hi Ei. destruct (decide (i = k)) as [->|N1]; [congruence|]. apply Hz; [lia|exact Ei].
    - intros [s m] _ (<- & Hz & Hl & _). split; [reflexivity|]. split; [|exact Hl]. intros i Ei. apply Hz; [|exact Ei]. rewrite <- Lc. eapply lookup_lt_Some, Ei.
  Qed.

  (** ** The update of a node *)
  Definition far : R := nmaxDouble.
  (** A direction in which a frozen neighbour was found, or not yet. *)
  Definition dirs (p p' : R * R) : Prop :=
    (p = (far, far) /\ p' = (far, far)) \/
    (Rabs p.1 < far /\ p'.1 = - p.1 /\ ((p.2 = far /\ p'.2 = far) \/ (Rabs p.2 < far /\ p'.2 = - p.2))).
  Lemma far_pos : 0 < far.
  Proof. unfold far, nmaxDouble. cbn [nofZ NumR]. apply (IZR_lt 0). reflexivity. Qed.
  Lemma update_dir_neg st sd sd' node k p p' : Forall2 neg sd sd' -> dirs p p' -> orel dirs (update_dir mesh st sd node k p) (update_dir mesh st sd' node k p').
  Proof.
    intros F D. destruct p as [d1 d2], p' as [d1' d2']. unfold update_dir. pose proof far_pos as HF.
    apply orel_same. intros m1 _. destruct (negb _); [|exact D]. apply orel_same. intros a _. destruct (is_frozen a); [|exact D].
    apply orel_neg; [exact F|]. intros x _. cbn [nltb nabs nleb NumR]. rewrite Rabs_Ropp.
    assert (A1 : Rabs d1' = Rabs d1). { destruct D as [[E E']|(_ & E & _)]; cbn [fst snd] in *; [congruence|]. rewrite E. apply Rabs_Ropp. }
    assert (A2 : Rabs d1 <= far). { destruct D as [[E _]|(L & _)]; cbn [fst snd] in *; [injection E as -> _; rewrite Rabs_right; lra|lra]. }
    rewrite A1. destruct (Rltb_spec (Rabs x) (Rabs d1)) as [L|L]; [|exact D].
    assert (K : forall e e', (e = far /\ e' = far) \/ (Rabs e < far /\ e' = - e) -> dirs (x, e) (- x, e')).
    { intros e e' He. right. cbn [fst snd]. split; [lra|]. split; [reflexivity|exact He]. }
    assert (K2 : dirs (x, d2) (- x, d2')).
    { apply K. destruct D as [[E E']|(_ & _ & D)]; [injection E as _ ->; injection E' as _ ->; left; split; reflexivity|exact D]. }
    apply orel_same. intros m2 _. destruct (negb _); [|exact K2]. apply orel_same. intros b _. destruct (is_frozen b); [|exact K2].
    apply orel_neg; [exact F|]. intros y _. rewrite Rabs_Ropp. destruct (Rleb_spec (Rabs y) (Rabs x)) as [L2|L2]; [|exact K2].
    apply K. right. split; [lra|reflexivity].
  Qed.
  Definition coefs (p p' : R * R * R) : Prop := p'.1.1 = p.1.1 /\ p'.1.2 = - p.1.2 /\ p'.2 = p.2.
  Lemma update_dim_neg st sd sd' node i p p' : Forall2 neg sd sd' -> coefs p p' -> orel coefs (update_dim mesh st sd node i p) (update_dim mesh st sd' node i p').
  Proof.
    intros F C. destruct p as [[a b] c], p' as [[a' b'] c']. unfold update_dim. destruct C as (Ea & Eb & Ec). cbn [fst snd] in Ea, Eb, Ec. subst a' b' c'.
    eapply orel_bind; [apply (orel_for_same dirs); [left; split; reflexivity|intros; apply update_dir_neg; assumption]|].
    pose proof far_pos as HF. intros [d1 d2] [d1' d2'] D. cbn [nltb NumR].
    fold far. destruct D as [[E E']|(L1 & E1 & D)]; cbn [fst snd] in *.
    - injection E as -> ->. injection E' as -> ->. assert (X : Rltb far far = false) by (apply Rltb_false; lra). rewrite X. repeat split.
    - subst d1'. assert (X1 : Rltb d1 far = true) by (apply Rltb_true; pose proof (Rle_abs d1); lra).
      assert (X1' : Rltb (- d1) far = true) by (apply Rltb_true; pose proof (Rle_abs (- d1)) as Q; rewrite Rabs_Ropp in Q; lra).
      rewrite X1, X1'. destruct D as [[-> ->]|[L2 ->]].
      + assert (X : Rltb far far = false) by (apply Rltb_false; lra). rewrite X. repeat split; cbn [fst snd nadd nsub nmul nofZ n1 NumR]; ring.
      + assert (X2 : Rltb d2 far = true) by (apply Rltb_true; pose proof (Rle_abs d2); lra).
        assert (X2' : Rltb (- d2) far = true) by (apply Rltb_true; pose proof (Rle_abs (- d2)) as Q; rewrite Rabs_Ropp in Q; lra).
        rewrite X2, X2'. repeat split; cbn [fst snd nadd nsub nmul ndiv nofZ n1 NumR]; field.
  Qed.
  Lemma solve_neg sd sd' node a b c x : Forall2 neg sd sd' -> copy !! node = Some x -> x <> 0 ->
    orel neg (solveQuadratic copy sd node a b c) (solveQuadratic copy' sd' node a (- b) c).
  Proof.
    intros F Ex Nx. unfold solveQuadratic. cbn [nsub nmul nltb nofZ nneg nadd ndiv nsqrt NumR]. change (@n0 R NumR) with 0.
    replace (- b * - b - 4 * a * c) with (b * b - 4 * a * c) by ring. destruct (Rltb 0 _); [|apply orel_vget, F].
    apply orel_neg; [exact Cn|]. intros y Ey. rewrite Ex in Ey. injection Ey as <-.
    pose proof (proj1 (Forall_lookup _ _) Cr node x Ex) as [->|Hx]; [congruence|].
    assert (He : nepsilon = / 2 ^ 52). { unfold nepsilon. rewrite nlit_R. unfold Rdiv. rewrite Rmult_1_l. f_equal. rewrite pow_IZR. f_equal. }
    assert (0 < / 2 ^ 52) by (apply Rinv_0_lt_compat, pow_lt; lra).
    rewrite He. cbn [orel]. unfold neg.
    destruct (Rlt_dec x 0) as [Q|Q].
    - rewrite Rabs_left in Hx by exact Q.
      assert (X1 : Rltb (/ 2 ^ 52) x = false) by (apply Rltb_false; lra). assert (X2 : Rltb (/ 2 ^ 52) (- x) = true) by (apply Rltb_true; lra).
      rewrite X1, X2. unfold Rdiv. ring.
    - rewrite Rabs_right in Hx by lra.
      assert (X1 : Rltb (/ 2 ^ 52) x = true) by (apply Rltb_true; lra). assert (X2 : Rltb (/ 2 ^ 52) (- x) = false) by (apply Rltb_false; lra).
      rewrite X1, X2. unfold Rdiv. ring.
  Qed.
  Lemma update_neg st sd sd' node x : Forall2 neg sd sd' -> copy !! node = Some x -> x <> 0 ->
    orel neg (updateNode mesh copy st sd node) (updateNode mesh copy' st sd' node).
  Proof.
    intros F Ex Nx. unfold updateNode.
    eapply orel_bind; [apply (orel_for_same coefs); [repeat split; cbn; change n0 with 0; ring|intros; apply update_dim_neg; assumption]|].
    intros [[a b] c] [[a' b'] c'] (Ea & Eb & Ec). cbn [fst snd] in *. subst. apply (solve_neg _ _ _ _ _ _ x); assumption.
  Qed.

  (** ** The march *)
  Definition twins (s s' : Fmm R) : Prop :=
    f_ptr s' = f_ptr s /\ f_status s' = f_status s /\ f_heap s' = f_heap s /\ Forall2 neg (f_sd s) (f_sd s') /\ Forall2 neg (f_vel s) (f_vel s') /\ zeros_frozen (f_status s) /\ length (f_status s) = length copy.

  Lemma copy_value (st : list FStatus) i : length st = length copy -> (exists a, st !! i = Some a) -> exists x, copy !! i = Some x.
  Proof. intros L [a Ea]. apply lookup_lt_is_Some_2. rewrite <- L. eapply lookup_lt_Some, Ea. Qed.
  (** The node that is updated is not frozen, so it has a value other than zero. *)
  Lemma update_twins (st : list FStatus) sd sd' i a : Forall2 neg sd sd' -> zeros_frozen st -> length st = length copy -> st !! i = Some a -> is_frozen a = false ->
    orel neg (updateNode mesh copy st sd i) (updateNode mesh copy' st sd' i).
  Proof.
    intros F Z L Ea Fa. destruct (copy_value st i L (ex_intro _ a Ea)) as [x Ex]. apply (update_neg st sd sd' i x F Ex). eapply not_zero; eassumption.
  Qed.
  Lemma push_twins i d s s' : twins s s' -> orel twins (push_trial i d s) (push_trial i (- d) s').
  Proof.
    intros (E1 & E2 & E3 & F & V & Z & L). unfold push_trial. rewrite E1, E3. cbn [nabs NumR]. rewrite Rabs_Ropp.
    apply orel_same. intros [h k] _. apply orel_same. intros p _. unfold twins. cbn. repeat split; assumption.
  Qed.
  Lemma trial_step_neg i j s s' : twins s s' -> orel twins (trial_step mesh isVelocity copy i j s) (trial_step mesh isVelocity copy' i j s').
  Proof.
    intros T. pose proof T as (E1 & E2 & E3 & F & V & Z & L). unfold trial_step. rewrite E2.
    apply orel_same. intros k _. destruct (negb _); [|exact T]. apply orel_same. intros a _. destruct (is_frozen a); [|exact T].
    apply orel_same. intros b Eb. apply vget_Ok in Eb. destruct (is_none b) eqn:Nb; [|exact T]. apply orel_same. intros ok _. destruct ok; [|exact T].
    apply orel_same. intros st2 Es. apply vset_Ok in Es as [-> Hi]. cbn zeta.
    assert (Fb : is_frozen b = false) by (destruct b; try discriminate; reflexivity).
    destruct (copy_value _ i L (ex_intro _ b Eb)) as [x Ex]. pose proof (not_zero _ i b x Z Eb Fb Ex) as Nx.
    assert (Z2 : zeros_frozen (<[i := F_TRIAL]> (f_status s))) by (apply zeros_set; [exact Z|]; intros y Ey ->; congruence).
    cbn [f_status f_sd set_f_status].
    eapply orel_bind; [apply (update_neg _ _ _ i x F Ex Nx)|]. intros d d' Ed. unfold neg in Ed. subst d'.
    apply orel_negset; [exact F|]. intros m m' Fm. apply push_twins. unfold twins. cbn. rewrite insert_length. repeat split; assumption.
  Qed.
  Lemma trial_node_neg i s s' : twins s s' -> orel twins (trial_node mesh isVelocity copy i s) (trial_node mesh isVelocity copy' i s').
  Proof.
    intros T. pose proof T as (E1 & E2 & E3 & F & V & Z & L). unfold trial_node. rewrite E2. apply orel_same. intros a _. destruct (is_none a); [|exact T].
    apply orel_for_same; [exact T|]. intros k t t' _. apply trial_step_neg.
  Qed.
  Definition acc (a a' : VelAcc R) : Prop := va_dist a' = va_dist a /\ va_front a' = va_front a /\ va_set a' = va_set a /\ va_vel a' = - va_vel a.
  Lemma vel_step_neg s s' node i p p' : twins s s' -> acc p.1 p'.1 /\ acc p.2 p'.2 ->
    orel (fun p p' => acc p.1 p'.1 /\ acc p.2 p'.2) (vel_step mesh s node i p) (vel_step mesh s' node i p').
  Proof.
    intros (E1 & E2 & E3 & F & V & Z & L) [A B]. destruct p as [u v], p' as [u' v']. cbn [fst snd] in *. unfold vel_step. rewrite E2.
    apply orel_same. intros k _. destruct (negb _); [|split; assumption]. apply orel_same. intros a _. destruct (is_frozen a); [|split; assumption].
    apply orel_neg; [exact F|]. intros x _. cbn [nabs nltb nsub NumR fst snd]. rewrite Rabs_Ropp.
    assert (C : acc (if (i <? 2)%nat then u else v) (if (i <? 2)%nat then u' else v')) by (destruct (i <? 2)%nat; assumption).
    destruct C as (C1 & C2 & C3 & C4). rewrite C2, C3. destruct (_ || _); [|split; assumption].
    apply orel_neg; [exact F|]. intros y _. apply orel_neg; [exact V|]. intros w _.
    replace (- y - - x) with (- (y - x)) by ring. rewrite Rabs_Ropp.
    destruct (i <? 2)%nat; (split; cbn [fst snd]; [repeat split; try assumption|repeat split; try assumption]).
    all: first [apply A | apply B].
  Qed.
  Lemma velocity_twins node s s' : twins s s' -> orel twins (finaliseVelocity mesh node s) (finaliseVelocity mesh node s').
  Proof.
    intros T. pose proof T as (E1 & E2 & E3 & F & V & Z & L). unfold finaliseVelocity.
    eapply orel_bind; [apply (orel_for_same (fun p p' => acc p.1 p'.1 /\ acc p.2 p'.2))|].
    - split; (repeat split; cbn; change (@n0 R NumR) with 0; ring).
    - intros k p p' _. apply vel_step_neg, T.
    - intros [u v] [u' v'] [(A1 & A2 & A3 & A4) (B1 & B2 & B3 & B4)]. cbn [fst snd] in *. cbn zeta. rewrite A1, B1, A4, B4.
      apply orel_same. intros _ _.
      cbn [nadd nmul ndiv NumR]. change (@n0 R NumR) with 0.
      replace ((0 + va_dist u * - va_vel u + va_dist v * - va_vel v) / (0 + va_dist u + va_dist v))
        with (- ((0 + va_dist u * va_vel u + va_dist v * va_vel v) / (0 + va_dist u + va_dist v))) by (unfold Rdiv; ring).
      apply orel_negset; [exact V|]. intros m m' Fm. unfold twins. cbn. repeat split; assumption.
  Qed.
  Definition popped (x y : list nat * R * Fmm R) : Prop := x.1 = y.1 /\ twins x.2 y.2.
  Lemma pop_freeze_neg l s s' : twins s s' -> orel popped (pop_freeze mesh isVelocity l s) (pop_freeze mesh isVelocity l s').
  Proof.
    intros (E1 & E2 & E3 & F & V & Z & L). unfold pop_freeze. rewrite E3. apply orel_same. intros [h [ad val]] _. cbn [set_f_heap f_status]. rewrite E2.
    apply orel_same. intros st2 Es. apply vset_Ok in Es as [-> Hi].
    eapply (orel_bind twins).
    - assert (T : twins (set_f_status (<[ad := F_FROZEN]> (f_status s)) (set_f_heap h s)) (set_f_status (<[ad := F_FROZEN]> (f_status s)) (set_f_heap h s'))).
      { unfold twins. cbn. rewrite insert_length. repeat split; try assumption. apply zeros_set; [exact Z|reflexivity]. }
      destruct isVelocity; [apply velocity_twins, T|exact T].
    - intros t t' T. destruct (_ <? _)%nat; [split; [reflexivity|exact T]|exact I].
  Qed.
  Lemma pop_equal_neg fuel : forall v l s s', twins s s' -> orel (fun x y => x.1 = y.1 /\ twins x.2 y.2) (pop_equal mesh isVelocity fuel v l s) (pop_equal mesh isVelocity fuel v l s').
  Proof.
    induction fuel as [|fuel IH]; intros v l s s' T; cbn [pop_equal]; [exact I|]. pose proof T as (E1 & E2 & E3 & _). rewrite E3.
    destruct (negb _); [|split; [reflexivity|exact T]]. apply orel_same. intros top _. destruct (v =? top)%num; [|split; [reflexivity|exact T]].
    eapply orel_bind; [apply pop_freeze_neg, T|]. intros [[l1 v1] s1] [[l2 v2] s2] [E T2]. cbn [fst snd] in *. injection E as <- _. apply IH, T2.
  Qed.
  Lemma relax_neg ad j s s' : twins s s' -> orel twins (relax mesh isVelocity copy ad j s) (relax mesh isVelocity copy' ad j s').
  Proof.
    intros T. pose proof T as (E1 & E2 & E3 & F & V & Z & L). unfold relax. rewrite E2.
    apply orel_same. intros k _. destruct (negb (k =? _)%nat); [|exact T]. apply orel_same. intros a Ea. apply vget_Ok in Ea. destruct (negb (is_frozen a)) eqn:Fa; [|exact T].
    apply negb_true_iff in Fa.
    eapply orel_bind; [eapply update_twins; eassumption|]. intros d d' Ed. unfold neg in Ed. subst d'.
    apply orel_negset; [exact F|]. intros m m' Fm. cbn zeta.
    assert (T2 : twins (set_f_sd m s) (set_f_sd m' s')) by (unfold twins; cbn; repeat split; assumption).
    eapply (orel_bind twins).
    - pose proof T2 as (G1 & G2 & G3 & G4 & G5 & G6 & G7). destruct (is_trial a).
      + rewrite G1, G3. cbn [nabs NumR]. rewrite Rabs_Ropp. apply orel_same. intros p _. apply orel_same. intros h _. unfold twins. cbn. repeat split; assumption.
      + destruct (is_none a); [|exact T2]. apply orel_same. intros ok _. destruct ok; [|exact T2]. rewrite G2. apply orel_same. intros st2 Es. apply vset_Ok in Es as [-> Hi].
        apply push_twins. unfold twins. cbn in *. rewrite insert_length. repeat split; try assumption. apply zeros_set; [exact Z|].
        intros x Ex Hx. exfalso. revert Hx. eapply not_zero; eassumption.
    - clear - Cn Cr. intros t t' T. pose proof T as (E1 & E2 & E3 & F & V & Z & L). apply orel_same. intros k2 _. destruct (negb _); [|exact T]. rewrite E2.
      apply orel_same. intros b Eb. apply vget_Ok in Eb. destruct (is_trial b) eqn:Tb; [|exact T].
      eapply orel_bind; [eapply update_twins; [exact F|exact Z|exact L|exact Eb|destruct b; try discriminate; reflexivity]|]. intros d d' Ed. unfold neg in Ed. subst d'.
      apply orel_negset; [exact F|]. intros m m' Fm. rewrite E1, E3. cbn [nabs NumR]. rewrite Rabs_Ropp.
      apply orel_same. intros p _. apply orel_same. intros h _. unfold twins. cbn. repeat split; assumption.
  Qed.
  Lemma relax_all_neg l : forall s s', twins s s' -> orel twins (relax_all mesh isVelocity copy l s) (relax_all mesh isVelocity copy' l s').
  Proof.
    induction l as [|ad l IH]; intros s s' T; cbn [relax_all]; [exact T|].
    eapply orel_bind; [apply (orel_for_same twins); [exact T|intros; apply relax_neg; assumption]|]. intros t t'. apply IH.
  Qed.
  Lemma march_solve_neg fuel : forall s s', twins s s' -> orel twins (FmmModel.solve mesh isVelocity copy fuel s) (FmmModel.solve mesh isVelocity copy' fuel s').
  Proof.
    induction fuel as [|fuel IH]; intros s s' T; cbn [FmmModel.solve]; [exact I|]. pose proof T as (_ & _ & E3 & _). rewrite E3.
    destruct (negb _); [|exact T].
    eapply orel_bind; [apply pop_freeze_neg, T|]. intros [[l1 v1] s1] [[l2 v2] s2] [E T2]. cbn [fst snd] in *. injection E as <- <-.
    eapply orel_bind; [apply pop_equal_neg, T2|]. intros [l3 s3] [l4 s4] [E T3]. cbn [fst snd] in *. subst l4.
    eapply orel_bind; [apply relax_all_neg, T3|]. exact IH.
  Qed.
  Lemma march_core_neg test ptr sd sd' vel vel' : length copy = m_nNodes mesh -> Forall2 neg sd sd' -> Forall2 neg vel vel' ->
    orel twins (march_core mesh isVelocity copy test ptr (replicate (m_nNodes mesh) F_NONE) sd vel) (march_core mesh isVelocity copy' test ptr (replicate (m_nNodes mesh) F_NONE) sd' vel').
  Proof.
    intros L F V. unfold march_core. eapply (orel_bind (fun x y : list FStatus * list R => x.1 = y.1 /\ Forall2 neg x.2 y.2 /\ zeros_frozen x.1 /\ length x.1 = length copy)).
    - unfold initialiseFrozen. eapply orel_bind; [apply zeros_done; [apply replicate_length|exact L|intros i a Ea; apply lookup_replicate in Ea as [-> _]; reflexivity]|].
      intros [st n] [st' n'] (E & Z & Ls). cbn [fst snd] in *. injection E as <- <-.
      eapply orel_bind; [apply (orel_for_same (fun x y => bord x y /\ length x.1.1 = m_nNodes mesh)); [split; [repeat split; assumption|exact Ls]|]|].
      + intros k x y _ [B Lx]. pose proof (freeze_border_neg k x y B) as G.
        assert (GL : forall z, freeze_border mesh copy k x = Ok z -> length z.1.1 = m_nNodes mesh).
        { destruct x as [[u w] q]. cbn [fst] in Lx. unfold freeze_border. destruct (vget u k) as [a| | |]; cbn [obind]; try discriminate. destruct (is_none a); [|intros z [= <-]; exact Lx].
          match goal with |- context [for_ 4 ?f ?z] => destruct (for_ 4 f z) as [[[b d0] d1]| | |] end; cbn [obind]; try discriminate. destruct b; [|intros z [= <-]; exact Lx].
          destruct (vget copy k); cbn [obind]; try discriminate. match goal with |- context [vset w k ?e] => destruct (vset w k e) end; cbn [obind]; try discriminate. destruct (vset u k F_FROZEN) as [u2| | |] eqn:E; cbn [obind]; try discriminate.
          apply vset_Ok in E as [-> _]. intros z [= <-]. cbn. rewrite insert_length. exact Lx. }
        destruct (freeze_border mesh copy k x), (freeze_border mesh copy' k y); cbn in *; try contradiction; auto.
      + intros [[u w] q] [[u' w'] q'] [(E1 & Fw & E2 & Z2) Lu]. cbn [fst snd] in *. subst u' q'. apply orel_same. intros _ _. repeat split; [exact Fw|exact Z2|]. cbn. rewrite L. exact Lu.
    - intros [st w] [st' w'] (E & Fw & Z & Ls). cbn [fst snd] in *. subst st'. apply orel_same. intros cap _.
      eapply orel_bind; [apply (orel_for_same twins); [unfold twins; cbn; repeat split; assumption|intros; apply trial_node_neg; assumption]|].
      intros s s' T. apply march_solve_neg, T.
  Qed.
End march.

(** ** Level sets *)
Lemma take_copy_neg mesh (c c' sd sd' : list R) : Forall2 neg c c' -> Forall2 neg sd sd' -> orel (Forall2 neg) (take_copy mesh c sd) (take_copy mesh c' sd').
Proof.
  intros C F. unfold take_copy. apply (orel_for_same (Forall2 neg)); [exact C|]. intros k t t' _ Ft. apply orel_neg; [exact F|]. intros x _.
  apply (orel_vset neg); [exact Ft|reflexivity].
Qed.
Lemma march_neg W H mesh (sd : list R) : topo W H mesh -> length sd = node_count W H -> resolved sd ->
  orel (fun x y => Forall2 neg x.2 y.2) (fmm_march mesh (fmm_new mesh false) sd) (fmm_march mesh (fmm_new mesh false) (map Ropp sd)).
Proof.
  intros Ht L Hr. unfold fmm_march. cbn [fmm_new fo_copy fo_test fo_ptr fo_status].
  rewrite !(take_copy_ok W H) by (rewrite ?replicate_length, ?map_length; first [assumption|apply (tp_nN _ _ _ Ht)]). cbn [obind].
  eapply orel_bind; [apply (march_core_neg mesh false sd (map Ropp sd)); [apply neg_map|exact Hr|rewrite (tp_nN _ _ _ Ht); exact L|apply neg_map|constructor]|].
  intros s s' (_ & _ & _ & F & _). exact F.
Qed.
Lemma march_vel_neg W H mesh (sd vel : list R) : topo W H mesh -> length sd = node_count W H -> resolved sd ->
  orel (fun x y => y.1.2 = map Ropp x.1.2 /\ Forall2 neg x.2 y.2) (fmm_march_vel mesh (fmm_new mesh false) sd vel) (fmm_march_vel mesh (fmm_new mesh false) (map Ropp sd) (map Ropp vel)).
Proof.
  intros Ht L Hr. unfold fmm_march_vel. cbn [fmm_new fo_copy fo_test fo_ptr fo_status].
  rewrite !(take_copy_ok W H) by (rewrite ?replicate_length, ?map_length; first [assumption|apply (tp_nN _ _ _ Ht)]). cbn [obind].
  eapply orel_bind; [apply (march_core_neg mesh true sd (map Ropp sd)); [apply neg_map|exact Hr|rewrite (tp_nN _ _ _ Ht); exact L|apply neg_map|apply neg_map]|].
  intros s s' (_ & _ & _ & _ & V & _). split; [reflexivity|exact V].
Qed.
Lemma band_step_neg sd w fx i s : band_step (map Ropp sd) w fx i s = band_step sd w fx i s.
Proof.
  destruct s as [[[[m b] nb] mi] nm]. unfold band_step. apply orel_eq. apply orel_same. intros m1 _. apply orel_same. intros n _. destruct (_ && _); [|apply orel_refl].
  apply (fun F K => orel_bind (fun x y => neg y x) eq _ _ _ _ (orel_vget _ _ _ i F) K); [apply Forall2_flip, neg_map|]. intros x y E. unfold neg in E. subst x.
  cbn [nabs NumR]. rewrite Rabs_Ropp. apply orel_refl.
Qed.
Lemma band_neg s : initialiseNarrowBand (flip s) = (let! t := initialiseNarrowBand s in Ok (flip t)).
Proof.
  unfold initialiseNarrowBand, flip. cbn. rewrite (for_ext _ _ (band_step (ls_sd s) (ls_bandWidth s) (ls_fixed s))) by (intros; apply band_step_neg).
  destruct (for_ _ _ _) as [[[[[m b] nb] mi] nm]| | |]; reflexivity.
Qed.
Lemma reinitialise_neg W H s : topo W H (ls_mesh s) -> length (ls_sd s) = node_count W H -> resolved (ls_sd s) ->
  reinitialise (flip s) = (let! t := reinitialise s in Ok (flip t)).
Proof.
  intros Ht L Hr. unfold reinitialise. pose proof (march_neg W H (ls_mesh s) (ls_sd s) Ht L Hr) as M.
  change (ls_mesh (flip s)) with (ls_mesh s). change (ls_sd (flip s)) with (map Ropp (ls_sd s)).
  destruct (fmm_march (ls_mesh s) (fmm_new (ls_mesh s) false) (ls_sd s)) as [[o sd]| | |], (fmm_march (ls_mesh s) (fmm_new (ls_mesh s) false) (map Ropp (ls_sd s))) as [[o' sd']| | |]; cbn in M |- *; try contradiction; try reflexivity.
  apply neg_eq in M. subst sd'. rewrite <- band_neg. reflexivity.
Qed.

(** Velocities *)
Definition vels (x y : VelState (T:=R)) : Prop := Forall2 neg x.1.1 y.1.1 /\ x.1.2 = y.1.2 /\ x.2 = y.2.
Lemma vel_contrib_neg m p lim node x y : vels x y -> orel vels (vel_contrib m p lim node x) (vel_contrib m (reversed p) lim node y).
Proof.
  intros V. pose proof V as (F & E1 & E2). destruct x as [[v w] b], y as [[v' w'] b']. cbn [fst snd] in *. subst w' b'. unfold vel_contrib. cbn [reversed set_bp_velocity bp_coord bp_velocity].
  apply orel_same. intros n _. cbn zeta. destruct (_ <? _)%num.
  - apply orel_negset; [exact F|]. intros u u' Fu. apply orel_same. intros w2 _. apply orel_same. intros b2 _. repeat split. exact Fu.
  - destruct (_ || _); [|exact V]. apply orel_same. intros b2 _. destruct (negb b2); [|exact V].
    apply orel_neg; [exact F|]. intros z _. match goal with |- orel _ _ (obind (vset _ _ ?e) _) => replace e with (- (z + bp_velocity p / ((cx (nd_coord n) - cx (bp_coord p)) * (cx (nd_coord n) - cx (bp_coord p)) + (cy (nd_coord n) - cy (bp_coord p)) * (cy (nd_coord n) - cy (bp_coord p))))) by (cbn; unfold Rdiv; ring) end.
    apply orel_negset; [exact F|]. intros u u' Fu. apply orel_same. intros w2 _. apply orel_same. intros w3 _. repeat split. exact Fu.
Qed.
Lemma vel_point_neg m ps i x y : vels x y -> orel vels (vel_point m ps i x) (vel_point m (map reversed ps) i y).
Proof.
  intros V. unfold vel_point. eapply (orel_bind (fun p q => q = reversed p)); [apply orel_vget; clear; induction ps; constructor; auto|]. intros p _ ->.
  cbn [reversed set_bp_velocity bp_coord]. apply orel_same. intros node _. eapply orel_bind; [apply (vel_contrib_neg m p), V|]. intros x1 y1 V1.
  apply (orel_for_same vels); [exact V1|]. intros k t t' _ Vt. apply orel_same. intros nb _. destruct (_ <? _)%nat; [|exact Vt]. apply (vel_contrib_neg m p), Vt.
Qed.
Lemma initialiseVelocities_neg s ps : orel (Forall2 neg) (initialiseVelocities s ps) (initialiseVelocities (flip s) (map reversed ps)).
Proof.
  unfold initialiseVelocities. cbn zeta. change (ls_mesh (flip s)) with (ls_mesh s). change (ls_vel (flip s)) with (map Ropp (ls_vel s)). change (ls_nBand (flip s)) with (ls_nBand s). change (ls_band (flip s)) with (ls_band s).
  eapply (orel_bind (Forall2 neg)).
  - apply (orel_for_same (Forall2 neg)); [apply neg_map|]. intros k t t' _ Ft. apply (orel_vset neg); [exact Ft|]. unfold neg. cbn. change (@n0 R NumR) with 0. ring.
  - intros v v' F. rewrite map_length. eapply (orel_bind vels).
    + apply (orel_for_same vels); [repeat split; exact F|]. intros k t t' _ Vt. apply vel_point_neg, Vt.
    + intros [[u w] b] [[u' w'] b'] (Fu & E & _). cbn [fst snd] in *. subst w'. apply (orel_for_same (Forall2 neg)); [exact Fu|]. intros k t t' _ Ft. unfold vel_normalise.
      apply orel_same. intros node _. apply orel_neg; [exact Ft|]. intros x _. cbn [neqb ndiv NumR]. change (@n0 R NumR) with 0. rewrite eqb_opp0. destruct (negb _); [|exact Ft].
      apply orel_same. intros q _. replace (- x / q) with (- (x / q)) by (unfold Rdiv; ring). apply (orel_vset neg); [exact Ft|reflexivity].
Qed.
Lemma velocities_neg W H s ps : topo W H (ls_mesh s) -> length (ls_sd s) = node_count W H -> resolved (ls_sd s) ->
  computeVelocities (flip s) (map reversed ps) = (let! t := computeVelocities s ps in Ok (flip t)).
Proof.
  intros Ht L Hr. unfold computeVelocities. pose proof (initialiseVelocities_neg s ps) as I.
  destruct (initialiseVelocities s ps) as [v| | |], (initialiseVelocities (flip s) (map reversed ps)) as [v'| | |]; cbn in I |- *; try contradiction; try reflexivity.
  apply neg_eq in I. subst v'. pose proof (march_vel_neg W H (ls_mesh s) (ls_sd s) v Ht L Hr) as M.
  destruct (fmm_march_vel (ls_mesh s) (fmm_new (ls_mesh s) false) (ls_sd s) v) as [[[o sd] u]| | |], (fmm_march_vel (ls_mesh s) (fmm_new (ls_mesh s) false) (map Ropp (ls_sd s)) (map Ropp v)) as [[[o' sd'] u']| | |]; cbn in M |- *; try contradiction; try reflexivity.
  destruct M as [-> F]. apply neg_eq in F. subst u'. reflexivity.
Qed.
