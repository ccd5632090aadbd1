(** * HeapRefine: every history of heap calls is a history of the abstract queue. *)

From Verif Require Import HeapModel HeapSpec HeapSift HeapProofs.
From Coq Require Import ZifyBool ZifyNat Sorting.Permutation Sorting.Sorted.
Ltac Zify.zify_post_hook ::= Z.div_mod_to_equations.

Section refine.
  Context {T : Type} `{NT : Num T}.
  Variable P : T -> Prop.
  Implicit Types (h : Heap T) (q : pq T).

  Record repr (h : Heap T) (q : pq T) : Prop := {
    r_inv : hinv h;
    r_next : pq_next q = h_list h;
    r_live : forall k a v, pq_live q !! k = Some (a, v) <->
                live h k /\ h_addr h !! k = Some a /\ h_dist h !! k = Some v
  }.

  Lemma live_lt h k : hinv h -> live h k -> k < h_list h.
  Proof. intros [W _ _] (i & Hi & Hik). eapply w_heap; eauto. Qed.

  Lemma repr_lookup_live h q k : repr h q -> live h k -> exists a v,
    pq_live q !! k = Some (a, v) /\ h_addr h !! k = Some a /\ h_dist h !! k = Some v.
  Proof.
    intros R HL. pose proof (r_inv _ _ R) as Hi. pose proof (live_lt _ _ Hi HL) as Hk.
    destruct Hi as [W Hd Ha]. pose proof (w_lst _ _ _ _ _ W).
    destruct (lookup_lt_is_Some_2 (h_addr h) k) as [a Hax]; [lia|].
    destruct (lookup_lt_is_Some_2 (h_dist h) k) as [v Hvx]; [lia|].
    exists a, v. split; [|auto]. apply (r_live _ _ R). auto.
  Qed.

  Lemma repr_size h q : repr h q -> size (pq_live q) = h_len h.
  Proof.
    intros R. pose proof (r_inv _ _ R) as [W Hd Ha].
    pose proof (w_lh _ _ _ _ _ W) as Hlh. pose proof (w_len _ _ _ _ _ W). pose proof (w_lst _ _ _ _ _ W).
    rewrite <- size_dom.
    assert (Hdom : dom (pq_live q) = list_to_set (C := gset nat) (take (h_len h) (h_heap h))).
    { apply set_eq. intros k. rewrite elem_of_dom, elem_of_list_to_set. split.
      - intros [[a v] Hk]. apply (r_live _ _ R) in Hk as [(i & Hi & Hik) _].
        apply elem_of_list_lookup. exists i. rewrite lookup_take by lia. exact Hik.
      - intros Hk. apply elem_of_list_lookup in Hk as [i Hi].
        assert (i < h_len h).
        { apply lookup_lt_Some in Hi. rewrite take_length in Hi. lia. }
        rewrite lookup_take in Hi by lia.
        destruct (repr_lookup_live h q k R) as (a & v & Hq & _); [exists i; auto|]. eauto. }
    rewrite Hdom, size_list_to_set.
    - rewrite take_length. lia.
    - apply NoDup_alt. intros i j k Hik Hjk.
      assert (i < h_len h) by (apply lookup_lt_Some in Hik; rewrite take_length in Hik; lia).
      assert (j < h_len h) by (apply lookup_lt_Some in Hjk; rewrite take_length in Hjk; lia).
      rewrite lookup_take in Hik by lia. rewrite lookup_take in Hjk by lia.
      eapply winv_unique; eauto.
  Qed.

  Lemma repr_empty h q : repr h q -> pq_live q = ∅ <-> h_len h = 0.
  Proof. intros R. rewrite <- (repr_size h q R). symmetry. apply map_size_empty_iff. Qed.

  (** The root is minimal. *)
  Lemma root_min h : NumOrd T P -> allP P (h_dist h) -> hinv h -> hordered h ->
    forall i top k, h_heap h !! 0 = Some top -> i < h_len h -> h_heap h !! i = Some k ->
    ile (keyof (h_dist h)) top k.
  Proof.
    intros O HP [W Hd Ha] HO i. pose proof (w_lh _ _ _ _ _ W) as Hlh.
    pose proof (w_len _ _ _ _ _ W). pose proof (w_lst _ _ _ _ _ W).
    induction i as [i IH] using lt_wf_ind. intros top k Htop Hi Hik.
    assert (Hb : forall j x, h_heap h !! j = Some x -> P (keyof (h_dist h) x)).
    { intros j x Hx. eapply allP_key; eauto. eapply w_bound; eauto. }
    destruct (Nat.eq_dec i 0) as [->|Hne].
    - assert (k = top) as -> by congruence. apply nlt_irrefl. eauto.
    - destruct (lookup_lt_is_Some_2 (h_heap h) (parent i)) as [p Hp]; [unfold parent; lia|].
      assert (H1 : ile (keyof (h_dist h)) top p) by (eapply (IH (parent i)); eauto; unfold parent; lia).
      assert (H2 : ile (keyof (h_dist h)) p k) by (eapply (HO i); eauto; lia).
      unfold ile in *. eapply (nlt_negtrans _ (keyof (h_dist h) p)); eauto.
  Qed.

  Definition sortedP (h : Heap T) : Prop := NumOrd T P /\ allP P (h_dist h) /\ hordered h.

  Definition op_ok (cap : nat) (q : pq T) (o : hop T) : Prop :=
    match o with
    | OPush _ v => pq_next q < cap
    | OSet k v => k < pq_next q
    | _ => True
    end.

  Definition op_val (o : hop T) : Prop :=
    match o with OPush _ v | OSet _ v => P v | _ => True end.

  Lemma heap_op_spec (sorted : Prop) h q cap o :
    repr h q -> h_max h = cap ->
    (sorted -> sortedP h /\ op_val o) ->
    (h_test h = true -> sorted) ->
    op_ok cap q o ->
    wp (pq_rejects cap q o) False (heap_op h o)
      (fun '(h', r) => exists q', pq_step sorted cap q o q' r /\ repr h' q' /\
         h_max h' = cap /\ h_test h' = h_test h /\ (sorted -> sortedP h')).
  Proof.
    intros R Hmax Hs Ht Hok. pose proof (r_inv _ _ R) as Hinv.
    pose proof (r_next _ _ R) as Hnext.
    destruct Hinv as [W Hd Ha] eqn:EH. clear EH.
    pose proof (w_lh _ _ _ _ _ W) as Hlh. pose proof (w_len _ _ _ _ _ W) as Hlen.
    pose proof (w_lst _ _ _ _ _ W) as Hlst.
    destruct o as [a v| |k v| | |]; cbn [heap_op op_ok op_val pq_rejects] in *.
    - (* push *)
      apply wp_bind. eapply wp_impl.
      { apply (heap_push_spec P); [exact Hinv|lia|].
        intros Htt. left. destruct (Hs (Ht Htt)) as [(O & HP & HO) Pv]. auto. }
      intros [h' k] (-> & Hi' & Hm' & Ht' & Hl' & Hls' & Ha' & Hd' & HL' & HO').
      apply wp_ok. rewrite <- Hnext.
      exists (mkpq (<[pq_next q := (a, v)]> (pq_live q)) (S (pq_next q))).
      split; [|split; [|split; [|split]]].
      + constructor. rewrite (repr_size _ _ R). lia.
      + constructor; cbn; [exact Hi'|lia|].
        intros k a' v'. rewrite HL', Ha', Hd', Hnext.
        destruct (Nat.eq_dec k (h_list h)) as [->|Hne].
        * rewrite lookup_insert, !list_lookup_insert by lia. split.
          -- intros E; inversion E; subst. auto.
          -- intros (_ & E1 & E2); inversion E1; inversion E2; reflexivity.
        * rewrite lookup_insert_ne, !list_lookup_insert_ne by congruence.
          rewrite (r_live _ _ R). split; [intros (? & ? & ?); auto|].
          intros ([?|?] & ? & ?); [auto|congruence].
      + congruence.
      + exact Ht'.
      + intros S. destruct (Hs S) as [(O & HP & HO) Pv]. split; [exact O|]. split.
        * rewrite Hd'. apply Forall_insert; auto.
        * apply HO'; auto.
    - (* pop *)
      apply wp_bind. destruct (Nat.eq_dec (h_len h) 0) as [H0|H0].
      { unfold heap_pop. rewrite H0. cbn. apply (repr_empty h q); auto. }
      eapply wp_impl.
      { apply (heap_pop_spec P); [exact Hinv|exact H0|].
        intros Htt. left. destruct (Hs (Ht Htt)) as [(O & HP & HO) _]. split; [exact O|]. split; [exact HP|exact HO]. }
      intros [h' [a v]] (k & Hk0 & Hka & Hkv & Hi' & Hm' & Ht' & Hl' & Hls' & Ha' & Hd' & HL' & HO').
      apply wp_ok.
      assert (HLk : live h k) by (exists 0; split; [lia|exact Hk0]).
      exists (mkpq (delete k (pq_live q)) (pq_next q)).
      split; [|split; [|split; [|split]]].
      + apply st_pop; [apply (r_live _ _ R); auto|].
        intros S k' a' v' Hk'. destruct (Hs S) as [(O & HP & HO) _].
        apply (r_live _ _ R) in Hk' as ((i & Hi & Hik) & _ & Hv').
        pose proof (root_min h O HP Hinv HO i k k' Hk0 Hi Hik) as Hle.
        unfold ile, keyof in Hle. rewrite Hkv, Hv' in Hle. exact Hle.
      + constructor; cbn; [exact Hi'|lia|].
        intros k' a' v'. rewrite HL', Ha', Hd'.
        destruct (Nat.eq_dec k' k) as [->|Hne].
        * rewrite lookup_delete. split; [discriminate|]. intros ([_ C] & _); congruence.
        * rewrite lookup_delete_ne by congruence. rewrite (r_live _ _ R).
          split; [intros (? & ? & ?); auto|intros ([? _] & ? & ?); auto].
      + congruence.
      + exact Ht'.
      + intros S. destruct (Hs S) as [(O & HP & HO) _]. split; [exact O|]. split.
        * rewrite Hd'; exact HP.
        * apply HO'; auto.
    - (* set *)
      apply wp_bind. eapply wp_impl.
      { apply (heap_set_spec P); [exact Hinv|lia|].
        intros Htt. left. destruct (Hs (Ht Htt)) as [(O & HP & HO) Pv]. auto. }
      intros h' (Hi' & Hm' & Ht' & Hl' & Hls' & Ha' & Hd' & HL' & HO').
      apply wp_ok.
      exists (mkpq (alter (fun e => (e.1, v)) k (pq_live q)) (pq_next q)).
      split; [|split; [|split; [|split]]].
      + constructor.
      + constructor; cbn; [exact Hi'|lia|].
        intros k' a' v'. rewrite HL', Ha', Hd'.
        destruct (Nat.eq_dec k' k) as [->|Hne].
        * rewrite lookup_alter, list_lookup_insert by lia. split.
          -- intros E. apply fmap_Some in E as ([a0 v0] & E1 & E2). cbn in E2. inversion E2; subst.
             apply (r_live _ _ R) in E1 as (? & ? & ?). auto.
          -- intros (HL & Ea & Ev). inversion Ev; subst.
             destruct (repr_lookup_live h q k R HL) as (a0 & v0 & Eq & Ea0 & _).
             rewrite Eq. cbn. congruence.
        * rewrite lookup_alter_ne, list_lookup_insert_ne by congruence. apply (r_live _ _ R).
      + congruence.
      + exact Ht'.
      + intros S. destruct (Hs S) as [(O & HP & HO) Pv]. split; [exact O|]. split.
        * rewrite Hd'. apply Forall_insert; auto.
        * apply HO'; auto.
    - (* peek *)
      unfold heap_peek. destruct (Nat.eq_dec (h_len h) 0) as [H0|H0].
      { rewrite H0. cbn. apply (repr_empty h q); auto. }
      apply wp_bind, wp_bind, wp_check; [|intros C; apply negb_false_iff, Nat.eqb_eq in C; contradiction].
      intros _. apply wp_bind, wp_vget_lt; [lia|]. intros k Hk.
      assert (HLk : live h k) by (exists 0; split; [lia|exact Hk]).
      destruct (repr_lookup_live h q k R HLk) as (a & v & Eq & _ & Ev).
      apply wp_vget with v; [exact Ev|]. apply wp_ok.
      exists q. split; [|auto]. 2: { split; [exact R|]. split; [exact Hmax|]. split; [reflexivity|]. intros S. apply Hs, S. }
      eapply st_peek; [exact Eq|].
      intros S k' a' v' Hk'. destruct (Hs S) as [(O & HP & HO) _].
      apply (r_live _ _ R) in Hk' as ((i & Hi & Hik) & _ & Hv').
      pose proof (root_min h O HP Hinv HO i k k' Hk Hi Hik) as Hle.
      unfold ile, keyof in Hle. rewrite Ev, Hv' in Hle. exact Hle.
    - (* size *)
      exists q. split; [unfold heap_size; rewrite <- (repr_size h q R); constructor|].
      split; [exact R|]. split; [exact Hmax|]. split; [reflexivity|]. intros S. apply Hs, S.
    - (* empty *)
      exists q. split.
      { unfold heap_empty. replace (h_len h =? 0)%nat with (bool_decide (pq_live q = ∅)); [constructor|].
        destruct (Nat.eqb_spec (h_len h) 0) as [E|E].
        - apply bool_decide_eq_true. apply (repr_empty h q R). exact E.
        - apply bool_decide_eq_false. intros C. apply E, (repr_empty h q R), C. }
      split; [exact R|]. split; [exact Hmax|]. split; [reflexivity|]. intros S. apply Hs, S.
  Qed.

  (** How the concrete and the abstract run end. *)
  Definition end_rel (e : outcome (Heap T)) (e' : outcome (pq T)) : Prop :=
    match e, e' with
    | Ok h, Ok q => repr h q
    | Exit, Exit => True
    | _, _ => False
    end.

  Lemma pq_step_next sorted cap q o q' r os :
    pq_step sorted cap q o q' r ->
    handles_ok (pq_next q) (o :: os) -> handles_ok (pq_next q') os.
  Proof. destruct 1; cbn; tauto. Qed.

  Lemma heap_run_spec (sorted : Prop) cap os : forall h q,
    repr h q -> h_max h = cap ->
    (sorted -> sortedP h /\ values_ok P os) ->
    (h_test h = true -> sorted) ->
    pq_next q + pushes os <= cap -> handles_ok (pq_next q) os ->
    exists e', pq_run sorted cap q os (heap_run h os).1 e' /\ end_rel (heap_run h os).2 e' /\
      (sorted -> match (heap_run h os).2 with Ok h' => sortedP h' | _ => True end) /\
      match (heap_run h os).2 with Ok h' => h_max h' = cap /\ h_test h' = h_test h | _ => True end.
  Proof.
    induction os as [|o os IH]; intros h q R Hmax Hs Ht Hp Hh.
    - exists (Ok q). split; [constructor|]. split; [exact R|]. split; [|split; [exact Hmax|reflexivity]]. intros S. apply Hs, S.
    - assert (Hok : op_ok cap q o).
      { destruct o; cbn in *; try exact I; [lia|tauto]. }
      assert (Hs1 : sorted -> sortedP h /\ op_val o).
      { intros S. destruct (Hs S) as [H1 H2]. split; [exact H1|]. destruct o; cbn in *; tauto. }
      pose proof (heap_op_spec sorted h q cap o R Hmax Hs1 Ht Hok) as Hstep.
      cbn [heap_run]. destruct (heap_op h o) as [[h' r]| | |] eqn:Hop; cbn in Hstep; try contradiction.
      + destruct Hstep as (q' & Hst & R' & Hm' & Ht' & Hs').
        assert (Hp' : pq_next q' + pushes os <= cap).
        { destruct Hst; cbn in *; lia. }
        destruct (IH h' q' R' Hm') as (e' & Hrun & Hend & HS & HM).
        * intros S. split; [apply Hs', S|]. destruct (Hs S) as [_ Hv]. destruct o; cbn in Hv; tauto.
        * rewrite Ht'. exact Ht.
        * exact Hp'.
        * eapply pq_step_next; eauto.
        * exists e'. destruct (heap_run h' os) as [rs e]. cbn in *.
          split; [econstructor; eauto|]. split; [exact Hend|]. split; [exact HS|].
          destruct e; [|exact I..]. rewrite <- Ht'. exact HM.
      + exists Exit. cbn. split; [constructor; exact Hstep|]. split; [exact I|]. split; [intros; exact I|exact I].
  Qed.

  Lemma repr_new cap t : repr (heap_new cap t) (mkpq ∅ 0).
  Proof.
    constructor; [apply hinv_new|reflexivity|].
    intros k a v. cbn [pq_live]. rewrite lookup_empty. split; [discriminate|].
    intros ((i & Hi & _) & _). cbn in Hi. lia.
  Qed.

  Lemma sortedP_new cap t : NumOrd T P -> P n0 -> sortedP (heap_new cap t).
  Proof.
    intros O H0. split; [exact O|]. split.
    - unfold allP. cbn. apply Forall_replicate; exact H0.
    - intros i k kp Hi0 Hi. cbn in Hi. lia.
  Qed.

  (** The refinement for ordered values. *)
  Lemma heap_refines_sorted cap t os :
    NumOrd T P -> P n0 ->
    pushes os <= cap -> handles_ok 0 os -> values_ok P os ->
    exists e', pq_run True cap (mkpq ∅ 0) os (heap_run (heap_new cap t) os).1 e' /\
      end_rel (heap_run (heap_new cap t) os).2 e'.
  Proof.
    intros O H0 Hp Hh Hv.
    destruct (heap_run_spec True cap os (heap_new cap t) (mkpq ∅ 0)) as (e' & H1 & H2 & _); auto.
    - apply repr_new.
    - intros _. split; [apply sortedP_new; assumption|exact Hv].
    - eauto.
  Qed.

  (** The refinement for arbitrary comparison results, self-test off. *)
  Lemma heap_refines_any cap os :
    pushes os <= cap -> handles_ok 0 os ->
    exists e', pq_run False cap (mkpq ∅ 0) os (heap_run (heap_new cap false) os).1 e' /\
      end_rel (heap_run (heap_new cap false) os).2 e'.
  Proof.
    intros Hp Hh.
    destruct (heap_run_spec False cap os (heap_new cap false) (mkpq ∅ 0)) as (e' & H1 & H2 & _); auto.
    - apply repr_new.
    - contradiction.
    - discriminate.
    - eauto.
  Qed.
End refine.

Section extra.
  Context {T : Type} `{NT : Num T}.
  Implicit Types (h : Heap T) (q : pq T) (o : hop T).

  (** Self-test on, arbitrary comparison results: still memory safe. *)
  Lemma heap_op_safe_any h o :
    hinv h ->
    match o with OPush _ _ => h_list h < h_max h | OSet k _ => k < h_list h | _ => True end ->
    wp True False (heap_op h o) (fun '(h', _) => hinv h' /\ h_max h' = h_max h /\
       h_list h' = match o with OPush _ _ => S (h_list h) | _ => h_list h end).
  Proof.
    intros Hi Hok. pose proof Hi as [W Hd Ha]. pose proof (w_lh _ _ _ _ _ W).
    pose proof (w_len _ _ _ _ _ W). pose proof (w_lst _ _ _ _ _ W).
    destruct o as [a v| |k v| | |]; cbn [heap_op].
    - apply wp_bind. eapply wp_impl; [apply (heap_push_spec (fun _ => True)); auto|].
      intros [h' k] (_ & B1 & B2 & _ & _ & B3 & _). apply wp_ok. auto.
    - apply wp_bind. destruct (Nat.eq_dec (h_len h) 0) as [H0'|H0'].
      { unfold heap_pop. rewrite H0'. exact I. }
      eapply wp_impl; [apply (heap_pop_spec (fun _ => True)); auto|].
      intros [h' [a v]] (k & _ & _ & _ & B1 & B2 & _ & _ & B3 & _). apply wp_ok. auto.
    - apply wp_bind. eapply wp_impl; [apply (heap_set_spec (fun _ => True)); auto|].
      intros h' (B1 & B2 & _ & _ & B3 & _). apply wp_ok. auto.
    - unfold heap_peek. apply wp_bind, wp_bind, wp_check; [|auto]. intros Hc.
      apply negb_true_iff, Nat.eqb_neq in Hc.
      apply wp_bind, wp_vget_lt; [lia|]. intros k Hk.
      pose proof (w_bound _ _ _ _ _ W _ _ Hk). apply wp_vget_lt; [lia|]. intros v _. apply wp_ok. auto.
    - apply wp_ok. auto.
    - apply wp_ok. auto.
  Qed.

  Lemma heap_run_safe_any os : forall h,
    hinv h -> h_list h + pushes os <= h_max h -> handles_ok (h_list h) os ->
    (heap_run h os).2 <> UB /\ (heap_run h os).2 <> OutOfFuel.
  Proof.
    induction os as [|o os IH]; intros h Hi Hp Hh; cbn [heap_run]; [split; discriminate|].
    assert (Hok : match o with OPush _ _ => h_list h < h_max h | OSet k _ => k < h_list h | _ => True end).
    { destruct o; cbn in *; try exact I; [lia|tauto]. }
    pose proof (heap_op_safe_any h o Hi Hok) as Hs.
    destruct (heap_op h o) as [[h' r]| | |]; cbn in Hs; try contradiction; [|split; discriminate].
    destruct Hs as (Hi' & Hm' & Hl').
    specialize (IH h' Hi'). destruct (heap_run h' os) as [rs e]. cbn in *. apply IH.
    - rewrite Hl', Hm'. destruct o; cbn in *; lia.
    - rewrite Hl'. destruct o; cbn in *; tauto.
  Qed.

  (** [peek] returns the value the next [pop] returns. *)
  Lemma peek_pop h v h' a v' :
    heap_peek h = Ok v -> heap_pop h = Ok (h', (a, v')) -> v = v'.
  Proof.
    unfold heap_peek, heap_pop. intros H1 H2.
    apply obind_Ok in H1 as ([] & Hc & H1). rewrite Hc in H2. cbn [obind] in H2.
    apply obind_Ok in H1 as (top & Ht & H1). rewrite Ht in H2. cbn [obind] in H2.
    apply obind_Ok in H2 as (a0 & _ & H2). rewrite H1 in H2. cbn [obind] in H2.
    apply obind_Ok in H2 as (? & _ & H2). apply obind_Ok in H2 as (? & _ & H2).
    apply obind_Ok in H2 as (? & _ & H2). apply obind_Ok in H2 as (? & _ & H2).
    apply obind_Ok in H2 as ([? ?] & _ & H2). apply obind_Ok in H2 as (? & _ & H2).
    inversion H2. reflexivity.
  Qed.

  (** ** The self-test is transparent *)
  Definition set_test (t : bool) (h : Heap T) : Heap T :=
    mkHeap (h_max h) t (h_len h) (h_list h) (h_dist h) (h_heap h) (h_addr h) (h_back h).

  Lemma heap_op_test h o :
    heap_op (set_test true h) o =
    let! (h', r) := heap_op (set_test false h) o in
    match o with
    | OPush _ _ | OPop | OSet _ _ => let! _ := heap_test (set_test true h') in Ok (set_test true h', r)
    | _ => Ok (set_test true h', r)
    end.
  Proof.
    destruct o as [a v| |k v| | |]; cbn [heap_op].
    - unfold heap_push, set_test; cbn [h_max h_len h_list h_dist h_heap h_addr h_back h_test].
      repeat match goal with
      | |- context [obind (check ?b) _] => destruct (check b); cbn [obind]; [|reflexivity..]
      | |- context [obind (vset ?l ?i ?x) _] => destruct (vset l i x); cbn [obind]; [|reflexivity..]
      end.
      destruct (siftDown _ _ _ _ _) as [[hp bk]| | |]; cbn [obind]; [|reflexivity..].
      unfold maybe_test; cbn [h_test obind].
      destruct (heap_test _); reflexivity.
    - unfold heap_pop, set_test; cbn [h_max h_len h_list h_dist h_heap h_addr h_back h_test].
      repeat match goal with
      | |- context [obind (check ?b) _] => destruct (check b); cbn [obind]; [|reflexivity..]
      | |- context [obind (vset ?l ?i ?x) _] => destruct (vset l i x); cbn [obind]; [|reflexivity..]
      | |- context [obind (vget ?l ?i) _] => destruct (vget l i); cbn [obind]; [|reflexivity..]
      end.
      destruct (siftUp _ _ _ _ _) as [[hp bk]| | |]; cbn [obind]; [|reflexivity..].
      unfold maybe_test; cbn [h_test obind].
      destruct (heap_test _); reflexivity.
    - unfold heap_set, set_test; cbn [h_max h_len h_list h_dist h_heap h_addr h_back h_test].
      destruct (vget (h_dist h) k) as [od| | |]; cbn [obind]; [|reflexivity..].
      destruct (vset (h_dist h) k v) as [d1| | |]; cbn [obind]; [|reflexivity..].
      destruct (vget (h_back h) k) as [pos| | |]; cbn [obind]; [|reflexivity..].
      destruct (if nltb od v then _ else _) as [[hp bk]| | |]; cbn [obind]; [|reflexivity..].
      destruct (vget hp pos) as [x| | |]; cbn [obind]; [|reflexivity..].
      destruct (vget d1 x) as [d| | |]; cbn [obind]; [|reflexivity..].
      destruct (negb (neqb d v)).
      + unfold maybe_test; cbn [h_test obind]. destruct (heap_test _); reflexivity.
      + destruct (siftDown _ _ _ _ _) as [[hp2 bk2]| | |]; cbn [obind]; [|reflexivity..].
        unfold maybe_test; cbn [h_test obind]. destruct (heap_test _); reflexivity.
    - unfold heap_peek, set_test; cbn [h_max h_len h_list h_dist h_heap h_addr h_back h_test].
      repeat match goal with
      | |- context [obind (check ?b) _] => destruct (check b); cbn [obind]; [|reflexivity..]
      | |- context [obind (vget ?l ?i) _] => destruct (vget l i); cbn [obind]; [|reflexivity..]
      end. reflexivity.
    - reflexivity.
    - reflexivity.
  Qed.

  Definition map_outcome {A B} (f : A -> B) (o : outcome A) : outcome B :=
    match o with Ok a => Ok (f a) | Exit => Exit | UB => UB | OutOfFuel => OutOfFuel end.

  Lemma heap_run_test_transparent (P : T -> Prop) cap os : forall h q,
    h_test h = false ->
    repr h q -> h_max h = cap -> sortedP P h -> values_ok P os ->
    pq_next q + pushes os <= cap -> handles_ok (pq_next q) os ->
    (heap_run (set_test true h) os).1 = (heap_run h os).1 /\
    (heap_run (set_test true h) os).2 = map_outcome (set_test true) (heap_run h os).2.
  Proof.
    induction os as [|o os IH]; intros h q Hf R Hm HS Hv Hp Hh; [split; reflexivity|].
    assert (Eh : set_test false h = h) by (destruct h; cbn in *; subst; reflexivity).
    assert (Hok : op_ok cap q o).
    { destruct o; cbn in *; try exact I; [lia|tauto]. }
    assert (Hs1 : True -> sortedP P h /\ op_val P o).
    { intros _. split; [exact HS|]. destruct o; cbn in *; tauto. }
    pose proof (heap_op_spec P True h q cap o R Hm Hs1 ltac:(auto) Hok) as Hstep.
    cbn [heap_run]. rewrite heap_op_test, Eh.
    destruct (heap_op h o) as [[h' r]| | |] eqn:Hop; cbn [obind wp] in *; try contradiction.
    - destruct Hstep as (q' & Hst & R' & Hm' & Ht' & Hs'). specialize (Hs' I).
      assert (Htest : heap_test (set_test true h') = Ok tt).
      { pose proof (heap_test_spec P False (set_test true h')) as Hx.
        assert (Hi' : hinv (set_test true h')).
        { pose proof (r_inv _ _ R') as [? ? ?]. constructor; assumption. }
        specialize (Hx Hi' (or_introl Hs')). apply wp_total in Hx as ([] & E & _). exact E. }
      assert (E : (match o with
        | OPush _ _ | OPop | OSet _ _ => let! _ := heap_test (set_test true h') in Ok (set_test true h', r)
        | _ => Ok (set_test true h', r) end) = Ok (set_test true h', r)).
      { destruct o; try reflexivity; rewrite Htest; reflexivity. }
      rewrite E.
      assert (Hp' : pq_next q' + pushes os <= cap) by (destruct Hst; cbn in *; lia).
      assert (Hh' : handles_ok (pq_next q') os) by (eapply pq_step_next; eauto).
      assert (Hv' : values_ok P os) by (destruct o; cbn in Hv; tauto).
      destruct (IH h' q' ltac:(congruence) R' Hm' Hs' Hv' Hp' Hh') as [E1 E2].
      destruct (heap_run (set_test true h') os) as [rs1 e1], (heap_run h' os) as [rs2 e2]. cbn in *.
      subst. auto.
    - split; reflexivity.
  Qed.

  Lemma heap_test_transparent (P : T -> Prop) cap os :
    NumOrd T P -> P n0 -> pushes os <= cap -> handles_ok 0 os -> values_ok P os ->
    (heap_run (heap_new cap true) os).1 = (heap_run (heap_new cap false) os).1 /\
    (heap_run (heap_new cap true) os).2 = map_outcome (set_test true) (heap_run (heap_new cap false) os).2.
  Proof.
    intros O H0 Hp Hh Hv.
    apply (heap_run_test_transparent P cap os (heap_new cap false) (mkpq ∅ 0)); auto.
    - apply (repr_new P).
    - apply sortedP_new; assumption.
  Qed.

  (** A full heap refuses another entry. *)
  Lemma heap_push_full h a v : h_len h = h_max h -> heap_push h a v = Exit.
  Proof. intros E. unfold heap_push. rewrite E, Nat.ltb_irrefl. reflexivity. Qed.
End extra.

(** ** Draining *)
Section drain.
  Context {T : Type} `{NT : Num T}.
  Variable P : T -> Prop.

  Definition push_all (l : list (nat * T)) : list (hop T) := map (fun e => OPush e.1 e.2) l.

  Lemma pushes_app (os1 os2 : list (hop T)) : pushes (os1 ++ os2) = pushes os1 + pushes os2.
  Proof. induction os1 as [|[] os1 IH]; cbn; auto. Qed.
  Lemma pushes_push_all l : pushes (push_all l) = length l.
  Proof. induction l; cbn; auto. Qed.
  Lemma pushes_pops n : pushes (replicate n (OPop (T:=T))) = 0.
  Proof. induction n; cbn; auto. Qed.
  Lemma handles_drain l n k : handles_ok k (push_all l ++ replicate n OPop ++ [OSize]).
  Proof.
    revert k. induction l as [|e l IH]; intros k; cbn [push_all map app handles_ok].
    - induction n as [|n IHn]; cbn [replicate app handles_ok]; [exact I|exact IHn].
    - apply IH.
  Qed.
  Lemma values_drain l n : Forall (fun e => P e.2) l -> values_ok P (push_all l ++ replicate n OPop ++ [OSize]).
  Proof.
    induction 1 as [|e l He _ IH]; cbn [push_all map app values_ok].
    - induction n as [|n IHn]; cbn [replicate app values_ok]; [exact I|exact IHn].
    - auto.
  Qed.

  Definition entry_res (e : nat * T) : hres T := REntry e.1 e.2.

  Lemma run_pops cap n : forall q rs e,
    size (pq_live q) = n ->
    pq_run True cap q (replicate n OPop ++ [OSize]) rs e ->
    exists l', rs = map entry_res l' ++ [RSize 0] /\ (exists q', e = Ok q') /\
      Permutation l' (map snd (map_to_list (pq_live q))) /\
      StronglySorted (fun a b => nltb b.2 a.2 = false) l'.
  Proof.
    induction n as [|n IH]; intros q rs e Hn Hr; cbn [replicate app] in Hr.
    - inversion Hr as [|q0 o q' r os' rs' e' Hst Hr'|]; subst; [|contradiction].
      inversion Hst; subst. inversion Hr'; subst. exists []. cbn. rewrite Hn.
      split; [reflexivity|]. split; [eauto|]. split; [|constructor].
      apply map_size_empty_iff in Hn. rewrite Hn, map_to_list_empty. constructor.
    - inversion Hr as [|q0 o q' r os' rs' e' Hst Hr'|q0 o os' Hrej]; subst.
      + inversion Hst as [|k a v Hk Hmin| | | |]; subst.
        assert (Hn' : size (delete k (pq_live q)) = n).
        { rewrite map_size_delete, Hk. lia. }
        destruct (IH (mkpq (delete k (pq_live q)) (pq_next q)) rs' e Hn' Hr') as (l' & -> & He & Hperm & Hsort).
        exists ((a, v) :: l'). split; [reflexivity|]. split; [exact He|].
        cbn [pq_live] in Hperm.
        assert (Hml : Permutation (map_to_list (pq_live q)) ((k, (a, v)) :: map_to_list (delete k (pq_live q)))).
        { symmetry. apply map_to_list_delete. exact Hk. }
        split.
        * rewrite Hml. cbn. constructor. exact Hperm.
        * constructor; [exact Hsort|]. apply List.Forall_forall. intros [a' v'] Hin.
          apply (Permutation_in _ Hperm) in Hin. apply in_map_iff in Hin as ([k' e'] & E & Hin).
          cbn in E. subst e'. apply elem_of_list_In, elem_of_map_to_list in Hin.
          apply lookup_delete_Some in Hin as [_ Hin]. cbn. eapply Hmin; eauto.
      + cbn in Hrej. rewrite Hrej, map_size_empty in Hn. discriminate.
  Qed.

  Lemma run_push_all cap l : forall q os rs e,
    (forall k, pq_next q <= k -> pq_live q !! k = None) ->
    size (pq_live q) + length l <= cap ->
    pq_run True cap q (push_all l ++ os) rs e ->
    exists q' rs', rs = map RHandle (seq (pq_next q) (length l)) ++ rs' /\
      pq_run True cap q' os rs' e /\
      size (pq_live q') = size (pq_live q) + length l /\
      Permutation (map snd (map_to_list (pq_live q'))) (l ++ map snd (map_to_list (pq_live q))).
  Proof.
    induction l as [|[a v] l IH]; intros q os rs e Hfresh Hsz Hr; cbn [push_all map app] in Hr.
    - exists q, rs. cbn. split; [reflexivity|]. split; [exact Hr|]. split; [lia|reflexivity].
    - inversion Hr as [|q0 o q' r os' rs' e' Hst Hr'|q0 o os' Hrej]; subst.
      + inversion Hst; subst. cbn [fst snd] in *.
        assert (Hk : pq_live q !! pq_next q = None) by (apply Hfresh; lia).
        destruct (IH (mkpq (<[pq_next q:=(a, v)]> (pq_live q)) (S (pq_next q))) os rs' e) as (q2 & rs2 & -> & Hr2 & Hs2 & Hp2).
        * cbn. intros k' Hk'. rewrite lookup_insert_ne by lia. apply Hfresh. lia.
        * cbn. rewrite map_size_insert, Hk. cbn in Hsz. lia.
        * exact Hr'.
        * exists q2, rs2. cbn in *. split; [reflexivity|]. split; [exact Hr2|].
          rewrite map_size_insert, Hk in Hs2. split; [lia|].
          rewrite Hp2. rewrite map_to_list_insert by exact Hk. cbn. symmetry. apply Permutation_middle.
      + exfalso. cbn in *. lia.
  Qed.

  Lemma heap_drain_sorts cap t (l : list (nat * T)) :
    NumOrd T P -> P n0 -> Forall (fun e => P e.2) l -> length l <= cap ->
    exists l' h,
      heap_run (heap_new cap t) (push_all l ++ replicate (length l) OPop ++ [OSize]) =
        (map RHandle (seq 0 (length l)) ++ map entry_res l' ++ [RSize 0], Ok h) /\
      Permutation l' l /\
      StronglySorted (fun a b => nltb b.2 a.2 = false) l'.
  Proof.
    intros O H0 HP Hl.
    destruct (heap_refines_sorted P cap t (push_all l ++ replicate (length l) OPop ++ [OSize])) as (e' & Hrun & Hend); auto.
    - rewrite !pushes_app, pushes_push_all, pushes_pops. cbn. lia.
    - apply handles_drain.
    - apply values_drain; exact HP.
    - destruct (run_push_all cap l (mkpq ∅ 0) _ _ _ ltac:(intros; apply lookup_empty) ltac:(cbn; rewrite map_size_empty; lia) Hrun)
        as (q' & rs' & E1 & Hr1 & Hsz & Hperm).
      cbn [pq_live pq_next] in *. rewrite map_size_empty in Hsz. cbn in Hsz.
      destruct (run_pops cap (length l) q' rs' e' Hsz Hr1) as (l' & -> & (q2 & ->) & Hp' & Hs').
      destruct (heap_run _ _) as [rs e]. cbn in *. subst rs.
      destruct e as [h| | |]; try contradiction.
      exists l', h. split; [reflexivity|]. split; [|exact Hs'].
      rewrite Hp', Hperm, map_to_list_empty. cbn. rewrite app_nil_r. reflexivity.
  Qed.
End drain.

(** ** Statements with the observable end of the run only *)
Lemma end_rel_same {T} `{NT : Num T} (e : outcome (Heap T)) (e' : outcome (pq T)) : end_rel e e' -> same_end e e'.
Proof.
  destruct e as [h| | |], e' as [q| | |]; cbn; try tauto.
  intros R. unfold heap_size. symmetry. apply (repr_size (fun _ => True)). exact R.
Qed.

Lemma heap_history_sorted {T} `{NT : Num T} (P : T -> Prop) cap t os :
  NumOrd T P -> P n0 -> pushes os <= cap -> handles_ok 0 os -> values_ok P os ->
  exists e', pq_run True cap (mkpq ∅ 0) os (heap_run (heap_new cap t) os).1 e' /\
    same_end (heap_run (heap_new cap t) os).2 e'.
Proof.
  intros O H0 Hp Hh Hv. destruct (heap_refines_sorted P cap t os O H0 Hp Hh Hv) as (e' & H1 & H2).
  exists e'. split; [exact H1|]. apply end_rel_same. exact H2.
Qed.

Lemma heap_history_any {T} `{NT : Num T} cap os :
  pushes os <= cap -> handles_ok 0 os ->
  exists e', pq_run False cap (mkpq ∅ 0) os (heap_run (heap_new (T := T) cap false) os).1 e' /\
    same_end (heap_run (heap_new (T := T) cap false) os).2 e'.
Proof.
  intros Hp Hh. destruct (heap_refines_any (fun _ => True) cap os Hp Hh) as (e' & H1 & H2).
  exists e'. split; [exact H1|]. apply end_rel_same. exact H2.
Qed.

Lemma heap_history_safe {T} `{NT : Num T} cap t os :
  pushes os <= cap -> handles_ok 0 os ->
  (heap_run (heap_new (T := T) cap t) os).2 <> UB /\ (heap_run (heap_new (T := T) cap t) os).2 <> OutOfFuel.
Proof.
  intros Hp Hh. apply heap_run_safe_any; [apply hinv_new| |].
  - cbn. exact Hp.
  - exact Hh.
Qed.
