(** * HeapProofs: invariant of the heap and its refinement to a priority queue. *)

From Verif Require Export HeapModel HeapSpec.
From Verif Require Import HeapSift.
From Coq Require Import ZifyBool ZifyNat.
Ltac Zify.zify_post_hook ::= Z.div_mod_to_equations.

Section HeapProofs.
  Context {T : Type} `{NT : Num T}.

  Definition livein (heap : list nat) (len k : nat) : Prop := exists i, i < len /\ heap !! i = Some k.

  Lemma livein_dec heap len k : livein heap len k \/ ~ livein heap len k.
  Proof.
    induction len as [|len IH].
    - right. intros (i & Hi & _). lia.
    - destruct IH as [(i & Hi & Hik)|Hn]; [left; exists i; split; [lia|exact Hik]|].
      destruct (heap !! len) as [k'|] eqn:Hk.
      + destruct (Nat.eq_dec k' k) as [->|Hne]; [left; exists len; split; [lia|exact Hk]|].
        right. intros (i & Hi & Hik). destruct (Nat.eq_dec i len) as [->|Hne'].
        * congruence.
        * apply Hn. exists i. split; [lia|exact Hik].
      + right. intros (i & Hi & Hik). destruct (Nat.eq_dec i len) as [->|Hne'].
        * congruence.
        * apply Hn. exists i. split; [lia|exact Hik].
  Qed.

  Record winv (len lst max : nat) (heap back : list nat) : Prop := {
    w_lh : length heap = max;
    w_lb : length back = max;
    w_len : len <= lst;
    w_lst : lst <= max;
    w_heap : forall i k, i < len -> heap !! i = Some k -> k < lst /\ back !! k = Some i;
    w_bound : forall i k, heap !! i = Some k -> k < max;
    w_dead : forall k, k < lst -> ~ livein heap len k -> back !! k = Some 0
  }.

  Record hinv (h : Heap T) : Prop := {
    hi_w : winv (h_len h) (h_list h) (h_max h) (h_heap h) (h_back h);
    hi_dist : length (h_dist h) = h_max h;
    hi_addr : length (h_addr h) = h_max h
  }.

  Definition live (h : Heap T) (k : nat) : Prop := livein (h_heap h) (h_len h) k.

  Definition keyof (dist : list T) (k : nat) : T := default n0 (dist !! k).

  Lemma keyof_lookup dist max k : length dist = max -> k < max -> dist !! k = Some (keyof dist k).
  Proof.
    intros <- Hk. destruct (lookup_lt_is_Some_2 dist k Hk) as [x Hx].
    unfold keyof. rewrite Hx. reflexivity.
  Qed.

  Definition hordered (h : Heap T) : Prop := ford (h_len h) (keyof (h_dist h)) (h_heap h).

  Definition allP (P : T -> Prop) (dist : list T) : Prop := Forall P dist.

  Lemma allP_key P dist max k : length dist = max -> allP P dist -> k < max -> P (keyof dist k).
  Proof.
    intros Hl HP Hk. unfold allP in HP. rewrite Forall_lookup in HP. eapply HP. apply keyof_lookup with max; auto.
  Qed.

  Lemma winv_unique len lst max heap back i j k :
    winv len lst max heap back -> i < len -> j < len -> heap !! i = Some k -> heap !! j = Some k -> i = j.
  Proof.
    intros W Hi Hj Hik Hjk. destruct (w_heap _ _ _ _ _ W _ _ Hi Hik) as [_ H1].
    destruct (w_heap _ _ _ _ _ W _ _ Hj Hjk) as [_ H2]. congruence.
  Qed.

  (** Taking the item at [pos] out of a well-formed heap. *)
  Lemma winv_hole len lst max heap back pos m :
    winv len lst max heap back -> pos < len -> heap !! pos = Some m ->
    hole len lst max m (fun k => livein heap len k /\ k <> m) heap back pos.
  Proof.
    intros W Hp Hm. constructor.
    - apply W.
    - apply W.
    - exact Hp.
    - intros i k Hi Hip Hik. split.
      + split; [exists i; auto|]. intros ->. apply Hip. eapply winv_unique; eauto.
      + eapply w_heap; eauto.
    - intros k [(i & Hi & Hik) Hne]. exists i. split; [exact Hi|]. split; [|exact Hik].
      intros ->. congruence.
    - apply W.
    - intros k Hk Hn Hne. apply (w_dead _ _ _ _ _ W); [exact Hk|]. intros HL. apply Hn. split; assumption.
  Qed.

  Lemma full_winv len lst max m (Lv : nat -> Prop) heap back :
    len <= lst -> lst <= max -> (forall k, Lv k -> k < lst) -> m < lst ->
    full len lst max m Lv heap back ->
    winv len lst max heap back /\ (forall k, livein heap len k <-> Lv k \/ k = m).
  Proof.
    intros Hl Hm HL Hml [F1 F2 F3 F4 F5 F6].
    assert (Hiff : forall k, livein heap len k <-> Lv k \/ k = m).
    { intros k. split.
      - intros (i & Hi & Hik). eapply F3; eauto.
      - apply F4. }
    split; [|exact Hiff]. constructor; auto.
    - intros i k Hi Hik. destruct (F3 _ _ Hi Hik) as [Hk Hb]. split; [|exact Hb].
      destruct Hk as [Hk| ->]; auto.
    - intros k Hk Hn. apply F6; [exact Hk| |].
      + intros HLk. apply Hn, Hiff. left; exact HLk.
      + intros ->. apply Hn, Hiff. right; reflexivity.
  Qed.

  Lemma ford_hord len key heap pos m :
    ford len key heap -> heap !! pos = Some m -> pos < len ->
    (forall i j a b, heap !! i = Some a -> heap !! j = Some b -> ile key a m -> ile key m b -> ile key a b) ->
    hord len key heap pos /\ hchild len m key heap pos /\
    (forall q, 0 < pos -> heap !! parent pos = Some q -> ile key q m).
  Proof.
    intros F Hm Hp Htr. split; [constructor|split].
    - intros i k kp Hi0 Hi _ _ Hik Hikp. eapply F; eauto.
    - intros c k kp Hp0 Hc0 Hc Hcp Hck Hkp.
      eapply Htr; [exact Hkp|exact Hck|eapply (F pos); eauto|]. eapply (F c); eauto. rewrite Hcp; exact Hm.
    - intros c k Hc0 Hc Hcp Hck. eapply (F c); eauto. rewrite Hcp; exact Hm.
    - intros q Hp0 Hq. eapply (F pos); eauto.
  Qed.

  (** The self-test is memory safe, and cannot fail on an ordered heap. *)
  Lemma heap_test_spec (P : T -> Prop) E h :
    hinv h ->
    ((NumOrd T P /\ allP P (h_dist h) /\ hordered h) \/ E) ->
    wp E False (heap_test h) (fun _ => True).
  Proof.
    intros [W Hd Ha] HE. unfold heap_test.
    pose proof (w_lh _ _ _ _ _ W) as Hlh. pose proof (w_lb _ _ _ _ _ W) as Hlb.
    pose proof (w_len _ _ _ _ _ W) as Hll. pose proof (w_lst _ _ _ _ _ W) as Hlm.
    apply wp_bind.
    eapply wp_for with (I := fun _ _ => True); [exact I| |].
    - intros i s Hi _. eapply wp_for with (I := fun _ _ => True); [exact I| |auto].
      intros j s' Hj _.
      destruct (Nat.ltb_spec (2 * i + 1 + j) (h_len h - 1)) as [Hc|Hc]; [|exact I].
      apply wp_bind, wp_vget_lt; [lia|]. intros p Hp.
      destruct (w_heap _ _ _ _ _ W _ _ Hi Hp) as [Hpl _].
      apply wp_bind, wp_vget with (keyof (h_dist h) p); [apply keyof_lookup with (h_max h); lia|].
      apply wp_bind, wp_vget_lt; [lia|]. intros c Hcc.
      destruct (w_heap _ _ _ _ _ W (2 * i + 1 + j) c ltac:(lia) Hcc) as [Hcl _].
      apply wp_bind, wp_vget with (keyof (h_dist h) c); [apply keyof_lookup with (h_max h); lia|].
      apply wp_check; [auto|]. intros Hle. destruct HE as [(O & HP & HO)|HE]; [|exact HE].
      exfalso. rewrite nle_nlt in Hle; [| eapply allP_key; eauto; lia | eapply allP_key; eauto; lia].
      assert (Hle2 : ile (keyof (h_dist h)) p c).
      { eapply (HO (2 * i + 1 + j)); eauto; [lia|lia|].
        replace (parent (2 * i + 1 + j)) with i by (unfold parent; lia). exact Hp. }
      unfold ile in Hle2. rewrite Hle2 in Hle. discriminate.
    - intros _ _. eapply wp_for with (I := fun _ _ => True); [exact I| |auto].
      intros i s Hi _.
      apply wp_bind, wp_vget_lt; [lia|]. intros k Hk.
      destruct (w_heap _ _ _ _ _ W _ _ Hi Hk) as [Hkl Hb].
      apply wp_bind, wp_vget with i; [exact Hb|].
      rewrite Nat.eqb_refl. exact I.
  Qed.

  Lemma maybe_test_spec (P : T -> Prop) E h :
    hinv h ->
    (h_test h = true -> (NumOrd T P /\ allP P (h_dist h) /\ hordered h) \/ E) ->
    wp E False (maybe_test h) (fun _ => True).
  Proof.
    intros Hi HE. unfold maybe_test. destruct (h_test h); [|exact I].
    apply heap_test_spec with P; auto.
  Qed.

  Lemma hinv_new max t : hinv (heap_new (T:=T) max t).
  Proof.
    constructor; cbn; [|apply replicate_length|apply replicate_length].
    constructor; try (apply replicate_length); try lia.
    intros i k Hk. apply lookup_replicate in Hk as [-> ?]. lia.
  Qed.

  (** ** push *)
  Lemma heap_push_spec (P : T -> Prop) E h a v :
    hinv h -> h_list h < h_max h ->
    (h_test h = true -> (NumOrd T P /\ P v /\ allP P (h_dist h) /\ hordered h) \/ E) ->
    wp E False (heap_push h a v) (fun '(h', k) =>
      k = h_list h /\ hinv h' /\ h_max h' = h_max h /\ h_test h' = h_test h /\
      h_len h' = S (h_len h) /\ h_list h' = S (h_list h) /\
      h_addr h' = <[k := a]> (h_addr h) /\ h_dist h' = <[k := v]> (h_dist h) /\
      (forall k', live h' k' <-> live h k' \/ k' = k) /\
      (NumOrd T P -> P v -> allP P (h_dist h) -> hordered h -> hordered h')).
  Proof.
    intros [W Hd Ha] Hlm Ht. unfold heap_push.
    pose proof (w_lh _ _ _ _ _ W) as Hlh. pose proof (w_lb _ _ _ _ _ W) as Hlb.
    pose proof (w_len _ _ _ _ _ W) as Hll.
    set (k := h_list h) in *. set (len := h_len h) in *.
    apply wp_bind, wp_check; [|intros Hc; apply Nat.ltb_ge in Hc; lia]. intros _.
    apply wp_bind, wp_vset; [lia|]. apply wp_bind, wp_vset; [lia|].
    apply wp_bind, wp_vset; [lia|]. apply wp_bind, wp_vset; [lia|].
    cbn [Nat.sub]. rewrite !Nat.sub_0_r.
    set (heap1 := <[len := k]> (h_heap h)). set (dist1 := <[k := v]> (h_dist h)).
    set (back1 := <[k := len]> (h_back h)).
    assert (Hd1 : length dist1 = h_max h) by (unfold dist1; rewrite insert_length; exact Hd).
    assert (Hkl : forall k', livein (h_heap h) len k' -> k' < k).
    { intros k' (i & Hi & Hik). eapply w_heap; eauto. }
    assert (Hhole : hole (S len) (S k) (h_max h) k (livein (h_heap h) len) heap1 back1 len).
    { constructor.
      - unfold heap1; rewrite insert_length; exact Hlh.
      - unfold back1; rewrite insert_length; exact Hlb.
      - lia.
      - intros i k' Hi Hne Hik. unfold heap1 in Hik. rewrite list_lookup_insert_ne in Hik by congruence.
        destruct (w_heap _ _ _ _ _ W i k' ltac:(lia) Hik) as [Hk' Hb]. split.
        + exists i; split; [lia|exact Hik].
        + unfold back1. rewrite list_lookup_insert_ne by lia. exact Hb.
      - intros k' (i & Hi & Hik). exists i. split; [lia|]. split; [lia|].
        unfold heap1. rewrite list_lookup_insert_ne by lia. exact Hik.
      - intros i k' Hik. unfold heap1 in Hik. destruct (Nat.eq_dec i len) as [->|Hne].
        + rewrite list_lookup_insert in Hik by lia. inversion Hik; lia.
        + rewrite list_lookup_insert_ne in Hik by congruence. eapply w_bound; eauto.
      - intros k' Hk' Hn Hne. unfold back1. rewrite list_lookup_insert_ne by congruence.
        eapply w_dead; eauto. lia. }
    apply wp_bind.
    eapply wp_impl.
    { eapply (siftDown_spec P (S len) (S k) (h_max h) k (livein (h_heap h) len) (keyof dist1) dist1) with (1 := fun j Hj => keyof_lookup dist1 (h_max h) j Hd1 Hj).
      - lia.
      - lia.
      - intros k0 HL. apply Hkl in HL. lia.
      - intros HL. apply Hkl in HL. lia.
      - lia.
      - exact Hhole.
      - unfold heap1. apply list_lookup_insert. lia. }
    intros [heap2 back2] [Hf Ho].
    destruct (full_winv (S len) (S k) (h_max h) k (livein (h_heap h) len) heap2 back2) as [W2 Hlive]; auto; try lia.
    { intros k' HL. apply Hkl in HL. lia. }
    assert (Hord : NumOrd T P -> P v -> allP P (h_dist h) -> hordered h -> ford (S len) (keyof dist1) heap2).
    { intros O Pv HP HO.
      assert (OP : ordP P (h_max h) (keyof dist1)).
      { split; [exact O|]. intros j Hj. eapply allP_key; eauto.
        unfold allP, dist1. apply Forall_insert; auto. }
      assert (Hkey : forall j, j <> k -> keyof dist1 j = keyof (h_dist h) j).
      { intros j Hj. unfold keyof, dist1. rewrite list_lookup_insert_ne by congruence. reflexivity. }
      apply Ho; auto.
      - constructor.
        + intros i a' b' Hi0 Hi Hne Hpne Hia Hib.
          unfold heap1 in Hia, Hib. rewrite list_lookup_insert_ne in Hia by congruence.
          rewrite list_lookup_insert_ne in Hib by congruence.
          assert (a' < k) by (apply (Hkl a'); exists i; split; [lia|exact Hia]).
          assert (b' < k) by (apply (Hkl b'); exists (parent i); split; [unfold parent; lia|exact Hib]).
          unfold ile. rewrite !Hkey by lia. eapply (HO i); eauto; unfold len in *; lia.
        + intros c a' b' Hp0 Hc0 Hc Hcp. exfalso. unfold parent in *; lia.
      - intros c a' Hc0 Hc Hcp. exfalso. unfold parent in *; lia.
      - apply anc_zero.
      - intros q Hq. lia. }
    assert (Hinv2 : hinv (mkHeap (h_max h) (h_test h) (S len) (S k) dist1 heap2 (<[k:=a]> (h_addr h)) back2)).
    { constructor; cbn; [exact W2|exact Hd1|rewrite insert_length; exact Ha]. }
    apply wp_bind. eapply wp_impl.
    { apply (maybe_test_spec P); [exact Hinv2|].
      intros Htt. destruct (Ht Htt) as [(O & Pv & HP & HO)|HE]; [left|right; exact HE].
      split; [exact O|]. split; [|apply Hord; auto]. unfold allP, dist1; cbn. apply Forall_insert; auto. }
    intros _ _. apply wp_ok. cbn [h_max h_test h_len h_list h_addr h_dist].
    do 8 (split; [first [assumption|reflexivity|lia]|]).
    split; [|exact Hord].
    intros k'. unfold live; cbn. apply Hlive.
  Qed.

  (** ** pop *)
  Lemma heap_pop_spec (P : T -> Prop) E h :
    hinv h -> h_len h <> 0 ->
    (h_test h = true -> (NumOrd T P /\ allP P (h_dist h) /\ hordered h) \/ E) ->
    wp E False (heap_pop h) (fun '(h', (a, v)) =>
      exists k, h_heap h !! 0 = Some k /\ h_addr h !! k = Some a /\ h_dist h !! k = Some v /\
      hinv h' /\ h_max h' = h_max h /\ h_test h' = h_test h /\
      h_len h = S (h_len h') /\ h_list h' = h_list h /\
      h_addr h' = h_addr h /\ h_dist h' = h_dist h /\
      (forall k', live h' k' <-> live h k' /\ k' <> k) /\
      (NumOrd T P -> allP P (h_dist h) -> hordered h -> hordered h')).
  Proof.
    intros [W Hd Ha] Hlen Ht. unfold heap_pop.
    pose proof (w_lh _ _ _ _ _ W) as Hlh. pose proof (w_lb _ _ _ _ _ W) as Hlb.
    pose proof (w_len _ _ _ _ _ W) as Hll. pose proof (w_lst _ _ _ _ _ W) as Hlm.
    apply wp_bind, wp_check; [|intros Hc; apply negb_false_iff, Nat.eqb_eq in Hc; contradiction].
    intros _.
    apply wp_bind, wp_vget_lt; [lia|]. intros k Hk.
    destruct (w_heap _ _ _ _ _ W 0 k ltac:(lia) Hk) as [Hkl Hkb].
    apply wp_bind, wp_vget_lt; [lia|]. intros a Haa.
    apply wp_bind, wp_vget_lt; [lia|]. intros v Hv.
    apply wp_bind, wp_vget_lt; [lia|]. intros last Hlast.
    destruct (w_heap _ _ _ _ _ W (h_len h - 1) last ltac:(lia) Hlast) as [Hlastl Hlastb].
    apply wp_bind, wp_vset; [lia|].
    apply wp_bind, wp_vget with last; [apply list_lookup_insert; lia|].
    apply wp_bind, wp_vset; [lia|].
    set (heap1 := <[0 := last]> (h_heap h)). set (back1 := <[last := 0]> (h_back h)).
    set (len1 := h_len h - 1).
    assert (Hkeyd : forall j, j < h_max h -> h_dist h !! j = Some (keyof (h_dist h) j))
      by (intros j Hj; apply keyof_lookup with (h_max h); auto).
    apply wp_bind.
    apply wp_impl with (fun '(heap2, back2) =>
       winv len1 (h_list h) (h_max h) heap2 back2 /\
       (forall k', livein heap2 len1 k' <-> live h k' /\ k' <> k) /\
       (NumOrd T P -> allP P (h_dist h) -> hordered h -> ford len1 (keyof (h_dist h)) heap2)).
    { destruct (Nat.eq_dec len1 0) as [H0|H0].
      - (* the heap becomes empty *)
        assert (last = k) as ->.
        { unfold len1 in H0. rewrite H0 in Hlast. congruence. }
        rewrite H0. unfold siftUp. apply wp_bind, wp_vget with k; [apply list_lookup_insert; lia|].
        cbn [siftUp_loop]. replace (2 * 0 + 1 <? 0)%nat with false by reflexivity.
        apply wp_bind, wp_ok. apply wp_bind, wp_vset; [unfold heap1; rewrite insert_length; lia|].
        unfold siftDown. apply wp_bind, wp_vget with k; [apply list_lookup_insert; unfold heap1; rewrite insert_length; lia|].
        cbn [siftDown_loop]. replace (0 <? 0)%nat with false by reflexivity.
        apply wp_bind, wp_ok. apply wp_bind, wp_vset; [unfold heap1; rewrite !insert_length; lia|].
        apply wp_bind, wp_vset; [unfold back1; rewrite !insert_length; lia|]. apply wp_ok.
        assert (Hnone : forall hp x, ~ livein hp 0 x) by (intros hp x (i & Hi & _); lia).
        split; [|split].
        + constructor.
          * unfold heap1; rewrite !insert_length; exact Hlh.
          * unfold back1; rewrite !insert_length; exact Hlb.
          * lia.
          * exact Hlm.
          * intros i k' Hi; lia.
          * intros i k' Hik. unfold heap1 in Hik. rewrite !list_insert_insert in Hik.
            destruct (Nat.eq_dec i 0) as [->|Hne].
            -- rewrite list_lookup_insert in Hik by lia. inversion Hik; lia.
            -- rewrite list_lookup_insert_ne in Hik by congruence. eapply w_bound; eauto.
          * intros k' Hk' _. unfold back1. rewrite list_insert_insert.
            destruct (Nat.eq_dec k' k) as [->|Hne]; [apply list_lookup_insert; lia|].
            rewrite list_lookup_insert_ne by congruence. eapply w_dead; eauto.
            intros (i & Hi & Hik). assert (i = 0) as -> by lia. congruence.
        + intros k'. split; [intros HL; destruct (Hnone _ _ HL)|].
          intros [(i & Hi & Hik) Hne]. assert (i = 0) as -> by lia. congruence.
        + intros _ _ _ i k' kp Hi0 Hi. lia.
      - (* the last entry moves to the top *)
        assert (Hne : last <> k).
        { intros ->. assert (h_len h - 1 = 0) as C by (eapply winv_unique; eauto; lia). unfold len1 in H0; lia. }
        set (Lv := fun k' => live h k' /\ k' <> k /\ k' <> last).
        assert (HLv : forall k', Lv k' -> k' < h_list h).
        { intros k' [(i & Hi & Hik) _]. eapply w_heap; eauto. }
        assert (Hhole : hole len1 (h_list h) (h_max h) last Lv heap1 back1 0).
        { constructor.
          - unfold heap1; rewrite insert_length; exact Hlh.
          - unfold back1; rewrite insert_length; exact Hlb.
          - lia.
          - intros i k' Hi Hi0 Hik. unfold heap1 in Hik. rewrite list_lookup_insert_ne in Hik by congruence.
            assert (Hi' : i < h_len h) by (unfold len1 in Hi; lia).
            assert (k' <> last).
            { intros ->. assert (i = h_len h - 1) as C by (eapply winv_unique; eauto; lia). unfold len1 in Hi; lia. }
            split.
            + split; [exists i; auto|]. split; [|assumption].
              intros ->. apply Hi0. eapply winv_unique; eauto; lia.
            + unfold back1. rewrite list_lookup_insert_ne by congruence. eapply w_heap; eauto.
          - intros k' [(i & Hi & Hik) [Hn1 Hn2]]. exists i.
            assert (i <> 0) by (intros ->; congruence).
            assert (i <> h_len h - 1) by (intros ->; congruence).
            split; [unfold len1; lia|]. split; [assumption|].
            unfold heap1. rewrite list_lookup_insert_ne by congruence. exact Hik.
          - intros i k' Hik. unfold heap1 in Hik. destruct (Nat.eq_dec i 0) as [->|Hi0].
            + rewrite list_lookup_insert in Hik by lia. inversion Hik; lia.
            + rewrite list_lookup_insert_ne in Hik by congruence. eapply w_bound; eauto.
          - intros k' Hk' HnL Hnl. unfold back1. rewrite list_lookup_insert_ne by congruence.
            destruct (Nat.eq_dec k' k) as [->|Hnk]; [exact Hkb|].
            eapply w_dead; eauto. intros HL. apply HnL. split; [exact HL|]. split; assumption. }
        eapply wp_impl.
        { eapply (siftUp_spec P len1 (h_list h) (h_max h) last Lv (keyof (h_dist h)) (h_dist h)); auto.
          - unfold len1; lia.
          - intros [_ [_ C]]; congruence.
          - unfold heap1. apply list_lookup_insert. lia. }
        intros [heap2 back2] [Hf Ho].
        destruct (full_winv len1 (h_list h) (h_max h) last Lv heap2 back2) as [W2 Hlive]; auto; [unfold len1; lia|].
        split; [exact W2|]. split.
        + intros k'. rewrite Hlive. split.
          * intros [[HL [Hn1 Hn2]]| ->]; [split; assumption|]. split; [|exact Hne].
            exists (h_len h - 1). split; [lia|exact Hlast].
          * intros [HL Hn]. destruct (Nat.eq_dec k' last) as [->|Hnl]; [right; reflexivity|].
            left. split; [exact HL|]. split; assumption.
        + intros O HP HO. apply Ho.
          * split; [exact O|]. intros j Hj. eapply allP_key; eauto.
          * constructor.
            -- intros i x y Hi0 Hi _ Hp0 Hix Hiy. unfold heap1 in Hix, Hiy.
               rewrite list_lookup_insert_ne in Hix by lia.
               rewrite list_lookup_insert_ne in Hiy by congruence.
               eapply (HO i); eauto. unfold len1 in Hi; lia.
            -- intros c x y Hp0. lia.
          * intros q Hq. lia. }
    intros [heap2 back2] (W2 & Hlive & Hord).
    assert (Hinv2 : hinv (mkHeap (h_max h) (h_test h) len1 (h_list h) (h_dist h) heap2 (h_addr h) back2)).
    { constructor; cbn; assumption. }
    apply wp_bind. eapply wp_impl.
    { apply (maybe_test_spec P); [exact Hinv2|].
      intros Htt. destruct (Ht Htt) as [(O & HP & HO)|HE]; [left|right; exact HE].
      split; [exact O|]. split; [exact HP|apply Hord; auto]. }
    intros _ _. apply wp_ok. exists k. cbn [h_max h_test h_len h_list h_addr h_dist].
    do 10 (split; [first [assumption|reflexivity|unfold len1; lia]|]).
    split; [exact Hlive|exact Hord].
  Qed.

  (** ** set *)
  Lemma heap_set_spec (P : T -> Prop) E h k v :
    hinv h -> k < h_list h ->
    (h_test h = true -> (NumOrd T P /\ P v /\ allP P (h_dist h) /\ hordered h) \/ E) ->
    wp E False (heap_set h k v) (fun h' =>
      hinv h' /\ h_max h' = h_max h /\ h_test h' = h_test h /\
      h_len h' = h_len h /\ h_list h' = h_list h /\
      h_addr h' = h_addr h /\ h_dist h' = <[k := v]> (h_dist h) /\
      (forall k', live h' k' <-> live h k') /\
      (NumOrd T P -> P v -> allP P (h_dist h) -> hordered h -> hordered h')).
  Proof.
    intros [W Hd Ha] Hkl Ht. unfold heap_set.
    pose proof (w_lh _ _ _ _ _ W) as Hlh. pose proof (w_lb _ _ _ _ _ W) as Hlb.
    pose proof (w_len _ _ _ _ _ W) as Hll. pose proof (w_lst _ _ _ _ _ W) as Hlm.
    assert (Hkeyd : forall j, j < h_max h -> h_dist h !! j = Some (keyof (h_dist h) j))
      by (intros j Hj; apply keyof_lookup with (h_max h); auto).
    set (old := keyof (h_dist h) k).
    apply wp_bind, wp_vget with old; [apply Hkeyd; lia|].
    apply wp_bind, wp_vset; [lia|].
    set (dist1 := <[k := v]> (h_dist h)).
    assert (Hd1 : length dist1 = h_max h) by (unfold dist1; rewrite insert_length; exact Hd).
    assert (Hkeyd1 : forall j, j < h_max h -> dist1 !! j = Some (keyof dist1 j))
      by (intros j Hj; apply keyof_lookup with (h_max h); auto).
    assert (Hkeyne : forall j, j <> k -> keyof dist1 j = keyof (h_dist h) j).
    { intros j Hj. unfold keyof, dist1. rewrite list_lookup_insert_ne by congruence. reflexivity. }
    assert (Hkeyk : keyof dist1 k = v).
    { unfold keyof, dist1. rewrite list_lookup_insert by lia. reflexivity. }
    apply wp_bind, wp_vget_lt; [lia|]. intros pos Hpos.
    assert (HP1 : P v -> allP P (h_dist h) -> allP P dist1).
    { intros Pv HP. unfold allP, dist1. apply Forall_insert; auto. }
    (* position of the handle *)
    assert (Hcases : (h_len h = 0 /\ pos = 0) \/
       (pos < h_len h /\ exists m, h_heap h !! pos = Some m /\ (m = k \/ (~ live h k /\ pos = 0)))).
    { destruct (livein_dec (h_heap h) (h_len h) k) as [HL|HL].
      - destruct HL as (i & Hi & Hik). right.
        destruct (w_heap _ _ _ _ _ W i k Hi Hik) as [_ Hb]. assert (i = pos) as -> by congruence.
        split; [exact Hi|]. exists k. split; [exact Hik|]. left; reflexivity.
      - pose proof (w_dead _ _ _ _ _ W k Hkl HL) as Hb. assert (pos = 0) as -> by congruence.
        destruct (Nat.eq_dec (h_len h) 0) as [E0|E0]; [left; auto|right].
        split; [lia|]. destruct (lookup_lt_is_Some_2 (h_heap h) 0 ltac:(lia)) as [m Hm].
        exists m. split; [exact Hm|]. right. split; [exact HL|reflexivity]. }
    set (goodR := fun '(heap1, back1) =>
       winv (h_len h) (h_list h) (h_max h) heap1 back1 /\
       (forall k', livein heap1 (h_len h) k' <-> live h k') /\
       (NumOrd T P -> P v -> allP P (h_dist h) -> hordered h -> ford (h_len h) (keyof dist1) heap1)).
    (* tail of the function, shared by all paths *)
    assert (Htail : forall heap1 back1, goodR (heap1, back1) ->
      wp E False
        (let h' := mkHeap (h_max h) (h_test h) (h_len h) (h_list h) dist1 heap1 (h_addr h) back1 in
         let! _ := maybe_test h' in Ok h')
       (fun h' =>
      hinv h' /\ h_max h' = h_max h /\ h_test h' = h_test h /\
      h_len h' = h_len h /\ h_list h' = h_list h /\
      h_addr h' = h_addr h /\ h_dist h' = dist1 /\
      (forall k', live h' k' <-> live h k') /\
      (NumOrd T P -> P v -> allP P (h_dist h) -> hordered h -> hordered h'))).
    { intros heap1 back1 (W1 & HL1 & HO1). cbn zeta.
      assert (Hinv2 : hinv (mkHeap (h_max h) (h_test h) (h_len h) (h_list h) dist1 heap1 (h_addr h) back1)).
      { constructor; cbn; assumption. }
      apply wp_bind. eapply wp_impl.
      { apply (maybe_test_spec P); [exact Hinv2|].
        intros Htt. destruct (Ht Htt) as [(O & Pv & HP & HO)|HE]; [left|right; exact HE].
        split; [exact O|]. split; [apply HP1; assumption|apply HO1; auto]. }
      intros _ _. apply wp_ok. cbn [h_max h_test h_len h_list h_addr h_dist].
      do 7 (split; [first [assumption|reflexivity]|]). split; [exact HL1|exact HO1]. }
    (* sifting down from [pos] in a well-formed heap *)
    assert (Hdown : forall heap1 back1, pos < h_len h ->
       winv (h_len h) (h_list h) (h_max h) heap1 back1 ->
       (forall k', livein heap1 (h_len h) k' <-> live h k') ->
       (forall m, heap1 !! pos = Some m ->
         NumOrd T P -> P v -> allP P (h_dist h) -> hordered h ->
          hord (h_len h) (keyof dist1) heap1 pos /\ hchild (h_len h) m (keyof dist1) heap1 pos) ->
       wp E False (siftDown 0 pos dist1 heap1 back1) goodR).
    { intros heap1 back1 Hp W1 HL1 HO1.
      destruct (lookup_lt_is_Some_2 heap1 pos) as [m Hm]; [rewrite (w_lh _ _ _ _ _ W1); lia|].
      destruct (w_heap _ _ _ _ _ W1 pos m Hp Hm) as [Hml _].
      eapply wp_impl.
      { eapply (siftDown_spec P (h_len h) (h_list h) (h_max h) m
                 (fun k' => livein heap1 (h_len h) k' /\ k' <> m) (keyof dist1) dist1); auto.
        - lia.
        - intros k' [(i & Hi & Hik) _]. eapply w_heap; eauto.
        - intros [_ C]; congruence.
        - apply winv_hole; auto. }
      intros [heap2 back2] [Hf Ho].
      destruct (full_winv (h_len h) (h_list h) (h_max h) m
         (fun k' => livein heap1 (h_len h) k' /\ k' <> m) heap2 back2) as [W2 Hlive]; auto.
      { intros k' [(i & Hi & Hik) _]. eapply w_heap; eauto. }
      split; [exact W2|]. split.
      - intros k'. rewrite <- (HL1 k'). split.
        + intros C. apply Hlive in C. destruct C as [[HL _]| ->]; [exact HL|]. exists pos; auto.
        + intros HL. apply Hlive. destruct (Nat.eq_dec k' m) as [->|Hn]; [right; reflexivity|left; split; assumption].
      - intros O Pv HP HO. destruct (HO1 m Hm O Pv HP HO) as [Ho1 Hc1].
        apply Ho; auto.
        + split; [exact O|]. intros j Hj. eapply allP_key; eauto.
        + apply anc_zero.
        + intros q Hq; lia. }
    destruct Hcases as [[H0 ->]|[Hpl (m & Hm & Hmk)]].
    - (* empty heap: only dead handles *)
      assert (W0 : winv 0 (h_list h) (h_max h) (h_heap h) (h_back h)) by (rewrite <- H0; exact W).
      assert (Hemp : forall hp (x : nat), ~ livein hp 0 x) by (intros hp x (i & Hi & _); lia).
      assert (Hgood0 : forall hp bk, winv 0 (h_list h) (h_max h) hp bk -> goodR (hp, bk)).
      { intros hp bk Wb. unfold goodR. rewrite H0. split; [exact Wb|]. split.
        - intros k'. split; [intros C; destruct (Hemp _ _ C)|].
          intros (i & Hi & _). lia.
        - intros _ _ _ _ i x y Hi0 Hi. lia. }
      assert (Hset0 : forall hp bk x, winv 0 (h_list h) (h_max h) hp bk -> hp !! 0 = Some x ->
         winv 0 (h_list h) (h_max h) (<[0:=x]> hp) (<[x:=0]> bk)).
      { intros hp bk x Wb Hx. rewrite list_insert_id by exact Hx. destruct Wb as [B1 B2 B3 B4 B5 B6 B7].
        constructor; auto.
        - rewrite insert_length; exact B2.
        - intros i y Hi; lia.
        - intros y Hy Hn. destruct (Nat.eq_dec y x) as [->|Hne].
          + apply list_lookup_insert. pose proof (B6 _ _ Hx). lia.
          + rewrite list_lookup_insert_ne by congruence. auto. }
      assert (Hsd0 : forall hp bk, winv 0 (h_list h) (h_max h) hp bk ->
         wp E False (siftDown 0 0 dist1 hp bk) goodR).
      { intros hp bk Wb. unfold siftDown.
        pose proof (w_lh _ _ _ _ _ Wb) as Hl1. pose proof (w_lb _ _ _ _ _ Wb) as Hl2.
        apply wp_bind, wp_vget_lt; [lia|]. intros x Hx.
        pose proof (w_bound _ _ _ _ _ Wb _ _ Hx) as Hxb.
        cbn [siftDown_loop]. replace (0 <? 0)%nat with false by reflexivity.
        apply wp_bind, wp_ok. apply wp_bind, wp_vset; [lia|]. apply wp_bind, wp_vset; [lia|].
        apply wp_ok. apply Hgood0, Hset0; assumption. }
      apply wp_bind. apply wp_impl with goodR.
      { destruct (nltb old v); [|apply wp_ok; apply Hgood0; exact W0].
        rewrite H0. unfold siftUp. apply wp_bind, wp_vget_lt; [lia|]. intros x Hx.
        cbn [siftUp_loop]. replace (2 * 0 + 1 <? 0)%nat with false by reflexivity.
        apply wp_bind, wp_ok. apply wp_bind, wp_vset; [lia|].
        rewrite list_insert_id by exact Hx. apply Hsd0; exact W0. }
      intros [heap1 back1] HG. pose proof HG as (W1 & HL1 & HO1). rewrite H0 in W1.
      pose proof (w_lh _ _ _ _ _ W1) as Hl1.
      apply wp_bind, wp_vget_lt; [lia|]. intros x Hx.
      pose proof (w_bound _ _ _ _ _ W1 _ _ Hx) as Hxb.
      apply wp_bind, wp_vget_lt; [lia|]. intros d Hdd.
      destruct (negb (neqb d v)).
      + apply Htail. exact HG.
      + apply wp_bind. eapply wp_impl; [apply Hsd0; exact W1|].
        intros [heap2 back2] HG2. apply Htail. exact HG2.
    - destruct (w_heap _ _ _ _ _ W pos m Hpl Hm) as [Hml Hmb].
      assert (Hlivek : forall i x, i < h_len h -> h_heap h !! i = Some x -> i <> pos -> x <> k).
      { intros i x Hi Hix Hne ->. destruct Hmk as [->|[Hn _]].
        - apply Hne. eapply winv_unique; eauto.
        - apply Hn. exists i; auto. }
      (* order facts about the updated keys around [pos] *)
      assert (Hord0 : NumOrd T P -> P v -> allP P (h_dist h) -> hordered h ->
         hord (h_len h) (keyof dist1) (h_heap h) pos).
      { intros O Pv HP HO. constructor.
        - intros i x y Hi0 Hi Hne Hpne Hix Hiy. unfold ile.
          assert (x <> k) by (eapply (Hlivek i); eauto).
          assert (y <> k) by (eapply (Hlivek (parent i)); eauto; unfold parent; lia).
          rewrite !Hkeyne by assumption. eapply (HO i); eauto.
        - intros c x y Hp0 Hc0 Hc Hcp Hcx Hy. unfold ile.
          assert (x <> k) by (eapply (Hlivek c); eauto; unfold parent in *; lia).
          assert (y <> k) by (eapply (Hlivek (parent pos)); eauto; unfold parent; lia).
          rewrite !Hkeyne by assumption.
          apply (ile_trans P (h_max h) (keyof (h_dist h)) y m x).
            + split; [exact O|]. intros j Hj. eapply allP_key; eauto.
            + eapply w_bound; eauto.
            + eapply w_bound; eauto.
            + eapply w_bound; eauto.
            + eapply (HO pos); eauto.
            + eapply (HO c); eauto. rewrite Hcp; exact Hm. }
      apply wp_bind.
      apply wp_impl with (fun '(heap1, back1) =>
         if nltb old v then goodR (heap1, back1) else heap1 = h_heap h /\ back1 = h_back h).
      { destruct (nltb old v) eqn:Hcmp; [|split; reflexivity].
        eapply wp_impl.
        { eapply (siftUp_spec P (h_len h) (h_list h) (h_max h) m
                 (fun k' => live h k' /\ k' <> m) (keyof dist1) dist1); auto.
          - lia.
          - intros k' [(i & Hi & Hik) _]. eapply w_heap; eauto.
          - intros [_ C]; congruence.
          - apply winv_hole; auto. }
        intros [heap2 back2] [Hf Ho].
        destruct (full_winv (h_len h) (h_list h) (h_max h) m
          (fun k' => live h k' /\ k' <> m) heap2 back2) as [W2 Hlive]; auto.
        { intros k' [(i & Hi & Hik) _]. eapply w_heap; eauto. }
        split; [exact W2|]. split.
        - intros k'. rewrite Hlive. split.
          + intros [[HL _]| ->]; [exact HL|]. exists pos; auto.
          + intros HL. destruct (Nat.eq_dec k' m) as [->|Hn]; [right; reflexivity|left; split; assumption].
        - intros O Pv HP HO. apply Ho.
          + split; [exact O|]. intros j Hj. eapply allP_key; eauto.
          + apply Hord0; auto.
          + intros q Hp0 Hq.
            destruct Hmk as [->|[_ ->]]; [|lia].
            unfold ile. rewrite Hkeyk. rewrite (Hkeyne q) by (eapply (Hlivek (parent pos)); eauto; unfold parent; lia).
            destruct (nltb v (keyof (h_dist h) q)) eqn:C; [|reflexivity]. exfalso.
            assert (Hqk : ile (keyof (h_dist h)) q k) by (eapply (HO pos); eauto).
            assert (Pq : P (keyof (h_dist h) q)).
            { eapply allP_key; eauto. eapply w_bound; [exact W|exact Hq]. }
            assert (Pold : P old) by (eapply allP_key; eauto; lia).
            assert (C2 : nltb old (keyof (h_dist h) q) = true) by (eapply (nlt_trans old v); eauto).
            unfold ile, old in *. congruence. }
      intros [heap1 back1] HG.
      destruct (nltb old v) eqn:Hcmp.
      + pose proof HG as (W1 & HL1 & HO1). pose proof (w_lh _ _ _ _ _ W1) as Hl1.
        apply wp_bind, wp_vget_lt; [lia|]. intros x Hx.
        pose proof (w_bound _ _ _ _ _ W1 _ _ Hx) as Hxb.
        apply wp_bind, wp_vget_lt; [lia|]. intros d Hdd.
        destruct (negb (neqb d v)); [apply Htail; exact HG|].
        apply wp_bind. eapply wp_impl.
        { apply Hdown; auto. intros m' Hm' O Pv HP HO.
          destruct (ford_hord (h_len h) (keyof dist1) heap1 pos m') as (R1 & R2 & _); auto.
          intros i j p q Hip Hjq Hpm Hmq.
          apply (ile_trans P (h_max h) (keyof dist1) p m' q); auto.
          - split; [exact O|]. intros j' Hj'. eapply allP_key; eauto.
          - eapply w_bound; [exact W1|exact Hip].
          - eapply w_bound; [exact W1|exact Hm'].
          - eapply w_bound; [exact W1|exact Hjq]. }
        intros [heap2 back2] HG2. apply Htail. exact HG2.
      + destruct HG as [-> ->].
        apply wp_bind, wp_vget with m; [exact Hm|].
        apply wp_bind, wp_vget with (keyof dist1 m); [apply Hkeyd1; lia|].
        destruct (neqb (keyof dist1 m) v) eqn:Heq; cbn [negb].
        * apply wp_bind. eapply wp_impl.
          { apply Hdown; auto. 
            intros m' Hm' O Pv HP HO. assert (m' = m) as -> by congruence.
            split; [apply Hord0; auto|].
            intros c x Hc0 Hc Hcp Hcx.
            assert (Hxk : x <> k) by (eapply (Hlivek c); eauto; unfold parent in *; lia).
            assert (Hmx : ile (keyof (h_dist h)) m x).
            { eapply (HO c); eauto. rewrite Hcp; exact Hm. }
            unfold ile. rewrite (Hkeyne x Hxk).
            destruct Hmk as [->|[Hn ->]].
            - rewrite Hkeyk. eapply (nlt_negtrans _ old); eauto.
              + eapply allP_key; eauto. eapply w_bound; eauto.
              + eapply allP_key; eauto. lia.
            - rewrite (Hkeyne m); [exact Hmx|]. intros ->. apply Hn. exists 0; auto. }
          intros [heap2 back2] HG2. apply Htail. exact HG2.
        * apply Htail. split; [exact W|]. split; [intros; reflexivity|].
          intros O Pv HP HO. destruct Hmk as [->|[Hn ->]].
          -- exfalso. rewrite Hkeyk, neq_nlt, nlt_irrefl in Heq; auto. discriminate.
          -- intros i x y Hi0 Hi Hix Hiy. unfold ile. 
             assert (x <> k) by (intros ->; apply Hn; exists i; auto).
             assert (y <> k) by (intros ->; apply Hn; exists (parent i); split; [unfold parent; lia|exact Hiy]).
             rewrite !Hkeyne by assumption. eapply (HO i); eauto.
  Qed.
End HeapProofs.
