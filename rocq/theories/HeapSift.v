(** * HeapSift: correctness of the two sift loops of the heap. *)

From Verif Require Import HeapModel.
From Coq Require Import ZifyBool ZifyNat.
Ltac Zify.zify_post_hook ::= Z.div_mod_to_equations.

Definition parent (i : nat) : nat := (i - 1) / 2.

Lemma parent_model pos : Nat.div2 (pos - 1) = parent pos.
Proof. unfold parent. apply Nat.div2_div. Qed.

(** [anc s p]: position [s] is an ancestor of (or equal to) position [p]. *)
Inductive anc (s : nat) : nat -> Prop :=
| anc_refl : anc s s
| anc_child p c : anc s p -> 0 < c -> parent c = p -> anc s c.

Lemma anc_le s p : anc s p -> s <= p.
Proof. induction 1 as [|p c _ IH Hc Hp]; [lia|]. unfold parent in *. lia. Qed.

Lemma anc_parent s p : anc s p -> s < p -> anc s (parent p).
Proof. intros H Hlt. destruct H as [|q c H Hc <-]; [lia|]. exact H. Qed.

Lemma anc_zero p : anc 0 p.
Proof.
  induction p as [p IH] using lt_wf_ind. destruct (Nat.eq_dec p 0) as [->|Hp]; [constructor|].
  apply (anc_child 0 (parent p)); [|lia|reflexivity]. apply IH. unfold parent. lia.
Qed.

Section sift.
  Context {T : Type} `{NT : Num T}.
  Variable P : T -> Prop.
  Variables len lst max newItem : nat.
  Variable Lv : nat -> Prop.
  Variable key : nat -> T.
  Variable dist : list T.

  Hypothesis Hdist : forall k, k < max -> dist !! k = Some (key k).
  Hypothesis Hlen : len <= max.
  Hypothesis Hlst : lst <= max.
  Hypothesis HLv : forall k, Lv k -> k < lst.
  Hypothesis HnLv : ~ Lv newItem.
  Hypothesis Hnew : newItem < lst.

  Definition ordP : Prop := NumOrd T P /\ forall k, k < max -> P (key k).
  (** item [a] is not larger than item [b] *)
  Definition ile (a b : nat) : Prop := nltb (key b) (key a) = false.

  Lemma ile_trans a b c : ordP -> a < max -> b < max -> c < max -> ile a b -> ile b c -> ile a c.
  Proof. intros [O HP] Ha Hb Hc Hab Hbc. unfold ile in *. eapply (nlt_negtrans _ (key b)); eauto. Qed.

  Lemma ilt_ile a b : ordP -> a < max -> b < max -> nltb (key a) (key b) = true -> ile a b.
  Proof.
    intros [O HP] Ha Hb Hab. unfold ile. destruct (nltb (key b) (key a)) eqn:Hba; [|reflexivity].
    assert (nltb (key a) (key a) = true) as C by (eapply (nlt_trans _ (key b)); eauto).
    rewrite nlt_irrefl in C; [discriminate|auto].
  Qed.

  (** The arrays when the item [newItem] has been taken out of position [pos]. *)
  Record hole (heap back : list nat) (pos : nat) : Prop := {
    ho_lh : length heap = max;
    ho_lb : length back = max;
    ho_pos : pos < len;
    ho_heap : forall i k, i < len -> i <> pos -> heap !! i = Some k -> Lv k /\ back !! k = Some i;
    ho_lv : forall k, Lv k -> exists i, i < len /\ i <> pos /\ heap !! i = Some k;
    ho_bound : forall i k, heap !! i = Some k -> k < max;
    ho_dead : forall k, k < lst -> ~ Lv k -> k <> newItem -> back !! k = Some 0
  }.

  Record hord (heap : list nat) (pos : nat) : Prop := {
    ho_a : forall i k kp, 0 < i -> i < len -> i <> pos -> parent i <> pos ->
             heap !! i = Some k -> heap !! (parent i) = Some kp -> ile kp k;
    ho_b : forall c k kp, 0 < pos -> 0 < c -> c < len -> parent c = pos ->
             heap !! c = Some k -> heap !! (parent pos) = Some kp -> ile kp k
  }.

  Definition hchild (heap : list nat) (pos : nat) : Prop :=
    forall c k, 0 < c -> c < len -> parent c = pos -> heap !! c = Some k -> ile newItem k.

  (** The arrays after [newItem] has been put back. *)
  Record full (heap back : list nat) : Prop := {
    fu_lh : length heap = max;
    fu_lb : length back = max;
    fu_heap : forall i k, i < len -> heap !! i = Some k -> (Lv k \/ k = newItem) /\ back !! k = Some i;
    fu_lv : forall k, Lv k \/ k = newItem -> exists i, i < len /\ heap !! i = Some k;
    fu_bound : forall i k, heap !! i = Some k -> k < max;
    fu_dead : forall k, k < lst -> ~ Lv k -> k <> newItem -> back !! k = Some 0
  }.

  Definition ford (heap : list nat) : Prop :=
    forall i k kp, 0 < i -> i < len -> heap !! i = Some k -> heap !! (parent i) = Some kp -> ile kp k.

  Lemma hole_get heap back pos i : hole heap back pos -> i < max -> exists k, heap !! i = Some k /\ k < max.
  Proof.
    intros Hh Hi. destruct (lookup_lt_is_Some_2 heap i) as [k Hk]; [rewrite (ho_lh _ _ _ Hh); exact Hi|].
    exists k; split; [exact Hk|]. eapply ho_bound; eauto.
  Qed.

  (** Moving the item [k] from position [from] into the hole [pos]. *)
  Lemma hole_move heap back pos from k :
    hole heap back pos -> from < len -> from <> pos -> heap !! from = Some k ->
    hole (<[pos := k]> heap) (<[k := pos]> back) from.
  Proof.
    intros Hh Hf Hne Hk. destruct Hh as [Hlh Hlb Hpos Hheap Hlv Hb Hd].
    destruct (Hheap _ _ Hf Hne Hk) as [HLk Hbk].
    assert (Hkm : k < max) by eauto.
    constructor.
    - rewrite insert_length; exact Hlh.
    - rewrite insert_length; exact Hlb.
    - exact Hf.
    - intros i k' Hi Hif Hik. destruct (Nat.eq_dec i pos) as [->|Hip].
      + rewrite list_lookup_insert in Hik by lia. inversion Hik; subst k'.
        split; [exact HLk|]. apply list_lookup_insert. lia.
      + rewrite list_lookup_insert_ne in Hik by congruence.
        destruct (Hheap _ _ Hi Hip Hik) as [HL Hbk']. split; [exact HL|].
        rewrite list_lookup_insert_ne; [exact Hbk'|]. intros ->. congruence.
    - intros k' HL. destruct (Hlv _ HL) as (i & Hi & Hip & Hik).
      destruct (Nat.eq_dec i from) as [->|Hif].
      + exists pos. split; [exact Hpos|]. split; [congruence|].
        rewrite Hk in Hik; inversion Hik; subst k'. apply list_lookup_insert; lia.
      + exists i. split; [exact Hi|]. split; [exact Hif|]. rewrite list_lookup_insert_ne by congruence. exact Hik.
    - intros i k' Hik. destruct (Nat.eq_dec i pos) as [->|Hip].
      + rewrite list_lookup_insert in Hik by lia. inversion Hik; subst; exact Hkm.
      + rewrite list_lookup_insert_ne in Hik by congruence. eauto.
    - intros k' Hk' HnL Hnn. rewrite list_lookup_insert_ne; [eauto|]. intros ->; contradiction.
  Qed.

  Lemma hole_fill heap back pos :
    hole heap back pos -> full (<[pos := newItem]> heap) (<[newItem := pos]> back).
  Proof.
    intros [Hlh Hlb Hpos Hheap Hlv Hb Hd]. constructor.
    - rewrite insert_length; exact Hlh.
    - rewrite insert_length; exact Hlb.
    - intros i k Hi Hik. destruct (Nat.eq_dec i pos) as [->|Hip].
      + rewrite list_lookup_insert in Hik by lia. inversion Hik; subst k.
        split; [right; reflexivity|]. apply list_lookup_insert; lia.
      + rewrite list_lookup_insert_ne in Hik by congruence.
        destruct (Hheap _ _ Hi Hip Hik) as [HL Hbk]. split; [left; exact HL|].
        rewrite list_lookup_insert_ne; [exact Hbk|]. intros ->; contradiction.
    - intros k [HL| ->].
      + destruct (Hlv _ HL) as (i & Hi & Hip & Hik). exists i. split; [exact Hi|].
        rewrite list_lookup_insert_ne by congruence. exact Hik.
      + exists pos. split; [exact Hpos|]. apply list_lookup_insert; lia.
    - intros i k Hik. destruct (Nat.eq_dec i pos) as [->|Hip].
      + rewrite list_lookup_insert in Hik by lia. inversion Hik; subst; lia.
      + rewrite list_lookup_insert_ne in Hik by congruence. eauto.
    - intros k Hk HnL Hnn. rewrite list_lookup_insert_ne by congruence. eauto.
  Qed.

  (** Moving the parent down into the hole keeps the order invariant. *)
  Lemma hord_down heap back pos p :
    ordP -> hole heap back pos -> hord heap pos -> 0 < pos ->
    heap !! (parent pos) = Some p -> nltb (key newItem) (key p) = true ->
    hord (<[pos := p]> heap) (parent pos) /\ hchild (<[pos := p]> heap) (parent pos).
  Proof.
    intros O Hh Ho H0 Hp Hlt.
    pose proof (ho_lh _ _ _ Hh) as Hlh. pose proof (ho_pos _ _ _ Hh) as Hpos.
    pose proof (ho_bound _ _ _ Hh) as Hb.
    assert (Hpp : parent pos <> pos) by (unfold parent; lia).
    assert (Hpm : p < max) by eauto.
    split; [constructor|].
    - intros i k kp Hi0 Hi Hip Hipp Hik Hikp.
      destruct (Nat.eq_dec i pos) as [->|Hne]; [congruence|].
      rewrite list_lookup_insert_ne in Hik by congruence.
      destruct (Nat.eq_dec (parent i) pos) as [E|Hne'].
      + rewrite E in Hikp. rewrite list_lookup_insert in Hikp by lia. inversion Hikp; subst kp.
        eapply (ho_b _ _ Ho i); eauto.
      + rewrite list_lookup_insert_ne in Hikp by congruence. eapply (ho_a _ _ Ho i); eauto.
    - intros c k kp Hp0 Hc0 Hc Hcp Hck Hkp.
      assert (Hppp : parent (parent pos) <> pos) by (unfold parent in *; lia).
      rewrite list_lookup_insert_ne in Hkp by congruence.
      assert (Hqp : ile kp p).
      { eapply (ho_a _ _ Ho (parent pos)); eauto; unfold parent in *; lia. }
      destruct (Nat.eq_dec c pos) as [->|Hne].
      + rewrite list_lookup_insert in Hck by lia. inversion Hck; subst k. exact Hqp.
      + rewrite list_lookup_insert_ne in Hck by congruence.
        apply (ile_trans kp p k); eauto. eapply (ho_a _ _ Ho c); eauto; congruence.
    - intros c k Hc0 Hc Hcp Hck.
      assert (Hnp : ile newItem p) by (apply ilt_ile; auto; lia).
      destruct (Nat.eq_dec c pos) as [->|Hne].
      + rewrite list_lookup_insert in Hck by lia. inversion Hck; subst k. exact Hnp.
      + rewrite list_lookup_insert_ne in Hck by congruence.
        apply (ile_trans newItem p k); eauto; [lia|]. eapply (ho_a _ _ Ho c); eauto; congruence.
  Qed.

  (** Moving the smallest child up into the hole keeps the order invariant. *)
  Lemma hord_up heap back pos cp ck :
    ordP -> hole heap back pos -> hord heap pos ->
    0 < cp -> cp < len -> parent cp = pos -> heap !! cp = Some ck ->
    (forall c k, 0 < c -> c < len -> parent c = pos -> heap !! c = Some k -> ile ck k) ->
    hord (<[pos := ck]> heap) cp.
  Proof.
    intros O Hh Ho Hc0 Hcl Hcp Hck Hmin.
    pose proof (ho_lh _ _ _ Hh) as Hlh. pose proof (ho_pos _ _ _ Hh) as Hpos.
    assert (Hne0 : cp <> pos) by (unfold parent in *; lia).
    constructor.
    - intros i k kp Hi0 Hi Hic Hipc Hik Hikp.
      destruct (Nat.eq_dec i pos) as [->|Hne].
      + rewrite list_lookup_insert in Hik by lia. inversion Hik; subst k.
        rewrite list_lookup_insert_ne in Hikp by (unfold parent; lia).
        eapply (ho_b _ _ Ho cp); eauto.
      + rewrite list_lookup_insert_ne in Hik by congruence.
        destruct (Nat.eq_dec (parent i) pos) as [E|Hne'].
        * rewrite E in Hikp. rewrite list_lookup_insert in Hikp by lia. inversion Hikp; subst kp. eauto.
        * rewrite list_lookup_insert_ne in Hikp by congruence. eapply (ho_a _ _ Ho i); eauto.
    - intros c k kp _ Hc0' Hc Hcpp Hck' Hkp.
      rewrite Hcp in Hkp. rewrite list_lookup_insert in Hkp by lia. inversion Hkp; subst kp.
      assert (c <> pos) by (unfold parent in *; lia).
      rewrite list_lookup_insert_ne in Hck' by congruence.
      eapply (ho_a _ _ Ho c); eauto; congruence.
  Qed.

  Lemma siftDown_loop_spec E U fuel : forall start pos heap back,
    pos < fuel ->
    hole heap back pos ->
    wp E U (siftDown_loop fuel start pos newItem dist heap back)
      (fun '(pos', heap', back') =>
         hole heap' back' pos' /\
         (ordP -> hord heap pos -> hchild heap pos -> anc start pos ->
          (forall q, 0 < start -> heap !! (parent start) = Some q -> ile q newItem) ->
          ford (<[pos' := newItem]> heap'))).
  Proof.
    induction fuel as [|fuel IH]; intros start pos heap back Hf Hh; [lia|].
    cbn [siftDown_loop].
    pose proof (ho_lh _ _ _ Hh) as Hlh. pose proof (ho_lb _ _ _ Hh) as Hlb.
    pose proof (ho_pos _ _ _ Hh) as Hpos.
    assert (Hdone : (ordP -> hord heap pos -> hchild heap pos ->
              (forall q, 0 < pos -> heap !! (parent pos) = Some q -> ile q newItem) ->
              ford (<[pos := newItem]> heap))).
    { intros O Ho Hc Hq i k kp Hi0 Hi Hik Hikp.
      destruct (Nat.eq_dec i pos) as [->|Hne].
      - rewrite list_lookup_insert in Hik by lia. inversion Hik; subst k.
        rewrite list_lookup_insert_ne in Hikp by (unfold parent; lia). eauto.
      - rewrite list_lookup_insert_ne in Hik by congruence.
        destruct (Nat.eq_dec (parent i) pos) as [Ep|Hne'].
        + rewrite Ep in Hikp. rewrite list_lookup_insert in Hikp by lia. inversion Hikp; subst kp. eauto.
        + rewrite list_lookup_insert_ne in Hikp by congruence. eapply (ho_a _ _ Ho i); eauto. }
    destruct (Nat.ltb_spec start pos) as [Hlt|Hge].
    - rewrite parent_model.
      assert (Hpl : parent pos < max) by (unfold parent; lia).
      destruct (hole_get _ _ _ _ Hh Hpl) as (p & Hp & Hpm).
      apply wp_bind, wp_vget with p; [exact Hp|].
      apply wp_bind, wp_vget with (key newItem); [apply Hdist; lia|].
      apply wp_bind, wp_vget with (key p); [apply Hdist; lia|].
      destruct (nltb (key newItem) (key p)) eqn:Hcmp.
      + apply wp_bind, wp_vset; [lia|]. apply wp_bind, wp_vset; [lia|].
        assert (Hh' : hole (<[pos:=p]> heap) (<[p:=pos]> back) (parent pos)).
        { apply hole_move; auto; unfold parent; lia. }
        eapply wp_impl; [apply IH; [unfold parent; lia|exact Hh']|].
        intros [[pos' heap'] back'] [Hh2 Hf2]. split; [exact Hh2|].
        intros O Ho Hc Ha Hq.
        destruct (hord_down _ _ _ _ O Hh Ho ltac:(lia) Hp Hcmp) as [Ho' Hc'].
        apply Hf2; auto.
        * apply anc_parent; assumption.
        * intros q Hs0 Hqq. apply Hq; [exact Hs0|].
          rewrite list_lookup_insert_ne in Hqq; [exact Hqq|]. unfold parent; lia.
      + apply wp_ok. split; [exact Hh|]. intros O Ho Hc _ _. apply Hdone; auto.
        intros q _ Hq. rewrite Hp in Hq; inversion Hq; subst q. exact Hcmp.
    - apply wp_ok. split; [exact Hh|]. intros O Ho Hc Ha Hq. apply Hdone; auto.
      assert (pos = start) as -> by (pose proof (anc_le _ _ Ha); lia). exact Hq.
  Qed.

  Lemma siftDown_spec E U start pos heap back :
    hole heap back pos -> heap !! pos = Some newItem ->
    wp E U (siftDown start pos dist heap back)
      (fun '(heap', back') =>
         full heap' back' /\
         (ordP -> hord heap pos -> hchild heap pos -> anc start pos ->
          (forall q, 0 < start -> heap !! (parent start) = Some q -> ile q newItem) ->
          ford heap')).
  Proof.
    intros Hh Hn. unfold siftDown.
    apply wp_bind, wp_vget with newItem; [exact Hn|].
    apply wp_bind. eapply wp_impl; [apply siftDown_loop_spec; [lia|exact Hh]|].
    intros [[pos' heap'] back'] [Hh' Hf'].
    pose proof (ho_lh _ _ _ Hh') as Hlh. pose proof (ho_lb _ _ _ Hh') as Hlb.
    pose proof (ho_pos _ _ _ Hh') as Hpos.
    apply wp_bind, wp_vset; [lia|]. apply wp_bind, wp_vset; [lia|]. apply wp_ok.
    split; [apply hole_fill; exact Hh'|exact Hf'].
  Qed.

  Lemma siftUp_loop_spec E U fuel : forall pos heap back,
    len - pos < fuel ->
    hole heap back pos ->
    wp E U (siftUp_loop fuel pos len dist heap back)
      (fun '(pos', heap', back') =>
         hole heap' back' pos' /\ anc pos pos' /\
         (forall c, 0 < c -> c < len -> parent c <> pos') /\
         (forall j, j < pos -> heap' !! j = heap !! j) /\
         (ordP -> hord heap pos -> hord heap' pos')).
  Proof.
    induction fuel as [|fuel IH]; intros pos heap back Hf Hh; [lia|].
    cbn [siftUp_loop].
    pose proof (ho_lh _ _ _ Hh) as Hlh. pose proof (ho_lb _ _ _ Hh) as Hlb.
    pose proof (ho_pos _ _ _ Hh) as Hpos.
    destruct (Nat.ltb_spec (2 * pos + 1) len) as [Hlt|Hge].
    - set (lc := 2 * pos + 1) in *.
      destruct (hole_get _ _ _ lc Hh ltac:(lia)) as (l & Hl & Hlm).
      apply wp_bind.
      apply wp_impl with (fun cp => cp < len /\ 0 < cp /\ parent cp = pos /\
         exists ck, heap !! cp = Some ck /\ ck < max /\
           (ordP -> forall c k, 0 < c -> c < len -> parent c = pos -> heap !! c = Some k -> ile ck k)).
      { destruct (Nat.ltb_spec (lc + 1) len) as [Hr|Hr].
        - destruct (hole_get _ _ _ (lc + 1) Hh ltac:(lia)) as (r & Hrr & Hrm).
          apply wp_bind, wp_vget with r; [exact Hrr|].
          apply wp_bind, wp_vget with l; [exact Hl|].
          apply wp_bind, wp_vget with (key r); [auto|].
          apply wp_bind, wp_vget with (key l); [auto|].
          apply wp_ok. destruct (nltb (key r) (key l)) eqn:Hc.
          + split; [lia|]. split; [lia|]. split; [unfold parent; lia|].
            exists r. split; [exact Hrr|]. split; [exact Hrm|].
            intros O c k Hc0 Hcl Hcp Hck.
            destruct (Nat.eq_dec c (lc + 1)) as [->|Hne].
            * rewrite Hrr in Hck; inversion Hck; subst k. destruct O as [O1 O2]. apply nlt_irrefl; auto.
            * assert (c = lc) as -> by (unfold parent in *; lia).
              rewrite Hl in Hck; inversion Hck; subst k. apply ilt_ile; auto.
          + split; [lia|]. split; [lia|]. split; [unfold parent; lia|].
            exists l. split; [exact Hl|]. split; [exact Hlm|].
            intros O c k Hc0 Hcl Hcp Hck.
            destruct (Nat.eq_dec c (lc + 1)) as [->|Hne].
            * rewrite Hrr in Hck; inversion Hck; subst k. exact Hc.
            * assert (c = lc) as -> by (unfold parent in *; lia).
              rewrite Hl in Hck; inversion Hck; subst k. destruct O as [O1 O2]. apply nlt_irrefl; auto.
        - apply wp_ok. split; [lia|]. split; [lia|]. split; [unfold parent; lia|].
          exists l. split; [exact Hl|]. split; [exact Hlm|].
          intros O c k Hc0 Hcl Hcp Hck.
          assert (c = lc) as -> by (unfold parent in *; lia).
          rewrite Hl in Hck; inversion Hck; subst k. destruct O as [O1 O2]. apply nlt_irrefl; auto. }
      intros cp (Hcl & Hc0 & Hcp & ck & Hck & Hckm & Hmin).
      assert (Hne : cp <> pos) by (unfold parent in *; lia).
      apply wp_bind, wp_vget with ck; [exact Hck|].
      apply wp_bind, wp_vset; [lia|].
      apply wp_bind, wp_vget with ck; [rewrite list_lookup_insert_ne by congruence; exact Hck|].
      apply wp_bind, wp_vset; [lia|].
      assert (Hh' : hole (<[pos:=ck]> heap) (<[ck:=pos]> back) cp) by (apply hole_move; auto).
      eapply wp_impl; [apply IH; [unfold parent in *; lia|exact Hh']|].
      intros [[pos' heap'] back'] (Hh2 & Ha & Hnc & Hq & Ho2).
      split; [exact Hh2|]. split.
      { assert (forall a b c, anc a b -> anc b c -> anc a c) as Htr.
        { intros a b c Hab Hbc. induction Hbc as [|p c' _ IHc Hc0' Hc']; [exact Hab|]. econstructor; eauto. }
        apply (Htr _ cp); [|exact Ha]. apply (anc_child _ pos); [constructor|exact Hc0|exact Hcp]. }
      split; [exact Hnc|]. split.
      { intros j Hj. rewrite Hq by (unfold parent in *; lia). apply list_lookup_insert_ne. lia. }
      { intros O Ho. apply Ho2; [exact O|]. eapply hord_up; eauto. }
    - apply wp_ok. split; [exact Hh|]. split; [constructor|]. split.
      { intros c Hc0 Hcl Hcp. unfold parent in *; lia. }
      split; [auto|auto].
  Qed.

  Lemma siftUp_spec E U pos heap back :
    hole heap back pos -> heap !! pos = Some newItem ->
    wp E U (siftUp pos len dist heap back)
      (fun '(heap', back') =>
         full heap' back' /\
         (ordP -> hord heap pos ->
          (forall q, 0 < pos -> heap !! (parent pos) = Some q -> ile q newItem) ->
          ford heap')).
  Proof.
    intros Hh Hn. unfold siftUp.
    apply wp_bind, wp_vget with newItem; [exact Hn|].
    apply wp_bind. eapply wp_impl; [apply siftUp_loop_spec; [lia|exact Hh]|].
    intros [[pos' heap'] back'] (Hh' & Ha & Hnc & Hq & Ho).
    pose proof (ho_lh _ _ _ Hh') as Hlh. pose proof (ho_pos _ _ _ Hh') as Hpos.
    apply wp_bind, wp_vset; [lia|].
    assert (Hh2 : hole (<[pos' := newItem]> heap') back' pos').
    { destruct Hh' as [H1 H2 H3 H4 H5 H6 H7]. constructor; auto.
      - rewrite insert_length; exact H1.
      - intros i k Hi Hip Hik. rewrite list_lookup_insert_ne in Hik by congruence. eauto.
      - intros k HL. destruct (H5 _ HL) as (i & Hi & Hip & Hik). exists i.
        split; [exact Hi|]. split; [exact Hip|]. rewrite list_lookup_insert_ne by congruence. exact Hik.
      - intros i k Hik. destruct (Nat.eq_dec i pos') as [->|Hip].
        + rewrite list_lookup_insert in Hik by lia. inversion Hik; subst; lia.
        + rewrite list_lookup_insert_ne in Hik by congruence. eauto. }
    eapply wp_impl; [apply siftDown_spec; [exact Hh2|apply list_lookup_insert; lia]|].
    intros [heap2 back2] [Hf Hord]. split; [exact Hf|].
    intros O Ho0 Hpar. pose proof (Ho O Ho0) as Ho'.
    apply Hord; auto.
    - destruct Ho' as [Hoa Hob]. constructor.
      + intros i k kp Hi0 Hi Hip Hipp Hik Hikp.
        rewrite list_lookup_insert_ne in Hik by congruence.
        rewrite list_lookup_insert_ne in Hikp by congruence. eauto.
      + intros c k kp _ Hc0 Hc Hcp. exfalso. eapply Hnc; eauto.
    - intros c k Hc0 Hc Hcp. exfalso. eapply Hnc; eauto.
    - intros q Hp0 Hqq. apply Hpar; [exact Hp0|].
      pose proof (anc_le _ _ Ha).
      rewrite list_lookup_insert_ne in Hqq by (unfold parent; lia).
      rewrite Hq in Hqq by (unfold parent; lia). exact Hqq.
  Qed.
End sift.
