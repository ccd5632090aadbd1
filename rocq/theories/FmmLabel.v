(** * FmmLabel: a label-setting argument for the distance march, over the reals.

    [F i x]: the final value of node [i] may be [x].  [V i x]: so may a tentative one.
    [G a j x]: the value of the neighbour of [a] in direction [j], computed after [a] became final,
    may be [x].  If updates produce [V] and [G], and a smallest tentative value is final ([F]), then
    every value the march returns satisfies [F]. *)

From Verif Require Import HeapProofs HeapRefine MeshTopo FmmModel FmmSpec FmmProofs FmmFacts NumR.
Local Open Scope nat_scope.

Section label.
  Context (W H : nat) (mesh : Mesh R).
  Hypothesis Ht : topo W H mesh.
  Notation N := (node_count W H).
  Variable copy : list R.
  Hypothesis Hcopy : length copy = N.
  Variables (F V : nat -> R -> Prop) (G : nat -> nat -> R -> Prop).

  Record base (st : list FStatus) (sd : list R) : Prop := {
    b_ls : length st = N;
    b_ld : length sd = N;
    b_front : forall k, k < N -> on_front W H copy k -> st !! k = Some F_FROZEN;
    b_F : forall k x, st !! k = Some F_FROZEN -> sd !! k = Some x -> F k x
  }.
  Hypothesis Hupd : forall st sd i d, base st sd -> i < N -> st !! i <> Some F_FROZEN -> frozen_nb W H st i ->
    updateNode mesh copy st sd i = Ok d ->
    V i d /\ forall a j, a < N -> j < 4 -> nb W H a j = i -> st !! a = Some F_FROZEN -> G a j d.
  Hypothesis Hfreeze : forall st sd i x, base st sd ->
    (forall k y, st !! k = Some F_TRIAL -> sd !! k = Some y -> V k y) ->
    st !! i = Some F_TRIAL -> sd !! i = Some x ->
    (forall k y, st !! k = Some F_TRIAL -> sd !! k = Some y -> (Rabs x <= Rabs y)%R) ->
    (forall a j, a < N -> j < 4 -> st !! a = Some F_FROZEN -> nb W H a j < N -> st !! nb W H a j <> Some F_FROZEN ->
       (exists y, sd !! a = Some y /\ Rabs y = Rabs x) \/
       (st !! nb W H a j = Some F_TRIAL /\ exists y, sd !! nb W H a j = Some y /\ G a j y)) ->
    F i x.

  Record LI (pend : nat -> nat -> Prop) (st : list FStatus) (sd : list R) : Prop := {
    li_b : base st sd;
    li_V : forall k x, st !! k = Some F_TRIAL -> sd !! k = Some x -> V k x;
    li_nb : forall k, st !! k = Some F_TRIAL -> frozen_nb W H st k;
    li_G : forall a j, a < N -> j < 4 -> st !! a = Some F_FROZEN -> nb W H a j < N -> st !! nb W H a j <> Some F_FROZEN ->
       pend a j \/ (st !! nb W H a j = Some F_TRIAL /\ exists y, sd !! nb W H a j = Some y /\ G a j y)
  }.

  Lemma LI_weaken (P Q : nat -> nat -> Prop) st sd : LI P st sd ->
    (forall a j, a < N -> j < 4 -> st !! a = Some F_FROZEN -> nb W H a j < N -> st !! nb W H a j <> Some F_FROZEN -> P a j ->
      Q a j \/ (st !! nb W H a j = Some F_TRIAL /\ exists y, sd !! nb W H a j = Some y /\ G a j y)) -> LI Q st sd.
  Proof.
    intros [B1 B2 B3 B4] HPQ. constructor; auto. intros a j Ha Hj Hf Hb Hn.
    destruct (B4 a j Ha Hj Hf Hb Hn) as [HP|HP]; auto.
  Qed.

  Lemma frozen_nb_mono st st' k : frozen_nb W H st k -> (forall a, st !! a = Some F_FROZEN -> st' !! a = Some F_FROZEN) -> frozen_nb W H st' k.
  Proof. intros (j & Hj & Hb & Hf) HM. exists j. auto. Qed.

  Lemma LI_ustep P st sd vel st' sd' vel' : LI P st sd -> ustep W H mesh false copy (st, sd, vel) (st', sd', vel') -> LI P st' sd'.
  Proof.
    intros HL Hs. pose proof HL as [[Ls Ld Hfr HF] HV Hnb HG]. inversion Hs as [? ? ? i d Hst Hd|? ? ? i d Hst Hfn Hv Hin Hd|? ? ? i d Hst Hfn Hact Hd]; subst; [|discriminate|].
    - assert (Hi : i < N) by (apply lookup_lt_Some in Hst; lia).
      destruct (Hupd _ _ i d (li_b _ _ _ HL) Hi ltac:(congruence) (Hnb i Hst) Hd) as [HVi HGi].
      constructor; [constructor|..]; auto.
      + rewrite insert_length. exact Ld.
      + intros k x Hk Hx. rewrite list_lookup_insert_ne in Hx by congruence. eauto.
      + intros k x Hk Hx. destruct (Nat.eq_dec k i) as [->|Hne].
        * rewrite list_lookup_insert in Hx by lia. congruence.
        * rewrite list_lookup_insert_ne in Hx by auto. eauto.
      + intros a j Ha Hj Hf Hb Hn. destruct (Nat.eq_dec (nb W H a j) i) as [E|Hne].
        * right. rewrite E. split; [exact Hst|]. exists d. split; [apply list_lookup_insert; lia|]. apply HGi; auto.
        * rewrite list_lookup_insert_ne by auto. auto.
    - assert (Hi : i < N) by (apply lookup_lt_Some in Hst; lia).
      destruct (Hupd _ _ i d (li_b _ _ _ HL) Hi ltac:(congruence) Hfn Hd) as [HVi HGi].
      assert (HFR : forall a, <[i:=F_TRIAL]> st !! a = Some F_FROZEN <-> st !! a = Some F_FROZEN).
      { intros a. destruct (Nat.eq_dec a i) as [->|Hne]; [rewrite list_lookup_insert by lia; split; congruence|].
        rewrite list_lookup_insert_ne by auto. tauto. }
      constructor; [constructor|..].
      + rewrite insert_length. exact Ls.
      + rewrite insert_length. exact Ld.
      + intros k Hk Hf. apply HFR. auto.
      + intros k x Hk Hx. apply HFR in Hk. rewrite list_lookup_insert_ne in Hx by congruence. eauto.
      + intros k x Hk Hx. destruct (Nat.eq_dec k i) as [->|Hne].
        * rewrite list_lookup_insert in Hx by lia. congruence.
        * rewrite list_lookup_insert_ne in Hx by auto. rewrite list_lookup_insert_ne in Hk by auto. eauto.
      + intros k Hk. eapply frozen_nb_mono; [|intros a; apply HFR].
        destruct (Nat.eq_dec k i) as [->|Hne]; [exact Hfn|]. rewrite list_lookup_insert_ne in Hk by auto. auto.
      + intros a j Ha Hj Hf Hb Hn. apply HFR in Hf. destruct (Nat.eq_dec (nb W H a j) i) as [E|Hne].
        * right. rewrite E. split; [apply list_lookup_insert; lia|]. exists d. split; [apply list_lookup_insert; lia|]. apply HGi; auto.
        * rewrite !list_lookup_insert_ne in * by auto. auto.
  Qed.

  Lemma LI_usteps P (a b : flat (T := R)) : rtc (ustep W H mesh false copy) a b -> LI P a.1.1 a.1.2 -> LI P b.1.1 b.1.2.
  Proof.
    induction 1 as [|a b c Hs _ IH]; [auto|]. intros HL. apply IH. destruct a as [[sta sda] va], b as [[stb sdb] vb]. cbn [fst snd] in *.
    eapply LI_ustep; eauto.
  Qed.

  Lemma LI_freeze P st sd i x : LI P st sd -> st !! i = Some F_TRIAL -> sd !! i = Some x ->
    (forall k y, st !! k = Some F_TRIAL -> sd !! k = Some y -> (Rabs x <= Rabs y)%R) ->
    (forall a j, P a j -> a < N -> exists y, sd !! a = Some y /\ Rabs y = Rabs x) ->
    LI (fun a j => P a j \/ a = i) (<[i := F_FROZEN]> st) sd.
  Proof.
    intros HL Hst Hx Hmin HP. pose proof HL as [[Ls Ld Hfr HF] HV Hnb HG].
    assert (Hi : i < N) by (apply lookup_lt_Some in Hst; lia).
    assert (HFi : F i x).
    { apply (Hfreeze st sd i x (li_b _ _ _ HL) HV Hst Hx Hmin). intros a j Ha Hj Hf Hb Hn.
      destruct (HG a j Ha Hj Hf Hb Hn) as [HPa|HGa]; [left|right; exact HGa]. eauto. }
    assert (HM : forall a, st !! a = Some F_FROZEN -> <[i:=F_FROZEN]> st !! a = Some F_FROZEN).
    { intros a Ha. destruct (Nat.eq_dec a i) as [->|Hne]; [apply list_lookup_insert; lia|]. rewrite list_lookup_insert_ne by auto. exact Ha. }
    constructor; [constructor|..].
    - rewrite insert_length. exact Ls.
    - exact Ld.
    - intros k Hk Hf. auto.
    - intros k y Hk Hy. destruct (Nat.eq_dec k i) as [->|Hne]; [congruence|]. rewrite list_lookup_insert_ne in Hk by auto. eauto.
    - intros k y Hk Hy. destruct (Nat.eq_dec k i) as [->|Hne]; [rewrite list_lookup_insert in Hk by lia; discriminate|].
      rewrite list_lookup_insert_ne in Hk by auto. eauto.
    - intros k Hk. destruct (Nat.eq_dec k i) as [->|Hne]; [rewrite list_lookup_insert in Hk by lia; discriminate|].
      rewrite list_lookup_insert_ne in Hk by auto. eapply frozen_nb_mono; eauto.
    - intros a j Ha Hj Hf Hb Hn. destruct (Nat.eq_dec a i) as [->|Hne]; [left; right; reflexivity|].
      rewrite list_lookup_insert_ne in Hf by auto.
      destruct (Nat.eq_dec (nb W H a j) i) as [E|Hne2]; [rewrite E, list_lookup_insert in Hn by lia; congruence|].
      rewrite list_lookup_insert_ne in * by auto. destruct (HG a j Ha Hj Hf Hb Hn); auto.
  Qed.

  (** ** The program *)
  Notation SI P s := (LI P (f_status s) (f_sd s)).
  Notation inv := (finv W H false false).

  Let HE : false = true -> NumOrd R (fun _ => True) \/ False. Proof. discriminate. Qed.
  Let HEv : false = true -> False. Proof. discriminate. Qed.

  Lemma min_R (st : list FStatus) (sd : list R) x :
    (NumOrd R (fun _ => True) -> forall j y, st !! j = Some F_TRIAL -> sd !! j = Some y -> nltb (nabs y) (nabs x) = false) ->
    forall j y, st !! j = Some F_TRIAL -> sd !! j = Some y -> (Rabs x <= Rabs y)%R.
  Proof. intros HM j y Hj Hy. specialize (HM NumOrdR j y Hj Hy). cbn in HM. apply Rltb_false in HM. exact HM. Qed.

  Lemma pop_equal_label fuel v : forall acc s, inv s -> cnt nonfrozen (f_status s) < fuel ->
    length acc + cnt nonfrozen (f_status s) <= N ->
    SI (fun a _ => a ∈ acc) s -> (forall a, a ∈ acc -> a < N /\ f_status s !! a = Some F_FROZEN /\ exists y, f_sd s !! a = Some y /\ Rabs y = v) ->
    wp False False (pop_equal mesh false fuel v acc s) (fun '(acc', s') => inv s' /\ SI (fun a _ => a ∈ acc') s' /\
      cnt nonfrozen (f_status s') <= cnt nonfrozen (f_status s) /\
      forall a, a ∈ acc' -> a < N /\ f_status s' !! a = Some F_FROZEN).
  Proof.
    induction fuel as [|fuel IH]; intros acc s I Hf Hacc HL Hv; [lia|]. cbn [pop_equal].
    assert (Hdone : wp False False (Ok (acc, s)) (fun '(acc', s') => inv s' /\ SI (fun a _ => a ∈ acc') s' /\
      cnt nonfrozen (f_status s') <= cnt nonfrozen (f_status s) /\ forall a, a ∈ acc' -> a < N /\ f_status s' !! a = Some F_FROZEN)).
    { apply wp_ok. split; [exact I|]. split; [exact HL|]. split; [lia|]. intros a Ha. destruct (Hv a Ha) as (? & ? & _). auto. }
    unfold heap_empty. destruct (Nat.eqb_spec (h_len (f_heap s)) 0) as [E0|Hne]; [exact Hdone|]. cbn [negb].
    pose proof (pop_freeze_inv W H mesh Ht false copy Hcopy false False HE HEv acc s I Hne Hacc) as HP.
    destruct (heap_peek (f_heap s)) as [w| | |] eqn:Hpk; cbn [obind].
    2-4: destruct (pop_freeze mesh false acc s) as [[[acc1 v1] s1]| | |]; cbn [wp] in HP; try contradiction;
      destruct HP as (a & _ & _ & _ & _ & _ & _ & _ & _ & HPk & _); discriminate.
    destruct (v =? w)%num eqn:Evw; [|exact Hdone]. apply Reqb_true in Evw. subst w.
    apply wp_bind. eapply wp_impl; [exact HP|].
    intros [[acc1 v1] s1] (a & -> & Ha' & Hst & Hst' & Hstep & I' & Hc & Hsd & Hpk' & x & Hx & -> & Hmin).
    cbn [nabs NumR] in *. assert (v = Rabs x) by congruence. subst v.
    pose proof (fi_ls _ _ _ _ _ I) as Ls.
    eapply wp_impl; [apply (IH (acc ++ [a]) s1 I'); [lia|rewrite app_length; cbn [length]; lia| |]|].
    - rewrite Hst', Hsd. eapply LI_weaken.
      + apply (LI_freeze _ _ _ a x HL Hst Hx (min_R _ _ _ Hmin)). intros b j Hb _. destruct (Hv b Hb) as (_ & _ & HH). exact HH.
      + intros b j _ _ _ _ _ [Hb| ->]; left; apply elem_of_app; [left; exact Hb|right; left].
    - intros b Hb. apply elem_of_app in Hb as [Hb|Hb].
      + destruct (Hv b Hb) as (A & B & C). rewrite Hst', Hsd. split; [exact A|]. split; [|exact C].
        destruct (Nat.eq_dec b a) as [->|Hba]; [apply list_lookup_insert; lia|rewrite list_lookup_insert_ne; auto].
      + apply elem_of_list_singleton in Hb. subst b. split; [exact Ha'|]. rewrite Hst', Hsd.
        split; [apply list_lookup_insert; lia|]. eauto.
    - intros [acc' s'] (A & B & C & D). split; [exact A|]. split; [exact B|]. split; [lia|exact D].
  Qed.

  Lemma relax_label addr j s P : inv s -> addr < N -> j < 4 -> f_status s !! addr = Some F_FROZEN -> SI P s ->
    wp False False (relax mesh false copy addr j s) (fun s' =>
      inv s' /\ same_frozen s s' /\ SI (fun a j' => P a j' /\ (a, j') <> (addr, j)) s').
  Proof.
    intros I Ha Hj Hfr HL. eapply wp_impl; [apply (relax_inv W H mesh Ht false copy Hcopy false False HE HEv addr j s I Ha Hj Hfr)|].
    intros s' (I' & R' & S' & Q' & D'). split; [exact I'|]. split; [exact S'|].
    pose proof (LI_usteps P _ _ R' HL) as HL'. cbn [abs fst snd] in HL'.
    eapply LI_weaken; [exact HL'|]. intros a j' Ha' Hj' Hf' Hb Hn HPa.
    destruct (decide ((a, j') = (addr, j))) as [E|Hne]; [|left; auto].
    inversion E; subst a j'. right. destruct S' as (_ & SF & SN).
    assert (Hn0 : f_status s !! nb W H addr j <> Some F_FROZEN) by (intros HX; apply Hn, SF, HX).
    destruct (D' Hb Hn0) as (d & Hd & Hd').
    assert (Hfn : frozen_nb W H (f_status s) (nb W H addr j)).
    { pose proof (nb_opp W H addr j Ha Hj Hb) as Hop. exists (opp j). rewrite Hop. split; [apply opp_lt; exact Hj|]. auto. }
    destruct (Hupd _ _ _ d (li_b _ _ _ HL) Hb Hn0 Hfn Hd) as [_ HG].
    split; [|exists d; split; [exact Hd'|apply HG; auto]].
    destruct (lookup_lt_is_Some_2 (f_status s') (nb W H addr j)) as [x Hx]; [rewrite (fi_ls _ _ _ _ _ I'); exact Hb|].
    destruct x; [|contradiction|exact Hx|].
    - destruct (Q' Hb Hx). discriminate.
    - exfalso. exact (fi_mask _ _ _ _ _ I' _ Hx).
  Qed.

  Lemma relax_all_label l : forall s, inv s -> (forall a, a ∈ l -> a < N /\ f_status s !! a = Some F_FROZEN) ->
    SI (fun a _ => a ∈ l) s ->
    wp False False (relax_all mesh false copy l s) (fun s' => inv s' /\ same_frozen s s' /\ SI (fun _ _ => False) s').
  Proof.
    induction l as [|a l IH]; intros s I Hl HL; cbn [relax_all].
    { apply wp_ok. split; [exact I|]. split; [apply same_frozen_refl|].
      eapply LI_weaken; [exact HL|]. intros a j _ _ _ _ _ Ha. apply elem_of_nil in Ha as []. }
    destruct (Hl a) as [Ha Hfr]; [left|].
    apply wp_bind. apply (wp_for False False (fun j s' => inv s' /\ same_frozen s s' /\
      SI (fun b j' => (b = a /\ j <= j') \/ b ∈ l) s')).
    - split; [exact I|]. split; [apply same_frozen_refl|].
      eapply LI_weaken; [exact HL|]. intros b j _ _ _ _ _ Hb.
      left. apply elem_of_cons in Hb as [->|Hb]; [left; split; [reflexivity|lia]|right; exact Hb].
    - intros j s1 Hj (I1 & S1 & L1).
      eapply wp_impl; [apply (relax_label a j s1 _ I1 Ha Hj ltac:(apply S1; exact Hfr) L1)|].
      intros s2 (I2 & S2 & L2). split; [exact I2|]. split; [eapply same_frozen_trans; eauto|].
      eapply LI_weaken; [exact L2|]. intros b j' _ _ _ _ _ [[[-> Hjj]|Hin] Hne]; [|left; right; exact Hin].
      left. left. split; [reflexivity|]. destruct (Nat.eq_dec j' j) as [->|]; [congruence|lia].
    - intros s1 (I1 & S1 & L1).
      eapply wp_impl; [apply (IH s1 I1)|].
      + intros b Hb. destruct (Hl b) as [Hb1 Hb2]; [right; exact Hb|]. split; [exact Hb1|]. apply S1. exact Hb2.
      + eapply LI_weaken; [exact L1|]. intros b j _ Hj _ _ _ [[-> Hjj]|Hin]; [lia|left; exact Hin].
      + intros s2 (I2 & S2 & L2). split; [exact I2|]. split; [eapply same_frozen_trans; eauto|exact L2].
  Qed.

  Lemma solve_label fuel : forall s, inv s -> cnt nonfrozen (f_status s) < fuel -> SI (fun _ _ => False) s ->
    wp False False (solve mesh false copy fuel s) (fun s' => SI (fun _ _ => False) s').
  Proof.
    induction fuel as [|fuel IH]; intros s I Hf HL; [lia|]. cbn [solve].
    unfold heap_empty. destruct (Nat.eqb_spec (h_len (f_heap s)) 0) as [E0|Hne]; cbn [negb].
    { apply wp_ok. exact HL. }
    assert (Hcnt : cnt nonfrozen (f_status s) <= N).
    { rewrite <- (fi_ls _ _ _ _ _ I). apply cnt_le. }
    apply wp_bind. eapply wp_impl; [apply (pop_freeze_inv W H mesh Ht false copy Hcopy false False HE HEv [] s I Hne); cbn [length]; lia|].
    intros [[acc1 v1] s1] (a & -> & Ha & Hst & Hst' & Hstep & I1 & Hc1 & Hsd & _ & x & Hx & -> & Hmin). cbn [app].
    pose proof (fi_ls _ _ _ _ _ I) as Ls.
    apply wp_bind. eapply wp_impl; [apply (pop_equal_label _ (nabs x) [a] s1 I1)|].
    - rewrite (mesh_N W H mesh Ht). lia.
    - cbn [length]. lia.
    - rewrite Hst', Hsd. eapply LI_weaken.
      + apply (LI_freeze _ _ _ a x HL Hst Hx (min_R _ _ _ Hmin)). intros b j [].
      + intros b j _ _ _ _ _ [[]| ->]. left. left.
    - intros b Hb. apply elem_of_list_singleton in Hb. subst b. split; [exact Ha|]. rewrite Hst', Hsd.
      split; [apply list_lookup_insert; lia|]. eauto.
    - intros [acc2 s2] (I2 & L2 & Hc2 & Hacc).
      apply wp_bind. eapply wp_impl; [apply (relax_all_label acc2 s2 I2 Hacc L2)|].
      intros s3 (I3 & S3 & L3). apply (IH s3 I3); [destruct S3 as [-> _]; lia|exact L3].
  Qed.

  Lemma trial_node_label i s : inv s -> i < N -> SI (fun a j => i <= nb W H a j) s -> (forall k, i <= k -> f_status s !! k <> Some F_TRIAL) ->
    wp False False (trial_node mesh false copy i s) (fun s' => inv s' /\
      SI (fun a j => S i <= nb W H a j) s' /\ forall k, S i <= k -> f_status s' !! k <> Some F_TRIAL).
  Proof.
    intros I Hi HL HnT. unfold trial_node. pose proof (fi_ls _ _ _ _ _ I) as Ls.
    apply wp_bind, wp_vget_lt; [lia|]. intros st Hst.
    destruct (is_none st) eqn:Hn.
    - destruct st; try discriminate. clear Hn.
      apply (wp_for False False (fun j s' => inv s' /\ SI (fun a j => i <= nb W H a j) s' /\ same_frozen s s' /\
        (forall k, k <> i -> f_status s' !! k = f_status s !! k) /\
        (f_status s' !! i = Some F_NONE /\ (forall j', j' < j -> nb W H i j' < N -> f_status s' !! nb W H i j' <> Some F_FROZEN) \/
         f_status s' !! i = Some F_TRIAL /\ exists y, f_sd s' !! i = Some y /\
           forall a j, a < N -> j < 4 -> nb W H a j = i -> f_status s' !! a = Some F_FROZEN -> G a j y))).
      + split; [exact I|]. split; [exact HL|]. split; [apply same_frozen_refl|]. split; [auto|]. left. split; [exact Hst|]. intros; lia.
      + intros j s1 Hj (I1 & L1 & S1 & K1 & D1).
        eapply wp_impl; [apply (trial_step_inv W H mesh Ht false copy Hcopy false False HE HEv i j s1 I1 Hi Hj)|].
        intros s2 (I2 & R2 & S2 & Q2 & X2).
        pose proof (LI_usteps _ _ _ R2 L1) as L2. cbn [abs fst snd] in L2.
        split; [exact I2|]. split; [exact L2|]. split; [eapply same_frozen_trans; eauto|].
        pose proof (fi_ls _ _ _ _ _ I1) as Ls1. pose proof (fi_ld _ _ _ _ _ I1) as Ld1.
        destruct X2 as [[Es Ed]|(d & Hn1 & Es & Ed & Hd)].
        * split; [rewrite Es; exact K1|]. rewrite Es, Ed in *. destruct D1 as [[Hn1 D1]|D1]; [left|right; exact D1].
          split; [exact Hn1|]. intros j' Hj' Hb Hfr. destruct (Nat.eq_dec j' j) as [->|Hne]; [|apply (D1 j'); auto; lia].
          destruct (Q2 Hb Hfr Hn1). discriminate.
        * split; [intros k Hk; rewrite Es, list_lookup_insert_ne by auto; apply K1; exact Hk|]. right.
          rewrite Es, Ed. split; [apply list_lookup_insert; lia|]. exists d. split; [apply list_lookup_insert; lia|].
          rewrite (updateNode_mark W H mesh Ht copy Hcopy) in Hd by (auto; lia).
          intros a j' Ha Hj' Hnb Hf. destruct (Nat.eq_dec a i) as [->|Hai]; [rewrite list_lookup_insert in Hf by lia; discriminate|].
          rewrite list_lookup_insert_ne in Hf by auto.
          assert (Hfn : frozen_nb W H (f_status s1) i).
          { exists (opp j'). pose proof (nb_opp W H a j' Ha Hj' ltac:(rewrite Hnb; exact Hi)) as Hop. rewrite Hnb in Hop. rewrite Hop.
            split; [apply opp_lt; exact Hj'|]. auto. }
          apply (Hupd _ _ i d (li_b _ _ _ L1) Hi ltac:(congruence) Hfn Hd); auto.
      + intros s' (I' & L' & S' & K' & D'). split; [exact I'|]. split.
        * eapply LI_weaken; [exact L'|]. intros a j Ha Hj Hf Hb Hnf Hle.
          destruct (Nat.eq_dec (nb W H a j) i) as [E|Hne]; [|left; cbv beta in *; lia]. right. rewrite E.
          destruct D' as [[Hn1 D1]|(Hn1 & y & Hy & D1)].
          -- exfalso. pose proof (nb_opp W H a j Ha Hj Hb) as Hop. rewrite E in Hop.
             apply (D1 (opp j) (opp_lt j)); rewrite Hop; auto.
          -- split; [exact Hn1|]. exists y. split; [exact Hy|]. apply D1; auto.
        * intros k Hk. rewrite K' by lia. apply HnT. lia.
    - apply wp_ok. split; [exact I|]. split; [|intros k Hk; apply HnT; lia].
      eapply LI_weaken; [exact HL|]. intros a j Ha Hj Hf Hb Hnf Hle.
      destruct (Nat.eq_dec (nb W H a j) i) as [E|Hne]; [|left; cbv beta in *; lia]. exfalso. rewrite E in Hnf.
      destruct st; [discriminate|contradiction|exact (HnT i (Nat.le_refl i) Hst)|exact (fi_mask _ _ _ _ _ I i Hst)].
  Qed.

  (** Every value returned by a march of [copy] on a fresh object satisfies [F]. *)
  Lemma march_label o' sd' : fmm_march mesh (fmm_new mesh false) copy = Ok (o', sd') ->
    (forall i x, i < N -> on_front W H copy i ->
       (on_contour copy i /\ copy !! i = Some x \/ ~ on_contour copy i /\ border_new mesh copy i = x) -> F i x) ->
    forall i x, sd' !! i = Some x -> F i x.
  Proof.
    intros Hm Hinit i x Hx.
    pose proof (march_safe W H mesh Ht (fmm_new mesh false) copy (fobj_new W H mesh Ht false) Hcopy ltac:(discriminate)) as HM.
    rewrite Hm in HM. cbn [wp] in HM. destruct HM as (_ & _ & Lsd & Hall & _).
    destruct (fobj_new W H mesh Ht false) as [Lp Ls Lc Hp].
    unfold fmm_march in Hm. rewrite (take_copy_ok W H mesh Ht) in Hm by assumption. cbn [obind] in Hm.
    unfold march_core in Hm.
    pose proof (initialiseFrozen_spec W H mesh Ht copy Hcopy (fo_status (fmm_new mesh false)) copy Ls Hcopy Hp) as HI.
    destruct (initialiseFrozen mesh copy (fo_status (fmm_new mesh false)) copy) as [[st1 sd1]| | |] eqn:HF; cbn [wp obind] in *; try discriminate.
    destruct HI as (L1 & Ld1 & Hex & HS & HD).
    rewrite (heap_capacity_spec W H mesh Ht copy Hcopy) in Hm by exact L1. cbn [obind] in Hm. rewrite (mesh_N W H mesh Ht) in Hm.
    match type of Hm with context [for_ _ _ ?s] => set (s0 := s) in * end.
    assert (HS' : forall k s, st1 !! k = Some s -> k < N /\ (s = F_FROZEN /\ on_front W H copy k \/ s = F_NONE /\ ~ on_front W H copy k)).
    { intros k s Hk. assert (Hkn : k < N) by (apply lookup_lt_Some in Hk; lia). split; [exact Hkn|].
      pose proof (HS k _ (fresh_none W H mesh Ht false k Hkn)) as Hs. rewrite Hk in Hs. cbn [is_frozen orb] in Hs.
      rewrite <- (front_b W H mesh Ht copy Hcopy k Hkn). unfold fr in Hs. destruct (zero_b copy k || border_b mesh copy k); [left|right]; split; congruence. }
    assert (I0 : inv s0).
    { constructor; cbn [s0 f_ptr f_status f_heap f_sd f_vel]; auto.
      - discriminate.
      - apply hinv_new.
      - intros k (j & Hj & _). cbn in Hj. lia.
      - intros k Hk. destruct (HS' k _ Hk) as [_ [[? _]|[? _]]]; discriminate.
      - intros _ j k kp H0 Hj. cbn in Hj. lia.
      - intros k Hk. destruct (HS' k _ Hk) as [_ [[? _]|[? _]]]; discriminate. }
    assert (L0 : SI (fun a j => 0 <= nb W H a j) s0).
    { constructor; [constructor|..]; cbn [s0 f_status f_sd].
      - exact L1.
      - exact Ld1.
      - intros k Hk Hf. destruct (lookup_lt_is_Some_2 st1 k) as [s Hs]; [lia|]. destruct (HS' k s Hs) as [_ [[-> _]|[_ ?]]]; [exact Hs|contradiction].
      - intros k y Hk Hy. destruct (HS' k _ Hk) as [Hkn [[_ Hf]|[? _]]]; [|discriminate].
        apply Hinit; auto. pose proof (HD k _ (fresh_none W H mesh Ht false k Hkn)) as Hd. cbn [is_none andb] in Hd.
        pose proof (zero_b_spec copy k) as Hz. pose proof Hf as Hf'. apply (front_b W H mesh Ht copy Hcopy k Hkn) in Hf'.
        destruct (zero_b copy k).
        + left. split; [apply Hz; reflexivity|]. cbn in Hd. rewrite <- Hd. exact Hy.
        + right. split; [intros HX; apply Hz in HX; discriminate|]. cbn [orb] in Hf'. rewrite Hf' in Hd. cbn in Hd. congruence.
      - intros k y Hk. destruct (HS' k _ Hk) as [_ [[? _]|[? _]]]; discriminate.
      - intros k Hk. destruct (HS' k _ Hk) as [_ [[? _]|[? _]]]; discriminate.
      - intros a j _ _ _ _ _. left. lia. }
    assert (HT : wp False False (for_ N (trial_node mesh false copy) s0) (fun s1 => inv s1 /\ SI (fun _ _ => False) s1)).
    { apply (wp_for False False (fun i s' => inv s' /\ SI (fun a j => i <= nb W H a j) s' /\ forall k, i <= k -> f_status s' !! k <> Some F_TRIAL)).
      - split; [exact I0|]. split; [exact L0|]. intros k _ Hk. destruct (HS' k _ Hk) as [_ [[? _]|[? _]]]; discriminate.
      - intros k s1 Hk (I1 & L1' & T1). apply trial_node_label; auto.
      - intros s1 (I1 & L1' & _). split; [exact I1|]. eapply LI_weaken; [exact L1'|]. intros a j _ _ _ Hb _ Hle. cbv beta in *. lia. }
    destruct (for_ N (trial_node mesh false copy) s0) as [s1| | |]; cbn [wp obind] in *; try discriminate.
    destruct HT as [I1 L1'].
    pose proof (solve_label (S N) s1 I1) as HSol.
    destruct (solve mesh false copy (S N) s1) as [s2| | |]; cbn [wp obind] in *; try discriminate.
    inversion Hm; subst. cbn [fo_status] in Hall.
    assert (L2 : SI (fun _ _ => False) s2).
    { apply HSol; [|exact L1']. pose proof (cnt_le nonfrozen (f_status s1)). rewrite (fi_ls _ _ _ _ _ I1) in *. lia. }
    apply (b_F _ _ (li_b _ _ _ L2) i x); [|exact Hx]. rewrite Hall. apply lookup_replicate. split; [reflexivity|].
    apply lookup_lt_Some in Hx. lia.
  Qed.
End label.
