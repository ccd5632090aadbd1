(** * LevelSetBand: the narrow band (C19, C20). *)

From Verif Require Import MeshModel MeshSpec MeshProofs MeshTopo LevelSetModel LevelSetSpec.
From Coq Require Import ZifyBool ZifyNat.
Local Open Scope nat_scope.

Section Lists.
  Lemma filter_seq_S (f : nat -> bool) k :
    List.filter f (seq 0 (S k)) = List.filter f (seq 0 k) ++ (if f k then [k] else []).
  Proof. rewrite seq_S, List.filter_app. cbn. destruct (f k); reflexivity. Qed.
  Lemma filter_seq_len (f : nat -> bool) k : length (List.filter f (seq 0 k)) <= k.
  Proof. induction k as [|k IH]; [cbn; lia|]. rewrite filter_seq_S, app_length. destruct (f k); cbn; lia. Qed.
  Lemma elem_filter_seq (f : nat -> bool) k i : i ∈ List.filter f (seq 0 k) <-> i < k /\ f i = true.
  Proof.
    rewrite elem_of_list_In, filter_In, in_seq. intuition lia.
  Qed.
  Lemma increasing_filter_seq (f : nat -> bool) k : increasing (List.filter f (seq 0 k)).
  Proof.
    induction k as [|k IH]; [intros a b x y Ha; destruct a; discriminate Ha|].
    rewrite filter_seq_S. intros a b x y Ha Hb Hab.
    set (l := List.filter f (seq 0 k)) in *.
    assert (Hl : forall z, z ∈ l -> z < k). { intros z Hz. apply elem_filter_seq in Hz. apply Hz. }
    destruct (f k); [|rewrite !app_nil_r in *; eapply IH; eauto].
    apply lookup_app_Some in Hb as [Hb|[Hb1 Hb2]].
    - assert (Ha' : l !! a = Some x). { rewrite lookup_app_l in Ha; [exact Ha|]. apply lookup_lt_Some in Hb. lia. }
      eapply IH; eauto.
    - apply list_lookup_singleton_Some in Hb2 as [Hb2 <-].
      rewrite lookup_app_l in Ha by lia. apply Hl. eapply elem_of_list_lookup_2, Ha.
  Qed.
  Lemma increasing_NoDup l : increasing l -> NoDup l.
  Proof.
    intros Hl. apply NoDup_alt. intros i j x Hi Hj.
    destruct (Nat.lt_trichotomy i j) as [L|[L|L]]; [|exact L|].
    - pose proof (Hl _ _ _ _ Hi Hj L). lia.
    - pose proof (Hl _ _ _ _ Hj Hi L). lia.
  Qed.

  Lemma take_insert_append {A} (l : list A) n x :
    n < length l -> take (n + 1) (<[n := x]> l) = take n l ++ [x].
  Proof.
    intros Hn. replace (n + 1) with (S n) by lia.
    rewrite (take_S_r _ _ x) by (apply list_lookup_insert; exact Hn).
    rewrite take_insert by lia. reflexivity.
  Qed.
End Lists.

Lemma u32_small z : (0 <= z < 2 ^ 32)%Z -> u32 z = Z.to_nat z.
Proof. intros Hz. unfold u32. rewrite Z.mod_small by lia. reflexivity. Qed.

Lemma usub_ok p k : k <= p -> (Z.of_nat p < 2 ^ 32)%Z -> usub p k = p - k.
Proof. intros H1 H2. unfold usub. rewrite u32_small by lia. lia. Qed.
Lemma uadd_ok p k : (Z.of_nat p + Z.of_nat k < 2 ^ 32)%Z -> uadd p k = p + k.
Proof. intros H2. unfold uadd. rewrite u32_small by lia. lia. Qed.

Section Band.
  Context {T : Type} {NT : Num T}.

  Lemma wp_node_mod E U i (f : Node T -> Node T) m (Q : Mesh T -> Prop) n :
    m_nodes m !! i = Some n -> Q (set_nodes (<[i := f n]> (m_nodes m)) m) -> wp E U (node_mod i f m) Q.
  Proof. intros Hi HQ. unfold node_mod, vmod. rewrite Hi. exact HQ. Qed.

  (** A node movable in mesh [m]. *)
  Definition movableb (m : Mesh T) (fx : bool) (i : nat) : bool :=
    match m_nodes m !! i with
    | Some n => negb (nd_masked n) && (negb (nd_domain n) || negb fx)
    | None => false
    end.
  Definition nearb (m : Mesh T) (sd : list T) (bw : nat) (fx : bool) (i : nat) : bool :=
    movableb m fx i && match sd !! i with Some d => (nabs d <? nofnat bw)%num | None => false end.
  Definition edgeb (m : Mesh T) (sd : list T) (bw : nat) (fx : bool) (i : nat) : bool :=
    nearb m sd bw fx i && match sd !! i with Some d => (nofnat (bw - 1) <? nabs d)%num | None => false end.

  Lemma nearb_spec s i : nearb (ls_mesh s) (ls_sd s) (ls_bandWidth s) (ls_fixed s) i = true <-> in_band s i.
  Proof.
    unfold nearb, movableb, in_band, movable. split.
    - destruct (m_nodes (ls_mesh s) !! i) as [n|] eqn:Hn; [|discriminate].
      destruct (ls_sd s !! i) as [d|]; [|intros E; apply andb_true_iff in E as [_ E]; discriminate].
      intros E. apply andb_true_iff in E as [E1 E2]. apply andb_true_iff in E1 as [E0 E1].
      split; [|eauto]. exists n. split; [reflexivity|]. split; [destruct (nd_masked n); [discriminate|reflexivity]|].
      intros Hd. rewrite Hd in E1. destruct (ls_fixed s); [discriminate|reflexivity].
    - intros ((n & -> & Hm & Hf) & d & -> & Hd). rewrite Hm, Hd. cbn.
      destruct (nd_domain n); cbn; [rewrite Hf by reflexivity|]; reflexivity.
  Qed.
  Lemma edgeb_spec s i : edgeb (ls_mesh s) (ls_sd s) (ls_bandWidth s) (ls_fixed s) i = true <-> near_edge s i.
  Proof.
    unfold edgeb, near_edge. rewrite <- nearb_spec. split.
    - intros E. apply andb_true_iff in E as [E1 E2]. split; [exact E1|].
      destruct (ls_sd s !! i) as [d|]; [eauto|discriminate].
    - intros (E1 & d & E2 & E3). rewrite E1, E2, E3. reflexivity.
  Qed.

  (** The effect on node [i]. *)
  Definition band_mark (near edge : nat -> bool) (i : nat) (n : Node T) : Node T :=
    set_nd_mine (nd_mine n || edge i) (set_nd_active (near i) n).

  Section loop.
    Variables (W H : nat) (m0 : Mesh T) (sd : list T) (bw : nat) (fx : bool) (band0 mines0 : list nat).
    Notation N := (node_count W H).
    Hypothesis Ht : topo W H m0.
    Hypothesis Hsmall : (Z.of_nat N < 2 ^ 31)%Z.
    Hypothesis Hsd : length sd = N.
    Hypothesis Hb : length band0 = N.
    Hypothesis Hm : 1 <= length mines0.
    Hypothesis Hbw : 1 <= bw /\ (Z.of_nat bw < 2 ^ 32)%Z.
    Notation near := (nearb m0 sd bw fx).
    Notation edge := (edgeb m0 sd bw fx).
    Let fl k := List.filter near (seq 0 k).
    Let me k := List.filter edge (seq 0 k).

    Definition band_inv (k : nat) (st : Mesh T * list nat * nat * list nat * nat) : Prop :=
      let '(m, band, nb, mines, nm) := st in
      m = set_nodes (m_nodes m) m0 /\ length (m_nodes m) = N /\
      (forall i n, m_nodes m0 !! i = Some n ->
         m_nodes m !! i = Some (if (i <? k)%nat then band_mark near edge i n else n)) /\
      length band = N /\ nb = length (fl k) /\ take nb band = fl k /\
      nm = length (me k) /\ take nm mines = me k /\ 1 <= length mines /\
      nm <= length mines /\ (nm < N -> nm < length mines).

    Lemma band_step_inv k st : k < N -> band_inv k st ->
      wp False False (band_step sd bw fx k st) (band_inv (S k)).
    Proof.
      intros Hk. destruct st as [[[[m band] nb] mines] nm].
      intros (Em & Hln & Hn & Hlb & Enb & Etb & Enm & Etm & Hl1 & Hl2 & Hl3).
      destruct (topo_node W H m0 Ht k Hk) as (n & Hnk & _).
      pose proof (Hn k n Hnk) as Hmk. rewrite (proj2 (Nat.ltb_ge k k)) in Hmk by lia.
      destruct (lookup_lt_is_Some_2 sd k) as [d Hd]; [lia|].
      pose proof (filter_seq_len near k) as Lb. pose proof (filter_seq_len edge k) as Lm.
      assert (Hnear : near k = negb (nd_masked n) && (negb (nd_domain n) || negb fx) && (nabs d <? nofnat bw)%num).
      { unfold nearb, movableb. rewrite Hnk, Hd. reflexivity. }
      assert (Hedge : edge k = near k && (nofnat (bw - 1) <? nabs d)%num).
      { unfold edgeb. rewrite Hd. reflexivity. }
      unfold band_step. rewrite usub_ok by lia.
      apply wp_bind. eapply wp_node_mod; [exact Hmk|].
      set (m1 := set_nodes (<[k := set_nd_active false n]> (m_nodes m)) m).
      assert (Hm1 : m_nodes m1 !! k = Some (set_nd_active false n)).
      { cbn [m1 m_nodes set_nodes]. apply list_lookup_insert. lia. }
      apply wp_bind. eapply wp_vget; [exact Hm1|].
      assert (HI : forall m' band' nb' mines' nm' n',
        m_nodes m' = <[k := n']> (m_nodes m) -> m' = set_nodes (m_nodes m') m -> n' = band_mark near edge k n ->
        length band' = N -> nb' = length (fl (S k)) -> take nb' band' = fl (S k) ->
        nm' = length (me (S k)) -> take nm' mines' = me (S k) -> 1 <= length mines' -> nm' <= length mines' ->
        (nm' < N -> nm' < length mines') -> band_inv (S k) (m', band', nb', mines', nm')).
      { intros m' band' nb' mines' nm' n' E1 E1' E2 F1 F2 F3 F4 F5 F6 F7 F8. unfold band_inv.
        split; [rewrite E1', Em; reflexivity|]. rewrite E1, insert_length. split; [exact Hln|]. split.
        - intros i x Hi. destruct (Nat.eq_dec i k) as [->|Hne].
          + rewrite list_lookup_insert by lia. assert (x = n) as -> by congruence.
            destruct (Nat.ltb_spec k (S k)); [congruence|lia].
          + rewrite list_lookup_insert_ne by auto. rewrite (Hn i x Hi).
            destruct (Nat.ltb_spec i k), (Nat.ltb_spec i (S k)); try reflexivity; lia.
        - repeat (split; [assumption|]). assumption. }
      change (nd_masked (set_nd_active false n)) with (nd_masked n).
      change (nd_domain (set_nd_active false n)) with (nd_domain n).
      assert (Hstay : near k = false -> band_inv (S k) (m1, band, nb, mines, nm)).
      { intros Hf. assert (He : edge k = false) by (rewrite Hedge, Hf; reflexivity).
        eapply (HI m1 band nb mines nm (set_nd_active false n)); [reflexivity|reflexivity| |exact Hlb|..].
        - unfold band_mark. rewrite Hf, He, orb_false_r. destruct n; reflexivity.
        - unfold fl. rewrite filter_seq_S, Hf, app_nil_r. exact Enb.
        - unfold fl. rewrite filter_seq_S, Hf, app_nil_r. exact Etb.
        - unfold me. rewrite filter_seq_S, He, app_nil_r. exact Enm.
        - unfold me. rewrite filter_seq_S, He, app_nil_r. exact Etm.
        - exact Hl1. - exact Hl2. - exact Hl3. }
      destruct (negb (nd_masked n) && (negb (nd_domain n) || negb fx)) eqn:Hc; [|apply Hstay; exact Hnear].
      apply wp_bind. eapply wp_vget; [exact Hd|].
      destruct (nabs d <? nofnat bw)%num eqn:Ha; [|apply Hstay; exact Hnear].
      cbn in Hnear.
      apply wp_bind. eapply wp_node_mod; [exact Hm1|].
      set (m2 := set_nodes (<[k := set_nd_active true (set_nd_active false n)]> (m_nodes m1)) m1).
      assert (Hm2 : m_nodes m2 = <[k := set_nd_active true n]> (m_nodes m)).
      { cbn [m2 m1 m_nodes set_nodes]. rewrite list_insert_insert. reflexivity. }
      apply wp_bind. apply wp_vset; [unfold fl in *; lia|].
      assert (Eb : take (nb + 1) (<[nb := k]> band) = fl (S k)).
      { rewrite take_insert_append by (unfold fl in *; lia). rewrite Etb. unfold fl. rewrite filter_seq_S, Hnear. reflexivity. }
      assert (Enb' : nb + 1 = length (fl (S k))).
      { unfold fl. rewrite filter_seq_S, Hnear, app_length, Enb. reflexivity. }
      assert (Hlb' : length (<[nb := k]> band) = N) by (rewrite insert_length; exact Hlb).
      rewrite Hnear in Hedge. cbn in Hedge.
      destruct (nofnat (bw - 1) <? nabs d)%num eqn:Hg.
      - apply wp_bind. eapply wp_node_mod; [rewrite Hm2; apply list_lookup_insert; lia|].
        apply wp_bind. apply wp_vset; [apply Hl3; unfold me in *; lia|].
        assert (Hnm : nm < length mines) by (apply Hl3; unfold me in *; lia).
        assert (Em' : take (nm + 1) (<[nm := k]> mines) = me (S k)).
        { rewrite take_insert_append by exact Hnm. rewrite Etm. unfold me. rewrite filter_seq_S, Hedge. reflexivity. }
        assert (Enm' : nm + 1 = length (me (S k))).
        { unfold me. rewrite filter_seq_S, Hedge, app_length, Enm. reflexivity. }
        assert (Hle : nm + 1 <= N) by (unfold me in *; lia).
        assert (HnN : m_nNodes m = N) by (rewrite Em; exact (tp_nN _ _ _ Ht)).
        eapply wp_ok, HI.
        + cbn [m_nodes set_nodes]. rewrite Hm2, list_insert_insert. reflexivity.
        + reflexivity.
        + unfold band_mark. rewrite Hnear, Hedge, orb_true_r. destruct n; reflexivity.
        + exact Hlb'.
        + exact Enb'.
        + exact Eb.
        + exact Enm'.
        + destruct (Nat.eqb_spec (nm + 1) (length (<[nm := k]> mines))) as [Ee|Ee]; [|exact Em'].
          cbn [m_nNodes set_nodes m2 m1]. rewrite HnN, u32_small by lia.
          rewrite take_app_le by (rewrite take_length; lia). rewrite take_take.
          replace ((nm + 1) `min` (Z.to_nat (2 * Z.of_nat (nm + 1)) `min` N)) with (nm + 1) by lia. exact Em'.
        + destruct (Nat.eqb_spec (nm + 1) (length (<[nm := k]> mines))) as [Ee|Ee]; [|rewrite insert_length; lia].
          cbn [m_nNodes set_nodes m2 m1]. rewrite HnN, u32_small by lia.
          rewrite app_length, take_length, replicate_length. lia.
        + destruct (Nat.eqb_spec (nm + 1) (length (<[nm := k]> mines))) as [Ee|Ee]; [|rewrite insert_length; lia].
          cbn [m_nNodes set_nodes m2 m1]. rewrite HnN, u32_small by lia.
          rewrite app_length, take_length, replicate_length. lia.
        + intros Hlt. destruct (Nat.eqb_spec (nm + 1) (length (<[nm := k]> mines))) as [Ee|Ee]; [|rewrite insert_length in *; lia].
          cbn [m_nNodes set_nodes m2 m1]. rewrite HnN, u32_small by lia.
          rewrite app_length, take_length, replicate_length. lia.
      - eapply wp_ok, HI.
        + exact Hm2.
        + reflexivity.
        + unfold band_mark. rewrite Hnear, Hedge, orb_false_r. destruct n; reflexivity.
        + exact Hlb'.
        + exact Enb'.
        + exact Eb.
        + unfold me. rewrite filter_seq_S, Hedge, app_nil_r. exact Enm.
        + unfold me. rewrite filter_seq_S, Hedge, app_nil_r. exact Etm.
        + exact Hl1.
        + exact Hl2.
        + exact Hl3.
    Qed.

    Lemma band_loop : wp False False (for_ N (band_step sd bw fx) (m0, band0, 0, mines0, 0)) (band_inv N).
    Proof.
      apply wp_for with (I := band_inv).
      - unfold band_inv. split; [destruct m0; reflexivity|]. split; [exact (tp_lenN _ _ _ Ht)|].
        repeat split; try reflexivity; try lia.
        intros i n Hi. exact Hi.
      - intros k st Hk HI. apply band_step_inv; assumption.
      - auto.
    Qed.
  End loop.

  Lemma topo_nodes W H (m : Mesh T) ns : topo W H m -> length ns = length (m_nodes m) ->
    (forall i n, m_nodes m !! i = Some n -> exists n', ns !! i = Some n' /\ same_geom n n') ->
    topo W H (set_nodes ns m).
  Proof.
    intros [] Hl Hs. constructor; cbn [set_nodes m_width m_height m_nElements m_nNodes m_xy m_nodes m_elements]; auto.
    - lia.
    - intros i n' Hi. destruct (lookup_lt_is_Some_2 (m_nodes m) i) as [n Hn]; [apply lookup_lt_Some in Hi; lia|].
      destruct (Hs i n Hn) as (n'' & Hn'' & G1 & G2 & G3 & G4 & G5 & _). assert (n'' = n') as -> by congruence.
      rewrite G1, G2, G3, G4, G5. auto.
    - intros i n' Hi. destruct (lookup_lt_is_Some_2 (m_nodes m) i) as [n Hn]; [apply lookup_lt_Some in Hi; lia|].
      destruct (Hs i n Hn) as (n'' & Hn'' & _ & _ & _ & _ & _ & G6). assert (n'' = n') as -> by congruence.
      rewrite G6. eauto.
  Qed.

  (** initialiseNarrowBand: always succeeds, gives the band of the field, changes nothing else. *)
  Lemma band_ok_spec W H s : ls_ok W H s -> exists s', initialiseNarrowBand s = Ok s' /\ ls_ok W H s' /\ band_ok s' /\
    ls_sd s' = ls_sd s /\ ls_vel s' = ls_vel s /\ ls_grad s' = ls_grad s /\ ls_target s' = ls_target s /\
    ls_moveLimit s' = ls_moveLimit s /\ ls_area s' = ls_area s /\ ls_bandWidth s' = ls_bandWidth s /\
    ls_fixed s' = ls_fixed s /\ m_elements (ls_mesh s') = m_elements (ls_mesh s) /\
    (forall i n, m_nodes (ls_mesh s) !! i = Some n -> exists n', m_nodes (ls_mesh s') !! i = Some n' /\
       same_but_band n n' /\ (nd_mine n' = true <-> nd_mine n = true \/ near_edge s i)) /\
    (forall i, in_band s' i <-> in_band s i).
  Proof.
    intros [Ht Hsm Hsd Hv Hg Hb Hmi [Hbw1 Hbw2]].
    pose proof (band_loop W H (ls_mesh s) (ls_sd s) (ls_bandWidth s) (ls_fixed s) (ls_band s) (ls_mines s)
      Ht Hsm Hsd Hb Hmi ltac:(lia)) as L.
    unfold initialiseNarrowBand. rewrite (tp_nN _ _ _ Ht).
    apply wp_total in L as (st & -> & L). cbn [obind].
    destruct st as [[[[m band] nb] mines] nm].
    destruct L as (Em & Hln & Hn & Hlb & Enb & Etb & Enm & Etm & Hl1 & Hl2 & Hl3).
    eexists. split; [reflexivity|].
    set (s' := set_mesh m (set_band band nb mines nm s)).
    set (near := nearb (ls_mesh s) (ls_sd s) (ls_bandWidth s) (ls_fixed s)) in *.
    set (edge := edgeb (ls_mesh s) (ls_sd s) (ls_bandWidth s) (ls_fixed s)) in *.
    assert (HN : forall i n, m_nodes (ls_mesh s) !! i = Some n -> m_nodes m !! i = Some (band_mark near edge i n)).
    { intros i n Hi. rewrite (Hn i n Hi). apply lookup_lt_Some in Hi. rewrite (tp_lenN _ _ _ Ht) in Hi.
      destruct (Nat.ltb_spec i (node_count W H)); [reflexivity|lia]. }
    assert (HN' : forall i n, m_nodes m !! i = Some n -> exists n0, m_nodes (ls_mesh s) !! i = Some n0 /\ n = band_mark near edge i n0).
    { intros i n Hi. destruct (lookup_lt_is_Some_2 (m_nodes (ls_mesh s)) i) as [n0 Hn0].
      { rewrite (tp_lenN _ _ _ Ht). apply lookup_lt_Some in Hi. lia. }
      exists n0. split; [exact Hn0|]. rewrite (HN i n0 Hn0) in Hi. congruence. }
    assert (Hin : forall i, in_band s' i <-> in_band s i).
    { intros i. unfold in_band, movable. cbn [ls_mesh s' set_mesh ls_fixed set_band ls_sd ls_bandWidth]. split.
      - intros ((n & Hi & Hm & Hd) & R). split; [|exact R]. destruct (HN' i n Hi) as (n0 & Hn0 & ->).
        exists n0. auto.
      - intros ((n & Hi & Hm & Hd) & R). split; [|exact R]. eexists. split; [apply HN, Hi|]. auto. }
    assert (Hed : forall i, near_edge s' i <-> near_edge s i).
    { intros i. unfold near_edge. rewrite Hin. reflexivity. }
    assert (Hlt : forall i, in_band s i -> i < node_count W H).
    { intros i ((n & Hi & _) & _). apply lookup_lt_Some in Hi. rewrite (tp_lenN _ _ _ Ht) in Hi. exact Hi. }
    assert (Ht' : topo W H m).
    { rewrite Em. apply topo_nodes; [exact Ht|rewrite Hln, (tp_lenN _ _ _ Ht); reflexivity|].
      intros i n Hi. eexists. split; [apply HN, Hi|]. repeat split; reflexivity. }
    split. { constructor; cbn; auto. }
    split.
    { constructor.
      - cbn. pose proof (filter_seq_len near (node_count W H)). lia.
      - cbn. exact Hl2.
      - intros i. rewrite Hin. unfold band_list. cbn. rewrite Etb, elem_filter_seq. unfold near. rewrite nearb_spec.
        split; [tauto|]. intros HH. split; [apply Hlt; exact HH|exact HH].
      - unfold band_list. cbn. rewrite Etb. apply increasing_filter_seq.
      - intros i. rewrite Hin, <- nearb_spec. unfold active. cbn. split.
        + intros (n & Hi & Ha). destruct (HN' i n Hi) as (n0 & Hn0 & ->). exact Ha.
        + intros Ha. pose proof (proj1 (nearb_spec s i) Ha) as ((n & Hi & _) & _).
          eexists. split; [apply HN, Hi|]. exact Ha.
      - intros i. rewrite Hed. unfold mine_list. cbn. rewrite Etm, elem_filter_seq. unfold edge. rewrite edgeb_spec.
        split; [tauto|]. intros HH. split; [apply Hlt, HH|exact HH].
      - unfold mine_list. cbn. rewrite Etm. apply increasing_filter_seq. }
    repeat (split; [reflexivity|]).
    split; [change (m_elements m = m_elements (ls_mesh s)); rewrite Em; reflexivity|]. split; [|exact Hin].
    intros i n Hi. eexists. split; [apply HN, Hi|]. split; [destruct n; reflexivity|].
    cbn. rewrite orb_true_iff. unfold edge. rewrite edgeb_spec. tauto.
  Qed.

  Lemma band_ok_safe W H s : ls_ok W H s -> band_ok s -> band_safe W H s.
  Proof.
    intros Hs [B1 B2 B3 B4 B5 B6 B7]. constructor; try assumption.
    - intros i Hi. apply B3 in Hi as ((n & Hn & _) & _). apply lookup_lt_Some in Hn.
      rewrite (tp_lenN _ _ _ (ok_topo _ _ _ Hs)) in Hn. exact Hn.
    - intros i Hi. apply B6 in Hi as (((n & Hn & _) & _) & _). apply lookup_lt_Some in Hn.
      rewrite (tp_lenN _ _ _ (ok_topo _ _ _ Hs)) in Hn. exact Hn.
    - apply increasing_NoDup, B4.
  Qed.
End Band.
