(** * LevelSetOps: construction, reinitialisation, update and masking (C18-C24), any arithmetic. *)

From Verif Require Import MeshModel MeshSpec MeshProofs MeshTopo FmmModel FmmSpec FmmFacts LevelSetModel LevelSetSpec
  LevelSetBand NumInt.
From Coq Require Import ZifyBool ZifyNat.
Local Open Scope nat_scope.

(** A loop over all positions of a list, each step assigning its own position. *)
Lemma wp_for_pointwise {A} E U (n : nat) (f : nat -> list A -> outcome (list A)) (l0 : list A) (g : nat -> A) :
  length l0 = n ->
  (forall k l, k < n -> length l = n -> (forall i, k <= i -> l !! i = l0 !! i) ->
     wp E U (f k l) (fun l' => l' = <[k := g k]> l)) ->
  wp E U (for_ n f l0) (fun l => l = tab n g).
Proof.
  intros Hl Hstep.
  apply wp_for with (I := fun k l => length l = n /\ (forall i, i < k -> l !! i = Some (g i)) /\
                                     (forall i, k <= i -> l !! i = l0 !! i)).
  - repeat split; auto. intros; lia.
  - intros k l Hk (L1 & L2 & L3). eapply wp_impl; [apply Hstep; assumption|].
    intros l' ->. rewrite insert_length. split; [exact L1|]. split; intros i Hi.
    + destruct (Nat.eq_dec i k) as [->|Hne]; [apply list_lookup_insert; lia|].
      rewrite list_lookup_insert_ne by lia. apply L2. lia.
    + rewrite list_lookup_insert_ne by lia. apply L3. lia.
  - intros l (L1 & L2 & _). apply list_eq. intros i. destruct (Nat.lt_ge_cases i n) as [Hi|Hi].
    + rewrite L2 by exact Hi. symmetry. apply tab_lookup, Hi.
    + rewrite !lookup_ge_None_2; [reflexivity|rewrite tab_length; lia|lia].
Qed.

Section Ops.
  Context {T : Type} {NT : Num T}.

  (** ** Reinitialisation *)
  Lemma ok_set_sd W H (s : LevelSet T) sd : ls_ok W H s -> length sd = node_count W H -> ls_ok W H (set_sd sd s).
  Proof. intros [] Hl. constructor; auto. Qed.
  Lemma ok_set_mesh W H (s : LevelSet T) m : ls_ok W H s -> topo W H m -> ls_ok W H (set_mesh m s).
  Proof. intros [] Hl. constructor; auto. Qed.

  (** What a reinitialisation keeps. *)
  Definition reinit_frame (s s' : LevelSet T) : Prop :=
    ls_vel s' = ls_vel s /\ ls_grad s' = ls_grad s /\ ls_target s' = ls_target s /\
    ls_moveLimit s' = ls_moveLimit s /\ ls_area s' = ls_area s /\ ls_bandWidth s' = ls_bandWidth s /\
    ls_fixed s' = ls_fixed s /\ m_elements (ls_mesh s') = m_elements (ls_mesh s) /\
    (forall i n, m_nodes (ls_mesh s) !! i = Some n -> exists n', m_nodes (ls_mesh s') !! i = Some n' /\ same_but_band n n').

  Lemma reinit_spec W H s : ls_ok W H s ->
    (reinitialise s = Exit <-> (forall i, i < node_count W H -> ~ on_front W H (ls_sd s) i)) /\
    (forall s', reinitialise s = Ok s' -> ls_ok W H s' /\ band_ok s' /\ reinit_frame s s' /\
       exists o, fmm_march (ls_mesh s) (fmm_new (ls_mesh s) false) (ls_sd s) = Ok (o, ls_sd s')) /\
    ((exists i, i < node_count W H /\ on_front W H (ls_sd s) i) -> exists s', reinitialise s = Ok s').
  Proof.
    intros Hs. destruct (march_total W H (ls_mesh s) false (ls_sd s) ltac:(discriminate) (ok_topo _ _ _ Hs) (ok_sd _ _ _ Hs)) as [M1 M2].
    unfold reinitialise.
    assert (HB : forall o sd, fmm_march (ls_mesh s) (fmm_new (ls_mesh s) false) (ls_sd s) = Ok (o, sd) -> length sd = node_count W H).
    { intros o sd E. pose proof (march_safe W H (ls_mesh s) (ok_topo _ _ _ Hs) (fmm_new (ls_mesh s) false) (ls_sd s)
        (fobj_new W H _ (ok_topo _ _ _ Hs) false) (ok_sd _ _ _ Hs) ltac:(discriminate)) as HM.
      rewrite E in HM. cbn [wp] in HM. apply HM. }
    split; [|split].
    - rewrite <- M1. destruct (fmm_march _ _ _) as [[o sd]| | |] eqn:E; cbn [obind]; try tauto; try (split; discriminate).
      split; [|discriminate]. destruct (band_ok_spec W H (set_sd sd s)) as (s' & -> & _); [|discriminate].
      apply ok_set_sd; [exact Hs|eapply HB; reflexivity].
    - intros s'. destruct (fmm_march _ _ _) as [[o sd]| | |] eqn:E; cbn [obind]; try discriminate. intros E'.
      destruct (band_ok_spec W H (set_sd sd s)) as (s'' & E'' & H1 & H2 & F1 & F2 & F3 & F4 & F5 & F6 & F7 & F8 & F9 & F10 & _).
      { apply ok_set_sd; [exact Hs|eapply HB; reflexivity]. }
      assert (s'' = s') as -> by congruence.
      split; [exact H1|]. split; [exact H2|]. split.
      + repeat (split; [assumption|]). intros i n Hi. destruct (F10 i n Hi) as (n' & Hn' & Hb & _). eauto.
      + rewrite F1. eauto.
    - intros Hx. destruct (M2 Hx) as (o & sd & E & _). rewrite E. cbn [obind].
      destruct (band_ok_spec W H (set_sd sd s)) as (s' & -> & _); [|eauto].
      apply ok_set_sd; [exact Hs|eapply HB; exact E].
  Qed.

  (** ** Update *)
  Lemma topo_bpts W H (m : Mesh T) i n k : topo W H m -> m_nodes m !! i = Some n ->
    topo W H (set_nodes (<[i := set_nd_bpts (nd_bpts n) k n]> (m_nodes m)) m).
  Proof. intros Ht Hi. eapply topo_set_node; [exact Ht|exact Hi|]. repeat split; reflexivity. Qed.

  Section upd.
    Variables (W H : nat) (s : LevelSet T) (dt : T).
    Notation N := (node_count W H).
    Hypothesis Hs : ls_ok W H s.
    Hypothesis Hb : band_safe W H s.

    Definition upd_inv (k : nat) (st : list T * Mesh T) : Prop :=
      let '(sd, m) := st in
      length sd = N /\ topo W H m /\ m = set_nodes (m_nodes m) (ls_mesh s) /\
      (forall i, i ∈ take k (band_list s) -> exists r, sd !! i = Some r /\ moved s dt i r) /\
      (forall i, i ∉ take k (band_list s) -> sd !! i = ls_sd s !! i) /\
      (forall i n, m_nodes (ls_mesh s) !! i = Some n ->
         exists c, m_nodes m !! i = Some (set_nd_bpts (nd_bpts n) c n) /\ (i ∉ take k (band_list s) -> c = nd_nBpts n)).

    Lemma upd_step k st : k < ls_nBand s -> upd_inv k st -> wp False False (update_step s dt k st) (upd_inv (S k)).
    Proof.
      intros Hk. destruct st as [sd m]. intros (L & Ht & Em & I1 & I2 & I3).
      assert (Hlk : is_Some (band_list s !! k)).
      { apply lookup_lt_is_Some_2. unfold band_list. rewrite take_length. pose proof (bs_nb _ _ _ Hb). lia. }
      destruct Hlk as [j Hj].
      assert (HjN : j < N) by (apply (bs_band _ _ _ Hb); eapply elem_of_list_lookup_2, Hj).
      assert (Hnew : j ∉ take k (band_list s)).
      { intros Hin. apply elem_of_take in Hin as (k' & Hk' & Hlt).
        assert (k' = k) by (eapply (proj1 (NoDup_alt _) (bs_nodup _ _ _ Hb)); eauto). lia. }
      assert (Htk : take (S k) (band_list s) = take k (band_list s) ++ [j]) by (apply take_S_r; exact Hj).
      unfold update_step. apply wp_bind. eapply wp_vget.
      { unfold band_list in Hj. rewrite lookup_take in Hj by exact Hk. exact Hj. }
      destruct (lookup_lt_is_Some_2 sd j) as [d Hd]; [lia|].
      destruct (lookup_lt_is_Some_2 (ls_grad s) j) as [g Hg]; [rewrite (ok_grad _ _ _ Hs); exact HjN|].
      destruct (lookup_lt_is_Some_2 (ls_vel s) j) as [v Hv]; [rewrite (ok_vel _ _ _ Hs); exact HjN|].
      destruct (topo_node W H (ls_mesh s) (ok_topo _ _ _ Hs) j HjN) as (n & Hn & _).
      destruct (I3 j n Hn) as (c & Hc & Ec). specialize (Ec Hnew). subst c.
      assert (En : set_nd_bpts (nd_bpts n) (nd_nBpts n) n = n) by (destruct n; reflexivity). rewrite En in Hc.
      apply wp_bind. eapply wp_vget; [exact Hd|]. apply wp_bind. eapply wp_vget; [exact Hg|].
      apply wp_bind. eapply wp_vget; [exact Hv|]. apply wp_bind. apply wp_vset; [lia|].
      apply wp_bind. eapply wp_vget; [exact Hc|].
      set (d' := (d - dt * g * v)%num).
      set (r := if nd_domain n && (n0 <? d')%num then n0 else d').
      assert (Hr : moved s dt j r).
      { exists d, g, v, n. rewrite <- (I2 j Hnew). repeat split; auto. }
      apply wp_bind. apply wp_impl with (P := fun sd' => sd' = <[j := r]> sd).
      { unfold r. destruct (nd_domain n); cbn [andb]; [|reflexivity].
        apply wp_bind. eapply wp_vget; [apply list_lookup_insert; lia|].
        destruct (n0 <? d')%num; [|reflexivity]. apply wp_vset; [rewrite insert_length; lia|].
        apply list_insert_insert. }
      intros sd' ->. apply wp_bind. eapply wp_node_mod; [exact Hc|]. apply wp_ok.
      split; [rewrite insert_length; exact L|]. split; [apply topo_bpts; assumption|].
      split; [rewrite Em; reflexivity|]. rewrite Htk.
      split; [|split].
      - intros i Hi. apply elem_of_app in Hi as [Hi|Hi].
        + destruct (Nat.eq_dec i j) as [->|Hne]; [contradiction|].
          rewrite list_lookup_insert_ne by auto. apply I1, Hi.
        + apply elem_of_list_singleton in Hi as ->. exists r. split; [apply list_lookup_insert; lia|exact Hr].
      - intros i Hi. rewrite not_elem_of_app, elem_of_list_singleton in Hi. destruct Hi as [Hi Hne].
        rewrite list_lookup_insert_ne by auto. apply I2, Hi.
      - intros i x Hx. cbn [m_nodes set_nodes]. destruct (Nat.eq_dec i j) as [->|Hne].
        + assert (x = n) as -> by congruence. exists 0. split.
          * apply list_lookup_insert. apply lookup_lt_Some in Hc. exact Hc.
          * intros Hi. exfalso. apply Hi. apply elem_of_app. right. apply elem_of_list_singleton. reflexivity.
        + rewrite list_lookup_insert_ne by auto. destruct (I3 i x Hx) as (c & Hc' & Ec). exists c.
          split; [exact Hc'|]. intros Hi. apply Ec. intros Hi'. apply Hi. apply elem_of_app. auto.
    Qed.

    Lemma mine_hit_spec sd mines n : forall i, i + n <= length mines -> length sd = N ->
      (forall k j, i <= k < i + n -> mines !! k = Some j -> j < N) ->
      exists b, mine_hit sd mines i n = Ok b /\
        (b = true <-> exists k j d, i <= k < i + n /\ mines !! k = Some j /\ sd !! j = Some d /\ (nabs d <? n1)%num = true).
    Proof.
      induction n as [|n IH]; intros i Hi Hl Hr; cbn [mine_hit].
      - exists false. split; [reflexivity|]. split; [discriminate|]. intros (k & j & d & Hk & _). lia.
      - destruct (lookup_lt_is_Some_2 mines i) as [j Hj]; [lia|].
        destruct (lookup_lt_is_Some_2 sd j) as [d Hd]; [rewrite Hl; apply (Hr i); [lia|exact Hj]|].
        unfold vget. rewrite Hj. cbn [obind]. rewrite Hd. cbn [obind].
        destruct (nabs d <? n1)%num eqn:E.
        + exists true. split; [reflexivity|]. split; [|reflexivity]. intros _. exists i, j, d. repeat split; auto; lia.
        + destruct (IH (S i)) as (b & Eb & Hb'); [lia|exact Hl|intros k j' Hk; apply Hr; lia|].
          exists b. split; [exact Eb|]. rewrite Hb'. split.
          * intros (k & j' & d' & Hk & R). exists k, j', d'. split; [lia|exact R].
          * intros (k & j' & d' & Hk & R1 & R2 & R3). exists k, j', d'.
            destruct (Nat.eq_dec k i) as [->|Hne]; [|repeat split; auto; lia].
            assert (j' = j) as -> by congruence. assert (d' = d) as -> by congruence. congruence.
    Qed.

    Lemma update_spec : exists s1, ls_ok W H s1 /\ band_safe W H s1 /\ moved_field s dt s1 /\
      ((exists i d, i ∈ mine_list s /\ ls_sd s1 !! i = Some d /\ (nabs d <? n1)%num = true) ->
         update s dt = obind (reinitialise s1) (fun s2 => Ok (s2, true))) /\
      (~ (exists i d, i ∈ mine_list s /\ ls_sd s1 !! i = Some d /\ (nabs d <? n1)%num = true) ->
         update s dt = Ok (s1, false)).
    Proof.
      assert (HL : wp False False (for_ (ls_nBand s) (update_step s dt) (ls_sd s, ls_mesh s)) (upd_inv (ls_nBand s))).
      { apply wp_for with (I := upd_inv); [|intros k st Hk; apply upd_step; exact Hk|auto].
        split; [exact (ok_sd _ _ _ Hs)|]. split; [exact (ok_topo _ _ _ Hs)|]. split; [destruct (ls_mesh s); reflexivity|].
        rewrite take_0. split; [intros i Hi; apply elem_of_nil in Hi; contradiction|]. split; [reflexivity|].
        intros i n Hn. exists (nd_nBpts n). split; [|reflexivity]. rewrite Hn. destruct n; reflexivity. }
      apply wp_total in HL as ([sd m] & E & L & Ht & Em & I1 & I2 & I3).
      assert (Etk : take (ls_nBand s) (band_list s) = band_list s).
      { unfold band_list. rewrite take_take, Nat.min_id. reflexivity. }
      rewrite Etk in *. set (s1 := set_mesh m (set_sd sd s)).
      assert (Hs1 : ls_ok W H s1) by (apply ok_set_mesh; [apply ok_set_sd|]; assumption).
      exists s1. split; [exact Hs1|]. split; [destruct Hb; constructor; assumption|]. split.
      { constructor; cbn; auto. - reflexivity. - rewrite Em. reflexivity. }
      destruct (mine_hit_spec sd (ls_mines s) (ls_nMines s) 0) as (b & Eb & Hhit).
      { pose proof (bs_nm _ _ _ Hb). lia. }
      { exact L. }
      { intros k j Hk Hj. apply (bs_mine _ _ _ Hb). unfold mine_list. eapply elem_of_list_lookup_2 with (i := k).
        rewrite lookup_take by lia. exact Hj. }
      assert (Hiff : b = true <-> exists i d, i ∈ mine_list s /\ ls_sd s1 !! i = Some d /\ (nabs d <? n1)%num = true).
      { rewrite Hhit. cbn [ls_sd s1 set_mesh set_sd]. split.
        - intros (k & j & d & Hk & R1 & R2 & R3). exists j, d. split; [|auto].
          unfold mine_list. eapply elem_of_list_lookup_2 with (i := k). rewrite lookup_take by lia. exact R1.
        - intros (j & d & R1 & R2 & R3). unfold mine_list in R1. apply elem_of_take in R1 as (k & R1 & Hk).
          exists k, j, d. repeat split; auto; lia. }
      unfold update. rewrite E. cbn [obind].
      change (ls_sd (set_mesh m (set_sd sd s))) with sd. change (ls_mines (set_mesh m (set_sd sd s))) with (ls_mines s).
      change (ls_nMines (set_mesh m (set_sd sd s))) with (ls_nMines s). rewrite Eb. cbn [obind].
      split; intros HX.
      - apply Hiff in HX. rewrite HX. reflexivity.
      - destruct b; [exfalso; apply HX, Hiff; reflexivity|reflexivity].
    Qed.
  End upd.

  (** ** Masking *)
  Section mask.
    Variables (W H : nat) (s : LevelSet T).
    Notation N := (node_count W H).
    Hypothesis Hs : ls_ok W H s.

    Definition mask_inv (P : nat -> bool) (k : nat) (st : list T * Mesh T) : Prop :=
      let '(sd, m) := st in
      length sd = N /\ topo W H m /\ m = set_nodes (m_nodes m) (ls_mesh s) /\
      (forall i n, m_nodes (ls_mesh s) !! i = Some n ->
        if (i <? k)%nat && P i
        then sd !! i = Some (- nlit 1 1000000)%num /\ m_nodes m !! i = Some (set_nd_masked true n)
        else sd !! i = ls_sd s !! i /\ m_nodes m !! i = Some n).

    Lemma mask_inv_ext P Q k st : (forall i, i < N -> P i = Q i) -> mask_inv P k st -> mask_inv Q k st.
    Proof.
      intros HE. destruct st as [sd m]. intros (L & Ht & Em & HI). repeat (split; [assumption|]).
      intros i n Hn. rewrite <- HE; [apply HI, Hn|]. apply lookup_lt_Some in Hn.
      rewrite (tp_lenN _ _ _ (ok_topo _ _ _ Hs)) in Hn. exact Hn.
    Qed.

    (** Masking node [i]. *)
    Lemma mask_node_inv P k i st n : i < N -> m_nodes (ls_mesh s) !! i = Some n -> mask_inv P k st ->
      i < k -> P i = true \/ True ->
      wp False False (mask_node i st) (mask_inv (fun j => (j =? i)%nat || P j) k).
    Proof.
      intros Hi Hn HI Hk _. destruct st as [sd m]. destruct HI as (L & Ht & Em & HI).
      unfold mask_node. apply wp_bind, wp_vset; [lia|].
      pose proof (HI i n Hn) as Hin.
      assert (Hmi : exists x, m_nodes m !! i = Some x /\ set_nd_masked true x = set_nd_masked true n /\ same_geom x (set_nd_masked true x)).
      { destruct ((i <? k)%nat && P i); destruct Hin as [_ ->]; eexists; (split; [reflexivity|]); split; try reflexivity;
          repeat split; reflexivity. }
      destruct Hmi as (x & Hx & Ex & Gx).
      apply wp_bind. eapply wp_node_mod; [exact Hx|]. apply wp_ok.
      split; [rewrite insert_length; exact L|]. split; [eapply topo_set_node; [exact Ht|exact Hx|exact Gx]|].
      split; [rewrite Em; reflexivity|]. cbn [m_nodes set_nodes].
      intros j y Hy. specialize (HI j y Hy). destruct (Nat.eqb_spec j i) as [->|Hne].
      - assert (y = n) as -> by congruence. destruct (Nat.ltb_spec i k); [|lia]. cbn [andb orb].
        rewrite !list_lookup_insert by (try lia; eauto using lookup_lt_Some). rewrite Ex. auto.
      - cbn [orb]. rewrite !list_lookup_insert_ne by auto. exact HI.
    Qed.

    (** Any loop whose step masks node [k] exactly when [P k]. *)
    Lemma mask_loop (P : nat -> bool) (f : nat -> list T * Mesh T -> outcome (list T * Mesh T)) E U :
      (forall k st n, k < N -> m_nodes (ls_mesh s) !! k = Some n -> mask_inv (fun j => (j <? k)%nat && P j) (S k) st ->
         wp E U (f k st) (mask_inv (fun j => (j <? S k)%nat && P j) (S k))) ->
      wp E U (for_ N f (ls_sd s, ls_mesh s)) (mask_inv P N).
    Proof.
      intros Hstep. apply wp_for with (I := fun k st => mask_inv (fun j => (j <? k)%nat && P j) k st).
      - split; [exact (ok_sd _ _ _ Hs)|]. split; [exact (ok_topo _ _ _ Hs)|]. split; [destruct (ls_mesh s); reflexivity|].
        intros i n Hn. split; [reflexivity|exact Hn].
      - intros k st Hk HI. destruct (topo_node W H (ls_mesh s) (ok_topo _ _ _ Hs) k Hk) as (n & Hn & _).
        apply (Hstep k st n Hk Hn). destruct st as [sd m]. destruct HI as (L & Ht & Em & HI).
        repeat (split; [assumption|]). intros i x Hx. specialize (HI i x Hx).
        destruct (Nat.ltb_spec i k), (Nat.ltb_spec i (S k)); try lia; exact HI.
      - intros st. apply mask_inv_ext. intros i Hi. destruct (Nat.ltb_spec i N); [reflexivity|lia].
    Qed.

    (** In the middle of step [k] the node [k] has its original coordinates. *)
    Lemma mask_inv_node P k st i n : mask_inv P k st -> m_nodes (ls_mesh s) !! i = Some n ->
      exists n', m_nodes st.2 !! i = Some n' /\ nd_coord n' = nd_coord n.
    Proof.
      destruct st as [sd m]. intros (_ & _ & _ & HI) Hn. specialize (HI i n Hn).
      destruct ((i <? k)%nat && P i); destruct HI as [_ HI]; eexists; (split; [exact HI|]); reflexivity.
    Qed.

    Lemma mask_step_if (b : bool) P k st n f U : k < N -> m_nodes (ls_mesh s) !! k = Some n -> P k = b ->
      mask_inv (fun j => (j <? k)%nat && P j) (S k) st ->
      f = (if b then mask_node k st else Ok st) ->
      wp False U f (mask_inv (fun j => (j <? S k)%nat && P j) (S k)).
    Proof.
      intros Hk Hn HP HI ->. destruct b.
      - eapply wp_mono; [eapply mask_node_inv; eauto|auto|contradiction|].
        intros st'. apply mask_inv_ext. intros i Hi.
        destruct (Nat.eqb_spec i k) as [->|Hne]; cbn [orb].
        + rewrite HP. destruct (Nat.ltb_spec k (S k)); [reflexivity|lia].
        + destruct (Nat.ltb_spec i k), (Nat.ltb_spec i (S k)); try lia; reflexivity.
      - apply wp_ok. revert HI. apply mask_inv_ext. intros i Hi.
        destruct (Nat.eq_dec i k) as [->|Hne]; [rewrite HP, !andb_false_r; reflexivity|].
        destruct (Nat.ltb_spec i k), (Nat.ltb_spec i (S k)); try lia; reflexivity.
    Qed.

    Lemma mask_inv_field P Q sd m : mask_inv P N (sd, m) -> (forall i, i < N -> P i = true <-> Q i) ->
      (forall i, Q i -> i < N) ->
      ls_ok W H (set_mesh m (set_sd sd s)) /\ masked_field s Q (set_mesh m (set_sd sd s)).
    Proof.
      intros (L & Ht & Em & HI) HPQ HQ. split; [apply ok_set_mesh; [apply ok_set_sd|]; assumption|].
      constructor; cbn [ls_sd ls_mesh set_mesh set_sd]; auto.
      - intros i n Hq Hn. specialize (HI i n Hn). pose proof (HQ i Hq). apply HPQ in Hq; [|assumption].
        rewrite Hq in HI. destruct (Nat.ltb_spec i N); [|lia]. exact HI.
      - intros i Hq. destruct (m_nodes (ls_mesh s) !! i) as [n|] eqn:Hn.
        + specialize (HI i n Hn). assert (Hi : i < N).
          { apply lookup_lt_Some in Hn. rewrite (tp_lenN _ _ _ (ok_topo _ _ _ Hs)) in Hn. exact Hn. }
          destruct (P i) eqn:Hp; [exfalso; apply Hq, HPQ; [exact Hi|exact Hp]|]. rewrite andb_false_r in HI. exact HI.
        + apply lookup_ge_None in Hn. rewrite (tp_lenN _ _ _ (ok_topo _ _ _ Hs)) in Hn.
          rewrite !lookup_ge_None_2; auto; rewrite ?(tp_lenN _ _ _ Ht), ?(ok_sd _ _ _ Hs); lia.
      - reflexivity.
      - rewrite (ok_sd _ _ _ Hs). exact L.
      - rewrite (tp_lenN _ _ _ (ok_topo _ _ _ Hs)). apply (tp_lenN _ _ _ Ht).
    Qed.

    (** Holes. *)
    Definition circlesb (m : Mesh T) (holes : list (Hole T)) (i : nat) : bool :=
      match m_nodes m !! i with
      | Some n => existsb (fun h => distance (h_coord h) (nd_coord n) <? h_r h)%num holes
      | None => false
      end.
    Lemma circlesb_spec holes i : circlesb (ls_mesh s) holes i = true <-> in_circles s holes i.
    Proof.
      unfold circlesb, in_circles. destruct (m_nodes (ls_mesh s) !! i) as [n|].
      - rewrite existsb_exists. split.
        + intros (h & Hh & Hd). exists n, h. rewrite elem_of_list_In. auto.
        + intros (n' & h & E & Hh & Hd). assert (n' = n) as -> by congruence. exists h. rewrite <- elem_of_list_In. auto.
      - split; [discriminate|]. intros (n & h & E & _). discriminate.
    Qed.
    Lemma in_circles_lt holes i : in_circles s holes i -> i < N.
    Proof. intros (n & h & Hn & _). apply lookup_lt_Some in Hn. rewrite (tp_lenN _ _ _ (ok_topo _ _ _ Hs)) in Hn. exact Hn. Qed.

    Lemma mask_holes_spec holes : exists s1, mask_holes_only s holes = Ok s1 /\ ls_ok W H s1 /\
      masked_field s (in_circles s holes) s1.
    Proof.
      unfold mask_holes_only. rewrite (tp_nN _ _ _ (ok_topo _ _ _ Hs)).
      assert (HL : wp False False (for_ N (fun i st => for_ (length holes) (mask_hole_step holes i) st) (ls_sd s, ls_mesh s))
        (mask_inv (circlesb (ls_mesh s) holes) N)).
      { apply mask_loop. intros k st n Hk Hn HI.
        set (Pj := fun j i => if (i =? k)%nat then existsb (fun h => distance (h_coord h) (nd_coord n) <? h_r h)%num (take j holes)
                              else (i <? k)%nat && circlesb (ls_mesh s) holes i).
        apply wp_for with (I := fun j st => mask_inv (Pj j) (S k) st).
        - revert HI. apply mask_inv_ext. intros i Hi. unfold Pj. rewrite take_0. cbn [existsb].
          destruct (Nat.eqb_spec i k) as [->|Hne]; [|reflexivity]. destruct (Nat.ltb_spec k k); [lia|reflexivity].
        - intros j st' Hj HI'. unfold mask_hole_step.
          destruct (lookup_lt_is_Some_2 holes j Hj) as [h Hh].
          apply wp_bind. eapply wp_vget; [exact Hh|].
          destruct (mask_inv_node _ _ _ k n HI' Hn) as (n' & Hn' & Ec).
          apply wp_bind. eapply wp_vget; [exact Hn'|]. rewrite Ec.
          fold (distance (h_coord h) (nd_coord n)).
          assert (Htk : existsb (fun h => distance (h_coord h) (nd_coord n) <? h_r h)%num (take (S j) holes) =
                        existsb (fun h => distance (h_coord h) (nd_coord n) <? h_r h)%num (take j holes)
                        || (distance (h_coord h) (nd_coord n) <? h_r h)%num).
          { rewrite (take_S_r _ _ h Hh), existsb_app. cbn. rewrite orb_false_r. reflexivity. }
          destruct (distance (h_coord h) (nd_coord n) <? h_r h)%num.
          + eapply wp_impl; [eapply mask_node_inv; eauto|]. intros st''. apply mask_inv_ext.
            intros i Hi. unfold Pj. destruct (Nat.eqb_spec i k) as [->|Hne]; cbn [orb]; [|reflexivity].
            rewrite Htk, orb_true_r. reflexivity.
          + apply wp_ok. revert HI'. apply mask_inv_ext. intros i Hi. unfold Pj. rewrite Htk, orb_false_r. reflexivity.
        - intros st'. apply mask_inv_ext. intros i Hi. unfold Pj. rewrite firstn_all.
          destruct (Nat.eqb_spec i k) as [->|Hne].
          + destruct (Nat.ltb_spec k (S k)); [|lia]. unfold circlesb. rewrite Hn. reflexivity.
          + destruct (Nat.ltb_spec i k), (Nat.ltb_spec i (S k)); try lia; reflexivity. }
      apply wp_total in HL as ([sd m] & E & HI). rewrite E. cbn [obind].
      eexists. split; [reflexivity|]. eapply mask_inv_field; [exact HI| |].
      - intros i Hi. apply circlesb_spec.
      - intros i. apply in_circles_lt.
    Qed.

    (** Rectangles. *)
    Definition rectb (m : Mesh T) (a b : Coord T) (i : nat) : bool :=
      match m_nodes m !! i with
      | Some n => let x := cx (nd_coord n) in let y := cy (nd_coord n) in
          ((x >? cx a) && (y >? cy a) && (x <? cx b) && (y <? cy b))%num
      | None => false
      end.
    Lemma rectb_spec a b i : rectb (ls_mesh s) a b i = true <-> in_rectangle s a b i.
    Proof.
      unfold rectb, in_rectangle. destruct (m_nodes (ls_mesh s) !! i) as [n|].
      - rewrite !andb_true_iff. split.
        + intros [[[A B] C] D]. exists n. auto.
        + intros (n' & E & A & B & C & D). assert (n' = n) as -> by congruence. auto.
      - split; [discriminate|]. intros (n & E & _). discriminate.
    Qed.
    Lemma mask_rect_spec a b : exists s1, mask_points_only s [a; b] = Ok s1 /\ ls_ok W H s1 /\
      masked_field s (in_rectangle s a b) s1.
    Proof.
      unfold mask_points_only. rewrite (tp_nN _ _ _ (ok_topo _ _ _ Hs)).
      assert (HL : wp False False (for_ N (mask_rect_step a b) (ls_sd s, ls_mesh s)) (mask_inv (rectb (ls_mesh s) a b) N)).
      { apply mask_loop. intros k st n Hk Hn HI. unfold mask_rect_step.
        destruct (mask_inv_node _ _ _ k n HI Hn) as (n' & Hn' & Ec).
        apply wp_bind. eapply wp_vget; [exact Hn'|]. rewrite Ec.
        eapply mask_step_if; [exact Hk|exact Hn| |exact HI|reflexivity]. unfold rectb. rewrite Hn. reflexivity. }
      apply wp_total in HL as ([sd m] & E & HI). rewrite E. cbn [obind].
      eexists. split; [reflexivity|]. eapply mask_inv_field; [exact HI| |].
      - intros i Hi. apply rectb_spec.
      - intros i (n & Hn & _). apply lookup_lt_Some in Hn. rewrite (tp_lenN _ _ _ (ok_topo _ _ _ Hs)) in Hn. exact Hn.
    Qed.

    (** Polygons, in terms of the inside test. *)
    Definition inside_test (points : list (Coord T)) (i : nat) : Prop :=
      exists n, m_nodes (ls_mesh s) !! i = Some n /\ isInsidePolygon (nd_coord n) points = Ok true.
    Lemma mask_poly_spec points : length points <> 2 -> points <> [] ->
      (forall i n, m_nodes (ls_mesh s) !! i = Some n -> exists b, isInsidePolygon (nd_coord n) points = Ok b) ->
      exists s1, mask_points_only s points = Ok s1 /\ ls_ok W H s1 /\ masked_field s (inside_test points) s1.
    Proof.
      intros Hl Hne Hins. unfold mask_points_only. rewrite (tp_nN _ _ _ (ok_topo _ _ _ Hs)).
      set (Pb := fun i => match m_nodes (ls_mesh s) !! i with
                          | Some n => match isInsidePolygon (nd_coord n) points with Ok true => true | _ => false end
                          | None => false end).
      assert (HL : wp False False (for_ N (mask_poly_step points) (ls_sd s, ls_mesh s)) (mask_inv Pb N)).
      { apply mask_loop. intros k st n Hk Hn HI. unfold mask_poly_step.
        destruct (mask_inv_node _ _ _ k n HI Hn) as (n' & Hn' & Ec).
        apply wp_bind. eapply wp_vget; [exact Hn'|]. rewrite Ec.
        destruct (Hins k n Hn) as (b & Hb). rewrite Hb. cbn [obind].
        eapply mask_step_if; [exact Hk|exact Hn| |exact HI|reflexivity]. unfold Pb. rewrite Hn, Hb. destruct b; reflexivity. }
      assert (Ef : (match points with [a; b] => mask_rect_step a b | _ => mask_poly_step points end) = mask_poly_step points).
      { destruct points as [|a [|b [|c l]]]; try reflexivity. cbn in Hl. lia. }
      rewrite Ef. apply wp_total in HL as ([sd m] & E & HI). rewrite E. cbn [obind].
      eexists. split; [reflexivity|]. eapply mask_inv_field; [exact HI| |].
      - intros i Hi. unfold Pb, inside_test. destruct (m_nodes (ls_mesh s) !! i) as [n|] eqn:Hn.
        + split.
          * intros Hp. exists n. split; [reflexivity|]. destruct (isInsidePolygon (nd_coord n) points) as [[]| | |]; congruence.
          * intros (n' & E' & Ei). assert (n' = n) as -> by congruence. rewrite Ei. reflexivity.
        + split; [discriminate|]. intros (n & E' & _). discriminate.
      - intros i (n & Hn & _). apply lookup_lt_Some in Hn. rewrite (tp_lenN _ _ _ (ok_topo _ _ _ Hs)) in Hn. exact Hn.
    Qed.

    (** The masked field is determined by the set. *)
    Lemma masked_field_unique P Q s1 s2 : masked_field s P s1 -> masked_field s Q s2 -> (forall i, i < N -> P i <-> Q i) ->
      (forall i, i < N -> P i \/ ~ P i) -> s1 = s2.
    Proof.
      intros [A1 A2 A3 A4 A5 A6] [B1 B2 B3 B4 B5 B6] HPQ Hdec.
      assert (E1 : ls_sd s1 = ls_sd s2).
      { apply list_eq. intros i. destruct (Nat.lt_ge_cases i N) as [Hi|Hi].
        - destruct (topo_node W H (ls_mesh s) (ok_topo _ _ _ Hs) i Hi) as (n & Hn & _).
          destruct (Hdec i Hi) as [Hp|Hp].
          + rewrite (proj1 (A1 i n Hp Hn)), (proj1 (B1 i n (proj1 (HPQ i Hi) Hp) Hn)). reflexivity.
          + rewrite (proj1 (A2 i Hp)), (proj1 (B2 i (fun h => Hp (proj2 (HPQ i Hi) h)))). reflexivity.
        - rewrite !lookup_ge_None_2; [reflexivity|rewrite B5, (ok_sd _ _ _ Hs); exact Hi|rewrite A5, (ok_sd _ _ _ Hs); exact Hi]. }
      assert (E2 : m_nodes (ls_mesh s1) = m_nodes (ls_mesh s2)).
      { apply list_eq. intros i. destruct (Nat.lt_ge_cases i N) as [Hi|Hi].
        - destruct (topo_node W H (ls_mesh s) (ok_topo _ _ _ Hs) i Hi) as (n & Hn & _).
          destruct (Hdec i Hi) as [Hp|Hp].
          + rewrite (proj2 (A1 i n Hp Hn)), (proj2 (B1 i n (proj1 (HPQ i Hi) Hp) Hn)). reflexivity.
          + rewrite (proj2 (A2 i Hp)), (proj2 (B2 i (fun h => Hp (proj2 (HPQ i Hi) h)))). reflexivity.
        - pose proof (tp_lenN _ _ _ (ok_topo _ _ _ Hs)).
          rewrite !lookup_ge_None_2; [reflexivity|rewrite B6; lia|rewrite A6; lia]. }
      assert (E3 : ls_mesh s1 = ls_mesh s2) by (rewrite A4, B4, E2; reflexivity).
      unfold same_members in *. rewrite A3, B3, E1, E3. reflexivity.
    Qed.
  End mask.
End Ops.
