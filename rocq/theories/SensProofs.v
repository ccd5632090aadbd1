(** * SensProofs: computeSensitivity and itoCorrection. *)

From Coq Require Import Reals Lra.
From Verif Require Import Num NumR NumInt MeshModel LevelSetModel LevelSetSpec LevelSetCalls LevelSetHist BoundarySpec BoundarySpecR
  BoundaryModel BoundaryLinks NormSpec NormProofs NormReal NormMain SensModel.
Local Open Scope nat_scope.

Section Generic.
  Context {T : Type} {NT : Num T}.

  Theorem sens_calls {S : Type} delta (cb : S -> BoundaryPoint T -> outcome (S * T)) st p r p' st' :
    computeSensitivity delta cb st p = Ok (r, p', st') ->
    p' = p /\ exists st1 f1 f2, cb st (ahead delta p) = Ok (st1, f1) /\ cb st1 (behind delta p) = Ok (st', f2) /\
      r = ((f1 - f2) / (nofZ 2 * delta) / bp_length p)%num.
  Proof.
    unfold computeSensitivity. cbv zeta. intros E. apply obind_Ok in E as ([st1 f1] & E1 & E). apply obind_Ok in E as ([st2 f2] & E2 & E).
    injection E as <- <- <-. split; [destruct p; reflexivity|]. exists st1, f1, f2. auto.
  Qed.
  Theorem sens_returns {S : Type} delta (cb : S -> BoundaryPoint T -> outcome (S * T)) st p st1 f1 st2 f2 :
    cb st (ahead delta p) = Ok (st1, f1) -> cb st1 (behind delta p) = Ok (st2, f2) ->
    computeSensitivity delta cb st p = Ok ((f1 - f2) / (nofZ 2 * delta) / bp_length p, p, st2)%num.
  Proof.
    intros E1 E2. unfold computeSensitivity. cbv zeta.
    match goal with |- obind (cb st ?q) _ = _ => change q with (ahead delta p) end. rewrite E1. cbn [obind].
    match goal with |- obind (cb st1 ?q) _ = _ => change q with (behind delta p) end. rewrite E2. cbn [obind]. destruct p; reflexivity.
  Qed.

  Lemma perimeter_ok (b : Boundary T) p : bp_nNeigh p <= length (bp_neigh p) -> (forall j, j ∈ take (bp_nNeigh p) (bp_neigh p) -> j < length (bd_points b)) ->
    exists qs, Forall2 (fun j q => bd_points b !! j = Some q) (take (bp_nNeigh p) (bp_neigh p)) qs /\
      forall c, computePerimeter b (at_coord c p) = Ok (fold_left (fun l q => l + coord_dist c (bp_coord q))%num qs n0).
  Proof.
    intros Hl Hj.
    assert (Q : exists qs, Forall2 (fun j q => bd_points b !! j = Some q) (take (bp_nNeigh p) (bp_neigh p)) qs).
    { clear Hl. induction (take (bp_nNeigh p) (bp_neigh p)) as [|j l IH]; [exists []; constructor|].
      destruct IH as [qs Hq]; [intros; apply Hj; right; assumption|]. destruct (lookup_lt_is_Some_2 (bd_points b) j) as [q Eq]; [apply Hj; left|].
      exists (q :: qs). constructor; assumption. }
    destruct Q as [qs Hq]. exists qs. split; [exact Hq|]. intros c. unfold computePerimeter. cbn [bp_nNeigh at_coord].
    assert (G : forall n, n <= bp_nNeigh p -> for_ n (perimeter_step (bd_points b) (at_coord c p)) n0 = Ok (fold_left (fun l q => l + coord_dist c (bp_coord q))%num (take n qs) n0)).
    { intros n Hn. assert (X : wp False False (for_ n (perimeter_step (bd_points b) (at_coord c p)) n0) (fun r => r = fold_left (fun l q => l + coord_dist c (bp_coord q))%num (take n qs) n0)).
      { apply (wp_for _ _ (fun k r => r = fold_left (fun l q => l + coord_dist c (bp_coord q))%num (take k qs) n0)).
        - reflexivity.
        - intros k r Hk ->. destruct (lookup_lt_is_Some_2 (bp_neigh p) k) as [j Ej]; [lia|].
          assert (Et : take (bp_nNeigh p) (bp_neigh p) !! k = Some j) by (rewrite lookup_take by lia; exact Ej).
          destruct (Forall2_lookup_l _ _ _ _ _ Hq Et) as (q & Eqs & Eq).
          unfold perimeter_step. apply wp_bind. apply (wp_vget _ _ _ _ _ j Ej). apply wp_bind. apply (wp_vget _ _ _ _ _ q Eq). cbn [wp].
          rewrite (take_S_r _ _ _ Eqs), fold_left_app. reflexivity.
        - auto. }
      apply wp_total in X as (r & -> & ->). reflexivity. }
    rewrite G by lia. rewrite firstn_all2; [reflexivity|]. rewrite <- (Forall2_length _ _ _ Hq), take_length. lia.
  Qed.

  (** One point. *)
  Definition corrected (delta t : T) (b : Boundary T) (p p' : BoundaryPoint T) : Prop :=
    exists L1 L2 s0 rest, computePerimeter b (ahead delta p) = Ok L1 /\ computePerimeter b (behind delta p) = Ok L2 /\ bp_sens p = s0 :: rest /\
      p' = with_sens ((s0 - t * ((L1 - L2) / (nofZ 2 * delta) / bp_length p) / (nofZ 2 * bp_length p))%num :: rest) p.

  Theorem ito_frame delta (b b' : Boundary T) t : itoCorrection delta b t = Ok b' -> (t =? n0)%num = false ->
    bd_segs b' = bd_segs b /\ bd_length b' = bd_length b /\ length (bd_points b') = length (bd_points b) /\
    forall k p p', bd_points b !! k = Some p -> bd_points b' !! k = Some p' -> corrected delta t b p p'.
  Proof.
    unfold itoCorrection. intros E Ht. rewrite Ht in E. apply obind_Ok in E as (ps & E & [= <-]). cbn [bd_segs bd_length bd_points].
    split; [reflexivity|]. split; [reflexivity|].
    assert (X : post (for_ (length (bd_points b)) (ito_step delta b t) (bd_points b)) (fun ps => length ps = length (bd_points b) /\
      forall k p p', bd_points b !! k = Some p -> ps !! k = Some p' -> corrected delta t b p p')).
    { intros ps0 E0. clear ps E.
      revert ps0 E0. apply (post_impl _ (fun ps => length ps = length (bd_points b) /\ (forall k, length (bd_points b) <= k -> ps !! k = bd_points b !! k) /\
        forall k p p', k < length (bd_points b) -> bd_points b !! k = Some p -> ps !! k = Some p' -> corrected delta t b p p')).
      2: { intros qs (A & _ & B). split; [exact A|]. intros k p p' Ep Ep'. apply (B k); eauto using lookup_lt_Some. }
      assert (G : forall n i qs, i + n = length (bd_points b) -> length qs = length (bd_points b) -> (forall k, i <= k -> qs !! k = bd_points b !! k) ->
        (forall k p p', k < i -> bd_points b !! k = Some p -> qs !! k = Some p' -> corrected delta t b p p') ->
        post (for_from i n (ito_step delta b t) qs) (fun ps => length ps = length (bd_points b) /\ (forall k, length (bd_points b) <= k -> ps !! k = bd_points b !! k) /\
        forall k p p', k < length (bd_points b) -> bd_points b !! k = Some p -> ps !! k = Some p' -> corrected delta t b p p')).
      { induction n as [|n IH]; intros i qs Hi Lq Q1 Q2; cbn [for_from].
        - apply post_ok. assert (Ei : i = length (bd_points b)) by lia. rewrite <- Ei in *. split; [exact Lq|]. split; [exact Q1|exact Q2].
        - apply post_bind. intros qs' Es. unfold ito_step in Es. apply obind_Ok in Es as (p & Ep & Es). apply vget_Ok in Ep.
          apply obind_Ok in Es as ([[r q] u] & Ec & Es). apply sens_calls in Ec as (-> & st1 & f1 & f2 & C1 & C2 & ->).
          apply obind_Ok in C1 as (L1 & C1 & [= <- <-]). apply obind_Ok in C2 as (L2 & C2 & X2). injection X2 as _ <-.
          apply obind_Ok in Es as (s0 & E0 & Es). apply vget_Ok in E0. apply obind_Ok in Es as (l & El & Es). apply vset_Ok in El as [Ll ->]. apply vset_Ok in Es as [Li ->].
          apply IH; [lia|rewrite insert_length; exact Lq|intros k Hk; rewrite list_lookup_insert_ne by lia; apply Q1; lia|].
          intros k p0 p' Hk E1 E2. destruct (Nat.eq_dec k i) as [->|Hne].
          + rewrite list_lookup_insert in E2 by exact Li. injection E2 as <-. rewrite Q1 in Ep by lia. assert (p0 = p) as -> by congruence.
            destruct (bp_sens p) as [|x rest] eqn:Sp; [discriminate|]. injection E0 as ->.
            exists L1, L2, s0, rest. auto.
          + rewrite list_lookup_insert_ne in E2 by auto. apply (Q2 k); [lia|exact E1|exact E2]. }
      apply G; [lia|reflexivity|reflexivity|]. intros k p p' Hk. lia. }
    apply (X ps E).
  Qed.
  Theorem ito_zero delta (b : Boundary T) s t : (t =? n0)%num = true -> itoCorrection delta b t = Ok b /\ itoCorrection_ls delta b s t = Ok b.
  Proof. intros E. unfold itoCorrection, itoCorrection_ls. rewrite E. auto. Qed.

  Theorem ito_returns delta (b : Boundary T) t : neighbours_ok b -> has_sens b -> exists b', itoCorrection delta b t = Ok b'.
  Proof.
    intros Hn Hs. unfold itoCorrection. destruct (t =? n0)%num; [eauto|].
    assert (X : wp False False (for_ (length (bd_points b)) (ito_step delta b t) (bd_points b)) (fun _ => True)).
    { apply (wp_for _ _ (fun i qs => length qs = length (bd_points b) /\ forall k, i <= k -> qs !! k = bd_points b !! k)); [auto| |auto].
      intros i qs Hi (Lq & Q1). destruct (lookup_lt_is_Some_2 _ _ Hi) as [p Ep]. unfold ito_step. apply wp_bind.
      apply (wp_vget _ _ _ _ _ p); [rewrite Q1 by lia; exact Ep|]. destruct (Hn i p Ep) as [N1 N2].
      destruct (perimeter_ok b p N1 N2) as (ns & _ & P). apply wp_bind.
      erewrite sens_returns; [|unfold ahead; rewrite P; reflexivity|unfold behind; rewrite P; reflexivity]. cbn [wp].
      pose proof (Hs i p Ep) as S0. destruct (bp_sens p) as [|s0 rest] eqn:Sp; [congruence|]. cbn [vget lookup list_lookup obind vset].
      apply wp_vset; [lia|]. rewrite insert_length. split; [exact Lq|]. intros k Hk. rewrite list_lookup_insert_ne by lia. apply Q1. lia. }
    apply wp_total in X as (ps & -> & _). cbn [obind]. eauto.
  Qed.

  Lemma discretised_neighbours {NI : NumInt T} W H (s s' : LevelSet T) tg b : reached W H s -> discretise s tg = Ok (s', b) -> neighbours_ok b.
  Proof.
    intros Hr E k p Ep. destruct (links_api W H s s' tg b) as (L & G & _); [exact (ok_topo _ _ _ (so_ok _ _ _ (reached_sound _ _ _ Hr)))|exact E|].
    destruct (L k p Ep) as (A & _ & B & _ & D). split.
    - assert (X : length (take (bp_nNeigh p) (bp_neigh p)) = bp_nNeigh p) by (rewrite D, map_length; congruence). rewrite take_length in X. lia.
    - intros j Hj. rewrite D in Hj. apply elem_of_list_In, in_map_iff in Hj as ([i o] & <- & Hj). unfold incidence in Hj. apply in_concat in Hj as (l & Hl & Hj).
      apply elem_of_list_In, elem_of_lookup_imap in Hl as (i' & sg & -> & Esg). destruct (G i' sg Esg) as (G1 & G2 & _). unfold ends_at in Hj.
      apply in_app_or in Hj as [Hj | Hj].
      + destruct (Nat.eqb k (sg_start sg)); [|destruct Hj]. destruct Hj as [X|[]]. injection X as <- <-. exact G2.
      + destruct (Nat.eqb k (sg_end sg)); [|destruct Hj]. destruct Hj as [X|[]]. injection X as <- <-. exact G1.
  Qed.
End Generic.
