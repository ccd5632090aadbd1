(** * LevelSetVel: computeVelocities (C30), any arithmetic: safety, and the effect node by node. *)

From Verif Require Import MeshModel MeshSpec MeshProofs MeshTopo FmmModel FmmSpec FmmFacts LevelSetModel LevelSetSpec
  LevelSetBand LevelSetOps.
From Coq Require Import ZifyBool ZifyNat.
Local Open Scope nat_scope.

Lemma nb_inj W H i j j' : i < node_count W H -> j < 4 -> j' < 4 -> nb W H i j < node_count W H ->
  nb W H i j = nb W H i j' -> j = j'.
Proof.
  intros Hi Hj Hj' Hn E. assert (Hn' : nb W H i j' < node_count W H) by congruence. revert Hn Hn' E.
  destruct (node_id_split W H i Hi) as (Hx & Hy & Ei). unfold nb, neighbours_spec.
  set (x := i mod (W + 1)) in *. set (y := i / (W + 1)) in *. clearbody x y.
  destruct j as [|[|[|[|j]]]]; [| | | |lia]; (destruct j' as [|[|[|[|j']]]]; [| | | |lia]); cbn [nth]; try reflexivity;
    destruct (Nat.eqb_spec x 0), (Nat.eqb_spec x W), (Nat.eqb_spec y 0), (Nat.eqb_spec y H); try lia;
    intros _ _ E; apply node_id_inj in E; lia.
Qed.

Section Vel.
  Context {T : Type} {NT : Num T}.

  Definition sqd (a b : Coord T) : T :=
    let dx := (cx a - cx b)%num in let dy := (cy a - cy b)%num in (dx * dx + dy * dy)%num.
  (** The effect of one boundary point on one node: velocity sum, weight sum, coincidence. *)
  Definition contrib1 (r v : T) (limit : bool) (st : T * T * bool) : T * T * bool :=
    let '(a, w, b) := st in
    if (r <? nlit 1 1000000)%num then (v, n1, true)
    else if negb limit || (r <=? n1)%num then if negb b then ((a + v / r)%num, (w + n1 / r)%num, b) else st
    else st.

  Section with_mesh.
    Variables (W H : nat) (m : Mesh T).
    Notation N := (node_count W H).
    Hypothesis Ht : topo W H m.

    Definition coord_of (i : nat) : Coord T := mkCoord (nofnat (i mod (W + 1))) (nofnat (i / (W + 1))).

    (** [st] holds [f x] at every node [x]. *)
    Definition holds (st : VelState) (f : nat -> T * T * bool) : Prop :=
      let '(vel, weight, isSet) := st in
      length vel = N /\ length weight = N /\ length isSet = N /\
      forall x, x < N -> let '(a, w, b) := f x in vel !! x = Some a /\ weight !! x = Some w /\ isSet !! x = Some b.

    Lemma holds_ext st f g : (forall x, x < N -> f x = g x) -> holds st f -> holds st g.
    Proof.
      intros E. destruct st as [[vel weight] isSet]. intros (L1 & L2 & L3 & HI). repeat (split; [assumption|]).
      intros x Hx. rewrite <- E by exact Hx. apply HI, Hx.
    Qed.

    Lemma contrib_spec p limit node st f : node < N -> holds st f ->
      wp False False (vel_contrib m p limit node st)
        (fun st' => holds st' (fun x => if (x =? node)%nat then contrib1 (sqd (coord_of node) (bp_coord p)) (bp_velocity p) limit (f node) else f x)).
    Proof.
      intros Hn. destruct st as [[vel weight] isSet]. intros HH. pose proof HH as (L1 & L2 & L3 & HI).
      unfold vel_contrib. destruct (topo_node W H m Ht node Hn) as (n & Hnd & _).
      apply wp_bind. eapply wp_vget; [exact Hnd|].
      destruct (tp_node _ _ _ Ht node n Hnd) as (Ec & _). rewrite Ec. cbn [nd_coord node_spec]. fold (coord_of node).
      fold (sqd (coord_of node) (bp_coord p)). set (r := sqd _ _).
      pose proof (HI node Hn) as Hf. unfold contrib1. destruct (f node) as [[a w] b] eqn:Ef. destruct Hf as (Ha & Hw & Hb).
      destruct (r <? nlit 1 1000000)%num.
      - do 3 (apply wp_bind, wp_vset; [lia|]). apply wp_ok. cbn [holds]. rewrite !insert_length. repeat (split; [assumption|]).
        intros x Hx. destruct (Nat.eqb_spec x node) as [->|Hne].
        + rewrite !list_lookup_insert by lia. auto.
        + rewrite !list_lookup_insert_ne by auto. apply HI, Hx.
      - assert (Hsame : holds (vel, weight, isSet) (fun x => if (x =? node)%nat then (a, w, b) else f x)).
        { eapply holds_ext; [|exact HH]. intros x Hx. destruct (Nat.eqb_spec x node) as [->|Hne]; [exact Ef|reflexivity]. }
        destruct (negb limit || (r <=? n1)%num); [|apply wp_ok; exact Hsame].
        apply wp_bind. eapply wp_vget; [exact Hb|]. destruct b; cbn [negb]; [apply wp_ok; exact Hsame|].
        apply wp_bind. eapply wp_vget; [exact Ha|]. apply wp_bind, wp_vset; [lia|].
        apply wp_bind. eapply wp_vget; [exact Hw|]. apply wp_bind, wp_vset; [lia|]. apply wp_ok.
        cbn [holds]. rewrite !insert_length. repeat (split; [assumption|]).
        intros x Hx. destruct (Nat.eqb_spec x node) as [->|Hne].
        + rewrite !list_lookup_insert by lia. auto.
        + rewrite !list_lookup_insert_ne by auto. apply HI, Hx.
    Qed.

    (** [x] is one of the first [j] neighbours of [k]. *)
    Definition nbb (k j x : nat) : bool := existsb (fun i => (nb W H k i =? x)%nat) (seq 0 j).
    Lemma nbb_S k j x : nbb k (S j) x = nbb k j x || (nb W H k j =? x)%nat.
    Proof. unfold nbb. rewrite seq_S, existsb_app. cbn. rewrite orb_false_r. reflexivity. Qed.
    Lemma nbb_adj k x : k < N -> x < N -> nbb k 4 x = true <-> adjacent W H k x.
    Proof.
      intros Hk Hx. rewrite adjacent_nb. unfold nbb. rewrite existsb_exists. split.
      - intros (i & Hi & E). apply in_seq in Hi. apply Nat.eqb_eq in E. repeat split; auto. exists i. split; [lia|congruence].
      - intros (_ & _ & i & Hi & E). exists i. split; [apply in_seq; lia|]. apply Nat.eqb_eq. congruence.
    Qed.
    Lemma nbb_self k j : k < N -> j <= 4 -> nbb k j k = false.
    Proof.
      intros Hk Hj. unfold nbb. destruct (existsb _ _) eqn:E; [|reflexivity]. exfalso.
      apply existsb_exists in E as (i & Hi & E). apply in_seq in Hi. apply Nat.eqb_eq in E. apply (nb_ne W H k i); [exact Hk|lia|exact E].
    Qed.

    (** The effect of point [p], whose closest node is [k], on node [x]. *)
    Definition point1 (p : BoundaryPoint T) (k x : nat) (s : T * T * bool) : T * T * bool :=
      let r := sqd (coord_of x) (bp_coord p) in
      if (x =? k)%nat then contrib1 r (bp_velocity p) false s
      else if nbb k 4 x then contrib1 r (bp_velocity p) true s else s.

    Lemma point_spec points i p k st f : points !! i = Some p ->
      getClosestNode m (cx (bp_coord p)) (cy (bp_coord p)) = Ok k -> k < N -> holds st f ->
      wp False False (vel_point m points i st) (fun st' => holds st' (fun x => point1 p k x (f x))).
    Proof.
      intros Hp Hk HkN HH. unfold vel_point. apply wp_bind. eapply wp_vget; [exact Hp|]. rewrite Hk. cbn [obind].
      apply wp_bind. eapply wp_impl; [apply contrib_spec; [exact HkN|exact HH]|].
      cbv beta. intros st1 H1.
      set (f1 := fun x => if (x =? k)%nat then _ else f x) in H1.
      apply wp_for with (I := fun j st' => j <= 4 /\ holds st' (fun x =>
        if nbb k j x then contrib1 (sqd (coord_of x) (bp_coord p)) (bp_velocity p) true (f1 x) else f1 x)).
      - split; [lia|exact H1].
      - intros j st' Hj [_ Hst']. destruct (topo_node W H m Ht k HkN) as (n & Hnd & Hl & Hnb).
        unfold neigh. apply wp_bind. apply wp_bind. eapply wp_vget; [exact Hnd|]. eapply wp_vget; [apply Hnb; exact Hj|].
        rewrite (tp_nN _ _ _ Ht). destruct (Nat.ltb_spec (nb W H k j) N) as [L|L].
        + eapply wp_impl; [apply contrib_spec; [exact L|exact Hst']|]. intros st'' Hst''. split; [lia|].
          eapply holds_ext; [|exact Hst'']. intros x Hx. cbv beta. rewrite nbb_S.
          assert (Hold : nbb k j (nb W H k j) = false).
          { unfold nbb. destruct (existsb _ _) eqn:E; [|reflexivity]. exfalso.
            apply existsb_exists in E as (i' & Hi & E). apply in_seq in Hi. apply Nat.eqb_eq in E.
            assert (j = i') by (eapply (nb_inj W H k); eauto; lia). lia. }
          destruct (Nat.eqb_spec x (nb W H k j)) as [->|Hne].
          * rewrite Hold. rewrite Nat.eqb_refl. reflexivity.
          * destruct (Nat.eqb_spec (nb W H k j) x); [congruence|]. rewrite orb_false_r. reflexivity.
        + apply wp_ok. split; [lia|]. eapply holds_ext; [|exact Hst']. intros x Hx. cbv beta. rewrite nbb_S.
          destruct (Nat.eqb_spec (nb W H k j) x); [lia|]. rewrite orb_false_r. reflexivity.
      - intros st' [_ Hst']. eapply holds_ext; [|exact Hst']. intros x Hx. cbv beta. unfold point1, f1.
        destruct (Nat.eqb_spec x k) as [->|Hne]; [rewrite nbb_self by (auto; lia)|]; reflexivity.
    Qed.

    (** All points. *)
    Definition located (p : BoundaryPoint T) : Prop :=
      exists k, k < N /\ getClosestNode m (cx (bp_coord p)) (cy (bp_coord p)) = Ok k.
    Definition closest (p : BoundaryPoint T) : nat :=
      match getClosestNode m (cx (bp_coord p)) (cy (bp_coord p)) with Ok k => k | _ => 0 end.
    Definition node_sum (points : list (BoundaryPoint T)) (x : nat) : T * T * bool :=
      fold_left (fun s p => point1 p (closest p) x s) points (n0, n0, false).

    Lemma points_spec points : (forall p, p ∈ points -> located p) ->
      wp False False (for_ (length points) (vel_point m points) (replicate N n0, replicate N n0, replicate N false))
        (fun st => holds st (node_sum points)).
    Proof.
      intros Hloc. apply wp_for with (I := fun j st => holds st (node_sum (take j points))).
      - rewrite take_0. cbn [holds node_sum fold_left]. rewrite !replicate_length. repeat (split; [reflexivity|]).
        intros x Hx. rewrite !lookup_replicate_2 by exact Hx. auto.
      - intros j st Hj HH. destruct (lookup_lt_is_Some_2 points j Hj) as [p Hp].
        destruct (Hloc p) as (k & Hk & Ek); [eapply elem_of_list_lookup_2, Hp|].
        eapply wp_impl; [eapply point_spec; eauto|]. intros st' H'. eapply holds_ext; [|exact H'].
        intros x Hx. cbv beta. unfold node_sum. rewrite (take_S_r _ _ p Hp), fold_left_app. cbn [fold_left].
        unfold closest. rewrite Ek. reflexivity.
      - intros st. rewrite firstn_all. auto.
    Qed.
  End with_mesh.

  Section api.
    Variables (W H : nat) (s : LevelSet T).
    Notation N := (node_count W H).
    Hypothesis Hs : ls_ok W H s.
    Hypothesis Hb : band_safe W H s.

    (** The velocity given to node [x] before the extension. *)
    Definition start_velocity (points : list (BoundaryPoint T)) (x : nat) (v : T) : Prop :=
      let '(a, w, _) := node_sum W H (ls_mesh s) points x in
      v = if negb (a =? n0)%num then (a / w)%num else a.

    Lemma init_vel_spec points : (forall p, p ∈ points -> located W H (ls_mesh s) p) ->
      exists vel, initialiseVelocities s points = Ok vel /\ length vel = N /\
        (forall x, x ∈ band_list s -> exists v, vel !! x = Some v /\ start_velocity points x v) /\
        (forall x, x < N -> x ∉ band_list s -> vel !! x = Some (fst (fst (node_sum W H (ls_mesh s) points x)))).
    Proof.
      intros Hloc. unfold initialiseVelocities. rewrite (tp_nN _ _ _ (ok_topo _ _ _ Hs)).
      assert (L0 : wp False False (for_ N (fun i vel => vset vel i n0) (ls_vel s)) (fun l => l = tab N (fun _ => n0))).
      { apply wp_for_pointwise; [exact (ok_vel _ _ _ Hs)|]. intros k l Hk Hl _. apply wp_vset; [lia|reflexivity]. }
      apply wp_total in L0 as (l0 & -> & ->). cbn [obind]. rewrite <- tab_replicate.
      pose proof (points_spec W H (ls_mesh s) (ok_topo _ _ _ Hs) points Hloc) as L1.
      apply wp_total in L1 as ([[vel weight] isSet] & -> & (LV & LW & _ & HF)). cbn [obind].
      assert (L2 : wp False False (for_ (ls_nBand s) (vel_normalise (ls_band s) weight) vel) (fun v => length v = N /\
        (forall x, x ∈ band_list s -> exists r, v !! x = Some r /\ start_velocity points x r) /\
        (forall x, x < N -> x ∉ band_list s -> v !! x = Some (fst (fst (node_sum W H (ls_mesh s) points x)))))).
      { apply wp_for with (I := fun k v => length v = N /\
          (forall x, x ∈ take k (band_list s) -> exists r, v !! x = Some r /\ start_velocity points x r) /\
          (forall x, x < N -> x ∉ take k (band_list s) -> v !! x = Some (fst (fst (node_sum W H (ls_mesh s) points x))))).
        - split; [exact LV|]. rewrite take_0. split; [intros x Hx; apply elem_of_nil in Hx; contradiction|].
          intros x Hx _. specialize (HF x Hx). destruct (node_sum W H (ls_mesh s) points x) as [[a w] b]. apply HF.
        - intros k v Hk (LL & I1 & I2).
          assert (Hlk : is_Some (band_list s !! k)).
          { apply lookup_lt_is_Some_2. unfold band_list. rewrite take_length. pose proof (bs_nb _ _ _ Hb). lia. }
          destruct Hlk as [j Hj].
          assert (HjN : j < N) by (apply (bs_band _ _ _ Hb); eapply elem_of_list_lookup_2, Hj).
          assert (Hnew : j ∉ take k (band_list s)).
          { intros Hin. apply elem_of_take in Hin as (k' & Hk' & Hlt).
            assert (k' = k) by (eapply (proj1 (NoDup_alt _) (bs_nodup _ _ _ Hb)); eauto). lia. }
          assert (Htk : take (S k) (band_list s) = take k (band_list s) ++ [j]) by (apply take_S_r; exact Hj).
          unfold vel_normalise. apply wp_bind. eapply wp_vget.
          { unfold band_list in Hj. rewrite lookup_take in Hj by exact Hk. exact Hj. }
          pose proof (I2 j HjN Hnew) as Hvj. pose proof (HF j HjN) as Hfj.
          assert (Hst : start_velocity points j (let '(a, w, _) := node_sum W H (ls_mesh s) points j in if negb (a =? n0)%num then (a / w)%num else a)).
          { unfold start_velocity. destruct (node_sum W H (ls_mesh s) points j) as [[a w] b]. reflexivity. }
          destruct (node_sum W H (ls_mesh s) points j) as [[a w] b] eqn:En. cbn [fst] in Hvj. destruct Hfj as (_ & Hwj & _).
          apply wp_bind. eapply wp_vget; [exact Hvj|].
          apply wp_impl with (P := fun v' => v' = <[j := if negb (a =? n0)%num then (a / w)%num else a]> v).
          { destruct (negb (a =? n0)%num).
            - apply wp_bind. eapply wp_vget; [exact Hwj|]. apply wp_vset; [lia|reflexivity].
            - apply wp_ok. symmetry. apply list_insert_id, Hvj. }
          intros v' ->. rewrite insert_length. split; [exact LL|]. rewrite Htk. split.
          + intros x Hx. destruct (Nat.eq_dec x j) as [->|Hne].
            * eexists. split; [apply list_lookup_insert; lia|exact Hst].
            * rewrite list_lookup_insert_ne by auto. apply I1. apply elem_of_app in Hx as [Hx|Hx]; [exact Hx|].
              apply elem_of_list_singleton in Hx. contradiction.
          + intros x Hx Hn. rewrite not_elem_of_app, elem_of_list_singleton in Hn. destruct Hn as [Hn Hne].
            rewrite list_lookup_insert_ne by auto. apply I2; assumption.
        - intros v (LL & I1 & I2).
          assert (Etk : take (ls_nBand s) (band_list s) = band_list s).
          { unfold band_list. rewrite take_take, Nat.min_id. reflexivity. }
          rewrite Etk in *. auto. }
      apply wp_total in L2 as (v & E & LL & I1 & I2). exists v. auto.
    Qed.

    (** Safety and frame of computeVelocities. *)
    Lemma velocities_spec points : (forall p, p ∈ points -> located W H (ls_mesh s) p) ->
      computeVelocities s points = Exit \/
      exists vel0 vel o, initialiseVelocities s points = Ok vel0 /\ computeVelocities s points = Ok (set_vel vel s) /\
        fmm_march_vel (ls_mesh s) (fmm_new (ls_mesh s) false) (ls_sd s) vel0 = Ok (o, ls_sd s, vel) /\
        ls_ok W H (set_vel vel s) /\
        forall i, (on_front W H (ls_sd s) i \/ exists n, m_nodes (ls_mesh s) !! i = Some n /\ nd_active n = false) ->
          vel !! i = vel0 !! i.
    Proof.
      intros Hloc. destruct (init_vel_spec points Hloc) as (vel0 & E0 & L0 & _). unfold computeVelocities. rewrite E0. cbn [obind].
      destruct (march_vel_frame W H (ls_mesh s) false (ls_sd s) vel0 (ok_topo _ _ _ Hs) (ok_sd _ _ _ Hs) L0) as [->|(o & vel & E & L & HF)].
      - left. reflexivity.
      - right. rewrite E. cbn [obind]. exists vel0, vel, o.
        assert (Es : set_vel vel (set_sd (ls_sd s) s) = set_vel vel s) by (destruct s; reflexivity).
        rewrite Es. repeat (split; [reflexivity|]). split; [exact E|]. split; [|exact HF].
        destruct Hs. constructor; auto. cbn. lia.
    Qed.
  End api.
End Vel.
