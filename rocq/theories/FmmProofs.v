(** * FmmProofs: safety, termination and the transition-system view of the march.

    Everything here holds for every [Num T], i.e. for every result of every floating point
    operation and comparison. *)

From Verif Require Import HeapSift HeapRefine MeshModel MeshSpec MeshProofs MeshGeom MeshTopo HeapModel HeapProofs FmmModel.
From stdpp Require Import relations.
From Coq Require Import ZifyBool ZifyNat.
Local Open Scope nat_scope.

(** Counting *)
Definition cnt {A} (p : A -> bool) (l : list A) : nat := length (List.filter p l).
Lemma cnt_insert {A} (p : A -> bool) l i a b : l !! i = Some a ->
  cnt p (<[i := b]> l) + (if p a then 1 else 0) = cnt p l + (if p b then 1 else 0).
Proof.
  unfold cnt. revert i. induction l as [|x l IH]; intros [|i] Hi; cbn in Hi; try discriminate.
  - inversion Hi; subst x. cbn. destruct (p a), (p b); cbn; lia.
  - specialize (IH i Hi). change (<[S i:=b]> (x :: l)) with (x :: <[i:=b]> l). cbn [List.filter].
    destruct (p x); cbn [length]; lia.
Qed.
Lemma cnt_le {A} (p : A -> bool) l : cnt p l <= length l.
Proof. unfold cnt. induction l as [|x l IH]; cbn; [lia|]. destruct (p x); cbn; lia. Qed.
Lemma cnt_pos {A} (p : A -> bool) l i a : l !! i = Some a -> p a = true -> 1 <= cnt p l.
Proof.
  unfold cnt. revert i. induction l as [|x l IH]; intros [|i] Hi Hp; cbn in Hi; try discriminate.
  - inversion Hi; subst x. cbn. rewrite Hp. cbn; lia.
  - cbn. specialize (IH i Hi Hp). destruct (p x); cbn; lia.
Qed.
Lemma cnt_zero {A} (p : A -> bool) l i a : cnt p l = 0 -> l !! i = Some a -> p a = false.
Proof. intros H0 Hi. destruct (p a) eqn:Ep; [|reflexivity]. pose proof (cnt_pos p l i a Hi Ep). lia. Qed.

Section fmm.
  Context {T : Type} `{NT : Num T}.
  Variables (W H : nat) (mesh : Mesh T).
  Hypothesis Ht : topo W H mesh.
  Variable isVel : bool.
  Variable copy : list T.
  Notation N := (node_count W H).
  Hypothesis Hcopy : length copy = N.

  Lemma mesh_N : m_nNodes mesh = N.
  Proof. apply (tp_nN _ _ _ Ht). Qed.

  Lemma neigh_ok i j : i < N -> j < 4 -> neigh mesh i j = Ok (nb W H i j).
  Proof.
    intros Hi Hj. destruct (topo_node W H mesh Ht i Hi) as (n & Hn & _ & Hnb).
    unfold neigh, vget. rewrite Hn. cbn [obind]. rewrite (Hnb j Hj). reflexivity.
  Qed.

  Lemma vget_lt {A} (l : list A) i : i < length l -> exists a, l !! i = Some a /\ vget l i = Ok a.
  Proof.
    intros Hi. destruct (lookup_lt_is_Some_2 l i Hi) as [a Ha]. exists a. split; [exact Ha|].
    unfold vget. rewrite Ha. reflexivity.
  Qed.
  Lemma vset_lt {A} (l : list A) i a : i < length l -> vset l i a = Ok (<[i := a]> l).
  Proof. intros Hi. apply vset_Ok. auto. Qed.

  Definition active (i : nat) : Prop := exists n, m_nodes mesh !! i = Some n /\ nd_active n = true.
  Definition inactive (i : nat) : Prop := exists n, m_nodes mesh !! i = Some n /\ nd_active n = false.

  (** ** updateNode as a pure function of the frozen values *)
  Definition fz (status : list FStatus) (sd : list T) (k : nat) : option T :=
    match status !! k with Some F_FROZEN => sd !! k | _ => None end.

  Section pure.
    Variable f : nat -> option T.       (* the values of the frozen nodes *)
    Definition dstep (i j : nat) (s : T * T) : T * T :=
      let '(d1, d2) := s in
      match f (nb W H i j) with
      | Some x =>
          if (nabs x <? nabs d1)%num then
            (x, match f (nb W H (nb W H i j) j) with
                | Some y => if (nabs y <=? nabs x)%num then y else d2
                | None => d2
                end)
          else s
      | None => s
      end.
    Definition dimstep (i a : nat) (s : T * T * T) : T * T * T :=
      let '(qa, qb, qc) := s in
      let aa := (nofZ 9 / nofZ 4)%num in
      let '(d1, d2) := dstep i (2 * a + 1) (dstep i (2 * a + 0) (nmaxDouble, nmaxDouble)) in
      if (d2 <? nmaxDouble)%num then
        let tp := ((n1 / nofZ 3) * (nofZ 4 * d1 - d2))%num in
        (qa + aa, qb - nofZ 2 * aa * tp, qc + aa * tp * tp)%num
      else if (d1 <? nmaxDouble)%num then (qa + n1, qb - nofZ 2 * d1, qc + d1 * d1)%num
      else s.
    (** [old]: the value kept when the equation has no solution. *)
    Definition upd (old : option T) (i : nat) : option T :=
      let '(qa, qb, qc) := dimstep i 1 (dimstep i 0 (n0, n0, n0)) in
      let qc := (qc - n1)%num in
      let discrim := (qb * qb - nofZ 4 * qa * qc)%num in
      if (discrim >? n0)%num then
        match copy !! i with
        | Some ci => Some (if (ci >? nepsilon)%num then ((- qb + nsqrt discrim) / (nofZ 2 * qa))%num
                           else ((- qb - nsqrt discrim) / (nofZ 2 * qa))%num)
        | None => None
        end
      else old.
  End pure.

  Lemma fz_None status sd k : N <= k -> length sd = N -> fz status sd k = None.
  Proof. intros Hk HL. unfold fz. destruct (status !! k) as [[]|]; try reflexivity. apply lookup_ge_None_2. lia. Qed.

  Lemma update_dir_pure status sd node index s :
    length status = N -> length sd = N -> node < N -> index < 4 ->
    update_dir mesh status sd node index s = Ok (dstep (fz status sd) node index s).
  Proof.
    intros Hs Hd Hn Hi. destruct s as [d1 d2]. unfold update_dir, dstep.
    rewrite neigh_ok by assumption. cbn [obind]. rewrite mesh_N.
    destruct (nb_range W H node index Hn Hi) as [E|Hlt].
    { rewrite E, Nat.eqb_refl. cbn [negb]. rewrite fz_None by lia. reflexivity. }
    destruct (Nat.eqb_spec (nb W H node index) N); [lia|]. cbn [negb].
    destruct (vget_lt status (nb W H node index)) as (st & Hst & ->); [lia|]. cbn [obind].
    unfold fz at 1. rewrite Hst.
    destruct st; cbn [is_frozen]; try reflexivity.
    destruct (vget_lt sd (nb W H node index)) as (v & Hv & ->); [lia|]. cbn [obind]. rewrite Hv.
    destruct (nabs v <? nabs d1)%num; [|reflexivity].
    rewrite neigh_ok by assumption. cbn [obind].
    destruct (nb_range W H (nb W H node index) index Hlt Hi) as [E|Hlt2].
    { rewrite E, Nat.eqb_refl. cbn [negb]. rewrite fz_None by lia. reflexivity. }
    destruct (Nat.eqb_spec (nb W H (nb W H node index) index) N); [lia|]. cbn [negb].
    destruct (vget_lt status (nb W H (nb W H node index) index)) as (st2 & Hst2 & ->); [lia|]. cbn [obind].
    unfold fz at 1. rewrite Hst2.
    destruct st2; cbn [is_frozen]; try reflexivity.
    destruct (vget_lt sd (nb W H (nb W H node index) index)) as (v2 & Hv2 & ->); [lia|]. cbn [obind]. rewrite Hv2.
    destruct (nabs v2 <=? nabs v)%num; reflexivity.
  Qed.

  Lemma update_dim_pure status sd node i s :
    length status = N -> length sd = N -> node < N -> i < 2 ->
    update_dim mesh status sd node i s = Ok (dimstep (fz status sd) node i s).
  Proof.
    intros Hs Hd Hn Hi. destruct s as [[a b] c]. unfold update_dim, dimstep, for_. cbn [for_from].
    rewrite !update_dir_pure by (auto; lia). cbn [obind]. rewrite !update_dir_pure by (auto; lia). cbn [obind].
    destruct (dstep _ _ _ _) as [d1 d2]. destruct (_ <? _)%num; [reflexivity|]. destruct (_ <? _)%num; reflexivity.
  Qed.

  Lemma updateNode_pure status sd node : length status = N -> length sd = N -> node < N ->
    exists d, updateNode mesh copy status sd node = Ok d /\ upd (fz status sd) (sd !! node) node = Some d.
  Proof.
    intros Hs Hd Hn. unfold updateNode, upd, for_. cbn [for_from].
    rewrite !update_dim_pure by (auto; lia). cbn [obind]. rewrite !update_dim_pure by (auto; lia). cbn [obind].
    destruct (dimstep _ _ _ _) as [[a b] c]. unfold solveQuadratic.
    destruct (_ <? _)%num.
    - destruct (vget_lt copy node) as (v & Hv & ->); [lia|]. cbn [obind]. rewrite Hv. eauto.
    - destruct (vget_lt sd node) as (v & Hv & ->); [lia|]. eauto.
  Qed.
  Lemma updateNode_ok status sd node :
    length status = N -> length sd = N -> node < N -> exists d, updateNode mesh copy status sd node = Ok d.
  Proof. intros Hs Hd Hn. destruct (updateNode_pure status sd node Hs Hd Hn) as (d & Hu & _). eauto. Qed.

  (** Marking a node does not influence any update. *)
  Lemma upd_ext f f' old i : (forall k, f k = f' k) -> upd f old i = upd f' old i.
  Proof.
    intros Hf. assert (Hd : forall i j s, dstep f i j s = dstep f' i j s).
    { intros i' j [d1 d2]. unfold dstep. rewrite !Hf. reflexivity. }
    assert (Hm : forall i a s, dimstep f i a s = dimstep f' i a s).
    { intros i' a [[qa qb] qc]. unfold dimstep. rewrite !Hd. reflexivity. }
    unfold upd. rewrite !Hm. reflexivity.
  Qed.
  Lemma updateNode_mark status sd i k : length status = N -> length sd = N -> k < N -> status !! i = Some F_NONE ->
    updateNode mesh copy (<[i := F_TRIAL]> status) sd k = updateNode mesh copy status sd k.
  Proof.
    intros Hs Hd Hk Hi. pose proof (lookup_lt_Some _ _ _ Hi).
    destruct (updateNode_pure status sd k Hs Hd Hk) as (d & -> & Hu).
    destruct (updateNode_pure (<[i := F_TRIAL]> status) sd k) as (d' & -> & Hu'); [rewrite insert_length; exact Hs|exact Hd|exact Hk|].
    f_equal. rewrite (upd_ext (fz (<[i := F_TRIAL]> status) sd) (fz status sd)) in Hu'; [congruence|].
    intros n. unfold fz. destruct (Nat.eq_dec n i) as [->|Hne]; [rewrite list_lookup_insert, Hi by assumption; reflexivity|].
    rewrite list_lookup_insert_ne by auto. reflexivity.
  Qed.

  (** ** The abstract transition system *)
  Definition flat : Type := (list FStatus * list T * list T)%type.
  Definition abs (s : Fmm T) : flat := (f_status s, f_sd s, f_vel s).

  Definition frozen_nb (status : list FStatus) (i : nat) : Prop :=
    exists j, j < 4 /\ nb W H i j < N /\ status !! nb W H i j = Some F_FROZEN.

  (** A TRIAL node is recomputed; an untouched node next to a frozen one gets a value and becomes
      TRIAL (or, in velocity mode when it is not active, only gets a value). *)
  Inductive ustep : flat -> flat -> Prop :=
  | fs_update status sd vel i d :
      status !! i = Some F_TRIAL -> updateNode mesh copy status sd i = Ok d ->
      ustep (status, sd, vel) (status, <[i := d]> sd, vel)
  | fs_touch status sd vel i d :
      status !! i = Some F_NONE -> frozen_nb status i -> isVel = true -> inactive i ->
      updateNode mesh copy status sd i = Ok d ->
      ustep (status, sd, vel) (status, <[i := d]> sd, vel)
  | fs_visit status sd vel i d :
      status !! i = Some F_NONE -> frozen_nb status i -> (isVel = true -> active i) ->
      updateNode mesh copy status sd i = Ok d ->
      ustep (status, sd, vel) (<[i := F_TRIAL]> status, <[i := d]> sd, vel).

  (** ... or a TRIAL node of smallest magnitude becomes FROZEN. *)
  Inductive fstep : flat -> flat -> Prop :=
  | fs_u a b : ustep a b -> fstep a b
  | fs_freeze status sd vel vel' i x :
      status !! i = Some F_TRIAL -> sd !! i = Some x ->
      (NumOrd T (fun _ => True) -> forall j y, status !! j = Some F_TRIAL -> sd !! j = Some y ->
         nltb (nabs y) (nabs x) = false) ->
      (isVel = false -> vel' = vel) ->
      (isVel = true -> exists s s', abs s = (<[i := F_FROZEN]> status, sd, vel) /\
         finaliseVelocity mesh i s = Ok s' /\ vel' = f_vel s') ->
      fstep (status, sd, vel) (<[i := F_FROZEN]> status, sd, vel').

  Lemma rtc_u a b : rtc ustep a b -> rtc fstep a b.
  Proof. induction 1; [apply rtc_refl|eapply rtc_l; [apply fs_u|]; eauto]. Qed.

  (** ** The invariant tying node statuses to the heap *)
  Record finv (t : bool) (s : Fmm T) : Prop := {
    fi_lp : length (f_ptr s) = N;
    fi_ls : length (f_status s) = N;
    fi_ld : length (f_sd s) = N;
    fi_lv : isVel = true -> length (f_vel s) = N;
    fi_h : hinv (f_heap s);
    fi_test : h_test (f_heap s) = t;
    fi_cap : h_list (f_heap s) + cnt is_none (f_status s) <= h_max (f_heap s);
    fi_live : forall k, live (f_heap s) k -> exists i,
      h_addr (f_heap s) !! k = Some i /\ f_status s !! i = Some F_TRIAL /\ f_ptr s !! i = Some k;
    fi_trial : forall i, f_status s !! i = Some F_TRIAL -> exists k x,
      f_ptr s !! i = Some k /\ live (f_heap s) k /\ h_addr (f_heap s) !! k = Some i /\
      f_sd s !! i = Some x /\ h_dist (f_heap s) !! k = Some (nabs x);
    fi_ord : NumOrd T (fun _ => True) -> hordered (f_heap s);
    fi_mask : forall i, f_status s !! i <> Some F_MASKED
  }.

  (** finaliseVelocity changes one velocity only. *)
  Lemma vel_step_ok s node i acc : length (f_status s) = N -> length (f_sd s) = N -> length (f_vel s) = N ->
    node < N -> i < 4 -> exists acc', vel_step mesh s node i acc = Ok acc'.
  Proof.
    intros Ls Ld Lv Hn Hi. unfold vel_step. rewrite neigh_ok by assumption. cbn [obind]. rewrite mesh_N.
    destruct (nb_range W H node i Hn Hi) as [En|Hlt].
    { rewrite En, Nat.eqb_refl. cbn. eauto. }
    destruct (Nat.eqb_spec (nb W H node i) N); [lia|]. cbn [negb].
    destruct (vget_lt (f_status s) (nb W H node i)) as (st & _ & ->); [lia|]. cbn [obind].
    destruct (is_frozen st); [|eauto].
    destruct (vget_lt (f_sd s) (nb W H node i)) as (v & _ & ->); [lia|]. cbn [obind].
    match goal with |- context [if ?b then _ else _] => destruct b end; [|eauto].
    destruct (vget_lt (f_sd s) node) as (v1 & _ & ->); [lia|]. cbn [obind].
    destruct (vget_lt (f_vel s) (nb W H node i)) as (v2 & _ & ->); [lia|]. cbn [obind]. eauto.
  Qed.

  Lemma finalise_spec s node : length (f_status s) = N -> length (f_sd s) = N -> length (f_vel s) = N ->
    node < N ->
    finaliseVelocity mesh node s = Exit \/
    exists v, finaliseVelocity mesh node s = Ok (set_f_vel (<[node := v]> (f_vel s)) s).
  Proof.
    intros Ls Ld Lv Hn. unfold finaliseVelocity, for_. cbn [for_from].
    set (z := mkVelAcc n0 n0 false n0).
    destruct (vel_step_ok s node 0 (z, z)) as [a1 ->]; [auto..|lia|]. cbn [obind].
    destruct (vel_step_ok s node 1 a1) as [a2 ->]; [auto..|lia|]. cbn [obind].
    destruct (vel_step_ok s node 2 a2) as [a3 ->]; [auto..|lia|]. cbn [obind].
    destruct (vel_step_ok s node 3 a3) as [[ax ay] ->]; [auto..|lia|]. cbn [obind].
    destruct (negb _); cbn [check obind]; [|left; reflexivity].
    right. rewrite vset_lt by lia. cbn [obind]. eauto.
  Qed.

  (** ** The frozen phase *)
  Definition zero_b (i : nat) : bool := match copy !! i with Some c => (c =? n0)%num | None => false end.
  Definition border_fold (i : nat) : outcome (bool * T * T) := for_ 4 (border_step mesh copy i) (false, n0, n0).
  Definition border_b (i : nat) : bool := match border_fold i with Ok (b, _, _) => b | _ => false end.
  Definition border_new (i : nat) : T :=
    match border_fold i, copy !! i with
    | Ok (_, d0, d1), Some c => let r := border_distance d0 d1 in if (c <? n0)%num then (- r)%num else r
    | _, _ => n0
    end.
  (** Node [i] has a neighbour across the zero contour. *)
  Definition crosses (i j : nat) : Prop := exists c d, copy !! i = Some c /\ copy !! nb W H i j = Some d /\ (c * d <? n0)%num = true.

  Lemma crosses_lt i j : crosses i j -> i < N /\ nb W H i j < N.
  Proof. intros (c & d & Hc & Hd & _). apply lookup_lt_Some in Hc, Hd. lia. Qed.

  Lemma border_step_ok i j b d0 d1 : i < N -> j < 4 -> exists b' d0' d1',
    border_step mesh copy i j (b, d0, d1) = Ok (b', d0', d1') /\ (b' = true <-> b = true \/ crosses i j).
  Proof.
    intros Hi Hj. unfold border_step. rewrite neigh_ok by assumption. cbn [obind]. rewrite mesh_N.
    destruct (nb_range W H i j Hi Hj) as [Eb|Hb].
    { rewrite Eb, Nat.eqb_refl. cbn [negb]. eexists _, _, _. split; [reflexivity|].
      split; [auto|]. intros [?|Hc]; [assumption|]. apply crosses_lt in Hc. lia. }
    destruct (Nat.eqb_spec (nb W H i j) N); [lia|]. cbn [negb].
    destruct (vget_lt copy i) as (c & Hc & ->); [lia|]. destruct (vget_lt copy (nb W H i j)) as (d & Hd & ->); [lia|].
    cbn [obind]. destruct (c * d <? n0)%num eqn:Hcd.
    - assert (crosses i j) by (exists c, d; auto).
      destruct (j <? 2)%nat; eexists _, _, _; (split; [reflexivity|]); tauto.
    - eexists _, _, _. split; [reflexivity|]. split; [auto|]. intros [?|(c' & d' & Hc' & Hd' & Hx)]; [assumption|congruence].
  Qed.

  Lemma border_fold_ok i : i < N -> exists b d0 d1, border_fold i = Ok (b, d0, d1) /\
    (b = true <-> exists j, j < 4 /\ crosses i j).
  Proof.
    intros Hi. unfold border_fold, for_. cbn [for_from].
    destruct (border_step_ok i 0 false n0 n0) as (b1 & x1 & y1 & -> & H1); [exact Hi|lia|]. cbn [obind].
    destruct (border_step_ok i 1 b1 x1 y1) as (b2 & x2 & y2 & -> & H2); [exact Hi|lia|]. cbn [obind].
    destruct (border_step_ok i 2 b2 x2 y2) as (b3 & x3 & y3 & -> & H3); [exact Hi|lia|]. cbn [obind].
    destruct (border_step_ok i 3 b3 x3 y3) as (b4 & x4 & y4 & -> & H4); [exact Hi|lia|]. cbn [obind].
    exists b4, x4, y4. split; [reflexivity|]. rewrite H4, H3, H2, H1. split.
    - intros [[[[?|?]|?]|?]|?]; [discriminate|exists 0|exists 1|exists 2|exists 3]; (split; [lia|assumption]).
    - intros (j & Hj & Hc). destruct j as [|[|[|[|j]]]]; [tauto..|lia].
  Qed.
  Lemma border_b_spec i : i < N -> border_b i = true <-> exists j, j < 4 /\ crosses i j.
  Proof. intros Hi. unfold border_b. destruct (border_fold_ok i Hi) as (b & d0 & d1 & -> & Hb). exact Hb. Qed.

  Definition plain (st : FStatus) : Prop := st = F_NONE \/ st = F_FROZEN.
  Definition fr (b : bool) : FStatus := if b then F_FROZEN else F_NONE.

  Lemma initialiseFrozen_spec status0 sd : length status0 = N -> length sd = N -> Forall plain status0 ->
    wp (forall i, i < N -> zero_b i = false /\ (status0 !! i = Some F_NONE -> border_b i = false)) False
      (initialiseFrozen mesh copy status0 sd) (fun '(st, sd') =>
        length st = N /\ length sd' = N /\
        (exists i, i < N /\ (zero_b i = true \/ (status0 !! i = Some F_NONE /\ border_b i = true))) /\
        (forall i s, status0 !! i = Some s -> st !! i = Some (fr (is_frozen s || zero_b i || border_b i))) /\
        (forall i s, status0 !! i = Some s ->
           sd' !! i = if is_none s && negb (zero_b i) && border_b i then Some (border_new i) else sd !! i)).
  Proof.
    intros Hl Hd Hp. rewrite Forall_lookup in Hp. unfold initialiseFrozen. rewrite mesh_N.
    set (E' := forall i, _ -> _).
    apply wp_bind. apply (wp_for E' False (fun k '(st, n) => length st = N /\
      (forall i s, status0 !! i = Some s -> st !! i = Some (if (i <? k)%nat then fr (is_frozen s || zero_b i) else s)) /\
      (0 < n <-> exists i, i < k /\ zero_b i = true))).
    { split; [exact Hl|]. split; [intros i s Hi; exact Hi|]. split; [lia|]. intros (i & Hi & _). lia. }
    { intros k [st n] Hk (L & HS & Hn). unfold freeze_zeros.
      apply wp_bind, wp_vget_lt; [lia|]. intros s Hs.
      destruct (lookup_lt_is_Some_2 status0 k) as [s0 Hs0]; [lia|].
      pose proof (HS k s0 Hs0) as Hs'. rewrite Nat.ltb_irrefl, Hs in Hs'. inversion Hs'; subst s0.
      assert (Hm : is_masked s = false) by (destruct (Hp k s Hs0) as [->| ->]; reflexivity). rewrite Hm. cbn [negb].
      destruct (vget_lt copy k) as (c & Hc & ->); [lia|]. cbn [obind].
      assert (Hz : zero_b k = (c =? n0)%num) by (unfold zero_b; rewrite Hc; reflexivity).
      destruct (c =? n0)%num eqn:Hcz.
      - apply wp_bind, wp_vset; [lia|]. apply wp_ok. split; [rewrite insert_length; exact L|]. split.
        + intros i s1 Hi. destruct (Nat.eq_dec i k) as [->|Hne].
          * rewrite list_lookup_insert by lia. destruct (Nat.ltb_spec k (S k)); [|lia]. rewrite Hz, orb_true_r. reflexivity.
          * rewrite list_lookup_insert_ne by auto. rewrite (HS i s1 Hi).
            replace (i <? S k)%nat with (i <? k)%nat by (destruct (Nat.ltb_spec i k), (Nat.ltb_spec i (S k)); lia). reflexivity.
        + split; [|lia]. intros _. exists k. split; [lia|]. congruence.
      - apply wp_ok. split; [exact L|]. split.
        + intros i s1 Hi. rewrite (HS i s1 Hi). destruct (Nat.eq_dec i k) as [->|Hne].
          * assert (s1 = s) by congruence. subst s1. rewrite Nat.ltb_irrefl. destruct (Nat.ltb_spec k (S k)); [|lia].
            rewrite Hz, orb_false_r. destruct (Hp k s Hs0) as [->| ->]; reflexivity.
          * replace (i <? S k)%nat with (i <? k)%nat by (destruct (Nat.ltb_spec i k), (Nat.ltb_spec i (S k)); lia). reflexivity.
        + rewrite Hn. split; intros (i & Hi & Hzi); exists i; (split; [|exact Hzi]); [lia|].
          destruct (Nat.eq_dec i k) as [->|Hne]; [congruence|lia]. }
    intros [st1 n1] (L1 & HS1 & Hn1).
    assert (HS1' : forall i s, status0 !! i = Some s -> st1 !! i = Some (fr (is_frozen s || zero_b i))).
    { intros i s Hi. rewrite (HS1 i s Hi). pose proof (lookup_lt_Some _ _ _ Hi). destruct (Nat.ltb_spec i N); [reflexivity|lia]. }
    clear HS1.
    apply wp_bind. apply (wp_for E' False (fun k '(st, sd', n) => length st = N /\ length sd' = N /\
      (forall i s, status0 !! i = Some s -> st !! i = Some (fr (is_frozen s || zero_b i || ((i <? k)%nat && border_b i)))) /\
      (forall i s, status0 !! i = Some s ->
           sd' !! i = if (i <? k)%nat && (is_none s && negb (zero_b i) && border_b i) then Some (border_new i) else sd !! i) /\
      (0 < n <-> 0 < n1 \/ exists i, i < k /\ status0 !! i = Some F_NONE /\ zero_b i = false /\ border_b i = true))).
    { split; [exact L1|]. split; [exact Hd|]. split; [|split].
      - intros i s Hi. rewrite (HS1' i s Hi). cbn [andb]. destruct (Nat.ltb_spec i 0); [lia|]. cbn [andb]. rewrite orb_false_r. reflexivity.
      - intros i s Hi. destruct (Nat.ltb_spec i 0); [lia|]. reflexivity.
      - split; [auto|]. intros [?|(i & Hi & _)]; lia. }
    { intros k [[st sd'] n] Hk (L & Ld & HS & HD & Hn). unfold freeze_border.
      apply wp_bind, wp_vget_lt; [lia|]. intros s Hs.
      destruct (lookup_lt_is_Some_2 status0 k) as [s0 Hs0]; [lia|].
      pose proof (HS k s0 Hs0) as Hs'. rewrite Nat.ltb_irrefl, Hs in Hs'. cbn [andb] in Hs'. rewrite orb_false_r in Hs'.
      inversion Hs' as [Hs1]. clear Hs'.
      assert (Hlt : forall i, i <> k -> (i <? S k)%nat = (i <? k)%nat).
      { intros i Hi. destruct (Nat.ltb_spec i k), (Nat.ltb_spec i (S k)); lia. }
      destruct (is_frozen s0 || zero_b k) eqn:Hfz; cbn [fr is_none].
      - apply wp_ok. split; [exact L|]. split; [exact Ld|]. split; [|split].
        + intros i s1 Hi. rewrite (HS i s1 Hi). destruct (Nat.eq_dec i k) as [->|Hne]; [|rewrite Hlt by exact Hne; reflexivity].
          assert (s1 = s0) by congruence. subst s1. rewrite Hfz. reflexivity.
        + intros i s1 Hi. rewrite (HD i s1 Hi). destruct (Nat.eq_dec i k) as [->|Hne]; [|rewrite Hlt by exact Hne; reflexivity].
          assert (s1 = s0) by congruence. subst s1. rewrite Nat.ltb_irrefl. destruct (Nat.ltb_spec k (S k)); [|lia].
          cbn [andb]. destruct s0; cbn in *; try reflexivity. rewrite Hfz. reflexivity.
        + rewrite Hn. split; (intros [?|(i & Hi & Hs' & Hz & Hb)]; [left; assumption|right; exists i; (split; [|auto])]).
          * lia.
          * destruct (Nat.eq_dec i k) as [->|Hne]; [|lia]. assert (s0 = F_NONE) by congruence. subst s0. cbn in Hfz. congruence.
      - apply orb_false_iff in Hfz as [Hf0 Hz0].
        assert (Hs0n : s0 = F_NONE) by (destruct (Hp k s0 Hs0) as [->| ->]; [reflexivity|discriminate]). subst s0.
        destruct (border_fold_ok k Hk) as (b & d0 & d1 & Hbf & _). pose proof Hbf as Hbf'. unfold border_fold in Hbf'. rewrite Hbf'. cbn [obind].
        assert (Hbb : border_b k = b) by (unfold border_b; rewrite Hbf; reflexivity).
        destruct b.
        + destruct (vget_lt copy k) as (c & Hc & ->); [lia|]. cbn [obind].
          apply wp_bind, wp_vset; [lia|]. apply wp_bind, wp_vset; [lia|]. apply wp_ok.
          split; [rewrite insert_length; exact L|]. split; [rewrite insert_length; exact Ld|]. split; [|split].
          * intros i s1 Hi. destruct (Nat.eq_dec i k) as [->|Hne].
            -- rewrite list_lookup_insert by lia. destruct (Nat.ltb_spec k (S k)); [|lia]. rewrite Hbb, !orb_true_r. reflexivity.
            -- rewrite list_lookup_insert_ne, Hlt by auto. auto.
          * intros i s1 Hi. destruct (Nat.eq_dec i k) as [->|Hne].
            -- assert (s1 = F_NONE) by congruence. subst s1. rewrite list_lookup_insert by lia.
               destruct (Nat.ltb_spec k (S k)); [|lia]. rewrite Hbb, Hz0. cbn [andb is_none negb].
               unfold border_new. rewrite Hbf, Hc. reflexivity.
            -- rewrite list_lookup_insert_ne, Hlt by auto. auto.
          * split; [|lia]. intros _. right. exists k. split; [lia|]. auto.
        + apply wp_ok. split; [exact L|]. split; [exact Ld|]. split; [|split].
          * intros i s1 Hi. rewrite (HS i s1 Hi). destruct (Nat.eq_dec i k) as [->|Hne]; [|rewrite Hlt by exact Hne; reflexivity].
            rewrite Hbb, !andb_false_r. reflexivity.
          * intros i s1 Hi. rewrite (HD i s1 Hi). destruct (Nat.eq_dec i k) as [->|Hne]; [|rewrite Hlt by exact Hne; reflexivity].
            rewrite Hbb, !andb_false_r. reflexivity.
          * rewrite Hn. split; (intros [?|(i & Hi & Hs' & Hz & Hb)]; [left; assumption|right; exists i; (split; [|auto])]).
            -- lia.
            -- destruct (Nat.eq_dec i k) as [->|Hne]; [congruence|lia]. }
    intros [[st2 sd2] n2] (L2 & Ld2 & HS2 & HD2 & Hn2).
    apply wp_bind, wp_check; intros Hc.
    - apply Nat.ltb_lt in Hc. apply wp_ok. split; [exact L2|]. split; [exact Ld2|]. split; [|split].
      + apply Hn2 in Hc as [Hc|(i & Hi & Hs & Hz & Hb)]; [|exists i; auto].
        apply Hn1 in Hc as (i & Hi & Hz). exists i. auto.
      + intros i s Hi. rewrite (HS2 i s Hi). pose proof (lookup_lt_Some _ _ _ Hi). destruct (Nat.ltb_spec i N); [reflexivity|lia].
      + intros i s Hi. rewrite (HD2 i s Hi). pose proof (lookup_lt_Some _ _ _ Hi). destruct (Nat.ltb_spec i N); [reflexivity|lia].
    - apply Nat.ltb_ge in Hc. assert (Hn0 : ~ 0 < n2) by lia. rewrite Hn2 in Hn0.
      intros i Hi. assert (Hz : zero_b i = false).
      { destruct (zero_b i) eqn:Hz; [|reflexivity]. exfalso. apply Hn0. left. apply Hn1. eauto. }
      split; [exact Hz|]. intros Hs. destruct (border_b i) eqn:Hb; [|reflexivity]. exfalso. apply Hn0. right. exists i. auto.
  Qed.

  Lemma heap_capacity_spec st : length st = N -> heap_capacity mesh st = Ok (cnt is_none st).
  Proof.
    intros HL. unfold heap_capacity. rewrite mesh_N.
    assert (G : forall n i k, i + n = N ->
      for_from i n (fun i k => let! s := vget st i in Ok (if is_none s then k + 1 else k)) k = Ok (k + cnt is_none (drop i st))).
    { induction n as [|n IH]; intros i k Hin; cbn [for_from].
      - rewrite drop_ge by lia. cbn. f_equal. lia.
      - destruct (vget_lt st i) as (s & Hs & ->); [lia|]. cbn [obind]. rewrite IH by lia.
        rewrite (drop_S st s i Hs). unfold cnt. cbn [List.filter]. destruct (is_none s); cbn [length]; f_equal; lia. }
    unfold for_. rewrite (G N 0 0) by lia. rewrite drop_0. reflexivity.
  Qed.

  Variable t : bool.
  Variable E : Prop.
  Hypothesis HE : t = true -> NumOrd T (fun _ => True) \/ E.
  Hypothesis HEv : isVel = true -> E.

  Lemma allP_True (l : list T) : allP (fun _ => True) l.
  Proof. unfold allP. apply List.Forall_forall. auto. Qed.

  (* The three heap operations seen through the invariant. *)
  Lemma push_trial_inv s i d : finv t s -> i < N -> f_status s !! i = Some F_NONE ->
    wp E False (push_trial i d (set_f_status (<[i := F_TRIAL]> (f_status s)) (set_f_sd (<[i := d]> (f_sd s)) s)))
      (fun s' => finv t s' /\ abs s' = (<[i := F_TRIAL]> (f_status s), <[i := d]> (f_sd s), f_vel s)).
  Proof.
    intros I Hi Hst. destruct I as [Lp Ls Ld Lv Hh Htest Hcap Hlive Htrial Hord Hmask].
    unfold push_trial. cbn [set_f_status set_f_sd f_heap f_ptr].
    assert (Hc : 1 <= cnt is_none (f_status s)) by (eapply cnt_pos; eauto).
    apply wp_bind. eapply wp_impl.
    { apply (heap_push_spec (fun _ => True) E (f_heap s) i (nabs d) Hh); [lia|].
      rewrite Htest. intros Ht'. destruct (HE Ht') as [O|HE']; [left|right; exact HE'].
      split; [exact O|]. split; [exact I|]. split; [apply allP_True|apply Hord; exact O]. }
    intros [h' k] (-> & Hh' & Hm' & Ht' & Hl' & Hll' & Ha' & Hd' & Hlive' & Hord').
    set (k := h_list (f_heap s)) in *.
    apply wp_bind, wp_vset; [lia|]. apply wp_ok.
    assert (Hkb : k < length (h_addr (f_heap s)) /\ k < length (h_dist (f_heap s))).
    { destruct Hh as [Hw Hd Ha]. subst k. lia. }
    assert (Hfresh : forall k', live (f_heap s) k' -> k' <> k).
    { intros k' HL ->. destruct Hh as [Hw _ _]. destruct HL as (j & Hj & Hjk).
      pose proof (w_heap _ _ _ _ _ Hw j _ Hj Hjk) as [Hlt _]. subst k. lia. }
    split; [|reflexivity].
    constructor; cbn [set_f_ptr set_f_heap set_f_status set_f_sd f_ptr f_status f_heap f_sd f_vel].
    - rewrite insert_length. exact Lp.
    - rewrite insert_length. exact Ls.
    - rewrite insert_length. exact Ld.
    - exact Lv.
    - exact Hh'.
    - congruence.
    - pose proof (cnt_insert is_none (f_status s) i F_NONE F_TRIAL Hst) as HC. cbn in HC.
      rewrite Hll', Hm'. lia.
    - intros k' HL. apply Hlive' in HL as [HL| ->].
      + destruct (Hlive k' HL) as (i' & A1 & A2 & A3). exists i'. rewrite Ha'.
        assert (i' <> i) by (intros ->; congruence).
        rewrite !(list_lookup_insert_ne _ i i') by auto.
        rewrite list_lookup_insert_ne by (specialize (Hfresh k' HL); auto). auto.
      + exists i. rewrite Ha', !list_lookup_insert by lia. auto.
    - intros i' Hi'. destruct (Nat.eq_dec i' i) as [->|Hne].
      + exists k, d. rewrite Ha', Hd', !list_lookup_insert by lia.
        split; [reflexivity|]. split; [apply Hlive'; auto|]. auto.
      + rewrite list_lookup_insert_ne in Hi' by auto.
        destruct (Htrial i' Hi') as (k' & x & B1 & B2 & B3 & B4 & B5). exists k', x.
        rewrite Ha', Hd', !(list_lookup_insert_ne _ i i') by auto.
        rewrite !list_lookup_insert_ne by (specialize (Hfresh k' B2); auto).
        split; [exact B1|]. split; [apply Hlive'; auto|]. auto.
    - intros O. apply Hord'; auto using allP_True.
    - intros i' Hi'. destruct (Nat.eq_dec i' i) as [->|Hne].
      + rewrite list_lookup_insert in Hi' by lia. discriminate.
      + rewrite list_lookup_insert_ne in Hi' by auto. exact (Hmask i' Hi').
  Qed.

  Lemma set_trial_inv s i d k : finv t s -> i < N -> f_status s !! i = Some F_TRIAL -> f_ptr s !! i = Some k ->
    wp E False (heap_set (f_heap s) k (nabs d))
      (fun h => finv t (set_f_heap h (set_f_sd (<[i := d]> (f_sd s)) s))).
  Proof.
    intros I Hi Hst Hk. destruct I as [Lp Ls Ld Lv Hh Htest Hcap Hlive Htrial Hord Hmask].
    destruct (Htrial i Hst) as (k0 & x0 & B1 & B2 & B3 & B4 & B5).
    assert (k0 = k) by congruence. subst k0.
    assert (Hkl : k < h_list (f_heap s)).
    { destruct Hh as [Hw _ _]. destruct B2 as (j & Hj & Hjk). eapply w_heap; eauto. }
    eapply wp_impl.
    { apply (heap_set_spec (fun _ => True) E (f_heap s) k (nabs d) Hh Hkl).
      rewrite Htest. intros Ht'. destruct (HE Ht') as [O|HE']; [left|right; exact HE'].
      split; [exact O|]. split; [exact I|]. split; [apply allP_True|apply Hord; exact O]. }
    intros h' (Hh' & Hm' & Ht' & Hl' & Hll' & Ha' & Hd' & Hlive' & Hord').
    assert (Hkd : k < length (h_dist (f_heap s))) by (eauto using lookup_lt_Some).
    constructor; cbn [set_f_ptr set_f_heap set_f_status set_f_sd f_ptr f_status f_heap f_sd f_vel]; auto.
    - rewrite insert_length. exact Ld.
    - congruence.
    - lia.
    - intros k' HL. apply Hlive' in HL. rewrite Ha'. auto.
    - intros i' Hi'. destruct (Nat.eq_dec i' i) as [->|Hne].
      + exists k, d. rewrite Ha', Hd', !list_lookup_insert by lia.
        split; [exact Hk|]. split; [apply Hlive'; auto|]. auto.
      + destruct (Htrial i' Hi') as (k' & x & C1 & C2 & C3 & C4 & C5). exists k', x.
        assert (k' <> k) by (intros ->; congruence).
        rewrite Ha', Hd', !(list_lookup_insert_ne _ i i') by auto.
        rewrite !list_lookup_insert_ne by auto. split; [exact C1|]. split; [apply Hlive'; auto|]. auto.
    - intros O. apply Hord'; auto using allP_True.
  Qed.

  Lemma sd_none_inv s i d : finv t s -> f_status s !! i = Some F_NONE -> finv t (set_f_sd (<[i := d]> (f_sd s)) s).
  Proof.
    intros [Lp Ls Ld Lv Hh Htest Hcap Hlive Htrial Hord Hmask] Hst.
    constructor; cbn [set_f_sd f_ptr f_status f_heap f_sd f_vel]; auto.
    - rewrite insert_length. exact Ld.
    - intros i' Hi'. destruct (Htrial i' Hi') as (k' & x & C). exists k', x.
      rewrite list_lookup_insert_ne; [exact C|]. intros ->. congruence.
  Qed.

  Definition nonfrozen (st : FStatus) : bool := negb (is_frozen st).

  (** Popping: a TRIAL node becomes FROZEN. *)
  Lemma pop_freeze_inv acc s : finv t s -> h_len (f_heap s) <> 0 ->
    length acc + cnt nonfrozen (f_status s) <= N ->
    wp E False (pop_freeze mesh isVel acc s) (fun '(acc', v, s') =>
      exists a, acc' = acc ++ [a] /\ a < N /\ f_status s !! a = Some F_TRIAL /\
        f_status s' = <[a := F_FROZEN]> (f_status s) /\
        fstep (abs s) (abs s') /\ finv t s' /\
        cnt nonfrozen (f_status s) = S (cnt nonfrozen (f_status s')) /\ f_sd s' = f_sd s /\
        heap_peek (f_heap s) = Ok v /\ (exists x, f_sd s !! a = Some x /\ v = nabs x /\
          (NumOrd T (fun _ => True) -> forall j y, f_status s !! j = Some F_TRIAL -> f_sd s !! j = Some y ->
             nltb (nabs y) (nabs x) = false))).
  Proof.
    intros I Hlen Hacc. pose proof I as I0. destruct I as [Lp Ls Ld Lv Hh Htest Hcap Hlive Htrial Hord Hmask].
    unfold pop_freeze. apply wp_bind. eapply wp_impl.
    { apply (wp_and E False _ _ _ (heap_pop_spec (fun _ => True) E (f_heap s) Hh Hlen
        ltac:(rewrite Htest; intros Ht'; destruct (HE Ht') as [O|HE']; [left; split; [exact O|]; split; [apply allP_True|apply Hord; exact O]|right; exact HE']))
        (heap_pop_spec (fun _ => True) E (f_heap s) Hh Hlen
        ltac:(rewrite Htest; intros Ht'; destruct (HE Ht') as [O|HE']; [left; split; [exact O|]; split; [apply allP_True|apply Hord; exact O]|right; exact HE']))). }
    intros [h' [a v]] [(k & Htop & Hka & Hkv & Hh' & Hm' & Ht' & Hl' & Hll' & Ha' & Hd' & Hlive' & Hord') _].
    assert (HLk : live (f_heap s) k) by (exists 0; split; [lia|exact Htop]).
    destruct (Hlive k HLk) as (i & C1 & C2 & C3). assert (i = a) by congruence. subst i.
    assert (Hai : a < N) by (apply lookup_lt_Some in C2; lia).
    destruct (Htrial a C2) as (k0 & x & D1 & D2 & D3 & D4 & D5). assert (k0 = k) by congruence. subst k0.
    assert (v = nabs x) by congruence. subst v.
    assert (Hmin : NumOrd T (fun _ => True) -> forall j y, f_status s !! j = Some F_TRIAL -> f_sd s !! j = Some y ->
         nltb (nabs y) (nabs x) = false).
    { intros O j y Hj Hy. destruct (Htrial j Hj) as (kj & yj & F1 & (p & Hp & Hpk) & F3 & F4 & F5).
      assert (yj = y) by congruence. subst yj.
      pose proof (root_min (fun _ => True) (f_heap s) O (allP_True _) Hh (Hord O) p k kj Htop Hp Hpk) as Hm.
      unfold ile, keyof in Hm. rewrite D5, F5 in Hm. exact Hm. }
    assert (Hpk : heap_peek (f_heap s) = Ok (nabs x)).
    { unfold heap_peek. destruct (Nat.eqb_spec (h_len (f_heap s)) 0) as [E0|_]; [contradiction|]. cbn [negb check obind].
      unfold vget. rewrite Htop. cbn [obind]. rewrite D5. reflexivity. }
    cbn [set_f_heap f_status].
    apply wp_bind, wp_vset; [lia|].
    set (st' := <[a := F_FROZEN]> (f_status s)).
    pose proof (cnt_insert is_none (f_status s) a F_TRIAL F_FROZEN C2) as HC1. cbn in HC1.
    pose proof (cnt_insert nonfrozen (f_status s) a F_TRIAL F_FROZEN C2) as HC2. cbn in HC2. fold st' in HC1, HC2.
    assert (HI : forall vel', (isVel = true -> length vel' = N) ->
       finv t (mkFmm (f_ptr s) st' h' (f_sd s) vel')).
    { intros vel' Lv'. constructor; cbn [f_ptr f_status f_heap f_sd f_vel]; auto.
      - unfold st'. rewrite insert_length. exact Ls.
      - congruence.
      - lia.
      - intros k' HL. apply Hlive' in HL as [HL Hne]. destruct (Hlive k' HL) as (i' & A1 & A2 & A3).
        exists i'. rewrite Ha'. assert (i' <> a) by (intros ->; congruence).
        unfold st'. rewrite list_lookup_insert_ne by auto. auto.
      - intros i' Hi'. unfold st' in Hi'. destruct (Nat.eq_dec i' a) as [->|Hne].
        { rewrite list_lookup_insert in Hi' by lia. discriminate. }
        rewrite list_lookup_insert_ne in Hi' by auto.
        destruct (Htrial i' Hi') as (k' & x' & B1 & B2 & B3 & B4 & B5). exists k', x'.
        rewrite Ha', Hd'. split; [exact B1|]. split; [|auto]. apply Hlive'. split; [exact B2|].
        intros ->. congruence.
      - intros O. apply Hord'; auto using allP_True.
      - intros i' Hi'. unfold st' in Hi'. destruct (Nat.eq_dec i' a) as [->|Hne].
        + rewrite list_lookup_insert in Hi' by lia. discriminate.
        + rewrite list_lookup_insert_ne in Hi' by auto. exact (Hmask i' Hi'). }
    assert (HN : m_nNodes mesh = N) by apply mesh_N.
    assert (Hacc' : (length acc <? m_nNodes mesh)%nat = true).
    { apply Nat.ltb_lt. rewrite HN. lia. }
    assert (Ev : isVel = true \/ isVel = false) by (destruct isVel; auto).
    destruct Ev as [Ev|Ev]; rewrite Ev.
    - set (s1 := set_f_status st' (set_f_heap h' s)).
      destruct (finalise_spec s1 a) as [Ex|[v Ex]].
      + unfold s1, st'. cbn. rewrite insert_length. exact Ls.
      + exact Ld.
      + apply Lv. exact Ev.
      + exact Hai.
      + rewrite Ex. cbn. apply HEv. exact Ev.
      + rewrite Ex. cbn [obind]. rewrite Hacc'. apply wp_ok. exists a.
        split; [reflexivity|]. split; [exact Hai|]. split; [exact C2|]. split; [reflexivity|]. split; [|split; [|split; [|split; [|split; [exact Hpk|eauto]]]]].
        * unfold abs, s1. cbn [set_f_vel set_f_status set_f_heap f_status f_sd f_vel].
          eapply fs_freeze; eauto.
          -- congruence.
          -- intros _. exists s1. eexists. split; [reflexivity|]. split; [exact Ex|]. reflexivity.
        * apply HI. intros _. rewrite insert_length. apply Lv. exact Ev.
        * unfold s1. cbn [set_f_vel set_f_status set_f_heap f_status]. lia.
        * reflexivity.
    - cbn [obind]. rewrite Hacc'. apply wp_ok. exists a.
      split; [reflexivity|]. split; [exact Hai|]. split; [exact C2|]. split; [reflexivity|]. split; [|split; [|split; [|split; [|split; [exact Hpk|eauto]]]]].
      + unfold abs. cbn [set_f_vel set_f_status set_f_heap f_status f_sd f_vel].
        eapply fs_freeze; eauto; congruence.
      + apply HI. congruence.
      + cbn [set_f_vel set_f_status set_f_heap f_status]. lia.
      + reflexivity.
  Qed.

  (** ** The inner loop: entries of equal value *)
  Lemma pop_equal_inv fuel v : forall acc s, finv t s -> cnt nonfrozen (f_status s) < fuel ->
    length acc + cnt nonfrozen (f_status s) <= N ->
    wp E False (pop_equal mesh isVel fuel v acc s) (fun '(acc', s') =>
      finv t s' /\ rtc fstep (abs s) (abs s') /\
      cnt nonfrozen (f_status s') <= cnt nonfrozen (f_status s) /\
      (exists l, acc' = acc ++ l /\ (forall a, a ∈ l -> a < N /\ f_status s' !! a = Some F_FROZEN) /\
         (forall a, f_status s' !! a = Some F_FROZEN -> f_status s !! a = Some F_FROZEN \/ a ∈ l)) /\
      (forall a, f_status s !! a = Some F_FROZEN -> f_status s' !! a = Some F_FROZEN) /\
      (forall a, f_status s' !! a = Some F_NONE -> f_status s !! a = Some F_NONE)).
  Proof.
    induction fuel as [|fuel IH]; intros acc s I Hf Hacc; [lia|]. cbn [pop_equal].
    assert (Hdone : wp E False (Ok (acc, s)) (fun '(acc', s') =>
      finv t s' /\ rtc fstep (abs s) (abs s') /\
      cnt nonfrozen (f_status s') <= cnt nonfrozen (f_status s) /\
      (exists l, acc' = acc ++ l /\ (forall a, a ∈ l -> a < N /\ f_status s' !! a = Some F_FROZEN) /\
         (forall a, f_status s' !! a = Some F_FROZEN -> f_status s !! a = Some F_FROZEN \/ a ∈ l)) /\
      (forall a, f_status s !! a = Some F_FROZEN -> f_status s' !! a = Some F_FROZEN) /\
      (forall a, f_status s' !! a = Some F_NONE -> f_status s !! a = Some F_NONE))).
    { apply wp_ok. split; [exact I|]. split; [apply rtc_refl|]. split; [lia|]. split; [|auto].
      exists []. rewrite app_nil_r. split; [reflexivity|]. split; [|auto].
      intros a Ha. apply elem_of_nil in Ha as []. }
    unfold heap_empty. destruct (Nat.eqb_spec (h_len (f_heap s)) 0) as [E0|Hne]; [exact Hdone|]. cbn [negb].
    unfold heap_peek. destruct (Nat.eqb_spec (h_len (f_heap s)) 0) as [E0|_]; [contradiction|]. cbn [negb check obind].
    pose proof (fi_h _ _ I) as [Hw Hd Ha].
    pose proof (w_lh _ _ _ _ _ Hw) as Hlh. pose proof (w_len _ _ _ _ _ Hw). pose proof (w_lst _ _ _ _ _ Hw).
    apply wp_bind, wp_bind, wp_vget_lt; [lia|]. intros top Htop.
    apply wp_vget_lt; [rewrite Hd; eapply w_bound; eauto|]. intros w Hv.
    destruct (v =? w)%num; [|exact Hdone].
    apply wp_bind. eapply wp_impl; [apply pop_freeze_inv; assumption|].
    intros [[acc1 v1] s1] (a & -> & Ha' & Hst & Hst' & Hstep & I' & Hc & Hsd & _).
    eapply wp_impl; [apply (IH (acc ++ [a]) s1 I'); [lia|rewrite app_length; cbn [length]; lia]|].
    intros [acc2 s2] (I2 & R2 & C2 & (l & -> & L1 & L2) & F2 & N2).
    pose proof (fi_ls _ _ I) as Ls.
    assert (Hne' : forall b, b <> a -> f_status s1 !! b = f_status s !! b).
    { intros b Hb. rewrite Hst', list_lookup_insert_ne by auto. reflexivity. }
    assert (Ha1 : f_status s1 !! a = Some F_FROZEN) by (rewrite Hst', list_lookup_insert by lia; reflexivity).
    split; [exact I2|]. split; [eapply rtc_l; eauto|]. split; [lia|]. split; [|split].
    - exists (a :: l). rewrite <- app_assoc. split; [reflexivity|]. split.
      + intros b Hb. apply elem_of_cons in Hb as [->|Hb]; [split; [exact Ha'|auto]|auto].
      + intros b Hb. destruct (Nat.eq_dec b a) as [->|Hba]; [right; left|].
        destruct (L2 b Hb) as [Hb'|Hb']; [left; rewrite <- Hne'; auto|right; right; exact Hb'].
    - intros b Hb. apply F2. destruct (Nat.eq_dec b a) as [->|Hba]; [exact Ha1|rewrite Hne'; auto].
    - intros b Hb. apply N2 in Hb. destruct (Nat.eq_dec b a) as [->|Hba]; [congruence|rewrite <- Hne'; auto].
  Qed.

  (** ** Relaxation around one frozen node in one direction *)
  Definition same_frozen (s s' : Fmm T) : Prop :=
    cnt nonfrozen (f_status s') = cnt nonfrozen (f_status s) /\
    (forall a, f_status s' !! a = Some F_FROZEN <-> f_status s !! a = Some F_FROZEN) /\
    (forall a, f_status s' !! a = Some F_NONE -> f_status s !! a = Some F_NONE).
  Lemma same_frozen_refl s : same_frozen s s.
  Proof. split; [reflexivity|]. split; auto. Qed.
  Lemma same_frozen_trans s1 s2 s3 : same_frozen s1 s2 -> same_frozen s2 s3 -> same_frozen s1 s3.
  Proof.
    intros (A1 & A2 & A3) (B1 & B2 & B3). split; [congruence|]. split; [|auto].
    intros a. rewrite B2, A2. tauto.
  Qed.
  Lemma same_frozen_status s s' : f_status s' = f_status s -> same_frozen s s'.
  Proof. intros Hs. unfold same_frozen. rewrite Hs. apply same_frozen_refl. Qed.
  Lemma same_frozen_mark s s' i : f_status s !! i = Some F_NONE -> f_status s' = <[i := F_TRIAL]> (f_status s) ->
    same_frozen s s'.
  Proof.
    intros Hi Hs. unfold same_frozen. rewrite Hs.
    pose proof (cnt_insert nonfrozen (f_status s) i F_NONE F_TRIAL Hi) as HC. cbn [nonfrozen is_frozen negb] in HC.
    pose proof (lookup_lt_Some _ _ _ Hi). split; [lia|]. split.
    - intros a. destruct (Nat.eq_dec a i) as [->|Hne].
      + rewrite list_lookup_insert by lia. rewrite Hi. split; discriminate.
      + rewrite list_lookup_insert_ne by auto. tauto.
    - intros a. destruct (Nat.eq_dec a i) as [->|Hne].
      + rewrite list_lookup_insert by lia. discriminate.
      + rewrite list_lookup_insert_ne by auto. tauto.
  Qed.

  Lemma is_active_wp i (Q : bool -> Prop) : i < N ->
    (forall b, (b = true -> active i) -> (b = false -> inactive i) -> Q b) ->
    wp E False (is_active mesh i) Q.
  Proof.
    intros Hi HQ. destruct (topo_node W H mesh Ht i Hi) as (n & Hn & _). unfold is_active, vget. rewrite Hn. cbn.
    apply HQ; intros Hb; exists n; auto.
  Qed.

  Lemma guard_wp i (Q : bool -> Prop) : i < N ->
    (forall b, (b = true -> isVel = true -> active i) -> (b = false -> isVel = true /\ inactive i) -> Q b) ->
    wp E False (if isVel then is_active mesh i else Ok true) Q.
  Proof.
    intros Hi HQ. assert (Ev : isVel = true \/ isVel = false) by (destruct isVel; auto).
    destruct Ev as [Ev|Ev]; rewrite Ev.
    - apply is_active_wp; [exact Hi|]. intros b Hb1 Hb2. apply HQ; auto.
    - apply wp_ok, HQ; [congruence|discriminate].
  Qed.

  Lemma relax_inv addr j s : finv t s -> addr < N -> j < 4 -> f_status s !! addr = Some F_FROZEN ->
    wp E False (relax mesh isVel copy addr j s) (fun s' =>
      finv t s' /\ rtc ustep (abs s) (abs s') /\ same_frozen s s' /\
      (nb W H addr j < N -> f_status s' !! nb W H addr j = Some F_NONE -> isVel = true /\ inactive (nb W H addr j)) /\
      (nb W H addr j < N -> f_status s !! nb W H addr j <> Some F_FROZEN ->
        exists d, updateNode mesh copy (f_status s) (f_sd s) (nb W H addr j) = Ok d /\ f_sd s' !! nb W H addr j = Some d)).
  Proof.
    intros I Ha Hj Hfr. unfold relax. rewrite neigh_ok by assumption. cbn [obind]. rewrite mesh_N.
    set (b := nb W H addr j).
    destruct (nb_range W H addr j Ha Hj) as [Eb|Hb]; [fold b in Eb|fold b in Hb].
    { rewrite Eb, Nat.eqb_refl. cbn [negb]. apply wp_ok. split; [exact I|]. split; [apply rtc_refl|].
      split; [apply same_frozen_refl|]. split; lia. }
    destruct (Nat.eqb_spec b N); [lia|]. cbn [negb].
    pose proof (fi_ls _ _ I) as Ls. pose proof (fi_ld _ _ I) as Ld. pose proof (fi_lp _ _ I) as Lp.
    apply wp_bind, wp_vget_lt; [lia|]. intros st Hst.
    destruct (is_frozen st) eqn:Hisf; cbn [negb].
    { apply wp_ok. split; [exact I|]. split; [apply rtc_refl|]. split; [apply same_frozen_refl|].
      split; [intros _ HN; rewrite Hst in HN; inversion HN; subst; discriminate|].
      intros _ HN. exfalso. apply HN. rewrite Hst. destruct st; try discriminate. reflexivity. }
    destruct (updateNode_ok (f_status s) (f_sd s) b Ls Ld Hb) as [d Hd]. rewrite Hd at 1. cbn [obind].
    apply wp_bind, wp_vset; [lia|].
    assert (Hfn : frozen_nb (f_status s) b).
    { pose proof (nb_opp W H addr j Ha Hj Hb) as Hop. exists (opp j). fold b in Hop. rewrite Hop.
      split; [apply opp_lt; exact Hj|]. split; [exact Ha|exact Hfr]. }
    (* first half *)
    apply wp_bind. eapply wp_impl with (P := fun s1 =>
      finv t s1 /\ rtc ustep (abs s) (abs s1) /\ same_frozen s s1 /\
      (f_status s1 !! b = Some F_NONE -> isVel = true /\ inactive b) /\ f_sd s1 !! b = Some d).
    { destruct st; cbn [is_trial is_none]; cbn [is_frozen] in Hisf; try discriminate.
      - (* NONE *)
        apply wp_bind, guard_wp; [exact Hb|]. intros ok Hok1 Hok2. destruct ok.
        + apply wp_bind, wp_vset; [cbn [set_f_sd f_status]; lia|]. cbn [set_f_sd f_status].
          eapply wp_impl; [apply (push_trial_inv s b d I Hb Hst)|].
          intros s' (I' & Habs). split; [exact I'|]. split; [|split; [|split]].
          * rewrite Habs. unfold abs. apply rtc_once, fs_visit; auto.
          * eapply (same_frozen_mark s s' b Hst). unfold abs in Habs. congruence.
          * unfold abs in Habs. assert (f_status s' = <[b := F_TRIAL]> (f_status s)) as -> by congruence.
            rewrite list_lookup_insert by lia. discriminate.
          * unfold abs in Habs. assert (f_sd s' = <[b := d]> (f_sd s)) as -> by congruence.
            apply list_lookup_insert. lia.
        + apply wp_ok. split; [apply sd_none_inv; auto|]. split; [|split; [|split]].
          * apply rtc_once. unfold abs. cbn [set_f_sd f_status f_sd f_vel]. destruct (Hok2 eq_refl). apply fs_touch; auto.
          * apply same_frozen_status. reflexivity.
          * auto.
          * apply list_lookup_insert. lia.
      - (* TRIAL *)
        destruct (fi_trial _ _ I b Hst) as (k & x & Hk & _).
        apply wp_bind, wp_vget with k; [exact Hk|].
        apply wp_bind. cbn [set_f_sd f_heap]. eapply wp_impl; [apply (set_trial_inv s b d k I Hb Hst Hk)|].
        intros h' I'. apply wp_ok. split; [exact I'|]. split; [|split; [|split]].
        + apply rtc_once. unfold abs. cbn [set_f_sd set_f_heap f_status f_sd f_vel]. apply fs_update; auto.
        + apply same_frozen_status. reflexivity.
        + cbn [set_f_heap set_f_sd f_status]. intros HN. congruence.
        + apply list_lookup_insert. lia.
      - exfalso. exact (fi_mask _ _ I b Hst). }
    clear Hst Hisf st.
    intros s1 (I1 & R1 & S1 & Q1 & D1). rewrite neigh_ok by assumption. cbn [obind].
    assert (Hdone : wp E False (Ok s1) (fun s' =>
      finv t s' /\ rtc ustep (abs s) (abs s') /\ same_frozen s s' /\
      (b < N -> f_status s' !! b = Some F_NONE -> isVel = true /\ inactive b) /\
      (b < N -> f_status s !! b <> Some F_FROZEN ->
        exists d, updateNode mesh copy (f_status s) (f_sd s) b = Ok d /\ f_sd s' !! b = Some d))).
    { apply wp_ok. repeat (split; [solve [auto]|]). eauto. }
    destruct (nb_range W H b j Hb Hj) as [Eb|Hb2].
    { rewrite Eb, Nat.eqb_refl. exact Hdone. }
    set (b2 := nb W H b j) in *.
    destruct (Nat.eqb_spec b2 N); [lia|]. cbn [negb].
    pose proof (fi_ls _ _ I1) as Ls1. pose proof (fi_ld _ _ I1) as Ld1. pose proof (fi_lp _ _ I1) as Lp1.
    apply wp_bind, wp_vget_lt; [lia|]. intros st2 Hst2.
    destruct st2; cbn [is_trial]; try exact Hdone.
    destruct (updateNode_ok (f_status s1) (f_sd s1) b2 Ls1 Ld1 Hb2) as [d2 Hd2]. rewrite Hd2. cbn [obind].
    apply wp_bind, wp_vset; [lia|].
    destruct (fi_trial _ _ I1 b2 Hst2) as (k & x & Hk & _).
    apply wp_bind, wp_vget with k; [exact Hk|].
    apply wp_bind. eapply wp_impl; [apply (set_trial_inv s1 b2 d2 k I1 Hb2 Hst2 Hk)|].
    intros h' I'. apply wp_ok. split; [exact I'|]. split; [|split; [|split]].
    - eapply rtc_r; [exact R1|]. unfold abs. cbn [set_f_sd set_f_heap f_status f_sd f_vel]. apply fs_update; auto.
    - eapply same_frozen_trans; [exact S1|]. apply same_frozen_status. reflexivity.
    - intros _ HN. apply Q1. exact HN.
    - intros _ _. exists d. split; [exact Hd|]. cbn [set_f_heap set_f_sd f_sd].
      rewrite list_lookup_insert_ne; [exact D1|]. apply nb_ne; assumption.
  Qed.

  (** ** Closedness: the neighbours of frozen nodes are never untouched *)
  Definition closed (pend : nat -> nat -> Prop) (status : list FStatus) : Prop :=
    forall a j, a < N -> j < 4 -> status !! a = Some F_FROZEN -> nb W H a j < N ->
    status !! nb W H a j = Some F_NONE -> pend a j \/ (isVel = true /\ inactive (nb W H a j)).

  Lemma closed_step (P Q : nat -> nat -> Prop) s s' : closed P (f_status s) -> same_frozen s s' ->
    (forall a j, a < N -> j < 4 -> nb W H a j < N -> f_status s' !! nb W H a j = Some F_NONE ->
       P a j -> Q a j \/ (isVel = true /\ inactive (nb W H a j))) ->
    closed Q (f_status s').
  Proof.
    intros HC (_ & HF & HN) HPQ a j Ha Hj Hfr Hb Hnone.
    destruct (HC a j Ha Hj) as [HP|HP]; [apply HF; exact Hfr|exact Hb|apply HN; exact Hnone| |right; exact HP].
    apply HPQ; auto.
  Qed.

  Lemma relax_all_inv l : forall s, finv t s -> (forall a, a ∈ l -> a < N /\ f_status s !! a = Some F_FROZEN) ->
    closed (fun a _ => a ∈ l) (f_status s) ->
    wp E False (relax_all mesh isVel copy l s) (fun s' =>
      finv t s' /\ rtc ustep (abs s) (abs s') /\ same_frozen s s' /\ closed (fun _ _ => False) (f_status s')).
  Proof.
    induction l as [|a l IH]; intros s I Hl HC; cbn [relax_all].
    { apply wp_ok. split; [exact I|]. split; [apply rtc_refl|]. split; [apply same_frozen_refl|].
      eapply closed_step; [exact HC|apply same_frozen_refl|]. intros a j _ _ _ _ Ha. apply elem_of_nil in Ha as []. }
    destruct (Hl a) as [Ha Hfr]; [left|].
    apply wp_bind. apply (wp_for E False (fun j s' => finv t s' /\ rtc ustep (abs s) (abs s') /\ same_frozen s s' /\
      closed (fun b j' => (b = a /\ j <= j') \/ b ∈ l) (f_status s'))).
    - split; [exact I|]. split; [apply rtc_refl|]. split; [apply same_frozen_refl|].
      eapply closed_step; [exact HC|apply same_frozen_refl|]. intros b j _ _ _ _ Hb.
      left. apply elem_of_cons in Hb as [->|Hb]; [left; split; [reflexivity|lia]|right; exact Hb].
    - intros j s1 Hj (I1 & R1 & S1 & C1).
      eapply wp_impl; [apply (relax_inv a j s1 I1 Ha Hj); apply S1; exact Hfr|].
      intros s2 (I2 & R2 & S2 & Q2 & _). split; [exact I2|]. split; [eapply rtc_transitive; eauto|].
      split; [eapply same_frozen_trans; eauto|].
      eapply closed_step; [exact C1|exact S2|]. intros b j' _ _ Hb Hnone [[-> Hjj]|Hin]; [|left; right; exact Hin].
      destruct (Nat.eq_dec j' j) as [->|Hne]; [right; auto|left; left; split; [reflexivity|lia]].
    - intros s1 (I1 & R1 & S1 & C1).
      eapply wp_impl; [apply (IH s1 I1)|].
      + intros b Hb. destruct (Hl b) as [Hb1 Hb2]; [right; exact Hb|]. split; [exact Hb1|]. apply S1. exact Hb2.
      + eapply closed_step; [exact C1|apply same_frozen_refl|]. intros b j _ Hj _ _ [[-> Hjj]|Hin]; [lia|left; exact Hin].
      + intros s2 (I2 & R2 & S2 & C2). split; [exact I2|]. split; [eapply rtc_transitive; eauto|].
        split; [eapply same_frozen_trans; eauto|exact C2].
  Qed.

  (** ** The main loop terminates with an empty heap *)
  Lemma solve_inv fuel : forall s, finv t s -> cnt nonfrozen (f_status s) < fuel -> closed (fun _ _ => False) (f_status s) ->
    wp E False (solve mesh isVel copy fuel s) (fun s' =>
      finv t s' /\ rtc fstep (abs s) (abs s') /\ closed (fun _ _ => False) (f_status s') /\ h_len (f_heap s') = 0).
  Proof.
    induction fuel as [|fuel IH]; intros s I Hf HC; [lia|]. cbn [solve].
    unfold heap_empty. destruct (Nat.eqb_spec (h_len (f_heap s)) 0) as [E0|Hne]; cbn [negb].
    { apply wp_ok. split; [exact I|]. split; [apply rtc_refl|]. auto. }
    assert (Hcnt : cnt nonfrozen (f_status s) <= N).
    { rewrite <- (fi_ls _ _ I). apply cnt_le. }
    apply wp_bind. eapply wp_impl; [apply (pop_freeze_inv [] s I Hne); cbn [length]; lia|].
    intros [[acc1 v1] s1] (a & -> & Ha & Hst & Hst' & Hstep & I1 & Hc1 & _). cbn [app].
    apply wp_bind. eapply wp_impl; [apply (pop_equal_inv _ v1 [a] s1 I1); [rewrite mesh_N; lia|cbn [length]; lia]|].
    intros [acc2 s2] (I2 & R2 & Hc2 & (l & -> & L1 & L2) & F2 & N2). cbn [app].
    pose proof (fi_ls _ _ I) as Ls.
    assert (Hne' : forall b, b <> a -> f_status s1 !! b = f_status s !! b).
    { intros b Hb. rewrite Hst', list_lookup_insert_ne by auto. reflexivity. }
    assert (Ha1 : f_status s1 !! a = Some F_FROZEN) by (rewrite Hst', list_lookup_insert by lia; reflexivity).
    apply wp_bind. eapply wp_impl; [apply (relax_all_inv (a :: l) s2 I2)|].
    - intros b Hb. apply elem_of_cons in Hb as [->|Hb]; auto.
    - intros b j Hb Hj Hfr Hnb Hnone.
      destruct (L2 b Hfr) as [Hb1|Hin]; [|left; right; exact Hin].
      destruct (Nat.eq_dec b a) as [->|Hba]; [left; left|].
      rewrite Hne' in Hb1 by exact Hba.
      assert (Hs : f_status s !! nb W H b j = Some F_NONE).
      { apply N2 in Hnone. rewrite <- Hne'; [exact Hnone|]. intros Heq. rewrite Heq in Hnone. congruence. }
      destruct (HC b j Hb Hj Hb1 Hnb Hs) as [[]|HP]. right. exact HP.
    - intros s3 (I3 & R3 & S3 & C3).
      eapply wp_impl; [apply (IH s3 I3); [|exact C3]|].
      + destruct S3 as [-> _]. lia.
      + intros s4 (I4 & R4 & C4 & E4). split; [exact I4|]. split; [|auto].
        eapply rtc_l; [exact Hstep|]. eapply rtc_transitive; [exact R2|]. eapply rtc_transitive; eauto using rtc_u.
  Qed.

  (** ** The trial phase *)
  Lemma trial_step_inv i j s : finv t s -> i < N -> j < 4 ->
    wp E False (trial_step mesh isVel copy i j s) (fun s' =>
      finv t s' /\ rtc ustep (abs s) (abs s') /\ same_frozen s s' /\
      (nb W H i j < N -> f_status s' !! nb W H i j = Some F_FROZEN -> f_status s' !! i = Some F_NONE ->
        isVel = true /\ inactive i) /\
      (f_status s' = f_status s /\ f_sd s' = f_sd s \/
       (exists d, f_status s !! i = Some F_NONE /\ f_status s' = <[i := F_TRIAL]> (f_status s) /\ f_sd s' = <[i := d]> (f_sd s) /\
          updateNode mesh copy (<[i := F_TRIAL]> (f_status s)) (f_sd s) i = Ok d))).
  Proof.
    intros I Hi Hj. unfold trial_step. rewrite neigh_ok by assumption. cbn [obind]. rewrite mesh_N.
    set (b := nb W H i j).
    assert (Hdone : (b < N -> f_status s !! b = Some F_FROZEN -> f_status s !! i = Some F_NONE -> isVel = true /\ inactive i) ->
      wp E False (Ok s) (fun s' => finv t s' /\ rtc ustep (abs s) (abs s') /\ same_frozen s s' /\
      (b < N -> f_status s' !! b = Some F_FROZEN -> f_status s' !! i = Some F_NONE -> isVel = true /\ inactive i) /\
      (f_status s' = f_status s /\ f_sd s' = f_sd s \/
       (exists d, f_status s !! i = Some F_NONE /\ f_status s' = <[i := F_TRIAL]> (f_status s) /\ f_sd s' = <[i := d]> (f_sd s) /\
          updateNode mesh copy (<[i := F_TRIAL]> (f_status s)) (f_sd s) i = Ok d)))).
    { intros HQ. apply wp_ok. split; [exact I|]. split; [apply rtc_refl|]. split; [apply same_frozen_refl|].
      split; [exact HQ|]. left. auto. }
    destruct (nb_range W H i j Hi Hj) as [Eb|Hb]; [fold b in Eb|fold b in Hb].
    { rewrite Eb, Nat.eqb_refl. cbn [negb]. rewrite Eb in Hdone. apply Hdone. lia. }
    destruct (Nat.eqb_spec b N); [lia|]. cbn [negb].
    pose proof (fi_ls _ _ I) as Ls. pose proof (fi_ld _ _ I) as Ld.
    apply wp_bind, wp_vget_lt; [lia|]. intros stb Hstb.
    destruct (is_frozen stb) eqn:Hf; [|apply Hdone; intros _ HF; rewrite Hstb in HF; inversion HF; subst; discriminate].
    apply wp_bind, wp_vget_lt; [lia|]. intros st Hst.
    destruct (is_none st) eqn:Hn; [|apply Hdone; intros _ _ HF; rewrite Hst in HF; inversion HF; subst; discriminate].
    destruct st; try discriminate. destruct stb; try discriminate.
    apply wp_bind, guard_wp; [exact Hi|]. intros ok Hok1 Hok2. destruct ok; [|apply Hdone; auto].
    apply wp_bind, wp_vset; [lia|]. cbn [set_f_status f_status f_sd].
    destruct (updateNode_ok (<[i := F_TRIAL]> (f_status s)) (f_sd s) i) as [d Hd]; [rewrite insert_length; exact Ls|exact Ld|exact Hi|].
    rewrite Hd at 1. cbn [obind]. apply wp_bind, wp_vset; [lia|].
    eapply wp_impl; [apply (push_trial_inv s i d I Hi Hst)|].
    intros s' (I' & Habs). unfold abs in Habs.
    assert (Hst' : f_status s' = <[i := F_TRIAL]> (f_status s)) by congruence.
    split; [exact I'|]. split; [|split; [|split]].
    - unfold abs. rewrite Habs. apply rtc_once, fs_visit; [exact Hst|exists j; auto|auto|].
      rewrite updateNode_mark in Hd by assumption. exact Hd.
    - apply (same_frozen_mark s s' i Hst Hst').
    - intros _ _. rewrite Hst', list_lookup_insert by lia. discriminate.
    - right. exists d. repeat (split; [congruence|]). exact Hd.
  Qed.

  Lemma trial_node_inv i s : finv t s -> i < N ->
    wp E False (trial_node mesh isVel copy i s) (fun s' =>
      finv t s' /\ rtc ustep (abs s) (abs s') /\ same_frozen s s' /\
      (forall j, j < 4 -> nb W H i j < N -> f_status s' !! nb W H i j = Some F_FROZEN -> f_status s' !! i = Some F_NONE ->
        isVel = true /\ inactive i)).
  Proof.
    intros I Hi. unfold trial_node. pose proof (fi_ls _ _ I) as Ls.
    apply wp_bind, wp_vget_lt; [lia|]. intros st Hst.
    destruct (is_none st) eqn:Hn.
    - apply (wp_for E False (fun j s' => finv t s' /\ rtc ustep (abs s) (abs s') /\ same_frozen s s' /\
        forall j', j' < j -> nb W H i j' < N -> f_status s' !! nb W H i j' = Some F_FROZEN -> f_status s' !! i = Some F_NONE ->
        isVel = true /\ inactive i)).
      + split; [exact I|]. split; [apply rtc_refl|]. split; [apply same_frozen_refl|]. intros; lia.
      + intros j s1 Hj (I1 & R1 & S1 & Q1). eapply wp_impl; [apply (trial_step_inv i j s1 I1 Hi Hj)|].
        intros s2 (I2 & R2 & S2 & Q2 & _). split; [exact I2|]. split; [eapply rtc_transitive; eauto|].
        split; [eapply same_frozen_trans; eauto|].
        intros j' Hj' Hb Hfr Hno. destruct (Nat.eq_dec j' j) as [->|Hne]; [auto|].
        destruct S2 as (_ & F2 & N2). apply (Q1 j'); [lia|exact Hb|apply F2; exact Hfr|apply N2; exact Hno].
      + intros s1 HH. exact HH.
    - apply wp_ok. split; [exact I|]. split; [apply rtc_refl|]. split; [apply same_frozen_refl|].
      intros j _ _ _ Hno. rewrite Hst in Hno. inversion Hno; subst. discriminate.
  Qed.

  Lemma trial_phase_inv s : finv t s ->
    wp E False (for_ N (trial_node mesh isVel copy) s) (fun s' =>
      finv t s' /\ rtc ustep (abs s) (abs s') /\ same_frozen s s' /\ closed (fun _ _ => False) (f_status s')).
  Proof.
    intros I. apply (wp_for E False (fun i s' => finv t s' /\ rtc ustep (abs s) (abs s') /\ same_frozen s s' /\
      forall i' j, i' < i -> j < 4 -> nb W H i' j < N -> f_status s' !! nb W H i' j = Some F_FROZEN -> f_status s' !! i' = Some F_NONE ->
        isVel = true /\ inactive i')).
    - split; [exact I|]. split; [apply rtc_refl|]. split; [apply same_frozen_refl|]. intros; lia.
    - intros i s1 Hi (I1 & R1 & S1 & Q1). eapply wp_impl; [apply (trial_node_inv i s1 I1 Hi)|].
      intros s2 (I2 & R2 & S2 & Q2). split; [exact I2|]. split; [eapply rtc_transitive; eauto|].
      split; [eapply same_frozen_trans; eauto|].
      intros i' j Hi' Hj Hb Hfr Hno. destruct (Nat.eq_dec i' i) as [->|Hne]; [eauto|].
      destruct S2 as (_ & F2 & N2). apply (Q1 i' j); [lia|exact Hj|exact Hb|apply F2; exact Hfr|apply N2; exact Hno].
    - intros s1 (I1 & R1 & S1 & Q1). split; [exact I1|]. split; [exact R1|]. split; [exact S1|].
      intros a j Ha Hj Hfr Hb Hno. right.
      pose proof (nb_opp W H a j Ha Hj Hb) as Hop.
      apply (Q1 (nb W H a j) (opp j)); [exact Hb|apply opp_lt; exact Hj| | |exact Hno]; rewrite Hop; auto.
  Qed.

  (** ** The whole march *)
  Lemma march_core_inv (ptr : list nat) status0 sd vel :
    length ptr = N -> length status0 = N -> length sd = N -> (isVel = true -> length vel = N) -> Forall plain status0 ->
    wp (E \/ forall i, i < N -> zero_b i = false /\ (status0 !! i = Some F_NONE -> border_b i = false)) False
      (march_core mesh isVel copy t ptr status0 sd vel) (fun s =>
        exists st1 sd1, initialiseFrozen mesh copy status0 sd = Ok (st1, sd1) /\
          finv t s /\ rtc fstep (st1, sd1, vel) (abs s) /\ closed (fun _ _ => False) (f_status s) /\
          (forall i, f_status s !! i <> Some F_TRIAL)).
  Proof.
    intros Lp Ls Ld Lv Hp. unfold march_core.
    pose proof (initialiseFrozen_spec status0 sd Ls Ld Hp) as HI.
    destruct (initialiseFrozen mesh copy status0 sd) as [[st1 sd1]| | |] eqn:HF; cbn [wp obind] in *; [|right; exact HI|exact HI..].
    destruct HI as (L1 & Ld1 & Hex & HS & HD).
    rewrite heap_capacity_spec by exact L1. cbn [obind]. rewrite mesh_N.
    set (s0 := mkFmm _ _ _ _ _).
    assert (I0 : finv t s0).
    { assert (HnT : forall i s, st1 !! i = Some s -> plain s).
      { intros i s Hi. destruct (lookup_lt_is_Some_2 status0 i) as [s' Hs']; [apply lookup_lt_Some in Hi; lia|].
        rewrite (HS i s' Hs') in Hi. inversion Hi; subst. unfold fr, plain. destruct (_ || _); auto. }
      constructor; cbn [s0 f_ptr f_status f_heap f_sd f_vel]; auto.
      - apply hinv_new.
      - intros k (i & Hi & _). cbn in Hi. lia.
      - intros i Hi. destruct (HnT i _ Hi); discriminate.
      - intros _ i k kp H0 Hi. cbn in Hi. lia.
      - intros i Hi. destruct (HnT i _ Hi); discriminate. }
    eapply (wp_mono E (E \/ _) False False); [|auto|auto|intros a Ha; exact Ha].
    apply wp_bind. eapply wp_impl; [apply (trial_phase_inv s0 I0)|].
    intros s1 (I1 & R1 & S1 & C1).
    eapply wp_impl; [apply (solve_inv (S N) s1 I1); [|exact C1]|].
    { pose proof (cnt_le nonfrozen (f_status s1)). rewrite (fi_ls _ _ I1) in *. lia. }
    intros s2 (I2 & R2 & C2 & E2). exists st1, sd1. split; [reflexivity|]. split; [exact I2|].
    split; [|split; [exact C2|]].
    - eapply rtc_transitive; [apply rtc_u; exact R1|exact R2].
    - intros i Hi. destruct (fi_trial _ _ I2 i Hi) as (k & x & _ & (j & Hj & _) & _). lia.
  Qed.
End fmm.
