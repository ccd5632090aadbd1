(** * FmmFacts: consequences of the transition-system view of the march. *)

From Verif Require Import HeapSift HeapRefine MeshModel MeshSpec MeshProofs MeshGeom MeshTopo HeapModel HeapProofs
  FmmModel FmmSpec FmmProofs.
From stdpp Require Import relations.
From Coq Require Import ZifyBool ZifyNat.
Local Open Scope nat_scope.

(** ** Adjacency *)
Lemma adj_x_nb W H i k : adj_x W H i k <-> i < node_count W H /\ k < node_count W H /\ (k = nb W H i 0 \/ k = nb W H i 1).
Proof.
  split.
  - intros (x & y & x' & -> & -> & Hx & Hx' & Hy & Hc).
    split; [apply node_id_lt; lia|]. split; [apply node_id_lt; lia|]. destruct Hc as [->| ->].
    + right. rewrite nb_right by lia. reflexivity.
    + left. rewrite nb_left by lia. f_equal. lia.
  - intros (Hi & Hk & Hc). destruct (node_id_split W H i Hi) as (Hx & Hy & E).
    set (x := i mod (W + 1)) in *. set (y := i / (W + 1)) in *. rewrite E in Hc.
    destruct Hc as [->| ->].
    + destruct (Nat.eq_dec x 0) as [E0|Hne].
      { exfalso. rewrite <- E in Hk. unfold nb, neighbours_spec in Hk. fold x y in Hk. rewrite E0 in Hk. cbn in Hk. lia. }
      exists x, y, (x - 1). rewrite nb_left by lia. repeat split; lia.
    + destruct (Nat.eq_dec x W) as [E0|Hne].
      { exfalso. rewrite <- E in Hk. unfold nb, neighbours_spec in Hk. fold x y in Hk. cbn [nth] in Hk. rewrite E0, Nat.eqb_refl in Hk. lia. }
      exists x, y, (x + 1). rewrite nb_right by lia. repeat split; lia.
Qed.
Lemma adj_y_nb W H i k : adj_y W H i k <-> i < node_count W H /\ k < node_count W H /\ (k = nb W H i 2 \/ k = nb W H i 3).
Proof.
  split.
  - intros (x & y & y' & -> & -> & Hx & Hy & Hy' & Hc).
    split; [apply node_id_lt; lia|]. split; [apply node_id_lt; lia|]. destruct Hc as [->| ->].
    + right. rewrite nb_up by lia. reflexivity.
    + left. rewrite nb_down by lia. f_equal. lia.
  - intros (Hi & Hk & Hc). destruct (node_id_split W H i Hi) as (Hx & Hy & E).
    set (x := i mod (W + 1)) in *. set (y := i / (W + 1)) in *. rewrite E in Hc.
    destruct Hc as [->| ->].
    + destruct (Nat.eq_dec y 0) as [E0|Hne].
      { exfalso. rewrite <- E in Hk. unfold nb, neighbours_spec in Hk. fold x y in Hk. cbn [nth] in Hk. rewrite E0 in Hk. cbn in Hk. lia. }
      exists x, y, (y - 1). rewrite nb_down by lia. repeat split; lia.
    + destruct (Nat.eq_dec y H) as [E0|Hne].
      { exfalso. rewrite <- E in Hk. unfold nb, neighbours_spec in Hk. fold x y in Hk. cbn [nth] in Hk. rewrite E0, Nat.eqb_refl in Hk. lia. }
      exists x, y, (y + 1). rewrite nb_up by lia. repeat split; lia.
Qed.
Lemma adjacent_nb W H i k : adjacent W H i k <-> i < node_count W H /\ k < node_count W H /\ exists j, j < 4 /\ k = nb W H i j.
Proof.
  unfold adjacent. rewrite adj_x_nb, adj_y_nb. split.
  - intros [(A & B & [->| ->])|(A & B & [->| ->])]; (split; [exact A|split; [exact B|]]);
      [exists 0|exists 1|exists 2|exists 3]; (split; [lia|reflexivity]).
  - intros (A & B & j & Hj & ->). destruct j as [|[|[|[|j]]]]; [left|left|right|right|lia]; auto.
Qed.

Section facts.
  Context {T : Type} `{NT : Num T}.
  Variables (W H : nat) (mesh : Mesh T).
  Hypothesis Ht : topo W H mesh.
  Variable isVel : bool.
  Variable copy : list T.
  Notation N := (node_count W H).
  Hypothesis Hcopy : length copy = N.

  Notation fstep := (fstep W H mesh isVel copy).
  Notation ustep := (ustep W H mesh isVel copy).

  Lemma zero_b_spec i : zero_b copy i = true <-> on_contour copy i.
  Proof.
    unfold zero_b, on_contour. split.
    - destruct (copy !! i) as [c|] eqn:E; [|discriminate]. intros Hc. eauto.
    - intros (c & -> & Hc). exact Hc.
  Qed.
  Lemma border_b_front i : i < N -> border_b mesh copy i = true <-> exists k, adjacent W H i k /\ crossing copy i k.
  Proof.
    intros Hi. rewrite (border_b_spec W H mesh Ht copy Hcopy i Hi). split.
    - intros (j & Hj & Hc). pose proof (crosses_lt W H copy Hcopy _ _ Hc) as [_ Hb].
      exists (nb W H i j). split; [|exact Hc]. apply adjacent_nb. eauto.
    - intros (k & Hadj & Hc). apply adjacent_nb in Hadj as (_ & _ & j & Hj & ->). exists j. split; [exact Hj|exact Hc].
  Qed.
  Lemma front_b i : i < N -> zero_b copy i || border_b mesh copy i = true <-> on_front W H copy i.
  Proof. intros Hi. rewrite orb_true_iff, zero_b_spec, border_b_front by exact Hi. reflexivity. Qed.

  (** ** What a step can change *)
  Lemma finalise_shape s s' node : finaliseVelocity mesh node s = Ok s' ->
    exists v, s' = set_f_vel (<[node := v]> (f_vel s)) s.
  Proof.
    unfold finaliseVelocity. intros E. apply obind_Ok in E as ([ax ay] & _ & E). apply obind_Ok in E as (? & _ & E).
    apply obind_Ok in E as (vel' & Hv & E). inversion E; subst s'. apply vset_Ok in Hv as [_ ->]. eauto.
  Qed.

  Lemma fstep_keep st sd vel st' sd' vel' : fstep (st, sd, vel) (st', sd', vel') ->
    length st' = length st /\ length sd' = length sd /\ length vel' = length vel /\
    (isVel = false -> vel' = vel) /\
    (forall i, st !! i = Some F_FROZEN -> st' !! i = Some F_FROZEN /\ sd' !! i = sd !! i /\ vel' !! i = vel !! i) /\
    (forall i, st' !! i = st !! i \/
       (st !! i = Some F_NONE /\ st' !! i = Some F_TRIAL /\ (isVel = true -> active mesh i)) \/
       (st !! i = Some F_TRIAL /\ st' !! i = Some F_FROZEN)) /\
    (forall i, vel' !! i = vel !! i \/ (st !! i = Some F_TRIAL /\ st' !! i = Some F_FROZEN)).
  Proof.
    intros Hs. inversion Hs as [a b Hu|? ? ? ? i x Hst Hx Hmin Hv1 Hv2]; subst.
    - inversion Hu as [? ? ? i d Hst Hd|? ? ? i d Hst Hfn Hv Hin Hd|? ? ? i d Hst Hfn Hact Hd]; subst.
      1,2: split; [reflexivity|]; split; [apply insert_length|]; split; [reflexivity|]; split; [auto|]; split; [|split; auto];
        intros k Hk; split; [exact Hk|]; split; [|reflexivity]; apply list_lookup_insert_ne; congruence.
      pose proof (lookup_lt_Some _ _ _ Hst).
      split; [apply insert_length|]. split; [apply insert_length|]. split; [reflexivity|]. split; [auto|]. split; [|split].
      + intros k Hk. assert (Hne : k <> i) by congruence. rewrite !list_lookup_insert_ne by auto. auto.
      + intros k. destruct (Nat.eq_dec k i) as [->|Hne]; [|left; rewrite list_lookup_insert_ne; auto].
        right. left. rewrite list_lookup_insert by assumption. auto.
      + auto.
    - pose proof (lookup_lt_Some _ _ _ Hst).
      assert (Hvel : vel' = vel \/ exists v, vel' = <[i := v]> vel).
      { destruct isVel eqn:Ev; [right|left; auto].
        destruct (Hv2 eq_refl) as (s & s' & Ha & Hf & ->). destruct (finalise_shape _ _ _ Hf) as (v & ->).
        exists v. unfold abs in Ha. cbn. congruence. }
      split; [apply insert_length|]. split; [reflexivity|].
      split; [destruct Hvel as [->|[v ->]]; [reflexivity|apply insert_length]|]. split; [exact Hv1|]. split; [|split].
      + intros k Hk. assert (Hne : k <> i) by congruence. rewrite list_lookup_insert_ne by auto.
        split; [exact Hk|]. split; [reflexivity|]. destruct Hvel as [->|[v ->]]; [reflexivity|].
        apply list_lookup_insert_ne. auto.
      + intros k. destruct (Nat.eq_dec k i) as [->|Hne]; [|left; rewrite list_lookup_insert_ne; auto].
        right. right. rewrite list_lookup_insert by assumption. auto.
      + intros k. destruct (Nat.eq_dec k i) as [->|Hne].
        * right. rewrite list_lookup_insert by assumption. auto.
        * left. destruct Hvel as [->|[v ->]]; [reflexivity|]. apply list_lookup_insert_ne. auto.
  Qed.

  Lemma fsteps_keep a b : rtc fstep a b ->
    length b.1.1 = length a.1.1 /\ length b.1.2 = length a.1.2 /\ length b.2 = length a.2 /\
    (isVel = false -> b.2 = a.2) /\
    (forall i, a.1.1 !! i = Some F_FROZEN -> b.1.1 !! i = Some F_FROZEN /\ b.1.2 !! i = a.1.2 !! i /\ b.2 !! i = a.2 !! i) /\
    (forall i, isVel = true -> a.1.1 !! i = Some F_NONE -> b.1.1 !! i <> Some F_NONE -> active mesh i) /\
    (forall i, b.2 !! i = a.2 !! i \/ (a.1.1 !! i <> Some F_FROZEN /\ b.1.1 !! i = Some F_FROZEN)).
  Proof.
    induction 1 as [a|a b c Hs Hr IH].
    { repeat (split; [solve [auto]|]). split; [|auto]. intros i _ H1 H2. contradiction. }
    destruct a as [[st sd] vel], b as [[st1 sd1] vel1], c as [[st2 sd2] vel2]. cbn [fst snd] in *.
    destruct (fstep_keep _ _ _ _ _ _ Hs) as (A1 & A2 & A3 & A4 & A5 & A6 & A7).
    destruct IH as (B1 & B2 & B3 & B4 & B5 & B6 & B7).
    split; [congruence|]. split; [congruence|]. split; [congruence|]. split; [intros Hv; rewrite B4, A4; auto|].
    split; [|split].
    - intros i Hi. destruct (A5 i Hi) as (C1 & C2 & C3). destruct (B5 i C1) as (D1 & D2 & D3).
      split; [exact D1|]. split; congruence.
    - intros i Hv Hi Hn. destruct (A6 i) as [E|[(E1 & E2 & E3)|(E1 & _)]]; [|auto|congruence].
      apply (B6 i Hv); [congruence|exact Hn].
    - intros i. destruct (A7 i) as [E|(E1 & E2)].
      + destruct (B7 i) as [F|(F1 & F2)]; [left; congruence|]. right. split; [|exact F2].
        intros Hfr. apply F1. apply A5. exact Hfr.
      + right. split; [congruence|]. apply B5. exact E2.
  Qed.
End facts.

(** ** take_copy *)
Section api.
  Context {T : Type} `{NT : Num T}.
  Variables (W H : nat) (mesh : Mesh T).
  Hypothesis Ht : topo W H mesh.
  Notation N := (node_count W H).

  Lemma take_copy_ok c sd : length c = N -> length sd = N -> take_copy mesh c sd = Ok sd.
  Proof.
    intros Hc Hs. unfold take_copy. rewrite (tp_nN _ _ _ Ht).
    assert (G : wp False False (for_ N (fun i c => let! x := vget sd i in vset c i x) c) (fun c' => c' = sd)).
    { apply (wp_for _ _ (fun i c' => length c' = N /\ forall k, k < i -> c' !! k = sd !! k)).
      - split; [exact Hc|]. intros; lia.
      - intros i c' Hi (L & HI). apply wp_bind, wp_vget_lt; [lia|]. intros x Hx. apply wp_vset; [lia|].
        split; [rewrite insert_length; exact L|]. intros k Hk. destruct (Nat.eq_dec k i) as [->|Hne].
        + rewrite list_lookup_insert by lia. congruence.
        + rewrite list_lookup_insert_ne by auto. apply HI. lia.
      - intros c' (L & HI). apply list_eq. intros k. destruct (Nat.lt_ge_cases k N) as [Hk|Hk]; [auto|].
        rewrite !lookup_ge_None_2 by lia. reflexivity. }
    apply wp_total in G as (c' & -> & ->). reflexivity.
  Qed.

  (** A march object whose vectors have the right size and on which every status is NONE or FROZEN:
      a fresh object, or one that has completed a march. *)
  Record fobj (o : FmmObj T) : Prop := {
    fo_lp : length (fo_ptr o) = N;
    fo_ls : length (fo_status o) = N;
    fo_lc : length (fo_copy o) = N;
    fo_plain : Forall plain (fo_status o)
  }.
  Lemma fobj_new t : fobj (fmm_new mesh t).
  Proof.
    constructor; cbn [fmm_new fo_ptr fo_status fo_copy]; rewrite ?replicate_length; try apply (tp_nN _ _ _ Ht).
    apply Forall_replicate. left. reflexivity.
  Qed.
  Lemma fresh_none t i : i < N -> fo_status (fmm_new mesh t) !! i = Some F_NONE.
  Proof. intros Hi. cbn. apply lookup_replicate. rewrite (tp_nN _ _ _ Ht). auto. Qed.

  (** ** C12 *)
  Lemma march_safe o sd : fobj o -> length sd = N -> (fo_test o = true -> NumOrd T (fun _ => True)) ->
    wp (forall i, i < N -> ~ on_contour sd i /\ (fo_status o !! i = Some F_NONE -> ~ on_front W H sd i)) False
       (fmm_march mesh o sd) (fun '(o', sd') =>
          fobj o' /\ fo_test o' = fo_test o /\ length sd' = N /\ fo_status o' = replicate N F_FROZEN /\
          (exists st1 sd1 s, initialiseFrozen mesh sd (fo_status o) sd = Ok (st1, sd1) /\
             rtc (fstep W H mesh false sd) (st1, sd1, []) (abs s) /\ sd' = f_sd s)).
  Proof.
    intros [Lp Ls Lc Hp] Hl Ho. unfold fmm_march. rewrite take_copy_ok by assumption. cbn [obind].
    apply wp_bind. eapply wp_mono.
    { apply (march_core_inv W H mesh Ht false sd Hl (fo_test o) False); auto; discriminate. }
    { intros [[]|HN] i Hi. destruct (HN i Hi) as [Hz Hb].
      assert (Hz' : ~ on_contour sd i) by (rewrite <- zero_b_spec; congruence).
      split; [exact Hz'|]. intros Hst [Hc|Hc]; [exact (Hz' Hc)|].
      apply (border_b_front W H mesh Ht sd Hl i Hi) in Hc. rewrite Hb in Hc by exact Hst. discriminate. }
    { tauto. }
    intros s (st1 & sd1 & HF & I & R & C & Htr). apply wp_ok.
    pose proof (initialiseFrozen_spec W H mesh Ht sd Hl (fo_status o) sd Ls Hl Hp) as HI.
    rewrite HF in HI. cbn [wp] in HI. destruct HI as (L1 & Ld1 & (i0 & Hi0 & Hex) & HS & HD).
    destruct (fsteps_keep W H mesh false sd _ _ R) as (K1 & K2 & K3 & K4 & K5 & K6 & K7). cbn [fst snd abs] in *.
    assert (Hall : forall i, i < N -> f_status s !! i = Some F_FROZEN).
    { apply grid_connected.
      - exists i0. split; [exact Hi0|]. apply K5.
        destruct (lookup_lt_is_Some_2 (fo_status o) i0) as [s0 Hs0]; [lia|]. rewrite (HS i0 s0 Hs0).
        destruct Hex as [Hz|[Hn Hb]]; rewrite ?Hz, ?Hb, ?orb_true_r; reflexivity.
      - intros i j Hi Hj Hfr Hnb. destruct (lookup_lt_is_Some_2 (f_status s) (nb W H i j)) as [x Hx]; [rewrite (fi_ls _ _ _ _ _ I); exact Hnb|].
        destruct x; [|exact Hx| |].
        + destruct (C i j Hi Hj Hfr Hnb Hx) as [[]|[? _]]. discriminate.
        + exfalso. exact (Htr _ Hx).
        + exfalso. exact (fi_mask _ _ _ _ _ I _ Hx). }
    assert (HR : f_status s = replicate N F_FROZEN).
    { apply list_eq. intros i. destruct (Nat.lt_ge_cases i N) as [Hi|Hi].
      - rewrite Hall by exact Hi. symmetry. apply lookup_replicate. auto.
      - rewrite !lookup_ge_None_2; [reflexivity|rewrite replicate_length; lia|rewrite (fi_ls _ _ _ _ _ I); lia]. }
    split; [|split; [|split; [|split]]]; cbn [fo_test fo_status].
    - constructor; cbn [fo_ptr fo_status fo_copy]; [apply (fi_lp _ _ _ _ _ I)|apply (fi_ls _ _ _ _ _ I)|exact Hl|].
      rewrite HR. apply Forall_replicate. right. reflexivity.
    - reflexivity.
    - apply (fi_ld _ _ _ _ _ I).
    - exact HR.
    - exists st1, sd1, s. auto.
  Qed.

  (** If there is no front the march reports the documented error. *)
  Lemma march_no_front o sd : fobj o -> length sd = N ->
    (forall i, i < N -> ~ on_contour sd i /\ (fo_status o !! i = Some F_NONE -> ~ on_front W H sd i)) ->
    fmm_march mesh o sd = Exit /\ forall vel, fmm_march_vel mesh o sd vel = Exit.
  Proof.
    intros [Lp Ls Lc Hp] Hl HN. unfold fmm_march, fmm_march_vel. rewrite take_copy_ok by assumption. cbn [obind].
    assert (HE : initialiseFrozen mesh sd (fo_status o) sd = Exit).
    { pose proof (initialiseFrozen_spec W H mesh Ht sd Hl (fo_status o) sd Ls Hl Hp) as HI.
      destruct (initialiseFrozen mesh sd (fo_status o) sd) as [[st1 sd1]| | |]; cbn [wp] in HI; [exfalso|reflexivity|contradiction..].
      destruct HI as (_ & _ & (i & Hi & Hex) & _). destruct (HN i Hi) as [Hz Hf].
      destruct Hex as [Hz'|[Hn Hb]]; [apply zero_b_spec in Hz'; contradiction|].
      apply (Hf Hn). right. apply (border_b_front W H mesh Ht sd Hl i Hi). exact Hb. }
    unfold march_core. rewrite HE. cbn [obind]. auto.
  Qed.

  (** ** C13, generic part *)
  Lemma march_front_values t sd o' sd' : length sd = N ->
    fmm_march mesh (fmm_new mesh t) sd = Ok (o', sd') -> (t = true -> NumOrd T (fun _ => True)) ->
    forall i, i < N ->
      (on_contour sd i -> sd' !! i = sd !! i) /\
      (~ on_contour sd i -> on_front W H sd i -> sd' !! i = Some (border_new mesh sd i)).
  Proof.
    intros Hl Hm Ho i Hi.
    pose proof (march_safe (fmm_new mesh t) sd (fobj_new t) Hl Ho) as HM. rewrite Hm in HM. cbn [wp] in HM.
    destruct HM as (_ & _ & _ & _ & st1 & sd1 & s & HF & R & ->).
    destruct (fobj_new t) as [Lp Ls Lc Hp].
    pose proof (initialiseFrozen_spec W H mesh Ht sd Hl _ sd Ls Hl Hp) as HI. rewrite HF in HI. cbn [wp] in HI.
    destruct HI as (L1 & Ld1 & _ & HS & HD).
    destruct (fsteps_keep W H mesh false sd _ _ R) as (_ & _ & _ & _ & K5 & _). cbn [fst snd abs] in *.
    pose proof (HS i _ (fresh_none t i Hi)) as Hs. pose proof (HD i _ (fresh_none t i Hi)) as Hd. cbn [is_frozen is_none orb andb] in Hs, Hd.
    split.
    - intros Hc. apply zero_b_spec in Hc. rewrite Hc in Hs, Hd. cbn in Hd. cbn [orb] in Hs.
      destruct (K5 i Hs) as (_ & -> & _). exact Hd.
    - intros Hnc Hf. destruct (zero_b sd i) eqn:Hz; [apply zero_b_spec in Hz; contradiction|].
      assert (Hb : border_b mesh sd i = true).
      { apply (border_b_front W H mesh Ht sd Hl i Hi). destruct Hf; [contradiction|assumption]. }
      rewrite Hb in Hs, Hd. destruct (K5 i Hs) as (_ & -> & _). exact Hd.
  Qed.

  (** ** C15 *)
  Lemma march_vel_safe o sd vel : fobj o -> length sd = N -> length vel = N ->
    wp True False (fmm_march_vel mesh o sd vel) (fun '(o', sd', vel') =>
      fo_test o' = fo_test o /\ fobj o' /\ sd' = sd /\ length vel' = N /\
      (exists i, i < N /\ (on_contour sd i \/ (fo_status o !! i = Some F_NONE /\ on_front W H sd i))) /\
      (forall i, on_front W H sd i \/ inactive mesh i \/ fo_status o !! i = Some F_FROZEN -> vel' !! i = vel !! i) /\
      (forall i, i < N -> fo_status o' !! i = Some F_FROZEN \/ inactive mesh i \/ vel' !! i = vel !! i) /\
      exists st1 sd1 s, initialiseFrozen mesh sd (fo_status o) sd = Ok (st1, sd1) /\
             rtc (fstep W H mesh true sd) (st1, sd1, vel) (abs s) /\ vel' = f_vel s /\ fo_status o' = f_status s /\
             closed W H mesh true (fun _ _ => False) (f_status s)).
  Proof.
    intros [Lp Ls Lc Hp] Hl Hv. unfold fmm_march_vel. rewrite take_copy_ok by assumption. cbn [obind].
    apply wp_bind. eapply wp_mono.
    { apply (march_core_inv W H mesh Ht true sd Hl (fo_test o) True); auto. }
    { auto. }
    { tauto. }
    intros s (st1 & sd1 & HF & I & R & C & Htr). apply wp_ok.
    pose proof (initialiseFrozen_spec W H mesh Ht sd Hl (fo_status o) sd Ls Hl Hp) as HI.
    rewrite HF in HI. cbn [wp] in HI. destruct HI as (L1 & Ld1 & (i0 & Hi0 & Hex) & HS & HD).
    destruct (fsteps_keep W H mesh true sd _ _ R) as (K1 & K2 & K3 & K4 & K5 & K6 & K7). cbn [fst snd abs fo_test fo_status] in *.
    split; [reflexivity|]. split; [|split; [reflexivity|split; [congruence|split; [|split; [|split]]]]].
    - constructor; cbn [fo_ptr fo_status fo_copy]; [apply (fi_lp _ _ _ _ _ I)|apply (fi_ls _ _ _ _ _ I)|exact Hl|].
      apply Forall_lookup. intros i x Hx. destruct x; [left|right|exfalso; exact (Htr i Hx)|exfalso; exact (fi_mask _ _ _ _ _ I i Hx)]; reflexivity.
    - exists i0. split; [exact Hi0|]. destruct Hex as [Hz|[Hn Hb]]; [left; apply zero_b_spec; exact Hz|right].
      split; [exact Hn|]. apply (front_b W H mesh Ht sd Hl i0 Hi0). rewrite Hb, orb_true_r. reflexivity.
    - intros i Hor. destruct (Nat.lt_ge_cases i N) as [Hi|Hi]; [|rewrite !lookup_ge_None_2 by lia; reflexivity].
      destruct (lookup_lt_is_Some_2 (fo_status o) i) as [s0 Hs0]; [lia|]. pose proof (HS i s0 Hs0) as Hs.
      destruct (is_frozen s0 || zero_b sd i || border_b mesh sd i) eqn:Hb.
      { apply K5. exact Hs. }
      destruct Hor as [Hf|[Hin|Hfr]].
      + exfalso. apply (front_b W H mesh Ht sd Hl i Hi) in Hf. rewrite <- orb_assoc, Hf, orb_true_r in Hb. discriminate.
      + destruct (K7 i) as [E|(E1 & E2)]; [exact E|]. exfalso.
        destruct (K6 i eq_refl Hs) as (n & Hn & Ha); [congruence|]. destruct Hin as (n' & Hn' & Ha'). congruence.
      + exfalso. assert (s0 = F_FROZEN) by congruence. subst s0. discriminate.
    - intros i Hi. destruct (K7 i) as [E|(_ & E2)]; [right; right; exact E|left; exact E2].
    - exists st1, sd1, s. auto.
  Qed.
End api.

Section totals.
  Context {T : Type} {NT : Num T}.
  Lemma march_total W H (mesh : Mesh T) t sd : (t = true -> NumOrd T (fun _ => True)) ->
    topo W H mesh -> length sd = node_count W H ->
    (fmm_march mesh (fmm_new mesh t) sd = Exit <-> (forall i, i < node_count W H -> ~ on_front W H sd i)) /\
    ((exists i, i < node_count W H /\ on_front W H sd i) ->
       exists o' sd', fmm_march mesh (fmm_new mesh t) sd = Ok (o', sd') /\
         length sd' = length sd /\ fo_status o' = replicate (node_count W H) F_FROZEN).
  Proof.
    intros Ho Ht Hl. pose proof (march_safe W H mesh Ht (fmm_new mesh t) sd (fobj_new W H mesh Ht t) Hl Ho) as HM.
    assert (HX : fmm_march mesh (fmm_new mesh t) sd = Exit <-> (forall i, i < node_count W H -> ~ on_front W H sd i)).
    { split.
      - intros E. rewrite E in HM. cbn [wp] in HM. intros i Hi. destruct (HM i Hi) as [_ HF]. apply HF. apply (fresh_none W H mesh Ht t i Hi).
      - intros HN. apply (march_no_front W H mesh Ht); [apply fobj_new; exact Ht|exact Hl|].
        intros i Hi. split; [|intros _; apply HN; exact Hi]. intros Hc. apply (HN i Hi). left. exact Hc. }
    split; [exact HX|]. intros (i & Hi & Hf).
    destruct (fmm_march mesh (fmm_new mesh t) sd) as [[o' sd']| | |]; cbn [wp] in HM; [|exfalso|contradiction..].
    - destruct HM as (_ & _ & L & S & _). exists o', sd'. split; [reflexivity|]. split; [lia|exact S].
    - apply (proj1 HX eq_refl i Hi Hf).
  Qed.
  Lemma march_contour W H (mesh : Mesh T) : topo W H mesh -> forall sd o' sd', length sd = node_count W H ->
    fmm_march mesh (fmm_new mesh false) sd = Ok (o', sd') -> forall i, on_contour sd i -> sd' !! i = sd !! i.
  Proof.
    intros Ht sd o' sd' Hl Hm i Hc.
    assert (Hi : i < node_count W H). { destruct Hc as (c & Hc & _). apply lookup_lt_Some in Hc. lia. }
    apply (march_front_values W H mesh Ht false sd o' sd' Hl Hm); [discriminate|exact Hi|exact Hc].
  Qed.
  Lemma march_vel_frame W H (mesh : Mesh T) t sd vel :
    topo W H mesh -> length sd = node_count W H -> length vel = node_count W H ->
    fmm_march_vel mesh (fmm_new mesh t) sd vel = Exit \/
    exists o' vel', fmm_march_vel mesh (fmm_new mesh t) sd vel = Ok (o', sd, vel') /\ length vel' = length vel /\
      forall i, (on_front W H sd i \/ exists n, m_nodes mesh !! i = Some n /\ nd_active n = false) -> vel' !! i = vel !! i.
  Proof.
    intros Ht Hl Hv. pose proof (march_vel_safe W H mesh Ht (fmm_new mesh t) sd vel (fobj_new W H mesh Ht t) Hl Hv) as HM.
    destruct (fmm_march_vel mesh (fmm_new mesh t) sd vel) as [[[o' sd'] vel']| | |]; cbn [wp] in HM; [right|left; reflexivity|contradiction..].
    destruct HM as (_ & _ & -> & L & _ & HF & _). exists o', vel'. split; [reflexivity|]. split; [lia|].
    intros i [Hi|Hi]; apply HF; auto.
  Qed.
End totals.
