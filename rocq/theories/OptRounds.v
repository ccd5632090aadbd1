(** * OptRounds: the rounds of computeConstraintDistances, in exact arithmetic. *)

From Coq Require Import Reals Lra.
From Verif Require Import Num NumR LevelSetModel OptModel OptSpec OptFrame OptReal OptGrad OptSolve OptConstr.
Open Scope R_scope.

(** ** Moving the active entries of a vector to the front *)
Definition packed {A} (off : nat) (fl : list nat) (k : nat) (l l' : list A) : Prop :=
  length l' = length l /\ (forall b i, fl !! b = Some i -> l' !! (b + off)%nat = l !! (i + off)%nat) /\
  (forall j, (k <= j)%nat -> l' !! (j + off)%nat = l !! (j + off)%nat) /\ (forall j, (j < off)%nat -> l' !! j = l !! j).

Lemma packed_refl {A} off k (l : list A) : packed off [] k l l.
Proof. split; [reflexivity|]. split; [intros b i E; discriminate|]. split; reflexivity. Qed.
Lemma packed_skip {A} off fl k (l l' : list A) : packed off fl k l l' -> packed off fl (S k) l l'.
Proof. intros (L & F & K & O). split; [exact L|]. split; [exact F|]. split; [|exact O]. intros j Hj. apply K. lia. Qed.
Lemma packed_step {A} off fl k (l l' : list A) x : packed off fl k l l' -> (length fl <= k)%nat -> l' !! (k + off)%nat = Some x ->
  packed off (fl ++ [k]) (S k) l (<[(length fl + off)%nat := x]> l').
Proof.
  intros (L & F & K & O) Hk Hx. pose proof (lookup_lt_Some _ _ _ Hx) as Hl. split; [rewrite insert_length; exact L|]. split; [|split].
  - intros b i E. destruct (decide (b = length fl)) as [->|Hne].
    + rewrite lookup_app_r in E by lia. rewrite Nat.sub_diag in E. injection E as <-. rewrite list_lookup_insert by lia. rewrite <- K by lia. symmetry. exact Hx.
    + rewrite list_lookup_insert_ne by lia. apply F. apply lookup_app_Some in E as [E|[Hb E]]; [exact E|]. exfalso.
      assert (b - length fl < 1)%nat by (apply lookup_lt_Some in E; exact E). lia.
  - intros j Hj. rewrite list_lookup_insert_ne by lia. apply K. lia.
  - intros j Hj. rewrite list_lookup_insert_ne by lia. apply O. lia.
Qed.

Definition actives (active : list bool) (k : nat) : list nat := filter (fun i => active !! i = Some true) (seq 0 k).
Lemma actives_S active k : actives active (S k) = actives active k ++ (if decide (active !! k = Some true) then [k] else []).
Proof. unfold actives. rewrite seq_S, filter_app. reflexivity. Qed.
Lemma actives_le active k : (length (actives active k) <= k)%nat.
Proof. induction k as [|k IH]; [cbn; lia|]. rewrite actives_S, app_length. destruct (decide _); cbn; lia. Qed.
Lemma actives_elem active k i : i ∈ actives active k <-> (i < k)%nat /\ active !! i = Some true.
Proof. unfold actives. rewrite elem_of_list_filter, elem_of_seq. naive_solver lia. Qed.
Lemma actives_all active k : length (actives active k) = k -> forall i, (i < k)%nat -> active !! i = Some true.
Proof.
  induction k as [|k IH]; intros L i Hi; [lia|]. rewrite actives_S, app_length in L. pose proof (actives_le active k).
  destruct (decide (active !! k = Some true)) as [Hk|Hk]; cbn in L; [|lia]. destruct (decide (i = k)) as [->|]; [exact Hk|]. apply IH; lia.
Qed.

Record shift_inv (active : list bool) (o1 : Opt R) (k : nat) (s : Opt R * nat) : Prop := {
  si_a : snd s = length (actives active k);
  si_scale : packed 1 (actives active k) k (op_scale o1) (op_scale (fst s));
  si_neg : packed 1 (actives active k) k (op_neg o1) (op_neg (fst s));
  si_pos : packed 1 (actives active k) k (op_pos o1) (op_pos (fst s));
  si_index : packed 1 (actives active k) k (op_index o1) (op_index (fst s));
  si_dist : packed 0 (actives active k) k (op_dist o1) (op_dist (fst s));
  si_target : packed 0 (actives active k) k (op_target o1) (op_target (fst s));
  si_isEq : packed 0 (actives active k) k (op_isEq o1) (op_isEq (fst s))
}.
Lemma shift_packs active o1 k s : shift_inv active o1 k s -> post (shift_constraint active k s) (shift_inv active o1 (S k)).
Proof.
  destruct s as [o a]. intros []. cbn [fst snd] in *. pose proof (actives_le active k) as Le.
  unfold shift_constraint. apply post_bind, post_vget. intros b Hb. destruct b.
  - do 8 (apply post_bind, post_vget; intros ? ?; apply post_bind, post_vset_ins; intros ?). apply post_ok.
    assert (EA : actives active (S k) = actives active k ++ [k]).
    { rewrite actives_S. destruct (decide _); [reflexivity|contradiction]. }
    constructor; cbn [fst snd op_scale op_neg op_pos op_index op_dist op_target op_isEq]; rewrite EA.
    + rewrite app_length. cbn. lia.
    + subst a. apply packed_step; auto.
    + subst a. apply packed_step; auto.
    + subst a. apply packed_step; auto.
    + subst a. apply packed_step; auto.
    + subst a. rewrite <- (Nat.add_0_r (length _)). apply packed_step; rewrite ?Nat.add_0_r; auto.
    + subst a. rewrite <- (Nat.add_0_r (length _)). apply packed_step; rewrite ?Nat.add_0_r; auto.
    + subst a. rewrite <- (Nat.add_0_r (length _)). apply packed_step; rewrite ?Nat.add_0_r; auto.
  - apply post_ok.
    assert (EA : actives active (S k) = actives active k).
    { rewrite actives_S. destruct (decide _) as [E|]; [congruence|apply app_nil_r]. }
    constructor; cbn [fst snd]; rewrite EA; auto using packed_skip.
Qed.

(** ** Sub-lists *)
Lemma sublist_elem {A} (l k : list A) x : l `sublist_of` k -> x ∈ l -> x ∈ k.
Proof. intros S. induction S; intros Hx; [exact Hx| |right; auto]. apply elem_of_cons in Hx as [->|Hx]; [left|right; auto]. Qed.
Lemma sublist_NoDup {A} (l k : list A) : l `sublist_of` k -> NoDup k -> NoDup l.
Proof.
  intros S. induction S as [|x l k S IH|x l k S IH]; intros N; [exact N| |apply IH; inversion N; auto].
  apply NoDup_cons in N as [N1 N2]. apply NoDup_cons. split; [|auto]. intros Hx. apply N1. eapply sublist_elem; eassumption.
Qed.
Lemma sublist_map {A B} (f : A -> B) l k : l `sublist_of` k -> map f l `sublist_of` map f k.
Proof. intros S. induction S; cbn; constructor; auto. Qed.
Lemma sublist_filter {A} (P : A -> Prop) `{!forall x, Decision (P x)} l : filter P l `sublist_of` l.
Proof. induction l as [|x l IH]; [constructor|]. rewrite filter_cons. destruct (decide (P x)); constructor; exact IH. Qed.
Lemma lookup_map {A B} (f : A -> B) l i : map f l !! i = f <$> (l !! i).
Proof. apply list_lookup_fmap. Qed.
Lemma map_nth_seq {A} (d : A) l : map (fun i => nth i l d) (seq 0 (length l)) = l.
Proof.
  apply list_eq. intros i. destruct (decide (i < length l)%nat) as [L|L].
  - rewrite lookup_map, lookup_seq_lt by exact L. cbn.
    destruct (lookup_lt_is_Some_2 l i L) as [x Hx]. rewrite Hx. f_equal. apply nth_lookup_Some, Hx.
  - rewrite !lookup_ge_None_2; [reflexivity|lia|]. rewrite map_length, seq_length. lia.
Qed.
Lemma packed_sublist (l l' : list nat) fl n : packed 1 fl n l l' -> fl `sublist_of` seq 0 n -> length l = (n + 1)%nat ->
  resize (length fl + 1) 0%nat l' `sublist_of` l.
Proof.
  intros (L & F & _ & O) S Hl. pose proof (sublist_length _ _ S) as Lf. rewrite seq_length in Lf.
  assert (E : resize (length fl + 1) 0%nat l' = nth 0 l 0%nat :: map (fun i => nth i l 0%nat) (map Datatypes.S fl)).
  { apply list_eq. intros b. destruct (decide (b < length fl + 1)%nat) as [Lb|Lb].
    - rewrite lookup_resize by lia. destruct b as [|b].
      + rewrite O by lia. cbn. destruct l; cbn in *; [lia|reflexivity].
      + transitivity (map (fun i => nth i l 0%nat) (map Datatypes.S fl) !! b); [|reflexivity]. rewrite !lookup_map. destruct (lookup_lt_is_Some_2 fl b ltac:(lia)) as [i Hi]. rewrite Hi. cbn [option_fmap option_map].
        rewrite <- (Nat.add_1_r b), (F b i Hi), Nat.add_1_r. assert (i < n)%nat. { assert (i ∈ seq 0 n) by (eapply sublist_elem; [exact S|eapply elem_of_list_lookup_2, Hi]). apply elem_of_seq in H. lia. }
        destruct (lookup_lt_is_Some_2 l (Datatypes.S i) ltac:(lia)) as [x Hx]. rewrite Hx. symmetry. cbn. f_equal. apply nth_lookup_Some, Hx.
    - rewrite !lookup_ge_None_2; [reflexivity| |rewrite resize_length; lia]. cbn. rewrite !map_length. lia. }
  rewrite E. pose proof (map_nth_seq 0%nat l) as El. rewrite Hl, Nat.add_1_r in El. cbn [seq map] in El.
  refine (eq_ind _ (fun r => nth 0 l 0%nat :: map (fun i => nth i l 0%nat) (map Datatypes.S fl) `sublist_of` r) _ _ El). constructor.
  apply sublist_map. rewrite <- seq_shift. apply sublist_map, S.
Qed.

(** ** The state between the rounds *)
Section rounds.
  Variables (o0 : Opt R) (points : list (BoundaryPoint R)) (limit : R).
  Hypothesis Hpoints : op_points o0 = points.
  Hypothesis Hlimit : 0 < limit.
  Hypothesis Nd : forall p, p ∈ points -> bp_fixed p = false -> bp_domain p = false.

  Notation idx o j := (nth j (op_index o) 0%nat).
  Notation cap := (cap points limit).
  Notation stays := (stays points limit).
  Notation new_target := (new_target points limit).

  (** The entries of the constraint at position [a] are those of the constraint with the number in the index map. *)
  Record round_inv (o : Opt R) : Prop := {
    r_good : good o0 o;
    r_boxed : boxed points limit o;
    r_neg : length (op_neg o) = (op_n o + 1)%nat;
    r_pos : length (op_pos o) = (op_n o + 1)%nat;
    r_ldist : length (op_dist o) = op_n o;
    r_ltarget : length (op_target o) = op_n o;
    r_lisEq : length (op_isEq o) = op_n o;
    r_sub : op_index o `sublist_of` seq 0 (op_n0 o0 + 1);
    r_dist : forall a, (a < op_n o)%nat -> nth a (op_dist o) 0 = nth (idx o (a + 1) - 1) (op_dist o0) 0;
    r_isEq : forall a, (a < op_n o)%nat -> nth a (op_isEq o) false = nth (idx o (a + 1) - 1) (op_isEq o0) false;
    r_target : forall a, (a < op_n o)%nat -> nth a (op_target o) 0 = nth a (op_dist o) 0 \/ nth a (op_dist o) 0 < - cap o a \/ cap o a < nth a (op_dist o) 0;
    r_removed : forall k, (1 <= k <= op_n0 o0)%nat -> k ∉ op_index o -> nth (k - 1) (op_isEq o0) false = false /\
      99 / 100 * reach limit points (op_index o) k < nth (k - 1) (op_dist o0) 0
  }.

  Lemma r_NoDup o : round_inv o -> NoDup (op_index o).
  Proof. intros I. eapply sublist_NoDup; [apply I|]. apply NoDup_seq. Qed.
  Lemma idx_at o k : good o0 o -> (k < op_n o + 1)%nat -> op_index o !! k = Some (idx o k).
  Proof. intros G Hk. destruct (lookup_lt_is_Some_2 (op_index o) k) as [x Hx]; [rewrite (g_index _ _ G); exact Hk|]. rewrite Hx. f_equal. symmetry. apply nth_index, Hx. Qed.
  Lemma idx_pos o a : round_inv o -> (a < op_n o)%nat -> (1 <= idx o (a + 1) <= op_n0 o0)%nat.
  Proof.
    intros I Ha. pose proof (r_good _ I) as G. pose proof (idx_at o (a + 1) G ltac:(lia)) as E.
    assert (idx o (a + 1) ∈ seq 0 (op_n0 o0 + 1)) by (eapply sublist_elem; [apply I|eapply elem_of_list_lookup_2, E]).
    apply elem_of_seq in H. enough (idx o (a + 1) <> 0)%nat by lia. intros Z. rewrite Z in E.
    pose proof (NoDup_lookup _ _ _ _ (r_NoDup o I) E (g_zero _ _ G)). lia.
  Qed.

  (** What the rounds end with. *)
  Definition settled (o : Opt R) : Prop := good o0 o /\ op_index o `sublist_of` seq 0 (op_n0 o0 + 1) /\
    length (op_target o) = op_n o /\
    (forall k, (1 <= k <= op_n0 o0)%nat -> (k ∈ op_index o <->
      nth (k - 1) (op_isEq o0) false = true \/ nth (k - 1) (op_dist o0) 0 <= 99 / 100 * reach limit points (op_index o) k)) /\
    (forall a k, op_index o !! S a = Some k -> let c := 99 / 100 * reach limit points (op_index o) k in
      nth a (op_target o) 0 = Rmax (- c) (Rmin c (nth (k - 1) (op_dist o0) 0))).

  (** The first loop of a round. *)
  Lemma round_targets o : round_inv o ->
    post (for_ (op_n o) (fun i s => let '(o', active) := s in let! (o', b) := one_constraint (op_n o + 1) i o' in Ok (o', active ++ [b])) (o, []))
      (fun s => let '(o', active) := s in good o0 o' /\ o' = set_otarget (op_target o') (set_disp (op_disp o') o) /\
        active = map (stays o) (seq 0 (op_n o)) /\ length (op_target o') = op_n o /\
        forall j, (j < op_n o)%nat -> nth j (op_target o') 0 = new_target o j (nth j (op_target o) 0)).
  Proof.
    intros I. pose proof (r_good _ I) as G. eapply post_impl; [apply (for_post_i (fun k s => let '(o', active) := s in good o0 o' /\
        o' = set_otarget (op_target o') (set_disp (op_disp o') o) /\ active = map (stays o) (seq 0 k) /\ length (op_target o') = op_n o /\
        forall j, nth j (op_target o') 0 = if decide (j < k)%nat then new_target o j (nth j (op_target o) 0) else nth j (op_target o) 0))|].
    - intros k [o' ac] Hk (G' & E & A & L & D).
      assert (En : op_n o' = op_n o) by (rewrite E; reflexivity). assert (Ei : op_index o' = op_index o) by (rewrite E; reflexivity).
      assert (Ed : op_dist o' = op_dist o) by (rewrite E; reflexivity). assert (Eq : op_isEq o' = op_isEq o) by (rewrite E; reflexivity).
      apply post_bind. rewrite <- En. eapply post_impl; [apply (one_real o0 points limit Hpoints Hlimit Nd k o' G')|].
      + intros j Hj. rewrite E. cbn. apply (r_boxed _ I). rewrite En in Hj. exact Hj.
      + rewrite Eq, (r_lisEq _ I). exact Hk.
      + intros [o2 b] (G2 & E2 & Hb & L2 & D2). apply post_ok. split; [exact G2|]. split; [rewrite E2, E; reflexivity|].
        assert (Sk : OptConstr.stays points limit o' k = stays o k) by (unfold OptConstr.stays, OptConstr.cap; rewrite Ei, Ed, Eq; reflexivity).
        split; [rewrite seq_S, map_app, A, Hb, Sk; reflexivity|]. split; [congruence|]. intros j. rewrite D2, !D.
        destruct (decide (j = k)) as [->|Hne].
        * destruct (decide (k < k)%nat); [lia|]. destruct (decide (k < S k)%nat); [|lia].
          unfold OptConstr.new_target, OptConstr.cap. rewrite Ei, Ed, Eq. reflexivity.
        * destruct (decide (j < k)%nat), (decide (j < S k)%nat); try lia; reflexivity.
    - split; [exact G|]. split; [destruct o; reflexivity|]. split; [reflexivity|]. split; [apply I|]. intros j. destruct (decide _); [lia|reflexivity].
    - intros [o' ac] (G' & E & A & L & D). split; [exact G'|]. split; [exact E|]. split; [exact A|]. split; [exact L|]. intros j Hj. rewrite D.
      destruct (decide _); [reflexivity|lia].
  Qed.

  Lemma cap_mono o o' a a' : NoDup (op_index o') -> (forall j, j ∈ op_index o' -> j ∈ op_index o) -> idx o' (a' + 1) = idx o (a + 1) -> cap o' a' <= cap o a.
  Proof. intros N S E. unfold OptConstr.cap. rewrite E. pose proof (reach_incl limit points _ _ (idx o (a + 1)) Hlimit N S). lra. Qed.

  (** A round after which every constraint stays. *)
  Lemma round_last o o1 : round_inv o -> good o0 o1 -> o1 = set_otarget (op_target o1) (set_disp (op_disp o1) o) -> length (op_target o1) = op_n o ->
    (forall j, (j < op_n o)%nat -> nth j (op_target o1) 0 = new_target o j (nth j (op_target o) 0)) ->
    (forall j, (j < op_n o)%nat -> stays o j = true) -> settled o1.
  Proof.
    intros I G1 E1 L1 D1 A. pose proof (r_good _ I) as G.
    assert (Ei : op_index o1 = op_index o) by (rewrite E1; reflexivity). assert (En : op_n o1 = op_n o) by (rewrite E1; reflexivity).
    split; [exact G1|]. rewrite Ei, En. split; [apply I|]. split; [exact L1|].
    assert (Pos : forall k, (1 <= k)%nat -> k ∈ op_index o -> exists a, (a < op_n o)%nat /\ k = idx o (a + 1)).
    { intros k Hk Hin. apply elem_of_list_lookup in Hin as [i Hi]. pose proof (lookup_lt_Some _ _ _ Hi) as Li. rewrite (g_index _ _ G) in Li.
      destruct i as [|a]; [rewrite (g_zero _ _ G) in Hi; injection Hi as <-; lia|]. exists a. split; [lia|]. rewrite Nat.add_1_r. symmetry. apply nth_index, Hi. }
    split.
    - intros k Hk. split.
      + intros Hin. destruct (Pos k ltac:(lia) Hin) as (a & Ha & ->). specialize (A a Ha). unfold OptConstr.stays in A.
        rewrite (r_isEq _ I a Ha), (r_dist _ I a Ha) in A. apply orb_prop in A as [A|A]; [left; exact A|right]. apply Rleb_true in A. exact A.
      + intros Hst. destruct (decide (k ∈ op_index o)) as [|Hn]; [assumption|]. destruct (r_removed _ I k Hk Hn) as [Q B]. destruct Hst as [Hst|Hst]; [congruence|lra].
    - intros a k Hk. pose proof (lookup_lt_Some _ _ _ Hk) as La. rewrite (g_index _ _ G) in La. assert (Ha : (a < op_n o)%nat) by lia. cbn zeta.
      assert (Ek : idx o (a + 1) = k) by (rewrite Nat.add_1_r; apply nth_index, Hk). rewrite D1 by exact Ha.
      replace (99 / 100 * reach limit points (op_index o) k) with (cap o a) by (unfold OptConstr.cap; rewrite Ek; reflexivity).
      rewrite <- Ek, <- (r_dist _ I a Ha). specialize (A a Ha). unfold OptConstr.stays in A. unfold OptConstr.new_target.
      pose proof (r_target _ I a Ha) as Tg. pose proof (cap_pos points limit Hlimit o a) as Cp.
      set (d := nth a (op_dist o) 0) in *. set (c := cap o a) in *.
      destruct (Rltb_spec d 0) as [B|B].
      + destruct (Rltb_spec d (- c)) as [B'|B'].
        * rewrite Rmin_right, Rmax_left by lra. reflexivity.
        * rewrite Rmin_right, Rmax_right by lra. lra.
      + destruct (Rltb_spec c d) as [B'|B'].
        * replace (Rleb d c) with false in A by (symmetry; apply Rleb_false; lra). rewrite orb_false_r in A. rewrite A.
          rewrite Rmin_left, Rmax_right by lra. reflexivity.
        * rewrite Rmin_right, Rmax_right by lra. lra.
  Qed.

  (** A round that removes some constraints. *)
  Lemma round_next o o1 active o2 a : round_inv o -> good o0 o1 -> o1 = set_otarget (op_target o1) (set_disp (op_disp o1) o) -> length (op_target o1) = op_n o ->
    (forall j, (j < op_n o)%nat -> nth j (op_target o1) 0 = new_target o j (nth j (op_target o) 0)) ->
    active = map (stays o) (seq 0 (op_n o)) -> shifted o1 (op_n o) (o2, a) -> shift_inv active o1 (op_n o) (o2, a) -> (a < op_n o)%nat ->
    round_inv (cut_constraints a o2).
  Proof.
    intros I G1 E1 L1 D1 A Sh Pk Ha. pose proof (r_good _ I) as G. pose proof (r_NoDup o I) as N.
    destruct Pk as [Pa Ps Pn Pp Pi Pd Pt Pq]. cbn [fst snd] in *. destruct Sh as [S1 S2 S3 S4 S5 S6 S7 S8 S9 S10 S11 S12]. cbn [fst snd] in *.
    assert (Ei : op_index o1 = op_index o) by (rewrite E1; reflexivity). assert (En : op_n o1 = op_n o) by (rewrite E1; reflexivity).
    assert (Ed : op_dist o1 = op_dist o) by (rewrite E1; reflexivity). assert (Eq : op_isEq o1 = op_isEq o) by (rewrite E1; reflexivity).
    assert (Es : op_scale o1 = op_scale o) by (rewrite E1; reflexivity). assert (Eng : op_neg o1 = op_neg o) by (rewrite E1; reflexivity).
    assert (Ep : op_pos o1 = op_pos o) by (rewrite E1; reflexivity).
    set (fl := actives active (op_n o)) in *.
    assert (Fl : forall b, (b < a)%nat -> exists i, fl !! b = Some i /\ (i < op_n o)%nat /\ stays o i = true).
    { intros b Hb. destruct (lookup_lt_is_Some_2 fl b ltac:(lia)) as [i Hi]. exists i. split; [exact Hi|].
      apply elem_of_list_lookup_2, actives_elem in Hi as [Hi1 Hi2]. split; [exact Hi1|]. rewrite A in Hi2.
      rewrite lookup_map, lookup_seq_lt in Hi2 by exact Hi1.
      cbn in Hi2. congruence. }
    assert (Sub : resize (a + 1) 0%nat (op_index o2) `sublist_of` op_index o).
    { rewrite <- Ei, Pa. apply (packed_sublist _ _ fl (op_n o)); [exact Pi|apply sublist_filter|]. rewrite (g_index _ _ G1). lia. }
    set (o3 := cut_constraints a o2). change (resize (a + 1) 0%nat (op_index o2)) with (op_index o3) in Sub.
    assert (N3 : NoDup (op_index o3)) by (eapply sublist_NoDup; eassumption).
    assert (In3 : forall j, j ∈ op_index o3 -> j ∈ op_index o) by (intros j; apply sublist_elem, Sub).
    assert (R1 : forall {X} (d : X) l l' b i, packed 1 fl (op_n o) l l' -> fl !! b = Some i -> (b < a)%nat -> (a <= op_n o)%nat -> length l = (op_n o + 1)%nat ->
      nth (b + 1) (resize (a + 1) d l') d = nth (i + 1) l d).
    { intros X d l l' b i (Hl & F & _ & _) Hb Hb1 Ha1 Ll. rewrite !nth_lookup, lookup_resize by lia. rewrite (F b i Hb). reflexivity. }
    assert (R0 : forall {X} (d : X) l l' b i, packed 0 fl (op_n o) l l' -> fl !! b = Some i -> (b < a)%nat -> (a <= op_n o)%nat -> length l = op_n o ->
      nth b (resize a d l') d = nth i l d).
    { intros X d l l' b i (Hl & F & _ & _) Hb Hb1 Ha1 Ll. rewrite !nth_lookup, lookup_resize by lia. specialize (F b i Hb). rewrite !Nat.add_0_r in F. rewrite F. reflexivity. }
    assert (Z3 : forall l l' : list R, packed 1 fl (op_n o) l l' -> length l = (op_n o + 1)%nat -> nth 0 (resize (a + 1) 0 l') 0 = nth 0 l 0).
    { intros l l' (Hl & _ & _ & O) Ll. rewrite !nth_lookup, lookup_resize by lia. rewrite O by lia. reflexivity. }
    assert (Ls : length (op_scale o1) = (op_n o + 1)%nat) by (rewrite (g_scale _ _ G1); lia).
    assert (Lx : length (op_index o1) = (op_n o + 1)%nat) by (rewrite (g_index _ _ G1); lia).
    assert (Ix : forall b i, fl !! b = Some i -> (b < a)%nat -> idx o3 (b + 1) = idx o (i + 1)).
    { intros b i Hb Hba. unfold o3. cbn [op_index cut_constraints]. rewrite (R1 _ 0%nat _ _ b i Pi) by (auto; lia). rewrite Ei. reflexivity. }
    assert (I0 : idx o3 0 = idx o 0).
    { unfold o3. cbn [op_index cut_constraints]. destruct Pi as (_ & _ & _ & O). rewrite !nth_lookup, lookup_resize by lia. rewrite O, Ei by lia. reflexivity. }
    assert (G3 : good o0 o3).
    { destruct G1. constructor; cbn; try congruence; rewrite ?resize_length; auto.
      - lia.
      - rewrite lookup_resize by lia. congruence.
      - intros E. lia.
      - intros i p Hp Hf. rewrite S7. apply g_fixed with p; auto. }
    constructor; try exact G3.
    - intros [|j] Hj; change (op_n o3) with a in Hj.
      + rewrite I0. unfold o3; cbn [op_scale op_pos op_neg cut_constraints]. change (n0 : R) with 0. rewrite (Z3 _ _ Ps Ls), (Z3 _ _ Pp), (Z3 _ _ Pn) by (rewrite ?Ep, ?Eng; apply I).
        rewrite Es, Ep, Eng. apply (r_boxed _ I). lia.
      + destruct (Fl j ltac:(lia)) as (i & Hi & Hi1 & _). rewrite <- Nat.add_1_r. rewrite (Ix j i) by (auto; lia).
        unfold o3; cbn [op_scale op_pos op_neg cut_constraints]. change (n0 : R) with 0. rewrite (R1 _ 0 _ _ j i Ps), (R1 _ 0 _ _ j i Pp), (R1 _ 0 _ _ j i Pn) by (auto; try lia; rewrite ?Ep, ?Eng; apply I).
        rewrite Es, Ep, Eng. apply (r_boxed _ I). lia.
    - cbn. apply resize_length.
    - cbn. apply resize_length.
    - cbn. apply resize_length.
    - cbn. apply resize_length.
    - cbn. apply resize_length.
    - etransitivity; [exact Sub|apply I].
    - intros b Hb. change (op_n o3) with a in Hb. destruct (Fl b Hb) as (i & Hi & Hi1 & _). rewrite (Ix b i) by auto.
      unfold o3; cbn [op_dist cut_constraints]. change (n0 : R) with 0. rewrite (R0 _ 0 _ _ b i Pd) by (auto; try lia; rewrite Ed; apply I). rewrite Ed. apply (r_dist _ I), Hi1.
    - intros b Hb. change (op_n o3) with a in Hb. destruct (Fl b Hb) as (i & Hi & Hi1 & _). rewrite (Ix b i) by auto.
      unfold o3; cbn [op_isEq cut_constraints]. rewrite (R0 _ false _ _ b i Pq) by (auto; try lia; rewrite Eq; apply I). rewrite Eq. apply (r_isEq _ I), Hi1.
    - intros b Hb. change (op_n o3) with a in Hb. destruct (Fl b Hb) as (i & Hi & Hi1 & _). pose proof (cap_mono o o3 i b N3 In3 (Ix b i Hi Hb)) as Cm.
      unfold o3; cbn [op_dist op_target cut_constraints]. change (n0 : R) with 0. rewrite (R0 _ 0 _ _ b i Pd) by (auto; try lia; rewrite Ed; apply I). rewrite (R0 _ 0 _ _ b i Pt) by (auto; lia).
      rewrite Ed, D1 by exact Hi1. pose proof (r_target _ I i Hi1) as Tg. unfold OptConstr.new_target. set (d := nth i (op_dist o) 0) in *.
      fold o3. destruct (Rltb_spec d 0); [destruct (Rltb_spec d (- cap o i))|destruct (Rltb_spec (cap o i) d)]; lra.
    - intros k Hk Hn. destruct (decide (k ∈ op_index o)) as [Hin|Hin].
      + apply elem_of_list_lookup in Hin as [j Hj]. pose proof (lookup_lt_Some _ _ _ Hj) as Lj. rewrite (g_index _ _ G) in Lj.
        destruct j as [|i]; [rewrite (g_zero _ _ G) in Hj; injection Hj as <-; lia|]. assert (Hi : (i < op_n o)%nat) by lia.
        assert (Ek : idx o (i + 1) = k) by (rewrite Nat.add_1_r; apply nth_index, Hj).
        assert (St : stays o i = false).
        { apply not_true_is_false. intros St. apply Hn. assert (Hf : i ∈ fl).
          { apply actives_elem. split; [exact Hi|]. rewrite A. rewrite lookup_map, lookup_seq_lt by exact Hi. cbn. rewrite St. reflexivity. }
          apply elem_of_list_lookup in Hf as [b Hb]. assert (Hba : (b < a)%nat) by (rewrite Pa; eapply lookup_lt_Some, Hb).
          rewrite <- Ek, <- (Ix b i Hb Hba). eapply elem_of_list_lookup_2, idx_at; [exact G3|]. cbn. lia. }
        unfold OptConstr.stays in St. apply orb_false_iff in St as [Q B]. rewrite (r_isEq _ I i Hi), Ek in Q. rewrite (r_dist _ I i Hi), Ek in B.
        apply Rleb_false in B. unfold OptConstr.cap in B. rewrite Ek in B. split; [exact Q|].
        pose proof (reach_incl limit points _ _ k Hlimit N3 In3). lra.
      + destruct (r_removed _ I k Hk Hin) as [Q B]. split; [exact Q|]. pose proof (reach_incl limit points _ _ k Hlimit N3 In3). lra.
  Qed.

  (** All the constraints gone. *)
  Lemma round_none o : round_inv o -> op_n o = 0%nat -> settled o.
  Proof.
    intros I Z. pose proof (r_good _ I) as G. split; [exact G|]. split; [apply I|]. split; [apply I|].
    assert (E : op_index o = [0%nat]).
    { pose proof (g_index _ _ G) as L. pose proof (g_zero _ _ G) as Z0. rewrite Z in L. destruct (op_index o) as [|x [|y l]]; cbn in *; try lia. congruence. }
    split.
    - intros k Hk. split.
      + rewrite E. intros Hin. apply elem_of_list_singleton in Hin. lia.
      + intros Hst. destruct (decide (k ∈ op_index o)) as [|Hn]; [assumption|]. destruct (r_removed _ I k Hk Hn) as [Q B]. destruct Hst as [Hst|Hst]; [congruence|lra].
    - intros a k Hk. rewrite E in Hk. discriminate.
  Qed.

  Lemma rounds_settle fuel : forall o, round_inv o -> post (computeConstraintDistances fuel (op_n o) o) settled.
  Proof.
    induction fuel as [|fuel IH]; intros o I; [intros ? E; discriminate|]. cbn [computeConstraintDistances].
    destruct (32 <=? op_n o + 1)%nat; [intros ? E; discriminate|]. apply post_bind.
    eapply post_impl; [apply (round_targets o I)|]. intros [o1 active] (G1 & E1 & A & L1 & D1).
    assert (En : op_n o1 = op_n o) by (rewrite E1; reflexivity).
    apply post_bind. intros [o2 a] E2.
    assert (S2 : shifted o1 (op_n o) (o2, a)).
    { revert E2. apply (for_post_i (shifted o1)); [|constructor; cbn; auto]. intros k s _ S. apply shift_shifted, S. }
    assert (P2 : shift_inv active o1 (op_n o) (o2, a)).
    { revert E2. apply (for_post_i (shift_inv active o1)); [intros k s _ S; apply shift_packs, S|].
      constructor; cbn [fst snd]; [reflexivity|..]; apply packed_refl. }
    pose proof (sh_n _ _ _ S2) as N2. pose proof (sh_le _ _ _ S2) as Le. cbn [fst snd] in N2, Le. rewrite N2, En.
    destruct (Nat.ltb_spec a (op_n o)) as [Lt|Ge].
    - pose proof (round_next o o1 active o2 a I G1 E1 L1 D1 A S2 P2 Lt) as I3. rewrite andb_true_r.
      destruct (Nat.ltb_spec 0 a) as [Pos|Zero]; [apply IH, I3|]. apply post_ok, round_none; [exact I3|]. cbn. lia.
    - rewrite andb_false_r. apply post_ok. assert (a = op_n o) by lia. subst a. pose proof (sh_all _ _ _ S2 eq_refl) as E3. cbn in E3. subst o2.
      apply (round_last o); auto. pose proof (si_a _ _ _ _ P2) as La. cbn in La. intros j Hj.
      pose proof (actives_all active (op_n o) (eq_sym La) j Hj) as Hs. rewrite A, lookup_map, lookup_seq_lt in Hs by exact Hj. cbn in Hs. congruence.
  Qed.
End rounds.

(** ** The ranges of the multipliers *)
Lemma minDouble_real : (nminDouble : R) = / 2 ^ 1022.
Proof.
  unfold nminDouble. change (nlit 1 (2 ^ 1000) : R) with (1 / IZR (2 ^ 1000)). change (nlit 1 (2 ^ 22) : R) with (1 / IZR (2 ^ 22)).
  change (1 / IZR (2 ^ 1000) * (1 / IZR (2 ^ 22)) = / 2 ^ 1022). replace (2 ^ 1022) with (2 ^ 1000 * 2 ^ 22) by (rewrite <- pow_add; f_equal).
  replace (IZR (2 ^ 1000)) with (2 ^ 1000) by (change 1000%Z with (Z.of_nat 1000); rewrite <- pow_IZR; reflexivity).
  replace (IZR (2 ^ 22)) with (2 ^ 22) by (change 22%Z with (Z.of_nat 22); rewrite <- pow_IZR; reflexivity).
  rewrite Rinv_mult. unfold Rdiv. rewrite !Rmult_1_l. reflexivity.
Qed.

Lemma largest_le k points p : p ∈ points -> bp_fixed p = false -> Rabs (nth k (bp_sens p) 0) <= largest k points.
Proof.
  unfold largest. induction points as [|q ps IH]; intros Hp Hf; [inversion Hp|]. cbn [map fold_right]. apply elem_of_cons in Hp as [<-|Hp].
  - rewrite Hf. apply Rmax_l.
  - eapply Rle_trans; [apply IH; assumption|apply Rmax_r].
Qed.
Lemma largest_lub k points m : 0 <= m -> (forall p, p ∈ points -> bp_fixed p = false -> Rabs (nth k (bp_sens p) 0) <= m) -> largest k points <= m.
Proof.
  intros Hm. unfold largest. induction points as [|q ps IH]; intros B; cbn [map fold_right]; [exact Hm|]. apply Rmax_lub.
  - destruct (bp_fixed q) eqn:Hf; [exact Hm|]. apply B; [left|exact Hf].
  - apply IH. intros p Hp. apply B. right. exact Hp.
Qed.
Lemma max_sens_largest points k : post (max_sens points k (nminDouble : R)) (fun m => m = Rmax (/ 2 ^ 1022) (largest k points)).
Proof.
  rewrite minDouble_real. eapply post_impl; [apply max_sens_real|]. pose proof tiny_pos as Tp. set (t := / 2 ^ 1022) in *. clearbody t. intros m (A & B & C).
  assert (L : largest k points <= m) by (apply largest_lub; [lra|exact B]). destruct C as [->|(p & Hp & Hf & ->)].
  - rewrite Rmax_left by exact L. reflexivity.
  - pose proof (largest_le k points p Hp Hf). rewrite Rmax_right by lra. lra.
Qed.

Lemma limits_real o0 o fuel : good o0 o -> (forall k, (k < op_n o + 1)%nat -> 0 < nth k (op_scale o) 0) -> length (op_neg o) = (op_n o + 1)%nat -> length (op_pos o) = (op_n o + 1)%nat ->
  post (computeLambdaLimits fuel o) (fun o' => boxed (op_points o0) (op_limit o0) o' /\ length (op_neg o') = (op_n o' + 1)%nat /\ length (op_pos o') = (op_n o' + 1)%nat).
Proof.
  intros G P Ln Lp. unfold computeLambdaLimits.
  eapply post_impl; [apply (for_post_i (fun j o' => good o0 o' /\ o' = set_limits (op_neg o') (op_pos o') (op_lambdas o') o /\
    length (op_neg o') = (op_n o + 1)%nat /\ length (op_pos o') = (op_n o + 1)%nat /\ forall k, (k < j)%nat ->
      nth k (op_scale o) 0 * nth k (op_pos o') 0 = lambda_range (op_limit o0) (op_points o0) (nth k (op_index o) 0%nat) /\
      nth k (op_scale o) 0 * nth k (op_neg o') 0 = - lambda_range (op_limit o0) (op_points o0) (nth k (op_index o) 0%nat)))|].
  - intros j o' Hj (G' & E & Ln' & Lp' & D). unfold lambda_limit.
    assert (Ei : op_index o' = op_index o) by (rewrite E; reflexivity). assert (Es : op_scale o' = op_scale o) by (rewrite E; reflexivity).
    apply post_bind, post_vget. intros k Hk. rewrite Ei in Hk. apply nth_index in Hk. apply post_bind. rewrite (g_points _ _ G').
    eapply post_impl; [apply max_sens_largest|]. intros m Hm. apply post_bind. rewrite Es. apply vget_nth. rewrite (g_limit _ _ G').
    apply post_bind, post_vset_ins. intros L1. apply post_bind, post_vset_ins. intros L2. do 3 (apply post_bind, post_any; intros ?).
    apply post_bind, post_vset_ins. intros L3. apply post_ok.
    split; [apply good_limits; [exact G'|rewrite insert_length; apply G']|]. split; [rewrite E; reflexivity|].
    cbn [op_neg op_pos set_limits]. rewrite !insert_length. split; [exact Ln'|]. split; [exact Lp'|]. intros i Hi.
    rewrite !nth_insert by assumption. destruct (decide (i = j)) as [->|Hne]; [|apply D; lia]. rewrite Hk. unfold lambda_range. rewrite <- Hm.
    assert (0 < nth j (op_scale o) 0) by (apply P; lia). assert (0 < m) by (rewrite Hm; eapply Rlt_le_trans; [apply tiny_pos|apply Rmax_l]).
    clear Hm. cbn [ndiv nneg NumR]. split; field; lra.
  - split; [exact G|]. split; [destruct o; reflexivity|]. split; [exact Ln|]. split; [exact Lp|]. intros k Hk. lia.
  - intros o' (G' & E & Ln' & Lp' & D). replace (op_n o') with (op_n o) by (rewrite E; reflexivity). split; [|auto].
    intros j Hj. replace (op_scale o') with (op_scale o) by (rewrite E; reflexivity). replace (op_index o') with (op_index o) by (rewrite E; reflexivity).
    apply D. rewrite E in Hj. exact Hj.
Qed.

(** ** What prepare decides about the constraints *)
Lemma start_round points dist lambdas time limit isMax isEq fuel (o : Opt R) : optimise_ctor points dist lambdas time limit isMax isEq = Ok o ->
  (forall k, (k < length lambdas)%nat -> sensitive k points) -> isEq = [] \/ length isEq = length dist ->
  forall o2 la o3, computeScaleFactors (set_index (seq 0 (op_n o + 1)) (set_disp (resize (length (op_points o)) n0 (op_disp o)) o)) = Ok o2 ->
  for_ (op_n o2 + 1) (fun i la => let! x := vget la i in let! c := vget (op_scale o2) i in vset la i (x / c)%num) (op_lambdas o2) = Ok la ->
  computeLambdaLimits fuel (set_lambdas la o2) = Ok o3 -> round_inv o points limit o3 /\ op_n o3 = op_n o.
Proof.
  intros E S Le o2 la o3 Eo2 Ela E3. pose proof (start_good _ _ _ _ _ _ _ _ E) as G. set (o1 := set_index _ _) in *.
  pose proof (ctor_inv _ _ _ _ _ _ _ _ E) as (Hl & _ & _ & Ln & Eo). apply (proj1 (Rltb_true _ _)) in Hl. change (0 < limit) in Hl.
  pose proof (scale_good o o1 G _ Eo2) as [G2 E2].
  assert (P2 : forall k, (k < op_n o1 + 1)%nat -> 0 < nth k (op_scale o2) 0).
  { refine (proj2 (proj2 (scale_real o o1 G eq_refl _ _ Eo2))). rewrite Eo. intros k Hk. apply S. rewrite Ln. unfold o1 in Hk. rewrite Eo in Hk. cbn in Hk. lia. }
  assert (L : length la = (op_n o2 + 1)%nat).
  { refine (proj1 (for_map_ext _ (fun i x => let! c := vget (op_scale o2) i in Ok (x / c)%num) _ _ _ _ _ Ela)); [apply G2|].
    intros i l. destruct (vget l i); cbn [obind]; auto. rewrite obind_assoc. reflexivity. }
  set (o2' := set_lambdas la o2) in E3.
  assert (G2' : good o o2') by (apply good_lambdas; [exact G2|exact L]).
  pose proof (limits_good o fuel o2' G2' _ E3) as [G3 E3'].
  assert (En : op_n o2' = op_n o) by (unfold o2'; rewrite E2; reflexivity).
  assert (Bx : boxed points limit o3 /\ length (op_neg o3) = (op_n o3 + 1)%nat /\ length (op_pos o3) = (op_n o3 + 1)%nat).
  { replace points with (op_points o) by (rewrite Eo; reflexivity). replace limit with (op_limit o) by (rewrite Eo; reflexivity).
    refine (limits_real o o2' fuel G2' _ _ _ _ E3).
    - rewrite En. exact P2.
    - rewrite En. unfold o2'. rewrite E2. unfold o1. rewrite Eo. cbn. rewrite replicate_length. reflexivity.
    - rewrite En. unfold o2'. rewrite E2. unfold o1. rewrite Eo. cbn. rewrite replicate_length. reflexivity. }
  destruct Bx as (Bx & B1 & B2).
  assert (En3 : op_n o3 = op_n o) by (rewrite E3'; exact En).
  assert (Ei3 : op_index o3 = seq 0 (op_n o + 1)) by (rewrite E3'; unfold o2'; rewrite E2; reflexivity).
  assert (Ed3 : op_dist o3 = op_dist o) by (rewrite E3'; unfold o2'; rewrite E2; reflexivity).
  assert (Et3 : op_target o3 = op_dist o) by (rewrite E3'; unfold o2'; rewrite E2; unfold o1; rewrite Eo; reflexivity).
  assert (Eq3 : op_isEq o3 = op_isEq o) by (rewrite E3'; unfold o2'; rewrite E2; reflexivity).
  assert (N0 : op_n o = op_n0 o) by (rewrite Eo; reflexivity).
  assert (Ld : length (op_dist o) = op_n o) by (rewrite Eo; reflexivity).
  split; [|exact En3]. constructor; auto.
    - rewrite Ed3, En3. exact Ld.
    - rewrite Et3, En3. exact Ld.
    - rewrite Eq3, En3, Eo. cbn. destruct Le as [-> | Le]; [cbn; apply replicate_length|]. destruct (Nat.eqb_spec (length isEq) 0) as [Z|Z]; [rewrite replicate_length; lia|exact Le].
    - rewrite Ei3, <- N0. reflexivity.
    - intros a Ha. rewrite Ed3, Ei3, seq_nth by lia. f_equal. lia.
    - intros a Ha. rewrite Eq3, Ei3, seq_nth by lia. f_equal. lia.
    - intros a Ha. left. rewrite Et3, Ed3. reflexivity.
    - intros k Hk Hn. exfalso. apply Hn. rewrite Ei3. apply elem_of_seq. lia.
Qed.

Lemma prepare_settled points dist lambdas time limit isMax isEq fuel (o : Opt R) : optimise_ctor points dist lambdas time limit isMax isEq = Ok o ->
  (forall k, (k < length lambdas)%nat -> sensitive k points) -> (forall p, p ∈ points -> bp_fixed p = false -> bp_domain p = false) ->
  isEq = [] \/ length isEq = length dist ->
  post (prepare fuel o) (settled o points limit).
Proof.
  intros E S Nd Le. unfold prepare. cbn [op_n set_disp].
  pose proof (ctor_inv _ _ _ _ _ _ _ _ E) as (Hl & _ & _ & Ln & Eo). apply (proj1 (Rltb_true _ _)) in Hl. change (0 < limit) in Hl.
  apply post_bind. intros o2 Eo2. apply post_bind. intros la Ela. apply post_bind. intros o3 E3.
  pose proof (start_round _ _ _ _ _ _ _ fuel o E S Le o2 la o3 Eo2 Ela E3) as [I3 N3].
  assert (Ep : op_points o = points) by (rewrite Eo; reflexivity).
  apply post_bind. eapply (post_impl _ (settled o points limit)).
  { destruct (Nat.ltb_spec 0 (op_n o3)) as [Pos|Zero]; [apply (rounds_settle o points limit Ep Hl Nd), I3|]. apply post_ok, (round_none o points limit); [exact I3|lia]. }
  intros o4 S4. apply (post_for (settled o points limit)).
  - intros k o' _ (G' & S'). unfold store_gradient. do 2 (apply post_bind, post_any; intros ?). apply post_ok. split; [apply good_grads, G'|exact S'].
  - destruct S4 as [G4 S4]. split; [apply good_grads, G4|exact S4].
Qed.
