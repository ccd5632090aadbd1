(** * LevelSetVelR: computeVelocities in exact arithmetic (C30). *)

From Verif Require Import MeshModel MeshSpec MeshProofs MeshGeom MeshTopo FmmModel FmmSpec FmmFacts LevelSetModel LevelSetSpec
  LevelSetSpecR LevelSetCalls LevelSetBand LevelSetOps LevelSetVel LevelSetHist BoundaryFrame NumInt NumR FmmReal.
From Coq Require Import Reals Lra Psatz.
Local Open Scope R_scope.

Lemma located_R W H (m : Mesh R) p : topo W H m -> in_domain W H p -> located W H m p.
Proof.
  intros Ht [Hx Hy]. pose proof (tp_fits _ _ _ Ht) as Hf.
  assert (Hm : mesh_new (T := R) W H = Ok (mesh_spec W H)) by (apply mesh_new_eq, Hf).
  destruct (getClosestNode_nearest W H (mesh_spec W H) Hf Hm (cx (bp_coord p)) (cy (bp_coord p)) (proj2 Hx) (proj2 Hy)) as (i & n & E & En & _).
  exists i. split.
  - apply lookup_lt_Some in En. cbn [mesh_spec m_nodes] in En. rewrite tab_length in En. exact En.
  - rewrite (closest_topo W H m _ _ Ht). exact E.
Qed.

Section VelR.
  Variables (W H : nat) (m : Mesh R).
  Notation N := (node_count W H).
  Hypothesis Ht : topo W H m.

  Notation cl := (closest m).
  Definition tb (i : nat) (p : BoundaryPoint R) : bool :=
    (i =? cl p)%nat || (nbb W H (cl p) 4 i && Rleb (gap W p i) 1).

  Lemma sqd_gap i p : sqd (coord_of W i) (bp_coord p) = gap W p i.
  Proof. unfold sqd, coord_of, gap, euclid2. rewrite !nofnat_R. num_R. reflexivity. Qed.

  Lemma tb_spec i p : (i < N)%nat -> located W H m p -> tb i p = true <-> touches W H m p i.
  Proof.
    intros Hi (k & Hk & E). unfold tb, touches, closest. rewrite E. rewrite orb_true_iff, andb_true_iff, Nat.eqb_eq, Rleb_true, (nbb_adj W H k i Hk Hi).
    split.
    - intros D. exists k. split; [reflexivity|]. exact D.
    - intros (k' & [= <-] & D). exact D.
  Qed.

  (** One point, on the state of node [i]. *)
  Lemma point1_R i p a w b :
    point1 W H p (cl p) i (a, w, b) =
    if tb i p then
      if Rltb (gap W p i) (/ 1000000) then (bp_velocity p, 1, true)
      else if b then (a, w, b) else (a + bp_velocity p * / gap W p i, w + / gap W p i, false)
    else (a, w, b).
  Proof.
    unfold point1, tb. rewrite sqd_gap. unfold contrib1. rewrite nlit_R. num_R.
    replace (1 / 1000000) with (/ 1000000) by lra.
    assert (D1 : forall r, bp_velocity p / r = bp_velocity p * / r) by (intros; reflexivity).
    destruct (Nat.eqb_spec i (cl p)) as [->|Hne]; cbn [orb negb].
    - destruct (Rltb_spec (gap W p (cl p)) (/ 1000000)); [reflexivity|]. destruct b; [reflexivity|]. cbn [negb]. f_equal. f_equal. lra.
    - destruct (nbb W H (cl p) 4 i); cbn [andb]; [|reflexivity].
      destruct (Rltb_spec (gap W p i) (/ 1000000)) as [L|L].
      + destruct (Rleb_spec (gap W p i) 1); [reflexivity|lra].
      + destruct (Rleb_spec (gap W p i) 1); [|reflexivity]. destruct b; [reflexivity|]. cbn [negb]. f_equal. f_equal. lra.
  Qed.

  Definition coin (i : nat) (p : BoundaryPoint R) : bool := tb i p && Rltb (gap W p i) (/ 1000000).
  Definition wt (i : nat) (p : BoundaryPoint R) : R := if tb i p then / gap W p i else 0.

  Notation fold i := (fold_left (fun s p => point1 W H p (cl p) i s)).

  Lemma fold_plain i l : (forall p, p ∈ l -> coin i p = false) -> forall a w,
    fold i l (a, w, false) = (a + sumR (zip_with (fun w p => w * bp_velocity p) (map (wt i) l) l), w + sumR (map (wt i) l), false).
  Proof.
    induction l as [|p l IH]; intros Hc a w.
    - cbn. f_equal. f_equal; ring.
    - cbn [fold_left]. rewrite point1_R. assert (C := Hc p ltac:(left)). unfold coin in C.
      cbn [map zip_with sumR foldr]. fold (sumR (map (wt i) l)).
      change (foldr Rplus 0 (zip_with (fun w p => w * bp_velocity p) (map (wt i) l) l)) with (sumR (zip_with (fun w p => w * bp_velocity p) (map (wt i) l) l)).
      assert (IH' := IH ltac:(intros q Hq; apply Hc; right; exact Hq)).
      unfold wt at 1 3. destruct (tb i p); cbn [andb] in C.
      + rewrite C, IH'. f_equal. f_equal; ring.
      + rewrite IH'. f_equal. f_equal; ring.
  Qed.
  Lemma fold_set i l a w : (forall p, p ∈ l -> coin i p = false) -> fold i l (a, w, true) = (a, w, true).
  Proof.
    induction l as [|p l IH]; intros Hc; [reflexivity|]. cbn [fold_left]. rewrite point1_R.
    assert (C := Hc p ltac:(left)). unfold coin in C. destruct (tb i p); cbn [andb] in C; rewrite ?C; apply IH; intros q Hq; apply Hc; right; exact Hq.
  Qed.
  Lemma fold_coin i l1 p l2 s : coin i p = true -> (forall q, q ∈ l2 -> coin i q = false) ->
    fold i (l1 ++ p :: l2) s = (bp_velocity p, 1, true).
  Proof.
    intros C H2. rewrite fold_left_app. cbn [fold_left]. destruct (fold i l1 s) as [[a w] b]. rewrite point1_R.
    unfold coin in C. apply andb_true_iff in C as [-> ->]. apply fold_set, H2.
  Qed.
  Lemma last_coin i l : (forall p, p ∈ l -> coin i p = false) \/
    exists l1 p l2, l = l1 ++ p :: l2 /\ coin i p = true /\ (forall q, q ∈ l2 -> coin i q = false).
  Proof.
    induction l as [|p l IH]; [left; intros p Hp; apply elem_of_nil in Hp; contradiction|].
    destruct IH as [IH|(l1 & q & l2 & -> & A & B)].
    - destruct (coin i p) eqn:C.
      + right. exists [], p, l. auto.
      + left. intros q Hq. apply elem_of_cons in Hq as [->|Hq]; auto.
    - right. exists (p :: l1), q, l2. auto.
  Qed.

  (** The starting velocity of a band node. *)
  Definition sv (s : R * R * bool) : R := let '(a, w, _) := s in if negb (a =? n0)%num then (a / w)%num else a.

  Lemma gap_nonneg p i : 0 <= gap W p i.
  Proof. unfold gap, euclid2. pose proof (Rle_0_sqr (INR (i mod (W + 1)) - cx (bp_coord p))). pose proof (Rle_0_sqr (INR (i / (W + 1)) - cy (bp_coord p))). unfold Rsqr in *. cbn [cx cy]. lra. Qed.
  Lemma wt_nonneg i p : coin i p = false -> 0 <= wt i p /\ (tb i p = true -> 0 < wt i p).
  Proof.
    unfold coin, wt. destruct (tb i p); cbn [andb]; [|lra]. intros C. apply Rltb_false in C.
    assert (0 < / gap W p i) by (apply Rinv_0_lt_compat; lra). lra.
  Qed.
  Lemma sumR_nonneg i l : (forall p, p ∈ l -> coin i p = false) -> 0 <= sumR (map (wt i) l) /\
    ((exists p, p ∈ l /\ tb i p = true) -> 0 < sumR (map (wt i) l)) /\
    ((forall p, p ∈ l -> tb i p = false) -> sumR (zip_with (fun w p => w * bp_velocity p) (map (wt i) l) l) = 0).
  Proof.
    induction l as [|p l IH]; intros Hc.
    - cbn. split; [lra|]. split; [|reflexivity]. intros (p & Hp & _). apply elem_of_nil in Hp. contradiction.
    - cbn [map zip_with sumR foldr]. fold (sumR (map (wt i) l)).
      change (foldr Rplus 0 (zip_with (fun w p => w * bp_velocity p) (map (wt i) l) l)) with (sumR (zip_with (fun w p => w * bp_velocity p) (map (wt i) l) l)).
      destruct (IH ltac:(intros q Hq; apply Hc; right; exact Hq)) as (A & B & C).
      destruct (wt_nonneg i p (Hc p ltac:(left))) as [D E]. split; [lra|]. split.
      + intros (q & Hq & Tq). apply elem_of_cons in Hq as [->|Hq]; [specialize (E Tq); lra|]. specialize (B ltac:(eauto)). lra.
      + intros Hn. rewrite C by (intros q Hq; apply Hn; right; exact Hq). unfold wt at 1. rewrite (Hn p) by left. ring.
  Qed.
  Lemma range_sum i l lo hi : (forall p, p ∈ l -> coin i p = false) -> (forall p, p ∈ l -> tb i p = true -> lo <= bp_velocity p <= hi) ->
    lo * sumR (map (wt i) l) <= sumR (zip_with (fun w p => w * bp_velocity p) (map (wt i) l) l) <= hi * sumR (map (wt i) l).
  Proof.
    induction l as [|p l IH]; intros Hc Hr; [cbn; lra|].
    cbn [map zip_with sumR foldr]. fold (sumR (map (wt i) l)).
    change (foldr Rplus 0 (zip_with (fun w p => w * bp_velocity p) (map (wt i) l) l)) with (sumR (zip_with (fun w p => w * bp_velocity p) (map (wt i) l) l)).
    destruct (IH ltac:(intros q Hq; apply Hc; right; exact Hq) ltac:(intros q Hq; apply Hr; right; exact Hq)) as [A B].
    destruct (wt_nonneg i p (Hc p ltac:(left))) as [D _].
    assert (lo * wt i p <= wt i p * bp_velocity p <= hi * wt i p); [|lra].
    unfold wt in *. destruct (tb i p) eqn:T; [|lra]. specialize (Hr p ltac:(left) T). split; nra.
  Qed.

  Lemma sv_plain i l : (forall p, p ∈ l -> coin i p = false) ->
    sv (fold i l (0, 0, false)) * sumR (map (wt i) l) = sumR (zip_with (fun w p => w * bp_velocity p) (map (wt i) l) l) /\
    ((forall p, p ∈ l -> tb i p = false) -> sv (fold i l (0, 0, false)) = 0).
  Proof.
    intros Hc. rewrite (fold_plain i l Hc). unfold sv. rewrite !Rplus_0_l. num_R.
    set (A := sumR (zip_with _ _ _)). set (B := sumR (map (wt i) l)).
    destruct (sumR_nonneg i l Hc) as (T0 & T1 & T2). fold A B in T0, T1, T2.
    split.
    - destruct (Reqb_spec A 0) as [->|Hne]; cbn [negb]; [ring|].
      assert (0 < B); [|field; lra].
      destruct (existsb (tb i) l) eqn:Ex.
      + apply T1. apply existsb_exists in Ex as (p & Hp & Tp). exists p. split; [apply elem_of_list_In; exact Hp|exact Tp].
      + exfalso. apply Hne, T2. intros p Hp. destruct (tb i p) eqn:Tp; [|reflexivity]. rewrite <- Ex. symmetry. apply existsb_exists.
        exists p. split; [apply elem_of_list_In; exact Hp|exact Tp].
    - intros Hn. rewrite (T2 Hn). destruct (Reqb_spec 0 0); [reflexivity|lra].
  Qed.
End VelR.

Section Api.
  Variables (W H : nat) (s s' : LevelSet R) (points : list (BoundaryPoint R)).
  Hypothesis Hr : reached W H s.
  Hypothesis Hp : forall p, p ∈ points -> in_domain W H p.
  Hypothesis Hc : computeVelocities s points = Ok s'.
  Notation m := (ls_mesh s).

  Let HS : sound W H s := reached_sound W H s Hr.
  Let Ht : topo W H m := ok_topo _ _ _ (so_ok _ _ _ HS).
  Let Hloc : forall p, p ∈ points -> located W H m p := fun p Hi => located_R W H m p Ht (Hp p Hi).

  Lemma start_sv i v : start_velocity W H s points i v ->
    v = sv (fold_left (fun st p => point1 W H p (closest m p) i st) points (0, 0, false)).
  Proof.
    unfold start_velocity, node_sum, sv. num_R. change (@n0 R _) with 0. destruct (fold_left _ _ _) as [[a w] b]. auto.
  Qed.

  Lemma start_facts i v : i ∈ band_list s -> start_velocity W H s points i v ->
    ((forall p, p ∈ points -> touches W H m p i -> / 1000000 <= gap W p i) -> weighted_average W H m points i v) /\
    (forall l1 p l2, points = l1 ++ p :: l2 -> touches W H m p i -> gap W p i < / 1000000 ->
       (forall q, q ∈ l2 -> touches W H m q i -> / 1000000 <= gap W q i) -> v = bp_velocity p) /\
    (forall lo hi, (exists p, p ∈ points /\ touches W H m p i) ->
       (forall p, p ∈ points -> touches W H m p i -> lo <= bp_velocity p <= hi) -> lo <= v <= hi) /\
    ((forall p, p ∈ points -> ~ touches W H m p i) -> v = 0).
  Proof.
    intros Hi Hv. apply start_sv in Hv.
    assert (HiN : (i < node_count W H)%nat) by (apply (bs_band _ _ _ (so_safe _ _ _ HS)), Hi).
    assert (TB : forall p, p ∈ points -> tb W H m i p = true <-> touches W H m p i) by (intros p Hip; apply tb_spec; auto).
    assert (CO : forall p, p ∈ points -> coin W H m i p = true <-> touches W H m p i /\ gap W p i < / 1000000).
    { intros p Hip. unfold coin. rewrite andb_true_iff, (TB p Hip), Rltb_true. reflexivity. }
    assert (NC : forall p, p ∈ points -> (touches W H m p i -> / 1000000 <= gap W p i) -> coin W H m i p = false).
    { intros p Hip Hn. destruct (coin W H m i p) eqn:C; [|reflexivity]. apply (CO p Hip) in C as [C1 C2]. specialize (Hn C1). lra. }
    assert (NT : forall p, p ∈ points -> ~ touches W H m p i -> tb W H m i p = false).
    { intros p Hip Hn. destruct (tb W H m i p) eqn:C; [|reflexivity]. apply (TB p Hip) in C. contradiction. }
    split; [|split; [|split]].
    - intros Hn. assert (Hn' : forall p, p ∈ points -> coin W H m i p = false) by auto.
      destruct (sv_plain W H m i points Hn') as [A B]. rewrite <- Hv in A, B.
      exists (map (wt W H m i) points). rewrite map_length. split; [reflexivity|]. split; [|split; [exact A|]].
      + intros j p w Ep Ew. rewrite list_lookup_fmap, Ep in Ew. injection Ew as <-.
        assert (Hip : p ∈ points) by (eapply elem_of_list_lookup_2, Ep). unfold wt. split.
        * intros T. apply (TB p Hip) in T. rewrite T. reflexivity.
        * intros T. rewrite (NT p Hip T). reflexivity.
      + intros Hno. apply B. auto.
    - intros l1 p l2 E Tp Gp Hl2.
      assert (Hip : p ∈ points) by (rewrite E; apply elem_of_app; right; left).
      rewrite Hv, E, (fold_coin W H m i l1 p l2 _).
      + unfold sv. num_R. destruct (Reqb_spec (bp_velocity p) 0); cbn [negb]; [reflexivity|lra].
      + apply (CO p Hip). auto.
      + intros q Hq. apply NC; [rewrite E; apply elem_of_app; right; right; exact Hq|]. intros T. apply Hl2; assumption.
    - intros lo hi (p0 & Hp0 & T0) Hrange. destruct (last_coin W H m i points) as [Hn|(l1 & p & l2 & E & C & Hn)].
      + destruct (sv_plain W H m i points Hn) as [A _]. rewrite <- Hv in A.
        destruct (sumR_nonneg W H m i points Hn) as (_ & S1 & _).
        assert (S : 0 < sumR (map (wt W H m i) points)) by (apply S1; exists p0; split; [exact Hp0|apply TB; assumption]).
        destruct (range_sum W H m i points lo hi Hn) as [R1 R2].
        { intros p Hip Tp. apply Hrange; [exact Hip|]. apply TB; assumption. }
        rewrite <- A in R1, R2. split; [eapply Rmult_le_reg_r; [exact S|lra]|eapply Rmult_le_reg_r; [exact S|lra]].
      + assert (Hip : p ∈ points) by (rewrite E; apply elem_of_app; right; left).
        pose proof (proj1 (CO p Hip) C) as [Tp _].
        rewrite Hv, E, (fold_coin W H m i l1 p l2 _ C Hn). specialize (Hrange p Hip Tp). unfold sv. num_R.
        destruct (Reqb_spec (bp_velocity p) 0); cbn [negb]; lra.
    - intros Hno. assert (Hn' : forall p, p ∈ points -> coin W H m i p = false).
      { intros p Hip. apply NC; [exact Hip|]. intros T. destruct (Hno p Hip T). }
      destruct (sv_plain W H m i points Hn') as [_ B]. rewrite Hv. apply B. auto.
  Qed.

  Lemma velocities_facts : exists vel0 o, ls_vel s' = ls_vel s' /\ s' = set_vel (ls_vel s') s /\
    (forall i, i ∈ band_list s -> exists v, vel0 !! i = Some v /\ start_velocity W H s points i v) /\
    length vel0 = node_count W H /\
    fmm_march_vel m (fmm_new m false) (ls_sd s) vel0 = Ok (o, ls_sd s, ls_vel s') /\
    (forall i, (on_front W H (ls_sd s) i \/ exists n, m_nodes m !! i = Some n /\ nd_active n = false) ->
          ls_vel s' !! i = vel0 !! i).
  Proof.
    pose proof (reached_sound W H s Hr) as [Hs Hb _ _].
    destruct (init_vel_spec W H s Hs Hb points Hloc) as (vel0 & E0 & L0 & B0 & _).
    destruct (velocities_spec W H s Hs Hb points Hloc) as [Ex|(v0 & v1 & o & E1 & E2 & E3 & _ & F)]; [congruence|].
    assert (v0 = vel0) by congruence. subst v0. assert (s' = set_vel v1 s) as -> by congruence.
    exists vel0, o. cbn [ls_vel set_vel]. auto 10.
  Qed.

  Lemma front_velocities i v : i ∈ band_list s -> on_front W H (ls_sd s) i -> ls_vel s' !! i = Some v ->
    ((forall p, p ∈ points -> touches W H m p i -> / 1000000 <= gap W p i) -> weighted_average W H m points i v) /\
    (forall l1 p l2, points = l1 ++ p :: l2 -> touches W H m p i -> gap W p i < / 1000000 ->
       (forall q, q ∈ l2 -> touches W H m q i -> / 1000000 <= gap W q i) -> v = bp_velocity p) /\
    (forall lo hi, (exists p, p ∈ points /\ touches W H m p i) ->
       (forall p, p ∈ points -> touches W H m p i -> lo <= bp_velocity p <= hi) -> lo <= v <= hi).
  Proof.
    intros Hi Hf Ev. destruct velocities_facts as (vel0 & o & _ & _ & B0 & _ & _ & F).
    destruct (B0 i Hi) as (v0 & Ev0 & Sv). rewrite (F i (or_introl Hf)) in Ev. assert (v0 = v) by congruence. subst v0.
    destruct (start_facts i v Hi Sv) as (A & B & C & _). auto.
  Qed.

  Lemma band_velocities_range lo hi : lo <= 0 <= hi -> (forall p, p ∈ points -> lo <= bp_velocity p <= hi) ->
    (forall i, on_front W H (ls_sd s) i -> i ∈ band_list s) ->
    forall i v, i ∈ band_list s -> ls_vel s' !! i = Some v -> lo <= v <= hi.
  Proof.
    intros H0 Hlo Hfb. destruct velocities_facts as (vel0 & o & _ & _ & B0 & L0 & E & _).
    assert (S0 : forall i v, i ∈ band_list s -> vel0 !! i = Some v -> lo <= v <= hi).
    { intros i v Hi Ev. destruct (B0 i Hi) as (v0 & Ev0 & Sv). assert (v0 = v) by congruence. subst v0.
      destruct (start_facts i v Hi Sv) as (_ & _ & C & D).
      assert (HiN : (i < node_count W H)%nat) by (apply (bs_band _ _ _ (so_safe _ _ _ HS)), Hi).
      destruct (existsb (tb W H m i) points) eqn:Ex.
      - apply existsb_exists in Ex as (p & Hip & T). apply elem_of_list_In in Hip. apply C; [|auto].
        exists p. split; [exact Hip|]. apply (tb_spec W H m i p HiN (Hloc p Hip)), T.
      - rewrite D; [exact H0|]. intros p Hip T. apply (tb_spec W H m i p HiN (Hloc p Hip)) in T.
        assert (X : existsb (tb W H m i) points = true) by (apply existsb_exists; exists p; split; [apply elem_of_list_In; exact Hip|exact T]).
        congruence. }
    intros i v Hi Ev. destruct (B0 i Hi) as (v0 & Ev0 & _).
    destruct (Req_dec v v0) as [->|Hne]; [exact (S0 i v0 Hi Ev0)|].
    eapply (march_vel_range W H m false (ls_sd s) vel0 o (ls_sd s) (ls_vel s') lo hi Ht); eauto.
    - apply HS.
    - left. congruence.
  Qed.
End Api.
