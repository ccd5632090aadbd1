(** * DemoLength: area mismatch, weighted perimeter and centre of mass in exact arithmetic. *)

From Coq Require Import Reals Lra.
From Verif Require Import Base Num NumR NumInt MeshModel MeshSpec LevelSetModel LevelSetSpec LevelSetCalls LevelSetHist LevelSetSpecR
  BoundaryModel BoundarySpec BoundarySpecR BoundaryReal BoundaryLinks DemoModel DemoSpec.
Local Open Scope R_scope.

Lemma for_from_sum (f : nat -> R -> outcome R) (h : nat -> R) n i a :
  (forall k x, (i <= k < i + n)%nat -> f k x = Ok (x + h k)) -> for_from i n f a = Ok (a + sumR (map h (seq i n))).
Proof.
  revert i a. induction n as [|n IH]; intros i a Hf; cbn [for_from seq map].
  - f_equal. unfold sumR. cbn. lra.
  - rewrite Hf by lia. cbn [obind]. rewrite IH by (intros; apply Hf; lia). f_equal. unfold sumR. cbn. lra.
Qed.
Lemma for_sum (f : nat -> R -> outcome R) (h : nat -> R) n a :
  (forall k x, (k < n)%nat -> f k x = Ok (x + h k)) -> for_ n f a = Ok (a + sumf n h).
Proof. intros Hf. unfold for_, sumf. apply for_from_sum. intros k x Hk. apply Hf. lia. Qed.

Lemma sumf_scale n f c : sumf n (fun k => c * f k) = c * sumf n f.
Proof. unfold sumf. induction (seq 0 n) as [|k l IH]; unfold sumR in *; cbn; [lra|]. rewrite IH. lra. Qed.
Lemma sumf_le n f g : (forall k, (k < n)%nat -> f k <= g k) -> sumf n f <= sumf n g.
Proof.
  unfold sumf. intros L. assert (G : forall l, (forall k, In k l -> f k <= g k) -> sumR (map f l) <= sumR (map g l)).
  { induction l as [|k l IH]; intros Hl; unfold sumR in *; cbn; [lra|]. pose proof (Hl k (or_introl eq_refl)). specialize (IH (fun j Hj => Hl j (or_intror Hj))). lra. }
  apply G. intros k Hk. apply in_seq in Hk. apply L. lia.
Qed.
Lemma sumf_const n c : sumf n (fun _ => c) = INR n * c.
Proof.
  induction n as [|n IH]; [unfold sumf, sumR; cbn; lra|]. unfold sumf in *. rewrite seq_S, map_app, sumR_app, IH. rewrite S_INR. unfold sumR. cbn. lra.
Qed.

(** ** Area mismatch *)
Lemma L1_seq (a b : list R) : length a = length b -> L1 a b = sumf (length b) (fun i => Rabs (nth i a 0 - nth i b 0)).
Proof.
  revert b. induction a as [|x a IH]; intros [|y b] L; cbn in L; try lia; [reflexivity|].
  unfold L1, sumf in *. cbn [zip_with length seq map nth]. unfold sumR in *. cbn [foldr]. f_equal.
  rewrite <- seq_shift, map_map. apply IH. lia.
Qed.
Theorem mismatch_R (m : Mesh R) areas : length (m_elements m) = m_nElements m -> length areas = m_nElements m ->
  computeMismatch m areas = Ok (L1 areas (areas_of m)).
Proof.
  intros Lm La. unfold computeMismatch.
  rewrite (for_sum _ (fun i => Rabs (nth i areas 0 - nth i (areas_of m) 0))).
  - rewrite L1_seq by (unfold areas_of; rewrite map_length; lia). unfold areas_of. rewrite map_length, Lm. f_equal. unfold n0. cbn. lra.
  - intros i x Hi. unfold mismatch_step, vget.
    destruct (lookup_lt_is_Some_2 areas i) as [t Et]; [lia|]. destruct (lookup_lt_is_Some_2 (m_elements m) i) as [e Ee]; [lia|].
    rewrite Et, Ee. cbn [obind]. rewrite (nth_lookup_Some _ _ _ _ Et).
    rewrite (nth_lookup_Some _ _ _ (e_area e)); [reflexivity|]. unfold areas_of. change (map e_area) with (fmap (M := list) (@e_area R)). rewrite list_lookup_fmap, Ee. reflexivity.
Qed.
Theorem mismatch_short {T} {NT : Num T} (m : Mesh T) areas : length (m_elements m) = m_nElements m -> (length areas < m_nElements m)%nat -> computeMismatch m areas = UB.
Proof.
  intros Lm La. unfold computeMismatch, for_.
  assert (G : forall n i a, (i <= length areas)%nat -> (length areas < i + n)%nat -> (i + n <= m_nElements m)%nat -> for_from i n (mismatch_step m areas) a = UB).
  { induction n as [|n IH]; intros i a L1 L2 L3; [lia|]. cbn [for_from]. unfold mismatch_step at 1, vget.
    destruct (areas !! i) as [t|] eqn:Et; cbn [obind]; [|reflexivity].
    destruct (lookup_lt_is_Some_2 (m_elements m) i) as [e Ee]; [lia|]. rewrite Ee. cbn [obind]. apply lookup_lt_Some in Et. apply IH; lia. }
  apply G; lia.
Qed.

Lemma L1_nonneg a b : 0 <= L1 a b.
Proof. revert b. induction a as [|x a IH]; intros [|y b]; unfold L1, sumR in *; cbn; try lra. pose proof (Rabs_pos (x - y)). specialize (IH b). lra. Qed.
Lemma L1_zero a b : length a = length b -> L1 a b = 0 <-> a = b.
Proof.
  revert b. induction a as [|x a IH]; intros [|y b] L; cbn in L; try lia; [unfold L1, sumR; cbn; split; [reflexivity|lra]|].
  specialize (IH b ltac:(lia)). pose proof (L1_nonneg a b) as N. unfold L1, sumR in *. cbn. pose proof (Rabs_pos (x - y)). split.
  - intros E. assert (Z : Rabs (x - y) = 0) by lra. f_equal; [|apply IH; lra].
    destruct (Req_dec (x - y) 0) as [D|D]; [lra|]. apply Rabs_no_R0 in D. lra.
  - intros [= -> ->]. rewrite (proj2 IH eq_refl). replace (y - y) with 0 by lra. rewrite Rabs_R0. lra.
Qed.
Lemma L1_total a b : length a = length b -> Rabs (sumR a - sumR b) <= L1 a b.
Proof.
  revert b. induction a as [|x a IH]; intros [|y b] L; cbn in L; try lia; [unfold L1, sumR; cbn; rewrite Rminus_0_r, Rabs_R0; lra|].
  specialize (IH b ltac:(lia)). unfold L1, sumR in *. cbn.
  replace (x + foldr Rplus 0 a - (y + foldr Rplus 0 b)) with ((x - y) + (foldr Rplus 0 a - foldr Rplus 0 b)) by lra.
  eapply Rle_trans; [apply Rabs_triang|]. lra.
Qed.
Lemma L1_triangle a b c : length a = length b -> length b = length c -> L1 a c <= L1 a b + L1 b c.
Proof.
  revert b c. induction a as [|x a IH]; intros [|y b] [|z c] Lab Lbc; cbn in *; try lia; [unfold L1, sumR; cbn; lra|].
  specialize (IH b c ltac:(lia) ltac:(lia)). unfold L1, sumR in *. cbn. pose proof (Rabs_triang (x - y) (y - z)). replace (x - y + (y - z)) with (x - z) in * by lra. lra.
Qed.
Lemma L1_fractions a b : length a = length b -> (forall x, x ∈ a -> 0 <= x <= 1) -> (forall x, x ∈ b -> 0 <= x <= 1) -> L1 a b <= INR (length b).
Proof.
  revert b. induction a as [|x a IH]; intros [|y b] L Ha Hb; cbn [length] in L; try lia; [unfold L1, sumR; cbn; lra|].
  specialize (IH b ltac:(lia) (fun z Hz => Ha z ltac:(now right)) (fun z Hz => Hb z ltac:(now right))).
  pose proof (Ha x ltac:(now left)). pose proof (Hb y ltac:(now left)). cbn [length]. rewrite S_INR. unfold L1, sumR in *. cbn [zip_with foldr].
  assert (Rabs (x - y) <= 1) by (apply Rabs_le; lra). lra.
Qed.

(** ** Weights *)
Lemma weight_R (g : Gravity R) y : gravity_ok g -> perimeterWeight g y = weight_at g y.
Proof.
  intros [_ Ho Hr _]. unfold perimeterWeight, weight_at, n1. cbn [nltb nsub nmul ndiv nofZ NumR]. rewrite Hr.
  set (d := g_upper g - g_lower g). assert (D : 0 < d) by (unfold d; lra). assert (Di : 0 < / d) by (apply Rinv_0_lt_compat, D).
  destruct (Rltb_spec (g_upper g) y) as [A|A].
  - rewrite Rmax_left; [lra|]. eapply Rle_trans; [apply Rmin_r|]. unfold Rdiv. nra.
  - destruct (Rltb_spec y (g_lower g)) as [B|B].
    + rewrite Rmin_left; [rewrite Rmax_right; lra|]. apply (Rmult_le_reg_r d); [exact D|]. unfold Rdiv. rewrite Rmult_assoc, Rinv_l by lra. unfold d. lra.
    + assert (0 <= (g_upper g - y) / d <= 1).
      { split; [unfold Rdiv; nra|]. apply (Rmult_le_reg_r d); [exact D|]. unfold Rdiv. rewrite Rmult_assoc, Rinv_l by lra. unfold d. lra. }
      rewrite Rmin_right, Rmax_right by lra. lra.
Qed.
Lemma fall_bounds x : 0 <= Rmax 0 (Rmin 1 x) <= 1.
Proof. split; [apply Rmax_l|]. apply Rmax_lub; [lra|apply Rmin_l]. Qed.
Lemma weight_bounds g y : 0 <= g_reduce g <= 1 -> g_reduce g <= weight_at g y <= 1.
Proof. intros Hr. unfold weight_at. pose proof (fall_bounds ((g_upper g - y) / (g_upper g - g_lower g))). nra. Qed.
Lemma weight_mono g y y' : gravity_ok g -> y <= y' -> weight_at g y <= weight_at g y'.
Proof.
  intros [_ Ho _ Hr] L. unfold weight_at. assert (Di : 0 < / (g_upper g - g_lower g)) by (apply Rinv_0_lt_compat; lra).
  assert (Rmax 0 (Rmin 1 ((g_upper g - y') / (g_upper g - g_lower g))) <= Rmax 0 (Rmin 1 ((g_upper g - y) / (g_upper g - g_lower g)))).
  { apply Rle_max_compat_l, Rle_min_compat_l. unfold Rdiv. apply Rmult_le_compat_r; lra. }
  nra.
Qed.
Lemma weight_above g y : gravity_ok g -> g_upper g <= y -> weight_at g y = 1.
Proof.
  intros [_ Ho _ _] L. unfold weight_at. assert (Di : 0 < / (g_upper g - g_lower g)) by (apply Rinv_0_lt_compat; lra).
  rewrite Rmax_left; [lra|]. eapply Rle_trans; [apply Rmin_r|]. unfold Rdiv. nra.
Qed.
Lemma weight_below g y : gravity_ok g -> y <= g_lower g -> weight_at g y = g_reduce g.
Proof.
  intros [_ Ho _ _] L. unfold weight_at. rewrite Rmin_left; [rewrite Rmax_right; lra|].
  apply (Rmult_le_reg_r (g_upper g - g_lower g)); [lra|]. unfold Rdiv. rewrite Rmult_assoc, Rinv_l by lra. lra.
Qed.
Lemma weight_between g y : gravity_ok g -> g_lower g <= y <= g_upper g -> weight_at g y = 1 - (1 - g_reduce g) * ((g_upper g - y) / (g_upper g - g_lower g)).
Proof.
  intros [_ Ho _ _] L. unfold weight_at. assert (Di : 0 < / (g_upper g - g_lower g)) by (apply Rinv_0_lt_compat; lra).
  assert (0 <= (g_upper g - y) / (g_upper g - g_lower g) <= 1).
  { split; [unfold Rdiv; nra|]. apply (Rmult_le_reg_r (g_upper g - g_lower g)); [lra|]. unfold Rdiv. rewrite Rmult_assoc, Rinv_l by lra. lra. }
  rewrite Rmin_right, Rmax_right by lra. reflexivity.
Qed.

(** ** Means along a segment *)
Lemma mean_sumf g y1 y2 : mean_weight g y1 y2 = sumf (g_n g) (fun j => weight_at g (y1 + (INR j + 1 / 2) / INR (g_n g) * (y2 - y1))) / INR (g_n g).
Proof. reflexivity. Qed.
Lemma n_pos g : gravity_ok g -> 0 < INR (g_n g).
Proof. intros [Hn _ _ _]. apply lt_0_INR, Hn. Qed.
Lemma mean_bounds g y1 y2 lo hi : gravity_ok g ->
  (forall j, (j < g_n g)%nat -> lo <= weight_at g (y1 + (INR j + 1 / 2) / INR (g_n g) * (y2 - y1)) <= hi) -> lo <= mean_weight g y1 y2 <= hi.
Proof.
  intros Hg Hb. pose proof (n_pos g Hg) as Hn. rewrite mean_sumf.
  assert (A : INR (g_n g) * lo <= sumf (g_n g) (fun j => weight_at g (y1 + (INR j + 1 / 2) / INR (g_n g) * (y2 - y1))) <= INR (g_n g) * hi).
  { rewrite <- !sumf_const. split; apply sumf_le; intros k Hk; apply Hb, Hk. }
  split; apply (Rmult_le_reg_r (INR (g_n g))); try exact Hn; unfold Rdiv; rewrite Rmult_assoc, Rinv_l by lra; lra.
Qed.
Lemma sumf_rev n f : sumf n f = sumf n (fun j => f (n - 1 - j)%nat).
Proof.
  assert (Sl : forall m h, sumf (S m) h = h 0%nat + sumf m (fun j => h (S j))).
  { intros m h. unfold sumf. cbn [seq map]. rewrite <- seq_shift, map_map. reflexivity. }
  assert (Sr : forall m h, sumf (S m) h = sumf m h + h m).
  { intros m h. unfold sumf. rewrite seq_S, map_app, sumR_app. unfold sumR at 2. cbn. lra. }
  induction n as [|n IH]; [reflexivity|]. rewrite Sr, Sl, IH. replace (S n - 1 - 0)%nat with n by lia. rewrite Rplus_comm. f_equal.
  apply sumf_ext. intros k Hk. f_equal. lia.
Qed.
Lemma mean_sym g y1 y2 : gravity_ok g -> mean_weight g y1 y2 = mean_weight g y2 y1.
Proof.
  intros Hg. pose proof (n_pos g Hg) as Hn. rewrite !mean_sumf. f_equal. rewrite sumf_rev. apply sumf_ext. intros k Hk. f_equal.
  assert (E : INR (g_n g - 1 - k) = INR (g_n g) - 1 - INR k) by (rewrite !minus_INR by lia; reflexivity). rewrite E. field. lra.
Qed.
Lemma sumf_half n : sumf n (fun j => INR j + 1 / 2) = INR n * INR n / 2.
Proof.
  induction n as [|n IH]; [unfold sumf, sumR; cbn; lra|]. unfold sumf in *. rewrite seq_S, map_app, sumR_app, IH. rewrite S_INR. unfold sumR. cbn [map foldr Nat.add]. lra.
Qed.
Lemma way_between g y1 y2 j lo hi : gravity_ok g -> (j < g_n g)%nat -> lo <= y1 <= hi -> lo <= y2 <= hi ->
  lo <= y1 + (INR j + 1 / 2) / INR (g_n g) * (y2 - y1) <= hi.
Proof.
  intros Hg Hj H1 H2. pose proof (n_pos g Hg) as Hn. assert (U : 0 <= (INR j + 1 / 2) / INR (g_n g) <= 1).
  { pose proof (pos_INR j). assert (INR j + 1 <= INR (g_n g)) by (rewrite <- S_INR; apply le_INR; lia).
    split; [apply Rmult_le_pos; [lra|left; apply Rinv_0_lt_compat, Hn]|].
    apply (Rmult_le_reg_r (INR (g_n g))); [exact Hn|]. unfold Rdiv. rewrite Rmult_assoc, Rinv_l by lra. lra. }
  set (u := (INR j + 1 / 2) / INR (g_n g)) in *. nra.
Qed.
Lemma mean_linear g y1 y2 : gravity_ok g -> g_lower g <= y1 <= g_upper g -> g_lower g <= y2 <= g_upper g ->
  mean_weight g y1 y2 = (weight_at g y1 + weight_at g y2) / 2.
Proof.
  intros Hg H1 H2. pose proof (n_pos g Hg) as Hn. pose proof (go_order g Hg) as Ho.
  rewrite mean_sumf, !(weight_between g) by assumption.
  rewrite (sumf_ext _ _ (fun j => (1 - (1 - g_reduce g) * ((g_upper g - y1) / (g_upper g - g_lower g))) + ((1 - g_reduce g) * (y2 - y1) / ((g_upper g - g_lower g) * INR (g_n g))) * (INR j + 1 / 2))).
  - rewrite sumf_add, sumf_const, sumf_scale, sumf_half. field. split; lra.
  - intros j Hj. rewrite (weight_between g) by (exact Hg || (apply way_between; assumption)). field. split; lra.
Qed.

(** ** Length of a point and weighted perimeter *)
Lemma arc_R g ps p i k q (a : R) : gravity_ok g -> bp_neigh p !! i = Some k -> ps !! k = Some q ->
  arc_to g ps p i a = Ok (a + euclid (bp_coord p) (bp_coord q) * mean_weight g (cy (bp_coord p)) (cy (bp_coord q))).
Proof.
  intros Hg Ek Eq. pose proof (n_pos g Hg) as Hn. unfold arc_to, vget. rewrite Ek. cbn [obind]. rewrite Eq. cbn [obind].
  set (y1 := cy (bp_coord p)). set (y2 := cy (bp_coord q)). set (d := euclid (bp_coord p) (bp_coord q)).
  rewrite (for_sum _ (fun j => d / INR (g_n g) * weight_at g (y1 + (INR j + 1 / 2) / INR (g_n g) * (y2 - y1)))).
  - rewrite sumf_scale, mean_sumf. do 2 f_equal. field. lra.
  - intros j x Hj. unfold piece. rewrite weight_R by exact Hg. rewrite !nofnat_R, nlit_R. cbn [nadd nsub nmul ndiv nsqrt NumR].
    f_equal. f_equal. rewrite Rmult_comm. f_equal.
    + unfold d, euclid, euclid2, Rdiv. apply Rmult_eq_compat_r. f_equal. unfold y1, y2. ring.
    + f_equal. fold y1 y2. field. lra.
Qed.
(** The neighbours of [p]. *)
Definition linked_to (ps : list (BoundaryPoint R)) (p : BoundaryPoint R) (qs : list (Coord R)) : Prop :=
  length qs = bp_nNeigh p /\ forall i c, qs !! i = Some c -> exists k q, bp_neigh p !! i = Some k /\ ps !! k = Some q /\ bp_coord q = c.
Lemma pointLength_R g ps p qs : gravity_ok g -> linked_to ps p qs ->
  pointLength g ps p = Ok (sumR (map (fun c => euclid (bp_coord p) c * mean_weight g (cy (bp_coord p)) (cy c)) qs)).
Proof.
  intros Hg [Ln Hq]. unfold pointLength. set (h := fun c : Coord R => euclid (bp_coord p) c * mean_weight g (cy (bp_coord p)) (cy c)).
  rewrite (for_sum _ (fun i => match qs !! i with Some c => h c | None => 0 end)).
  - rewrite <- Ln. f_equal. unfold n0. cbn [nofZ NumR]. rewrite Rplus_0_l. transitivity (sumR (imap (fun _ c => h c) qs)).
    + symmetry. apply map_seq_list. intros k c Ek. rewrite Ek. reflexivity.
    + rewrite BoundaryReal.imap_const. reflexivity.
  - intros i x Hi. destruct (lookup_lt_is_Some_2 qs i) as [c Ec]; [lia|]. rewrite Ec. destruct (Hq i c Ec) as (k & q & Ek & Eq & <-).
    rewrite (arc_R g ps p i k q x Hg Ek Eq). reflexivity.
Qed.

Lemma euclid_comm (p q : Coord R) : euclid p q = euclid q p.
Proof. unfold euclid, euclid2. f_equal. ring. Qed.
Lemma euclid_nonneg (p q : Coord R) : 0 <= euclid p q.
Proof. apply sqrt_pos. Qed.

Section Discretised.
  Variables (W H : nat) (s s' : LevelSet R) (tg : bool) (b : Boundary R) (ps : list (BoundaryPoint R)).
  Hypothesis Hr : reached W H s.
  Hypothesis Hd : discretise s tg = Ok (s', b).
  Hypothesis Hps : Forall2 same_links (bd_points b) ps.

  Definition coord_of (k : nat) : Coord R := match bd_points b !! k with Some p => bp_coord p | None => mkCoord 0 0 end.
  Definition others (k : nat) : list (Coord R) := map (fun x => coord_of (snd x)) (incidence (bd_segs b) k).

  Lemma incidence_seg k i j : (i, j) ∈ incidence (bd_segs b) k -> exists sg, bd_segs b !! i = Some sg /\ ((sg_start sg = k /\ sg_end sg = j) \/ (sg_end sg = k /\ sg_start sg = j)).
  Proof.
    unfold incidence. intros Hin. apply elem_of_list_In, in_concat in Hin as (l & Hl & Hx). apply elem_of_list_In, elem_of_lookup_imap in Hl as (n & sg & -> & Hs).
    unfold ends_at in Hx. apply in_app_or in Hx. destruct Hx as [Hx|Hx].
    - destruct (Nat.eqb_spec k (sg_start sg)) as [->|]; [|destruct Hx]. destruct Hx as [[= <- <-]|[]]. eauto 6.
    - destruct (Nat.eqb_spec k (sg_end sg)) as [->|]; [|destruct Hx]. destruct Hx as [[= <- <-]|[]]. eauto 6.
  Qed.
  Lemma linked_others k p : ps !! k = Some p -> linked_to ps p (others k) /\ exists p0, bd_points b !! k = Some p0 /\ bp_coord p = bp_coord p0.
  Proof.
    intros Ep. destruct (Forall2_lookup_r _ _ _ _ _ Hps Ep) as (p0 & Ep0 & Ec & En & Eg).
    destruct (links_api W H s s' tg b (ok_topo _ _ _ (so_ok _ _ _ (reached_sound _ _ _ Hr))) Hd) as (L1' & L2 & _).
    destruct (L1' k p0 Ep0) as (_ & _ & A & _ & B). split; [|eauto]. split.
    - unfold others. rewrite map_length, En, A. reflexivity.
    - intros i c Ei. unfold others in Ei. change (map (fun x => coord_of (snd x))) with (fmap (M := list) (fun x : nat * nat => coord_of (snd x))) in Ei.
      rewrite list_lookup_fmap in Ei. destruct (incidence (bd_segs b) k !! i) as [[si j]|] eqn:Ex; [|discriminate]. cbn in Ei. injection Ei as <-.
      destruct (incidence_seg k si j (elem_of_list_lookup_2 _ _ _ Ex)) as (sg & Es & Hj). destruct (L2 si sg Es) as (B1 & B2 & _).
      assert (Bj : (j < length (bd_points b))%nat) by (destruct Hj as [[_ <-]|[_ <-]]; assumption).
      destruct (lookup_lt_is_Some_2 (bd_points b) j Bj) as [q0 Eq0]. destruct (Forall2_lookup_l _ _ _ _ _ Hps Eq0) as (q & Eq & Cq & _).
      exists j, q. split; [|split; [exact Eq|]].
      + rewrite Eg. assert (X : take (bp_nNeigh p0) (bp_neigh p0) !! i = Some j).
        { rewrite B. change (map snd) with (fmap (M := list) (@snd nat nat)). rewrite list_lookup_fmap, Ex. reflexivity. }
        apply lookup_take_Some in X as [X _]. exact X.
      + unfold coord_of. rewrite Eq0. exact Cq.
  Qed.

  (** Length times mean weight of segment [i]. *)
  Definition seg_weight (g : Gravity R) (i : nat) : R :=
    match bd_segs b !! i with Some sg => sg_length sg * mean_weight g (height_of b (sg_start sg)) (height_of b (sg_end sg)) | None => 0 end.

  Lemma point_weight g k p : gravity_ok g -> ps !! k = Some p ->
    pointLength g ps p = Ok (sumR (map (fun x => seg_weight g (fst x)) (incidence (bd_segs b) k))).
  Proof.
    intros Hg Ep. destruct (linked_others k p Ep) as (Lk & p0 & Ep0 & Ec). rewrite (pointLength_R g ps p (others k) Hg Lk). unfold others. rewrite map_map. do 2 f_equal.
    apply map_ext_in. intros [i j] Hin. cbn [snd fst]. apply elem_of_list_In in Hin. destruct (incidence_seg k i j Hin) as (sg & Es & Hj).
    unfold seg_weight. rewrite Es. destruct (segments_good W H s s' tg b Hr Hd i sg Es) as (_ & pa & pb & _ & _ & Ea & Eb & Ls & _).
    rewrite Ls. unfold height_of. rewrite Ea, Eb, Ec. unfold coord_of. destruct Hj as [[Hk Hj]|[Hk Hj]]; rewrite <- Hk in Ep0; rewrite <- Hj.
    - rewrite Eb. assert (pa = p0) as -> by congruence. reflexivity.
    - rewrite Ea. assert (pb = p0) as -> by congruence. rewrite euclid_comm, mean_sym by exact Hg. reflexivity.
  Qed.

  Theorem weightedPerimeter_R g : gravity_ok g ->
    weightedPerimeter g ps = Ok (sumR (map (fun sg => sg_length sg * mean_weight g (height_of b (sg_start sg)) (height_of b (sg_end sg))) (bd_segs b))).
  Proof.
    intros Hg. unfold weightedPerimeter.
    rewrite (for_sum _ (fun k => sumR (map (fun x => seg_weight g (fst x) / 2) (incidence (bd_segs b) k)))).
    - rewrite <- (Forall2_length _ _ _ Hps). rewrite incidence_total.
      + rewrite (map_seq_list _ _ (seg_weight g)) by reflexivity. rewrite <- (BoundaryReal.imap_const (fun sg => sg_length sg * mean_weight g (height_of b (sg_start sg)) (height_of b (sg_end sg)))).
        rewrite (map_seq_list (bd_segs b) _ (seg_weight g)); [f_equal; unfold n0; cbn; lra|]. intros k sg Ek. unfold seg_weight. rewrite Ek. reflexivity.
      + intros i sg Es. destruct (links_api W H s s' tg b (ok_topo _ _ _ (so_ok _ _ _ (reached_sound _ _ _ Hr))) Hd) as (_ & L2 & _). destruct (L2 i sg Es) as (A & B & _). auto.
    - intros k x Hk. destruct (lookup_lt_is_Some_2 ps k Hk) as [p Ep]. unfold vget. rewrite Ep. cbn [obind]. rewrite (point_weight g k p Hg Ep). cbn [obind].
      rewrite nlit_R. cbn [nadd nmul NumR]. do 2 f_equal.
      induction (incidence (bd_segs b) k) as [|y l IH]; unfold sumR in *; cbn; [lra|]. rewrite <- IH. lra.
  Qed.

  Lemma sum_bounds g : gravity_ok g -> let l := sumR (map (fun sg => sg_length sg * mean_weight g (height_of b (sg_start sg)) (height_of b (sg_end sg))) (bd_segs b)) in
    g_reduce g * bd_length b <= l <= bd_length b.
  Proof.
    intros Hg. cbv zeta. rewrite (total_is_sum W H s s' tg b Hr Hd).
    assert (Hp : forall sg, In sg (bd_segs b) -> 0 <= sg_length sg).
    { intros sg Hin. apply elem_of_list_In, elem_of_list_lookup in Hin as [k Ek]. destruct (segments_good W H s s' tg b Hr Hd k sg Ek) as (_ & pa & pb & _ & _ & _ & _ & Ls & _). rewrite Ls. apply euclid_nonneg. }
    pose proof (go_reduce g Hg) as Hre. revert Hp. generalize (bd_segs b). induction l as [|sg l IH]; intros Hp; unfold sumR in *; cbn; [lra|].
    specialize (IH (fun x Hx => Hp x (or_intror Hx))). pose proof (Hp sg (or_introl eq_refl)) as P.
    pose proof (mean_bounds g (height_of b (sg_start sg)) (height_of b (sg_end sg)) (g_reduce g) 1 Hg (fun j _ => weight_bounds g _ Hre)) as M. nra.
  Qed.
End Discretised.

(** ** Centre of mass *)
Lemma mass_fold g (ps : list (BoundaryPoint R)) (w : nat -> R) :
  (forall k p, ps !! k = Some p -> pointLength g ps p = Ok (w k)) ->
  for_ (length ps) (mass_step g ps) (n0, n0, n0) = Ok (sumf (length ps) (fun k => w k / 2),
    sumf (length ps) (fun k => match ps !! k with Some p => cx (bp_coord p) | None => 0 end * (w k / 2)),
    sumf (length ps) (fun k => match ps !! k with Some p => cy (bp_coord p) | None => 0 end * (w k / 2))).
Proof.
  intros Hw. set (X := fun k => match ps !! k with Some p => cx (bp_coord p) | None => 0 end). set (Y := fun k => match ps !! k with Some p => cy (bp_coord p) | None => 0 end).
  assert (A : wp False False (for_ (length ps) (mass_step g ps) (n0, n0, n0)) (fun r => r = (sumf (length ps) (fun k => w k / 2), sumf (length ps) (fun k => X k * (w k / 2)), sumf (length ps) (fun k => Y k * (w k / 2))))).
  { apply (wp_for False False (fun n r => r = (sumf n (fun k => w k / 2), sumf n (fun k => X k * (w k / 2)), sumf n (fun k => Y k * (w k / 2))))).
    - reflexivity.
    - intros k r Hk ->. destruct (lookup_lt_is_Some_2 ps k Hk) as [p Ep]. unfold mass_step, vget. rewrite Ep. cbn [obind]. rewrite (Hw k p Ep). cbn [obind wp].
      assert (Sr : forall m h, sumf (S m) h = sumf m h + h m) by (intros m h; unfold sumf; rewrite seq_S, map_app, sumR_app; unfold sumR at 2; cbn; lra).
      rewrite !Sr. unfold X, Y. rewrite !Ep. rewrite nlit_R. cbn [nadd nmul NumR]. f_equal; [f_equal|]; lra.
    - auto. }
  apply wp_total in A as (r & -> & ->). reflexivity.
Qed.
Lemma weights_exist g (ps : list (BoundaryPoint R)) l : weightedPerimeter g ps = Ok l ->
  exists w, (forall k p, ps !! k = Some p -> pointLength g ps p = Ok (w k)) /\ l = sumf (length ps) (fun k => w k / 2).
Proof.
  intros E. set (w := fun k => match ps !! k with Some p => match pointLength g ps p with Ok v => v | _ => 0 end | None => 0 end).
  assert (G : forall n i a r, (i + n <= length ps)%nat -> for_from i n (fun i len => let! p := vget ps i in let! l := pointLength g ps p in Ok (len + nlit 1 2 * l)%num) a = Ok r ->
    (forall k p, (i <= k < i + n)%nat -> ps !! k = Some p -> pointLength g ps p = Ok (w k)) /\ r = a + sumR (map (fun k => w k / 2) (seq i n))).
  { induction n as [|n IH]; intros i a r L X; cbn [for_from] in X.
    - injection X as <-. split; [intros; lia|]. unfold sumR. cbn. lra.
    - destruct (lookup_lt_is_Some_2 ps i) as [p Ep]; [lia|]. unfold vget in X at 1. rewrite Ep in X. cbn [obind] in X.
      destruct (pointLength g ps p) as [v| | |] eqn:Ev; try discriminate. cbn [obind] in X. apply IH in X as [X1 X2]; [|lia].
      assert (Wi : w i = v) by (unfold w; rewrite Ep, Ev; reflexivity). split.
      + intros k p' Hk Ek. destruct (Nat.eq_dec k i) as [->|]; [congruence|]. apply X1; [lia|exact Ek].
      + rewrite X2. cbn [seq map]. unfold sumR. cbn [foldr]. rewrite Wi, nlit_R. cbn [nadd nmul NumR]. lra. }
  unfold weightedPerimeter, for_ in E. destruct (G (length ps) 0%nat n0 l ltac:(lia) E) as [E1 E2]. exists w. split.
  - intros k p Ek. apply E1; [apply lookup_lt_Some in Ek; lia|exact Ek].
  - rewrite E2. unfold sumf, n0. cbn. lra.
Qed.

Lemma pointLength_nonneg g ps p v : gravity_ok g -> pointLength g ps p = Ok v -> 0 <= v.
Proof.
  intros Hg E. pose proof (n_pos g Hg) as Hn. pose proof (go_reduce g Hg) as Hre. assert (X : wp True True (pointLength g ps p) (fun v => 0 <= v)).
  { unfold pointLength. apply (wp_for True True (fun _ v => 0 <= v)); [unfold n0; cbn; lra| |auto].
    intros i a _ Ha. unfold arc_to. apply wp_bind.
    unfold vget at 1. destruct (bp_neigh p !! i) as [k|]; cbn [wp]; [|exact I]. apply wp_bind. unfold vget at 1. destruct (ps !! k) as [q|]; cbn [wp]; [|exact I].
    apply (wp_for True True (fun _ v => 0 <= v)); [exact Ha| |auto]. intros j x _ Hx. unfold piece. cbn [wp]. rewrite weight_R by exact Hg.
    cbn [nadd nmul NumR]. apply Rplus_le_le_0_compat; [exact Hx|]. apply Rmult_le_pos; [exact (Rle_trans _ _ _ (proj1 Hre) (proj1 (weight_bounds g _ Hre)))|]. rewrite (nofnat_R (g_n g)).
    apply Rmult_le_pos; [apply sqrt_pos|]. left. apply Rinv_0_lt_compat, Hn. }
  rewrite E in X. exact X.
Qed.

Lemma weighted_mean n (X w : nat -> R) lo hi : (forall k, (k < n)%nat -> 0 <= w k) -> (forall k, (k < n)%nat -> lo <= X k <= hi) -> 0 < sumf n w ->
  lo <= sumf n (fun k => X k * w k) / sumf n w <= hi.
Proof.
  intros Hw Hx Hs.
  assert (A : lo * sumf n w <= sumf n (fun k => X k * w k) <= hi * sumf n w).
  { rewrite <- !sumf_scale. split; apply sumf_le; intros k Hk; specialize (Hw k Hk); specialize (Hx k Hk); nra. }
  split; apply (Rmult_le_reg_r (sumf n w)); try exact Hs; unfold Rdiv; rewrite Rmult_assoc, Rinv_l by lra; lra.
Qed.

Theorem centre_in_box g (ps : list (BoundaryPoint R)) l xlo xhi ylo yhi : gravity_ok g -> weightedPerimeter g ps = Ok l -> 0 < l ->
  (forall p, p ∈ ps -> xlo <= cx (bp_coord p) <= xhi /\ ylo <= cy (bp_coord p) <= yhi) ->
  exists x y, centreOfMass g ps = Ok (x, y) /\ xlo <= x <= xhi /\ ylo <= y <= yhi.
Proof.
  intros Hg El Hl Hb. destruct (weights_exist g ps l El) as (w & Hw & ->). unfold centreOfMass. rewrite (mass_fold g ps w Hw). cbn [obind].
  eexists _, _. split; [reflexivity|]. cbn [ndiv NumR].
  assert (Hn : forall k, (k < length ps)%nat -> 0 <= w k / 2).
  { intros k Hk. destruct (lookup_lt_is_Some_2 ps k Hk) as [p Ep]. pose proof (pointLength_nonneg g ps p _ Hg (Hw k p Ep)). lra. }
  split; apply weighted_mean; try assumption; intros k Hk; destruct (lookup_lt_is_Some_2 ps k Hk) as [p Ep]; rewrite Ep; apply (Hb p), (elem_of_list_lookup_2 _ _ _ Ep).
Qed.

(** ** Moving or mirroring the boundary sideways *)
Definition map_x (a d : R) (p : BoundaryPoint R) : BoundaryPoint R := set_bp_coord (mkCoord (a * cx (bp_coord p) + d) (cy (bp_coord p))) p.
Lemma arc_map_x g ps p i (r : R) a d : a * a = 1 -> arc_to g (map (map_x a d) ps) (map_x a d p) i r = arc_to g ps p i r.
Proof.
  intros Ha. unfold arc_to. cbn [map_x bp_neigh set_bp_coord]. destruct (vget (bp_neigh p) i) as [k| | |]; cbn [obind]; try reflexivity.
  unfold vget. change (map (map_x a d) ps) with (map_x a d <$> ps). rewrite list_lookup_fmap. destruct (ps !! k) as [q|]; cbn [obind fmap option_fmap option_map]; [|reflexivity].
  cbn [map_x bp_coord set_bp_coord cx cy nadd nsub nmul ndiv nsqrt NumR].
  replace ((a * cx (bp_coord q) + d - (a * cx (bp_coord p) + d)) * (a * cx (bp_coord q) + d - (a * cx (bp_coord p) + d)))
    with ((cx (bp_coord q) - cx (bp_coord p)) * (cx (bp_coord q) - cx (bp_coord p))); [reflexivity|].
  transitivity (a * a * ((cx (bp_coord q) - cx (bp_coord p)) * (cx (bp_coord q) - cx (bp_coord p)))); [rewrite Ha; ring|ring].
Qed.
Lemma for_from_eq {S} (f h : nat -> S -> outcome S) n : forall i s, (forall k x, (i <= k < i + n)%nat -> f k x = h k x) -> for_from i n f s = for_from i n h s.
Proof.
  induction n as [|n IH]; intros i s0 E; [reflexivity|]. cbn [for_from]. rewrite E by lia. destruct (h i s0); cbn [obind]; try reflexivity. apply IH. intros; apply E; lia.
Qed.
Lemma pointLength_map_x g ps p a d : a * a = 1 -> pointLength g (map (map_x a d) ps) (map_x a d p) = pointLength g ps p.
Proof. intros Ha. unfold pointLength, for_. cbn [map_x bp_nNeigh set_bp_coord]. apply for_from_eq. intros k x _. apply arc_map_x, Ha. Qed.

Theorem centre_moves g (ps : list (BoundaryPoint R)) l a d x y : weightedPerimeter g ps = Ok l -> l <> 0 -> a * a = 1 -> centreOfMass g ps = Ok (x, y) ->
  weightedPerimeter g (map (map_x a d) ps) = Ok l /\ centreOfMass g (map (map_x a d) ps) = Ok (a * x + d, y).
Proof.
  intros El Hl Ha Ec. split.
  - rewrite <- El. unfold weightedPerimeter, for_. rewrite map_length. apply for_from_eq. intros k r _. unfold vget. change (map (map_x a d) ps) with (map_x a d <$> ps) at 1.
    rewrite list_lookup_fmap. destruct (ps !! k) as [p|]; cbn [obind fmap option_fmap option_map]; [|reflexivity]. rewrite (pointLength_map_x g ps p a d Ha). reflexivity.
  - destruct (weights_exist g ps l El) as (w & Hw & Sl).
    assert (Hw' : forall k p, map (map_x a d) ps !! k = Some p -> pointLength g (map (map_x a d) ps) p = Ok (w k)).
    { intros k p Ek. change (map (map_x a d) ps) with (map_x a d <$> ps) in Ek. rewrite list_lookup_fmap in Ek. destruct (ps !! k) as [q|] eqn:Eq; [|discriminate].
      injection Ek as <-. rewrite (pointLength_map_x g ps q a d Ha). apply Hw, Eq. }
    unfold centreOfMass in *. rewrite (mass_fold g ps w Hw) in Ec. rewrite (mass_fold g _ w Hw'). cbn [obind ndiv NumR] in *. injection Ec as <- <-. rewrite map_length.
    rewrite (sumf_ext _ (fun k => match map (map_x a d) ps !! k with Some p => cx (bp_coord p) | None => 0 end * (w k / 2))
      (fun k => a * (match ps !! k with Some p => cx (bp_coord p) | None => 0 end * (w k / 2)) + d * (w k / 2))).
    2: { intros k Hk. change (map (map_x a d) ps) with (map_x a d <$> ps). rewrite list_lookup_fmap. destruct (lookup_lt_is_Some_2 ps k Hk) as [p Ep]. rewrite Ep.
         cbn [fmap option_fmap option_map map_x bp_coord set_bp_coord cx]. ring. }
    rewrite (sumf_ext _ (fun k => match map (map_x a d) ps !! k with Some p => cy (bp_coord p) | None => 0 end * (w k / 2))
      (fun k => match ps !! k with Some p => cy (bp_coord p) | None => 0 end * (w k / 2))).
    2: { intros k Hk. change (map (map_x a d) ps) with (map_x a d <$> ps). rewrite list_lookup_fmap. destruct (ps !! k); reflexivity. }
    rewrite sumf_add, !sumf_scale. rewrite <- Sl. f_equal. f_equal. field. exact Hl.
Qed.

(** ** Without reduction the length is that of Boundary::computePerimeter *)
Theorem unreduced_length g (b : Boundary R) p : gravity_ok g -> g_reduce g = 1 ->
  pointLength g (bd_points b) p = computePerimeter b p.
Proof.
  intros Hg Hre. unfold pointLength, computePerimeter, for_. apply for_from_eq. intros i r _. unfold perimeter_step.
  destruct (bp_neigh p !! i) as [k|] eqn:Ek; [|unfold arc_to, vget; rewrite Ek; reflexivity].
  destruct (bd_points b !! k) as [q|] eqn:Eq; [|unfold arc_to, vget; rewrite Ek; cbn [obind]; rewrite Eq; reflexivity].
  rewrite (arc_R g _ p i k q r Hg Ek Eq). unfold vget. rewrite Ek. cbn [obind]. rewrite Eq. cbn [obind].
  pose proof (mean_bounds g (cy (bp_coord p)) (cy (bp_coord q)) 1 1 Hg) as M. destruct M as [M1 M2].
  { intros j _. pose proof (weight_bounds g (cy (bp_coord p) + (INR j + 1 / 2) / INR (g_n g) * (cy (bp_coord q) - cy (bp_coord p))) ltac:(lra)). lra. }
  assert (mean_weight g (cy (bp_coord p)) (cy (bp_coord q)) = 1) as -> by lra. rewrite Rmult_1_r. reflexivity.
Qed.
