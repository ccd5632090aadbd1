(** * Perimeter: the length of the boundary from the values at the corners, and of level sets that are turned or mirrored (C83). *)

From Verif Require Import MeshModel MeshSpec MeshProofs MeshTopo FmmSpec LevelSetModel LevelSetSpec LevelSetSpecR LevelSetCalls LevelSetHist
  BoundaryModel BoundarySpec BoundaryFrame BoundaryProofs BoundaryLinks BoundarySpecR BoundaryReal BoundaryGraph BoundaryRun BoundaryLocal BoundaryClosed NumInt NumR FmmReal AreaSort AreaRule AreaCut
  AreaOrderSpec AreaOrder SymmetrySpec Symmetry.
From Coq Require Import Reals Lra Psatz.
Local Open Scope R_scope.
Local Notation pos := inside.

(** ** The contour in one element, no corner on it. *)
Lemma hyp_sym a b c : hyp a b c = hyp a c b.
Proof. unfold hyp. f_equal. ring. Qed.
Lemma span_sym a b c d : span a b c d = span d c b a.
Proof. unfold span. f_equal. ring. Qed.
Lemma len4_transpose x0 x1 x2 x3 : len4 x0 x3 x2 x1 = len4 x0 x1 x2 x3.
Proof.
  unfold len4. replace (x0 + x3 + x2 + x1) with (x0 + x1 + x2 + x3) by ring.
  rewrite (hyp_sym x0 x3), (hyp_sym x1 x0), (hyp_sym x2 x1), (hyp_sym x3 x2), (span_sym x0 x1), (span_sym x3 x0), (span_sym x2 x3), (span_sym x1 x2).
  destruct (pos x0), (pos x1), (pos x2), (pos x3); try reflexivity; try apply span_sym; try apply hyp_sym; destruct (Rlt_dec _ _); lra.
Qed.
Definition alternate (x0 x1 x2 x3 : R) : Prop := pos x0 = pos x2 /\ pos x1 = pos x3 /\ pos x0 <> pos x1.
Lemma len4_mirror x0 x1 x2 x3 : ~ (alternate x0 x1 x2 x3 /\ x0 + x1 + x2 + x3 = 0) -> len4 x1 x0 x3 x2 = len4 x0 x1 x2 x3.
Proof.
  intros N. unfold len4, alternate in *. replace (x1 + x0 + x3 + x2) with (x0 + x1 + x2 + x3) by ring.
  rewrite (hyp_sym x1 x0), (hyp_sym x0 x3), (hyp_sym x3 x2), (hyp_sym x2 x1), (span_sym x1 x2), (span_sym x0 x1), (span_sym x3 x0), (span_sym x2 x3).
  destruct (pos x0), (pos x1), (pos x2), (pos x3); try reflexivity; try apply span_sym;
    assert (x0 + x1 + x2 + x3 <> 0) by (intros Z; apply N; repeat split; congruence); destruct (Rlt_dec 0 _), (Rlt_dec _ 0); lra.
Qed.

(** ** The segments of an element. *)
Lemma sqrt_same a b : a = b -> R_sqrt.sqrt a = R_sqrt.sqrt b. Proof. intros ->. reflexivity. Qed.
Section Elem.
  Variables (X Y : R) (z : nat -> R).
  Hypothesis Hper : forall j, z (j + 4)%nat = z j.
  Hypothesis Hnz : forall j, z j <> 0.
  Let at_ (v : vert) : Coord R := rim X Y (spot4 (u z 0) (u z 1) (u z 2) (u z 3) v).
  Let S4 := tab4 (sgn (z 0%nat)) (sgn (z 1%nat)) (sgn (z 2%nat)) (sgn (z 3%nat)).
  Let sum := z 0%nat + z 1%nat + z 2%nat + z 3%nat.
  Let c : bool := (is_inside (S4 0%nat) && Rltb 0 sum) || (is_outside (S4 0%nat) && Rltb sum 0).
  Lemma sgn_pos_eq v : v <> 0 -> sgn v = if pos v then NS_INSIDE else NS_OUTSIDE.
  Proof. intros N. unfold inside. destruct (Rlt_dec 0 v); [apply sgn_pos; assumption|apply sgn_neg; lra]. Qed.
  Lemma local_length : sumR (map (fun t => euclid (at_ (fst t)) (at_ (snd t))) (local_segs S4 c)) = len4 (z 0%nat) (z 1%nat) (z 2%nat) (z 3%nat).
  Proof.
    pose proof (Hnz 0%nat) as N0. pose proof (Hnz 1%nat) as N1. pose proof (Hnz 2%nat) as N2. pose proof (Hnz 3%nat) as N3.
    unfold c, S4, tab4, at_, len4. unfold u. cbn [Nat.add]. rewrite (Hper 0 : z 4%nat = z 0%nat). unfold sum. clear c at_ S4 sum.
    generalize dependent (z 0%nat). generalize dependent (z 1%nat). generalize dependent (z 2%nat). generalize dependent (z 3%nat). intros x3 N3 x2 N2 x1 N1 x0 N0.
    assert (Sh : forall x y, x <> 0 -> y <> 0 -> pos x = negb (pos y) -> 0 < share x y < 1 /\ share y x = 1 - share x y).
    { intros x y Nx Ny P. unfold inside in P. destruct (share_opp x y) as (A & B & _); [destruct (Rlt_dec 0 x), (Rlt_dec 0 y); try discriminate P; nra|]. auto. }
    pose proof (Sh x0 x1 N0 N1) as S01. pose proof (Sh x1 x2 N1 N2) as S12. pose proof (Sh x2 x3 N2 N3) as S23. pose proof (Sh x3 x0 N3 N0) as S30.
    rewrite !sgn_pos_eq by assumption.
    destruct (pos x0), (pos x1), (pos x2), (pos x3); cbn [negb] in *;
      repeat match goal with H : true = true -> _ |- _ => specialize (H eq_refl); destruct H as [? ?] | H : false = false -> _ |- _ => specialize (H eq_refl); destruct H as [? ?] | H : true = false -> _ |- _ => clear H | H : false = true -> _ |- _ => clear H end;
      cbn -[Rltb]; try (destruct (Rltb_spec 0 (x0 + x1 + x2 + x3)), (Rlt_dec 0 (x0 + x1 + x2 + x3)); try lra); try (destruct (Rltb_spec (x0 + x1 + x2 + x3) 0), (Rlt_dec (x0 + x1 + x2 + x3) 0); try lra);
      unfold sumR; cbn -[Rltb]; rewrite ?rim0, ?rim1, ?rim2, ?rim3 by lra; unfold euclid, hyp, span, euclid2; cbn [cx cy]; rewrite ?Rplus_0_r; try reflexivity; try (f_equal; apply sqrt_same); try apply sqrt_same.
    all: repeat match goal with H : share _ _ = 1 - share _ _ |- _ => rewrite H; clear H end; ring.
  Qed.
End Elem.

(** ** All segments. *)
Lemma split_sum (l : list (BoundarySegment R)) n : Forall (fun sg => (sg_elem sg < n)%nat) l ->
  sumR (map sg_length l) = sumR (map (fun e => sumR (map sg_length (List.filter (fun sg => (sg_elem sg =? e)%nat) l))) (seq 0 n)).
Proof.
  induction l as [|sg l IH]; intros F.
  - cbn. clear. induction (seq 0 n) as [|a q IH]; [reflexivity|]. cbn. unfold sumR in *. cbn in *. rewrite <- IH. lra.
  - inversion F as [|? ? Lt F']; subst. specialize (IH F'). change (sumR (map sg_length (sg :: l))) with (sg_length sg + sumR (map sg_length l)). rewrite IH. clear IH F F'.
    cbn [List.filter]. set (g := fun e => sumR (map sg_length (List.filter (fun sg0 => (sg_elem sg0 =? e)%nat) l))).
    assert (G : forall m a, sumR (map (fun e => sumR (map sg_length (if (sg_elem sg =? e)%nat then sg :: List.filter (fun sg0 => (sg_elem sg0 =? e)%nat) l else List.filter (fun sg0 => (sg_elem sg0 =? e)%nat) l))) (seq a m)) =
      (if ((a <=? sg_elem sg) && (sg_elem sg <? a + m))%nat then sg_length sg else 0) + sumR (map g (seq a m))).
    { induction m as [|m IHm]; intros a.
      - cbn [seq map]. unfold sumR. cbn [foldr]. destruct (Nat.leb_spec a (sg_elem sg)), (Nat.ltb_spec (sg_elem sg) (a + 0)); cbn [andb]; try lia; lra.
      - cbn [seq map]. change (sumR (?x :: ?q)) with (x + sumR q). rewrite IHm. fold (g a).
        destruct (Nat.eqb_spec (sg_elem sg) a) as [->|Ne].
        + change (sumR (map sg_length (sg :: ?q))) with (sg_length sg + sumR (map sg_length q)). fold (g a).
          destruct (Nat.leb_spec a a), (Nat.leb_spec (S a) a), (Nat.ltb_spec a (a + S m)), (Nat.ltb_spec a (S a + m)); cbn [andb]; try lia; lra.
        + fold (g a). destruct (Nat.leb_spec a (sg_elem sg)), (Nat.leb_spec (S a) (sg_elem sg)), (Nat.ltb_spec (sg_elem sg) (a + S m)), (Nat.ltb_spec (sg_elem sg) (S a + m)); cbn [andb]; try lia; lra. }
    rewrite G. cbn [Nat.leb andb Nat.add]. rewrite (proj2 (Nat.ltb_lt _ _) Lt). reflexivity.
Qed.
Theorem perimeter W H s tg sd s' b : measurable W H s tg sd -> discretise s tg = Ok (s', b) ->
  (0 < W)%nat /\ bd_length b = sumR (map (fun e => len4 (corner_value W sd e 0) (corner_value W sd e 1) (corner_value W sd e 2) (corner_value W sd e 3)) (seq 0 (W * H))).
Proof.
  intros (-> & Hr & Ho & Hc & Hv) Hd. pose proof (proj1 (tp_fits _ _ _ (ok_topo _ _ _ (so_ok _ _ _ (reached_sound _ _ _ Hr))))) as HW. split; [exact HW|].
  change (if tg then ls_target s else ls_sd s) with (BoundaryLinks.field s tg) in *. set (sd := BoundaryLinks.field s tg) in *.
  destruct (closed_rep W H s tg Hr Hc Ho Hv s' b Hd) as [pl Rp].
  rewrite (total_is_sum W H s s' tg b Hr Hd).
  assert (F : Forall (fun sg => (sg_elem sg < W * H)%nat) (bd_segs b)).
  { apply Forall_lookup_2. intros k sg Ek. exact (proj1 (segments_good W H s s' tg b Hr Hd k sg Ek)). }
  rewrite (split_sum _ _ F). f_equal. apply map_ext_in. intros e He. apply in_seq in He. assert (Le : (e < W * H)%nat) by lia.
  pose proof (seg_ends W H s s' tg b e pl Hr Hc (off_len W H s tg Hr Ho) Rp Le) as SE.
  assert (Nz : forall j, corner_value W sd e j <> 0) by (intros j; destruct (value_at W H sd e j HW Le Ho) as (_ & _ & _ & _ & N); exact N).
  assert (Es : forall j, snap (corner_value W sd e j) = corner_value W sd e j).
  { intros j. unfold snap. destruct (Rlt_dec _ _) as [L|L]; [|reflexivity]. exfalso. assert (Hj : (j mod 4 < 4)%nat) by (apply Nat.mod_upper_bound; lia).
    destruct (Ho (corner W e (j mod 4))) as (v & Ev & Lv); [apply (corner_lt W H e _ HW Le Hj)|]. unfold corner_value in L. rewrite (nth_lookup_Some _ _ _ _ Ev) in L. lra. }
  rewrite <- (local_length (INR (e mod W)) (INR (e / W)) (corner_value W sd e) (value_per W sd e) Nz).
  fold sd in SE. set (L := local_segs (sides W sd e) (saddle W sd e)) in SE.
  assert (EL : local_segs (tab4 (sgn (corner_value W sd e 0)) (sgn (corner_value W sd e 1)) (sgn (corner_value W sd e 2)) (sgn (corner_value W sd e 3)))
     ((is_inside (sgn (corner_value W sd e 0)) && Rltb 0 (corner_value W sd e 0 + corner_value W sd e 1 + corner_value W sd e 2 + corner_value W sd e 3)) ||
      (is_outside (sgn (corner_value W sd e 0)) && Rltb (corner_value W sd e 0 + corner_value W sd e 1 + corner_value W sd e 2 + corner_value W sd e 3) 0)) = L).
  { pose proof (fun j => x_val W H s tg e Hr (off_len W H s tg Hr Ho) Le j) as XV.
    unfold L. rewrite (local_tab (sides W sd e)). destruct (XV 0%nat ltac:(lia)) as [V0 S0], (XV 1%nat ltac:(lia)) as [V1 S1], (XV 2%nat ltac:(lia)) as [V2 S2], (XV 3%nat ltac:(lia)) as [V3 S3].
    fold sd in V0, V1, V2, V3. change (sides W sd e 0 = sgn (snap (corner_value W sd e 0))) in S0. change (sides W sd e 1 = sgn (snap (corner_value W sd e 1))) in S1. change (sides W sd e 2 = sgn (snap (corner_value W sd e 2))) in S2. change (sides W sd e 3 = sgn (snap (corner_value W sd e 3))) in S3. rewrite S0, S1, S2, S3, !Es. f_equal. unfold saddle. rewrite V0, V1, V2, V3. change (st_of sd (corner W e 0)) with (sides W sd e 0). rewrite S0, Es.
    cbn [nadd nltb NumR]. change (@n0 R NumR) with 0. rewrite Rplus_0_l. reflexivity. }
  change (tab4 ?a ?b ?c ?d 0%nat) with a. rewrite EL. clearbody L. clear EL.
  assert (Q : forall q, Forall (fun sg => exists k, bd_segs b !! k = Some sg) q ->
    Forall2 (fun t sg => exists p p', bd_points b !! sg_start sg = Some p /\ bd_points b !! sg_end sg = Some p' /\ bp_coord p = vr W s tg e (fst t) /\ bp_coord p' = vr W s tg e (snd t)) L q ->
    sumR (map sg_length q) = sumR (map (fun t => euclid (vr W s tg e (fst t)) (vr W s tg e (snd t))) L)).
  { clear SE. induction L as [|t L IH]; intros q Fq SE; inversion SE as [|? sg ? q' Hp SE']; subst; [reflexivity|]. inversion Fq as [|? ? [k Ek] Fq']; subst.
    destruct Hp as (p & p' & Ep & Eq & Cp & Cq). destruct (segments_good W H s s' tg b Hr Hd k sg Ek) as (_ & p1 & p2 & ? & ? & Ep1 & Eq1 & Len & _).
    assert (p1 = p) by congruence. assert (p2 = p') by congruence. subst p1 p2.
    cbn [map]. change (sumR (?x :: ?q)) with (x + sumR q). rewrite (IH q' Fq' SE'), Len, Cp, Cq. reflexivity. }
  rewrite (Q _ ltac:(apply Forall_forall; intros sg Hin; apply elem_of_list_In, filter_In in Hin as [Hin _]; apply elem_of_list_In, elem_of_list_lookup in Hin; exact Hin) SE).
  f_equal. apply map_ext. intros [v w]. cbn [fst snd].
  assert (Ev : forall v, vr W s tg e v = rim (INR (e mod W)) (INR (e / W)) (spot4 (u (corner_value W sd e) 0) (u (corner_value W sd e) 1) (u (corner_value W sd e) 2) (u (corner_value W sd e) 3) v)).
  { intros v'. unfold vr, u. fold sd. rewrite !Es. reflexivity. }
  rewrite !Ev. reflexivity.
Qed.

(** ** Turned and mirrored. *)
Lemma sum_eq l : sumR l = fold_right Rplus 0 l. Proof. reflexivity. Qed.
Lemma turned_length W H V K s t tg tg' sd sd' s' t' b c (f : nat -> nat -> nat * nat) : measurable W H s tg sd -> measurable V K t tg' sd' -> (W * H = V * K)%nat ->
  discretise s tg = Ok (s', b) -> discretise t tg' = Ok (t', c) ->
  (forall x y, (x < W)%nat -> (y < H)%nat -> (fst (f x y) < V)%nat /\ (snd (f x y) < K)%nat) ->
  (forall x y u v, (x < W)%nat -> (y < H)%nat -> (u < W)%nat -> (v < H)%nat -> f x y = f u v -> x = u /\ y = v) ->
  (forall x y, (x < W)%nat -> (y < H)%nat -> let '(u, v) := f x y in
    len4 (val V sd' u v) (val V sd' (u + 1) v) (val V sd' (u + 1) (v + 1)) (val V sd' u (v + 1)) = len4 (val W sd x y) (val W sd (x + 1) y) (val W sd (x + 1) (y + 1)) (val W sd x (y + 1))) ->
  bd_length b = bd_length c.
Proof.
  intros Ms Mt EN Hs Ht Hr Hi Ha. destruct (perimeter _ _ _ _ _ _ _ Ms Hs) as [HW ->]. destruct (perimeter _ _ _ _ _ _ _ Mt Ht) as [HV ->]. rewrite !sum_eq.
  set (g := fun e => let '(u, v) := f (e mod W)%nat (e / W)%nat in (u + v * V)%nat).
  assert (G : forall x y, (x < W)%nat -> g (x + y * W)%nat = (fst (f x y) + snd (f x y) * V)%nat).
  { intros x y Hx. unfold g. rewrite Nat.mod_add, Nat.mod_small, Nat.div_add, Nat.div_small by lia. cbn [Nat.add]. destruct (f x y). reflexivity. }
  apply (same_sum (W * H) _ _ g); [rewrite map_length, seq_length; reflexivity|rewrite map_length, seq_length; congruence| |].
  - intros e He. destruct (element_xy W H e He) as (x & y & Hx & Hy & ->). rewrite (G x y Hx). destruct (Hr x y Hx Hy) as [Lu Lv]. specialize (Ha x y Hx Hy). destruct (f x y) as [u v]. cbn [fst snd] in *.
    split; [rewrite EN; apply xy_lt; assumption|]. rewrite !list_lookup_fmap, !lookup_seq_lt by (try exact He; apply xy_lt; assumption). cbn [option_map Nat.add fmap option_fmap].
    destruct (corner_values W sd x y Hx) as (-> & -> & -> & ->). destruct (corner_values V sd' u v Lu) as (-> & -> & -> & ->). rewrite Ha. reflexivity.
  - intros e k He Hk E. destruct (element_xy W H e He) as (x & y & Hx & Hy & ->). destruct (element_xy W H k Hk) as (u & v & Hu & Hv & ->). rewrite (G x y Hx), (G u v Hu) in E.
    destruct (Hr x y Hx Hy) as [L1 _]. destruct (Hr u v Hu Hv) as [L2 _]. destruct (xy_inj V _ _ _ _ L1 L2 E) as [E1 E2].
    destruct (Hi x y u v Hx Hy Hu Hv) as [-> ->]; [|reflexivity]. destruct (f x y), (f u v). cbn in *. congruence.
Qed.

Lemma unbalanced W sd x y : (x < W)%nat -> ~ balanced W sd (x + y * W) -> (forall j, corner_value W sd (x + y * W) j <> 0) ->
  ~ (alternate (val W sd x y) (val W sd (x + 1) y) (val W sd (x + 1) (y + 1)) (val W sd x (y + 1)) /\ val W sd x y + val W sd (x + 1) y + val W sd (x + 1) (y + 1) + val W sd x (y + 1) = 0).
Proof.
  intros Hx N Nz [(A & B & C) Z]. apply N. destruct (corner_values W sd x y Hx) as (E0 & E1 & E2 & E3). split; [|rewrite E0, E1, E2, E3; exact Z].
  pose proof (Nz 0%nat) as N0. pose proof (Nz 1%nat) as N1. pose proof (Nz 2%nat) as N2. pose proof (Nz 3%nat) as N3. rewrite E0 in N0. rewrite E1 in N1. rewrite E2 in N2. rewrite E3 in N3.
  unfold inside in A, B, C.
  intros [|[|[|[|j]]]] Lj; [..|lia]; cbn [Nat.add]; [|..|change (corner_value W sd (x + y * W) 4) with (corner_value W sd (x + y * W) (0 + 4)); rewrite value_per]; rewrite ?E0, ?E1, ?E2, ?E3;
    destruct (Rlt_dec 0 (val W sd x y)), (Rlt_dec 0 (val W sd (x + 1) y)), (Rlt_dec 0 (val W sd (x + 1) (y + 1))), (Rlt_dec 0 (val W sd x (y + 1))); try congruence; nra.
Qed.
Lemma nonzero W H s tg sd e : measurable W H s tg sd -> (e < W * H)%nat -> forall j, corner_value W sd e j <> 0.
Proof.
  intros (-> & Hr & Ho & _) He j. pose proof (proj1 (tp_fits _ _ _ (ok_topo _ _ _ (so_ok _ _ _ (reached_sound _ _ _ Hr))))) as HW.
  destruct (value_at W H _ e j HW He Ho) as (_ & _ & _ & _ & N). exact N.
Qed.
Theorem mirror_length W H s t tg tg' sd sd' s' t' b c : measurable W H s tg sd -> measurable W H t tg' sd' -> mirrored (W + 1) (H + 1) sd sd' ->
  (forall e, (e < W * H)%nat -> ~ balanced W sd e) -> discretise s tg = Ok (s', b) -> discretise t tg' = Ok (t', c) -> bd_length b = bd_length c.
Proof.
  intros Ms Mt Mi Nb Hs Ht. apply (turned_length W H W H s t tg tg' sd sd' s' t' b c (fun x y => (W - 1 - x, y)%nat) Ms Mt eq_refl Hs Ht).
  - intros x y Hx Hy. cbn. lia.
  - intros x y u v Hx Hy Hu Hv [= E1 E2]. lia.
  - intros x y Hx Hy. pose proof (xy_lt W H x y Hx Hy) as Le.
    assert (V : forall a b, (a <= W)%nat -> (b <= H)%nat -> val W sd' (W - a) b = val W sd a b).
    { intros a b0 La Lb. apply val_at. rewrite <- (Mi a b0) by lia. f_equal. lia. }
    pose proof (len4_mirror _ _ _ _ (unbalanced W sd x y Hx (Nb _ Le) (nonzero _ _ _ _ _ _ Ms Le))) as Q. revert Q.
    rewrite <- (V x y), <- (V (x + 1)%nat y), <- (V x (y + 1)%nat), <- (V (x + 1)%nat (y + 1)%nat) by lia.
    replace (W - (x + 1))%nat with (W - 1 - x)%nat by lia. replace (W - x)%nat with (W - 1 - x + 1)%nat by lia. intros Q. exact Q.
Qed.
Lemma len4_flip x0 x1 x2 x3 : ~ (alternate x0 x1 x2 x3 /\ x0 + x1 + x2 + x3 = 0) -> len4 x3 x2 x1 x0 = len4 x0 x1 x2 x3.
Proof.
  intros N. rewrite <- (len4_transpose x3 x2 x1 x0), (len4_mirror x0 x3 x2 x1); [apply len4_transpose|]. unfold alternate in *. intros [(A & B & C) Z]. apply N. split; [repeat split; congruence|lra].
Qed.
Theorem flip_length W H s t tg tg' sd sd' s' t' b c : measurable W H s tg sd -> measurable W H t tg' sd' -> upside_down (W + 1) (H + 1) sd sd' ->
  (forall e, (e < W * H)%nat -> ~ balanced W sd e) -> discretise s tg = Ok (s', b) -> discretise t tg' = Ok (t', c) -> bd_length b = bd_length c.
Proof.
  intros Ms Mt Mi Nb Hs Ht. apply (turned_length W H W H s t tg tg' sd sd' s' t' b c (fun x y => (x, H - 1 - y)%nat) Ms Mt eq_refl Hs Ht).
  - intros x y Hx Hy. cbn. lia.
  - intros x y u v Hx Hy Hu Hv [= E1 E2]. lia.
  - intros x y Hx Hy. pose proof (xy_lt W H x y Hx Hy) as Le.
    assert (V : forall a b, (a <= W)%nat -> (b <= H)%nat -> val W sd' a (H - b) = val W sd a b).
    { intros a b0 La Lb. apply val_at. rewrite <- (Mi a b0) by lia. f_equal. lia. }
    pose proof (len4_flip _ _ _ _ (unbalanced W sd x y Hx (Nb _ Le) (nonzero _ _ _ _ _ _ Ms Le))) as Q. revert Q.
    rewrite <- (V x y), <- (V (x + 1)%nat y), <- (V x (y + 1)%nat), <- (V (x + 1)%nat (y + 1)%nat) by lia.
    replace (H - (y + 1))%nat with (H - 1 - y)%nat by lia. replace (H - y)%nat with (H - 1 - y + 1)%nat by lia. intros Q. exact Q.
Qed.
Theorem transpose_length W H s t tg tg' sd sd' s' t' b c : measurable W H s tg sd -> measurable H W t tg' sd' -> transposed (W + 1) (H + 1) sd sd' ->
  discretise s tg = Ok (s', b) -> discretise t tg' = Ok (t', c) -> bd_length b = bd_length c.
Proof.
  intros Ms Mt Mi Hs Ht. apply (turned_length W H H W s t tg tg' sd sd' s' t' b c (fun x y => (y, x)%nat) Ms Mt (Nat.mul_comm _ _) Hs Ht).
  - intros x y Hx Hy. cbn. lia.
  - intros x y u v Hx Hy Hu Hv [= E1 E2]. lia.
  - intros x y Hx Hy.
    assert (V : forall a b, (a <= W)%nat -> (b <= H)%nat -> val H sd' b a = val W sd a b).
    { intros a b0 La Lb. apply val_at. rewrite <- (Mi a b0) by lia. f_equal. }
    rewrite !V by lia. apply len4_transpose.
Qed.

(** ** A balanced saddle. *)
Lemma square_length v s s' b : measurable 1 1 s false v -> discretise s false = Ok (s', b) -> bd_length b = len4 (nth 0 v 0) (nth 1 v 0) (nth 3 v 0) (nth 2 v 0).
Proof. intros M D. destruct (perimeter _ _ _ _ _ _ _ M D) as [_ ->]. cbn [Nat.mul Nat.add seq map]. unfold sumR. cbn [foldr]. rewrite Rplus_0_r. reflexivity. Qed.
Theorem balanced_length : exists s t s' t' b c, measurable 1 1 s false [3/2; -2; -1; 3/2] /\ measurable 1 1 t false [-2; 3/2; 3/2; -1] /\
  mirrored 2 2 [3/2; -2; -1; 3/2] [-2; 3/2; 3/2; -1] /\ discretise s false = Ok (s', b) /\ discretise t false = Ok (t', c) /\ bd_length b <> bd_length c.
Proof.
  assert (Ab : Rabs (3/2) = 3/2 /\ Rabs (-2) = 2 /\ Rabs (-1) = 1) by (rewrite (Rabs_pos_eq (3/2)), !Rabs_left by lra; lra). destruct Ab as (A1 & A2 & A3).
  destruct (square_case [3/2; -2; -1; 3/2] eq_refl) as (s & Ms & l & A & s' & b & s'' & Ds & _); [repeat constructor; rewrite ?A1, ?A2, ?A3; lra|].
  destruct (square_case [-2; 3/2; 3/2; -1] eq_refl) as (t & Mt & m & B & t' & c & t'' & Dt & _); [repeat constructor; rewrite ?A1, ?A2, ?A3; lra|].
  exists s, t, s', t', b, c. split; [exact Ms|]. split; [exact Mt|]. split; [intros [|[|x]] [|[|y]] Hx Hy; try lia; reflexivity|]. split; [exact Ds|]. split; [exact Dt|].
  rewrite (square_length _ _ _ _ Ms Ds), (square_length _ _ _ _ Mt Dt). cbn [nth]. unfold len4, inside.
  destruct (Rlt_dec 0 (3/2)); [|lra]. destruct (Rlt_dec 0 (-2)); [lra|]. destruct (Rlt_dec 0 (-1)); [lra|]. destruct (Rlt_dec 0 _); [lra|]. destruct (Rlt_dec _ 0); [lra|].
  unfold hyp, share. rewrite A1, A2, A3. intros E.
  assert (S1 : forall x y, 0 <= y -> x = y * y -> R_sqrt.sqrt x = y) by (intros x y P ->; apply sqrt_square, P).
  replace (3 / 2 / (3 / 2 + 2) * (3 / 2 / (3 / 2 + 2)) + 3 / 2 / (3 / 2 + 1) * (3 / 2 / (3 / 2 + 1))) with (666 / 1225) in E by field.
  replace (3 / 2 / (3 / 2 + 1) * (3 / 2 / (3 / 2 + 1)) + 3 / 2 / (3 / 2 + 2) * (3 / 2 / (3 / 2 + 2))) with (666 / 1225) in E by field.
  replace (2 / (2 + 3 / 2) * (2 / (2 + 3 / 2)) + 2 / (2 + 3 / 2) * (2 / (2 + 3 / 2))) with (2 * ((4/7) * (4/7))) in E by field.
  replace (1 / (1 + 3 / 2) * (1 / (1 + 3 / 2)) + 1 / (1 + 3 / 2) * (1 / (1 + 3 / 2))) with (2 * ((2/5) * (2/5))) in E by field.
  rewrite !(sqrt_mult 2), !sqrt_square in E by lra.
  pose proof (sqrt_sqrt 2 ltac:(lra)) as Q2. pose proof (sqrt_sqrt (666 / 1225) ltac:(lra)) as Q6. pose proof (sqrt_pos 2). pose proof (sqrt_pos (666/1225)).
  assert (E' : R_sqrt.sqrt (666 / 1225) = R_sqrt.sqrt 2 * (17 / 35)) by lra. rewrite E' in Q6. nra.
Qed.
