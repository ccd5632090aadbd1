(** * Symmetry: areas of level sets that are turned or mirrored (C83). *)

From Coq Require Import Reals Lra Lia.
From Verif Require Import Base Num NumR MeshModel MeshSpec LevelSetModel LevelSetSpec LevelSetCalls BoundaryModel BoundarySpec BoundarySpecR AreaOrderSpec AreaOrder SymmetrySpec.
Local Open Scope R_scope.

Lemma area4_flip x0 x1 x2 x3 : area4 x0 x1 x2 x3 = area4 x1 x0 x3 x2.
Proof. unfold area4, cut3. destruct (pos x0), (pos x1), (pos x2), (pos x3); repeat destruct (Rlt_dec _ _); try reflexivity; try lra. Qed.
Lemma sum_perm l m : l ≡ₚ m -> fold_right Rplus 0 l = fold_right Rplus 0 m.
Proof. induction 1; cbn; lra. Qed.
Lemma list_seq (l : list R) n : length l = n -> l = (fun e => nth e l 0) <$> seq 0 n.
Proof.
  intros E. apply list_eq. intros i. rewrite list_lookup_fmap. destruct (decide (i < n)%nat) as [L|L].
  - rewrite lookup_seq_lt by exact L. cbn. destruct (l !! i) as [x|] eqn:Ex; [rewrite (nth_lookup_Some _ _ _ _ Ex); reflexivity|]. apply lookup_ge_None in Ex. lia.
  - rewrite lookup_seq_ge by lia. apply lookup_ge_None. lia.
Qed.
Lemma same_sum n (l m : list R) (f : nat -> nat) : length l = n -> length m = n -> (forall e, (e < n)%nat -> (f e < n)%nat /\ m !! f e = l !! e) ->
  (forall e k, (e < n)%nat -> (k < n)%nat -> f e = f k -> e = k) -> fold_right Rplus 0 l = fold_right Rplus 0 m.
Proof.
  intros Ll Lm Hf Inj. rewrite (list_seq l n Ll), (list_seq m n Lm). apply sum_perm.
  assert (P : f <$> seq 0 n ≡ₚ seq 0 n).
  { apply NoDup_Permutation_bis.
    - apply NoDup_ListNoDup. apply NoDup_fmap_2_strong; [|apply NoDup_seq]. intros e k He Hk. apply elem_of_seq in He, Hk. apply Inj; lia.
    - rewrite fmap_length. lia.
    - intros x Hx. apply elem_of_list_In, elem_of_list_fmap in Hx as (e & -> & He). apply elem_of_seq in He. apply elem_of_list_In, elem_of_seq. destruct (Hf e) as [? _]; lia. }
  rewrite <- P at 2. rewrite <- list_fmap_compose. apply Permutation_refl', map_ext_in. intros e He. apply in_seq in He. cbn.
  destruct (Hf e ltac:(lia)) as [L E]. destruct (l !! e) as [x|] eqn:Ex; [|apply lookup_ge_None in Ex; lia]. rewrite (nth_lookup_Some _ _ _ _ Ex), (nth_lookup_Some _ _ _ _ E). reflexivity.
Qed.

Definition val (W : nat) (sd : list R) (x y : nat) : R := nth (x + y * (W + 1)) sd 0.
Lemma corner_values W sd x y : (x < W)%nat -> corner_value W sd (x + y * W) 0 = val W sd x y /\ corner_value W sd (x + y * W) 1 = val W sd (x + 1) y /\
  corner_value W sd (x + y * W) 2 = val W sd (x + 1) (y + 1) /\ corner_value W sd (x + y * W) 3 = val W sd x (y + 1).
Proof.
  intros L. unfold corner_value, corner, val.
  change (0 mod 4)%nat with 0%nat. change (1 mod 4)%nat with 1%nat. change (2 mod 4)%nat with 2%nat. change (3 mod 4)%nat with 3%nat.
  rewrite Nat.mod_add, Nat.mod_small by lia. rewrite Nat.div_add, Nat.div_small by lia. cbn [Nat.add].
  unfold corners_spec, node_id. cbn [nth].
  repeat split; f_equal; lia.
Qed.
Lemma val_at W sd sd' x y x' y' (n : nat) : at_xy (n + 1) sd' x' y' = at_xy (W + 1) sd x y -> val n sd' x' y' = val W sd x y.
Proof. unfold at_xy, val. rewrite !nth_lookup. intros ->. reflexivity. Qed.
Lemma element_xy W H e : (e < W * H)%nat -> exists x y, (x < W)%nat /\ (y < H)%nat /\ e = (x + y * W)%nat.
Proof.
  intros L. assert (W <> 0)%nat by (intros ->; lia). exists (e mod W)%nat, (e / W)%nat. split; [apply Nat.mod_upper_bound; lia|]. split; [apply Nat.div_lt_upper_bound; lia|].
  rewrite (Nat.div_mod e W) at 1 by lia. lia.
Qed.
Lemma xy_lt W H x y : (x < W)%nat -> (y < H)%nat -> (x + y * W < W * H)%nat. Proof. nia. Qed.
Lemma xy_inj W x y u v : (x < W)%nat -> (u < W)%nat -> (x + y * W = u + v * W)%nat -> x = u /\ y = v.
Proof.
  intros Hx Hu E. pose proof (f_equal (fun n => n mod W)%nat E) as E1. pose proof (f_equal (fun n => n / W)%nat E) as E2. cbn beta in *.
  rewrite !Nat.mod_add, !Nat.mod_small in E1 by lia. rewrite !Nat.div_add, !Nat.div_small in E2 by lia. lia.
Qed.

(** [f] and [g] turn coordinates of elements; nodes follow. *)
Lemma turned_areas W H V K s t tg tg' sd sd' l m A B (f : nat -> nat -> nat * nat) : measurable W H s tg sd -> measurable V K t tg' sd' -> (W * H = V * K)%nat ->
  measured s tg l A -> measured t tg' m B ->
  (forall x y, (x < W)%nat -> (y < H)%nat -> (fst (f x y) < V)%nat /\ (snd (f x y) < K)%nat) ->
  (forall x y u v, (x < W)%nat -> (y < H)%nat -> (u < W)%nat -> (v < H)%nat -> f x y = f u v -> x = u /\ y = v) ->
  (forall x y, (x < W)%nat -> (y < H)%nat -> let '(u, v) := f x y in
    area4 (val V sd' u v) (val V sd' (u + 1) v) (val V sd' (u + 1) (v + 1)) (val V sd' u (v + 1)) = area4 (val W sd x y) (val W sd (x + 1) y) (val W sd (x + 1) (y + 1)) (val W sd x (y + 1))) ->
  (forall x y, (x < W)%nat -> (y < H)%nat -> at_xy V m (fst (f x y)) (snd (f x y)) = at_xy W l x y) /\ A = B.
Proof.
  intros Ms Mt EN Hs Ht Hr Hi Ha. destruct (measured_areas _ _ _ _ _ _ _ Ms Hs) as (HW & Ll & -> & Ea). destruct (measured_areas _ _ _ _ _ _ _ Mt Ht) as (HV & Lm & -> & Eb).
  assert (Q : forall x y, (x < W)%nat -> (y < H)%nat -> at_xy V m (fst (f x y)) (snd (f x y)) = at_xy W l x y).
  { intros x y Hx Hy. specialize (Ha x y Hx Hy). destruct (Hr x y Hx Hy) as [Lu Lv]. destruct (f x y) as [u v]. cbn in *. unfold at_xy.
    rewrite (Ea _ (xy_lt W H x y Hx Hy)), (Eb _ (xy_lt V K u v Lu Lv)).
    destruct (corner_values W sd x y Hx) as (-> & -> & -> & ->). destruct (corner_values V sd' u v Lu) as (-> & -> & -> & ->). rewrite Ha. reflexivity. }
  split; [exact Q|].
  set (g := fun e => let '(u, v) := f (e mod W)%nat (e / W)%nat in (u + v * V)%nat).
  assert (G : forall x y, (x < W)%nat -> g (x + y * W)%nat = (fst (f x y) + snd (f x y) * V)%nat).
  { intros x y Hx. unfold g. rewrite Nat.mod_add, Nat.mod_small, Nat.div_add, Nat.div_small by lia. cbn [Nat.add]. destruct (f x y). reflexivity. }
  apply (same_sum (W * H) l m g); [exact Ll|congruence| |].
  - intros e He. destruct (element_xy W H e He) as (x & y & Hx & Hy & ->). rewrite (G x y Hx). destruct (Hr x y Hx Hy) as [Lu Lv]. split; [rewrite EN; apply xy_lt; assumption|exact (Q x y Hx Hy)].
  - intros e k He Hk E. destruct (element_xy W H e He) as (x & y & Hx & Hy & ->). destruct (element_xy W H k Hk) as (u & v & Hu & Hv & ->). rewrite (G x y Hx), (G u v Hu) in E.
    destruct (Hr x y Hx Hy) as [L1 _]. destruct (Hr u v Hu Hv) as [L2 _]. destruct (xy_inj V _ _ _ _ L1 L2 E) as [E1 E2].
    destruct (Hi x y u v Hx Hy Hu Hv) as [-> ->]; [|reflexivity]. destruct (f x y), (f u v). cbn in *. congruence.
Qed.

Theorem mirror_areas W H s t tg tg' sd sd' l m A B : measurable W H s tg sd -> measurable W H t tg' sd' -> mirrored (W + 1) (H + 1) sd sd' ->
  measured s tg l A -> measured t tg' m B -> mirrored W H l m /\ A = B.
Proof.
  intros Ms Mt Mi Hs Ht. destruct (turned_areas W H W H s t tg tg' sd sd' l m A B (fun x y => (W - 1 - x, y)%nat) Ms Mt eq_refl Hs Ht) as [Q E].
  - intros x y Hx Hy. cbn. lia.
  - intros x y u v Hx Hy Hu Hv [= E1 E2]. lia.
  - intros x y Hx Hy.
    assert (V : forall a b, (a <= W)%nat -> (b <= H)%nat -> val W sd' (W - a) b = val W sd a b).
    { intros a b La Lb. apply val_at. rewrite <- (Mi a b) by lia. f_equal. lia. }
    rewrite <- (V x y), <- (V (x + 1)%nat y), <- (V x (y + 1)%nat), <- (V (x + 1)%nat (y + 1)%nat) by lia.
    replace (W - (x + 1))%nat with (W - 1 - x)%nat by lia. replace (W - x)%nat with (W - 1 - x + 1)%nat by lia. apply area4_flip.
  - split; [|exact E]. exact Q.
Qed.
Theorem flip_areas W H s t tg tg' sd sd' l m A B : measurable W H s tg sd -> measurable W H t tg' sd' -> upside_down (W + 1) (H + 1) sd sd' ->
  measured s tg l A -> measured t tg' m B -> upside_down W H l m /\ A = B.
Proof.
  intros Ms Mt Mi Hs Ht. destruct (turned_areas W H W H s t tg tg' sd sd' l m A B (fun x y => (x, H - 1 - y)%nat) Ms Mt eq_refl Hs Ht) as [Q E].
  - intros x y Hx Hy. cbn. lia.
  - intros x y u v Hx Hy Hu Hv [= E1 E2]. lia.
  - intros x y Hx Hy.
    assert (V : forall a b, (a <= W)%nat -> (b <= H)%nat -> val W sd' a (H - b) = val W sd a b).
    { intros a b La Lb. apply val_at. rewrite <- (Mi a b) by lia. f_equal. lia. }
    rewrite <- (V x y), <- (V (x + 1)%nat y), <- (V x (y + 1)%nat), <- (V (x + 1)%nat (y + 1)%nat) by lia.
    replace (H - (y + 1))%nat with (H - 1 - y)%nat by lia. replace (H - y)%nat with (H - 1 - y + 1)%nat by lia. rewrite area4_flip. symmetry. rewrite area4_turn, area4_turn. reflexivity.
  - split; [|exact E]. exact Q.
Qed.
Theorem transpose_areas W H s t tg tg' sd sd' l m A B : measurable W H s tg sd -> measurable H W t tg' sd' -> transposed (W + 1) (H + 1) sd sd' ->
  measured s tg l A -> measured t tg' m B -> transposed W H l m /\ A = B.
Proof.
  intros Ms Mt Mi Hs Ht. destruct (turned_areas W H H W s t tg tg' sd sd' l m A B (fun x y => (y, x)%nat) Ms Mt (Nat.mul_comm _ _) Hs Ht) as [Q E].
  - intros x y Hx Hy. cbn. lia.
  - intros x y u v Hx Hy Hu Hv [= E1 E2]. lia.
  - intros x y Hx Hy.
    assert (V : forall a b, (a <= W)%nat -> (b <= H)%nat -> val H sd' b a = val W sd a b).
    { intros a b La Lb. apply val_at. rewrite <- (Mi a b) by lia. f_equal. }
    rewrite !V by lia. rewrite area4_flip, area4_turn. reflexivity.
  - split; [|exact E]. exact Q.
Qed.
