(** * Separate: area and perimeter of a shape made of two parts (C86). *)

From Coq Require Import Reals Lra Lia ZArith.
From Verif Require Import Base Num NumR NumInt MeshModel MeshSpec MeshProofs MeshTopo FmmSpec LevelSetModel LevelSetSpec LevelSetSpecR LevelSetCalls LevelSetHist BoundaryModel BoundarySpec BoundarySpecR
  AreaCut AreaOrderSpec AreaOrder SymmetrySpec Symmetry Perimeter ShiftSpec Shift SeparateSpec.
Local Open Scope R_scope.

Lemma some_iff W sd x y : (x < W)%nat -> some_inside W sd (x + y * W) = true <-> in_element W sd x y.
Proof.
  intros Hx. unfold some_inside, in_element. destruct (split_xy W x y Hx) as [-> ->]. rewrite !orb_true_iff, !inside_pos. tauto.
Qed.
Lemma parts_add W H p q sd g : made_of W H p q sd ->
  (forall x0 x1 x2 x3, inside x0 = false -> inside x1 = false -> inside x2 = false -> inside x3 = false -> g x0 x1 x2 x3 = 0) ->
  forall e, (e < W * H)%nat -> on_elem g W sd e = on_elem g W p e + on_elem g W q e.
Proof.
  intros M G0 e He. destruct (element_xy W H e He) as (x & y & Hx & Hy & ->). destruct (M x y Hx Hy) as (N & P & Q & S).
  assert (L : forall l, alike W l sd x y -> on_elem g W sd (x + y * W) = on_elem g W l (x + y * W)).
  { intros l (E0 & E1 & E2 & E3). rewrite !on_elem_xy by exact Hx. rewrite E0, E1, E2, E3. reflexivity. }
  assert (Z : forall l, ~ in_element W l x y -> on_elem g W l (x + y * W) = 0).
  { intros l Nl. apply (on_elem_none g G0 W H); [exact He|]. apply not_true_is_false. rewrite some_iff by exact Hx. exact Nl. }
  destruct (some_inside W p (x + y * W)) eqn:Ep.
  - apply some_iff in Ep; [|exact Hx]. rewrite (L p (P Ep)), (Z q) by tauto. ring.
  - assert (Np : ~ in_element W p x y) by (rewrite <- some_iff by exact Hx; congruence). rewrite (Z p Np). destruct (some_inside W q (x + y * W)) eqn:Eq.
    + apply some_iff in Eq; [|exact Hx]. rewrite (L q (Q Eq)). ring.
    + assert (Nq : ~ in_element W q x y) by (rewrite <- some_iff by exact Hx; congruence). rewrite (Z q Nq), (Z sd) by tauto. ring.
Qed.
Lemma sums_add (f g h : nat -> R) l : (forall e, e ∈ l -> f e = g e + h e) -> fold_right Rplus 0 (map f l) = fold_right Rplus 0 (map g l) + fold_right Rplus 0 (map h l).
Proof.
  induction l as [|e l IH]; intros E; cbn [map fold_right]; [ring|]. rewrite (E e (elem_of_list_here _ _)), IH by (intros; apply E, elem_of_list_further; assumption). ring.
Qed.
Lemma total_add W H p q sd g : made_of W H p q sd ->
  (forall x0 x1 x2 x3, inside x0 = false -> inside x1 = false -> inside x2 = false -> inside x3 = false -> g x0 x1 x2 x3 = 0) ->
  fold_right Rplus 0 (map (on_elem g W sd) (seq 0 (W * H))) = fold_right Rplus 0 (map (on_elem g W p) (seq 0 (W * H))) + fold_right Rplus 0 (map (on_elem g W q) (seq 0 (W * H))).
Proof. intros M G0. apply sums_add. intros e He. apply elem_of_seq in He. apply (parts_add W H p q sd g M G0). lia. Qed.

Theorem separate_length W H s1 s2 s t1 t2 t p q sd s1' s2' s' c1 c2 c : measurable W H s1 t1 p -> measurable W H s2 t2 q -> measurable W H s t sd -> made_of W H p q sd ->
  discretise s1 t1 = Ok (s1', c1) -> discretise s2 t2 = Ok (s2', c2) -> discretise s t = Ok (s', c) -> bd_length c = bd_length c1 + bd_length c2.
Proof.
  intros M1 M2 M P D1 D2 D. destruct (perimeter _ _ _ _ _ _ _ M1 D1) as [_ ->]. destruct (perimeter _ _ _ _ _ _ _ M2 D2) as [_ ->]. destruct (perimeter _ _ _ _ _ _ _ M D) as [_ ->].
  exact (total_add W H p q sd len4 P len4_none).
Qed.
Theorem separate_areas W H s1 s2 s t1 t2 t p q sd l1 l2 l A1 A2 A : measurable W H s1 t1 p -> measurable W H s2 t2 q -> measurable W H s t sd -> made_of W H p q sd ->
  measured s1 t1 l1 A1 -> measured s2 t2 l2 A2 -> measured s t l A ->
  A = A1 + A2 /\ forall e a1 a2 a, l1 !! e = Some a1 -> l2 !! e = Some a2 -> l !! e = Some a -> a = a1 + a2.
Proof.
  intros M1 M2 M P D1 D2 D. destruct (measured_areas _ _ _ _ _ _ _ M1 D1) as (HW & L1 & -> & E1). destruct (measured_areas _ _ _ _ _ _ _ M2 D2) as (_ & L2 & -> & E2).
  destruct (measured_areas _ _ _ _ _ _ _ M D) as (_ & L & -> & E). split.
  - assert (G : forall n (q : list R) (f : nat -> R), length q = n -> (forall e, (e < n)%nat -> q !! e = Some (f e)) -> q = map f (seq 0 n)).
    { intros n r f Lq Eq. apply list_eq. intros e. rewrite list_lookup_fmap. destruct (decide (e < n)%nat) as [Le|Le].
      - rewrite lookup_seq_lt by exact Le. rewrite Eq by exact Le. reflexivity.
      - rewrite lookup_seq_ge, lookup_ge_None_2 by lia. reflexivity. }
    rewrite (G _ l (on_elem area4 W sd) L E), (G _ l1 (on_elem area4 W p) L1 E1), (G _ l2 (on_elem area4 W q) L2 E2). exact (total_add W H p q sd area4 P area4_none).
  - intros e a1 a2 a F1 F2 F. assert (He : (e < W * H)%nat) by (rewrite <- L; exact (lookup_lt_Some _ _ _ F)). rewrite E in F by exact He. rewrite E1 in F1 by exact He. rewrite E2 in F2 by exact He.
    injection F as <-. injection F1 as <-. injection F2 as <-. exact (parts_add W H p q sd area4 P area4_none e He).
Qed.

(** Two of the three inner nodes of a 4 by 2 mesh, alone and together. *)
Definition left15 : list R := [-1; -1; -1; -1; -1; -1; 1; -1; -1; -1; -1; -1; -1; -1; -1].
Definition right15 : list R := [-1; -1; -1; -1; -1; -1; -1; -1; 1; -1; -1; -1; -1; -1; -1].
Definition both15 : list R := [-1; -1; -1; -1; -1; -1; 1; -1; 1; -1; -1; -1; -1; -1; -1].
Theorem separate_case : made_of 4 2 left15 right15 both15 /\ forall v, v ∈ [left15; right15; both15] -> exists s l A, measurable 4 2 s true v /\ measured s true l A.
Proof.
  split.
  - assert (N : ~ 0 < -1) by lra. assert (O : 0 < 1) by lra. intros x y Hx Hy. unfold in_element, alike, node_value, left15, right15, both15.
    destruct x as [|[|[|[|x]]]]; [..|lia]; (destruct y as [|[|y]]; [..|lia]); cbn [Nat.add Nat.mul nth]; tauto.
  - assert (G : forall v, length v = 15%nat -> Forall (fun x => x = 1 \/ x = -1) v -> exists s l A, measurable 4 2 s true v /\ measured s true l A).
    { intros v Lv F. destruct (target_case 4 2 v) as (s & M & l & A & D); [unfold fits_ls, node_count; cbn; lia|exact Lv|apply one_or_less, F|]. exists s, l, A. auto. }
    intros v Hv. rewrite !elem_of_cons, elem_of_nil in Hv. destruct Hv as [-> | [-> | [-> | []]]]; (apply G; [reflexivity|]; unfold left15, right15, both15; repeat (apply List.Forall_cons; [auto|]); apply List.Forall_nil).
Qed.
