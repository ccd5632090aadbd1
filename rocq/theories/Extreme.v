(** * Extreme: when the area is nothing or everything, and when there is no boundary (C87). *)

From Coq Require Import Reals Lra Lia ZArith.
From Verif Require Import Base Num NumR NumInt MeshModel MeshSpec MeshProofs MeshTopo FmmSpec LevelSetModel LevelSetSpec LevelSetSpecR LevelSetCalls LevelSetHist BoundaryModel BoundarySpec BoundarySpecR
  BoundaryReal AreaRule AreaCut AreaOrderSpec AreaOrder SymmetrySpec Symmetry Perimeter ShiftSpec Shift ExtremeSpec.
Local Open Scope R_scope.

(** ** One element *)
Lemma opposite x y : 0 < x -> y < 0 -> 0 < share x y < 1 /\ 0 < share y x < 1.
Proof. intros P N. destruct (share_opp x y ltac:(nra)) as (A & B & _). lra. Qed.
Lemma cut_in a b : 0 < a < 1 -> 0 < b < 1 -> 0 < a * b / 2 < 1 / 2.
Proof. intros. nra. Qed.
Definition mixed (x0 x1 x2 x3 : R) : Prop := ~ (inside x0 = inside x1 /\ inside x1 = inside x2 /\ inside x2 = inside x3).
Lemma inside_neg v : v <> 0 -> inside v = false <-> v < 0.
Proof. intros N. unfold inside. destruct (Rlt_dec 0 v); intuition (discriminate || lra). Qed.
Lemma cut3_in a b c : (0 < a /\ b < 0 /\ c < 0) \/ (a < 0 /\ 0 < b /\ 0 < c) -> 0 < cut3 a b c < 1 / 2.
Proof.
  unfold cut3. intros [(A & B & C)|(A & B & C)]; [destruct (opposite a b A B) as [P _], (opposite a c A C) as [Q _]|destruct (opposite b a B A) as [_ P], (opposite c a C A) as [_ Q]]; apply cut_in; assumption.
Qed.
Lemma half_in a b : 0 < a < 1 -> 0 < b < 1 -> 0 < (a + b) / 2 < 1. Proof. lra. Qed.
Lemma sign_of x : x <> 0 -> (inside x = true /\ 0 < x) \/ (inside x = false /\ x < 0).
Proof. intros N. unfold inside. destruct (Rlt_dec 0 x); [left|right]; split; auto; lra. Qed.
Lemma mixed_area x0 x1 x2 x3 : x0 <> 0 -> x1 <> 0 -> x2 <> 0 -> x3 <> 0 -> mixed x0 x1 x2 x3 -> 0 < area4 x0 x1 x2 x3 < 1.
Proof.
  intros N0 N1 N2 N3 M. unfold mixed in M. unfold area4. change AreaOrder.pos with inside.
  destruct (sign_of x0 N0) as [[I0 P0]|[I0 P0]], (sign_of x1 N1) as [[I1 P1]|[I1 P1]], (sign_of x2 N2) as [[I2 P2]|[I2 P2]], (sign_of x3 N3) as [[I3 P3]|[I3 P3]]; rewrite I0, I1, I2, I3 in *;
    try (destruct M; auto; fail);
    repeat match goal with |- context [cut3 ?a ?b ?c] => let C := fresh "C" in assert (C : 0 < cut3 a b c < 1 / 2) by (apply cut3_in; auto); revert C; generalize (cut3 a b c); intros ? C end;
    repeat destruct (Rlt_dec _ _); try lra;
    apply half_in; match goal with |- 0 < share ?a ?b < 1 => apply (opposite a b); assumption end.
Qed.
Lemma root_pos v : 0 < v -> 0 < R_sqrt.sqrt v. Proof. apply R_sqrt.sqrt_lt_R0. Qed.
Lemma hyp_pos a b c : (0 < a /\ b < 0 /\ c < 0) \/ (a < 0 /\ 0 < b /\ 0 < c) -> 0 < hyp a b c.
Proof.
  unfold hyp. intros [(A & B & C)|(A & B & C)]; apply root_pos; [destruct (opposite a b A B) as [P _], (opposite a c A C) as [Q _]|destruct (opposite b a B A) as [_ P], (opposite c a C A) as [_ Q]]; nra.
Qed.
Lemma span_pos a b c d : 0 < span a b c d.
Proof. unfold span. apply root_pos. pose proof (Rle_0_sqr (share a b - share d c)) as Q. unfold Rsqr in Q. lra. Qed.
Lemma mixed_length x0 x1 x2 x3 : x0 <> 0 -> x1 <> 0 -> x2 <> 0 -> x3 <> 0 -> mixed x0 x1 x2 x3 -> 0 < len4 x0 x1 x2 x3.
Proof.
  intros N0 N1 N2 N3 M. unfold mixed in M. unfold len4.
  destruct (sign_of x0 N0) as [[I0 P0]|[I0 P0]], (sign_of x1 N1) as [[I1 P1]|[I1 P1]], (sign_of x2 N2) as [[I2 P2]|[I2 P2]], (sign_of x3 N3) as [[I3 P3]|[I3 P3]]; rewrite I0, I1, I2, I3 in *;
    try (destruct M; auto; fail); try apply span_pos; try (apply hyp_pos; auto; fail);
    repeat destruct (Rlt_dec _ _); apply Rplus_lt_0_compat; apply hyp_pos; auto.
Qed.
Lemma uniform_length x0 x1 x2 x3 : ~ mixed x0 x1 x2 x3 -> len4 x0 x1 x2 x3 = 0.
Proof. unfold mixed, len4. intros N. destruct (inside x0), (inside x1), (inside x2), (inside x3); try reflexivity; destruct N; intros (A & B & C); discriminate. Qed.
Lemma mixed_dec x0 x1 x2 x3 : mixed x0 x1 x2 x3 \/ (inside x0 = inside x1 /\ inside x1 = inside x2 /\ inside x2 = inside x3).
Proof. unfold mixed. destruct (inside x0), (inside x1), (inside x2), (inside x3); auto; left; intros (A & B & C); discriminate. Qed.
Lemma area_cases x0 x1 x2 x3 : x0 <> 0 -> x1 <> 0 -> x2 <> 0 -> x3 <> 0 ->
  0 <= area4 x0 x1 x2 x3 <= 1 /\ (area4 x0 x1 x2 x3 = 0 <-> x0 < 0 /\ x1 < 0 /\ x2 < 0 /\ x3 < 0) /\ (area4 x0 x1 x2 x3 = 1 <-> 0 < x0 /\ 0 < x1 /\ 0 < x2 /\ 0 < x3).
Proof.
  intros N0 N1 N2 N3. destruct (mixed_dec x0 x1 x2 x3) as [M|(E0 & E1 & E2)].
  - pose proof (mixed_area x0 x1 x2 x3 N0 N1 N2 N3 M) as A. split; [lra|]. unfold mixed in M. split; (split; [lra|]); intros (P0 & P1 & P2 & P3); destruct M.
    + apply inside_neg in P0, P1, P2, P3; try assumption. rewrite P0, P1, P2, P3. auto.
    + apply inside_pos in P0, P1, P2, P3. rewrite P0, P1, P2, P3. auto.
  - unfold area4. change AreaOrder.pos with inside. destruct (sign_of x0 N0) as [[I0 P0]|[I0 P0]]; rewrite I0 in *; rewrite <- E0 in *; rewrite <- E1 in *; rewrite <- E2 in *.
    + symmetry in E0, E1, E2. apply inside_pos in E0, E1, E2. split; [lra|]. split; split; try lra; auto.
    + symmetry in E0, E1, E2. apply inside_neg in E0, E1, E2; try assumption. split; [lra|]. split; split; try lra; auto.
Qed.

(** ** Sums *)
Lemma sum_low (f : nat -> R) l : (forall e, e ∈ l -> 0 <= f e) -> 0 <= fold_right Rplus 0 (map f l) /\ (fold_right Rplus 0 (map f l) = 0 <-> forall e, e ∈ l -> f e = 0).
Proof.
  induction l as [|e l IH]; intros P; cbn [map fold_right]; [split; [lra|]; split; [intros _ e He; apply elem_of_nil in He; contradiction|reflexivity]|].
  destruct IH as [A B]; [intros; apply P, elem_of_list_further; assumption|]. pose proof (P e (elem_of_list_here _ _)) as Pe. split; [lra|]. split.
  - intros E k Hk. apply elem_of_cons in Hk as [->|Hk]; [lra|]. apply B; [lra|exact Hk].
  - intros Z. rewrite (Z e (elem_of_list_here _ _)). rewrite (proj2 B); [lra|]. intros; apply Z, elem_of_list_further; assumption.
Qed.
Lemma sum_high (f : nat -> R) l : fold_right Rplus 0 (map (fun e => 1 - f e) l) = INR (length l) - fold_right Rplus 0 (map f l).
Proof. induction l as [|e l IH]; cbn [map fold_right length]; [cbn; lra|]. rewrite S_INR, IH. lra. Qed.

(** ** The whole mesh *)
Lemma both_sides W H s tg sd : measurable W H s tg sd -> (0 < W)%nat /\ (0 < H)%nat.
Proof. intros (_ & Hr & _). pose proof (tp_fits _ _ _ (ok_topo _ _ _ (so_ok _ _ _ (reached_sound _ _ _ Hr)))) as F. unfold MeshSpec.mesh_fits in F. lia. Qed.
Lemma nodes_nonzero W H s tg sd x y : measurable W H s tg sd -> (x <= W)%nat -> (y <= H)%nat -> node_value W sd x y <> 0.
Proof.
  intros (_ & _ & Ho & _) Hx Hy. destruct (Ho (x + y * (W + 1))%nat) as (v & E & T); [unfold node_count; nia|]. unfold node_value. rewrite (nth_lookup_Some _ _ _ _ E). pose proof tol_pos. intros ->. rewrite Rabs_R0 in T. lra.
Qed.
(** Every node is a corner of some element. *)
Lemma node_corner W H (P : R -> Prop) sd : (0 < W)%nat -> (0 < H)%nat ->
  (forall x y, (x < W)%nat -> (y < H)%nat -> P (node_value W sd x y) /\ P (node_value W sd (x + 1) y) /\ P (node_value W sd (x + 1) (y + 1)) /\ P (node_value W sd x (y + 1))) ->
  forall x y, (x <= W)%nat -> (y <= H)%nat -> P (node_value W sd x y).
Proof.
  intros HW HH Q x y Hx Hy. destruct (decide (x < W)%nat) as [Lx|Lx], (decide (y < H)%nat) as [Ly|Ly].
  - apply (Q x y Lx Ly).
  - destruct (Q x (y - 1)%nat) as (_ & _ & _ & R); [lia|lia|]. replace (y - 1 + 1)%nat with y in R by lia. exact R.
  - destruct (Q (x - 1)%nat y) as (_ & R & _); [lia|lia|]. replace (x - 1 + 1)%nat with x in R by lia. exact R.
  - destruct (Q (x - 1)%nat (y - 1)%nat) as (_ & _ & R & _); [lia|lia|]. replace (y - 1 + 1)%nat with y in R by lia. replace (x - 1 + 1)%nat with x in R by lia. exact R.
Qed.
Theorem extreme_areas W H s tg sd l A : measurable W H s tg sd -> measured s tg l A ->
  0 <= A <= INR (W * H) /\ (A = 0 <-> nothing W H sd) /\ (A = INR (W * H) <-> everything W H sd).
Proof.
  intros M D. destruct (both_sides _ _ _ _ _ M) as [HW HH]. destruct (measured_areas _ _ _ _ _ _ _ M D) as (_ & L & -> & E).
  set (f := on_elem area4 W sd).
  assert (Q : l = map f (seq 0 (W * H))).
  { apply list_eq. intros e. rewrite list_lookup_fmap. destruct (decide (e < W * H)%nat) as [Le|Le].
    - rewrite lookup_seq_lt by exact Le. rewrite E by exact Le. reflexivity.
    - rewrite lookup_seq_ge, lookup_ge_None_2 by lia. reflexivity. }
  rewrite Q. assert (N : forall x y, (x <= W)%nat -> (y <= H)%nat -> node_value W sd x y <> 0) by (intros x y; apply (nodes_nonzero _ _ _ _ _ _ _ M)).
  assert (C : forall x y, (x < W)%nat -> (y < H)%nat -> 0 <= f (x + y * W)%nat <= 1 /\
    (f (x + y * W)%nat = 0 <-> node_value W sd x y < 0 /\ node_value W sd (x + 1) y < 0 /\ node_value W sd (x + 1) (y + 1) < 0 /\ node_value W sd x (y + 1) < 0) /\
    (f (x + y * W)%nat = 1 <-> 0 < node_value W sd x y /\ 0 < node_value W sd (x + 1) y /\ 0 < node_value W sd (x + 1) (y + 1) /\ 0 < node_value W sd x (y + 1))).
  { intros x y Hx Hy. unfold f. rewrite on_elem_xy by exact Hx. apply area_cases; apply N; lia. }
  assert (R : forall e, e ∈ seq 0 (W * H) -> 0 <= f e <= 1).
  { intros e He. apply elem_of_seq in He. destruct (element_xy W H e ltac:(lia)) as (x & y & Hx & Hy & ->). apply C; assumption. }
  destruct (sum_low f (seq 0 (W * H))) as [A1 A2]; [intros; apply R; assumption|].
  destruct (sum_low (fun e => 1 - f e) (seq 0 (W * H))) as [B1 B2]; [intros e He; specialize (R e He); lra|]. rewrite sum_high, seq_length in B1, B2.
  split; [lra|]. split.
  - rewrite A2. split.
    + intros Z x y Hx Hy. apply (node_corner W H (fun v => v < 0) sd HW HH); [|assumption|assumption]. intros u v Hu Hv. apply (C u v Hu Hv), Z, elem_of_seq. pose proof (xy_lt W H u v Hu Hv). lia.
    + intros Z e He. apply elem_of_seq in He. destruct (element_xy W H e ltac:(lia)) as (x & y & Hx & Hy & ->). apply (C x y Hx Hy). repeat split; apply Z; lia.
  - transitivity (INR (W * H) - fold_right Rplus 0 (map f (seq 0 (W * H))) = 0); [split; lra|]. rewrite B2. split.
    + intros Z x y Hx Hy. apply (node_corner W H (fun v => 0 < v) sd HW HH); [|assumption|assumption]. intros u v Hu Hv. apply (C u v Hu Hv). pose proof (xy_lt W H u v Hu Hv). specialize (Z (u + v * W)%nat ltac:(apply elem_of_seq; lia)). cbn beta in Z. lra.
    + intros Z e He. apply elem_of_seq in He. destruct (element_xy W H e ltac:(lia)) as (x & y & Hx & Hy & ->). assert (f (x + y * W)%nat = 1) as ->; [|lra]. apply (C x y Hx Hy). repeat split; apply Z; lia.
Qed.

(** All corners of every element on one side: all nodes on one side. *)
Lemma one_side W H (g : nat -> nat -> bool) : (0 < W)%nat -> (0 < H)%nat ->
  (forall x y, (x < W)%nat -> (y < H)%nat -> g x y = g (x + 1)%nat y /\ g (x + 1)%nat y = g (x + 1)%nat (y + 1)%nat /\ g (x + 1)%nat (y + 1)%nat = g x (y + 1)%nat) ->
  forall x y, (x <= W)%nat -> (y <= H)%nat -> g x y = g 0%nat 0%nat.
Proof.
  intros HW HH U. assert (C : forall y, (y <= H)%nat -> g 0%nat y = g 0%nat 0%nat).
  { induction y as [|y IH]; intros Hy; [reflexivity|]. replace (S y) with (y + 1)%nat by lia. destruct (U 0%nat y) as (A & B & D); [lia|lia|].  specialize (IH ltac:(lia)). rewrite <- D, <- B, <- A. exact IH. }
  assert (S : forall x y, (x < W)%nat -> (y <= H)%nat -> g (S x) y = g x y).
  { intros x y Hx Hy. destruct (decide (y < H)%nat).
    - destruct (U x y) as (A & _); [lia|lia|]. rewrite Nat.add_1_r in A. congruence.
    - destruct (U x (y - 1)%nat) as (_ & _ & A); [lia|lia|]. replace (y - 1 + 1)%nat with y in A by lia. rewrite Nat.add_1_r in A. exact A. }
  induction x as [|x IH]; intros y Hx Hy; [apply C, Hy|]. rewrite S by lia. apply IH; lia.
Qed.
Theorem no_boundary W H s tg sd s' b : measurable W H s tg sd -> discretise s tg = Ok (s', b) ->
  0 <= bd_length b /\ (bd_length b = 0 <-> nothing W H sd \/ everything W H sd).
Proof.
  intros M D. destruct (both_sides _ _ _ _ _ M) as [HW HH]. destruct (perimeter _ _ _ _ _ _ _ M D) as [_ ->].
  set (f := on_elem len4 W sd). change (sumR _) with (fold_right Rplus 0 (map f (seq 0 (W * H)))).
  assert (N : forall x y, (x <= W)%nat -> (y <= H)%nat -> node_value W sd x y <> 0) by (intros x y; apply (nodes_nonzero _ _ _ _ _ _ _ M)).
  assert (C : forall x y, (x < W)%nat -> (y < H)%nat -> 0 <= f (x + y * W)%nat /\
    (f (x + y * W)%nat = 0 <-> ~ mixed (node_value W sd x y) (node_value W sd (x + 1) y) (node_value W sd (x + 1) (y + 1)) (node_value W sd x (y + 1)))).
  { intros x y Hx Hy. unfold f. rewrite on_elem_xy by exact Hx. destruct (mixed_dec (node_value W sd x y) (node_value W sd (x + 1) y) (node_value W sd (x + 1) (y + 1)) (node_value W sd x (y + 1))) as [X|X].
    - pose proof (mixed_length _ _ _ _ (N x y ltac:(lia) ltac:(lia)) (N (x + 1)%nat y ltac:(lia) ltac:(lia)) (N (x + 1)%nat (y + 1)%nat ltac:(lia) ltac:(lia)) (N x (y + 1)%nat ltac:(lia) ltac:(lia)) X) as L. split; [lra|]. split; [lra|contradiction].
    - rewrite uniform_length by (intros Y; exact (Y X)). split; [lra|]. split; [intros _ Y; exact (Y X)|reflexivity]. }
  destruct (sum_low f (seq 0 (W * H))) as [A1 A2].
  { intros e He. apply elem_of_seq in He. destruct (element_xy W H e ltac:(lia)) as (x & y & Hx & Hy & ->). apply C; assumption. }
  split; [exact A1|]. rewrite A2. split.
  - intros Z. assert (U : forall x y, (x <= W)%nat -> (y <= H)%nat -> inside (node_value W sd x y) = inside (node_value W sd 0 0)).
    { apply (one_side W H (fun x y => inside (node_value W sd x y)) HW HH). intros x y Hx Hy. pose proof (xy_lt W H x y Hx Hy). specialize (Z (x + y * W)%nat ltac:(apply elem_of_seq; lia)). apply (C x y Hx Hy) in Z.
      destruct (mixed_dec (node_value W sd x y) (node_value W sd (x + 1) y) (node_value W sd (x + 1) (y + 1)) (node_value W sd x (y + 1))) as [X|X]; [contradiction|exact X]. }
    destruct (sign_of (node_value W sd 0 0) (N 0%nat 0%nat ltac:(lia) ltac:(lia))) as [[I _]|[I _]]; rewrite I in U; [right|left]; intros x y Hx Hy; specialize (U x y Hx Hy).
    + apply inside_pos, U.
    + apply inside_neg; [apply N; assumption|exact U].
  - intros S e He. apply elem_of_seq in He. destruct (element_xy W H e ltac:(lia)) as (x & y & Hx & Hy & ->). apply (C x y Hx Hy). intros X. apply X. destruct S as [S|S].
    + assert (G : forall u v, (u <= W)%nat -> (v <= H)%nat -> inside (node_value W sd u v) = false) by (intros u v Hu Hv; apply inside_neg; [apply N; assumption|apply S; assumption]). rewrite !G by lia. auto.
    + assert (G : forall u v, (u <= W)%nat -> (v <= H)%nat -> inside (node_value W sd u v) = true) by (intros u v Hu Hv; apply inside_pos, S; assumption). rewrite !G by lia. auto.
Qed.

Theorem extreme_case : forall v, v ∈ [replicate 9 (-1); replicate 9 1; p9] -> exists s l A, measurable 2 2 s true v /\ measured s true l A.
Proof.
  assert (G : forall v, length v = 9%nat -> Forall (fun x => x = 1 \/ x = -1) v -> exists s l A, measurable 2 2 s true v /\ measured s true l A).
  { intros v Lv F. destruct (target_case 2 2 v) as (s & M & l & A & D); [unfold fits_ls, node_count; cbn; lia|exact Lv|apply one_or_less, F|]. exists s, l, A. auto. }
  intros v Hv. rewrite !elem_of_cons, elem_of_nil in Hv. destruct Hv as [-> | [-> | [-> | []]]]; (apply G; [reflexivity|]); [apply Forall_replicate; auto|apply Forall_replicate; auto|].
  unfold p9; repeat (apply List.Forall_cons; [auto|]); apply List.Forall_nil.
Qed.
