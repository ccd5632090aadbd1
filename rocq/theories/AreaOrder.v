(** * AreaOrder: more material never has less area, and the complement has the rest (C78). *)

From Coq Require Import Reals Lra Lia Psatz.
From Verif Require Import Base Num NumR NumInt MeshModel MeshSpec MeshTopo LevelSetModel LevelSetSpec LevelSetCalls LevelSetHist FmmSpec FmmReal
  LevelSetInit LevelSetReal LevelSetSpecR BoundaryProofs BoundaryLocal BoundaryModel BoundarySpec BoundarySpecR BoundaryReal BoundaryGraph BoundaryRun BoundaryLinks BoundaryClosed BoundaryCases AreaCut AreaOrderSpec.
Local Open Scope R_scope.

Definition cut3 (a b c : R) : R := share a b * share a c / 2.
Definition pos (x : R) : bool := if Rlt_dec 0 x then true else false.
(** The area of the inside part as a function of the corners, none of them zero. *)
Definition area4 (x0 x1 x2 x3 : R) : R :=
  match pos x0, pos x1, pos x2, pos x3 with
  | true, true, true, true => 1
  | false, false, false, false => 0
  | true, false, false, false => cut3 x0 x1 x3
  | false, true, false, false => cut3 x1 x2 x0
  | false, false, true, false => cut3 x2 x3 x1
  | false, false, false, true => cut3 x3 x0 x2
  | false, true, true, true => 1 - cut3 x0 x1 x3
  | true, false, true, true => 1 - cut3 x1 x2 x0
  | true, true, false, true => 1 - cut3 x2 x3 x1
  | true, true, true, false => 1 - cut3 x3 x0 x2
  | true, true, false, false => (share x0 x3 + share x1 x2) / 2
  | false, true, true, false => (share x1 x0 + share x2 x3) / 2
  | false, false, true, true => (share x2 x1 + share x3 x0) / 2
  | true, false, false, true => (share x3 x2 + share x0 x1) / 2
  | true, false, true, false => if Rlt_dec 0 (x0 + x1 + x2 + x3) then 1 - cut3 x1 x2 x0 - cut3 x3 x0 x2 else cut3 x0 x1 x3 + cut3 x2 x3 x1
  | false, true, false, true => if Rlt_dec 0 (x0 + x1 + x2 + x3) then 1 - cut3 x2 x3 x1 - cut3 x0 x1 x3 else cut3 x1 x2 x0 + cut3 x3 x0 x2
  end.
Lemma pos_true x : pos x = true <-> 0 < x.
Proof. unfold pos. destruct (Rlt_dec 0 x); split; intros; try discriminate; auto; lra. Qed.
Lemma pos_false x : x <> 0 -> pos x = false <-> x < 0.
Proof. intros N. unfold pos. destruct (Rlt_dec 0 x); split; intros; try discriminate; auto; lra. Qed.

Lemma share_range x y : x <> 0 -> 0 <= share x y <= 1.
Proof.
  intros N. unfold share. pose proof (Rabs_pos y). assert (0 < Rabs x) by (apply Rabs_pos_lt, N). assert (E : Rabs x / (Rabs x + Rabs y) * (Rabs x + Rabs y) = Rabs x) by (field; lra).
  split; nra.
Qed.
Lemma share_rest x y : x <> 0 -> share y x = 1 - share x y.
Proof. intros N. unfold share. pose proof (Rabs_pos y). assert (0 < Rabs x) by (apply Rabs_pos_lt, N). field. lra. Qed.
Lemma share_mono a a' b : 0 < Rabs a -> 0 < Rabs b -> Rabs a <= Rabs a' -> share a b <= share a' b.
Proof.
  intros A B L. unfold share. apply (Rmult_le_reg_r ((Rabs a + Rabs b) * (Rabs a' + Rabs b))); [nra|].
  replace (Rabs a / (Rabs a + Rabs b) * ((Rabs a + Rabs b) * (Rabs a' + Rabs b))) with (Rabs a * (Rabs a' + Rabs b)) by (field; lra).
  replace (Rabs a' / (Rabs a' + Rabs b) * ((Rabs a + Rabs b) * (Rabs a' + Rabs b))) with (Rabs a' * (Rabs a + Rabs b)) by (field; lra). nra.
Qed.
Lemma share_neg x y : share (- x) (- y) = share x y.
Proof. unfold share. rewrite !Rabs_Ropp. reflexivity. Qed.

(** ** One corner grows. *)
Lemma area4_first x y x1 x2 x3 : x <> 0 -> y <> 0 -> x1 <> 0 -> x2 <> 0 -> x3 <> 0 -> x <= y -> area4 x x1 x2 x3 <= area4 y x1 x2 x3.
Proof.
  intros N Ny N1 N2 N3 L.
  pose proof (share_range x x1 N) as Rx1. pose proof (share_range x x3 N) as Rx3. pose proof (share_range y x1 Ny) as Ry1. pose proof (share_range y x3 Ny) as Ry3.
  pose proof (share_range x1 x2 N1) as R12. pose proof (share_range x3 x2 N3) as R32.
  pose proof (share_rest x x1 N) as Ex1. pose proof (share_rest x x3 N) as Ex3. pose proof (share_rest y x1 Ny) as Ey1. pose proof (share_rest y x3 Ny) as Ey3.
  pose proof (share_rest x1 x2 N1) as E12. pose proof (share_rest x3 x2 N3) as E32.
  assert (M : 0 < x -> share x x1 <= share y x1 /\ share x x3 <= share y x3).
  { intros P. split; apply share_mono; try apply Rabs_pos_lt; try assumption; rewrite !Rabs_pos_eq by lra; exact L. }
  assert (M' : y < 0 -> share y x1 <= share x x1 /\ share y x3 <= share x x3).
  { intros P. split; apply share_mono; try apply Rabs_pos_lt; try assumption; rewrite !Rabs_left by lra; lra. }
  unfold area4, cut3. rewrite ?Ex1, ?Ex3, ?Ey1, ?Ey3, ?E12, ?E32.
  set (a := share x x1) in *. set (b := share x x3) in *. set (c := share y x1) in *. set (d := share y x3) in *. set (p := share x1 x2) in *. set (q := share x3 x2) in *.
  destruct (pos x) eqn:Px; [apply pos_true in Px; specialize (M Px); assert (pos y = true) as -> by (apply pos_true; lra)|].
  - clear M'. clearbody a b c d p q. destruct (pos x1), (pos x2), (pos x3); repeat destruct (Rlt_dec _ _); try lra; try nra.
  - apply pos_false in Px; [|assumption]. clear M. destruct (pos y) eqn:Py; [clear M'|apply pos_false in Py; [specialize (M' Py)|assumption]]; clearbody a b c d p q;
      destruct (pos x1), (pos x2), (pos x3); repeat destruct (Rlt_dec _ _); try lra; try nra.
Qed.
(** ** All corners. *)
Lemma area4_turn x0 x1 x2 x3 : area4 x0 x1 x2 x3 = area4 x1 x2 x3 x0.
Proof. unfold area4. destruct (pos x0), (pos x1), (pos x2), (pos x3); repeat destruct (Rlt_dec _ _); try reflexivity; try lra. Qed.
Lemma area4_mono x0 x1 x2 x3 y0 y1 y2 y3 : x0 <> 0 -> x1 <> 0 -> x2 <> 0 -> x3 <> 0 -> y0 <> 0 -> y1 <> 0 -> y2 <> 0 -> y3 <> 0 ->
  x0 <= y0 -> x1 <= y1 -> x2 <= y2 -> x3 <= y3 -> area4 x0 x1 x2 x3 <= area4 y0 y1 y2 y3.
Proof.
  intros. apply Rle_trans with (area4 y0 x1 x2 x3); [apply area4_first; assumption|].
  rewrite (area4_turn y0 x1), (area4_turn y0 y1). apply Rle_trans with (area4 y1 x2 x3 y0); [apply area4_first; assumption|].
  rewrite (area4_turn y1 x2), (area4_turn y1 y2). apply Rle_trans with (area4 y2 x3 y0 y1); [apply area4_first; assumption|].
  rewrite (area4_turn y2 x3), (area4_turn y2 y3). apply area4_first; assumption.
Qed.
Lemma area4_rest x0 x1 x2 x3 : x0 <> 0 -> x1 <> 0 -> x2 <> 0 -> x3 <> 0 ->
  (x0 * x1 < 0 -> x1 * x2 < 0 -> x2 * x3 < 0 -> x0 + x1 + x2 + x3 <> 0) -> area4 x0 x1 x2 x3 + area4 (- x0) (- x1) (- x2) (- x3) = 1.
Proof.
  intros N0 N1 N2 N3 B.
  assert (P : forall x, x <> 0 -> pos (- x) = negb (pos x)).
  { intros x N. unfold pos. destruct (Rlt_dec 0 x), (Rlt_dec 0 (- x)); try reflexivity; lra. }
  unfold area4, cut3. rewrite !share_neg, !P by assumption.
  pose proof (share_rest x0 x1 N0). pose proof (share_rest x1 x2 N1). pose proof (share_rest x2 x3 N2). pose proof (share_rest x3 x0 N3).
  destruct (pos x0) eqn:P0; [apply pos_true in P0|apply pos_false in P0; [|assumption]]; (destruct (pos x1) eqn:P1; [apply pos_true in P1|apply pos_false in P1; [|assumption]]);
    (destruct (pos x2) eqn:P2; [apply pos_true in P2|apply pos_false in P2; [|assumption]]); (destruct (pos x3) eqn:P3; [apply pos_true in P3|apply pos_false in P3; [|assumption]]); cbn [negb];
    try lra; (assert (x0 + x1 + x2 + x3 <> 0) by (apply B; nra)); repeat destruct (Rlt_dec _ _); lra.
Qed.
(** The rule fixes the area when no corner is zero. *)
Lemma rule_area4 x a : (forall j, x (j + 4)%nat = x j) -> (forall j, (j < 4)%nat -> x j <> 0) -> area_rule x a -> a = area4 (x 0%nat) (x 1%nat) (x 2%nat) (x 3%nat).
Proof.
  intros Per N [_ In Out One Hole Half Sad]. assert (X4 : x 4%nat = x 0%nat) by apply (Per 0%nat). assert (X5 : x 5%nat = x 1%nat) by apply (Per 1%nat). assert (X6 : x 6%nat = x 2%nat) by apply (Per 2%nat).
  assert (X7 : x 7%nat = x 3%nat) by apply (Per 3%nat). assert (X8 : x 8%nat = x 0%nat) by (rewrite <- X4; apply (Per 4%nat)). assert (X9 : x 9%nat = x 1%nat) by (rewrite <- X5; apply (Per 5%nat)).
  pose proof (N 0%nat ltac:(lia)) as N0. pose proof (N 1%nat ltac:(lia)) as N1. pose proof (N 2%nat ltac:(lia)) as N2. pose proof (N 3%nat ltac:(lia)) as N3.
  unfold tip in *.
  pose proof (One 0%nat ltac:(lia)) as O0. pose proof (One 1%nat ltac:(lia)) as O1. pose proof (One 2%nat ltac:(lia)) as O2. pose proof (One 3%nat ltac:(lia)) as O3.
  pose proof (Hole 0%nat ltac:(lia)) as H0. pose proof (Hole 1%nat ltac:(lia)) as H1. pose proof (Hole 2%nat ltac:(lia)) as H2. pose proof (Hole 3%nat ltac:(lia)) as H3.
  pose proof (Half 0%nat ltac:(lia)) as F0. pose proof (Half 1%nat ltac:(lia)) as F1. pose proof (Half 2%nat ltac:(lia)) as F2. pose proof (Half 3%nat ltac:(lia)) as F3.
  pose proof (Sad 0%nat ltac:(lia)) as S0. pose proof (Sad 1%nat ltac:(lia)) as S1.
  assert (In' : 0 <= x 0%nat -> 0 <= x 1%nat -> 0 <= x 2%nat -> 0 <= x 3%nat -> a = 1).
  { intros. apply In. intros [|[|[|[|j]]]] L; try assumption; lia. }
  assert (Out' : x 0%nat < 0 -> x 1%nat < 0 -> x 2%nat < 0 -> x 3%nat < 0 -> a = 0).
  { intros. apply Out; [|exists 0%nat; split; [lia|assumption]]. intros [|[|[|[|j]]]] L; try (left; assumption); lia. }
  clear In Out One Hole Half Sad N Per.
  cbn [Nat.add] in *. rewrite ?X4, ?X5, ?X6, ?X7, ?X8, ?X9 in *. clear X4 X5 X6 X7 X8 X9.
  revert N0 N1 N2 N3 O0 O1 O2 O3 H0 H1 H2 H3 F0 F1 F2 F3 S0 S1 In' Out'. generalize (x 0%nat) (x 1%nat) (x 2%nat) (x 3%nat). clear x. intros x0 x1 x2 x3 N0 N1 N2 N3 O0 O1 O2 O3 H0 H1 H2 H3 F0 F1 F2 F3 S0 S1 In' Out'.
  unfold area4, cut3.
  destruct (pos x0) eqn:P0; [apply pos_true in P0|apply pos_false in P0; [|assumption]]; (destruct (pos x1) eqn:P1; [apply pos_true in P1|apply pos_false in P1; [|assumption]]);
    (destruct (pos x2) eqn:P2; [apply pos_true in P2|apply pos_false in P2; [|assumption]]); (destruct (pos x3) eqn:P3; [apply pos_true in P3|apply pos_false in P3; [|assumption]]);
    clear N0 N1 N2 N3;
    first [solve [clear - In' P0 P1 P2 P3; apply In'; lra]|solve [clear - Out' P0 P1 P2 P3; apply Out'; lra]
      |solve [clear - O0 P0 P1 P2 P3; apply O0; lra]|solve [clear - O1 P0 P1 P2 P3; apply O1; lra]|solve [clear - O2 P0 P1 P2 P3; apply O2; lra]|solve [clear - O3 P0 P1 P2 P3; apply O3; lra]
      |solve [clear - H0 P0 P1 P2 P3; apply H0; lra]|solve [clear - H1 P0 P1 P2 P3; apply H1; lra]|solve [clear - H2 P0 P1 P2 P3; apply H2; lra]|solve [clear - H3 P0 P1 P2 P3; apply H3; lra]
      |solve [clear - F0 P0 P1 P2 P3; apply F0; lra]|solve [clear - F1 P0 P1 P2 P3; apply F1; lra]|solve [clear - F2 P0 P1 P2 P3; apply F2; lra]|solve [clear - F3 P0 P1 P2 P3; apply F3; lra]
      |solve [clear - S0 P0 P1 P2 P3; destruct (S0 ltac:(lra) ltac:(lra) ltac:(lra) ltac:(lra)) as [Sa Sb]; destruct (Rlt_dec _ _); [rewrite Sa by assumption; lra|rewrite Sb by lra; lra]]
      |solve [clear - S1 P0 P1 P2 P3; destruct (S1 ltac:(lra) ltac:(lra) ltac:(lra) ltac:(lra)) as [Sa Sb]; destruct (Rlt_dec _ _); [rewrite Sa by assumption; lra|rewrite Sb by lra; lra]]].
Qed.
(** ** Level sets. *)
Lemma value_per W sd e j : corner_value W sd e (j + 4) = corner_value W sd e j.
Proof. unfold corner_value. replace (j + 4)%nat with (j + 1 * 4)%nat by lia. rewrite Nat.mod_add by lia. reflexivity. Qed.
Lemma value_at W H sd e j : (0 < W)%nat -> (e < W * H)%nat -> off_contour W H sd -> exists i, (i < node_count W H)%nat /\ sd !! i = Some (corner_value W sd e j) /\ i = corner W e (j mod 4) /\ corner_value W sd e j <> 0.
Proof.
  intros HW He Ho. assert (Hj : (j mod 4 < 4)%nat) by (apply Nat.mod_upper_bound; lia). pose proof (corner_lt W H e _ HW He Hj) as Li.
  exists (corner W e (j mod 4)). split; [exact Li|]. destruct (Ho _ Li) as (v & Ev & Lv). unfold corner_value. rewrite (nth_lookup_Some _ _ _ _ Ev).
  split; [exact Ev|]. split; [reflexivity|]. intros ->. rewrite Rabs_R0 in Lv. pose proof tol_pos. lra.
Qed.
Lemma measured_areas W H s tg sd l A : measurable W H s tg sd -> measured s tg l A -> (0 < W)%nat /\ length l = (W * H)%nat /\ A = fold_right Rplus 0 l /\
  forall e, (e < W * H)%nat -> l !! e = Some (area4 (corner_value W sd e 0) (corner_value W sd e 1) (corner_value W sd e 2) (corner_value W sd e 3)).
Proof.
  intros (-> & Hr & Ho & Hc & Hv) (s' & b & s'' & Ed & Ea & ->). pose proof (proj1 (tp_fits _ _ _ (ok_topo _ _ _ (so_ok _ _ _ (reached_sound _ _ _ Hr))))) as HW.
  destruct (area_fractions W H s s' tg b Hr Ho Hc Hv Ed) as (s2 & A2 & Ea2 & Hel & HA & _ & _ & Hl). rewrite Ea in Ea2. injection Ea2 as <- <-.
  split; [exact HW|]. split; [rewrite map_length; exact Hl|]. split; [exact HA|]. intros e He. destruct (Hel e He) as (E & a & _ & EE & Ra).
  rewrite list_lookup_fmap, EE. cbn. f_equal. apply (rule_area4 _ _ (value_per W _ e)); [|exact Ra].
  intros j Hj. destruct (value_at W H _ e j HW He Ho) as (_ & _ & _ & _ & N). exact N.
Qed.
Lemma sum_le l m : Forall2 Rle l m -> fold_right Rplus 0 l <= fold_right Rplus 0 m.
Proof. induction 1; cbn; lra. Qed.
Lemma sum_rest l m : Forall2 (fun a b => a + b = 1) l m -> fold_right Rplus 0 l + fold_right Rplus 0 m = INR (length l).
Proof. induction 1; [cbn; lra|]. cbn [length fold_right]. rewrite S_INR. lra. Qed.

Theorem more_material W H s t tg tg' sd sd' l m A B : measurable W H s tg sd -> measurable W H t tg' sd' ->
  (forall i x y, (i < node_count W H)%nat -> sd !! i = Some x -> sd' !! i = Some y -> x <= y) ->
  measured s tg l A -> measured t tg' m B -> Forall2 Rle l m /\ A <= B.
Proof.
  intros Ms Mt Le Hs Ht. destruct (measured_areas _ _ _ _ _ _ _ Ms Hs) as (HW & Ll & -> & Ea). destruct (measured_areas _ _ _ _ _ _ _ Mt Ht) as (_ & Lm & -> & Eb).
  assert (F : Forall2 Rle l m); [|split; [exact F|apply sum_le, F]]. apply Forall2_same_length_lookup_2; [congruence|]. intros e a b La Lb.
  assert (He : (e < W * H)%nat) by (apply lookup_lt_Some in La; lia). rewrite (Ea e He) in La. rewrite (Eb e He) in Lb. injection La as <-. injection Lb as <-.
  destruct Ms as (_ & _ & Ho & _). destruct Mt as (_ & _ & Ho' & _).
  assert (Q : forall j, corner_value W sd e j <> 0 /\ corner_value W sd' e j <> 0 /\ corner_value W sd e j <= corner_value W sd' e j).
  { intros j. destruct (value_at W H sd e j HW He Ho) as (i & Li & Ei & Eq & N). destruct (value_at W H sd' e j HW He Ho') as (i' & _ & Ei' & Eq' & N'). subst i i'. split; [exact N|]. split; [exact N'|]. exact (Le _ _ _ Li Ei Ei'). }
  apply area4_mono; apply Q.
Qed.
Theorem complement W H s t tg tg' sd sd' l m A B : measurable W H s tg sd -> measurable W H t tg' sd' ->
  (forall i x y, (i < node_count W H)%nat -> sd !! i = Some x -> sd' !! i = Some y -> y = - x) -> (forall e, (e < W * H)%nat -> ~ balanced W sd e) ->
  measured s tg l A -> measured t tg' m B -> Forall2 (fun a b => a + b = 1) l m /\ A + B = INR (W * H).
Proof.
  intros Ms Mt Ng Nb Hs Ht. destruct (measured_areas _ _ _ _ _ _ _ Ms Hs) as (HW & Ll & -> & Ea). destruct (measured_areas _ _ _ _ _ _ _ Mt Ht) as (_ & Lm & -> & Eb).
  assert (F : Forall2 (fun a b => a + b = 1) l m); [|split; [exact F|rewrite <- Ll; apply sum_rest, F]]. apply Forall2_same_length_lookup_2; [congruence|]. intros e a b La Lb.
  assert (He : (e < W * H)%nat) by (apply lookup_lt_Some in La; lia). rewrite (Ea e He) in La. rewrite (Eb e He) in Lb. injection La as <-. injection Lb as <-.
  destruct Ms as (_ & _ & Ho & _). destruct Mt as (_ & _ & Ho' & _).
  assert (Q : forall j, corner_value W sd e j <> 0 /\ corner_value W sd' e j = - corner_value W sd e j).
  { intros j. destruct (value_at W H sd e j HW He Ho) as (i & Li & Ei & Eq & N). destruct (value_at W H sd' e j HW He Ho') as (i' & _ & Ei' & Eq' & _). subst i i'. split; [exact N|]. exact (Ng _ _ _ Li Ei Ei'). }
  rewrite !(fun j => proj2 (Q j)). apply area4_rest; try apply Q. intros P0 P1 P2 Z. apply (Nb e He). split; [|exact Z].
  intros [|[|[|[|j]]]] Lj; [exact P0|exact P1|exact P2| |lia]. change (3 + 1)%nat with (0 + 4)%nat. rewrite (value_per W sd e 0).
  pose proof (proj1 (Q 0%nat)). pose proof (proj1 (Q 3%nat)). nra.
Qed.

Lemma area4_scale c x0 x1 x2 x3 : 0 < c -> area4 (c * x0) (c * x1) (c * x2) (c * x3) = area4 x0 x1 x2 x3.
Proof.
  intros Hc. assert (P : forall x, pos (c * x) = pos x) by (intros x; unfold pos; destruct (Rlt_dec 0 (c * x)), (Rlt_dec 0 x); try reflexivity; nra).
  assert (Sh : forall x y, share (c * x) (c * y) = share x y).
  { intros x y. unfold share. rewrite !Rabs_mult, (Rabs_pos_eq c) by lra. pose proof (Rabs_pos x). pose proof (Rabs_pos y). destruct (Req_dec (Rabs x + Rabs y) 0) as [Z|Z].
    - assert (Rabs x = 0) as -> by lra. rewrite Rmult_0_r. unfold Rdiv. rewrite !Rmult_0_l. reflexivity.
    - field. split; [lra|]. nra. }
  unfold area4, cut3. rewrite !P, !Sh. replace (c * x0 + c * x1 + c * x2 + c * x3) with (c * (x0 + x1 + x2 + x3)) by ring.
  destruct (pos x0), (pos x1), (pos x2), (pos x3); try reflexivity; destruct (Rlt_dec 0 (c * _)), (Rlt_dec 0 (x0 + _ + _ + _)); try reflexivity; nra.
Qed.
Theorem same_contour W H s t tg tg' sd sd' c l m A B : measurable W H s tg sd -> measurable W H t tg' sd' -> 0 < c ->
  (forall i x y, (i < node_count W H)%nat -> sd !! i = Some x -> sd' !! i = Some y -> y = c * x) ->
  measured s tg l A -> measured t tg' m B -> l = m /\ A = B.
Proof.
  intros Ms Mt Hc Ng Hs Ht. destruct (measured_areas _ _ _ _ _ _ _ Ms Hs) as (HW & Ll & -> & Ea). destruct (measured_areas _ _ _ _ _ _ _ Mt Ht) as (_ & Lm & -> & Eb).
  assert (F : l = m); [|subst; split; reflexivity]. apply list_eq. intros e. destruct (decide (e < W * H)%nat) as [He|He]; [|rewrite !lookup_ge_None_2 by lia; reflexivity].
  rewrite (Ea e He), (Eb e He). f_equal. destruct Ms as (_ & _ & Ho & _). destruct Mt as (_ & _ & Ho' & _).
  assert (Q : forall j, corner_value W sd' e j = c * corner_value W sd e j).
  { intros j. destruct (value_at W H sd e j HW He Ho) as (i & Li & Ei & Eq & N). destruct (value_at W H sd' e j HW He Ho') as (i' & _ & Ei' & Eq' & _). subst i i'. exact (Ng _ _ _ Li Ei Ei'). }
  rewrite !Q, area4_scale by exact Hc. reflexivity.
Qed.

(** ** A unit square. *)
Lemma square_case v : length v = 4%nat -> Forall (fun x => 1 <= Rabs x <= 2) v -> exists s, measurable 1 1 s false v /\ exists l A, measured s false l A.
Proof.
  intros Lv Fv. assert (HF : fits_ls 1 1 3) by (unfold fits_ls, node_count; cbn; lia).
  assert (HV : valid_params (/ 2) 3) by (split; [lia|split; apply Rltb_true; cbn; lra]).
  destruct (new_holes_R 1 1 [] (/ 2) 3 false HF HV) as (s & E & D).
  assert (C : constructed 1 1 (/ 2) 3 false s) by exact (new_by_holes _ _ _ _ _ _ _ E).
  destruct (constructed_sound 1 1 (/ 2) 3 false s HF C) as [So Bo].
  destruct (holes_accepted 1 1 3 (/ 2) false [] HF HV) as (s0 & E0 & _ & Ebw & Efx & _). assert (s0 = s) by congruence. subst s0.
  assert (Ls : length v = length (ls_sd s)) by (rewrite (ok_sd _ _ _ (so_ok _ _ _ So)); exact Lv).
  pose proof tol_pos as Tp. assert (T1 : tol * 4 <= 1) by (unfold tol; lra).
  assert (V : forall i x, v !! i = Some x -> 1 <= Rabs x <= 2) by (intros i x Ei; exact (Forall_lookup_1 _ _ _ _ Fv Ei)).
  assert (M : measurable 1 1 (set_sd v s) false v).
  { split; [reflexivity|]. split; [exists (/ 2), 3%nat, false, s; split; [exact HF|]; split; [exact C|]; apply rtc_once, c_write_sd, Ls|].
    split; [|split; [|right]].
    - intros i Li. destruct (lookup_lt_is_Some_2 v i ltac:(rewrite Lv; exact Li)) as [x Ex]. exists x. split; [exact Ex|]. pose proof (V i x Ex). lra.
    - intros i k x y _ Ei Ek Lx Ly. pose proof (V i x Ei) as Vx. pose proof (V k y Ek) as Vy. rewrite Rabs_pos_eq in Vx by lra. rewrite Rabs_left in Vy by lra. split; nra.
    - intros i k x y Ad _ _ _ _. assert (Hi : (i < 4)%nat).
      { unfold adjacent, adj_x, adj_y in Ad. destruct Ad as [(x' & y' & x2 & -> & _ & Lx & _ & Ly & _)|(x' & y' & y2 & -> & _ & Lx & Ly & _)]; unfold node_id; lia. }
      assert (Li : (i < length (m_nodes (ls_mesh s)))%nat) by (rewrite (tp_lenN _ _ _ (ok_topo _ _ _ (so_ok _ _ _ So))); exact Hi).
      apply lookup_lt_is_Some in Li as [n En]. destruct (nd_masked n) eqn:Mk; [right; right; left; exists n; auto|left].
      apply (bo_active _ Bo). split.
      + exists n. split; [exact En|]. split; [exact Mk|]. intros _. exact Efx.
      + assert (Q : exists x y, (x <= 1)%nat /\ (y <= 1)%nat /\ i = node_id 1 x y).
        { destruct i as [|[|[|[|i]]]]; [exists 0%nat, 0%nat|exists 1%nat, 0%nat|exists 0%nat, 1%nat|exists 1%nat, 1%nat|]; unfold node_id; lia. }
        destruct Q as (x' & y' & Hx & Hy & ->).
        destruct (D x' y' ltac:(lia) ltac:(lia)) as (d & Ed & L1 & _ & L2 & _). exists d. split; [exact Ed|]. rewrite Ebw.
        destruct L2 as [L2|(h & Hh & _)]; [|apply elem_of_nil in Hh; contradiction].
        apply Rltb_true. rewrite nofnat_R. cbn [nabs NumR]. rewrite L2. unfold border_dist.
        destruct x' as [|[|x']]; [| |lia]; (destruct y' as [|[|y']]; [| |lia]); cbn [INR]; unfold Rmin; repeat destruct (Rle_dec _ _); rewrite Rabs_right; lra. }
  exists (set_sd v s). split; [exact M|]. destruct M as (_ & Hr & Ho & Hc & Hv).
  destruct (closed_curves 1 1 _ false Hr Hc Ho Hv) as (s' & b & Hd & _).
  destruct (area_fractions 1 1 _ s' false b Hr Ho Hc Hv Hd) as (s2 & A & Ea & _). eexists _, A, s', b, s2. eauto.
Qed.
Lemma pos_1 x : 0 < x -> pos x = true. Proof. apply pos_true. Qed.
Lemma neg_1 x : x < 0 -> pos x = false. Proof. intros L. apply pos_false; lra. Qed.
Lemma square_values a b c d : area4 (corner_value 1 [a; b; c; d] 0 0) (corner_value 1 [a; b; c; d] 0 1) (corner_value 1 [a; b; c; d] 0 2) (corner_value 1 [a; b; c; d] 0 3) = area4 a b d c.
Proof. reflexivity. Qed.
Lemma square_areas : exists s t u, measurable 1 1 s false [1; -1; -1; -1] /\ measurable 1 1 t false [2; -1; -1; -1] /\ measurable 1 1 u false [-1; 1; 1; 1] /\
  measured s false [/ 8] (/ 8) /\ measured t false [2 / 9] (2 / 9) /\ measured u false [7 / 8] (7 / 8) /\ ~ balanced 1 [1; -1; -1; -1] 0.
Proof.
  assert (G : forall v a, length v = 4%nat -> Forall (fun x => 1 <= Rabs x <= 2) v -> area4 (corner_value 1 v 0 0) (corner_value 1 v 0 1) (corner_value 1 v 0 2) (corner_value 1 v 0 3) = a ->
    exists s, measurable 1 1 s false v /\ measured s false [a] a).
  { intros v a Lv Fv Ea. destruct (square_case v Lv Fv) as (s & M & l & A & Ms). exists s. split; [exact M|]. destruct (measured_areas _ _ _ _ _ _ _ M Ms) as (_ & Ll & -> & El).
    specialize (El 0%nat ltac:(lia)). rewrite Ea in El. destruct l as [|x [|? ?]]; try discriminate Ll. injection El as ->. cbn [fold_right] in Ms. rewrite Rplus_0_r in Ms. exact Ms. }
  assert (A1 : Rabs (-1) = 1) by (rewrite Rabs_left; lra). assert (A2 : Rabs 2 = 2) by (rewrite Rabs_pos_eq; lra).
  destruct (G [1; -1; -1; -1] (/ 8)) as (s & M1 & N1); [reflexivity|repeat (apply Forall_cons; split; [cbv beta; rewrite ?A1, ?Rabs_R1; lra|]); apply Forall_nil; exact I| |].
  { rewrite square_values. unfold area4, cut3, share. rewrite (pos_1 1), (neg_1 (-1)), A1, Rabs_R1 by lra. field. }
  destruct (G [2; -1; -1; -1] (2 / 9)) as (t & M2 & N2); [reflexivity|repeat (apply Forall_cons; split; [cbv beta; rewrite ?A1, ?A2; lra|]); apply Forall_nil; exact I| |].
  { rewrite square_values. unfold area4, cut3, share. rewrite (pos_1 2), (neg_1 (-1)), A1, A2 by lra. field. }
  destruct (G [-1; 1; 1; 1] (7 / 8)) as (u & M3 & N3); [reflexivity|repeat (apply Forall_cons; split; [cbv beta; rewrite ?A1, ?Rabs_R1; lra|]); apply Forall_nil; exact I| |].
  { rewrite square_values. unfold area4, cut3, share. rewrite (pos_1 1), (neg_1 (-1)), A1, Rabs_R1 by lra. field. }
  exists s, t, u. repeat (split; [assumption|]). intros [B _]. specialize (B 1%nat ltac:(lia)). change (-1 * -1 < 0) in B. lra.
Qed.
(** Without the last hypothesis of [complement] the claim is false: a balanced saddle and its complement have area 1/4 each. *)
Theorem complement_balanced : exists s t, measurable 1 1 s false [1; -1; -1; 1] /\ measurable 1 1 t false [-1; 1; 1; -1] /\ measured s false [/ 4] (/ 4) /\ measured t false [/ 4] (/ 4) /\ balanced 1 [1; -1; -1; 1] 0.
Proof.
  assert (A1 : Rabs (-1) = 1) by (rewrite Rabs_left; lra).
  assert (G : forall v, length v = 4%nat -> Forall (fun x => 1 <= Rabs x <= 2) v -> area4 (corner_value 1 v 0 0) (corner_value 1 v 0 1) (corner_value 1 v 0 2) (corner_value 1 v 0 3) = / 4 ->
    exists s, measurable 1 1 s false v /\ measured s false [/ 4] (/ 4)).
  { intros v Lv Fv Ea. destruct (square_case v Lv Fv) as (s & M & l & A & Ms). exists s. split; [exact M|]. destruct (measured_areas _ _ _ _ _ _ _ M Ms) as (_ & Ll & -> & El).
    specialize (El 0%nat ltac:(lia)). rewrite Ea in El. destruct l as [|x [|? ?]]; try discriminate Ll. injection El as ->. cbn [fold_right] in Ms. rewrite Rplus_0_r in Ms. exact Ms. }
  destruct (G [1; -1; -1; 1]) as (s & M1 & N1); [reflexivity|repeat (apply Forall_cons; split; [cbv beta; rewrite ?A1, ?Rabs_R1; lra|]); apply Forall_nil; exact I| |].
  { rewrite square_values. unfold area4, cut3, share. rewrite (pos_1 1), (neg_1 (-1)), A1, Rabs_R1 by lra. destruct (Rlt_dec _ _); [lra|field]. }
  destruct (G [-1; 1; 1; -1]) as (t & M2 & N2); [reflexivity|repeat (apply Forall_cons; split; [cbv beta; rewrite ?A1, ?Rabs_R1; lra|]); apply Forall_nil; exact I| |].
  { rewrite square_values. unfold area4, cut3, share. rewrite (pos_1 1), (neg_1 (-1)), A1, Rabs_R1 by lra. destruct (Rlt_dec _ _); [lra|field]. }
  exists s, t. repeat (split; [assumption|]). split; [|change (1 + -1 + 1 + -1 = 0); lra].
  intros [|[|[|[|j]]]] Lj; [change (1 * -1 < 0)|change (-1 * 1 < 0)|change (1 * -1 < 0)|change (-1 * 1 < 0)|lia]; lra.
Qed.
