(** * Shift: area and perimeter of a shape that is moved (C84). *)

From Coq Require Import Reals Lra Lia ZArith.
From Verif Require Import Base Num NumR NumInt MeshModel MeshSpec MeshProofs MeshTopo FmmSpec LevelSetModel LevelSetSpec LevelSetSpecR LevelSetCalls LevelSetHist BoundaryModel BoundarySpec BoundarySpecR BoundaryReal
  BoundaryLinks BoundaryClosed AreaCut AreaOrderSpec AreaOrder DemoCase SymmetrySpec Symmetry Perimeter ShiftSpec.
Local Open Scope R_scope.

Lemma val_node W sd x y : val W sd x y = node_value W sd x y. Proof. reflexivity. Qed.
Lemma sum_filter (p : nat -> bool) (g : nat -> R) l : (forall e, e ∈ l -> p e = false -> g e = 0) -> fold_right Rplus 0 (map g l) = fold_right Rplus 0 (map g (List.filter p l)).
Proof.
  induction l as [|e l IH]; intros Z; [reflexivity|]. cbn [List.filter map fold_right]. rewrite IH by (intros; apply Z; [apply elem_of_list_further|]; assumption).
  destruct (p e) eqn:P; cbn [map fold_right]; [reflexivity|]. rewrite (Z e (elem_of_list_here _ _) P). lra.
Qed.
Lemma moved_sum n k (g h : nat -> R) (p q : nat -> bool) (f f' : nat -> nat) :
  (forall e, (e < n)%nat -> p e = false -> g e = 0) -> (forall e, (e < k)%nat -> q e = false -> h e = 0) ->
  (forall e, (e < n)%nat -> p e = true -> (f e < k)%nat /\ q (f e) = true /\ h (f e) = g e /\ f' (f e) = e) ->
  (forall e, (e < k)%nat -> q e = true -> (f' e < n)%nat /\ p (f' e) = true /\ f (f' e) = e) ->
  fold_right Rplus 0 (map g (seq 0 n)) = fold_right Rplus 0 (map h (seq 0 k)).
Proof.
  intros Zg Zh F F'. rewrite (sum_filter p), (sum_filter q h); [|intros e He; apply elem_of_seq in He; apply Zh; lia|intros e He; apply elem_of_seq in He; apply Zg; lia].
  assert (I : forall e, e ∈ List.filter p (seq 0 n) <-> (e < n)%nat /\ p e = true) by (intros e; rewrite elem_of_list_In, filter_In, in_seq; lia || intuition lia).
  assert (J : forall e, e ∈ List.filter q (seq 0 k) <-> (e < k)%nat /\ q e = true) by (intros e; rewrite elem_of_list_In, filter_In, in_seq; intuition lia).
  assert (P : map f (List.filter p (seq 0 n)) ≡ₚ List.filter q (seq 0 k)).
  { apply NoDup_Permutation.
    - apply NoDup_fmap_2_strong; [|apply NoDup_ListNoDup, List.NoDup_filter, seq_NoDup]. intros e e' He He' E. apply I in He as [L1 P1], He' as [L2 P2].
      destruct (F e L1 P1) as (_ & _ & _ & <-). destruct (F e' L2 P2) as (_ & _ & _ & <-). congruence.
    - apply NoDup_ListNoDup, List.NoDup_filter, seq_NoDup.
    - intros e. rewrite J. rewrite elem_of_list_fmap. split.
      + intros (e' & -> & He). apply I in He as [L P]. destruct (F e' L P) as (A & B & _). auto.
      + intros [L Q]. destruct (F' e L Q) as (A & B & C). exists (f' e). split; [congruence|]. apply I. auto. }
  transitivity (fold_right Rplus 0 (map h (map f (List.filter p (seq 0 n))))); [|exact (sum_perm _ _ (fmap_Permutation h _ _ P))]. rewrite map_map. f_equal. apply map_ext_in. intros e He. apply elem_of_list_In, I in He as [L Pe].
  destruct (F e L Pe) as (_ & _ & E & _). congruence.
Qed.

(** ** Elements. *)
Definition some_inside (W : nat) (sd : list R) (e : nat) : bool :=
  let x := (e mod W)%nat in let y := (e / W)%nat in inside (node_value W sd x y) || inside (node_value W sd (x + 1) y) || inside (node_value W sd (x + 1) (y + 1)) || inside (node_value W sd x (y + 1)).
Definition move_elem (W V : nat) (a b : Z) (e : nat) : nat := (Z.to_nat (Z.of_nat (e mod W) + a) + Z.to_nat (Z.of_nat (e / W) + b) * V)%nat.
Lemma inside_pos v : inside v = true <-> 0 < v. Proof. unfold inside. destruct (Rlt_dec 0 v); intuition (discriminate || lra). Qed.
Lemma split_xy W x y : (x < W)%nat -> ((x + y * W) mod W = x /\ (x + y * W) / W = y)%nat.
Proof. intros L. rewrite Nat.mod_add, Nat.mod_small, Nat.div_add, Nat.div_small by lia. lia. Qed.
Lemma move_back a b : (- - a)%Z = a /\ (- - b)%Z = b. Proof. lia. Qed.
Section Moved.
  Variables (W H V K : nat) (a b : Z) (sd sd' : list R).
  Hypothesis Hm : moved_by W H V K a b sd sd'.
  Lemma moved_elem x y : (x < W)%nat -> (y < H)%nat -> some_inside W sd (x + y * W) = true ->
    exists u v, (u < V)%nat /\ (v < K)%nat /\ Z.of_nat u = (Z.of_nat x + a)%Z /\ Z.of_nat v = (Z.of_nat y + b)%Z.
  Proof.
    intros Hx Hy S. destruct Hm as (R1 & _ & _). unfold some_inside in S. destruct (split_xy W x y Hx) as [Ex Ey]. rewrite Ex, Ey in S. rewrite !orb_true_iff, !inside_pos in S.
    assert (Q : (0 <= Z.of_nat x + a < Z.of_nat V)%Z /\ (0 <= Z.of_nat y + b < Z.of_nat K)%Z).
    { destruct S as [[[S|S]|S]|S]; apply R1 in S; lia. }
    exists (Z.to_nat (Z.of_nat x + a)), (Z.to_nat (Z.of_nat y + b)). lia.
  Qed.
  Lemma moved_corners x y u v : (x < W)%nat -> (y < H)%nat -> (u < V)%nat -> (v < K)%nat -> Z.of_nat u = (Z.of_nat x + a)%Z -> Z.of_nat v = (Z.of_nat y + b)%Z ->
    node_value V sd' u v = node_value W sd x y /\ node_value V sd' (u + 1) v = node_value W sd (x + 1) y /\
    node_value V sd' (u + 1) (v + 1) = node_value W sd (x + 1) (y + 1) /\ node_value V sd' u (v + 1) = node_value W sd x (y + 1).
  Proof. intros Hx Hy Hu Hv Eu Ev. destruct Hm as (_ & _ & E). repeat split; apply E; lia. Qed.
  Variable g : R -> R -> R -> R -> R.
  Hypothesis g0 : forall x0 x1 x2 x3, inside x0 = false -> inside x1 = false -> inside x2 = false -> inside x3 = false -> g x0 x1 x2 x3 = 0.
  Definition on_elem (W : nat) (sd : list R) (e : nat) : R := g (corner_value W sd e 0) (corner_value W sd e 1) (corner_value W sd e 2) (corner_value W sd e 3).
  Lemma on_elem_xy N l x y : (x < N)%nat -> on_elem N l (x + y * N) = g (node_value N l x y) (node_value N l (x + 1) y) (node_value N l (x + 1) (y + 1)) (node_value N l x (y + 1)).
  Proof. intros L. unfold on_elem. destruct (corner_values N l x y L) as (-> & -> & -> & ->). reflexivity. Qed.
  Lemma on_elem_none N M l e : (e < N * M)%nat -> some_inside N l e = false -> on_elem N l e = 0.
  Proof.
    intros He S. destruct (element_xy N M e He) as (x & y & Hx & Hy & ->). rewrite on_elem_xy by exact Hx. unfold some_inside in S. destruct (split_xy N x y Hx) as [Ex Ey]. rewrite Ex, Ey in S.
    rewrite !orb_false_iff in S. apply g0; tauto.
  Qed.
End Moved.
Lemma moved_sym W H V K a b sd sd' : moved_by W H V K a b sd sd' -> moved_by V K W H (- a) (- b) sd' sd.
Proof.
  intros (R1 & R2 & E). split; [exact R2|]. split; [rewrite !Z.opp_involutive; exact R1|]. intros x y x' y' Hx Hy Hx' Hy' Ex Ey. symmetry. apply E; lia.
Qed.
Lemma moved_one W H V K a b sd sd' e : moved_by W H V K a b sd sd' -> (e < W * H)%nat -> some_inside W sd e = true ->
  (move_elem W V a b e < V * K)%nat /\ some_inside V sd' (move_elem W V a b e) = true /\ move_elem V W (- a) (- b) (move_elem W V a b e) = e.
Proof.
  intros Hm He S. destruct (element_xy W H e He) as (x & y & Hx & Hy & ->). destruct (moved_elem _ _ _ _ _ _ _ _ Hm x y Hx Hy S) as (u & v & Hu & Hv & Eu & Ev).
  destruct (split_xy W x y Hx) as [Ex Ey]. destruct (split_xy V u v Hu) as [Fx Fy].
  assert (M : move_elem W V a b (x + y * W) = (u + v * V)%nat) by (unfold move_elem; rewrite Ex, Ey, <- Eu, <- Ev, !Nat2Z.id; reflexivity).
  rewrite M. split; [apply xy_lt; assumption|]. split.
  - destruct (moved_corners _ _ _ _ _ _ _ _ Hm x y u v Hx Hy Hu Hv Eu Ev) as (C0 & C1 & C2 & C3). unfold some_inside in *. rewrite Ex, Ey in S. rewrite Fx, Fy, C0, C1, C2, C3. exact S.
  - unfold move_elem. rewrite Fx, Fy. replace (Z.of_nat u + - a)%Z with (Z.of_nat x) by lia. replace (Z.of_nat v + - b)%Z with (Z.of_nat y) by lia. rewrite !Nat2Z.id. reflexivity.
Qed.
Lemma moved_total W H V K a b sd sd' g : moved_by W H V K a b sd sd' ->
  (forall x0 x1 x2 x3, inside x0 = false -> inside x1 = false -> inside x2 = false -> inside x3 = false -> g x0 x1 x2 x3 = 0) ->
  fold_right Rplus 0 (map (on_elem g W sd) (seq 0 (W * H))) = fold_right Rplus 0 (map (on_elem g V sd') (seq 0 (V * K))).
Proof.
  intros Hm G0. apply (moved_sum _ _ _ _ (some_inside W sd) (some_inside V sd') (move_elem W V a b) (move_elem V W (- a) (- b))).
  - intros e He. apply (on_elem_none g G0 W H), He.
  - intros e He. apply (on_elem_none g G0 V K), He.
  - intros e He S. destruct (moved_one _ _ _ _ _ _ _ _ e Hm He S) as (A & B & C). split; [exact A|]. split; [exact B|]. split; [|exact C].
    destruct (element_xy W H e He) as (x & y & Hx & Hy & ->). destruct (moved_elem _ _ _ _ _ _ _ _ Hm x y Hx Hy S) as (u & v & Hu & Hv & Eu & Ev).
    destruct (split_xy W x y Hx) as [Ex Ey]. assert (M : move_elem W V a b (x + y * W) = (u + v * V)%nat) by (unfold move_elem; rewrite Ex, Ey, <- Eu, <- Ev, !Nat2Z.id; reflexivity).
    rewrite M, !on_elem_xy by assumption. destruct (moved_corners _ _ _ _ _ _ _ _ Hm x y u v Hx Hy Hu Hv Eu Ev) as (-> & -> & -> & ->). reflexivity.
  - intros e He S. destruct (moved_one _ _ _ _ _ _ _ _ e (moved_sym _ _ _ _ _ _ _ _ Hm) He S) as (A & B & C). rewrite !Z.opp_involutive in C. auto.
Qed.

Lemma area4_none x0 x1 x2 x3 : inside x0 = false -> inside x1 = false -> inside x2 = false -> inside x3 = false -> area4 x0 x1 x2 x3 = 0.
Proof. intros A B C D. unfold area4. change AreaOrder.pos with inside. rewrite A, B, C, D. reflexivity. Qed.
Lemma len4_none x0 x1 x2 x3 : inside x0 = false -> inside x1 = false -> inside x2 = false -> inside x3 = false -> len4 x0 x1 x2 x3 = 0.
Proof. intros A B C D. unfold len4. rewrite A, B, C, D. reflexivity. Qed.

Theorem moved_length W H V K a b s t tg tg' sd sd' s' t' c d : measurable W H s tg sd -> measurable V K t tg' sd' -> moved_by W H V K a b sd sd' ->
  discretise s tg = Ok (s', c) -> discretise t tg' = Ok (t', d) -> bd_length c = bd_length d.
Proof.
  intros Ms Mt Hm Ds Dt. destruct (perimeter _ _ _ _ _ _ _ Ms Ds) as [_ ->]. destruct (perimeter _ _ _ _ _ _ _ Mt Dt) as [_ ->].
  exact (moved_total W H V K a b sd sd' len4 Hm len4_none).
Qed.
Theorem moved_areas W H V K a b s t tg tg' sd sd' l m A B : measurable W H s tg sd -> measurable V K t tg' sd' -> moved_by W H V K a b sd sd' ->
  measured s tg l A -> measured t tg' m B ->
  A = B /\ forall x y u v, (x < W)%nat -> (y < H)%nat -> (u < V)%nat -> (v < K)%nat -> Z.of_nat u = (Z.of_nat x + a)%Z -> Z.of_nat v = (Z.of_nat y + b)%Z -> at_xy V m u v = at_xy W l x y.
Proof.
  intros Ms Mt Hm Hs Ht. destruct (measured_areas _ _ _ _ _ _ _ Ms Hs) as (HW & Ll & -> & Ea). destruct (measured_areas _ _ _ _ _ _ _ Mt Ht) as (HV & Lm & -> & Eb). split.
  - assert (L : forall n (q : list R) (f : nat -> R), length q = n -> (forall e, (e < n)%nat -> q !! e = Some (f e)) -> q = map f (seq 0 n)).
    { intros n q f Lq Eq. apply list_eq. intros e. rewrite list_lookup_fmap. destruct (decide (e < n)%nat) as [Le|Le].
      - rewrite lookup_seq_lt by exact Le. rewrite Eq by exact Le. reflexivity.
      - rewrite lookup_seq_ge, lookup_ge_None_2 by lia. reflexivity. }
    rewrite (L (W * H)%nat l (on_elem area4 W sd) Ll Ea), (L (V * K)%nat m (on_elem area4 V sd') Lm Eb).
    exact (moved_total W H V K a b sd sd' area4 Hm area4_none).
  - intros x y u v Hx Hy Hu Hv Eu Ev. unfold at_xy. rewrite (Ea _ (xy_lt W H x y Hx Hy)), (Eb _ (xy_lt V K u v Hu Hv)).
    destruct (corner_values W sd x y Hx) as (-> & -> & -> & ->). destruct (corner_values V sd' u v Hu) as (-> & -> & -> & ->).
    destruct (moved_corners _ _ _ _ _ _ _ _ Hm x y u v Hx Hy Hu Hv Eu Ev) as (C0 & C1 & C2 & C3). change val with node_value. rewrite C0, C1, C2, C3. reflexivity.
Qed.

(** ** Any values between 1 and 2 as a target. *)
Lemma target_case W H v : fits_ls W H 3 -> length v = node_count W H -> Forall (fun x => 1 <= Rabs x <= 2) v -> exists s, measurable W H s true v /\ exists l A, measured s true l A.
Proof.
  intros HF Lv Fv. assert (HV : valid_params (/ 2) 3) by (split; [lia|split; apply Rltb_true; cbn; lra]).
  destruct (target_accepted W H (/ 2) 3 false [] HF HV) as (s & E & LT & _).
  assert (R1 : reached W H s) by (exists (/ 2), 3%nat, false, s; split; [exact HF|]; split; [exact (new_by_holes_holes _ _ _ _ _ _ _ _ E)|apply rtc_refl]).
  assert (R2 : reached W H (set_target v s)) by (apply (reached_call _ _ _ _ R1), c_quiet, q_write_target; rewrite LT; exact Lv).
  pose proof tol_pos as Tp. assert (T1 : tol * 4 <= 1) by (unfold tol; lra).
  assert (Q : forall i x, v !! i = Some x -> 1 <= Rabs x <= 2) by (intros i x Ei; exact (Forall_lookup_1 _ _ _ _ Fv Ei)).
  assert (M : measurable W H (set_target v s) true v).
  { split; [reflexivity|]. split; [exact R2|]. split; [|split; [|left; reflexivity]].
    - intros i Li. destruct (lookup_lt_is_Some_2 v i ltac:(rewrite Lv; exact Li)) as [x Ex]. exists x. split; [exact Ex|]. pose proof (Q i x Ex). lra.
    - intros i k x y _ Ei Ek Lx Ly. pose proof (Q i x Ei) as Vx. pose proof (Q k y Ek) as Vy. rewrite Rabs_pos_eq in Vx by lra. rewrite Rabs_left in Vy by lra. split; nra. }
  exists (set_target v s). split; [exact M|]. destruct M as (_ & Hr & Ho & Hc & Hv).
  destruct (closed_curves W H _ true Hr Hc Ho Hv) as (s' & b & Hd & _).
  destruct (area_fractions W H _ s' true b Hr Ho Hc Hv Hd) as (s2 & A & Ea & _). eexists _, A, s', b, s2. eauto.
Qed.
Definition p9 : list R := [-1; -1; -1; -1; 1; -1; -1; -1; -1].
Definition q12 : list R := [-1; -1; -1; -1; -1; -1; 1; -1; -1; -1; -1; -1].
Lemma one_or_less (v : list R) : Forall (fun x => x = 1 \/ x = -1) v -> Forall (fun x => 1 <= Rabs x <= 2) v.
Proof. intros F. apply (Forall_impl _ _ _ F). intros x [-> | ->]; [rewrite Rabs_pos_eq by lra|rewrite Rabs_left by lra]; lra. Qed.
Theorem shift_case : exists s t l A m B, measurable 2 2 s true p9 /\ measurable 3 2 t true q12 /\ moved_by 2 2 3 2 1 0 p9 q12 /\ measured s true l A /\ measured t true m B.
Proof.
  destruct (target_case 2 2 p9) as (s & Ms & l & A & Ds); [unfold fits_ls, node_count; cbn; lia|reflexivity|apply one_or_less; unfold p9; repeat (apply List.Forall_cons; [auto|]); apply List.Forall_nil|].
  destruct (target_case 3 2 q12) as (t & Mt & m & B & Dt); [unfold fits_ls, node_count; cbn; lia|reflexivity|apply one_or_less; unfold q12; repeat (apply List.Forall_cons; [auto|]); apply List.Forall_nil|].
  exists s, t, l, A, m, B. split; [exact Ms|]. split; [exact Mt|]. split; [|auto]. clear. assert (N : ~ 0 < -1) by lra. split; [|split].
  - intros x y Hx Hy. unfold node_value, p9. destruct x as [|[|[|x]]]; [..|lia]; (destruct y as [|[|[|y]]]; [..|lia]); cbn [Nat.add Nat.mul nth]; intros P; first [destruct (N P)|clear; lia].
  - intros x y Hx Hy. unfold node_value, q12. destruct x as [|[|[|[|x]]]]; [..|lia]; (destruct y as [|[|[|y]]]; [..|lia]); cbn [Nat.add Nat.mul nth]; intros P; first [destruct (N P)|clear; lia].
  - intros x y x' y' Hx Hy Hx' Hy' Ex Ey. assert (x' = S x) by lia. assert (y' = y) by lia. subst. unfold node_value, p9, q12.
    destruct x as [|[|[|x]]]; [..|lia]; (destruct y as [|[|[|y]]]; [..|lia]); cbn [Nat.add Nat.mul nth]; reflexivity.
Qed.
