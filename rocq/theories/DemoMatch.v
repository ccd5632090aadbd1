(** * DemoMatch: the sensitivities shape_match assigns, for shapes away from the border of the domain (C59, C68). *)

From Coq Require Import Reals Lra.
From Verif Require Import Base Num NumR NumInt NumSgn MeshModel MeshSpec FmmSpec LevelSetModel LevelSetSpec LevelSetSpecR LevelSetCalls LevelSetHist
  BoundaryModel BoundarySpec BoundarySpecR BoundaryFrame BoundaryLinks BoundaryReal BoundaryGraph BoundaryClosed NormSpec SensProofs DemoModel DemoSpec DemoSens DemoTurn DemoArea DemoCase.
Local Open Scope R_scope.

(** Further than half a cell from the border. *)
Definition well_inside (W H : nat) (c : Coord R) : Prop := / 2 < cx c < INR W - / 2 /\ / 2 < cy c < INR H - / 2.

Lemma closest_inner W H (m : Mesh R) c : topo W H m -> well_inside W H c ->
  exists k, getClosestNode m (cx c) (cy c) = Ok k /\ (k < node_count W H)%nat /\ off_border W H k.
Proof.
  intros Ht [Hx Hy]. destruct (closest_R W H m c Ht) as (k & n & E & En & _ & M); [lra|lra|]. exists k. split; [exact E|].
  assert (Hk : (k < node_count W H)%nat) by (apply lookup_lt_Some in En; rewrite (tp_lenN _ _ _ Ht) in En; exact En). split; [exact Hk|].
  assert (HW : (1 <= W)%nat) by apply (tp_fits _ _ _ Ht).
  rewrite (node_of W HW k) in M. pose proof (row_le W H HW k Hk) as Ly. pose proof (col_le W HW k) as Lx. unfold off_border.
  set (x := (k mod (W + 1))%nat) in *. set (y := (k / (W + 1))%nat) in *.
  assert (Q : forall a b, (a <= W)%nat -> (b <= H)%nat -> euclid2 c (mkCoord (INR x) (INR y)) <= euclid2 c (mkCoord (INR a) (INR b))).
  { intros a b La Lb. rewrite <- (grid_id W x y Lx), <- (grid_id W a b La). apply M. unfold node_id, node_count. nia. }
  unfold euclid2 in Q. cbn [cx cy] in Q.
  assert (LW : (2 <= W)%nat). { destruct (Nat.eq_dec W 1) as [->|]; [cbn [INR] in Hx; lra|lia]. }
  assert (LH : (2 <= H)%nat). { destruct H as [|[|]]; [cbn [INR] in Hy; lra|cbn [INR] in Hy; lra|lia]. }
  assert (PW : INR (W - 1) = INR W - 1) by (rewrite minus_INR by lia; reflexivity). assert (PH : INR (H - 1) = INR H - 1) by (rewrite minus_INR by lia; reflexivity).
  assert (x <> 0 /\ x <> W /\ y <> 0 /\ y <> H)%nat; [|lia].
  repeat split; intros Z; rewrite Z in *.
  - specialize (Q 1%nat y ltac:(lia) Ly). cbn [INR] in Q. lra.
  - specialize (Q (W - 1)%nat y ltac:(lia) Ly). rewrite PW in Q. assert (2 * cx c < 2 * INR W - 1) by lra.
    replace ((INR W - 1 - cx c) * (INR W - 1 - cx c)) with ((INR W - cx c) * (INR W - cx c) - 2 * (INR W - cx c) + 1) in Q by ring. lra.
  - specialize (Q x 1%nat Lx ltac:(lia)). cbn [INR] in Q. lra.
  - specialize (Q x (H - 1)%nat Lx ltac:(lia)). rewrite PH in Q.
    replace ((INR H - 1 - cy c) * (INR H - 1 - cy c)) with ((INR H - cy c) * (INR H - cy c) - 2 * (INR H - cy c) + 1) in Q by ring. lra.
Qed.

(** The value for a point at [c] whose closest node is [k]. *)
Definition mismatch_value (W : nat) (s : LevelSet R) (c : Coord R) (k : nat) (v : R) : Prop :=
  (exists n, n ∈ cross W k /\ euclid2 (grid W n) c < tol /\ v = clamp (gap s n)) \/
  ((forall n, n ∈ cross W k -> tol <= euclid2 (grid W n) c) /\ v = clamp (weighted_gap W s c (cross W k))).

Theorem match_sensitivities W H t area (s s' : LevelSet R) b : reached W H s -> length (ls_target s) = node_count W H ->
  new_boundary (shape_match t area) s = Ok (s', b) -> (forall p, p ∈ bd_points b -> well_inside W H (bp_coord p)) ->
  exists b', d_assign (shape_match t area) s' b = Ok b' /\ sens_set b b' /\ length (bd_points b') = length (bd_points b) /\
    forall i p q, bd_points b !! i = Some p -> bd_points b' !! i = Some q ->
      exists k v, getClosestNode (ls_mesh s) (cx (bp_coord p)) (cy (bp_coord p)) = Ok k /\ mismatch_value W s (bp_coord p) k v /\ q = with_sens [v; 0] p /\ -1 <= v <= 1.
Proof.
  intros Hr Lt E Hin. assert (E0 := E). unfold new_boundary in E. cbn [shape_match d_areas d_normals] in E. apply obind_Ok in E as ([s1 b1] & E1 & E). cbn [obind] in E. injection E as -> ->.
  pose proof (ok_topo _ _ _ (so_ok _ _ _ (reached_sound _ _ _ Hr))) as Ht.
  destruct (frame_api W H s s' false b Ht E1) as (F1 & _). injection F1 as D1 _ _ T1.
  assert (R1 : reached W H s') by (apply (reached_call _ _ _ _ Hr), c_quiet, (q_discretise _ _ _ _ E1)).
  pose proof (ok_topo _ _ _ (so_ok _ _ _ (reached_sound _ _ _ R1))) as Ht1.
  pose proof (discretised_blank W H s s' false b Ht E1) as Blank.
  assert (Gap : forall n, gap s' n = gap s n) by (intros n; unfold gap; rewrite D1, T1; reflexivity).
  rewrite (shape_match_uncorrected W H t area s s' b Hr E0). cbn [shape_match d_assign]. set (f := fun _ _ p => _).
  pose (P := fun (i : nat) p (l : list R) => exists k v, getClosestNode (ls_mesh s) (cx (bp_coord p)) (cy (bp_coord p)) = Ok k /\ mismatch_value W s (bp_coord p) k v /\ l = [v; 0] /\ -1 <= v <= 1).
  assert (X : wp False False (each_point f b) (fun b' => sens_set b b' /\ Forall2 only_sens (bd_points b) (bd_points b') /\ forall i p q, bd_points b !! i = Some p -> bd_points b' !! i = Some q -> P i p (bp_sens q))).
  { apply each_point_spec. intros i p ps Ep Eps _. unfold f.
    destruct (closest_inner W H (ls_mesh s') (bp_coord p) Ht1 (Hin p (elem_of_list_lookup_2 _ _ _ Ep))) as (k & Ek & Hk & Ok).
    destruct (sensitivity_R W H s' (bp_coord p) k R1 ltac:(rewrite T1; exact Lt) Ek Hk Ok) as (v & Ev & Hv). rewrite Ev. cbn [obind].
    destruct (Blank i p Ep) as [Bs _]. unfold set_sens. rewrite Bs. cbn [vset obind wp]. exists [v; 0]. split; [reflexivity|].
    exists k, v. split; [rewrite (closest_topo W H _ _ _ Ht), <- (closest_topo W H _ _ _ Ht1); exact Ek|].
    assert (V : mismatch_value W s (bp_coord p) k v).
    { destruct Hv as [(n & In & Ln & ->)|[A ->]]; [left; exists n; rewrite Gap; auto|right]. split; [exact A|]. unfold weighted_gap.
      do 3 f_equal. apply map_ext. intros n. rewrite Gap. reflexivity. }
    split; [exact V|]. split; [reflexivity|]. destruct V as [(n & _ & _ & ->)|[_ ->]]; apply clamp_bounds. }
  apply wp_total in X as (b' & Eb & S & F & HP).
  rewrite Eb. cbn [obind].
  assert (EI : itoCorrection delta b' (0 : R) = Ok b').
  { unfold itoCorrection. cbn [neqb NumR]. change (n0 (T := R)) with 0. rewrite (proj2 (Reqb_true 0 0) eq_refl). reflexivity. }
  rewrite EI. exists b'. split; [reflexivity|]. split; [exact S|]. split; [symmetry; exact (Forall2_length _ _ _ F)|].
  intros i p q Ep Eq. destruct (HP i p q Ep Eq) as (k & v & A & B & C & D). exists k, v. split; [exact A|]. split; [exact B|]. split; [|exact D].
  rewrite <- C. exact (Forall2_lookup_lr _ _ _ _ _ _ F Ep Eq).
Qed.

(** Enough for this: the nodes less than two cells from the border are outside. *)
Theorem inner_points W H (s s' : LevelSet R) b : reached W H s -> off_contour W H (ls_sd s) ->
  (forall x y, (x <= W)%nat -> (y <= H)%nat -> (x <= 1 \/ W <= x + 1 \/ y <= 1 \/ H <= y + 1)%nat -> exists v, ls_sd s !! node_id W x y = Some v /\ v < 0) ->
  discretise s false = Ok (s', b) -> forall p, p ∈ bd_points b -> well_inside W H (bp_coord p).
Proof.
  intros Hr Hoff Hb Hd p Hp. apply elem_of_list_lookup in Hp as [j Ej]. pose proof tol_pos as Tp.
  destruct (points_on_contour W H s s' false b Hr Hd j p Ej) as [[(i & x & Hi & Ex & Lx & _)|(i & k & Ad & x & y & t & Ex & Ey & Lx & Ly & Lt & Eq & ->)] _].
  - cbn [field] in Ex. destruct (Hoff i Hi) as (x' & Ex' & Lx'). assert (x' = x) by congruence. subst. lra.
  - cbn [field] in Ex, Ey.
    assert (In : forall a b, i = node_id W a b -> (a <= W)%nat -> (b <= H)%nat -> 2 <= INR a <= INR W - 2 /\ 2 <= INR b <= INR H - 2).
    { intros a c -> La Lb.
      assert (N : ~ (a <= 1 \/ W <= a + 1 \/ c <= 1 \/ H <= c + 1)%nat).
      { intros Hbb. destruct (Hb a c La Lb Hbb) as (v & Ev & Lv). assert (v = x) by congruence. lra. }
      assert (Q : forall n m : nat, (2 <= n)%nat -> (n + 2 <= m)%nat -> 2 <= INR n <= INR m - 2).
      { intros n m L1 L2. apply le_INR in L1, L2. rewrite plus_INR in L2. cbn [INR] in L1, L2. lra. }
      split; apply Q; lia. }
    unfold well_inside, along.
    destruct Ad as [(a & c & a' & E1 & E2 & La & La' & Lb & D)|(a & c & c' & E1 & E2 & La & Lb & Lb' & D)]; destruct (In a c E1 La Lb) as [A B]; subst i k;
      rewrite !grid_id by assumption; cbn [cx cy]; destruct D as [-> | ->]; rewrite ?plus_INR in *; cbn [INR] in *; lra.
Qed.

(** ** The middle node of a 4 by 4 mesh *)
Lemma mid_boundary : exists (s s' : LevelSet R) b, reached 4 4 s /\ length (ls_target s) = node_count 4 4 /\ discretise s false = Ok (s', b) /\
  (forall p, p ∈ bd_points b -> well_inside 4 4 (bp_coord p)) /\ (exists p, p ∈ bd_points b) /\ 0 < bd_length b.
Proof.
  destruct mid_case as (s & Hr & Lt & Es & Ho & Hc & Hv & _ & Hb & Hp).
  destruct (closed_curves 4 4 s false Hr Hc Ho (or_intror Hv)) as (s' & b & Hd & _). exists s, s', b. split; [exact Hr|]. split; [exact Lt|]. split; [exact Hd|].
  split.
  { apply (inner_points 4 4 s s' b Hr Ho); [|exact Hd]. intros x y Hx Hy Hxy. rewrite Es. destruct (lookup_lt_is_Some_2 mid25 (node_id 4 x y)) as [v Ev].
    { change (length mid25) with 25%nat. unfold node_id. lia. }
    exists v. split; [exact Ev|]. destruct (mid_values _ _ Ev) as [_ [[Z _]|[_ ->]]]; [exfalso; unfold node_id in Z; lia|lra]. }
  destruct (positive_point 4 4 s Hr Ho Hc Hb s' b Hv Hp ltac:(lia) Hd) as (p & Ep & Lp). split; [exists p; exact Ep|].
  rewrite (total_by_points 4 4 s s' false b Hr Hd).
  assert (Q : forall l : list (BoundaryPoint R), (forall q, q ∈ l -> 0 <= bp_length q) -> p ∈ l -> bp_length p <= sumR (map bp_length l)).
  { induction l as [|q l IH]; intros Hn Hi; [apply elem_of_nil in Hi; contradiction|]. cbn [map sumR fold_right].
    assert (N : 0 <= bp_length q) by (apply Hn; left). assert (Nl : 0 <= sumR (map bp_length l)).
    { clear -Hn. induction l as [|z l IH]; [cbn; lra|]. cbn [map sumR fold_right]. assert (0 <= bp_length z) by (apply Hn; right; left).
      assert (0 <= sumR (map bp_length l)); [|unfold sumR in *; lra]. apply IH. intros w Hw. apply Hn. apply elem_of_cons in Hw as [->|Hw]; [left|right; right; exact Hw]. }
    apply elem_of_cons in Hi as [->|Hi]; [unfold sumR in *; lra|]. specialize (IH (fun w Hw => Hn w (elem_of_list_further _ _ _ Hw)) Hi). unfold sumR in *. lra. }
  specialize (Q (bd_points b)). assert (bp_length p <= sumR (map bp_length (bd_points b))); [|lra]. apply Q; [|exact Ep].
  intros q Hq. apply elem_of_list_lookup in Hq as [k Ek]. exact (point_length_nonneg 4 4 s s' false b k q Hr Hd Ek).
Qed.
