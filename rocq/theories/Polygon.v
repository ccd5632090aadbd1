(** * Polygon: the inside test of the level set, exact arithmetic (C76). *)

From Coq Require Import Reals Lra Lia ZArith.
From Verif Require Import Base Num NumR NumInt MeshModel MeshSpec MeshProofs LevelSetModel LevelSetSpec LevelSetInit PolySpec.
From Flocq Require Import Core.Core.
Local Open Scope R_scope.

Lemma trunc_small (x : R) : Rabs x < 2147483647 -> exists z, trunc_i32 x = Ok z /\
  ((0 < z)%Z <-> 1 <= x) /\ ((z < 0)%Z <-> x <= -1).
Proof.
  intros Hx. apply Rabs_def2 in Hx as [Hx1 Hx2]. unfold trunc_i32, n0. cbn [nltb nneg nofZ nfloorZ NumR]. destruct (Rltb_spec x 0) as [N|N].
  - cbn [option_map]. pose proof (Zfloor_lb (- x)) as L. pose proof (Zfloor_ub (- x)) as U. set (z := Zfloor (- x)) in *.
    assert (z1 : (-1 < z)%Z) by (apply lt_IZR; lra). assert (z2 : (z < 2147483648)%Z) by (apply lt_IZR; lra).
    assert (E : ((- 2 ^ 31 <=? - z) && (- z <? 2 ^ 31))%Z = true) by lia. rewrite E. exists (- z)%Z. split; [reflexivity|]. split.
    + split; [lia|lra].
    + split.
      * intros Hz. assert (1 <= z)%Z by lia. apply IZR_le in H. lra.
      * intros Hz. assert (0 < z)%Z by (apply lt_IZR; lra). lia.
  - pose proof (Zfloor_lb x) as L. pose proof (Zfloor_ub x) as U. set (z := Zfloor x) in *.
    assert (z1 : (-1 < z)%Z) by (apply lt_IZR; lra). assert (z2 : (z < 2147483648)%Z) by (apply lt_IZR; lra).
    assert (E : ((- 2 ^ 31 <=? z) && (z <? 2 ^ 31))%Z = true) by lia. rewrite E. exists z. split; [reflexivity|]. split.
    + split.
      * intros Hz. assert (1 <= z)%Z by lia. apply IZR_le in H. lra.
      * intros Hz. assert (0 < z)%Z by (apply lt_IZR; lra). lia.
    + split; [lia|lra].
Qed.

Lemma side_small B a b p : within B a -> within B b -> within B p -> Rabs (side a b p) <= 8 * (B * B).
Proof.
  intros [A1 A2] [B1 B2] [P1 P2]. unfold side.
  assert (D : forall x y, Rabs x <= B -> Rabs y <= B -> Rabs (x - y) <= 2 * B).
  { intros x y X Y. pose proof (Rabs_triang x (- y)) as Q. rewrite Rabs_Ropp in Q. unfold Rminus. lra. }
  assert (M : forall x y, Rabs x <= 2 * B -> Rabs y <= 2 * B -> Rabs (x * y) <= 4 * (B * B)).
  { intros x y X Y. rewrite Rabs_mult. pose proof (Rabs_pos x). pose proof (Rabs_pos y). nra. }
  pose proof (Rabs_triang ((cx b - cx a) * (cy p - cy a)) (- ((cx p - cx a) * (cy b - cy a)))) as Q. rewrite Rabs_Ropp in Q. unfold Rminus at 1.
  pose proof (M (cx b - cx a) (cy p - cy a) ltac:(auto) ltac:(auto)). pose proof (M (cx p - cx a) (cy b - cy a) ltac:(auto) ltac:(auto)). lra.
Qed.

(** ** One edge *)
Definition turn (p a b : Coord R) : Z :=
  if Rle_dec (cy a) (cy p) then
    if Rlt_dec (cy p) (cy b) then if Rlt_dec 0 (side a b p) then 1%Z else 0%Z else 0%Z
  else if Rle_dec (cy b) (cy p) then if Rlt_dec (side a b p) 0 then (-1)%Z else 0%Z else 0%Z.
(** What the code counts: [side] rounded. *)
Definition turn_code (p a b : Coord R) : Z :=
  if Rle_dec (cy a) (cy p) then
    if Rlt_dec (cy p) (cy b) then if Rle_dec 1 (side a b p) then 1%Z else 0%Z else 0%Z
  else if Rle_dec (cy b) (cy p) then if Rle_dec (side a b p) (-1) then (-1)%Z else 0%Z else 0%Z.

Lemma left_code a b p : Rabs (side a b p) < 2147483647 -> exists z, isLeftOfLine a b p = Ok z /\ ((0 < z)%Z <-> 1 <= side a b p) /\ ((z < 0)%Z <-> side a b p <= -1).
Proof. intros Hs. exact (trunc_small (side a b p) Hs). Qed.

Lemma step_code p vs i a b w : vs !! i = Some a -> vs !! (i + 1)%nat = Some b -> Rabs (side a b p) < 2147483647 -> winding_step p vs i w = Ok (w + turn_code p a b)%Z.
Proof.
  intros Ha Hb Hs. unfold winding_step, vget. rewrite Ha, Hb. cbn [obind]. destruct (left_code a b p Hs) as (z & Ez & P1 & P2). unfold turn_code. cbn [nleb nltb NumR].
  destruct (Rleb_spec (cy a) (cy p)) as [A|A], (Rle_dec (cy a) (cy p)) as [A'|A']; try lra.
  - destruct (Rltb_spec (cy p) (cy b)) as [C|C], (Rlt_dec (cy p) (cy b)) as [C'|C']; try lra; [|f_equal; lia].
    rewrite Ez. cbn [obind]. destruct (Rle_dec 1 (side a b p)) as [L|L]; [rewrite (proj2 (Z.ltb_lt 0 z) (proj2 P1 L)); reflexivity|].
    assert ((0 <? z)%Z = false) as -> by (apply Z.ltb_ge; destruct (Z.le_gt_cases z 0) as [Q|Q]; [exact Q|exfalso; apply L, P1; lia]). f_equal; lia.
  - destruct (Rleb_spec (cy b) (cy p)) as [C|C], (Rle_dec (cy b) (cy p)) as [C'|C']; try lra; [|f_equal; lia].
    rewrite Ez. cbn [obind]. destruct (Rle_dec (side a b p) (-1)) as [L|L]; [rewrite (proj2 (Z.ltb_lt z 0) (proj2 P2 L)); reflexivity|].
    assert ((z <? 0)%Z = false) as -> by (apply Z.ltb_ge; destruct (Z.le_gt_cases 0 z) as [Q|Q]; [exact Q|exfalso; apply L, P2; lia]). f_equal; lia.
Qed.

(** ** The sum over the edges *)
Lemma edges_of vs i (a b : Coord R) : edges vs !! i = Some (a, b) <-> vs !! i = Some a /\ vs !! S i = Some b.
Proof.
  unfold edges. rewrite lookup_zip_with_Some. rewrite lookup_tail. split.
  - intros (x & y & E & X & Y). injection E as <- <-. auto.
  - intros [X Y]. exists a, b. auto.
Qed.
Definition total (f : Coord R -> Coord R -> Z) (vs : list (Coord R)) : Z := fold_right Z.add 0%Z (map (fun '(a, b) => f a b) (edges vs)).

Lemma total_take (f : Coord R -> Coord R -> Z) (l : list (Coord R * Coord R)) k a b : l !! k = Some (a, b) ->
  fold_right Z.add 0%Z (map (fun '(a, b) => f a b) (take (S k) l)) = (fold_right Z.add 0%Z (map (fun '(a, b) => f a b) (take k l)) + f a b)%Z.
Proof.
  intros E. rewrite (take_S_r _ _ _ E), map_app, fold_right_app. cbn [map fold_right]. generalize (map (fun '(a, b) => f a b) (take k l)) as q.
  induction q as [|z q IH]; cbn [fold_right]; lia.
Qed.

Lemma inside_code p vs : vs <> [] -> (forall a b, edge_of vs a b -> Rabs (side a b p) < 2147483647) ->
  isInsidePolygon p vs = Ok (negb (total (turn_code p) vs =? 0)%Z).
Proof.
  intros Hne Hs. unfold isInsidePolygon, for_edges.
  assert (X : for_ (length vs - 1) (winding_step p vs) 0%Z = Ok (total (turn_code p) vs)).
  { assert (L : wp False False (for_ (length vs - 1) (winding_step p vs) 0%Z) (fun w => w = total (turn_code p) vs)).
    { apply wp_for with (I := fun j w => w = fold_right Z.add 0%Z (map (fun '(a, b) => turn_code p a b) (take j (edges vs)))).
      - reflexivity.
      - intros j w Hj ->. destruct (lookup_lt_is_Some_2 vs j) as [a Ha]; [lia|]. destruct (lookup_lt_is_Some_2 vs (S j)) as [b Hb]; [lia|].
        rewrite (step_code p vs j a b); [|exact Ha|rewrite Nat.add_1_r; exact Hb|apply Hs; exists j; auto]. cbn [wp]. symmetry. apply total_take. apply edges_of. auto.
      - intros w ->. unfold total. rewrite <- edges_length, firstn_all. reflexivity. }
    destruct (for_ _ _ _); cbn [wp] in L; try contradiction. f_equal. exact L. }
  destruct vs; [congruence|]. rewrite X. reflexivity.
Qed.

Lemma total_ext f g vs : (forall a b, edge_of vs a b -> f a b = g a b) -> total f vs = total g vs.
Proof.
  intros E. unfold total. f_equal. apply map_ext_in. intros [a b] Hx. apply E. apply elem_of_list_In, elem_of_list_lookup_1 in Hx as (i & Hi). apply edges_of in Hi. exists i. exact Hi.
Qed.
Lemma turns_total p vs : turns p vs = total (turn p) vs.
Proof. reflexivity. Qed.

(** With clear edges the rounding does not matter. *)
Lemma clear_turn p vs a b : clear_of p vs -> edge_of vs a b -> turn_code p a b = turn p a b.
Proof.
  intros C E. unfold turn_code, turn. destruct (C a b E) as [Z|Z].
  - rewrite Z. destruct (Rle_dec (cy a) (cy p)), (Rlt_dec (cy p) (cy b)), (Rle_dec (cy b) (cy p)), (Rle_dec 1 0), (Rlt_dec 0 0), (Rle_dec 0 (-1)); try reflexivity; lra.
  - assert (S : side a b p <= -1 \/ 1 <= side a b p). { unfold Rabs in Z. destruct (Rcase_abs (side a b p)); [left|right]; lra. }
    destruct (Rle_dec (cy a) (cy p)), (Rlt_dec (cy p) (cy b)), (Rle_dec (cy b) (cy p)), (Rle_dec 1 (side a b p)), (Rlt_dec 0 (side a b p)), (Rle_dec (side a b p) (-1)), (Rlt_dec (side a b p) 0); try reflexivity; exfalso; lra.
Qed.

Lemma edge_in vs a b : edge_of vs a b -> a ∈ vs /\ b ∈ vs.
Proof. intros (i & A & B). split; eapply elem_of_list_lookup_2; eassumption. Qed.

Lemma small_sides p vs : within 10000 p -> (forall v, v ∈ vs -> within 10000 v) -> forall a b, edge_of vs a b -> Rabs (side a b p) < 2147483647.
Proof. intros P V a b E. destruct (edge_in _ _ _ E) as [A B]. pose proof (side_small 10000 a b p (V _ A) (V _ B) P). lra. Qed.

Theorem inside_turns p vs : vs <> [] -> within 10000 p -> (forall v, v ∈ vs -> within 10000 v) -> clear_of p vs ->
  isInsidePolygon p vs = Ok (negb (turns p vs =? 0)%Z).
Proof.
  intros Hne P V C. rewrite (inside_code p vs Hne (small_sides p vs P V)). rewrite turns_total. rewrite (total_ext (turn_code p) (turn p)); [reflexivity|].
  intros a b E. exact (clear_turn p vs a b C E).
Qed.

(** Corners and point on whole numbers are clear. *)
Lemma whole_clear p vs : whole_point p -> (forall v, v ∈ vs -> whole_point v) -> clear_of p vs.
Proof.
  intros [[x Px] [y Py]] V a b E. destruct (edge_in _ _ _ E) as [A B].
  destruct (V a A) as [[ax Ax] [ay Ay]], (V b B) as [[bx Bx] [by_ By]].
  assert (S : side a b p = IZR ((bx - ax) * (y - ay) - (x - ax) * (by_ - ay))).
  { unfold side. rewrite Ax, Ay, Bx, By, Px, Py. rewrite minus_IZR, !mult_IZR, !minus_IZR. reflexivity. }
  rewrite S. set (z := (_ - _)%Z). destruct (Z.eq_dec z 0) as [->|Hz]; [left; reflexivity|right].
  rewrite <- abs_IZR. apply IZR_le. lia.
Qed.

(** ** Closed polygons: what goes up comes down *)
Definition above (p v : Coord R) : Z := if Rlt_dec (cy p) (cy v) then 1%Z else 0%Z.
Lemma total_above p : forall us v w, total (fun a b => above p b - above p a)%Z (v :: us ++ [w]) = (above p w - above p v)%Z.
Proof.
  induction us as [|u us IH]; intros v w; unfold total, edges in *; cbn [tail app zip zip_with map fold_right] in *.
  - lia.
  - specialize (IH u w). destruct (us ++ [w]) as [|x l] eqn:El; [destruct us; discriminate|]. cbn [tail zip zip_with map fold_right] in IH |- *. lia.
Qed.
Lemma closed_above p vs : closed_polygon vs -> total (fun a b => above p b - above p a)%Z vs = 0%Z.
Proof. intros (v & us & ->). rewrite total_above. lia. Qed.

Lemma total_zero f vs : (forall a b, edge_of vs a b -> f a b = 0%Z) -> total f vs = 0%Z.
Proof.
  intros E. rewrite (total_ext f (fun _ _ => 0%Z) vs E). unfold total. induction (edges vs) as [|[a b] l IH]; cbn [map fold_right]; [reflexivity|]. rewrite IH. reflexivity.
Qed.
Lemma total_nonneg f vs : (forall a b, edge_of vs a b -> (0 <= f a b)%Z) -> (0 <= total f vs)%Z /\ (total f vs = 0%Z -> forall a b, edge_of vs a b -> f a b = 0%Z).
Proof.
  intros N.
  assert (G : forall l : list (Coord R * Coord R), (forall a b, (a, b) ∈ l -> (0 <= f a b)%Z) ->
    (0 <= fold_right Z.add 0 (map (fun '(a, b) => f a b) l))%Z /\ (fold_right Z.add 0%Z (map (fun '(a, b) => f a b) l) = 0%Z -> forall a b, (a, b) ∈ l -> f a b = 0%Z)).
  { induction l as [|[a b] l IH]; intros H; cbn [map fold_right].
    - split; [lia|]. intros _ a b Hx. apply elem_of_nil in Hx. contradiction.
    - destruct IH as [I1 I2]; [intros x y Hx; apply H; right; exact Hx|]. specialize (H a b ltac:(left)) as H0. split; [lia|]. intros Z x y Hx.
      apply elem_of_cons in Hx as [Hx|Hx]; [injection Hx as -> ->; lia|]. apply I2; [lia|exact Hx]. }
  destruct (G (edges vs)) as [G1 G2].
  { intros a b Hx. apply elem_of_list_lookup_1 in Hx as (i & Hi). apply edges_of in Hi. apply N. exists i. exact Hi. }
  split; [exact G1|]. intros Z a b (i & Hi). apply (G2 Z). eapply elem_of_list_lookup_2, edges_of, Hi.
Qed.
Lemma total_neg f vs : total (fun a b => - f a b)%Z vs = (- total f vs)%Z.
Proof. unfold total. induction (edges vs) as [|[a b] l IH]; cbn [map fold_right]; [reflexivity|]. lia. Qed.

(** ** Points outside *)
Theorem separated_turns p vs : closed_polygon vs -> separated p vs -> turns p vs = 0%Z.
Proof.
  intros Hc (nx & ny & S). rewrite turns_total.
  assert (U : forall a b, edge_of vs a b -> cy a <= cy p < cy b -> 0 < nx * side a b p).
  { intros a b E Hy. destruct (edge_in _ _ _ E) as [A B]. specialize (S a A) as Sa. specialize (S b B) as Sb. unfold side. nra. }
  assert (D : forall a b, edge_of vs a b -> cy b <= cy p < cy a -> 0 < - (nx * side a b p)).
  { intros a b E Hy. destruct (edge_in _ _ _ E) as [A B]. specialize (S a A) as Sa. specialize (S b B) as Sb. unfold side. nra. }
  destruct (Rlt_le_dec 0 nx) as [N|N].
  - rewrite (total_ext (turn p) (fun a b => above p b - above p a)%Z); [exact (closed_above p vs Hc)|].
    intros a b E. specialize (U a b E). specialize (D a b E). unfold turn, above.
    destruct (Rle_dec (cy a) (cy p)) as [A|A], (Rlt_dec (cy p) (cy a)) as [A'|A']; try (exfalso; lra);
      destruct (Rlt_dec (cy p) (cy b)) as [B|B], (Rle_dec (cy b) (cy p)) as [B'|B']; try (exfalso; lra); try reflexivity.
    + specialize (U ltac:(lra)). destruct (Rlt_dec 0 (side a b p)) as [L|L]; [reflexivity|exfalso; nra].
    + specialize (D ltac:(lra)). destruct (Rlt_dec (side a b p) 0) as [L|L]; [reflexivity|exfalso; nra].
  - apply total_zero. intros a b E. specialize (U a b E). specialize (D a b E). unfold turn.
    destruct (Rle_dec (cy a) (cy p)) as [A|A]; [destruct (Rlt_dec (cy p) (cy b)) as [B|B]|destruct (Rle_dec (cy b) (cy p)) as [B|B]]; try reflexivity.
    + specialize (U ltac:(lra)). destruct (Rlt_dec 0 (side a b p)) as [L|L]; [exfalso; nra|reflexivity].
    + specialize (D ltac:(lra)). destruct (Rlt_dec (side a b p) 0) as [L|L]; [exfalso; nra|reflexivity].
Qed.

(** ** Points inside *)
Lemma closed_before vs a b : closed_polygon vs -> edge_of vs a b -> exists c, edge_of vs c a.
Proof.
  intros (v & us & ->) (i & A & B). destruct i as [|i].
  - injection A as ->. destruct (lookup_lt_is_Some_2 (a :: us ++ [a]) (length us)) as [c Hc]; [cbn [length]; rewrite app_length; cbn [length]; lia|].
    exists c, (length us). split; [exact Hc|]. rewrite app_comm_cons, (lookup_app_r (a :: us)) by (cbn [length]; lia). cbn [length]. rewrite Nat.sub_diag. reflexivity.
  - destruct (lookup_lt_is_Some_2 (v :: us ++ [v]) i) as [c Hc]; [apply lookup_lt_Some in A; lia|]. exists c, i. auto.
Qed.
Lemma closed_after vs a b : closed_polygon vs -> edge_of vs a b -> exists c, edge_of vs b c.
Proof.
  intros (v & us & ->) (i & A & B). destruct (Nat.lt_ge_cases (S i) (length us + 1)) as [L|L].
  - destruct (lookup_lt_is_Some_2 (v :: us ++ [v]) (S (S i))) as [c Hc]; [cbn [length]; rewrite app_length; cbn [length]; lia|]. exists c, (S i). auto.
  - assert (E : S i = (length us + 1)%nat) by (apply lookup_lt_Some in B; cbn [length] in B; rewrite app_length in B; cbn [length] in B; lia).
    assert (X : b = v). { rewrite app_comm_cons, (lookup_app_r (v :: us)) in B by (cbn [length]; lia). cbn [length] in B. replace (S i - S (length us))%nat with 0%nat in B by lia. injection B as <-. reflexivity. }
    subst b. destruct (lookup_lt_is_Some_2 (v :: us ++ [v]) 1) as [c Hc]; [cbn [length]; rewrite app_length; cbn [length]; lia|]. exists c, 0%nat. auto.
Qed.
Lemma chain_down (f : Coord R -> R) : forall us v w, (forall a b, edge_of (v :: us ++ [w]) a b -> f b < f a) -> f w < f v.
Proof.
  induction us as [|u us IH]; intros v w H.
  - apply (H v w). exists 0%nat. auto.
  - apply Rlt_trans with (f u).
    + apply (IH u w). intros a b (i & A & B). apply H. exists (S i). auto.
    + apply (H v u). exists 0%nat. auto.
Qed.
Lemma chain_const (f : Coord R -> Z) : forall us v w, (forall a b, edge_of (v :: us ++ [w]) a b -> f b = f a) -> forall a, a ∈ v :: us ++ [w] -> f a = f v.
Proof.
  induction us as [|u us IH]; intros v w H a Ha.
  - apply elem_of_cons in Ha as [->|Ha]; [reflexivity|]. apply elem_of_list_singleton in Ha as ->. apply (H v w). exists 0%nat. auto.
  - apply elem_of_cons in Ha as [->|Ha]; [reflexivity|]. rewrite (IH u w) by (try exact Ha; intros x y (i & A & B); apply H; exists (S i); auto).
    apply (H v u). exists 0%nat. auto.
Qed.

Lemma some_crossing (s : R) p vs : closed_polygon vs -> (forall a b, edge_of vs a b -> 0 < s * side a b p) -> ~ (forall a b, edge_of vs a b -> above p b = above p a).
Proof.
  intros Hc Hs Ha. pose proof Hc as (v & us & Ev).
  assert (K : forall a, a ∈ vs -> above p a = above p v) by (rewrite Ev in Ha |- *; exact (chain_const (above p) us v v Ha)).
  assert (M : (forall a b, edge_of vs a b -> 0 < (cy a - cy p) * (cy b - cy p)) -> False).
  { intros M. apply (Rlt_irrefl (s * ((cx v - cx p) / (cy v - cy p)))). apply (chain_down (fun a => s * ((cx a - cx p) / (cy a - cy p))) us v v).
    intros a b E. rewrite <- Ev in E. specialize (M a b E). specialize (Hs a b E).
    assert (A : cy a - cy p <> 0) by (intros X; rewrite X in M; lra). assert (B : cy b - cy p <> 0) by (intros X; rewrite X in M; lra).
    apply Rminus_gt_0_lt. replace (s * ((cx a - cx p) / (cy a - cy p)) - s * ((cx b - cx p) / (cy b - cy p))) with (s * side a b p / ((cy a - cy p) * (cy b - cy p))) by (unfold side; field; auto).
    apply Rdiv_lt_0_compat; assumption. }
  apply M. intros a b E. destruct (edge_in _ _ _ E) as [A B]. pose proof (K a A) as Ka. pose proof (K b B) as Kb.
  unfold above in Ka, Kb. destruct (Rlt_dec (cy p) (cy v)) as [V|V].
  - destruct (Rlt_dec (cy p) (cy a)); [|discriminate]. destruct (Rlt_dec (cy p) (cy b)); [|discriminate]. nra.
  - destruct (Rlt_dec (cy p) (cy a)) as [|La]; [discriminate|]. destruct (Rlt_dec (cy p) (cy b)) as [|Lb]; [discriminate|].
    assert (Low : forall c, c ∈ vs -> cy c <= cy p). { intros c C. specialize (K c C). unfold above in K. destruct (Rlt_dec (cy p) (cy c)); [|lra]. destruct (Rlt_dec (cy p) (cy v)); [lra|discriminate]. }
    assert (Strict : forall c d e, edge_of vs c d -> edge_of vs d e -> cy d < cy p).
    { intros c d e E1 E2. destruct (edge_in _ _ _ E1) as [C1 C2]. destruct (edge_in _ _ _ E2) as [_ C3]. pose proof (Low c C1). pose proof (Low d C2). pose proof (Low e C3).
      destruct (Rlt_le_dec (cy d) (cy p)) as [Q|Q]; [exact Q|exfalso]. assert (Y : cy d = cy p) by lra.
      pose proof (Hs c d E1) as S1. pose proof (Hs d e E2) as S2. unfold side in S1, S2. rewrite Y in S1, S2.
      replace (s * ((cx d - cx c) * (cy p - cy c) - (cx p - cx c) * (cy p - cy c))) with ((s * (cx d - cx p)) * (cy p - cy c)) in S1 by ring.
      replace (s * ((cx e - cx d) * (cy p - cy p) - (cx p - cx d) * (cy e - cy p))) with (- ((s * (cx d - cx p)) * (cy p - cy e))) in S2 by ring.
      set (q := s * (cx d - cx p)) in *. assert (Q0 : 0 < q). { destruct (Rlt_le_dec 0 q) as [X|X]; [exact X|exfalso]. assert (0 <= - q * (cy p - cy c)) by (apply Rmult_le_pos; lra). lra. }
      assert (0 <= q * (cy p - cy e)) by (apply Rmult_le_pos; lra). lra. }
    destruct (closed_before vs a b Hc E) as (c & E1). destruct (closed_after vs a b Hc E) as (d & E2).
    pose proof (Strict c a b E1 E). pose proof (Strict a b d E E2). nra.
Qed.

Theorem left_turns p vs : closed_polygon vs -> left_of_all p vs -> (0 < turns p vs)%Z.
Proof.
  intros Hc L. rewrite turns_total. destruct (total_nonneg (turn p) vs) as [N Z].
  { intros a b E. specialize (L a b E). unfold turn. destruct (Rle_dec (cy a) (cy p)), (Rlt_dec (cy p) (cy b)), (Rle_dec (cy b) (cy p)), (Rlt_dec 0 (side a b p)), (Rlt_dec (side a b p) 0); lia || (exfalso; lra). }
  destruct (Z.eq_dec (total (turn p) vs) 0) as [E0|E0]; [exfalso|lia]. specialize (Z E0). apply (some_crossing 1 p vs Hc); [intros a b E; specialize (L a b E); lra|].
  destruct (total_nonneg (fun a b => above p a - above p b)%Z vs) as [_ Z2].
  { intros a b E. specialize (L a b E). specialize (Z a b E). unfold turn in Z. unfold above.
    destruct (Rle_dec (cy a) (cy p)), (Rlt_dec (cy p) (cy b)), (Rle_dec (cy b) (cy p)), (Rlt_dec 0 (side a b p)), (Rlt_dec (side a b p) 0), (Rlt_dec (cy p) (cy a)); lia || (exfalso; lra). }
  intros a b E. rewrite (total_ext _ (fun a b => - (above p b - above p a))%Z vs) in Z2 by (intros; lia). rewrite total_neg, (closed_above p vs Hc) in Z2. specialize (Z2 eq_refl a b E). lia.
Qed.
Theorem right_turns p vs : closed_polygon vs -> right_of_all p vs -> (turns p vs < 0)%Z.
Proof.
  intros Hc L. rewrite turns_total. destruct (total_nonneg (fun a b => - turn p a b)%Z vs) as [N Z].
  { intros a b E. specialize (L a b E). unfold turn. destruct (Rle_dec (cy a) (cy p)), (Rlt_dec (cy p) (cy b)), (Rle_dec (cy b) (cy p)), (Rlt_dec 0 (side a b p)), (Rlt_dec (side a b p) 0); lia || (exfalso; lra). }
  rewrite total_neg in N, Z. destruct (Z.eq_dec (total (turn p) vs) 0) as [E0|E0]; [exfalso|lia]. specialize (Z ltac:(lia)). apply (some_crossing (-1) p vs Hc); [intros a b E; specialize (L a b E); lra|].
  destruct (total_nonneg (fun a b => above p b - above p a)%Z vs) as [_ Z2].
  { intros a b E. specialize (L a b E). specialize (Z a b E). unfold turn in Z. unfold above.
    destruct (Rle_dec (cy a) (cy p)), (Rlt_dec (cy p) (cy b)), (Rle_dec (cy b) (cy p)), (Rlt_dec 0 (side a b p)), (Rlt_dec (side a b p) 0), (Rlt_dec (cy p) (cy a)); lia || (exfalso; lra). }
  intros a b E. specialize (Z2 (closed_above p vs Hc) a b E). cbn beta in Z2. lia.
Qed.
