(** * PolyField: level sets and masks from polygons, exact arithmetic (C76). *)

From Coq Require Import Reals Lra Lia ZArith.
From Verif Require Import Base Num NumR NumInt MeshModel MeshSpec MeshProofs MeshTopo FmmModel FmmSpec LevelSetModel LevelSetSpec LevelSetSpecR LevelSetCalls
  LevelSetBand LevelSetOps LevelSetInit LevelSetHist LevelSetReal LevelSetNew StartSpec LevelSetTarget PolySpec Polygon IOModel DemoModel DemoSetup DemoShapes.
Local Open Scope R_scope.

Lemma node_id_inv W H i : (i < node_count W H)%nat -> exists x y, i = node_id W x y /\ (x <= W)%nat /\ (y <= H)%nat.
Proof.
  unfold node_count, node_id. intros Hi. exists (i mod (W + 1))%nat, (i / (W + 1))%nat. pose proof (Nat.div_mod i (W + 1) ltac:(lia)). pose proof (Nat.mod_upper_bound i (W + 1) ltac:(lia)).
  split; [lia|]. split; [lia|]. assert (i / (W + 1) < H + 1)%nat by (apply Nat.div_lt_upper_bound; lia). lia.
Qed.
Lemma node_within W H x y : (Z.of_nat W <= 10000)%Z -> (Z.of_nat H <= 10000)%Z -> (x <= W)%nat -> (y <= H)%nat -> within 10000 (at_node x y).
Proof.
  intros HW HH Hx Hy. assert (X : INR x <= 10000) by (rewrite INR_IZR_INZ; apply IZR_le; lia). assert (Y : INR y <= 10000) by (rewrite INR_IZR_INZ; apply IZR_le; lia).
  split; cbn [cx cy at_node]; rewrite Rabs_pos_eq by apply pos_INR; assumption.
Qed.
Lemma node_whole x y : whole_point (at_node x y).
Proof. split; [exists (Z.of_nat x)|exists (Z.of_nat y)]; cbn [cx cy at_node]; apply INR_IZR_INZ. Qed.
Lemma inside_defined p vs : vs <> [] -> within 10000 p -> (forall v, v ∈ vs -> within 10000 v) -> exists b, isInsidePolygon p vs = Ok b.
Proof. intros Hne P V. rewrite (inside_code p vs Hne (small_sides p vs P V)). eauto. Qed.
Lemma ptl_nonneg (a b p : Coord R) : 0 <= pointToLineDistance a b p.
Proof. unfold pointToLineDistance. cbv zeta. destruct (_ <? _)%num; apply R_sqrt.sqrt_pos. Qed.

(** What a polygon puts at a node. *)
Theorem new_points_R W H points ml bw fx : fits_ls W H bw -> valid_params ml bw -> (Z.of_nat W <= 10000)%Z -> (Z.of_nat H <= 10000)%Z -> points <> [] -> (forall v, v ∈ points -> within 10000 v) ->
  exists s, ls_new_points W H points ml bw fx = Ok s /\ reached W H s /\
    forall x y, (x <= W)%nat -> (y <= H)%nat -> exists v, ls_sd s !! node_id W x y = Some v /\ polygon_value W H points x y v.
Proof.
  intros Hf HV HW HH Hne V. pose proof (fits_mesh _ _ _ Hf) as Hm.
  assert (Ht : topo W H (mesh_spec (T := R) W H)) by (apply topo_new; [exact Hm|]; apply mesh_new_eq; apply Hm).
  set (ins := fun i => match isInsidePolygon (mkCoord (nofnat (i mod (W + 1))) (nofnat (i / (W + 1)))) points with Ok b => b | _ => false end).
  assert (Hins : forall i, (i < node_count W H)%nat -> isInsidePolygon (mkCoord (nofnat (i mod (W + 1))) (nofnat (i / (W + 1)))) points = Ok (ins i)).
  { intros i Hi. unfold ins. rewrite !nofnat_R. destruct (node_id_inv W H i Hi) as (x & y & -> & Hx & Hy). rewrite node_id_mod, node_id_div by exact Hx.
    destruct (inside_defined (at_node x y) points Hne (node_within W H x y HW HH Hx Hy) V) as (b & Eb). unfold at_node in Eb. rewrite Eb. reflexivity. }
  destruct (new_ok (fun m => init_points m points) W H ml bw fx _ Hf HV (init_points_spec W H _ points _ ins Ht (replicate_length _ _) Hne Hins) ltac:(apply tab_length)) as (s & E & _ & _ & Es & _).
  exists s. split; [exact E|]. split; [exists ml, bw, fx, s; split; [exact Hf|]; split; [exact (new_by_points _ _ _ _ _ _ _ E)|apply rtc_refl]|].
  intros x y Hx Hy. rewrite Es, tab_lookup by (apply node_id_lt; assumption). eexists. split; [reflexivity|].
  set (d := points_distance W H points (node_id W x y)). exists d, (ins (node_id W x y)). split.
  { destruct (ins _); [|reflexivity]. change (d * -1 = - d). ring. }
  split. { rewrite <- (Hins (node_id W x y)) by (apply node_id_lt; assumption). rewrite node_id_mod, node_id_div by exact Hx. rewrite !nofnat_R. reflexivity. }
  assert (F : d = fold_left (fun s e => smaller ((fun '(a, b) => pointToLineDistance a b (at_node x y)) e) s) (edges points) (border_dist W H x y)).
  { unfold d, points_distance. rewrite edge_distance_R by assumption. rewrite node_id_mod, node_id_div by exact Hx. rewrite !nofnat_R.
    generalize (border_dist W H x y). induction (edges points) as [|[a b] l IH]; intros q; cbn [fold_left]; [reflexivity|apply IH]. }
  destruct (fold_min (fun '(a, b) => pointToLineDistance a b (at_node x y)) (edges points) (border_dist W H x y)) as (I1 & I2 & I3). rewrite <- F in I1, I2, I3.
  split; [split; [|exact I1]|split].
  - destruct I3 as [I3|([a b] & _ & I3)]; [rewrite I3; apply border_dist_nonneg; assumption|rewrite I3; apply ptl_nonneg].
  - intros a b (i & Hi). apply (I2 (a, b)). eapply elem_of_list_lookup_2, edges_of, Hi.
  - destruct I3 as [I3|([a b] & Hab & I3)]; [left; exact I3|right]. exists a, b. split; [|exact I3].
    apply elem_of_list_lookup_1 in Hab as (i & Hi). exists i. apply edges_of, Hi.
Qed.

(** ** Inside and outside *)
Theorem polygon_inside p points : whole_point p -> (forall v, v ∈ points -> whole_point v) -> within 10000 p -> (forall v, v ∈ points -> within 10000 v) -> closed_polygon points ->
  isInsidePolygon p points = Ok (negb (turns p points =? 0)%Z) /\
  (left_of_all p points \/ right_of_all p points -> isInsidePolygon p points = Ok true) /\ (separated p points -> isInsidePolygon p points = Ok false).
Proof.
  intros WP WV P V Hc. assert (Hne : points <> []) by (destruct Hc as (v & us & ->); discriminate).
  pose proof (inside_turns p points Hne P V (whole_clear p points WP WV)) as E. split; [exact E|]. rewrite E. split.
  - intros [L|L]; [pose proof (left_turns p points Hc L) as X|pose proof (right_turns p points Hc L) as X]; destruct (Z.eqb_spec (turns p points) 0); try lia; reflexivity.
  - intros S. rewrite (separated_turns p points Hc S). reflexivity.
Qed.
Theorem polygon_clear p points : clear_of p points -> within 10000 p -> (forall v, v ∈ points -> within 10000 v) -> closed_polygon points ->
  isInsidePolygon p points = Ok (negb (turns p points =? 0)%Z) /\
  (left_of_all p points \/ right_of_all p points -> isInsidePolygon p points = Ok true) /\ (separated p points -> isInsidePolygon p points = Ok false).
Proof.
  intros C P V Hc. assert (Hne : points <> []) by (destruct Hc as (v & us & ->); discriminate).
  pose proof (inside_turns p points Hne P V C) as E. split; [exact E|]. rewrite E. split.
  - intros [L|L]; [pose proof (left_turns p points Hc L) as X|pose proof (right_turns p points Hc L) as X]; destruct (Z.eqb_spec (turns p points) 0); try lia; reflexivity.
  - intros S. rewrite (separated_turns p points Hc S). reflexivity.
Qed.

(** ** Masks *)
Theorem mask_polygon W H s points : reached W H s -> (Z.of_nat W <= 10000)%Z -> (Z.of_nat H <= 10000)%Z -> length points <> 2%nat -> points <> [] -> (forall v, v ∈ points -> within 10000 v) ->
  (mask_points s points = Exit \/ exists s', mask_points s points = Ok s') /\
  forall s', mask_points s points = Ok s' -> exists s1, masked_field s (inside_test s points) s1 /\ reinitialise s1 = Ok s' /\ band_ok s' /\
    forall x y, (x <= W)%nat -> (y <= H)%nat -> (masked s' (node_id W x y) <-> masked s (node_id W x y) \/ isInsidePolygon (at_node x y) points = Ok true).
Proof.
  intros Hr HW HH N2 Hne V. pose proof (so_ok _ _ _ (reached_sound _ _ _ Hr)) as Hs. pose proof (ok_topo _ _ _ Hs) as Ht.
  assert (HP : forall i n, m_nodes (ls_mesh s) !! i = Some n -> exists x y, i = node_id W x y /\ (x <= W)%nat /\ (y <= H)%nat /\ nd_coord n = at_node x y).
  { intros i n Hi. pose proof (lookup_lt_Some _ _ _ Hi) as L. rewrite (tp_lenN _ _ _ Ht) in L. destruct (node_id_inv W H i L) as (x & y & -> & Hx & Hy). exists x, y.
    split; [reflexivity|]. split; [exact Hx|]. split; [exact Hy|]. rewrite (topo_coord W H _ _ n Ht Hi), node_id_mod, node_id_div by exact Hx. rewrite !nofnat_R. reflexivity. }
  assert (HI : forall i n, m_nodes (ls_mesh s) !! i = Some n -> exists b, isInsidePolygon (nd_coord n) points = Ok b).
  { intros i n Hi. destruct (HP i n Hi) as (x & y & _ & Hx & Hy & ->). exact (inside_defined _ points Hne (node_within W H x y HW HH Hx Hy) V). }
  split.
  - destruct (mask_poly_spec W H s Hs points N2 Hne HI) as (s1 & E1 & Hs1 & K). unfold mask_points. rewrite E1. cbn [obind].
    destruct (reinit_spec W H s1 Hs1) as (R1 & R2 & R3).
    destruct (Classical_Prop.classic (exists i, (i < node_count W H)%nat /\ on_front W H (ls_sd s1) i)) as [D|D]; [right; exact (R3 D)|left; apply R1; intros i Hi F; apply D; exists i; auto].
  - intros s' E. destruct (mask_poly_full W H s points s' Hr N2 Hne HI E) as (s1 & K & E1 & B & M). exists s1. split; [exact K|]. split; [exact E1|]. split; [exact B|].
    intros x y Hx Hy. rewrite (M (node_id W x y)). split; (intros [A|A]; [left; exact A|right]).
    + destruct A as (n & Hn & A). destruct (HP _ n Hn) as (x' & y' & Eid & Hx' & Hy' & C). rewrite C in A. apply (node_id_inj W x y x' y' Hx Hx') in Eid as [-> ->]. exact A.
    + destruct (topo_node W H _ Ht (node_id W x y)) as (n & Hn & _); [apply node_id_lt; assumption|]. exists n. split; [exact Hn|].
      rewrite (topo_coord W H _ _ n Ht Hn), node_id_mod, node_id_div by exact Hx. rewrite !nofnat_R. exact A.
Qed.

(** ** The target of shape_match *)
Lemma fits_400 : fits_ls 400 400 6.
Proof. unfold fits_ls, node_count. lia. Qed.
Lemma hole_and_polygon W hs points ml bw l : fits_ls W W bw -> valid_params (ml : R) bw -> (Z.of_nat W <= 10000)%Z -> points <> [] -> (forall v, v ∈ points -> within 10000 v) -> map disc_of hs = l ->
  exists s, ls_new_holes_points W W hs points ml bw true = Ok s /\ reached W W s /\
    (forall x y, (x <= W)%nat -> (y <= W)%nat -> ls_sd s !! node_id W x y = Some (around W W l x y)) /\
    exists s2 s3, reached W W s2 /\ reinitialise s2 = Ok s3 /\ ls_target s = ls_sd s3 /\
      forall x y, (x <= W)%nat -> (y <= W)%nat -> exists v, ls_sd s2 !! node_id W x y = Some v /\ polygon_value W W points x y v.
Proof.
  intros Hf HV HW Hne V <-.
  destruct (new_holes_R W W hs ml bw true Hf HV) as (s1 & E1 & _). destruct (new_points_R W W points ml bw true Hf HV HW HW Hne V) as (s2 & E2 & Hr2 & F2).
  destruct (proj1 (proj2 (targets_accepted W W ml bw true Hf)) hs points s1 s2 E1 E2) as [A _]. destruct A as (s & E).
  { exists (node_id W 0 0). split; [apply node_id_lt; lia|]. left. destruct (F2 0%nat 0%nat ltac:(lia) ltac:(lia)) as (v & Ev & d & ins & Hv & _ & D & _). exists v. split; [exact Ev|].
    assert (B : border_dist W W 0 0 = 0).
    { unfold border_dist. cbn [INR]. rewrite (Rmin_left 0 (INR W - 0)) by (pose proof (pos_INR W); lra). apply Rmin_left. lra. }
    assert (v = 0) by (rewrite Hv; destruct ins; lra). subst v. cbn. destruct (Reqb_spec (if ins then - d else d) 0); [reflexivity|lra]. }
  destruct (proj1 (proj2 (all_targets W W ml bw true Hf)) hs points s E) as (t1 & t2 & t3 & B1 & B2 & B3 & B4 & B5 & _). assert (t2 = s2) by congruence. assert (t1 = s1) by congruence. subst t1 t2.
  exists s. split; [exact E|]. split; [exists ml, bw, true, s; split; [exact Hf|]; split; [exact (new_by_holes_points _ _ _ _ _ _ _ _ E)|apply rtc_refl]|].
  split; [rewrite B5; exact (holes_around W W hs ml bw true s1 Hf HV E1)|]. exists s2, t3. auto.
Qed.
Theorem shape_match_shape {TT : Text R} fs points : load_shape fs = Ok points -> points <> [] -> (forall v, v ∈ points -> within 10000 v) ->
  exists s, start_shape_match (T := R) fs = Ok s /\ reached 400 400 s /\
    (forall x y, (x <= 400)%nat -> (y <= 400)%nat -> ls_sd s !! node_id 400 x y = Some (around 400 400 [(200, 200, 100)] x y)) /\
    exists s2 s3, reached 400 400 s2 /\ reinitialise s2 = Ok s3 /\ ls_target s = ls_sd s3 /\
      forall x y, (x <= 400)%nat -> (y <= 400)%nat -> exists v, ls_sd s2 !! node_id 400 x y = Some v /\ polygon_value 400 400 points x y v.
Proof.
  intros El Hne V. unfold start_shape_match. rewrite El. cbn [obind].
  exact (hole_and_polygon 400 [hole 200 200 100] points (nlit 1 10) 6 _ fits_400 (params_R 1 10 ltac:(lra)) ltac:(lia) Hne V eq_refl).
Qed.

(** No points at all. *)
Theorem no_points {T : Type} {NT : Num T} {NI : NumInt T} W H (ml : T) bw fx : fits_ls W H bw -> valid_params ml bw ->
  ls_new_points W H [] ml bw fx = UB /\ forall h1, ls_new_holes_points W H h1 [] ml bw fx = UB.
Proof.
  intros Hf HV. pose proof (fits_mesh _ _ _ Hf) as Hm. assert (Ht : topo W H (mesh_spec (T := T) W H)) by (apply topo_new; [exact Hm|]; apply mesh_new_eq; apply Hm).
  assert (I : forall sd, length sd = node_count W H -> init_points (mesh_spec (T := T) W H) [] sd = UB).
  { intros sd L. unfold init_points. rewrite (closest_spec W H _ sd Ht L). cbn [obind]. rewrite (tp_nN _ _ _ Ht). assert (N : exists k, node_count W H = S k) by (exists (W * H + W + H)%nat; unfold node_count; lia). destruct N as (k & ->). reflexivity. }
  split.
  - unfold ls_new_points, ls_new. destruct (proj1 (alloc_spec W H ml bw fx false Hf) HV) as (s & -> & Hok & Em & _). cbn [obind]. unfold init_sd. rewrite Em, I by apply Hok. reflexivity.
  - intros h1. unfold ls_new_holes_points, ls_new_target. destruct (proj1 (alloc_spec W H ml bw fx true Hf) HV) as (s & -> & Hok & Em & _). cbn [obind]. unfold init_sd. rewrite Em, I by apply Hok. reflexivity.
Qed.

(** ** End to end for corners on whole numbers. *)
Lemma sq1 z : z <> 0%Z -> (1 <= z * z)%Z.
Proof. nia. Qed.
Lemma whole_apart a b : whole_point a -> whole_point b -> / 1000000 <= euclid2 b a \/ a = b.
Proof.
  intros [[x1 X1] [y1 Y1]] [[x2 X2] [y2 Y2]]. destruct a as [ax ay], b as [bx by']. cbn [cx cy] in *. subst.
  destruct (Z.eq_dec x1 x2) as [->|Nx]; [destruct (Z.eq_dec y1 y2) as [->|Ny]; [right; reflexivity|]|]; left; unfold euclid2; cbn [cx cy];
    rewrite <- ?minus_IZR, <- ?mult_IZR, <- ?plus_IZR; apply Rle_trans with 1; try lra; apply IZR_le.
  - pose proof (sq1 (y2 - y1) ltac:(lia)). nia.
  - pose proof (sq1 (x2 - x1) ltac:(lia)). pose proof (Z.square_nonneg (y2 - y1)). lia.
Qed.
Theorem whole_level_set W H points ml bw fx : fits_ls W H bw -> valid_params ml bw -> (Z.of_nat W <= 10000)%Z -> (Z.of_nat H <= 10000)%Z ->
  closed_polygon points -> (forall v, v ∈ points -> whole_point v) -> (forall v, v ∈ points -> within 10000 v) ->
  exists s, ls_new_points W H points ml bw fx = Ok s /\ reached W H s /\
    forall x y, (x <= W)%nat -> (y <= H)%nat -> exists d, ls_sd s !! node_id W x y = Some (if (turns (at_node x y) points =? 0)%Z then d else - d) /\
      0 <= d <= border_dist W H x y /\ (forall q, on_polygon points q -> d <= euclid (at_node x y) q) /\
      (d = border_dist W H x y \/ exists q, on_polygon points q /\ d = euclid (at_node x y) q).
Proof.
  intros Hf Hv HW HH Hc Hwh Hb. assert (Hne : points <> []) by (destruct Hc as (v & us & ->); discriminate).
  destruct (new_points_R W H points ml bw fx Hf Hv HW HH Hne Hb) as (s & E & Hr & V). exists s. split; [exact E|]. split; [exact Hr|].
  intros x y Hx Hy. destruct (V x y Hx Hy) as (v & Ev & d & ins & -> & Ei & Hd & Hle & Hor). exists d.
  destruct (polygon_inside (at_node x y) points (node_whole x y) Hwh (node_within W H x y HW HH Hx Hy) Hb Hc) as [Ei' _]. rewrite Ei in Ei'. injection Ei' as ->.
  assert (Ex : forall a b, edge_of points a b -> / 1000000 <= euclid2 b a \/ a = b).
  { intros a b (i & A & B). apply whole_apart; apply Hwh; eapply elem_of_list_lookup_2; eassumption. }
  split; [rewrite Ev; destruct (turns (at_node x y) points =? 0)%Z; reflexivity|]. split; [exact Hd|]. split.
  - intros q (a & b & Hab & Hq). eapply Rle_trans; [apply (Hle a b Hab)|]. apply (ptl_exact a b (at_node x y) (Ex a b Hab)). exact Hq.
  - destruct Hor as [->|(a & b & Hab & ->)]; [left; reflexivity|]. right. destruct (ptl_exact a b (at_node x y) (Ex a b Hab)) as [(q & Hq & Eq) _].
    exists q. split; [exists a, b; split; assumption|exact Eq].
Qed.
