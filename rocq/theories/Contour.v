(** * Contour: only the contour counts (C81). *)

From Coq Require Import Reals Lra.
From Verif Require Import Base Num NumR NumInt MeshModel MeshSpec MeshTopo FmmModel FmmSpec FmmReal LevelSetModel LevelSetSpec LevelSetSpecR LevelSetCalls LevelSetHist LevelSetOps
  BoundaryModel BoundarySpecR Twin AreaOrderSpec Complement ContourSpec.
Local Open Scope R_scope.

Section scale.
  Variable c : R.
  Hypothesis Hc : 0 < c.
  Definition by_c (x y : R) : Prop := y = c * x.
  Lemma by_map l : Forall2 by_c l (map (Rmult c) l).
  Proof. induction l; constructor; [reflexivity|assumption]. Qed.
  Lemma ltb_c x y : Rltb (c * x) (c * y) = Rltb x y.
  Proof. destruct (Rltb_spec (c * x) (c * y)), (Rltb_spec x y); try reflexivity; exfalso; nra. Qed.
  Lemma ltb_c0 x : Rltb (c * x) 0 = Rltb x 0.
  Proof. rewrite <- (ltb_c x 0), Rmult_0_r. reflexivity. Qed.
  Lemma ltb_0c x : Rltb 0 (c * x) = Rltb 0 x.
  Proof. rewrite <- (ltb_c 0 x), Rmult_0_r. reflexivity. Qed.
  Lemma status_c x : (Rabs x < tol <-> Rabs (c * x) < tol) -> status_of (c * x) = status_of x.
  Proof.
    intros E. unfold status_of. change (@n0 R NumR) with 0. assert (Et : @nlit R NumR 1 1000000 = tol) by (cbn; unfold tol; lra). rewrite Et. cbn [nabs nltb NumR]. rewrite ltb_c0.
    destruct (Rltb_spec (Rabs (c * x)) tol), (Rltb_spec (Rabs x) tol); try reflexivity; tauto.
  Qed.
  Lemma cut_c x y : c * x / (c * x - c * y) = x / (x - y).
  Proof.
    replace (c * x - c * y) with (c * (x - y)) by ring. unfold Rdiv. rewrite Rinv_mult. replace (c * x * (/ c * / (x - y))) with (x * / (x - y) * (c * / c)) by ring.
    rewrite Rinv_r by lra. ring.
  Qed.
  Variable sd : list R.
  Local Notation sd' := (map (Rmult c) sd).
  Lemma c_lookup i : sd' !! i = match sd !! i with Some x => Some (c * x) | None => None end.
  Proof. change (map (Rmult c) sd) with (Rmult c <$> sd). rewrite list_lookup_fmap. destruct (sd !! i); reflexivity. Qed.

  Lemma mesh_status_c m : same_nodes c sd -> computeMeshStatus m sd' = computeMeshStatus m sd.
  Proof.
    intros F. unfold computeMeshStatus. f_equal. apply for_ext. intros i t. unfold status_node, vget. rewrite c_lookup. destruct (sd !! i) as [x|] eqn:E; [|reflexivity]. cbn [obind].
    rewrite (status_c x (Forall_lookup_1 _ _ _ _ F E)). reflexivity.
  Qed.
  Lemma cut_point_c ml n1 n2 j d : cut_point ml sd' n1 n2 j d = cut_point ml sd n1 n2 j d.
  Proof.
    unfold cut_point, vget. rewrite !c_lookup. destruct (sd !! n1) as [x|]; [|reflexivity]. destruct (sd !! n2) as [y|]; [|reflexivity]. cbn [obind ndiv nsub NumR].
    rewrite cut_c. reflexivity.
  Qed.
  Lemma edge_c ml tg i j s : edge_step ml tg sd' i j s = edge_step ml tg sd i j s.
  Proof.
    destruct s as [cuts d]. unfold edge_step. apply orel_eq. do 5 (apply orel_same; intros ? _). destruct (_ || _ || _)%bool; [|apply orel_refl].
    do 2 (apply orel_same; intros ? _). destruct (_ || _)%bool; [|apply orel_refl]. rewrite cut_point_c. apply orel_refl.
  Qed.
  Lemma sum_c e n k a : for_from k n (lsf_step sd' e) (c * a) = (let! r := for_from k n (lsf_step sd e) a in Ok (c * r)).
  Proof.
    revert k a. induction n as [|n IH]; intros k a; cbn [for_from]; [reflexivity|]. unfold lsf_step at 1 3. destruct (vget (e_nodes e) k) as [i| | |]; try reflexivity. cbn [obind].
    unfold vget. rewrite c_lookup. destruct (sd !! i) as [x|]; [|reflexivity]. cbn [obind nadd NumR]. rewrite <- Rmult_plus_distr_l. apply IH.
  Qed.
  Lemma four_c i cuts d : four_cuts sd' i cuts d = four_cuts sd i cuts d.
  Proof.
    unfold four_cuts. apply orel_eq. apply orel_same. intros e _. change (@n0 R NumR) with 0. unfold for_. pose proof (sum_c e 4 0 0) as E. rewrite Rmult_0_r in E. rewrite E. clear E.
    destruct (for_from 0 4 (lsf_step sd e) 0) as [sum| | |]; try exact I. cbn [obind]. cbn [nltb NumR]. rewrite ltb_c0, ltb_0c. apply orel_refl.
  Qed.
  Lemma element_c ml tg i d : element_step ml tg sd' i d = element_step ml tg sd i d.
  Proof.
    unfold element_step. apply orel_eq. do 2 (apply orel_same; intros ? _).
    rewrite (for_ext 4 (edge_step ml tg sd' i) (edge_step ml tg sd i)) by (intros; apply edge_c).
    destruct a0; try apply orel_refl; apply orel_same; intros [cuts u] _; destruct cuts as [|p0 [|p1 [|p2 [|p3 [|]]]]]; try apply orel_refl; rewrite four_c; apply orel_refl.
  Qed.
End scale.

Theorem scaled_boundary c (tg : bool) (s : LevelSet R) : 0 < c -> same_nodes c (if tg then ls_target s else ls_sd s) ->
  discretise (scaled c tg s) tg = (let! (t, b) := discretise s tg in Ok (scaled c tg t, b)).
Proof.
  intros Hc F. unfold discretise.
  assert (Ef : (if tg then ls_target (scaled c tg s) else ls_sd (scaled c tg s)) = map (Rmult c) (if tg then ls_target s else ls_sd s)) by (destruct tg; reflexivity).
  assert (Em : ls_mesh (scaled c tg s) = ls_mesh s) by (destruct tg; reflexivity). assert (El : ls_moveLimit (scaled c tg s) = ls_moveLimit s) by (destruct tg; reflexivity).
  rewrite Ef, Em, El, mesh_status_c by assumption. apply orel_eq. 
  destruct (computeMeshStatus _ _) as [m| | |]; try exact I. cbn [obind].
  rewrite (for_ext _ _ (element_step (ls_moveLimit s) tg (if tg then ls_target s else ls_sd s))) by (intros; apply element_c; exact Hc).
  match goal with |- context [for_ ?n ?f ?z] => destruct (for_ n f z) as [d| | |] end; try exact I. cbn [obind].
  destruct (computePointLengths _ _) as [ps| | |]; try exact I. cbn [obind orel]. destruct tg; reflexivity.
Qed.
Theorem scaled_areas c (tg : bool) (s : LevelSet R) (b : Boundary R) : computeAreaFractions (scaled c tg s) b = (let! (t, A) := computeAreaFractions s b in Ok (scaled c tg t, A)).
Proof.
  unfold computeAreaFractions. assert (Em : ls_mesh (scaled c tg s) = ls_mesh s) by (destruct tg; reflexivity). rewrite Em.
  match goal with |- context [for_ ?n ?f ?z] => destruct (for_ n f z) as [[m A]| | |] end; try reflexivity. cbn [obind]. destruct tg; reflexivity.
Qed.

Theorem scaled_measured c (tg : bool) (s : LevelSet R) l A : 0 < c -> same_nodes c (if tg then ls_target s else ls_sd s) -> measured (scaled c tg s) tg l A <-> measured s tg l A.
Proof.
  intros Hc F. unfold measured. rewrite (scaled_boundary c tg s Hc F). split.
  - intros (s' & b & s'' & E & Ea & ->). destruct (discretise s tg) as [[t b0]| | |]; try discriminate. cbn [obind] in E. injection E as <- <-. rewrite scaled_areas in Ea.
    destruct (computeAreaFractions t b0) as [[u A0]| | |] eqn:Eu; try discriminate. cbn [obind] in Ea. injection Ea as <- <-. exists t, b0, u. rewrite Eu. destruct tg; auto.
  - intros (s' & b & s'' & E & Ea & ->). rewrite E. cbn [obind]. exists (scaled c tg s'), b, (scaled c tg s''). rewrite scaled_areas, Ea. cbn [obind]. destruct tg; auto.
Qed.

(** ** Normals *)
Lemma central_c c m sd x y : central m (map (Rmult c) sd) x y = (let! (gx, gy) := central m sd x y in Ok (c * gx, c * gy)).
Proof.
  assert (At : forall x y, sd_at m (map (Rmult c) sd) x y = (let! v := sd_at m sd x y in Ok (c * v))).
  { intros x0 y0. unfold sd_at. destruct (xy_index m x0 y0) as [i| | |]; try reflexivity. cbn [obind]. unfold vget. rewrite c_lookup. destruct (sd !! i); reflexivity. }
  assert (Df : forall x1 y1 x2 y2, (let! a := sd_at m (map (Rmult c) sd) x1 y1 in let! b := sd_at m (map (Rmult c) sd) x2 y2 in Ok (a - b)%num) =
    (let! g := (let! a := sd_at m sd x1 y1 in let! b := sd_at m sd x2 y2 in Ok (a - b)%num) in Ok (c * g))).
  { intros. rewrite !At. destruct (sd_at m sd x1 y1) as [a| | |]; try reflexivity. cbn [obind]. destruct (sd_at m sd x2 y2) as [b| | |]; try reflexivity. cbn. f_equal. ring. }
  assert (Dh : forall x1 y1 x2 y2, (let! a := sd_at m (map (Rmult c) sd) x1 y1 in let! b := sd_at m (map (Rmult c) sd) x2 y2 in Ok (nlit 1 2 * (a - b))%num) =
    (let! g := (let! a := sd_at m sd x1 y1 in let! b := sd_at m sd x2 y2 in Ok (nlit 1 2 * (a - b))%num) in Ok (c * g))).
  { intros. rewrite !At. destruct (sd_at m sd x1 y1) as [a| | |]; try reflexivity. cbn [obind]. destruct (sd_at m sd x2 y2) as [b| | |]; try reflexivity. cbn. f_equal. ring. }
  unfold central. destruct (x =? 0)%nat, (x =? m_width m)%nat, (y =? 0)%nat, (y =? m_height m)%nat; rewrite ?Df, ?Dh;
    match goal with |- context [obind ?A (fun gx => obind ?B _)] => idtac end;
    repeat match goal with |- context [sd_at m sd ?a ?b] => destruct (sd_at m sd a b); try reflexivity; cbn [obind] end.
Qed.
Lemma unit_c c m sd x y : 0 < c -> unit_normal m (map (Rmult c) sd) x y = unit_normal m sd x y.
Proof.
  intros Hc. unfold unit_normal. rewrite central_c. destruct (central m sd x y) as [[gx gy]| | |]; try reflexivity. cbn [obind]. cbn [nsqrt nadd nmul ndiv NumR].
  replace (c * gx * (c * gx) + c * gy * (c * gy)) with (c * c * (gx * gx + gy * gy)) by ring.
  rewrite (sqrt_mult (c * c)) by nra. rewrite sqrt_square by lra.
  assert (Q : forall g r, c * g / (c * r) = g / r).
  { intros g r. unfold Rdiv. rewrite Rinv_mult. replace (c * g * (/ c * / r)) with (g * / r * (c * / c)) by ring. rewrite Rinv_r by lra. ring. }
  rewrite !Q. reflexivity.
Qed.
Theorem scaled_normals c (tg : bool) (s : LevelSet R) (b : Boundary R) : 0 < c -> computeNormalVectors (scaled c tg s) b = computeNormalVectors s b.
Proof.
  intros Hc. unfold computeNormalVectors. assert (En : ls_nBand (scaled c tg s) = ls_nBand s) by (destruct tg; reflexivity). rewrite En.
  rewrite (for_ext _ (normal_node (scaled c tg s)) (normal_node s)); [reflexivity|]. intros i st. unfold normal_node.
  assert (Em : ls_mesh (scaled c tg s) = ls_mesh s) by (destruct tg; reflexivity). assert (Eb : ls_band (scaled c tg s) = ls_band s) by (destruct tg; reflexivity). rewrite Em, Eb.
  destruct tg; [reflexivity|]. cbn [scaled set_sd ls_sd]. apply orel_eq. do 2 (apply orel_same; intros ? _). destruct (0 <? _)%nat; [|apply orel_refl]. do 2 (apply orel_same; intros ? _).
  rewrite unit_c by exact Hc. apply orel_refl.
Qed.

(** ** Distances next to the contour *)
Section front.
  Variables (W H : nat) (c : R) (sd : list R).
  Hypothesis Hc : 0 < c.
  Local Notation sd' := (map (Rmult c) sd).
  Lemma crossing_c adj i d : edge_crossing sd' adj i d <-> edge_crossing sd adj i d.
  Proof.
    unfold edge_crossing. split; intros (k & x & y & A & Ex & Ey & P & ->).
    - rewrite c_lookup in Ex, Ey. destruct (sd !! i) as [x0|] eqn:Ei; [|discriminate]. destruct (sd !! k) as [y0|] eqn:Ek; [|discriminate]. injection Ex as <-. injection Ey as <-.
      exists k, x0, y0. split; [exact A|]. split; [reflexivity || exact Ei|]. split; [reflexivity || exact Ek|]. split; [assert (0 < c * c) by nra; nra|apply cut_c, Hc].
    - exists k, (c * x), (c * y). rewrite !c_lookup, Ex, Ey. split; [exact A|]. split; [reflexivity|]. split; [reflexivity|]. split; [assert (0 < c * c) by nra; nra|symmetry; apply cut_c, Hc].
  Qed.
  Lemma distance_c i r r' : contour_distance W H sd i r -> contour_distance W H sd' i r' -> r = r'.
  Proof.
    unfold contour_distance, nearest_crossing, no_crossing. setoid_rewrite crossing_c. intros [P D] [P' D'].
    assert (U : forall adj d d', edge_crossing sd adj i d -> (forall e, edge_crossing sd adj i e -> d <= e) -> edge_crossing sd adj i d' -> (forall e, edge_crossing sd adj i e -> d' <= e) -> d = d').
    { intros adj d d' A B A' B'. specialize (B _ A'). specialize (B' _ A). lra. }
    destruct D as [(dx & dy & [X1 X2] & [Y1 Y2] & E)|[[[X1 X2] N]|[N [Y1 Y2]]]], D' as [(dx' & dy' & [X1' X2'] & [Y1' Y2'] & E')|[[[X1' X2'] N']|[N' [Y1' Y2']]]];
      try (exfalso; eapply N; eassumption); try (exfalso; eapply N'; eassumption); try (eapply U; eassumption).
    assert (dx = dx') by (eapply U; eassumption). assert (dy = dy') by (eapply U; eassumption). subst dx' dy'. rewrite <- E in E'.
    assert (Q : r * r = r' * r').
    { apply (f_equal Rinv) in E'. unfold Rdiv in E'. rewrite !Rmult_1_l, !Rinv_inv in E'. symmetry. exact E'. }
    nra.
  Qed.
End front.
Lemma front_c W H c sd i : 0 < c -> on_front W H sd i -> on_front W H (map (Rmult c) sd) i.
Proof.
  intros Hc [(x & E & Z)|(k & A & x & y & Ex & Ey & P)].
  - left. exists (c * x). rewrite c_lookup, E. split; [reflexivity|]. apply Reqb_true in Z. apply Reqb_true. change (@n0 R NumR) with 0 in *. subst. ring.
  - right. exists k. split; [exact A|]. exists (c * x), (c * y). rewrite !c_lookup, Ex, Ey. split; [reflexivity|]. split; [reflexivity|]. apply Rltb_true in P. apply Rltb_true.
    change (@n0 R NumR) with 0 in *. cbn [nmul NumR] in *. assert (0 < c * c) by nra. nra.
Qed.
Theorem scaled_front W H c s i0 : reached W H s -> 0 < c -> (i0 < node_count W H)%nat -> on_front W H (ls_sd s) i0 ->
  exists t u, reinitialise s = Ok t /\ reinitialise (scaled c false s) = Ok u /\ forall i, (i < node_count W H)%nat -> on_front W H (ls_sd s) i -> ls_sd u !! i = ls_sd t !! i.
Proof.
  intros Hr Hc H0 F0. pose proof (so_ok _ _ _ (reached_sound _ _ _ Hr)) as O.
  assert (Hr' : reached W H (scaled c false s)) by (apply (reached_call W H s); [exact Hr|]; apply c_write_sd, map_length).
  pose proof (so_ok _ _ _ (reached_sound _ _ _ Hr')) as O'.
  destruct (reinit_spec W H s O) as (_ & S1 & S2). destruct (reinit_spec W H _ O') as (_ & S1' & S2').
  destruct (S2 (ex_intro _ i0 (conj H0 F0))) as [t Et]. destruct (S2' (ex_intro _ i0 (conj H0 (front_c W H c _ i0 Hc F0)))) as [u Eu].
  exists t, u. split; [exact Et|]. split; [exact Eu|]. intros i Hi Fi. destruct (S1 t Et) as (_ & _ & _ & o & Eo). destruct (S1' u Eu) as (_ & _ & _ & o' & Eo').
  destruct (lookup_lt_is_Some_2 (ls_sd s) i) as [x Ex]; [rewrite (ok_sd _ _ _ O); exact Hi|].
  destruct (march_front_R W H _ _ _ _ _ (ok_topo _ _ _ O) (ok_sd _ _ _ O) Eo i x Ex Fi) as (a & Ea & (A1 & A2 & A3) & _ & A5).
  assert (Ex' : ls_sd (scaled c false s) !! i = Some (c * x)) by (cbn; rewrite c_lookup, Ex; reflexivity).
  destruct (march_front_R W H _ _ _ _ _ (ok_topo _ _ _ O') (ok_sd _ _ _ O') Eo' i (c * x) Ex' (front_c W H c _ i Hc Fi)) as (b & Eb & (B1 & B2 & B3) & _ & B5).
  rewrite Ea, Eb. f_equal. destruct (Req_dec x 0) as [->|Nx]; [rewrite A3, B3 by (ring || reflexivity); reflexivity|].
  destruct A5 as [A5|A5]; [contradiction|]. destruct B5 as [B5|B5]; [nra|]. pose proof (distance_c W H c (ls_sd s) Hc i _ _ A5 B5) as E.
  destruct (Rlt_dec 0 x) as [P|P].
  - assert (0 < c * x) by nra. specialize (A1 P). specialize (B1 H1). rewrite !Rabs_pos_eq in E by lra. lra.
  - assert (x < 0) by lra. assert (c * x < 0) by nra. specialize (A2 H1). specialize (B2 H2). rewrite !Rabs_left in E by lra. lra.
Qed.
