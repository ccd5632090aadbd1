(** * LevelSetTarget: when the constructors with a target succeed. *)

From Coq Require Import ZArith Reals Lra Lia.
From Verif Require Import Base Num NumR NumInt MeshModel MeshSpec MeshProofs FmmModel FmmSpec LevelSetModel LevelSetSpec LevelSetSpecR
  LevelSetCalls LevelSetBand LevelSetOps LevelSetInit LevelSetReal LevelSetHist LevelSetNew StartSpec.
Local Open Scope nat_scope.

Section Target.
  Context {T : Type} {NT : Num T} {NI : NumInt T}.

  (** The field of a target is accepted if it has a contour. *)
  Lemma target_accepted f g W H ml bw fx s1 s2 : fits_ls W H bw -> fixed_init f -> fixed_init g ->
    ls_new f W H ml bw fx = Ok s1 -> ls_new g W H ml bw fx = Ok s2 ->
    ((exists i, i < node_count W H /\ on_front W H (ls_sd s2) i) -> exists s, ls_new_target f g W H ml bw fx = Ok s) /\
    ((forall i, i < node_count W H -> ~ on_front W H (ls_sd s2) i) -> ls_new_target f g W H ml bw fx = Exit).
  Proof.
    intros Hf [Lf Ff] [Lg Fg] E1 E2. pose proof (spec_topo W H bw Hf) as Hts.
    assert (HV : valid_params ml bw).
    { assert (HV : valid_params ml bw \/ ~ valid_params ml bw) by
        (unfold valid_params; destruct (n0 <? ml)%num, (ml <? n1)%num; destruct (Nat.lt_ge_cases 2 bw); intuition (try lia; try discriminate)).
      destruct HV as [HV|HV]; [exact HV|]. unfold ls_new in E1. rewrite (proj2 (alloc_spec W H ml bw fx false Hf) HV) in E1. discriminate. }
    set (z := replicate (node_count W H) (n0 (T := T))). assert (Lz : length z = node_count W H) by apply replicate_length.
    assert (G : forall h s, fixed_init h -> ls_new h W H ml bw fx = Ok s -> h (mesh_spec W H) z = Ok (ls_sd s)).
    { intros h s [Lh Fh] E. unfold ls_new in E. destruct (proj1 (alloc_spec W H ml bw fx false Hf) HV) as (s0 & E0 & Hok & Em & A1 & A2 & A3 & A4 & A5 & A6).
      rewrite E0 in E. cbn [obind] in E. unfold init_sd in E. rewrite Em, A4 in E. destruct (h _ _) as [sd| | |] eqn:Eh; cbn [obind] in E; try discriminate.
      assert (L : length sd = node_count W H) by (rewrite (Lh _ _ _ Eh); exact Lz).
      destruct (band_ok_spec W H (set_sd sd s0) (ok_set_sd _ _ _ _ Hok L)) as (s' & B & _ & _ & G1 & _). rewrite B in E. injection E as <-. rewrite G1. cbn [ls_sd set_sd]. reflexivity. }
    pose proof (G f s1 (conj Lf Ff) E1) as D1. pose proof (G g s2 (conj Lg Fg) E2) as D2.
    assert (L2 : length (ls_sd s2) = node_count W H) by (rewrite (Lg _ _ _ D2); exact Lz).
    assert (L1 : length (ls_sd s1) = node_count W H) by (rewrite (Lf _ _ _ D1); exact Lz).
    unfold ls_new_target. destruct (proj1 (alloc_spec W H ml bw fx true Hf) HV) as (s0 & -> & Hok & Em & A1 & A2 & A3 & A4 & A5 & A6).
    cbn [obind]. unfold init_sd at 1 3. rewrite Em, A4. change (replicate (node_count W H) n0) with z. rewrite D2. cbn [obind].
    pose proof (ok_set_sd _ _ _ _ Hok L2) as Hok2. destruct (reinit_spec W H _ Hok2) as (R1 & R2 & R3). cbn [ls_sd set_sd] in R1, R3. split.
    - intros Hx. destruct (R3 Hx) as (s3 & E3). rewrite E3. cbn [obind]. destruct (R2 s3 E3) as (Hok3 & _ & F3 & _).
      unfold init_sd. change (ls_mesh (set_target (ls_sd s3) s3)) with (ls_mesh s3). change (ls_sd (set_target (ls_sd s3) s3)) with (ls_sd s3).
      rewrite (Ff W H (mesh_spec W H) (ls_mesh s3) z (ls_sd s3) Hts (ok_topo _ _ _ Hok3) Lz (ok_sd _ _ _ Hok3)), D1. cbn [obind].
      destruct (band_ok_spec W H (set_sd (ls_sd s1) (set_target (ls_sd s3) s3))) as (s & -> & _); [|exists s; reflexivity].
      destruct Hok3. constructor; cbn; auto.
    - intros Hx. rewrite (proj2 R1 Hx). reflexivity.
  Qed.

  (** All constructors with a target. *)
  Lemma targets_accepted W H ml bw fx : fits_ls W H bw ->
    (forall h1 h2 s1 s2, ls_new_holes W H h1 ml bw fx = Ok s1 -> ls_new_holes W H h2 ml bw fx = Ok s2 ->
       ((exists i, i < node_count W H /\ on_front W H (ls_sd s2) i) -> exists s, ls_new_holes_holes W H h1 h2 ml bw fx = Ok s) /\
       ((forall i, i < node_count W H -> ~ on_front W H (ls_sd s2) i) -> ls_new_holes_holes W H h1 h2 ml bw fx = Exit)) /\
    (forall h1 p2 s1 s2, ls_new_holes W H h1 ml bw fx = Ok s1 -> ls_new_points W H p2 ml bw fx = Ok s2 ->
       ((exists i, i < node_count W H /\ on_front W H (ls_sd s2) i) -> exists s, ls_new_holes_points W H h1 p2 ml bw fx = Ok s) /\
       ((forall i, i < node_count W H -> ~ on_front W H (ls_sd s2) i) -> ls_new_holes_points W H h1 p2 ml bw fx = Exit)) /\
    (forall p1 p2 s1 s2, ls_new_points W H p1 ml bw fx = Ok s1 -> ls_new_points W H p2 ml bw fx = Ok s2 ->
       ((exists i, i < node_count W H /\ on_front W H (ls_sd s2) i) -> exists s, ls_new_points_points W H p1 p2 ml bw fx = Ok s) /\
       ((forall i, i < node_count W H -> ~ on_front W H (ls_sd s2) i) -> ls_new_points_points W H p1 p2 ml bw fx = Exit)).
  Proof.
    intros Hf. split; [|split]; intros a b s1 s2.
    - exact (target_accepted _ _ W H ml bw fx s1 s2 Hf (holes_fixed a) (holes_fixed b)).
    - exact (target_accepted _ _ W H ml bw fx s1 s2 Hf (holes_fixed a) (points_fixed b)).
    - exact (target_accepted _ _ W H ml bw fx s1 s2 Hf (points_fixed a) (points_fixed b)).
  Qed.
End Target.

(** ** Exact arithmetic: the distance to the border and to circles *)
Local Open Scope R_scope.
Definition disc_of (h : Hole R) : R * R * R := (cx (h_coord h), cy (h_coord h), h_r h).

Lemma min_of (l : list R) b d : d <= b -> (forall x, x ∈ l -> d <= x) -> (d = b \/ d ∈ l) -> d = fold_right Rmin b l.
Proof.
  revert d. induction l as [|x l IH]; intros d B L E; cbn [fold_right].
  - destruct E as [E|E]; [exact E|]. apply elem_of_nil in E. contradiction.
  - assert (D : d <= fold_right Rmin b l).
    { clear E IH. assert (L' : forall x, x ∈ l -> d <= x) by (intros z Hz; apply L; right; exact Hz). clear L. induction l as [|z l IH]; cbn [fold_right]; [exact B|].
      apply Rmin_glb; [apply L'; left|apply IH; intros w Hw; apply L'; right; exact Hw]. }
    specialize (L x ltac:(left)) as Lx. destruct (Rle_lt_dec x (fold_right Rmin b l)) as [C|C].
    + rewrite Rmin_left by exact C. destruct E as [E|E].
      { assert (M : fold_right Rmin b l <= b) by (clear; induction l as [|z l IH]; cbn [fold_right]; [lra|eapply Rle_trans; [apply Rmin_r|exact IH]]). lra. }
       apply elem_of_cons in E as [E|E]; [exact E|].
      assert (M : fold_right Rmin b l <= d). { clear - E. induction l as [|z l IH]; [apply elem_of_nil in E; contradiction|]. cbn [fold_right]. apply elem_of_cons in E as [->|E]; [apply Rmin_l|]. eapply Rle_trans; [apply Rmin_r|]. apply IH, E. }
      lra.
    + rewrite Rmin_right by lra. apply IH; [exact B|intros z Hz; apply L; right; exact Hz|].
      destruct E as [E|E]; [left; exact E|]. apply elem_of_cons in E as [E|E]; [lra|right; exact E].
Qed.

Lemma holes_around W H holes ml bw fx s : fits_ls W H bw -> valid_params ml bw -> ls_new_holes W H holes ml bw fx = Ok s ->
  forall x y, (x <= W)%nat -> (y <= H)%nat -> ls_sd s !! node_id W x y = Some (around W H (map disc_of holes) x y).
Proof.
  intros Hf HV E x y Hx Hy. destruct (new_holes_R W H holes ml bw fx Hf HV) as (s' & E' & F). assert (s' = s) by congruence. subst s'.
  destruct (F x y Hx Hy) as (d & -> & D1 & D2 & D3 & _). f_equal. unfold around. rewrite map_map.
  assert (EM : map (fun h => let '(cx, cy, r) := disc_of h in R_sqrt.sqrt ((cx - INR x) * (cx - INR x) + (cy - INR y) * (cy - INR y)) - r) holes = map (fun h => hole_dist h x y) holes).
  { apply map_ext. intros h. reflexivity. }
  rewrite EM. apply min_of; [exact D1| |].
  - intros z Hz. apply elem_of_list_fmap in Hz as (h & -> & Hh). apply D2, Hh.
  - destruct D3 as [D3|(h & Hh & D3)]; [left; exact D3|right]. rewrite D3. apply elem_of_list_fmap. exists h. auto.
Qed.

(** A description of the target that leaves the corner free is accepted. *)
Lemma pair_around W H h1 h2 ml bw fx : fits_ls W H bw -> valid_params ml bw -> (forall h, h ∈ h2 -> 0 <= hole_dist h 0 0) ->
  exists s s2 s3, ls_new_holes_holes W H h1 h2 ml bw fx = Ok s /\ ls_new_holes W H h2 ml bw fx = Ok s2 /\ reinitialise s2 = Ok s3 /\ ls_target s = ls_sd s3 /\
    (forall x y, (x <= W)%nat -> (y <= H)%nat -> ls_sd s !! node_id W x y = Some (around W H (map disc_of h1) x y)) /\
    (forall x y, (x <= W)%nat -> (y <= H)%nat -> ls_sd s2 !! node_id W x y = Some (around W H (map disc_of h2) x y)).
Proof.
  intros Hf HV HC. destruct (new_holes_R W H h1 ml bw fx Hf HV) as (s1 & E1 & _). destruct (new_holes_R W H h2 ml bw fx Hf HV) as (s2 & E2 & F2).
  destruct (proj1 (targets_accepted W H ml bw fx Hf) h1 h2 s1 s2 E1 E2) as [A _]. destruct A as (s & E).
  { exists (node_id W 0 0). split; [apply node_id_lt; lia|]. left. destruct (F2 0%nat 0%nat ltac:(lia) ltac:(lia)) as (d & Ed & D1 & D2 & D3 & _).
    exists d. split; [exact Ed|]. assert (B : border_dist W H 0 0 = 0).
    { unfold border_dist. cbn [INR]. rewrite (Rmin_left 0 (INR W - 0)), (Rmin_left 0 (INR H - 0)) by (pose proof (pos_INR W); pose proof (pos_INR H); lra). apply Rmin_left. lra. }
    assert (d = 0). { destruct D3 as [D3|(h & Hh & D3)]; [lra|]. specialize (HC h Hh). lra. } subst d. cbn. destruct (Reqb_spec 0 0); [reflexivity|lra]. }
  destruct (proj1 (all_targets W H ml bw fx Hf) h1 h2 s E) as (t1 & t2 & t3 & B1 & B2 & B3 & B4 & B5 & _). assert (t2 = s2) by congruence. assert (t1 = s1) by congruence. subst t1 t2.
  exists s, s2, t3. split; [exact E|]. split; [exact E2|]. split; [exact B3|]. split; [exact B4|]. split.
  - rewrite B5. exact (holes_around W H h1 ml bw fx s1 Hf HV E1).
  - exact (holes_around W H h2 ml bw fx s2 Hf HV E2).
Qed.
