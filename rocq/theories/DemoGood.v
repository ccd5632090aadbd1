(** * DemoGood: the boundary of a shape inside the domain (C70). *)

From Coq Require Import Reals Lra.
From Verif Require Import Base Num NumR NumInt NumSgn MeshModel MeshSpec FmmSpec LevelSetModel LevelSetSpec LevelSetSpecR LevelSetCalls LevelSetHist LevelSetNew
  BoundaryModel BoundarySpec BoundarySpecR BoundaryLinks BoundaryReal BoundaryGraph BoundaryRun BoundaryClosed AreaCut NormSpec LevelSetParams DemoModel DemoSpec DemoShape DemoLength DemoTurn DemoBrolly DemoArea DemoMatch DemoGrad.
Local Open Scope R_scope.

Section good.
  Variables (W H : nat) (s : LevelSet R).
  Hypothesis Hin : inside_shape W H s.
  Let Hr := is_reached _ _ _ Hin.
  Let Ho := is_off _ _ _ Hin.
  Let Hc := is_clear _ _ _ Hin.
  Let Hv := is_covered _ _ _ Hin.
  Let Hb := is_border _ _ _ Hin.

  (** No boundary point is at a node. *)
  Lemma int_gap (a b : nat) t : tol <= t <= 1 - tol -> tol <= Rabs (INR a - (INR b + t)).
  Proof.
    intros Ht. pose proof tol_pos. destruct (le_lt_dec a b) as [L|L].
    - apply le_INR in L. rewrite Rabs_left1 by lra. lra.
    - assert (L' : (b + 1 <= a)%nat) by lia. apply le_INR in L'. rewrite plus_INR in L'. cbn [INR] in L'. rewrite Rabs_right by lra. lra.
  Qed.
  Lemma not_near c i : on_contour_line W H (ls_sd s) c -> ~ near (grid W i) c.
  Proof.
    pose proof tol_pos as Tp. intros [(j & x & Hj & Ex & Lx & _)|(j & k & Ad & x & y & t & Ex & Ey & Lx & Ly & Lt & Eq & ->)] [N1 N2].
    - destruct (Ho j Hj) as (x' & Ex' & Lx'). assert (x' = x) by congruence. subst. lra.
    - destruct (Hc j k x y Ad Ex Ey Lx Ly) as [C1 C2].
      assert (Pxy : 0 < x - y) by lra.
      assert (B : tol <= t <= 1 - tol).
      { assert (Z : (1 - t) * (x - y) = - y) by lra. assert (Z' : t * (x - y) = x) by lra. split; apply (Rmult_le_reg_r (x - y)); lra. }
      assert (B' : tol <= 1 - t <= 1 - tol) by lra.
      destruct Ad as [(a & b & a' & E1 & E2 & La & La' & Lb & D)|(a & b & b' & E1 & E2 & La & Lb & Lb' & D)]; subst j k; unfold along in N1, N2; rewrite !grid_id in N1, N2 by assumption; cbn [cx cy] in N1, N2.
      + unfold grid in N1. cbn [cx] in N1. pose proof (int_gap (i mod (W + 1)) a t B) as G1. pose proof (int_gap (i mod (W + 1)) a' (1 - t) B') as G2.
        destruct D as [-> | ->]; rewrite ?plus_INR in *; cbn [INR] in *.
        * replace (INR a + t * (INR a + 1 - INR a)) with (INR a + t) in N1 by ring. lra.
        * replace (INR a' + 1 + t * (INR a' - (INR a' + 1))) with (INR a' + (1 - t)) in N1 by ring. lra.
      + unfold grid in N2. cbn [cy] in N2. pose proof (int_gap (i / (W + 1)) b t B) as G1. pose proof (int_gap (i / (W + 1)) b' (1 - t) B') as G2.
        destruct D as [-> | ->]; rewrite ?plus_INR in *; cbn [INR] in *.
        * replace (INR b + t * (INR b + 1 - INR b)) with (INR b + t) in N2 by ring. lra.
        * replace (INR b' + 1 + t * (INR b' - (INR b' + 1))) with (INR b' + (1 - t)) in N2 by ring. lra.
  Qed.

  Lemma segment_positive s' b n sg : discretise s false = Ok (s', b) -> bd_segs b !! n = Some sg -> 0 < sg_length sg.
  Proof.
    intros Hd Es. destruct (segments_good W H s s' false b Hr Hd n sg Es) as (He & p & q & _ & _ & Ep & Eq & L & _).
    destruct (element_segments W H s false Hr Hc Ho (or_intror Hv) s' b (sg_elem sg) Hd He) as (S1 & _).
    destruct (S1 n sg Es eq_refl) as (j & j' & Lj & Lj' & Nj & p' & q' & Ep' & Eq' & J).
    assert (p' = p) by congruence. assert (q' = q) by congruence. subst p' q'. rewrite L. unfold euclid. apply sqrt_lt_R0. unfold euclid2.
    destruct (Req_dec (cx (bp_coord p)) (cx (bp_coord q))) as [Zx|Zx]; [destruct (Req_dec (cy (bp_coord p)) (cy (bp_coord q))) as [Zy|Zy]|].
    - exfalso. assert (Z : bp_coord p = bp_coord q) by (destruct (bp_coord p), (bp_coord q); cbn in *; congruence). rewrite Z in J.
      apply Nj. destruct J as [[J1 J2]|[J1 J2]]; [|symmetry]; eapply (zero_inj W H s false Hr (sg_elem sg) He); eassumption.
    - pose proof (Rle_0_sqr (cx (bp_coord p) - cx (bp_coord q))). pose proof (Rsqr_pos_lt (cy (bp_coord p) - cy (bp_coord q)) ltac:(lra)). unfold Rsqr in *. lra.
    - pose proof (Rle_0_sqr (cy (bp_coord p) - cy (bp_coord q))). pose proof (Rsqr_pos_lt (cx (bp_coord p) - cx (bp_coord q)) ltac:(lra)). unfold Rsqr in *. lra.
  Qed.

  Lemma point_positive s' b k p : discretise s false = Ok (s', b) -> bd_points b !! k = Some p -> 0 < bp_length p /\ bp_nNeigh p = 2%nat.
  Proof.
    intros Hd Ep. destruct (closed_curves W H s false Hr Hc Ho (or_intror Hv)) as (s2 & b2 & Hd' & _ & Pt & _).
    assert (s2 = s' /\ b2 = b) as [-> ->] by (split; congruence).
    pose proof (ok_topo _ _ _ (so_ok _ _ _ (reached_sound _ _ _ Hr))) as Ht.
    destruct (Pt k p Ep) as (_ & P2 & _).
    assert (Wi : within_domain W H (bp_coord p)).
    { destruct (points_on_contour W H s s' false b Hr Hd k p Ep) as [C _]. apply (contour_gap W H s Ho Hc Hb) in C. pose proof tol_pos.
      unfold border_gap in C. split; split; revert C; unfold Rmin; repeat destruct (Rle_dec _ _); intros; lra. }
    specialize (P2 Wi). destruct (links_api W H s s' false b Ht Hd) as (Lk & _). destruct (Lk k p Ep) as (_ & NS & NN & _). cbv zeta in *.
    split; [|congruence].
    destruct (dk_points _ _ _ _ _ _ (discretise_ok W H s false Ht _ Hd) k p Ep) as (e & c & p0 & _ & _ & _ & K).
    rewrite (lk_len _ _ _ _ _ _ K), half_sum_R. change (n0 (T := R)) with 0. rewrite Rplus_0_l.
    assert (All : forall l, l <> [] -> (forall x, x ∈ l -> 0 < seg_length_of (bd_segs b) (fst x)) -> 0 < sumR (map (fun x : nat * nat => seg_length_of (bd_segs b) (fst x) / 2) l)).
    { assert (G : forall l, (forall x, x ∈ l -> 0 < seg_length_of (bd_segs b) (fst x)) -> 0 <= sumR (map (fun x : nat * nat => seg_length_of (bd_segs b) (fst x) / 2) l)).
      { induction l as [|x l IH]; intros Hl; [apply Rle_refl|]. cbn [map]. match goal with |- 0 <= sumR (?a :: ?r) => change (0 <= a + sumR r) end.
        pose proof (Hl x ltac:(left)). assert (0 <= sumR (map (fun x : nat * nat => seg_length_of (bd_segs b) (fst x) / 2) l)) by (apply IH; intros y Hy; apply Hl; right; exact Hy). lra. }
      intros [|x l] Ne Hl; [congruence|]. cbn [map]. match goal with |- 0 < sumR (?a :: ?r) => change (0 < a + sumR r) end.
      pose proof (Hl x ltac:(left)). pose proof (G l (fun y Hy => Hl y (elem_of_list_further _ _ _ Hy))). lra. }
    apply All.
    - intros X. rewrite X in NS. cbn in NS. lia.
    - intros [n o] Hx. destruct (incidence_seg b k n o Hx) as (sg & Es & _). cbn [fst]. unfold seg_length_of. rewrite Es. exact (segment_positive s' b n sg Hd Es).
  Qed.

  Theorem good_boundary (d : Demo R) : exists s' b, new_boundary d s = Ok (s', b) /\ reached W H s' /\ ls_moveLimit s' = ls_moveLimit s /\
    (forall p, p ∈ bd_points b -> bp_fixed p = false /\ bp_domain p = false /\ 0 < bp_length p /\ bp_nNeigh p = 2%nat) /\
    bd_points b <> [] /\ (forall n sg, bd_segs b !! n = Some sg -> sg_start sg <> sg_end sg) /\
    (d_areas d = true -> exists a, ls_area s' = Some a /\ 0 <= a <= INR (W * H)).
  Proof.
    destruct (closed_curves W H s false Hr Hc Ho (or_intror Hv)) as (s1 & b1 & Hd & _ & _ & Ns).
    assert (R1 : reached W H s1) by (apply (reached_call _ _ _ _ Hr), c_quiet, (q_discretise _ _ _ _ Hd)).
    destruct (area_fractions W H s s1 false b1 Hr Ho Hc (or_intror Hv) Hd) as (s2 & A & EA & _ & _ & Ra & E2 & _).
    assert (R2 : reached W H s2) by (apply (reached_call _ _ _ _ R1), c_quiet, (q_areas _ _ _ _ EA)).
    assert (M2 : m_nodes (ls_mesh s2) = m_nodes (ls_mesh s1)) by (rewrite E2; reflexivity).
    set (s' := if d_areas d then s2 else s1). assert (R' : reached W H s') by (unfold s'; destruct (d_areas d); assumption).
    assert (M' : m_nodes (ls_mesh s') = m_nodes (ls_mesh s1)) by (unfold s'; destruct (d_areas d); [exact M2|reflexivity]).
    destruct (normals_of W H s s1 s' b1 Hr Hd R' M') as (b2 & EN & SN).
    set (b := if d_normals d then b2 else b1). assert (Sb : same_but_normals b1 b) by (unfold b; destruct (d_normals d); [exact SN|apply same_normals_refl]).
    assert (E : new_boundary d s = Ok (s', b)).
    { unfold new_boundary. rewrite Hd. cbn [obind]. unfold s', b in *. destruct (d_areas d); [rewrite EA|]; cbn [obind]; (destruct (d_normals d); [rewrite EN|]; reflexivity). }
    exists s', b. split; [exact E|]. split; [exact R'|]. split.
    { destruct (new_boundary_inv d W H s s' b Hr E) as (_ & _ & X). unfold setup, settings in X. congruence. }
    destruct Sb as (Sg & _ & Ln & K). split; [|split; [|split]].
    - intros p Hp. apply elem_of_list_lookup in Hp as [k Ek]. destruct (lookup_lt_is_Some_2 (bd_points b1) k) as [p1 Ek1]; [rewrite <- Ln; eauto using lookup_lt_Some|].
      rewrite (K k p1 p Ek1 Ek). cbn. destruct (limits W H s s1 false b1 Hr Hd k p1 Ek1) as (_ & _ & _ & D & Fx & _).
      destruct (points_on_contour W H s s1 false b1 Hr Hd k p1 Ek1) as [C _]. cbn [field] in C. destruct (point_positive s1 b1 k p1 Hd Ek1) as [Lp Np].
      split; [|split; [|auto]].
      + destruct (bp_fixed p1); [|reflexivity]. exfalso. destruct (proj1 Fx eq_refl) as (i & _ & N). exact (not_near _ i C N).
      + destruct (bp_domain p1); [|reflexivity]. exfalso. destruct (proj1 D eq_refl) as [Z _]. apply (contour_gap W H s Ho Hc Hb) in C. lra.
    - destruct (positive_point W H s Hr Ho Hc Hb s1 b1 Hv (is_some _ _ _ Hin) ltac:(pose proof (is_width _ _ _ Hin); lia) Hd) as (p & Hp & _).
      intros X. rewrite X in Ln. cbn in Ln. destruct (bd_points b1); [inversion Hp|discriminate].
    - rewrite Sg. exact Ns.
    - intros Ed. unfold s'. rewrite Ed. exists A. split; [rewrite E2; reflexivity|exact Ra].
  Qed.
End good.
