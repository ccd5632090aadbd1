(** * NormMain: the normals of a discretised boundary (C37). *)

From Coq Require Import Reals Lra.
From Verif Require Import Num NumR NumInt MeshModel MeshSpec MeshTopo MeshProofs FmmSpec LevelSetModel LevelSetSpec LevelSetCalls LevelSetHist LevelSetGrad
  BoundarySpec BoundarySpecR BoundaryModel BoundaryFrame BoundaryProofs BoundaryLinks BoundaryReal BoundaryGraph BoundaryRun BoundaryLocal BoundaryClosed NormSpec NormProofs NormReal.
Local Open Scope R_scope.
Local Notation sqrt := R_sqrt.sqrt.

Section Generic.
  Context {T : Type} {NT : Num T} {NI : NumInt T}.
  Lemma discretise_reached W H (s s' : LevelSet T) tg b : reached W H s -> discretise s tg = Ok (s', b) -> reached W H s'.
  Proof.
    intros (ml & bw & fx & s0 & F & C & R) E. exists ml, bw, fx, s0. split; [exact F|]. split; [exact C|].
    eapply rtc_r; [exact R|]. apply c_quiet. eapply q_discretise. exact E.
  Qed.
  Theorem normals_discretised W H (s s' : LevelSet T) tg b : reached W H s -> discretise s tg = Ok (s', b) ->
    exists b', computeNormalVectors s' b = Ok b' /\ same_but_normals b b' /\
      forall k p p', bd_points b !! k = Some p -> bd_points b' !! k = Some p' ->
      exists N w f, mixed (bp_coord p) (sources W H s' k) = (N, w, f) /\
        bp_normal p' = if bp_domain p then N else
          let nx := (cx N / w)%num in let ny := (cy N / w)%num in let norm := nsqrt (nx * nx + ny * ny)%num in mkCoord (nx / norm)%num (ny / norm)%num.
  Proof.
    intros Hr E. destruct (reached_sound _ _ _ (discretise_reached _ _ _ _ _ _ Hr E)) as [Ho Hb _ _].
    destruct (links_api W H s s' tg b (ok_topo _ _ _ (so_ok _ _ _ (reached_sound _ _ _ Hr))) E) as (_ & _ & _ & L).
    apply wp_total. apply normals_returns.
    - exact (ok_topo _ _ _ Ho).
    - exact (ok_sd _ _ _ Ho).
    - exact (bs_nb _ _ _ Hb).
    - exact (bs_band _ _ _ Hb).
    - intros i n En. apply (L i n En).
    - intros i k. unfold points_at. destruct (m_nodes (ls_mesh s') !! i) as [n|] eqn:En; [|intros X; inversion X]. apply (L i n En).
  Qed.
End Generic.

Theorem normals_R W H (s s' : LevelSet R) tg b b' : reached W H s -> discretise s tg = Ok (s', b) -> computeNormalVectors s' b = Ok b' ->
  forall k p p', bd_points b !! k = Some p -> bd_points b' !! k = Some p' ->
  let g := gathered (bp_coord p) (sources W H s' k) in
  bp_normal p' = if bp_domain p then g else scale (/ vnorm g) g.
Proof.
  intros Hr E E' k p p' Ep Ep'. destruct (normals_discretised W H s s' tg b Hr E) as (b2 & E2 & _ & X). assert (b2 = b') as -> by congruence.
  destruct (X k p p' Ep Ep') as (N & w & f & M & ->). cbv zeta. destruct (mixed_R (bp_coord p) (sources W H s' k)) as (w' & f' & M' & Hp & Hw & _).
  rewrite M in M'. injection M' as -> -> ->. destruct (bp_domain p); [reflexivity|].
  destruct (sources W H s' k) as [|x l] eqn:S.
  - rewrite gathered_nil. apply coord_ext; cbn; unfold Rdiv; ring.
  - apply normalised. apply Hp. discriminate.
Qed.

Theorem normals_unit W H (s s' : LevelSet R) tg b b' : reached W H s -> discretise s tg = Ok (s', b) -> computeNormalVectors s' b = Ok b' ->
  forall k p p', bd_points b !! k = Some p -> bd_points b' !! k = Some p' -> bp_domain p = false ->
  gathered (bp_coord p) (sources W H s' k) <> mkCoord 0 0 -> vnorm (bp_normal p') = 1.
Proof.
  intros Hr E E' k p p' Ep Ep' D G. rewrite (normals_R W H s s' tg b b' Hr E E' k p p' Ep Ep'). rewrite D. apply unit_scaled, G.
Qed.

(** ** A plane. *)
Section Plane.
  Variables (W H : nat) (s s' : LevelSet R) (b : Boundary R) (a c d : R).
  Hypothesis Hr : reached W H s.
  Hypothesis Hd : discretise s false = Ok (s', b).
  Hypothesis Ho : off_contour W H (ls_sd s).
  Hypothesis Hc : clear_cuts W H (ls_sd s).
  Hypothesis Hs : forall i k x y, adjacent W H i k -> ls_sd s !! i = Some x -> ls_sd s !! k = Some y -> 0 < x -> y < 0 -> active s i \/ active s k.

  Lemma plane_covered : covered W H s (ls_sd s).
  Proof. intros i k x y A Ei Ek Lx Ly. destruct (Hs i k x y A Ei Ek Lx Ly); auto. Qed.
  Lemma sd_kept : ls_sd s' = ls_sd s.
  Proof. pose proof (ok_topo _ _ _ (so_ok _ _ _ (reached_sound _ _ _ Hr))) as Ht. destruct (frame_api W H s s' false b Ht Hd) as (E & _). injection E as -> _ _ _. reflexivity. Qed.

  (** Every boundary point has a source. *)
  Lemma has_source k p : bd_points b !! k = Some p -> sources W H s' k <> [].
  Proof.
    intros Ep. pose proof (reached_sound _ _ _ Hr) as So. pose proof (ok_topo _ _ _ (so_ok _ _ _ So)) as Ht. pose proof (tp_fits _ _ _ Ht) as [HW _].
    pose proof (discretise_reached _ _ _ _ _ _ Hr Hd) as Hr'. pose proof (reached_sound _ _ _ Hr') as So'. pose proof (ok_topo _ _ _ (so_ok _ _ _ So')) as Ht'.
    destruct (closed_rep W H s false Hr Hc Ho (or_intror plane_covered) s' b Hd) as (pl & Rp).
    destruct (Forall2_lookup_r _ _ _ _ _ (rs_pts _ _ _ _ _ _ _ Rp) Ep) as (pc & Epc & _).
    pose proof (rs_valid _ _ _ _ _ _ _ Rp pc (elem_of_list_lookup_2 _ _ _ Epc)) as V.
    assert (G : exists i, incident W pc i /\ (i < node_count W H)%nat /\ active s i).
    { change (BoundaryLinks.field s false) with (ls_sd s) in V.
      assert (Q : forall i k, adjacent W H i k -> opposite (ls_sd s) i k -> (i < node_count W H)%nat -> (k < node_count W H)%nat -> incident W pc i -> incident W pc k ->
        exists i, incident W pc i /\ (i < node_count W H)%nat /\ active s i).
      { intros i j A O Li Lj I1 I2. destruct (opposite_vals _ _ _ O) as (x & y & Ex & Ey & V2). pose proof tol_pos.
        assert (active s i \/ active s j) as [X | X]; [|exists i; auto|exists j; auto].
        destruct V2 as [[A1 A2]|[A1 A2]]; [apply (Hs i j x y); auto; lra|]. apply or_comm. apply (Hs j i y x); [eapply adjacent_sym; eassumption|assumption|assumption|lra|lra]. }
      destruct pc as [i|i|i].
      - exfalso. destruct (off_edges W H s false Ho (AtNode i) V) as (i' & [X|X]); discriminate.
      - destruct V as (V1 & V2 & V3). apply (Q i (i + 1)%nat); [apply right_adj; assumption|exact V3|lia|lia|left; reflexivity|right; reflexivity].
      - destruct V as (V1 & V2). apply (Q i (i + (W + 1))%nat); [apply up_adj; assumption|exact V2|lia|lia|left; reflexivity|right; reflexivity]. }
    destruct G as (i & I & Li & A).
    assert (Bi : i ∈ band_list s').
    { destruct (frame_api W H s s' false b Ht Hd) as (_ & F2 & _). injection F2 as B1 B2 _ _. unfold band_list. rewrite B1, B2. apply (so_active _ _ _ So), A. }
    destruct (topo_node W H _ Ht' i Li) as (n & En & _).
    assert (K : k ∈ take (nd_nBpts n) (nd_bpts n)). { apply (rs_att _ _ _ _ _ _ _ Rp i n Li En). eauto. }
    unfold sources, sources_in. apply elem_of_list_split in Bi as (l1 & l2 & ->). rewrite map_app, concat_app. cbn [map concat].
    intros X. apply app_eq_nil in X as [_ X]. apply app_eq_nil in X as [X _]. apply map_eq_nil in X. unfold points_at in X. rewrite En in X.
    assert (In k []) as []. rewrite <- X. apply filter_In. split; [apply elem_of_list_In, K|apply Nat.eqb_refl].
  Qed.

  Hypothesis Hplane : forall x y, (x <= W)%nat -> (y <= H)%nat -> ls_sd s !! node_id W x y = Some (a * INR x + c * INR y + d).
  Hypothesis Hne : mkCoord a c <> mkCoord 0 0.
  Let u := scale (/ vnorm (mkCoord a c)) (mkCoord a c).

  Lemma plane_node i : (i < node_count W H)%nat -> node_normal W H (ls_sd s') i = u.
  Proof.
    intros Hi. destruct (node_id_split W H i Hi) as (Hx & Hy & _). pose proof (tp_fits _ _ _ (ok_topo _ _ _ (so_ok _ _ _ (reached_sound _ _ _ Hr)))) as [HW [HH _]].
    assert (F : forall x y, (x <= W)%nat -> (y <= H)%nat -> LevelSetSpec.field W (ls_sd s') x y = a * INR x + c * INR y + d).
    { intros x y Lx Ly. unfold LevelSetSpec.field. rewrite sd_kept. apply nth_lookup_Some, Hplane; assumption. }
    unfold node_normal. set (x := (i mod (W + 1))%nat) in *. set (y := (i / (W + 1))%nat) in *.
    assert (S1 : slope (fun k => LevelSetSpec.field W (ls_sd s') k y) W x = a).
    { unfold slope. rewrite nlit_R. cbn [nsub nmul NumR]. destruct (Nat.eqb_spec x 0); [rewrite !F by lia; cbn [INR]; lra|].
      destruct (Nat.eqb_spec x W); [rewrite !F by lia; rewrite minus_INR by lia; cbn [INR]; lra|]. rewrite !F by lia. rewrite minus_INR, plus_INR by lia. cbn [INR]. lra. }
    assert (S2 : slope (fun k => LevelSetSpec.field W (ls_sd s') x k) H y = c).
    { unfold slope. rewrite nlit_R. cbn [nsub nmul NumR]. destruct (Nat.eqb_spec y 0); [rewrite !F by lia; cbn [INR]; lra|].
      destruct (Nat.eqb_spec y H); [rewrite !F by lia; rewrite minus_INR by lia; cbn [INR]; lra|]. rewrite !F by lia. rewrite minus_INR, plus_INR by lia. cbn [INR]. lra. }
    rewrite S1, S2. unfold u, vnorm. apply coord_ext; cbn [scale cx cy nsqrt nmul nadd ndiv NumR]; replace (a ^ 2 + c ^ 2) with (a * a + c * c) by ring; unfold Rdiv; ring.
  Qed.

  Lemma gathered_same pt l v : l <> [] -> (forall qv, In qv l -> snd qv = v) -> exists t, 0 < t /\ gathered pt l = scale t v.
  Proof.
    intros Hl Hv. rewrite gathered_top. destruct (last (List.filter (on_top pt) l)) as [qv|] eqn:E.
    - exists 1. split; [lra|]. rewrite (Hv qv).
      + apply coord_ext; cbn; ring.
      + apply last_Some_elem_of in E. apply elem_of_list_In in E. apply filter_In in E. apply E.
    - assert (N : forall qv, In qv l -> 0 < sqdist (fst qv) pt).
      { intros qv Hq. apply last_None in E. destruct (on_top pt qv) eqn:O.
        - assert (In qv []) as []. rewrite <- E. apply filter_In. auto.
        - unfold on_top in O. destruct (Rlt_dec (sqdist (fst qv) pt) tol) as [L|L]; [discriminate|]. pose proof tol_pos. lra. }
      clear E. assert (Q : exists t, 0 <= t /\ (l <> [] -> 0 < t) /\ fold_right vadd (mkCoord 0 0) (map (fun qv => scale (/ sqdist (fst qv) pt) (snd qv)) l) = scale t v).
      { clear Hl. induction l as [|q l IH].
        - exists 0. split; [lra|]. split; [congruence|]. apply coord_ext; cbn; ring.
        - destruct IH as (t & Ht & _ & Et); [intros; apply Hv; right; assumption|intros; apply N; right; assumption|].
          pose proof (Rinv_0_lt_compat _ (N q (or_introl eq_refl))). exists (/ sqdist (fst q) pt + t). split; [lra|]. split; [lra|].
          cbn [map fold_right]. rewrite Et, (Hv q (or_introl eq_refl)). apply coord_ext; cbn; ring. }
      destruct Q as (t & _ & Q & Et). exists t. auto.
  Qed.

  Theorem plane_normals : exists b', computeNormalVectors s' b = Ok b' /\
    forall k p', bd_points b' !! k = Some p' -> bp_domain p' = false -> bp_normal p' = u.
  Proof.
    destruct (normals_discretised W H s s' false b Hr Hd) as (b' & E & (_ & _ & L & K) & _). exists b'. split; [exact E|].
    intros k p' Ep' D. destruct (lookup_lt_is_Some_2 (bd_points b) k) as [p Ep]; [rewrite <- L; eauto using lookup_lt_Some|].
    assert (Dp : bp_domain p = false) by (rewrite (K k p p' Ep Ep') in D; exact D).
    rewrite (normals_R W H s s' false b b' Hr Hd E k p p' Ep Ep'), Dp.
    assert (U1 : vnorm u = 1) by (apply unit_scaled, Hne).
    destruct (gathered_same (bp_coord p) (sources W H s' k) u) as (t & Ht & ->).
    - eapply has_source, Ep.
    - intros qv Hq. unfold sources, sources_in in Hq. apply in_concat in Hq as (l & Hl & Hq). apply in_map_iff in Hl as (i & <- & Hi).
      apply in_map_iff in Hq as (? & <- & _). cbn [snd]. apply plane_node.
      apply (bs_band _ _ _ (so_safe _ _ _ (reached_sound _ _ _ (discretise_reached _ _ _ _ _ _ Hr Hd)))), elem_of_list_In, Hi.
    - assert (V : vnorm (scale t u) = t).
      { unfold vnorm. cbn [scale cx cy]. replace ((t * cx u) ^ 2 + (t * cy u) ^ 2) with (t ^ 2 * (cx u ^ 2 + cy u ^ 2)) by ring.
        rewrite sqrt_mult_alt by apply pow2_ge_0. rewrite sqrt_pow2 by lra. fold (vnorm u). rewrite U1. ring. }
      rewrite V. apply coord_ext; cbn [scale cx cy]; field; lra.
  Qed.
End Plane.
