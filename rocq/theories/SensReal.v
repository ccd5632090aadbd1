(** * SensReal: sensitivities in exact arithmetic, and itoCorrection after discretise. *)

From Coq Require Import Reals Lra.
From Verif Require Import Num NumR NumInt MeshModel LevelSetModel LevelSetSpec LevelSetCalls LevelSetHist BoundarySpec BoundarySpecR
  BoundaryModel BoundaryLinks NormSpec NormProofs NormReal NormMain SensModel SensProofs.
Local Open Scope R_scope.
Local Notation sqrt := R_sqrt.sqrt.

Lemma ahead_R delta (p : BoundaryPoint R) : ahead delta p = at_coord (vadd (bp_coord p) (scale delta (bp_normal p))) p.
Proof. reflexivity. Qed.
Lemma behind_R delta (p : BoundaryPoint R) : behind delta p = at_coord (vadd (bp_coord p) (scale (- delta) (bp_normal p))) p.
Proof. unfold behind. f_equal. apply coord_ext; cbn; ring. Qed.

Theorem sens_cubic delta (g : BoundaryPoint R -> R) p k0 k1 k2 k3 : delta <> 0 ->
  (forall t, g (at_coord (vadd (bp_coord p) (scale t (bp_normal p))) p) = k0 + k1 * t + k2 * t ^ 2 + k3 * t ^ 3) ->
  computeSensitivity delta (fun (_ : unit) q => Ok (tt, g q)) tt p = Ok ((k1 + k3 * delta ^ 2) / bp_length p, p, tt).
Proof.
  intros Hd Hg. rewrite (sens_returns delta _ tt p tt (g (ahead delta p)) tt (g (behind delta p)) eq_refl eq_refl).
  rewrite ahead_R, behind_R, !Hg. do 3 f_equal. cbn [nsub ndiv nmul nofZ NumR]. unfold Rdiv. f_equal. field. exact Hd.
Qed.

Lemma coord_dist_R c q : coord_dist c q = vnorm (vsub c q).
Proof. unfold coord_dist, vnorm, vsub. cbn [nsub nmul nadd nsqrt NumR cx cy]. f_equal. ring. Qed.
Lemma fold_sum {A} (f : A -> R) l : forall a, fold_left (fun x q => x + f q) l a = a + fold_right Rplus 0 (map f l).
Proof. induction l as [|b l IH]; intros a; cbn; [ring|]. rewrite IH. ring. Qed.

Lemma perimeter_R (b : Boundary R) p c : (bp_nNeigh p <= length (bp_neigh p))%nat -> (forall j, j ∈ take (bp_nNeigh p) (bp_neigh p) -> (j < length (bd_points b))%nat) ->
  computePerimeter b (at_coord c p) = Ok (length_to (neighbour_coords b p) c).
Proof.
  intros H1 H2. destruct (perimeter_ok b p H1 H2) as (qs & F & P). rewrite P. f_equal. unfold length_to, neighbour_coords.
  change (fold_left (fun l q => l + coord_dist c (bp_coord q)) qs 0 = fold_right Rplus 0 (map (fun q => vnorm (vsub c q)) (concat (map (fun j => match bd_points b !! j with Some q => [bp_coord q] | None => [] end) (take (bp_nNeigh p) (bp_neigh p)))))).
  rewrite fold_sum, Rplus_0_l. clear P H1 H2. induction F as [|j q l qs' E F IH]; [reflexivity|]. cbn [map concat fold_right]. rewrite E. cbn [app map fold_right].
  rewrite IH, coord_dist_R. reflexivity.
Qed.

Theorem corrected_R delta t (b : Boundary R) k p p' : neighbours_ok b -> bd_points b !! k = Some p -> corrected delta t b p p' ->
  exists s0 rest, bp_sens p = s0 :: rest /\ p' = with_sens ((s0 - t * curvature delta b p / (2 * bp_length p)) :: rest) p.
Proof.
  intros Hn Ep (L1 & L2 & s0 & rest & E1 & E2 & Es & ->). destruct (Hn k p Ep) as [N1 N2]. exists s0, rest. split; [exact Es|].
  rewrite ahead_R, perimeter_R in E1 by assumption. rewrite behind_R, perimeter_R in E2 by assumption. injection E1 as <-. injection E2 as <-. reflexivity.
Qed.

(** ** The sign of the curvature. *)
Lemma vnorm_lt a b : cx a ^ 2 + cy a ^ 2 < cx b ^ 2 + cy b ^ 2 -> vnorm a < vnorm b.
Proof. intros L. unfold vnorm. apply sqrt_lt_1_alt. pose proof (pow2_ge_0 (cx a)). pose proof (pow2_ge_0 (cy a)). lra. Qed.
Lemma step_sq c n q t : let a := vsub (vadd c (scale t n)) q in let b := vsub (vadd c (scale (- t) n)) q in
  cx a ^ 2 + cy a ^ 2 - (cx b ^ 2 + cy b ^ 2) = 4 * t * dot n (vsub c q).
Proof. cbn. unfold dot. cbn. ring. Qed.

Lemma length_gap c n t qs : 0 < t ->
  let d := length_to qs (vadd c (scale t n)) - length_to qs (vadd c (scale (- t) n)) in
  ((forall q, q ∈ qs -> 0 < dot n (vsub c q)) -> qs <> [] -> 0 < d) /\
  ((forall q, q ∈ qs -> dot n (vsub c q) < 0) -> qs <> [] -> d < 0) /\
  ((forall q, q ∈ qs -> dot n (vsub c q) = 0) -> d = 0).
Proof.
  intros Ht. cbv zeta. unfold length_to.
  assert (G : forall q, let x := vnorm (vsub (vadd c (scale t n)) q) in let y := vnorm (vsub (vadd c (scale (- t) n)) q) in
    (0 < dot n (vsub c q) -> y < x) /\ (dot n (vsub c q) < 0 -> x < y) /\ (dot n (vsub c q) = 0 -> x = y)).
  { intros q. cbv zeta. pose proof (step_sq c n q t) as S. cbv zeta in S. split; [|split]; intros D.
    - apply vnorm_lt. nra.
    - apply vnorm_lt. nra.
    - unfold vnorm. f_equal. rewrite D in S. lra. }
  split; [|split].
  - intros H Hne. assert (X : forall l, (forall q, q ∈ l -> 0 < dot n (vsub c q)) ->
      0 <= fold_right Rplus 0 (map (fun q => vnorm (vsub (vadd c (scale t n)) q)) l) - fold_right Rplus 0 (map (fun q => vnorm (vsub (vadd c (scale (- t) n)) q)) l)).
    { induction l as [|q l IH]; intros Hl; cbn [map fold_right]; [lra|]. destruct (G q) as (G1 & _). specialize (G1 (Hl q ltac:(left))).
      specialize (IH (fun q Hq => Hl q ltac:(right; exact Hq))). lra. }
    destruct qs as [|q l]; [congruence|]. cbn [map fold_right]. destruct (G q) as (G1 & _). specialize (G1 (H q ltac:(left))). specialize (X l (fun q Hq => H q ltac:(right; exact Hq))). lra.
  - intros H Hne. assert (X : forall l, (forall q, q ∈ l -> dot n (vsub c q) < 0) ->
      fold_right Rplus 0 (map (fun q => vnorm (vsub (vadd c (scale t n)) q)) l) - fold_right Rplus 0 (map (fun q => vnorm (vsub (vadd c (scale (- t) n)) q)) l) <= 0).
    { induction l as [|q l IH]; intros Hl; cbn [map fold_right]; [lra|]. destruct (G q) as (_ & G1 & _). specialize (G1 (Hl q ltac:(left))).
      specialize (IH (fun q Hq => Hl q ltac:(right; exact Hq))). lra. }
    destruct qs as [|q l]; [congruence|]. cbn [map fold_right]. destruct (G q) as (_ & G1 & _). specialize (G1 (H q ltac:(left))). specialize (X l (fun q Hq => H q ltac:(right; exact Hq))). lra.
  - intros H. clear - H G. induction qs as [|q l IH]; cbn [map fold_right]; [lra|]. destruct (G q) as (_ & _ & G1). specialize (G1 (H q ltac:(left))).
    specialize (IH (fun q Hq => H q ltac:(right; exact Hq))). lra.
Qed.

Theorem curvature_sign delta (b : Boundary R) p : 0 < delta -> 0 < bp_length p ->
  let qs := neighbour_coords b p in
  ((forall q, q ∈ qs -> 0 < dot (bp_normal p) (vsub (bp_coord p) q)) -> qs <> [] -> 0 < curvature delta b p) /\
  ((forall q, q ∈ qs -> dot (bp_normal p) (vsub (bp_coord p) q) < 0) -> qs <> [] -> curvature delta b p < 0) /\
  ((forall q, q ∈ qs -> dot (bp_normal p) (vsub (bp_coord p) q) = 0) -> curvature delta b p = 0).
Proof.
  intros Hd Hl. cbv zeta. destruct (length_gap (bp_coord p) (bp_normal p) delta (neighbour_coords b p) Hd) as (A & B & C).
  unfold curvature. set (d := _ - _) in *. assert (I1 : 0 < / (2 * delta)) by (apply Rinv_0_lt_compat; lra). assert (I2 : 0 < / bp_length p) by (apply Rinv_0_lt_compat; lra).
  unfold Rdiv. split; [|split].
  - intros H N. specialize (A H N). apply Rmult_lt_0_compat; [apply Rmult_lt_0_compat|]; assumption.
  - intros H N. specialize (B H N). assert (0 < - d * / (2 * delta) * / bp_length p); [apply Rmult_lt_0_compat; [apply Rmult_lt_0_compat; lra|exact I2]|lra].
  - intros H. rewrite (C H). ring.
Qed.

(** ** After discretise. *)
Section After.
  Context {T : Type} {NT : Num T} {NI : NumInt T}.
  Lemma sens_set_neighbours (b b2 : Boundary T) : neighbours_ok b -> sens_set b b2 -> neighbours_ok b2.
  Proof.
    intros Hn (_ & _ & L & K) k p Ep. destruct (lookup_lt_is_Some_2 (bd_points b) k) as [p0 E0]; [rewrite <- L; eauto using lookup_lt_Some|].
    rewrite (K k p0 p E0 Ep). cbn. rewrite L. exact (Hn k p0 E0).
  Qed.
  Lemma normals_neighbours (b b2 : Boundary T) : neighbours_ok b -> same_but_normals b b2 -> neighbours_ok b2.
  Proof.
    intros Hn (_ & _ & L & K) k p Ep. destruct (lookup_lt_is_Some_2 (bd_points b) k) as [p0 E0]; [rewrite <- L; eauto using lookup_lt_Some|].
    rewrite (K k p0 p E0 Ep). cbn. rewrite L. exact (Hn k p0 E0).
  Qed.
  Theorem ito_discretised W H (s s' : LevelSet T) tg b b2 delta t : reached W H s -> discretise s tg = Ok (s', b) ->
    sens_set b b2 -> has_sens b2 ->
    exists b3 b4, computeNormalVectors s' b2 = Ok b3 /\ same_but_normals b2 b3 /\ neighbours_ok b3 /\
      itoCorrection_ls delta b2 s' t = Ok b4 /\
      if (t =? n0)%num then b4 = b2 else
        bd_segs b4 = bd_segs b2 /\ bd_length b4 = bd_length b2 /\ length (bd_points b4) = length (bd_points b2) /\
        forall k p3 p4, bd_points b3 !! k = Some p3 -> bd_points b4 !! k = Some p4 -> corrected delta t b3 p3 p4.
  Proof.
    intros Hr E Hs Hh. destruct (reached_sound _ _ _ (discretise_reached _ _ _ _ _ _ Hr E)) as [Ho Hb _ _].
    destruct (links_api W H s s' tg b (ok_topo _ _ _ (so_ok _ _ _ (reached_sound _ _ _ Hr))) E) as (_ & _ & _ & L).
    pose proof (discretised_neighbours W H s s' tg b Hr E) as Nb. pose proof (sens_set_neighbours _ _ Nb Hs) as Nb2.
    assert (X : exists b3, computeNormalVectors s' b2 = Ok b3 /\ same_but_normals b2 b3).
    { assert (Y : wp False False (computeNormalVectors s' b2) (fun b3 => same_but_normals b2 b3)).
      { eapply wp_impl; [apply (normals_returns W H)|].
        - exact (ok_topo _ _ _ Ho).
        - exact (ok_sd _ _ _ Ho).
        - exact (bs_nb _ _ _ Hb).
        - exact (bs_band _ _ _ Hb).
        - intros i n En. apply (L i n En).
        - intros i k. unfold points_at. destruct (m_nodes (ls_mesh s') !! i) as [n|] eqn:En; [|intros X; inversion X].
          destruct Hs as (_ & _ & -> & _). apply (L i n En).
        - cbn beta. intros b3 Y. apply Y. }
      apply wp_total in Y. exact Y. }
    destruct X as (b3 & E3 & S3). exists b3. pose proof (normals_neighbours _ _ Nb2 S3) as Nb3.
    assert (Hh3 : has_sens b3).
    { destruct S3 as (_ & _ & L3 & K3). intros k p Ep. destruct (lookup_lt_is_Some_2 (bd_points b2) k) as [p0 E0]; [rewrite <- L3; eauto using lookup_lt_Some|].
      rewrite (K3 k p0 p E0 Ep). cbn. exact (Hh k p0 E0). }
    destruct (ito_returns delta b3 t Nb3 Hh3) as (b4 & E4).
    unfold itoCorrection_ls. rewrite E3. cbn [obind]. rewrite E4. destruct (t =? n0)%num eqn:Et.
    - exists b2. auto 10.
    - exists b4. split; [reflexivity|]. split; [exact S3|]. split; [exact Nb3|]. split; [reflexivity|]. destruct (ito_frame delta b3 b4 t E4 Et) as (A & B & C & D).
      destruct S3 as (S1 & S2 & S4 & _). rewrite A, B, C. auto.
  Qed.
End After.

Lemma square_case p : let g q := cx (bp_coord q) ^ 2 + cy (bp_coord q) ^ 2 in forall t,
  g (at_coord (vadd (bp_coord p) (scale t (bp_normal p))) p) =
  (cx (bp_coord p) ^ 2 + cy (bp_coord p) ^ 2) + 2 * dot (bp_coord p) (bp_normal p) * t + (cx (bp_normal p) ^ 2 + cy (bp_normal p) ^ 2) * t ^ 2 + 0 * t ^ 3.
Proof. cbn. unfold dot. intros. ring. Qed.

Lemma ito_R delta (b b' : Boundary R) t : neighbours_ok b -> itoCorrection delta b t = Ok b' ->
  forall k p p', bd_points b !! k = Some p -> bd_points b' !! k = Some p' -> t <> 0 ->
  exists s0 rest, bp_sens p = s0 :: rest /\ p' = with_sens ((s0 - t * curvature delta b p / (2 * bp_length p)) :: rest) p.
Proof.
  intros Hn E k p p' Ep Ep' Ht. destruct (ito_frame delta b b' t E) as (_ & _ & _ & K).
  - cbn [neqb NumR]. apply Reqb_false. exact Ht.
  - exact (corrected_R delta t b k p p' Hn Ep (K k p p' Ep Ep')).
Qed.

Lemma ito_only_first {T} {NT : Num T} delta (b b' : Boundary T) t : itoCorrection delta b t = Ok b' ->
  bd_segs b' = bd_segs b /\ bd_length b' = bd_length b /\ length (bd_points b') = length (bd_points b) /\
  forall k p p', bd_points b !! k = Some p -> bd_points b' !! k = Some p' ->
    exists l, p' = with_sens l p /\ length l = length (bp_sens p) /\ tail l = tail (bp_sens p).
Proof.
  intros E. destruct (t =? n0)%num eqn:Et.
  - unfold itoCorrection in E. rewrite Et in E. injection E as <-. split; [reflexivity|]. split; [reflexivity|]. split; [reflexivity|].
    intros k p p' Ep Ep'. exists (bp_sens p). split; [|auto]. transitivity p; [congruence|destruct p; reflexivity].
  - destruct (ito_frame delta b b' t E Et) as (A & B & C & K). split; [exact A|]. split; [exact B|]. split; [exact C|].
    intros k p p' Ep Ep'. destruct (K k p p' Ep Ep') as (L1 & L2 & s0 & rest & _ & _ & Es & ->). eexists. split; [reflexivity|]. rewrite Es. auto.
Qed.

Lemma ito_both {T} {NT : Num T} {NI : NumInt T} W H (s s' : LevelSet T) tg b b2 delta t : reached W H s -> discretise s tg = Ok (s', b) ->
  sens_set b b2 -> has_sens b2 ->
  neighbours_ok b2 /\ (exists b', itoCorrection delta b2 t = Ok b') /\
  ((t =? n0)%num = false -> exists b3 b4, computeNormalVectors s' b2 = Ok b3 /\ same_but_normals b2 b3 /\ neighbours_ok b3 /\
     itoCorrection delta b3 t = Ok b4 /\ itoCorrection_ls delta b2 s' t = Ok b4).
Proof.
  intros Hr E Hs Hh. pose proof (sens_set_neighbours _ _ (discretised_neighbours W H s s' tg b Hr E) Hs) as N2. split; [exact N2|].
  split; [exact (ito_returns delta b2 t N2 Hh)|]. intros Ht.
  destruct (ito_discretised W H s s' tg b b2 delta t Hr E Hs Hh) as (b3 & b4 & E3 & S3 & N3 & E4 & _). exists b3, b4.
  split; [exact E3|]. split; [exact S3|]. split; [exact N3|]. split; [|exact E4].
  unfold itoCorrection_ls in E4. rewrite Ht, E3 in E4. exact E4.
Qed.
