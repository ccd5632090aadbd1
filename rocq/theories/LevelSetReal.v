(** * LevelSetReal: level set facts in exact arithmetic (C23, C25-C27, C29). *)

From Verif Require Import MeshModel MeshSpec MeshProofs MeshTopo FmmModel FmmSpec FmmFacts LevelSetModel LevelSetSpec LevelSetSpecR
  LevelSetBand LevelSetOps LevelSetInit LevelSetGrad LevelSetCalls LevelSetHist NumInt NumR FmmReal.
From Coq Require Import Reals Lra Psatz Permutation.
Local Open Scope R_scope.

Lemma INR_1 : INR 1 = 1. Proof. reflexivity. Qed.
Lemma INR_0 : INR 0 = 0. Proof. reflexivity. Qed.

(** ** WENO *)

Lemma weno_convex v1 v2 v3 v4 v5 : exists w1 w2 w3, 0 < w1 /\ 0 < w2 /\ 0 < w3 /\ w1 + w2 + w3 = 1 /\
  gradHJWENO v1 v2 v3 v4 v5 = w1 * eno1 v1 v2 v3 + w2 * eno2 v2 v3 v4 + w3 * eno3 v3 v4 v5.
Proof.
  unfold gradHJWENO. rewrite !nlit_R. cbn [nadd nsub nmul ndiv nofZ NumR].
  match goal with |- context [1 / 10 / ((?s1 + _) * _)] => set (S1 := s1) end.
  match goal with |- context [6 / 10 / ((?s1 + _) * _)] => set (S2 := s1) end.
  match goal with |- context [3 / 10 / ((?s1 + _) * _)] => set (S3 := s1) end.
  assert (Hq : forall a b, 0 <= 13 / 12 * a * a + 1 / 4 * b * b).
  { intros a b. pose proof (Rle_0_sqr a). pose proof (Rle_0_sqr b). unfold Rsqr in *. lra. }
  assert (H1 : 0 <= S1) by apply Hq. assert (H2 : 0 <= S2) by apply Hq. assert (H3 : 0 <= S3) by apply Hq.
  clearbody S1 S2 S3.
  assert (HA : forall c S, 0 < c -> 0 <= S -> 0 < c / ((S + 1 / 1000000) * (S + 1 / 1000000))).
  { intros c S Hc HS. apply Rdiv_lt_0_compat; [exact Hc|]. nra. }
  pose proof (HA (1 / 10) S1 ltac:(lra) H1) as A1. pose proof (HA (6 / 10) S2 ltac:(lra) H2) as A2.
  pose proof (HA (3 / 10) S3 ltac:(lra) H3) as A3. clear HA.
  set (a1 := 1 / 10 / _) in *. set (a2 := 6 / 10 / _) in *. set (a3 := 3 / 10 / _) in *. clearbody a1 a2 a3.
  exists (a1 / (a1 + a2 + a3)), (a2 / (a1 + a2 + a3)), (a3 / (a1 + a2 + a3)).
  repeat (split; [apply Rdiv_lt_0_compat; lra|]). split; [field; lra|]. unfold eno1, eno2, eno3. field. lra.
Qed.

Lemma weno_const v : gradHJWENO v v v v v = v.
Proof.
  destruct (weno_convex v v v v v) as (w1 & w2 & w3 & _ & _ & _ & Hw & ->). unfold eno1, eno2, eno3.
  replace w3 with (1 - w1 - w2) by lra. field.
Qed.
Lemma weno_range v1 v2 v3 v4 v5 lo hi : lo <= eno1 v1 v2 v3 <= hi -> lo <= eno2 v2 v3 v4 <= hi -> lo <= eno3 v3 v4 v5 <= hi ->
  lo <= gradHJWENO v1 v2 v3 v4 v5 <= hi.
Proof.
  intros [A1 B1] [A2 B2] [A3 B3]. destruct (weno_convex v1 v2 v3 v4 v5) as (w1 & w2 & w3 & P1 & P2 & P3 & Hw & ->).
  set (e1 := eno1 _ _ _) in *. set (e2 := eno2 _ _ _) in *. set (e3 := eno3 _ _ _) in *.
  assert (w3 = 1 - w1 - w2) as -> by lra. split; nra.
Qed.
Lemma weno_linear a b : gradHJWENO (a + b) (a + 2 * b) (a + 3 * b) (a + 4 * b) (a + 5 * b) = a + 7 / 2 * b.
Proof.
  destruct (weno_convex (a + b) (a + 2 * b) (a + 3 * b) (a + 4 * b) (a + 5 * b)) as (w1 & w2 & w3 & _ & _ & _ & Hw & ->).
  unfold eno1, eno2, eno3. replace w3 with (1 - w1 - w2) by lra. field.
Qed.

(** ** The gradient of an affine field *)

Lemma clamped_affine (h : nat -> R) n z a : (1 <= n)%nat -> (forall k, (k < n)%nat -> h (k + 1)%nat - h k = a) -> clamped_diff h n z = a.
Proof. intros Hn Hh. unfold clamped_diff. cbn [nsub NumR]. apply Hh. lia. Qed.

Lemma godunov_affine s a b : s = 1 \/ s = -1 -> godunov s a a b b = R_sqrt.sqrt (a * a + b * b).
Proof.
  intros Hs. unfold godunov. rewrite !n0_R. cbn [nadd nmul nltb nsqrt NumR].
  set (ra := s * a). set (rb := s * b).
  assert (Ea : ra * ra = a * a) by (unfold ra; destruct Hs; subst; ring).
  assert (Eb : rb * rb = b * b) by (unfold rb; destruct Hs; subst; ring).
  clearbody ra rb. rewrite <- Ea, <- Eb.
  destruct (Rltb_spec ra 0), (Rltb_spec 0 ra); try lra; destruct (Rltb_spec rb 0), (Rltb_spec 0 rb); try lra; f_equal;
    try (assert (ra = 0) by lra; subst ra); try (assert (rb = 0) by lra; subst rb); ring.
Qed.

Lemma affine_gradient W H (h : nat -> nat -> R) a b c x y v g :
  (4 <= W)%nat -> (4 <= H)%nat -> (x <= W)%nat -> (y <= H)%nat ->
  (forall x y, (x <= W)%nat -> (y <= H)%nat -> h x y = affine a b c x y) ->
  ((0 < x < W)%nat \/ (0 < y < H)%nat \/ / 1000000 <= Rabs a \/ / 1000000 <= Rabs b) ->
  gradient_spec h W H x y v g -> g = R_sqrt.sqrt (a * a + b * b).
Proof.
  intros HW HH Hx Hy Hh Hc [[HF _]|[_ ->]].
  - exfalso. destruct HF as (F1 & F2 & F3 & F4). rewrite nlit_R in F3, F4. cbn [nltb nabs nsub NumR] in F3, F4.
    apply Rltb_true in F3. apply Rltb_true in F4.
    assert (Ea : Rabs (h (if (x =? 0)%nat then 1%nat else (W - 1)%nat) y - h x y) = Rabs a).
    { destruct (Nat.eqb_spec x 0) as [->|Hne].
      - rewrite !Hh by lia. unfold affine. rewrite INR_1, INR_0. f_equal. ring.
      - destruct F1 as [F1| ->]; [contradiction|]. rewrite !Hh by lia. unfold affine. rewrite minus_INR by lia. rewrite INR_1.
        rewrite <- Rabs_Ropp. f_equal. ring. }
    assert (Eb : Rabs (h x (if (y =? 0)%nat then 1%nat else (H - 1)%nat) - h x y) = Rabs b).
    { destruct (Nat.eqb_spec y 0) as [->|Hne].
      - rewrite !Hh by lia. unfold affine. rewrite INR_1, INR_0. f_equal. ring.
      - destruct F2 as [F2| ->]; [contradiction|]. rewrite !Hh by lia. unfold affine. rewrite minus_INR by lia. rewrite INR_1.
        rewrite <- Rabs_Ropp. f_equal. ring. }
    rewrite Ea in F3. rewrite Eb in F4. destruct Hc as [Hc|[Hc|[Hc|Hc]]]; [lia|lia|lra|lra].
  - cbv zeta. unfold upwind_forward, upwind_backward. cbv zeta.
    assert (Dx : forall z, clamped_diff (fun k => h k y) W z = a).
    { intros z. apply clamped_affine; [lia|]. intros k Hk. rewrite !Hh by lia. unfold affine. rewrite plus_INR, INR_1. ring. }
    assert (Dy : forall z, clamped_diff (fun k => h x k) H z = b).
    { intros z. apply clamped_affine; [lia|]. intros k Hk. rewrite !Hh by lia. unfold affine. rewrite plus_INR, INR_1. ring. }
    rewrite !Dx, !Dy, !weno_const. apply godunov_affine.
    destruct (v <? n0)%num; [right|left]; reflexivity.
Qed.

Lemma gradient_nonneg_R h W H x y (v g : R) : gradient_spec h W H x y v g -> 0 <= g.
Proof.
  intros [[_ ->]|[_ ->]].
  - cbn [nmul nabs nsqrt NumR]. apply Rmult_le_pos; [apply Rabs_pos|apply sqrt_pos].
  - unfold godunov. cbn [nsqrt NumR]. apply sqrt_pos.
Qed.

(** ** Distance to a segment *)

Lemma dist2_nonneg p q : 0 <= euclid2 p q.
Proof. unfold euclid2. pose proof (Rle_0_sqr (cx p - cx q)). pose proof (Rle_0_sqr (cy p - cy q)). unfold Rsqr in *. lra. Qed.
Lemma dist_le p q r s : euclid2 p q <= euclid2 r s -> euclid p q <= euclid r s.
Proof. intros Hd. apply sqrt_le_1_alt, Hd. Qed.

Lemma ptl_eq v1 v2 p : pointToLineDistance v1 v2 p =
  if Rlt_dec (euclid2 v2 v1) (/ 1000000) then euclid p v1
  else euclid (along v1 v2 (Rmax 0 (Rmin 1 (((cx p - cx v1) * (cx v2 - cx v1) + (cy p - cy v1) * (cy v2 - cy v1)) / euclid2 v2 v1)))) p.
Proof.
  unfold pointToLineDistance. rewrite n0_R, n1_R, nlit_R, nmin_R, nmax_R. cbn [nadd nsub nmul ndiv nltb nsqrt NumR].
  unfold euclid, euclid2, along. cbn [cx cy].
  replace (1 / 1000000) with (/ 1000000) by lra.
  unfold Rltb. destruct (Rlt_dec _ _); reflexivity.
Qed.

(** Projection: the quadratic t -> |v1 + t d - p|^2 is minimal at the clamped projection. *)
Lemma clamp_min A B C t : 0 < A -> 0 <= t <= 1 ->
  let t0 := Rmax 0 (Rmin 1 (B / A)) in A * t0 * t0 - 2 * B * t0 + C <= A * t * t - 2 * B * t + C.
Proof.
  intros HA [Ht0 Ht1] t0. set (u := B / A) in *. assert (EB : B = u * A) by (unfold u; field; lra). rewrite EB. clearbody u.
  assert (HT : (t0 = u /\ 0 <= u <= 1) \/ (t0 = 0 /\ u <= 0) \/ (t0 = 1 /\ 1 <= u)).
  { unfold t0, Rmax, Rmin. destruct (Rle_dec 1 u); destruct (Rle_dec 0 _); try (destruct (Rle_dec 0 u)); lra. }
  destruct HT as [[-> HT]|[[-> HT]|[-> HT]]].
  - assert (0 <= A * ((t - u) * (t - u))) by (apply Rmult_le_pos; [lra|apply Rle_0_sqr]). lra.
  - assert (0 <= A * (t * (t - 2 * u))) by (apply Rmult_le_pos; [lra|apply Rmult_le_pos; lra]). lra.
  - assert (0 <= A * ((1 - t) * (2 * u - 1 - t))) by (apply Rmult_le_pos; [lra|apply Rmult_le_pos; lra]). lra.
Qed.

Lemma ptl_long v1 v2 p : / 1000000 <= euclid2 v2 v1 ->
  (exists q, on_segment v1 v2 q /\ pointToLineDistance v1 v2 p = euclid p q) /\
  (forall q, on_segment v1 v2 q -> pointToLineDistance v1 v2 p <= euclid p q).
Proof.
  intros Hl. rewrite ptl_eq. destruct (Rlt_dec _ _) as [Hlt|_]; [lra|].
  set (B := (cx p - cx v1) * (cx v2 - cx v1) + (cy p - cy v1) * (cy v2 - cy v1)). set (A := euclid2 v2 v1) in *.
  set (t0 := Rmax 0 (Rmin 1 (B / A))).
  assert (Ht0 : 0 <= t0 <= 1). { unfold t0, Rmax, Rmin. destruct (Rle_dec 1 (B / A)); destruct (Rle_dec 0 _); lra. }
  assert (Esym : forall t, euclid (along v1 v2 t) p = euclid p (along v1 v2 t)).
  { intros t. unfold euclid, euclid2. f_equal. ring. }
  split.
  - exists (along v1 v2 t0). split; [exists t0; auto|]. apply Esym.
  - intros q (t & Ht & ->). rewrite Esym. apply dist_le.
    assert (HQ : forall u, euclid2 p (along v1 v2 u) = A * u * u - 2 * B * u + euclid2 p v1).
    { intros u. unfold A, B, euclid2, along. cbn [cx cy]. ring. }
    rewrite !HQ. apply clamp_min; [lra|exact Ht].
Qed.
Lemma ptl_point v1 v2 p : euclid2 v2 v1 = 0 -> pointToLineDistance v1 v2 p = euclid p v1 /\ forall q, on_segment v1 v2 q -> q = v1.
Proof.
  intros E. split.
  - rewrite ptl_eq. destruct (Rlt_dec _ _) as [_|Hn]; [reflexivity|]. exfalso. apply Hn. lra.
  - intros q (t & _ & ->). unfold euclid2 in E. pose proof (Rle_0_sqr (cx v2 - cx v1)). pose proof (Rle_0_sqr (cy v2 - cy v1)). unfold Rsqr in *.
    unfold along. assert (cx v2 - cx v1 = 0) as -> by (apply Rsqr_0_uniq; unfold Rsqr; lra).
    assert (cy v2 - cy v1 = 0) as -> by (apply Rsqr_0_uniq; unfold Rsqr; lra).
    destruct v1 as [a b]. cbn [cx cy]. f_equal; ring.
Qed.
(** Segments shorter than 1e-3 are treated as their first end point: the error is below 1e-3. *)
Lemma dist_triangle a b c : euclid a c <= euclid a b + euclid b c.
Proof.
  unfold euclid. set (x := cx a - cx b). set (y := cy a - cy b). set (u := cx b - cx c). set (v := cy b - cy c).
  replace (euclid2 a b) with (x * x + y * y) by (unfold euclid2, x, y; ring).
  replace (euclid2 b c) with (u * u + v * v) by (unfold euclid2, u, v; ring).
  replace (euclid2 a c) with ((x + u) * (x + u) + (y + v) * (y + v)) by (unfold euclid2, x, y, u, v; ring).
  clearbody x y u v.
  assert (P1 : 0 <= x * x + y * y) by (pose proof (Rle_0_sqr x); pose proof (Rle_0_sqr y); unfold Rsqr in *; lra).
  assert (P2 : 0 <= u * u + v * v) by (pose proof (Rle_0_sqr u); pose proof (Rle_0_sqr v); unfold Rsqr in *; lra).
  set (p := R_sqrt.sqrt (x * x + y * y)). set (q := R_sqrt.sqrt (u * u + v * v)).
  assert (Hp : 0 <= p) by apply sqrt_pos. assert (Hq : 0 <= q) by apply sqrt_pos.
  assert (Ep : p * p = x * x + y * y) by (apply sqrt_sqrt; exact P1).
  assert (Eq : q * q = u * u + v * v) by (apply sqrt_sqrt; exact P2).
  apply Rsqr_incr_0_var; [|lra]. unfold Rsqr.
  rewrite sqrt_sqrt by (pose proof (Rle_0_sqr (x + u)); pose proof (Rle_0_sqr (y + v)); unfold Rsqr in *; lra).
  assert (HC : x * u + y * v <= p * q).
  { apply Rsqr_incr_0_var; [|apply Rmult_le_pos; assumption]. unfold Rsqr.
    replace (p * q * (p * q)) with ((x * x + y * y) * (u * u + v * v)) by (rewrite <- Ep, <- Eq; ring).
    pose proof (Rle_0_sqr (x * v - y * u)). unfold Rsqr in *. lra. }
  nra.
Qed.
Lemma ptl_short v1 v2 p : euclid2 v2 v1 < / 1000000 ->
  pointToLineDistance v1 v2 p = euclid p v1 /\ on_segment v1 v2 v1 /\
  (forall q, on_segment v1 v2 q -> pointToLineDistance v1 v2 p <= euclid p q + / 1000).
Proof.
  intros Hl. assert (E : pointToLineDistance v1 v2 p = euclid p v1).
  { rewrite ptl_eq. destruct (Rlt_dec _ _) as [_|Hn]; [reflexivity|lra]. }
  split; [exact E|]. split.
  { exists 0. split; [lra|]. unfold along. destruct v1 as [a b]; cbn [cx cy]. f_equal; ring. }
  intros q (t & Ht & ->). rewrite E.
  eapply Rle_trans; [apply (dist_triangle p (along v1 v2 t) v1)|]. apply Rplus_le_compat_l.
  unfold euclid. rewrite <- (sqrt_square (/ 1000)) by lra. apply sqrt_le_1_alt.
  replace (euclid2 (along v1 v2 t) v1) with (t * t * euclid2 v2 v1) by (unfold euclid2, along; cbn [cx cy]; ring).
  pose proof (dist2_nonneg v2 v1). assert (0 <= t * t <= 1) by nra.
  assert (t * t * euclid2 v2 v1 <= 1 * euclid2 v2 v1) by (apply Rmult_le_compat_r; lra). lra.
Qed.

(** ** The initial field from holes *)
Lemma smaller_R d s : smaller d s = Rmin d s.
Proof. unfold smaller. cbn [nltb NumR]. destruct (Rltb_spec d s); unfold Rmin; destruct (Rle_dec d s); lra. Qed.
Lemma fold_min {A} (f : A -> R) l : forall s,
  let r := fold_left (fun s a => smaller (f a) s) l s in
  r <= s /\ (forall a, a ∈ l -> r <= f a) /\ (r = s \/ exists a, a ∈ l /\ r = f a).
Proof.
  induction l as [|a l IH]; intros s; cbn [fold_left].
  - split; [lra|]. split; [intros a Ha; apply elem_of_nil in Ha; contradiction|left; reflexivity].
  - destruct (IH (smaller (f a) s)) as (I1 & I2 & I3). rewrite smaller_R in *. pose proof (Rmin_l (f a) s). pose proof (Rmin_r (f a) s).
    split; [lra|]. split.
    + intros b Hb. apply elem_of_cons in Hb as [->|Hb]; [lra|apply I2, Hb].
    + destruct I3 as [E|(b & Hb & E)]; [|right; exists b; split; [apply elem_of_cons; auto|exact E]].
      rewrite E. unfold Rmin. destruct (Rle_dec (f a) s); [right; exists a; split; [apply elem_of_cons; auto|reflexivity]|left; reflexivity].
Qed.

Lemma fold_min_same {A B} (f : A -> R) (g : B -> R) l l' s :
  (forall a, a ∈ l -> exists b, b ∈ l' /\ g b = f a) -> (forall b, b ∈ l' -> exists a, a ∈ l /\ f a = g b) ->
  fold_left (fun s a => smaller (f a) s) l s = fold_left (fun s a => smaller (g a) s) l' s.
Proof.
  intros H1 H2. destruct (fold_min f l s) as (I1 & I2 & I3). destruct (fold_min g l' s) as (J1 & J2 & J3).
  set (r := fold_left _ l s) in *. set (r' := fold_left _ l' s) in *. cbv zeta in *.
  apply Rle_antisym.
  - destruct J3 as [->|(b & Hb & ->)]; [exact I1|]. destruct (H2 b Hb) as (a & Ha & <-). apply I2, Ha.
  - destruct I3 as [->|(a & Ha & ->)]; [exact J1|]. destruct (H1 a Ha) as (b & Hb & <-). apply J2, Hb.
Qed.

Lemma INR_min a b : INR (Nat.min a b) = Rmin (INR a) (INR b).
Proof.
  destruct (Nat.le_ge_cases a b) as [L|L].
  - rewrite Nat.min_l by exact L. rewrite Rmin_left; [reflexivity|apply le_INR, L].
  - rewrite Nat.min_r by exact L. rewrite Rmin_right; [reflexivity|apply le_INR, L].
Qed.
Lemma edge_distance_R W H x y : (x <= W)%nat -> (y <= H)%nat ->
  nofnat (T := R) (edge_distance W H (node_id W x y)) = border_dist W H x y.
Proof.
  intros Hx Hy. rewrite nofnat_R. unfold edge_distance, border_dist. rewrite node_id_mod, node_id_div by exact Hx.
  rewrite !INR_min, !minus_INR by assumption. reflexivity.
Qed.
Lemma border_dist_nonneg W H x y : (x <= W)%nat -> (y <= H)%nat -> 0 <= border_dist W H x y.
Proof.
  intros Hx Hy. unfold border_dist. apply le_INR in Hx. apply le_INR in Hy. pose proof (pos_INR x). pose proof (pos_INR y).
  repeat apply Rmin_glb; lra.
Qed.


Lemma hole_distance_R h x y : hole_distance h (mkCoord (nofnat x) (nofnat y)) = hole_dist h x y.
Proof. unfold hole_distance, hole_dist, distance, euclid, euclid2. rewrite !nofnat_R. reflexivity. Qed.

Lemma holes_value_R W H holes x y : (x <= W)%nat -> (y <= H)%nat ->
  holes_value W H holes (node_id W x y) =
  fold_left (fun s h => smaller (hole_dist h x y) s) holes (border_dist W H x y).
Proof.
  intros Hx Hy. unfold holes_value. rewrite edge_distance_R by assumption. rewrite node_id_mod, node_id_div by exact Hx.
  apply fold_min_same; intros h Hh; exists h; rewrite hole_distance_R; auto.
Qed.

(** ** At the interface *)
Lemma new_holes_R W H holes ml bw fx : fits_ls W H bw -> valid_params ml bw ->
  exists s, ls_new_holes W H holes ml bw fx = Ok s /\
    forall x y, (x <= W)%nat -> (y <= H)%nat -> exists d, ls_sd s !! node_id W x y = Some d /\
      d <= border_dist W H x y /\ (forall h, h ∈ holes -> d <= hole_dist h x y) /\
      (d = border_dist W H x y \/ exists h, h ∈ holes /\ d = hole_dist h x y) /\
      (d < 0 <-> exists h, h ∈ holes /\ euclid (h_coord h) (mkCoord (INR x) (INR y)) < h_r h).
Proof.
  intros Hf HV. pose proof (fits_mesh _ _ _ Hf) as Hm.
  assert (Ht : topo W H (mesh_spec W H)) by (apply topo_new; [exact Hm|]; apply mesh_new_eq; apply Hm).
  destruct (new_ok (fun m => init_holes m holes) W H ml bw fx (tab (node_count W H) (holes_value W H holes)) Hf HV) as (s & E & _ & _ & Es & _).
  { apply init_holes_spec; [exact Ht|apply replicate_length]. }
  { apply tab_length. }
  exists s. split; [exact E|]. intros x y Hx Hy. rewrite Es, tab_lookup by (apply node_id_lt; assumption).
  rewrite holes_value_R by assumption. eexists. split; [reflexivity|].
  destruct (fold_min (fun h => hole_dist h x y) holes (border_dist W H x y)) as (I1 & I2 & I3).
  set (r := fold_left _ _ _) in *. split; [exact I1|]. split; [exact I2|]. split; [exact I3|].
  pose proof (border_dist_nonneg W H x y Hx Hy). split.
  - intros Hr. destruct I3 as [E3|(h & Hh & E3)]; [lra|]. exists h. split; [exact Hh|]. unfold hole_dist in E3. lra.
  - intros (h & Hh & Hlt). specialize (I2 h Hh). unfold hole_dist in I2. lra.
Qed.

Lemma new_holes_perm (W H : nat) (holes holes' : list (Hole R)) ml bw fx : fits_ls W H bw -> (forall h, h ∈ holes <-> h ∈ holes') ->
  ls_new_holes W H holes ml bw fx = ls_new_holes W H holes' ml bw fx.
Proof.
  intros Hf Heq. pose proof (fits_mesh _ _ _ Hf) as Hm.
  assert (Ht : topo W H (mesh_spec (T := R) W H)) by (apply topo_new; [exact Hm|]; apply mesh_new_eq; apply Hm).
  assert (HV : valid_params ml bw \/ ~ valid_params ml bw).
  { unfold valid_params. destruct (n0 <? ml)%num, (ml <? n1)%num; destruct (Nat.lt_ge_cases 2 bw); intuition (try lia; try discriminate). }
  destruct HV as [HV|HV]; [|unfold ls_new_holes; rewrite !(new_invalid _ W H ml bw fx Hf HV); reflexivity].
  unfold ls_new_holes, ls_new.
  destruct (proj1 (alloc_spec W H ml bw fx false Hf) HV) as (s & -> & Hok & Em & _ & _ & _ & E4 & _). cbn [obind].
  unfold init_sd. rewrite Em, E4, !(init_holes_spec W H) by (try exact Ht; apply replicate_length). cbn [obind].
  replace (tab (node_count W H) (holes_value W H holes')) with (tab (node_count W H) (holes_value W H holes)); [reflexivity|].
  apply tab_ext. intros i Hi. unfold holes_value. apply fold_min_same; intros h Hh; exists h; split; auto; apply Heq, Hh.
Qed.

Lemma affine_gradients W H (s : LevelSet R) a b c : ls_ok W H s -> band_safe W H s -> (4 <= W)%nat -> (4 <= H)%nat ->
  (forall x y, (x <= W)%nat -> (y <= H)%nat -> ls_sd s !! node_id W x y = Some (affine a b c x y)) ->
  exists g, computeGradients s = Ok (set_grad g s) /\
    forall x y, (x <= W)%nat -> (y <= H)%nat ->
      (node_id W x y ∉ band_list s -> g !! node_id W x y = Some 0) /\
      (node_id W x y ∈ band_list s ->
       (0 < x < W)%nat \/ (0 < y < H)%nat \/ / 1000000 <= Rabs a \/ / 1000000 <= Rabs b ->
       g !! node_id W x y = Some (R_sqrt.sqrt (a * a + b * b))).
Proof.
  intros Hs Hb HW HH Haff. destruct (gradients_spec W H s Hs Hb (conj HW HH)) as (g & E & _ & L & G1 & G2).
  exists g. split; [exact E|]. intros x y Hx Hy. split.
  - intros Hin. apply G1; [apply node_id_lt; assumption|exact Hin].
  - intros Hin Hc. destruct (lookup_lt_is_Some_2 (ls_vel s) (node_id W x y)) as [v Hv].
    { rewrite (ok_vel _ _ _ Hs). apply node_id_lt; assumption. }
    destruct (G2 x y v Hx Hy Hin Hv) as (r & Hr & Sr). rewrite Hr. f_equal.
    eapply (affine_gradient W H (field W (ls_sd s)) a b c x y v r); eauto.
    intros x' y' Hx' Hy'. unfold field. apply nth_lookup_Some. apply Haff; assumption.
Qed.

Lemma ptl_exact v1 v2 p : (/ 1000000 <= euclid2 v2 v1)%R \/ v1 = v2 ->
  (exists q, on_segment v1 v2 q /\ pointToLineDistance v1 v2 p = euclid p q) /\
  (forall q, on_segment v1 v2 q -> (pointToLineDistance v1 v2 p <= euclid p q)%R).
Proof.
  intros [L| <-]; [apply ptl_long, L|].
  assert (E : euclid2 v1 v1 = 0) by (unfold euclid2; ring).
  destruct (ptl_point v1 v1 p E) as [A B]. split.
  - exists v1. split; [|exact A]. exists 0. split; [lra|]. unfold along. destruct v1 as [a b]. cbn. f_equal; ring.
  - intros q Hq. rewrite (B q Hq), A. lra.
Qed.

Lemma update_border_R (W H : nat) (s s' : LevelSet R) (dt : R) : reached W H s -> update s dt = Ok (s', false) ->
  forall i n r, i ∈ band_list s -> m_nodes (ls_mesh s) !! i = Some n -> nd_domain n = true ->
    ls_sd s' !! i = Some r -> (r <= 0)%R.
Proof.
  intros Hr E i n r Hi En Hd Er. pose proof (update_frame W H s dt s' Hr E) as M.
  destruct (mf_band _ _ _ M i Hi) as (r' & Er' & Hm). assert (r' = r) by congruence. subst r'.
  assert (Z : (n0 <? n0)%num = false) by (apply Rltb_false; lra).
  pose proof (moved_border W H s dt i n r Hr Z Hm En Hd) as F. apply Rltb_false in F. change (@n0 R _) with 0 in F. lra.
Qed.

Lemma affine_reached (W H : nat) (s : LevelSet R) (a b c : R) : reached W H s -> (4 <= W)%nat -> (4 <= H)%nat ->
  (forall x y, (x <= W)%nat -> (y <= H)%nat -> ls_sd s !! node_id W x y = Some (affine a b c x y)) ->
  exists g, computeGradients s = Ok (set_grad g s) /\
    forall x y, (x <= W)%nat -> (y <= H)%nat ->
      (node_id W x y ∉ band_list s -> g !! node_id W x y = Some 0%R) /\
      (node_id W x y ∈ band_list s ->
       (0 < x < W)%nat \/ (0 < y < H)%nat \/ (/ 1000000 <= Rabs a)%R \/ (/ 1000000 <= Rabs b)%R ->
       g !! node_id W x y = Some (R_sqrt.sqrt (a * a + b * b))).
Proof.
  intros Hr HW HH. destruct (reached_sound _ _ _ Hr) as [Hs Hb Hm Ha]. exact (affine_gradients W H s a b c Hs Hb HW HH).
Qed.
