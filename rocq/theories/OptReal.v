(** * OptReal: displacements, velocities and multipliers of solve in exact arithmetic. *)

From Coq Require Import Reals Lra.
From Verif Require Import Num NumR LevelSetModel OptModel OptSpec OptFrame.
Open Scope R_scope.

(** ** Sums *)
Definition rsum (f : nat -> R) (n : nat) : R := fold_right Rplus 0 (map f (seq 0 n)).
Lemma fold_app (l l' : list R) : fold_right Rplus 0 (l ++ l') = fold_right Rplus 0 l + fold_right Rplus 0 l'.
Proof. induction l as [|x l IH]; cbn; [lra|]. rewrite IH. lra. Qed.
Lemma rsum_S f n : rsum f (S n) = rsum f n + f n.
Proof. unfold rsum. rewrite seq_S, map_app, fold_app. cbn. lra. Qed.
Lemma rsum_0 f : rsum f 0 = 0.
Proof. reflexivity. Qed.
Lemma rsum_ext f g n : (forall j, (j < n)%nat -> f j = g j) -> rsum f n = rsum g n.
Proof. induction n as [|n IH]; intros E; [reflexivity|]. rewrite !rsum_S, IH, E by auto. reflexivity. Qed.
Lemma rsum_scal a f n : rsum (fun j => a * f j) n = a * rsum f n.
Proof. induction n as [|n IH]; [cbn; unfold rsum; cbn; lra|]. rewrite !rsum_S, IH. lra. Qed.
Lemma rsum_shift f n : rsum f (S n) = f 0%nat + rsum (fun j => f (S j)) n.
Proof. unfold rsum. cbn [seq map fold_right]. rewrite <- seq_shift, map_map. reflexivity. Qed.
Lemma rsum_zero f n : (forall j, (j < n)%nat -> f j = 0) -> rsum f n = 0.
Proof. induction n as [|n IH]; intros E; [reflexivity|]. rewrite rsum_S, IH, E by auto. lra. Qed.
Lemma dot_rsum a : forall b n, (length a <= n)%nat -> dot a b = rsum (fun j => nth j a 0 * nth j b 0) n.
Proof.
  induction a as [|x a IH]; intros b n Hn.
  - cbn [dot]. symmetry. apply rsum_zero. intros j _. destruct j; cbn; lra.
  - cbn in Hn. destruct n as [|n]; [lia|]. rewrite rsum_shift. destruct b as [|y b]; cbn [dot nth].
    + rewrite rsum_zero; [lra|]. intros j _. destruct j; lra.
    + f_equal. apply IH. lia.
Qed.
Lemma nth_lookup' (l : list R) i x : l !! i = Some x -> nth i l 0 = x.
Proof. intros E. apply nth_lookup_Some with (d := 0) in E. exact E. Qed.

(** ** One displacement *)
Definition lin (o : Opt R) (la : list R) (p : BoundaryPoint R) : R :=
  rsum (fun j => nth j (op_scale o) 0 * nth j la 0 * nth (nth j (op_index o) 0%nat) (bp_sens p) 0) (op_n o + 1).
Definition clamp (p : BoundaryPoint R) (x : R) : R := if bp_domain p then Rmax (bp_neg p) x else x.

Lemma nth_index (l : list nat) i k : l !! i = Some k -> nth i l 0%nat = k.
Proof. intros E. apply nth_lookup_Some with (d := 0%nat) in E. exact E. Qed.

Lemma disp_real o la p old : bp_fixed p = false -> op_index o !! 0%nat = Some 0%nat ->
  post (disp_point o la p old) (fun d => d = clamp p (lin o la p)).
Proof.
  intros Hf Hz. unfold disp_point. rewrite Hf.
  apply post_bind, post_vget; intros c0 Hc. apply post_bind, post_vget; intros l0 Hl. apply post_bind, post_vget; intros s0 Hs.
  apply post_bind.
  set (F := fun j => nth j (op_scale o) 0 * nth j la 0 * nth (nth j (op_index o) 0%nat) (bp_sens p) 0).
  eapply post_impl; [apply (for_from_post_i (fun j d => d = rsum F j))|].
  - intros j d _ ->. apply post_bind, post_vget; intros k Hk. apply post_bind, post_vget; intros c Hc'.
    apply post_bind, post_vget; intros l Hl'. apply post_bind, post_vget; intros s Hs'. apply post_ok. rewrite rsum_S. unfold F at 3.
    rewrite (nth_index _ _ _ Hk), (nth_lookup' _ _ _ Hc'), (nth_lookup' _ _ _ Hl'), (nth_lookup' _ _ _ Hs'). reflexivity.
  - rewrite rsum_S, rsum_0. unfold F. rewrite (nth_index _ _ _ Hz), (nth_lookup' _ _ _ Hc), (nth_lookup' _ _ _ Hl), (nth_lookup' _ _ _ Hs). cbn. lra.
  - intros d ->. apply post_ok. rewrite (Nat.add_comm 1). fold (lin o la p). change (rsum F (op_n o + 1)) with (lin o la p).
    unfold clamp. destruct (bp_domain p); [|reflexivity]. cbn. destruct (Rltb_spec (lin o la p) (bp_neg p)); unfold Rmax;
      destruct (Rle_dec (bp_neg p) (lin o la p)); lra.
Qed.

(** The displacements are those of the multipliers. *)
Definition moved (o0 o : Opt R) (la : list R) : Prop := forall i p, op_points o0 !! i = Some p ->
  op_disp o !! i = Some (if bp_fixed p then 0 else clamp p (lin o la p)).

Lemma displacements_real o0 o la : good o0 o -> post (computeDisplacements la o) (fun o' =>
  good o0 o' /\ o' = set_disp (op_disp o') o /\ moved o0 o' la).
Proof.
  intros G. eapply post_impl; [apply displacements_good, G|]. intros o' (G' & E & D). split; [exact G'|]. split; [exact E|].
  intros i p Hp. destruct (D i p Hp) as (d & Hd & F). rewrite Hd. f_equal. destruct (bp_fixed p) eqn:Hf.
  - exact (disp_fixed _ _ _ _ _ Hf F).
  - apply (disp_real _ _ _ _ Hf) in F; [|apply G]. rewrite F, E. reflexivity.
Qed.

(** ** Rescaling *)
Lemma max_disp_real limit points : forall disp M sc, 0 < limit -> (M = 0 \/ (limit < M /\ sc = Some (limit / M))) ->
  post (ofold (max_disp limit) points (M, sc, disp)) (fun r => let '(M', sc', _) := r in
    M <= M' /\ (M' = 0 \/ (limit < M' /\ sc' = Some (limit / M'))) /\
    (forall i p, points !! i = Some p -> bp_fixed p = false -> exists d, disp !! i = Some d /\ Rabs d <= Rmax limit M') /\ (M' = M \/ exists i p d, points !! i = Some p /\ bp_fixed p = false /\ disp !! i = Some d /\ Rabs d = M')).
Proof.
  induction points as [|p points IH]; intros disp M sc Hl HM; cbn [ofold].
  - apply post_ok. split; [lra|]. split; [exact HM|]. split; [|left; reflexivity]. intros i p Hi. discriminate.
  - apply post_bind. unfold max_disp at 1. destruct disp as [|d disp]; [intros ? E; discriminate|].
    assert (K : forall M1 sc1, (M <= M1 /\ (M1 = 0 \/ (limit < M1 /\ sc1 = Some (limit / M1))) /\ (bp_fixed p = false -> Rabs d <= Rmax limit M1) /\
        (M1 = M \/ bp_fixed p = false /\ Rabs d = M1)) ->
      post (ofold (max_disp limit) points (M1, sc1, disp)) (fun r => let '(M', sc', _) := r in
        M <= M' /\ (M' = 0 \/ (limit < M' /\ sc' = Some (limit / M'))) /\
        (forall i q, (p :: points) !! i = Some q -> bp_fixed q = false -> exists d', (d :: disp) !! i = Some d' /\ Rabs d' <= Rmax limit M') /\
        (M' = M \/ exists i q d', (p :: points) !! i = Some q /\ bp_fixed q = false /\ (d :: disp) !! i = Some d' /\ Rabs d' = M'))).
    { intros M1 sc1 (K1 & K2 & K3 & K4). eapply post_impl; [apply (IH disp M1 sc1 Hl K2)|]. intros [[M' sc'] r] (J1 & J2 & J3 & J4).
      split; [lra|]. split; [exact J2|]. split.
      2: { destruct J4 as [->|(i & q & d' & Q)]; [|right; exists (S i), q, d'; exact Q]. destruct K4 as [->|[K4 K5]]; [left; reflexivity|].
           right. exists 0%nat, p, d. auto. }
      intros [|i] q Hq Hf; cbn in Hq.
      - injection Hq as <-. exists d. split; [reflexivity|]. eapply Rle_trans; [apply K3, Hf|]. apply Rle_max_compat_l, J1.
      - exact (J3 i q Hq Hf). }
    destruct (bp_fixed p) eqn:Hf; [apply post_ok, K; split; [lra|]; split; [exact HM|]; split; [discriminate|left; reflexivity]|].
    cbn [nltb nabs NumR]. destruct (Rltb_spec limit (Rabs d)) as [L1|L1]; [destruct (Rltb_spec M (Rabs d)) as [L2|L2]|]; cbn [andb]; apply post_ok, K.
    + split; [lra|]. split; [right; split; [exact L1|reflexivity]|]. split; [intros _; apply Rmax_r|right; auto].
    + split; [lra|]. split; [exact HM|]. split; [|left; reflexivity]. intros _. eapply Rle_trans; [|apply Rmax_r]. lra.
    + split; [lra|]. split; [exact HM|]. split; [|left; reflexivity]. intros _. eapply Rle_trans; [|apply Rmax_l]. lra.
Qed.

Lemma for_scale (f : nat -> list R -> outcome (list R)) (g : nat -> R -> outcome R) n l (h : nat -> R -> R) : length l = n ->
  (forall i l, f i l = let! x := vget l i in let! y := g i x in vset l i y) -> (forall i x y, g i x = Ok y -> y = h i x) ->
  post (for_ n f l) (fun r => length r = n /\ forall i, (i < n)%nat -> nth i r 0 = h i (nth i l 0)).
Proof.
  intros Hn Hf Hg. eapply post_impl; [apply (for_map_ext f g n l Hn Hf)|]. intros r [L D]. split; [exact L|]. intros i Hi.
  destruct (D i Hi) as (x & y & Hx & Hy & Hr). rewrite (nth_lookup' _ _ _ Hx), (nth_lookup' _ _ _ Hr). apply Hg, Hy.
Qed.

Lemma lin_scale o la la' s p : (forall i, (i < op_n o + 1)%nat -> nth i la' 0 = nth i la 0 * s) -> lin o la' p = lin o la p * s.
Proof. intros E. unfold lin. rewrite Rmult_comm, <- rsum_scal. apply rsum_ext. intros j Hj. rewrite E by exact Hj. lra. Qed.

Lemma abs_le x M : Rabs x <= M -> - M <= x <= M.
Proof. intros E. unfold Rabs in E. destruct (Rcase_abs x); lra. Qed.
Lemma clamp_rescaled limit M x p : 0 < limit -> limit < M -> (bp_domain p = true -> - limit <= bp_neg p <= 0) ->
  Rabs (clamp p x) <= M -> Rabs (clamp p (x * (limit / M))) <= limit.
Proof.
  intros Hl HM Hs Hd. assert (S : 0 < limit / M < 1).
  { split; [apply Rdiv_lt_0_compat; lra|]. apply (Rmult_lt_reg_r M); [lra|]. unfold Rdiv. rewrite Rmult_assoc, Rinv_l by lra. lra. }
  assert (K : M * (limit / M) = limit) by (field; lra). set (s := limit / M) in *. unfold clamp in *.
  assert (Q : forall y, - M <= y <= M -> - limit <= y * s <= limit).
  { intros y Hy. rewrite <- K. split; [replace (- (M * s)) with (- M * s) by ring|]; apply Rmult_le_compat_r; lra. }
  apply Rabs_le. apply abs_le in Hd. destruct (bp_domain p); [|apply Q; lra].
  specialize (Hs eq_refl). unfold Rmax in *. destruct (Rle_dec (bp_neg p) x) as [C|C].
  - specialize (Q x). destruct (Rle_dec _ _); lra.
  - destruct (Rle_dec _ _) as [C2|C2]; [|lra]. split; [lra|]. assert (x * s < 0); [|lra]. apply Ropp_lt_cancel. rewrite Ropp_0, Ropp_mult_distr_l. apply Rmult_lt_0_compat; lra.
Qed.

Lemma rescale_real o0 o la : 0 < op_limit o0 -> good o0 o -> op_lambdas o = la -> moved o0 o la ->
  post (rescaleDisplacements o) (fun r => let '(o', s) := r in good o0 o' /\ moved o0 o' (op_lambdas o') /\
    op_scale o' = op_scale o /\ op_index o' = op_index o /\ op_n o' = op_n o /\ op_n0 o' = op_n0 o /\
    (forall i, (i < op_n o + 1)%nat -> nth i (op_lambdas o') 0 = nth i la 0 * s) /\
    ((s = 1 /\ op_lambdas o' = la /\ forall p, p ∈ op_points o0 -> bp_fixed p = false -> Rabs (clamp p (lin o la p)) <= op_limit o0) \/
     (exists M, op_limit o0 < M /\ s = op_limit o0 / M /\ (forall p, p ∈ op_points o0 -> bp_fixed p = false -> Rabs (clamp p (lin o la p)) <= M) /\
       exists p, p ∈ op_points o0 /\ bp_fixed p = false /\ Rabs (clamp p (lin o la p)) = M))).
Proof.
  intros Hl G Ela Mo. unfold rescaleDisplacements. apply post_bind. rewrite (g_points _ _ G), (g_limit _ _ G).
  eapply post_impl; [apply (max_disp_real (op_limit o0) (op_points o0) (op_disp o) n0 None Hl); left; reflexivity|].
  intros [[M sc] r] (_ & HM & HD & HA).
  assert (HD' : forall p, p ∈ op_points o0 -> bp_fixed p = false -> Rabs (clamp p (lin o la p)) <= Rmax (op_limit o0) M).
  { intros p Hp Hf. apply elem_of_list_lookup in Hp as [i Hi]. destruct (HD i p Hi Hf) as (d & Hd & Hb). specialize (Mo i p Hi).
    rewrite Hf in Mo. rewrite Hd in Mo. injection Mo as ->. exact Hb. }
  cbn [neqb NumR n0 nofZ]. destruct (Reqb_spec M 0) as [->|Hne].
  - apply post_ok. split; [exact G|]. split; [rewrite Ela; exact Mo|]. repeat split; auto. { intros i _. rewrite Ela. cbn. lra. }
    left. split; [reflexivity|]. split; [exact Ela|]. intros p Hp Hf. specialize (HD' p Hp Hf). rewrite Rmax_left in HD' by lra. exact HD'.
  - destruct HM as [HM|[HM ->]]; [contradiction|]. cbn [init_get obind].
    apply post_bind. eapply post_impl.
    { apply (for_scale _ (fun _ x => Ok (x * (op_limit o0 / M))) _ _ (fun _ x => x * (op_limit o0 / M))); [apply G|reflexivity|]. intros i x y E. injection E as <-. reflexivity. }
    intros la' [L D]. assert (G1 : good o0 (set_lambdas la' o)) by (apply good_lambdas; [exact G|exact L]).
    apply post_bind. eapply post_impl; [apply displacements_real, G1|]. intros o' (G' & E' & M'). apply post_ok.
    assert (El : op_lambdas o' = la') by (rewrite E'; reflexivity).
    split; [exact G'|]. split; [rewrite El; exact M'|]. rewrite E'. cbn. repeat split; auto. { intros i Hi. rewrite D by exact Hi. rewrite Ela. reflexivity. }
    right. exists M. split; [exact HM|]. split; [reflexivity|]. split.
    { intros p Hp Hf. specialize (HD' p Hp Hf). rewrite Rmax_right in HD' by lra. exact HD'. }
    destruct HA as [HA|(i & p & d & Hp & Hf & Hd & Hm)]; [contradiction|]. exists p. split; [eapply elem_of_list_lookup_2, Hp|]. split; [exact Hf|].
    specialize (Mo i p Hp). rewrite Hf, Hd in Mo. injection Mo as <-. exact Hm.
Qed.

(** ** The end of solve *)
Lemma lin_scale_eq o o' la p : op_scale o' = op_scale o -> op_index o' = op_index o -> op_n o' = op_n o -> lin o' la p = lin o la p.
Proof. unfold lin. intros -> -> ->. reflexivity. Qed.

Lemma lin_dot o0 o la (la' : list R) m p : good o0 o -> op_n o = op_n0 o0 \/ op_n o = 0%nat ->
  (length la' <= m)%nat -> (op_n o + 1 <= m)%nat ->
  (forall i, (i < op_n o + 1)%nat -> nth i la' 0 = nth i la 0 * nth i (op_scale o) 0) ->
  (forall i, (op_n o + 1 <= i)%nat -> nth i la' 0 = 0) -> lin o la p = dot la' (bp_sens p).
Proof.
  intros G Hn Hm Hm2 E1 E2. rewrite (dot_rsum la' _ m Hm). unfold lin.
  replace m with ((op_n o + 1) + (m - (op_n o + 1)))%nat by lia. set (k := (m - (op_n o + 1))%nat). clearbody k.
  transitivity (rsum (fun j => nth j la' 0 * nth j (bp_sens p) 0) (op_n o + 1)).
  - apply rsum_ext. intros j Hj. rewrite E1 by exact Hj. replace (nth j (op_index o) 0%nat) with j; [lra|].
    destruct Hn as [Hn|Hn].
    + rewrite (g_all _ _ G Hn). rewrite seq_nth by lia. lia.
    + replace j with 0%nat by lia. symmetry. apply nth_index, G.
  - induction k as [|k IH]; [rewrite Nat.add_0_r; reflexivity|]. replace (op_n o + 1 + S k)%nat with (S (op_n o + 1 + k)) by lia. rewrite rsum_S, <- IH, (E2 (op_n o + 1 + k)%nat) by lia. lra.
Qed.

Lemma remap_stops o0 o : good o0 o -> (0 < op_n o)%nat -> remap (op_n o + 1) o = UB.
Proof.
  intros G Hn. rewrite Nat.add_comm. cbn [remap Nat.add]. unfold vget. replace (op_index o !! S (op_n o)) with (None : option nat); [reflexivity|].
  symmetry. apply lookup_ge_None_2. rewrite (g_index _ _ G). lia.
Qed.

Lemma take_moved (l : list R) n : length l = n -> take n l = l.
Proof. intros <-. apply take_ge. lia. Qed.

Definition conclusion (o0 o : Opt R) (ob : option R) (r : Opt R * R) : Prop :=
  let '(o', v) := r in exists value s,
    ob = Some value /\ v = value * s / nth 0 (op_scale o) 0 /\
    length (op_lambdas o') = (op_n0 o0 + 1)%nat /\ op_time o' = Rabs (nth 0 (op_lambdas o') 0) /\
    op_points o' = map (fun p => set_bp_velocity (move (op_lambdas o') p / op_time o') p) (op_points o0) /\
    (forall p, clamp p (dot (op_lambdas o') (bp_sens p)) = clamp p (lin o (op_lambdas o) p * s)) /\
    ((s = 1 /\ forall p, p ∈ op_points o0 -> bp_fixed p = false -> Rabs (clamp p (lin o (op_lambdas o) p)) <= op_limit o0) \/
     (exists M, op_limit o0 < M /\ s = op_limit o0 / M /\ (forall p, p ∈ op_points o0 -> bp_fixed p = false -> Rabs (clamp p (lin o (op_lambdas o) p)) <= M) /\
       exists p, p ∈ op_points o0 /\ bp_fixed p = false /\ Rabs (clamp p (lin o (op_lambdas o) p)) = M)).

Lemma conclude_real o0 o ob : 0 < op_limit o0 -> good o0 o -> post (conclude ob o) (conclusion o0 o ob).
Proof.
  intros Hl G. unfold conclude. apply post_bind. eapply post_impl; [apply displacements_real, G|]. intros o1 (G1 & E1 & M1).
  assert (El1 : op_lambdas o1 = op_lambdas o) by (rewrite E1; reflexivity).
  assert (Es1 : op_scale o1 = op_scale o) by (rewrite E1; reflexivity).
  assert (Ei1 : op_index o1 = op_index o) by (rewrite E1; reflexivity).
  assert (En1 : op_n o1 = op_n o) by (rewrite E1; reflexivity). clear E1.
  apply post_bind. eapply post_impl; [apply (rescale_real o0 o1 (op_lambdas o) Hl G1 El1 M1)|].
  intros [o2 s] (G2 & M2 & Es2 & Ei2 & En2 & En02 & Sc & Alt).
  apply post_bind. intros value Ev. destruct ob as [w|]; [|discriminate]. injection Ev as <-.
  apply post_bind. eapply post_impl.
  { apply (for_scale _ (fun i x => let! c := vget (op_scale o2) i in Ok (x * c)) _ _ (fun i x => x * nth i (op_scale o2) 0)); [apply G2| |].
    - intros i l. destruct (vget l i); cbn [obind]; auto. rewrite obind_assoc. reflexivity.
    - intros i x y E. unfold vget in E. destruct (op_scale o2 !! i) as [c|] eqn:F; [|discriminate]. cbn in E. injection E as <-.
      rewrite (nth_lookup' _ _ _ F). reflexivity. }
  intros la [L D]. cbn [op_lambdas set_lambdas]. apply post_bind, post_vget. intros l0 Hl0.
  apply post_bind. intros ps Eps. cbn [op_time set_time op_disp set_lambdas op_points] in Eps.
  rewrite (g_points _ _ G2) in Eps. rewrite take_moved in Eps by apply G2.
  destruct (oupdate_post _ _ _ _ Eps) as (P1 & P2 & P3 & _).
  cbn [op_n set_points set_time set_lambdas op_n0].
  set (o3 := set_points ps (set_time (nabs l0) (set_lambdas la o2))).
  assert (G3 : good o0 (set_lambdas la o2)) by (apply good_lambdas; [exact G2|exact L]).
  assert (N : op_n o2 = op_n0 o2 \/ op_n o2 = 0%nat \/ (0 < op_n o2 < op_n0 o2)%nat).
  { pose proof (g_n _ _ G2). rewrite (g_n0 _ _ G2). lia. }
  (* the multipliers that solve returns *)
  assert (K : op_n o2 = op_n0 o0 \/ op_n o2 = 0%nat -> forall la', (length la' = op_n0 o0 + 1)%nat -> la' = resize (op_n0 o0 + 1) 0 la ->
    conclusion o0 o (Some w) (set_points ps (set_time (nabs l0) (set_lambdas la' o2)), (w * s)%num / nth 0 (op_scale o) 0)).
  { intros Hn la' L' ->. unfold conclusion. exists w, s. cbn [op_lambdas op_time op_points set_points set_time set_lambdas nabs NumR].
    split; [reflexivity|]. split; [reflexivity|]. split; [exact L'|].
    assert (R1 : forall i, (i < op_n o2 + 1)%nat -> nth i (resize (op_n0 o0 + 1) 0 la) 0 = nth i la 0).
    { intros i Hi. pose proof (g_n _ _ G2). rewrite !nth_lookup. rewrite lookup_resize by lia. reflexivity. }
    assert (R2 : forall i, (op_n o2 + 1 <= i)%nat -> nth i (resize (op_n0 o0 + 1) 0 la) 0 = 0).
    { intros i Hi. rewrite nth_lookup. destruct (decide (i < op_n0 o0 + 1)%nat) as [Hlt|Hge].
      - rewrite lookup_resize_new by lia. reflexivity.
      - rewrite lookup_resize_old by lia. reflexivity. }
    assert (R0 : l0 = nth 0 (resize (op_n0 o0 + 1) 0 la) 0) by (rewrite R1 by lia; symmetry; apply nth_lookup', Hl0).
    split; [rewrite <- R0; reflexivity|].
    assert (Lin : forall p, lin o2 (op_lambdas o2) p = dot (resize (op_n0 o0 + 1) 0 la) (bp_sens p)).
    { intros p. apply (lin_dot o0 o2 (op_lambdas o2) _ (op_n0 o0 + 1) p G2 Hn).
      - rewrite resize_length. lia.
      - pose proof (g_n _ _ G2). lia.
      - intros i Hi. rewrite R1 by exact Hi. apply D. exact Hi.
      - exact R2. }
    split; [|split].
    - apply list_eq. intros i. rewrite list_lookup_fmap. destruct (op_points o0 !! i) as [p|] eqn:Hp; cbn.
      + pose proof (M2 i p Hp) as Hd. destruct (P3 i _ Hd) as (b & c & Hb & Hc & F). rewrite Hp in Hb. injection Hb as <-.
        injection F as <-. rewrite Hc. f_equal. unfold set_velocity. cbn. f_equal. f_equal. unfold move. destruct (bp_fixed p); [reflexivity|].
        rewrite Lin. unfold clamp. reflexivity.
      + apply lookup_ge_None_2. rewrite P2. apply lookup_ge_None_1, Hp.
    - intros p. rewrite <- Lin, (lin_scale_eq o o2) by congruence. rewrite (lin_scale o (op_lambdas o) _ s); [reflexivity|].
      intros i Hi. apply Sc. rewrite En1. exact Hi.
    - assert (Q : forall p, lin o1 (op_lambdas o) p = lin o (op_lambdas o) p) by (intros p; apply lin_scale_eq; congruence).
      destruct Alt as [(A1 & _ & A2)|(M & A1 & A2 & A3 & p & A4 & A5 & A6)].
      + left. split; [exact A1|]. intros p. rewrite <- Q. apply A2.
      + right. exists M. split; [exact A1|]. split; [exact A2|]. split; [intros q; rewrite <- Q; apply A3|].
        exists p. rewrite <- Q. auto. }
  rewrite (g_n0 _ _ G2). destruct (Nat.ltb_spec (op_n o2) (op_n0 o0)) as [Lt|Ge].
  - destruct (Nat.ltb_spec 0 (op_n o2)) as [Pos|Zero].
    + intros r E. exfalso.
      assert (U : remap (op_n o2 + 1) (set_lambdas (resize (1 + op_n0 o0) n0 (op_lambdas o3)) o3) = UB).
      { rewrite Nat.add_comm. cbn [remap Nat.add]. unfold vget. cbn [op_index set_lambdas]. unfold o3. cbn [op_index set_points set_time set_lambdas].
        replace (op_index o2 !! S (op_n o2)) with (None : option nat); [reflexivity|]. symmetry. apply lookup_ge_None_2. rewrite (g_index _ _ G2). lia. }
      fold o3 in E. rewrite U in E. discriminate.
    + cbn [obind]. apply post_bind, post_vget. intros c0 Hc0. apply post_ok. cbn [ndiv NumR]. change (op_scale o2 !! 0%nat = Some c0) in Hc0.
      rewrite Es2, Es1 in Hc0. rewrite <- (nth_lookup' _ _ _ Hc0). apply (K ltac:(lia) (resize (1 + op_n0 o0) n0 la)).
      * rewrite resize_length. lia.
      * rewrite Nat.add_comm. reflexivity.
  - cbn [obind]. apply post_bind, post_vget. intros c0 Hc0. apply post_ok. cbn [ndiv NumR]. change (op_scale o2 !! 0%nat = Some c0) in Hc0.
    rewrite Es2, Es1 in Hc0. rewrite <- (nth_lookup' _ _ _ Hc0). pose proof (g_n _ _ G2). apply (K ltac:(lia) la).
    + rewrite L. lia.
    + rewrite resize_all_alt by lia. reflexivity.
Qed.
