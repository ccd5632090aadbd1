(** * DemoArea: a turn of minimise_area for a shape inside the domain (C67). *)

From Coq Require Import Reals Lra.
From Verif Require Import OptModel OptSpec OptSolve OptMain OptTotal.
From Verif Require Import Base Num NumR NumInt NumSgn MeshModel MeshSpec FmmSpec LevelSetModel LevelSetSpec LevelSetSpecR LevelSetCalls LevelSetHist LevelSetNew
  BoundaryModel BoundarySpec BoundarySpecR BoundaryLinks BoundaryReal BoundaryGraph BoundaryRun BoundaryClosed DemoModel DemoSpec DemoTurn.
Local Open Scope R_scope.

Section inside.
  Variables (W H : nat) (s : LevelSet R).
  Hypothesis Hr : reached W H s.
  Hypothesis Hoff : off_contour W H (ls_sd s).
  Hypothesis Hclear : clear_cuts W H (ls_sd s).
  Hypothesis Hborder : forall x y, (x <= W)%nat -> (y <= H)%nat -> (x = 0 \/ x = W \/ y = 0 \/ y = H)%nat -> exists v, ls_sd s !! node_id W x y = Some v /\ v < 0.

  Lemma contour_gap c : on_contour_line W H (ls_sd s) c -> tol <= border_gap W H c.
  Proof.
    pose proof tol_pos as Tp. intros [(i & x & Hi & Ex & Lx & _)|(i & k & Ad & x & y & t & Ex & Ey & Lx & Ly & Lt & Eq & ->)].
    - destruct (Hoff i Hi) as (x' & Ex' & Lx'). assert (x' = x) by congruence. subst. lra.
    - destruct (Hclear i k x y Ad Ex Ey Lx Ly) as [_ C].
      assert (Lt1 : tol <= 1 - t).
      { assert (Z : (1 - t) * (x - y) = - y) by lra. assert (0 < x - y) by lra. apply (Rmult_le_reg_r (x - y)); lra. }
      assert (In : forall a b, i = node_id W a b -> (a <= W)%nat -> (b <= H)%nat -> 1 <= INR a <= INR W - 1 /\ 1 <= INR b <= INR H - 1).
      { intros a b -> La Lb.
        assert (N : ~ (a = 0 \/ a = W \/ b = 0 \/ b = H)%nat).
        { intros Hb. destruct (Hborder a b La Lb Hb) as (v & Ev & Lv). assert (v = x) by congruence. lra. }
        assert (Q : forall n m : nat, (n <= m)%nat -> (n <> 0)%nat -> (n <> m)%nat -> 1 <= INR n <= INR m - 1).
        { intros n m L1 L2 L3. split; [apply (le_INR 1); lia|]. assert (L : (n + 1 <= m)%nat) by lia. apply le_INR in L. rewrite plus_INR in L. cbn [INR] in L. lra. }
        split; apply Q; lia. }
      unfold border_gap, along.
      destruct Ad as [(a & b & a' & E1 & E2 & La & La' & Lb & D)|(a & b & b' & E1 & E2 & La & Lb & Lb' & D)]; destruct (In a b E1 La Lb) as [A B]; subst i k;
        rewrite !grid_id by assumption; cbn [cx cy]; unfold Rmin; repeat destruct (Rle_dec _ _); destruct D as [-> | ->]; rewrite ?plus_INR in *; cbn [INR] in *; lra.
  Qed.

  Lemma crossing : (exists i x, (i < node_count W H)%nat /\ ls_sd s !! i = Some x /\ 0 < x) -> (0 < W)%nat ->
    exists x y a b, (x < W)%nat /\ (y < H)%nat /\ ls_sd s !! node_id W x y = Some a /\ ls_sd s !! node_id W (x + 1) y = Some b /\ a < 0 /\ 0 < b.
  Proof.
    intros (i & v & Hi & Ev & Lv) HW. rewrite (node_of W HW i) in Ev. set (y := (i / (W + 1))%nat) in *.
    assert (Ly : (y <= H)%nat) by (apply (row_le W H HW); exact Hi).
    assert (Lx : (i mod (W + 1) <= W)%nat) by (apply (col_le W HW)). revert Ev Lx. generalize (i mod (W + 1))%nat. intros x Ev Lx.
    assert (y < H)%nat.
    { destruct (Nat.eq_dec y H) as [E|]; [|lia]. destruct (Hborder x y Lx Ly ltac:(auto)) as (w & Ew & Lw). assert (w = v) by congruence. lra. }
    revert v Ev Lv Lx. induction x as [|x IH]; intros v Ev Lv Lx.
    - destruct (Hborder 0%nat y ltac:(lia) Ly ltac:(auto)) as (w & Ew & Lw). assert (w = v) by congruence. lra.
    - destruct (Hoff (node_id W x y)) as (w & Ew & Lw). { unfold node_id, node_count. nia. }
      destruct (Rlt_le_dec w 0) as [N|N].
      + exists x, y, w, v. replace (x + 1)%nat with (S x) by lia. repeat (split; [solve [assumption|lia|lra]|]). assumption.
      + apply (IH w Ew); [|lia]. pose proof tol_pos. rewrite Rabs_right in Lw by lra. lra.
  Qed.

  Lemma positive_point s' b : covered W H s (ls_sd s) -> (exists i x, (i < node_count W H)%nat /\ ls_sd s !! i = Some x /\ 0 < x) -> (0 < W)%nat ->
    discretise s false = Ok (s', b) -> exists p, p ∈ bd_points b /\ 0 < bp_length p.
  Proof.
    intros Hv Hpos HW Hd. destruct (crossing Hpos HW) as (x & y & a & c & Lx & Ly & Ea & Ec & La & Lc).
    set (e := (y * W + x)%nat). assert (He : (e < W * H)%nat) by (unfold e; nia).
    assert (Ee : (e mod W = x /\ e / W = y)%nat).
    { unfold e. rewrite Nat.add_comm. split; [rewrite Nat.mod_add by lia; apply Nat.mod_small; exact Lx|rewrite Nat.div_add by lia; rewrite Nat.div_small by exact Lx; reflexivity]. }
    destruct Ee as [Ex Ey].
    destruct (element_segments W H s false Hr Hclear Hoff (or_intror Hv) s' b e Hd He) as (S1 & S2 & _).
    assert (V0 : corner W e 0 = node_id W (e mod W) (e / W)) by exact (corner_val W H HW e 0 He ltac:(lia)).
    assert (V1 : corner W e 1 = node_id W (e mod W + 1) (e / W)) by exact (corner_val W H HW e 1 He ltac:(lia)). rewrite Ex, Ey in V0, V1.
    destruct (S2 0%nat a c ltac:(lia)) as (n & sg & _ & Esg & Esn & _).
    { rewrite V0. exact Ea. } { change (next 0) with 1%nat. rewrite V1. exact Ec. } { nra. }
    destruct (S1 n sg Esg Esn) as (j & j' & Lj & Lj' & Nj & p & q & Ep & Eq & J).
    destruct (segments_good W H s s' false b Hr Hd n sg Esg) as (_ & p' & q' & _ & _ & Ep' & Eq' & L & _).
    assert (p' = p) by congruence. assert (q' = q) by congruence. subst p' q'.
    assert (Pos : 0 < sg_length sg).
    { rewrite L. unfold euclid. apply sqrt_lt_R0. unfold euclid2.
      destruct (Req_dec (cx (bp_coord p)) (cx (bp_coord q))) as [Zx|Zx]; [destruct (Req_dec (cy (bp_coord p)) (cy (bp_coord q))) as [Zy|Zy]|].
      - exfalso. assert (Z : bp_coord p = bp_coord q) by (destruct (bp_coord p), (bp_coord q); cbn in *; congruence). rewrite Z in J.
        apply Nj. destruct J as [[J1 J2]|[J1 J2]]; [|symmetry]; eapply (zero_inj W H s false Hr e He); eassumption.
      - pose proof (Rle_0_sqr (cx (bp_coord p) - cx (bp_coord q))). pose proof (Rsqr_pos_lt (cy (bp_coord p) - cy (bp_coord q)) ltac:(lra)). unfold Rsqr in *. lra.
      - pose proof (Rle_0_sqr (cy (bp_coord p) - cy (bp_coord q))). pose proof (Rsqr_pos_lt (cx (bp_coord p) - cx (bp_coord q)) ltac:(lra)). unfold Rsqr in *. lra. }
    assert (Tot : 0 < sumR (map bp_length (bd_points b))).
    { rewrite <- (total_by_points W H s s' false b Hr Hd), (total_is_sum W H s s' false b Hr Hd).
      assert (G : forall l, (forall g, g ∈ l -> 0 <= sg_length g) -> sg ∈ l -> 0 < sumR (map sg_length l)).
      { induction l as [|g l IH]; intros Hn Hin; [inversion Hin|]. cbn [map]. change (0 < sg_length g + sumR (map sg_length l)).
        assert (Nn : 0 <= sumR (map sg_length l)).
        { clear -Hn. assert (Hn' : forall g', g' ∈ l -> 0 <= sg_length g') by (intros g' Hg'; apply Hn; right; exact Hg'). clear Hn.
          induction l as [|g' l IH]; [apply Rle_refl|]. cbn [map]. change (0 <= sg_length g' + sumR (map sg_length l)).
          pose proof (Hn' g' ltac:(left)). assert (0 <= sumR (map sg_length l)) by (apply IH; intros z Hz; apply Hn'; right; exact Hz). lra. }
        apply elem_of_cons in Hin as [<-|Hin]; [lra|]. pose proof (Hn g ltac:(left)).
        assert (0 < sumR (map sg_length l)) by (apply IH; [intros z Hz; apply Hn; right; exact Hz|exact Hin]). lra. }
      apply G; [|eapply elem_of_list_lookup_2; exact Esg]. intros g Hg. apply elem_of_list_lookup in Hg as [m Em].
      destruct (segments_good W H s s' false b Hr Hd m g Em) as (_ & u & w & _ & _ & _ & _ & -> & _). unfold euclid. apply sqrt_pos. }
    clear -Tot. induction (bd_points b) as [|p l IH].
    - exfalso. apply (Rlt_irrefl 0). exact Tot.
    - destruct (Rlt_le_dec 0 (bp_length p)) as [L|L]; [exists p; split; [left|exact L]|].
      destruct IH as (q & Hq & Lq); [|exists q; split; [right; exact Hq|exact Lq]]. cbn [map] in Tot. change (0 < bp_length p + sumR (map bp_length l)) in Tot. lra.
  Qed.
End inside.

Theorem area_turn_inside W H (s : LevelSet R) nlopt rng lambdas nReinit time : reached W H s -> (4 <= W)%nat -> (4 <= H)%nat ->
  off_contour W H (ls_sd s) -> clear_cuts W H (ls_sd s) -> covered W H s (ls_sd s) -> (forall i, ~ masked s i) ->
  (forall x y, (x <= W)%nat -> (y <= H)%nat -> (x = 0 \/ x = W \/ y = 0 \/ y = H)%nat -> exists v, ls_sd s !! node_id W x y = Some v /\ v < 0) ->
  (exists i x, (i < node_count W H)%nat /\ ls_sd s !! i = Some x /\ 0 < x) ->
  length lambdas = 1%nat -> (forall o, op_n o = 0%nat -> polite 0 (nlopt 0%nat o)) ->
  exists s' b, new_boundary minimise_area s = Ok (s', b) /\
    exists F, forall fuel, (F <= fuel)%nat ->
      turn minimise_area nlopt fuel rng (mkSim s' b lambdas nReinit time) = Exit \/
      exists s4 lambdas' n dt ri, reached W H s4 /\ length lambdas' = 1%nat /\ 0 <= dt /\
        turn minimise_area nlopt fuel rng (mkSim s' b lambdas nReinit time) = (let! (s5, b5) := discretise s4 false in Ok (mkSim s5 b5 lambdas' n (time + dt), 0, ri)).
Proof.
  intros Hr HW HH Ho Hc Hv Hm Hb Hp HL Hpol. destruct (closed_curves W H s false Hr Hc Ho (or_intror Hv)) as (s' & b & Hd & _).
  exists s', b.
  assert (E : new_boundary minimise_area s = Ok (s', b)) by (unfold new_boundary; rewrite Hd; reflexivity).
  split; [exact E|].
  assert (Fl : forall p, p ∈ bd_points b -> bp_fixed p = false /\ bp_domain p = false).
  { intros p Hin. apply elem_of_list_lookup in Hin as [k Ek]. destruct (limits W H s s' false b Hr Hd k p Ek) as (_ & _ & _ & D & Fx & _).
    destruct (points_on_contour W H s s' false b Hr Hd k p Ek) as [C _]. apply (contour_gap W H s Ho Hc Hb) in C. split.
    - destruct (bp_fixed p); [|reflexivity]. exfalso. destruct (proj1 Fx eq_refl) as (i & Mi & _). exact (Hm i Mi).
    - destruct (bp_domain p); [|reflexivity]. exfalso. destruct (proj1 D eq_refl) as [Z _]. lra. }
  destruct (positive_point W H s Hr Ho Hc Hb s' b Hv Hp ltac:(lia) Hd) as (p & Hin & Lp).
  exact (area_turn W H s (mkSim s' b lambdas nReinit time) nlopt rng Hr HW HH E HL (ex_intro _ p (conj Hin (conj (proj1 (Fl p Hin)) Lp))) (fun q Hq _ => proj2 (Fl q Hq)) Hpol).
Qed.

(** The first turn. *)
Theorem first_area_turn W H (s : LevelSet R) nlopt rng : reached W H s -> (4 <= W)%nat -> (4 <= H)%nat ->
  off_contour W H (ls_sd s) -> clear_cuts W H (ls_sd s) -> covered W H s (ls_sd s) -> (forall i, ~ masked s i) ->
  (forall x y, (x <= W)%nat -> (y <= H)%nat -> (x = 0 \/ x = W \/ y = 0 \/ y = H)%nat -> exists v, ls_sd s !! node_id W x y = Some v /\ v < 0) ->
  (exists i x, (i < node_count W H)%nat /\ ls_sd s !! i = Some x /\ 0 < x) -> (forall o, op_n o = 0%nat -> polite 0 (nlopt 0%nat o)) ->
  exists m, begin minimise_area s = Ok m /\ sm_time m = 0 /\
    exists F, forall fuel, (F <= fuel)%nat ->
      turn minimise_area nlopt fuel rng m = Exit \/
      exists s4 lambdas' n dt ri, reached W H s4 /\ length lambdas' = 1%nat /\ 0 <= dt /\
        turn minimise_area nlopt fuel rng m = (let! (s5, b5) := discretise s4 false in Ok (mkSim s5 b5 lambdas' n dt, 0, ri)).
Proof.
  intros Hr HW HH Ho Hc Hv Hm Hb Hp Hpol.
  destruct (area_turn_inside W H s nlopt rng (replicate (d_lambdas (minimise_area (T := R))) 0) 0 0 Hr HW HH Ho Hc Hv Hm Hb Hp eq_refl Hpol) as (s' & b & E & F & HF).
  exists (mkSim s' b (replicate (d_lambdas (minimise_area (T := R))) 0) 0 0). split; [unfold begin; rewrite E; reflexivity|]. split; [reflexivity|]. exists F. intros fuel Hfu.
  destruct (HF fuel Hfu) as [X|(s4 & l' & n & dt & ri & A & B & C & D)]; [left; exact X|right]. exists s4, l', n, dt, ri. rewrite Rplus_0_l in D. auto.
Qed.
