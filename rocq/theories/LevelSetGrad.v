(** * LevelSetGrad: computeGradients is memory safe and computes the clamped upwind WENO gradient
    (C25), any arithmetic. *)

From Verif Require Import MeshModel MeshSpec MeshProofs MeshTopo FmmModel FmmSpec FmmFacts LevelSetModel LevelSetSpec
  LevelSetBand LevelSetOps LevelSetInit NumInt.
From Coq Require Import ZifyBool ZifyNat.
Local Open Scope nat_scope.

Section Stencils.
  Context {T : Type} {NT : Num T}.
  Variables (g : nat -> outcome T) (h : nat -> T) (n p : nat).
  Hypothesis Hg : forall k, k <= n -> g k = Ok (h k).
  Hypothesis Hn : 4 <= n /\ (Z.of_nat n < 2 ^ 32)%Z.
  Hypothesis Hp : p <= n.
  Let d z := clamped_diff h n (Z.of_nat p + z).

  Lemma diff_ok a b : a <= n -> b <= n -> a = b + 1 ->
    obind (g a) (fun u => obind (g b) (fun v => Ok (u - v)%num)) = Ok (h (b + 1)%nat - h b)%num.
  Proof. intros Ha Hb E. rewrite !Hg by assumption. cbn [obind]. rewrite E. reflexivity. Qed.
  Lemma clamp_ok z k : Z.max 0 (Z.min (Z.of_nat p + z) (Z.of_nat n - 1)) = Z.of_nat k -> (h (k + 1)%nat - h k)%num = d z.
  Proof. intros E. unfold d, clamped_diff. rewrite E, Nat2Z.id. reflexivity. Qed.

  Ltac one := rewrite ?usub_ok, ?uadd_ok by lia; rewrite diff_ok by lia; cbn [obind].
  Ltac fin := match goal with |- Ok (?a, ?b, ?c, ?e, ?f) = Ok (?a', ?b', ?c', ?e', ?f') =>
    replace a' with a by (apply clamp_ok; lia); replace b' with b by (apply clamp_ok; lia);
    replace c' with c by (apply clamp_ok; lia); replace e' with e by (apply clamp_ok; lia);
    replace f' with f by (apply clamp_ok; lia); reflexivity end.

  Lemma forward_spec : stencil_forward g n p = Ok (d 2, d 1, d 0, d (-1), d (-2))%Z.
  Proof.
    unfold stencil_forward. rewrite !usub_ok with (p := n) by lia.
    destruct (Nat.eqb_spec p 0); [do 3 one; fin|]. destruct (Nat.eqb_spec p 1); [do 4 one; fin|].
    destruct (Nat.eqb_spec p n); [do 2 one; fin|]. destruct (Nat.eqb_spec p (n - 1)); [do 3 one; fin|].
    destruct (Nat.eqb_spec p (n - 2)); [do 4 one; fin|]. do 5 one. fin.
  Qed.
  Lemma backward_spec : stencil_backward g n p = Ok (d (-3), d (-2), d (-1), d 0, d 1)%Z.
  Proof.
    unfold stencil_backward. rewrite !usub_ok with (p := n) by lia.
    destruct (Nat.eqb_spec p n); [do 3 one; fin|]. destruct (Nat.eqb_spec p (n - 1)); [do 4 one; fin|].
    destruct (Nat.eqb_spec p 0); [do 2 one; fin|]. destruct (Nat.eqb_spec p 1); [do 3 one; fin|].
    destruct (Nat.eqb_spec p 2); [do 4 one; fin|]. do 5 one. fin.
  Qed.
End Stencils.

Section Gradient.
  Context {T : Type} {NT : Num T} {NI : NumInt T}.
  Variables (W H : nat) (m : Mesh T) (sd vel : list T).
  Notation N := (node_count W H).
  Hypothesis Ht : topo W H m.
  Hypothesis Hsd : length sd = N.
  Hypothesis Hvel : length vel = N.
  Hypothesis H4 : 4 <= W /\ 4 <= H.

  Lemma field_lookup x y : x <= W -> y <= H -> sd !! node_id W x y = Some (field W sd x y).
  Proof.
    intros Hx Hy. destruct (lookup_lt_is_Some_2 sd (node_id W x y)) as [d Hd]; [rewrite Hsd; apply node_id_lt; assumption|].
    unfold field. rewrite (nth_lookup_Some _ _ _ _ Hd). exact Hd.
  Qed.
  Lemma sd_at_ok x y : x <= W -> y <= H -> sd_at m sd x y = Ok (field W sd x y).
  Proof.
    intros Hx Hy. unfold sd_at, xy_index. rewrite (tp_xy _ _ _ Ht). cbn [mesh_spec m_xy].
    unfold vget at 1. rewrite tab_lookup by lia. cbn [obind]. unfold vget at 1. rewrite tab_lookup by lia. cbn [obind].
    unfold vget. rewrite field_lookup by assumption. reflexivity.
  Qed.

  Lemma corner_ok x y x' y' : x <= W -> y <= H -> x' <= W -> y' <= H ->
    corner_gradient m sd (field W sd x y) x y x' y' =
    Ok (if (nabs (field W sd x' y - field W sd x y) <? nlit 1 1000000)%num &&
           (nabs (field W sd x y' - field W sd x y) <? nlit 1 1000000)%num
        then Some (nabs (field W sd x y - field W sd x' y') * nsqrt (nofZ 2))%num else None).
  Proof.
    intros Hx Hy Hx' Hy'. unfold corner_gradient. rewrite !sd_at_ok by assumption. cbn [obind].
    destruct (nabs (field W sd x' y - field W sd x y) <? nlit 1 1000000)%num; [|reflexivity]. cbn [andb].
    destruct (nabs (field W sd x y' - field W sd x y) <? nlit 1 1000000)%num; reflexivity.
  Qed.

  Lemma gradient_ok x y v : x <= W -> y <= H -> vel !! node_id W x y = Some v ->
    exists g, computeGradient m sd vel (node_id W x y) = Ok g /\ gradient_spec (field W sd) W H x y v g.
  Proof.
    intros Hx Hy Hv. pose proof (fits_w W H (tp_fits _ _ _ Ht)) as [FW FH].
    unfold computeGradient.
    destruct (topo_node W H m Ht (node_id W x y)) as (n & Hn & _); [apply node_id_lt; assumption|].
    unfold vget at 1. rewrite Hn. cbn [obind].
    rewrite (topo_coord W H m _ n Ht Hn), node_id_mod, node_id_div by exact Hx. cbn [cx cy].
    rewrite !floor_u32_nofnat by lia. cbn [obind].
    unfold vget at 1. rewrite field_lookup by assumption. cbn [obind].
    rewrite (tp_w _ _ _ Ht), (tp_h _ _ _ Ht).
    set (x' := if (x =? 0)%nat then 1 else W - 1). set (y' := if (y =? 0)%nat then 1 else H - 1).
    assert (Hx' : x' <= W) by (unfold x'; destruct (x =? 0)%nat; lia).
    assert (Hy' : y' <= H) by (unfold y'; destruct (y =? 0)%nat; lia).
    set (flat := ((x =? 0)%nat || (x =? W)%nat) && ((y =? 0)%nat || (y =? H)%nat) &&
        ((nabs (field W sd x' y - field W sd x y) <? nlit 1 1000000)%num &&
         (nabs (field W sd x y' - field W sd x y) <? nlit 1 1000000)%num)).
    match goal with |- context [obind ?c _] => assert (Ec : c = Ok
      (if flat then Some (nabs (field W sd x y - field W sd x' y') * nsqrt (nofZ 2))%num else None)) end.
    { unfold flat, x', y'. destruct (Nat.eqb_spec x 0) as [E|E].
      - destruct (Nat.eqb_spec y 0) as [E'|E'].
        + subst x y. rewrite !uadd_ok by lia. rewrite corner_ok by lia. reflexivity.
        + destruct (Nat.eqb_spec y H) as [E''|E'']; [|cbn [orb andb]; reflexivity].
          subst x y. rewrite uadd_ok, usub_ok by lia. rewrite corner_ok by lia. reflexivity.
      - destruct (Nat.eqb_spec x W) as [E1|E1]; [|cbn [orb andb]; reflexivity].
        destruct (Nat.eqb_spec y 0) as [E'|E'].
        + subst x y. rewrite uadd_ok, usub_ok by lia. rewrite corner_ok by lia. reflexivity.
        + destruct (Nat.eqb_spec y H) as [E''|E'']; [|cbn [orb andb]; reflexivity].
          subst x y. rewrite !usub_ok by lia. rewrite corner_ok by lia. reflexivity. }
    rewrite Ec. cbn [obind].
    assert (Hflat : flat = true <-> corner_flat (field W sd) W H x y).
    { unfold flat, corner_flat. cbv zeta. fold x' y'. rewrite !andb_true_iff, !orb_true_iff, !Nat.eqb_eq. tauto. }
    destruct flat eqn:Ef.
    - eexists. split; [reflexivity|]. left. split; [apply Hflat; reflexivity|]. reflexivity.
    - unfold vget at 1. rewrite Hv. cbn [obind].
      set (gx := fun k => sd_at m sd k y). set (gy := fun k => sd_at m sd x k).
      assert (Gx : forall k, k <= W -> gx k = Ok (field W sd k y)) by (intros k Hk; apply sd_at_ok; assumption).
      assert (Gy : forall k, k <= H -> gy k = Ok (field W sd x k)) by (intros k Hk; apply sd_at_ok; assumption).
      rewrite (forward_spec gx (fun k => field W sd k y) W x Gx) by (try lia; exact Hx).
      rewrite (backward_spec gx (fun k => field W sd k y) W x Gx) by (try lia; exact Hx).
      rewrite (forward_spec gy (fun k => field W sd x k) H y Gy) by (try lia; exact Hy).
      rewrite (backward_spec gy (fun k => field W sd x k) H y Gy) by (try lia; exact Hy).
      unfold weno_at. cbn [obind]. eexists. split; [reflexivity|].
      right. split; [intros HC; apply Hflat in HC; discriminate|]. reflexivity.
  Qed.
End Gradient.

Section Gradients.
  Context {T : Type} {NT : Num T} {NI : NumInt T}.
  Variables (W H : nat) (s : LevelSet T).
  Notation N := (node_count W H).
  Hypothesis Hs : ls_ok W H s.
  Hypothesis Hb : band_safe W H s.
  Hypothesis H4 : 4 <= W /\ 4 <= H.

  Lemma gradients_spec : exists g, computeGradients s = Ok (set_grad g s) /\ ls_ok W H (set_grad g s) /\ length g = N /\
    (forall i, i < N -> i ∉ band_list s -> g !! i = Some n0) /\
    (forall x y v, x <= W -> y <= H -> node_id W x y ∈ band_list s -> ls_vel s !! node_id W x y = Some v ->
       exists r, g !! node_id W x y = Some r /\ gradient_spec (field W (ls_sd s)) W H x y v r).
  Proof.
    unfold computeGradients. rewrite (ok_grad _ _ _ Hs).
    set (good := fun i r => exists v, ls_vel s !! i = Some v /\
           gradient_spec (field W (ls_sd s)) W H (i mod (W + 1)) (i / (W + 1)) v r).
    match goal with |- context [for_ ?n ?f ?a] =>
      assert (L : wp False False (for_ n f a) (fun g => length g = N /\
        (forall i, i < N -> i ∉ band_list s -> g !! i = Some n0) /\
        (forall i, i ∈ band_list s -> exists r, g !! i = Some r /\ good i r))) end.
    { apply wp_for with (I := fun k g => length g = N /\
        (forall i, i < N -> i ∉ take k (band_list s) -> g !! i = Some n0) /\
        (forall i, i ∈ take k (band_list s) -> exists r, g !! i = Some r /\ good i r)).
      - split; [apply replicate_length|]. rewrite take_0. split.
        + intros i Hi _. apply lookup_replicate_2, Hi.
        + intros i Hi. apply elem_of_nil in Hi. contradiction.
      - intros k g Hk (L & I1 & I2).
        assert (Hlk : is_Some (band_list s !! k)).
        { apply lookup_lt_is_Some_2. unfold band_list. rewrite take_length. pose proof (bs_nb _ _ _ Hb). lia. }
        destruct Hlk as [j Hj].
        assert (HjN : j < N) by (apply (bs_band _ _ _ Hb); eapply elem_of_list_lookup_2, Hj).
        assert (Htk : take (S k) (band_list s) = take k (band_list s) ++ [j]) by (apply take_S_r; exact Hj).
        apply wp_bind. eapply wp_vget.
        { unfold band_list in Hj. rewrite lookup_take in Hj by exact Hk. exact Hj. }
        destruct (lookup_lt_is_Some_2 (ls_vel s) j) as [v Hv]; [rewrite (ok_vel _ _ _ Hs); exact HjN|].
        destruct (node_id_split W H j HjN) as (Hx & Hy & Ej).
        destruct (gradient_ok W H (ls_mesh s) (ls_sd s) (ls_vel s) (ok_topo _ _ _ Hs) (ok_sd _ _ _ Hs) (ok_vel _ _ _ Hs) H4
          (j mod (W + 1)) (j / (W + 1)) v Hx Hy) as (r & Er & Sr); [rewrite <- Ej; exact Hv|].
        rewrite <- Ej in Er. rewrite Er. cbn [obind].
        apply wp_vset; [lia|]. rewrite insert_length. split; [exact L|]. rewrite Htk. split.
        + intros i Hi Hn. rewrite not_elem_of_app, elem_of_list_singleton in Hn. destruct Hn as [Hn Hne].
          rewrite list_lookup_insert_ne by auto. apply I1; assumption.
        + intros i Hi. destruct (Nat.eq_dec i j) as [->|Hne].
          * exists r. split; [apply list_lookup_insert; lia|]. exists v. auto.
          * rewrite list_lookup_insert_ne by auto. apply I2. apply elem_of_app in Hi as [Hi|Hi]; [exact Hi|].
            apply elem_of_list_singleton in Hi. contradiction.
      - intros g (L & I1 & I2).
        assert (Etk : take (ls_nBand s) (band_list s) = band_list s).
        { unfold band_list. rewrite take_take, Nat.min_id. reflexivity. }
        rewrite Etk in *. auto. }
    apply wp_total in L as (g & E & L & I1 & I2). rewrite E. cbn [obind].
    exists g. split; [reflexivity|]. split; [destruct Hs; constructor; auto|]. split; [exact L|]. split; [exact I1|].
    intros x y v Hx Hy Hin Hv. destruct (I2 _ Hin) as (r & Hr & v' & Hv' & Sr).
    assert (v' = v) as -> by congruence. rewrite node_id_mod, node_id_div in Sr by exact Hx. eauto.
  Qed.
End Gradients.

From Verif Require Import NumSgn.
Section NonNeg.
  Context {T : Type} {NT : Num T} {NI : NumInt T} {NS : NumSgn T}.
  Lemma gradient_spec_nonneg h W H x y (v g : T) : gradient_spec h W H x y v g -> (g <? n0)%num = false.
  Proof.
    intros [[_ ->]|[_ ->]]; [apply nabs_mul_nsqrt|apply nsqrt_sgn].
  Qed.
  Lemma gradients_nonneg W H (s : LevelSet T) : ls_ok W H s -> band_safe W H s -> 4 <= W -> 4 <= H ->
    exists g, computeGradients s = Ok (set_grad g s) /\ length g = node_count W H /\
      (forall i, i < node_count W H -> i ∉ band_list s -> g !! i = Some n0) /\
      (forall i, i ∈ band_list s -> exists r, g !! i = Some r /\ (r <? n0)%num = false).
  Proof.
    intros Hs Hb HW HH. destruct (gradients_spec W H s Hs Hb (conj HW HH)) as (g & E & _ & L & G1 & G2).
    exists g. split; [exact E|]. split; [exact L|]. split; [exact G1|].
    intros i Hi. pose proof (bs_band _ _ _ Hb i Hi) as HiN. destruct (node_id_split W H i HiN) as (Hx & Hy & Ei).
    destruct (lookup_lt_is_Some_2 (ls_vel s) i) as [v Hv]; [rewrite (ok_vel _ _ _ Hs); exact HiN|].
    rewrite Ei in Hi, Hv. destruct (G2 _ _ v Hx Hy Hi Hv) as (r & Hr & Sr). exists r.
    rewrite Ei. split; [exact Hr|]. eapply gradient_spec_nonneg, Sr.
  Qed.
End NonNeg.
