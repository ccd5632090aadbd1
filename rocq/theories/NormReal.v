(** * NormReal: normals and sensitivities in exact arithmetic. *)

From Coq Require Import Reals Lra.
From Verif Require Import Num NumR NumInt MeshModel MeshSpec MeshTopo MeshProofs LevelSetModel LevelSetSpec LevelSetCalls LevelSetHist
  BoundarySpec BoundarySpecR BoundaryModel BoundaryFrame BoundaryProofs BoundaryLinks NormSpec NormProofs.
Local Open Scope R_scope.
Local Notation sqrt := R_sqrt.sqrt.

Lemma coord_ext (a b : Coord R) : cx a = cx b -> cy a = cy b -> a = b.
Proof. destruct a, b; cbn; intros -> ->; reflexivity. Qed.
Lemma vadd_assoc a b c : vadd a (vadd b c) = vadd (vadd a b) c.
Proof. apply coord_ext; cbn; ring. Qed.
Lemma vadd_0 a : vadd a (mkCoord 0 0) = a.
Proof. apply coord_ext; cbn; ring. Qed.
Lemma vsum_snoc l a : fold_right vadd (mkCoord 0 0) (l ++ [a]) = vadd (fold_right vadd (mkCoord 0 0) l) a.
Proof. induction l as [|b l IH]; cbn; [apply coord_ext; cbn; ring|]. rewrite IH, vadd_assoc. reflexivity. Qed.

Definition on_top (c : Coord R) (qv : Coord R * Coord R) : bool := if Rlt_dec (sqdist (fst qv) c) tol then true else false.

Lemma gathered_top c l : gathered c l = match last (List.filter (on_top c) l) with
  | Some qv => snd qv | None => fold_right vadd (mkCoord 0 0) (map (fun qv => scale (/ sqdist (fst qv) c) (snd qv)) l) end.
Proof. reflexivity. Qed.

Lemma mixed_R c l : exists w f, mixed c l = (gathered c l, w, f) /\ (l <> [] -> 0 < w) /\ 0 <= w /\
  (f = true <-> last (List.filter (on_top c) l) <> None).
Proof.
  induction l as [|[q v] l IH] using rev_ind.
  - exists 0, false. split; [reflexivity|]. cbn. split; [congruence|]. split; [lra|]. split; [discriminate|congruence].
  - destruct IH as (w & f & M & Hp & Hw & Hf). unfold mixed in *. rewrite fold_left_app, M. cbn [fold_left].
    unfold take_in. unfold n1. rewrite nlit_R. cbn [nltb nadd nsub nmul ndiv nofZ NumR].
    assert (S : (cx q - cx c) * (cx q - cx c) + (cy q - cy c) * (cy q - cy c) = sqdist q c) by (unfold sqdist; ring).
    rewrite S. rewrite !gathered_top. rewrite List.filter_app, map_app. cbn [List.filter map].
    replace (IZR 1 / IZR 1000000) with tol by (unfold tol; lra).
    destruct (Rltb_spec (sqdist q c) tol) as [L|L].
    + assert (on_top c (q, v) = true) as -> by (unfold on_top; cbn; destruct (Rlt_dec _ _); [reflexivity|lra]).
      exists 1, true. rewrite last_snoc. split; [reflexivity|]. split; [lra|]. split; [lra|]. split; [congruence|reflexivity].
    + assert (on_top c (q, v) = false) as -> by (unfold on_top; cbn; destruct (Rlt_dec _ _); [lra|reflexivity]).
      rewrite app_nil_r. assert (Hs : 0 < sqdist q c) by (unfold tol in *; lra). pose proof (Rinv_0_lt_compat _ Hs) as I. destruct f.
      * exists w, true. destruct (last (List.filter (on_top c) l)) as [x|] eqn:E; [|exfalso; tauto].
        split; [reflexivity|]. split; [|split; [exact Hw|exact Hf]].
        intros _. apply Hp. intros ->. discriminate.
      * destruct (last (List.filter (on_top c) l)) as [x|] eqn:E; [exfalso; assert (false = true) by (apply Hf; discriminate); discriminate|].
        exists (w + 1 / sqdist q c), false. split; [|split; [|split; [|exact Hf]]].
        -- f_equal. f_equal. rewrite vsum_snoc. apply coord_ext; cbn; unfold Rdiv; ring.
        -- unfold Rdiv. lra.
        -- unfold Rdiv. lra.
Qed.

Lemma gathered_nil c : gathered c [] = mkCoord 0 0.
Proof. reflexivity. Qed.
Lemma vnorm_pos g : g <> mkCoord 0 0 -> 0 < vnorm g.
Proof.
  intros Hg. apply sqrt_lt_R0. destruct g as [x y]. cbn [cx cy]. pose proof (pow2_ge_0 x). pose proof (pow2_ge_0 y).
  destruct (Req_dec x 0) as [->|Hx].
  - destruct (Req_dec y 0) as [->|Hy]; [congruence|]. assert (0 < y ^ 2) by (destruct (Rdichotomy _ _ Hy); nra). lra.
  - assert (0 < x ^ 2) by (destruct (Rdichotomy _ _ Hx); nra). lra.
Qed.
Lemma unit_scaled g : g <> mkCoord 0 0 -> vnorm (scale (/ vnorm g) g) = 1.
Proof.
  intros Hg. pose proof (vnorm_pos g Hg) as P. unfold vnorm at 1. cbn [scale cx cy].
  replace ((/ vnorm g * cx g) ^ 2 + (/ vnorm g * cy g) ^ 2) with ((/ vnorm g) ^ 2 * (cx g ^ 2 + cy g ^ 2)) by ring.
  replace (cx g ^ 2 + cy g ^ 2) with (vnorm g ^ 2).
  - replace ((/ vnorm g) ^ 2 * vnorm g ^ 2) with 1 by (field; lra). apply sqrt_1.
  - unfold vnorm. rewrite <- Rsqr_pow2, Rsqr_sqrt; [reflexivity|]. pose proof (pow2_ge_0 (cx g)). pose proof (pow2_ge_0 (cy g)). lra.
Qed.

Lemma normalised N w : 0 < w -> (let nx := cx N / w in let ny := cy N / w in let norm := sqrt (nx * nx + ny * ny) in mkCoord (nx / norm) (ny / norm)) = scale (/ vnorm N) N.
Proof.
  intros Hw. cbv zeta. replace (cx N / w * (cx N / w) + cy N / w * (cy N / w)) with ((cx N ^ 2 + cy N ^ 2) * (/ w) ^ 2) by (field; lra).
  pose proof (Rinv_0_lt_compat _ Hw). rewrite sqrt_mult_alt by (pose proof (pow2_ge_0 (cx N)); pose proof (pow2_ge_0 (cy N)); lra). rewrite sqrt_pow2 by lra. fold (vnorm N).
  assert (Z : vnorm N = 0 \/ vnorm N <> 0) by (destruct (Req_dec (vnorm N) 0); auto). destruct Z as [Z|Z].
  - assert (N = mkCoord 0 0) as ->. { destruct (Req_dec (cx N) 0), (Req_dec (cy N) 0); [apply coord_ext; cbn; lra|exfalso..]; apply (Rlt_irrefl 0); rewrite <- Z at 2; apply vnorm_pos; intros ->; cbn in *; lra. }
    apply coord_ext; cbn; unfold Rdiv; ring.
  - apply coord_ext; cbn; field; split; lra.
Qed.
