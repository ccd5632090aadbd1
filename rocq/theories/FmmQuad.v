(** * FmmQuad: the quadratic of updateNode over the reals. *)

From Verif Require Import MeshTopo FmmModel FmmSpec FmmProofs FmmFacts FmmReal NumR.
Local Open Scope R_scope.

Definition M : R := nmaxDouble.
Lemma M_eq : nmaxDouble = M. Proof. reflexivity. Qed.
Lemma M_large : IZR (2 ^ 40) < M.
Proof. unfold M, nmaxDouble. cbn [nofZ NumR]. apply IZR_lt. reflexivity. Qed.
Global Opaque M.
Lemma eps_small : 0 < nepsilon < 1.
Proof.
  unfold nepsilon. rewrite nlit_R. assert (1 < IZR (2 ^ 52)) by (apply IZR_lt; reflexivity).
  split.
  - apply Rdiv_lt_0_compat; lra.
  - apply Rmult_lt_reg_r with (IZR (2 ^ 52)); [lra|]. unfold Rdiv. rewrite Rmult_assoc, Rinv_l by lra. lra.
Qed.

Section quad.
  Context (W H : nat) (copy : list R).
  Variable f : nat -> option R.

  Definition pairR (i a : nat) : R * R := dstep W H f i (2 * a + 1) (dstep W H f i (2 * a + 0) (M, M)).
  (** Weight and target of one dimension. *)
  Definition coef (p : R * R) : R * R :=
    let '(d1, d2) := p in
    if Rltb d2 M then (9 / 4, (4 * d1 - d2) / 3) else if Rltb d1 M then (1, d1) else (0, 0).

  Lemma dimstep_R i a qa qb qc : dimstep W H f i a (qa, qb, qc) =
    let '(al, ta) := coef (pairR i a) in (qa + al, qb - 2 * al * ta, qc + al * ta * ta).
  Proof.
    unfold dimstep. rewrite M_eq. fold (pairR i a). destruct (pairR i a) as [d1 d2]. unfold coef.
    cbn [nltb NumR nofZ nadd nsub nmul ndiv]. num_R. destruct (Rltb d2 M); [|destruct (Rltb d1 M)].
    - repeat f_equal; field.
    - repeat f_equal; ring.
    - repeat f_equal; ring.
  Qed.

  Lemma upd_R old i c : copy !! i = Some c ->
    let '(a0, t0) := coef (pairR i 0) in
    let '(a1, t1) := coef (pairR i 1) in
    let a := a0 + a1 in let B := a0 * t0 + a1 * t1 in let C := a0 * t0 * t0 + a1 * t1 * t1 - 1 in
    let D := B * B - a * C in
    (0 < D -> upd W H copy f old i = Some (if Rltb nepsilon c then (B + R_sqrt.sqrt D) / a else (B - R_sqrt.sqrt D) / a)) /\
    (D <= 0 -> upd W H copy f old i = old).
  Proof.
    intros Hc. unfold upd. rewrite !dimstep_R. destruct (coef (pairR i 0)) as [a0 t0]. rewrite dimstep_R.
    destruct (coef (pairR i 1)) as [a1 t1]. cbv zeta.
    set (a := a0 + a1). set (B := a0 * t0 + a1 * t1). set (C := a0 * t0 * t0 + a1 * t1 * t1 - 1). set (D := B * B - a * C).
    cbn [nltb NumR nofZ nadd nsub nmul ndiv nneg nsqrt]. rewrite n0_R, n1_R.
    match goal with |- context [Rltb 0 ?d] => replace d with (4 * D) by (unfold D, B, C, a; ring) end.
    destruct (Rltb_spec 0 (4 * D)) as [HD|HD]; split; intros HD'; try (exfalso; lra); [|reflexivity].
    rewrite Hc.
    replace (R_sqrt.sqrt (4 * D)) with (2 * R_sqrt.sqrt D).
    2:{ rewrite sqrt_mult by lra. replace 4 with (2 * 2) by ring. rewrite sqrt_square by lra. reflexivity. }
    f_equal. replace (0 + a0 + a1) with a by (unfold a; ring).
    replace (- (0 - 2 * a0 * t0 - 2 * a1 * t1)) with (2 * B) by (unfold B; ring).
    destruct (Rltb nepsilon c); unfold Rdiv; rewrite Rinv_mult; set (ia := / a); field.
  Qed.
End quad.
