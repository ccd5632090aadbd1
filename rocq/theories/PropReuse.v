(** * PropReuse: calling solve again on the same Optimise object (C88). *)

From Flocq Require Import IEEE754.BinarySingleNaN.
From Verif Require Import Base Num NumF64 LevelSetModel OptModel OptFrame OptCases UnitsSpec ReuseSpec Reuse.

(** ** C88: an Optimise object without constraints may be used again and again, also after the boundary points and the multipliers have changed: the
    next solve has the result that solve of a new object has.  This holds in doubles as in exact arithmetic, for every history of calls. *)
Theorem C88_use_again_partial {T : Type} `{Num T} nlopt fuel time limit isMax isEq (f o : Opt T) : used limit isMax isEq o ->
  optimise_ctor (op_points o) [] (op_lambdas o) time limit isMax isEq = Ok f -> by_the_problem nlopt -> (forall p, returns (nlopt 0 p)) ->
  same_outcome same_result (solve nlopt fuel f) (solve nlopt fuel o).
Proof. exact (reuse_used nlopt fuel time limit isMax isEq f o). Qed.
Print Assumptions C88_use_again_partial.

(** ** C88 with constraints: the same for an object that still has all its constraints and their distances. *)
Theorem C88_leftovers_partial {T : Type} `{Num T} nlopt fuel points dist lambdas time limit isMax isEq (f o : Opt T) :
  optimise_ctor points dist lambdas time limit isMax isEq = Ok f -> as_new f o -> by_the_problem nlopt -> (forall p, returns (nlopt 0 p)) ->
  same_outcome same_result (solve nlopt fuel f) (solve nlopt fuel o).
Proof. exact (reuse nlopt fuel points dist lambdas time limit isMax isEq f o). Qed.
Print Assumptions C88_leftovers_partial.

(** NLopt returns one tenth for each multiplier. *)
Definition plain64 : nat -> Opt f64 -> Nlopt f64 := fun _ _ => NlEnd (NlReturn 1 tenth (d64 1 1)).
(** Two points, and the same with the first one fixed. *)
Definition free64 : BoundaryPoint f64 := fpoint false (d64 0 1) [d64 1 1; d64 1 1].
Definition held64 : BoundaryPoint f64 :=
  mkBP (mkCoord (d64 0 1) (d64 0 1)) (mkCoord (d64 0 1) (d64 0 1)) (d64 1 1) (d64 0 1) (d64 0 1) (d64 0 1) false true 0 [] 0 [] [d64 1 1; d64 1 1].

(** Two points, one of them fixed; after a first solve the free point is gone to another place with another sensitivity. *)
Example C88_case : exists o f, used (d64 1 2) false [] o /\ optimise_ctor (op_points o) [] (op_lambdas o) (d64 0 1) (d64 1 2) false [] = Ok f /\ op_disp o <> [] /\
  by_the_problem plain64 /\ (forall p, returns (plain64 0 p)) /\ exists o' v, solve plain64 100 f = Ok (o', Some v).
Proof.
  set (next := [held64; fpoint false (d64 0 1) [d64 3 1]]).
  assert (B : (let! o := start64 [held64; free64] [] [d64 1 1] in let! (o, _) := solve plain64 100 o in
    let! f := optimise_ctor next [] (op_lambdas o) (d64 0 1) (d64 1 2) false [] in let! (_, v) := solve plain64 100 f in
    Ok (map bp_fixed (op_points o), length (op_disp o), match v with Some _ => true | None => false end)) = Ok ([true; false], 2, true)) by (vm_compute; reflexivity).
  unfold start64 in B. destruct (optimise_ctor [held64; free64] [] [d64 1 1] (d64 0 1) (d64 1 2) false []) as [o| | |] eqn:C; cbn [obind] in B; try discriminate.
  destruct (solve plain64 100 o) as [[o1 v1]| | |] eqn:S1; cbn [obind] in B; try discriminate.
  destruct (optimise_ctor next [] _ _ _ _ _) as [f| | |] eqn:C2; cbn [obind] in B; try discriminate.
  destruct (solve plain64 100 f) as [[o2 v2]| | |] eqn:S2; cbn [obind] in B; try discriminate. destruct v2 as [v2|]; [|discriminate]. injection B as B1 B2.
  exists (set_lambdas (op_lambdas o1) (set_points next o1)), f. split; [|split; [exact C2|]].
  - eapply used_again; [eapply used_new, C|exact S1|]. intros i p q Hp Hq Fq. destruct i as [|[|i]]; cbn in Hq; try discriminate; [|injection Hq as <-; discriminate].
    assert (E : map bp_fixed (op_points o1) !! 0 = Some (bp_fixed p)) by (rewrite list_lookup_fmap, Hp; reflexivity). rewrite B1 in E. injection E as <-. reflexivity.
  - split; [cbn; intros E; rewrite E in B2; discriminate|]. split; [intros ? ? ? _ _ _ _ _ _; reflexivity|]. split; [constructor|]. exists o2, v2. exact S2.
Qed.

Definition far64 : list (BoundaryPoint f64) := [fpoint false (d64 0 1) [d64 1 1; d64 1 1024]; fpoint false (d64 0 1) [d64 1 1; d64 (-1) 1024]].
Definition near64 : list (BoundaryPoint f64) := [fpoint false (d64 0 1) [d64 1 1; d64 1 1]; fpoint false (d64 0 1) [d64 1 1; d64 (-1) 1]].
(** One constraint within reach: after solve the object still has it, so the theorem tells of the next call. *)
Lemma same_doubles (l l' : list f64) : map B2SF l = map B2SF l' -> l = l'.
Proof.
  revert l'. induction l as [|x l IH]; intros [|y l'] E; try discriminate; [reflexivity|]. cbn [map] in E. injection E as E1 E2. f_equal; [apply B2SF_inj, E1|apply IH, E2].
Qed.
Example C88_kept : exists o1 f, optimise_ctor (op_points o1) [d64 1 8] (op_lambdas o1) (d64 0 1) (d64 1 2) false [] = Ok f /\ as_new f o1 /\ op_n o1 = 1 /\ op_scale o1 <> op_scale f /\
  exists o, start64 near64 [d64 1 8] [d64 1 1; d64 1 1] = Ok o /\ exists v, solve plain64 100 o = Ok (o1, Some v).
Proof.
  assert (B : (let! o := start64 near64 [d64 1 8] [d64 1 1; d64 1 1] in let! (o, v) := solve plain64 100 o in
    let! f := optimise_ctor (op_points o) [d64 1 8] (op_lambdas o) (d64 0 1) (d64 1 2) false [] in
    Ok ((match v with Some _ => true | None => false end, map B2SF (op_dist o), map B2SF (op_target o), B2SF (op_limit o), op_isMax o, op_isEq o),
        (op_n o, op_n0 o, length (op_neg o), length (op_pos o), length (op_scale o), map bp_fixed (op_points o)),
        match op_scale o with x :: _ => (x =? n0)%num | [] => true end)) =
    Ok ((true, map B2SF [d64 1 8], map B2SF [d64 1 8], B2SF (d64 1 2), false, [false]), (1, 1, 2, 2, 2, [false; false]), false)) by (vm_compute; reflexivity).
  destruct (start64 near64 [d64 1 8] [d64 1 1; d64 1 1]) as [o| | |]; cbn [obind] in B; try discriminate.
  destruct (solve plain64 100 o) as [[o1 v1]| | |] eqn:S1; cbn [obind] in B; try discriminate.
  destruct (optimise_ctor (op_points o1) [d64 1 8] _ _ _ _ _) as [f| | |] eqn:C; cbn [obind] in B; try discriminate.
  destruct v1 as [v1|]; [|discriminate]. apply (f_equal (fun x => match x with Ok y => y | _ => ((true, [], [], B2SF (d64 1 2), false, []), (0, 0, 0, 0, 0, []), false) end)) in B. cbv beta iota in B.
  apply pair_equal_spec in B as [B Bs]. apply pair_equal_spec in B as [B1 B2]. do 5 (apply pair_equal_spec in B1 as [B1 ?]). do 5 (apply pair_equal_spec in B2 as [B2 ?]).
  exists o1, f. split; [exact C|]. apply ctor_inv in C as (_ & _ & _ & _ & ->). split.
  - constructor; cbn; auto; try (apply same_doubles; assumption); [apply B2SF_inj; assumption|]. intros i p d Hp Fp. exfalso.
    assert (E : map bp_fixed (op_points o1) !! i = Some true) by (rewrite list_lookup_fmap, Hp; cbn; f_equal; exact Fp). match goal with X : map bp_fixed _ = _ |- _ => rewrite X in E end. destruct i as [|[|i]]; discriminate.
  - split; [exact B2|]. split; [|eauto]. cbn. intros E. rewrite E in Bs. vm_compute in Bs. discriminate.
Qed.

(** ** Without the condition on fixed points the claim is false: a point that has become fixed, at a position where a free point was, moves. *)
Theorem C88_fixed_refuted :
  (let! o := start64 [free64; free64] [] [d64 1 1] in let! (o, _) := solve plain64 100 o in
   let! (o, v) := solve plain64 100 (set_points [held64; free64] o) in
   let! p := vget (op_points o) 0 in Ok (bp_fixed p, (bp_velocity p =? n0)%num, match v with Some _ => true | None => false end)) = Ok (true, false, true).
Proof. vm_compute. reflexivity. Qed.
Print Assumptions C88_fixed_refuted.

(** ** With constraints the claim is false for the objects solve leaves behind: a constraint that was out of reach in the first call is no longer
    looked at in the second one, although it is within reach then: its multiplier is zero where a new object gives it a value. *)
Definition multiplier (r : outcome (Opt f64 * option f64)) : outcome bool := let! (o, v) := r in let! x := vget (op_lambdas o) 1 in match v with Some _ => Ok (x =? n0)%num | None => UB end.
Theorem C88_dropped_refuted :
  (let! o := start64 far64 [d64 1 8] [d64 1 1; d64 1 1] in let! (o, _) := solve plain64 100 o in
   let! again := multiplier (solve plain64 100 (set_points near64 o)) in
   let! f := start64 near64 [d64 1 8] [d64 1 1; d64 1 1] in let! new := multiplier (solve plain64 100 f) in Ok (again, new)) = Ok (true, false).
Proof. vm_compute. reflexivity. Qed.
Print Assumptions C88_dropped_refuted.
