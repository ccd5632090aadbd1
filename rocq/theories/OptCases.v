(** * OptCases: concrete problems for the theorems about Optimise. *)

From Coq Require Import Reals Lra.
From Verif Require Import Num NumR NumF64 LevelSetModel OptModel OptSpec OptFrame OptReal OptGrad OptSolve OptConstr OptRounds OptTotal OptMain.

(** An NLopt that evaluates the objective at [x] and returns it. *)
Definition evaluate {T} (x : nat -> T) : nat -> Opt T -> Nlopt T := fun _ _ => NlCall 0 x false (fun v _ => NlEnd (NlReturn 1 x v)).

Lemma oupdate_again {A B} (g : A -> B -> outcome B) l1 : (forall a b c, g a b = Ok c -> g a c = Ok c) -> forall l2 r, oupdate g l1 l2 = Ok r -> oupdate g l1 r = Ok r.
Proof.
  intros Hg. induction l1 as [|a l1 IH]; intros l2 r E; [reflexivity|]. destruct l2 as [|b l2]; [discriminate|]. cbn in E.
  destruct (g a b) as [c| | |] eqn:E1; try discriminate. cbn in E. destruct (oupdate g l1 l2) as [r'| | |] eqn:E2; try discriminate. cbn in E.
  injection E as <-. cbn. rewrite (Hg _ _ _ E1). cbn. rewrite (IH _ _ E2). reflexivity.
Qed.

Lemma evaluate_truthful x : truthful (evaluate x).
Proof.
  intros k o o1 code y v E. unfold evaluate in E. cbn [run_nlopt] in E. destruct (opt_callback o _ false 0) as [[[o2 w] gr]| | |] eqn:E1; try discriminate.
  cbn [obind] in E. injection E as -> <- <- <-. unfold opt_callback, computeDisplacements in E1.
  destruct (oupdate _ _ _) as [d| | |] eqn:E2; try discriminate. cbn [obind] in E1. destruct (computeFunction _ 0) as [w'| | |] eqn:E3; try discriminate.
  cbn [obind] in E1. injection E1 as <- -> <-. exists (set_disp d o). unfold opt_callback, computeDisplacements.
  change (op_points (set_disp d o)) with (op_points o). change (op_disp (set_disp d o)) with d. change (op_n (set_disp d o)) with (op_n o).
  rewrite (oupdate_again (disp_point (set_disp d o) (tabulate (op_n o + 1) x)) (op_points o)) with (l2 := op_disp o).
  - cbn [obind]. change (set_disp d (set_disp d o)) with (set_disp d o). rewrite E3. reflexivity.
  - intros p b c. unfold disp_point. destruct (bp_fixed p); auto.
  - exact E2.
Qed.

Section r.
Open Scope R_scope.
Definition rpoint (len : R) (fixed : bool) (sens : list R) : BoundaryPoint R :=
  mkBP (mkCoord 0 0) (mkCoord 0 0) len 0 0 0 false fixed 0 [] 0 [] sens.
(** Three points, one of them fixed; one objective and one constraint. *)
Definition three : list (BoundaryPoint R) := [rpoint 1 false [1; 2]; rpoint (1 / 2) false [-3; 1]; rpoint 1 true [5; 5]].
Lemma three_moving p : p ∈ three -> bp_fixed p = false -> p = rpoint 1 false [1; 2] \/ p = rpoint (1 / 2) false [-3; 1].
Proof.
  intros Hp Hf. unfold three in Hp. rewrite !elem_of_cons in Hp. destruct Hp as [-> | [-> | [-> | Hp]]]; auto; [discriminate|inversion Hp].
Qed.
Lemma three_sensitive k : (k < 2)%nat -> sensitive k three.
Proof.
  intros Hk. split.
  - exists (rpoint 1 false [1; 2]). split; [left|]. split; [reflexivity|]. cbn [bp_sens rpoint bp_length]. split; [|lra].
    destruct k as [|[|k]]; cbn; try lra; lia.
  - intros p Hp Hf. destruct (three_moving p Hp Hf) as [-> | ->]; cbn; lra.
Qed.
Lemma three_has : has_sens 2 three.
Proof. intros p Hp Hf. destruct (three_moving p Hp Hf) as [-> | ->]; cbn; lia. Qed.
Lemma three_free p : p ∈ three -> bp_fixed p = false -> bp_domain p = false.
Proof. intros Hp Hf. destruct (three_moving p Hp Hf) as [-> | ->]; reflexivity. Qed.
Lemma three_sides limit : side_limits limit three.
Proof. intros p Hp Hd. unfold three in Hp. rewrite !elem_of_cons in Hp. destruct Hp as [-> | [-> | [-> | Hp]]]; try discriminate. inversion Hp. Qed.

Lemma change_nonneg limit points keep k m : 0 < limit -> largest_change limit points keep k m -> 0 <= m.
Proof.
  intros Hl [Up _]. specialize (Up (fun _ => 0)). replace (integral k points (combined keep (fun _ => 0))) with 0 in Up.
  - apply Up. intros j _. rewrite Rabs_R0. left. apply range_pos, Hl.
  - clear Up. unfold integral. induction points as [|p ps IH]; cbn; [reflexivity|].
    assert (Z : combined keep (fun _ => 0) p = 0).
    { unfold combined. destruct (bp_fixed p); [reflexivity|]. clear IH. induction keep as [|j l IHl]; cbn; [reflexivity|]. rewrite IHl. lra. }
    rewrite <- IH, Z. lra.
Qed.

(** solve with an NLopt that picks the multipliers 1, -1. *)
Definition mu_r (j : nat) : R := if (j =? 0)%nat then 1 else -1.
Lemma three_ctor target : exists o, optimise_ctor three [target] [1; 1] 0 (1 / 2) false [] = Ok o.
Proof.
  unfold optimise_ctor, check. match goal with |- context [if ?b then _ else _] => replace b with true end; [cbn; eauto|].
  symmetry. apply andb_true_intro. split; apply Rltb_true; cbn; lra.
Qed.
Lemma three_keeps target : target <= 0 -> forall k m, (1 <= k < 2)%nat -> largest_change (1 / 2) three (seq 0 2) k m ->
  nth (k - 1) [] false = true \/ nth (k - 1) [target] 0 <= 99 / 100 * m.
Proof. intros Ht k m Hk Hm. right. apply change_nonneg in Hm; [|lra]. destruct k as [|[|k]]; cbn in *; try lia. lra. Qed.
Theorem three_solved (target : R) : target <= 0 -> exists o, optimise_ctor three [target] [1; 1] 0 (1 / 2) false [] = Ok o /\ truthful (evaluate mu_r) /\
  exists F, forall fuel, (F <= fuel)%nat -> exists o' v, solve (evaluate mu_r) fuel o = Ok (o', Some v).
Proof.
  intros Ht. destruct (three_ctor target) as [o C]. exists o. split; [exact C|]. split; [apply evaluate_truthful|].
  eapply solve_returns; [exact C|apply three_has|apply three_sensitive|apply three_free|left; reflexivity|cbn; lia|apply (three_keeps _ Ht)|].
  intros o1 _. cbn. split; [lia|]. intros; lia.
Qed.
(** With a constraint of any slack above 2 the constraint is removed. *)
Lemma three_range j : (j < 2)%nat -> lambda_range (1 / 2) three j <= 1 / 2.
Proof.
  intros Hj. unfold lambda_range. assert (1 <= largest j three).
  { eapply Rle_trans; [|apply (largest_le j three (rpoint 1 false [1; 2])); [left|reflexivity]]. cbn [bp_sens rpoint].
    destruct j as [|[|j]]; cbn [nth]; [rewrite Rabs_right; lra|rewrite Rabs_right; lra|lia]. }
  assert (1 <= Rmax (/ 2 ^ 1022) (largest j three)) by (eapply Rle_trans; [exact H|apply Rmax_r]).
  apply Rmult_le_reg_r with (Rmax (/ 2 ^ 1022) (largest j three)); [lra|]. unfold Rdiv at 1. rewrite Rmult_assoc, Rinv_l by lra. nra.
Qed.
Lemma three_removes target : 5 / 2 <= target -> all_removed (1 / 2) three [target] [1; 1] [].
Proof.
  intros Ht k m Hk (_ & mu & Hmu & Hm). cbn [length] in *. assert (k = 1%nat) as -> by lia. split; [reflexivity|]. cbn [Nat.sub nth].
  pose proof (Hmu 0%nat ltac:(left)) as H0. pose proof (Hmu 1%nat ltac:(right; left)) as H1.
  pose proof (three_range 0 ltac:(lia)). pose proof (three_range 1 ltac:(lia)). cbn in Hm.
  assert (Rabs (mu 0%nat) <= 1 / 2) as K0 by lra. assert (Rabs (mu 1%nat) <= 1 / 2) as K1 by lra. apply abs_le in K0, K1. lra.
Qed.
Theorem three_unconstrained (target : R) : 5 / 2 <= target -> exists o, optimise_ctor three [target] [1; 1] 0 (1 / 2) false [] = Ok o /\
  (forall o1, op_n o1 = 1%nat \/ op_n o1 = 0%nat -> polite (op_n o1) (evaluate mu_r 0%nat o1)).
Proof. intros Ht. destruct (three_ctor target) as [o C]. exists o. split; [exact C|]. intros o1 _. cbn. split; [lia|]. intros; lia. Qed.
Theorem three_callback : exists o, optimise_ctor three [-1] [1; 1] 0 (1 / 2) false [] = Ok o /\ exists fuel o1, prepare fuel o = Ok o1 /\ op_n o1 = 1%nat /\
  forall la ix, length la = 2%nat -> (ix < 2)%nat -> exists o3 f gr, opt_callback o1 la true ix = Ok (o3, f, gr).
Proof.
  destruct (three_ctor (-1)) as [o C]. exists o. split; [exact C|].
  assert (Ht : -1 <= 0) by lra.
  edestruct prepare_returns as [F HF]; [exact C|apply three_has|apply three_sensitive|apply three_free|left; reflexivity|cbn; lia|exact (three_keeps _ Ht)|].
  destruct (HF F (le_n F)) as (o1 & E & W & Lt & Lg). exists F, o1. split; [exact E|]. pose proof W as [G N].
  pose proof (ctor_inv _ _ _ _ _ _ _ _ C) as (_ & _ & _ & _ & Eo). assert (N1 : op_n o1 = 1%nat) by exact N. assert (N0 : op_n0 o = 1%nat) by (rewrite Eo; reflexivity).
  split; [exact N1|]. intros la ix La Hix. assert (Hs : has_sens (op_n0 o + 1) (op_points o)) by (rewrite Eo; exact three_has).
  pose proof (callback_tot o Hs 1%nat (or_introl (eq_sym N0)) o1 la true ix W) as T. rewrite N1 in T. apply wp_total in T; auto; try lia.
  destruct T as ([[o3 f] gr] & E3 & _). eauto.
Qed.
End r.

(** ** Doubles *)
Definition d64 (p q : Z) : f64 := nlit p q.
Definition fpoint (domain : bool) (neg : f64) (sens : list f64) : BoundaryPoint f64 :=
  mkBP (mkCoord (d64 0 1) (d64 0 1)) (mkCoord (d64 0 1) (d64 0 1)) (d64 1 1) (d64 0 1) neg (d64 0 1) domain false 0 [] 0 [] sens.
Definition pair64 : list (BoundaryPoint f64) := [fpoint false (d64 0 1) [d64 1 1; d64 2 1; d64 (-1) 1]; fpoint false (d64 0 1) [d64 (-3) 1; d64 1 1; d64 2 1]].
Definition start64 (points : list (BoundaryPoint f64)) (dist lambdas : list f64) : outcome (Opt f64) :=
  optimise_ctor points dist lambdas (d64 0 1) (d64 1 2) false [].
Definition tenth : nat -> f64 := fun _ => d64 1 10.
(** The first attempt ends with the exception for limited accuracy, the second one succeeds. *)
Definition throws : nat -> Opt f64 -> Nlopt f64 := fun k _ =>
  match k with
  | 0 => NlEnd (NlThrow RoundoffLimited tenth (Some (d64 1 1)))
  | _ => NlEnd (NlReturn 1 tenth (d64 1 1))
  end.
(** A point on the border of the domain with the given negative limit, alone or with a free point. *)
Definition one64 (neg : f64) : list (BoundaryPoint f64) := [fpoint true neg [d64 1 1]].
Definition side64 (neg : f64) : list (BoundaryPoint f64) := [fpoint true neg [d64 1 1]; fpoint false (d64 0 1) [d64 10 1]].
(** The displacements and the integral of sensitivity times displacement over the points as solve leaves them. *)
Definition moved64 (o : Opt f64) : list f64 := map (fun p => (bp_velocity p * op_time o)%num) (op_points o).
Definition integral64 (o : Opt f64) : f64 :=
  fold_right nadd (d64 0 1) (map (fun p => (nth 0 (bp_sens p) (d64 0 1) * (bp_velocity p * op_time o) * bp_length p)%num) (op_points o)).
