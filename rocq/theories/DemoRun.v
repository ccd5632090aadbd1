(** * DemoRun: concrete runs of the demo programs in floating point. *)

From Verif Require Import OptModel OptCases.
From Verif Require Import Base Num NumF64 NumInt MeshModel MeshSpec LevelSetModel LevelSetSpec LevelSetCalls LevelSetHist LevelSetParams BoundaryModel TwinCase DemoModel DemoSpec DemoLoop DemoBrolly.
Local Open Scope nat_scope.

(** Holes in a 4 by 4 mesh, with and without a target. *)
Notation disc4 := (ls_new_holes 4 4 [mkHole (mkCoord (f 2 1) (f 2 1)) (f 5 4)] (f 1 2) 3 true).
Notation pair4 := (ls_new_holes_holes 4 4 [mkHole (mkCoord (f 2 1) (f 2 1)) (f 5 4)] [mkHole (mkCoord (f 2 1) (f 2 1)) (f 3 2)] (f 1 2) 3 true).
(** A small hole at the border of the domain. *)
Notation edge4 := (ls_new_holes_holes 4 4 [mkHole (mkCoord (f 0 1) (f 2 1)) (f 1 3)] [mkHole (mkCoord (f 2 1) (f 2 1)) (f 3 2)] (f 1 2) 3 true).
Lemma fits4 : fits_ls 4 4 3.
Proof. unfold fits_ls, node_count. lia. Qed.

Definition calm : nat -> nat -> f64 := fun _ _ => n0.
(** An NLopt that tries one small step. *)
Definition tiny : nat -> nat -> Opt f64 -> Nlopt f64 := fun _ => evaluate (fun i => if (i =? 0)%nat then d64 (-1) 100 else d64 1 1000).

Section watch.
  Variables (d : Demo f64) (nlopt : nat -> nat -> Opt f64 -> Nlopt f64) (fuel : nat) (rng : nat -> nat -> f64) (interval maxTime : f64).
  Fixpoint watch (n k : nat) (r : Run f64) : outcome (list (f64 * bool) * Run f64) :=
    match n with
    | 0 => Ok ([], r)
    | S n' => if (sm_time (rn_sim r) <? maxTime)%num then
                let! (r1, b) := full_turn d nlopt fuel rng interval k r in
                let! (l, r2) := watch n' (S k) r1 in Ok ((sm_time (rn_sim r1), b) :: l, r2)
              else Ok ([], r)
    end.
  Lemma watch_history n : forall k r l r', watch n k r = Ok (l, r') -> history d nlopt fuel rng interval maxTime k r l r'.
  Proof.
    induction n as [|n IH]; intros k r l r' E; cbn [watch] in E; [injection E as <- <-; constructor|].
    destruct (sm_time (rn_sim r) <? maxTime)%num eqn:Et; [|injection E as <- <-; constructor].
    apply Ok_bind in E as ([r1 b] & E1 & E). apply Ok_bind in E as ([l1 r2] & E2 & E). injection E as <- <-.
    eapply h_turn; [exact Et|exact E1|]. apply IH, E2.
  Qed.
End watch.

(** Whether a due time that has passed implies that the earlier ones have, for times [ts] and due times up to number [N]. *)
Definition orderly (interval next : f64) (N : nat) (ts : list f64) : bool :=
  forallb (fun t => forallb (fun j => forallb (fun i => negb (due interval next j <=? t)%num || (due interval next i <=? t)%num) (seq 0 (j + 1))) (seq 0 (N + 1))) ts.
Lemma orderly_spec interval next N ts : orderly interval next N ts = true ->
  forall t i j, t ∈ ts -> i <= j <= N -> (due interval next j <=? t)%num = true -> (due interval next i <=? t)%num = true.
Proof.
  unfold orderly. rewrite forallb_forall. intros A t i j Ht Hij E. specialize (A t (proj1 (elem_of_list_In _ _) Ht)).
  rewrite forallb_forall in A. specialize (A j ltac:(apply in_seq; lia)). rewrite forallb_forall in A. specialize (A i ltac:(apply in_seq; lia)).
  rewrite E in A. exact A.
Qed.
