(** * PropHeap: properties C01-C05 (src/Heap.cpp).

    The specification is HeapSpec.v: a queue is a finite map from handles to (address, value). *)

From Verif Require Import HeapModel HeapSpec HeapRefine NumR NumF64.
From Coq Require Import Sorting.Permutation Sorting.Sorted.

(** C01, C02.  Every history of calls (with ordered values, handles returned earlier, and at most
    [cap] pushes overall) returns what the abstract queue returns: [pop] and [peek] give a smallest
    live entry, [pop] removes exactly it, [set] changes exactly one entry, and the program exits
    exactly where the queue rejects the call. *)
Theorem C01_heap_is_priority_queue :
  forall (T : Type) (NT : Num T) (P : T -> Prop) (cap : nat) (t : bool) (os : list (hop T)),
    NumOrd T P -> P n0 ->
    pushes os <= cap -> handles_ok 0 os -> values_ok P os ->
    exists e, pq_run True cap (mkpq ∅ 0) os (heap_run (heap_new cap t) os).1 e /\
      same_end (heap_run (heap_new cap t) os).2 e.
Proof. intros T NT P cap t os. exact (heap_history_sorted P cap t os). Qed.
Print Assumptions C01_heap_is_priority_queue.

(** The same for IEEE doubles that are not NaN. *)
Theorem C01_heap_is_priority_queue_f64 :
  forall (cap : nat) (t : bool) (os : list (hop f64)),
    pushes os <= cap -> handles_ok 0 os -> values_ok f64_ordered os ->
    exists e, pq_run True cap (mkpq ∅ 0) os (heap_run (heap_new cap t) os).1 e /\
      same_end (heap_run (heap_new cap t) os).2 e.
Proof. intros cap t os. exact (heap_history_sorted f64_ordered cap t os NumOrdF64 eq_refl). Qed.
Print Assumptions C01_heap_is_priority_queue_f64.

(** [peek] returns the value the next [pop] returns, on every heap whatsoever. *)
Theorem C01_peek_is_next_pop :
  forall (T : Type) (NT : Num T) (h h' : Heap T) (v v' : T) (a : nat),
    heap_peek h = Ok v -> heap_pop h = Ok (h', (a, v')) -> v = v'.
Proof. intros T NT h h' v v' a. exact (peek_pop h v h' a v'). Qed.
Print Assumptions C01_peek_is_next_pop.

(** C02 even when values cannot be compared (NaN): the multiset of entries is still right. *)
Theorem C02_heap_keeps_entries_unordered :
  forall (T : Type) (NT : Num T) (cap : nat) (os : list (hop T)),
    pushes os <= cap -> handles_ok 0 os ->
    exists e, pq_run False cap (mkpq ∅ 0) os (heap_run (heap_new cap false) os).1 e /\
      same_end (heap_run (heap_new cap false) os).2 e.
Proof. intros T NT cap os. exact (heap_history_any cap os). Qed.
Print Assumptions C02_heap_keeps_entries_unordered.

(** C03. *)
Theorem C03_heap_memory_safe :
  forall (T : Type) (NT : Num T) (cap : nat) (t : bool) (os : list (hop T)),
    pushes os <= cap -> handles_ok 0 os ->
    (heap_run (heap_new cap t) os).2 <> UB /\ (heap_run (heap_new cap t) os).2 <> OutOfFuel.
Proof. intros T NT cap t os. exact (heap_history_safe cap t os). Qed.
Print Assumptions C03_heap_memory_safe.

(** C03, second half: the bound is on pushes over the whole lifetime.  With room for two entries
    and never more than one live, the third push writes out of bounds. *)
Theorem C03_heap_lifetime_bound_refuted :
  exists os : list (hop f64), handles_ok 0 os /\ values_ok f64_ordered os /\ pushes os = 3 /\
    (heap_run (heap_new 2 false) os).2 = UB.
Proof.
  exists [OPush 0 n1; OPop; OPush 1 n1; OPop; OPush 2 n1].
  split; [cbn; auto|]. split; [cbn [values_ok]; unfold f64_ordered; repeat split; vm_compute; reflexivity|]. split; [reflexivity|].
  vm_compute. reflexivity.
Qed.
Print Assumptions C03_heap_lifetime_bound_refuted.

(** C04. *)
Theorem C04_heap_drain_sorts :
  forall (T : Type) (NT : Num T) (P : T -> Prop) (cap : nat) (t : bool) (l : list (nat * T)),
    NumOrd T P -> P n0 -> Forall (fun e => P e.2) l -> length l <= cap ->
    exists l' h,
      heap_run (heap_new cap t)
        (map (fun e => OPush e.1 e.2) l ++ replicate (length l) OPop ++ [OSize]) =
      (map RHandle (seq 0 (length l)) ++ map (fun e => REntry e.1 e.2) l' ++ [RSize 0], Ok h) /\
      Permutation l' l /\
      StronglySorted (fun a b => nltb b.2 a.2 = false) l'.
Proof. intros T NT P cap t l. exact (heap_drain_sorts P cap t l). Qed.
Print Assumptions C04_heap_drain_sorts.

(** C05: same results and same end; the only difference in the final state is the test flag. *)
Theorem C05_self_test_transparent :
  forall (T : Type) (NT : Num T) (P : T -> Prop) (cap : nat) (os : list (hop T)),
    NumOrd T P -> P n0 -> pushes os <= cap -> handles_ok 0 os -> values_ok P os ->
    (heap_run (heap_new cap true) os).1 = (heap_run (heap_new cap false) os).1 /\
    (heap_run (heap_new cap true) os).2 =
      map_outcome (set_test true) (heap_run (heap_new cap false) os).2.
Proof. intros T NT P cap os. exact (heap_test_transparent P cap os). Qed.
Print Assumptions C05_self_test_transparent.

(** ** The hypotheses are met: a history with ties, re-prioritisation up and down, a stale handle,
    and a final pop on the empty heap. *)
Definition f (p q : Z) : f64 := nlit p q.
Definition sample : list (hop f64) :=
  [OPush 10 (f 3 1); OPush 11 (f 1 2); OPush 12 (f 1 2); OPush 13 (f (-7) 10); OPeek; OPop;
   OSet 0 (f (-1) 1); OSet 1 (f 5 1); OSet 3 (f (-9) 1); OSize; OPop; OPop; OPop; OEmpty; OPop].
Definition show (r : hres f64) : nat :=
  match r with
  | RHandle k => k | REntry a v => a | RVal v => 0
  | RSize n => n | RBool b => if b then 1 else 0 | RUnit => 0
  end.
Example heap_sample_meets : pushes sample <= 4 /\ handles_ok 0 sample /\ values_ok f64_ordered sample.
Proof. split; [cbn; lia|]. split; [cbn; lia|]. cbn [values_ok sample]; unfold f64_ordered; repeat split; vm_compute; reflexivity. Qed.
Example heap_sample_runs :
  map show (heap_run (heap_new 4 true) sample).1 = [0;1;2;3;0;13;0;0;0;3;10;12;11;1] /\
  (heap_run (heap_new 4 true) sample).2 = Exit.
Proof. split; vm_compute; reflexivity. Qed.
