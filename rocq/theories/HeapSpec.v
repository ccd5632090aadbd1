(** * HeapSpec: what a min-priority queue with handles should do.

    A small specification, independent of the array representation.  A queue is a finite
    map from handles to (address, value) entries plus the next handle to be handed out. *)

From Verif Require Export HeapModel.
From stdpp Require Export gmap.

Section HeapSpec.
  Context {T : Type} `{Num T}.

  Record pq := mkpq { pq_live : gmap nat (nat * T); pq_next : nat }.

  (** The calls a user can make and what they return. *)
  Inductive hop :=
  | OPush (a : nat) (v : T) | OPop | OSet (k : nat) (v : T) | OPeek | OSize | OEmpty.
  Inductive hres :=
  | RHandle (k : nat) | REntry (a : nat) (v : T) | RVal (v : T) | RSize (n : nat) | RBool (b : bool) | RUnit.

  (** [v] is a smallest value in the queue. *)
  Definition smallest (q : gmap nat (nat * T)) (v : T) : Prop :=
    forall k' a' v', q !! k' = Some (a', v') -> nltb v' v = false.

  (** One call.  [sorted] says whether [pop] and [peek] are required to return a smallest
      entry ([True] for ordered values; [False] when comparisons may be meaningless, e.g. NaN). *)
  Inductive pq_step (sorted : Prop) (cap : nat) (q : pq) : hop -> pq -> hres -> Prop :=
  | st_push a v :
      size (pq_live q) < cap ->
      pq_step sorted cap q (OPush a v) (mkpq (<[pq_next q := (a, v)]> (pq_live q)) (S (pq_next q))) (RHandle (pq_next q))
  | st_pop k a v :
      pq_live q !! k = Some (a, v) -> (sorted -> smallest (pq_live q) v) ->
      pq_step sorted cap q OPop (mkpq (delete k (pq_live q)) (pq_next q)) (REntry a v)
  | st_set k v :
      pq_step sorted cap q (OSet k v) (mkpq (alter (fun e => (e.1, v)) k (pq_live q)) (pq_next q)) RUnit
  | st_peek k a v :
      pq_live q !! k = Some (a, v) -> (sorted -> smallest (pq_live q) v) ->
      pq_step sorted cap q OPeek q (RVal v)
  | st_size : pq_step sorted cap q OSize q (RSize (size (pq_live q)))
  | st_empty : pq_step sorted cap q OEmpty q (RBool (bool_decide (pq_live q = ∅))).

  (** The calls that must terminate the program. *)
  Definition pq_rejects (cap : nat) (q : pq) (o : hop) : Prop :=
    match o with
    | OPush _ _ => size (pq_live q) = cap
    | OPop | OPeek => pq_live q = ∅
    | _ => False
    end.

  (** A run: results so far, and how it ended. *)
  Inductive pq_run (sorted : Prop) (cap : nat) : pq -> list hop -> list hres -> outcome pq -> Prop :=
  | run_nil q : pq_run sorted cap q [] [] (Ok q)
  | run_cons q o q' r os rs e :
      pq_step sorted cap q o q' r -> pq_run sorted cap q' os rs e -> pq_run sorted cap q (o :: os) (r :: rs) e
  | run_exit q o os : pq_rejects cap q o -> pq_run sorted cap q (o :: os) [] Exit.

  (** The same calls on the model of Heap.cpp. *)
  Definition heap_op (h : Heap T) (o : hop) : outcome (Heap T * hres) :=
    match o with
    | OPush a v => let! (h', k) := heap_push h a v in Ok (h', RHandle k)
    | OPop => let! (h', (a, v)) := heap_pop h in Ok (h', REntry a v)
    | OSet k v => let! h' := heap_set h k v in Ok (h', RUnit)
    | OPeek => let! v := heap_peek h in Ok (h, RVal v)
    | OSize => Ok (h, RSize (heap_size h))
    | OEmpty => Ok (h, RBool (heap_empty h))
    end.

  Fixpoint heap_run (h : Heap T) (os : list hop) : list hres * outcome (Heap T) :=
    match os with
    | [] => ([], Ok h)
    | o :: os' =>
        match heap_op h o with
        | Ok (h', r) => let '(rs, e) := heap_run h' os' in (r :: rs, e)
        | Exit => ([], Exit)
        | UB => ([], UB)
        | OutOfFuel => ([], OutOfFuel)
        end
    end.

  (** A program run and a specification run end the same way: both return or both exit. *)
  Definition same_end (e : outcome (Heap T)) (e' : outcome pq) : Prop :=
    match e, e' with
    | Ok h, Ok q => heap_size h = size (pq_live q)
    | Exit, Exit => True
    | _, _ => False
    end.

  (** Number of entries pushed over a history. *)
  Fixpoint pushes (os : list hop) : nat :=
    match os with
    | [] => 0
    | OPush _ _ :: os' => S (pushes os')
    | _ :: os' => pushes os'
    end.

  (** Every [set] uses a handle that was returned before: [n] pushes have happened already. *)
  Fixpoint handles_ok (n : nat) (os : list hop) : Prop :=
    match os with
    | [] => True
    | OPush _ _ :: os' => handles_ok (S n) os'
    | OSet k _ :: os' => k < n /\ handles_ok n os'
    | _ :: os' => handles_ok n os'
    end.

  (** Every value passed in satisfies [P] (e.g. is not NaN). *)
  Fixpoint values_ok (P : T -> Prop) (os : list hop) : Prop :=
    match os with
    | [] => True
    | OPush _ v :: os' | OSet _ v :: os' => P v /\ values_ok P os'
    | _ :: os' => values_ok P os'
    end.
End HeapSpec.
Arguments pq T : clear implicits.
Arguments hop T : clear implicits.
Arguments hres T : clear implicits.
