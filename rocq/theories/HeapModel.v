(** * HeapModel: src/Heap.h, src/Heap.cpp

    A binary min-heap of [double] values with stable handles.  All of Heap.cpp is modelled.
    Simplification: indices are unbounded naturals, so the wrap of [2*pos+1] for heaps with
    more than 2^31 entries is not modelled. *)

From Verif Require Export Num.

Section HeapModel.
  Context {T : Type} `{Num T}.

  (** Heap.h:124-150, the private data members. *)
  Record Heap := mkHeap {
    h_max  : nat;          (* maxLength *)
    h_test : bool;         (* isTest *)
    h_len  : nat;          (* heapLength *)
    h_list : nat;          (* listLength *)
    h_dist : list T;       (* distance *)
    h_heap : list nat;     (* heap *)
    h_addr : list nat;     (* address *)
    h_back : list nat      (* backPointer *)
  }.

  (** Heap.cpp:30-43, constructor.  [resize] value-initialises. *)
  Definition heap_new (maxLength : nat) (isTest : bool) : Heap :=
    mkHeap maxLength isTest 0 0
      (replicate maxLength n0) (replicate maxLength 0)
      (replicate maxLength 0) (replicate maxLength 0).

  (** Heap.cpp:113-128, the loop of [siftDown]. *)
  Fixpoint siftDown_loop (fuel startPos pos newItem : nat) (distance : list T)
      (heap back : list nat) : outcome (nat * list nat * list nat) :=
    match fuel with
    | 0 => OutOfFuel
    | S fuel' =>
        if (startPos <? pos)%nat then
          let parentPos := Nat.div2 (pos - 1) in
          let! parent := vget heap parentPos in
          let! dn := vget distance newItem in
          let! dp := vget distance parent in
          if (dn <? dp)%num then
            let! heap1 := vset heap pos parent in
            let! back1 := vset back parent pos in
            siftDown_loop fuel' startPos parentPos newItem distance heap1 back1
          else Ok (pos, heap, back)
        else Ok (pos, heap, back)
    end.

  (** Heap.cpp:102-133, [siftDown]. *)
  Definition siftDown (startPos pos : nat) (distance : list T) (heap back : list nat)
      : outcome (list nat * list nat) :=
    let! newItem := vget heap pos in
    let! (pos', heap', back') := siftDown_loop (S pos) startPos pos newItem distance heap back in
    let! heap2 := vset heap' pos' newItem in
    let! back2 := vset back' newItem pos' in
    Ok (heap2, back2).

  (** Heap.cpp:150-168, the loop of [siftUp]; [childPos = 2*pos+1] on entry. *)
  Fixpoint siftUp_loop (fuel pos heapLength : nat) (distance : list T)
      (heap back : list nat) : outcome (nat * list nat * list nat) :=
    match fuel with
    | 0 => OutOfFuel
    | S fuel' =>
        let childPos := 2 * pos + 1 in
        if (childPos <? heapLength)%nat then
          let rightPos := childPos + 1 in
          let! childPos' :=
            (if (rightPos <? heapLength)%nat then
               let! r := vget heap rightPos in
               let! c := vget heap childPos in
               let! dr := vget distance r in
               let! dc := vget distance c in
               Ok (if (dr <? dc)%num then rightPos else childPos)
             else Ok childPos) in
          let! c := vget heap childPos' in
          let! heap1 := vset heap pos c in
          let! c' := vget heap1 childPos' in
          let! back1 := vset back c' pos in
          siftUp_loop fuel' childPos' heapLength distance heap1 back1
        else Ok (pos, heap, back)
    end.

  (** Heap.cpp:135-175, [siftUp]. *)
  Definition siftUp (pos heapLength : nat) (distance : list T) (heap back : list nat)
      : outcome (list nat * list nat) :=
    let! newItem := vget heap pos in
    let! (pos', heap', back') := siftUp_loop (S heapLength) pos heapLength distance heap back in
    let! heap2 := vset heap' pos' newItem in
    siftDown pos pos' distance heap2 back'.

  (** Heap.cpp:226-259, [test].  [heapLength - 1] is only evaluated inside the loop over
      [i < heapLength], so it does not wrap. *)
  Definition heap_test (h : Heap) : outcome unit :=
    let! _ :=
      for_ (h_len h) (fun i _ =>
        for_ 2 (fun j _ =>
          let child := 2 * i + 1 + j in
          if (child <? h_len h - 1)%nat then
            let! p := vget (h_heap h) i in
            let! parentDistance := vget (h_dist h) p in
            let! c := vget (h_heap h) child in
            let! childDistance := vget (h_dist h) c in
            check (parentDistance <=? childDistance)%num
          else Ok tt) tt) tt in
    for_ (h_len h) (fun i _ =>
      let! k := vget (h_heap h) i in
      let! b := vget (h_back h) k in
      check (b =? i)%nat) tt.

  (** [if (isTest) test();] *)
  Definition maybe_test (h : Heap) : outcome unit :=
    if h_test h then heap_test h else Ok tt.

  (** Heap.cpp:45-73, [push]. Returns the new heap and the handle. *)
  Definition heap_push (h : Heap) (address : nat) (value : T) : outcome (Heap * nat) :=
    let! _ := check (h_len h <? h_max h)%nat in
    let! heap1 := vset (h_heap h) (h_len h) (h_list h) in
    let! addr1 := vset (h_addr h) (h_list h) address in
    let! dist1 := vset (h_dist h) (h_list h) value in
    let! back1 := vset (h_back h) (h_list h) (h_len h) in
    let len1 := S (h_len h) in
    let list1 := S (h_list h) in
    let! (heap2, back2) := siftDown 0 (len1 - 1) dist1 heap1 back1 in
    let h' := mkHeap (h_max h) (h_test h) len1 list1 dist1 heap2 addr1 back2 in
    let! _ := maybe_test h' in
    Ok (h', list1 - 1).

  (** Heap.cpp:75-100, [pop]. Returns the new heap and the values of the two out-parameters. *)
  Definition heap_pop (h : Heap) : outcome (Heap * (nat * T)) :=
    let! _ := check (negb (h_len h =? 0)%nat) in
    let! top := vget (h_heap h) 0 in
    let! a := vget (h_addr h) top in
    let! v := vget (h_dist h) top in
    let! last := vget (h_heap h) (h_len h - 1) in
    let! heap1 := vset (h_heap h) 0 last in
    let! top' := vget heap1 0 in
    let! back1 := vset (h_back h) top' 0 in
    let len1 := h_len h - 1 in
    let! (heap2, back2) := siftUp 0 len1 (h_dist h) heap1 back1 in
    let h' := mkHeap (h_max h) (h_test h) len1 (h_list h) (h_dist h) heap2 (h_addr h) back2 in
    let! _ := maybe_test h' in
    Ok (h', (a, v)).

  (** Heap.cpp:177-202, [set]. *)
  Definition heap_set (h : Heap) (index : nat) (newDistance : T) : outcome Heap :=
    let! oldDistance := vget (h_dist h) index in
    let! dist1 := vset (h_dist h) index newDistance in
    let! pos := vget (h_back h) index in
    let! (heap1, back1) :=
      (if (newDistance >? oldDistance)%num
       then siftUp pos (h_len h) dist1 (h_heap h) (h_back h)
       else Ok (h_heap h, h_back h)) in
    let! k := vget heap1 pos in
    let! d := vget dist1 k in
    if negb (d =? newDistance)%num then
      let h' := mkHeap (h_max h) (h_test h) (h_len h) (h_list h) dist1 heap1 (h_addr h) back1 in
      let! _ := maybe_test h' in
      Ok h'
    else
      let! (heap2, back2) := siftDown 0 pos dist1 heap1 back1 in
      let h' := mkHeap (h_max h) (h_test h) (h_len h) (h_list h) dist1 heap2 (h_addr h) back2 in
      let! _ := maybe_test h' in
      Ok h'.

  (** Heap.cpp:204-207, [empty]. *)
  Definition heap_empty (h : Heap) : bool := (h_len h =? 0)%nat.

  (** Heap.cpp:209-219, [peek]. *)
  Definition heap_peek (h : Heap) : outcome T :=
    let! _ := check (negb (h_len h =? 0)%nat) in
    let! top := vget (h_heap h) 0 in
    vget (h_dist h) top.

  (** Heap.cpp:221-224, [size]. *)
  Definition heap_size (h : Heap) : nat := h_len h.

End HeapModel.
Arguments Heap T : clear implicits.
