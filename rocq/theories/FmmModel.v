(** * FmmModel: src/FastMarchingMethod.h, src/FastMarchingMethod.cpp (complete).

    Simplifications: the heap is a value instead of a heap-allocated object (allocation failure and
    the leak of the previous heap when an object marches twice are not modelled); the two pointers
    to caller vectors are values that are passed in and returned. *)

From Verif Require Export MeshModel HeapModel.

(** FastMarchingMethod.h:37-49.  A node has exactly one of these values at any time, so the bit
    tests [status & FROZEN] and [status & TRIAL] are equality tests.  Nothing ever assigns MASKED. *)
Inductive FStatus := F_NONE | F_FROZEN | F_TRIAL | F_MASKED.
Definition is_none (s : FStatus) : bool := match s with F_NONE => true | _ => false end.
Definition is_frozen (s : FStatus) : bool := match s with F_FROZEN => true | _ => false end.
Definition is_trial (s : FStatus) : bool := match s with F_TRIAL => true | _ => false end.
Definition is_masked (s : FStatus) : bool := match s with F_MASKED => true | _ => false end.

(** The mutable state during a march: the members heapPtr, nodeStatus, heap, and the two vectors
    [*signedDistance] and [*velocity].  (signedDistanceCopy is written once, by initialiseFrozen.) *)
Record Fmm (T : Type) := mkFmm {
  f_ptr : list nat;
  f_status : list FStatus;
  f_heap : Heap T;
  f_sd : list T;
  f_vel : list T
}.
Arguments mkFmm {T} _ _ _ _ _.
Arguments f_ptr {T} _.
Arguments f_status {T} _.
Arguments f_heap {T} _.
Arguments f_sd {T} _.
Arguments f_vel {T} _.

Section setters.
  Context {T : Type}.
  Definition set_f_ptr (p : list nat) (s : Fmm T) := mkFmm p (f_status s) (f_heap s) (f_sd s) (f_vel s).
  Definition set_f_status (st : list FStatus) (s : Fmm T) := mkFmm (f_ptr s) st (f_heap s) (f_sd s) (f_vel s).
  Definition set_f_heap (h : Heap T) (s : Fmm T) := mkFmm (f_ptr s) (f_status s) h (f_sd s) (f_vel s).
  Definition set_f_sd (sd : list T) (s : Fmm T) := mkFmm (f_ptr s) (f_status s) (f_heap s) sd (f_vel s).
  Definition set_f_vel (v : list T) (s : Fmm T) := mkFmm (f_ptr s) (f_status s) (f_heap s) (f_sd s) v.
End setters.

Section FmmModel.
  Context {T : Type} `{Num T}.
  Variable mesh : Mesh T.
  Variable isVelocity : bool.
  Variable copy : list T.            (* signedDistanceCopy *)

  (** mesh.nodes[i].neighbours[j] *)
  Definition neigh (i j : nat) : outcome nat :=
    let! n := vget (m_nodes mesh) i in vget (nd_neigh n) j.

  (** FastMarchingMethod.cpp:104-124, first loop of [initialiseFrozen].  State: nodeStatus, nFrozen. *)
  Definition freeze_zeros (i : nat) (s : list FStatus * nat) : outcome (list FStatus * nat) :=
    let '(status, nFrozen) := s in
    let! st := vget status i in
    if negb (is_masked st) then
      let! c := vget copy i in
      if (c =? n0)%num then
        let! status' := vset status i F_FROZEN in
        Ok (status', nFrozen + 1)
      else Ok s
    else Ok s.

  (** FastMarchingMethod.cpp:140-167: one neighbour; state: isBorder, dist[0], dist[1]. *)
  Definition border_step (i j : nat) (s : bool * T * T) : outcome (bool * T * T) :=
    let '(isBorder, d0, d1) := s in
    let! neighbour := neigh i j in
    if negb (neighbour =? m_nNodes mesh)%nat then
      let! ci := vget copy i in
      let! cn := vget copy neighbour in
      if (ci * cn <? n0)%num then
        let d := (ci / (ci - cn))%num in
        if (j <? 2)%nat then
          Ok (true, if (d0 =? n0)%num || (d <? d0)%num then d else d0, d1)
        else
          Ok (true, d0, if (d1 =? n0)%num || (d <? d1)%num then d else d1)
      else Ok s
    else Ok s.

  (** FastMarchingMethod.cpp:170-187, the distance of a node next to the zero contour. *)
  Definition border_distance (d0 d1 : T) : T :=
    let distSum := n0 in
    let distSum := if (d0 >? n0)%num then (distSum + n1 / (d0 * d0))%num else distSum in
    let distSum := if (d1 >? n0)%num then (distSum + n1 / (d1 * d1))%num else distSum in
    nsqrt (n1 / distSum)%num.

  (** FastMarchingMethod.cpp:126-193, second loop of [initialiseFrozen]. State: nodeStatus, *signedDistance, nFrozen. *)
  Definition freeze_border (i : nat) (s : list FStatus * list T * nat) : outcome (list FStatus * list T * nat) :=
    let '(status, sd, nFrozen) := s in
    let! st := vget status i in
    if is_none st then
      let! (isBorder, d0, d1) := for_ 4 (border_step i) (false, n0, n0) in
      if isBorder then
        let! c := vget copy i in
        let r := border_distance d0 d1 in
        let! sd' := vset sd i (if (c <? n0)%num then (- r)%num else r) in
        let! status' := vset status i F_FROZEN in
        Ok (status', sd', nFrozen + 1)
      else Ok s
    else Ok s.

  (** FastMarchingMethod.cpp:99-200, [initialiseFrozen] (the copy itself is made by the caller). *)
  Definition initialiseFrozen (status : list FStatus) (sd : list T) : outcome (list FStatus * list T) :=
    let! (status1, n1) := for_ (m_nNodes mesh) freeze_zeros (status, 0) in
    let! (status2, sd2, n2) := for_ (m_nNodes mesh) freeze_border (status1, sd, n1) in
    let! _ := check (0 <? n2)%nat in
    Ok (status2, sd2).

  (** FastMarchingMethod.cpp:202-216, [initialiseHeap]: the capacity. *)
  Definition heap_capacity (status : list FStatus) : outcome nat :=
    for_ (m_nNodes mesh) (fun i k => let! st := vget status i in Ok (if is_none st then k + 1 else k)) 0.

  (** FastMarchingMethod.cpp:593-612, [solveQuadratic]. *)
  Definition solveQuadratic (sd : list T) (node : nat) (a b c : T) : outcome T :=
    let discrim := (b * b - nofZ 4 * a * c)%num in
    if (discrim >? n0)%num then
      let r0 := ((- b + nsqrt discrim) / (nofZ 2 * a))%num in
      let r1 := ((- b - nsqrt discrim) / (nofZ 2 * a))%num in
      let! ci := vget copy node in
      Ok (if (ci >? nepsilon)%num then r0 else r1)
    else vget sd node.

  (** FastMarchingMethod.cpp:451-490, one direction; state: dist1, dist2. *)
  Definition update_dir (status : list FStatus) (sd : list T) (node index : nat) (s : T * T) : outcome (T * T) :=
    let '(dist1, dist2) := s in
    let! m1 := neigh node index in
    if negb (m1 =? m_nNodes mesh)%nat then
      let! st1 := vget status m1 in
      if is_frozen st1 then
        let! sd1 := vget sd m1 in
        if (nabs sd1 <? nabs dist1)%num then
          let! m2 := neigh m1 index in
          if negb (m2 =? m_nNodes mesh)%nat then
            let! st2 := vget status m2 in
            if is_frozen st2 then
              let! sd2 := vget sd m2 in
              if (nabs sd2 <=? nabs sd1)%num then Ok (sd1, sd2) else Ok (sd1, dist2)
            else Ok (sd1, dist2)
          else Ok (sd1, dist2)
        else Ok s
      else Ok s
    else Ok s.

  (** FastMarchingMethod.cpp:443-506, one dimension; state: the coefficients a, b, c. *)
  Definition update_dim (status : list FStatus) (sd : list T) (node i : nat) (s : T * T * T) : outcome (T * T * T) :=
    let '(a, b, c) := s in
    let aa := (nofZ 9 / nofZ 4)%num in
    let oneThird := (n1 / nofZ 3)%num in
    let! (dist1, dist2) :=
      for_ 2 (fun j => update_dir status sd node (2 * i + j)) (nmaxDouble, nmaxDouble) in
    if (dist2 <? nmaxDouble)%num then
      let tp := (oneThird * (nofZ 4 * dist1 - dist2))%num in
      Ok (a + aa, b - nofZ 2 * aa * tp, c + aa * tp * tp)%num
    else if (dist1 <? nmaxDouble)%num then
      Ok (a + n1, b - nofZ 2 * dist1, c + dist1 * dist1)%num
    else Ok s.

  (** FastMarchingMethod.cpp:427-513, [updateNode]. *)
  Definition updateNode (status : list FStatus) (sd : list T) (node : nat) : outcome T :=
    let! (a, b, c) := for_ 2 (update_dim status sd node) (n0, n0, n0) in
    solveQuadratic sd node a b (c - n1)%num.

  (** FastMarchingMethod.cpp:250-261 / 381-395: mark as TRIAL, store the distance [d], push. *)
  Definition push_trial (i : nat) (d : T) (s : Fmm T) : outcome (Fmm T) :=
    let! (h, k) := heap_push (f_heap s) i (nabs d) in
    let! ptr := vset (f_ptr s) i k in
    Ok (set_f_ptr ptr (set_f_heap h s)).

  Definition is_active (i : nat) : outcome bool :=
    let! n := vget (m_nodes mesh) i in Ok (nd_active n).

  (** FastMarchingMethod.cpp:229-271, one neighbour [j] of node [i] in [initialiseTrial]. *)
  Definition trial_step (i j : nat) (s : Fmm T) : outcome (Fmm T) :=
    let! neighbour := neigh i j in
    if negb (neighbour =? m_nNodes mesh)%nat then
      let! stn := vget (f_status s) neighbour in
      if is_frozen stn then
        let! st := vget (f_status s) i in
        if is_none st then
          let! ok := (if isVelocity then is_active i else Ok true) in
          if ok then
            let! status' := vset (f_status s) i F_TRIAL in
            let s := set_f_status status' s in
            let! d := updateNode (f_status s) (f_sd s) i in
            let! sd' := vset (f_sd s) i d in
            push_trial i d (set_f_sd sd' s)
          else Ok s
        else Ok s
      else Ok s
    else Ok s.

  (** FastMarchingMethod.cpp:218-274, [initialiseTrial], the body of the loop. *)
  Definition trial_node (i : nat) (s : Fmm T) : outcome (Fmm T) :=
    let! st := vget (f_status s) i in
    if is_none st then for_ 4 (trial_step i) s else Ok s.

  (** FastMarchingMethod.cpp:532-569: one neighbour in [finaliseVelocity]. *)
  Record VelAcc := mkVelAcc { va_dist : T; va_front : T; va_set : bool; va_vel : T }.

  Definition vel_step (s : Fmm T) (node i : nat) (acc : VelAcc * VelAcc) : outcome (VelAcc * VelAcc) :=
    let! neighbour := neigh node i in
    if negb (neighbour =? m_nNodes mesh)%nat then
      let! st := vget (f_status s) neighbour in
      if is_frozen st then
        let! sdn := vget (f_sd s) neighbour in
        let d := nabs sdn in
        let cur := if (i <? 2)%nat then acc.1 else acc.2 in
        if negb (va_set cur) || (va_front cur >? d)%num then
          let! sdi := vget (f_sd s) node in
          let! v := vget (f_vel s) neighbour in
          let new := mkVelAcc (nabs (sdi - sdn)%num) d true v in
          Ok (if (i <? 2)%nat then (new, acc.2) else (acc.1, new))
        else Ok acc
      else Ok acc
    else Ok acc.

  (** FastMarchingMethod.cpp:515-591, [finaliseVelocity]. *)
  Definition finaliseVelocity (node : nat) (s : Fmm T) : outcome (Fmm T) :=
    let zero := mkVelAcc n0 n0 false n0 in
    let! (ax, ay) := for_ 4 (vel_step s node) (zero, zero) in
    let numerator := (n0 + va_dist ax * va_vel ax + va_dist ay * va_vel ay)%num in
    let denominator := (n0 + va_dist ax + va_dist ay)%num in
    let! _ := check (negb (denominator =? n0)%num) in
    let! vel' := vset (f_vel s) node (numerator / denominator)%num in
    Ok (set_f_vel vel' s).

  (** FastMarchingMethod.cpp:305-316 / 330-340: pop the top entry and freeze its node.
      [toFreeze] is kept as the list of its first nFrozen entries; storing the next one is out of
      bounds when it has nNodes entries already. *)
  Definition pop_freeze (toFreeze : list nat) (s : Fmm T) : outcome (list nat * T * Fmm T) :=
    let! (h, (addr, value)) := heap_pop (f_heap s) in
    let s := set_f_heap h s in
    let! status' := vset (f_status s) addr F_FROZEN in
    let s := set_f_status status' s in
    let! s := (if isVelocity then finaliseVelocity addr s else Ok s) in
    if (length toFreeze <? m_nNodes mesh)%nat
    then Ok (toFreeze ++ [addr], value, s)
    else UB.

  (** FastMarchingMethod.cpp:320-343, the inner while loop: pop entries of equal value. *)
  Fixpoint pop_equal (fuel : nat) (value : T) (toFreeze : list nat) (s : Fmm T) : outcome (list nat * Fmm T) :=
    match fuel with
    | 0 => OutOfFuel
    | S fuel' =>
        if negb (heap_empty (f_heap s)) then
          let! top := heap_peek (f_heap s) in
          if (value =? top)%num then
            let! (toFreeze', _, s') := pop_freeze toFreeze s in
            pop_equal fuel' value toFreeze' s'
          else Ok (toFreeze, s)
        else Ok (toFreeze, s)
    end.

  (** FastMarchingMethod.cpp:351-422, one neighbour direction [j] of the frozen node [addr]. *)
  Definition relax (addr j : nat) (s : Fmm T) : outcome (Fmm T) :=
    let! naddr := neigh addr j in
    if negb (naddr =? m_nNodes mesh)%nat then
      let! st := vget (f_status s) naddr in
      if negb (is_frozen st) then
        let! d := updateNode (f_status s) (f_sd s) naddr in
        let! sd' := vset (f_sd s) naddr d in
        let s := set_f_sd sd' s in
        let! s :=
          (if is_trial st then
             let! k := vget (f_ptr s) naddr in
             let! h := heap_set (f_heap s) k (nabs d) in
             Ok (set_f_heap h s)
           else if is_none st then
             let! ok := (if isVelocity then is_active naddr else Ok true) in
             if ok then
               let! status' := vset (f_status s) naddr F_TRIAL in
               push_trial naddr d (set_f_status status' s)
             else Ok s
           else Ok s) in
        let! naddr2 := neigh naddr j in
        if negb (naddr2 =? m_nNodes mesh)%nat then
          let! st2 := vget (f_status s) naddr2 in
          if is_trial st2 then
            let! d2 := updateNode (f_status s) (f_sd s) naddr2 in
            let! sd2 := vset (f_sd s) naddr2 d2 in
            let! k := vget (f_ptr s) naddr2 in
            let! h := heap_set (f_heap s) k (nabs d2) in
            Ok (set_f_heap h (set_f_sd sd2 s))
          else Ok s
        else Ok s
      else Ok s
    else Ok s.

  (** FastMarchingMethod.cpp:345-423, update around every node frozen in this round. *)
  Fixpoint relax_all (toFreeze : list nat) (s : Fmm T) : outcome (Fmm T) :=
    match toFreeze with
    | [] => Ok s
    | addr :: rest => let! s' := for_ 4 (relax addr) s in relax_all rest s'
    end.

  (** FastMarchingMethod.cpp:276-425, [solve].  Every round pops at least one entry and no node is
      pushed twice, so [fuel] = number of nodes + 1 is enough (FmmProofs.v). *)
  Fixpoint solve (fuel : nat) (s : Fmm T) : outcome (Fmm T) :=
    match fuel with
    | 0 => OutOfFuel
    | S fuel' =>
        if negb (heap_empty (f_heap s)) then
          let! (toFreeze, value, s1) := pop_freeze [] s in
          let! (toFreeze, s2) := pop_equal (S (m_nNodes mesh)) value toFreeze s1 in
          let! s3 := relax_all toFreeze s2 in
          solve fuel' s3
        else Ok s
    end.

  (** FastMarchingMethod.cpp:52-68 and 70-97 up to the last statement: the whole march. *)
  Definition march_core (isTest : bool) (ptr : list nat) (status : list FStatus) (sd vel : list T)
      : outcome (Fmm T) :=
    let! (status1, sd1) := initialiseFrozen status sd in
    let! cap := heap_capacity status1 in
    let s0 := mkFmm ptr status1 (heap_new cap isTest) sd1 vel in
    let! s1 := for_ (m_nNodes mesh) trial_node s0 in
    solve (S (m_nNodes mesh)) s1.
End FmmModel.
Arguments VelAcc T : clear implicits.
Arguments mkVelAcc {T} _ _ _ _.

Section Api.
  Context {T : Type} `{Num T}.

  (** The members of a [FastMarchingMethod] object that survive between calls:
      heapPtr, nodeStatus, signedDistanceCopy. *)
  Record FmmObj := mkFmmObj { fo_test : bool; fo_ptr : list nat; fo_status : list FStatus; fo_copy : list T }.

  (** FastMarchingMethod.cpp:34-45, constructor. *)
  Definition fmm_new (mesh : Mesh T) (isTest : bool) : FmmObj :=
    mkFmmObj isTest (replicate (m_nNodes mesh) 0) (replicate (m_nNodes mesh) F_NONE) (replicate (m_nNodes mesh) n0).

  (** FastMarchingMethod.cpp:108: signedDistanceCopy[i] = ( *signedDistance)[i]. *)
  Definition take_copy (mesh : Mesh T) (copy sd : list T) : outcome (list T) :=
    for_ (m_nNodes mesh) (fun i c => let! x := vget sd i in vset c i x) copy.

  (** FastMarchingMethod.cpp:52-68, [march(signedDistance)]. *)
  Definition fmm_march (mesh : Mesh T) (o : FmmObj) (sd : list T) : outcome (FmmObj * list T) :=
    let! copy := take_copy mesh (fo_copy o) sd in
    let! s := march_core mesh false copy (fo_test o) (fo_ptr o) (fo_status o) sd [] in
    Ok (mkFmmObj (fo_test o) (f_ptr s) (f_status s) copy, f_sd s).

  (** FastMarchingMethod.cpp:70-97, [march(signedDistance, velocity)]. *)
  Definition fmm_march_vel (mesh : Mesh T) (o : FmmObj) (sd vel : list T) : outcome (FmmObj * list T * list T) :=
    let! copy := take_copy mesh (fo_copy o) sd in
    let! s := march_core mesh true copy (fo_test o) (fo_ptr o) (fo_status o) sd vel in
    Ok (mkFmmObj (fo_test o) (f_ptr s) (f_status s) copy, copy, f_vel s).
End Api.
Arguments FmmObj T : clear implicits.
