(** * OptModel: src/Optimise.h and src/Optimise.cpp (the constructor, solve and everything it calls).

    Simplifications: allocation never fails; nPoints, which solve sets to boundaryPoints.size(), is that
    length; [std::sort] of the constraint changes is an insertion sort; a lambda vector of 2^32 or more
    entries is not modelled.  The MutableFloat constructor (Python binding) only forwards its argument;
    queryReturnCode only prints. *)

From Verif Require Export LevelSetModel.

(** Loops over all the elements of a vector. *)
Fixpoint ofold {S A} (f : S -> A -> outcome S) (l : list A) (s : S) : outcome S :=
  match l with
  | [] => Ok s
  | a :: l' => let! s' := f s a in ofold f l' s'
  end.
(** for (i = 0; i < l1.size(); i++) l2[i] = f(l1[i], l2[i]) *)
Fixpoint oupdate {A B} (f : A -> B -> outcome B) (l1 : list A) (l2 : list B) : outcome (list B) :=
  match l1, l2 with
  | [], _ => Ok l2
  | _ :: _, [] => UB
  | a :: l1', b :: l2' => let! b' := f a b in let! r := oupdate f l1' l2' in Ok (b' :: r)
  end.

(** Optimise.h:150-235, the members.  boundaryPoints, lambdas and timeStep are references to objects of the
    caller.  returnCode is not initialised by the constructor. *)
Record Opt (T : Type) := mkOpt {
  op_points : list (BoundaryPoint T);  (* boundaryPoints *)
  op_dist : list T;                    (* constraintDistances *)
  op_lambdas : list T;
  op_time : T;                         (* timeStep *)
  op_limit : T;                        (* maxDisplacement *)
  op_isMax : bool;
  op_isEq : list bool;                 (* isEquality *)
  op_n : nat;                          (* nConstraints *)
  op_n0 : nat;                         (* nConstraintsInitial *)
  op_neg : list T;                     (* negativeLambdaLimits *)
  op_pos : list T;                     (* positiveLambdaLimits *)
  op_scale : list T;                   (* scaleFactors *)
  op_target : list T;                  (* constraintDistancesScaled *)
  op_disp : list T;                    (* displacements *)
  op_index : list nat;                 (* indexMap *)
  op_grads : list (list T);            (* gradients *)
  op_code : option Z                   (* returnCode *)
}.
Arguments mkOpt {T} _ _ _ _ _ _ _ _ _ _ _ _ _ _ _ _ _.
Arguments op_points {T} _.
Arguments op_dist {T} _.
Arguments op_lambdas {T} _.
Arguments op_time {T} _.
Arguments op_limit {T} _.
Arguments op_isMax {T} _.
Arguments op_isEq {T} _.
Arguments op_n {T} _.
Arguments op_n0 {T} _.
Arguments op_neg {T} _.
Arguments op_pos {T} _.
Arguments op_scale {T} _.
Arguments op_target {T} _.
Arguments op_disp {T} _.
Arguments op_index {T} _.
Arguments op_grads {T} _.
Arguments op_code {T} _.

Section setters.
  Context {T : Type}.
  (* Field updates; each models one assignment to a member. *)
  Definition set_points v (o : Opt T) := mkOpt v (op_dist o) (op_lambdas o) (op_time o) (op_limit o) (op_isMax o) (op_isEq o) (op_n o)
    (op_n0 o) (op_neg o) (op_pos o) (op_scale o) (op_target o) (op_disp o) (op_index o) (op_grads o) (op_code o).
  Definition set_lambdas v (o : Opt T) := mkOpt (op_points o) (op_dist o) v (op_time o) (op_limit o) (op_isMax o) (op_isEq o) (op_n o)
    (op_n0 o) (op_neg o) (op_pos o) (op_scale o) (op_target o) (op_disp o) (op_index o) (op_grads o) (op_code o).
  Definition set_time v (o : Opt T) := mkOpt (op_points o) (op_dist o) (op_lambdas o) v (op_limit o) (op_isMax o) (op_isEq o) (op_n o)
    (op_n0 o) (op_neg o) (op_pos o) (op_scale o) (op_target o) (op_disp o) (op_index o) (op_grads o) (op_code o).
  Definition set_limits ne po la (o : Opt T) := mkOpt (op_points o) (op_dist o) la (op_time o) (op_limit o) (op_isMax o) (op_isEq o) (op_n o)
    (op_n0 o) ne po (op_scale o) (op_target o) (op_disp o) (op_index o) (op_grads o) (op_code o).
  Definition set_scale v (o : Opt T) := mkOpt (op_points o) (op_dist o) (op_lambdas o) (op_time o) (op_limit o) (op_isMax o) (op_isEq o) (op_n o)
    (op_n0 o) (op_neg o) (op_pos o) v (op_target o) (op_disp o) (op_index o) (op_grads o) (op_code o).
  Definition set_otarget v (o : Opt T) := mkOpt (op_points o) (op_dist o) (op_lambdas o) (op_time o) (op_limit o) (op_isMax o) (op_isEq o) (op_n o)
    (op_n0 o) (op_neg o) (op_pos o) (op_scale o) v (op_disp o) (op_index o) (op_grads o) (op_code o).
  Definition set_disp v (o : Opt T) := mkOpt (op_points o) (op_dist o) (op_lambdas o) (op_time o) (op_limit o) (op_isMax o) (op_isEq o) (op_n o)
    (op_n0 o) (op_neg o) (op_pos o) (op_scale o) (op_target o) v (op_index o) (op_grads o) (op_code o).
  Definition set_index v (o : Opt T) := mkOpt (op_points o) (op_dist o) (op_lambdas o) (op_time o) (op_limit o) (op_isMax o) (op_isEq o) (op_n o)
    (op_n0 o) (op_neg o) (op_pos o) (op_scale o) (op_target o) (op_disp o) v (op_grads o) (op_code o).
  Definition set_grads v (o : Opt T) := mkOpt (op_points o) (op_dist o) (op_lambdas o) (op_time o) (op_limit o) (op_isMax o) (op_isEq o) (op_n o)
    (op_n0 o) (op_neg o) (op_pos o) (op_scale o) (op_target o) (op_disp o) (op_index o) v (op_code o).
  Definition set_code v (o : Opt T) := mkOpt (op_points o) (op_dist o) (op_lambdas o) (op_time o) (op_limit o) (op_isMax o) (op_isEq o) (op_n o)
    (op_n0 o) (op_neg o) (op_pos o) (op_scale o) (op_target o) (op_disp o) (op_index o) (op_grads o) v.
End setters.

(** ** The NLopt library

    [opt.optimize(lambdas, optObjective)] as seen from solve: it calls the callback any finite number of times
    (function number, multipliers, with or without a gradient), each time going on as it likes with the value and
    the gradient it got, and then returns or throws, having written any multipliers and any objective value.  The
    dimension of the vectors it hands over is the one it was created with. *)
Inductive NlError := RoundoffLimited | InvalidArgument | OtherException.
Inductive NlResult (T : Type) :=
| NlReturn (code : Z) (x : nat -> T) (value : T)
| NlThrow (e : NlError) (x : nat -> T) (value : option T).   (* None: optObjective was not written *)
Arguments NlReturn {T} _ _ _.
Arguments NlThrow {T} _ _ _.
Inductive Nlopt (T : Type) :=
| NlCall (index : nat) (lambda : nat -> T) (withGradient : bool) (next : T -> list T -> Nlopt T)
| NlEnd (r : NlResult T).
Arguments NlCall {T} _ _ _ _.
Arguments NlEnd {T} _.

Section model.
  Context {T : Type} `{Num T}.

  (** [std::numeric_limits<double>::min()]: the smallest normalised number. *)
  Definition nminDouble : T := (nlit 1 (2 ^ 1000) * nlit 1 (2 ^ 22))%num.

  (** Optimise.cpp:38-83, [Optimise::Optimise].  nConstraints is unsigned: with no lambda it is 2^32-1 and one of the
      two checks on constraintDistances fails. *)
  Definition optimise_ctor (points : list (BoundaryPoint T)) (dist lambdas : list T) (time limit : T) (isMax : bool)
      (isEq : list bool) : outcome (Opt T) :=
    let! _ := check ((limit >? n0) && (limit <? n1))%num in
    let! _ := check (negb (length points =? 0)%nat) in
    let! _ := check (negb (length lambdas =? 0)%nat) in
    let n := (length lambdas - 1)%nat in
    let! _ := check (negb ((0 <? n)%nat && (length dist =? 0)%nat)) in
    let! _ := check (n =? length dist)%nat in
    Ok (mkOpt points dist lambdas time limit isMax (if (length isEq =? 0)%nat then replicate n false else isEq) n n
          (replicate (n + 1) n0) (replicate (n + 1) n0) (replicate (n + 1) n0) dist [] [] [] None).

  (** Optimise.cpp:628-658, [computeDisplacements]: one boundary point. *)
  Definition disp_point (o : Opt T) (lambda : list T) (p : BoundaryPoint T) (old : T) : outcome T :=
    if bp_fixed p then Ok old
    else
      let! c0 := vget (op_scale o) 0 in
      let! l0 := vget lambda 0 in
      let! s0 := vget (bp_sens p) 0 in
      let! d := for_from 1 (op_n o) (fun j d =>
        let! k := vget (op_index o) j in
        let! c := vget (op_scale o) j in
        let! l := vget lambda j in
        let! s := vget (bp_sens p) k in
        Ok (d + c * l * s)%num) (c0 * l0 * s0)%num in
      Ok (if bp_domain p && (d <? bp_neg p)%num then bp_neg p else d).
  Definition computeDisplacements (lambda : list T) (o : Opt T) : outcome (Opt T) :=
    let! d := oupdate (disp_point o lambda) (op_points o) (op_disp o) in
    Ok (set_disp d o).

  (** Optimise.cpp:660-680, [computeFunction]. *)
  Definition fun_step (o : Opt T) (c : T) (j : nat) (s : T * nat) (p : BoundaryPoint T) : outcome (T * nat) :=
    let '(func, i) := s in
    if bp_fixed p then Ok (func, S i)
    else
      let! d := vget (op_disp o) i in
      let! a := vget (bp_sens p) j in
      Ok ((func + c * d * a * bp_length p)%num, S i).
  Definition computeFunction (o : Opt T) (index : nat) : outcome T :=
    let! j := vget (op_index o) index in
    let! c := vget (op_scale o) index in
    let! (func, _) := ofold (fun_step o c j) (op_points o) (n0, 0) in
    if (index =? 0)%nat then Ok func
    else let! t := vget (op_target o) (index - 1) in Ok (func - c * t)%num.

  (** Optimise.cpp:682-721, [computeGradients]: the entries of [gradient] from 0 to nConstraints are set to zero first. *)
  Definition grad_entry (o : Opt T) (index : nat) (p : BoundaryPoint T) (j : nat) (g : list T) : outcome (list T) :=
    let! k := vget (op_index o) j in
    let! ci := vget (op_scale o) index in
    let! cj := vget (op_scale o) j in
    let scaleFactor := (ci * cj)%num in
    let! ki := vget (op_index o) index in
    let! a := vget (bp_sens p) ki in
    let! b := vget (bp_sens p) k in
    let! v := vget g k in
    vset g k (v + a * b * bp_length p * scaleFactor)%num.
  Definition grad_point (o : Opt T) (index : nat) (g : list T) (p : BoundaryPoint T) : outcome (list T) :=
    if bp_fixed p then Ok g else for_ (op_n o + 1) (grad_entry o index p) g.
  Definition computeGradients (o : Opt T) (gradient : list T) (index : nat) : outcome (list T) :=
    let! g := for_ (op_n o + 1) (fun i g => vset g i n0) gradient in
    ofold (grad_point o index) (op_points o) g.

  (** Optimise.cpp:133-144, [callback], called by NLopt with a gradient vector that is empty or not. *)
  Definition opt_callback (o : Opt T) (lambda : list T) (withGradient : bool) (index : nat) : outcome (Opt T * T * list T) :=
    let! o := computeDisplacements lambda o in
    let! g := (if withGradient then vget (op_grads o) index else Ok []) in
    let! v := computeFunction o index in
    Ok (o, v, g).

  (** Optimise.cpp:300-369, [computeScaleFactors]. *)
  Definition max_sens (points : list (BoundaryPoint T)) (k : nat) (init : T) : outcome T :=
    ofold (fun m p =>
      if bp_fixed p then Ok m
      else let! s := vget (bp_sens p) k in Ok (if (nabs s >? m)%num then nabs s else m)) points init.
  Definition scale_sens (i : nat) (o : Opt T) : outcome (Opt T) :=
    let! m := max_sens (op_points o) i n0 in
    let! c := vset (op_scale o) i (n1 / m)%num in
    Ok (set_scale c o).
  Definition scale_grad (i : nat) (s : Opt T * list T) : outcome (Opt T * list T) :=
    let '(o, gradient) := s in
    let! g := computeGradients o gradient i in
    let! gi := vget g i in
    let! ci := vget (op_scale o) i in
    let! c := vset (op_scale o) i (ci * (n1 / nabs gi))%num in
    Ok (set_scale c o, g).
  Definition computeScaleFactors (o : Opt T) : outcome (Opt T) :=
    let! o := for_ (op_n o + 1) scale_sens o in
    let! (o, _) := for_ (op_n o + 1) scale_grad (o, replicate (op_n o + 1) n0) in
    Ok o.

  (** Optimise.cpp:570-626, [computeLambdaLimits]: the two while loops that bring a lambda into its range. *)
  Fixpoint shrink (fuel : nat) (out : T -> bool) (l : T) : outcome T :=
    if out l then match fuel with 0 => OutOfFuel | S f => shrink f out (l * nlit 9 10)%num end else Ok l.
  Definition lambda_limit (fuel : nat) (i : nat) (o : Opt T) : outcome (Opt T) :=
    let! k := vget (op_index o) i in
    let! m := max_sens (op_points o) k nminDouble in
    let! c := vget (op_scale o) i in
    let lo := ((- op_limit o) / m / c)%num in
    let hi := (op_limit o / m / c)%num in
    let! ne := vset (op_neg o) i lo in
    let! po := vset (op_pos o) i hi in
    let! l := vget (op_lambdas o) i in
    let! l := shrink fuel (fun l => (l <? lo)%num) l in
    let! l := shrink fuel (fun l => (l >? hi)%num) l in
    let! la := vset (op_lambdas o) i l in
    Ok (set_limits ne po la o).
  Definition computeLambdaLimits (fuel : nat) (o : Opt T) : outcome (Opt T) :=
    for_ (op_n o + 1) (lambda_limit fuel) o.

  (** Optimise.cpp:371-568, [computeConstraintDistances].  Bit k of the vertex number tells which limit lambda k has
      (398-424); the conversion of pow(2, nDim) to unsigned int is undefined from nDim = 32. *)
  Fixpoint ninsert (x : T) (l : list T) : list T :=
    match l with
    | [] => [x]
    | y :: l' => if (x <? y)%num then x :: l else y :: ninsert x l'
    end.
  Definition nsort (l : list T) : list T := foldl (fun s x => ninsert x s) [] l.
  Fixpoint vertex_lambda (o : Opt T) (v k n : nat) : outcome (list T) :=
    match n with
    | 0 => Ok []
    | S n' =>
        let! l := (if Nat.testbit v k then vget (op_pos o) k else vget (op_neg o) k) in
        let! r := vertex_lambda o v (S k) n' in
        Ok (l :: r)
    end.
  (** Optimise.cpp:456-468: the constraint change. *)
  Definition change_step (o : Opt T) (j : nat) (s : T * nat) (p : BoundaryPoint T) : outcome (T * nat) :=
    let '(change, i) := s in
    if bp_fixed p then Ok (change, S i)
    else
      let! d := vget (op_disp o) i in
      let! a := vget (bp_sens p) j in
      Ok ((change + d * a * bp_length p)%num, S i).
  Definition constraint_change (nDim i v : nat) (o : Opt T) : outcome (Opt T * T) :=
    let! lambda := vertex_lambda o v 0 nDim in
    let! o := computeDisplacements lambda o in
    let! j := vget (op_index o) (i + 1) in
    let! (change, _) := ofold (change_step o j) (op_points o) (n0, 0) in
    Ok (o, change).
  (** Optimise.cpp:431-512: one constraint; also returns isActive[i]. *)
  Definition one_constraint (nDim i : nat) (o : Opt T) : outcome (Opt T * bool) :=
    let! (o, changes) := for_ (2 ^ nDim) (fun v s => let '(o, changes) := s in
      let! (o, change) := constraint_change nDim i v o in
      Ok (o, changes ++ [change])) (o, []) in
    let changes := nsort changes in
    let! mn := vget changes 0 in
    let! mx := vget changes (length changes - 1) in
    let mn := (mn * nlit 99 100)%num in
    let mx := (mx * nlit 99 100)%num in
    let! d := vget (op_dist o) i in
    if (d <? n0)%num then
      if (d <? mn)%num then let! t := vset (op_target o) i mn in Ok (set_otarget t o, true)
      else Ok (o, true)
    else if (d >? mx)%num then
      let! e := vget (op_isEq o) i in
      if e then let! t := vset (op_target o) i mx in Ok (set_otarget t o, true)
      else Ok (o, false)
    else Ok (o, true).
  (** Optimise.cpp:518-546: the entries of active constraints move to the front. *)
  Definition shift_constraint (active : list bool) (i : nat) (s : Opt T * nat) : outcome (Opt T * nat) :=
    let '(o, a) := s in
    let! b := vget active i in
    if b then
      let! x := vget (op_lambdas o) (i + 1) in let! la := vset (op_lambdas o) (a + 1) x in
      let! x := vget (op_scale o) (i + 1) in let! sc := vset (op_scale o) (a + 1) x in
      let! x := vget (op_neg o) (i + 1) in let! ne := vset (op_neg o) (a + 1) x in
      let! x := vget (op_pos o) (i + 1) in let! po := vset (op_pos o) (a + 1) x in
      let! k := vget (op_index o) (i + 1) in let! ix := vset (op_index o) (a + 1) k in
      let! x := vget (op_dist o) i in let! di := vset (op_dist o) a x in
      let! x := vget (op_target o) i in let! ta := vset (op_target o) a x in
      let! e := vget (op_isEq o) i in let! eq := vset (op_isEq o) a e in
      Ok (mkOpt (op_points o) di la (op_time o) (op_limit o) (op_isMax o) eq (op_n o) (op_n0 o) ne po sc ta
            (op_disp o) ix (op_grads o) (op_code o), S a)
    else Ok (o, a).
  (** Optimise.cpp:548-562: the vectors lose their tails. *)
  Definition cut_constraints (a : nat) (o : Opt T) : Opt T :=
    mkOpt (op_points o) (resize a n0 (op_dist o)) (resize (a + 1) n0 (op_lambdas o)) (op_time o) (op_limit o) (op_isMax o)
      (resize a false (op_isEq o)) a (op_n0 o) (resize (a + 1) n0 (op_neg o)) (resize (a + 1) n0 (op_pos o))
      (resize (a + 1) n0 (op_scale o)) (resize a n0 (op_target o)) (op_disp o) (resize (a + 1) 0 (op_index o)) (op_grads o) (op_code o).
  Fixpoint computeConstraintDistances (fuel : nat) (nCur : nat) (o : Opt T) : outcome (Opt T) :=
    match fuel with
    | 0 => OutOfFuel
    | S f =>
        let nDim := (nCur + 1)%nat in
        if (32 <=? nDim)%nat then UB
        else
          let! (o, active) := for_ nCur (fun i s => let '(o, active) := s in
            let! (o, b) := one_constraint nDim i o in Ok (o, active ++ [b])) (o, []) in
          let! (o, nActive) := for_ nCur (shift_constraint active) (o, 0) in
          let o := if (nActive <? op_n o)%nat then cut_constraints nActive o else o in
          if (0 <? nActive)%nat && (nActive <? nCur)%nat then computeConstraintDistances f (op_n o) o else Ok o
    end.

  (** Optimise.cpp:723-772, [rescaleDisplacements]; the result is the factor.  [scale] is None while it is not initialised. *)
  Definition max_disp (limit : T) (s : T * option T * list T) (p : BoundaryPoint T) : outcome (T * option T * list T) :=
    let '(maxDisp, scale, disp) := s in
    match disp with
    | [] => UB
    | d :: disp' =>
        if bp_fixed p then Ok (maxDisp, scale, disp')
        else if (nabs d >? limit)%num && (nabs d >? maxDisp)%num then Ok (nabs d, Some (limit / nabs d)%num, disp')
        else Ok (maxDisp, scale, disp')
    end.
  Definition rescaleDisplacements (o : Opt T) : outcome (Opt T * T) :=
    let! (maxDisp, scale, _) := ofold (max_disp (op_limit o)) (op_points o) (n0, None, op_disp o) in
    if (maxDisp =? n0)%num then Ok (o, n1)
    else
      let! scale := init_get scale in
      let! la := for_ (op_n o + 1) (fun i la => let! x := vget la i in vset la i (x * scale)%num) (op_lambdas o) in
      let! o := computeDisplacements la (set_lambdas la o) in
      Ok (o, scale).

  (** Optimise.cpp:235: one call of opt.optimize. *)
  Definition tabulate (n : nat) (x : nat -> T) : list T := map x (seq 0 n).
  Fixpoint run_nlopt (t : Nlopt T) (o : Opt T) : outcome (Opt T * NlResult T) :=
    match t with
    | NlCall index lambda g next =>
        let! (o, v, gr) := opt_callback o (tabulate (op_n o + 1) lambda) g index in run_nlopt (next v gr) o
    | NlEnd r => Ok (o, r)
    end.

  (** Optimise.cpp:224-256: the loop around the optimisation.  [nlopt] gives the behaviour of NLopt in the k-th attempt on
      the problem as it then is.  The result is None if an exception leaves solve. *)
  Fixpoint attempts (nlopt : nat -> Opt T -> Nlopt T) (fuel k : nat) (objective : option T) (o : Opt T) : outcome (Opt T * option (option T)) :=
    match fuel with
    | 0 => OutOfFuel
    | S f =>
        let! (o, r) := run_nlopt (nlopt k o) o in
        let again (o : Opt T) (objective : option T) : outcome (Opt T * option (option T)) :=
          let! code := init_get (op_code o) in
          if (code <? 0)%Z then attempts nlopt f (S k) objective o else Ok (o, Some objective) in
        match r with
        | NlReturn code x value => again (set_code (Some code) (set_lambdas (tabulate (op_n o + 1) x) o)) (Some value)
        | NlThrow e x value =>
            let o := set_lambdas (tabulate (op_n o + 1) x) o in
            let objective := match value with Some v => Some v | None => objective end in
            match e with
            | RoundoffLimited =>
                let! t := for_ (op_n o) (fun i t => let! x := vget t i in vset t i (x * nlit 7 10)%num) (op_target o) in
                again (set_otarget t o) objective
            | InvalidArgument => again o objective
            | OtherException => Ok (o, None)
            end
        end
    end.

  (** Optimise.cpp:155-180: solve up to the creation of the NLopt object. *)
  Definition store_gradient (i : nat) (o : Opt T) : outcome (Opt T) :=
    let! g := computeGradients o (replicate (op_n o + 1) n0) i in
    let! gs := vset (op_grads o) i g in
    Ok (set_grads gs o).
  Definition prepare (fuel : nat) (o : Opt T) : outcome (Opt T) :=
    let o := set_disp (resize (length (op_points o)) n0 (op_disp o)) o in
    let o := set_index (seq 0 (op_n o + 1)) o in
    let! o := computeScaleFactors o in
    let! la := for_ (op_n o + 1) (fun i la => let! x := vget la i in let! c := vget (op_scale o) i in vset la i (x / c)%num) (op_lambdas o) in
    let! o := computeLambdaLimits fuel (set_lambdas la o) in
    let! o := (if (0 <? op_n o)%nat then computeConstraintDistances (op_n o + 1) (op_n o) o else Ok o) in
    for_ (op_n o + 1) store_gradient (set_grads (resize (op_n o + 1) [] (op_grads o)) o).

  (** Optimise.cpp:258-297: solve after the optimisation; [objective] is None while optObjective is not initialised. *)
  Fixpoint remap (n : nat) (o : Opt T) : outcome (Opt T) :=
    match n with
    | 0 => Ok o
    | S n' =>
        let! k := vget (op_index o) n in
        let! x := vget (op_lambdas o) n in
        let! la := vset (op_lambdas o) k x in
        remap n' (set_lambdas la o)
    end.
  Definition set_velocity (time : T) (d : T) (p : BoundaryPoint T) : BoundaryPoint T := set_bp_velocity (d / time)%num p.
  Definition conclude (objective : option T) (o : Opt T) : outcome (Opt T * T) :=
    let! o := computeDisplacements (op_lambdas o) o in
    let! (o, scale) := rescaleDisplacements o in
    let! value := init_get objective in
    let value := (value * scale)%num in
    let! la := for_ (op_n o + 1) (fun i la => let! x := vget la i in let! c := vget (op_scale o) i in vset la i (x * c)%num) (op_lambdas o) in
    let o := set_lambdas la o in
    let! l0 := vget (op_lambdas o) 0 in
    let o := set_time (nabs l0) o in
    let! ps := oupdate (fun d p => Ok (set_velocity (op_time o) d p)) (take (length (op_points o)) (op_disp o)) (op_points o) in
    let o := set_points ps o in
    let! o := (if (op_n o <? op_n0 o)%nat then
        let o := set_lambdas (resize (1 + op_n0 o) n0 (op_lambdas o)) o in
        if (0 <? op_n o)%nat then remap (op_n o + 1) o else Ok o
      else Ok o) in
    let! c0 := vget (op_scale o) 0 in
    Ok (o, (value / c0)%num).

  (** Optimise.cpp:146-298, [solve]; the result is None if an exception leaves solve. *)
  Definition solve (nlopt : nat -> Opt T -> Nlopt T) (fuel : nat) (o : Opt T) : outcome (Opt T * option T) :=
    let! o := prepare fuel o in
    let! (o, r) := attempts nlopt fuel 0 None o in
    match r with
    | None => Ok (o, None)
    | Some objective => let! (o, v) := conclude objective o in Ok (o, Some v)
    end.
End model.
