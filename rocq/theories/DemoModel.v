(** * DemoModel: the programs in demos/ (their functions, main loops and samples).

    Simplifications: the constants each [main] sets (mesh size, holes, times, limits, temperature, constraints) are
    parameters; printing and the files written at each sample, which change nothing in memory, are left out; the random
    numbers and NLopt are parameters; [double timeStep;] is passed to Optimise without a value, which solve does not read: here it is 0.
    An exception that leaves solve ends the program like a failed check.  Not modelled: the command line, the shape and
    configuration files, and the arithmetic of [main] that sets maxMismatch. *)

From Verif Require Import OptModel.
From Verif Require Export LevelSetModel BoundaryModel SensModel.

Section DemoModel.
  Context {T : Type} `{Num T}.

  (** ** Functions *)

  (** shape_match.cpp:272-341, [computeSensitivity]; the same code is [computeConstraintSensitivity] in dumbbell.cpp:347-416,
      bimodal.cpp:400-469 and bimodal_brolly.cpp:514-583.  An early [return] is [inr]. *)
  Definition smooth (m : T) : T := if (nabs m <? n1)%num then m else if (m <? n0)%num then nofZ (-1) else n1.
  Definition mismatch_at (s : LevelSet T) (n : nat) : outcome T :=
    let! t := vget (ls_target s) n in
    let! d := vget (ls_sd s) n in
    Ok (t - d)%num.
  Definition sens_node (s : LevelSet T) (c : Coord T) (n : nat) (st : T * T) : outcome (T * T + T) :=
    let '(mismatch, weight) := st in
    let! nd := vget (m_nodes (ls_mesh s)) n in
    let dx := (cx (nd_coord nd) - cx c)%num in
    let dy := (cy (nd_coord nd) - cy c)%num in
    let rSqd := (dx * dx + dy * dy)%num in
    let! m := mismatch_at s n in
    if (rSqd <? nlit 1 1000000)%num then Ok (inr (smooth m))
    else Ok (inl (mismatch + m / rSqd, weight + n1 / rSqd)%num).
  Definition sens_turn (s : LevelSet T) (c : Coord T) (node i : nat) (st : T * T + T) : outcome (T * T + T) :=
    match st with
    | inr _ => Ok st
    | inl a =>
        let! n := (if (i =? 0)%nat then Ok node
                   else let! nd := vget (m_nodes (ls_mesh s)) node in vget (nd_neigh nd) (i - 1)) in
        sens_node s c n a
    end.
  Definition pointSensitivity (c : Coord T) (s : LevelSet T) : outcome T :=
    let! node := getClosestNode (ls_mesh s) (cx c) (cy c) in
    let! r := for_ 5 (sens_turn s c node) (inl (n0, n0)) in
    Ok (match r with inr v => v | inl (mismatch, weight) => smooth (mismatch / weight)%num end).

  (** shape_match.cpp:344-353, [computeObjective]; the same code is [computeMismatch] in dumbbell.cpp:419-428, bimodal.cpp:472-481
      and bimodal_brolly.cpp:586-595. *)
  Definition mismatch_step (m : Mesh T) (targetArea : list T) (i : nat) (a : T) : outcome T :=
    let! t := vget targetArea i in
    let! e := vget (m_elements m) i in
    Ok (a + nabs (t - e_area e))%num.
  Definition computeMismatch (m : Mesh T) (targetArea : list T) : outcome T :=
    for_ (m_nElements m) (mismatch_step m targetArea) n0.

  (** dumbbell.cpp:71-76, bimodal.cpp:78-83, bimodal_brolly.cpp:93-98: the globals. *)
  Record Gravity := mkGravity { g_n : nat; g_upper : T; g_lower : T; g_range : T; g_reduce : T }.

  (** dumbbell.cpp:480-491, bimodal.cpp:558-569, bimodal_brolly.cpp:647-658, [computePerimeterWeight]. *)
  Definition perimeterWeight (g : Gravity) (y : T) : T :=
    if (y >? g_upper g)%num then n1
    else if (y <? g_lower g)%num then g_reduce g
    else let dy := ((g_upper g - y) / g_range g)%num in (n1 - dy * (n1 - g_reduce g))%num.

  (** dumbbell.cpp:443-477, bimodal.cpp:521-555, bimodal_brolly.cpp:610-644, [computePointLength]; [ps] is *points. *)
  Definition piece (g : Gravity) (y1 dy len : T) (j : nat) (length : T) : outcome T :=
    let y := (y1 + (nofnat j + nlit 1 2) * dy / nofnat (g_n g))%num in
    Ok (length + perimeterWeight g y * len)%num.
  Definition arc_to (g : Gravity) (ps : list (BoundaryPoint T)) (p : BoundaryPoint T) (i : nat) (length : T) : outcome T :=
    let! k := vget (bp_neigh p) i in
    let! q := vget ps k in
    let dx := (cx (bp_coord q) - cx (bp_coord p))%num in
    let dy := (cy (bp_coord q) - cy (bp_coord p))%num in
    let len := (nsqrt (dx * dx + dy * dy) / nofnat (g_n g))%num in
    for_ (g_n g) (piece g (cy (bp_coord p)) dy len) length.
  Definition pointLength (g : Gravity) (ps : list (BoundaryPoint T)) (p : BoundaryPoint T) : outcome T :=
    for_ (bp_nNeigh p) (arc_to g ps p) n0.

  (** dumbbell.cpp:431-440, bimodal.cpp:484-493, bimodal_brolly.cpp:598-607, [computePerimeter]. *)
  Definition weightedPerimeter (g : Gravity) (ps : list (BoundaryPoint T)) : outcome T :=
    for_ (length ps) (fun i len => let! p := vget ps i in let! l := pointLength g ps p in Ok (len + nlit 1 2 * l)%num) n0.

  (** bimodal.cpp:496-518, bimodal_brolly.cpp:661-683, [computeCentreOfMass]. *)
  Definition mass_step (g : Gravity) (ps : list (BoundaryPoint T)) (i : nat) (st : T * T * T) : outcome (T * T * T) :=
    let '(len, x, y) := st in
    let! p := vget ps i in
    let! ll := pointLength g ps p in
    Ok (len + nlit 1 2 * ll, x + cx (bp_coord p) * nlit 1 2 * ll, y + cy (bp_coord p) * nlit 1 2 * ll)%num.
  Definition centreOfMass (g : Gravity) (ps : list (BoundaryPoint T)) : outcome (T * T) :=
    let! (len, x, y) := for_ (length ps) (mass_step g ps) (n0, n0, n0) in
    Ok (x / len, y / len)%num.

  (** bimodal_brolly.cpp:686-689, [computeBiasPotential]. *)
  Definition biasPotential (value centre spring : T) : T := (nlit 1 2 * spring * (value - centre) * (value - centre))%num.

  (** bimodal_brolly.cpp:692-696, [isAccepted]; [u] is the number rng() returns, [nexp] is [exp]. *)
  Definition isAccepted (nexp : T -> T) (u current previous beta : T) : bool := (u <? nexp (- beta * (current - previous)))%num.

  (** ** The sensitivities each program assigns *)

  Definition set_sens (k : nat) (v : T) (p : BoundaryPoint T) : outcome (BoundaryPoint T) :=
    let! l := vset (bp_sens p) k v in Ok (set_bp_sens l p).
  (** for (i = 0; i < boundary.points.size(); i++) boundary.points[i] = f(i, boundary.points, boundary.points[i]). *)
  Definition each_step (f : nat -> list (BoundaryPoint T) -> BoundaryPoint T -> outcome (BoundaryPoint T)) (i : nat) (ps : list (BoundaryPoint T)) :=
    let! p := vget ps i in let! p := f i ps p in vset ps i p.
  Definition each_point (f : nat -> list (BoundaryPoint T) -> BoundaryPoint T -> outcome (BoundaryPoint T)) (b : Boundary T) : outcome (Boundary T) :=
    let! ps := for_ (length (bd_points b)) (each_step f) (bd_points b) in
    Ok (mkBoundary ps (bd_segs b) (bd_length b)).
  (** Sensitivity.h:64: the default step. *)
  Definition delta : T := nlit 1 10000.
  (** minimise_perimeter.cpp:147-153, minimise_perimeter_constrained.cpp:147-155: the callback is bound to a copy [b0] of the boundary. *)
  Definition perimeterSensitivity (b0 : Boundary T) (p : BoundaryPoint T) : outcome T :=
    let! (v, _, _) := computeSensitivity delta (fun (st : unit) q => let! l := computePerimeter b0 q in Ok (st, l)) tt p in Ok v.
  (** dumbbell.cpp:234-241, bimodal.cpp:277-284, bimodal_brolly.cpp:354-361: the callback reads the points themselves, of which
      number [i] is the one being moved. *)
  Definition lengthSensitivity (g : Gravity) (i : nat) (ps : list (BoundaryPoint T)) (p : BoundaryPoint T) : outcome T :=
    let! (v, _, _) := computeSensitivity delta (fun (st : unit) q => let! l := pointLength g (<[i := q]> ps) q in Ok (st, l)) tt p in Ok v.

  (** ** One program: what differs between their main loops

      [d_assign]: sensitivities, with the Ito correction; [d_carry]: what the program computes before the step and records
      after it; [d_dist]: the constraint distances; [d_temp]: the temperature, if the program uses noise; [d_areas],
      [d_normals]: whether it computes area fractions and normals after each discretisation; [d_measure]: the values it records
      at a sample, besides the time. *)
  Record Demo := mkDemo {
    d_assign : LevelSet T -> Boundary T -> outcome (Boundary T);
    d_carry : LevelSet T -> Boundary T -> outcome T;
    d_dist : LevelSet T -> outcome (list T);
    d_lambdas : nat;
    d_temp : option T;
    d_areas : bool;
    d_normals : bool;
    d_measure : T -> LevelSet T -> Boundary T -> outcome (LevelSet T * list T)
  }.

  Definition meshArea (s : LevelSet T) : T := nofnat (u32 (Z.of_nat (m_width (ls_mesh s)) * Z.of_nat (m_height (ls_mesh s)))).

  (** minimise_area.cpp:130-197. *)
  Definition minimise_area : Demo :=
    mkDemo (fun _ b => each_point (fun _ _ p => set_sens 0 n1 p) b) (fun _ _ => Ok n0) (fun _ => Ok []) 1 None false false
      (fun _ s b => Ok (s, [bd_length b])).

  (** minimise_perimeter.cpp:137-226.  The mean curvature is computed along with the sensitivities (137-160). *)
  Definition mean_sens (b : Boundary T) : outcome T :=
    let! c := for_ (length (bd_points b)) (fun i c => let! p := vget (bd_points b) i in let! v := vget (bp_sens p) 0 in Ok (c + v)%num) n0 in
    Ok (c / nofnat (length (bd_points b)))%num.
  Definition minimise_perimeter : Demo :=
    mkDemo (fun _ b => each_point (fun _ _ p => let! v := perimeterSensitivity b p in set_sens 0 v p) b) (fun _ b => mean_sens b) (fun _ => Ok []) 1 None false true
      (fun curvature s b => Ok (s, [bd_length b; curvature])).

  (** minimise_perimeter_constrained.cpp:142-235. *)
  Definition minimise_perimeter_constrained (temperature maxArea : T) : Demo :=
    mkDemo (fun _ b =>
        let! b := each_point (fun _ _ p => let! v := perimeterSensitivity b p in let! p := set_sens 0 v p in set_sens 1 (nofZ (-1)) p) b in
        itoCorrection delta b temperature)
      (fun _ _ => Ok n0)
      (fun s => let! a := init_get (ls_area s) in Ok [(meshArea s * maxArea - a)%num]) 2 (Some temperature) true true
      (fun _ s b => let! a := init_get (ls_area s) in Ok (s, [bd_length b; (a / meshArea s)%num])).

  (** shape_match.cpp:175-251. *)
  Definition shape_match (temperature : T) (targetArea : list T) : Demo :=
    mkDemo (fun s b =>
        let! b := each_point (fun _ _ p => let! v := pointSensitivity (bp_coord p) s in set_sens 0 v p) b in
        itoCorrection delta b temperature)
      (fun _ _ => Ok n0) (fun _ => Ok []) 1 (Some temperature) false false
      (fun _ s b =>
        let! (s, _) := computeAreaFractions s b in
        let! mm := computeMismatch (ls_mesh s) targetArea in
        Ok (s, [(mm / meshArea s)%num])).

  (** dumbbell.cpp:227-324, bimodal.cpp:270-374 and bimodal_brolly.cpp:347-433: the same up to the recorded values. *)
  Definition gravity_assign (g : Gravity) (temperature : T) (s : LevelSet T) (b : Boundary T) : outcome (Boundary T) :=
    let! b := each_point (fun i ps p =>
      let! v := lengthSensitivity g i ps p in
      let! p := set_sens 0 v p in
      let! v := pointSensitivity (bp_coord p) s in
      set_sens 1 v p) b in
    itoCorrection delta b temperature.
  Definition mismatch_distance (maxMismatch : T) (targetArea : list T) (s : LevelSet T) : outcome (list T) :=
    let! mm := computeMismatch (ls_mesh s) targetArea in Ok [(meshArea s * maxMismatch - mm)%num].
  Definition dumbbell (g : Gravity) (temperature maxMismatch : T) (targetArea : list T) : Demo :=
    mkDemo (gravity_assign g temperature) (fun s _ => computeMismatch (ls_mesh s) targetArea) (mismatch_distance maxMismatch targetArea) 2 (Some temperature) true true
      (fun mismatch s b => let! l := weightedPerimeter g (bd_points b) in Ok (s, [l; mismatch])).
  (** bimodal.cpp:347-373; both positions are stored relative to width/2 (360-361). *)
  Definition bimodal (g : Gravity) (temperature maxMismatch : T) (targetArea : list T) (width : T) : Demo :=
    mkDemo (gravity_assign g temperature) (fun s _ => computeMismatch (ls_mesh s) targetArea) (mismatch_distance maxMismatch targetArea) 2 (Some temperature) true true
      (fun mismatch s b =>
        let! l := weightedPerimeter g (bd_points b) in
        let! (x, y) := centreOfMass g (bd_points b) in
        Ok (s, [l; mismatch; (x - width / nofZ 2)%num; (y - width / nofZ 2)%num])).
  (** bimodal_brolly.cpp:347-433: the inner loop; what it records is in [umbrella_sample]. *)
  Definition brolly (g : Gravity) (temperature maxMismatch : T) (targetArea : list T) : Demo :=
    mkDemo (gravity_assign g temperature) (fun s _ => computeMismatch (ls_mesh s) targetArea) (mismatch_distance maxMismatch targetArea) 2 (Some temperature) true true
      (fun _ s _ => Ok (s, [])).

  (** ** The main loop *)

  Record Sim := mkSim { sm_ls : LevelSet T; sm_bd : Boundary T; sm_lambdas : list T; sm_nReinit : nat; sm_time : T }.

  (** After a discretisation: minimise_area.cpp:175, minimise_perimeter.cpp:200-203, dumbbell.cpp:292-298, etc. *)
  Definition new_boundary (d : Demo) (s : LevelSet T) : outcome (LevelSet T * Boundary T) :=
    let! (s, b) := discretise s false in
    let! s := (if d_areas d then let! (s, _) := computeAreaFractions s b in Ok s else Ok s) in
    let! b := (if d_normals d then computeNormalVectors s b else Ok b) in
    Ok (s, b).

  (** minimise_area.cpp:158-172 and the same lines in the others: the result tells whether the level set was reinitialised. *)
  Definition reinit_rule (isReinitialised : bool) (nReinit : nat) (s : LevelSet T) : outcome (LevelSet T * nat * bool) :=
    let! (s, n, r) :=
      (if negb isReinitialised then
         if (nReinit =? 20)%nat then let! s := reinitialise s in Ok (s, 0, true) else Ok (s, nReinit, false)
       else Ok (s, 0, true)) in
    Ok (s, n + 1, r).

  (** One turn of the loop: minimise_area.cpp:132-178, minimise_perimeter.cpp:139-206, minimise_perimeter_constrained.cpp:144-212,
      shape_match.cpp:177-225, dumbbell.cpp:229-301, bimodal.cpp:272-344, bimodal_brolly.cpp:349-432.
      The results are the new state, the carried value and whether the level set was reinitialised. *)
  Definition turn (d : Demo) (nlopt : nat -> Opt T -> Nlopt T) (fuel : nat) (rng : nat -> T) (m : Sim) : outcome (Sim * T * bool) :=
    let s := sm_ls m in
    let! b := d_assign d s (sm_bd m) in
    let! carried := d_carry d s b in
    let! dist := d_dist d s in
    let! o := optimise_ctor (bd_points b) dist (sm_lambdas m) n0 (ls_moveLimit s) false [] in
    let! (o, v) := OptModel.solve nlopt fuel o in
    match v with
    | None => Exit
    | Some _ =>
        let! (s, dt) :=
          (match d_temp d with
           | None => let! s := computeVelocities s (op_points o) in Ok (s, op_time o)
           | Some t => let! (s, _, dt, _) := computeVelocities_noise s (op_points o) (op_time o) t rng in Ok (s, dt)
           end) in
        let! s := LevelSetModel.computeGradients s in
        let! (s, isReinitialised) := update s dt in
        let! (s, n, r) := reinit_rule isReinitialised (sm_nReinit m) s in
        let! (s, b) := new_boundary d s in
        Ok (mkSim s b (op_lambdas o) n (sm_time m + dt)%num, carried, r)
    end.

  (** while (runningTime >= nextSample): minimise_area.cpp:181-197, etc.  A sample is the running time and the values recorded. *)
  Fixpoint sampling (fuel : nat) (d : Demo) (interval carried : T) (m : Sim) (next : T) (log : list (T * list T)) : outcome (Sim * T * list (T * list T)) :=
    if (sm_time m >=? next)%num then
      match fuel with
      | 0 => OutOfFuel
      | S f =>
          let! (s, v) := d_measure d carried (sm_ls m) (sm_bd m) in
          sampling f d interval carried (mkSim s (sm_bd m) (sm_lambdas m) (sm_nReinit m) (sm_time m)) (next + interval)%num (log ++ [(sm_time m, v)])
      end
    else Ok (m, next, log).

  (** The loop as a whole.  [nlopt k], [rng k]: NLopt and the normal deviates in turn [k]. *)
  Record Run := mkRun { rn_sim : Sim; rn_next : T; rn_log : list (T * list T) }.
  Definition full_turn (d : Demo) (nlopt : nat -> nat -> Opt T -> Nlopt T) (fuel : nat) (rng : nat -> nat -> T) (interval : T) (k : nat) (r : Run)
      : outcome (Run * bool) :=
    let! (m, carried, ri) := turn d (nlopt k) fuel (rng k) (rn_sim r) in
    let! (m, next, log) := sampling fuel d interval carried m (rn_next r) (rn_log r) in
    Ok (mkRun m next log, ri).
  Fixpoint main_loop (turns : nat) (d : Demo) (nlopt : nat -> nat -> Opt T -> Nlopt T) (fuel : nat) (rng : nat -> nat -> T) (interval maxTime : T)
      (k : nat) (r : Run) : outcome Run :=
    if (sm_time (rn_sim r) <? maxTime)%num then
      match turns with
      | 0 => OutOfFuel
      | S n => let! (r, _) := full_turn d nlopt fuel rng interval k r in main_loop n d nlopt fuel rng interval maxTime (S k) r
      end
    else Ok r.

  (** Before the loop: minimise_area.cpp:92-120, minimise_perimeter.cpp:96-127, minimise_perimeter_constrained.cpp:94-132, and for programs with a
      target shape_match.cpp:124-165, dumbbell.cpp:163-217, bimodal.cpp:202-260, bimodal_brolly.cpp:254-309. *)
  Definition target_areas (s : LevelSet T) : outcome (LevelSet T * list T) :=
    let! (s, b) := discretise s true in
    let! (s, _) := computeAreaFractions s b in
    let! areas := for_ (m_nElements (ls_mesh s)) (fun i l => let! e := vget (m_elements (ls_mesh s)) i in vset l i (e_area e)) (replicate (m_nElements (ls_mesh s)) n0) in
    Ok (s, areas).
  Definition begin (d : Demo) (s : LevelSet T) : outcome Sim :=
    let! (s, b) := new_boundary d s in
    Ok (mkSim s b (replicate (d_lambdas d) n0) 0 n0).
  Definition program (turns fuel : nat) (d : Demo) nlopt rng (next interval maxTime : T) (s : LevelSet T) : outcome Run :=
    let! s := reinitialise s in
    let! m := begin d s in
    main_loop turns d nlopt fuel rng interval maxTime 0 (mkRun m next []).
  Definition program_with_target (turns fuel : nat) (d : list T -> Demo) nlopt rng (next interval maxTime : T) (s : LevelSet T) : outcome Run :=
    let! s := reinitialise s in
    let! (s, areas) := target_areas s in
    let! m := begin (d areas) s in
    main_loop turns (d areas) nlopt fuel rng interval maxTime 0 (mkRun m next []).

  (** ** Umbrella sampling *)

  (** bimodal_brolly.cpp:344-433: one trajectory; sampleTime is [sm_time]. *)
  Fixpoint trajectory (turns : nat) (d : Demo) nlopt (fuel : nat) (rng : nat -> nat -> T) (interval : T) (k : nat) (m : Sim) : outcome (Sim * nat) :=
    if (sm_time m <? interval)%num then
      match turns with
      | 0 => OutOfFuel
      | S n => let! (m, _, _) := turn d (nlopt k) fuel (rng k) m in trajectory n d nlopt fuel rng interval (S k) m
      end
    else Ok (m, k).

  Record Umbrella := mkUmbrella {
    um_sim : Sim; um_backup : list T; um_x : T; um_bias : T; um_running : T; um_accept : nat; um_trials : nat; um_turn : nat }.
  Record Bias := mkBias { bi_centre : T; bi_spring : T; bi_beta : T; bi_width : T; bi_interval : T }.

  (** bimodal_brolly.cpp:277-309, 330-331: before the loop.  The first centre of mass is not shifted by half the width. *)
  Definition umbrella_begin (d : Demo) (g : Gravity) (bi : Bias) (s : LevelSet T) : outcome Umbrella :=
    let! m := begin d s in
    let! (x, _) := centreOfMass g (bd_points (sm_bd m)) in
    Ok (mkUmbrella m (ls_sd (sm_ls m)) x (biasPotential x (bi_centre bi) (bi_spring bi)) n0 0 0 0).

  (** bimodal_brolly.cpp:343-479: one trial; also tells whether it was accepted. *)
  Definition trial (turns fuel : nat) (d : Demo) (g : Gravity) nlopt (rng : nat -> nat -> T) (nexp : T -> T) (uniform : nat -> T) (bi : Bias) (u : Umbrella)
      : outcome (Umbrella * bool) :=
    let m := um_sim u in
    let! (m, k) := trajectory turns d nlopt fuel rng (bi_interval bi) (um_turn u) (mkSim (sm_ls m) (sm_bd m) (sm_lambdas m) (sm_nReinit m) n0) in
    let! (x, _) := centreOfMass g (bd_points (sm_bd m)) in
    let x := (x - nlit 1 2 * bi_width bi)%num in
    let bias := biasPotential x (bi_centre bi) (bi_spring bi) in
    let running := (um_running u + sm_time m)%num in
    if isAccepted nexp (uniform (um_trials u)) bias (um_bias u) (bi_beta bi) then
      Ok (mkUmbrella m (ls_sd (sm_ls m)) x bias running (um_accept u + 1) (um_trials u + 1) k, true)
    else
      let! s := reinitialise (set_sd (um_backup u) (sm_ls m)) in
      let! (s, b) := new_boundary d s in
      Ok (mkUmbrella (mkSim s b (sm_lambdas m) 0 (sm_time m)) (um_backup u) (um_x u) (um_bias u) running (um_accept u) (um_trials u + 1) k, false).
  Fixpoint trials (n turns fuel : nat) (d : Demo) (g : Gravity) nlopt rng nexp uniform (bi : Bias) (u : Umbrella) : outcome (Umbrella * list bool) :=
    match n with
    | 0 => Ok (u, [])
    | S n' =>
        let! (u, a) := trial turns fuel d g nlopt rng nexp uniform bi u in
        let! (u, l) := trials n' turns fuel d g nlopt rng nexp uniform bi u in
        Ok (u, a :: l)
    end.
  (** bimodal_brolly.cpp:482-496: time, centre of mass, length, mismatch and acceptance ratio of a sample. *)
  Definition umbrella_sample (g : Gravity) (targetArea : list T) (u : Umbrella) : outcome (list T) :=
    let! mm := computeMismatch (ls_mesh (sm_ls (um_sim u))) targetArea in
    let! l := weightedPerimeter g (bd_points (sm_bd (um_sim u))) in
    Ok [um_running u; um_x u; l; (mm / meshArea (sm_ls (um_sim u)))%num; (nofnat (um_accept u) / nofnat (um_trials u))%num].
End DemoModel.
Arguments Gravity T : clear implicits.
Arguments Demo T : clear implicits.
Arguments Sim T : clear implicits.
Arguments Run T : clear implicits.
Arguments Umbrella T : clear implicits.
Arguments Bias T : clear implicits.
