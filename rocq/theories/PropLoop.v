(** * PropLoop: the main loops of the demo programs (C63-C67). *)

From Coq Require Import Reals Lra.
From Verif Require Import OptModel OptSpec OptCases OptTotal.
From Verif Require Import Base Num NumR NumF64 NumInt MeshModel MeshSpec LevelSetModel LevelSetSpec LevelSetCalls BoundaryModel BoundarySpecR BoundaryGraph BoundaryClosed TwinCase TwinSpec
  DemoModel DemoSpec DemoLoop DemoBrolly DemoTurn DemoArea DemoCase DemoRun DemoTurns DemoTrials.
Local Open Scope R_scope.

(** C63: a trial is accepted with the Metropolis probability min(1, exp(-beta (new bias - old bias))): for a number drawn from
    [0, 1) exactly the draws below it accept; steps that do not raise the bias are always accepted; detailed balance holds. *)
Theorem C63_accepted_iff u cur prev beta : 0 <= u < 1 -> isAccepted exp u cur prev beta = true <-> u < acceptance beta prev cur.
Proof. exact (accepted_iff u cur prev beta). Qed.
Print Assumptions C63_accepted_iff.

Theorem C63_downhill u cur prev beta : 0 <= u < 1 -> 0 <= beta -> cur <= prev -> isAccepted exp u cur prev beta = true.
Proof. exact (downhill u cur prev beta). Qed.
Print Assumptions C63_downhill.

Theorem C63_detailed_balance beta a b : exp (- (beta * a)) * acceptance beta a b = exp (- (beta * b)) * acceptance beta b a.
Proof. exact (detailed_balance beta a b). Qed.
Print Assumptions C63_detailed_balance.

(** The decision of a trial compares the harmonic bias at the new centre of mass with the one at the last accepted. *)
Theorem C63_trial_decision turns fuel (d : Demo R) g nlopt rng uniform bi u u' a : 0 <= uniform (um_trials u) < 1 ->
  trial turns fuel d g nlopt rng exp uniform bi u = Ok (u', a) ->
  exists m k x y, trajectory turns d nlopt fuel rng (bi_interval bi) (um_turn u) (mkSim (sm_ls (um_sim u)) (sm_bd (um_sim u)) (sm_lambdas (um_sim u)) (sm_nReinit (um_sim u)) 0) = Ok (m, k) /\
    centreOfMass g (bd_points (sm_bd m)) = Ok (x, y) /\
    (a = true <-> uniform (um_trials u) < acceptance (bi_beta bi) (um_bias u) (bi_spring bi * (x - bi_width bi / 2 - bi_centre bi) ^ 2 / 2)).
Proof. exact (trial_decision turns fuel d g nlopt rng uniform bi u u' a). Qed.
Print Assumptions C63_trial_decision.

Example C63_case : 0 <= / 2 < 1 /\ isAccepted exp (/ 2) 1 1 1 = true /\ isAccepted exp (/ 2) 2 1 1 = false.
Proof. exact accept_case. Qed.

(** C64: between two reinitialisations there are at most 19 turns without one, and at most 20 at the start of a run; the flag tells
    what happened to the signed distance. *)
Theorem C64_reinitialisation_cadence (T : Type) (NT : Num T) (d : Demo T) nlopt fuel rng interval maxTime k r l r' :
  history d nlopt fuel rng interval maxTime k r l r' -> sm_nReinit (rn_sim r) = 0%nat ->
  forall l1 n l2, map snd l = l1 ++ replicate n false ++ l2 -> (n <= 20)%nat /\ (true ∈ l1 -> (n <= 19)%nat).
Proof. exact (reinit_cadence d nlopt fuel rng interval maxTime k r l r'). Qed.
Print Assumptions C64_reinitialisation_cadence.

Theorem C64_turn_moves_the_field (T : Type) (NT : Num T) (NI : NumInt T) (d : Demo T) fuel W H nl rg m m' c b : reached W H (sm_ls m) -> turn d nl fuel rg m = Ok (m', c, b) ->
  exists points sv s1 s2 s3 dt, velocities_from d rg (sm_ls m) points sv dt /\ LevelSetModel.computeGradients sv = Ok s1 /\
    reached W H s1 /\ ls_sd s1 = ls_sd (sm_ls m) /\ ls_vel s1 = ls_vel sv /\ moved_field s1 dt s2 /\
    (if b then reinitialise s2 = Ok s3 else s3 = s2) /\ reached W H s3 /\ new_boundary d s3 = Ok (sm_ls m', sm_bd m') /\ sm_time m' = (sm_time m + dt)%num.
Proof. exact (flag_meaning d fuel W H nl rg m m' c b). Qed.
Print Assumptions C64_turn_moves_the_field.

(** Every main loop that ends has such a history, and then the running time has reached the limit. *)
Theorem C64_loop_history (T : Type) (NT : Num T) (d : Demo T) nlopt fuel rng interval maxTime turns k r r' :
  main_loop turns d nlopt fuel rng interval maxTime k r = Ok r' ->
  exists l, history d nlopt fuel rng interval maxTime k r l r' /\ (length l <= turns)%nat /\ (sm_time (rn_sim r') <? maxTime)%num = false.
Proof. exact (main_loop_history d nlopt fuel rng interval maxTime turns k r r'). Qed.
Print Assumptions C64_loop_history.

(** C65: samples are taken on schedule.  Sample [j] is taken in the first turn at whose end its due time has passed, and no due
    sample is missed; stated for any numbers, for as many samples as the due times keep their order in. *)
Theorem C65_samples_due (T : Type) (NT : Num T) (d : Demo T) nlopt fuel rng interval maxTime N k r l r' : history d nlopt fuel rng interval maxTime k r l r' ->
  (forall t i j, t ∈ map fst l -> (i <= j <= N)%nat -> (due interval (rn_next r) j <=? t)%num = true -> (due interval (rn_next r) i <=? t)%num = true) ->
  exists new, rn_log r' = rn_log r ++ new /\ rn_next r' = due interval (rn_next r) (length new) /\
    ((length new <= N)%nat ->
     (forall j t v, new !! j = Some (t, v) -> exists i, map fst l !! i = Some t /\ (due interval (rn_next r) j <=? t)%num = true /\
        forall i' t', (i' < i)%nat -> map fst l !! i' = Some t' -> (due interval (rn_next r) j <=? t')%num = false) /\
     (forall i t j, map fst l !! i = Some t -> (j <= N)%nat -> (due interval (rn_next r) j <=? t)%num = true -> (j < length new)%nat)).
Proof. exact (samples_due d nlopt fuel rng interval maxTime N k r l r'). Qed.
Print Assumptions C65_samples_due.

(** In exact arithmetic the due times are equally spaced and nothing else is needed. *)
Theorem C65_samples_on_schedule (d : Demo R) nlopt fuel rng interval maxTime k r l r' : 0 < interval -> history d nlopt fuel rng interval maxTime k r l r' ->
  exists new, rn_log r' = rn_log r ++ new /\ rn_next r' = rn_next r + INR (length new) * interval /\
  (forall j t v, new !! j = Some (t, v) -> exists i, map fst l !! i = Some t /\ rn_next r + INR j * interval <= t /\
     forall i' t', (i' < i)%nat -> map fst l !! i' = Some t' -> t' < rn_next r + INR j * interval) /\
  (forall i t j, map fst l !! i = Some t -> rn_next r + INR j * interval <= t -> (j < length new)%nat).
Proof. exact (samples_on_schedule d nlopt fuel rng interval maxTime k r l r'). Qed.
Print Assumptions C65_samples_on_schedule.

Theorem C65_sampling_ends (d : Demo R) interval fl carried m next log : 0 < interval -> sm_time m - next < INR fl * interval ->
  (forall s b, d_measure d carried s b <> OutOfFuel) -> sampling fl d interval carried m next log <> OutOfFuel.
Proof. exact (sampling_ends d interval fl carried m next log). Qed.
Print Assumptions C65_sampling_ends.

(** 22 turns of minimise_area: reinitialised in the 21st only, one sample. *)
Example C64_C65_case : exists (r r' : Run f64) l, reached 4 4 (sm_ls (rn_sim r)) /\ sm_nReinit (rn_sim r) = 0%nat /\
  history minimise_area tiny 100 calm (f 1 100) (f 1 1) 0 r l r' /\ map snd l = replicate 20 false ++ [true; false] /\
  rn_log r = [] /\ length (rn_log r') = 1%nat /\
  (forall t i j, t ∈ map fst l -> (i <= j <= 3)%nat -> (due (f 1 100) (rn_next r) j <=? t)%num = true -> (due (f 1 100) (rn_next r) i <=? t)%num = true).
Proof. exact loop_case. Qed.
(** So the comment in the source, at least every 20 iterations, is off by one for the first. *)
Theorem C64_first_reinitialisation_refuted : exists (r r' : Run f64) l, reached 4 4 (sm_ls (rn_sim r)) /\
  history minimise_area tiny 100 calm (f 1 100) (f 1 1) 0 r l r' /\ forall i, (i < 20)%nat -> map snd l !! i = Some false.
Proof. exact first_reinit. Qed.
Print Assumptions C64_first_reinitialisation_refuted.

(** C66: umbrella sampling keeps its books.  Trials and acceptances are counted; backup, position and bias belong to the shape
    accepted last and a rejected trial does not change them. *)
Theorem C66_trials_ledger (T : Type) (NT : Num T) n turns fuel (d : Demo T) g nlopt rng nexp uniform bi u u' l :
  trials n turns fuel d g nlopt rng nexp uniform bi u = Ok (u', l) ->
  length l = n /\ um_trials u' = (um_trials u + n)%nat /\ um_accept u' = (um_accept u + length (filter (fun a => a = true) l))%nat /\
  (um_bias u = biasPotential (um_x u) (bi_centre bi) (bi_spring bi) -> um_bias u' = biasPotential (um_x u') (bi_centre bi) (bi_spring bi)) /\
  ((forall a, a ∈ l -> a = false) -> um_backup u' = um_backup u /\ um_x u' = um_x u /\ um_bias u' = um_bias u).
Proof. exact (trials_ledger turns fuel d g nlopt rng nexp uniform bi n u u' l). Qed.
Print Assumptions C66_trials_ledger.

Theorem C66_last_accepted (T : Type) (NT : Num T) turns fuel (d : Demo T) g nlopt rng nexp uniform bi u u' l l1 k :
  trials (length l) turns fuel d g nlopt rng nexp uniform bi u = Ok (u', l) -> l = l1 ++ true :: replicate k false ->
  exists u1 u2 y, trials (length l1) turns fuel d g nlopt rng nexp uniform bi u = Ok (u1, l1) /\ trial turns fuel d g nlopt rng nexp uniform bi u1 = Ok (u2, true) /\
    um_backup u' = ls_sd (sm_ls (um_sim u2)) /\ um_bias u' = biasPotential (um_x u') (bi_centre bi) (bi_spring bi) /\
    exists x, centreOfMass g (bd_points (sm_bd (um_sim u2))) = Ok (x, y) /\ um_x u' = (x - nlit 1 2 * bi_width bi)%num.
Proof. exact (trials_last turns fuel d g nlopt rng nexp uniform bi u u' l l1 k). Qed.
Print Assumptions C66_last_accepted.

(** After a rejected trial the run goes on as one restarted from the backup: any level set with the backup as signed distance and
    the same target, masks and parameters gives, reinitialised and discretised, the same boundary, signed distance, narrow band,
    mines and areas.  Whatever the trial did is undone. *)
Theorem C66_rejection_restarts (T : Type) (NT : Num T) (NI : NumInt T) turns fuel (d : Demo T) g nlopt rng nexp uniform bi W H u u' (s0 : LevelSet T) :
  reached W H (sm_ls (um_sim u)) -> reached W H s0 -> setup s0 = setup (sm_ls (um_sim u)) -> ls_sd s0 = um_backup u ->
  trial turns fuel d g nlopt rng nexp uniform bi u = Ok (u', false) ->
  exists s, (let! r := reinitialise s0 in new_boundary d r) = Ok (s, sm_bd (um_sim u')) /\
    ls_sd (sm_ls (um_sim u')) = ls_sd s /\ band_list (sm_ls (um_sim u')) = band_list s /\ mine_list (sm_ls (um_sim u')) = mine_list s /\
    (d_areas d = true -> map e_area (m_elements (ls_mesh (sm_ls (um_sim u')))) = map e_area (m_elements (ls_mesh s)) /\ ls_area (sm_ls (um_sim u')) = ls_area s).
Proof. exact (rejection_restarts turns fuel d g nlopt rng nexp uniform bi W H u u' s0). Qed.
Print Assumptions C66_rejection_restarts.

Theorem C66_trials_keep_setup (T : Type) (NT : Num T) (NI : NumInt T) n turns fuel (d : Demo T) g nlopt rng nexp uniform bi W H u u' l :
  reached W H (sm_ls (um_sim u)) -> length (um_backup u) = node_count W H ->
  trials n turns fuel d g nlopt rng nexp uniform bi u = Ok (u', l) ->
  reached W H (sm_ls (um_sim u')) /\ length (um_backup u') = node_count W H /\ setup (sm_ls (um_sim u')) = setup (sm_ls (um_sim u)).
Proof. exact (trials_keep n turns fuel d g nlopt rng nexp uniform bi W H u u' l). Qed.
Print Assumptions C66_trials_keep_setup.

(** The position before the first accepted trial is not relative to the middle of the domain, unlike all later ones. *)
Theorem C66_first_position_refuted : exists (s : LevelSet f64) a u x y, reached 4 4 s /\ umbrella_begin (brolly4 a) g4 bi4 s = Ok u /\
  centreOfMass g4 (bd_points (sm_bd (um_sim u))) = Ok (x, y) /\ (um_x u =? x - nlit 1 2 * bi_width bi4)%num = false.
Proof. exact first_position. Qed.
Print Assumptions C66_first_position_refuted.

Example C66_case : exists (s0 : LevelSet f64) a u u1 u2 x y, reached 4 4 s0 /\ umbrella_begin (brolly4 a) g4 bi4 s0 = Ok u /\
  reached 4 4 (sm_ls (um_sim u)) /\ length (um_backup u) = node_count 4 4 /\ bias_matches bi4 u /\
  trial 3 100 (brolly4 a) g4 tiny calm (fun _ => f 1 2) dice bi4 u = Ok (u1, true) /\
  trial 3 100 (brolly4 a) g4 tiny calm (fun _ => f 1 2) dice bi4 u1 = Ok (u2, false) /\
  trials 2 3 100 (brolly4 a) g4 tiny calm (fun _ => f 1 2) dice bi4 u = Ok (u2, [true; false]) /\
  centreOfMass g4 (bd_points (sm_bd (um_sim u))) = Ok (x, y) /\ (um_x u =? x - nlit 1 2 * bi_width bi4)%num = false.
Proof. exact trials_case. Qed.

(** C67: a turn of minimise_area, from a shape inside the domain, reads and writes within its arrays and ends, for every NLopt that
    asks for a step only within its interface: it can only stop with an error message, or arrive at a level set a program can reach,
    of which it discretises the boundary. *)
Theorem C67_area_turn W H (s : LevelSet R) nlopt rng lambdas nReinit time : reached W H s -> (4 <= W)%nat -> (4 <= H)%nat ->
  off_contour W H (ls_sd s) -> clear_cuts W H (ls_sd s) -> covered W H s (ls_sd s) -> (forall i, ~ masked s i) ->
  (forall x y, (x <= W)%nat -> (y <= H)%nat -> (x = 0 \/ x = W \/ y = 0 \/ y = H)%nat -> exists v, ls_sd s !! node_id W x y = Some v /\ v < 0) ->
  (exists i x, (i < node_count W H)%nat /\ ls_sd s !! i = Some x /\ 0 < x) ->
  length lambdas = 1%nat -> (forall o, op_n o = 0%nat -> polite 0 (nlopt 0%nat o)) ->
  exists s' b, new_boundary minimise_area s = Ok (s', b) /\
    exists F, forall fuel, (F <= fuel)%nat ->
      turn minimise_area nlopt fuel rng (mkSim s' b lambdas nReinit time) = Exit \/
      exists s4 lambdas' n dt ri, reached W H s4 /\ length lambdas' = 1%nat /\ 0 <= dt /\
        turn minimise_area nlopt fuel rng (mkSim s' b lambdas nReinit time) = (let! (s5, b5) := discretise s4 false in Ok (mkSim s5 b5 lambdas' n (time + dt), 0, ri)).
Proof. exact (area_turn_inside W H s nlopt rng lambdas nReinit time). Qed.
Print Assumptions C67_area_turn.

(** In particular the first turn of the program. *)
Theorem C67_first_area_turn W H (s : LevelSet R) nlopt rng : reached W H s -> (4 <= W)%nat -> (4 <= H)%nat ->
  off_contour W H (ls_sd s) -> clear_cuts W H (ls_sd s) -> covered W H s (ls_sd s) -> (forall i, ~ masked s i) ->
  (forall x y, (x <= W)%nat -> (y <= H)%nat -> (x = 0 \/ x = W \/ y = 0 \/ y = H)%nat -> exists v, ls_sd s !! node_id W x y = Some v /\ v < 0) ->
  (exists i x, (i < node_count W H)%nat /\ ls_sd s !! i = Some x /\ 0 < x) -> (forall o, op_n o = 0%nat -> polite 0 (nlopt 0%nat o)) ->
  exists m, begin minimise_area s = Ok m /\ sm_time m = 0 /\
    exists F, forall fuel, (F <= fuel)%nat ->
      turn minimise_area nlopt fuel rng m = Exit \/
      exists s4 lambdas' n dt ri, reached W H s4 /\ length lambdas' = 1%nat /\ 0 <= dt /\
        turn minimise_area nlopt fuel rng m = (let! (s5, b5) := discretise s4 false in Ok (mkSim s5 b5 lambdas' n dt, 0, ri)).
Proof. exact (first_area_turn W H s nlopt rng). Qed.
Print Assumptions C67_first_area_turn.

(** The same for any boundary with a point of positive length that may move, in which no moving point touches the border. *)
Theorem C67_area_turn_general W H (s : LevelSet R) m nlopt rng : reached W H s -> (4 <= W)%nat -> (4 <= H)%nat -> new_boundary minimise_area s = Ok (sm_ls m, sm_bd m) ->
  length (sm_lambdas m) = 1%nat ->
  (exists p, p ∈ bd_points (sm_bd m) /\ bp_fixed p = false /\ 0 < bp_length p) ->
  (forall p, p ∈ bd_points (sm_bd m) -> bp_fixed p = false -> bp_domain p = false) ->
  (forall o, op_n o = 0%nat -> polite 0 (nlopt 0%nat o)) ->
  exists F, forall fuel, (F <= fuel)%nat ->
    turn minimise_area nlopt fuel rng m = Exit \/
    exists s4 lambdas n dt ri, reached W H s4 /\ length lambdas = 1%nat /\ 0 <= dt /\
      turn minimise_area nlopt fuel rng m = (let! (s5, b5) := discretise s4 false in Ok (mkSim s5 b5 lambdas n (sm_time m + dt), 0, ri)).
Proof. exact (area_turn W H s m nlopt rng). Qed.
Print Assumptions C67_area_turn_general.

Example C67_case : exists s : LevelSet R, reached 4 4 s /\ length (ls_target s) = node_count 4 4 /\ ls_sd s = mid25 /\ off_contour 4 4 (ls_sd s) /\ clear_cuts 4 4 (ls_sd s) /\
  covered 4 4 s (ls_sd s) /\ (forall i, ~ masked s i) /\
  (forall x y, (x <= 4)%nat -> (y <= 4)%nat -> (x = 0 \/ x = 4 \/ y = 0 \/ y = 4)%nat -> exists v, ls_sd s !! node_id 4 x y = Some v /\ v < 0) /\
  (exists i x, (i < node_count 4 4)%nat /\ ls_sd s !! i = Some x /\ 0 < x).
Proof. exact mid_case. Qed.
Example C67_case_nlopt (x : nat -> R) k (o : Opt R) : polite 0 (evaluate x k o).
Proof. exact (evaluate_polite x k o). Qed.
