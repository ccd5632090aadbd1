(** * PropSetup: files and command lines of the demo programs (C72, C73), restarting (C74), starting shapes and constants (C75). *)

From Coq Require Import Ascii String NArith ZArith Lia Reals Lra.
From Flocq Require Import IEEE754.BinarySingleNaN.
From Verif Require Import OptModel OptCases.
From Verif Require Import Base Num NumR NumF64 NumInt MeshModel MeshSpec LevelSetModel LevelSetSpec LevelSetSpecR LevelSetCalls LevelSetHist StartSpec BoundaryModel Twin TwinCase
  IOModel IOText IOSpec IORead IOBin IOCases DemoModel DemoSpec DemoRun DemoTrials DemoBrolly DemoSetup DemoSetupSpec DemoFiles DemoArgs DemoStart DemoShapes DemoTargets DemoAgain.
Local Open Scope nat_scope.

(** ** C72: configuration and shape files. *)
(** A text that consists of numbers is read number by number into the signed distance, from node 0 on; the nodes behind the last
    number keep their values.  More numbers than nodes are written out of bounds. *)
Theorem C72_configuration_is_read (T : Type) (NT : Num T) (TT : Text T) fs name text (vs : list T) (s : LevelSet T) :
  fs_file fs name = Some text -> has_numbers text vs ->
  load_configuration fs name s = (if length vs <=? length (ls_sd s) then Ok (set_sd (vs ++ drop (length vs) (ls_sd s)) s) else UB).
Proof. exact (configuration_read fs name text vs s). Qed.
Print Assumptions C72_configuration_is_read.

(** Any file: the program gives up exactly if there is no file, and only the signed distance is written. *)
Theorem C72_every_configuration (T : Type) (NT : Num T) (TT : Text T) fs name (s : LevelSet T) :
  match load_configuration fs name s with
  | Ok s' => (exists sd, s' = set_sd sd s /\ length sd = length (ls_sd s)) /\ fs_file fs name <> None
  | Exit => fs_file fs name = None
  | UB => fs_file fs name <> None
  | OutOfFuel => False
  end.
Proof. exact (configuration_any fs name s). Qed.
Print Assumptions C72_every_configuration.

(** The dumbbell program with a file of as many numbers as nodes starts with exactly these. *)
Theorem C72_dumbbell_from_file (T : Type) (NT : Num T) (NI : NumInt T) (TT : Text T) fs name text (vs : list T) (s : LevelSet T) :
  start_dumbbell fs None = Ok s -> fs_file fs name = Some text -> has_numbers text vs -> length vs = 101 * 101 ->
  start_dumbbell fs (Some name) = Ok (set_sd vs s) /\ reached 100 100 (set_sd vs s).
Proof. exact (dumbbell_from_file fs name text vs s). Qed.
Print Assumptions C72_dumbbell_from_file.

(** A word in range stands for the double nearest to what it denotes. *)
Theorem C72_value_of_a_word word (v : f64) : stands_for word v ->
  exists neg m e, numeral word neg m e /\ is_finite v = true /\ B2R v = nearest_double ((if neg then -1 else 1) * IZR (Z.of_N m) * powerRZ 10 e)%R.
Proof. intros (neg & m & e & N & R). exists neg, m, e. split; [exact N|]. exact (numeral_value neg m e v R). Qed.
Print Assumptions C72_value_of_a_word.

(** The points of shape_match are the pairs of numbers in the file, in order; a last unpaired number is ignored. *)
Theorem C72_shape_is_read (T : Type) (TT : Text T) fs text (vs : list T) : shape_text fs = Some text -> has_numbers text vs ->
  exists pts, load_shape fs = Ok pts /\
    forall i, pts !! i = match vs !! (2 * i), vs !! (2 * i + 1) with Some x, Some y => Some (mkCoord x y) | _, _ => None end.
Proof. exact (shape_read fs text vs). Qed.
Print Assumptions C72_shape_is_read.

Theorem C72_every_shape_file (T : Type) (NT : Num T) (TT : Text T) fs :
  match shape_text fs with Some _ => exists pts : list (Coord T), load_shape fs = Ok pts | None => load_shape (T := T) fs = Exit end.
Proof. exact (shape_any fs). Qed.
Print Assumptions C72_every_shape_file.

(** A level set saved as text is never a configuration: its file has at least three numbers per node. *)
Theorem C72_saved_level_set_as_configuration_refuted W H fs name (s s2 : LevelSet f64) isXY : reached W H s -> reached W H s2 -> fs_writable fs name = true ->
  Forall (fun x => is_finite x = true) (ls_sd s) -> Forall (fun x => is_finite x = true) (ls_vel s) -> Forall (fun x => is_finite x = true) (ls_grad s) ->
  exists fs', saveLevelSetTXT fs name s isXY = Ok fs' /\ load_configuration fs' name s2 = UB.
Proof. exact (saved_text_not_configuration W H fs name s s2 isXY). Qed.
Print Assumptions C72_saved_level_set_as_configuration_refuted.

(** Four numbers in three notations. *)
Example C72_case : exists vs : list f64, has_numbers (str " 1.5 -2" ++ nl ++ str "25e-1  +.5" ++ nl) vs /\ map (fun v => (v =? nlit 3 2, v =? nofZ (-2), v =? nlit 5 2, v =? nlit 1 2)%num) vs =
  [(true, false, false, false); (false, true, false, false); (false, false, true, false); (false, false, false, true)].
Proof. exact numbers_case. Qed.
Example C72_points : let fs := mkFS (fun n => if bytes_eqb n (str "shapes/stanford-bunny.txt") then Some (str "1 2 3 4 5") else None) (fun _ => true) in
  (let! ps := load_shape (T := f64) fs in Ok (map (fun p => (cx p =? nofZ 1, cy p =? nofZ 2, cx p =? nofZ 3, cy p =? nofZ 4)%num) ps)) = Ok [(true, true, false, false); (false, false, true, true)].
Proof. vm_compute. reflexivity. Qed.

(** ** C73: the command line of bimodal_brolly. *)
(** Options may come in any order and in either spelling; the last one given for a parameter counts, the others keep their values. *)
Theorem C73_options (T : Type) (atof : bytes -> T) (atoi : bytes -> Z) os ws a : spelled os ws -> Forall short_enough os ->
  parse atof atoi ws a = Ok (given atof atoi os a).
Proof. exact (command_line atof atoi os ws a). Qed.
Print Assumptions C73_options.

(** Every command line begins with options.  If it ends there it is accepted; an unknown word (or a request for help) ends the
    program; a missing value or a name of 100 or more characters is undefined behaviour. *)
Theorem C73_every_command_line (T : Type) (atof : bytes -> T) (atoi : bytes -> Z) a0 : forall ws, exists os pre tail, ws = pre ++ tail /\ spelled os pre /\ Forall short_enough os /\
  (tail = [] /\ parse atof atoi ws a0 = Ok (given atof atoi os a0) \/
   (exists w r, tail = w :: r /\ forall o, ~ named o w) /\ parse atof atoi ws a0 = Exit \/
   (exists o w, tail = [w] /\ named o w /\ operand o <> []) /\ parse atof atoi ws a0 = UB \/
   (exists v w r, tail = w :: v :: r /\ named (Restart v) w /\ 100 <= length v) /\ parse atof atoi ws a0 = UB).
Proof. exact (every_command_line atof atoi a0). Qed.
Print Assumptions C73_every_command_line.

(** The help text documents "--umbrella-interval" (bimodal_brolly.cpp:50); the program rejects it. *)
Theorem C73_documented_spelling_refuted (T : Type) (atof : bytes -> T) (atoi : bytes -> Z) v rest a :
  parse atof atoi (str "--umbrella-interval" :: v :: rest) a = Exit.
Proof. destruct a. reflexivity. Qed.
Print Assumptions C73_documented_spelling_refuted.

Example C73_case : let a := given (fun _ => n1) (fun _ => 7%Z) [Samples (str "7"); Restart (str "x.bin"); Temperature (str "1")] (default_args (T := f64)) in
  parse (fun _ => n1) (fun _ => 7%Z) [str "-n"; str "7"; str "--restart"; str "x.bin"; str "-t"; str "1"] default_args = Ok a /\
  a_nSamples a = 7 /\ a_restart a = Some (str "x.bin") /\ a_sampleInterval a = 10 /\ a_boundary a = false /\
  spelled [Samples (str "7"); Restart (str "x.bin"); Temperature (str "1")] [str "-n"; str "7"; str "--restart"; str "x.bin"; str "-t"; str "1"].
Proof.
  assert (S : spelled [Samples (str "7"); Restart (str "x.bin"); Temperature (str "1")] [str "-n"; str "7"; str "--restart"; str "x.bin"; str "-t"; str "1"]).
  { apply (spell_one (Samples (str "7"))); [left; reflexivity|]. apply (spell_one (Restart (str "x.bin"))); [right; reflexivity|].
    apply (spell_one (Temperature (str "1"))); [left; reflexivity|constructor]. }
  cbv zeta. split; [apply (C73_options _ _ _ _ _ _ S); repeat constructor; vm_compute; lia|]. repeat (split; [reflexivity|]). exact S.
Qed.

(** ** C74: restarting bimodal_brolly from the file it saves. *)
(** The areas of the target depend on the target, the masks and the parameters, not on the signed distance or the history. *)
Theorem C74_target_areas (T : Type) (NT : Num T) (NI : NumInt T) W H (r r' : LevelSet T) : reached W H r -> reached W H r' -> setup r = setup r' ->
  orel (fun x x' => snd x' = snd x) (target_areas r) (target_areas r').
Proof. exact (target_areas_same W H r r'). Qed.
Print Assumptions C74_target_areas.

(** After any number of trials the level set is saved.  A run that is given this file begins exactly as if the interrupted run had
    reinitialised and discretised its level set: same boundary, signed distance, narrow band, mines, area fractions and target areas; only
    the counters, the time and the position are new.  It fails exactly if that would fail. *)
Theorem C74_restart_from_file (T : Type) (NT : Num T) (NI : NumInt T) (BT : Bytes T) (BL : BytesLaws T) W H (start : outcome (LevelSet T)) :
  (forall s, start = Ok s -> reached W H s) -> forall fs a d g bi u areas n turns fuel nlopt rng nexp uniform u1 l fs1 name a1,
  brolly_begin start fs a d g bi = Ok (u, areas) -> trials n turns fuel (d areas) g nlopt rng nexp uniform bi u = Ok (u1, l) ->
  fs_writable fs1 name = true -> a_restart a1 = Some name ->
  exists fs2, saveLevelSetBIN fs1 name (sm_ls (um_sim u1)) = Ok fs2 /\
    forall g1 bi1,
      orel (fun r r' => snd r = areas /\ sm_bd (um_sim (fst r)) = snd r' /\ same_boundary (d areas) r' (sm_ls (um_sim (fst r)), sm_bd (um_sim (fst r))) /\
              um_backup (fst r) = ls_sd (fst r') /\ sm_nReinit (um_sim (fst r)) = 0 /\ um_running (fst r) = n0 /\ um_accept (fst r) = 0 /\ um_trials (fst r) = 0 /\
              (let! (x, _) := centreOfMass g1 (bd_points (snd r')) in Ok x) = Ok (um_x (fst r)) /\
              um_bias (fst r) = biasPotential (um_x (fst r)) (bi_centre bi1) (bi_spring bi1))
        (brolly_begin start fs2 a1 d g1 bi1)
        (let! r := reinitialise (sm_ls (um_sim u1)) in let! (s, b) := new_boundary (d areas) r in let! _ := centreOfMass g1 (bd_points b) in Ok (s, b)).
Proof. exact (restart_from_file W H start). Qed.
Print Assumptions C74_restart_from_file.

(** The premise on the start holds for the program's own level set. *)
Theorem C74_start_is_reached (T : Type) (NT : Num T) (NI : NumInt T) (s : LevelSet T) : start_bimodal = Ok s -> reached 70 60 s.
Proof. exact (start_bimodal_reached s). Qed.
Print Assumptions C74_start_is_reached.

(** The position, and so the bias, of the restarted run is not that of the interrupted one: it lacks the shift by half the width that
    every sample is given (see C66). *)
Theorem C74_position_refuted : exists (u u1 u2 : Umbrella f64) a a2 fs l,
  brolly_begin pair4 no_files fresh4 brolly4 g4 bi4 = Ok (u, a) /\ trials 1 3 100 (brolly4 a) g4 tiny calm (fun _ => f 1 2) dice bi4 u = Ok (u1, l) /\
  saveLevelSetBIN no_files file4 (sm_ls (um_sim u1)) = Ok fs /\ brolly_begin pair4 fs again4 brolly4 g4 bi4 = Ok (u2, a2) /\
  (um_x u2 =? um_x u1 + nlit 1 2 * bi_width bi4)%num = true /\ (um_x u2 =? um_x u1)%num = false.
Proof. exact position_case. Qed.
Print Assumptions C74_position_refuted.

Example C74_case : (forall s, pair4 = Ok s -> reached 4 4 s) /\ fs_writable no_files file4 = true /\ a_restart again4 = Some file4.
Proof. split; [exact pair4_reached|]. split; reflexivity. Qed.

(** ** C75: starting shapes and constants. *)
(** minimise_area and minimise_perimeter begin with material around a round hole of radius 80 at (100, 100). *)
Theorem C75_discs :
  (exists s, start_minimise_area (T := R) = Ok s /\ reached 200 200 s /\ ls_moveLimit s = (1 / 2)%R /\
     forall x y, x <= 200 -> y <= 200 -> ls_sd s !! node_id 200 x y = Some (around 200 200 [(100, 100, 80)%R] x y)) /\
  (exists s, start_minimise_perimeter (T := R) = Ok s /\ reached 200 200 s /\ ls_moveLimit s = (1 / 20)%R /\
     forall x y, x <= 200 -> y <= 200 -> ls_sd s !! node_id 200 x y = Some (around 200 200 [(100, 100, 80)%R] x y)).
Proof. exact disc_shapes. Qed.
Print Assumptions C75_discs.

(** minimise_perimeter_constrained begins with a square hole from (90, 90) to (110, 110): -1 on it, border included, and 1 elsewhere. *)
Theorem C75_square_R : exists s : LevelSet R, start_constrained = Ok s /\ reached 200 200 s /\
  forall x y, x <= 200 -> y <= 200 -> ls_sd s !! node_id 200 x y = Some (if in_square x y then -1 else 1)%R.
Proof. exact square_R. Qed.
Print Assumptions C75_square_R.
Theorem C75_square_f64 : exists s : LevelSet f64, start_constrained = Ok s /\ reached 200 200 s /\
  forall x y, x <= 200 -> y <= 200 -> ls_sd s !! node_id 200 x y = Some (if in_square x y then nofZ (-1) else n1).
Proof. exact square_f64. Qed.
Print Assumptions C75_square_f64.

(** bimodal and bimodal_brolly begin with a round hole of radius 10 at (35, 15); the target has two of radius 20, at (45, 31) and (25, 30). *)
Theorem C75_bimodal : exists s : LevelSet R, start_bimodal = Ok s /\ shape_and_target 70 60 [(35, 15, 10)%R] [(45, 31, 20)%R; (25, 30, 20)%R] s.
Proof. exact bimodal_shape. Qed.
Print Assumptions C75_bimodal.

(** dumbbell without a configuration file begins with one of radius 15 at (50, 69); the target has two of radius 20, at (50, 69) and (50, 31). *)
Theorem C75_dumbbell (TT : Text R) fs : exists s : LevelSet R, start_dumbbell fs None = Ok s /\ shape_and_target 100 100 [(50, 69, 15)%R] [(50, 69, 20)%R; (50, 31, 20)%R] s.
Proof. exact (dumbbell_shape fs). Qed.
Print Assumptions C75_dumbbell.

(** The weights of dumbbell fall from 1 at height 69 to the reduction factor at 31, those of bimodal from 1 at 51 to 1 less the gravity at 11. *)
Theorem C75_weights (r y : R) : (0 <= r <= 1)%R ->
  perimeterWeight (gravity_dumbbell r) y = (1 - (1 - r) * Rmax 0 (Rmin 1 ((69 - y) / 38)))%R /\
  perimeterWeight (gravity_bimodal r) y = (1 - r * Rmax 0 (Rmin 1 ((51 - y) / 40)))%R /\ gravity_ok (gravity_dumbbell r) /\ gravity_ok (gravity_bimodal r).
Proof. intros Hr. split; [exact (dumbbell_weight r y Hr)|]. split; [exact (bimodal_weight r y Hr)|]. split; [exact (gravity_dumbbell_ok r Hr)|exact (gravity_bimodal_ok r Hr)]. Qed.
Print Assumptions C75_weights.

(** The mismatch bimodal and bimodal_brolly allow is the area of the two lobes, taken at equal height, less 280. *)
Theorem C75_mismatch_allowed (pi asin_half : R) : (0 < lobes_area pi asin_half)%R -> (70 * 60 * max_mismatch pi asin_half = lobes_area pi asin_half - 280)%R.
Proof. exact (max_mismatch_R pi asin_half). Qed.
Print Assumptions C75_mismatch_allowed.
Example C75_case : (0 < lobes_area PI (asin (/ 2)))%R /\ in_square 90 110 = true /\ in_square 89 100 = false.
Proof. split; [exact lobes_area_real|]. split; reflexivity. Qed.
