(** * DemoAgain: an umbrella run in floating point that is saved and started again (C74). *)

From Coq Require Import Ascii String.
From Verif Require Import OptModel OptCases.
From Verif Require Import Base Num NumF64 NumInt MeshSpec LevelSetModel LevelSetSpec LevelSetCalls LevelSetHist BoundaryModel TwinCase
  IOModel IOText IOBin IOCases DemoModel DemoSpec DemoRun DemoTrials DemoSetup.
Local Open Scope nat_scope.

Definition file4 : bytes := str "level-set_0.00.bin".
Definition fresh4 : Args f64 := default_args.
Definition again4 : Args f64 := mkArgs n0 n0 n0 n0 n0 1 1 (Some file4) false.
(** The position of the restarted run is that of the interrupted one, moved by half the width. *)
Lemma again_run : (let! (u, a) := brolly_begin pair4 no_files fresh4 brolly4 g4 bi4 in
    let! (u1, l) := trials 1 3 100 (brolly4 a) g4 tiny calm (fun _ => f 1 2) dice bi4 u in
    let! fs := saveLevelSetBIN no_files file4 (sm_ls (um_sim u1)) in
    let! (u2, _) := brolly_begin pair4 fs again4 brolly4 g4 bi4 in
    Ok (l, length (bd_points (sm_bd (um_sim u2))), um_x u2 =? um_x u1, um_x u2 =? um_x u1 + nlit 1 2 * bi_width bi4)%num) = Ok ([true], 12, false, true).
Proof. vm_compute. reflexivity. Qed.
Lemma pair4_reached (s : LevelSet f64) : pair4 = Ok s -> reached 4 4 s.
Proof. intros E. exists (f 1 2), 3, true, s. split; [exact fits4|]. split; [exact (new_by_holes_holes _ _ _ _ _ _ _ _ E)|apply rtc_refl]. Qed.
Lemma position_case : exists (u u1 u2 : Umbrella f64) a a2 fs l,
  brolly_begin pair4 no_files fresh4 brolly4 g4 bi4 = Ok (u, a) /\ trials 1 3 100 (brolly4 a) g4 tiny calm (fun _ => f 1 2) dice bi4 u = Ok (u1, l) /\
  saveLevelSetBIN no_files file4 (sm_ls (um_sim u1)) = Ok fs /\ brolly_begin pair4 fs again4 brolly4 g4 bi4 = Ok (u2, a2) /\
  (um_x u2 =? um_x u1 + nlit 1 2 * bi_width bi4)%num = true /\ (um_x u2 =? um_x u1)%num = false.
Proof.
  pose proof again_run as X. apply Ok_bind in X as ([u a] & E1 & X). apply Ok_bind in X as ([u1 l] & E2 & X). apply Ok_bind in X as (fs & E3 & X).
  apply Ok_bind in X as ([u2 a2] & E4 & X). injection X as _ _ X2 X1. exists u, u1, u2, a, a2, fs, l. repeat (split; [assumption|]). assumption.
Qed.
