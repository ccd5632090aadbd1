(** * PropIO: theorems about InputOutput (C45, C46, C47, C52).  Proofs in IODigits, IOBin, IORead, IOFiles, IOContents, IOCases. *)

From Coq Require Import Reals Ascii String NArith ZArith.
From Flocq Require Import Core.Core IEEE754.BinarySingleNaN IEEE754.Bits.
From Verif Require Import IOModel IOText IODigits IOBin IORead IOFiles IOSpec IOContents IOCases Num NumF64 NumInt LevelSetCalls LevelSetHist LevelSetSpec MeshSpec.
Local Open Scope nat_scope.

(** C45: a binary file restores every double bit for bit, with the payload of NaNs; nothing else of the level set
    changes and no other file does. *)
Theorem C45_binary_round_trip fs name (s s2 : LevelSet binary64) :
  m_nNodes (ls_mesh s) = length (ls_sd s) -> m_nNodes (ls_mesh s2) = length (ls_sd s2) -> length (ls_sd s2) = length (ls_sd s) -> fs_writable fs name = true ->
  exists fs', saveLevelSetBIN fs name s = Ok fs' /\ (forall n, n <> name -> fs_file fs' n = fs_file fs n) /\
    loadLevelSetBIN fs' name s2 = Ok (set_sd (ls_sd s) s2).
Proof. exact (bin_roundtrip fs name s s2). Qed.
Print Assumptions C45_binary_round_trip.

(** C45: what is loaded from any file, also from one that is too short or too long: whole values up to its end, the old ones
    behind it. *)
Theorem C45_any_file fs name (s : LevelSet binary64) content : m_nNodes (ls_mesh s) = length (ls_sd s) -> fs_file fs name = Some content ->
  exists sd, loadLevelSetBIN fs name s = Ok (set_sd sd s) /\ length sd = length (ls_sd s) /\
    forall i x, ls_sd s !! i = Some x ->
      (8 * i + 8 <= length content -> sd !! i = Some (of_bytes (take 8 (drop (8 * i) content)))) /\
      (length content <= 8 * i -> sd !! i = Some x).
Proof. exact (bin_loaded fs name s content). Qed.
Print Assumptions C45_any_file.

(** C45: a file that cannot be opened ends the program, before anything is changed. *)
Theorem C45_no_file fs name (s : LevelSet binary64) :
  (fs_writable fs name = false -> saveLevelSetBIN fs name s = Exit) /\ (fs_file fs name = None -> loadLevelSetBIN fs name s = Exit).
Proof. split; intros E; [unfold saveLevelSetBIN, save|unfold loadLevelSetBIN]; rewrite E; reflexivity. Qed.
Print Assumptions C45_no_file.

(** The bytes of 1 and of minus infinity in memory. *)
Example C45_bytes : map N_of_ascii (to_bytes (b64_of_bits 4607182418800017408) ++ to_bytes (b64_of_bits 18442240474082181120))
  = [0; 0; 0; 0; 0; 0; 240; 63; 0; 0; 0; 0; 0; 0; 240; 255]%N.
Proof. vm_compute. reflexivity. Qed.
Definition mesh64 : Mesh binary64 := mkMesh [] [] 1 1 1 4 [].
Definition with64 (l : list Z) : LevelSet binary64 := mkLS (map b64_of_bits l) [] [] [] [] [] 0 0 (b64_of_bits 0) None mesh64 3 false.
(** The hypotheses are met; NaNs with a sign and a payload come back. *)
Example C45_case : let s := with64 [0; 9221120237041090561; 18442240474082181120; 18444492273895866370]%Z in let s2 := with64 [1; 2; 3; 4]%Z in
  m_nNodes (ls_mesh s) = length (ls_sd s) /\ length (ls_sd s2) = length (ls_sd s) /\
  (let! fs := saveLevelSetBIN no_files (str "a") s in let! s3 := loadLevelSetBIN fs (str "a") s2 in Ok (map bits_of_b64 (ls_sd s3)))
  = Ok [0; 9221120237041090561; 18442240474082181120; 18444492273895866370]%Z.
Proof. vm_compute. auto. Qed.

(** C46: a text file restores each value to six decimals: the double loaded is the one nearest to the value rounded to
    millionths.  Below 2^32 it prints as the old value did, so that saving and loading again changes nothing. *)
Theorem C46_text_round_trip W H fs name (s s2 : LevelSet f64) isXY : reached W H s -> reached W H s2 -> fs_writable fs name = true ->
  Forall (fun x => is_finite x = true) (ls_sd s) -> Forall (fun x => is_finite x = true) (ls_vel s) -> Forall (fun x => is_finite x = true) (ls_grad s) ->
  exists fs' sd, saveLevelSetTXT fs name s isXY = Ok fs' /\ loadLevelSetTXT fs' name s2 isXY = Ok (set_sd sd s2) /\ length sd = length (ls_sd s) /\
    forall i x, ls_sd s !! i = Some x -> exists y z, sd !! i = Some y /\ is_finite y = true /\ to_six_decimals (B2R x) z /\ B2R y = nearest_double (IZR z / 1000000) /\
      (Rabs (B2R x) < bpow radix2 32 -> show y = show x)%R.
Proof. exact (txt_nodes W H fs name s s2 isXY). Qed.
Print Assumptions C46_text_round_trip.

(** C46, whatever the file contains: the program ends iff there is no such file or it has another number of lines than the mesh
    has nodes (counted modulo 2^32); otherwise only signed distances are written. *)
Theorem C46_line_count_checked (T : Type) (TT : Text T) fs name (s : LevelSet T) isXY :
  match loadLevelSetTXT fs name s isXY with
  | Ok s' => exists sd text, fs_file fs name = Some text /\ s' = set_sd sd s /\ length sd = length (ls_sd s) /\
      (N.of_nat (count_lines text false) mod 2 ^ 32 = N.of_nat (m_nNodes (ls_mesh s)))%N
  | Exit => fs_file fs name = None \/ exists text, fs_file fs name = Some text /\ (N.of_nat (count_lines text false) mod 2 ^ 32 <> N.of_nat (m_nNodes (ls_mesh s)))%N
  | UB => True
  | OutOfFuel => False
  end.
Proof. exact (txt_any fs name s isXY). Qed.
Print Assumptions C46_line_count_checked.
Theorem C46_lines_are_newlines text : count_lines text false = count_occ ascii_dec text newline + match last text with Some c => if Ascii.eqb c newline then 0 else 1 | None => 0 end.
Proof. exact (count_lines_eq text false). Qed.
Print Assumptions C46_lines_are_newlines.
Theorem C46_loaded_level_sets_are_sound (T : Type) (NT : Num T) (NI : NumInt T) (TT : Text T) W H fs name (s s' : LevelSet T) isXY :
  reached W H s -> loadLevelSetTXT fs name s isXY = Ok s' -> reached W H s'.
Proof. exact (load_reached W H fs name s s' isXY). Qed.
Print Assumptions C46_loaded_level_sets_are_sound.

Example C46_shown : (show (i64 1 2), show (i64 (-1) 3), show (i64 1 3000000), show (i64 5 (10 ^ 7)), show (i64 12345678 1)) =
  (str "0.500000", str "-0.333333", str "0.000000", str "0.000000", str "12345678.000000").
Proof. vm_compute. reflexivity. Qed.
(** Four values on a 1 by 1 mesh: a half and a quarter come back exactly, a third to six decimals. *)
Example C46_case : forall isXY,
  (let! s := small in
   let! fs := saveLevelSetTXT no_files (str "a") (set_sd [i64 1 2; i64 (-1) 4; i64 1 3; i64 100 1] s) isXY in
   let! s2 := loadLevelSetTXT fs (str "a") s isXY in
   Ok (same64 (ls_sd s2) [i64 1 2; i64 (-1) 4; i64 333333 1000000; i64 100 1])) = Ok true.
Proof. intros [|]; vm_compute; reflexivity. Qed.

(** C46 needs the same flag: coordinates saved and not expected make the program write behind the vector. *)
Theorem C46_other_flag_refuted :
  (let! s := small in let! fs := saveLevelSetTXT no_files (str "a") s true in let! s2 := loadLevelSetTXT fs (str "a") s false in Ok tt) = UB.
Proof. vm_compute. reflexivity. Qed.
Print Assumptions C46_other_flag_refuted.
(** C46 needs finite values: an infinity is printed but not read; loading returns with a zero in its place and the old values
    behind it. *)
Theorem C46_infinite_value_refuted :
  (let! s := small in
   let! fs := saveLevelSetTXT no_files (str "a") (set_sd [i64 1 2; B754_infinity false; i64 1 4; i64 1 8] s) false in
   let! s2 := loadLevelSetTXT fs (str "a") (set_sd [i64 7 1; i64 7 1; i64 7 1; i64 7 1] s) false in
   Ok (same64 (ls_sd s2) [i64 1 2; i64 0 1; i64 7 1; i64 7 1])) = Ok true.
Proof. vm_compute. reflexivity. Qed.
Print Assumptions C46_infinite_value_refuted.

(** C47: two files are the same only if directory, kind of file and data point are. *)
Theorem C47_names_are_distinct dir dir' k k' n n' :
  file_name dir (kind_prefix k) n (kind_extension k) = file_name dir' (kind_prefix k') n' (kind_extension k') -> dir = dir' /\ k = k' /\ n = n'.
Proof. exact (names_distinct dir dir' k k' n n'). Qed.
Print Assumptions C47_names_are_distinct.
(** C47: four digits up to 9999, more beyond. *)
Theorem C47_four_digits n : number (padded n) = n /\ Forall (fun c => is_digit c = true) (padded n) /\ 4 <= length (padded n) /\ ((n < 10000)%N -> length (padded n) = 4).
Proof. exact (conj (padded_number n) (conj (padded_digits n) (padded_length n))). Qed.
Print Assumptions C47_four_digits.
(** C47: saving one data point leaves the files of all others, of the same and of other kinds, in this and in other directories. *)
Theorem C47_other_files_kept (T : Type) (NT : Num T) (NI : NumInt T) (TT : Text T) W H fs fs' (s : LevelSet T) n isXY dir : reached W H s ->
  saveLevelSetTXT_at fs n s dir isXY = Ok fs' ->
  forall dir' k n', (dir', k, n') <> (dir, LevelSetTXT, n) ->
    fs_file fs' (file_name dir' (kind_prefix k) n' (kind_extension k)) = fs_file fs (file_name dir' (kind_prefix k) n' (kind_extension k)).
Proof.
  intros R E dir' k n' D. refine (other_file_kept _ _ _ _ _ _ (level_set_txt_saved W H fs _ s isXY R) E _).
  intros X. destruct (C47_names_are_distinct dir' dir k LevelSetTXT n' n X) as (-> & -> & ->). exact (D eq_refl).
Qed.
Print Assumptions C47_other_files_kept.
Example C47_names : file_name [] (kind_prefix LevelSetVTK) 7 (kind_extension LevelSetVTK) = str "level-set_0007.vtk" /\
  file_name (str "out") (kind_prefix SegmentsTXT) 12345 (kind_extension SegmentsTXT) = str "out/boundary-segments_12345.txt".
Proof. vm_compute. auto. Qed.

(** C52: the files written for any level set a program can have; the program ends if the file cannot be opened. *)
Theorem C52_level_set_txt (T : Type) (NT : Num T) (NI : NumInt T) (TT : Text T) W H fs name (s : LevelSet T) isXY : reached W H s ->
  saved fs name (level_set_text W H s isXY) (saveLevelSetTXT fs name s isXY).
Proof. exact (level_set_txt_saved W H fs name s isXY). Qed.
Print Assumptions C52_level_set_txt.
Theorem C52_level_set_vtk (T : Type) (NT : Num T) (NI : NumInt T) (TT : Text T) W H fs name (s : LevelSet T) isVelocity isGradient : reached W H s -> (N.of_nat ((W + 1) * (H + 1)) < 2 ^ 31)%N ->
  saved fs name (level_set_vtk W H s isVelocity isGradient) (saveLevelSetVTK fs name s isVelocity isGradient).
Proof. exact (level_set_vtk_saved W H fs name s isVelocity isGradient). Qed.
Print Assumptions C52_level_set_vtk.
Theorem C52_areas_txt (T : Type) (NT : Num T) (NI : NumInt T) (TT : Text T) W H fs name (s : LevelSet T) isXY : reached W H s ->
  saved fs name (areas_text W H (ls_mesh s) isXY) (saveAreaFractionsTXT fs name (ls_mesh s) isXY).
Proof. intros R. exact (areas_txt_saved W H fs name (ls_mesh s) isXY (ok_topo _ _ _ (so_ok _ _ _ (reached_sound _ _ _ R)))). Qed.
Print Assumptions C52_areas_txt.
Theorem C52_areas_vtk (T : Type) (NT : Num T) (NI : NumInt T) (TT : Text T) W H fs name (s : LevelSet T) : reached W H s -> (N.of_nat ((W + 1) * (H + 1)) < 2 ^ 31)%N ->
  saved fs name (areas_vtk W H (ls_mesh s)) (saveAreaFractionsVTK fs name (ls_mesh s)).
Proof. intros R. exact (areas_vtk_saved W H fs name (ls_mesh s) (ok_topo _ _ _ (so_ok _ _ _ (reached_sound _ _ _ R)))). Qed.
Print Assumptions C52_areas_vtk.
Theorem C52_boundary_points (T : Type) (TT : Text T) fs name (b : Boundary T) : saved fs name (points_text b) (saveBoundaryPointsTXT fs name b).
Proof. exact (points_saved fs name b). Qed.
Print Assumptions C52_boundary_points.
Theorem C52_boundary_segments (T : Type) (NT : Num T) (NI : NumInt T) (TT : Text T) W H fs name (s s' : LevelSet T) tg b : reached W H s -> discretise s tg = Ok (s', b) ->
  saved fs name (segments_text b) (saveBoundarySegmentsTXT fs name b).
Proof. exact (segments_saved W H fs name s s' tg b). Qed.
Print Assumptions C52_boundary_segments.

(** The flags of saveLevelSetVTK with a data point are lost: no velocities although they are asked for. *)
Theorem C52_vtk_flags_of_a_data_point_refuted (T : Type) (TT : Text T) fs n (s : LevelSet T) isVelocity isGradient dir :
  saveLevelSetVTK_at fs n s isVelocity isGradient dir = saveLevelSetVTK fs (file_name dir (str "level-set_") n (str ".vtk")) s false false.
Proof. reflexivity. Qed.
Print Assumptions C52_vtk_flags_of_a_data_point_refuted.
(** A written file. *)
Example C52_case :
  (let! s := small in let! fs := saveLevelSetVTK_at no_files 3 (set_sd [i64 1 2; i64 (-1) 4; i64 1 3; i64 100 1] s) true true (str "d") in
   Ok (fs_file fs (str "d/level-set_0003.vtk"))) =
  Ok (Some (unlines (map str ["# vtk DataFile Version 3.0"; "Para0"; "ASCII"; "DATASET RECTILINEAR_GRID"; "DIMENSIONS 2 2 1"; "X_COORDINATES 2 int"; "0 1 ";
    "Y_COORDINATES 2 int"; "0 1 "; "Z_COORDINATES 1 int"; "0"; ""; "POINT_DATA 4"; "SCALARS distance float 1"; "LOOKUP_TABLE default";
    "0.500000"; "-0.250000"; "0.333333"; "100.000000"]))%string).
Proof. vm_compute. reflexivity. Qed.
