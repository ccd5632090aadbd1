(** * IOModel: InputOutput.cpp (complete).

    Files are lists of bytes.  A file system says which names can be opened for writing and what each file
    contains.  Simplified: a file that can be opened takes all that is written to it (the code does not look at the
    results of [write] and [fprintf]); names are compared as text.  The error messages are not modelled: a failed
    check is [Exit].

    [fprintf] with %lf is [show], the conversion behind [istream >> double] is [read]: see the instances in IOText. *)

From Coq Require Import Ascii String NArith ZArith.
From Verif Require Export Base Num MeshModel LevelSetModel BoundaryModel.
Local Open Scope nat_scope.

Definition bytes := list ascii.
Definition str (s : string) : bytes := list_ascii_of_string s.
Record FS := mkFS { fs_file : bytes -> option bytes; fs_writable : bytes -> bool }.
Definition bytes_eqb (a b : bytes) : bool := if List.list_eq_dec ascii_dec a b then true else false.
(** Opening a file for writing empties it: the content is what is written afterwards. *)
Definition fs_write (fs : FS) (name content : bytes) : FS :=
  mkFS (fun n => if bytes_eqb n name then Some content else fs_file fs n) (fs_writable fs).

(** ** Numbers as text. *)
Definition digit (n : N) : ascii := ascii_of_N (48 + n).
(** Decimal digits of [n]; [k] bounds the number of digits. *)
Fixpoint digits_upto (k : nat) (n : N) : bytes :=
  match k with
  | 0 => []
  | S k => if (n <? 10)%N then [digit n] else digits_upto k (n / 10) ++ [digit (n mod 10)]
  end.
(** [ostream << unsigned int]. *)
Definition digits (n : N) : bytes := digits_upto (S (N.to_nat (N.log2 n))) n.
(** [fprintf] %d given an [unsigned int]: read as a 32 bit [int]. *)
Definition show_int (n : nat) : bytes :=
  let n := (N.of_nat n mod 2 ^ 32)%N in
  if (n <? 2 ^ 31)%N then digits n else str "-" ++ digits (2 ^ 32 - n).

(** InputOutput.cpp:37-46 and the same lines of the other functions taking a data point: the number is at least four wide,
    filled with zeros on the left. *)
Definition padded (n : N) : bytes := replicate (4 - length (digits n)) (digit 0) ++ digits n.
Definition file_name (directory prefix : bytes) (datapoint : N) (extension : bytes) : bytes :=
  (match directory with [] => [] | _ => directory ++ str "/" end) ++ prefix ++ padded datapoint ++ extension.

(** ** The number type as text and as bytes. *)
Class Text (T : Type) := {
  show : T -> bytes;                      (** %lf *)
  read : bool -> N -> Z -> T * bool;      (** -? m * 10^e: the value and whether it is in range *)
  read_zero : T                           (** stored by a conversion that failed *)
}.
Class Bytes (T : Type) := {
  to_bytes : T -> bytes;
  of_bytes : bytes -> T
}.

Definition newline : ascii := "010"%char.
Definition nl : bytes := [newline].
Definition sp : bytes := str " ".

Section Save.
  Context {T : Type} {TT : Text T}.

  (** InputOutput.cpp:136, 464: "%lf %lf " if wanted. *)
  Definition xy_part (isXY : bool) (c : Coord T) : bytes := if isXY then show (cx c) ++ sp ++ show (cy c) ++ sp else [].

  (** A loop of [fprintf]s. *)
  Definition print_rows (n : nat) (row : nat -> outcome bytes) : outcome bytes :=
    for_ n (fun i out => let! r := row i in Ok (out ++ r)) [].
  Definition values (n : nat) (v : list T) : outcome bytes := print_rows n (fun i => let! x := vget v i in Ok (show x ++ nl)).
  (** Opening the file comes first: [Exit] if that fails, whatever there is to write. *)
  Definition save (fs : FS) (name : bytes) (content : outcome bytes) : outcome FS :=
    let! _ := check (fs_writable fs name) in
    let! c := content in Ok (fs_write fs name c).

  (** InputOutput.cpp:60-71, 408-419: up to the data. *)
  Definition vtk_header (m : Mesh T) : bytes :=
    str "# vtk DataFile Version 3.0" ++ nl ++ str "Para0" ++ nl ++ str "ASCII" ++ nl ++ str "DATASET RECTILINEAR_GRID" ++ nl ++
    str "DIMENSIONS " ++ show_int (1 + m_width m) ++ sp ++ show_int (1 + m_height m) ++ sp ++ show_int 1 ++ nl ++
    str "X_COORDINATES " ++ show_int (1 + m_width m) ++ str " int" ++ nl ++
    concat (map (fun i => show_int i ++ sp) (seq 0 (1 + m_width m))) ++
    nl ++ str "Y_COORDINATES " ++ show_int (1 + m_height m) ++ str " int" ++ nl ++
    concat (map (fun i => show_int i ++ sp) (seq 0 (1 + m_height m))) ++
    nl ++ str "Z_COORDINATES 1 int" ++ nl ++ str "0" ++ nl ++ nl.
  Definition scalars (name : bytes) : bytes := str "SCALARS " ++ name ++ str " float 1" ++ nl ++ str "LOOKUP_TABLE default" ++ nl.

  (** InputOutput.cpp:51-104, [saveLevelSetVTK(fileName, ...)]. *)
  Definition saveLevelSetVTK (fs : FS) (name : bytes) (s : LevelSet T) (isVelocity isGradient : bool) : outcome FS :=
    let n := m_nNodes (ls_mesh s) in
    save fs name (
      let! d := values n (ls_sd s) in
      let! v := (if isVelocity then let! v := values n (ls_vel s) in Ok (scalars (str "velocity") ++ v) else Ok []) in
      let! g := (if isGradient then let! g := values n (ls_grad s) in Ok (scalars (str "gradient") ++ g) else Ok []) in
      Ok (vtk_header (ls_mesh s) ++ str "POINT_DATA " ++ show_int n ++ nl ++ scalars (str "distance") ++ d ++ v ++ g)).
  (** InputOutput.cpp:34-49: the two flags are not passed on. *)
  Definition saveLevelSetVTK_at (fs : FS) (datapoint : N) (s : LevelSet T) (isVelocity isGradient : bool) (dir : bytes) : outcome FS :=
    saveLevelSetVTK fs (file_name dir (str "level-set_") datapoint (str ".vtk")) s false false.

  (** InputOutput.cpp:133-137, one node. *)
  Definition level_row (s : LevelSet T) (isXY : bool) (i : nat) : outcome bytes :=
    let! xy := (if isXY then let! n := vget (m_nodes (ls_mesh s)) i in Ok (xy_part true (nd_coord n)) else Ok []) in
    let! d := vget (ls_sd s) i in
    let! v := vget (ls_vel s) i in
    let! g := vget (ls_grad s) i in
    Ok (xy ++ show d ++ sp ++ show v ++ sp ++ show g ++ nl).
  (** InputOutput.cpp:123-146, [saveLevelSetTXT(fileName, ...)]. *)
  Definition saveLevelSetTXT (fs : FS) (name : bytes) (s : LevelSet T) (isXY : bool) : outcome FS :=
    save fs name (print_rows (m_nNodes (ls_mesh s)) (level_row s isXY)).
  (** InputOutput.cpp:106-121. *)
  Definition saveLevelSetTXT_at (fs : FS) (datapoint : N) (s : LevelSet T) (dir : bytes) (isXY : bool) : outcome FS :=
    saveLevelSetTXT fs (file_name dir (str "level-set_") datapoint (str ".txt")) s isXY.

  (** InputOutput.cpp:301-321, [saveBoundaryPointsTXT(fileName, ...)]; [nPoints] is the number of points. *)
  Definition saveBoundaryPointsTXT (fs : FS) (name : bytes) (b : Boundary T) : outcome FS :=
    save fs name (print_rows (length (bd_points b)) (fun i =>
      let! p := vget (bd_points b) i in
      Ok (show (cx (bp_coord p)) ++ sp ++ show (cy (bp_coord p)) ++ sp ++ show (bp_length p) ++ nl))).
  (** InputOutput.cpp:284-299. *)
  Definition saveBoundaryPointsTXT_at (fs : FS) (datapoint : N) (b : Boundary T) (dir : bytes) : outcome FS :=
    saveBoundaryPointsTXT fs (file_name dir (str "boundary-points_") datapoint (str ".txt")) b.

  (** InputOutput.cpp:340-380, [saveBoundarySegmentsTXT(fileName, ...)]; [nSegments] is the number of segments. *)
  Definition saveBoundarySegmentsTXT (fs : FS) (name : bytes) (b : Boundary T) : outcome FS :=
    save fs name (print_rows (length (bd_segs b)) (fun i =>
      let! sg := vget (bd_segs b) i in
      let! p := vget (bd_points b) (sg_start sg) in
      let! q := vget (bd_points b) (sg_end sg) in
      Ok (show (cx (bp_coord p)) ++ sp ++ show (cy (bp_coord p)) ++ nl ++
          show (cx (bp_coord q)) ++ sp ++ show (cy (bp_coord q)) ++ nl ++ nl))).
  (** InputOutput.cpp:323-338. *)
  Definition saveBoundarySegmentsTXT_at (fs : FS) (datapoint : N) (b : Boundary T) (dir : bytes) : outcome FS :=
    saveBoundarySegmentsTXT fs (file_name dir (str "boundary-segments_") datapoint (str ".txt")) b.

  (** InputOutput.cpp:399-433, [saveAreaFractionsVTK(fileName, ...)]. *)
  Definition saveAreaFractionsVTK (fs : FS) (name : bytes) (m : Mesh T) : outcome FS :=
    save fs name (
      let! a := print_rows (m_nElements m) (fun i => let! e := vget (m_elements m) i in Ok (show (e_area e) ++ nl)) in
      Ok (vtk_header m ++ str "CELL_DATA " ++ show_int (m_nElements m) ++ nl ++ scalars (str "area") ++ a)).
  (** InputOutput.cpp:382-397. *)
  Definition saveAreaFractionsVTK_at (fs : FS) (datapoint : N) (m : Mesh T) (dir : bytes) : outcome FS :=
    saveAreaFractionsVTK fs (file_name dir (str "area_") datapoint (str ".vtk")) m.

  (** InputOutput.cpp:452-474, [saveAreaFractionsTXT(fileName, ...)]. *)
  Definition saveAreaFractionsTXT (fs : FS) (name : bytes) (m : Mesh T) (isXY : bool) : outcome FS :=
    save fs name (print_rows (m_nElements m) (fun i =>
      let! e := vget (m_elements m) i in Ok (xy_part isXY (e_coord e) ++ show (e_area e) ++ nl))).
  (** InputOutput.cpp:435-450. *)
  Definition saveAreaFractionsTXT_at (fs : FS) (datapoint : N) (m : Mesh T) (dir : bytes) (isXY : bool) : outcome FS :=
    saveAreaFractionsTXT fs (file_name dir (str "area_") datapoint (str ".txt")) m isXY.
End Save.

(** ** Reading text. *)
Definition is_space (c : ascii) : bool := let n := N_of_ascii c in (n =? 32)%N || ((9 <=? n)%N && (n <=? 13)%N).
Definition is_digit (c : ascii) : bool := let n := N_of_ascii c in (48 <=? n)%N && (n <=? 57)%N.
Fixpoint skip_space (l : bytes) : bytes :=
  match l with c :: r => if is_space c then skip_space r else l | [] => [] end.
Fixpoint take_digits (l : bytes) : bytes * bytes :=
  match l with
  | c :: r => if is_digit c then let (d, r) := take_digits r in (c :: d, r) else ([], l)
  | [] => ([], [])
  end.
Definition take_sign (l : bytes) : bool * bytes :=
  match l with
  | c :: r => if Ascii.eqb c "-" then (true, r) else if Ascii.eqb c "+" then (false, r) else (false, l)
  | [] => (false, [])
  end.
Definition number (l : bytes) : N := fold_left (fun n c => (10 * n + (N_of_ascii c - 48))%N) l 0%N.

(** Lines as [std::getline] counts them. *)
Fixpoint count_lines (l : bytes) (pending : bool) : nat :=
  match l with
  | [] => if pending then 1 else 0
  | c :: r => if Ascii.eqb c newline then S (count_lines r false) else count_lines r true
  end.

(** An input stream: what is left and the fail bit. *)
Definition stream := (bytes * bool)%type.

Section Load.
  Context {T : Type} {TT : Text T}.

  (** [std::istream >> double] (libstdc++: characters are taken as long as they fit sign, digits, point, digits, e, sign,
      digits; then they are converted as a whole).  [None]: the variable is not written. *)
  Definition take_number (l : bytes) : (T * bool) * bytes :=
    let (neg, l) := take_sign l in
    let (ip, l) := take_digits l in
    let (fp, l) := match l with c :: r => if Ascii.eqb c "." then take_digits r else ([], l) | [] => ([], l) end in
    match ip ++ fp with
    | [] => ((read_zero, false), l)
    | _ =>
      let m := number (ip ++ fp) in
      let e := (- Z.of_nat (length fp))%Z in
      match l with
      | c :: r =>
          if Ascii.eqb c "e" || Ascii.eqb c "E" then
            let (eneg, r) := take_sign r in
            let (ep, r) := take_digits r in
            match ep with
            | [] => ((read_zero, false), r)
            | _ => let x := Z.of_N (number ep) in (read neg m (e + if eneg then - x else x)%Z, r)
            end
          else (read neg m e, l)
      | [] => (read neg m e, l)
      end
    end.
  Definition extract (st : stream) : option T * stream :=
    let (l, fail) := st in
    if fail then (None, (l, true))
    else match skip_space l with
         | [] => (None, ([], true))
         | l => let '((v, ok), r) := take_number l in (Some v, (r, negb ok))
         end.

  (** The right operands of one loop condition: [true] is signedDistance[node], [false] is tmp. *)
  Fixpoint record (shape : list bool) (node : nat) (st : stream) (sd : list T) : outcome (stream * list T) :=
    match shape with
    | [] => Ok (st, sd)
    | b :: shape =>
        let (v, st) := extract st in
        let! sd := match v with Some x => if b then vset sd node x else Ok sd | None => Ok sd end in
        record shape node st sd
    end.
  (** InputOutput.cpp:222-227 and 235-237, the [while] loop.  Simplified: the reference signedDistance[node] is formed even
      if the read before it has failed, after the last record one past the end of the vector; only writing through it is
      [UB] here.  [fuel]: the number of characters is enough. *)
  Fixpoint records (fuel : nat) (shape : list bool) (node : nat) (st : stream) (sd : list T) : outcome (list T) :=
    match fuel with
    | 0 => OutOfFuel
    | S fuel =>
        let! (st, sd) := record shape node st sd in
        if snd st then Ok sd else records fuel shape (S node) st sd
    end.
  (** InputOutput.cpp:199-246, [loadLevelSetTXT(fileName, ...)]; the line count is an [unsigned int]. *)
  Definition loadLevelSetTXT (fs : FS) (name : bytes) (s : LevelSet T) (isXY : bool) : outcome (LevelSet T) :=
    match fs_file fs name with
    | None => Exit
    | Some text =>
        let! _ := check (N.of_nat (count_lines text false) mod 2 ^ 32 =? N.of_nat (m_nNodes (ls_mesh s)))%N in
        let! sd := records (S (length text)) (if isXY then [false; false; true; false; false] else [true; false; false]) 0 (text, false) (ls_sd s) in
        Ok (set_sd sd s)
    end.
  (** InputOutput.cpp:182-197. *)
  Definition loadLevelSetTXT_at (fs : FS) (datapoint : N) (s : LevelSet T) (dir : bytes) (isXY : bool) : outcome (LevelSet T) :=
    loadLevelSetTXT fs (file_name dir (str "level-set_") datapoint (str ".txt")) s isXY.
End Load.

(** ** Binary files. *)
Section Binary.
  Context {T : Type} {BT : Bytes T}.

  Definition memory (v : list T) : bytes := concat (map to_bytes v).
  (** The first [n] numbers in memory [m]. *)
  Fixpoint numbers (n : nat) (m : bytes) : list T :=
    match n with 0 => [] | S n => of_bytes (take 8 m) :: numbers n (drop 8 m) end.

  (** InputOutput.cpp:165-180, [saveLevelSetBIN(fileName, ...)]. *)
  Definition saveLevelSetBIN (fs : FS) (name : bytes) (s : LevelSet T) : outcome FS :=
    let n := m_nNodes (ls_mesh s) in
    save fs name (if n <=? length (ls_sd s) then Ok (take (8 * n) (memory (ls_sd s))) else UB).
  (** InputOutput.cpp:148-163. *)
  Definition saveLevelSetBIN_at (fs : FS) (datapoint : N) (s : LevelSet T) (dir : bytes) : outcome FS :=
    saveLevelSetBIN fs (file_name dir (str "level-set_") datapoint (str ".bin")) s.

  (** InputOutput.cpp:265-281, [loadLevelSetBIN(fileName, ...)]: at most 8 bytes per node; a shorter file leaves the rest of
      the memory as it is. *)
  Definition loadLevelSetBIN (fs : FS) (name : bytes) (s : LevelSet T) : outcome (LevelSet T) :=
    match fs_file fs name with
    | None => Exit
    | Some content =>
        let data := take (8 * m_nNodes (ls_mesh s)) content in
        let m := memory (ls_sd s) in
        if length data <=? length m then Ok (set_sd (numbers (length (ls_sd s)) (data ++ drop (length data) m)) s) else UB
    end.
  (** InputOutput.cpp:248-263. *)
  Definition loadLevelSetBIN_at (fs : FS) (datapoint : N) (s : LevelSet T) (dir : bytes) : outcome (LevelSet T) :=
    loadLevelSetBIN fs (file_name dir (str "level-set_") datapoint (str ".bin")) s.
End Binary.
