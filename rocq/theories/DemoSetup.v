(** * DemoSetup: what the demo programs do before their main loops: command lines, files, starting shapes.

    [atof] and [atoi] are the functions of the C library.  A file that can be read is one in the file system (IOModel). *)

From Coq Require Import Ascii String NArith ZArith.
From Verif Require Import IOModel DemoModel.
Local Open Scope nat_scope.

Section Files.
  Context {T : Type} {NT : Num T} {TT : Text T}.

  (** dumbbell.cpp:143-157: one [signedDistance[i]] after the other, without a bound on [i].  Simplified as [records] is. *)
  Definition load_configuration (fs : FS) (name : bytes) (s : LevelSet T) : outcome (LevelSet T) :=
    match fs_file fs name with
    | None => Exit
    | Some text => let! sd := records (S (length text)) [true] 0 (text, false) (ls_sd s) in Ok (set_sd sd s)
    end.

  (** shape_match.cpp:88-89 and 103-104; [fuel]: the number of characters is enough. *)
  Fixpoint read_points (fuel : nat) (st : stream) (points : list (Coord T)) : outcome (list (Coord T)) :=
    match fuel with
    | 0 => OutOfFuel
    | S fuel =>
        let (x, st) := extract st in
        let (y, st) := extract st in
        match x, y, snd st with
        | Some x, Some y, false => read_points fuel st (points ++ [mkCoord x y])
        | _, _, _ => Ok points
        end
    end.
  (** shape_match.cpp:75-113. *)
  Definition load_shape (fs : FS) : outcome (list (Coord T)) :=
    let points text := read_points (S (length text)) (text, false) [] in
    match fs_file fs (str "demos/shapes/stanford-bunny.txt") with
    | Some text => points text
    | None =>
        match fs_file fs (str "shapes/stanford-bunny.txt") with
        | Some text => points text
        | None => Exit
        end
    end.
End Files.

(** ** The command line of bimodal_brolly *)
Record Args (T : Type) := mkArgs {
  a_temperature : T; a_gravityMult : T; a_centre : T; a_spring : T; a_umbrellaInterval : T; a_sampleInterval : nat; a_nSamples : nat;
  a_restart : option bytes;      (** the buffer [restart], if [isRestart] *)
  a_boundary : bool }.
Arguments mkArgs {T}. Arguments a_temperature {T}. Arguments a_gravityMult {T}. Arguments a_centre {T}. Arguments a_spring {T}.
Arguments a_umbrellaInterval {T}. Arguments a_sampleInterval {T}. Arguments a_nSamples {T}. Arguments a_restart {T}. Arguments a_boundary {T}.

Section CommandLine.
  Context {T : Type} {NT : Num T}.
  Variables (atof : bytes -> T) (atoi : bytes -> Z).

  (** bimodal_brolly.cpp:120-148. *)
  Definition default_args : Args T :=
    mkArgs (nlit 5 100) (nlit 2 100) (nofZ 10) (nlit 2 10) (nofZ 1) 10 (Z.to_nat 10000) None false.

  (** strcmp(argv[i], a) == 0 || strcmp(argv[i], b) == 0 *)
  Definition is_option (w : bytes) (a b : string) : bool := bytes_eqb w (str a) || bytes_eqb w (str b).
  (** bimodal_brolly.cpp:699-777; the list is argv[1], argv[2], ...  argv[argc] is a null pointer, which [atof], [atoi] and [strcpy]
      must not be given.  [strcpy] into the buffer char[100] (:142) writes the characters and a terminating zero.  Simplified: the
      messages are not modelled. *)
  Fixpoint parse (args : list bytes) (a : Args T) : outcome (Args T) :=
    let '(mkArgs t g c s ui si n r b) := a in
    match args with
    | [] => Ok a
    | w :: rest =>
        if is_option w "-t" "--temperature" then
          match rest with [] => UB | v :: rest => parse rest (mkArgs (atof v) g c s ui si n r b) end
        else if is_option w "-g" "--gravity" then
          match rest with [] => UB | v :: rest => parse rest (mkArgs t (atof v) c s ui si n r b) end
        else if is_option w "-c" "--centre" then
          match rest with [] => UB | v :: rest => parse rest (mkArgs t g (atof v) s ui si n r b) end
        else if is_option w "-s" "--spring" then
          match rest with [] => UB | v :: rest => parse rest (mkArgs t g c (atof v) ui si n r b) end
        else if is_option w "-ui" "--unmbrella-interval" then
          match rest with [] => UB | v :: rest => parse rest (mkArgs t g c s (atof v) si n r b) end
        else if is_option w "-si" "--sample-interval" then
          match rest with [] => UB | v :: rest => parse rest (mkArgs t g c s ui (u32 (atoi v)) n r b) end
        else if is_option w "-n" "--number-samples" then
          match rest with [] => UB | v :: rest => parse rest (mkArgs t g c s ui si (u32 (atoi v)) r b) end
        else if is_option w "-r" "--restart" then
          match rest with
          | [] => UB
          | v :: rest => if length v <? 100 then parse rest (mkArgs t g c s ui si n (Some v) b) else UB
          end
        else if is_option w "-b" "--boundary-sample" then parse rest (mkArgs t g c s ui si n r true)
        else if is_option w "-h" "--help" then Exit
        else Exit
    end.
End CommandLine.

(** ** Starting shapes *)
Section Start.
  Context {T : Type} {NT : Num T} {TT : Text T} {BT : Bytes T}.

  Definition hole (x y r : Z) : Hole T := mkHole (mkCoord (nofZ x) (nofZ y)) (nofZ r).

  (** minimise_area.cpp:73-89, minimise_perimeter.cpp:74-90. *)
  Definition start_minimise_area : outcome (LevelSet T) := ls_new_holes 200 200 [hole 100 100 80] (nlit 5 10) 6 true.
  Definition start_minimise_perimeter : outcome (LevelSet T) := ls_new_holes 200 200 [hole 100 100 80] (nlit 5 100) 6 true.

  (** minimise_perimeter_constrained.cpp:80-88, one node. *)
  Definition square_step (nodes : list (Node T)) (i : nat) (sd : list T) : outcome (list T) :=
    let! n := vget nodes i in
    let! x := trunc_i32 (cx (nd_coord n)) in
    let! y := trunc_i32 (cy (nd_coord n)) in
    let x := u32 x in let y := u32 y in
    vset sd i (if (90 <=? x) && (x <=? 110) && (90 <=? y) && (y <=? 110) then nofZ (-1) else n1).
  (** minimise_perimeter_constrained.cpp:51, 72-89. *)
  Definition start_constrained : outcome (LevelSet T) :=
    let! s := ls_new_swiss 200 200 (nlit 1 10) 6 true in
    let! sd := for_ (m_nNodes (ls_mesh s)) (square_step (m_nodes (ls_mesh s))) (ls_sd s) in
    Ok (set_sd sd s).

  (** shape_match.cpp:52-118. *)
  Definition start_shape_match (fs : FS) : outcome (LevelSet T) :=
    let! points := load_shape fs in
    ls_new_holes_points 400 400 [hole 200 200 100] points (nlit 1 10) 6 true.

  (** dumbbell.cpp:117-158; [config]: the third argument, if there is one. *)
  Definition start_dumbbell (fs : FS) (config : option bytes) : outcome (LevelSet T) :=
    let! s := ls_new_holes_holes 100 100 [hole 50 69 15] [hole 50 69 20; hole 50 31 20] (nlit 5 100) 6 true in
    match config with Some name => load_configuration fs name s | None => Ok s end.
  (** dumbbell.cpp:71-75 and 121-128; [reduce]: 0.65 or the second argument. *)
  Definition gravity_dumbbell (reduce : T) : Gravity T :=
    let upper := cy (h_coord (hole 50 69 20)) in
    let lower := cy (h_coord (hole 50 31 20)) in
    mkGravity 10 upper lower (upper - lower)%num reduce.

  (** bimodal.cpp:124-149, 185-193, bimodal_brolly.cpp:169-194, 230-238. *)
  Definition bi_width_ : T := nofZ 70.
  Definition bi_height_ : T := nofZ 60.
  Definition target_lobes : list (Hole T) :=
    let xCentre := (nlit 1 2 * bi_width_)%num in
    let yCentre := (nlit 1 2 * bi_height_)%num in
    [mkHole (mkCoord (xCentre + nofZ 10) (yCentre + nofZ 1))%num (nofZ 20); mkHole (mkCoord (xCentre - nofZ 10) yCentre)%num (nofZ 20)].
  Definition first_disc : Hole T :=
    let xCentre := (nlit 1 2 * bi_width_)%num in
    let yCentre := (nlit 1 2 * bi_height_)%num in
    mkHole (mkCoord xCentre (nlit 1 2 * yCentre)%num) (nlit 1 2 * nofZ 20)%num.
  Definition start_bimodal : outcome (LevelSet T) :=
    ls_new_holes_holes 70 60 [first_disc] target_lobes (nlit 5 100) 6 true.
  (** bimodal.cpp:162-182, bimodal_brolly.cpp:207-227. *)
  Definition gravity_bimodal (gravityMult : T) : Gravity T :=
    let y := ((nlit 1 2 * bi_height_) + nofZ 1)%num in
    let upper := (y + nofZ 20)%num in
    let lower := (y - nofZ 20)%num in
    mkGravity 10 upper lower (upper - lower)%num (n1 - gravityMult)%num.
  (** bimodal.cpp:151-160, bimodal_brolly.cpp:196-205: [pi] and [asin_half], asin(xOffset / radius), come from the C library. *)
  Definition max_mismatch (pi asin_half : T) : T :=
    let aa := (nofZ 10 / nofZ 20)%num in
    let area := (pi / nofZ 2 + asin_half + aa * nsqrt (n1 - aa * aa))%num in
    let area := (area * (nofZ 2 * nofZ 20 * nofZ 20))%num in
    let minSize := (nlit 2 10 / nofZ 3)%num in
    let minSize := (minSize * (bi_width_ * bi_height_ / area))%num in
    (area / bi_width_ / bi_height_ * (n1 - minSize))%num.
  (** bimodal_brolly.cpp:240-251; [start]: the level set of :238. *)
  Definition restart_or (start : outcome (LevelSet T)) (fs : FS) (a : Args T) : outcome (LevelSet T) :=
    let! s := start in
    match a_restart a with Some name => loadLevelSetBIN fs name s | None => Ok s end.
  (** bimodal_brolly.cpp:240-309, 330-331: from the level set to the umbrella loop.  Also the areas of the target. *)
  Definition brolly_begin (start : outcome (LevelSet T)) (fs : FS) (a : Args T) (d : list T -> Demo T) (g : Gravity T) (bi : Bias T) : outcome (Umbrella T * list T) :=
    let! s := restart_or start fs a in
    let! s := reinitialise s in
    let! (s, areas) := target_areas s in
    let! u := umbrella_begin (d areas) g bi s in
    Ok (u, areas).
  (** bimodal_brolly.cpp:75-309, 330-331: the whole beginning, for a command line.  Oracles: [pi] and [asin_half]. *)
  Definition brolly_start (pi asin_half : T) (fs : FS) (a : Args T) : outcome (Umbrella T * list T) :=
    let g := gravity_bimodal (a_gravityMult a) in
    brolly_begin start_bimodal fs a (fun areas => brolly g (a_temperature a) (max_mismatch pi asin_half) areas) g
      (mkBias (a_centre a) (a_spring a) (n1 / a_temperature a)%num bi_width_ (a_umbrellaInterval a)).
End Start.
