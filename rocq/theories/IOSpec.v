(** * IOSpec: what the files written by InputOutput contain. *)

From Coq Require Import Ascii String NArith ZArith.
From Verif Require Import IOModel MeshSpec.
Local Open Scope nat_scope.

(** Lines of words. *)
Fixpoint unwords (l : list bytes) : bytes :=
  match l with [] => [] | [x] => x | x :: l => x ++ str " " ++ unwords l end.
Definition unlines (l : list bytes) : bytes := concat (map (fun x => x ++ nl) l).

(** A call that saves a text: [Exit] if the file cannot be opened, otherwise the text is the content of the file and no
    other file changes. *)
Definition saved (fs : FS) (name : bytes) (is_text : bytes -> Prop) (o : outcome FS) : Prop :=
  if fs_writable fs name then
    exists fs' text, o = Ok fs' /\ fs_file fs' name = Some text /\ is_text text /\
      (forall n, n <> name -> fs_file fs' n = fs_file fs n) /\ fs_writable fs' = fs_writable fs
  else o = Exit.

Section Spec.
  Context {T : Type} {NT : Num T} {TT : Text T}.

  (** One line for each node, row by row: the coordinates if wanted, signed distance, velocity, gradient. *)
  Definition level_set_text (W H : nat) (s : LevelSet T) (isXY : bool) (text : bytes) : Prop :=
    exists lines, text = unlines lines /\ length lines = (W + 1) * (H + 1) /\
      forall x y d v g, x <= W -> y <= H ->
        ls_sd s !! (x + y * (W + 1)) = Some d -> ls_vel s !! (x + y * (W + 1)) = Some v -> ls_grad s !! (x + y * (W + 1)) = Some g ->
        lines !! (x + y * (W + 1)) = Some (unwords ((if isXY then [show (nofnat x); show (nofnat y)] else []) ++ [show d; show v; show g])).

  (** One line for each element, row by row: the coordinates of its centre if wanted, the area fraction. *)
  Definition areas_text (W H : nat) (m : Mesh T) (isXY : bool) (text : bytes) : Prop :=
    exists lines, text = unlines lines /\ length lines = W * H /\
      forall x y e, x < W -> y < H -> m_elements m !! (x + y * W) = Some e ->
        lines !! (x + y * W) = Some (unwords ((if isXY then [show (nofnat x + nlit 1 2)%num; show (nofnat y + nlit 1 2)%num] else []) ++ [show (e_area e)])).

  (** One line for each point: coordinates and length. *)
  Definition points_text (b : Boundary T) (text : bytes) : Prop :=
    text = unlines (map (fun p => unwords [show (cx (bp_coord p)); show (cy (bp_coord p)); show (bp_length p)]) (bd_points b)).
  (** For each segment the line of its start, the line of its end and an empty line. *)
  Definition segments_text (b : Boundary T) (text : bytes) : Prop :=
    exists blocks, text = unlines (concat blocks) /\ length blocks = length (bd_segs b) /\
      forall k sg p q, bd_segs b !! k = Some sg -> bd_points b !! sg_start sg = Some p -> bd_points b !! sg_end sg = Some q ->
        blocks !! k = Some [unwords [show (cx (bp_coord p)); show (cy (bp_coord p))]; unwords [show (cx (bp_coord q)); show (cy (bp_coord q))]; []].

  (** The ParaView files: a rectilinear grid with the coordinates 0 .. W and 0 .. H, then blocks of numbers. *)
  Definition num (n : nat) : bytes := digits (N.of_nat n).
  Definition coordinates (n : nat) : bytes := concat (map (fun i => num i ++ str " ") (seq 0 (n + 1))).
  Definition vtk_head (W H : nat) : list bytes :=
    [str "# vtk DataFile Version 3.0"; str "Para0"; str "ASCII"; str "DATASET RECTILINEAR_GRID";
     unwords [str "DIMENSIONS"; num (W + 1); num (H + 1); str "1"];
     unwords [str "X_COORDINATES"; num (W + 1); str "int"]; coordinates W;
     unwords [str "Y_COORDINATES"; num (H + 1); str "int"]; coordinates H;
     str "Z_COORDINATES 1 int"; str "0"; []].
  Definition vtk_block (name : string) (v : list T) : list bytes :=
    [unwords [str "SCALARS"; str name; str "float 1"]; str "LOOKUP_TABLE default"] ++ map show v.
  Definition level_set_vtk (W H : nat) (s : LevelSet T) (isVelocity isGradient : bool) (text : bytes) : Prop :=
    text = unlines (vtk_head W H ++ [unwords [str "POINT_DATA"; num ((W + 1) * (H + 1))]] ++ vtk_block "distance" (ls_sd s) ++
      (if isVelocity then vtk_block "velocity" (ls_vel s) else []) ++ (if isGradient then vtk_block "gradient" (ls_grad s) else [])).
  Definition areas_vtk (W H : nat) (m : Mesh T) (text : bytes) : Prop :=
    text = unlines (vtk_head W H ++ [unwords [str "CELL_DATA"; num (W * H)]] ++ vtk_block "area" (map e_area (m_elements m))).
End Spec.
