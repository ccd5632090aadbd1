(** * SensModel: Sensitivity.cpp (complete).

    The callback is any function with its own state: it gets the state and the boundary point it is
    called with, and may return a value, exit or have undefined behaviour.  A callback that keeps a
    pointer to the point itself and modifies it is not modelled: the C++ type passes a [const] reference. *)

From Verif Require Export BoundaryModel.

Section SensModel.
  Context {T : Type} `{Num T}.

  Definition set_bp_coord (c : Coord T) (p : BoundaryPoint T) : BoundaryPoint T :=
    mkBP c (bp_normal p) (bp_length p) (bp_velocity p) (bp_neg p) (bp_pos p) (bp_domain p) (bp_fixed p)
      (bp_nSegs p) (bp_segs p) (bp_nNeigh p) (bp_neigh p) (bp_sens p).
  Definition set_bp_sens (l : list T) (p : BoundaryPoint T) : BoundaryPoint T :=
    mkBP (bp_coord p) (bp_normal p) (bp_length p) (bp_velocity p) (bp_neg p) (bp_pos p) (bp_domain p) (bp_fixed p)
      (bp_nSegs p) (bp_segs p) (bp_nNeigh p) (bp_neigh p) l.

  (** Sensitivity.cpp:38-68, [computeSensitivity]: the result, the point and the state of the callback. *)
  Definition computeSensitivity {S : Type} (delta : T) (callback : S -> BoundaryPoint T -> outcome (S * T))
      (st : S) (p : BoundaryPoint T) : outcome (T * BoundaryPoint T * S) :=
    let coord := bp_coord p in
    let p := set_bp_coord (mkCoord (cx coord + delta * cx (bp_normal p))%num (cy coord + delta * cy (bp_normal p))%num) p in
    let! (st, f1) := callback st p in
    let p := set_bp_coord (mkCoord (cx coord - delta * cx (bp_normal p))%num (cy coord - delta * cy (bp_normal p))%num) p in
    let! (st, f2) := callback st p in
    let sens := ((f1 - f2) / (nofZ 2 * delta))%num in
    let sens := (sens / bp_length p)%num in
    let p := set_bp_coord coord p in
    Ok (sens, p, st).

  (** Sensitivity.cpp:92-99, the loop body.  The callback is bound to a copy [b0] of the boundary. *)
  Definition ito_step (delta : T) (b0 : Boundary T) (temperature : T) (i : nat) (ps : list (BoundaryPoint T))
      : outcome (list (BoundaryPoint T)) :=
    let! p := vget ps i in
    let! (curvature, p, _) :=
      computeSensitivity delta (fun (st : unit) q => let! l := computePerimeter b0 q in Ok (st, l)) tt p in
    let! s0 := vget (bp_sens p) 0 in
    let! l := vset (bp_sens p) 0 (s0 - (temperature * curvature) / (nofZ 2 * bp_length p))%num in
    vset ps i (set_bp_sens l p).

  (** Sensitivity.cpp:81-100, [itoCorrection(boundary, temperature)]. *)
  Definition itoCorrection (delta : T) (b : Boundary T) (temperature : T) : outcome (Boundary T) :=
    if (temperature =? n0)%num then Ok b
    else
      let! ps := for_ (length (bd_points b)) (ito_step delta b temperature) (bd_points b) in
      Ok (mkBoundary ps (bd_segs b) (bd_length b)).

  (** Sensitivity.cpp:70-79, [itoCorrection(boundary, levelSet, temperature)]. *)
  Definition itoCorrection_ls (delta : T) (b : Boundary T) (s : LevelSet T) (temperature : T) : outcome (Boundary T) :=
    if (temperature =? n0)%num then Ok b
    else
      let! b := computeNormalVectors s b in
      itoCorrection delta b temperature.
End SensModel.
