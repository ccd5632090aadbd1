(** * TwinSpec: programs that use a level set and its boundary, and what they can see (C57, C58). *)

From Verif Require Export LevelSetCalls SensModel.
Local Open Scope nat_scope.

Section TwinSpec.
  Context {T : Type} {NT : Num T}.

  (** What a level set shows: the four fields, the narrow band, the mines, the masks and the parameters.  Not shown: the
      boundary points, segments, statuses and area fractions that the last discretisation and area computation left in the mesh,
      the entries of the arrays beyond the counts, and the flag isMine of the nodes, which no function reads. *)
  Record Seen := mkSeen {
    se_sd : list T; se_vel : list T; se_grad : list T; se_target : list T;
    se_band : list nat; se_mines : list nat; se_masks : list bool;
    se_moveLimit : T; se_bandWidth : nat; se_fixed : bool
  }.
  Definition seen (s : LevelSet T) : Seen :=
    mkSeen (ls_sd s) (ls_vel s) (ls_grad s) (ls_target s) (band_list s) (mine_list s) (map nd_masked (m_nodes (ls_mesh s)))
      (ls_moveLimit s) (ls_bandWidth s) (ls_fixed s).

  (** The calls of LevelSet.h, Boundary.h and Sensitivity.h on one level set and its boundary, and a program's own writes to
      the public vectors. *)
  Inductive Ask :=
  | AskReinitialise
  | AskUpdate (dt : T)
  | AskMaskHoles (holes : list (Hole T))
  | AskMaskPoints (points : list (Coord T))
  | AskVelocities (points : list (BoundaryPoint T))
  | AskVelocitiesNoise (points : list (BoundaryPoint T)) (dt temperature : T) (rng : nat -> T)
  | AskGradients
  | AskDiscretise (target : bool)
  | AskAreas
  | AskNormals
  | AskIto (delta temperature : T)
  | WriteSd (v : list T)
  | WriteVelocity (v : list T)
  | WriteGradient (v : list T)
  | WriteTarget (v : list T).

  (** What a call returns or fills in. *)
  Inductive Reply :=
  | NoReply
  | Moved (reinitialised : bool)
  | Noise (points : list (BoundaryPoint T)) (dt scale : T)
  | Bounded (b : Boundary T)
  | Areas (total : T) (fractions : list T).

  Record Obs := mkObs { o_reply : Reply; o_seen : Seen; o_active : list bool }.

  (** The level set, and the boundary if one has been discretised. *)
  Definition World : Type := LevelSet T * option (Boundary T).

  (** One call.  Boundary calls before the first discretise do nothing.  Assigning a vector of another length is not modelled. *)
  Definition ask (a : Ask) (w : World) : outcome (World * Reply) :=
    let '(s, b) := w in
    match a with
    | AskReinitialise => let! s := reinitialise s in Ok ((s, b), NoReply)
    | AskUpdate dt => let! (s, r) := update s dt in Ok ((s, b), Moved r)
    | AskMaskHoles holes => let! s := mask_holes s holes in Ok ((s, b), NoReply)
    | AskMaskPoints points => let! s := mask_points s points in Ok ((s, b), NoReply)
    | AskVelocities points => let! s := computeVelocities s points in Ok ((s, b), NoReply)
    | AskVelocitiesNoise points dt temperature rng =>
        let! (s, points, dt, scale) := computeVelocities_noise s points dt temperature rng in Ok ((s, b), Noise points dt scale)
    | AskGradients => let! s := computeGradients s in Ok ((s, b), NoReply)
    | AskDiscretise target => let! (s, b) := discretise s target in Ok ((s, Some b), Bounded b)
    | AskAreas =>
        match b with
        | None => Ok (w, NoReply)
        | Some c => let! (s, total) := computeAreaFractions s c in Ok ((s, b), Areas total (map e_area (m_elements (ls_mesh s))))
        end
    | AskNormals =>
        match b with None => Ok (w, NoReply) | Some c => let! c := computeNormalVectors s c in Ok ((s, Some c), Bounded c) end
    | AskIto delta temperature =>
        match b with None => Ok (w, NoReply) | Some c => let! c := itoCorrection_ls delta c s temperature in Ok ((s, Some c), Bounded c) end
    | WriteSd v => if (length v =? length (ls_sd s))%nat then Ok ((set_sd v s, b), NoReply) else UB
    | WriteVelocity v => if (length v =? length (ls_vel s))%nat then Ok ((set_vel v s, b), NoReply) else UB
    | WriteGradient v => if (length v =? length (ls_grad s))%nat then Ok ((set_grad v s, b), NoReply) else UB
    | WriteTarget v => if (length v =? length (ls_target s))%nat then Ok ((set_target v s, b), NoReply) else UB
    end.

  Definition observe (w : World) (r : Reply) : Obs :=
    mkObs r (seen (fst w)) (map nd_active (m_nodes (ls_mesh (fst w)))).

  (** A program: it stops, or makes a call and goes on in a way that may depend on what it then sees. *)
  Inductive Script :=
  | Stop
  | Do (a : Ask) (next : Obs -> Script).

  (** All that the program sees. *)
  Fixpoint run (p : Script) (w : World) : outcome (list Obs) :=
    match p with
    | Stop => Ok []
    | Do a next =>
        let! (w, r) := ask a w in
        let o := observe w r in
        let! os := run (next o) w in
        Ok (o :: os)
    end.

  (** What a restart needs: the same signed distance, target, masks and parameters. *)
  Definition same_shape (s s' : LevelSet T) : Prop :=
    ls_sd s = ls_sd s' /\ ls_target s = ls_target s' /\ map nd_masked (m_nodes (ls_mesh s)) = map nd_masked (m_nodes (ls_mesh s')) /\
    ls_moveLimit s = ls_moveLimit s' /\ ls_bandWidth s = ls_bandWidth s' /\ ls_fixed s = ls_fixed s'.
End TwinSpec.
Arguments Ask T : clear implicits.
Arguments Script T : clear implicits.
Arguments Obs T : clear implicits.
Arguments Seen T : clear implicits.
