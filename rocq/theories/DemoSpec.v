(** * DemoSpec: vocabulary for the properties of the demo programs. *)

From Coq Require Import Reals.
From Verif Require Import Num NumR LevelSetModel MeshSpec LevelSetSpecR BoundarySpecR BoundaryModel NormSpec DemoModel.
Local Open Scope R_scope.

(** Limited to [-1, 1]. *)
Definition clamp (x : R) : R := Rmax (-1) (Rmin 1 x).
(** Node [k], its left, right, lower and upper neighbour. *)
Definition cross (W k : nat) : list nat := [k; k - 1; k + 1; k - (W + 1); k + (W + 1)]%nat.
Definition off_border (W H k : nat) : Prop := (0 < k mod (W + 1) < W /\ 0 < k / (W + 1) < H)%nat.
(** Target minus signed distance at node [n]. *)
Definition gap (s : LevelSet R) (n : nat) : R := nth n (ls_target s) 0 - nth n (ls_sd s) 0.
(** Mean of the gaps at nodes [ns], weighted by the inverse square of their distance from [c]. *)
Definition weighted_gap (W : nat) (s : LevelSet R) (c : Coord R) (ns : list nat) : R :=
  sumR (map (fun n => gap s n / euclid2 (grid W n) c) ns) / sumR (map (fun n => / euclid2 (grid W n) c) ns).

(** ** The weighted perimeter *)
Record gravity_ok (g : Gravity R) : Prop := {
  go_n : (0 < g_n g)%nat;
  go_order : g_lower g < g_upper g;
  go_range : g_range g = g_upper g - g_lower g;
  go_reduce : 0 <= g_reduce g <= 1
}.
(** 1 above the upper height, [g_reduce] below the lower one, linear in between. *)
Definition weight_at (g : Gravity R) (y : R) : R :=
  1 - (1 - g_reduce g) * Rmax 0 (Rmin 1 ((g_upper g - y) / (g_upper g - g_lower g))).
(** Mean of the weights at the middles of [g_n] equal parts of the way from [y1] to [y2]. *)
Definition mean_weight (g : Gravity R) (y1 y2 : R) : R :=
  sumR (map (fun j => weight_at g (y1 + (INR j + 1 / 2) / INR (g_n g) * (y2 - y1))) (seq 0 (g_n g))) / INR (g_n g).
Definition height_of (b : Boundary R) (k : nat) : R := match bd_points b !! k with Some p => cy (bp_coord p) | None => 0 end.
(** [q] has the position and the neighbours of [p]. *)
Definition same_links (p q : BoundaryPoint R) : Prop :=
  bp_coord q = bp_coord p /\ bp_nNeigh q = bp_nNeigh p /\ bp_neigh q = bp_neigh p.

(** Weighted length of straight lines from [c] to the positions [qs]. *)
Definition weighted_length_to (g : Gravity R) (qs : list (Coord R)) (c : Coord R) : R :=
  sumR (map (fun q => euclid c q * mean_weight g (cy c) (cy q)) qs).
(** Rate of change of the weighted length with the displacement of [p] along its normal, per unit length (compare [curvature]). *)
Definition weighted_curvature (g : Gravity R) (delta : R) (b : Boundary R) (p : BoundaryPoint R) : R :=
  let L t := weighted_length_to g (neighbour_coords b p) (vadd (bp_coord p) (scale t (bp_normal p))) in
  (L delta - L (- delta)) / (2 * delta) / bp_length p.

(** ** The area mismatch *)
Definition L1 (a b : list R) : R := sumR (zip_with (fun x y => Rabs (x - y)) a b).
Definition areas_of (m : Mesh R) : list R := map e_area (m_elements m).

(** ** Histories of the main loop *)
Section history.
  Context {T : Type} `{NT : Num T}.
  (** The velocities of [sv] are those of the boundary points, with noise if the program has a temperature, extended to the nodes. *)
  Definition velocities_from (d : Demo T) (rg : nat -> T) (s : LevelSet T) (points : list (BoundaryPoint T)) (sv : LevelSet T) (dt : T) : Prop :=
    match d_temp d with
    | None => computeVelocities s points = Ok sv
    | Some t => exists dt0 ps sc, computeVelocities_noise s points dt0 t rg = Ok (sv, ps, dt, sc)
    end.
  (** [history d nlopt fuel rng interval maxTime k r l r']: starting with turn [k] in state [r], the loop makes one turn for each entry of
      [l] and is then in state [r'].  An entry is the running time after the turn and whether the level set was reinitialised in it. *)
  Inductive history (d : Demo T) (nlopt : nat -> nat -> OptModel.Opt T -> OptModel.Nlopt T) (fuel : nat) (rng : nat -> nat -> T) (interval maxTime : T)
      : nat -> Run T -> list (T * bool) -> Run T -> Prop :=
  | h_stop k r : history d nlopt fuel rng interval maxTime k r [] r
  | h_turn k r r1 b l r2 : (sm_time (rn_sim r) <? maxTime)%num = true -> full_turn d nlopt fuel rng interval k r = Ok (r1, b) ->
      history d nlopt fuel rng interval maxTime (S k) r1 l r2 -> history d nlopt fuel rng interval maxTime k r ((sm_time (rn_sim r1), b) :: l) r2.
End history.

(** The time at which sample [j] is due, counted from 0, if the first is due at [next]. *)
Definition due {T} `{Num T} (interval next : T) (j : nat) : T := Nat.iter j (fun x => (x + interval)%num) next.

(** ** Umbrella sampling *)
(** Probability with which a step from bias [a] to bias [b] is accepted. *)
Definition acceptance (beta a b : R) : R := Rmin 1 (exp (- (beta * (b - a)))).
