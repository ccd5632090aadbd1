(** * DemoShape: vocabulary for a turn of a demo program that starts with a shape inside the domain. *)

From Coq Require Import Reals.
From Verif Require Import OptModel.
From Verif Require Import Base Num NumR NumInt MeshSpec LevelSetModel LevelSetSpecR LevelSetCalls BoundaryModel BoundaryGraph BoundarySpecR BoundaryClosed DemoModel DemoSpec.
Local Open Scope R_scope.

(** A shape the programs can start a turn with: no node is on the contour, no edge is cut within the tolerance of an end, every
    cut edge is in the narrow band, the border of the domain is outside, and something is inside. *)
Record inside_shape (W H : nat) (s : LevelSet R) : Prop := {
  is_reached : reached W H s;
  is_width : (4 <= W)%nat;
  is_height : (4 <= H)%nat;
  is_off : off_contour W H (ls_sd s);
  is_clear : clear_cuts W H (ls_sd s);
  is_covered : covered W H s (ls_sd s);
  is_border : forall x y, (x <= W)%nat -> (y <= H)%nat -> (x = 0 \/ x = W \/ y = 0 \/ y = H)%nat -> exists v, ls_sd s !! node_id W x y = Some v /\ v < 0;
  is_some : exists i x, (i < node_count W H)%nat /\ ls_sd s !! i = Some x /\ 0 < x
}.
(** The same with two cells around it. *)
Definition inner_shape (W H : nat) (s : LevelSet R) : Prop :=
  inside_shape W H s /\
  forall x y, (x <= W)%nat -> (y <= H)%nat -> (x <= 1 \/ W <= x + 1 \/ y <= 1 \/ H <= y + 1)%nat -> exists v, ls_sd s !! node_id W x y = Some v /\ v < 0.

(** Whatever NLopt and the random numbers do, the turn [m] ends the program with an error message or moves the field to a new one, [s4],
    which is discretised; there is one multiplier per function as before, time does not run backwards, and [c] is carried along. *)
Definition ends_or_moves (W H : nat) (d : Demo R) (nlopt : nat -> Opt R -> Nlopt R) (rng : nat -> R) (m : Sim R) (c : R) : Prop :=
  exists F, forall fuel, (F <= fuel)%nat ->
    turn d nlopt fuel rng m = Exit \/
    exists s4 lambdas n dt ri, reached W H s4 /\ length lambdas = length (sm_lambdas m) /\ 0 <= dt /\
      turn d nlopt fuel rng m = (let! (s5, b5) := new_boundary d s4 in Ok (mkSim s5 b5 lambdas n (sm_time m + dt), c, ri)).
