(** * SymmetrySpec: level sets that are turned or mirrored (C83). *)

From Coq Require Import Reals.
From Verif Require Import Base BoundarySpecR.

(** Entry ([x], [y]) of a row-wise list of rows of [n] entries. *)
Definition at_xy {A} (n : nat) (l : list A) (x y : nat) : option A := l !! (x + y * n).
(** The list [l'] of rows of [a] entries, [b] rows, is the list [l] ... *)
Definition mirrored {A} (a b : nat) (l l' : list A) : Prop := forall x y, x < a -> y < b -> at_xy a l' (a - 1 - x) y = at_xy a l x y.
Definition upside_down {A} (a b : nat) (l l' : list A) : Prop := forall x y, x < a -> y < b -> at_xy a l' x (b - 1 - y) = at_xy a l x y.
(** ... with rows and columns swapped: [l] has rows of [a] entries and [l'] of [b]. *)
Definition transposed {A} (a b : nat) (l l' : list A) : Prop := forall x y, x < a -> y < b -> at_xy b l' y x = at_xy a l x y.

(** ** The length of the contour in a unit square with corners [x0] (lower left), [x1] (lower right), [x2] and [x3], none of them zero. *)
Local Open Scope R_scope.
Definition inside (x : R) : bool := if Rlt_dec 0 x then true else false.
(** Around corner [a], its neighbours [b] and [c] on the other side. *)
Definition hyp (a b c : R) : R := R_sqrt.sqrt (share a b * share a b + share a c * share a c).
(** Across: [a] and [d] on one side, [b] next to [a] and [c] next to [d] on the other. *)
Definition span (a b c d : R) : R := R_sqrt.sqrt (1 + (share a b - share d c) * (share a b - share d c)).
Definition len4 (x0 x1 x2 x3 : R) : R :=
  match inside x0, inside x1, inside x2, inside x3 with
  | true, true, true, true | false, false, false, false => 0
  | true, false, false, false | false, true, true, true => hyp x0 x1 x3
  | false, true, false, false | true, false, true, true => hyp x1 x2 x0
  | false, false, true, false | true, true, false, true => hyp x2 x3 x1
  | false, false, false, true | true, true, true, false => hyp x3 x0 x2
  | true, true, false, false => span x0 x3 x2 x1
  | false, true, true, false => span x1 x0 x3 x2
  | false, false, true, true => span x2 x1 x0 x3
  | true, false, false, true => span x3 x2 x1 x0
  | true, false, true, false => if Rlt_dec 0 (x0 + x1 + x2 + x3) then hyp x1 x2 x0 + hyp x3 x0 x2 else hyp x0 x1 x3 + hyp x2 x3 x1
  | false, true, false, true => if Rlt_dec (x0 + x1 + x2 + x3) 0 then hyp x1 x2 x0 + hyp x3 x0 x2 else hyp x0 x1 x3 + hyp x2 x3 x1
  end.
