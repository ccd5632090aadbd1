(** * Num: the arithmetic of C++ [double] as an interface without laws.

    Every [double] in the code is a value of a type [T] with [Num T].  The class only
    lists the operations the code uses; it assumes nothing about them.  A theorem proved
    for every [Num T] therefore holds for IEEE-754 arithmetic, including NaN, infinities,
    signed zeros and any rounding, and for the exact real numbers.

    Instances: [NumR] (exact reals, NumR.v) and [NumF64] (IEEE binary64 with
    round-to-nearest-even, NumF64.v). *)

From Verif Require Export Base.

Class Num (T : Type) := {
  nadd : T -> T -> T;
  nsub : T -> T -> T;
  nmul : T -> T -> T;
  ndiv : T -> T -> T;
  nneg : T -> T;
  nabs : T -> T;                       (** [std::abs] *)
  nsqrt : T -> T;                      (** [sqrt] *)
  nltb : T -> T -> bool;               (** [<] *)
  nleb : T -> T -> bool;               (** [<=] *)
  neqb : T -> T -> bool;               (** [==] *)
  nofZ : Z -> T;                       (** conversion of an integer to [double] *)
  nfloorZ : T -> option Z;             (** [std::floor] as an integer; [None] for NaN and infinities *)
}.

Declare Scope num_scope.
Delimit Scope num_scope with num.
Infix "+" := nadd : num_scope.
Infix "-" := nsub : num_scope.
Infix "*" := nmul : num_scope.
Infix "/" := ndiv : num_scope.
Notation "- x" := (nneg x) : num_scope.
Notation "x <? y" := (nltb x y) : num_scope.
Notation "x <=? y" := (nleb x y) : num_scope.
Notation "x =? y" := (neqb x y) : num_scope.
(** [a > b] and [a >= b] are [b < a] and [b <= a]; [a != b] is [!(a == b)]. *)
Notation "x >? y" := (nltb y x) (only parsing) : num_scope.
Notation "x >=? y" := (nleb y x) (only parsing) : num_scope.

Section derived.
  Context {T : Type} `{Num T}.

  (** Integer literals and [unsigned int] to [double] conversions. *)
  Definition nofnat (n : nat) : T := nofZ (Z.of_nat n).

  (** A decimal literal, written as a quotient of integers exactly representable in
      binary64, e.g. [1e-6 = nlit 1 1000000]: one correctly rounded division gives the
      correctly rounded literal. *)
  Definition nlit (p q : Z) : T := (nofZ p / nofZ q)%num.

  Definition n0 : T := nofZ 0.
  Definition n1 : T := nofZ 1.

  (** [std::numeric_limits<double>::max()], [::epsilon()]. *)
  Definition nmaxDouble : T := nofZ (2 ^ 1024 - 2 ^ 971).
  Definition nepsilon : T := nlit 1 (2 ^ 52).

  (** [std::min(a, b)] is [(b < a) ? b : a]; [std::max(a, b)] is [(a < b) ? b : a]. *)
  Definition nmin (a b : T) : T := if (b <? a)%num then b else a.
  Definition nmax (a b : T) : T := if (a <? b)%num then b else a.

  (** Conversion of a [double] to [unsigned int] after [std::floor]: undefined if the value
      does not fit ([conv.fpint]). *)
  Definition floor_u32 (x : T) : outcome nat :=
    match nfloorZ x with
    | Some z => if ((0 <=? z) && (z <? 2 ^ 32))%Z then Ok (Z.to_nat z) else UB
    | None => UB
    end.

  (** Truncation of a [double] to [int]: undefined if the value does not fit. *)
  Definition trunc_i32 (x : T) : outcome Z :=
    let zo := if (x <? n0)%num then option_map Z.opp (nfloorZ (- x)%num) else nfloorZ x in
    match zo with
    | Some z => if ((- 2 ^ 31 <=? z) && (z <? 2 ^ 31))%Z then Ok z else UB
    | None => UB
    end.
End derived.

(** ** Order laws on the values satisfying [P] (for binary64: the values that are not NaN). *)
Class NumOrd (T : Type) `{Num T} (P : T -> Prop) := {
  nlt_irrefl : forall a, P a -> nltb a a = false;
  nlt_trans : forall a b c, P a -> P b -> P c -> nltb a b = true -> nltb b c = true -> nltb a c = true;
  nlt_negtrans : forall a b c, P a -> P b -> P c -> nltb a b = false -> nltb b c = false -> nltb a c = false;
  nle_nlt : forall a b, P a -> P b -> nleb a b = negb (nltb b a);
  neq_nlt : forall a b, P a -> P b -> neqb a b = negb (nltb a b) && negb (nltb b a);
}.
