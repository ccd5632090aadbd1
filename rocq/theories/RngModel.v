(** * RngModel: MersenneTwister.h (complete).

    The standard library is an oracle ([Library]): the engine std::mt19937 and the algorithms of the distributions are any
    functions of the engine state.  A normal distribution makes its numbers in pairs and keeps the second one
    (libstdc++, polar method); the uniform distributions keep nothing.  std::random_device is an argument. *)

From Coq Require Import NArith ZArith.
From Verif Require Import Base.

Record Library (T : Type) := mkLibrary {
  engine : Type;
  seeded : N -> engine;                                   (** generator.seed(s) *)
  uniform01 : engine -> T * engine;                       (** uniform_real_distribution{0, 1} *)
  uniform_int : Z -> Z -> engine -> Z * engine;           (** uniform_int_distribution{min, max} *)
  normal_pair : engine -> (T * T) * engine;               (** two standard normal numbers: the one returned, the one kept *)
  scaled : T -> T -> T -> T                               (** number, mean, standard deviation *)
}.
Arguments engine {T} _. Arguments seeded {T} _ _. Arguments uniform01 {T} _ _. Arguments uniform_int {T} _ _ _ _.
Arguments normal_pair {T} _ _. Arguments scaled {T} _ _ _ _.

Section Rng.
  Context {T : Type} (L : Library T) (zero one : T).

  (** MersenneTwister.h:125-136: the generator, the number the default normal distribution has kept, the seed. *)
  Record Rng := mkRng { rg_engine : engine L; rg_kept : option T; rg_seed : N }.

  (** MersenneTwister.h:35-57: [device] is the hardware random number. *)
  Definition rng_new (device : N) : Rng := mkRng (seeded L device) None device.
  (** MersenneTwister.h:61-64, [operator()]. *)
  Definition rng_uniform (r : Rng) : T * Rng :=
    let (x, g) := uniform01 L (rg_engine r) in (x, mkRng g (rg_kept r) (rg_seed r)).
  (** MersenneTwister.h:76-79, [integer]: min <= max is a precondition of the distribution. *)
  Definition rng_integer (min max : Z) (r : Rng) : outcome (Z * Rng) :=
    if (min <=? max)%Z then
      let (x, g) := uniform_int L min max (rg_engine r) in Ok (x, mkRng g (rg_kept r) (rg_seed r))
    else UB.
  (** std::normal_distribution with a kept number [k]. *)
  Definition draw_normal (k : option T) (g : engine L) : T * option T * engine L :=
    match k with
    | Some y => (y, None, g)
    | None => let '((x, y), g) := normal_pair L g in (x, Some y, g)
    end.
  (** MersenneTwister.h:86-89, [normal()]: the distribution is a member. *)
  Definition rng_normal (r : Rng) : T * Rng :=
    let '(x, k, g) := draw_normal (rg_kept r) (rg_engine r) in (scaled L x zero one, mkRng g k (rg_seed r)).
  (** MersenneTwister.h:101-104, [normal(mean, stdDev)]: a new distribution for each call. *)
  Definition rng_normal_at (mean stdDev : T) (r : Rng) : T * Rng :=
    let '(x, _, g) := draw_normal None (rg_engine r) in (scaled L x mean stdDev, mkRng g (rg_kept r) (rg_seed r)).
  (** MersenneTwister.h:110-113. *)
  Definition rng_getSeed (r : Rng) : N := rg_seed r.
  (** MersenneTwister.h:119-123, [setSeed]. *)
  Definition rng_setSeed (s : N) (r : Rng) : Rng := mkRng (seeded L s) (rg_kept r) s.

  (** The calls of a program. *)
  Inductive Call := CUniform | CInteger (min max : Z) | CNormal | CNormalAt (mean stdDev : T) | CSeed (s : N) | CGetSeed.
  Inductive Result := RReal (x : T) | RInt (z : Z) | RSeed (s : N) | RNone.
  Definition call (c : Call) (r : Rng) : outcome (Result * Rng) :=
    match c with
    | CUniform => let (x, r) := rng_uniform r in Ok (RReal x, r)
    | CInteger a b => let! (z, r) := rng_integer a b r in Ok (RInt z, r)
    | CNormal => let (x, r) := rng_normal r in Ok (RReal x, r)
    | CNormalAt m s => let (x, r) := rng_normal_at m s r in Ok (RReal x, r)
    | CSeed s => Ok (RNone, rng_setSeed s r)
    | CGetSeed => Ok (RSeed (rng_getSeed r), r)
    end.
  Fixpoint calls (l : list Call) (r : Rng) : outcome (list Result * Rng) :=
    match l with
    | [] => Ok ([], r)
    | c :: l => let! (x, r) := call c r in let! (xs, r) := calls l r in Ok (x :: xs, r)
    end.
End Rng.
