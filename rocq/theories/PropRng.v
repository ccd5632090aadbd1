(** * PropRng: theorems about MersenneTwister (C48).  Proofs in RngProofs. *)

From Coq Require Import NArith ZArith.
From Verif Require Import Base RngModel RngProofs.

(** C48: after setSeed(s) the results of uniform, integer, normal(mean, sd), setSeed and getSeed calls do not depend on what
    happened before. *)
Theorem C48_reseeding_reproduces (T : Type) (L : Library T) zero one s l (r r' : Rng L) : no_default_normal l ->
  results L zero one l (rng_setSeed L s r) = results L zero one l (rng_setSeed L s r').
Proof. exact (reseeded L zero one s l r r'). Qed.
Print Assumptions C48_reseeding_reproduces.

(** C48, with normal(): if the default distribution holds the same number, or none. *)
Theorem C48_reseeding_with_normal (T : Type) (L : Library T) zero one s l (r r' : Rng L) : rg_kept L r = rg_kept L r' ->
  calls L zero one l (rng_setSeed L s r) = calls L zero one l (rng_setSeed L s r').
Proof. exact (reseeded_all L zero one s l r r'). Qed.
Print Assumptions C48_reseeding_with_normal.

(** C48 is false of normal(): after one call of it the next one returns the second number of the old pair, whatever the new
    seed is, where a new generator with that seed returns the first number of the new pair. *)
Theorem C48_default_normal_refuted (T : Type) (L : Library T) zero one device s :
  fst (rng_normal L zero one (rng_setSeed L s (snd (rng_normal L zero one (rng_new L device))))) = scaled L (snd (fst (normal_pair L (seeded L device)))) zero one /\
  fst (rng_normal L zero one (rng_setSeed L s (rng_new L device))) = scaled L (fst (fst (normal_pair L (seeded L s)))) zero one.
Proof. exact (conj (stale L zero one device s) (fresh L zero one device s)). Qed.
Print Assumptions C48_default_normal_refuted.

(** C48: getSeed returns the last seed set, or the one of the hardware. *)
Theorem C48_getSeed (T : Type) (L : Library T) zero one l (r r' : Rng L) xs : calls L zero one l r = Ok (xs, r') -> rng_getSeed L r' = last_seed (rng_getSeed L r) l.
Proof. exact (seed_is_last L zero one l r xs r'). Qed.
Print Assumptions C48_getSeed.

(** C48: every run of calls returns, unless integer is asked for an empty range. *)
Theorem C48_returns (T : Type) (L : Library T) zero one l (r : Rng L) : Forall legal l -> exists xs r', calls L zero one l r = Ok (xs, r') /\ length xs = length l.
Proof. intros Hl. exact (legal_returns L zero one l Hl r). Qed.
Print Assumptions C48_returns.

(** A run with a library that counts. *)
Example C48_case : let l := [CUniform; CInteger 1 6; CNormalAt 10 2; CUniform; CGetSeed]%Z in
  no_default_normal l /\ Forall legal l /\
  results counting 0%Z 1%Z l (rng_setSeed counting 5 (rng_new counting 77)) = Ok [RReal 5; RInt 1; RReal 24; RReal 9; RSeed 5]%Z /\
  results counting 0%Z 1%Z ([CNormal; CSeed 5; CNormal; CUniform]%Z) (rng_new counting 77) = Ok [RReal 77; RNone; RReal 78; RReal 5]%Z /\
  results counting 0%Z 1%Z ([CSeed 5; CNormal; CUniform]%Z) (rng_new counting 77) = Ok [RNone; RReal 5; RReal 7]%Z.
Proof.
  split; [intros c Hc ->; repeat (apply elem_of_cons in Hc as [Hc|Hc]; [discriminate|]); inversion Hc|].
  split; [repeat (constructor; try exact I); cbn; lia|]. repeat split; reflexivity.
Qed.
