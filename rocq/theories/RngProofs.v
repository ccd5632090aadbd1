(** * RngProofs: re-seeding. *)

From Coq Require Import NArith ZArith Lia.
From Verif Require Import Base RngModel.

Section Rng.
  Context {T : Type} (L : Library T) (zero one : T).
  Local Notation rng := (Rng L).
  Local Notation calls := (calls L zero one).

  (** No call of normal() without arguments. *)
  Definition no_default_normal (l : list (Call (T := T))) : Prop := forall c, c ∈ l -> c <> CNormal.
  Definition agree (r r' : rng) : Prop := rg_engine L r = rg_engine L r' /\ rg_seed L r = rg_seed L r'.

  Lemma call_agree c r r' : c <> CNormal -> agree r r' ->
    match call L zero one c r, call L zero one c r' with
    | Ok (x, r1), Ok (x', r1') => x = x' /\ agree r1 r1' /\ rg_kept L r1 = rg_kept L r /\ rg_kept L r1' = rg_kept L r'
    | UB, UB => True
    | _, _ => False
    end.
  Proof.
    intros Hc [E1 E2]. destruct r as [g k s], r' as [g' k' s']. cbn in E1, E2. destruct E1, E2. destruct c as [|a b| |m d|sd|]; cbn.
    - unfold rng_uniform. cbn. destruct (uniform01 L g) as [x g1]. cbn. repeat split; reflexivity.
    - unfold rng_integer. destruct (a <=? b)%Z; [|exact I]. cbn. destruct (uniform_int L a b g) as [x g1]. cbn. repeat split; reflexivity.
    - destruct (Hc eq_refl).
    - unfold rng_normal_at. cbn. destruct (normal_pair L g) as [[x y] g1]. cbn. repeat split; reflexivity.
    - repeat split; reflexivity.
    - repeat split; reflexivity.
  Qed.
  Lemma calls_agree l : no_default_normal l -> forall r r', agree r r' ->
    match calls l r, calls l r' with
    | Ok (xs, r1), Ok (xs', r1') => xs = xs' /\ agree r1 r1'
    | UB, UB => True
    | _, _ => False
    end.
  Proof.
    induction l as [|c l IH]; intros Hl r r' Ha; cbn [RngModel.calls]; [split; [reflexivity|exact Ha]|].
    pose proof (call_agree c r r' (Hl c (elem_of_list_here _ _)) Ha) as X.
    destruct (call L zero one c r) as [[x r1]| | |], (call L zero one c r') as [[x' r1']| | |]; try contradiction; cbn [obind]; [|exact I].
    destruct X as (-> & A & _). specialize (IH (fun c' H' => Hl c' (elem_of_list_further _ _ _ H')) r1 r1' A).
    destruct (calls l r1) as [[xs r2]| | |], (calls l r1') as [[xs' r2']| | |]; try contradiction; cbn [obind]; [|exact I].
    destruct IH as [-> B]. split; [reflexivity|exact B].
  Qed.

  (** The results of a run of calls. *)
  Definition results (l : list Call) (r : rng) : outcome (list Result) := let! (xs, _) := calls l r in Ok xs.
  Theorem reseeded s l r r' : no_default_normal l -> results l (rng_setSeed L s r) = results l (rng_setSeed L s r').
  Proof.
    intros Hl. unfold results. pose proof (calls_agree l Hl (rng_setSeed L s r) (rng_setSeed L s r') (conj eq_refl eq_refl)) as X.
    destruct (calls l (rng_setSeed L s r)) as [[xs r1]| | |], (calls l (rng_setSeed L s r')) as [[xs' r1']| | |]; try contradiction; cbn [obind]; [|reflexivity].
    destruct X as [-> _]. reflexivity.
  Qed.
  (** All calls, if the default normal distribution has kept nothing, or the same. *)
  Theorem reseeded_all s l r r' : rg_kept L r = rg_kept L r' -> calls l (rng_setSeed L s r) = calls l (rng_setSeed L s r').
  Proof. intros E. unfold rng_setSeed. rewrite E. reflexivity. Qed.

  (** getSeed. *)
  Definition last_seed (s : N) (l : list (Call (T := T))) : N := fold_left (fun s c => match c with CSeed s' => s' | _ => s end) l s.
  Lemma seed_after c r x r1 : call L zero one c r = Ok (x, r1) -> rg_seed L r1 = match c with CSeed s' => s' | _ => rg_seed L r end.
  Proof.
    destruct c as [|a b| |m d|sd|]; cbn.
    - unfold rng_uniform. destruct (uniform01 L (rg_engine L r)). intros [= <- <-]. reflexivity.
    - unfold rng_integer. destruct (a <=? b)%Z; [|discriminate]. destruct (uniform_int L a b (rg_engine L r)). intros [= <- <-]. reflexivity.
    - unfold rng_normal. destruct (draw_normal L (rg_kept L r) (rg_engine L r)) as [[y k] g]. intros [= <- <-]. reflexivity.
    - unfold rng_normal_at. destruct (draw_normal L None (rg_engine L r)) as [[y k] g]. intros [= <- <-]. reflexivity.
    - intros [= <- <-]. reflexivity.
    - intros [= <- <-]. reflexivity.
  Qed.
  Theorem seed_is_last l : forall r xs r', calls l r = Ok (xs, r') -> rng_getSeed L r' = last_seed (rng_getSeed L r) l.
  Proof.
    induction l as [|c l IH]; intros r xs r' E; cbn [RngModel.calls] in E; [injection E as _ <-; reflexivity|].
    apply obind_Ok in E as ([x r1] & E1 & E). apply obind_Ok in E as ([xs1 r2] & E2 & E). injection E as _ <-. rewrite (IH _ _ _ E2). unfold rng_getSeed, last_seed. cbn [fold_left].
    rewrite (seed_after _ _ _ _ E1). reflexivity.
  Qed.

  (** Only integer(min, max) with min > max is a misuse. *)
  Definition legal (c : Call (T := T)) : Prop := match c with CInteger a b => (a <= b)%Z | _ => True end.
  Theorem legal_returns l : Forall legal l -> forall r, exists xs r', calls l r = Ok (xs, r') /\ length xs = length l.
  Proof.
    intros Hl. induction Hl as [|c l Hc _ IH]; intros r; cbn [RngModel.calls]; [eexists _, _; split; reflexivity|].
    assert (X : exists x r1, call L zero one c r = Ok (x, r1)).
    { destruct c as [|a b| |m d|sd|]; cbn.
      - destruct (rng_uniform L r); eauto.
      - unfold rng_integer. cbn in Hc. destruct (Z.leb_spec a b); [|lia]. destruct (uniform_int L a b (rg_engine L r)). cbn. eauto.
      - destruct (rng_normal L zero one r); eauto.
      - destruct (rng_normal_at L m d r); eauto.
      - eauto.
      - eauto. }
    destruct X as (x & r1 & ->). cbn [obind]. destruct (IH r1) as (xs & r' & -> & Hx). cbn [obind]. eexists _, _. split; [reflexivity|]. cbn. rewrite Hx. reflexivity.
  Qed.

  (** normal() after a first normal() of a new generator and a new seed: the second number of the first pair. *)
  Theorem stale device s : fst (rng_normal L zero one (rng_setSeed L s (snd (rng_normal L zero one (rng_new L device))))) =
    scaled L (snd (fst (normal_pair L (seeded L device)))) zero one.
  Proof. unfold rng_normal, rng_new, rng_setSeed, draw_normal. cbn. destruct (normal_pair L (seeded L device)) as [[x y] g]. reflexivity. Qed.
  (** ... and of a new generator with that seed. *)
  Theorem fresh device s : fst (rng_normal L zero one (rng_setSeed L s (rng_new L device))) = scaled L (fst (fst (normal_pair L (seeded L s)))) zero one.
  Proof. unfold rng_normal, rng_new, rng_setSeed, draw_normal. cbn. destruct (normal_pair L (seeded L s)) as [[x y] g]. reflexivity. Qed.
End Rng.

(** A library to run: the engine counts, the numbers are the count. *)
Definition counting : Library Z := {|
  engine := Z; seeded := Z.of_N; uniform01 g := (g, (g + 1)%Z); uniform_int a b g := ((a + g mod (b - a + 1))%Z, (g + 1)%Z);
  normal_pair g := ((g, (g + 1)%Z), (g + 2)%Z); scaled x m d := (m + d * x)%Z |}.
