(** * Base: outcomes, checked vector access, loops.

    Nothing here models a particular function of the code; it is the small
    imperative vocabulary in which the model files are written. *)

From stdpp Require Export base list numbers list_numbers.
From Coq Require Export ZArith Lia.

(** ** Outcomes

    - [Ok a]      : the call returned [a];
    - [Exit]      : [slsm_check] failed and [exit(EXIT_FAILURE)] was called
                    (src/Debug.h, and the [error:] labels in every file);
    - [UB]        : undefined behaviour (out-of-bounds vector access, read of an
                    uninitialised member, undefined float-to-integer conversion);
    - [OutOfFuel] : the fuel given to the model of a [while] loop ran out
                    (never an outcome of the program; excluded by theorems). *)
Inductive outcome (A : Type) : Type :=
| Ok (a : A)
| Exit
| UB
| OutOfFuel.
Arguments Ok {A} a.
Arguments Exit {A}.
Arguments UB {A}.
Arguments OutOfFuel {A}.

Definition obind {A B} (o : outcome A) (f : A -> outcome B) : outcome B :=
  match o with
  | Ok a => f a
  | Exit => Exit
  | UB => UB
  | OutOfFuel => OutOfFuel
  end.

Notation "'let!' x ':=' e 'in' f" := (obind e (fun x => f))
  (at level 200, x pattern, e at level 200, f at level 200, right associativity).

(** [std::vector::operator[]]: undefined behaviour out of bounds. *)
Definition vget {A} (l : list A) (i : nat) : outcome A :=
  match l !! i with Some a => Ok a | None => UB end.

Definition vset {A} (l : list A) (i : nat) (a : A) : outcome (list A) :=
  match l !! i with Some _ => Ok (<[i := a]> l) | None => UB end.

(** Update in place of one element of a vector of records. *)
Definition vmod {A} (l : list A) (i : nat) (f : A -> A) : outcome (list A) :=
  match l !! i with Some a => Ok (<[i := f a]> l) | None => UB end.

(** Reading a variable or member that may not have been initialised. *)
Definition init_get {A} (o : option A) : outcome A :=
  match o with Some a => Ok a | None => UB end.

(** [slsm_check(b, ...)] : src/Debug.h; a failed check exits. *)
Definition check (b : bool) : outcome unit := if b then Ok tt else Exit.

(** [for (i = i0; i < i0 + n; i++) body]. *)
Fixpoint for_from {S : Type} (i n : nat) (f : nat -> S -> outcome S) (s : S) : outcome S :=
  match n with
  | 0 => Ok s
  | Datatypes.S m => let! s' := f i s in for_from (Datatypes.S i) m f s'
  end.

Definition for_ {S : Type} (n : nat) (f : nat -> S -> outcome S) (s : S) : outcome S :=
  for_from 0 n f s.

(** Map with failure, in index order. *)
Fixpoint omapM {A B} (f : A -> outcome B) (l : list A) : outcome (list B) :=
  match l with
  | [] => Ok []
  | a :: l' => let! b := f a in let! r := omapM f l' in Ok (b :: r)
  end.

(** ** A weakest-precondition style predicate

    [wp E U o Q]: if [o] is [Ok a] then [Q a]; [o] may be [Exit] only if [E] holds,
    [UB] only if [U] holds; it is never [OutOfFuel].
    [wp False False] is total correctness, [wp True False] allows only the documented
    program exit, [wp True True] is partial correctness. *)
Definition wp {A} (E U : Prop) (o : outcome A) (Q : A -> Prop) : Prop :=
  match o with
  | Ok a => Q a
  | Exit => E
  | UB => U
  | OutOfFuel => False
  end.

Section wp.
  Context {A B : Type}.
  Implicit Types E U : Prop.

  Lemma wp_ok E U (a : A) (Q : A -> Prop) : Q a -> wp E U (Ok a) Q.
  Proof. intros H; exact H. Qed.

  Lemma wp_bind E U (o : outcome A) (f : A -> outcome B) (Q : B -> Prop) :
    wp E U o (fun a => wp E U (f a) Q) -> wp E U (obind o f) Q.
  Proof. destruct o; cbn; auto. Qed.

  Lemma wp_mono E E' U U' (o : outcome A) (P Q : A -> Prop) :
    wp E U o P -> (E -> E') -> (U -> U') -> (forall a, P a -> Q a) -> wp E' U' o Q.
  Proof. destruct o; cbn; auto. Qed.

  Lemma wp_impl E U (o : outcome A) (P Q : A -> Prop) :
    wp E U o P -> (forall a, P a -> Q a) -> wp E U o Q.
  Proof. destruct o; cbn; auto. Qed.

  Lemma wp_and E U (o : outcome A) (P Q : A -> Prop) :
    wp E U o P -> wp E U o Q -> wp E U o (fun a => P a /\ Q a).
  Proof. destruct o; cbn; auto. Qed.

  Lemma wp_inv_ok E U (o : outcome A) (Q : A -> Prop) a : wp E U o Q -> o = Ok a -> Q a.
  Proof. intros H ->; exact H. Qed.

  Lemma wp_total (o : outcome A) (Q : A -> Prop) :
    wp False False o Q <-> exists a, o = Ok a /\ Q a.
  Proof.
    split.
    - destruct o; cbn; try tauto. eauto.
    - intros (a & -> & H). exact H.
  Qed.

  Lemma wp_not_ub E (o : outcome A) (Q : A -> Prop) : wp E False o Q -> o <> UB /\ o <> OutOfFuel.
  Proof. destruct o; cbn; intros H; split; try discriminate; tauto. Qed.

  Lemma wp_vget E U (l : list A) i (Q : A -> Prop) a :
    l !! i = Some a -> Q a -> wp E U (vget l i) Q.
  Proof. unfold vget; intros -> H; exact H. Qed.

  Lemma wp_vget_lt E U (l : list A) i (Q : A -> Prop) :
    i < length l -> (forall a, l !! i = Some a -> Q a) -> wp E U (vget l i) Q.
  Proof.
    intros Hi H. destruct (lookup_lt_is_Some_2 l i Hi) as [a Ha].
    unfold vget. rewrite Ha. cbn. auto.
  Qed.

  Lemma wp_vset E U (l : list A) i a (Q : list A -> Prop) :
    i < length l -> Q (<[i := a]> l) -> wp E U (vset l i a) Q.
  Proof.
    intros Hi H. destruct (lookup_lt_is_Some_2 l i Hi) as [b Hb].
    unfold vset. rewrite Hb. exact H.
  Qed.

  Lemma wp_vmod E U (l : list A) i f (Q : list A -> Prop) a :
    l !! i = Some a -> Q (<[i := f a]> l) -> wp E U (vmod l i f) Q.
  Proof. unfold vmod; intros -> H; exact H. Qed.

  (** Partial-correctness versions: an out-of-bounds access makes the goal trivial. *)
  Lemma wp_vget_pc E (l : list A) i (Q : A -> Prop) :
    (forall a, l !! i = Some a -> Q a) -> wp E True (vget l i) Q.
  Proof. unfold vget; destruct (l !! i) eqn:Hi; cbn; auto. Qed.

  Lemma wp_vset_pc E (l : list A) i a (Q : list A -> Prop) :
    (i < length l -> Q (<[i := a]> l)) -> wp E True (vset l i a) Q.
  Proof.
    unfold vset; destruct (l !! i) eqn:Hi; cbn; auto.
    intros H; apply H. eauto using lookup_lt_Some.
  Qed.

  Lemma wp_check E U (b : bool) (Q : unit -> Prop) :
    (b = true -> Q tt) -> (b = false -> E) -> wp E U (check b) Q.
  Proof. destruct b; cbn; auto. Qed.
End wp.

Lemma wp_for_from {S} E U (I : nat -> S -> Prop) n f :
  forall i (s : S),
    I i s ->
    (forall k s', i <= k < i + n -> I k s' -> wp E U (f k s') (I (Datatypes.S k))) ->
    wp E U (for_from i n f s) (I (i + n)).
Proof.
  induction n as [|n IH]; intros i s Hs Hstep; cbn.
  - rewrite Nat.add_0_r. exact Hs.
  - apply wp_bind. eapply wp_impl.
    + apply Hstep; [lia | exact Hs].
    + intros s' Hs'. replace (i + Datatypes.S n) with (Datatypes.S i + n) by lia.
      apply IH; [exact Hs'|]. intros k s'' Hk HI. apply Hstep; [lia | exact HI].
Qed.

Lemma wp_for {S} E U (I : nat -> S -> Prop) n f (s : S) (Q : S -> Prop) :
  I 0 s ->
  (forall k s', k < n -> I k s' -> wp E U (f k s') (I (Datatypes.S k))) ->
  (forall s', I n s' -> Q s') ->
  wp E U (for_ n f s) Q.
Proof.
  intros H0 Hstep Hend. unfold for_. eapply wp_impl.
  - apply (wp_for_from E U I n f 0 s H0). intros k s' Hk HI. apply Hstep; [lia|exact HI].
  - cbn. exact Hend.
Qed.

Lemma for_from_ext {S} n (f g : nat -> S -> outcome S) :
  forall i s, (forall k s', i <= k < i + n -> f k s' = g k s') -> for_from i n f s = for_from i n g s.
Proof.
  induction n as [|n IH]; intros i s H; cbn; [reflexivity|].
  rewrite (H i s) by lia. destruct (g i s); cbn; try reflexivity.
  apply IH. intros k s' Hk. apply H. lia.
Qed.

Lemma vget_Ok {A} (l : list A) i a : vget l i = Ok a <-> l !! i = Some a.
Proof. unfold vget. destruct (l !! i); split; intros H; inversion H; reflexivity. Qed.

Lemma vset_Ok {A} (l : list A) i a l' : vset l i a = Ok l' <-> i < length l /\ l' = <[i := a]> l.
Proof.
  unfold vset. destruct (l !! i) eqn:Hi; split.
  - intros H; inversion H; subst. split; [eauto using lookup_lt_Some|reflexivity].
  - intros [_ ->]. reflexivity.
  - intros H; inversion H.
  - intros [H _]. apply lookup_lt_is_Some_2 in H. destruct H; congruence.
Qed.

Lemma obind_Ok {A B} (o : outcome A) (f : A -> outcome B) b :
  obind o f = Ok b <-> exists a, o = Ok a /\ f a = Ok b.
Proof.
  destruct o; cbn; split.
  - eauto.
  - intros (x & H & H'); inversion H; subst; exact H'.
  - discriminate. - intros (x & H & _); discriminate.
  - discriminate. - intros (x & H & _); discriminate.
  - discriminate. - intros (x & H & _); discriminate.
Qed.

(** [post o Q]: if [o] succeeds, its result satisfies [Q]. *)
Definition post {A} (o : outcome A) (Q : A -> Prop) : Prop := forall a, o = Ok a -> Q a.

Lemma post_bind {A B} (o : outcome A) (f : A -> outcome B) (Q : B -> Prop) :
  post o (fun a => post (f a) Q) -> post (obind o f) Q.
Proof. intros Hp b. destruct o as [a| | |]; cbn [obind]; try discriminate. apply (Hp a eq_refl). Qed.
Lemma post_any {A} (o : outcome A) (Q : A -> Prop) : (forall a, Q a) -> post o Q.
Proof. intros Hq a _. apply Hq. Qed.
Lemma post_ok {A} (a : A) (Q : A -> Prop) : Q a -> post (Ok a) Q.
Proof. intros Hq b [= <-]. exact Hq. Qed.
Lemma post_impl {A} (o : outcome A) (P Q : A -> Prop) : post o P -> (forall a, P a -> Q a) -> post o Q.
Proof. intros Hp HI a E. apply HI, Hp, E. Qed.
Lemma post_vset {A} (l : list A) i a : post (vset l i a) (fun l' => length l' = length l).
Proof. intros l' E. apply vset_Ok in E as [_ ->]. apply insert_length. Qed.
Lemma post_for {S} (I : S -> Prop) n (f : nat -> S -> outcome S) : (forall k s, k < n -> I s -> post (f k s) I) ->
  forall s, I s -> post (for_ n f s) I.
Proof.
  intros Hf. unfold for_. assert (G : forall n' i s, i + n' <= n -> I s -> post (for_from i n' f s) I).
  { induction n' as [|n' IH]; intros i s Hi Hs; cbn [for_from]; [apply post_ok, Hs|].
    apply post_bind. eapply post_impl; [apply Hf; [lia|exact Hs]|]. intros s' Hs'. apply IH; [lia|exact Hs']. }
  intros s Hs. apply G; [lia|exact Hs].
Qed.
