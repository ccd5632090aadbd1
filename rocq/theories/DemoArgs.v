(** * DemoArgs: the command line of bimodal_brolly. *)

From Coq Require Import Ascii String NArith ZArith Lia.
From Verif Require Import IOModel IOFiles DemoModel DemoSetup DemoSetupSpec.
Local Open Scope nat_scope.

Section Parse.
  Context {T : Type} {NT : Num T} (atof : bytes -> T) (atoi : bytes -> Z).

  Lemma is_option_spec w a b : is_option w a b = true <-> w = str a \/ w = str b.
  Proof. unfold is_option. rewrite orb_true_iff, !bytes_eqb_spec. reflexivity. Qed.
  Lemma option_case w a b : (w = str a \/ w = str b) /\ is_option w a b = true \/ ~ (w = str a \/ w = str b) /\ is_option w a b = false.
  Proof. destruct (is_option w a b) eqn:E; [left; split; [apply is_option_spec, E|reflexivity]|right; split; [|reflexivity]]. intros X. apply is_option_spec in X. congruence. Qed.

  (** One option. *)
  Lemma parse_one o w rest a : named o w -> short_enough o ->
    parse atof atoi (w :: operand o ++ rest) a = parse atof atoi rest (given atof atoi [o] a).
  Proof.
    intros Hn Hs. destruct a as [t g c s ui si n r b]. destruct o; cbn [short_enough operand app] in *;
      try (destruct Hn as [-> | ->]; reflexivity).
    apply Nat.ltb_lt in Hs. destruct Hn as [-> | ->]; cbn -[Nat.ltb]; rewrite Hs; reflexivity.
  Qed.
  Lemma given_cons o os a : given atof atoi (o :: os) a = given atof atoi os (given atof atoi [o] a).
  Proof. destruct a. reflexivity. Qed.
  Theorem options_set os ws rest : spelled os ws -> forall a, Forall short_enough os -> parse atof atoi (ws ++ rest) a = parse atof atoi rest (given atof atoi os a).
  Proof.
    intros S. induction S as [|o w os ws Hn S IH]; intros a Hf; [destruct a; reflexivity|].
    apply Forall_cons_1 in Hf as [Ho Hf]. cbn [app]. rewrite <- app_assoc, parse_one by assumption. rewrite IH by exact Hf. rewrite (given_cons o os). reflexivity.
  Qed.
  Theorem command_line os ws a : spelled os ws -> Forall short_enough os -> parse atof atoi ws a = Ok (given atof atoi os a).
  Proof.
    intros S F. rewrite <- (app_nil_r ws), (options_set os ws [] S a F). destruct (given atof atoi os a). reflexivity.
  Qed.

  (** What the first word is. *)
  Lemma first_word w : (exists o, named o w /\ operand o = []) \/ (exists mk, (forall v, named (mk v) w /\ operand (mk v) = [v])) \/ (forall o, ~ named o w).
  Proof.
    destruct (option_case w "-b" "--boundary-sample") as [[H _]|[N0 _]]; [left; exists BoundarySample; split; [exact H|reflexivity]|right].
    destruct (option_case w "-t" "--temperature") as [[H _]|[N1 _]]; [left; exists Temperature; intros v; split; [exact H|reflexivity]|].
    destruct (option_case w "-g" "--gravity") as [[H _]|[N2 _]]; [left; exists GravityMult; intros v; split; [exact H|reflexivity]|].
    destruct (option_case w "-c" "--centre") as [[H _]|[N3 _]]; [left; exists Centre; intros v; split; [exact H|reflexivity]|].
    destruct (option_case w "-s" "--spring") as [[H _]|[N4 _]]; [left; exists Spring; intros v; split; [exact H|reflexivity]|].
    destruct (option_case w "-ui" "--unmbrella-interval") as [[H _]|[N5 _]]; [left; exists Interval; intros v; split; [exact H|reflexivity]|].
    destruct (option_case w "-si" "--sample-interval") as [[H _]|[N6 _]]; [left; exists SampleInterval; intros v; split; [exact H|reflexivity]|].
    destruct (option_case w "-n" "--number-samples") as [[H _]|[N7 _]]; [left; exists Samples; intros v; split; [exact H|reflexivity]|].
    destruct (option_case w "-r" "--restart") as [[H _]|[N8 _]]; [left; exists Restart; intros v; split; [exact H|reflexivity]|].
    right. intros o H. destruct o; contradiction.
  Qed.
  Lemma parse_unknown w rest a : (forall o, ~ named o w) -> parse atof atoi (w :: rest) a = Exit.
  Proof.
    intros H. destruct a as [t g c s ui si n r b]. cbn [parse].
    assert (X : forall o, is_option w (short_name o) (long_name o) = false) by (intros o; apply not_true_is_false; rewrite is_option_spec; exact (H o)).
    assert (V := X (Temperature [])). cbn [short_name long_name] in V. rewrite V.
    assert (V1 := X (GravityMult [])). cbn [short_name long_name] in V1. rewrite V1.
    assert (V2 := X (Centre [])). cbn [short_name long_name] in V2. rewrite V2.
    assert (V3 := X (Spring [])). cbn [short_name long_name] in V3. rewrite V3.
    assert (V4 := X (Interval [])). cbn [short_name long_name] in V4. rewrite V4.
    assert (V5 := X (SampleInterval [])). cbn [short_name long_name] in V5. rewrite V5.
    assert (V6 := X (Samples [])). cbn [short_name long_name] in V6. rewrite V6.
    assert (V7 := X (Restart [])). cbn [short_name long_name] in V7. rewrite V7.
    assert (V8 := X BoundarySample). cbn [short_name long_name] in V8. rewrite V8.
    destruct (is_option w "-h" "--help"); reflexivity.
  Qed.
  Lemma parse_missing o w a : named o w -> operand o <> [] -> parse atof atoi [w] a = UB.
  Proof. intros Hn Ho. destruct a. destruct o; cbn in Ho; try congruence; destruct Hn as [-> | ->]; reflexivity. Qed.
  Lemma parse_long v w rest a : named (Restart v) w -> 100 <= length v -> parse atof atoi (w :: v :: rest) a = UB.
  Proof. intros Hn Hl. destruct a. apply Nat.ltb_ge in Hl. destruct Hn as [-> | ->]; cbn -[Nat.ltb]; rewrite Hl; reflexivity. Qed.

  Theorem every_command_line a0 : forall ws, exists os pre tail, ws = pre ++ tail /\ spelled os pre /\ Forall short_enough os /\
    (tail = [] /\ parse atof atoi ws a0 = Ok (given atof atoi os a0) \/
     (exists w r, tail = w :: r /\ forall o, ~ named o w) /\ parse atof atoi ws a0 = Exit \/
     (exists o w, tail = [w] /\ named o w /\ operand o <> []) /\ parse atof atoi ws a0 = UB \/
     (exists v w r, tail = w :: v :: r /\ named (Restart v) w /\ 100 <= length v) /\ parse atof atoi ws a0 = UB).
  Proof.
    assert (G : forall n ws, length ws <= n -> exists os pre tail, ws = pre ++ tail /\ spelled os pre /\ Forall short_enough os /\
      (tail = [] \/ (exists w r, tail = w :: r /\ forall o, ~ named o w) \/ (exists o w, tail = [w] /\ named o w /\ operand o <> []) \/
       (exists v w r, tail = w :: v :: r /\ named (Restart v) w /\ 100 <= length v))).
    { induction n as [|n IH]; intros ws Hl.
      - destruct ws; [|cbn in Hl; lia]. exists [], [], []. split; [reflexivity|]. split; [constructor|]. split; [constructor|left; reflexivity].
      - destruct ws as [|w ws]; [exists [], [], []; split; [reflexivity|]; split; [constructor|]; split; [constructor|left; reflexivity]|]. cbn in Hl.
        destruct (first_word w) as [(o & Hn & Ho)|[(mk & Hm)|Hu]].
        + destruct (IH ws ltac:(lia)) as (os & pre & tail & -> & S & F & C). exists (o :: os), (w :: operand o ++ pre), tail. rewrite Ho. split; [reflexivity|].
          split; [rewrite <- Ho at 1; replace (w :: operand o ++ pre) with (w :: operand o ++ pre) by reflexivity; constructor; assumption|].
          split; [constructor; [destruct o; try exact I; discriminate|exact F]|exact C].
        + destruct ws as [|v ws]; [exists [], [], [w]; split; [reflexivity|]; split; [constructor|]; split; [constructor|]; right; right; left; exists (mk []), w; destruct (Hm []) as [H1 H2]; rewrite H2; split; [reflexivity|]; split; [exact H1|discriminate]|].
          destruct (Hm v) as [Hn Ho]. cbn in Hl.
          assert (D : short_enough (mk v) \/ mk v = Restart v /\ 100 <= length v).
          { destruct (mk v) as [| | | | | | |u|] eqn:E; try (left; exact I). cbn in Ho. injection Ho as ->. cbn [short_enough]. destruct (Nat.lt_ge_cases (length v) 100); [left; assumption|right; auto]. }
          destruct D as [D|[E D]].
          * destruct (IH ws ltac:(lia)) as (os & pre & tail & -> & S & F & C). exists (mk v :: os), (w :: operand (mk v) ++ pre), tail.
            split; [rewrite Ho; reflexivity|]. split; [constructor; assumption|]. split; [constructor; assumption|exact C].
          * exists [], [], (w :: v :: ws). split; [reflexivity|]. split; [constructor|]. split; [constructor|]. right; right; right. exists v, w, ws. rewrite E in Hn. auto.
        + exists [], [], (w :: ws). split; [reflexivity|]. split; [constructor|]. split; [constructor|]. right; left. eauto. }
    intros ws. destruct (G (length ws) ws (le_n _)) as (os & pre & tail & -> & S & F & C). exists os, pre, tail. split; [reflexivity|]. split; [exact S|]. split; [exact F|].
    rewrite (options_set os pre tail S a0 F). destruct C as [-> |[C|[C|C]]].
    - left. split; [reflexivity|]. destruct (given atof atoi os a0). reflexivity.
    - right; left. split; [exact C|]. destruct C as (w & r & -> & Hu). apply parse_unknown, Hu.
    - right; right; left. split; [exact C|]. destruct C as (o & w & -> & Hn & Ho). exact (parse_missing o w _ Hn Ho).
    - right; right; right. split; [exact C|]. destruct C as (v & w & r & -> & Hn & Hl). exact (parse_long v w r _ Hn Hl).
  Qed.
End Parse.
