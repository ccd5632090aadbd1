(** * IORead: reading back what was printed. *)

From Coq Require Import Reals Lra Ascii String NArith ZArith Lia Floats.SpecFloat.
From Flocq Require Import Core.Core IEEE754.BinarySingleNaN.
From Verif Require Import IOModel IOText IODigits NumF64.
Local Open Scope nat_scope.

(** The value %lf prints for a finite double, in millionths. *)
Definition sign_of (x : f64) : bool := match x with B754_zero s | B754_finite s _ _ _ | B754_infinity s => s | B754_nan => false end.
Definition micros_of (x : f64) : N := match x with B754_finite _ m e _ => micros m e | _ => 0%N end.
Definition trip (x : f64) : f64 := fst (read_f64 (sign_of x) (micros_of x) (-6)).

Lemma show_finite x : is_finite x = true -> show_f64 x = show_micros (sign_of x) (micros_of x).
Proof. destruct x; try discriminate; reflexivity. Qed.

Lemma show_int_part z : (z mod 1000000 < 1000000)%N -> 
  length (replicate (6 - length (digits (z mod 1000000))) (digit 0) ++ digits (z mod 1000000)) = 6.
Proof.
  intros H. rewrite app_length, replicate_length. pose proof (digits_upto_length (S (N.to_nat (N.log2 (z mod 1000000)))) (z mod 1000000) 6 ltac:(lia) H) as X.
  fold (digits (z mod 1000000)) in X. lia.
Qed.

Lemma digit_not_sign d l : is_digit d = true -> take_sign (d :: l) = (false, d :: l).
Proof.
  intros H. cbn [take_sign]. destruct (Ascii.eqb_spec d "-"); [subst; discriminate|]. destruct (Ascii.eqb_spec d "+"); [subst; discriminate|]. reflexivity.
Qed.
Lemma space_not_digit c : is_space c = true -> is_digit c = false.
Proof.
  unfold is_space, is_digit. intros H. apply not_true_is_false. intros D. apply andb_true_iff in D as [A B]. apply N.leb_le in A, B.
  apply orb_true_iff in H as [H|H]; [apply N.eqb_eq in H; lia|]. apply andb_true_iff in H as [_ H]. apply N.leb_le in H. lia.
Qed.
Lemma space_not_e c : is_space c = true -> Ascii.eqb c "e" || Ascii.eqb c "E" = false.
Proof. intros H. apply orb_false_iff. split; apply Ascii.eqb_neq; intros ->; discriminate. Qed.

Lemma take_shown neg z c r : is_space c = true ->
  take_number (T := f64) (show_micros neg z ++ c :: r) = (read_f64 neg z (-6), c :: r).
Proof.
  intros Hc. unfold show_micros. cbv zeta.
  set (ip := digits (z / 1000000)). set (fp := replicate _ _ ++ digits (z mod 1000000)).
  assert (Hm : (z mod 1000000 < 1000000)%N) by (apply N.mod_lt; lia).
  assert (Lf : length fp = 6) by (apply show_int_part, Hm).
  assert (Di : Forall (fun c => is_digit c = true) ip) by apply digits_ok.
  assert (Df : Forall (fun c => is_digit c = true) fp) by (apply Forall_app_2; [apply zeros_digit|apply digits_ok]).
  assert (Nv : number (ip ++ fp) = z).
  { rewrite number_app, Lf. unfold fp. rewrite zeros_number. unfold ip. rewrite !(proj1 (digits_ok _)).
    change (10 ^ N.of_nat 6)%N with 1000000%N. pose proof (N.div_mod z 1000000). lia. }
  assert (S : take_sign (((if neg then str "-" else []) ++ ip ++ str "." ++ fp) ++ c :: r) = (neg, ip ++ str "." ++ fp ++ c :: r)).
  { rewrite <- !app_assoc. destruct neg; [reflexivity|]. cbn [app]. assert (X : ip <> []) by apply digits_ok.
    destruct Di as [|d ip' Hd _]; [congruence|]. apply digit_not_sign, Hd. }
  unfold take_number. rewrite S. rewrite take_digits_ok; [|exact Di|intros ? ? [= <- _]; reflexivity].
  cbn [str list_ascii_of_string app Ascii.eqb Bool.eqb]. rewrite take_digits_ok; [|exact Df|intros ? ? [= <- _]; apply space_not_digit, Hc].
  destruct (ip ++ fp) as [|d l] eqn:E; [exfalso; apply app_nil in E as [E _]; revert E; apply digits_ok|]. cbv zeta. rewrite Nv, Lf.
  rewrite space_not_e by exact Hc. reflexivity.
Qed.

Lemma skip_spaces w l : Forall (fun c => is_space c = true) w -> skip_space (w ++ l) = skip_space l.
Proof. intros H. induction H as [|c w Hc _ IH]; [reflexivity|]. cbn. rewrite Hc. exact IH. Qed.
Lemma shown_head neg z : exists c l, show_micros neg z = c :: l /\ is_space c = false.
Proof.
  unfold show_micros. destruct neg; [exists "-"%char; eexists; split; reflexivity|]. cbn [app].
  destruct (digits_ok (z / 1000000)) as (_ & D & N). destruct D as [|d l Hd _]; [congruence|]. exists d. eexists. split; [reflexivity|].
  apply not_true_is_false. intros H. apply space_not_digit in H. congruence.
Qed.
Lemma shown_no_newline neg z : Forall (fun c => Ascii.eqb c newline = false) (show_micros neg z).
Proof.
  assert (D : forall l, Forall (fun c => is_digit c = true) l -> Forall (fun c => Ascii.eqb c newline = false) l).
  { intros l H. eapply Forall_impl; [exact H|]. intros c Hc. apply Ascii.eqb_neq. intros ->. discriminate. }
  unfold show_micros. apply Forall_app_2; [destruct neg; repeat constructor|]. apply Forall_app_2; [apply D, digits_ok|].
  apply Forall_app_2; [repeat constructor|]. apply Forall_app_2; apply D; [apply zeros_digit|apply digits_ok].
Qed.

(** ** The value. *)
Local Open Scope R_scope.
Definition micro : R := / 1000000.
Definition nearest_double (x : R) : R := round radix2 (SpecFloat.fexp 53 1024) (round_mode mode_NE) x.

Lemma nearest_ok n d : (0 <= n)%Z -> (0 < d)%Z -> (0 <= nearest n d)%Z /\ Rabs (IZR (nearest n d) - IZR n / IZR d) <= / 2.
Proof.
  intros Hn Hd. unfold nearest. cbv zeta. pose proof (Z.div_mod n d ltac:(lia)) as D. pose proof (Z.mod_pos_bound n d Hd) as M. pose proof (Z.div_pos n d Hn Hd) as P.
  set (q := (n / d)%Z) in *. set (r := (n mod d)%Z) in *. apply (f_equal IZR) in D. rewrite plus_IZR, mult_IZR in D. apply IZR_lt in Hd.
  assert (E : IZR n / IZR d = IZR q + IZR r / IZR d) by (rewrite D; field; lra).
  rewrite E. destruct M as [M1 M2]. apply IZR_le in M1. apply IZR_lt in M2.
  assert (A1 : IZR r / IZR d * IZR d = IZR r) by (field; lra). set (t := IZR r / IZR d) in *.
  assert (X : (2 * r <= d)%Z -> Rabs (IZR q - (IZR q + t)) <= / 2).
  { intros L. apply IZR_le in L. rewrite mult_IZR in L. assert (0 <= t) by (apply (Rmult_le_reg_r (IZR d)); lra).
    assert (t <= / 2) by (apply (Rmult_le_reg_r (IZR d)); lra). apply Rabs_le. lra. }
  assert (Y : (d <= 2 * r)%Z -> Rabs (IZR (q + 1) - (IZR q + t)) <= / 2).
  { intros L. apply IZR_le in L. rewrite mult_IZR in L. rewrite plus_IZR. assert (t <= 1) by (apply (Rmult_le_reg_r (IZR d)); lra).
    assert (/ 2 <= t) by (apply (Rmult_le_reg_r (IZR d)); lra). apply Rabs_le. lra. }
  destruct (Z.ltb_spec (2 * r) d); [split; [exact P|apply X; lia]|]. destruct (Z.ltb_spec d (2 * r)); [split; [lia|apply Y; lia]|].
  destruct (Z.even q); [split; [exact P|apply X; lia]|split; [lia|apply Y; lia]].
Qed.

(** The printed value, with its sign. *)
Definition printed (x : f64) : R := (if sign_of x then -1 else 1) * (IZR (Z.of_N (micros_of x)) * micro).

Lemma micros_close m e : Rabs (IZR (Z.of_N (micros m e)) * micro - F2R (Float radix2 (Zpos m) e)) <= / 2 * micro.
Proof.
  unfold micros. destruct (Z.leb_spec 0 e) as [L|L].
  - assert (0 < 2 ^ e)%Z by (apply Z.pow_pos_nonneg; lia). rewrite Z2N.id by nia. rewrite !mult_IZR. unfold F2R. cbn [Fnum Fexp].
    assert (E : IZR (2 ^ e) = bpow radix2 e) by (change (2 ^ e)%Z with (radix2 ^ e)%Z; apply IZR_Zpower, L). rewrite E. unfold micro.
    match goal with |- Rabs ?t <= _ => replace t with 0 by field end. rewrite Rabs_R0. lra.
  - assert (P : (0 < 2 ^ (- e))%Z) by (apply Z.pow_pos_nonneg; lia). destruct (nearest_ok (Zpos m * 1000000) (2 ^ (- e)) ltac:(lia) P) as [A B].
    rewrite Z2N.id by exact A. unfold F2R. cbn [Fnum Fexp].
    assert (E : bpow radix2 e = / IZR (2 ^ (- e))).
    { change (2 ^ - e)%Z with (radix2 ^ - e)%Z. rewrite IZR_Zpower by lia. rewrite <- bpow_opp. f_equal. lia. }
    rewrite E. rewrite mult_IZR in B. unfold micro. set (k := IZR (nearest _ _)) in *.
    apply IZR_lt in P. replace (k * / 1000000 - IZR (Zpos m) * / IZR (2 ^ (- e))) with ((k - IZR (Zpos m) * 1000000 / IZR (2 ^ (- e))) * / 1000000) by (field; lra).
    rewrite Rabs_mult, (Rabs_right (/ 1000000)) by lra. lra.
Qed.
Lemma printed_close x : is_finite x = true -> Rabs (printed x - B2R x) <= / 2 * micro.
Proof.
  intros Hf. destruct x as [s|s| |s m e B]; try discriminate.
  - unfold printed. cbn [sign_of micros_of Z.of_N B2R]. rewrite Rmult_0_l, Rmult_0_r, Rminus_0_r, Rabs_R0. unfold micro. lra.
  - unfold printed. cbn [sign_of micros_of B2R]. pose proof (micros_close m e) as X. destruct s; cbn [cond_Zopp].
    + unfold F2R in *. cbn [Fnum Fexp] in *. change (Z.neg m) with (- Z.pos m)%Z. rewrite opp_IZR.
      match goal with |- Rabs ?t <= _ => replace t with (- (IZR (Z.of_N (micros m e)) * micro - IZR (Z.pos m) * bpow radix2 e)) by ring end.
      rewrite Rabs_Ropp. exact X.
    + rewrite Rmult_1_l. exact X.
Qed.

Lemma quotient_ok neg p q : Rabs (nearest_double (IZR (Zpos p) / IZR (Zpos q))) < bpow radix2 1024 ->
  B2R (quotient neg p q) = (if neg then -1 else 1) * nearest_double (IZR (Zpos p) / IZR (Zpos q)) /\ is_finite (quotient neg p q) = true.
Proof.
  intros H. unfold quotient. rewrite B2R_SF2B, is_finite_SF2B.
  pose proof (proj2 (Bdiv_correct_aux 53 1024 f64_prec_gt_0 f64_prec_lt_emax mode_NE neg p 0 false q 0)) as C.
  assert (E : F2R (Float radix2 (cond_Zopp neg (Zpos p)) 0) / F2R (Float radix2 (cond_Zopp false (Zpos q)) 0) = (if neg then -1 else 1) * (IZR (Zpos p) / IZR (Zpos q))).
  { unfold F2R. cbn [Fnum Fexp cond_Zopp bpow]. destruct neg; cbn [cond_Zopp]; [change (Z.neg p) with (- Z.pos p)%Z; rewrite opp_IZR|]; field; apply IZR_neq; discriminate. }
  rewrite E in C.
  assert (Q : round radix2 (SpecFloat.fexp 53 1024) (round_mode mode_NE) ((if neg then -1 else 1) * (IZR (Zpos p) / IZR (Zpos q))) =
    (if neg then -1 else 1) * nearest_double (IZR (Zpos p) / IZR (Zpos q))).
  { destruct neg; [|rewrite !Rmult_1_l; reflexivity]. replace (-1 * (IZR (Zpos p) / IZR (Zpos q))) with (- (IZR (Zpos p) / IZR (Zpos q))) by ring.
    replace (-1 * nearest_double (IZR (Zpos p) / IZR (Zpos q))) with (- nearest_double (IZR (Zpos p) / IZR (Zpos q))) by ring.
    unfold nearest_double. cbn [round_mode]. rewrite round_NE_opp. reflexivity. }
  rewrite Q in C. rewrite Rlt_bool_true in C.
  - destruct C as (C1 & C2 & _). split; [exact C1|exact C2].
  - rewrite Rabs_mult. destruct neg; [rewrite Rabs_left by lra|rewrite Rabs_right by lra]; lra.
Qed.

Lemma nearest_small t k : 0 <= t <= bpow radix2 k -> (-1022 <= k < 1024)%Z -> Rabs (nearest_double t) < bpow radix2 1024.
Proof.
  intros [L1 L2] Hk. unfold nearest_double. pose proof (fexp_correct 53 1024 f64_prec_gt_0) as V.
  assert (G : generic_format radix2 (SpecFloat.fexp 53 1024) (bpow radix2 k)).
  { apply generic_format_bpow. unfold SpecFloat.fexp, SpecFloat.emin. lia. }
  assert (0 <= round radix2 (SpecFloat.fexp 53 1024) (round_mode mode_NE) t) by (apply round_ge_generic; [typeclasses eauto|typeclasses eauto|apply generic_format_0|exact L1]).
  assert (round radix2 (SpecFloat.fexp 53 1024) (round_mode mode_NE) t <= bpow radix2 k) by (apply round_le_generic; [typeclasses eauto|typeclasses eauto|exact G|exact L2]).
  rewrite Rabs_right by lra. eapply Rle_lt_trans; [eassumption|]. apply bpow_lt. lia.
Qed.

Lemma shown_in_range (s : bool) m e (B : bounded 53 1024 m e = true) :
  Rabs (nearest_double (IZR (Z.of_N (micros m e)) * micro)) < bpow radix2 1024.
Proof.
  pose proof (fexp_correct 53 1024 f64_prec_gt_0) as V.
  set (x := B754_finite s m e B : f64).
  assert (Ax : Rabs (B2R x) = F2R (Float radix2 (Zpos m) e)).
  { cbn [x B2R]. rewrite <- F2R_Zabs. destruct s; reflexivity. }
  destruct (Z.le_gt_cases 0 e) as [L|L].
  - replace (IZR (Z.of_N (micros m e)) * micro) with (Rabs (B2R x)).
    + unfold nearest_double. rewrite round_generic; [|typeclasses eauto|apply generic_format_abs, generic_format_B2R].
      rewrite Rabs_Rabsolu. apply abs_B2R_lt_emax.
    + rewrite Ax. unfold micros. rewrite (proj2 (Z.leb_le 0 e) L). assert (0 < 2 ^ e)%Z by (apply Z.pow_pos_nonneg; lia).
      rewrite Z2N.id by (apply Z.mul_nonneg_nonneg; [apply Z.mul_nonneg_nonneg|]; lia). rewrite !mult_IZR. unfold F2R. cbn [Fnum Fexp].
      assert (E : IZR (2 ^ e) = bpow radix2 e) by (change (2 ^ e)%Z with (radix2 ^ e)%Z; apply IZR_Zpower, L). rewrite E. unfold micro. field.
  - apply nearest_small with (k := 54%Z); [|lia]. split; [apply Rmult_le_pos; [apply IZR_le; lia|unfold micro; lra]|].
    assert (M : F2R (Float radix2 (Zpos m) e) < bpow radix2 53).
    { pose proof B as B1. unfold bounded in B1. apply andb_prop in B1. destruct B1 as [B1 _]. pose proof (canonical_canonical_mantissa 53 1024 s m e B1) as C. unfold canonical, cexp in C. cbn [Fexp] in C.
      assert (Hx : Rabs (F2R (Float radix2 (cond_Zopp s (Zpos m)) e)) = F2R (Float radix2 (Zpos m) e)) by (rewrite <- F2R_Zabs; destruct s; reflexivity).
      rewrite <- Hx. eapply Rlt_le_trans; [apply bpow_mag_gt|]. apply bpow_le. revert C. unfold SpecFloat.fexp. generalize (mag_val radix2 _ (mag radix2 (F2R (Float radix2 (cond_Zopp s (Zpos m)) e)))). lia. }
    pose proof (micros_close m e) as X. apply Rabs_le_inv in X. change (bpow radix2 53) with 9007199254740992 in M. change (bpow radix2 54) with 18014398509481984. unfold micro in *. lra.
Qed.

Lemma read_back x : is_finite x = true -> read_f64 (sign_of x) (micros_of x) (-6) = (trip x, true) /\ is_finite (trip x) = true /\
  B2R (trip x) = nearest_double (printed x).
Proof.
  intros Hf. unfold trip, printed. destruct (micros_of x) as [|p] eqn:E.
  - cbn. split; [reflexivity|]. split; [reflexivity|]. rewrite Rmult_0_l, Rmult_0_r. unfold nearest_double. rewrite round_0; [reflexivity|typeclasses eauto].
  - destruct x as [s|s| |s m e B]; try discriminate. cbn [micros_of sign_of] in *. pose proof (shown_in_range s m e B) as R. rewrite E in R. cbn [Z.of_N] in *.
    assert (D : IZR (Zpos p) * micro = IZR (Zpos p) / IZR (Zpos 1000000)) by reflexivity. rewrite D in *.
    destruct (quotient_ok s p 1000000 R) as [Q1 Q2]. unfold read_f64. change (0 <=? -6)%Z with false. change (Z.to_pos (10 ^ - -6)) with 1000000%positive. cbv iota zeta. rewrite Q2.
    cbn [fst]. split; [reflexivity|]. split; [exact Q2|]. rewrite Q1. destruct s; [|rewrite !Rmult_1_l; reflexivity].
    unfold nearest_double. cbn [round_mode]. replace (-1 * (IZR (Z.pos p) / 1000000)) with (- (IZR (Z.pos p) / 1000000)) by ring. rewrite round_NE_opp. ring.
Qed.

(** ** Printing what was read. *)
Lemma sign_SF2B z (V : SpecFloat.valid_binary 53 1024 z = true) : is_finite_SF z = true -> sign_of (SF2B z V) = sign_SF z.
Proof. destruct z; intros F; try discriminate F; reflexivity. Qed.
Lemma quotient_sign neg p q : Rabs (nearest_double (IZR (Zpos p) / IZR (Zpos q))) < bpow radix2 1024 -> sign_of (quotient neg p q) = neg.
Proof.
  intros H. pose proof (quotient_ok neg p q H) as [_ F]. revert F. unfold quotient.
  pose proof (proj2 (Bdiv_correct_aux 53 1024 f64_prec_gt_0 f64_prec_lt_emax mode_NE neg p 0 false q 0)) as C.
  rewrite is_finite_SF2B. intros F. set (z := let '(mz, ez, lz) := _ in _) in *. cbv zeta in C.
  assert (E : F2R (Float radix2 (cond_Zopp neg (Zpos p)) 0) / F2R (Float radix2 (cond_Zopp false (Zpos q)) 0) = (if neg then -1 else 1) * (IZR (Zpos p) / IZR (Zpos q))).
  { unfold F2R. cbn [Fnum Fexp cond_Zopp bpow]. destruct neg; cbn [cond_Zopp]; [change (Z.neg p) with (- Z.pos p)%Z; rewrite opp_IZR|]; field; apply IZR_neq; discriminate. }
  rewrite E in C.
  assert (Q : Rabs (round radix2 (SpecFloat.fexp 53 1024) (round_mode mode_NE) ((if neg then -1 else 1) * (IZR (Zpos p) / IZR (Zpos q)))) =
    Rabs (nearest_double (IZR (Zpos p) / IZR (Zpos q)))).
  { destruct neg; [|rewrite Rmult_1_l; reflexivity]. replace (-1 * (IZR (Zpos p) / IZR (Zpos q))) with (- (IZR (Zpos p) / IZR (Zpos q))) by ring.
    unfold nearest_double. cbn [round_mode]. rewrite round_NE_opp. apply Rabs_Ropp. }
  rewrite Rlt_bool_true in C by (rewrite Q; exact H). destruct C as (_ & _ & S). rewrite xorb_false_r in S.
  rewrite sign_SF2B by exact F. exact S.
Qed.

Lemma half_ulp t : Rabs t < bpow radix2 33 -> Rabs (nearest_double t - t) < / 2 * micro.
Proof.
  intros L. pose proof (fexp_correct 53 1024 f64_prec_gt_0) as V. eapply Rle_lt_trans; [apply error_le_half_ulp; typeclasses eauto|].
  assert (U : ulp radix2 (SpecFloat.fexp 53 1024) t <= bpow radix2 (-20)).
  { destruct (Req_dec t 0) as [->|N].
    - rewrite (ulp_FLT_0 radix2 (-1074) 53 : ulp radix2 (SpecFloat.fexp 53 1024) 0 = _). apply bpow_le. lia.
    - rewrite ulp_neq_0 by exact N. apply bpow_le. unfold cexp. pose proof (mag_le_bpow radix2 t 33 N L) as M. unfold SpecFloat.fexp, SpecFloat.emin. lia. }
  change (bpow radix2 (-20)) with (/ 1048576) in U. unfold micro. lra.
Qed.

Theorem trip_stable x : is_finite x = true -> Rabs (B2R x) < bpow radix2 32 -> show_f64 (trip x) = show_f64 x /\ trip (trip x) = trip x.
Proof.
  intros Hf L. destruct (read_back x Hf) as (_ & F & E). pose proof (printed_close x Hf) as P.
  assert (Lp : Rabs (printed x) < bpow radix2 33).
  { change (bpow radix2 32) with 4294967296 in L. change (bpow radix2 33) with 8589934592. unfold micro in P. apply Rabs_def2 in L. apply Rabs_le_inv in P. apply Rabs_def1; lra. }
  pose proof (half_ulp (printed x) Lp) as U. rewrite <- E in U. pose proof (printed_close (trip x) F) as P2.
  assert (S : sign_of (trip x) = sign_of x).
  { unfold trip. destruct (micros_of x) as [|p] eqn:M; [reflexivity|]. destruct x as [s|s| |s m e B]; try discriminate. cbn [micros_of sign_of] in *.
    pose proof (shown_in_range s m e B) as R. rewrite M in R. unfold read_f64. change (0 <=? -6)%Z with false. change (Z.to_pos (10 ^ - -6)) with 1000000%positive. cbv iota zeta.
    destruct (quotient_ok s p 1000000 R) as [_ Q]. rewrite Q. apply (quotient_sign s p 1000000 R). }
  assert (M : micros_of (trip x) = micros_of x).
  { apply N2Z.inj. apply Z.le_antisymm; apply Z.lt_succ_r; apply lt_IZR; rewrite succ_IZR.
    all: unfold printed in *; rewrite S in P2; set (sg := if sign_of x then -1 else 1) in *.
    all: assert (Hs : sg = -1 \/ sg = 1) by (unfold sg; destruct (sign_of x); auto).
    all: set (y := B2R (trip x)) in *; set (a := IZR (Z.of_N (micros_of (trip x)))) in *; set (b := IZR (Z.of_N (micros_of x))) in *.
    all: apply Rabs_le_inv in P2; apply Rabs_def2 in U; unfold micro in *; destruct Hs as [Hs|Hs]; rewrite Hs in *; lra. }
  split.
  - rewrite !show_finite by assumption. rewrite S, M. reflexivity.
  - unfold trip at 1. rewrite S, M. reflexivity.
Qed.
