(** * NumInt: arithmetics that are exact on the integers an [unsigned int] can hold.

    Binary64 and the reals are instances. *)

From Coq Require Import Reals Lra Floats.SpecFloat.
From Flocq Require Import Core.Core IEEE754.BinarySingleNaN.
From Verif Require Import Num NumR NumF64.

Class NumInt (T : Type) `{Num T} := {
  nfloor_nofnat : forall n, (Z.of_nat n < 2 ^ 32)%Z -> nfloorZ (nofnat n) = Some (Z.of_nat n);
  nsub_nofnat : forall a b, (b <= a)%nat -> (Z.of_nat a < 2 ^ 32)%Z -> (nofnat a - nofnat b)%num = nofnat (a - b);
  nlt_nofnat : forall a b, (Z.of_nat a < 2 ^ 32)%Z -> (Z.of_nat b < 2 ^ 32)%Z ->
    (nofnat a <? nofnat b)%num = (a <? b)%nat;
  nfifth : forall n, (Z.of_nat n < 2 ^ 32)%Z -> exists z, trunc_i32 (nlit 2 10 * nofnat n)%num = Ok z;
}.

Lemma Zfloor_IZR_n z : Zfloor (IZR z) = z.
Proof. apply Zfloor_IZR. Qed.

#[export] Instance NumIntR : NumInt R.
Proof.
  constructor.
  - intros n _. unfold nofnat. cbn. rewrite Zfloor_IZR_n. reflexivity.
  - intros a b Hb _. rewrite !nofnat_R. cbn. rewrite minus_INR by exact Hb. reflexivity.
  - intros a b _ _. rewrite !nofnat_R. cbn [nltb NumR]. destruct (Rltb_spec (INR a) (INR b)) as [L|L], (Nat.ltb_spec a b) as [L'|L']; try reflexivity; exfalso.
    + apply INR_lt in L. lia.
    + apply lt_INR in L'. lra.
  - intros n Hn. unfold trunc_i32. rewrite nofnat_R, nlit_R. unfold n0. cbn [nltb nmul nofZ NumR nfloorZ].
    pose proof (pos_INR n). rewrite INR_IZR_INZ in *.
    destruct (Rltb_spec (2 / 10 * IZR (Z.of_nat n)) 0) as [L|L]; [lra|].
    set (x := (2 / 10 * IZR (Z.of_nat n))%R) in *.
    assert (Hx : (0 <= x < 1000000000)%R).
    { split; [lra|]. apply IZR_lt in Hn. change (2 ^ 32)%Z with 4294967296%Z in Hn. unfold x. lra. }
    assert (0 <= Zfloor x)%Z by (apply Zfloor_lub; apply Hx).
    assert (Zfloor x < 1000000000)%Z.
    { apply lt_IZR. eapply Rle_lt_trans; [apply Zfloor_lb|apply Hx]. }
    destruct ((- 2 ^ 31 <=? Zfloor x) && (Zfloor x <? 2 ^ 31))%Z eqn:E; [eauto|].
    exfalso. lia.
Qed.

(** ** Binary64 *)

Lemma f64_int_format z : (Z.abs z <= 2 ^ 53)%Z -> generic_format radix2 (SpecFloat.fexp 53 1024) (IZR z).
Proof.
  intros Hz.
  assert (F : generic_format radix2 (FLT_exp (3 - 1024 - 53) 53) (IZR z)).
  { destruct (Z.eq_dec (Z.abs z) (2 ^ 53)) as [E|Hne].
    - destruct (Z.abs_spec z) as [[? Ez]|[? Ez]]; rewrite Ez in E.
      + rewrite E. change (2 ^ 53)%Z with (radix2 ^ 53)%Z. rewrite IZR_Zpower by lia.
        apply generic_format_bpow. unfold FLT_exp. cbn. lia.
      + replace z with (- (2 ^ 53))%Z by lia. rewrite opp_IZR. apply generic_format_opp.
        change (2 ^ 53)%Z with (radix2 ^ 53)%Z. rewrite IZR_Zpower by lia.
        apply generic_format_bpow. unfold FLT_exp. cbn. lia.
    - apply generic_format_FLT. exists (Float radix2 z 0).
      + unfold F2R. cbn. lra.
      + cbn [Fnum]. change (radix2 ^ 53)%Z with (2 ^ 53)%Z. lia.
      + cbn [Fexp]. lia. }
  exact F.
Qed.

Lemma f64_ofZ_correct z : (Z.abs z <= 2 ^ 53)%Z ->
  B2R (f64_ofZ z) = IZR z /\ is_finite (f64_ofZ z) = true /\ Bsign (f64_ofZ z) = (z <? 0)%Z.
Proof.
  intros Hz. unfold f64_ofZ.
  pose proof (binary_normalize_correct 53 1024 eq_refl eq_refl mode_NE z 0 false) as C.
  cbv zeta in C. replace (F2R (Float radix2 z 0)) with (IZR z) in C by (unfold F2R; cbn; lra).
  rewrite round_generic in C; [|apply valid_rnd_round_mode|apply f64_int_format; exact Hz].
  rewrite Rlt_bool_true in C.
  2:{ rewrite <- abs_IZR. apply IZR_le in Hz. eapply Rle_lt_trans; [exact Hz|].
      change (2 ^ 53)%Z with (radix2 ^ 53)%Z. rewrite IZR_Zpower by lia. apply bpow_lt. reflexivity. }
  destruct C as (C1 & C2 & C3).
  split; [exact C1|]. split; [exact C2|]. refine (eq_trans C3 _).
  destruct (Rcompare_spec (IZR z) 0) as [L|L|L].
  - apply lt_IZR in L. destruct (Z.ltb_spec z 0); [reflexivity|lia].
  - apply eq_IZR in L. subst. reflexivity.
  - apply lt_IZR in L. destruct (Z.ltb_spec z 0); [lia|reflexivity].
Qed.

Lemma f64_floorZ_correct (x : f64) : is_finite x = true -> f64_floorZ x = Some (Zfloor (B2R x)).
Proof.
  destruct x as [s| | |s m e Hb]; try discriminate; intros _.
  - cbn. rewrite Zfloor_IZR_n. reflexivity.
  - unfold f64_floorZ, B2R. f_equal. unfold F2R. cbn [Fnum Fexp].
    replace (cond_Zopp s (Zpos m)) with (if s then Zneg m else Zpos m) by (destruct s; reflexivity).
    set (n := if s then Zneg m else Zpos m). clearbody n.
    destruct (Z.leb_spec 0 e) as [L|L].
    + rewrite <- IZR_Zpower by exact L. rewrite <- mult_IZR, Zfloor_IZR_n. reflexivity.
    + replace (bpow radix2 e) with (/ IZR (2 ^ (- e)))%R.
      2:{ change 2%Z with (radix_val radix2). rewrite (IZR_Zpower radix2 (- e)) by lia. rewrite bpow_opp.
          rewrite Rinv_inv. reflexivity. }
      change (IZR n * / IZR (2 ^ (- e)))%R with (IZR n / IZR (2 ^ (- e)))%R.
      rewrite Zfloor_div; [reflexivity|]. pose proof (Z.pow_pos_nonneg 2 (- e)). lia.
Qed.

Lemma f64_finite_ordered (x : f64) : is_finite x = true -> f64_ordered x.
Proof. destruct x; try discriminate; reflexivity. Qed.
Lemma f64_key_finite (x : f64) : is_finite x = true -> f64_key x = B2R x.
Proof. destruct x; try discriminate; reflexivity. Qed.

#[export] Instance NumIntF64 : NumInt f64.
Proof.
  constructor.
  - intros n Hn. unfold nofnat. cbn [nofZ nfloorZ NumF64].
    destruct (f64_ofZ_correct (Z.of_nat n)) as (E & F & _); [lia|].
    rewrite f64_floorZ_correct by exact F. rewrite E, Zfloor_IZR_n. reflexivity.
  - intros a b Hb Ha. unfold nofnat. cbn [nofZ nsub NumF64].
    destruct (f64_ofZ_correct (Z.of_nat a)) as (Ea & Fa & Sa); [lia|].
    destruct (f64_ofZ_correct (Z.of_nat b)) as (Eb & Fb & Sb); [lia|].
    destruct (f64_ofZ_correct (Z.of_nat (a - b))) as (Ec & Fc & Sc); [lia|].
    pose proof (Bminus_correct 53 1024 _ _ mode_NE (f64_ofZ (Z.of_nat a)) (f64_ofZ (Z.of_nat b)) Fa Fb) as C.
    rewrite Ea, Eb, <- minus_IZR in C.
    rewrite <- (Nat2Z.inj_sub a b Hb) in C.
    rewrite round_generic in C; [|apply valid_rnd_round_mode|apply f64_int_format; lia].
    rewrite Rlt_bool_true in C.
    2:{ rewrite <- abs_IZR. assert (Hz : (Z.abs (Z.of_nat (a - b)) <= 2 ^ 53)%Z) by lia.
        apply IZR_le in Hz. eapply Rle_lt_trans; [exact Hz|].
        change (2 ^ 53)%Z with (radix2 ^ 53)%Z. rewrite IZR_Zpower by lia. apply bpow_lt. reflexivity. }
    destruct C as (C1 & C2 & C3).
    apply B2R_Bsign_inj; [exact C2|exact Fc|rewrite C1, Ec; reflexivity|].
    rewrite Sc. refine (eq_trans C3 _). rewrite Sa, Sb.
    destruct (Z.ltb_spec (Z.of_nat a) 0); [lia|]. destruct (Z.ltb_spec (Z.of_nat b) 0); [lia|].
    destruct (Z.ltb_spec (Z.of_nat (a - b)) 0); [lia|].
    destruct (Rcompare_spec (IZR (Z.of_nat (a - b))) 0) as [L|L|L]; try reflexivity. apply lt_IZR in L. lia.
  - intros a b Ha Hb. unfold nofnat. cbn [nofZ nltb NumF64].
    destruct (f64_ofZ_correct (Z.of_nat a)) as (Ea & Fa & _); [lia|].
    destruct (f64_ofZ_correct (Z.of_nat b)) as (Eb & Fb & _); [lia|].
    rewrite Bltb_correct by assumption. rewrite Ea, Eb.
    destruct (Rlt_bool_spec (IZR (Z.of_nat a)) (IZR (Z.of_nat b))) as [L|L], (Nat.ltb_spec a b); try reflexivity; exfalso.
    + apply lt_IZR in L. lia.
    + apply le_IZR in L. lia.
  - intros n Hn. unfold trunc_i32.
    destruct (f64_ofZ_correct (Z.of_nat n)) as (En & Fn & Sn); [lia|].
    assert (Hfifth : is_finite (nlit (T := f64) 2 10) = true /\ Bleb (nlit 0 1) (nlit (T := f64) 2 10) = true
                     /\ Bleb (nlit (T := f64) 2 10) (nlit 1 4) = true) by (vm_compute; auto).
    destruct Hfifth as (F5 & L5 & U5).
    rewrite Bleb_correct in L5, U5 by (try exact F5; vm_compute; reflexivity).
    set (x := (nlit 2 10 * nofnat n)%num). set (fifth := nlit (T := f64) 2 10) in *.
    assert (Ex : x = Bmult mode_NE fifth (f64_ofZ (Z.of_nat n))) by reflexivity. clearbody x.
    assert (L5' : (0 <= B2R fifth)%R).
    { destruct (Rle_bool_spec (B2R (nlit 0 1)) (B2R fifth)) as [L|L]; [|discriminate].
      eapply Rle_trans; [|exact L]. right. rewrite <- SF2R_B2SF.
      replace (B2SF (nlit (T := f64) 0 1)) with (S754_zero false) by (vm_compute; reflexivity). reflexivity. }
    assert (U5' : (B2R fifth <= / 4)%R).
    { destruct (Rle_bool_spec (B2R fifth) (B2R (nlit 1 4))) as [L|L]; [|discriminate].
      eapply Rle_trans; [exact L|]. right. rewrite <- SF2R_B2SF.
      replace (B2SF (nlit (T := f64) 1 4)) with (S754_finite false 4503599627370496 (-54)) by (vm_compute; reflexivity).
      unfold SF2R, F2R. cbn [Fnum Fexp cond_Zopp bpow radix_val radix2]. lra. }
    clearbody fifth. clear L5 U5.
    pose proof (Bmult_correct 53 1024 _ _ mode_NE fifth (f64_ofZ (Z.of_nat n))) as C.
    rewrite En in C. set (r := round _ _ _ _) in C.
    assert (Hr : (0 <= r <= IZR (2 ^ 30))%R).
    { assert (0 <= IZR (Z.of_nat n))%R by (apply (IZR_le 0); lia).
      assert (IZR (Z.of_nat n) <= IZR (2 ^ 32))%R by (apply IZR_le; lia).
      split.
      - apply round_ge_generic; [apply fexp_correct; reflexivity|apply valid_rnd_round_mode| |].
        + apply generic_format_0.
        + apply Rmult_le_pos; assumption.
      - apply round_le_generic; [apply fexp_correct; reflexivity|apply valid_rnd_round_mode| |].
        + apply f64_int_format. lia.
        + change (IZR (2 ^ 30)) with 1073741824%R. change (IZR (2 ^ 32)) with 4294967296%R in *. nra. }
    rewrite Rlt_bool_true in C.
    2:{ rewrite Rabs_right by lra. eapply Rle_lt_trans; [apply Hr|].
        change (2 ^ 30)%Z with (radix2 ^ 30)%Z. rewrite IZR_Zpower by lia. apply bpow_lt. reflexivity. }
    destruct C as (C1 & C2 & _). rewrite <- Ex in C1, C2.
    rewrite F5, Fn in C2. cbn [andb] in C2.
    assert (Hneg : (x <? n0)%num = false).
    { unfold n0. cbn [nltb nofZ NumF64]. destruct (f64_ofZ_correct 0) as (E0 & F0 & _); [lia|].
      rewrite Bltb_correct by assumption. rewrite E0, C1. apply Rlt_bool_false. apply Hr. }
    rewrite Hneg. cbn [nfloorZ NumF64]. rewrite f64_floorZ_correct by exact C2. rewrite C1.
    assert (0 <= Zfloor r)%Z by (apply Zfloor_lub; apply Hr).
    assert (Zfloor r <= 2 ^ 30)%Z.
    { apply le_IZR. eapply Rle_trans; [apply Zfloor_lb|apply Hr]. }
    destruct ((- 2 ^ 31 <=? Zfloor r) && (Zfloor r <? 2 ^ 31))%Z eqn:E; [eauto|].
    exfalso. lia.
Qed.
