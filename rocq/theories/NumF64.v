(** * NumF64: IEEE-754 binary64 with round-to-nearest-even as an instance of [Num].

    Flocq's executable formalisation; all NaNs are identified.  The model runs on this
    instance by [vm_compute]. *)

From Coq Require Import Reals Lra Floats.SpecFloat.
From Flocq Require Import Core.Core IEEE754.BinarySingleNaN.
From Verif Require Export Num.

Definition f64 : Type := binary_float 53 1024.

#[export] Instance f64_prec_gt_0 : Prec_gt_0 53. Proof. reflexivity. Defined.
#[export] Instance f64_prec_lt_emax : Prec_lt_emax 53 1024. Proof. reflexivity. Defined.

(** The largest integer not above a finite value. *)
Definition f64_floorZ (x : f64) : option Z :=
  match x with
  | B754_zero _ => Some 0%Z
  | B754_finite s m e _ =>
      let n := if s then Zneg m else Zpos m in
      Some (if (0 <=? e)%Z then (n * 2 ^ e)%Z else (n / 2 ^ (- e))%Z)
  | _ => None
  end.

Definition f64_ofZ (z : Z) : f64 := binary_normalize 53 1024 _ _ mode_NE z 0 false.

#[export] Instance NumF64 : Num f64 := {
  nadd := Bplus mode_NE; nsub := Bminus mode_NE; nmul := Bmult mode_NE; ndiv := Bdiv mode_NE;
  nneg := Bopp; nabs := Babs; nsqrt := Bsqrt mode_NE;
  nltb := Bltb; nleb := Bleb; neqb := Beqb;
  nofZ := f64_ofZ; nfloorZ := f64_floorZ
}.

(** ** Order laws on values that are not NaN. *)
Definition f64_ordered (x : f64) : Prop := is_nan x = false.

(** Real-valued key for the order: infinities are placed beyond all finite values. *)
Definition f64_key (x : f64) : R :=
  match x with
  | B754_infinity s => if s then (- bpow radix2 1024)%R else bpow radix2 1024
  | _ => B2R x
  end.

Lemma f64_key_bound (x : f64) :
  is_finite x = true -> (- bpow radix2 1024 < f64_key x < bpow radix2 1024)%R.
Proof.
  intros Hf. assert (H : (Rabs (B2R x) < bpow radix2 1024)%R) by apply abs_B2R_lt_emax.
  apply Rabs_lt_inv in H. destruct x; try discriminate; exact H.
Qed.

Lemma Bltb_key (x y : f64) :
  f64_ordered x -> f64_ordered y ->
  Bltb x y = true <-> (f64_key x < f64_key y)%R.
Proof.
  intros Hx Hy. unfold f64_ordered in *.
  destruct (is_finite x) eqn:Fx, (is_finite y) eqn:Fy.
  - rewrite Bltb_correct by assumption.
    replace (f64_key x) with (B2R x) by (destruct x; try reflexivity; discriminate).
    replace (f64_key y) with (B2R y) by (destruct y; try reflexivity; discriminate).
    destruct (Rlt_bool_spec (B2R x) (B2R y)); split; intros; try lra; try discriminate; reflexivity.
  - pose proof (f64_key_bound x Fx) as B.
    destruct y as [s| s | |]; try discriminate. cbn [f64_key].
    destruct x as [sx|sx| |sx m e H]; try discriminate;
      destruct s; unfold Bltb, SFltb; cbn [B2SF SFcompare]; split; intros; try discriminate; try reflexivity; lra.
  - pose proof (f64_key_bound y Fy) as B.
    destruct x as [s| s | |]; try discriminate. cbn [f64_key].
    destruct y as [sx|sx| |sx m e H]; try discriminate;
      destruct s; unfold Bltb, SFltb; cbn [B2SF SFcompare]; split; intros; try discriminate; try reflexivity; lra.
  - destruct x as [s| s | |]; try discriminate. destruct y as [s'| s' | |]; try discriminate.
    assert (0 < bpow radix2 1024)%R by apply bpow_gt_0.
    destruct s, s'; unfold Bltb, SFltb; cbn [B2SF SFcompare f64_key];
      split; intros; try lra; try discriminate; try reflexivity.
Qed.

Lemma Bleb_Bltb (x y : f64) :
  f64_ordered x -> f64_ordered y -> Bleb x y = negb (Bltb y x).
Proof.
  intros Hx Hy. unfold f64_ordered in *.
  unfold Bleb, Bltb, SFleb, SFltb.
  pose proof (Bcompare_swap _ _ x y) as Hs. unfold Bcompare in Hs. rewrite Hs.
  destruct (SFcompare (B2SF x) (B2SF y)) as [[]|] eqn:Hc; cbn; try reflexivity.
  exfalso. destruct x as [?|[]| |[]], y as [?|[]| |[]]; cbn in *; try discriminate;
    repeat match type of Hc with context [match ?c with _ => _ end] => destruct c end; discriminate.
Qed.

Lemma Beqb_Bltb (x y : f64) :
  f64_ordered x -> f64_ordered y -> Beqb x y = negb (Bltb x y) && negb (Bltb y x).
Proof.
  intros Hx Hy. unfold f64_ordered in *.
  unfold Beqb, Bltb, SFeqb, SFltb.
  pose proof (Bcompare_swap _ _ x y) as Hs. unfold Bcompare in Hs. rewrite Hs.
  destruct (SFcompare (B2SF x) (B2SF y)) as [[]|] eqn:Hc; cbn; try reflexivity.
  exfalso. destruct x as [?|[]| |[]], y as [?|[]| |[]]; cbn in *; try discriminate;
    repeat match type of Hc with context [match ?c with _ => _ end] => destruct c end; discriminate.
Qed.

Lemma Bltb_key_false (x y : f64) :
  f64_ordered x -> f64_ordered y ->
  Bltb x y = false <-> (f64_key y <= f64_key x)%R.
Proof.
  intros Hx Hy. pose proof (Bltb_key x y Hx Hy) as K.
  destruct (Bltb x y); split; intros H; try discriminate; try reflexivity.
  - exfalso. assert (f64_key x < f64_key y)%R by (apply K; reflexivity). lra.
  - apply Rnot_lt_le. intros C. apply K in C. discriminate.
Qed.

#[export] Instance NumOrdF64 : NumOrd f64 f64_ordered.
Proof.
  constructor; cbn [nltb nleb neqb NumF64].
  - intros a Ha. apply Bltb_key_false; auto. lra.
  - intros a b c Ha Hb Hc. rewrite !Bltb_key by assumption. lra.
  - intros a b c Ha Hb Hc. rewrite !Bltb_key_false by assumption. lra.
  - intros a b Ha Hb. apply Bleb_Bltb; assumption.
  - intros a b Ha Hb. apply Beqb_Bltb; assumption.
Qed.
