(** * NumSgn: [sqrt] and [abs] never give a value below zero, exactly or rounded. *)

From Coq Require Import Reals Lra.
From Flocq Require Import Core.Core IEEE754.BinarySingleNaN.
From Verif Require Import Num NumR NumF64.

Class NumSgn (T : Type) `{Num T} := {
  nsqrt_sgn : forall a, (nsqrt a <? n0)%num = false;
  nabs_mul_nsqrt : forall a b, (nabs a * nsqrt b <? n0)%num = false;
}.

#[export] Instance NumSgnR : NumSgn R.
Proof.
  constructor; intros; unfold n0; cbn [nltb nsqrt nabs nmul nofZ NumR]; apply Rltb_false.
  - apply sqrt_pos.
  - apply Rmult_le_pos; [apply Rabs_pos|apply sqrt_pos].
Qed.

(** Zero of either sign, NaN, or a value with a plus sign. *)
Definition f64_nn (x : f64) : Prop := match x with B754_infinity true | B754_finite true _ _ _ => False | _ => True end.

Lemma nn_not_lt (x : f64) : f64_nn x -> Bltb x (f64_ofZ 0) = false.
Proof.
  replace (f64_ofZ 0) with (B754_zero false : f64) by (vm_compute; reflexivity).
  destruct x as [s|[]| |[]]; cbn; try contradiction; reflexivity.
Qed.
Lemma sign_nn (x : f64) : Bsign x = false -> f64_nn x.
Proof. destruct x as [s|[]| |[]]; cbn; auto; discriminate. Qed.
Lemma sqrt_nn (x : f64) : f64_nn (Bsqrt mode_NE x).
Proof.
  pose proof (Bsqrt_correct 53 1024 _ _ mode_NE x) as (_ & _ & C).
  destruct x as [s|[]| |[] m e B]; try exact I.
  set (r := Bsqrt mode_NE (B754_finite false m e B)) in *. destruct (is_nan r) eqn:E.
  - destruct r; try discriminate. exact I.
  - apply sign_nn. exact (C eq_refl).
Qed.
Lemma mul_nn (a b : f64) : Bsign a = false -> f64_nn b -> f64_nn (Bmult mode_NE a b).
Proof.
  intros Ha Hb. destruct a as [s|s| |s ma ea Ba]; cbn [Bsign] in Ha; subst;
    destruct b as [t|[]| |[] mb eb Bb]; cbn [f64_nn] in Hb; try contradiction; try exact I.
  pose proof (Bmult_correct 53 1024 _ _ mode_NE (B754_finite false ma ea Ba) (B754_finite false mb eb Bb)) as C.
  destruct (Rlt_bool _ _).
  - destruct C as (_ & _ & C). set (r := Bmult _ _ _) in *. destruct (is_nan r) eqn:E.
    + destruct r; try discriminate. exact I.
    + apply sign_nn. exact (C eq_refl).
  - set (r := Bmult _ _ _) in *. destruct r as [s|[]| |[]]; try exact I; cbn in C; discriminate.
Qed.

#[export] Instance NumSgnF64 : NumSgn f64.
Proof.
  constructor; intros; unfold n0; cbn [nltb nsqrt nabs nmul nofZ NumF64]; apply nn_not_lt.
  - apply sqrt_nn.
  - apply mul_nn; [|apply sqrt_nn]. destruct a as [s|s| |s m e B]; reflexivity.
Qed.
