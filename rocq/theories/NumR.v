(** * NumR: exact real arithmetic as an instance of [Num]. *)

From Coq Require Export Reals Lra.
From Flocq Require Import Core.Raux.
From Verif Require Export Num.

Open Scope R_scope.

Definition Rltb (x y : R) : bool := if Rlt_dec x y then true else false.
Definition Rleb (x y : R) : bool := if Rle_dec x y then true else false.
Definition Reqb (x y : R) : bool := if Req_EM_T x y then true else false.

#[export] Instance NumR : Num R := {
  nadd := Rplus; nsub := Rminus; nmul := Rmult; ndiv := Rdiv;
  nneg := Ropp; nabs := Rabs; nsqrt := R_sqrt.sqrt;
  nltb := Rltb; nleb := Rleb; neqb := Reqb;
  nofZ := IZR; nfloorZ := fun x => Some (Zfloor x)
}.

Lemma Rltb_true x y : Rltb x y = true <-> x < y.
Proof. unfold Rltb; destruct (Rlt_dec x y); split; intros; try lra; try discriminate; reflexivity. Qed.
Lemma Rltb_false x y : Rltb x y = false <-> y <= x.
Proof. unfold Rltb; destruct (Rlt_dec x y); split; intros; try lra; try discriminate; reflexivity. Qed.
Lemma Rleb_true x y : Rleb x y = true <-> x <= y.
Proof. unfold Rleb; destruct (Rle_dec x y); split; intros; try lra; try discriminate; reflexivity. Qed.
Lemma Rleb_false x y : Rleb x y = false <-> y < x.
Proof. unfold Rleb; destruct (Rle_dec x y); split; intros; try lra; try discriminate; reflexivity. Qed.
Lemma Reqb_true x y : Reqb x y = true <-> x = y.
Proof. unfold Reqb; destruct (Req_EM_T x y); split; intros; try lra; try discriminate; reflexivity. Qed.
Lemma Reqb_false x y : Reqb x y = false <-> x <> y.
Proof. unfold Reqb; destruct (Req_EM_T x y); split; intros; try lra; try discriminate; try reflexivity; congruence. Qed.

Lemma Rltb_spec x y : Bool.reflect (x < y) (Rltb x y).
Proof. unfold Rltb; destruct (Rlt_dec x y); constructor; assumption. Qed.
Lemma Rleb_spec x y : Bool.reflect (x <= y) (Rleb x y).
Proof. unfold Rleb; destruct (Rle_dec x y); constructor; assumption. Qed.
Lemma Reqb_spec x y : Bool.reflect (x = y) (Reqb x y).
Proof. unfold Reqb; destruct (Req_EM_T x y); constructor; assumption. Qed.

#[export] Instance NumOrdR : NumOrd R (fun _ => True).
Proof.
  constructor; cbn.
  - intros a _. apply Rltb_false; lra.
  - intros a b c _ _ _. rewrite !Rltb_true. lra.
  - intros a b c _ _ _. rewrite !Rltb_false. lra.
  - intros a b _ _. destruct (Rleb_spec a b), (Rltb_spec b a); cbn; try reflexivity; exfalso; lra.
  - intros a b _ _. destruct (Reqb_spec a b), (Rltb_spec a b), (Rltb_spec b a); cbn; try reflexivity; exfalso; lra.
Qed.

Lemma nmin_R a b : nmin a b = Rmin a b.
Proof. unfold nmin; cbn. destruct (Rltb_spec b a); unfold Rmin; destruct (Rle_dec a b); lra. Qed.
Lemma nmax_R a b : nmax a b = Rmax a b.
Proof. unfold nmax; cbn. destruct (Rltb_spec a b); unfold Rmax; destruct (Rle_dec a b); lra. Qed.
Lemma nlit_R p q : nlit (T:=R) p q = IZR p / IZR q.
Proof. reflexivity. Qed.
Lemma nofnat_R n : nofnat (T:=R) n = INR n.
Proof. unfold nofnat; cbn. symmetry. apply INR_IZR_INZ. Qed.
