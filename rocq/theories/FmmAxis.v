(** * FmmAxis: marching from a straight axis-aligned front reproduces the distance (C17). *)

From Verif Require Import MeshProofs MeshTopo FmmModel FmmSpec FmmProofs FmmFacts FmmReal FmmQuad FmmLabel NumR.
Local Open Scope R_scope.

#[local] Instance FStatus_dec : EqDecision FStatus. Proof. solve_decision. Defined.

Definition pstep (x y : option R) (s : R * R) : R * R :=
  let '(d1, d2) := s in
  match x with
  | Some x => if Rltb (Rabs x) (Rabs d1) then
                (x, match y with Some y => if Rleb (Rabs y) (Rabs x) then y else d2 | None => d2 end)
              else s
  | None => s
  end.
Lemma dstep_pstep W H f i j s : dstep W H f i j s = pstep (f (nb W H i j)) (f (nb W H (nb W H i j) j)) s.
Proof. destruct s as [d1 d2]. reflexivity. Qed.

(** The value, if there is one, is [x]. *)
Definition maybe (o : option R) (x : R) : Prop := o = None \/ o = Some x.

Lemma Rabs_sgn e x : e = 1 \/ e = -1 -> 0 <= x -> Rabs (e * x) = x.
Proof. intros [->| ->] Hx; [rewrite Rmult_1_l|replace (-1 * x) with (- x) by ring; rewrite Rabs_Ropp]; apply Rabs_pos_eq; exact Hx. Qed.
Lemma sgn_lt_M e x : e = 1 \/ e = -1 -> - M < x < M -> e * x < M.
Proof. intros [->| ->]; lra. Qed.
Lemma abs_M : Rabs M = M.
Proof. pose proof M_large as HM. apply Rabs_pos_eq. assert (0 < IZR (2 ^ 40)) by (apply IZR_lt; reflexivity). lra. Qed.

Section coefs.
  Variables (e v : R).
  Hypothesis He : e = 1 \/ e = -1.
  Hypothesis Hv : 1 <= v < M - 2.

  Lemma abs_cc : Rabs (e * (v - 2)) <= v - 1 -> e * (v - 2) < M.
  Proof. intros _. apply sgn_lt_M; lra. Qed.

  (* The closer neighbour of the main axis is final. *)
  Lemma coef_closer xc yc xf yf s :
    xc = Some (e * (v - 1)) -> maybe yc (e * (v - 2)) -> maybe xf (e * (v + 1)) -> maybe yf (e * (v + 2)) ->
    s = pstep xf yf (pstep xc yc (M, M)) \/ s = pstep xc yc (pstep xf yf (M, M)) ->
    exists al t, coef s = (al, e * t) /\ 0 < al /\ t < v /\ al * ((v - t) * (v - t)) = 1.
  Proof.
    intros -> Hyc Hxf Hyf Hs.
    assert (B1 : e * (v - 1) < M) by (apply sgn_lt_M; lra). assert (B2 : e * (v - 2) < M) by (apply sgn_lt_M; lra).
    assert (A1 : Rabs (e * (v - 1)) = v - 1) by (apply Rabs_sgn; [exact He|lra]).
    assert (A2 : Rabs (e * (v + 1)) = v + 1) by (apply Rabs_sgn; [exact He|lra]).
    assert (A3 : Rabs (e * (v + 2)) = v + 2) by (apply Rabs_sgn; [exact He|lra]).
    assert (R : s = (e * (v - 1), M) \/ s = (e * (v - 1), e * (v - 2))).
    { destruct Hs as [->| ->]; destruct Hyc as [->| ->], Hxf as [->| ->], Hyf as [->| ->]; cbn [pstep]; rewrite ?A1, ?A2, ?A3, ?abs_M.
      all: repeat (match goal with |- context [Rltb ?x ?y] => destruct (Rltb_spec x y); [|try (exfalso; lra)]
                                 | |- context [Rleb ?x ?y] => destruct (Rleb_spec x y) end; cbn [pstep]; rewrite ?A1, ?A2, ?A3, ?abs_M).
      all: try (exfalso; lra); auto. }
    destruct R as [->| ->]; unfold coef.
    - destruct (Rltb_spec M M); [lra|]. destruct (Rltb_spec (e * (v - 1)) M); [|lra].
      exists 1, (v - 1). split; [reflexivity|]. split; [lra|]. split; [lra|ring].
    - destruct (Rltb_spec (e * (v - 2)) M); [|lra].
      exists (9 / 4), (v - 2 / 3). split; [f_equal; field|]. split; [lra|]. split; [lra|field].
  Qed.

  Lemma coef_farther xf yf s : maybe xf (e * (v + 1)) -> maybe yf (e * (v + 2)) ->
    s = pstep xf yf (M, M) -> (xf = None /\ coef s = (0, 0)) \/ (xf = Some (e * (v + 1)) /\ coef s = (1, e * (v + 1))).
  Proof.
    intros Hxf Hyf ->.
    assert (B1 : e * (v + 1) < M) by (apply sgn_lt_M; lra).
    assert (A2 : Rabs (e * (v + 1)) = v + 1) by (apply Rabs_sgn; [exact He|lra]).
    assert (A3 : Rabs (e * (v + 2)) = v + 2) by (apply Rabs_sgn; [exact He|lra]).
    destruct Hxf as [->| ->]; [left|right]; (split; [reflexivity|]); cbn [pstep].
    - unfold coef. destruct (Rltb_spec M M); [lra|reflexivity].
    - rewrite A2, abs_M. destruct (Rltb_spec (v + 1) M); [|lra].
      assert (R : match yf with Some y => if Rleb (Rabs y) (v + 1) then y else M | None => M end = M).
      { destruct Hyf as [->| ->]; [reflexivity|]. rewrite A3. destruct (Rleb_spec (v + 2) (v + 1)); [lra|reflexivity]. }
      rewrite R. unfold coef. destruct (Rltb_spec M M); [lra|]. destruct (Rltb_spec (e * (v + 1)) M); [reflexivity|lra].
  Qed.

  Lemma coef_other x0 y0 x1 y1 s : maybe x0 (e * v) -> maybe y0 (e * v) -> maybe x1 (e * v) -> maybe y1 (e * v) ->
    s = pstep x1 y1 (pstep x0 y0 (M, M)) ->
    (x0 = None /\ x1 = None /\ coef s = (0, 0)) \/ exists al, 0 < al /\ coef s = (al, e * v).
  Proof.
    intros H0 H0' H1 H1' ->.
    assert (B1 : e * v < M) by (apply sgn_lt_M; lra).
    assert (A2 : Rabs (e * v) = v) by (apply Rabs_sgn; [exact He|lra]).
    assert (C1 : coef (e * v, M) = (1, e * v)).
    { unfold coef. destruct (Rltb_spec M M); [lra|]. destruct (Rltb_spec (e * v) M); [reflexivity|lra]. }
    assert (C2 : coef (e * v, e * v) = (9 / 4, e * v)).
    { unfold coef. destruct (Rltb_spec (e * v) M); [|lra]. f_equal. field. }
    assert (P : forall y, maybe y (e * v) -> exists al, 0 < al /\
       coef (e * v, match y with Some y => if Rleb (Rabs y) (Rabs (e * v)) then y else M | None => M end) = (al, e * v)).
    { intros y [->| ->]; [exists 1; rewrite C1; split; [lra|reflexivity]|].
      destruct (Rleb_spec (Rabs (e * v)) (Rabs (e * v))); [|lra]. exists (9 / 4). rewrite C2. split; [lra|reflexivity]. }
    assert (L : Rltb (Rabs (e * v)) (Rabs M) = true) by (rewrite A2, abs_M; apply Rltb_true; lra).
    destruct H0 as [->| ->], H1 as [->| ->]; cbn [pstep]; rewrite ?L.
    - left. unfold coef. destruct (Rltb_spec M M); [lra|auto].
    - right. apply P. exact H1'.
    - right. apply P. exact H0'.
    - right. cbn [pstep]. destruct (Rltb_spec (Rabs (e * v)) (Rabs (e * v))); [lra|]. apply P. exact H0'.
  Qed.
End coefs.

(** The larger root of  a0 (x - t0)^2 + a1 (x - t1)^2 = 1. *)
Section roots.
  Variables (a0 t0 a1 t1 v : R).
  Let a := a0 + a1.
  Let B := a0 * t0 + a1 * t1.
  Let C := a0 * t0 * t0 + a1 * t1 * t1 - 1.
  Let D := B * B - a * C.
  Let p := a0 * ((v - t0) * (v - t0)) + a1 * ((v - t1) * (v - t1)) - 1.
  Lemma disc_at : D = (a * v - B) * (a * v - B) - a * p.
  Proof. unfold D, p, a, B, C. ring. Qed.
  Lemma root_exact : 0 < a -> p = 0 -> 0 < a * v - B -> 0 < D /\ (B + R_sqrt.sqrt D) / a = v.
  Proof.
    intros Ha Hp Hd. pose proof disc_at as HD. rewrite Hp, Rmult_0_r, Rminus_0_r in HD. rewrite HD.
    split; [apply Rmult_lt_0_compat; exact Hd|]. rewrite sqrt_square by lra. field. lra.
  Qed.
  Lemma root_ge : 0 < a -> p <= 0 -> (a * v - B < 0 \/ p < 0) -> 0 < D /\ v <= (B + R_sqrt.sqrt D) / a.
  Proof.
    intros Ha Hp Hd. pose proof disc_at as HD.
    assert (HS : 0 <= (a * v - B) * (a * v - B)) by (apply Rle_0_sqr).
    assert (HD0 : 0 < D).
    { destruct Hd as [Hd|Hd]; [assert (0 < (a * v - B) * (a * v - B)) by nra|]; nra. }
    split; [exact HD0|]. apply Rmult_le_reg_r with a; [exact Ha|].
    unfold Rdiv. rewrite Rmult_assoc, Rinv_l, Rmult_1_r by lra.
    assert (Rabs (a * v - B) <= R_sqrt.sqrt D).
    { rewrite <- sqrt_Rsqr_abs. apply sqrt_le_1; unfold Rsqr; nra. }
    pose proof (Rle_abs (a * v - B)). lra.
  Qed.
End roots.

Section axis.
  Context (W H : nat) (mesh : Mesh R).
  Hypothesis Ht : topo W H mesh.
  Notation N := (node_count W H).
  Variables (u : nat -> R) (dl : nat -> R) (A : nat) (sg : R).
  Hypothesis HA : (A < 2)%nat.
  Hypothesis Hsg : sg = 1 \/ sg = -1.
  Hypothesis Hd0 : dl (2 * A) = - sg.
  Hypothesis Hd1 : dl (2 * A + 1) = sg.
  Hypothesis Hd2 : dl (2 * (1 - A)) = 0.
  Hypothesis Hd3 : dl (2 * (1 - A) + 1) = 0.
  Hypothesis Hu : forall i j, (i < N)%nat -> (j < 4)%nat -> (nb W H i j < N)%nat -> u (nb W H i j) = u i + dl j.
  Hypothesis Hclose : forall i e, (i < N)%nat -> e = 1 \/ e = -1 -> 0 < e * u i -> exists j, (j < 4)%nat /\ (nb W H i j < N)%nat /\ dl j = - e.
  Hypothesis Hbd : forall i, (i < N)%nat -> Rabs (u i) < M - 2.
  Variable copy : list R.
  Hypothesis Hcopy : length copy = N.
  Hypothesis Hval : forall i, (i < N)%nat -> copy !! i = Some (u i).

  Lemma dirs (P : nat -> Prop) : P (2 * A)%nat -> P (2 * A + 1)%nat -> P (2 * (1 - A))%nat -> P (2 * (1 - A) + 1)%nat ->
    forall j, (j < 4)%nat -> P j.
  Proof.
    intros P0 P1 P2 P3 j Hj. destruct A as [|[|]]; [| |lia]; cbn in *; destruct j as [|[|[|[|]]]]; auto; lia.
  Qed.
  Lemma opp_dl j : (j < 4)%nat -> dl (opp j) = - dl j.
  Proof.
    intros Hj. assert (E : A = 0%nat \/ A = 1%nat) by lia. destruct E as [E|E]; rewrite E in *; cbn in *;
      destruct j as [|[|[|[|]]]]; cbn [opp]; try lia; rewrite ?Hd0, ?Hd1, ?Hd2, ?Hd3; ring.
  Qed.

  Lemma dl_cases j : (j < 4)%nat -> dl j = 1 \/ dl j = -1 \/ dl j = 0.
  Proof.
    revert j. apply dirs; rewrite ?Hd0, ?Hd1, ?Hd2, ?Hd3; destruct Hsg as [->| ->]; lra.
  Qed.

  (** Sign of a node off the contour. *)
  Lemma sgn_of i : u i <> 0 -> exists e, (e = 1 \/ e = -1) /\ 0 < e * u i /\ u i = e * Rabs (u i).
  Proof.
    intros Hne. destruct (Rtotal_order (u i) 0) as [Hlt|[?|Hgt]]; [|contradiction|].
    - exists (-1). rewrite Rabs_left by lra. split; [auto|]. split; lra.
    - exists 1. rewrite Rabs_pos_eq by lra. split; [auto|]. split; lra.
  Qed.

  Lemma off_front i : (i < N)%nat -> ~ on_front W H copy i -> 1 <= Rabs (u i) /\
    exists e j, (e = 1 \/ e = -1) /\ u i = e * Rabs (u i) /\ (j < 4)%nat /\ (nb W H i j < N)%nat /\ dl j = - e /\
      Rabs (u (nb W H i j)) = Rabs (u i) - 1.
  Proof.
    intros Hi Hnf. assert (Hne : u i <> 0).
    { intros E. apply Hnf. left. exists (u i). split; [auto|]. apply Reqb_true. exact E. }
    destruct (sgn_of i Hne) as (e & He & Hpos & Heq). destruct (Hclose i e Hi He Hpos) as (j & Hj & Hb & Hdl).
    pose proof (Hu i j Hi Hj Hb) as Hub.
    assert (Hge : 1 <= Rabs (u i)).
    { destruct (Rle_lt_dec 1 (Rabs (u i))) as [?|Hlt]; [assumption|]. exfalso. apply Hnf. right. exists (nb W H i j). split.
      - apply adjacent_nb. eauto.
      - exists (u i), (u (nb W H i j)). split; [auto|]. split; [auto|]. apply Rltb_true. change (u i * u (nb W H i j) < 0). rewrite Hub, Hdl.
        pose proof (Rabs_pos_lt _ Hne) as Hp. clear Hub Hdl. revert Hp Hlt Heq. generalize (Rabs (u i)). intros w Hp Hlt ->. destruct He as [->| ->]; nra. }
    split; [exact Hge|]. exists e, j. repeat (split; [assumption|]).
    rewrite Hub, Hdl. replace (u i + - e) with (e * (Rabs (u i) - 1)) by (rewrite Heq at 2; ring).
    apply Rabs_sgn; [exact He|lra].
  Qed.

  (** Front values. *)
  Lemma front_value i : (i < N)%nat -> on_front W H copy i -> ~ on_contour copy i -> border_new mesh copy i = u i.
  Proof.
    intros Hi Hf Hnc. destruct Hf as [Hf|Hf]; [contradiction|].
    destruct (border_new_R W H mesh Ht copy Hcopy i (u i) Hi (Hval i Hi) Hf) as ((S1 & S2 & S3) & _ & (Hr & D)).
    assert (Hne : u i <> 0).
    { intros E. apply Hnc. exists (u i). split; [auto|]. apply Reqb_true. exact E. }
    assert (HX : forall (ax : nat) (adj : nat -> nat -> Prop), (forall k, adj i k -> exists j, (j = 2 * ax \/ j = 2 * ax + 1)%nat /\ (j < 4)%nat /\ (k < N)%nat /\ k = nb W H i j) ->
      forall d, edge_crossing copy adj i d -> ax = A /\ d = Rabs (u i)).
    { intros ax adj Hadj d (k & c & v & Hk & Hc & Hv & Hcv & ->). destruct (Hadj k Hk) as (j & Hj & Hj4 & Hkn & ->).
      rewrite Hval in Hc, Hv by assumption. injection Hc as <-. injection Hv as <-. rewrite (Hu i j Hi Hj4 Hkn) in *.
      pose proof (dl_cases j Hj4) as Hnz.
      assert (Hn0 : dl j <> 0) by (intros E; rewrite E in Hcv; nra).
      split.
      - assert (E : ax = A \/ ax <> A) by lia. destruct E as [E|E]; [exact E|exfalso].
        assert (Eax : ax = (1 - A)%nat) by lia. subst ax. destruct Hj as [->| ->]; contradiction.
      - destruct Hnz as [E|[E|E]]; [| |contradiction]; rewrite E in *.
        + assert (u i < 0) by nra. rewrite Rabs_left by assumption. field. lra.
        + assert (0 < u i) by nra. rewrite Rabs_pos_eq by lra. field. lra. }
    assert (AX : forall k, adj_x W H i k -> exists j, (j = 2 * 0 \/ j = 2 * 0 + 1)%nat /\ (j < 4)%nat /\ (k < N)%nat /\ k = nb W H i j).
    { intros k Hk. apply adj_x_nb in Hk as (_ & Hk & [E|E]); [exists 0%nat|exists 1%nat]; repeat split; auto; lia. }
    assert (AY : forall k, adj_y W H i k -> exists j, (j = 2 * 1 \/ j = 2 * 1 + 1)%nat /\ (j < 4)%nat /\ (k < N)%nat /\ k = nb W H i j).
    { intros k Hk. apply adj_y_nb in Hk as (_ & Hk & [E|E]); [exists 2%nat|exists 3%nat]; repeat split; auto; lia. }
    assert (HR : Rabs (border_new mesh copy i) = Rabs (u i)).
    { destruct D as [(dx & dy & (Hdx & _) & (Hdy & _) & _)|[((Hdx & _) & _)|(_ & (Hdy & _))]].
      - apply (HX 0%nat _ AX) in Hdx as [E0 _]. apply (HX 1%nat _ AY) in Hdy as [E1 _]. congruence.
      - apply (HX 0%nat _ AX) in Hdx as [_ ->]. reflexivity.
      - apply (HX 1%nat _ AY) in Hdy as [_ ->]. reflexivity. }
    destruct (Rtotal_order (u i) 0) as [Hlt|[?|Hgt]]; [|contradiction|].
    - specialize (S2 Hlt). rewrite !Rabs_left in HR by assumption. lra.
    - specialize (S1 Hgt). rewrite !Rabs_pos_eq in HR by lra. lra.
  Qed.

  (** ** Updates *)
  Definition Fx (i : nat) (x : R) : Prop := x = u i.
  Definition Vx (i : nat) (x : R) : Prop := Rabs (u i) <= Rabs x.
  Definition Gx (a j : nat) (x : R) : Prop := Rabs (u (nb W H a j)) = Rabs (u a) + 1 -> x = u (nb W H a j).

  Lemma update_axis st sd i d : base W H copy Fx st sd -> (i < N)%nat -> st !! i <> Some F_FROZEN -> frozen_nb W H st i ->
    updateNode mesh copy st sd i = Ok d ->
    Vx i d /\ forall a j, (a < N)%nat -> (j < 4)%nat -> nb W H a j = i -> st !! a = Some F_FROZEN -> Gx a j d.
  Proof.
    intros [Ls Ld Hfr HF] Hi Hst Hfn Hup.
    assert (Hoff : ~ on_front W H copy i) by (intros X; apply Hst, Hfr; assumption).
    destruct (off_front i Hi Hoff) as (Hge & e & jc & He & Hue & Hjc & Hbc & Hdc & Habs).
    set (v := Rabs (u i)) in *.
    assert (HvM : v < M - 2) by (apply Hbd; exact Hi).
    destruct (updateNode_pure W H mesh Ht copy Hcopy st sd i Ls Ld Hi) as (d' & Hd' & Hupd).
    rewrite Hd' in Hup. injection Hup as <-. clear Hd'.
    set (f := fz st sd) in *.
    assert (Hf : forall k x, f k = Some x -> (k < N)%nat /\ x = u k).
    { intros k x Hk. unfold f, fz in Hk. destruct (st !! k) as [[]|] eqn:E; try discriminate. split; [apply lookup_lt_Some in Hk; lia|].
      exact (HF k x E Hk). }
    assert (Hf1 : forall j, (j < 4)%nat -> maybe (f (nb W H i j)) (u i + dl j)).
    { intros j Hj. destruct (f (nb W H i j)) as [x|] eqn:E; [right|left; reflexivity]. destruct (Hf _ _ E) as [Hb ->].
      rewrite Hu by assumption. reflexivity. }
    assert (Hf2 : forall j, (j < 4)%nat -> f (nb W H i j) <> None -> maybe (f (nb W H (nb W H i j) j)) (u i + 2 * dl j)).
    { intros j Hj Hn. destruct (f (nb W H (nb W H i j) j)) as [x|] eqn:E; [right|left; reflexivity].
      destruct (f (nb W H i j)) as [y|] eqn:E1; [|contradiction]. destruct (Hf _ _ E1) as [Hb1 _].
      destruct (Hf _ _ E) as [Hb ->]. rewrite Hu by assumption. rewrite Hu by assumption. f_equal. ring. }
    (* normal form of the value in a direction; the second one only matters if the first is there *)
    set (g := fun j => match f (nb W H i j) with Some _ => f (nb W H (nb W H i j) j) | None => None end).
    assert (Hg : forall j s, dstep W H f i j s = pstep (f (nb W H i j)) (g j) s).
    { intros j s. rewrite dstep_pstep. unfold g. destruct s as [d1 d2], (f (nb W H i j)); reflexivity. }
    assert (Hg2 : forall j, (j < 4)%nat -> maybe (g j) (u i + 2 * dl j)).
    { intros j Hj. unfold g. destruct (f (nb W H i j)) eqn:E; [|left; reflexivity]. apply Hf2; [exact Hj|congruence]. }
    (* the four directions *)
    set (jf := opp jc).
    assert (Hjf : dl jf = e) by (unfold jf; rewrite opp_dl by exact Hjc; rewrite Hdc; ring).
    assert (Hmain : jc = (2 * A)%nat /\ jf = (2 * A + 1)%nat \/ jc = (2 * A + 1)%nat /\ jf = (2 * A)%nat).
    { unfold jf. clearbody v. clear - HA Hjc Hd0 Hd1 Hd2 Hd3 Hdc Hsg He.
      assert (E : A = 0%nat \/ A = 1%nat) by lia. destruct E as [E|E]; rewrite E in *; cbn in *;
        destruct jc as [|[|[|[|]]]]; cbn [opp]; try lia; auto; exfalso; lra. }
    assert (Hjf4 : (jf < 4)%nat) by apply opp_lt.
    assert (M1 : maybe (f (nb W H i jc)) (e * (v - 1))).
    { replace (e * (v - 1)) with (u i + dl jc) by (rewrite Hdc, Hue; ring). auto. }
    assert (M2 : maybe (g jc) (e * (v - 2))).
    { replace (e * (v - 2)) with (u i + 2 * dl jc) by (rewrite Hdc, Hue; ring). auto. }
    assert (M3 : maybe (f (nb W H i jf)) (e * (v + 1))).
    { replace (e * (v + 1)) with (u i + dl jf) by (rewrite Hjf, Hue; ring). auto. }
    assert (M4 : maybe (g jf) (e * (v + 2))).
    { replace (e * (v + 2)) with (u i + 2 * dl jf) by (rewrite Hjf, Hue; ring). auto. }
    set (o1 := (2 * (1 - A) + 1)%nat) in *. set (o0 := (2 * (1 - A))%nat) in *.
    assert (Ho : (o0 < 4)%nat /\ (o1 < 4)%nat) by (unfold o1, o0; lia). destruct Ho as [Ho0 Ho1].
    assert (Q1 : maybe (f (nb W H i o0)) (e * v)) by (replace (e * v) with (u i + dl o0) by (rewrite Hd2, Hue; ring); auto).
    assert (Q2 : maybe (g o0) (e * v)) by (replace (e * v) with (u i + 2 * dl o0) by (rewrite Hd2, Hue; ring); auto).
    assert (Q3 : maybe (f (nb W H i o1)) (e * v)) by (replace (e * v) with (u i + dl o1) by (rewrite Hd3, Hue; ring); auto).
    assert (Q4 : maybe (g o1) (e * v)) by (replace (e * v) with (u i + 2 * dl o1) by (rewrite Hd3, Hue; ring); auto).
    assert (PM : pairR W H f i A = pstep (f (nb W H i jf)) (g jf) (pstep (f (nb W H i jc)) (g jc) (M, M)) \/
                 pairR W H f i A = pstep (f (nb W H i jc)) (g jc) (pstep (f (nb W H i jf)) (g jf) (M, M))).
    { unfold pairR. rewrite !Hg, Nat.add_0_r. destruct Hmain as [[-> ->]|[-> ->]]; auto. }
    assert (PO : pairR W H f i (1 - A) = pstep (f (nb W H i o1)) (g o1) (pstep (f (nb W H i o0)) (g o0) (M, M))).
    { unfold pairR. rewrite !Hg, Nat.add_0_r. reflexivity. }
    assert (Hv2 : 1 <= v < M - 2) by lra.
    pose proof (coef_other e v He Hv2 _ _ _ _ _ Q1 Q2 Q3 Q4 PO) as CO.
    (* the solution, the two dimensions in either order *)
    assert (Hsol : forall am cm tm ao co, coef (pairR W H f i A) = (am, cm) -> (am = 0 \/ cm = e * tm) ->
       coef (pairR W H f i (1 - A)) = (ao, co) -> (ao = 0 \/ co = e * v) ->
       let a := am + ao in let B := am * tm + ao * v in let C := am * tm * tm + ao * v * v - 1 in let D := B * B - a * C in
       0 < D -> d' = e * ((B + R_sqrt.sqrt D) / a)).
    { intros am cm tm ao co E1 Ecm E2 Eco a B C D HD. pose proof (upd_R W H copy f (sd !! i) i (u i) (Hval i Hi)) as HU.
      assert (Heps : Rltb nepsilon (u i) = true <-> e = 1).
      { rewrite Rltb_true, Hue. pose proof eps_small. destruct He as [->| ->]; split; intros; lra. }
      assert (E : A = 0%nat \/ A = 1%nat) by lia.
      assert (HU' : upd W H copy f (sd !! i) i = Some (if Rltb nepsilon (u i) then (e * B + R_sqrt.sqrt D) / a else (e * B - R_sqrt.sqrt D) / a)).
      { destruct E as [E|E]; rewrite E in E1, E2; cbn in E1, E2; rewrite E1, E2 in HU; cbv zeta in HU.
        - match type of HU with (0 < ?X -> _) /\ _ => assert (EX : X = D) by (unfold D, B, C, a; destruct Ecm as [->| ->], Eco as [->| ->], He as [->| ->]; ring) end.
          rewrite EX in HU. destruct HU as [HU _]. rewrite (HU HD).
          replace (am * cm + ao * co) with (e * B) by (unfold B; destruct Ecm as [->| ->], Eco as [->| ->]; ring). reflexivity.
        - match type of HU with (0 < ?X -> _) /\ _ => assert (EX : X = D) by (unfold D, B, C, a; destruct Ecm as [->| ->], Eco as [->| ->], He as [->| ->]; ring) end.
          rewrite EX in HU. destruct HU as [HU _]. rewrite (HU HD).
          replace (ao * co + am * cm) with (e * B) by (unfold B; destruct Ecm as [->| ->], Eco as [->| ->]; ring).
          replace (ao + am) with a by (unfold a; ring). reflexivity. }
      assert (Hdd : Some d' = Some (if Rltb nepsilon (u i) then (e * B + R_sqrt.sqrt D) / a else (e * B - R_sqrt.sqrt D) / a)) by congruence.
      destruct (Rltb nepsilon (u i)) eqn:Eb; injection Hdd as ->.
      - rewrite (proj1 Heps eq_refl). unfold Rdiv. ring.
      - destruct He as [->| ->]; [assert (false = true) by (apply Heps; reflexivity); discriminate|]. unfold Rdiv. ring. }
    assert (Hcl : forall a j, (a < N)%nat -> (j < 4)%nat -> nb W H a j = i -> Rabs (u (nb W H a j)) = Rabs (u a) + 1 -> nb W H i jc = a /\ True).
    { intros a j Ha Hj Hnb Hab. split; [|exact I]. rewrite Hnb in Hab. fold v in Hab.
      pose proof (nb_opp W H a j Ha Hj ltac:(rewrite Hnb; exact Hi)) as Hop. rewrite Hnb in Hop.
      pose proof (Hu i (opp j) Hi (opp_lt j)) as Hua. rewrite Hop in Hua. specialize (Hua Ha).
      assert (Ej : opp j = jc); [|congruence].
      assert (Hdj : dl (opp j) = - e).
      { assert (Hnz : dl (opp j) = e \/ dl (opp j) = - e \/ dl (opp j) = 0).
        { pose proof (dl_cases (opp j) (opp_lt j)) as HX. destruct He as [->| ->]; lra. }
        destruct Hnz as [E|[E|E]]; [|exact E|]; exfalso; rewrite E, Hue in Hua; rewrite Hua in Hab.
        - replace (e * v + e) with (e * (v + 1)) in Hab by ring. rewrite Rabs_sgn in Hab by (auto; lra). lra.
        - rewrite Rplus_0_r, Rabs_sgn in Hab by (auto; lra). lra. }
      revert Hdj. generalize (opp_lt j). generalize (opp j).
      apply (dirs (fun j => dl j = - e -> j = jc)); fold o1; fold o0; intros Hdj; destruct Hmain as [[E1 E2]|[E1 E2]]; auto; exfalso.
      all: pose proof Hdc as Hdc'; rewrite E1 in Hdc'; clear - He Hsg Hdc' Hdj Hd0 Hd1 Hd2 Hd3; destruct He as [->| ->], Hsg as [Hs|Hs]; try lra; change (o0 + 1)%nat with o1 in Hdj; lra. }
    destruct M1 as [M1|M1].
    - (* the closer neighbour is not final *)
      assert (PM' : pairR W H f i A = pstep (f (nb W H i jf)) (g jf) (M, M)).
      { rewrite M1 in PM. unfold pstep at 2 3 in PM. destruct PM as [->| ->]; [reflexivity|].
        destruct (pstep (f (nb W H i jf)) (g jf) (M, M)). reflexivity. }
      pose proof (coef_farther e v He Hv2 _ _ _ M3 M4 PM') as CF.
      split.
      + unfold Vx. fold v.
        assert (Hcore : forall am cm tm ao co, coef (pairR W H f i A) = (am, cm) -> (am = 0 \/ cm = e * tm) ->
          coef (pairR W H f i (1 - A)) = (ao, co) -> (ao = 0 \/ co = e * v) ->
          0 <= am -> 0 <= ao -> 0 < am + ao -> (am = 0 \/ am = 1 /\ tm = v + 1) -> v <= Rabs d').
        { intros am cm tm ao co E1 Ecm E2 Eco Ham Hao Ha Hcase. pose proof (Hsol am cm tm ao co E1 Ecm E2 Eco) as HS. cbv zeta in HS.
          destruct (root_ge am tm ao v v) as [HD Hr]; [exact Ha|destruct Hcase as [->|[-> ->]]; nra|destruct Hcase as [->|[-> ->]]; [right|left]; nra|].
          rewrite (HS HD). rewrite Rabs_sgn; [exact Hr|exact He|lra]. }
        destruct CF as [[F1 F2]|[F1 F2]]; destruct CO as [(G1 & G2 & G3)|(ao & Hao & G3)].
        * (* nothing final at all *)
          exfalso. destruct Hfn as (j & Hj & Hb & Hfz).
          assert (HS : exists x, f (nb W H i j) = Some x).
          { unfold f, fz. rewrite Hfz. apply lookup_lt_is_Some_2. lia. }
          destruct HS as (x & Hx).
          assert (HC : f (nb W H i j) = None); [|congruence].
          revert j Hj Hb Hfz Hx. apply (dirs (fun j => forall (Hb : (nb W H i j < N)%nat), _ -> _ -> f (nb W H i j) = None)); intros; fold o1; fold o0; auto.
          all: destruct Hmain as [[E1 E2]|[E1 E2]]; first [rewrite <- E1; assumption|rewrite <- E2; assumption].
        * apply (Hcore 0 0 v ao (e * v)); auto; lra.
        * apply (Hcore 1 (e * (v + 1)) (v + 1) 0 0); auto; lra.
        * apply (Hcore 1 (e * (v + 1)) (v + 1) ao (e * v)); auto; lra.
      + intros a j Ha Hj Hnb Hfz Hab. exfalso. apply (Hcl a j Ha Hj Hnb) in Hab as [<- _].
        unfold f, fz in M1. rewrite Hfz in M1. apply lookup_ge_None_1 in M1. lia.
    - destruct (coef_closer e v He Hv2 _ _ _ _ _ M1 M2 M3 M4 PM) as (am & tm & CM & Ham & Htm & Hone).
      assert (Hex : d' = e * v).
      { assert (Hcore : forall ao co, coef (pairR W H f i (1 - A)) = (ao, co) -> (ao = 0 \/ co = e * v) -> 0 <= ao -> d' = e * v).
        { intros ao co E2 Eco Hao. pose proof (Hsol am (e * tm) tm ao co CM (or_intror eq_refl) E2 Eco) as HS. cbv zeta in HS.
          destruct (root_exact am tm ao v v) as [HD Hr]; [lra|rewrite Hone; ring|nra|]. rewrite (HS HD), Hr. reflexivity. }
        destruct CO as [(_ & _ & G3)|(ao & Hao & G3)]; eapply Hcore; try exact G3; auto; lra. }
      split.
      + unfold Vx. fold v. rewrite Hex, Rabs_sgn by (auto; lra). lra.
      + intros a j Ha Hj Hnb Hfz Hab. rewrite Hnb. congruence.
  Qed.

  (** Below every node that is not final there is one whose closer neighbour is final. *)
  Lemma chain (st : list FStatus) (n : nat) : (forall k, (k < N)%nat -> on_front W H copy k -> st !! k = Some F_FROZEN) ->
    forall k, (k < N)%nat -> st !! k <> Some F_FROZEN -> Rabs (u k) <= INR n ->
    exists a j, (a < N)%nat /\ (j < 4)%nat /\ st !! a = Some F_FROZEN /\ (nb W H a j < N)%nat /\
      st !! nb W H a j <> Some F_FROZEN /\ Rabs (u (nb W H a j)) = Rabs (u a) + 1 /\ Rabs (u (nb W H a j)) <= Rabs (u k).
  Proof.
    intros Hfr. induction n as [|n IH]; intros k Hk Hst Hn.
    all: destruct (off_front k Hk) as (Hge & e & jc & He & Hue & Hjc & Hbc & Hdc & Habs); [intros X; apply Hst, Hfr; assumption|].
    - cbn in Hn. lra.
    - rewrite S_INR in Hn. pose proof (nb_opp W H k jc Hk Hjc Hbc) as Hop.
      destruct (decide (st !! nb W H k jc = Some F_FROZEN)) as [Hc|Hc].
      + exists (nb W H k jc), (opp jc). rewrite Hop. repeat (split; [first [assumption|apply opp_lt]|]). split; lra.
      + destruct (IH _ Hbc Hc) as (a & j & A1 & A2 & A3 & A4 & A5 & A6 & A7); [lra|].
        exists a, j. repeat (split; [assumption|]). lra.
  Qed.

  Lemma freeze_axis (st : list FStatus) (sd : list R) i x : base W H copy Fx st sd ->
    (forall k y, st !! k = Some F_TRIAL -> sd !! k = Some y -> Vx k y) ->
    st !! i = Some F_TRIAL -> sd !! i = Some x ->
    (forall k y, st !! k = Some F_TRIAL -> sd !! k = Some y -> Rabs x <= Rabs y) ->
    (forall a j, (a < N)%nat -> (j < 4)%nat -> st !! a = Some F_FROZEN -> (nb W H a j < N)%nat -> st !! nb W H a j <> Some F_FROZEN ->
       (exists y, sd !! a = Some y /\ Rabs y = Rabs x) \/
       (st !! nb W H a j = Some F_TRIAL /\ exists y, sd !! nb W H a j = Some y /\ Gx a j y)) ->
    Fx i x.
  Proof.
    intros [Ls Ld Hfr HF] HV Hst Hx Hmin HG. assert (Hi : (i < N)%nat) by (apply lookup_lt_Some in Hst; lia).
    pose proof (HV i x Hst Hx) as HVi. unfold Vx in HVi.
    assert (Hnf : st !! i <> Some F_FROZEN) by congruence.
    destruct (chain st (Z.to_nat (up (Rabs (u i)))) Hfr i Hi Hnf) as (a & j & A1 & A2 & A3 & A4 & A5 & A6 & A7).
    { rewrite INR_IZR_INZ, Z2Nat.id; [destruct (archimed (Rabs (u i))); lra|].
      apply le_IZR. pose proof (Rabs_pos (u i)). destruct (archimed (Rabs (u i))). lra. }
    destruct (HG a j A1 A2 A3 A4 A5) as [(y & Hy & Habs)|(Htr & y & Hy & HGy)].
    - exfalso. rewrite (HF a y A3 Hy) in Habs. lra.
    - pose proof (HGy A6) as ->. pose proof (Hmin _ _ Htr Hy).
      (* the tentative node is as close as i: its own closer neighbour must then be final *)
      destruct (off_front i Hi) as (Hge & e & jc & He & Hue & Hjc & Hbc & Hdc & Hcl); [intros X; apply Hnf, Hfr; assumption|].
      pose proof (nb_opp W H i jc Hi Hjc Hbc) as Hop.
      destruct (decide (st !! nb W H i jc = Some F_FROZEN)) as [Hc|Hc].
      + destruct (HG (nb W H i jc) (opp jc) Hbc (opp_lt jc) Hc) as [(y & Hy' & Habs)|(_ & y & Hy' & HGy')]; rewrite ?Hop; auto.
        * exfalso. rewrite (HF _ y Hc Hy') in Habs. lra.
        * rewrite Hop in Hy'. assert (y = x) by congruence. subst y. unfold Fx, Gx in *. rewrite Hop in HGy'. apply HGy'. lra.
      + exfalso. destruct (chain st (Z.to_nat (up (Rabs (u (nb W H i jc))))) Hfr _ Hbc Hc) as (a' & j' & B1 & B2 & B3 & B4 & B5 & B6 & B7).
        { rewrite INR_IZR_INZ, Z2Nat.id; [destruct (archimed (Rabs (u (nb W H i jc)))); lra|].
          apply le_IZR. pose proof (Rabs_pos (u (nb W H i jc))). destruct (archimed (Rabs (u (nb W H i jc)))). lra. }
        destruct (HG a' j' B1 B2 B3 B4 B5) as [(y & Hy' & Habs)|(Htr' & y & Hy' & HGy')].
        * rewrite (HF a' y B3 Hy') in Habs. lra.
        * pose proof (HGy' B6) as ->. pose proof (Hmin _ _ Htr' Hy'). lra.
  Qed.

  Lemma march_axis : (exists i, (i < N)%nat /\ on_front W H copy i) ->
    exists o', fmm_march mesh (fmm_new mesh false) copy = Ok (o', copy).
  Proof.
    intros Hex. destruct (march_total W H mesh false copy ltac:(discriminate) Ht Hcopy) as [_ HT].
    destruct (HT Hex) as (o' & sd' & Hm & L & _). exists o'. rewrite Hm. repeat f_equal.
    apply list_eq_same_length with N; [exact Hcopy|congruence|]. intros i x y Hi Hx Hy.
    rewrite Hval in Hy by exact Hi. injection Hy as <-.
    apply (march_label W H mesh Ht copy Hcopy Fx Vx Gx update_axis freeze_axis o' sd' Hm) with (i := i); [|exact Hx].
    intros k z Hk Hf [[_ Hz]|[Hnc <-]]; unfold Fx; [rewrite Hval in Hz by exact Hk; congruence|apply front_value; auto].
  Qed.
End axis.

Lemma nb_coords W H i j : (i < node_count W H)%nat -> (j < 4)%nat -> (nb W H i j < node_count W H)%nat ->
  let x := (i mod (W + 1))%nat in let y := (i / (W + 1))%nat in
  let x' := (nb W H i j mod (W + 1))%nat in let y' := (nb W H i j / (W + 1))%nat in
  match j with
  | 0 => (x = x' + 1 /\ y' = y)%nat | 1 => (x' = x + 1 /\ y' = y)%nat
  | 2 => (y = y' + 1 /\ x' = x)%nat | _ => (y' = y + 1 /\ x' = x)%nat
  end.
Proof.
  intros Hi Hj. destruct (node_id_split W H i Hi) as (Hx & Hy & E). unfold nb, neighbours_spec.
  set (x := (i mod (W + 1))%nat) in *. set (y := (i / (W + 1))%nat) in *. cbv zeta.
  destruct j as [|[|[|[|j]]]]; cbn [nth]; [| | | |lia].
  - destruct (Nat.eqb_spec x 0); [lia|]. intros _. rewrite node_id_mod, node_id_div by lia. lia.
  - destruct (Nat.eqb_spec x W); [lia|]. intros _. rewrite node_id_mod, node_id_div by lia. lia.
  - destruct (Nat.eqb_spec y 0); [lia|]. intros _. rewrite node_id_mod, node_id_div by lia. lia.
  - destruct (Nat.eqb_spec y H); [lia|]. intros _. rewrite node_id_mod, node_id_div by lia. lia.
Qed.

Lemma fits_bound W H n : mesh_fits W H -> (n <= W \/ n <= H)%nat -> INR n < M - 2.
Proof.
  intros (H1 & H2 & H3) Hn. unfold node_count in H3. pose proof M_large as HM.
  assert (Hz : (Z.of_nat n < 2 ^ 32)%Z) by nia.
  rewrite INR_IZR_INZ. apply IZR_lt in Hz. assert (IZR (2 ^ 32) + 2 < IZR (2 ^ 40)) by (rewrite <- plus_IZR; apply IZR_lt; reflexivity). lra.
Qed.

(** Somewhere on [0, n] the distance to [p] vanishes or changes sign. *)
Lemma straddle n p : (1 <= n)%nat -> 0 <= p <= INR n -> exists x, (x < n)%nat /\ INR x <= p <= INR (x + 1).
Proof.
  intros H1. induction n as [|n IH]; [lia|]. intros [Hp0 Hp].
  destruct (Rle_lt_dec (INR n) p) as [Hle|Hlt].
  - exists n. split; [lia|]. rewrite Nat.add_1_r. lra.
  - assert (Hn : (1 <= n)%nat). { destruct n; [cbn in Hlt; lra|lia]. }
    destruct (IH Hn) as (x & Hx & Hb); [lra|]. exists x. split; [lia|exact Hb].
Qed.

Lemma abs_dist sg (a p n : R) : sg = 1 \/ sg = -1 -> 0 <= a <= n -> 0 <= p <= n -> Rabs (sg * (a - p)) <= n.
Proof. intros [->| ->] Ha Hp; apply Rabs_le; lra. Qed.

Lemma march_axis_x W H (mesh : Mesh R) sg p copy : topo W H mesh -> sg = 1 \/ sg = -1 -> 0 <= p <= INR W ->
  length copy = node_count W H ->
  (forall x y, (x <= W)%nat -> (y <= H)%nat -> copy !! node_id W x y = Some (sg * (INR x - p))) ->
  exists o', fmm_march mesh (fmm_new mesh false) copy = Ok (o', copy).
Proof.
  intros Ht Hsg Hp HL Hv. pose proof (tp_fits _ _ _ Ht) as Hfit. pose proof Hfit as (HW & HH & _).
  apply (march_axis W H mesh Ht (fun i => sg * (INR (i mod (W + 1)) - p)) (fun j => match j with 0%nat => - sg | 1%nat => sg | _ => 0 end) 0 sg); auto; cbn [Nat.mul Nat.add Nat.sub]; try lra; try lia.
  - intros i j Hi Hj Hb. pose proof (nb_coords W H i j Hi Hj Hb) as HC. cbv zeta in HC.
    destruct j as [|[|[|j]]].
    + destruct HC as [-> _]. rewrite plus_INR. cbn [INR]. ring.
    + destruct HC as [-> _]. rewrite plus_INR. cbn [INR]. ring.
    + destruct HC as [_ ->]. ring.
    + destruct HC as [_ ->]. ring.
  - intros i e Hi He Hpos. destruct (node_id_split W H i Hi) as (Hx & Hy & E).
    set (x := (i mod (W + 1))%nat) in *. set (y := (i / (W + 1))%nat) in *.
    pose proof (pos_INR x). apply le_INR in Hx as HxR.
    assert (Hcase : sg = e /\ (0 < x)%nat \/ sg = - e /\ (x < W)%nat).
    { destruct He as [->| ->], Hsg as [->| ->].
      - left. split; [lra|]. destruct x; [cbn in Hpos; lra|lia].
      - right. split; [lra|]. destruct (Nat.eq_dec x W) as [E2|]; [|lia]. rewrite E2 in Hpos. lra.
      - right. split; [lra|]. destruct (Nat.eq_dec x W) as [E2|]; [|lia]. rewrite E2 in Hpos. lra.
      - left. split; [lra|]. destruct x; [cbn in Hpos; lra|lia]. }
    destruct Hcase as [[-> Hx0]|[-> Hx0]].
    + exists 0%nat. rewrite E, nb_left by lia. split; [lia|]. split; [apply node_id_lt; lia|reflexivity].
    + exists 1%nat. rewrite E, nb_right by lia. split; [lia|]. split; [apply node_id_lt; lia|lra].
  - intros i Hi. destruct (node_id_split W H i Hi) as (Hx & Hy & E).
    eapply Rle_lt_trans; [apply (abs_dist sg _ p (INR W)); auto|apply (fits_bound W H); auto].
    split; [apply pos_INR|apply le_INR; exact Hx].
  - intros i Hi. destruct (node_id_split W H i Hi) as (Hx & Hy & E). rewrite E at 1. apply Hv; assumption.
  - destruct (straddle W p HW Hp) as (x & Hx & Hxp).
    assert (HZ : forall x, (x <= W)%nat -> INR x = p -> exists i, (i < node_count W H)%nat /\ on_front W H copy i).
    { intros x' Hx' E. exists (node_id W x' 0). split; [apply node_id_lt; lia|]. left.
      exists (sg * (INR x' - p)). split; [apply Hv; lia|]. apply Reqb_true. rewrite E. cbn. ring. }
    destruct (Req_dec (INR x) p) as [E0|Hne]; [apply (HZ x); [lia|exact E0]|].
    destruct (Req_dec (INR (x + 1)) p) as [E1|Hne1]; [apply (HZ (x + 1)%nat); [lia|exact E1]|].
    exists (node_id W x 0). split; [apply node_id_lt; lia|].
    right. exists (node_id W (x + 1) 0). split; [left; exists x, 0%nat, (x + 1)%nat; repeat split; lia|].
    exists (sg * (INR x - p)), (sg * (INR (x + 1) - p)). split; [apply Hv; lia|]. split; [apply Hv; lia|].
    apply Rltb_true. change (sg * (INR x - p) * (sg * (INR (x + 1) - p)) < 0).
    rewrite plus_INR in *. cbn [INR] in *. destruct Hsg as [->| ->]; nra.
Qed.

Lemma march_axis_y W H (mesh : Mesh R) sg p copy : topo W H mesh -> sg = 1 \/ sg = -1 -> 0 <= p <= INR H ->
  length copy = node_count W H ->
  (forall x y, (x <= W)%nat -> (y <= H)%nat -> copy !! node_id W x y = Some (sg * (INR y - p))) ->
  exists o', fmm_march mesh (fmm_new mesh false) copy = Ok (o', copy).
Proof.
  intros Ht Hsg Hp HL Hv. pose proof (tp_fits _ _ _ Ht) as Hfit. pose proof Hfit as (HW & HH & _).
  apply (march_axis W H mesh Ht (fun i => sg * (INR (i / (W + 1)) - p)) (fun j => match j with 2%nat => - sg | 3%nat => sg | _ => 0 end) 1 sg); auto; cbn [Nat.mul Nat.add Nat.sub]; try lra; try lia.
  - intros i j Hi Hj Hb. pose proof (nb_coords W H i j Hi Hj Hb) as HC. cbv zeta in HC.
    destruct j as [|[|[|[|j]]]]; [| | | |lia].
    + destruct HC as [_ ->]. ring.
    + destruct HC as [_ ->]. ring.
    + destruct HC as [-> _]. rewrite plus_INR. cbn [INR]. ring.
    + destruct HC as [-> _]. rewrite plus_INR. cbn [INR]. ring.
  - intros i e Hi He Hpos. destruct (node_id_split W H i Hi) as (Hx & Hy & E).
    set (x := (i mod (W + 1))%nat) in *. set (y := (i / (W + 1))%nat) in *.
    pose proof (pos_INR y). apply le_INR in Hy as HyR.
    assert (Hcase : sg = e /\ (0 < y)%nat \/ sg = - e /\ (y < H)%nat).
    { destruct He as [->| ->], Hsg as [->| ->].
      - left. split; [lra|]. destruct y; [cbn in Hpos; lra|lia].
      - right. split; [lra|]. destruct (Nat.eq_dec y H) as [E2|]; [|lia]. rewrite E2 in Hpos. lra.
      - right. split; [lra|]. destruct (Nat.eq_dec y H) as [E2|]; [|lia]. rewrite E2 in Hpos. lra.
      - left. split; [lra|]. destruct y; [cbn in Hpos; lra|lia]. }
    destruct Hcase as [[-> Hx0]|[-> Hx0]].
    + exists 2%nat. rewrite E, nb_down by lia. split; [lia|]. split; [apply node_id_lt; lia|reflexivity].
    + exists 3%nat. rewrite E, nb_up by lia. split; [lia|]. split; [apply node_id_lt; lia|lra].
  - intros i Hi. destruct (node_id_split W H i Hi) as (Hx & Hy & E).
    eapply Rle_lt_trans; [apply (abs_dist sg _ p (INR H)); auto|apply (fits_bound W H); auto].
    split; [apply pos_INR|apply le_INR; exact Hy].
  - intros i Hi. destruct (node_id_split W H i Hi) as (Hx & Hy & E). rewrite E at 1. apply Hv; assumption.
  - destruct (straddle H p HH Hp) as (x & Hx & Hxp).
    assert (HZ : forall x, (x <= H)%nat -> INR x = p -> exists i, (i < node_count W H)%nat /\ on_front W H copy i).
    { intros x' Hx' E. exists (node_id W 0 x'). split; [apply node_id_lt; lia|]. left.
      exists (sg * (INR x' - p)). split; [apply Hv; lia|]. apply Reqb_true. rewrite E. cbn. ring. }
    destruct (Req_dec (INR x) p) as [E0|Hne]; [apply (HZ x); [lia|exact E0]|].
    destruct (Req_dec (INR (x + 1)) p) as [E1|Hne1]; [apply (HZ (x + 1)%nat); [lia|exact E1]|].
    exists (node_id W 0 x). split; [apply node_id_lt; lia|].
    right. exists (node_id W 0 (x + 1)). split; [right; exists 0%nat, x, (x + 1)%nat; repeat split; lia|].
    exists (sg * (INR x - p)), (sg * (INR (x + 1) - p)). split; [apply Hv; lia|]. split; [apply Hv; lia|].
    apply Rltb_true. change (sg * (INR x - p) * (sg * (INR (x + 1) - p)) < 0).
    rewrite plus_INR in *. cbn [INR] in *. destruct Hsg as [->| ->]; nra.
Qed.
