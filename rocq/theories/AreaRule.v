(** * AreaRule: the polygons of a cut element have the areas of [area_rule]. *)

From Verif Require Import Base Num NumR MeshModel LevelSetModel BoundarySpecR BoundaryGraph BoundaryLocal AreaSort.
From Coq Require Import Reals Lra Psatz.
From stdpp Require Import sorting.
Local Open Scope R_scope.

Lemma rim0 X Y u : 0 <= u <= 1 -> rim X Y (0 + u) = mkCoord (X + u) Y.
Proof. intros L. unfold rim. destruct (Rle_dec (0 + u) 1); [f_equal; lra|lra]. Qed.
Lemma rim1 X Y u : 0 <= u <= 1 -> rim X Y (1 + u) = mkCoord (X + 1) (Y + u).
Proof. intros L. unfold rim. destruct (Rle_dec (1 + u) 1); [f_equal; lra|]. destruct (Rle_dec (1 + u) 2); [f_equal; lra|lra]. Qed.
Lemma rim2 X Y u : 0 <= u <= 1 -> rim X Y (2 + u) = mkCoord (X + (1 - u)) (Y + 1).
Proof. intros L. unfold rim. destruct (Rle_dec (2 + u) 1); [lra|]. destruct (Rle_dec (2 + u) 2); [f_equal; lra|]. destruct (Rle_dec (2 + u) 3); [f_equal; lra|lra]. Qed.
Lemma rim3 X Y u : 0 <= u <= 1 -> rim X Y (3 + u) = mkCoord X (Y + (1 - u)).
Proof. intros L. unfold rim. destruct (Rle_dec (3 + u) 1); [lra|]. destruct (Rle_dec (3 + u) 2); [lra|]. destruct (Rle_dec (3 + u) 3); [f_equal; lra|f_equal; lra]. Qed.

(** ** The vertices, anticlockwise. *)
Definition base4 (a : nat) : R := match a with 0%nat => 0 | 1%nat => 1 | 2%nat => 2 | _ => 3 end.
Definition sel (s : nat -> NodeStatus) (o : bool) (a : nat) : bool :=
  (if o then is_outside (s a) else is_inside (s a)) || (is_boundary (s a) && is_inside (s (next a)) && is_inside (s (prev a))).
Definition at_corner (a : nat) (v : vert) : bool := match v with Corner j => (j =? a)%nat | Edge _ => false end.
Definition at_edge (a : nat) (v : vert) : bool := match v with Edge j => (j =? a)%nat | Corner _ => false end.
Definition around (s : nat -> NodeStatus) (c o : bool) : list vert :=
  let V := verts (local_segs s c) in
  flat_map (fun a => (if sel s o a then [Corner a] else []) ++ List.filter (at_corner a) V ++ List.filter (at_edge a) V) [0; 1; 2; 3]%nat.
Global Instance vert_dec : EqDecision vert.
Proof. solve_decision. Defined.
Definition three (s : NodeStatus) : Prop := s = NS_INSIDE \/ s = NS_OUTSIDE \/ s = NS_BOUNDARY.
Lemma around_perm s0 s1 s2 s3 c o : three s0 -> three s1 -> three s2 -> three s3 -> let s := tab4 s0 s1 s2 s3 in
  map Corner (List.filter (sel s o) [0; 1; 2; 3]%nat) ++ verts (local_segs s c) ≡ₚ around s c o.
Proof.
  intros [-> | [-> | ->]] [-> | [-> | ->]] [-> | [-> | ->]] [-> | [-> | ->]]; destruct c, o; apply (bool_decide_unpack _); vm_compute; exact I.
Qed.

Lemma share_opp x y : x * y < 0 -> 0 < share x y < 1 /\ share y x = 1 - share x y /\ share x y = x / (x - y).
Proof.
  intros L. unfold share. destruct (Rlt_dec x 0).
  - assert (0 < y) by nra. rewrite (Rabs_left x), (Rabs_right y) by lra.
    assert (E : 0 < -x + y) by lra. split; [|split; field; lra]. set (q := - x / (- x + y)). assert (q * (- x + y) = - x) by (unfold q; field; lra). nra.
  - assert (y < 0) by nra. assert (0 < x) by nra. rewrite (Rabs_right x), (Rabs_left y) by lra.
    split; [|split; field; lra]. set (q := x / (x + - y)). assert (q * (x + - y) = x) by (unfold q; field; lra). nra.
Qed.


Lemma share_zero x : x <> 0 -> share x 0 = 1 /\ share 0 x = 0.
Proof.
  intros N. unfold share. rewrite Rabs_R0. assert (Rabs x <> 0) by (apply Rabs_no_R0, N). split; field; lra.
Qed.

Definition sgn (v : R) : NodeStatus := if Rltb 0 v then NS_INSIDE else if Rltb v 0 then NS_OUTSIDE else NS_BOUNDARY.
Lemma sgn_three v : three (sgn v).
Proof. unfold sgn, three. destruct (Rltb 0 v), (Rltb v 0); auto. Qed.
Lemma sgn_spec v : match sgn v with NS_INSIDE => 0 < v | NS_OUTSIDE => v < 0 | _ => v = 0 end.
Proof. unfold sgn. destruct (Rltb_spec 0 v); [assumption|]. destruct (Rltb_spec v 0); [assumption|lra]. Qed.
Lemma sgn_pos v : 0 < v -> sgn v = NS_INSIDE.
Proof. intros L. unfold sgn. rewrite (proj2 (Rltb_true 0 v) L). reflexivity. Qed.
Lemma sgn_neg v : v < 0 -> sgn v = NS_OUTSIDE.
Proof. intros L. unfold sgn. rewrite (proj2 (Rltb_false 0 v)), (proj2 (Rltb_true v 0) L) by lra. reflexivity. Qed.
Lemma sgn_zero v : v = 0 -> sgn v = NS_BOUNDARY.
Proof. intros ->. unfold sgn. rewrite (proj2 (Rltb_false 0 0)) by lra. reflexivity. Qed.

(** The shares [w] and [v] of the two ends of an edge. *)
Definition shares (s t : NodeStatus) (w v : R) : Prop :=
  match s, t with
  | NS_INSIDE, NS_OUTSIDE | NS_OUTSIDE, NS_INSIDE => 0 < w < 1 /\ v = 1 - w
  | NS_INSIDE, NS_BOUNDARY | NS_OUTSIDE, NS_BOUNDARY => w = 1 /\ v = 0
  | NS_BOUNDARY, NS_INSIDE | NS_BOUNDARY, NS_OUTSIDE => w = 0 /\ v = 1
  | _, _ => True
  end.
Lemma share_cases x y : shares (sgn x) (sgn y) (share x y) (share y x).
Proof.
  pose proof (sgn_spec x) as Sx. pose proof (sgn_spec y) as Sy. destruct (sgn_three x) as [E|[E|E]], (sgn_three y) as [F|[F|F]]; rewrite E, F in *; cbn; try exact I.
  1, 3: destruct (share_opp x y) as (A & B & _); [nra|auto].
  1, 2: rewrite Sy; destruct (share_zero x); [lra|auto].
  1, 2: rewrite Sx; destruct (share_zero y); [lra|auto].
Qed.

Ltac eval_around := match goal with |- context [around ?s ?c ?o] => let l := eval vm_compute in (around s c o) in change (around s c o) with l end.
Section Rule.
  Variables (X Y : R) (c : bool).
  Definition out4 (s0 s1 s2 s3 : NodeStatus) (big : bool) : bool := cutb s0 s1 && cutb s1 s2 && cutb s2 s3 && cutb s3 s0 && negb big.
  Definition spot4 (w0 w1 w2 w3 : R) (v : vert) : R :=
    match v with Corner a => base4 a + 0 | Edge a => base4 a + match a with 0%nat => w0 | 1%nat => w1 | 2%nat => w2 | _ => w3 end end.
  Definition poly4 s0 s1 s2 s3 big w0 w1 w2 w3 : list R := map (spot4 w0 w1 w2 w3) (around (tab4 s0 s1 s2 s3) c (out4 s0 s1 s2 s3 big)).
  Definition part4 s0 s1 s2 s3 big w0 w1 w2 w3 : R :=
    match base_status (tab4 s0 s1 s2 s3) with
    | ES_INSIDE => 1
    | ES_OUTSIDE => 0
    | _ => let A := Rabs (cyc (map (rim X Y) (poly4 s0 s1 s2 s3 big w0 w1 w2 w3)) * / 2) in if out4 s0 s1 s2 s3 big then 1 - A else A
    end.
  (** The same in closed form. *)
  Definition form4 (s0 s1 s2 s3 : NodeStatus) (big : bool) (w0 w1 w2 w3 v0 v1 v2 v3 : R) : R :=
    match is_outside s0, is_outside s1, is_outside s2, is_outside s3 with
    | false, false, false, false => 1
    | true, true, true, true => 0
    | true, false, false, false => 1 - w0 * v3 / 2
    | false, true, false, false => 1 - w1 * v0 / 2
    | false, false, true, false => 1 - w2 * v1 / 2
    | false, false, false, true => 1 - w3 * v2 / 2
    | false, false, true, true => (v3 + w1) / 2
    | true, false, false, true => (v0 + w2) / 2
    | true, true, false, false => (v1 + w3) / 2
    | false, true, true, false => (v2 + w0) / 2
    | false, true, true, true => w0 * v3 / 2
    | true, false, true, true => w1 * v0 / 2
    | true, true, false, true => w2 * v1 / 2
    | true, true, true, false => w3 * v2 / 2
    | false, true, false, true => if is_boundary s0 || is_boundary s2 then w0 * v3 / 2 + w2 * v1 / 2 else if big then 1 - w1 * v0 / 2 - w3 * v2 / 2 else w0 * v3 / 2 + w2 * v1 / 2
    | true, false, true, false => if is_boundary s1 || is_boundary s3 then w1 * v0 / 2 + w3 * v2 / 2 else if big then 1 - w0 * v3 / 2 - w2 * v1 / 2 else w1 * v0 / 2 + w3 * v2 / 2
    end.
  Lemma poly4_sorted s0 s1 s2 s3 big w0 w1 w2 w3 v0 v1 v2 v3 : three s0 -> three s1 -> three s2 -> three s3 ->
    shares s0 s1 w0 v0 -> shares s1 s2 w1 v1 -> shares s2 s3 w2 v2 -> shares s3 s0 w3 v3 -> base_status (tab4 s0 s1 s2 s3) = ES_NONE ->
    let L := poly4 s0 s1 s2 s3 big w0 w1 w2 w3 in
    StronglySorted Rle L /\ Forall (fun t => 0 <= t < 4) L /\ (length L <= 6)%nat.
  Proof.
    intros [-> | [-> | ->]] [-> | [-> | ->]] [-> | [-> | ->]] [-> | [-> | ->]]; cbn [shares]; intros U0 U1 U2 U3 Hb; try discriminate Hb; clear Hb;
      unfold poly4; destruct c, big; eval_around; cbn [map spot4 base4]; (split; [|split; [|cbn [length]; lia]]); repeat first [lra|constructor].
  Qed.
  Lemma part4_form s0 s1 s2 s3 big w0 w1 w2 w3 v0 v1 v2 v3 : three s0 -> three s1 -> three s2 -> three s3 ->
    shares s0 s1 w0 v0 -> shares s1 s2 w1 v1 -> shares s2 s3 w2 v2 -> shares s3 s0 w3 v3 ->
    part4 s0 s1 s2 s3 big w0 w1 w2 w3 = (if forallb (fun s => negb (is_outside s)) [s0; s1; s2; s3] then 1 else if forallb (fun s => negb (is_inside s)) [s0; s1; s2; s3] then 0 else form4 s0 s1 s2 s3 big w0 w1 w2 w3 v0 v1 v2 v3) /\
    0 <= part4 s0 s1 s2 s3 big w0 w1 w2 w3 <= 1.
  Proof.
    intros [-> | [-> | ->]] [-> | [-> | ->]] [-> | [-> | ->]] [-> | [-> | ->]]; cbn [shares]; intros U0 U1 U2 U3; unfold part4;
      match goal with |- context [base_status ?s] => let l := eval vm_compute in (base_status s) in change (base_status s) with l end; cbv beta iota zeta; cbn [forallb is_inside is_outside is_boundary negb andb orb form4];
      try (split; [reflexivity|lra]);
      unfold poly4; destruct c, big; eval_around; cbn [map spot4 base4 out4 cutb is_inside is_outside is_boundary negb andb orb];
      repeat match goal with U : _ = 1 /\ _ |- _ => destruct U as [-> ->] | U : _ = 0 /\ _ |- _ => destruct U as [-> ->] | U : (_ < _ < _) /\ _ |- _ => destruct U as [U ->] end;
      rewrite ?rim0, ?rim1, ?rim2, ?rim3 by lra;
      unfold cyc; cbn [path app]; unfold cross; cbn [cx cy];
      lazymatch goal with
      | |- Rabs ?e = ?F /\ _ => replace e with F by field; rewrite Rabs_right by nra; split; [reflexivity|nra]
      | |- 1 - Rabs ?e = ?F /\ _ => replace e with (1 - F) by field; rewrite Rabs_right by nra; split; [ring|nra]
      end.
  Qed.
End Rule.

Section Whole.
  Variables (X Y : R) (c : bool) (z : nat -> R).
  Hypothesis Hper : forall j, z (j + 4)%nat = z j.
  Definition big : bool := Rltb 0 (z 0%nat + z 1%nat + z 2%nat + z 3%nat).
  Definition u (a : nat) : R := share (z a) (z (a + 1)%nat).
  Definition poly : list R := poly4 c (sgn (z 0%nat)) (sgn (z 1%nat)) (sgn (z 2%nat)) (sgn (z 3%nat)) big (u 0) (u 1) (u 2) (u 3).
  Definition part : R := part4 X Y c (sgn (z 0%nat)) (sgn (z 1%nat)) (sgn (z 2%nat)) (sgn (z 3%nat)) big (u 0) (u 1) (u 2) (u 3).
  Lemma z4 : z 4%nat = z 0%nat.
  Proof. rewrite <- (Hper 0). reflexivity. Qed.
  Lemma poly_sorted : base_status (tab4 (sgn (z 0%nat)) (sgn (z 1%nat)) (sgn (z 2%nat)) (sgn (z 3%nat))) = ES_NONE ->
    StronglySorted Rle poly /\ Forall (fun t => 0 <= t < 4) poly /\ (length poly <= 6)%nat.
  Proof.
    apply (poly4_sorted c _ _ _ _ big (u 0) (u 1) (u 2) (u 3) (share (z 1%nat) (z 0%nat)) (share (z 2%nat) (z 1%nat)) (share (z 3%nat) (z 2%nat)) (share (z 0%nat) (z 3%nat)));
      auto using sgn_three; unfold u; cbn [Nat.add]; rewrite ?z4; apply share_cases.
  Qed.
  Lemma sgn_ge v : 0 <= v -> is_outside (sgn v) = false.
  Proof. intros L. unfold sgn. destruct (Rltb 0 v); [reflexivity|]. rewrite (proj2 (Rltb_false v 0)) by lra. reflexivity. Qed.
  Lemma sgn_le v : v <= 0 -> is_inside (sgn v) = false.
  Proof. intros L. unfold sgn. rewrite (proj2 (Rltb_false 0 v)) by lra. destruct (Rltb v 0); reflexivity. Qed.
  Lemma part_rule : area_rule z part.
  Proof.
    destruct (part4_form X Y c (sgn (z 0%nat)) (sgn (z 1%nat)) (sgn (z 2%nat)) (sgn (z 3%nat)) big (u 0) (u 1) (u 2) (u 3)
      (share (z 1%nat) (z 0%nat)) (share (z 2%nat) (z 1%nat)) (share (z 3%nat) (z 2%nat)) (share (z 0%nat) (z 3%nat))) as [E Rg];
      try apply sgn_three; try (unfold u; cbn [Nat.add]; rewrite ?z4; apply share_cases).
    fold part in E, Rg.
    assert (X4 : z 4%nat = z 0%nat) by apply z4. assert (X5 : z 5%nat = z 1%nat) by (rewrite <- (Hper 1); reflexivity). assert (X6 : z 6%nat = z 2%nat) by (rewrite <- (Hper 2); reflexivity).
    assert (X7 : z 7%nat = z 3%nat) by (rewrite <- (Hper 3); reflexivity). assert (X8 : z 8%nat = z 0%nat) by (rewrite <- X4, <- (Hper 4); reflexivity). assert (X9 : z 9%nat = z 1%nat) by (rewrite <- X5, <- (Hper 5); reflexivity).
    unfold u in E. cbn [Nat.add] in E. rewrite X4 in E.
    constructor; [exact Rg|..].
    1: { intros L. cbn [forallb] in E. rewrite !sgn_ge in E by (apply L; lia). exact E. }
    1: { intros L (j & Hj & Lj). cbn [forallb] in E. rewrite !(sgn_le (z _)) in E by (apply L; lia). rewrite E.
         match goal with |- (if ?f then _ else _) = _ => destruct f eqn:F; [exfalso|reflexivity] end.
         rewrite !andb_true_iff in F. destruct F as (F0 & F1 & F2 & F3 & _). apply sgn_neg in Lj.
         destruct j as [|[|[|[|j]]]]; [..|lia]; rewrite Lj in *; discriminate. }
    all: intros j Hj; destruct j as [|[|[|[|j]]]]; [..|lia]; cbn [Nat.add] in *; unfold tip; cbn [Nat.add]; rewrite ?X4, ?X5, ?X6, ?X7, ?X8, ?X9; intros;
      repeat match goal with
      | L : 0 <= z ?j |- _ => apply Rle_lt_or_eq_dec in L as [L|L]; [|symmetry in L]
      | L : z ?j <= 0 |- _ => apply Rle_lt_or_eq_dec in L as [L|L]
      end; try (exfalso; lra);
      repeat match goal with
      | L : 0 < z ?j |- _ => rewrite (sgn_pos _ L) in E; revert L
      | L : z ?j < 0 |- _ => rewrite (sgn_neg _ L) in E; revert L
      | L : z ?j = 0 |- _ => rewrite (sgn_zero _ L) in E; revert L
      end; cbn [forallb is_inside is_outside is_boundary negb andb orb form4] in E; intros; try (rewrite E; reflexivity).
    all: try (split; intros L; unfold big in E; [rewrite (proj2 (Rltb_true 0 _) L) in E|rewrite (proj2 (Rltb_false 0 _) L) in E]; rewrite E; lra).
    all: try (rewrite E; lra).
    all: rewrite E; match goal with L : z _ = 0 |- _ => rewrite L in * end;
      repeat match goal with |- context [share 0 ?y] => rewrite (proj2 (share_zero y ltac:(lra))) end; lra.
  Qed.
End Whole.
