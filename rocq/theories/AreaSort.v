(** * AreaSort: the sorted polygon of a cut element and its area, in exact arithmetic. *)

From Verif Require Import Base Num NumR MeshModel LevelSetModel.
From Coq Require Import Reals Lra Psatz.
From stdpp Require Import sorting.
Local Open Scope R_scope.

(** ** Insertion sort by a key. *)
Section Sort.
  Context {A : Type} (comp : A -> A -> bool) (key : A -> R).
  Definition kle (x y : A) : Prop := key x <= key y.
  Definition agrees (x y : A) : Prop := (comp x y = true -> kle x y) /\ (comp x y = false -> kle y x).
  Lemma back_perm v r : insert_back comp v r ≡ₚ v :: r.
  Proof. induction r as [|x r IH]; [reflexivity|]. cbn. destruct (comp v x); [|reflexivity]. rewrite IH. apply Permutation_swap. Qed.
  Lemma back_sorted v r : (forall x, x ∈ r -> agrees v x) -> StronglySorted (flip kle) r -> StronglySorted (flip kle) (insert_back comp v r).
  Proof.
    induction r as [|x r IH]; intros C S; [repeat constructor|]. apply StronglySorted_inv in S as [S F]. cbn. destruct (C x (elem_of_list_here _ _)) as [Ct Cf].
    destruct (comp v x) eqn:E.
    - constructor; [apply IH; [intros y Hy; apply C; right; exact Hy|exact S]|]. rewrite Forall_forall in *. intros y Hy.
      rewrite back_perm in Hy. apply elem_of_cons in Hy as [-> |Hy]; [apply Ct; reflexivity|apply F, Hy].
    - pose proof (Cf eq_refl) as L.
      constructor; [constructor; assumption|]. constructor; [exact L|]. rewrite Forall_forall in *. intros y Hy. specialize (F y Hy). unfold flip, kle in *. lra.
  Qed.
  Lemma sorted_app (R : A -> A -> Prop) l1 l2 : StronglySorted R (l1 ++ l2) <-> StronglySorted R l1 /\ StronglySorted R l2 /\ forall x y, x ∈ l1 -> y ∈ l2 -> R x y.
  Proof.
    induction l1 as [|a l1 IH]; cbn.
    - split; [intros S; split; [constructor|]; split; [exact S|]; intros x y Hx; apply elem_of_nil in Hx; contradiction|tauto].
    - split.
      + intros S. apply StronglySorted_inv in S as [S F]. apply IH in S as (S1 & S2 & S3). rewrite Forall_forall in F. split; [|split; [exact S2|]].
        * constructor; [exact S1|]. apply Forall_forall. intros y Hy. apply F, elem_of_app. auto.
        * intros x y Hx Hy. apply elem_of_cons in Hx as [-> |Hx]; [apply F, elem_of_app; auto|auto].
      + intros (S1 & S2 & S3). apply StronglySorted_inv in S1 as [S1 F]. constructor.
        * apply IH. split; [exact S1|]. split; [exact S2|]. intros x y Hx Hy. apply S3; [right; exact Hx|exact Hy].
        * rewrite Forall_forall in *. intros y Hy. apply elem_of_app in Hy as [Hy|Hy]; [apply F, Hy|apply S3; [left|exact Hy]].
  Qed.
  Lemma sorted_reverse (R : A -> A -> Prop) l : StronglySorted R l -> StronglySorted (flip R) (reverse l).
  Proof.
    induction l as [|a l IH]; intros S; [constructor|]. apply StronglySorted_inv in S as [S F]. rewrite reverse_cons. apply sorted_app. split; [apply IH, S|].
    split; [repeat constructor|]. intros x y Hx Hy. apply elem_of_list_singleton in Hy as ->. rewrite Forall_forall in F. apply F, elem_of_reverse, Hx.
  Qed.
  Lemma insert_sorted v p : (forall x, x ∈ p -> agrees v x) -> StronglySorted kle p ->
    insert1 comp v p ≡ₚ v :: p /\ StronglySorted kle (insert1 comp v p).
  Proof.
    intros C S. destruct p as [|x p]; [split; [reflexivity|repeat constructor]|]. cbn [insert1].
    destruct (comp v x) eqn:E.
    - split; [reflexivity|]. constructor; [exact S|]. apply C in E; [|left]. constructor; [exact E|]. apply StronglySorted_inv in S as [_ F].
      rewrite Forall_forall in *. intros y Hy. specialize (F y Hy). unfold kle in *. lra.
    - split; [rewrite reverse_Permutation, back_perm, reverse_Permutation; reflexivity|].
      change kle with (flip (flip kle)). apply sorted_reverse, back_sorted.
      + intros y Hy. apply C, elem_of_reverse, Hy.
      + apply sorted_reverse, S.
  Qed.
  Lemma sort_sorted l : (forall x y, x ∈ l -> y ∈ l -> agrees x y) -> insertion_sort comp l ≡ₚ l /\ StronglySorted kle (insertion_sort comp l).
  Proof.
    intros Ag. unfold insertion_sort.
    assert (G : forall k p, p ++ k ≡ₚ l -> StronglySorted kle p -> fold_left (fun p v => insert1 comp v p) k p ≡ₚ l /\ StronglySorted kle (fold_left (fun p v => insert1 comp v p) k p)).
    { induction k as [|v k IH]; intros p Pm S; [rewrite app_nil_r in Pm; auto|]. cbn [fold_left].
      assert (C : forall x, x ∈ p -> agrees v x).
      { intros x Hx. apply Ag; [rewrite <- Pm; apply elem_of_app; right; left|rewrite <- Pm; apply elem_of_app; left; exact Hx]. }
      destruct (insert_sorted v p C S) as [P1 S1]. apply IH; [|exact S1]. rewrite P1. cbn. rewrite <- Pm. apply Permutation_middle. }
    apply (G l []); [reflexivity|constructor].
  Qed.
  Lemma sorted_key l : StronglySorted kle l -> StronglySorted Rle (map key l).
  Proof. induction l as [|x l IH]; intros S; [constructor|]. apply StronglySorted_inv in S as [S F]. cbn. constructor; [apply IH, S|]. apply Forall_fmap. exact F. Qed.
  Lemma sorted_unique l1 l2 : StronglySorted kle l1 -> StronglySorted kle l2 -> l1 ≡ₚ l2 -> (forall x y, x ∈ l1 -> y ∈ l1 -> key x = key y -> x = y) -> l1 = l2.
  Proof.
    intros S1 S2 P Inj. assert (AntiSymm (=) Rle) by (intros x y X Y; lra).
    assert (E : map key l1 = map key l2) by (apply (StronglySorted_unique Rle); [apply sorted_key, S1|apply sorted_key, S2|rewrite P; reflexivity]).
    assert (In2 : forall y, y ∈ l2 -> y ∈ l1) by (intros y Hy; rewrite P; exact Hy). clear - E Inj In2.
    revert l2 E In2. induction l1 as [|x l1 IH]; intros [|y l2] E In2; try discriminate E; [reflexivity|]. cbn in E. injection E as E1 E2.
    assert (x = y) by (apply Inj; [left|apply In2; left|exact E1]). subst y. f_equal. clear - E2 Inj In2.
    assert (G : forall (l l' : list A), map key l = map key l' -> (forall a, a ∈ l -> a ∈ x :: l1) -> (forall a, a ∈ l' -> a ∈ x :: l1) -> l = l').
    { induction l as [|a l IH]; intros [|a' l'] E Ha Ha'; try discriminate E; [reflexivity|]. cbn in E. injection E as Ea El. f_equal.
      - apply Inj; [apply Ha; left|apply Ha'; left|exact Ea].
      - apply IH; [exact El|intros; apply Ha; right; assumption|intros; apply Ha'; right; assumption]. }
    apply G; [exact E2|intros; right; assumption|intros a Ha; apply In2; right; exact Ha].
  Qed.
End Sort.
Lemma sort_map {A B} (g : A -> B) (comp : B -> B -> bool) l : insertion_sort comp (map g l) = map g (insertion_sort (fun a b => comp (g a) (g b)) l).
Proof.
  unfold insertion_sort.
  assert (Bk : forall v r, insert_back comp (g v) (map g r) = map g (insert_back (fun a b => comp (g a) (g b)) v r)).
  { intros v r. induction r as [|x r IH]; [reflexivity|]. cbn. destruct (comp (g v) (g x)); cbn; [rewrite IH|]; reflexivity. }
  assert (I1 : forall v p, insert1 comp (g v) (map g p) = map g (insert1 (fun a b => comp (g a) (g b)) v p)).
  { intros v p. destruct p as [|x p]; [reflexivity|]. cbn [map insert1]. destruct (comp (g v) (g x)); [reflexivity|].
    change (g x :: map g p) with (map g (x :: p)). unfold reverse. rewrite !rev_append_rev, !app_nil_r, <- map_rev, Bk, <- map_rev. reflexivity. }
  assert (G : forall k p, fold_left (fun p v => insert1 comp v p) (map g k) (map g p) = map g (fold_left (fun p v => insert1 (fun a b => comp (g a) (g b)) v p) k p)).
  { induction k as [|v k IH]; intros p; [reflexivity|]. cbn [map fold_left]. rewrite I1. apply IH. }
  exact (G l []).
Qed.

(** ** The border of the square [X, X+1] x [Y, Y+1], anticlockwise from the bottom left corner. *)
Definition rim (X Y t : R) : Coord R :=
  if Rle_dec t 1 then mkCoord (X + t) Y
  else if Rle_dec t 2 then mkCoord (X + 1) (Y + (t - 1))
  else if Rle_dec t 3 then mkCoord (X + (3 - t)) (Y + 1)
  else mkCoord X (Y + (4 - t)).
(** The order used by the sort starts after the middle of the top. *)
Definition rkey (t : R) : R := if Rle_dec t (5 / 2) then t else t - 4.
Lemma rkey_inj t t' : 0 <= t < 4 -> 0 <= t' < 4 -> rkey t = rkey t' -> t = t'.
Proof. unfold rkey. destruct (Rle_dec t (5 / 2)), (Rle_dec t' (5 / 2)); lra. Qed.
Definition spot (s u v : R) : Prop :=
  (s <= 1 /\ u = s - / 2 /\ v = - / 2) \/ (1 < s <= 2 /\ u = / 2 /\ v = s - 3 / 2) \/ (2 < s <= 3 /\ u = 5 / 2 - s /\ v = / 2) \/ (3 < s /\ u = - / 2 /\ v = 7 / 2 - s).
Lemma det_right s s' u v u' v' : 0 <= s < 4 -> 0 <= s' < 4 -> spot s u v -> spot s' u' v' -> 0 <= u -> 0 <= u' -> ~ (u = 0 /\ u' = 0) -> s < s' -> 0 < u * v' - u' * v.
Proof.
  unfold spot. intros L L' [(A & -> & ->)|[(A & -> & ->)|[(A & -> & ->)|(A & -> & ->)]]] [(B & -> & ->)|[(B & -> & ->)|[(B & -> & ->)|(B & -> & ->)]]] U U' N S; try lra; nra.
Qed.
Lemma det_left s s' u v u' v' : 0 <= s < 4 -> 0 <= s' < 4 -> spot s u v -> spot s' u' v' -> u < 0 -> u' < 0 -> rkey s < rkey s' -> 0 < u * v' - u' * v.
Proof.
  unfold spot, rkey. intros L L' [(A & -> & ->)|[(A & -> & ->)|[(A & -> & ->)|(A & -> & ->)]]] [(B & -> & ->)|[(B & -> & ->)|[(B & -> & ->)|(B & -> & ->)]]] U U';
    destruct (Rle_dec s (5 / 2)), (Rle_dec s' (5 / 2)); intros S; try lra; nra.
Qed.
Lemma clockwise_rim X Y t t' : 0 <= t < 4 -> 0 <= t' < 4 -> t <> t' ->
  (isClockwise (mkCoord (X + / 2) (Y + / 2)) (rim X Y t) (rim X Y t') = true <-> rkey t < rkey t').
Proof.
  intros Lt Lt' Ne. unfold isClockwise.
  assert (E : forall s, exists u v, rim X Y s = mkCoord (X + / 2 + u) (Y + / 2 + v) /\
    spot s u v).
  { intros s. unfold rim, spot. destruct (Rle_dec s 1); [exists (s - / 2), (- / 2); split; [f_equal; lra|lra]|].
    destruct (Rle_dec s 2); [exists (/ 2), (s - 3 / 2); split; [f_equal; lra|lra]|].
    destruct (Rle_dec s 3); [exists (5 / 2 - s), (/ 2); split; [f_equal; lra|lra]|exists (- / 2), (7 / 2 - s); split; [f_equal; lra|lra]]. }
  destruct (E t) as (u & v & -> & D), (E t') as (u' & v' & -> & D'). cbn [cx cy nsub NumR].
  replace (X + / 2 + u - (X + / 2)) with u by ring. replace (X + / 2 + u' - (X + / 2)) with u' by ring.
  replace (Y + / 2 + v - (Y + / 2)) with v by ring. replace (Y + / 2 + v' - (Y + / 2)) with v' by ring.
  change (@n0 R NumR) with 0. cbn [nleb nltb neqb nmul nsub NumR].
  assert (Hr : 0 <= u -> rkey t = t). { unfold spot, rkey in *. destruct (Rle_dec t (5 / 2)); lra. }
  assert (Hr' : 0 <= u' -> rkey t' = t'). { unfold spot, rkey in *. destruct (Rle_dec t' (5 / 2)); lra. }
  assert (Hk : rkey t <> rkey t'). { intros Eq. apply rkey_inj in Eq; lra. }
  destruct (Rleb_spec 0 u), (Rltb_spec u' 0); cbn [andb].
  1: { split; [discriminate|]. rewrite Hr by assumption. unfold rkey, spot in *. destruct (Rle_dec t' (5 / 2)); lra. }
  all: destruct (Rltb_spec u 0), (Rleb_spec 0 u'); cbn [andb]; try lra.
  - rewrite Hr, Hr' in * by assumption. destruct (Reqb_spec u 0), (Reqb_spec u' 0); cbn [andb].
    1: { destruct (Rleb_spec 0 v), (Rleb_spec 0 v'); cbn [orb]; match goal with |- context [Rltb ?a ?b] => destruct (Rltb_spec a b) end; split; intros; try discriminate; try reflexivity; unfold spot in *; lra. }
    all: destruct (Rltb_spec (u * v' - u' * v) 0); split; intros; try discriminate; try reflexivity.
    all: destruct (Rtotal_order t t') as [S|[S|S]]; [|lra|]; try assumption;
      first [pose proof (det_right t t' u v u' v' Lt Lt' D D' ltac:(lra) ltac:(lra) ltac:(lra) S); lra
            |pose proof (det_right t' t u' v' u v Lt' Lt D' D ltac:(lra) ltac:(lra) ltac:(lra) S); lra].
  - rewrite (proj2 (Reqb_false u 0)) by lra. cbn [andb]. destruct (Rltb_spec (u * v' - u' * v) 0); split; intros S; try discriminate; try reflexivity.
    + pose proof (det_left t t' u v u' v' Lt Lt' D D' ltac:(lra) ltac:(lra) S). lra.
    + destruct (Rtotal_order (rkey t) (rkey t')) as [S'|[S'|S']]; [exact S'|lra|].
      pose proof (det_left t' t u' v' u v Lt' Lt D' D ltac:(lra) ltac:(lra) S'). lra.
  - split; [intros _|reflexivity]. rewrite Hr' by assumption. unfold rkey, spot in *. destruct (Rle_dec t (5 / 2)); lra.
Qed.

(** ** The area. *)
Definition cross (a b : Coord R) : R := cx a * cy b - cx b * cy a.
Fixpoint path (l : list (Coord R)) : R :=
  match l with a :: (b :: _) as l' => cross a b + path l' | _ => 0 end.
Definition cyc (l : list (Coord R)) : R := match l with [] => 0 | a :: _ => path (l ++ [a]) end.
Lemma path_cons a l : path (a :: l) = match l with [] => 0 | b :: _ => cross a b + path l end.
Proof. destruct l; reflexivity. Qed.
Lemma path_split l a l' : path (l ++ a :: l') = path (l ++ [a]) + path (a :: l').
Proof.
  induction l as [|x l IH]; [change (path (a :: l') = 0 + path (a :: l')); lra|].
  destruct l as [|y l]; [change (cross x a + path (a :: l') = (cross x a + 0) + path (a :: l')); lra|].
  change (cross x y + path ((y :: l) ++ a :: l') = (cross x y + path ((y :: l) ++ [a])) + path (a :: l')). rewrite IH. lra.
Qed.
Lemma cyc_rotate l l' : cyc (l ++ l') = cyc (l' ++ l).
Proof.
  destruct l as [|a l]; [rewrite app_nil_r; reflexivity|]. destruct l' as [|b l']; [rewrite app_nil_r; reflexivity|].
  unfold cyc. cbn [app]. rewrite <- !app_assoc. cbn [app].
  change (a :: l ++ b :: l' ++ [a]) with ((a :: l) ++ b :: (l' ++ [a])). change (b :: l' ++ a :: l ++ [b]) with ((b :: l') ++ a :: (l ++ [b])).
  rewrite (path_split (a :: l) b), (path_split (b :: l') a). cbn [app]. lra.
Qed.
Lemma shoelace_cyc vs : (length vs <= 6)%nat -> shoelace vs = Ok (cyc vs).
Proof.
  intros L. do 7 (destruct vs as [|? vs]; [lazy -[Rmult Rplus Rminus IZR cx cy]; f_equal; ring|]). cbn in L. lia.
Qed.
Lemma sorted_split L : StronglySorted Rle L -> exists A B, L = A ++ B /\ Forall (fun t => t <= 5 / 2) A /\ Forall (fun t => 5 / 2 < t) B.
Proof.
  induction L as [|t L IH]; intros S; [exists [], []; repeat split; constructor|]. apply StronglySorted_inv in S as [S F].
  destruct (Rle_dec t (5 / 2)).
  - destruct (IH S) as (A & B & -> & FA & FB). exists (t :: A), B. split; [reflexivity|]. split; [constructor; assumption|exact FB].
  - exists [], (t :: L). split; [reflexivity|]. split; [constructor|]. constructor; [lra|]. eapply Forall_impl; [exact F|]. cbn. intros; lra.
Qed.
Lemma sorted_weak {A} (R1 R2 : A -> A -> Prop) l : StronglySorted R1 l -> (forall x y, x ∈ l -> y ∈ l -> R1 x y -> R2 x y) -> StronglySorted R2 l.
Proof.
  induction l as [|a l IH]; intros S I; [constructor|]. apply StronglySorted_inv in S as [S F]. constructor.
  - apply IH; [exact S|]. intros x y Hx Hy. apply I; right; assumption.
  - rewrite Forall_forall in *. intros y Hy. apply I; [left|right; exact Hy|apply F, Hy].
Qed.
Lemma polygon_rim X Y L vs : StronglySorted Rle L -> Forall (fun t => 0 <= t < 4) L -> vs ≡ₚ map (rim X Y) L -> (length L <= 6)%nat ->
  polygonArea vs (mkCoord (X + / 2) (Y + / 2)) = Ok (Rabs (cyc (map (rim X Y) L) * / 2)).
Proof.
  intros S F P Hl. apply Permutation_map_inv in P as (L' & -> & P'). unfold polygonArea. rewrite sort_map.
  set (c := mkCoord (X + / 2) (Y + / 2)). set (comp := fun a b => isClockwise c (rim X Y a) (rim X Y b)).
  assert (In4 : forall t, t ∈ L' -> 0 <= t < 4). { intros t Ht. rewrite Forall_forall in F. apply F. rewrite P'. exact Ht. }
  destruct (sort_sorted comp rkey L') as [P1 S1].
  { intros x y Hx Hy. unfold agrees, kle. destruct (Req_dec x y) as [->|Ne]; [lra|]. pose proof (clockwise_rim X Y x y (In4 x Hx) (In4 y Hy) Ne) as C. fold c in C. change (isClockwise c (rim X Y x) (rim X Y y)) with (comp x y) in C.
    split; intros E; [apply C in E; lra|]. destruct (Rlt_dec (rkey x) (rkey y)) as [L0|L0]; [apply C in L0; congruence|lra]. }
  destruct (sorted_split L S) as (A & B & E & FA & FB).
  assert (E2 : insertion_sort comp L' = B ++ A).
  { apply (sorted_unique rkey); [exact S1| | |intros x y Hx Hy; apply rkey_inj; apply In4; rewrite <- P1; assumption].
    - rewrite E in S. apply sorted_app in S as (SA & SB & _). rewrite Forall_forall in FA, FB. apply sorted_app. split; [|split].
      + eapply sorted_weak; [exact SB|]. intros x y Hx Hy Lxy. unfold kle, rkey. apply FB in Hx, Hy. destruct (Rle_dec x (5 / 2)), (Rle_dec y (5 / 2)); lra.
      + eapply sorted_weak; [exact SA|]. intros x y Hx Hy Lxy. unfold kle, rkey. apply FA in Hx, Hy. destruct (Rle_dec x (5 / 2)), (Rle_dec y (5 / 2)); lra.
      + intros x y Hx Hy. unfold kle, rkey. assert (In4x : 0 <= x < 4) by (apply In4; rewrite <- P', E; apply elem_of_app; auto). assert (In4y : 0 <= y < 4) by (apply In4; rewrite <- P', E; apply elem_of_app; auto).
        apply FB in Hx. apply FA in Hy. destruct (Rle_dec x (5 / 2)), (Rle_dec y (5 / 2)); lra.
    - rewrite P1, <- P', E. apply Permutation_app_comm. }
  rewrite E2, shoelace_cyc.
  - cbn [obind]. rewrite map_app, cyc_rotate, <- map_app, <- E. f_equal. cbn [nabs nmul NumR]. f_equal. f_equal. cbn. lra.
  - rewrite map_length, app_length. rewrite E, app_length in Hl. lia.
Qed.
