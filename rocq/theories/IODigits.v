(** * IODigits: decimal digits and file names. *)

From Coq Require Import Ascii String NArith ZArith Lia.
From Verif Require Import IOModel.
Local Open Scope nat_scope.

Lemma digit_val n : (n < 10)%N -> N_of_ascii (digit n) = (48 + n)%N.
Proof. intros H. unfold digit. apply N_ascii_embedding. lia. Qed.
Lemma digit_is n : (n < 10)%N -> is_digit (digit n) = true.
Proof.
  intros H. unfold is_digit. rewrite digit_val by exact H. apply andb_true_iff. split; apply N.leb_le; lia.
Qed.

Lemma number_from l : forall a, fold_left (fun n c => (10 * n + (N_of_ascii c - 48))%N) l a = (a * 10 ^ N.of_nat (length l) + number l)%N.
Proof.
  unfold number. induction l as [|c l IH]; intros a; cbn [fold_left length].
  - cbn. lia.
  - rewrite IH, (IH (10 * 0 + _)%N). rewrite Nat2N.inj_succ, N.pow_succ_r'. lia.
Qed.
Lemma number_app a b : number (a ++ b) = (number a * 10 ^ N.of_nat (length b) + number b)%N.
Proof. unfold number at 1. rewrite fold_left_app, number_from. reflexivity. Qed.
Lemma number_one n : (n < 10)%N -> number [digit n] = n.
Proof. intros H. unfold number. cbn [fold_left]. rewrite digit_val by exact H. lia. Qed.

Lemma digits_upto_ok k : forall n, (n < 2 ^ N.of_nat k)%N -> number (digits_upto k n) = n /\ Forall (fun c => is_digit c = true) (digits_upto k n) /\
  (k <> 0 -> digits_upto k n <> []).
Proof.
  induction k as [|k IH]; intros n Hn.
  - cbn in Hn. cbn. split; [lia|]. split; [constructor|congruence].
  - cbn [digits_upto]. destruct (N.ltb_spec n 10) as [L|L].
    + split; [apply number_one, L|]. split; [constructor; [apply digit_is, L|constructor]|discriminate].
    + rewrite Nat2N.inj_succ, N.pow_succ_r' in Hn. pose proof (N.div_mod n 10 ltac:(lia)) as D. pose proof (N.mod_lt n 10 ltac:(lia)) as M.
      destruct (IH (n / 10)%N) as (A & B & _); [apply N.div_lt_upper_bound; lia|]. split; [|split].
      * rewrite number_app, A, number_one by exact M. cbn [length]. change (10 ^ N.of_nat 1)%N with 10%N. lia.
      * apply Forall_app_2; [exact B|]. constructor; [apply digit_is, M|constructor].
      * intros _ X. apply app_nil in X as [_ X]. discriminate.
Qed.
Lemma digits_ok n : number (digits n) = n /\ Forall (fun c => is_digit c = true) (digits n) /\ digits n <> [].
Proof.
  destruct (digits_upto_ok (S (N.to_nat (N.log2 n))) n) as (A & B & C).
  - rewrite Nat2N.inj_succ, N2Nat.id. destruct (N.eq_dec n 0) as [->|H]; [cbn; lia|]. apply N.log2_spec. lia.
  - split; [exact A|]. split; [exact B|]. apply C. discriminate.
Qed.
Lemma digits_upto_length k : forall n j, 1 <= j -> (n < 10 ^ N.of_nat j)%N -> length (digits_upto k n) <= j.
Proof.
  induction k as [|k IH]; intros n j Hj Hn; cbn [digits_upto]; [cbn; lia|].
  destruct (N.ltb_spec n 10) as [L|L]; [cbn; lia|]. rewrite app_length. cbn [length].
  destruct j as [|[|j]]; [lia|change (10 ^ N.of_nat 1)%N with 10%N in Hn; lia|].
  assert (X : (n / 10 < 10 ^ N.of_nat (S j))%N).
  { apply N.div_lt_upper_bound; [lia|]. rewrite <- N.pow_succ_r'. rewrite <- Nat2N.inj_succ. exact Hn. }
  specialize (IH (n / 10)%N (S j) ltac:(lia) X). lia.
Qed.

Lemma zeros_number k l : number (replicate k (digit 0) ++ l) = number l.
Proof.
  rewrite number_app. replace (number (replicate k (digit 0))) with 0%N; [lia|].
  induction k as [|k IH]; [reflexivity|]. change (replicate (S k) (digit 0)) with ([digit 0] ++ replicate k (digit 0)).
  rewrite number_app, <- IH, number_one by lia. lia.
Qed.
Lemma zeros_digit k : Forall (fun c => is_digit c = true) (replicate k (digit 0)).
Proof. apply Forall_forall. intros c Hc. apply elem_of_replicate in Hc as [-> _]. apply digit_is. lia. Qed.

Lemma padded_number n : number (padded n) = n.
Proof. unfold padded. rewrite zeros_number. apply digits_ok. Qed.
Lemma padded_digits n : Forall (fun c => is_digit c = true) (padded n).
Proof. unfold padded. apply Forall_app_2; [apply zeros_digit|apply digits_ok]. Qed.
Lemma padded_length n : 4 <= length (padded n) /\ ((n < 10000)%N -> length (padded n) = 4).
Proof.
  unfold padded. rewrite app_length, replicate_length. split; [lia|]. intros L.
  pose proof (digits_upto_length (S (N.to_nat (N.log2 n))) n 4 ltac:(lia) L) as X. fold (digits n) in X. lia.
Qed.

(** Digits up to something that is no digit. *)
Lemma take_digits_ok d l : Forall (fun c => is_digit c = true) d -> (forall c r, l = c :: r -> is_digit c = false) -> take_digits (d ++ l) = (d, l).
Proof.
  intros Hd Hl. induction Hd as [|c d Hc Hd IH]; cbn [app take_digits].
  - destruct l as [|c r]; [reflexivity|]. cbn. rewrite (Hl c r eq_refl). reflexivity.
  - rewrite Hc, IH. reflexivity.
Qed.

(** ** Names. *)
Lemma digits_split d1 l1 d2 l2 : Forall (fun c => is_digit c = true) d1 -> Forall (fun c => is_digit c = true) d2 ->
  (forall c r, l1 = c :: r -> is_digit c = false) -> (forall c r, l2 = c :: r -> is_digit c = false) ->
  d1 ++ l1 = d2 ++ l2 -> d1 = d2 /\ l1 = l2.
Proof.
  intros H1 H2 H3 H4 E. pose proof (take_digits_ok d1 l1 H1 H3) as A. pose proof (take_digits_ok d2 l2 H2 H4) as B. rewrite E, B in A.
  injection A as -> ->. auto.
Qed.

(** The kinds of files. *)
Inductive Kind := LevelSetVTK | LevelSetTXT | LevelSetBIN | PointsTXT | SegmentsTXT | AreaVTK | AreaTXT.
Definition kind_prefix (k : Kind) : bytes :=
  match k with
  | LevelSetVTK | LevelSetTXT | LevelSetBIN => str "level-set_"
  | PointsTXT => str "boundary-points_"
  | SegmentsTXT => str "boundary-segments_"
  | AreaVTK | AreaTXT => str "area_"
  end.
Definition kind_extension (k : Kind) : bytes :=
  match k with LevelSetVTK | AreaVTK => str ".vtk" | LevelSetBIN => str ".bin" | _ => str ".txt" end.

Lemma base_inj k n k' n' : kind_prefix k ++ padded n ++ kind_extension k = kind_prefix k' ++ padded n' ++ kind_extension k' -> k = k' /\ n = n'.
Proof.
  intros E.
  assert (P : kind_prefix k = kind_prefix k' /\ padded n ++ kind_extension k = padded n' ++ kind_extension k').
  { destruct k, k'; cbn [kind_prefix] in *; try (split; [reflexivity|apply app_inv_head in E; exact E]); exfalso; revert E; cbn [str list_ascii_of_string app]; discriminate. }
  destruct P as [P E']. destruct (digits_split (padded n) (kind_extension k) (padded n') (kind_extension k') (padded_digits n) (padded_digits n')) as [D X]; try exact E'.
  - intros c r Hc. destruct k; injection Hc as <- _; reflexivity.
  - intros c r Hc. destruct k'; injection Hc as <- _; reflexivity.
  - split.
    + destruct k, k'; try reflexivity; first [discriminate P|discriminate X].
    + rewrite <- (padded_number n), <- (padded_number n'), D. reflexivity.
Qed.

Lemma base_no_slash k n : Forall (fun c => c <> "/"%char) (kind_prefix k ++ padded n ++ kind_extension k).
Proof.
  apply Forall_app_2; [|apply Forall_app_2].
  - destruct k; repeat (constructor; [discriminate|]); constructor.
  - eapply Forall_impl; [apply padded_digits|]. intros c Hc ->. discriminate Hc.
  - destruct k; repeat (constructor; [discriminate|]); constructor.
Qed.
Lemma last_slash d1 d2 b1 b2 : Forall (fun c => c <> "/"%char) b1 -> Forall (fun c => c <> "/"%char) b2 ->
  d1 ++ "/"%char :: b1 = d2 ++ "/"%char :: b2 -> d1 = d2 /\ b1 = b2.
Proof.
  intros F1 F2. revert d2. induction d1 as [|c d1 IH]; intros d2 E; destruct d2 as [|c2 d2]; cbn [app] in E.
  - injection E as ->. auto.
  - injection E as _ E. subst b1. apply Forall_app in F1 as [_ F1]. apply Forall_cons_1 in F1 as [F1 _]; destruct (F1 eq_refl).
  - injection E as _ E. subst b2. apply Forall_app in F2 as [_ F2]. apply Forall_cons_1 in F2 as [F2 _]; destruct (F2 eq_refl).
  - injection E as -> E. apply IH in E as [-> ->]. auto.
Qed.

Theorem names_distinct dir dir' k k' n n' : file_name dir (kind_prefix k) n (kind_extension k) = file_name dir' (kind_prefix k') n' (kind_extension k') ->
  dir = dir' /\ k = k' /\ n = n'.
Proof.
  unfold file_name. intros E. destruct dir as [|c d], dir' as [|c' d'].
  - cbn [app] in E. apply base_inj in E. tauto.
  - exfalso. rewrite app_nil_l in E. pose proof (base_no_slash k n) as F. rewrite E in F.
    rewrite !Forall_app in F. destruct F as [[_ F] _]. apply Forall_cons_1 in F as [F _]; exact (F eq_refl).
  - exfalso. rewrite app_nil_l in E. pose proof (base_no_slash k' n') as F. rewrite <- E in F.
    rewrite !Forall_app in F. destruct F as [[_ F] _]. apply Forall_cons_1 in F as [F _]; exact (F eq_refl).
  - rewrite <- !app_assoc in E. cbn [str list_ascii_of_string] in E.
    destruct (last_slash (c :: d) (c' :: d') _ _ (base_no_slash k n) (base_no_slash k' n') E) as [-> B]. apply base_inj in B. tauto.
Qed.
