(** * IOFiles: text files of level sets and the other files. *)

From Coq Require Import Ascii String NArith ZArith Lia Floats.SpecFloat.
From Flocq Require Import Core.Core IEEE754.BinarySingleNaN.
From Verif Require Import IOModel IOText IODigits IORead NumF64 NumInt MeshSpec MeshTopo LevelSetSpec LevelSetCalls LevelSetHist BoundaryLinks.
Local Open Scope nat_scope.

(** ** Printing. *)
Section Print.
  Lemma print_rows_ok n row (r : nat -> bytes) : (forall i, i < n -> row i = Ok (r i)) -> print_rows n row = Ok (concat (map r (seq 0 n))).
  Proof.
    intros Hr. assert (X : wp False False (print_rows n row) (fun out => out = concat (map r (seq 0 n)))).
    { unfold print_rows. apply (wp_for _ _ (fun i out => out = concat (map r (seq 0 i)))); [reflexivity| |auto].
      intros i out Hi ->. rewrite (Hr i Hi). cbn [obind wp]. rewrite seq_S, map_app, concat_app. cbn. rewrite app_nil_r. reflexivity. }
    apply wp_total in X as (out & -> & ->). reflexivity.
  Qed.
  Lemma rows_length n row out : print_rows n row = Ok out -> forall i, i < n -> exists r, row i = Ok r.
  Proof.
    unfold print_rows, for_. intros E.
    assert (G : forall k i o out, for_from i k (fun i out => let! r := row i in Ok (out ++ r)) o = Ok out -> forall j, i <= j < i + k -> exists r, row j = Ok r).
    { clear. induction k as [|k IH]; intros i o out E j Hj; [lia|]. cbn [for_from] in E. apply obind_Ok in E as (o' & E1 & E2). apply obind_Ok in E1 as (r & E1 & _).
      destruct (Nat.eq_dec j i) as [->|]; [eauto|]. eapply IH; [exact E2|lia]. }
    intros i Hi. eapply G; [exact E|lia].
  Qed.
End Print.

Lemma bytes_eqb_spec a b : bytes_eqb a b = true <-> a = b.
Proof. unfold bytes_eqb. destruct (List.list_eq_dec ascii_dec a b); split; congruence. Qed.
Lemma written fs name c : fs_file (fs_write fs name c) name = Some c /\ (forall n, n <> name -> fs_file (fs_write fs name c) n = fs_file fs n) /\
  fs_writable (fs_write fs name c) = fs_writable fs.
Proof.
  cbn. rewrite (proj2 (bytes_eqb_spec name name) eq_refl). split; [reflexivity|]. split; [|reflexivity].
  intros n Hn. destruct (bytes_eqb n name) eqn:E; [|reflexivity]. apply bytes_eqb_spec in E. contradiction.
Qed.

(** ** Level sets as text. *)
(** The values of one line. *)
Definition line (W : nat) (s : LevelSet f64) (isXY : bool) (i : nat) (d v g : f64) : list f64 :=
  (if isXY then [nofnat (i mod (W + 1)); nofnat (i / (W + 1))] else []) ++ [d; v; g].
Fixpoint line_text (l : list f64) : bytes :=
  match l with [] => nl | [x] => show x ++ nl | x :: l => show x ++ sp ++ line_text l end.

Lemma line_lines l : Forall (fun x => is_finite x = true) l -> exists b, line_text l = b ++ nl /\ Forall (fun c => Ascii.eqb c newline = false) b.
Proof.
  intros H. induction H as [|x l Hx Hl IH]; [exists []; split; [reflexivity|constructor]|].
  assert (S : Forall (fun c => Ascii.eqb c newline = false) (show x)) by (cbn [show TextF64]; rewrite show_finite by exact Hx; apply shown_no_newline).
  destruct l as [|y l].
  - exists (show x). split; [reflexivity|exact S].
  - destruct IH as (b & E & F). exists (show x ++ sp ++ b). cbn [line_text]. cbn [line_text] in E. rewrite E. split; [rewrite <- !app_assoc; reflexivity|].
    apply Forall_app_2; [exact S|]. apply Forall_app_2; [repeat constructor|exact F].
Qed.
Lemma count_line b rest p : Forall (fun c => Ascii.eqb c newline = false) b -> count_lines (b ++ nl ++ rest) p = S (count_lines rest false).
Proof.
  intros H. revert p. induction H as [|c b Hc Hb IH]; intros p; [reflexivity|]. cbn [app count_lines]. rewrite Hc. apply IH.
Qed.
Lemma count_lines_of (ls : list (list f64)) : Forall (Forall (fun x => is_finite x = true)) ls -> count_lines (concat (map line_text ls)) false = length ls.
Proof.
  intros H. induction H as [|l ls Hl _ IH]; [reflexivity|]. cbn [map concat length]. destruct (line_lines l Hl) as (b & E & F). rewrite E, <- app_assoc, count_line by exact F.
  rewrite IH. reflexivity.
Qed.

Lemma extract_shown x w c r : is_finite x = true -> Forall (fun c => is_space c = true) w -> is_space c = true ->
  extract (w ++ show x ++ c :: r, false) = (Some (trip x), (c :: r, false)).
Proof.
  intros Hf Hw Hc. unfold extract. rewrite skip_spaces by exact Hw. cbn [show TextF64]. rewrite show_finite by exact Hf.
  destruct (shown_head (sign_of x) (micros_of x)) as (d & l & E & Hd).
  pose proof (take_shown (sign_of x) (micros_of x) c r Hc) as T. rewrite E in *. cbn [app skip_space] in *. rewrite Hd, T.
  destruct (read_back x Hf) as (-> & _ & _). reflexivity.
Qed.

(** One line read: positions marked [true] are stored. *)
Lemma record_line shape node l : forall w sd rest, length shape = length l -> l <> [] -> Forall (fun x => is_finite x = true) l -> node < length sd ->
  Forall (fun c => is_space c = true) w ->
  record shape node (w ++ line_text l ++ rest, false) sd = Ok (newline :: rest, false, fold_left (fun sd '(b, x) => if b : bool then <[node := trip x]> sd else sd) (zip shape l) sd).
Proof.
  revert shape. induction l as [|x l IH]; intros shape w sd rest Hl Hn Hf Hs Hw; [congruence|].
  destruct shape as [|b shape]; [discriminate|]. injection Hl as Hl. apply Forall_cons_1 in Hf as [Hx Hf]. cbn [record].
  assert (V : forall st, (let! sd := (if b then vset sd node (trip x) else Ok sd) in record shape node st sd) = record shape node st (if b then <[node := trip x]> sd else sd)).
  { intros st. destruct b; [|reflexivity]. unfold vset. destruct (lookup_lt_is_Some_2 sd node Hs) as [z ->]. reflexivity. }
  destruct l as [|y l].
  - destruct shape as [|? ?]; [|discriminate]. cbn [line_text]. rewrite <- app_assoc. cbn [nl app]. rewrite extract_shown by (assumption || reflexivity).
    rewrite V. reflexivity.
  - change (line_text (x :: y :: l)) with (show x ++ sp ++ line_text (y :: l)). rewrite <- !app_assoc.
    change (sp ++ line_text (y :: l) ++ rest) with (" "%char :: (line_text (y :: l) ++ rest)). rewrite extract_shown by (assumption || reflexivity).
    rewrite V. specialize (IH shape [" "%char] (if b then <[node := trip x]> sd else sd) rest Hl ltac:(discriminate) Hf). cbn [zip zip_with fold_left]. apply IH.
    + destruct b; [rewrite insert_length|]; exact Hs.
    + repeat constructor.
Qed.

(** All lines. *)
Definition stored (shape : list bool) (l : list f64) : option f64 :=
  fold_left (fun o '(b, x) => if b : bool then Some (trip x) else o) (zip shape l) None.
Lemma store_one shape l node (sd : list f64) y : stored shape l = Some y -> node < length sd ->
  fold_left (fun sd '(b, x) => if b : bool then <[node := trip x]> sd else sd) (zip shape l) sd = <[node := y]> sd.
Proof.
  unfold stored. intros E Hn.
  assert (G : forall z o sd', length sd' = length sd -> (forall v, o = Some v -> sd' = <[node := v]> sd) -> (o = None -> sd' = sd) ->
    fold_left (fun o '(b, x) => if b : bool then Some (trip x) else o) z o = Some y ->
    fold_left (fun sd '(b, x) => if b : bool then <[node := trip x]> sd else sd) z sd' = <[node := y]> sd).
  { clear E. induction z as [|[b x] z IH]; intros o sd' L H1 H2 E; cbn [fold_left] in *; [apply H1, E|]. eapply IH; [| | |exact E].
    - destruct b; [rewrite insert_length|]; exact L.
    - intros v Hv. destruct b; [|apply H1, Hv]. injection Hv as <-. destruct o as [o|]; [rewrite (H1 o eq_refl), list_insert_insert; reflexivity|rewrite H2 by reflexivity; reflexivity].
    - intros Ho. destruct b; [discriminate|apply H2, Ho]. }
  eapply (G _ None); [reflexivity|discriminate|reflexivity|exact E].
Qed.
Lemma read_lines shape ls ys : Forall2 (fun l y => length shape = length l /\ Forall (fun x => is_finite x = true) l /\ stored shape l = Some y) ls ys -> shape <> [] ->
  forall fuel w node (sd : list f64), length ls < fuel -> node + length ls = length sd -> Forall (fun c => is_space c = true) w ->
  records fuel shape node (w ++ concat (map line_text ls), false) sd = Ok (take node sd ++ ys).
Proof.
  intros H Hsh. induction H as [|l y ls ys (H1 & H2 & H3) _ IH]; intros fuel w node sd Hf Hn Hw; destruct fuel as [|fuel]; try (cbn in Hf; lia); cbn [records].
  - cbn [map concat] in *. rewrite app_nil_r.
    assert (E : forall shape, record shape node (w, false) sd = Ok ((match shape with [] => w | _ => [] end), (match shape with [] => false | _ => true end), sd)).
    { intros sh. destruct sh as [|b sh]; [reflexivity|]. cbn [record extract]. rewrite <- (app_nil_r w), skip_spaces by exact Hw. cbn [skip_space obind].
      revert sh. clear. induction sh as [|b sh IH]; [reflexivity|]. cbn [record extract obind]. exact IH. }
    rewrite E. cbn [obind]. destruct shape; [congruence|]. cbn [snd]. rewrite app_nil_r. rewrite take_ge; [reflexivity|]. cbn in Hn. lia.
  - cbn [map concat length] in *. rewrite (record_line shape node l); [|exact H1|destruct l; [destruct shape; [congruence|discriminate]|discriminate]|exact H2|lia|exact Hw].
    cbn [obind snd]. match goal with |- records _ _ _ _ ?t = _ => replace t with (<[node := y]> sd) by (symmetry; exact (store_one shape l node sd y H3 ltac:(lia))) end.
    change (newline :: concat (map line_text ls)) with ([newline] ++ concat (map line_text ls)). rewrite IH; [|lia|rewrite insert_length; lia|repeat constructor].
    rewrite (take_S_r _ node y) by (apply list_lookup_insert; lia). rewrite take_insert by lia. rewrite <- app_assoc. reflexivity.
Qed.

Theorem txt_roundtrip W H fs name (s s2 : LevelSet f64) isXY : reached W H s -> reached W H s2 -> fs_writable fs name = true ->
  Forall (fun x => is_finite x = true) (ls_sd s) -> Forall (fun x => is_finite x = true) (ls_vel s) -> Forall (fun x => is_finite x = true) (ls_grad s) ->
  exists fs', saveLevelSetTXT fs name s isXY = Ok fs' /\ (forall n, n <> name -> fs_file fs' n = fs_file fs n) /\
    loadLevelSetTXT fs' name s2 isXY = Ok (set_sd (map trip (ls_sd s)) s2).
Proof.
  intros R1 R2 Hw F1 F2 F3. destruct (reached_sound _ _ _ R1) as [O1 _ _ _]. destruct (reached_sound _ _ _ R2) as [O2 _ _ _].
  pose proof (ok_topo _ _ _ O1) as T1. pose proof (ok_topo _ _ _ O2) as T2. set (N := node_count W H) in *.
  pose proof (ok_sd _ _ _ O1) as L1. pose proof (ok_vel _ _ _ O1) as L2. pose proof (ok_grad _ _ _ O1) as L3. pose proof (ok_sd _ _ _ O2) as L4.
  set (ln := fun i => line W s isXY i (nth i (ls_sd s) n0) (nth i (ls_vel s) n0) (nth i (ls_grad s) n0)).
  assert (Row : forall i, i < N -> level_row s isXY i = Ok (line_text (ln i))).
  { intros i Hi. unfold level_row. destruct (lookup_lt_is_Some_2 (m_nodes (ls_mesh s)) i) as [n En]; [rewrite (tp_lenN _ _ _ T1); exact Hi|].
    destruct (tp_node _ _ _ T1 i n En) as (Ec & _).
    destruct (lookup_lt_is_Some_2 (ls_sd s) i) as [d Ed]; [lia|]. destruct (lookup_lt_is_Some_2 (ls_vel s) i) as [v Ev]; [lia|]. destruct (lookup_lt_is_Some_2 (ls_grad s) i) as [g Eg]; [lia|].
    unfold vget. rewrite En, Ed, Ev, Eg. cbn [obind]. unfold ln, line. rewrite (nth_lookup_Some _ _ _ _ Ed), (nth_lookup_Some _ _ _ _ Ev), (nth_lookup_Some _ _ _ _ Eg).
    destruct isXY; cbn [obind app line_text].
    - rewrite Ec. cbn [xy_part node_spec nd_coord cx cy]. rewrite <- !app_assoc. reflexivity.
    - rewrite <- ?app_assoc. reflexivity. }
  assert (Sv : saveLevelSetTXT fs name s isXY = Ok (fs_write fs name (concat (map (fun i => line_text (ln i)) (seq 0 N))))).
  { unfold saveLevelSetTXT, save. rewrite Hw. cbn [check obind]. rewrite (tp_nN _ _ _ T1). fold N. rewrite (print_rows_ok N _ _ Row). reflexivity. }
  destruct (written fs name (concat (map (fun i => line_text (ln i)) (seq 0 N)))) as (W1 & W2 & _).
  eexists. split; [exact Sv|]. split; [exact W2|].
  assert (Fin : Forall (Forall (fun x => is_finite x = true)) (map ln (seq 0 N))).
  { apply Forall_forall. intros l Hl. apply elem_of_list_In, in_map_iff in Hl as (i & <- & Hi). apply in_seq in Hi.
    assert (X : forall v : list f64, length v = N -> Forall (fun x => is_finite x = true) v -> is_finite (nth i v n0) = true).
    { intros v Lv Hv. destruct (lookup_lt_is_Some_2 v i) as [d Ed]; [lia|]. rewrite (nth_lookup_Some _ _ _ _ Ed). exact (proj1 (Forall_lookup _ _) Hv i d Ed). }
    unfold ln, line. apply Forall_app_2.
    - destruct isXY; [|constructor]. pose proof (tp_fits _ _ _ T1) as (_ & _ & HF). assert (Ln : (i < N)%nat) by lia.
      assert (B : forall k, k <= i -> is_finite (nofnat (T := f64) k) = true).
      { intros k Hk. unfold nofnat. cbn [nofZ NumF64]. apply (f64_ofZ_correct (Z.of_nat k)). unfold N in Ln. lia. }
      repeat constructor; apply B; [apply Nat.mod_le; lia|apply Nat.div_le_upper_bound; nia].
    - repeat constructor; apply X; assumption. }
  unfold loadLevelSetTXT. rewrite W1.
  rewrite <- (map_map ln line_text). rewrite (count_lines_of _ Fin), map_length, seq_length, (tp_nN _ _ _ T2). fold N.
  pose proof (tp_fits _ _ _ T1) as (_ & _ & HF).
  rewrite N.mod_small by (unfold N; lia). rewrite N.eqb_refl. cbn [check obind].
  set (shape := if isXY then _ else _).
  assert (Q : records (S (length (concat (map line_text (map ln (seq 0 N)))))) shape 0 ([] ++ concat (map line_text (map ln (seq 0 N))), false) (ls_sd s2) = Ok (take 0 (ls_sd s2) ++ map trip (ls_sd s))).
  { apply read_lines.
    - apply Forall2_lookup. intros i. rewrite !list_lookup_fmap. destruct (Nat.lt_ge_cases i N) as [Hi|Hi].
      + rewrite lookup_seq_lt by exact Hi. destruct (lookup_lt_is_Some_2 (ls_sd s) i) as [d Ed]; [lia|]. rewrite Ed. constructor. cbn [Nat.add].
        split; [unfold ln, line, shape; destruct isXY; reflexivity|]. split.
        * apply (proj1 (Forall_forall _ _) Fin). apply elem_of_list_In, in_map. apply in_seq. lia.
        * unfold ln, line, shape, stored. rewrite (nth_lookup_Some _ _ _ _ Ed). destruct isXY; reflexivity.
      + rewrite lookup_seq_ge by exact Hi. rewrite lookup_ge_None_2 by lia. constructor.
    - unfold shape. destruct isXY; discriminate.
    - apply Nat.lt_succ_r. clear. generalize (map ln (seq 0 N)). intros ls. induction ls as [|l ls IH]; [reflexivity|]. cbn [map concat length]. rewrite app_length.
      assert (1 <= length (line_text l)); [|lia]. destruct l as [|x [|y l]]; cbn [line_text]; rewrite ?app_length; cbn; lia.
    - rewrite map_length, seq_length. lia.
    - constructor. }
  rewrite app_nil_l in Q. match goal with |- obind ?o _ = _ => replace o with (Ok (map trip (ls_sd s))) by (symmetry; exact Q) end. reflexivity.
Qed.

(** ** Loading any file. *)
Section AnyFile.
  Context {T : Type} {TT : Text T}.
  Lemma take_digits_le l : forall d r, take_digits l = (d, r) -> length l = length d + length r.
  Proof.
    induction l as [|c l IH]; intros d r E; cbn [take_digits] in E; [injection E as <- <-; reflexivity|].
    destruct (is_digit c); [|injection E as <- <-; reflexivity]. destruct (take_digits l) as [d' r'] eqn:E'. injection E as <- <-. cbn. rewrite (IH _ _ eq_refl). reflexivity.
  Qed.
  Lemma take_sign_le l : forall b r, take_sign l = (b, r) -> length r <= length l.
  Proof.
    intros b r E. destruct l as [|c l]; cbn [take_sign] in E; [injection E as <- <-; lia|].
    destruct (Ascii.eqb c "-"); [injection E as <- <-; cbn; lia|]. destruct (Ascii.eqb c "+"); injection E as <- <-; cbn; lia.
  Qed.
  Lemma take_number_le l v ok r : take_number (T := T) l = ((v, ok), r) -> length r <= length l /\ (ok = true -> length r < length l).
  Proof.
    unfold take_number. destruct (take_sign l) as [b l1] eqn:E1. apply take_sign_le in E1. destruct (take_digits l1) as [ip l2] eqn:E2. apply take_digits_le in E2.
    destruct (match l2 with c :: r => if Ascii.eqb c "." then take_digits r else ([], l2) | [] => ([], l2) end) as [fp l3] eqn:E3.
    assert (E4 : length fp + length l3 <= length l2).
    { destruct l2 as [|c l2]; [injection E3 as <- <-; cbn; lia|]. destruct (Ascii.eqb c "."); [apply take_digits_le in E3; cbn; lia|injection E3 as <- <-; cbn; lia]. }
    clear E3. destruct (ip ++ fp) as [|d q] eqn:Em; [intros E; injection E as _ <- <-; split; [lia|discriminate]|].
    apply (f_equal length) in Em. rewrite app_length in Em. cbn [length] in Em. cbv zeta.
    destruct l3 as [|c l3]; [intros E; injection E as _ <-; cbn [length] in *; lia|].
    destruct (Ascii.eqb c "e" || Ascii.eqb c "E").
    - destruct (take_sign l3) as [b' l4] eqn:E5. apply take_sign_le in E5. destruct (take_digits l4) as [ep l5] eqn:E6. apply take_digits_le in E6. cbn [length] in *.
      destruct ep as [|z ep]; intros E; [injection E as _ <- <-; split; [lia|discriminate]|injection E as _ <-; cbn [length] in *; lia].
    - intros E; injection E as _ <-. cbn [length] in *. lia.
  Qed.
  Lemma skip_space_le l : length (skip_space l) <= length l.
  Proof. induction l as [|c l IH]; cbn; [lia|]. destruct (is_space c); cbn; lia. Qed.
  Lemma extract_le st v st' : extract (T := T) st = (v, st') -> length (fst st') <= length (fst st) /\ (snd st' = false -> snd st = false /\ length (fst st') < length (fst st)).
  Proof.
    unfold extract. destruct st as [l fail]. destruct fail; [intros E; injection E as _ <-; split; [cbn; lia|discriminate]|].
    pose proof (skip_space_le l) as S. destruct (skip_space l) as [|c q] eqn:E0; [intros E; injection E as _ <-; split; [cbn; lia|discriminate]|].
    destruct (take_number (c :: q)) as [[x ok] r] eqn:E1. apply take_number_le in E1 as [A B]. intros E; injection E as _ <-. cbn [fst snd] in *. split; [lia|].
    destruct ok; [|discriminate]. specialize (B eq_refl). split; [reflexivity|lia].
  Qed.
  Lemma record_le shape node : forall st (sd : list T) st' sd', record shape node st sd = Ok (st', sd') ->
    length sd' = length sd /\ length (fst st') <= length (fst st) /\ (shape <> [] -> snd st' = false -> length (fst st') < length (fst st)).
  Proof.
    induction shape as [|b shape IH]; intros st sd st' sd' E; cbn [record] in E; [injection E as <- <-; split; [reflexivity|]; split; [lia|congruence]|].
    destruct (extract st) as [v st1] eqn:E1. apply extract_le in E1 as [A B]. apply obind_Ok in E as (sd1 & E2 & E). destruct (IH _ _ _ _ E) as (C1 & C2 & C3).
    assert (L : length sd1 = length sd).
    { destruct v as [x|]; [|congruence]. destruct b; [apply vset_Ok in E2 as [_ ->]; apply insert_length|congruence]. }
    split; [congruence|]. split; [lia|]. intros _ Hs. destruct shape as [|b' shape].
    - cbn [record] in E. injection E as <- <-. apply B, Hs.
    - specialize (C3 ltac:(discriminate) Hs). lia.
  Qed.
  Lemma records_le shape : shape <> [] -> forall fuel node st (sd : list T), length (fst st) < fuel ->
    match records fuel shape node st sd with Ok sd' => length sd' = length sd | UB => True | _ => False end.
  Proof.
    intros Hs. induction fuel as [|fuel IH]; intros node st sd Hf; [lia|]. cbn [records].
    assert (R : forall shape st sd, match record (T := T) shape node st sd with Exit | OutOfFuel => False | _ => True end).
    { clear. induction shape as [|b shape IH]; intros st sd; cbn [record]; [exact I|]. destruct (extract st) as [v st1].
      destruct v as [x|]; [|apply IH]. destruct b; [|apply IH]. unfold vset. destruct (sd !! node); cbn [obind]; [apply IH|exact I]. }
    specialize (R shape st sd). destruct (record shape node st sd) as [[st1 sd1]| | |] eqn:E; cbn [obind]; try contradiction; [|exact I].
    destruct (record_le _ _ _ _ _ _ E) as (A & B & C). destruct (snd st1) eqn:E1; [exact A|]. specialize (C Hs eq_refl).
    assert (L : length (fst st1) < fuel) by (eapply Nat.lt_le_trans; [exact C|]; apply Nat.lt_succ_r; exact Hf). specialize (IH (S node) st1 sd1 L). destruct (records fuel shape (S node) st1 sd1); try contradiction; [congruence|exact I].
  Qed.
  Theorem txt_any fs name (s : LevelSet T) isXY :
    match loadLevelSetTXT fs name s isXY with
    | Ok s' => exists sd text, fs_file fs name = Some text /\ s' = set_sd sd s /\ length sd = length (ls_sd s) /\
        (N.of_nat (count_lines text false) mod 2 ^ 32 = N.of_nat (m_nNodes (ls_mesh s)))%N
    | Exit => fs_file fs name = None \/ exists text, fs_file fs name = Some text /\ (N.of_nat (count_lines text false) mod 2 ^ 32 <> N.of_nat (m_nNodes (ls_mesh s)))%N
    | UB => True
    | OutOfFuel => False
    end.
  Proof.
    unfold loadLevelSetTXT. destruct (fs_file fs name) as [text|]; [|left; reflexivity].
    destruct (N.eqb_spec (N.of_nat (count_lines text false) mod 2 ^ 32) (N.of_nat (m_nNodes (ls_mesh s)))) as [E|E]; cbn [check obind]; [|right; exists text; auto].
    set (shape := if isXY then _ else _). pose proof (records_le shape ltac:(unfold shape; destruct isXY; discriminate) (S (length text)) 0 (text, false) (ls_sd s) ltac:(cbn; lia)) as X.
    destruct (records _ _ _ _ _) as [sd| | |]; cbn [obind]; try contradiction; [|exact I]. exists sd, text. auto.
  Qed.
End AnyFile.

(** Lines: newlines, and what follows the last one. *)
Lemma count_lines_eq l p : count_lines l p = count_occ ascii_dec l newline + (match last l with Some c => if Ascii.eqb c newline then 0 else 1 | None => if p then 1 else 0 end).
Proof.
  revert p. induction l as [|c l IH]; intros p; cbn [count_lines count_occ]; [destruct p; reflexivity|].
  rewrite last_cons. destruct (Ascii.eqb_spec c newline) as [->|Hc].
  - destruct (ascii_dec newline newline); [|congruence]. rewrite IH. destruct (last l); cbn; lia.
  - destruct (ascii_dec c newline); [congruence|]. rewrite IH. destruct (last l); [reflexivity|]. destruct (Ascii.eqb_spec c newline); [congruence|reflexivity].
Qed.
