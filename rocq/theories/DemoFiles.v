(** * DemoFiles: reading the files of the demo programs. *)

From Coq Require Import Reals Lra Ascii String NArith ZArith Lia Floats.SpecFloat.
From Flocq Require Import Core.Core IEEE754.BinarySingleNaN.
From Verif Require Import IOModel IOText IODigits IORead IOFiles IOSpec IOContents NumF64 NumInt LevelSetSpec LevelSetCalls LevelSetHist MeshSpec MeshTopo DemoSetup DemoSetupSpec.
Local Open Scope nat_scope.

Section Words.
  Context {T : Type} {TT : Text T}.

  Definition ends (rest : bytes) : Prop := match rest with [] => True | c :: _ => is_space c = true end.
  Lemma ends_digit rest : ends rest -> forall c r, rest = c :: r -> is_digit c = false.
  Proof. intros E c r ->. apply space_not_digit, E. Qed.

  Lemma take_sign_ok neg s l : sign_text neg s -> match l with c :: _ => is_digit c = true \/ c = "."%char | [] => True end -> take_sign (s ++ l) = (neg, l).
  Proof.
    intros Hs Hl. assert (X : take_sign l = (false, l)).
    { destruct l as [|c l]; [reflexivity|]. destruct Hl as [Hl| ->]; [apply digit_not_sign, Hl|reflexivity]. }
    destruct neg; cbn [sign_text] in Hs; [subst s; reflexivity|]. destruct Hs as [-> | ->]; [exact X|reflexivity].
  Qed.
  Lemma take_digits_end l rest : all_digits l -> ends rest -> take_digits (l ++ rest) = (l, rest).
  Proof. intros Hl Hr. apply take_digits_ok; [exact Hl|]. intros c r E. exact (ends_digit rest Hr c r E). Qed.

  (** A number followed by white space or the end. *)
  Lemma take_numeral word neg m e rest : numeral word neg m e -> ends rest -> take_number (T := T) (word ++ rest) = (read neg m e, rest).
  Proof.
    intros (sgn & ip & fp & ex & x & -> & Hs & Hi & (f & Hf & Df & Ne & -> & ->) & Hx) Hr. unfold take_number. rewrite <- !app_assoc.
    assert (St : match ip ++ fp ++ ex ++ rest with c :: _ => is_digit c = true \/ c = "."%char | [] => True end).
    { destruct ip as [|d ip]; [|cbn [app]; left; exact (Forall_inv Hi)]. destruct Hf as [[-> ->]| ->]; [cbn in Ne; congruence|right; reflexivity]. }
    rewrite (take_sign_ok neg sgn _ Hs St).
    (* the exponent part starts with neither a digit nor a point *)
    assert (Nx : forall c r, ex ++ rest = c :: r -> is_digit c = false /\ Ascii.eqb c "." = false).
    { intros c r E. destruct Hx as [[-> _]|(c0 & s & k & d & -> & Hc & _)].
      - cbn [app] in E. split; [exact (ends_digit rest Hr c r E)|]. rewrite E in Hr. cbn [ends] in Hr. apply Ascii.eqb_neq. intros ->. discriminate Hr.
      - destruct Hc as [-> | ->]; cbn in E; injection E as <- _; split; reflexivity. }
    assert (Fr : take_digits (ip ++ fp ++ ex ++ rest) = (ip, fp ++ ex ++ rest) /\
      match fp ++ ex ++ rest with c :: r => if Ascii.eqb c "." then take_digits r else ([], fp ++ ex ++ rest) | [] => ([], fp ++ ex ++ rest) end = (f, ex ++ rest)).
    { destruct Hf as [[-> ->]| ->].
      - cbn [app]. split.
        + apply take_digits_ok; [exact Hi|]. intros c r E. exact (proj1 (Nx c r E)).
        + destruct (ex ++ rest) as [|c r] eqn:E; [reflexivity|]. rewrite (proj2 (Nx c r eq_refl)). reflexivity.
      - split.
        + apply take_digits_ok; [exact Hi|]. intros c r E. cbn in E. injection E as <- _. reflexivity.
        + cbn [str list_ascii_of_string app]. change (Ascii.eqb "." ".") with true. cbn iota. apply take_digits_ok; [exact Df|]. intros c r E. exact (proj1 (Nx c r E)). }
    destruct Fr as [F1 F2]. rewrite F1.
    match goal with |- (let (_, _) := ?t in _) = _ => replace t with (f, ex ++ rest) by (symmetry; exact F2) end.
    destruct (ip ++ f) as [|d0 l0] eqn:E0; [congruence|]. cbv zeta.
    destruct Hx as [[-> ->]|(c0 & s & k & d & -> & Hc & Hk & Dd & Nd & ->)].
    - cbn [app]. rewrite Z.add_0_r. destruct rest as [|c r]; [reflexivity|]. cbn [ends] in Hr. rewrite space_not_e by exact Hr. reflexivity.
    - assert (Sx : take_sign (s ++ d ++ rest) = (k, d ++ rest)).
      { apply take_sign_ok; [exact Hk|]. destruct d as [|y d]; [congruence|]. cbn [app]. left. exact (Forall_inv Dd). }
      rewrite <- !app_assoc. destruct Hc as [-> | ->]; cbn [str list_ascii_of_string app]; [change (Ascii.eqb "e" "e" || Ascii.eqb "e" "E") with true|change (Ascii.eqb "E" "e" || Ascii.eqb "E" "E") with true];
        cbn iota; rewrite Sx, (take_digits_end d rest Dd Hr); (destruct d as [|y d]; [congruence|]); reflexivity.
  Qed.
  Lemma numeral_head word neg m e : numeral word neg m e -> exists c l, word = c :: l /\ is_space c = false.
  Proof.
    intros (sgn & ip & fp & ex & x & -> & Hs & Hi & (f & Hf & Df & Ne & _ & _) & _).
    assert (D : forall c, is_digit c = true -> is_space c = false) by (intros c Hc; apply not_true_is_false; intros S; apply space_not_digit in S; congruence).
    destruct neg; cbn [sign_text] in Hs; [subst sgn; eexists _, _; split; reflexivity|]. destruct Hs as [-> | ->]; [|eexists _, _; split; reflexivity].
    cbn [app]. destruct ip as [|d ip]; [|eexists _, _; split; [reflexivity|apply D; exact (Forall_inv Hi)]].
    destruct Hf as [[-> ->]| ->]; [cbn in Ne; congruence|]. eexists _, _. split; reflexivity.
  Qed.
  Lemma extract_word w word (v : T) rest : blank w -> stands_for word v -> ends rest -> extract (w ++ word ++ rest, false) = (Some v, (rest, false)).
  Proof.
    intros Hw (neg & m & e & Hn & Hr) He. unfold extract. rewrite skip_spaces by exact Hw.
    pose proof (take_numeral word neg m e rest Hn He) as X. destruct (numeral_head word neg m e Hn) as (c & l & -> & Hc).
    cbn [app skip_space] in *. rewrite Hc. rewrite X, Hr. reflexivity.
  Qed.
  Lemma extract_blank w : blank w -> extract (T := T) (w, false) = (None, ([], true)).
  Proof. intros Hw. unfold extract. rewrite <- (app_nil_r w), skip_spaces by exact Hw. reflexivity. Qed.

  (** Reading the next number, or finding the end. *)
  Lemma next_number text (v : T) vs : has_numbers text (v :: vs) ->
    exists rest, extract (text, false) = (Some v, (rest, false)) /\ has_numbers rest vs /\ length rest < length text.
  Proof.
    intros (words & Sp & F). inversion F as [|x ? xs ? Hx Hxs]; subst.
    assert (L : 0 < length x). { destruct Hx as (neg & m & e & Hn & _). destruct (numeral_head x neg m e Hn) as (c & l & -> & _). cbn. lia. }
    inversion Sp as [|w ? Hw|w ? s l t Hw Hs Ht]; subst.
    - inversion Hxs; subst. exists []. replace (w ++ x) with (w ++ x ++ []) by (rewrite app_nil_r; reflexivity). split; [exact (extract_word w x v [] Hw Hx I)|]. split; [exists []; split; [constructor; constructor|constructor]|]. rewrite !app_length. cbn. lia.
    - exists (s :: t). split; [exact (extract_word w x v (s :: t) Hw Hx Hs)|]. split.
      + exists xs. split; [|exact Hxs]. assert (B : forall w', blank w' -> blank (s :: w')) by (intros w' Hw'; constructor; [exact Hs|exact Hw']).
        inversion Ht as [w' Hw'|w' y Hw'|w' y s' l' t' Hw' Hs' Ht']; subst.
        * constructor. apply B, Hw'.
        * change (s :: w' ++ y) with ((s :: w') ++ y). constructor. apply B, Hw'.
        * change (s :: w' ++ y ++ s' :: t') with ((s :: w') ++ y ++ s' :: t'). constructor; [apply B, Hw'|exact Hs'|exact Ht'].
      + rewrite !app_length. cbn. lia.
  Qed.
  Lemma no_number text : has_numbers (T := T) text [] -> extract (T := T) (text, false) = (None, ([], true)).
  Proof. intros (words & Sp & F). inversion F; subst. inversion Sp; subst. apply extract_blank. assumption. Qed.

  (** ** One number after the other into an array *)
  Lemma records_numbers : forall vs text fuel node (sd : list T), has_numbers text vs -> length text < fuel -> node <= length sd ->
    records fuel [true] node (text, false) sd = (if node + length vs <=? length sd then Ok (take node sd ++ vs ++ drop (node + length vs) sd) else UB).
  Proof.
    induction vs as [|v vs IH]; intros text fuel node sd Hn Hf Hd; destruct fuel as [|fuel]; try lia; cbn [records record].
    - rewrite no_number by exact Hn. cbn [obind snd]. rewrite Nat.add_0_r. destruct (Nat.leb_spec node (length sd)); [|lia]. cbn [app]. rewrite take_drop. reflexivity.
    - destruct (next_number _ _ _ Hn) as (rest & E & Hr & L). rewrite E. unfold vset.
      destruct (Nat.eq_dec node (length sd)) as [->|].
      + rewrite lookup_ge_None_2 by lia. cbn [obind]. destruct (Nat.leb_spec (length sd + length (v :: vs)) (length sd)); [cbn in *; lia|reflexivity].
      + destruct (lookup_lt_is_Some_2 sd node ltac:(lia)) as [z Ez]. rewrite Ez. cbn [obind snd record].
        rewrite IH; [|exact Hr|lia|rewrite insert_length; lia]. rewrite insert_length. cbn [length]. replace (S node + length vs) with (node + S (length vs)) by lia.
        destruct (Nat.leb_spec (node + S (length vs)) (length sd)); [|reflexivity].
        rewrite (take_S_r _ node v) by (apply list_lookup_insert; lia). rewrite take_insert by lia. rewrite drop_insert_gt by lia. rewrite <- !app_assoc. reflexivity.
  Qed.
  Theorem configuration_read {NT : Num T} fs name text (vs : list T) (s : LevelSet T) : fs_file fs name = Some text -> has_numbers text vs ->
    load_configuration fs name s = (if length vs <=? length (ls_sd s) then Ok (set_sd (vs ++ drop (length vs) (ls_sd s)) s) else UB).
  Proof.
    intros Hf Hn. unfold load_configuration. rewrite Hf, (records_numbers vs) by (exact Hn || lia). cbn [Nat.add take app]. destruct (_ <=? _); reflexivity.
  Qed.
  Theorem configuration_any {NT : Num T} fs name (s : LevelSet T) :
    match load_configuration fs name s with
    | Ok s' => (exists sd, s' = set_sd sd s /\ length sd = length (ls_sd s)) /\ fs_file fs name <> None
    | Exit => fs_file fs name = None
    | UB => fs_file fs name <> None
    | OutOfFuel => False
    end.
  Proof.
    unfold load_configuration. destruct (fs_file fs name) as [text|]; [|reflexivity].
    pose proof (records_le [true] ltac:(discriminate) (S (length text)) 0 (text, false) (ls_sd s) ltac:(cbn; lia)) as X.
    destruct (records _ _ _ _ _) as [sd| | |]; cbn [obind]; try contradiction; [|discriminate]. split; [exists sd; auto|discriminate].
  Qed.

  (** ** Pairs of numbers *)
  Fixpoint pairs_of (vs : list T) : list (Coord T) := match vs with x :: y :: vs => mkCoord x y :: pairs_of vs | _ => [] end.
  Lemma read_points_numbers : forall n vs text fuel (pts : list (Coord T)), length vs <= n -> has_numbers text vs -> length text < fuel ->
    read_points fuel (text, false) pts = Ok (pts ++ pairs_of vs).
  Proof.
    induction n as [|n IH]; intros vs text fuel pts Hl Hn Hf; destruct fuel as [|fuel]; try lia; cbn [read_points].
    - destruct vs; [|cbn in Hl; lia]. rewrite no_number by exact Hn. cbn. rewrite app_nil_r. reflexivity.
    - destruct vs as [|x vs]; [rewrite no_number by exact Hn; cbn; rewrite app_nil_r; reflexivity|].
      destruct (next_number _ _ _ Hn) as (r1 & E1 & H1 & L1). rewrite E1.
      destruct vs as [|y vs]; [rewrite no_number by exact H1; cbn; rewrite app_nil_r; reflexivity|].
      destruct (next_number _ _ _ H1) as (r2 & E2 & H2 & L2). rewrite E2. cbn [snd]. rewrite (IH vs); [|cbn in Hl; lia|exact H2|lia]. cbn [pairs_of]. rewrite <- app_assoc. reflexivity.
  Qed.
  Lemma pairs_lookup : forall n (vs : list T) i, length vs <= n -> pairs_of vs !! i = match vs !! (2 * i), vs !! (2 * i + 1) with Some x, Some y => Some (mkCoord x y) | _, _ => None end.
  Proof.
    induction n as [|n IH]; intros vs i Hl; [destruct vs; [|cbn in Hl; lia]; destruct i; reflexivity|].
    destruct vs as [|x [|y vs]]; [reflexivity|destruct i as [|i]; [reflexivity|cbn [pairs_of]; rewrite lookup_nil; replace (2 * S i + 1) with (S (S (2 * i + 1))) by lia; destruct ([x] !! (2 * S i)); reflexivity]|].
    destruct i as [|i]; [reflexivity|]. cbn [pairs_of lookup list_lookup]. replace (2 * S i) with (S (S (2 * i))) by lia. cbn [Nat.add lookup list_lookup]. apply IH. cbn in Hl. lia.
  Qed.
  Lemma read_points_total {NT : Num T} : forall fuel st (pts : list (Coord T)), length (fst st) < fuel -> exists l, read_points fuel st pts = Ok l.
  Proof.
    induction fuel as [|fuel IH]; intros st pts Hf; [lia|]. cbn [read_points]. destruct (extract st) as [x st1] eqn:E1. destruct (extract st1) as [y st2] eqn:E2.
    apply extract_le in E1 as [A1 B1]. apply extract_le in E2 as [A2 B2]. destruct x; [|eauto]. destruct y; [|eauto]. destruct (snd st2) eqn:E; [eauto|].
    destruct (B2 eq_refl) as [_ B3]. apply IH. eapply Nat.lt_le_trans; [exact B3|]. etransitivity; [exact A1|]. apply Nat.lt_succ_r. exact Hf.
  Qed.
  Definition shape_text (fs : FS) : option bytes :=
    match fs_file fs (str "demos/shapes/stanford-bunny.txt") with Some t => Some t | None => fs_file fs (str "shapes/stanford-bunny.txt") end.
  Theorem shape_read fs text (vs : list T) : shape_text fs = Some text -> has_numbers text vs ->
    exists pts, load_shape fs = Ok pts /\ forall i, pts !! i = match vs !! (2 * i), vs !! (2 * i + 1) with Some x, Some y => Some (mkCoord x y) | _, _ => None end.
  Proof.
    unfold shape_text, load_shape. intros Ht Hn.
    assert (X : read_points (S (length text)) (text, false) [] = Ok (pairs_of vs)) by (rewrite (read_points_numbers (length vs) vs) by (exact Hn || lia); reflexivity).
    exists (pairs_of vs). split; [|intros i; exact (pairs_lookup _ _ i (le_n _))].
    destruct (fs_file fs (str "demos/shapes/stanford-bunny.txt")); [injection Ht as ->; exact X|]. rewrite Ht. exact X.
  Qed.
  Theorem shape_any {NT : Num T} fs : match shape_text fs with Some _ => exists pts : list (Coord T), load_shape fs = Ok pts | None => load_shape (T := T) fs = Exit end.
  Proof.
    unfold shape_text, load_shape. destruct (fs_file fs _) as [t|]; [apply read_points_total; cbn; lia|]. destruct (fs_file fs _) as [t|]; [apply read_points_total; cbn; lia|reflexivity].
  Qed.
End Words.

(** ** Files written by saveLevelSetTXT *)
Lemma shown_stands x : is_finite x = true -> stands_for (show x) (trip x).
Proof.
  intros Hf. cbn [show TextF64]. rewrite show_finite by exact Hf. exists (sign_of x), (micros_of x), (-6)%Z. split.
  - generalize (sign_of x) (micros_of x). clear. intros neg z. unfold show_micros. cbv zeta.
    set (ip := digits (z / 1000000)). set (fp := replicate _ _ ++ digits (z mod 1000000)).
    assert (Hm : (z mod 1000000 < 1000000)%N) by (apply N.mod_lt; lia).
    assert (Lf : length fp = 6) by (apply show_int_part, Hm).
    assert (Nv : number (ip ++ fp) = z).
    { rewrite number_app, Lf. unfold fp. rewrite zeros_number. unfold ip. rewrite !(proj1 (digits_ok _)).
      change (10 ^ N.of_nat 6)%N with 1000000%N. pose proof (N.div_mod z 1000000). lia. }
    exists (if neg then str "-" else []), ip, (str "." ++ fp), [], 0%Z. split; [rewrite app_nil_r; reflexivity|]. split; [destruct neg; [reflexivity|left; reflexivity]|].
    split; [apply digits_ok|]. split; [|left; auto]. exists fp. split; [right; reflexivity|]. split; [apply Forall_app_2; [apply zeros_digit|apply digits_ok]|].
    split; [intros E; apply app_nil in E as [E _]; revert E; apply digits_ok|]. split; [symmetry; exact Nv|]. rewrite Lf. reflexivity.
  - destruct (read_back x Hf) as (E & _). cbn [read TextF64]. exact E.
Qed.
Lemma line_numbers (l : list f64) : l <> [] -> Forall (fun x => is_finite x = true) l -> forall text vs, has_numbers text vs -> has_numbers (line_text l ++ text) (map trip l ++ vs).
Proof.
  intros Hn Hf text vs Ht. induction Hf as [|x l Hx Hl IH]; [exfalso; apply Hn; reflexivity|].
  assert (G : forall c t us, is_space c = true -> has_numbers t us -> has_numbers (show x ++ c :: t) (trip x :: us)).
  { intros c t us Hc (words & Sp & F). exists (show x :: words). split; [|constructor; [apply shown_stands, Hx|exact F]].
    change (show x ++ c :: t) with ([] ++ show x ++ c :: t). constructor; [constructor|exact Hc|exact Sp]. }
  destruct l as [|y l].
  - cbn [line_text map app nl]. rewrite <- app_assoc. cbn [app]. apply G; [reflexivity|exact Ht].
  - change (line_text (x :: y :: l)) with (show x ++ sp ++ line_text (y :: l)). rewrite <- !app_assoc. cbn [map app sp str list_ascii_of_string].
    apply G; [reflexivity|]. apply IH. discriminate.
Qed.
Lemma lines_numbers (ls : list (list f64)) : Forall (fun l => l <> [] /\ Forall (fun x => is_finite x = true) l) ls -> has_numbers (concat (map line_text ls)) (concat (map (map trip) ls)).
Proof.
  intros H. induction H as [|l ls [H1 H2] _ IH]; [exists []; split; repeat constructor|]. cbn [map concat]. apply line_numbers; assumption.
Qed.
Lemma unwords_line (l : list f64) : unwords (map show l) ++ nl = line_text l.
Proof.
  induction l as [|x l IH]; [reflexivity|]. destruct l as [|y l]; [reflexivity|].
  change (line_text (x :: y :: l)) with (show x ++ sp ++ line_text (y :: l)). rewrite <- IH.
  change (unwords (map show (x :: y :: l))) with (show x ++ str " " ++ unwords (map show (y :: l))). rewrite <- !app_assoc. reflexivity.
Qed.
Theorem saved_numbers W H fs name (s : LevelSet f64) isXY : reached W H s -> fs_writable fs name = true ->
  Forall (fun x => is_finite x = true) (ls_sd s) -> Forall (fun x => is_finite x = true) (ls_vel s) -> Forall (fun x => is_finite x = true) (ls_grad s) ->
  exists fs' text (vs : list f64), saveLevelSetTXT fs name s isXY = Ok fs' /\ fs_file fs' name = Some text /\ has_numbers text vs /\ length vs = (if isXY then 5 else 3) * node_count W H.
Proof.
  intros R1 Hw F1 F2 F3. pose proof (level_set_txt_saved W H fs name s isXY R1) as S. unfold saved in S. rewrite Hw in S.
  destruct S as (fs' & text & E & Ef & (lines & -> & Ll & Hl) & _). destruct (reached_sound _ _ _ R1) as [O1 _ _ _]. pose proof (ok_topo _ _ _ O1) as T1.
  pose proof (ok_sd _ _ _ O1) as L1. pose proof (ok_vel _ _ _ O1) as L2. pose proof (ok_grad _ _ _ O1) as L3.
  set (N := node_count W H) in *. set (ln := fun i => line W s isXY i (nth i (ls_sd s) n0) (nth i (ls_vel s) n0) (nth i (ls_grad s) n0)).
  assert (EN : (W + 1) * (H + 1) = N) by (unfold N, node_count; lia).
  assert (Eq : lines = map (fun i => unwords (map show (ln i))) (seq 0 N)).
  { apply list_eq. intros i. rewrite list_lookup_fmap. destruct (Nat.lt_ge_cases i N) as [Hi|Hi]; [|rewrite lookup_ge_None_2 by (rewrite Ll, EN; exact Hi); rewrite lookup_seq_ge by exact Hi; reflexivity].
    rewrite lookup_seq_lt by exact Hi. cbn [fmap option_fmap option_map Nat.add].
    destruct (lookup_lt_is_Some_2 (ls_sd s) i) as [d Ed]; [lia|]. destruct (lookup_lt_is_Some_2 (ls_vel s) i) as [v Ev]; [lia|]. destruct (lookup_lt_is_Some_2 (ls_grad s) i) as [g Eg]; [lia|].
    assert (Ei : i = i mod (W + 1) + i / (W + 1) * (W + 1)) by (pose proof (Nat.div_mod i (W + 1) ltac:(lia)); lia).
    assert (Hx : i mod (W + 1) <= W) by (pose proof (Nat.mod_upper_bound i (W + 1) ltac:(lia)); lia).
    assert (Hy : i / (W + 1) <= H) by (apply Nat.lt_succ_r, Nat.div_lt_upper_bound; [lia|rewrite <- EN in Hi; lia]).
    assert (X := Hl (i mod (W + 1)) (i / (W + 1)) d v g Hx Hy). rewrite <- Ei in X. rewrite (X Ed Ev Eg). f_equal.
    unfold ln, line. rewrite (nth_lookup_Some _ _ _ _ Ed), (nth_lookup_Some _ _ _ _ Ev), (nth_lookup_Some _ _ _ _ Eg). destruct isXY; reflexivity. }
  assert (El : unlines lines = concat (map line_text (map ln (seq 0 N)))).
  { rewrite Eq. unfold unlines. rewrite !map_map. f_equal. apply map_ext. intros i. apply unwords_line. }
  exists fs', (unlines lines), (concat (map (map trip) (map ln (seq 0 N)))). split; [exact E|]. split; [exact Ef|]. rewrite El. split.
  - apply lines_numbers. apply Forall_forall. intros l Hl'. apply elem_of_list_In, in_map_iff in Hl' as (i & <- & Hi). apply in_seq in Hi.
    assert (X : forall v : list f64, length v = N -> Forall (fun x => is_finite x = true) v -> is_finite (nth i v n0) = true).
    { intros v Lv Hv. destruct (lookup_lt_is_Some_2 v i) as [d Ed]; [lia|]. rewrite (nth_lookup_Some _ _ _ _ Ed). exact (proj1 (Forall_lookup _ _) Hv i d Ed). }
    split; [unfold ln, line; destruct isXY; discriminate|]. unfold ln, line. apply Forall_app_2.
    + destruct isXY; [|constructor]. pose proof (tp_fits _ _ _ T1) as (_ & _ & HF). assert (Ln : (i < N)%nat) by lia.
      assert (B : forall k, k <= i -> is_finite (nofnat (T := f64) k) = true).
      { intros k Hk. unfold nofnat. cbn [nofZ NumF64]. apply (f64_ofZ_correct (Z.of_nat k)). unfold N in Ln. lia. }
      repeat constructor; apply B; [apply Nat.mod_le; lia|apply Nat.div_le_upper_bound; nia].
    + repeat constructor; apply X; assumption.
  - assert (C : forall k (l : list nat), (forall i, length (ln i) = k) -> length (concat (map (map trip) (map ln l))) = k * length l).
    { intros k l Hk. induction l as [|i l IH]; cbn [map concat length]; [lia|]. rewrite app_length, map_length, Hk, IH. lia. }
    rewrite (C (if isXY then 5 else 3)), seq_length; [reflexivity|]. intros i. unfold ln, line. destruct isXY; reflexivity.
Qed.
Theorem saved_text_not_configuration W H fs name (s s2 : LevelSet f64) isXY : reached W H s -> reached W H s2 -> fs_writable fs name = true ->
  Forall (fun x => is_finite x = true) (ls_sd s) -> Forall (fun x => is_finite x = true) (ls_vel s) -> Forall (fun x => is_finite x = true) (ls_grad s) ->
  exists fs', saveLevelSetTXT fs name s isXY = Ok fs' /\ load_configuration fs' name s2 = UB.
Proof.
  intros R1 R2 Hw F1 F2 F3. destruct (saved_numbers W H fs name s isXY R1 Hw F1 F2 F3) as (fs' & text & vs & E1 & E2 & E3 & E4).
  exists fs'. split; [exact E1|]. rewrite (configuration_read fs' name text vs s2 E2 E3).
  destruct (reached_sound _ _ _ R2) as [O2 _ _ _]. pose proof (ok_sd _ _ _ O2) as L. destruct (Nat.leb_spec (length vs) (length (ls_sd s2))); [|reflexivity].
  exfalso. rewrite E4, L in *. unfold node_count in *. destruct isXY; lia.
Qed.

(** ** The value of a decimal number *)
Local Open Scope R_scope.
Lemma power10 e : powerRZ 10 e = (if (0 <=? e)%Z then IZR (10 ^ e) else / IZR (10 ^ (- e))).
Proof.
  destruct e as [|p|p]; cbn [Z.leb Z.compare].
  - reflexivity.
  - change (powerRZ 10 (Z.pos p)) with (10 ^ Pos.to_nat p). rewrite pow_IZR. f_equal. f_equal. rewrite positive_nat_Z. reflexivity.
  - change (powerRZ 10 (Z.neg p)) with (/ 10 ^ Pos.to_nat p). rewrite pow_IZR. f_equal. f_equal. rewrite positive_nat_Z. reflexivity.
Qed.
Lemma quotient_finite neg p q : is_finite (quotient neg p q) = true -> Rabs (nearest_double (IZR (Zpos p) / IZR (Zpos q))) < bpow radix2 1024.
Proof.
  intros Hf. destruct (Rlt_le_dec (Rabs (nearest_double (IZR (Zpos p) / IZR (Zpos q)))) (bpow radix2 1024)) as [L|L]; [exact L|exfalso].
  unfold quotient in Hf. rewrite is_finite_SF2B in Hf.
  pose proof (proj2 (Bdiv_correct_aux 53 1024 f64_prec_gt_0 f64_prec_lt_emax mode_NE neg p 0 false q 0)) as C.
  assert (E : F2R (Float radix2 (cond_Zopp neg (Zpos p)) 0) / F2R (Float radix2 (cond_Zopp false (Zpos q)) 0) = (if neg then -1 else 1) * (IZR (Zpos p) / IZR (Zpos q))).
  { unfold F2R. cbn [Fnum Fexp cond_Zopp bpow]. destruct neg; cbn [cond_Zopp]; [change (Z.neg p) with (- Z.pos p)%Z; rewrite opp_IZR|]; field; apply IZR_neq; discriminate. }
  rewrite E in C.
  assert (Q : Rabs (round radix2 (SpecFloat.fexp 53 1024) (round_mode mode_NE) ((if neg then -1 else 1) * (IZR (Zpos p) / IZR (Zpos q)))) = Rabs (nearest_double (IZR (Zpos p) / IZR (Zpos q)))).
  { destruct neg; [|rewrite !Rmult_1_l; reflexivity]. replace (-1 * (IZR (Zpos p) / IZR (Zpos q))) with (- (IZR (Zpos p) / IZR (Zpos q))) by ring.
    unfold nearest_double. cbn [round_mode]. rewrite round_NE_opp. apply Rabs_Ropp. }
  rewrite Q in C. rewrite Rlt_bool_false in C by exact L. rewrite C in Hf. cbn in Hf. discriminate.
Qed.
Theorem numeral_value neg m e v : read (T := f64) neg m e = (v, true) ->
  is_finite v = true /\ B2R v = nearest_double ((if neg then -1 else 1) * IZR (Z.of_N m) * powerRZ 10 e).
Proof.
  cbn [read TextF64]. unfold read_f64. destruct m as [|p].
  - intros E. injection E as <-. split; [reflexivity|]. cbn [B2R Z.of_N]. rewrite Rmult_0_r, Rmult_0_l. unfold nearest_double. rewrite round_0; [reflexivity|typeclasses eauto].
  - cbv zeta. rewrite power10.
    assert (G : forall a b : positive, is_finite (quotient neg a b) = true ->
      B2R (quotient neg a b) = nearest_double ((if neg then -1 else 1) * (IZR (Zpos a) / IZR (Zpos b)))).
    { intros a b Hf. destruct (quotient_ok neg a b (quotient_finite neg a b Hf)) as [-> _]. destruct neg; [|rewrite !Rmult_1_l; reflexivity].
      replace (-1 * (IZR (Zpos a) / IZR (Zpos b))) with (- (IZR (Zpos a) / IZR (Zpos b))) by ring. unfold nearest_double. cbn [round_mode]. rewrite round_NE_opp. ring. }
    destruct (Z.leb_spec 0 e) as [L|L]; destruct (is_finite (quotient _ _ _)) eqn:F; intros E; try discriminate; injection E as <-; split; try exact F; rewrite G by exact F; f_equal.
    + assert (P : (0 < 10 ^ e)%Z) by (apply Z.pow_pos_nonneg; lia). rewrite Pos2Z.inj_mul, Z2Pos.id by exact P. rewrite mult_IZR. cbn [Z.of_N]. field.
    + assert (P : (0 < 10 ^ (- e))%Z) by (apply Z.pow_pos_nonneg; lia). rewrite Z2Pos.id by exact P. cbn [Z.of_N]. field. apply IZR_neq. lia.
Qed.

Local Open Scope nat_scope.
(** ** The dumbbell program *)
Theorem dumbbell_from_file {T : Type} {NT : Num T} {NI : NumInt T} {TT : Text T} fs name text (vs : list T) (s : LevelSet T) :
  start_dumbbell fs None = Ok s -> fs_file fs name = Some text -> has_numbers text vs -> length vs = 101 * 101 ->
  start_dumbbell fs (Some name) = Ok (set_sd vs s) /\ reached 100 100 (set_sd vs s).
Proof.
  unfold start_dumbbell. intros E Ht Hn HL. apply obind_Ok in E as (s0 & E & X). injection X as <-.
  assert (Hr : reached 100 100 s0) by (exists (nlit 5 100), 6, true, s0; split; [unfold fits_ls, node_count; lia|]; split; [exact (new_by_holes_holes _ _ _ _ _ _ _ _ E)|apply rtc_refl]).
  pose proof (ok_sd _ _ _ (so_ok _ _ _ (reached_sound _ _ _ Hr))) as L.
  assert (HE : length vs = length (ls_sd s0)) by (rewrite L, HL; unfold node_count; lia). clear HL L. rewrite E. cbn [obind].
  rewrite (configuration_read fs name text vs s0 Ht Hn), HE, Nat.leb_refl, drop_all, app_nil_r. split; [reflexivity|].
  apply (reached_call _ _ _ _ Hr), c_write_sd, HE.
Qed.

(** ** A case *)
Lemma read_fits neg m e : snd (read (T := f64) neg m e) = true -> read (T := f64) neg m e = (fst (read neg m e), true).
Proof. intros E. rewrite <- E. apply surjective_pairing. Qed.
Lemma numbers_case : exists vs : list f64, has_numbers (str " 1.5 -2" ++ nl ++ str "25e-1  +.5" ++ nl) vs /\ map (fun v => (v =? nlit 3 2, v =? nofZ (-2), v =? nlit 5 2, v =? nlit 1 2)%num) vs =
  [(true, false, false, false); (false, true, false, false); (false, false, true, false); (false, false, false, true)].
Proof.
  exists [fst (read false 15 (-1)); fst (read true 2 0); fst (read false 25 (-1)); fst (read false 5 (-1))]. split; [|vm_compute; reflexivity].
  exists [str "1.5"; str "-2"; str "25e-1"; str "+.5"]. split.
  - apply (sp_more (str " ") (str "1.5") " "%char); [repeat constructor|reflexivity|].
    apply (sp_more [] (str "-2") newline); [constructor|reflexivity|]. apply (sp_more [] (str "25e-1") " "%char); [constructor|reflexivity|].
    apply (sp_more (str " ") (str "+.5") newline); [repeat constructor|reflexivity|]. apply (sp_end []). constructor.
  - repeat constructor.
    + exists false, 15%N, (-1)%Z. split; [|apply read_fits; vm_compute; reflexivity]. exists [], (str "1"), (str ".5"), [], 0%Z. split; [reflexivity|]. split; [left; reflexivity|]. split; [repeat constructor|].
      split; [|left; auto]. exists (str "5"). split; [right; reflexivity|]. split; [repeat constructor|]. split; [discriminate|]. split; reflexivity.
    + exists true, 2%N, 0%Z. split; [|apply read_fits; vm_compute; reflexivity]. exists (str "-"), (str "2"), [], [], 0%Z. split; [reflexivity|]. split; [reflexivity|]. split; [repeat constructor|].
      split; [|left; auto]. exists []. split; [left; auto|]. split; [constructor|]. split; [discriminate|]. split; reflexivity.
    + exists false, 25%N, (-1)%Z. split; [|apply read_fits; vm_compute; reflexivity]. exists [], (str "25"), [], (str "e-1"), (-1)%Z. split; [reflexivity|]. split; [left; reflexivity|]. split; [repeat constructor|].
      split; [exists []; split; [left; auto|]; split; [constructor|]; split; [discriminate|]; split; reflexivity|]. right.
      exists (str "e"), (str "-"), true, (str "1"). split; [reflexivity|]. split; [left; reflexivity|]. split; [reflexivity|]. split; [repeat constructor|]. split; [discriminate|reflexivity].
    + exists false, 5%N, (-1)%Z. split; [|apply read_fits; vm_compute; reflexivity]. exists (str "+"), [], (str ".5"), [], 0%Z. split; [reflexivity|]. split; [right; reflexivity|]. split; [repeat constructor|].
      split; [|left; auto]. exists (str "5"). split; [right; reflexivity|]. split; [repeat constructor|]. split; [discriminate|]. split; reflexivity.
Qed.
