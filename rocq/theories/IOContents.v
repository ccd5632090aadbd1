(** * IOContents: the files that are written. *)

From Coq Require Import Ascii String NArith ZArith Lia.
From Verif Require Import IOModel IODigits IOFiles IOSpec Num NumInt MeshSpec MeshTopo LevelSetSpec LevelSetCalls LevelSetHist BoundaryLinks.
Local Open Scope nat_scope.

Lemma unlines_app a b : unlines (a ++ b) = unlines a ++ unlines b.
Proof. unfold unlines. rewrite map_app, concat_app. reflexivity. Qed.
Lemma unlines_cons x a : unlines (x :: a) = x ++ nl ++ unlines a.
Proof. unfold unlines. cbn [map concat]. rewrite <- app_assoc. reflexivity. Qed.
Lemma unlines_map {A} (f : A -> bytes) l : unlines (map f l) = concat (map (fun x => f x ++ nl) l).
Proof. unfold unlines. rewrite map_map. reflexivity. Qed.
Lemma unlines_concat ls : unlines (concat ls) = concat (map unlines ls).
Proof. induction ls as [|l ls IH]; [reflexivity|]. cbn [concat map]. rewrite unlines_app, IH. reflexivity. Qed.

Lemma show_int_small n : (N.of_nat n < 2 ^ 31)%N -> show_int n = num n.
Proof.
  intros H. unfold show_int, num. rewrite N.mod_small by (eapply N.lt_trans; [exact H|reflexivity]).
  destruct (N.ltb_spec (N.of_nat n) (2 ^ 31)) as [_|X]; [reflexivity|]. exfalso. apply (N.lt_irrefl (N.of_nat n)). eapply N.lt_le_trans; [exact H|exact X].
Qed.
Lemma save_saved fs name (P : bytes -> Prop) o c : o = Ok c -> P c -> saved fs name P (save fs name o).
Proof.
  intros -> Hc. unfold saved, save. destruct (fs_writable fs name); cbn [check obind]; [|reflexivity].
  destruct (written fs name c) as (A & B & C). exists (fs_write fs name c), c. auto.
Qed.
Lemma map_seq_lookup {A} (f : nat -> A) n i : i < n -> map f (seq 0 n) !! i = Some (f i).
Proof. intros H. change (map f (seq 0 n)) with (f <$> seq 0 n). rewrite list_lookup_fmap. rewrite lookup_seq_lt by exact H. reflexivity. Qed.

Section Contents.
  Context {T : Type} {NT : Num T} {NI : NumInt T} {TT : Text T}.

  Lemma values_ok n (v : list T) : n = length v -> values n v = Ok (unlines (map show v)).
  Proof.
    intros ->. unfold values. set (r := fun i => match v !! i with Some x => show x ++ nl | None => [] end).
    rewrite (print_rows_ok _ _ r).
    - rewrite unlines_map. do 2 f_equal. apply list_eq. intros i. destruct (Nat.lt_ge_cases i (length v)) as [Hi|Hi].
      + rewrite map_seq_lookup by exact Hi. change (map ?f v) with (f <$> v). rewrite list_lookup_fmap. unfold r.
        destruct (lookup_lt_is_Some_2 v i Hi) as [x ->]. reflexivity.
      + rewrite !lookup_ge_None_2; [reflexivity| |]; rewrite map_length; [exact Hi|rewrite seq_length; exact Hi].
    - intros i Hi. unfold r, vget. destruct (lookup_lt_is_Some_2 v i Hi) as [x ->]. reflexivity.
  Qed.

  Lemma node_at W x y : x <= W -> (x + y * (W + 1)) mod (W + 1) = x /\ (x + y * (W + 1)) / (W + 1) = y.
  Proof. intros H. split; [rewrite Nat.mod_add by lia; apply Nat.mod_small; lia|rewrite Nat.div_add by lia; rewrite Nat.div_small by lia; reflexivity]. Qed.

  Theorem level_set_txt_saved W H fs name (s : LevelSet T) isXY : reached W H s ->
    saved fs name (level_set_text W H s isXY) (saveLevelSetTXT fs name s isXY).
  Proof.
    intros R. destruct (reached_sound _ _ _ R) as [O _ _ _]. pose proof (ok_topo _ _ _ O) as Ht.
    pose proof (ok_sd _ _ _ O) as L1. pose proof (ok_vel _ _ _ O) as L2. pose proof (ok_grad _ _ _ O) as L3. pose proof (tp_nN _ _ _ Ht) as En. pose proof (tp_lenN _ _ _ Ht) as Ln.
    unfold saveLevelSetTXT. rewrite En.
    set (w := fun i => unwords ((if isXY then [show (nofnat (i mod (W + 1))); show (nofnat (i / (W + 1)))] else []) ++ [show (nth i (ls_sd s) n0); show (nth i (ls_vel s) n0); show (nth i (ls_grad s) n0)])).
    eapply save_saved.
    - apply (print_rows_ok _ _ (fun i => w i ++ nl)). intros i Hi. unfold level_row, vget.
      destruct (lookup_lt_is_Some_2 (m_nodes (ls_mesh s)) i) as [n Hn]; [lia|]. destruct (lookup_lt_is_Some_2 (ls_sd s) i) as [d Ed]; [lia|].
      destruct (lookup_lt_is_Some_2 (ls_vel s) i) as [v Ev]; [lia|]. destruct (lookup_lt_is_Some_2 (ls_grad s) i) as [g Eg]; [lia|].
      destruct (tp_node _ _ _ Ht i n Hn) as (Ec & _).
      rewrite Hn, Ed, Ev, Eg. unfold w. rewrite (nth_lookup_Some _ _ _ _ Ed), (nth_lookup_Some _ _ _ _ Ev), (nth_lookup_Some _ _ _ _ Eg).
      destruct isXY; cbn [obind xy_part unwords app]; [rewrite Ec; cbn [node_spec nd_coord cx cy]|]; unfold sp; rewrite <- !app_assoc; reflexivity.
    - exists (map w (seq 0 (node_count W H))). split; [rewrite unlines_map; reflexivity|]. split; [rewrite map_length, seq_length; reflexivity|].
      intros x y d v g Hx Hy Ed Ev Eg. destruct (node_at W x y Hx) as [A B]. rewrite map_seq_lookup by (apply lookup_lt_Some in Ed; lia).
      unfold w. rewrite A, B. rewrite (nth_lookup_Some _ _ _ _ Ed), (nth_lookup_Some _ _ _ _ Ev), (nth_lookup_Some _ _ _ _ Eg). reflexivity.
  Qed.

  Lemma header_ok W H (m : Mesh T) : topo W H m -> (N.of_nat (node_count W H) < 2 ^ 31)%N -> vtk_header m = unlines (vtk_head W H).
  Proof.
    intros Ht Hf. destruct (tp_fits _ _ _ Ht) as (F1 & F2 & _). unfold vtk_header. rewrite (tp_w _ _ _ Ht), (tp_h _ _ _ Ht).
    assert (B : forall n, n <= node_count W H -> show_int n = num n) by (intros n Hn; apply show_int_small; lia).
    assert (W1 : 1 + W <= node_count W H) by (unfold node_count; nia). assert (H1 : 1 + H <= node_count W H) by (unfold node_count; nia).
    rewrite (B (1 + W) W1), (B (1 + H) H1), (B 1) by lia.
    assert (C : forall n, 1 + n <= node_count W H -> concat (map (fun i => show_int i ++ sp) (seq 0 (1 + n))) = coordinates n).
    { intros n Hn. unfold coordinates. rewrite (Nat.add_comm n 1). f_equal. apply map_ext_in. intros i Hi. apply in_seq in Hi. rewrite B by lia. reflexivity. }
    rewrite (C W W1), (C H H1). unfold vtk_head. rewrite (Nat.add_comm W 1), (Nat.add_comm H 1). rewrite !unlines_cons. cbn [unwords].
    change (unlines []) with (@nil ascii). change (num 1) with (str "1"). change (str "DIMENSIONS ") with (str "DIMENSIONS" ++ str " ").
    change (str "X_COORDINATES ") with (str "X_COORDINATES" ++ str " "). change (str "Y_COORDINATES ") with (str "Y_COORDINATES" ++ str " ").
    change (str " int") with (str " " ++ str "int"). unfold sp. rewrite <- !app_assoc. rewrite app_nil_r. reflexivity.
  Qed.
  Lemma block_ok nm (v : list T) : unlines (vtk_block nm v) = scalars (str nm) ++ unlines (map show v).
  Proof.
    unfold vtk_block, scalars. rewrite unlines_app, !unlines_cons. cbn [unwords]. change (unlines []) with (@nil ascii).
    change (str "SCALARS ") with (str "SCALARS" ++ str " "). change (str " float 1") with (str " " ++ str "float 1"). rewrite <- !app_assoc. reflexivity.
  Qed.

  Theorem level_set_vtk_saved W H fs name (s : LevelSet T) isVelocity isGradient : reached W H s -> (N.of_nat ((W + 1) * (H + 1)) < 2 ^ 31)%N ->
    saved fs name (level_set_vtk W H s isVelocity isGradient) (saveLevelSetVTK fs name s isVelocity isGradient).
  Proof.
    intros R Hf. destruct (reached_sound _ _ _ R) as [O _ _ _]. pose proof (ok_topo _ _ _ O) as Ht.
    pose proof (ok_sd _ _ _ O) as L1. pose proof (ok_vel _ _ _ O) as L2. pose proof (ok_grad _ _ _ O) as L3. pose proof (tp_nN _ _ _ Ht) as En.
    unfold saveLevelSetVTK. cbv zeta. rewrite (header_ok W H _ Ht Hf), En. change (node_count W H) with ((W + 1) * (H + 1)) in *. rewrite (show_int_small _ Hf).
    rewrite (values_ok _ (ls_sd s)), (values_ok _ (ls_vel s)), (values_ok _ (ls_grad s)) by congruence. cbn [obind].
    eapply save_saved.
    - match goal with |- (let! v' := (if _ then Ok (?p1 ++ ?v) else _) in let! g' := (if _ then Ok (?p2 ++ ?g) else _) in Ok (?h ++ ?h1 ++ ?h2 ++ ?h3 ++ ?h4 ++ ?h5 ++ v' ++ g')) = _ =>
        transitivity (Ok (h ++ h1 ++ h2 ++ h3 ++ h4 ++ h5 ++ (if isVelocity then p1 ++ v else []) ++ (if isGradient then p2 ++ g else []))) end;
        [destruct isVelocity, isGradient; reflexivity|reflexivity].
    - unfold level_set_vtk. rewrite !unlines_app. f_equal. rewrite unlines_cons, block_ok. change (unlines []) with (@nil ascii). cbn [unwords].
      change (str "POINT_DATA ") with (str "POINT_DATA" ++ str " "). rewrite <- !app_assoc. do 4 f_equal. cbn [app]. f_equal. f_equal.
      destruct isVelocity, isGradient; rewrite ?block_ok; reflexivity.
  Qed.

  Lemma elem_at W x y : x < W -> (x + y * W) mod W = x /\ (x + y * W) / W = y.
  Proof. intros H. split; [rewrite Nat.mod_add by lia; apply Nat.mod_small; lia|rewrite Nat.div_add by lia; rewrite Nat.div_small by lia; reflexivity]. Qed.
  Theorem areas_txt_saved W H fs name (m : Mesh T) isXY : topo W H m -> saved fs name (areas_text W H m isXY) (saveAreaFractionsTXT fs name m isXY).
  Proof.
    intros Ht. pose proof (tp_nE _ _ _ Ht) as En. pose proof (tp_lenE _ _ _ Ht) as Le. unfold saveAreaFractionsTXT. rewrite En.
    set (w := fun i => match m_elements m !! i with Some e =>
      unwords ((if isXY then [show (nofnat (i mod W) + nlit 1 2)%num; show (nofnat (i / W) + nlit 1 2)%num] else []) ++ [show (e_area e)]) | None => [] end).
    eapply save_saved.
    - apply (print_rows_ok _ _ (fun i => w i ++ nl)). intros i Hi. unfold vget, w. destruct (lookup_lt_is_Some_2 (m_elements m) i) as [e He]; [lia|]. rewrite He.
      destruct (tp_elem _ _ _ Ht i e He) as [Ec _]. cbn [obind]. unfold xy_part. rewrite Ec. cbn [element_spec e_coord cx cy].
      destruct isXY; cbn [unwords app]; unfold sp; rewrite <- ?app_assoc; reflexivity.
    - exists (map w (seq 0 (W * H))). split; [rewrite unlines_map; reflexivity|]. split; [rewrite map_length, seq_length; reflexivity|].
      intros x y e Hx Hy He. destruct (elem_at W x y Hx) as [A B]. rewrite map_seq_lookup by (apply lookup_lt_Some in He; lia). unfold w. rewrite A, B, He. reflexivity.
  Qed.
  Theorem areas_vtk_saved W H fs name (m : Mesh T) : topo W H m -> (N.of_nat ((W + 1) * (H + 1)) < 2 ^ 31)%N -> saved fs name (areas_vtk W H m) (saveAreaFractionsVTK fs name m).
  Proof.
    intros Ht Hf. pose proof (tp_nE _ _ _ Ht) as En. pose proof (tp_lenE _ _ _ Ht) as Le. unfold saveAreaFractionsVTK. rewrite (header_ok W H m Ht Hf), En.
    rewrite show_int_small by (eapply N.le_lt_trans; [|exact Hf]; nia).
    pose proof (values_ok (W * H) (map e_area (m_elements m)) ltac:(rewrite map_length; lia)) as V.
    assert (E : print_rows (W * H) (fun i => let! e := vget (m_elements m) i in Ok (show (e_area e) ++ nl)) = Ok (unlines (map show (map e_area (m_elements m))))).
    { rewrite <- V. unfold values, print_rows, for_. generalize (W * H). generalize (@nil ascii). generalize 0. intros a o n. revert a o. induction n as [|n IH]; intros a o; [reflexivity|].
      cbn [for_from]. unfold vget. change (map e_area (m_elements m)) with (e_area <$> m_elements m). rewrite list_lookup_fmap. destruct (m_elements m !! a) as [e|]; cbn [fmap option_fmap option_map obind]; [apply IH|reflexivity]. }
    rewrite E. cbn [obind]. eapply save_saved; [reflexivity|]. unfold areas_vtk. rewrite !unlines_app, unlines_cons, block_ok. change (unlines []) with (@nil ascii). cbn [unwords].
    change (str "CELL_DATA ") with (str "CELL_DATA" ++ str " "). rewrite <- !app_assoc. reflexivity.
  Qed.

  Theorem points_saved fs name (b : Boundary T) : saved fs name (points_text b) (saveBoundaryPointsTXT fs name b).
  Proof.
    unfold saveBoundaryPointsTXT.
    set (f := fun p : BoundaryPoint T => unwords [show (cx (bp_coord p)); show (cy (bp_coord p)); show (bp_length p)]).
    set (w := fun i => match bd_points b !! i with Some p => f p ++ nl | None => [] end).
    eapply save_saved.
    - apply (print_rows_ok _ _ w). intros i Hi. unfold vget, w. destruct (lookup_lt_is_Some_2 (bd_points b) i Hi) as [p ->]. cbn [obind]. unfold f. cbn [unwords].
      unfold sp. rewrite <- !app_assoc. reflexivity.
    - unfold points_text. rewrite unlines_map. f_equal. apply list_eq. intros i. destruct (Nat.lt_ge_cases i (length (bd_points b))) as [Hi|Hi].
      + rewrite map_seq_lookup by exact Hi. change (map ?f (bd_points b)) with (f <$> bd_points b). rewrite list_lookup_fmap. unfold w.
        destruct (lookup_lt_is_Some_2 (bd_points b) i Hi) as [x ->]. reflexivity.
      + rewrite !lookup_ge_None_2; [reflexivity| |]; rewrite map_length; [exact Hi|rewrite seq_length; exact Hi].
  Qed.
  Theorem segments_saved W H fs name (s s' : LevelSet T) tg b : reached W H s -> discretise s tg = Ok (s', b) ->
    saved fs name (segments_text b) (saveBoundarySegmentsTXT fs name b).
  Proof.
    intros R E. destruct (links_api W H s s' tg b (ok_topo _ _ _ (so_ok _ _ _ (reached_sound _ _ _ R))) E) as (_ & G & _).
    unfold saveBoundarySegmentsTXT.
    set (w := fun i => match bd_segs b !! i with Some sg => match bd_points b !! sg_start sg, bd_points b !! sg_end sg with Some p, Some q =>
       [unwords [show (cx (bp_coord p)); show (cy (bp_coord p))]; unwords [show (cx (bp_coord q)); show (cy (bp_coord q))]; []] | _, _ => [] end | None => [] end).
    eapply save_saved.
    - apply (print_rows_ok _ _ (fun i => unlines (w i))). intros i Hi. unfold vget, w. destruct (lookup_lt_is_Some_2 (bd_segs b) i Hi) as [sg Eg]. rewrite Eg. cbn [obind]. destruct (G i sg Eg) as (G1 & G2 & _).
      destruct (lookup_lt_is_Some_2 (bd_points b) _ G1) as [p ->]. destruct (lookup_lt_is_Some_2 (bd_points b) _ G2) as [q ->]. cbn [obind].
      rewrite !unlines_cons. change (unlines []) with (@nil ascii). cbn [unwords]. unfold sp. rewrite <- !app_assoc. reflexivity.
    - exists (map w (seq 0 (length (bd_segs b)))). split; [rewrite unlines_concat, map_map; reflexivity|]. split; [rewrite map_length, seq_length; reflexivity|].
      intros k sg p q Ek Ep Eq. rewrite map_seq_lookup by (eapply lookup_lt_Some, Ek). unfold w. rewrite Ek, Ep, Eq. reflexivity.
  Qed.
End Contents.
