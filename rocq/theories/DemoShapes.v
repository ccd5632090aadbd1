(** * DemoShapes: the starting shapes and constants of the demo programs. *)

From Coq Require Import Reals Lra ZArith.
From Flocq Require Import Core.Core.
From Verif Require Import Base Num NumR NumF64 NumInt MeshModel MeshSpec MeshProofs MeshTopo LevelSetModel LevelSetSpec LevelSetSpecR LevelSetCalls LevelSetBand LevelSetOps LevelSetInit LevelSetHist LevelSetReal
  BoundaryModel StartSpec LevelSetTarget DemoModel DemoSpec DemoSetup.
Local Open Scope nat_scope.

Lemma fits_200 : fits_ls 200 200 6.
Proof. unfold fits_ls, node_count. lia. Qed.

(** ** The square of minimise_perimeter_constrained *)
Section square.
  Context {T : Type} {NT : Num T}.

  Lemma swiss_seven (m : Mesh T) : round_u32 (nofnat (m_width m) / nofZ 30)%num = Ok 7 -> round_u32 (nofnat (m_height m) / nofZ 30)%num = Ok 7 ->
    exists hs, swiss_holes m = Ok hs.
  Proof.
    intros E1 E2. unfold swiss_holes. rewrite E1, E2. cbn [obind]. set (dx := (_ / nofnat (u32 _))%num). set (dy := (_ / nofnat (u32 _))%num) in |- *. clearbody dx dy.
    vm_compute. eauto.
  Qed.

  Context {NI : NumInt T}.
  Lemma trunc_nofnat k : (Z.of_nat k < 2 ^ 31)%Z -> trunc_i32 (nofnat k : T) = Ok (Z.of_nat k).
  Proof.
    intros Hk. unfold trunc_i32. change (n0 : T) with (nofnat 0 : T). rewrite nlt_nofnat by lia. change (k <? 0) with false. cbv iota.
    rewrite nfloor_nofnat by lia. destruct ((- 2 ^ 31 <=? Z.of_nat k) && (Z.of_nat k <? 2 ^ 31))%Z eqn:E; [reflexivity|]. lia.
  Qed.
  Lemma square_loop W H (m : Mesh T) sd : topo W H m -> length sd = node_count W H ->
    for_ (m_nNodes m) (square_step (m_nodes m)) sd = Ok (tab (node_count W H) (fun i => if in_square (i mod (W + 1)) (i / (W + 1)) then nofZ (-1) else n1)).
  Proof.
    intros Ht Hl. rewrite (tp_nN _ _ _ Ht). set (f := fun i => if in_square (i mod (W + 1)) (i / (W + 1)) then nofZ (-1) else n1 : T).
    assert (L : wp False False (for_ (node_count W H) (square_step (m_nodes m)) sd) (fun l => l = tab (node_count W H) f)); [|destruct (for_ _ _ _); cbn in L; try contradiction; congruence].
    apply (wp_for False False (fun k l => length l = node_count W H /\ forall i, i < k -> l !! i = Some (f i))).
    - split; [exact Hl|]. intros i Hi. lia.
    - intros k l Hk (Ll & Hf). unfold square_step. destruct (lookup_lt_is_Some_2 (m_nodes m) k) as [n En]; [rewrite (tp_lenN _ _ _ Ht); exact Hk|].
      unfold vget. rewrite En. cbn [obind]. destruct (tp_node _ _ _ Ht k n En) as (-> & _). cbn [node_spec nd_coord cx cy].
      destruct (tp_fits _ _ _ Ht) as (F1 & F2 & F3). unfold node_count in *.
      assert (B1 : k mod (W + 1) < W + 1) by (apply Nat.mod_upper_bound; lia). assert (B2 : k / (W + 1) < H + 1) by (apply Nat.div_lt_upper_bound; lia).
      assert (C1 : (Z.of_nat (W + 1) <= 2 ^ 31)%Z) by nia. assert (C2 : (Z.of_nat (H + 1) <= 2 ^ 31)%Z) by nia.
      assert (EU : forall a, (Z.of_nat a < 2 ^ 31)%Z -> u32 (Z.of_nat a) = a) by (intros a Ha; rewrite u32_small by lia; apply Nat2Z.id).
      rewrite !trunc_nofnat by lia. cbn [obind]. rewrite !EU by lia. apply wp_vset; [rewrite Ll; exact Hk|].
      split; [rewrite insert_length; exact Ll|]. intros i Hi. destruct (Nat.eq_dec i k) as [->|]; [rewrite list_lookup_insert by (rewrite Ll; exact Hk); reflexivity|].
      rewrite list_lookup_insert_ne by lia. apply Hf. lia.
    - intros l (Ll & Hf). apply list_eq. intros i. destruct (Nat.lt_ge_cases i (node_count W H)) as [C|C].
      + rewrite (Hf i C). symmetry. apply tab_lookup. exact C.
      + rewrite !lookup_ge_None_2; [reflexivity|rewrite tab_length; lia|lia].
  Qed.

  Lemma square_any W H ml bw fx : fits_ls W H bw -> round_u32 (nofnat W / nofZ 30 : T)%num = Ok 7 -> round_u32 (nofnat H / nofZ 30 : T)%num = Ok 7 -> valid_params (ml : T) bw ->
    exists s : LevelSet T, (let! s := ls_new_swiss W H ml bw fx in let! sd := for_ (m_nNodes (ls_mesh s)) (square_step (m_nodes (ls_mesh s))) (ls_sd s) in Ok (set_sd sd s)) = Ok s /\
      reached W H s /\ forall x y, x <= W -> y <= H -> ls_sd s !! node_id W x y = Some (if in_square x y then nofZ (-1) else n1).
  Proof.
    intros Hf E7 E7' HV.
    assert (Ht : topo W H (mesh_spec (T := T) W H)) by (apply topo_new; [exact (fits_mesh _ _ _ Hf)|apply mesh_new_eq, (fits_mesh _ _ _ Hf)]).
    assert (HS : exists sd, init_swiss (mesh_spec W H) (replicate (node_count W H) (n0 : T)) = Ok sd /\ length sd = node_count W H).
    { unfold init_swiss. destruct (swiss_seven (mesh_spec W H) E7 E7') as [hs ->]. cbn [obind].
      rewrite (init_holes_spec W H _ _ _ Ht (replicate_length _ _)). eexists. split; [reflexivity|]. apply tab_length. }
    destruct HS as (sd & ES & LS). destruct (new_ok init_swiss W H ml bw fx sd Hf HV ES LS) as (s & E & O & _).
    unfold ls_new_swiss. rewrite E. cbn [obind]. rewrite (square_loop W H) by (apply O). cbn [obind]. eexists. split; [reflexivity|]. split.
    - apply (reached_call _ _ s).
      + exists ml, bw, fx, s. split; [exact Hf|]. split; [exact (new_by_swiss _ _ _ _ _ _ E)|apply rtc_refl].
      + apply c_write_sd. rewrite tab_length. symmetry. apply O.
    - intros x y Hx Hy. cbn [ls_sd set_sd].
      assert (D : node_id W x y / (W + 1) = y /\ node_id W x y mod (W + 1) = x).
      { unfold node_id. replace (y * (W + 1) + x) with (x + y * (W + 1)) by lia. rewrite Nat.div_add, Nat.mod_add, Nat.div_small, Nat.mod_small by lia. lia. }
      rewrite tab_lookup; [|unfold node_id, node_count; nia]. destruct D as [-> ->]. reflexivity.
  Qed.
  Theorem square_shape : round_u32 (nofnat 200 / nofZ 30 : T)%num = Ok 7 -> valid_params (nlit 1 10 : T) 6 ->
    exists s : LevelSet T, start_constrained = Ok s /\ reached 200 200 s /\
      forall x y, x <= 200 -> y <= 200 -> ls_sd s !! node_id 200 x y = Some (if in_square x y then nofZ (-1) else n1).
  Proof. intros E HV. exact (square_any 200 200 _ 6 true fits_200 E E HV). Qed.
End square.

Lemma seven_f64 : round_u32 (nofnat 200 / nofZ 30 : f64)%num = Ok 7.
Proof. vm_compute. reflexivity. Qed.
Lemma seven_R : round_u32 (nofnat 200 / nofZ 30 : R)%num = Ok 7.
Proof.
  unfold round_u32, floor_u32. rewrite nofnat_R. cbn [nfloorZ NumR ndiv nofZ nsub nltb].
  replace (INR 200) with 200%R by (rewrite INR_IZR_INZ; reflexivity).
  assert (F : Zfloor (200 / 30) = 6%Z) by (apply Zfloor_imp; change (6 + 1)%Z with 7%Z; lra). rewrite F. change ((0 <=? 6) && (6 <? 2 ^ 32))%Z with true. cbv iota. cbn [obind]. change (Z.to_nat 6) with 6.
  rewrite nofnat_R, nlit_R. cbn [nsub nltb NumR]. replace (INR 6) with 6%R by (rewrite INR_IZR_INZ; reflexivity). destruct (Rltb_spec (200 / 30 - 6) (1 / 2)) as [L|L]; [lra|reflexivity].
Qed.

Lemma params_R p q : (0 < IZR p / IZR q < 1)%R -> valid_params (nlit p q : R) 6.
Proof.
  intros Hp. split; [lia|]. unfold n0, n1. rewrite nlit_R. cbn [nltb nofZ NumR]. destruct (Rltb_spec 0 (IZR p / IZR q)), (Rltb_spec (IZR p / IZR q) 1); split; try reflexivity; lra.
Qed.

(** ** The discs of minimise_area and minimise_perimeter *)
Local Open Scope R_scope.
Lemma disc_shape ml : valid_params (ml : R) 6 -> exists s, ls_new_holes 200 200 [hole 100 100 80] ml 6 true = Ok s /\ reached 200 200 s /\
  forall x y, (x <= 200)%nat -> (y <= 200)%nat -> ls_sd s !! node_id 200 x y = Some (around 200 200 [(100, 100, 80)] x y).
Proof.
  intros HV. destruct (new_holes_R 200 200 [hole 100 100 80] ml 6 true fits_200 HV) as (s & E & F). exists s. split; [exact E|]. split.
  - exists ml, 6%nat, true, s. split; [exact fits_200|]. split; [exact (new_by_holes _ _ _ _ _ _ _ E)|apply rtc_refl].
  - exact (holes_around 200 200 [hole 100 100 80] ml 6 true s fits_200 HV E).
Qed.
Theorem disc_shapes :
  (exists s, start_minimise_area (T := R) = Ok s /\ reached 200 200 s /\ ls_moveLimit s = 1 / 2 /\ forall x y, (x <= 200)%nat -> (y <= 200)%nat -> ls_sd s !! node_id 200 x y = Some (around 200 200 [(100, 100, 80)] x y)) /\
  (exists s, start_minimise_perimeter (T := R) = Ok s /\ reached 200 200 s /\ ls_moveLimit s = 1 / 20 /\ forall x y, (x <= 200)%nat -> (y <= 200)%nat -> ls_sd s !! node_id 200 x y = Some (around 200 200 [(100, 100, 80)] x y)).
Proof.
  split.
  - destruct (disc_shape (nlit 5 10)) as (s & E & Rs & F); [apply params_R; lra|]. exists s. split; [exact E|]. split; [exact Rs|]. split; [|exact F].
    destruct (holes_accepted 200 200 6 (nlit 5 10 : R) true [hole 100 100 80] fits_200 ltac:(apply params_R; lra)) as (s' & E' & M & _). assert (s' = s) by congruence. subst s'. rewrite M, nlit_R. lra.
  - destruct (disc_shape (nlit 5 100)) as (s & E & Rs & F); [apply params_R; lra|]. exists s. split; [exact E|]. split; [exact Rs|]. split; [|exact F].
    destruct (holes_accepted 200 200 6 (nlit 5 100 : R) true [hole 100 100 80] fits_200 ltac:(apply params_R; lra)) as (s' & E' & M & _). assert (s' = s) by congruence. subst s'. rewrite M, nlit_R. lra.
Qed.

(** ** Constants *)
Theorem gravity_dumbbell_ok reduce : 0 <= reduce <= 1 -> gravity_ok (gravity_dumbbell reduce).
Proof. intros Hr. constructor; cbn; auto with arith; lra. Qed.
Theorem gravity_bimodal_ok mult : 0 <= mult <= 1 -> gravity_ok (gravity_bimodal mult).
Proof.
  intros Hm. unfold gravity_bimodal, bi_height_. constructor; cbn [g_n g_upper g_lower g_range g_reduce]; unfold n1; rewrite ?nlit_R; cbn [nadd nsub nmul nofZ NumR]; auto with arith; lra.
Qed.
Theorem max_mismatch_R pi asin_half : 0 < lobes_area pi asin_half -> 70 * 60 * max_mismatch pi asin_half = lobes_area pi asin_half - 280.
Proof.
  intros Ha. unfold max_mismatch, bi_width_, bi_height_, n1. rewrite nlit_R. cbn [nadd nsub nmul ndiv nofZ nsqrt NumR].
  replace (10 / 20) with (/ 2) by field. set (q := pi / 2 + asin_half + / 2 * R_sqrt.sqrt (1 - / 2 * / 2)) in *.
  assert (Hq : 0 < q) by (unfold lobes_area in Ha; fold q in Ha; lra). unfold lobes_area. fold q. field. lra.
Qed.
Lemma lobes_area_real : 0 < lobes_area PI (asin (/ 2)).
Proof.
  unfold lobes_area. pose proof PI_RGT_0. assert (0 < asin (/ 2)) by (replace (/ 2) with (sin (PI / 6)) by (rewrite sin_PI6; lra); rewrite asin_sin by lra; lra). pose proof (R_sqrt.sqrt_pos (1 - / 2 * / 2)). nra.
Qed.
Local Open Scope nat_scope.
Theorem square_R : exists s : LevelSet R, start_constrained = Ok s /\ reached 200 200 s /\
  forall x y, x <= 200 -> y <= 200 -> ls_sd s !! node_id 200 x y = Some (if in_square x y then -1 else 1)%R.
Proof. exact (square_shape seven_R (params_R 1 10 ltac:(lra))). Qed.
Theorem square_f64 : exists s : LevelSet f64, start_constrained = Ok s /\ reached 200 200 s /\
  forall x y, x <= 200 -> y <= 200 -> ls_sd s !! node_id 200 x y = Some (if in_square x y then nofZ (-1) else n1).
Proof. refine (square_shape seven_f64 _). split; [lia|]. split; vm_compute; reflexivity. Qed.
