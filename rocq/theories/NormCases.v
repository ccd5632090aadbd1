(** * NormCases: concrete boundaries for the theorems about normals and sensitivities. *)

From Coq Require Import Reals Lra.
From Verif Require Import Base Num NumR NumF64 NumInt MeshModel MeshSpec MeshProofs MeshTopo MeshGeom LevelSetModel LevelSetSpec LevelSetCalls LevelSetHist
  BoundaryModel BoundarySpec BoundarySpecR BoundaryReal LevelSetBand LevelSetOps LevelSetInit LevelSetReal LevelSetSpecR FmmSpec NormSpec NormMain SensModel.
Local Open Scope R_scope.

(** A new level set has no masked node. *)
Lemma new_unmasked {T} {NT : Num T} {NI : NumInt T} f W H ml bw fx (s : LevelSet T) sd : fits_ls W H bw -> valid_params ml bw ->
  f (mesh_spec W H) (replicate (node_count W H) n0) = Ok sd -> length sd = node_count W H -> ls_new f W H ml bw fx = Ok s ->
  forall i n, m_nodes (ls_mesh s) !! i = Some n -> nd_masked n = false.
Proof.
  intros Hf HV Hsd Hl E i n En. unfold ls_new in E.
  destruct (proj1 (alloc_spec W H ml bw fx false Hf) HV) as (s1 & A & Hok & Em & E1 & E2 & E3 & E4 & E5 & E6).
  rewrite A in E. cbn [obind] in E. unfold init_sd in E. rewrite Em, E4, Hsd in E. cbn [obind] in E.
  assert (Ho : ls_ok W H (set_sd sd s1)) by (apply ok_set_sd; assumption).
  destruct (band_ok_spec W H (set_sd sd s1) Ho) as (s' & B & H1 & _ & _ & _ & _ & _ & _ & _ & _ & _ & _ & K & _).
  rewrite B in E. injection E as ->.
  destruct (lookup_lt_is_Some_2 (m_nodes (ls_mesh s1)) i) as [n1 En1].
  { rewrite (tp_lenN _ _ _ (ok_topo _ _ _ Hok)), <- (tp_lenN _ _ _ (ok_topo _ _ _ H1)). eauto using lookup_lt_Some. }
  destruct (K i n1 En1) as (n' & En' & S & _). assert (n' = n) as -> by congruence.
  assert (M1 : nd_masked n1 = false).
  { rewrite Em in En1. apply tab_lookup_Some in En1 as [_ ->]. reflexivity. }
  rewrite <- M1, S. destruct n1; reflexivity.
Qed.

Lemma holes_unmasked {T} {NT : Num T} {NI : NumInt T} W H holes (ml : T) bw fx (s : LevelSet T) : fits_ls W H bw -> valid_params ml bw ->
  ls_new_holes W H holes ml bw fx = Ok s -> forall i n, m_nodes (ls_mesh s) !! i = Some n -> nd_masked n = false.
Proof.
  intros HF HV E. pose proof (fits_mesh _ _ _ HF) as Hm. eapply new_unmasked; [exact HF|exact HV| |apply tab_length|exact E].
  apply init_holes_spec; [|apply replicate_length]. apply topo_new; [exact Hm|]. apply mesh_new_eq; apply Hm.
Qed.

(** The plane x - 1/2 on a 2 by 2 mesh. *)
Lemma plane_case : exists s : LevelSet R, reached 2 2 s /\ off_contour 2 2 (ls_sd s) /\ clear_cuts 2 2 (ls_sd s) /\
  (forall i k x y, adjacent 2 2 i k -> ls_sd s !! i = Some x -> ls_sd s !! k = Some y -> 0 < x -> y < 0 -> active s i \/ active s k) /\
  (forall x y, (x <= 2)%nat -> (y <= 2)%nat -> ls_sd s !! node_id 2 x y = Some (1 * INR x + 0 * INR y + - / 2)).
Proof.
  assert (HF : fits_ls 2 2 3) by (unfold fits_ls, node_count; cbn; lia).
  assert (HV : valid_params (/ 2) 3).
  { split; [lia|]. split; apply Rltb_true; cbn; lra. }
  destruct (new_holes_R 2 2 [] (/ 2) 3 false HF HV) as (s & E & D).
  assert (C : constructed 2 2 (/ 2) 3 false s) by exact (new_by_holes _ _ _ _ _ _ _ E).
  destruct (constructed_sound 2 2 (/ 2) 3 false s HF C) as [So Bo].
  destruct (holes_accepted 2 2 3 (/ 2) false [] HF HV) as (s0 & E0 & _ & Ebw & Efx & _). assert (s0 = s) by congruence. subst s0.
  assert (Un : forall i n, m_nodes (ls_mesh s) !! i = Some n -> nd_masked n = false).
  { exact (holes_unmasked 2 2 [] (/ 2) 3 false s HF HV E). }
  set (v := [- / 2; / 2; 3 / 2; - / 2; / 2; 3 / 2; - / 2; / 2; 3 / 2]).
  assert (Lv : length v = length (ls_sd s)) by (rewrite (ok_sd _ _ _ (so_ok _ _ _ So)); reflexivity).
  assert (V : forall i x, v !! i = Some x -> (i < 9)%nat /\ (((i = 0 \/ i = 3 \/ i = 6)%nat /\ x = - / 2) \/ ((i = 1 \/ i = 4 \/ i = 7)%nat /\ x = / 2) \/ ((i = 2 \/ i = 5 \/ i = 8)%nat /\ x = 3 / 2))).
  { intros i x. do 9 (destruct i as [|i]; [cbn; intros [= <-]; split; [lia|tauto]|]). discriminate. }
  pose proof tol_pos as Tp. assert (Tl : tol <= / 4) by (unfold tol; lra).
  exists (set_sd v s). split; [|split; [|split; [|split]]].
  - exists (/ 2), 3%nat, false, s. split; [exact HF|]. split; [exact C|]. apply rtc_once, c_write_sd, Lv.
  - intros i Hi. cbn [ls_sd set_sd]. destruct (v !! i) as [x|] eqn:Ex.
    + exists x. split; [reflexivity|]. destruct (V i x Ex) as [_ [[_ ->]|[[_ ->]|[_ ->]]]]; [rewrite Rabs_left by lra|rewrite Rabs_right by lra..]; lra.
    + apply lookup_ge_None in Ex. cbn in Ex, Hi. lia.
  - intros i k x y A Ei Ek Lx Ly. cbn [ls_sd set_sd] in *. destruct (V i x Ei) as [_ [[_ ->]|[[_ ->]|[_ ->]]]], (V k y Ek) as [_ [[_ ->]|[[_ ->]|[_ ->]]]]; lra.
  - intros i k x y A Ei Ek Lx Ly. cbn [ls_sd set_sd] in *. left. destruct (V i x Ei) as [Hi _].
    assert (Li : (i < length (m_nodes (ls_mesh s)))%nat) by (rewrite (tp_lenN _ _ _ (ok_topo _ _ _ (so_ok _ _ _ So))); exact Hi).
    apply lookup_lt_is_Some in Li as [n En]. apply (bo_active _ Bo). split.
    + exists n. split; [exact En|]. split; [exact (Un i n En)|]. intros _. exact Efx.
    + assert (Q : exists x y, (x <= 2)%nat /\ (y <= 2)%nat /\ i = node_id 2 x y).
      { exists (i mod 3)%nat, (i / 3)%nat. clear - Hi. split; [pose proof (Nat.mod_upper_bound i 3); lia|]. split; [apply Nat.lt_succ_r, Nat.div_lt_upper_bound; lia|]. unfold node_id. pose proof (Nat.div_mod i 3). cbn [plus]. lia. }
      destruct Q as (x' & y' & Hx & Hy & ->).
      destruct (D x' y' ltac:(lia) ltac:(lia)) as (d & Ed & L1 & _ & L2 & _). exists d. split; [exact Ed|]. rewrite Ebw.
      destruct L2 as [L2|(h & Hh & _)]; [|apply elem_of_nil in Hh; contradiction].
      apply Rltb_true. rewrite nofnat_R. cbn [nabs NumR]. rewrite L2. unfold border_dist.
      destruct x' as [|[|[|x']]]; [| | |lia]; (destruct y' as [|[|[|y']]]; [| | |lia]); cbn [INR]; unfold Rmin; repeat destruct (Rle_dec _ _); rewrite Rabs_right; lra.
  - intros x y Hx Hy. cbn [ls_sd set_sd]. destruct x as [|[|[|x]]]; [| | |lia]; (destruct y as [|[|[|y]]]; [| | |lia]); match goal with |- _ !! ?n = _ => let m := eval vm_compute in n in change n with m end; cbn [lookup list_lookup v INR]; unfold v; cbn [lookup list_lookup]; f_equal; lra.
Qed.

Definition d64 (p q : Z) : f64 := nlit p q.
(** The same plane in double precision: the points, their flags and their normals. *)
Definition plane64 : outcome (LevelSet f64 * Boundary f64) :=
  let! s := ls_new_holes 2 2 [] (d64 1 2) 3 false in
  discretise (set_sd [d64 (-1) 2; d64 1 2; d64 3 2; d64 (-1) 2; d64 1 2; d64 3 2; d64 (-1) 2; d64 1 2; d64 3 2] s) false.
Definition at64 (c : Coord f64) (x y : f64) : bool := ((cx c =? x) && (cy c =? y))%num.
