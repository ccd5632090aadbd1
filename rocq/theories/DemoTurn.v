(** * DemoTurn: one turn of minimise_area (C67); the Ito correction in shape_match (C68). *)

From Coq Require Import Reals Lra.
From Verif Require Import OptModel OptSpec OptSolve OptMain OptTotal.
From Verif Require Import Base Num NumR NumInt NumSgn MeshModel MeshSpec LevelSetModel LevelSetSpec LevelSetSpecR LevelSetCalls LevelSetVel LevelSetHist LevelSetVelR LevelSetParams
  BoundaryModel BoundarySpec BoundarySpecR BoundaryLinks BoundaryReal SensModel NormSpec SensProofs SensReal DemoModel DemoSpec DemoLoop.

(** ** Assigning sensitivities *)
Section each.
  Context {T : Type} {NT : Num T}.
  (** The points handled so far have new sensitivities; nothing else has changed. *)
  Definition only_sens (p q : BoundaryPoint T) : Prop := q = with_sens (bp_sens q) p.
  Lemma only_sens_refl p : only_sens p p. Proof. destruct p; reflexivity. Qed.
  Lemma each_point_spec f (b : Boundary T) (P : nat -> BoundaryPoint T -> list T -> Prop) E U :
    (forall i p ps, bd_points b !! i = Some p -> ps !! i = Some p -> Forall2 only_sens (bd_points b) ps ->
      wp E U (f i ps p) (fun q => exists l, q = with_sens l p /\ P i p l)) ->
    wp E U (each_point f b) (fun b' => sens_set b b' /\ Forall2 only_sens (bd_points b) (bd_points b') /\
      forall i p q, bd_points b !! i = Some p -> bd_points b' !! i = Some q -> P i p (bp_sens q)).
  Proof.
    intros Hf. unfold each_point. apply wp_bind.
    eapply (wp_for _ _ (fun i ps => Forall2 only_sens (bd_points b) ps /\ (forall k, (i <= k)%nat -> ps !! k = bd_points b !! k) /\
      forall k p q, (k < i)%nat -> bd_points b !! k = Some p -> ps !! k = Some q -> P k p (bp_sens q))).
    - split; [|split; [auto|intros; lia]]. apply Forall2_same_length_lookup. split; [reflexivity|]. intros i x y Hx Hy. rewrite Hx in Hy. injection Hy as <-. apply only_sens_refl.
    - intros i ps Hi (F & K & D). destruct (lookup_lt_is_Some_2 _ _ Hi) as [p Ep]. unfold each_step. apply wp_bind. apply (wp_vget _ _ _ _ _ p); [rewrite K by lia; exact Ep|].
      apply wp_bind. eapply wp_impl; [apply Hf; [exact Ep|rewrite K by lia; exact Ep|exact F]|]. intros q (l & -> & HP).
      apply wp_vset; [rewrite <- (Forall2_length _ _ _ F); exact Hi|]. split; [|split].
      + apply Forall2_same_length_lookup. split; [rewrite insert_length; apply (Forall2_length _ _ _ F)|]. intros k x y Hx Hy.
        destruct (Nat.eq_dec i k) as [<-|Hne].
        * rewrite list_lookup_insert in Hy by (rewrite <- (Forall2_length _ _ _ F); exact Hi). injection Hy as <-. rewrite Ep in Hx. injection Hx as <-. reflexivity.
        * rewrite list_lookup_insert_ne in Hy by exact Hne. exact (Forall2_lookup_lr _ _ _ _ _ _ F Hx Hy).
      + intros k Hk. rewrite list_lookup_insert_ne by lia. apply K. lia.
      + intros k x y Hk Hx Hy. destruct (Nat.eq_dec i k) as [<-|Hne].
        * rewrite list_lookup_insert in Hy by (rewrite <- (Forall2_length _ _ _ F); exact Hi). injection Hy as <-. rewrite Ep in Hx. injection Hx as <-. exact HP.
        * rewrite list_lookup_insert_ne in Hy by exact Hne. apply (D k x y); auto. lia.
    - intros ps (F & _ & D). cbn [wp]. cbn [bd_points]. split; [|split; [exact F|]].
      + split; [reflexivity|]. split; [reflexivity|]. cbn. split; [symmetry; apply (Forall2_length _ _ _ F)|]. intros k p q Hp Hq. exact (Forall2_lookup_lr _ _ _ _ _ _ F Hp Hq).
      + intros i p q Hp Hq. apply (D i p q); auto. apply lookup_lt_Some in Hp. exact Hp.
  Qed.

  Definition same_sens (p q : BoundaryPoint T) : Prop := only_sens p q /\ length (bp_sens q) = length (bp_sens p).
  Lemma each_keeps f (b : Boundary T) : (forall i ps p, post (f i ps p) (same_sens p)) ->
    post (each_point f b) (fun b' => sens_set b b' /\ Forall2 same_sens (bd_points b) (bd_points b')).
  Proof.
    intros Hf. unfold each_point. apply post_bind.
    eapply post_impl; [apply (post_for (Forall2 same_sens (bd_points b)))|].
    - intros i ps _ F. unfold each_step. intros ps' E. apply obind_Ok in E as (p & Ep & E). apply obind_Ok in E as (q & Eq & E). apply vget_Ok in Ep. apply vset_Ok in E as [Hi ->].
      apply Forall2_same_length_lookup. split; [rewrite insert_length; apply (Forall2_length _ _ _ F)|]. intros k x y Hx Hy. destruct (Nat.eq_dec i k) as [<-|Hne].
      + rewrite list_lookup_insert in Hy by exact Hi. injection Hy as <-. destruct (Forall2_lookup_lr _ _ _ _ _ _ F Hx Ep) as [A B]. destruct (Hf i ps p q Eq) as [A' B'].
        split; [|congruence]. unfold only_sens in *. rewrite A' at 1. rewrite A at 1. reflexivity.
      + rewrite list_lookup_insert_ne in Hy by exact Hne. exact (Forall2_lookup_lr _ _ _ _ _ _ F Hx Hy).
    - apply Forall2_same_length_lookup. split; [reflexivity|]. intros i x y Hx Hy. rewrite Hx in Hy. injection Hy as <-. split; [apply only_sens_refl|reflexivity].
    - intros ps F. apply post_ok. split; [|exact F]. split; [reflexivity|]. split; [reflexivity|]. cbn. split; [symmetry; apply (Forall2_length _ _ _ F)|].
      intros k p q Hp Hq. exact (proj1 (Forall2_lookup_lr _ _ _ _ _ _ F Hp Hq)).
  Qed.
  Lemma set_sens_same k (v : T) p : post (set_sens k v p) (same_sens p).
  Proof. intros q E. unfold set_sens in E. apply obind_Ok in E as (l & El & E). injection E as <-. apply vset_Ok in El as [_ ->]. split; [reflexivity|]. cbn. apply insert_length. Qed.

  (** discretise leaves the sensitivities 0 and the normals 0. *)
  Lemma discretised_blank W H (s s' : LevelSet T) tg b : topo W H (ls_mesh s) -> discretise s tg = Ok (s', b) ->
    forall k p, bd_points b !! k = Some p -> bp_sens p = [n0; n0] /\ bp_normal p = mkCoord n0 n0.
  Proof.
    intros Ht E k p Ep. destruct (dk_points _ _ _ _ _ _ (discretise_ok W H s tg Ht _ E) k p Ep) as (e & c & p0 & _ & _ & Ei & K).
    apply lk_fixed in K. unfold fixed_bp in K. injection K as _ K1 _ _ _ _ _ K2. unfold initialisePoint in Ei.
    apply obind_Ok in Ei as (i & _ & Ei). apply obind_Ok in Ei as (n & _ & Ei). injection Ei as <-. cbn in K1, K2. auto.
  Qed.
End each.
Local Open Scope R_scope.

(** ** The Ito correction without normals *)
Lemma ito_blank delta t (b : Boundary R) : neighbours_ok b -> has_sens b -> (forall k p, bd_points b !! k = Some p -> bp_normal p = mkCoord 0 0) ->
  itoCorrection delta b t = Ok b.
Proof.
  intros Hn Hs Hz. destruct (ito_returns delta b t Hn Hs) as (b' & E). rewrite E. f_equal.
  destruct (Req_dec t 0) as [->|Ht].
  - unfold itoCorrection in E. cbn [neqb NumR] in E. change (n0 (T := R)) with 0 in E. rewrite (proj2 (Reqb_true 0 0) eq_refl) in E. congruence.
  - destruct (ito_only_first delta b b' t E) as (A & B & C & _). destruct b' as [ps' sg' l'], b as [ps sg l]. cbn in *. subst. f_equal.
    apply list_eq. intros k. destruct (ps !! k) as [p|] eqn:Ep.
    + destruct (lookup_lt_is_Some_2 ps' k) as [p' Ep']; [rewrite C; eauto using lookup_lt_Some|]. rewrite Ep'. f_equal.
      destruct (ito_R delta _ _ t Hn E k p p' Ep Ep' Ht) as (s0 & rest & Es & ->).
      replace (curvature delta _ p) with 0.
      * replace (s0 - t * 0 / (2 * bp_length p)) with s0 by (unfold Rdiv; ring). rewrite <- Es. destruct p; reflexivity.
      * unfold curvature. rewrite (Hz k p Ep). unfold scale, vadd. cbn. rewrite !Rmult_0_r. unfold Rdiv, Rminus. ring.
    + apply lookup_ge_None in Ep. rewrite <- C in Ep. apply lookup_ge_None in Ep. rewrite Ep. reflexivity.
Qed.

Theorem shape_match_uncorrected W H t area (s s' : LevelSet R) b : reached W H s -> new_boundary (shape_match t area) s = Ok (s', b) ->
  d_assign (shape_match t area) s' b = d_assign (shape_match 0 area) s' b.
Proof.
  intros Hr E. unfold new_boundary in E. cbn [shape_match d_areas d_normals] in E. apply obind_Ok in E as ([s1 b1] & E1 & E). cbn [obind] in E. injection E as -> ->.
  cbn [shape_match d_assign].
  set (f := fun _ _ p => _).
  assert (X : post (each_point f b) (fun b' => sens_set b b' /\ Forall2 same_sens (bd_points b) (bd_points b'))).
  { apply each_keeps. intros i ps p. unfold f. apply post_bind, post_any. intros v. apply set_sens_same. }
  destruct (each_point f b) as [b2| | |]; cbn [obind]; auto. destruct (X b2 eq_refl) as (S & F).
  pose proof (discretised_blank W H s s' false b (ok_topo _ _ _ (so_ok _ _ _ (reached_sound _ _ _ Hr))) E1) as Blank.
  assert (N2 : neighbours_ok b2) by (apply (sens_set_neighbours b b2 (discretised_neighbours W H s s' false b Hr E1) S)).
  assert (H2 : has_sens b2).
  { intros k p Ep. destruct (lookup_lt_is_Some_2 (bd_points b) k) as [p0 E0]; [rewrite (Forall2_length _ _ _ F); eauto using lookup_lt_Some|].
    destruct (Forall2_lookup_lr _ _ _ _ _ _ F E0 Ep) as [_ L]. destruct (Blank k p0 E0) as [B _]. rewrite B in L. intros X'. rewrite X' in L. discriminate. }
  assert (Z2 : forall k p, bd_points b2 !! k = Some p -> bp_normal p = mkCoord 0 0).
  { intros k p Ep. destruct (Forall2_lookup_r _ _ _ _ _ F Ep) as (p0 & E0 & L & _). rewrite L. cbn. apply (Blank k p0 E0). }
  rewrite !ito_blank by assumption. reflexivity.
Qed.

(** ** One turn of minimise_area *)
Lemma point_length_nonneg W H (s s' : LevelSet R) tg b k p : reached W H s -> discretise s tg = Ok (s', b) -> bd_points b !! k = Some p -> 0 <= bp_length p.
Proof.
  intros Hr E Ep. destruct (dk_points _ _ _ _ _ _ (discretise_ok W H s tg (ok_topo _ _ _ (so_ok _ _ _ (reached_sound _ _ _ Hr))) _ E) k p Ep) as (e & c & p0 & _ & _ & _ & K).
  rewrite (lk_len _ _ _ _ _ _ K), half_sum_R. change (n0 (T := R)) with 0. rewrite Rplus_0_l. generalize (incidence (bd_segs b) k). induction l as [|x l IH]; [apply Rle_refl|].
  cbn [map]. match goal with |- 0 <= sumR (?a :: ?r) => change (0 <= a + sumR r) end.
  assert (0 <= seg_length_of (bd_segs b) (fst x)); [|lra]. unfold seg_length_of. destruct (bd_segs b !! fst x) as [sg|] eqn:Es; [|apply Rle_refl].
  destruct (segments_good W H s s' tg b Hr E _ _ Es) as (_ & pa & pb & _ & _ & _ & _ & -> & _). unfold euclid; apply sqrt_pos.
Qed.

Theorem area_turn W H (s : LevelSet R) m nlopt rng : reached W H s -> (4 <= W)%nat -> (4 <= H)%nat -> new_boundary minimise_area s = Ok (sm_ls m, sm_bd m) ->
  length (sm_lambdas m) = 1%nat ->
  (exists p, p ∈ bd_points (sm_bd m) /\ bp_fixed p = false /\ 0 < bp_length p) ->
  (forall p, p ∈ bd_points (sm_bd m) -> bp_fixed p = false -> bp_domain p = false) ->
  (forall o, op_n o = 0%nat -> polite 0 (nlopt 0%nat o)) ->
  exists F, forall fuel, (F <= fuel)%nat ->
    turn minimise_area nlopt fuel rng m = Exit \/
    exists s4 lambdas n dt ri, reached W H s4 /\ length lambdas = 1%nat /\ 0 <= dt /\
      turn minimise_area nlopt fuel rng m = (let! (s5, b5) := discretise s4 false in Ok (mkSim s5 b5 lambdas n (sm_time m + dt), 0, ri)).
Proof.
  intros Hr HW HH EB HL (pp & Hpp & Fpp & Lpp) Hdom Hpol.
  unfold new_boundary in EB. cbn [minimise_area d_areas d_normals] in EB. apply obind_Ok in EB as ([s1 b1] & ED & EB). cbn [obind] in EB. injection EB as -> ->.
  assert (R1 : reached W H (sm_ls m)) by (apply (reached_call _ _ _ _ Hr), c_quiet, (q_discretise _ _ _ _ ED)).
  set (s1 := sm_ls m) in *. set (b := sm_bd m) in *.
  pose proof (discretised_blank W H s s1 false b (ok_topo _ _ _ (so_ok _ _ _ (reached_sound _ _ _ Hr))) ED) as Blank.
  assert (A : exists b2, d_assign minimise_area s1 b = Ok b2 /\ Forall2 only_sens (bd_points b) (bd_points b2) /\
    forall i p q, bd_points b !! i = Some p -> bd_points b2 !! i = Some q -> bp_sens q = [1; 0]).
  { cbn [minimise_area d_assign].
    assert (X : wp False False (each_point (fun _ _ p => set_sens 0 n1 p) b) (fun b' => sens_set b b' /\ Forall2 only_sens (bd_points b) (bd_points b') /\
      forall i p q, bd_points b !! i = Some p -> bd_points b' !! i = Some q -> bp_sens q = [1; 0])).
    { apply (each_point_spec _ b (fun _ _ l => l = [1; 0])). intros i p ps Ep _ _. unfold set_sens. apply wp_bind, wp_vset; [rewrite (proj1 (Blank i p Ep)); cbn; lia|].
      cbn [wp]. eexists. split; [reflexivity|]. rewrite (proj1 (Blank i p Ep)). reflexivity. }
    apply wp_total in X as (b2 & E2 & _ & X). exists b2. split; [exact E2|exact X]. }
  destruct A as (b2 & EA & F & Sens).
  assert (Back : forall q, q ∈ bd_points b2 -> exists p, p ∈ bd_points b /\ q = with_sens [1; 0] p).
  { intros q Hq. apply elem_of_list_lookup in Hq as [k Hk]. destruct (Forall2_lookup_r _ _ _ _ _ F Hk) as (p & Hp & X). exists p. split; [eapply elem_of_list_lookup_2, Hp|].
    rewrite <- (Sens k p q Hp Hk). exact X. }
  assert (Lim : 0 < ls_moveLimit s1 < 1) by (destruct (reached_settings W H s1 R1) as (_ & V & V'); apply Rltb_true in V, V'; unfold n0, n1 in V, V'; cbn in V, V'; lra).
  assert (NE : bd_points b2 <> []).
  { intros X. apply elem_of_list_lookup in Hpp as [k Hk]. pose proof (Forall2_length _ _ _ F) as L. rewrite X in L. apply lookup_lt_Some in Hk. cbn in L. lia. }
  destruct (optimise_ctor (bd_points b2) [] (sm_lambdas m) n0 (ls_moveLimit s1) false []) as [o| | |] eqn:EO.
  2-4: exfalso; unfold optimise_ctor in EO; cbn [nltb NumR] in EO; rewrite HL in EO;
    change (n0 (T := R)) with 0 in EO; change (n1 (T := R)) with 1 in EO; rewrite (proj2 (Rltb_true 0 _) (proj1 Lim)), (proj2 (Rltb_true _ 1) (proj2 Lim)) in EO; cbn in EO;
    destruct (bd_points b2); [congruence|discriminate EO].
  assert (HSens : OptSpec.has_sens (length (sm_lambdas m)) (bd_points b2)).
  { intros q Hq _. destruct (Back q Hq) as (p & _ & ->). cbn. lia. }
  assert (HSe : forall k, (k < length (sm_lambdas m))%nat -> sensitive k (bd_points b2)).
  { intros k Hk. assert (k = 0%nat) as -> by lia. split.
    - apply elem_of_list_lookup in Hpp as [k Hk']. destruct (lookup_lt_is_Some_2 (bd_points b2) k) as [q Hq]; [rewrite <- (Forall2_length _ _ _ F); eauto using lookup_lt_Some|].
      pose proof (Forall2_lookup_lr _ _ _ _ _ _ F Hk' Hq) as X. exists q. split; [eapply elem_of_list_lookup_2, Hq|]. rewrite (Sens k pp q Hk' Hq). rewrite X. cbn. repeat split; auto; lra.
    - intros q Hq _. destruct (Back q Hq) as (p & Hp & ->). apply elem_of_list_lookup in Hp as [j Hj]. exact (point_length_nonneg W H s s1 false b j p Hr ED Hj). }
  assert (HDo : forall q, q ∈ bd_points b2 -> bp_fixed q = false -> bp_domain q = false).
  { intros q Hq Hf. destruct (Back q Hq) as (p & Hp & ->). exact (Hdom p Hp Hf). }
  destruct (solve_returns _ [] _ _ _ _ [] o nlopt EO HSens HSe HDo (or_introl eq_refl) ltac:(lia)) as (F0 & HF).
  { intros k mm Hk. lia. } { exact Hpol. }
  exists F0. intros fuel Hfuel. destruct (HF fuel Hfuel) as (o' & v & ES).
  unfold turn. fold s1 b. rewrite EA. cbn [obind minimise_area d_carry d_dist d_temp]. rewrite EO. cbn [obind]. rewrite ES. cbn [obind].
  destruct (solve_moves _ _ _ _ _ _ _ _ _ _ _ _ EO ES) as (Ll & Lt & Ep).
  assert (Hin : forall p, p ∈ op_points o' -> located W H (ls_mesh s1) p).
  { intros q Hq. apply located_R; [exact (ok_topo _ _ _ (so_ok _ _ _ (reached_sound _ _ _ R1)))|]. rewrite Ep in Hq. apply elem_of_list_fmap in Hq as (q0 & -> & Hq0).
    destruct (Back q0 Hq0) as (p & Hp & ->). apply elem_of_list_lookup in Hp as [j Hj]. unfold in_domain. cbn. apply (points_on_contour W H s s1 false b Hr ED j p Hj). }
  destruct (all_safe W H s1 R1) as (_ & _ & _ & _ & SV & _). destruct (SV _ Hin) as [X|(s2 & EV)]; [rewrite X; left; reflexivity|]. rewrite EV. cbn [obind].
  assert (R2 : reached W H s2) by (apply (reached_call _ _ _ _ R1), c_quiet, (q_velocities _ _ _ EV)).
  destruct (all_safe W H s2 R2) as (_ & _ & _ & _ & _ & SG). destruct (SG HW HH) as (s3 & EG). rewrite EG. cbn [obind].
  assert (R3 : reached W H s3) by (apply (reached_call _ _ _ _ R2), c_quiet, (q_gradients _ _ EG)).
  destruct (all_safe W H s3 R3) as (_ & SU & _). destruct (SU (op_time o')) as [X|(s4 & ri & EU)]; [rewrite X; left; reflexivity|]. rewrite EU. cbn [obind].
  assert (R4 : reached W H s4) by (apply (reached_call _ _ _ _ R3), (c_update _ _ _ _ EU)).
  assert (Fin : forall (s5 : LevelSet R) (n : nat) (r : bool), reached W H s5 -> exists s6 lambdas n' dt ri', reached W H s6 /\ length lambdas = 1%nat /\ 0 <= dt /\
    (let! (s', b') := new_boundary minimise_area s5 in Ok (mkSim s' b' (op_lambdas o') n (sm_time m + op_time o')%num, n0, r)) =
    (let! (s7, b5) := discretise s6 false in Ok (mkSim s7 b5 lambdas n' (sm_time m + dt), 0, ri'))).
  { intros s5 n r R5. exists s5, (op_lambdas o'), n, (op_time o'), r. split; [exact R5|]. split; [congruence|]. split; [rewrite Lt; apply Rabs_pos|]. unfold new_boundary. cbn [minimise_area d_areas d_normals]. destruct (discretise s5 false) as [[s6 b6]| | |]; reflexivity. }
  unfold reinit_rule. destruct ri; cbn [negb].
  - cbn [obind]. right. apply Fin, R4.
  - destruct (Nat.eqb (sm_nReinit m) 20).
    + destruct (all_safe W H s4 R4) as (SR & _). destruct SR as [X|(s5 & E5)]; [rewrite X; left; reflexivity|]. rewrite E5. cbn [obind]. right. apply Fin, (reached_call _ _ _ _ R4), (c_reinitialise _ _ E5).
    + cbn [obind]. right. apply Fin, R4.
Qed.
