(** * DemoSafe: a turn of any of the demo programs (C70). *)

From Coq Require Import Reals Lra.
From Verif Require Import OptModel OptSpec OptSolve OptMain OptTotal.
From Verif Require Import Base Num NumR NumInt NumSgn MeshModel MeshSpec LevelSetModel LevelSetSpec LevelSetSpecR LevelSetCalls LevelSetVel LevelSetHist LevelSetVelR LevelSetParams
  BoundaryModel BoundarySpec BoundarySpecR BoundaryReal NormSpec DemoModel DemoSpec DemoTurn DemoGrad.
Local Open Scope R_scope.

(** ** The velocities *)
Lemma noisy_located W H (m : Mesh R) a rng points : (forall p, p ∈ points -> located W H m p) -> forall p, p ∈ noisy_points a rng points -> located W H m p.
Proof.
  intros Hp p Hin. unfold noisy_points in Hin. apply elem_of_lookup_imap in Hin as (i & q & -> & Hq). exact (Hp q (elem_of_list_lookup_2 _ _ _ Hq)).
Qed.
Lemma noise_safe W H (s : LevelSet R) points time temperature rng : reached W H s -> (forall p, p ∈ points -> located W H (ls_mesh s) p) -> 0 <= time ->
  computeVelocities_noise s points time temperature rng = Exit \/
  exists s' ps dt sc, computeVelocities_noise s points time temperature rng = Ok (s', ps, dt, sc) /\ reached W H s' /\ 0 <= dt.
Proof.
  intros Hr Hp Ht. assert (Lim : 0 < ls_moveLimit s) by (destruct (reached_settings W H s Hr) as (_ & V & _); apply Rltb_true in V; exact V).
  unfold computeVelocities_noise. set (c := (_ >? _)%num). set (sc := (nofZ 8 * _ * _ / _)%num).
  assert (D : c = true -> 0 <= time / sc).
  { intros C. unfold c in C. apply (proj1 (Rltb_true _ _)) in C. cbn [nsqrt nmul nofZ nlit NumR ndiv] in C. 
    destruct (Rle_lt_dec temperature 0) as [Tn|Tp].
    - exfalso. assert (Z : R_sqrt.sqrt (IZR 2 * temperature) = 0) by (apply sqrt_neg_0; lra). rewrite Z in C. lra.
    - destruct (Rle_lt_dec time 0) as [Zn|Zp].
      + replace time with 0 by lra. unfold Rdiv. rewrite Rmult_0_l. lra.
      + assert (P : 0 < sc).
        { unfold sc. cbn [nmul ndiv nofZ NumR]. apply Rdiv_lt_0_compat; apply Rmult_lt_0_compat; try assumption. lra. }
        left. apply Rdiv_lt_0_compat; assumption. }
  destruct c.
  - set (ps := noisy_points _ _ _). destruct (all_safe W H s Hr) as (_ & _ & _ & _ & SV & _).
    destruct (SV ps (noisy_located W H _ _ _ _ Hp)) as [X|(s2 & EV)]; [rewrite X; left; reflexivity|]. rewrite EV. right. cbn [obind].
    do 4 eexists. split; [reflexivity|]. split; [apply (reached_call _ _ _ _ Hr), c_quiet, (q_velocities _ _ _ EV)|apply D; reflexivity].
  - set (ps := noisy_points _ _ _). destruct (all_safe W H s Hr) as (_ & _ & _ & _ & SV & _).
    destruct (SV ps (noisy_located W H _ _ _ _ Hp)) as [X|(s2 & EV)]; [rewrite X; left; reflexivity|]. rewrite EV. right. cbn [obind].
    do 4 eexists. split; [reflexivity|]. split; [apply (reached_call _ _ _ _ Hr), c_quiet, (q_velocities _ _ _ EV)|exact Ht].
Qed.

(** ** The turn *)
Theorem turn_safe W H (d : Demo R) (s : LevelSet R) m nlopt rng b2 c dist : reached W H s -> (4 <= W)%nat -> (4 <= H)%nat ->
  new_boundary d s = Ok (sm_ls m, sm_bd m) ->
  d_assign d (sm_ls m) (sm_bd m) = Ok b2 -> sens_set (sm_bd m) b2 -> d_carry d (sm_ls m) b2 = Ok c -> d_dist d (sm_ls m) = Ok dist ->
  length (sm_lambdas m) = S (length dist) -> (length (sm_lambdas m) < 32)%nat ->
  OptSpec.has_sens (length (sm_lambdas m)) (bd_points b2) -> (forall k, (k < length (sm_lambdas m))%nat -> sensitive k (bd_points b2)) ->
  (forall p, p ∈ bd_points b2 -> bp_fixed p = false -> bp_domain p = false) ->
  all_kept (ls_moveLimit (sm_ls m)) (bd_points b2) dist (sm_lambdas m) [] \/ all_removed (ls_moveLimit (sm_ls m)) (bd_points b2) dist (sm_lambdas m) [] ->
  (forall o, op_n o = length dist \/ op_n o = 0%nat -> polite (op_n o) (nlopt 0%nat o)) ->
  exists F, forall fuel, (F <= fuel)%nat ->
    turn d nlopt fuel rng m = Exit \/
    exists s4 lambdas n dt ri, reached W H s4 /\ length lambdas = length (sm_lambdas m) /\ 0 <= dt /\
      turn d nlopt fuel rng m = (let! (s5, b5) := new_boundary d s4 in Ok (mkSim s5 b5 lambdas n (sm_time m + dt), c, ri)).
Proof.
  intros Hr HW HH EB EA Ss EC ED HL HL32 HSens HSe HDo Hall Hpol.
  destruct (new_boundary_parts d W H s (sm_ls m) (sm_bd m) Hr EB) as (s0 & b1 & ED0 & _ & R1 & _ & Sb & _).
  set (s1 := sm_ls m) in *. set (b := sm_bd m) in *.
  assert (Back : forall q, q ∈ bd_points b2 -> in_domain W H q).
  { intros q Hq. apply elem_of_list_lookup in Hq as [k Hk]. destruct Ss as (_ & _ & Ln & K). destruct (lookup_lt_is_Some_2 (bd_points b) k) as [p Hp]; [rewrite <- Ln; eauto using lookup_lt_Some|].
    rewrite (K k p q Hp Hk). destruct Sb as (_ & _ & Ln1 & K1). destruct (lookup_lt_is_Some_2 (bd_points b1) k) as [p1 Hp1]; [rewrite <- Ln1; eauto using lookup_lt_Some|].
    rewrite (K1 k p1 p Hp1 Hp). unfold in_domain. cbn. apply (points_on_contour W H s s0 false b1 Hr ED0 k p1 Hp1). }
  assert (Lim : 0 < ls_moveLimit s1 < 1) by (destruct (reached_settings W H s1 R1) as (_ & V & V'); apply Rltb_true in V, V'; unfold n0, n1 in V, V'; cbn in V, V'; lra).
  assert (NE : bd_points b2 <> []).
  { intros X. destruct (HSe 0%nat ltac:(lia)) as [(p & Hp & _) _]. rewrite X in Hp. inversion Hp. }
  assert (EO : exists o, optimise_ctor (bd_points b2) dist (sm_lambdas m) n0 (ls_moveLimit s1) false [] = Ok o).
  { unfold optimise_ctor. cbn [nltb NumR]. change (n0 (T := R)) with 0. change (n1 (T := R)) with 1.
    rewrite HL, (proj2 (Rltb_true 0 _) (proj1 Lim)), (proj2 (Rltb_true _ 1) (proj2 Lim)). destruct (bd_points b2); [congruence|]. destruct dist; cbn; rewrite ?Nat.eqb_refl; cbn; eauto. }
  destruct EO as [o EO].
  destruct (solve_ends _ dist _ _ _ _ [] o nlopt EO HSens HSe HDo (or_introl eq_refl) HL32 Hall Hpol) as (F0 & HF).
  exists F0. intros fuel Hfuel. destruct (HF fuel Hfuel) as (o' & v & ES).
  unfold turn. fold s1 b. rewrite EA. cbn [obind]. rewrite EC. cbn [obind]. rewrite ED. cbn [obind]. rewrite EO. cbn [obind]. rewrite ES. cbn [obind].
  destruct (solve_moves _ _ _ _ _ _ _ _ _ _ _ _ EO ES) as (Ll & Lt & Ep).
  assert (Hin : forall p, p ∈ op_points o' -> located W H (ls_mesh s1) p).
  { intros q Hq. apply located_R; [exact (ok_topo _ _ _ (so_ok _ _ _ (reached_sound _ _ _ R1)))|]. rewrite Ep in Hq. apply elem_of_list_fmap in Hq as (q0 & -> & Hq0). exact (Back q0 Hq0). }
  assert (Tp : 0 <= op_time o') by (rewrite Lt; apply Rabs_pos).
  set (vel := match d_temp d with None => _ | Some _ => _ end).
  assert (V : vel = Exit \/ exists s2 dt, vel = Ok (s2, dt) /\ reached W H s2 /\ 0 <= dt).
  { unfold vel. destruct (d_temp d) as [t|].
    - destruct (noise_safe W H s1 (op_points o') (op_time o') t rng R1 Hin Tp) as [X|(s2 & ps & dt & sc & E & R2 & Hdt)]; [left; rewrite X; reflexivity|right; rewrite E; eauto].
    - destruct (all_safe W H s1 R1) as (_ & _ & _ & _ & SV & _). destruct (SV _ Hin) as [X|(s2 & EV)]; [left; rewrite X; reflexivity|right]. rewrite EV.
      exists s2, (op_time o'). split; [reflexivity|]. split; [apply (reached_call _ _ _ _ R1), c_quiet, (q_velocities _ _ _ EV)|exact Tp]. }
  destruct V as [X|(s2 & dt & EV & R2 & Hdt)]; [rewrite X; left; reflexivity|]. rewrite EV. cbn [obind].
  destruct (all_safe W H s2 R2) as (_ & _ & _ & _ & _ & SG). destruct (SG HW HH) as (s3 & EG). rewrite EG. cbn [obind].
  assert (R3 : reached W H s3) by (apply (reached_call _ _ _ _ R2), c_quiet, (q_gradients _ _ EG)).
  destruct (all_safe W H s3 R3) as (_ & SU & _). destruct (SU dt) as [X|(s4 & ri & EU)]; [rewrite X; left; reflexivity|]. rewrite EU. cbn [obind].
  assert (R4 : reached W H s4) by (apply (reached_call _ _ _ _ R3), (c_update _ _ _ _ EU)).
  assert (Fin : forall (s5 : LevelSet R) (n : nat) (r : bool), reached W H s5 -> exists s6 lambdas n' dt' ri', reached W H s6 /\ length lambdas = length (sm_lambdas m) /\ 0 <= dt' /\
    (let! (s', b') := new_boundary d s5 in Ok (mkSim s' b' (op_lambdas o') n (sm_time m + dt)%num, c, r)) =
    (let! (s7, b5) := new_boundary d s6 in Ok (mkSim s7 b5 lambdas n' (sm_time m + dt'), c, ri'))).
  { intros s5 n r R5. exists s5, (op_lambdas o'), n, dt, r. auto. }
  unfold reinit_rule. destruct ri; cbn [negb].
  - cbn [obind]. right. apply Fin, R4.
  - destruct (Nat.eqb (sm_nReinit m) 20).
    + destruct (all_safe W H s4 R4) as (SR & _). destruct SR as [X|(s5 & E5)]; [rewrite X; left; reflexivity|]. rewrite E5. cbn [obind]. right. apply Fin, (reached_call _ _ _ _ R4), (c_reinitialise _ _ E5).
    + cbn [obind]. right. apply Fin, R4.
Qed.
