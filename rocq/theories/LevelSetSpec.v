(** * LevelSetSpec: vocabulary for the level set properties, independent of the loops. *)

From Verif Require Export MeshSpec MeshTopo LevelSetModel.
Local Open Scope nat_scope.

Section LevelSetSpec.
  Context {T : Type} `{NT : Num T}.

  (** Level sets whose vectors have the sizes the constructors give them.  The number of nodes is
      below 2^31 so that twice the number of mines fits an [unsigned int]. *)
  Record ls_ok (W H : nat) (s : LevelSet T) : Prop := {
    ok_topo : topo W H (ls_mesh s);
    ok_small : (Z.of_nat (node_count W H) < 2 ^ 31)%Z;
    ok_sd : length (ls_sd s) = node_count W H;
    ok_vel : length (ls_vel s) = node_count W H;
    ok_grad : length (ls_grad s) = node_count W H;
    ok_band : length (ls_band s) = node_count W H;
    ok_mines : 1 <= length (ls_mines s);
    ok_bw : 2 < ls_bandWidth s /\ (Z.of_nat (ls_bandWidth s) < 2 ^ 32)%Z;
  }.

  (** The parameters a constructor accepts; the sizes covered by the theorems. *)
  Definition valid_params (moveLimit : T) (bandWidth : nat) : Prop :=
    2 < bandWidth /\ (n0 <? moveLimit)%num = true /\ (moveLimit <? n1)%num = true.

  Definition fits_ls (W H bw : nat) : Prop :=
    1 <= W /\ 1 <= H /\ (Z.of_nat (node_count W H) < 2 ^ 31)%Z /\ (Z.of_nat bw < 2 ^ 32)%Z.

  (** The part of the arrays in use. *)
  Definition band_list (s : LevelSet T) : list nat := take (ls_nBand s) (ls_band s).
  Definition mine_list (s : LevelSet T) : list nat := take (ls_nMines s) (ls_mines s).

  (** Node [i] may move: it is not masked and, for a fixed domain, not on the border. *)
  Definition movable (s : LevelSet T) (i : nat) : Prop :=
    exists n, m_nodes (ls_mesh s) !! i = Some n /\ nd_masked n = false /\ (nd_domain n = true -> ls_fixed s = false).

  (** Movable nodes closer to the boundary than the band width; those at least one unit inside the
      edge of the band excluded. *)
  Definition in_band (s : LevelSet T) (i : nat) : Prop :=
    movable s i /\ exists d, ls_sd s !! i = Some d /\ (nabs d <? nofnat (ls_bandWidth s))%num = true.
  Definition near_edge (s : LevelSet T) (i : nat) : Prop :=
    in_band s i /\ exists d, ls_sd s !! i = Some d /\ (nofnat (ls_bandWidth s - 1) <? nabs d)%num = true.

  (** Strictly increasing. *)
  Definition increasing (l : list nat) : Prop :=
    forall a b x y, l !! a = Some x -> l !! b = Some y -> a < b -> x < y.

  Definition active (s : LevelSet T) (i : nat) : Prop :=
    exists n, m_nodes (ls_mesh s) !! i = Some n /\ nd_active n = true.

  (** The narrow band data describe the signed distance. *)
  Record band_ok (s : LevelSet T) : Prop := {
    bo_nb : ls_nBand s <= length (ls_band s);
    bo_nm : ls_nMines s <= length (ls_mines s);
    bo_band : forall i, i ∈ band_list s <-> in_band s i;
    bo_incr : increasing (band_list s);
    bo_active : forall i, active s i <-> in_band s i;
    bo_mine : forall i, i ∈ mine_list s <-> near_edge s i;
    bo_mincr : increasing (mine_list s);
  }.

  (** Weaker: the arrays only hold nodes (true between a masking and the reinitialisation, and
      after an update). *)
  Record band_safe (W H : nat) (s : LevelSet T) : Prop := {
    bs_nb : ls_nBand s <= length (ls_band s);
    bs_nm : ls_nMines s <= length (ls_mines s);
    bs_band : forall i, i ∈ band_list s -> i < node_count W H;
    bs_mine : forall i, i ∈ mine_list s -> i < node_count W H;
    bs_nodup : NoDup (band_list s);
  }.

  (** The value an update gives to node [i]: motion along the gradient, stopped at zero on the
      border of the domain. *)
  Definition moved (s : LevelSet T) (dt : T) (i : nat) (r : T) : Prop :=
    exists d g v n, ls_sd s !! i = Some d /\ ls_grad s !! i = Some g /\ ls_vel s !! i = Some v /\
      m_nodes (ls_mesh s) !! i = Some n /\
      let d' := (d - dt * g * v)%num in
      r = if nd_domain n && (n0 <? d')%num then n0 else d'.

  (** Everything but the signed distance and the mesh is the same. *)
  Definition same_members (s s' : LevelSet T) : Prop :=
    s' = set_sd (ls_sd s') (set_mesh (ls_mesh s') s).

  (** [s'] is [s] after the motion of the band nodes, before any reinitialisation. *)
  Record moved_field (s : LevelSet T) (dt : T) (s' : LevelSet T) : Prop := {
    mf_band : forall i, i ∈ band_list s -> exists r, ls_sd s' !! i = Some r /\ moved s dt i r;
    mf_else : forall i, i ∉ band_list s -> ls_sd s' !! i = ls_sd s !! i;
    mf_rest : same_members s s';
    mf_elements : m_elements (ls_mesh s') = m_elements (ls_mesh s);
    mf_nodes : forall i n, m_nodes (ls_mesh s) !! i = Some n ->
      exists k, m_nodes (ls_mesh s') !! i = Some (set_nd_bpts (nd_bpts n) k n) /\ (i ∉ band_list s -> k = nd_nBpts n);
  }.

  (** [s'] is [s] with the nodes of the set [P] masked and moved just outside, before any
      reinitialisation. *)
  Record masked_field (s : LevelSet T) (P : nat -> Prop) (s' : LevelSet T) : Prop := {
    kf_in : forall i n, P i -> m_nodes (ls_mesh s) !! i = Some n ->
      ls_sd s' !! i = Some (- nlit 1 1000000)%num /\ m_nodes (ls_mesh s') !! i = Some (set_nd_masked true n);
    kf_out : forall i, ~ P i -> ls_sd s' !! i = ls_sd s !! i /\
      m_nodes (ls_mesh s') !! i = m_nodes (ls_mesh s) !! i;
    kf_rest : same_members s s';
    kf_mesh : ls_mesh s' = set_nodes (m_nodes (ls_mesh s')) (ls_mesh s);
    kf_len : length (ls_sd s') = length (ls_sd s);
    kf_lenN : length (m_nodes (ls_mesh s')) = length (m_nodes (ls_mesh s));
  }.

  Definition distance (a b : Coord T) : T :=
    let dx := (cx a - cx b)%num in
    let dy := (cy a - cy b)%num in
    nsqrt (dx * dx + dy * dy)%num.

  (** Node [i] lies in one of the circles / strictly inside the rectangle. *)
  Definition in_circles (s : LevelSet T) (holes : list (Hole T)) (i : nat) : Prop :=
    exists n h, m_nodes (ls_mesh s) !! i = Some n /\ h ∈ holes /\
      (distance (h_coord h) (nd_coord n) <? h_r h)%num = true.
  Definition in_rectangle (s : LevelSet T) (a b : Coord T) (i : nat) : Prop :=
    exists n, m_nodes (ls_mesh s) !! i = Some n /\
      (cx a <? cx (nd_coord n))%num = true /\ (cy a <? cy (nd_coord n))%num = true /\
      (cx (nd_coord n) <? cx b)%num = true /\ (cy (nd_coord n) <? cy b)%num = true.

  (** Nodes equal except for the flags the narrow band sets. *)
  Definition same_but_band (n n' : Node T) : Prop :=
    n' = set_nd_active (nd_active n') (set_nd_mine (nd_mine n') n).
End LevelSetSpec.

Section GradientSpec.
  Context {T : Type} `{NT : Num T}.

  (** The difference number [z] of the values [h 0], ..., [h n]; beyond either end the last one is
      repeated. *)
  Definition clamped_diff (h : nat -> T) (n : nat) (z : Z) : T :=
    let k := Z.to_nat (Z.max 0 (Z.min z (Z.of_nat n - 1))) in
    (h (k + 1)%nat - h k)%num.

  (** The upwind derivatives at position [p]: differences from the far side of the node to the near
      side. *)
  Definition upwind_forward (h : nat -> T) (n p : nat) : T :=
    let d z := clamped_diff h n (Z.of_nat p + z) in gradHJWENO (d 2%Z) (d 1%Z) (d 0%Z) (d (-1)%Z) (d (-2)%Z).
  Definition upwind_backward (h : nat -> T) (n p : nat) : T :=
    let d z := clamped_diff h n (Z.of_nat p + z) in gradHJWENO (d (-3)%Z) (d (-2)%Z) (d (-1)%Z) (d 0%Z) (d 1%Z).

  (** The Godunov choice between them for front motion in the direction [sign]. *)
  Definition godunov (sign right left up down : T) : T :=
    let add (c : bool) (a v : T) := if c then (a + v * v)%num else a in
    let r := (sign * right)%num in let l := (sign * left)%num in
    let u := (sign * up)%num in let d := (sign * down)%num in
    nsqrt (add (r <? n0)%num (add (u <? n0)%num (add (n0 <? l)%num (add (n0 <? d)%num n0 d) l) u) r).

  (** The field [h x y] at a corner node, seen along the diagonal: used when both edges at the corner
      are (almost) parallel to the boundary. *)
  Definition corner_flat (h : nat -> nat -> T) (W H x y : nat) : Prop :=
    let x' := if (x =? 0)%nat then 1 else W - 1 in
    let y' := if (y =? 0)%nat then 1 else H - 1 in
    (x = 0 \/ x = W) /\ (y = 0 \/ y = H) /\
    (nabs (h x' y - h x y) <? nlit 1 1000000)%num = true /\ (nabs (h x y' - h x y) <? nlit 1 1000000)%num = true.

  Definition gradient_spec (h : nat -> nat -> T) (W H x y : nat) (v g : T) : Prop :=
    (corner_flat h W H x y /\
       g = (nabs (h x y - h (if (x =? 0)%nat then 1%nat else (W - 1)%nat) (if (y =? 0)%nat then 1%nat else (H - 1)%nat)) * nsqrt (nofZ 2))%num) \/
    (~ corner_flat h W H x y /\
       let sign := if (v <? n0)%num then nofZ (-1) else nofZ 1 in
       let gx k := h k y in
       let gy k := h x k in
       g = godunov sign (upwind_forward gx W x) (upwind_backward gx W x) (upwind_forward gy H y) (upwind_backward gy H y)).
End GradientSpec.

(** The field as a function of the grid position (any value outside the mesh). *)
Definition field {T} `{Num T} (W : nat) (sd : list T) (x y : nat) : T := nth (node_id W x y) sd n0.
