(** * MeshProofs: [mesh_new] builds exactly the grid of MeshSpec. *)

From Verif Require Import MeshModel MeshSpec.
From Coq Require Import ZifyBool ZifyNat.
Ltac Zify.zify_post_hook ::= Z.div_mod_to_equations.
#[global] Arguments Nat.ltb : simpl never.
#[global] Arguments Nat.modulo : simpl never.
#[global] Arguments Nat.div : simpl never.
#[global] Arguments Nat.sub : simpl nomatch.

(** ** tab *)
Lemma tab_length {A} n (f : nat -> A) : length (tab n f) = n.
Proof. unfold tab. rewrite map_length, seq_length. reflexivity. Qed.
Lemma tab_lookup {A} n (f : nat -> A) i : i < n -> tab n f !! i = Some (f i).
Proof.
  intros Hi. unfold tab. rewrite list_lookup_fmap, (proj2 (lookup_seq 0 n i i)) by lia. reflexivity.
Qed.
Lemma tab_lookup_Some {A} n (f : nat -> A) i a : tab n f !! i = Some a <-> i < n /\ a = f i.
Proof.
  split.
  - intros E. pose proof (lookup_lt_Some _ _ _ E) as Hi. rewrite tab_length in Hi.
    rewrite tab_lookup in E by exact Hi. split; [exact Hi|congruence].
  - intros [Hi ->]. apply tab_lookup; exact Hi.
Qed.
Lemma tab_lookup_None {A} n (f : nat -> A) i : tab n f !! i = None <-> n <= i.
Proof. rewrite lookup_ge_None, tab_length. reflexivity. Qed.
Lemma tab_ext {A} n (f g : nat -> A) : (forall i, i < n -> f i = g i) -> tab n f = tab n g.
Proof.
  intros E. unfold tab. apply map_ext_in. intros i Hi. apply in_seq in Hi. apply E. lia.
Qed.
Lemma tab_insert {A} n (f : nat -> A) i a :
  i < n -> <[i := a]> (tab n f) = tab n (fun j => if (j =? i)%nat then a else f j).
Proof.
  intros Hi. apply list_eq. intros j.
  destruct (Nat.lt_ge_cases j n) as [Hj|Hj].
  - rewrite (tab_lookup n _ j) by exact Hj.
    destruct (Nat.eqb_spec j i) as [->|Hne].
    + apply list_lookup_insert. rewrite tab_length. exact Hi.
    + rewrite list_lookup_insert_ne by lia. apply tab_lookup. exact Hj.
  - rewrite !(proj2 (lookup_ge_None _ _)); [reflexivity|rewrite tab_length; exact Hj|].
    rewrite insert_length, tab_length. exact Hj.
Qed.
Lemma tab_replicate {A} n (a : A) : replicate n a = tab n (fun _ => a).
Proof.
  apply list_eq. intros j. destruct (Nat.lt_ge_cases j n) as [Hj|Hj].
  - rewrite tab_lookup, lookup_replicate_2 by exact Hj. reflexivity.
  - rewrite !(proj2 (lookup_ge_None _ _)); [reflexivity|rewrite tab_length; exact Hj|rewrite replicate_length; exact Hj].
Qed.
Lemma vget_tab {A} n (f : nat -> A) i : i < n -> vget (tab n f) i = Ok (f i).
Proof. intros Hi. unfold vget. rewrite tab_lookup by exact Hi. reflexivity. Qed.
Lemma vset_tab {A} n (f : nat -> A) i a :
  i < n -> vset (tab n f) i a = Ok (tab n (fun j => if (j =? i)%nat then a else f j)).
Proof. intros Hi. unfold vset. rewrite tab_lookup, tab_insert by exact Hi. reflexivity. Qed.
Lemma vmod_tab {A} n (f : nat -> A) i g :
  i < n -> vmod (tab n f) i g = Ok (tab n (fun j => if (j =? i)%nat then g (f i) else f j)).
Proof. intros Hi. unfold vmod. rewrite tab_lookup, tab_insert by exact Hi. reflexivity. Qed.

(** Loops whose k-th state is known. *)
Lemma for_from_states {S} n (f : nat -> S -> outcome S) (st : nat -> S) :
  forall i, (forall k, i <= k < i + n -> f k (st k) = Ok (st (Datatypes.S k))) ->
  for_from i n f (st i) = Ok (st (i + n)).
Proof.
  induction n as [|n IH]; intros i Hs; cbn [for_from].
  - rewrite Nat.add_0_r. reflexivity.
  - rewrite Hs by lia. cbn [obind]. rewrite IH by (intros k Hk; apply Hs; lia).
    do 2 f_equal. lia.
Qed.
Lemma for_states {S} n (f : nat -> S -> outcome S) (st : nat -> S) :
  (forall k, k < n -> f k (st k) = Ok (st (Datatypes.S k))) -> for_ n f (st 0) = Ok (st n).
Proof. intros Hs. apply (for_from_states n f st 0). intros k Hk. apply Hs. lia. Qed.

(** ** Integer facts *)
Lemma u32_id z n : z = Z.of_nat n -> (z < 2 ^ 32)%Z -> u32 z = n.
Proof. intros -> Hz. unfold u32. rewrite Z.mod_small by lia. lia. Qed.

Lemma divmod_id w x y : x < w -> (x + y * w) mod w = x /\ (x + y * w) / w = y.
Proof.
  intros Hx. split.
  - rewrite Nat.mod_add by lia. apply Nat.mod_small; exact Hx.
  - rewrite Nat.div_add by lia. rewrite Nat.div_small by exact Hx. reflexivity.
Qed.
Lemma divmod_inj w a b c d : a < w -> c < w -> a + b * w = c + d * w -> a = c /\ b = d.
Proof.
  intros Ha Hc E. destruct (divmod_id w a b Ha) as [M1 D1]. destruct (divmod_id w c d Hc) as [M2 D2].
  rewrite E in M1, D1. split; congruence.
Qed.
Lemma divmod_split w h i : 0 < w -> i < w * h -> i mod w < w /\ i / w < h /\ i = i mod w + (i / w) * w.
Proof.
  intros Hw Hi. split; [apply Nat.mod_upper_bound; lia|].
  split; [apply Nat.div_lt_upper_bound; lia|].
  rewrite (Nat.div_mod i w) at 1 by lia. lia.
Qed.

Lemma node_id_lt W H x y : x <= W -> y <= H -> node_id W x y < node_count W H.
Proof.
  unfold node_id, node_count. intros Hx Hy.
  assert (y * (W + 1) <= H * (W + 1)) by (apply Nat.mul_le_mono_r; exact Hy). nia.
Qed.
Lemma node_id_inj W x y x' y' : x <= W -> x' <= W -> node_id W x y = node_id W x' y' -> x = x' /\ y = y'.
Proof. unfold node_id. intros Hx Hx' E. apply (divmod_inj (W + 1)); [lia..|exact E]. Qed.
Lemma elem_id_lt W H x y : x < W -> y < H -> elem_id W x y < W * H.
Proof.
  unfold elem_id. intros Hx Hy.
  assert (y * W <= (H - 1) * W) by (apply Nat.mul_le_mono_r; lia). nia.
Qed.
Lemma elem_id_inj W x y x' y' : x < W -> x' < W -> elem_id W x y = elem_id W x' y' -> x = x' /\ y = y'.
Proof. unfold elem_id. intros Hx Hx' E. apply (divmod_inj W); assumption. Qed.
Lemma node_id_split W H i : i < node_count W H ->
  i mod (W + 1) <= W /\ i / (W + 1) <= H /\ i = node_id W (i mod (W + 1)) (i / (W + 1)).
Proof.
  unfold node_count, node_id. intros Hi.
  destruct (divmod_split (W + 1) (H + 1) i) as (A & B & C); [lia|exact Hi|].
  split; [lia|]. split; [lia|exact C].
Qed.
Lemma elem_id_split W H i : 1 <= W -> i < W * H ->
  i mod W < W /\ i / W < H /\ i = elem_id W (i mod W) (i / W).
Proof. intros HW Hi. apply divmod_split; [lia|exact Hi]. Qed.
Lemma node_id_mod W x y : x <= W -> node_id W x y mod (W + 1) = x.
Proof. intros Hx. apply divmod_id. lia. Qed.
Lemma node_id_div W x y : x <= W -> node_id W x y / (W + 1) = y.
Proof. intros Hx. apply divmod_id. lia. Qed.
Lemma elem_id_mod W x y : x < W -> elem_id W x y mod W = x.
Proof. intros Hx. apply divmod_id. lia. Qed.
Lemma elem_id_div W x y : x < W -> elem_id W x y / W = y.
Proof. intros Hx. apply divmod_id. lia. Qed.

Lemma mesh_fits_facts W H : mesh_fits W H ->
  1 <= W /\ 1 <= H /\ (Z.of_nat (W + 1) < 2 ^ 31)%Z /\ (Z.of_nat (H + 1) < 2 ^ 31)%Z /\
  (Z.of_nat (node_count W H) < 2 ^ 32)%Z /\ (Z.of_nat (W * H) < 2 ^ 32)%Z.
Proof.
  unfold mesh_fits, node_count. intros (HW & HH & Hf).
  split; [exact HW|]. split; [exact HH|]. split; [nia|]. split; [nia|]. split; [exact Hf|nia].
Qed.

Lemma neighbours_of_eq W H x y : mesh_fits W H -> x <= W -> y <= H ->
  neighbours_of W H (node_count W H) x y = Ok (neighbours_spec W H x y).
Proof.
  intros Hf Hx Hy. destruct (mesh_fits_facts W H Hf) as (HW & HH & F1 & F2 & F3 & F4).
  unfold neighbours_of.
  rewrite (u32_id (Z.of_nat W + 1) (W + 1)) by lia.
  rewrite (u32_id (Z.of_nat H + 1) (H + 1)) by lia.
  assert (E1 : u32 (Z.of_nat x - 1 + Z.of_nat (W + 1)) = x + W) by (apply u32_id; lia).
  assert (E2 : u32 (Z.of_nat x + 1 + Z.of_nat (W + 1)) = x + 2 + W) by (apply u32_id; lia).
  assert (E3 : u32 (Z.of_nat y - 1 + Z.of_nat (H + 1)) = y + H) by (apply u32_id; lia).
  assert (E4 : u32 (Z.of_nat y + 1 + Z.of_nat (H + 1)) = y + 2 + H) by (apply u32_id; lia).
  rewrite E1, E2, E3, E4. clear E1 E2 E3 E4.
  assert (M : forall b a, umod a (b + 1) = Ok (a mod (b + 1))).
  { intros b a. unfold umod. destruct (Nat.eqb_spec (b + 1) 0); [lia|reflexivity]. }
  rewrite !M. cbn [obind].
  assert (N1 : x <> 0 -> (x + W) mod (W + 1) = x - 1).
  { intros Hne. replace (x + W) with ((x - 1) + 1 * (W + 1)) by lia. rewrite Nat.mod_add by lia. apply Nat.mod_small. lia. }
  assert (N2 : x <> W -> (x + 2 + W) mod (W + 1) = x + 1).
  { intros Hne. replace (x + 2 + W) with ((x + 1) + 1 * (W + 1)) by lia. rewrite Nat.mod_add by lia. apply Nat.mod_small. lia. }
  assert (N3 : y <> 0 -> (y + H) mod (H + 1) = y - 1).
  { intros Hne. replace (y + H) with ((y - 1) + 1 * (H + 1)) by lia. rewrite Nat.mod_add by lia. apply Nat.mod_small. lia. }
  assert (N4 : y <> H -> (y + 2 + H) mod (H + 1) = y + 1).
  { intros Hne. replace (y + 2 + H) with ((y + 1) + 1 * (H + 1)) by lia. rewrite Nat.mod_add by lia. apply Nat.mod_small. lia. }
  assert (U : forall a b, a <= W -> b <= H -> u32 (Z.of_nat a + Z.of_nat b * Z.of_nat (W + 1)) = node_id W a b /\
     u32 (Z.of_nat a + Z.of_nat (W + 1) * Z.of_nat b) = node_id W a b).
  { intros a b Ha Hb. pose proof (node_id_lt W H a b Ha Hb). unfold node_id in *.
    split; apply u32_id; lia. }
  unfold neighbours_spec. f_equal.
  destruct (Nat.eqb_spec x 0) as [Hx0|Hx0], (Nat.eqb_spec x W) as [HxW|HxW]; [lia| | | ];
  (destruct (Nat.eqb_spec y 0) as [Hy0|Hy0], (Nat.eqb_spec y H) as [HyH|HyH]; [lia| | | ]);
  cbn [insert list_insert];
  repeat match goal with
  | |- _ :: _ = _ :: _ => f_equal
  end; try reflexivity;
  rewrite ?N1, ?N2, ?N3, ?N4 by assumption; apply U; lia.
Qed.

(** ** Incidence lists *)
From Coq Require Import Sorting.Sorted.

Lemma incident_sorted W H x y : x <= W -> StronglySorted lt (incident_spec W H x y).
Proof.
  intros Hx. unfold incident_spec, elem_id.
  destruct (Nat.ltb_spec 0 x), (Nat.ltb_spec x W), (Nat.ltb_spec 0 y), (Nat.ltb_spec y H); cbn [andb app];
  repeat constructor; try (destruct y as [|y]; [lia|]; replace (S y - 1) with y by lia; nia); try nia.
Qed.
Lemma incident_length W H x y : length (incident_spec W H x y) <= 4.
Proof.
  unfold incident_spec.
  destruct (Nat.ltb_spec 0 x), (Nat.ltb_spec x W), (Nat.ltb_spec 0 y), (Nat.ltb_spec y H); cbn; lia.
Qed.
Lemma in_incident W H x y j : x <= W -> y <= H ->
  In j (incident_spec W H x y) <->
  exists ex ey, ex < W /\ ey < H /\ j = elem_id W ex ey /\ (x = ex \/ x = ex + 1) /\ (y = ey \/ y = ey + 1).
Proof.
  intros Hx Hy. unfold incident_spec. rewrite !in_app_iff. split.
  - intros [Hi|[Hi|[Hi|Hi]]].
    all: destruct (Nat.ltb_spec 0 x), (Nat.ltb_spec x W), (Nat.ltb_spec 0 y), (Nat.ltb_spec y H); cbn in Hi; try tauto.
    all: destruct Hi as [<-|[]].
    all: first [exists (x - 1), (y - 1); repeat split; lia | exists x, (y - 1); repeat split; lia
               |exists (x - 1), y; repeat split; lia | exists x, y; repeat split; lia].
  - intros (ex & ey & Hex & Hey & -> & Ex & Ey).
    destruct Ex as [->| ->], Ey as [->| ->].
    + right; right; right. destruct (Nat.ltb_spec ex W), (Nat.ltb_spec ey H); try lia. left; reflexivity.
    + right; left. destruct (Nat.ltb_spec ex W), (Nat.ltb_spec 0 (ey + 1)); try lia. left. f_equal; lia.
    + right; right; left. destruct (Nat.ltb_spec 0 (ex + 1)), (Nat.ltb_spec ey H); try lia. left. f_equal; lia.
    + left. destruct (Nat.ltb_spec 0 (ex + 1)), (Nat.ltb_spec 0 (ey + 1)); try lia. left. f_equal; lia.
Qed.
Lemma in_corners W ex ey n : In n (corners_spec W ex ey) <->
  exists x y, n = node_id W x y /\ (x = ex \/ x = ex + 1) /\ (y = ey \/ y = ey + 1).
Proof.
  unfold corners_spec. cbn [In]. split.
  - intros [<-|[<-|[<-|[<-|[]]]]]; do 2 eexists; (split; [reflexivity|]); auto.
  - intros (x & y & -> & [->| ->] & [->| ->]); auto.
Qed.
(** Element j touches node i iff node i is a corner of element j. *)
Lemma incident_corner W H x y ex ey : x <= W -> y <= H -> ex < W -> ey < H ->
  In (elem_id W ex ey) (incident_spec W H x y) <-> In (node_id W x y) (corners_spec W ex ey).
Proof.
  intros Hx Hy Hex Hey. rewrite in_incident, in_corners by assumption. split.
  - intros (ex' & ey' & A & B & E & C & D). apply elem_id_inj in E as [-> ->]; [|assumption..]. eauto 10.
  - intros (x' & y' & E & C & D). apply node_id_inj in E as [<- <-]; [|lia..]. exists ex, ey. auto 10.
Qed.
Lemma corners_NoDup W ex ey : ex < W -> NoDup (corners_spec W ex ey).
Proof.
  intros Hex. unfold corners_spec, node_id.
  repeat constructor; rewrite ?elem_of_cons, ?elem_of_nil; nia.
Qed.

(** Elements numbered below [k]. *)
Definition below (k : nat) (l : list nat) : list nat := List.filter (fun j => (j <? k)%nat) l.

Lemma below_all k l : (forall j, In j l -> j < k) -> below k l = l.
Proof.
  intros Hl. unfold below. induction l as [|a l IH]; [reflexivity|]. cbn [List.filter].
  destruct (Nat.ltb_spec a k) as [Ha|Ha]; [|specialize (Hl a (or_introl eq_refl)); lia].
  f_equal. apply IH. intros j Hj. apply Hl. right; exact Hj.
Qed.
Lemma below_none k l : (forall j, In j l -> k <= j) -> below k l = [].
Proof.
  intros Hl. unfold below. induction l as [|a l IH]; [reflexivity|]. cbn [List.filter].
  destruct (Nat.ltb_spec a k) as [Ha|Ha]; [specialize (Hl a (or_introl eq_refl)); lia|].
  apply IH. intros j Hj. apply Hl. right; exact Hj.
Qed.
Lemma below_0 l : below 0 l = [].
Proof. apply below_none. lia. Qed.
Lemma below_S_in k l : StronglySorted lt l -> In k l -> below (S k) l = below k l ++ [k].
Proof.
  induction 1 as [|a l Hs IH Ha]; [intros []|]. intros Hin. unfold below in *. cbn [List.filter].
  rewrite List.Forall_forall in Ha. destruct Hin as [->|Hin].
  - destruct (Nat.ltb_spec k (S k)); [|lia]. destruct (Nat.ltb_spec k k); [lia|].
    fold (below (S k) l) (below k l). rewrite !below_none; [reflexivity|..]; intros j Hj; specialize (Ha j Hj); lia.
  - specialize (Ha k Hin). destruct (Nat.ltb_spec a (S k)), (Nat.ltb_spec a k); try lia.
    rewrite IH by exact Hin. reflexivity.
Qed.
Lemma below_S_notin k l : ~ In k l -> below (S k) l = below k l.
Proof.
  intros Hn. unfold below. apply List.filter_ext_in. intros j Hj.
  destruct (Nat.ltb_spec j (S k)), (Nat.ltb_spec j k); try reflexivity; try lia.
  assert (j = k) by lia. congruence.
Qed.
Lemma below_length k l : length (below k l) <= length l.
Proof. unfold below. induction l as [|a l IH]; cbn [List.filter length]; [lia|]. destruct (a <? k)%nat; cbn [length]; lia. Qed.
Lemma below_length_in k l : In k l -> length (below k l) < length l.
Proof.
  induction l as [|a l IH]; [intros []|]. intros [->|Hin]; unfold below in *; cbn [List.filter].
  - rewrite Nat.ltb_irrefl. pose proof (below_length k l). unfold below in *. cbn [length]; lia.
  - specialize (IH Hin). destruct (a <? k)%nat; cbn [length]; lia.
Qed.
Lemma pad4_insert l k : length l < 4 -> <[length l := k]> (pad4 l) = pad4 (l ++ [k]).
Proof.
  intros Hl. unfold pad4. rewrite app_length. cbn [length].
  replace (4 - length l) with (S (4 - (length l + 1))) by lia. cbn [replicate].
  rewrite <- app_assoc. replace (length l) with (length l + 0) at 1 by lia.
  rewrite insert_app_r. reflexivity.
Qed.
Lemma pad4_length l : length l <= 4 -> length (pad4 l) = 4.
Proof. intros Hl. unfold pad4. rewrite app_length, replicate_length. lia. Qed.

(** ** The construction *)
Section mesh.
  Context {T : Type} `{NT : Num T}.
  Variables W H : nat.
  Hypothesis Hfits : mesh_fits W H.

  Let N := node_count W H.

  (* A node after both loops have processed the elements below k. *)
  Definition node_upto (k i : nat) : Node T :=
    let x := i mod (W + 1) in
    let y := i / (W + 1) in
    mkNode (mkCoord (nofnat x) (nofnat y)) (neighbours_spec W H x y)
      (pad4 (below k (incident_spec W H x y))) (length (below k (incident_spec W H x y)))
      (replicate 4 0) 0 false (domain_spec W H x y) false false None.

  Definition st1 (k : nat) : Mesh T :=
    mkMesh (replicate (W * H) element_default)
      (tab N (fun i => if (i <? k)%nat then node_upto 0 i else node_default))
      W H (W * H) N
      (tab (W + 1) (fun x => tab (H + 1) (fun y => if (node_id W x y <? k)%nat then node_id W x y else 0))).

  Lemma initialise_node_st k : k < N -> initialise_node k (st1 k) = Ok (st1 (S k)).
  Proof.
    intros Hk. destruct (mesh_fits_facts W H Hfits) as (HW & HH & F1 & F2 & F3 & F4).
    unfold initialise_node. cbn [st1 m_width m_height m_nNodes m_nodes m_xy].
    rewrite (u32_id (Z.of_nat W + 1) (W + 1)) by lia.
    unfold umod, udiv. destruct (Nat.eqb_spec (W + 1) 0); [lia|]. cbn [obind].
    destruct (node_id_split W H k Hk) as (Hx & Hy & Ek).
    rewrite neighbours_of_eq by assumption. cbn [obind].
    rewrite vmod_tab by exact Hk. cbn [obind].
    rewrite vget_tab by lia. cbn [obind].
    rewrite vset_tab by lia. cbn [obind].
    rewrite vset_tab by lia. cbn [obind].
    unfold set_xy, set_nodes, st1. cbn. f_equal. f_equal.
    - apply tab_ext. intros i Hi.
      destruct (Nat.ltb_spec k k); [lia|].
      destruct (Nat.eqb_spec i k) as [->|Hne].
      + destruct (Nat.ltb_spec k (S k)); [|lia]. unfold node_upto. rewrite below_0. reflexivity.
      + destruct (Nat.ltb_spec i k), (Nat.ltb_spec i (S k)); try lia; reflexivity.
    - apply tab_ext. intros x Hx'.
      destruct (Nat.eqb_spec x (k mod (W + 1))) as [->|Hne].
      + apply tab_ext. intros y Hy'.
        destruct (Nat.eqb_spec y (k / (W + 1))) as [->|Hne].
        * rewrite <- Ek. destruct (Nat.ltb_spec k (S k)); [reflexivity|lia].
        * assert (node_id W (k mod (W + 1)) y <> k).
          { intros E. rewrite Ek in E at 2. apply node_id_inj in E; [|lia..]. lia. }
          destruct (Nat.ltb_spec (node_id W (k mod (W + 1)) y) k), (Nat.ltb_spec (node_id W (k mod (W + 1)) y) (S k)); try lia; reflexivity.
      + apply tab_ext. intros y Hy'.
        assert (node_id W x y <> k).
        { intros E. rewrite Ek in E. apply node_id_inj in E; [|lia..]. lia. }
        destruct (Nat.ltb_spec (node_id W x y) k), (Nat.ltb_spec (node_id W x y) (S k)); try lia; reflexivity.
  Qed.

  Definition st2 (k : nat) : Mesh T :=
    mkMesh (tab (W * H) (fun i => if (i <? k)%nat then element_spec W i else element_default))
      (tab N (node_upto k)) W H (W * H) N
      (tab (W + 1) (fun x => tab (H + 1) (fun y => node_id W x y))).

  (* The nodes while the corners [cs] of element k have been processed. *)
  Definition node_mid (k : nat) (cs : list nat) (i : nat) : Node T :=
    if existsb (Nat.eqb i) cs then node_upto (S k) i else node_upto k i.

  Lemma add_element_mid k cs c : k < W * H -> c < N ->
    existsb (Nat.eqb c) cs = false -> In k (incident_spec W H (c mod (W + 1)) (c / (W + 1))) ->
    add_element k c (tab N (node_mid k cs)) = Ok (tab N (node_mid k (cs ++ [c]))).
  Proof.
    intros Hk Hc Hnew Hin. unfold add_element. rewrite vget_tab by exact Hc. cbn [obind].
    set (inc := incident_spec W H (c mod (W + 1)) (c / (W + 1))) in *.
    assert (HL : length (below k inc) < 4).
    { pose proof (below_length_in k inc Hin). pose proof (incident_length W H (c mod (W + 1)) (c / (W + 1))).
      fold inc in H1. lia. }
    assert (EN : node_mid k cs c = node_upto k c) by (unfold node_mid; rewrite Hnew; reflexivity).
    rewrite EN. cbn [node_upto nd_elems nd_nElems]. fold inc.
    assert (EL : pad4 (below k inc) !! length (below k inc) = Some 0).
    { unfold pad4. rewrite lookup_app_r by lia. rewrite Nat.sub_diag.
      rewrite lookup_replicate_2 by lia. reflexivity. }
    unfold vset. rewrite EL.
    cbn [obind]. rewrite tab_lookup by exact Hc. rewrite tab_insert by exact Hc. f_equal.
    apply tab_ext. intros i Hi. destruct (Nat.eqb_spec i c) as [->|Hne].
    - unfold node_mid. rewrite existsb_app, Hnew. cbn [existsb orb]. rewrite Nat.eqb_refl. cbn [orb].
      unfold node_upto, set_nd_elems. cbn. fold inc.
      destruct (node_id_split W H c Hc) as (Hx & _ & _).
      rewrite below_S_in; [|apply incident_sorted; exact Hx|exact Hin]. fold inc.
      rewrite pad4_insert by exact HL. rewrite app_length. reflexivity.
    - unfold node_mid. rewrite existsb_app. cbn [existsb].
      destruct (Nat.eqb_spec i c); [lia|]. rewrite !orb_false_r. reflexivity.
  Qed.

  Lemma element_nodes_eq x y : x < W -> y < H -> element_nodes (W + 1) x y = corners_spec W x y.
  Proof.
    intros Hx Hy. destruct (mesh_fits_facts W H Hfits) as (HW & HH & F1 & F2 & F3 & F4).
    unfold element_nodes, corners_spec.
    pose proof (node_id_lt W H x y). pose proof (node_id_lt W H (x + 1) y).
    pose proof (node_id_lt W H (x + 1) (y + 1)). pose proof (node_id_lt W H x (y + 1)).
    unfold node_id in *. repeat f_equal; apply u32_id; lia.
  Qed.

  Lemma initialise_element_st k : k < W * H -> initialise_element k (st2 k) = Ok (st2 (S k)).
  Proof.
    intros Hk. destruct (mesh_fits_facts W H Hfits) as (HW & HH & F1 & F2 & F3 & F4).
    unfold initialise_element. cbn [st2 m_width m_height m_nNodes m_nodes m_xy m_elements].
    rewrite (u32_id (Z.of_nat W + 1) (W + 1)) by lia.
    unfold umod, udiv. destruct (Nat.eqb_spec W 0); [lia|]. cbn [obind].
    destruct (elem_id_split W H k HW Hk) as (Hx & Hy & Ek).
    rewrite element_nodes_eq by assumption.
    rewrite vmod_tab by exact Hk. cbn [obind].
    set (ex := k mod W) in *. set (ey := k / W) in *.
    assert (Hcor : forall x y, (x = ex \/ x = ex + 1) -> (y = ey \/ y = ey + 1) ->
       node_id W x y < N /\ In k (incident_spec W H (node_id W x y mod (W + 1)) (node_id W x y / (W + 1)))).
    { intros x y Ex Ey. split; [apply node_id_lt; lia|].
      rewrite node_id_mod, node_id_div by lia. rewrite Ek at 1. apply in_incident; [lia..|].
      exists ex, ey. auto. }
    assert (E0 : tab N (node_upto k) = tab N (node_mid k [])).
    { apply tab_ext. intros i Hi. reflexivity. }
    assert (Hd : forall a b c d, (a = ex \/ a = ex + 1) -> (c = ex \/ c = ex + 1) -> (a <> c \/ b <> d) ->
       (node_id W a b =? node_id W c d)%nat = false).
    { intros a b c d Ha Hc Hne. apply Nat.eqb_neq. intros E. apply node_id_inj in E; lia. }
    rewrite E0. unfold for_, corners_spec. cbn [for_from]. unfold vget at 1. cbn [lookup list_lookup obind].
    rewrite add_element_mid; [|exact Hk|apply Hcor; auto|reflexivity|apply Hcor; auto]. cbn [obind app].
    unfold vget at 1. cbn [lookup list_lookup obind].
    rewrite add_element_mid; [|exact Hk|apply Hcor; auto| |apply Hcor; auto].
    2: { cbn [existsb]. rewrite !Hd by lia. reflexivity. }
    cbn [obind app]. unfold vget at 1. cbn [lookup list_lookup obind].
    rewrite add_element_mid; [|exact Hk|apply Hcor; auto| |apply Hcor; auto].
    2: { cbn [existsb]. rewrite !Hd by lia. reflexivity. }
    cbn [obind app]. unfold vget at 1. cbn [lookup list_lookup obind].
    rewrite add_element_mid; [|exact Hk|apply Hcor; auto| |apply Hcor; auto].
    2: { cbn [existsb]. rewrite !Hd by lia. reflexivity. }
    cbn [obind app]. f_equal. unfold set_elements, set_nodes, st2. cbn [m_elements m_nodes m_width m_height m_nElements m_nNodes m_xy].
    f_equal.
    - apply tab_ext. intros i Hi. destruct (Nat.ltb_spec k k); [lia|].
      destruct (Nat.eqb_spec i k) as [->|Hne].
      + destruct (Nat.ltb_spec k (S k)); [|lia]. reflexivity.
      + destruct (Nat.ltb_spec i k), (Nat.ltb_spec i (S k)); try lia; reflexivity.
    - apply tab_ext. intros i Hi. unfold node_mid.
      destruct (existsb (Nat.eqb i) _) eqn:Eex; [reflexivity|].
      unfold node_upto. rewrite below_S_notin; [reflexivity|].
      intros Hin. destruct (node_id_split W H i Hi) as (Hix & Hiy & Ei).
      rewrite Ek in Hin. apply incident_corner in Hin; [|lia..].
      rewrite <- Ei in Hin. rewrite <- not_true_iff_false in Eex. apply Eex.
      apply existsb_exists. exists i. split; [exact Hin|]. apply Nat.eqb_refl.
  Qed.

  (** The constructor succeeds and builds the grid of the specification. *)
  Lemma mesh_new_eq : mesh_new W H = Ok (mesh_spec (T := T) W H).
  Proof.
    destruct (mesh_fits_facts W H Hfits) as (HW & HH & F1 & F2 & F3 & F4).
    unfold mesh_new.
    rewrite (u32_id (Z.of_nat W * Z.of_nat H) (W * H)) by lia.
    rewrite (u32_id ((1 + Z.of_nat W) * (1 + Z.of_nat H)) N) by (unfold N, node_count in *; lia).
    rewrite (u32_id (Z.of_nat W + 1) (W + 1)) by lia.
    rewrite (u32_id (Z.of_nat H + 1) (H + 1)) by lia.
    match goal with |- obind (for_ N _ ?m) _ = _ => assert (E0 : m = st1 0) end.
    { unfold st1. f_equal.
      - rewrite tab_replicate. apply tab_ext. intros; reflexivity.
      - rewrite tab_replicate. apply tab_ext. intros x Hx. rewrite tab_replicate. apply tab_ext. intros; reflexivity. }
    rewrite E0, (for_states N initialise_node st1) by exact initialise_node_st. cbn [obind].
    assert (E1 : st1 N = st2 0).
    { unfold st1, st2. f_equal.
      - rewrite tab_replicate. apply tab_ext. intros; reflexivity.
      - apply tab_ext. intros i Hi. destruct (Nat.ltb_spec i N); [reflexivity|lia].
      - apply tab_ext. intros x Hx. apply tab_ext. intros y Hy.
        destruct (Nat.ltb_spec (node_id W x y) N) as [|Hge]; [reflexivity|].
        pose proof (node_id_lt W H x y). unfold N in *. lia. }
    rewrite E1, (for_states (W * H) initialise_element st2) by exact initialise_element_st. f_equal.
    unfold st2, mesh_spec. f_equal.
    - apply tab_ext. intros i Hi. destruct (Nat.ltb_spec i (W * H)); [reflexivity|lia].
    - apply tab_ext. intros i Hi. unfold node_upto, node_spec.
      rewrite below_all; [reflexivity|]. intros j Hj.
      destruct (node_id_split W H i Hi) as (Hx & Hy & _).
      apply in_incident in Hj; [|assumption..]. destruct Hj as (ex & ey & A & B & -> & _).
      apply elem_id_lt; assumption.
  Qed.
End mesh.
