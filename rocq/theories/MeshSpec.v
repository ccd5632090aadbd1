(** * MeshSpec: the grid a [Mesh] is supposed to be, in closed form.

    Independent of the construction loops: node (x, y), 0 <= x <= W, 0 <= y <= H, is number
    [x + y * (W + 1)]; element (x, y), 0 <= x < W, 0 <= y < H, is number [x + y * W]. *)

From Verif Require Export MeshModel.

(** [tab n f] is the list [f 0, ..., f (n-1)]. *)
Definition tab {A} (n : nat) (f : nat -> A) : list A := map f (seq 0 n).

Definition node_id (W x y : nat) : nat := x + y * (W + 1).
Definition elem_id (W x y : nat) : nat := x + y * W.
Definition node_count (W H : nat) : nat := (W + 1) * (H + 1).

(** The sizes an [unsigned int] can count. *)
Definition mesh_fits (W H : nat) : Prop :=
  1 <= W /\ 1 <= H /\ (Z.of_nat (node_count W H) < 2 ^ 32)%Z.

(** Left, right, down, up; [node_count] stands for "outside the domain". *)
Definition neighbours_spec (W H x y : nat) : list nat :=
  [if (x =? 0)%nat then node_count W H else node_id W (x - 1) y;
   if (x =? W)%nat then node_count W H else node_id W (x + 1) y;
   if (y =? 0)%nat then node_count W H else node_id W x (y - 1);
   if (y =? H)%nat then node_count W H else node_id W x (y + 1)].

(** The elements around node (x, y): lower left, lower right, upper left, upper right. *)
Definition incident_spec (W H x y : nat) : list nat :=
  (if (0 <? x)%nat && (0 <? y)%nat then [elem_id W (x - 1) (y - 1)] else []) ++
  (if (x <? W)%nat && (0 <? y)%nat then [elem_id W x (y - 1)] else []) ++
  (if (0 <? x)%nat && (y <? H)%nat then [elem_id W (x - 1) y] else []) ++
  (if (x <? W)%nat && (y <? H)%nat then [elem_id W x y] else []).

(** Anticlockwise from the bottom left. *)
Definition corners_spec (W x y : nat) : list nat :=
  [node_id W x y; node_id W (x + 1) y; node_id W (x + 1) (y + 1); node_id W x (y + 1)].

Definition domain_spec (W H x y : nat) : bool :=
  (x =? 0)%nat || (x =? W)%nat || (y =? 0)%nat || (y =? H)%nat.

Definition pad4 (l : list nat) : list nat := l ++ replicate (4 - length l) 0.

Section MeshSpec.
  Context {T : Type} `{Num T}.

  Definition node_spec (W H i : nat) : Node T :=
    let x := i mod (W + 1) in
    let y := i / (W + 1) in
    mkNode (mkCoord (nofnat x) (nofnat y)) (neighbours_spec W H x y)
      (pad4 (incident_spec W H x y)) (length (incident_spec W H x y))
      (replicate 4 0) 0 false (domain_spec W H x y) false false None.

  Definition element_spec (W i : nat) : Element T :=
    let x := i mod W in
    let y := i / W in
    mkElement (mkCoord (nofnat x + nlit 1 2)%num (nofnat y + nlit 1 2)%num) n0
      (corners_spec W x y) (replicate 2 0) None None.

  Definition mesh_spec (W H : nat) : Mesh T :=
    mkMesh (tab (W * H) (element_spec W)) (tab (node_count W H) (node_spec W H))
      W H (W * H) (node_count W H)
      (tab (W + 1) (fun x => tab (H + 1) (fun y => node_id W x y))).
End MeshSpec.
