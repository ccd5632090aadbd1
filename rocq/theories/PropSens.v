(** * PropSens: theorems about computeNormalVectors and Sensitivity (C37, C43, C44).  Proofs in NormMain, SensProofs and SensReal. *)

From Coq Require Import Reals.
From Verif Require Import Base Num NumR NumF64 NumInt LevelSetModel LevelSetSpec LevelSetCalls LevelSetHist MeshSpec FmmSpec BoundaryModel BoundarySpec BoundarySpecR
  NormSpec NormMain SensModel SensProofs SensReal NormCases.
Local Open Scope R_scope.

(** C37: after discretise, computeNormalVectors returns and changes nothing but normals, whatever the number type. *)
Theorem C37_only_normals_change (T : Type) (NT : Num T) (NI : NumInt T) W H (s s' : LevelSet T) tg b : reached W H s -> discretise s tg = Ok (s', b) ->
  exists b', computeNormalVectors s' b = Ok b' /\ same_but_normals b b'.
Proof. intros Hr E. destruct (normals_discretised W H s s' tg b Hr E) as (b' & A & B & _). exact (ex_intro _ b' (conj A B)). Qed.
Print Assumptions C37_only_normals_change.

(** C37, exact arithmetic: the normal of a point is the vector gathered from the gradient directions of the nodes around
    it; inside the domain it is brought to unit length. *)
Theorem C37_normals_are_gathered W H (s s' : LevelSet R) tg b b' : reached W H s -> discretise s tg = Ok (s', b) -> computeNormalVectors s' b = Ok b' ->
  forall k p p', bd_points b !! k = Some p -> bd_points b' !! k = Some p' ->
  let g := gathered (bp_coord p) (sources W H s' k) in
  bp_normal p' = if bp_domain p then g else scale (/ vnorm g) g.
Proof. exact (normals_R W H s s' tg b b'). Qed.
Print Assumptions C37_normals_are_gathered.

(** C37, exact arithmetic: unit length, except on the border of the domain. *)
Theorem C37_unit_normals W H (s s' : LevelSet R) tg b b' : reached W H s -> discretise s tg = Ok (s', b) -> computeNormalVectors s' b = Ok b' ->
  forall k p p', bd_points b !! k = Some p -> bd_points b' !! k = Some p' -> bp_domain p = false ->
  gathered (bp_coord p) (sources W H s' k) <> mkCoord 0 0 -> vnorm (bp_normal p') = 1.
Proof. exact (normals_unit W H s s' tg b b'). Qed.
Print Assumptions C37_unit_normals.

(** C37, exact arithmetic: on a plane a x + c y + d every normal inside the domain is the unit vector along (a, c): it
    points to the side where the signed distance grows. *)
Theorem C37_normals_of_a_plane W H (s s' : LevelSet R) b a c d : reached W H s -> discretise s false = Ok (s', b) ->
  off_contour W H (ls_sd s) -> clear_cuts W H (ls_sd s) ->
  (forall i k x y, adjacent W H i k -> ls_sd s !! i = Some x -> ls_sd s !! k = Some y -> 0 < x -> y < 0 -> active s i \/ active s k) ->
  (forall x y, (x <= W)%nat -> (y <= H)%nat -> ls_sd s !! node_id W x y = Some (a * INR x + c * INR y + d)) ->
  mkCoord a c <> mkCoord 0 0 ->
  exists b', computeNormalVectors s' b = Ok b' /\
    forall k p', bd_points b' !! k = Some p' -> bp_domain p' = false -> bp_normal p' = scale (/ vnorm (mkCoord a c)) (mkCoord a c).
Proof. intros H1 H2 H3 H4 H5 H6 H7. exact (plane_normals W H s s' b a c d H1 H2 H3 H4 H5 H6 H7). Qed.
Print Assumptions C37_normals_of_a_plane.

(** The hypotheses are met: x - 1/2 on a 2 by 2 mesh. *)
Example C37_plane_exists : exists s : LevelSet R, reached 2 2 s /\ off_contour 2 2 (ls_sd s) /\ clear_cuts 2 2 (ls_sd s) /\
  (forall i k x y, adjacent 2 2 i k -> ls_sd s !! i = Some x -> ls_sd s !! k = Some y -> 0 < x -> y < 0 -> active s i \/ active s k) /\
  (forall x y, (x <= 2)%nat -> (y <= 2)%nat -> ls_sd s !! node_id 2 x y = Some (1 * INR x + 0 * INR y + - / 2)).
Proof. exact plane_case. Qed.
(** Its points in double precision: one is inside the domain and has the normal (1, 0). *)
Example C37_plane_in_doubles :
  (let! (s', b) := plane64 in let! b' := computeNormalVectors s' b in
   Ok (map (fun p => (bp_domain p, at64 (bp_coord p) (d64 1 2) (d64 1 1), at64 (bp_normal p) (d64 1 1) (d64 0 1))) (bd_points b')))
  = Ok [(true, false, false); (false, true, true); (true, false, false)].
Proof. vm_compute. reflexivity. Qed.

(** C37 is false of points on the border of the domain: theirs have length 8. *)
Theorem C37_border_normals_refuted :
  (let! (s', b) := plane64 in let! b' := computeNormalVectors s' b in
   Ok (map (fun p => at64 (bp_normal p) (d64 8 1) (d64 0 1)) (filter (fun p => bp_domain p = true) (bd_points b')))) = Ok [true; true].
Proof. vm_compute. reflexivity. Qed.
Print Assumptions C37_border_normals_refuted.

(** C43: the callback is called twice, at the point moved along its normal by +delta and -delta; the point itself is
    returned as it was; the result is the central difference per unit length. *)
Theorem C43_two_calls_and_the_point_restored (T : Type) (NT : Num T) (S : Type) delta (cb : S -> BoundaryPoint T -> outcome (S * T)) st p r p' st' :
  computeSensitivity delta cb st p = Ok (r, p', st') ->
  p' = p /\ exists st1 f1 f2, cb st (ahead delta p) = Ok (st1, f1) /\ cb st1 (behind delta p) = Ok (st', f2) /\
    r = ((f1 - f2) / (nofZ 2 * delta) / bp_length p)%num.
Proof. exact (sens_calls delta cb st p r p' st'). Qed.
Print Assumptions C43_two_calls_and_the_point_restored.

(** C43: it fails only if the callback does. *)
Theorem C43_returns (T : Type) (NT : Num T) (S : Type) delta (cb : S -> BoundaryPoint T -> outcome (S * T)) st p st1 f1 st2 f2 :
  cb st (ahead delta p) = Ok (st1, f1) -> cb st1 (behind delta p) = Ok (st2, f2) -> exists r, computeSensitivity delta cb st p = Ok (r, p, st2).
Proof. intros E1 E2. exact (ex_intro _ _ (sens_returns delta cb st p st1 f1 st2 f2 E1 E2)). Qed.
Print Assumptions C43_returns.

(** C43, exact arithmetic: if the function is k0 + k1 t + k2 t^2 + k3 t^3 at distance t along the normal the result is
    (k1 + k3 delta^2) / length: its derivative per unit length if k3 = 0, otherwise k3 delta^2 / length away from it. *)
Theorem C43_exact_on_quadratics delta (g : BoundaryPoint R -> R) p k0 k1 k2 k3 : delta <> 0 ->
  (forall t, g (at_coord (vadd (bp_coord p) (scale t (bp_normal p))) p) = k0 + k1 * t + k2 * t ^ 2 + k3 * t ^ 3) ->
  computeSensitivity delta (fun (_ : unit) q => Ok (tt, g q)) tt p = Ok ((k1 + k3 * delta ^ 2) / bp_length p, p, tt).
Proof. exact (sens_cubic delta g p k0 k1 k2 k3). Qed.
Print Assumptions C43_exact_on_quadratics.
(** Met by the squared distance of the point from the origin. *)
Example C43_square p : let g q := cx (bp_coord q) ^ 2 + cy (bp_coord q) ^ 2 in forall t,
  g (at_coord (vadd (bp_coord p) (scale t (bp_normal p))) p) =
  (cx (bp_coord p) ^ 2 + cy (bp_coord p) ^ 2) + 2 * dot (bp_coord p) (bp_normal p) * t + (cx (bp_normal p) ^ 2 + cy (bp_normal p) ^ 2) * t ^ 2 + 0 * t ^ 3.
Proof. exact (square_case p). Qed.

(** C44: nothing happens at zero temperature. *)
Theorem C44_zero_temperature (T : Type) (NT : Num T) delta (b : Boundary T) s t : (t =? n0)%num = true -> itoCorrection delta b t = Ok b /\ itoCorrection_ls delta b s t = Ok b.
Proof. exact (ito_zero delta b s t). Qed.
Print Assumptions C44_zero_temperature.

(** C44, whatever the number type: only sensitivity 0 of each point changes. *)
Theorem C44_only_the_first_sensitivity (T : Type) (NT : Num T) delta (b b' : Boundary T) t : itoCorrection delta b t = Ok b' ->
  bd_segs b' = bd_segs b /\ bd_length b' = bd_length b /\ length (bd_points b') = length (bd_points b) /\
  forall k p p', bd_points b !! k = Some p -> bd_points b' !! k = Some p' ->
    exists l, p' = with_sens l p /\ length l = length (bp_sens p) /\ tail l = tail (bp_sens p).
Proof. exact (ito_only_first delta b b' t). Qed.
Print Assumptions C44_only_the_first_sensitivity.

(** C44, exact arithmetic: the change is - temperature * curvature / (2 length). *)
Theorem C44_correction delta (b b' : Boundary R) t : neighbours_ok b -> itoCorrection delta b t = Ok b' ->
  forall k p p', bd_points b !! k = Some p -> bd_points b' !! k = Some p' -> t <> 0 ->
  exists s0 rest, bp_sens p = s0 :: rest /\ p' = with_sens ((s0 - t * curvature delta b p / (2 * bp_length p)) :: rest) p.
Proof. exact (ito_R delta b b' t). Qed.
Print Assumptions C44_correction.

(** C44: the correction lowers the sensitivity of a point whose neighbours both lie behind it, raises it if both lie
    ahead and leaves it on a straight line. *)
Theorem C44_sign delta (b : Boundary R) p : 0 < delta -> 0 < bp_length p ->
  let qs := neighbour_coords b p in
  ((forall q, q ∈ qs -> 0 < dot (bp_normal p) (vsub (bp_coord p) q)) -> qs <> [] -> 0 < curvature delta b p) /\
  ((forall q, q ∈ qs -> dot (bp_normal p) (vsub (bp_coord p) q) < 0) -> qs <> [] -> curvature delta b p < 0) /\
  ((forall q, q ∈ qs -> dot (bp_normal p) (vsub (bp_coord p) q) = 0) -> curvature delta b p = 0).
Proof. exact (curvature_sign delta b p). Qed.
Print Assumptions C44_sign.

(** C44: after discretise both forms return if every point has a sensitivity; the form with a level set first renews the
    normals and nothing else. *)
Theorem C44_returns_after_discretise (T : Type) (NT : Num T) (NI : NumInt T) W H (s s' : LevelSet T) tg b b2 delta t : reached W H s -> discretise s tg = Ok (s', b) ->
  sens_set b b2 -> has_sens b2 ->
  neighbours_ok b2 /\ (exists b', itoCorrection delta b2 t = Ok b') /\
  ((t =? n0)%num = false -> exists b3 b4, computeNormalVectors s' b2 = Ok b3 /\ same_but_normals b2 b3 /\ neighbours_ok b3 /\
     itoCorrection delta b3 t = Ok b4 /\ itoCorrection_ls delta b2 s' t = Ok b4).
Proof. exact (ito_both W H s s' tg b b2 delta t). Qed.
Print Assumptions C44_returns_after_discretise.

(** Met by the points of the plane above with one sensitivity each; on that line the correction is zero, with a bump it is not. *)
Example C44_case :
  (let! (s', b) := plane64 in
   let b2 := mkBoundary (map (set_bp_sens [d64 3 1; d64 4 1]) (bd_points b)) (bd_segs b) (bd_length b) in
   let! b4 := itoCorrection_ls (d64 1 8) b2 s' (d64 1 1) in
   Ok (map (fun p => (bp_domain p, match bp_sens p with [x; y] => (x =? d64 3 1) && (y =? d64 4 1) | _ => false end)%num) (bd_points b4)))
  = Ok [(true, true); (false, true); (true, true)].
Proof. vm_compute. reflexivity. Qed.
Example C44_bump :
  (let! (s', b) := plane64 in
   let! b2 := computeNormalVectors s' b in
   let b3 := mkBoundary (map (fun p => set_bp_sens [d64 3 1] (if bp_domain p then p else set_bp_coord (mkCoord (d64 1 1) (d64 1 1)) p)) (bd_points b2)) (bd_segs b2) (bd_length b2) in
   let! b4 := itoCorrection (d64 1 8) b3 (d64 1 1) in
   Ok (map (fun p => (bp_domain p, match bp_sens p with [x] => (x <? d64 3 1) | _ => false end)%num) (bd_points b4)))
  = Ok [(true, false); (false, true); (true, false)].
Proof. vm_compute. reflexivity. Qed.

(** C44 needs the sensitivities: without one the correction is out of bounds. *)
Theorem C44_no_sensitivity_refuted : (let! (s', b) := plane64 in
  itoCorrection (d64 1 8) (mkBoundary (map (set_bp_sens []) (bd_points b)) (bd_segs b) (bd_length b)) (d64 1 1)) = UB.
Proof. vm_compute. reflexivity. Qed.
Print Assumptions C44_no_sensitivity_refuted.
