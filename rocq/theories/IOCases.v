(** * IOCases: the statements of PropIO spelled out, and concrete files. *)

From Coq Require Import Reals Ascii String NArith ZArith Lra Lia Floats.SpecFloat.
From Flocq Require Import Core.Core IEEE754.BinarySingleNaN IEEE754.Bits.
From Verif Require Import IOModel IOText IODigits IOBin IORead IOFiles IOSpec Num NumF64 NumInt LevelSetCalls LevelSetHist LevelSetSpec MeshSpec MeshTopo.
Local Open Scope nat_scope.

(** x to the nearest millionth: z millionths, at most half a millionth away. *)
Definition to_six_decimals (x : R) (z : Z) : Prop := (Rabs (IZR z / 1000000 - x) <= / 2000000)%R.

Lemma txt_nodes W H fs name (s s2 : LevelSet f64) isXY : reached W H s -> reached W H s2 -> fs_writable fs name = true ->
  Forall (fun x => is_finite x = true) (ls_sd s) -> Forall (fun x => is_finite x = true) (ls_vel s) -> Forall (fun x => is_finite x = true) (ls_grad s) ->
  exists fs' sd, saveLevelSetTXT fs name s isXY = Ok fs' /\ loadLevelSetTXT fs' name s2 isXY = Ok (set_sd sd s2) /\ length sd = length (ls_sd s) /\
    forall i x, ls_sd s !! i = Some x -> exists y z, sd !! i = Some y /\ is_finite y = true /\ to_six_decimals (B2R x) z /\ B2R y = nearest_double (IZR z / 1000000) /\
      (Rabs (B2R x) < bpow radix2 32 -> show y = show x)%R.
Proof.
  intros H1 H2 H3 H4 H5 H6. destruct (txt_roundtrip W H fs name s s2 isXY H1 H2 H3 H4 H5 H6) as (fs' & A & _ & B). exists fs', (map trip (ls_sd s)).
  split; [exact A|]. split; [exact B|]. split; [apply map_length|]. intros i x Hx. assert (Fx : is_finite x = true) by (rewrite Forall_lookup in H4; exact (H4 i x Hx)).
  exists (trip x), (if sign_of x then - Z.of_N (micros_of x) else Z.of_N (micros_of x))%Z.
  assert (P : (IZR (if sign_of x then - Z.of_N (micros_of x) else Z.of_N (micros_of x)) / 1000000 = printed x)%R).
  { unfold printed, micro. destruct (sign_of x); rewrite ?opp_IZR; field. }
  destruct (read_back x Fx) as (_ & F2 & V). split; [refine (eq_trans (list_lookup_fmap trip (ls_sd s) i) _); exact (f_equal (option_map trip) Hx)|].
  split; [exact F2|]. split; [unfold to_six_decimals; rewrite P; pose proof (printed_close x Fx) as C; unfold micro in C; lra|].
  split; [rewrite P; exact V|]. intros Hb. exact (proj1 (trip_stable x Fx Hb)).
Qed.

Lemma load_reached {T} {NT : Num T} {NI : NumInt T} {TT : Text T} W H fs name (s s' : LevelSet T) isXY : reached W H s -> loadLevelSetTXT fs name s isXY = Ok s' -> reached W H s'.
Proof.
  intros (ml & bw & fx & s0 & F & C & R) E. pose proof (txt_any fs name s isXY) as X. rewrite E in X. destruct X as (sd & text & _ & -> & L & _).
  exists ml, bw, fx, s0. split; [exact F|]. split; [exact C|]. eapply rtc_r; [exact R|]. apply c_write_sd, L.
Qed.

(** Any two files of different kinds or data points. *)
Lemma other_file_kept fs fs' name name' (P : bytes -> Prop) o : saved fs name P o -> o = Ok fs' -> name' <> name -> fs_file fs' name' = fs_file fs name'.
Proof.
  unfold saved. destruct (fs_writable fs name); [|intros ->; discriminate]. intros (fs2 & t & -> & _ & _ & K & _) E Hn. injection E as <-. exact (K _ Hn).
Qed.

Definition no_files : FS := mkFS (fun _ => None) (fun _ => true).
Definition i64 (p q : Z) : f64 := nlit p q.
Definition small : outcome (LevelSet f64) := ls_new_holes 1 1 [] (i64 1 2) 3 false.
(** Equal as doubles, node by node. *)
Definition same64 (a b : list f64) : bool := (length a =? length b)%nat && forallb (fun p => neqb (fst p) (snd p)) (combine a b).
