(** * IOBin: binary files. *)

From Coq Require Import Ascii String NArith ZArith Lia.
From Flocq Require Import IEEE754.Bits.
From Verif Require Import IOModel IOText NumF64.
Local Open Scope nat_scope.

(** The bytes of a double: eight, and they determine it. *)
Class BytesLaws (T : Type) {BT : Bytes T} := {
  bytes_length : forall x : T, length (to_bytes x) = 8;
  bytes_back : forall x : T, of_bytes (to_bytes x) = x
}.

Lemma little_length k : forall z, length (little k z) = k.
Proof. induction k as [|k IH]; intros z; cbn; [reflexivity|]. rewrite IH. reflexivity. Qed.
Lemma little_back k : forall z, (0 <= z < 256 ^ Z.of_nat k)%Z -> from_little (little k z) = z.
Proof.
  induction k as [|k IH]; intros z Hz; cbn [little from_little].
  - cbn in Hz. lia.
  - rewrite Nat2Z.inj_succ, Z.pow_succ_r in Hz by lia. pose proof (Z.mod_pos_bound z 256 ltac:(lia)) as M.
    rewrite N_ascii_embedding by lia. rewrite Z2N.id by lia. rewrite IH; [pose proof (Z.div_mod z 256); lia|].
    split; [apply Z.div_pos; lia|apply Z.div_lt_upper_bound; lia].
Qed.
#[export] Instance Bytes64Laws : BytesLaws binary64.
Proof.
  constructor.
  - intros x. apply little_length.
  - intros x. cbn [to_bytes of_bytes Bytes64]. rewrite little_back.
    + exact (binary_float_of_bits_of_binary_float 52 11 eq_refl eq_refl eq_refl x).
    + pose proof (bits_of_binary_float_range 52 11 eq_refl eq_refl x) as X. exact X.
Qed.
#[export] Instance BytesF64Laws : BytesLaws f64.
Proof.
  constructor; intros x; cbn [to_bytes of_bytes BytesF64].
  - apply (bytes_length (T := binary64)).
  - rewrite (bytes_back (T := binary64)). apply Binary.B2BSN_BSN2B.
Qed.

Section Binary.
  Context {T : Type} {BT : Bytes T} {BL : BytesLaws T}.

  Lemma memory_length (v : list T) : length (memory v) = 8 * length v.
  Proof. unfold memory. induction v as [|x v IH]; cbn [map concat length]; [reflexivity|]. rewrite app_length, bytes_length, IH. lia. Qed.
  Lemma numbers_memory (v : list T) l : numbers (length v) (memory v ++ l) = v.
  Proof.
    unfold memory. induction v as [|x v IH]; cbn [map concat length numbers]; [reflexivity|]. rewrite <- app_assoc.
    rewrite take_app_alt, drop_app_alt by (symmetry; apply bytes_length). rewrite bytes_back, IH. reflexivity.
  Qed.
  Lemma numbers_length n m : length (numbers (T := T) n m) = n.
  Proof. revert m. induction n as [|n IH]; intros m; cbn; [reflexivity|]. rewrite IH. reflexivity. Qed.
  Lemma numbers_lookup n : forall i m, i < n -> numbers (T := T) n m !! i = Some (of_bytes (take 8 (drop (8 * i) m))).
  Proof.
    induction n as [|n IH]; intros i m Hi; [lia|]. cbn [numbers]. destruct i as [|i]; [rewrite Nat.mul_0_r, drop_0; reflexivity|].
    cbn [lookup list_lookup]. change (list_lookup i ?l) with (l !! i). rewrite IH by lia. rewrite drop_drop. do 4 f_equal. lia.
  Qed.
  Lemma memory_at (v : list T) i x : v !! i = Some x -> take 8 (drop (8 * i) (memory v)) = to_bytes x.
  Proof.
    revert i. induction v as [|y v IH]; intros i Hi; [discriminate|]. unfold memory. cbn [map concat]. destruct i as [|i].
    - injection Hi as ->. rewrite Nat.mul_0_r, drop_0. apply take_app_alt. symmetry. apply bytes_length.
    - cbn [lookup list_lookup] in Hi. rewrite drop_app_ge by (rewrite bytes_length; lia). rewrite bytes_length.
      replace (8 * S i - 8) with (8 * i) by lia. apply IH, Hi.
  Qed.

  Theorem bin_saved fs name (s : LevelSet T) : m_nNodes (ls_mesh s) = length (ls_sd s) ->
    saveLevelSetBIN fs name s = if fs_writable fs name then Ok (fs_write fs name (memory (ls_sd s))) else Exit.
  Proof.
    intros En. unfold saveLevelSetBIN, save. destruct (fs_writable fs name); cbn [check obind]; [|reflexivity].
    rewrite En, Nat.leb_refl. cbn [obind]. rewrite take_ge; [reflexivity|]. rewrite memory_length. lia.
  Qed.

  Theorem bin_loaded fs name (s : LevelSet T) content : m_nNodes (ls_mesh s) = length (ls_sd s) -> fs_file fs name = Some content ->
    exists sd, loadLevelSetBIN fs name s = Ok (set_sd sd s) /\ length sd = length (ls_sd s) /\
      forall i x, ls_sd s !! i = Some x ->
        (8 * i + 8 <= length content -> sd !! i = Some (of_bytes (take 8 (drop (8 * i) content)))) /\
        (length content <= 8 * i -> sd !! i = Some x).
  Proof.
    intros En Ef. unfold loadLevelSetBIN. rewrite Ef, En. set (data := take _ content). set (m := memory (ls_sd s)).
    assert (Lm : length m = 8 * length (ls_sd s)) by apply memory_length.
    assert (Ld : length data = Nat.min (8 * length (ls_sd s)) (length content)) by apply take_length.
    destruct (Nat.leb_spec (length data) (length m)) as [L|L]; [|lia].
    eexists. split; [reflexivity|]. split; [apply numbers_length|]. intros i x Hx. pose proof (lookup_lt_Some _ _ _ Hx) as Hi.
    rewrite numbers_lookup by exact Hi. split; intros Hl; f_equal.
    - f_equal. unfold data. rewrite drop_app_le by (fold data; lia). rewrite take_app_le by (rewrite drop_length; fold data; lia).
      rewrite skipn_firstn_comm, take_take. f_equal. lia.
    - rewrite drop_app_ge by lia. rewrite drop_drop. replace (length data + (8 * i - length data)) with (8 * i) by lia.
      unfold m. rewrite (memory_at _ _ _ Hx). apply bytes_back.
  Qed.

  Theorem bin_roundtrip fs name (s s2 : LevelSet T) : m_nNodes (ls_mesh s) = length (ls_sd s) -> m_nNodes (ls_mesh s2) = length (ls_sd s2) ->
    length (ls_sd s2) = length (ls_sd s) -> fs_writable fs name = true ->
    exists fs', saveLevelSetBIN fs name s = Ok fs' /\ (forall n, n <> name -> fs_file fs' n = fs_file fs n) /\
      loadLevelSetBIN fs' name s2 = Ok (set_sd (ls_sd s) s2).
  Proof.
    intros E1 E2 El Hw. rewrite (bin_saved fs name s E1), Hw. eexists. split; [reflexivity|].
    assert (Q : forall n, bytes_eqb n name = true <-> n = name).
    { intros n. unfold bytes_eqb. destruct (List.list_eq_dec ascii_dec n name); split; congruence. }
    split.
    - intros n Hn. cbn [fs_write fs_file]. destruct (bytes_eqb n name) eqn:E; [|reflexivity]. apply Q in E. contradiction.
    - unfold loadLevelSetBIN. cbn [fs_write fs_file]. rewrite (proj2 (Q name) eq_refl), E2, El.
      rewrite take_ge by (rewrite memory_length; lia). rewrite !memory_length, El, Nat.leb_refl. rewrite numbers_memory. reflexivity.
  Qed.
End Binary.
