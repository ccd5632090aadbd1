(** * IOText: doubles as text and as bytes.

    Part of the trusted base: glibc's [printf] %lf prints the exact value rounded to six decimals, ties to even; the
    conversion behind [>>] (strtod) is correctly rounded; a value out of range gives the largest double and the fail bit
    (libstdc++). *)

From Coq Require Import Ascii String NArith ZArith Floats.SpecFloat.
From Flocq Require Import Core.Core IEEE754.BinarySingleNaN IEEE754.Bits.
From Verif Require Import IOModel NumF64.
Local Open Scope Z_scope.

(** n / d to the nearest integer, ties to even. *)
Definition nearest (n d : Z) : Z :=
  let q := n / d in let r := n mod d in
  if 2 * r <? d then q else if d <? 2 * r then q + 1 else if Z.even q then q else q + 1.
(** The magnitude m * 2^e in millionths, to the nearest. *)
Definition micros (m : positive) (e : Z) : N :=
  Z.to_N (if 0 <=? e then Zpos m * 2 ^ e * 1000000 else nearest (Zpos m * 1000000) (2 ^ (- e))).
(** Six digits after the point. *)
Definition show_micros (neg : bool) (z : N) : bytes :=
  (if neg then str "-" else []) ++ digits (z / 1000000) ++ str "." ++
  let d := digits (z mod 1000000) in replicate (6 - length d) (digit 0) ++ d.
Definition show_f64 (x : f64) : bytes :=
  match x with
  | B754_zero s => show_micros s 0
  | B754_finite s m e _ => show_micros s (micros m e)
  | B754_infinity s => (if s then str "-" else []) ++ str "inf"
  | B754_nan => str "nan"
  end.

(** m * 10^e, correctly rounded. *)
Definition quotient (neg : bool) (p q : positive) : f64 :=
  SF2B _ (proj1 (Bdiv_correct_aux 53 1024 _ _ mode_NE neg p 0 false q 0)).
Definition read_f64 (neg : bool) (m : N) (e : Z) : f64 * bool :=
  match m with
  | N0 => (B754_zero neg, true)
  | Npos p =>
      let x := if 0 <=? e then quotient neg (p * Z.to_pos (10 ^ e)) 1 else quotient neg p (Z.to_pos (10 ^ (- e))) in
      if is_finite x then (x, true) else (if neg then nneg nmaxDouble else nmaxDouble, false)
  end.
#[export] Instance TextF64 : Text f64 := { show := show_f64; read := read_f64; read_zero := B754_zero false }.

(** Little endian bytes of an integer. *)
Fixpoint little (k : nat) (z : Z) : bytes :=
  match k with O => [] | S k => ascii_of_N (Z.to_N (z mod 256)) :: little k (z / 256) end.
Fixpoint from_little (l : bytes) : Z :=
  match l with [] => 0 | c :: l => Z.of_N (N_of_ascii c) + 256 * from_little l end.
(** IEEE doubles with the payload of NaNs. *)
#[export] Instance Bytes64 : Bytes binary64 := { to_bytes x := little 8 (bits_of_b64 x); of_bytes l := b64_of_bits (from_little l) }.
(** Doubles with one NaN, which is written as the quiet NaN with an empty payload. *)
#[export] Instance BytesF64 : Bytes f64 := {
  to_bytes x := to_bytes (Binary.BSN2B 53 1024 Bits.default_nan_pl64 x : binary64);
  of_bytes l := Binary.B2BSN 53 1024 (of_bytes l : binary64) }.
