(** f64 values as 64-bit patterns, with the IEEE 754 binary64 operations of the
    standard library's [SpecFloat] (no axioms). *)
From Coq Require Import List NArith ZArith Bool SpecFloat.
From Verif Require Import Base.
Import ListNotations.
Local Open Scope N_scope.

(** An f64 is its bit pattern ([f64::to_bits]), a number below 2^64. *)
(* f64 of gauge.rs:303-360, histogram.rs:18-59 and text.rs:133-146 *)
Definition f64 := N.

(** The three fields of the binary64 format. *)
(* std, used in text.rs:133-146 *)
Definition f_sign (x : f64) : bool := N.testbit x 63.
(* std, used in text.rs:133-146 *)
Definition f_exp (x : f64) : N := (x / 2 ^ 52) mod 2 ^ 11.
(* std, used in text.rs:133-146 *)
Definition f_mant (x : f64) : N := x mod 2 ^ 52.

(** [f64::is_nan], [f64::is_infinite], [f64::is_sign_positive]. *)
(* std, used in text.rs:133-146 *)
Definition f_is_nan (x : f64) : bool := (f_exp x =? 2047) && negb (f_mant x =? 0).
(* std, used in text.rs:133-146 *)
Definition f_is_infinite (x : f64) : bool := (f_exp x =? 2047) && (f_mant x =? 0).
(* std, used in text.rs:133-146 *)
Definition f_is_sign_positive (x : f64) : bool := negb (f_sign x).

(** [f64::INFINITY] *)
(* std, used in text.rs:254 and tokio/src/lib.rs:135-143 *)
Definition f_infinity : f64 := 9218868437227405312.

(** The number a bit pattern stands for. *)
(* std, used in gauge.rs:303-360, histogram.rs:103-147 and 157-172 *)
Definition f_decode (x : f64) : spec_float :=
  if f_exp x =? 2047 then
    if f_mant x =? 0 then S754_infinity (f_sign x) else S754_nan
  else
    let e := if f_exp x =? 0 then (-1074)%Z else (Z.of_N (f_exp x) - 1075)%Z in
    match (if f_exp x =? 0 then f_mant x else f_mant x + 2 ^ 52) with
    | 0 => S754_zero (f_sign x)
    | Npos m => S754_finite (f_sign x) m e
    end.

(** The bit pattern of a result.  Which NaN an operation produces is left open
    by Rust; we use the canonical quiet NaN.
    (std, used in gauge.rs:303-360, histogram.rs:103-147 and 157-172) *)
Definition f_nan : f64 := 9221120237041090560.
(* std, used in gauge.rs:303-360, histogram.rs:103-147 and 157-172 *)
Definition sign_bit (s : bool) : N := if s then 2 ^ 63 else 0.
(* std, used in gauge.rs:303-360, histogram.rs:103-147 and 157-172 *)
Definition f_encode (x : spec_float) : f64 :=
  match x with
  | S754_nan => f_nan
  | S754_zero s => sign_bit s
  | S754_infinity s => sign_bit s + 2047 * 2 ^ 52
  | S754_finite s m e =>
    if Npos m <? 2 ^ 52 then sign_bit s + Npos m
    else sign_bit s + Z.to_N (e + 1075) * 2 ^ 52 + (Npos m - 2 ^ 52)
  end.

(** Rust's [a + b], [a * b], [a - b], [a / b], [-a], [a > b], [a < b] on f64: round to nearest,
    ties to even; comparisons with NaN are false.  Negation flips the sign bit,
    also of a NaN. (std, used in gauge.rs:303-360, histogram.rs:103-147 and 157-172) *)
Definition f_add (a b : f64) : f64 := f_encode (SFadd 53 1024 (f_decode a) (f_decode b)).
(* std, used in gauge.rs:303-360, histogram.rs:103-147 and 157-172 *)
Definition f_mul (a b : f64) : f64 := f_encode (SFmul 53 1024 (f_decode a) (f_decode b)).
(* std, used in gauge.rs:303-360, histogram.rs:103-147 and 157-172 *)
Definition f_sub (a b : f64) : f64 := f_encode (SFsub 53 1024 (f_decode a) (f_decode b)).
(* std, used in gauge.rs:303-360, histogram.rs:103-147 and 157-172 *)
Definition f_div (a b : f64) : f64 := f_encode (SFdiv 53 1024 (f_decode a) (f_decode b)).
(* std, used in gauge.rs:303-360, histogram.rs:103-147 and 157-172 *)
Definition f_neg (a : f64) : f64 := N.lxor a (2 ^ 63).
(* std, used in gauge.rs:303-360, histogram.rs:103-147 and 157-172 *)
Definition f_cmp (a b : f64) : option comparison := SFcompare (f_decode a) (f_decode b).
(* std, used in gauge.rs:303-360, histogram.rs:103-147 and 157-172 *)
Definition f_lt (a b : f64) : bool := match f_cmp a b with Some Lt => true | _ => false end.
(* std, used in gauge.rs:303-360, histogram.rs:103-147 and 157-172 *)
Definition f_gt (a b : f64) : bool := match f_cmp a b with Some Gt => true | _ => false end.
(* std, used in gauge.rs:303-360, histogram.rs:103-147 and 157-172 *)
Definition f_le (a b : f64) : bool :=
  match f_cmp a b with Some Lt | Some Eq => true | _ => false end.

(** [x as f64] for an integer x. *)
(* std, used in histogram.rs:124-133 and by Duration::as_secs_f64 *)
Definition f_of_Z (x : Z) : f64 :=
  f_encode (match x with
            | Z0 => S754_zero false
            | Zpos p => binary_normalize 53 1024 (Zpos p) 0 false
            | Zneg p => binary_normalize 53 1024 (Zneg p) 0 false
            end).
