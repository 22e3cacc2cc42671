(* Model of the comparisons of time points: src/common/time_point.rs. *)
From Coq Require Import SpecFloat.
From Verif Require Import Rust Gorilla.

(* an f64 from its bits (IEEE 754 binary64; f64::from_bits).  NaN payloads are dropped. *)
Definition f64_of (b : Z) : spec_float :=
  let s := b / 2 ^ 63 mod 2 =? 1 in
  let e := b / 2 ^ 52 mod 2 ^ 11 in
  let m := b mod 2 ^ 52 in
  if e =? 2047 then (if m =? 0 then S754_infinity s else S754_nan)
  else if e =? 0 then match m with Zpos p => S754_finite s p (-1074) | _ => S754_zero s end
  else match m + 2 ^ 52 with Zpos p => S754_finite s p (e - 1075) | _ => S754_nan end.

(* `-` and `<` on f64: rounded to nearest, ties to even; every comparison with NaN is false *)
Definition f64_sub : spec_float -> spec_float -> spec_float := SFsub 53 1024.
Definition f64_lt : spec_float -> spec_float -> bool := SFltb.

(* src/common/time_point.rs:5 F64_MARGIN: the bits of the literal 0.000000001 *)
Definition F64_MARGIN : Z := 4472406533629990549.

(* src/common/time_point.rs:22-27 PartialEq::eq *)
Definition tp_eq (a b : tp) : bool :=
  (tp_ts a =? tp_ts b) &&
  (f64_lt (f64_sub (f64_of (tp_val a)) (f64_of (tp_val b))) (f64_of F64_MARGIN) ||
   f64_lt (f64_sub (f64_of (tp_val b)) (f64_of (tp_val a))) (f64_of F64_MARGIN)).
(* src/common/time_point.rs:29-39 Ord::cmp, PartialOrd::partial_cmp *)
Definition tp_cmp (a b : tp) : comparison := tp_ts a ?= tp_ts b.
