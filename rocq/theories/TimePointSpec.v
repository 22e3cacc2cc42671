(* Specification vocabulary for f64 bit patterns. *)
From Verif Require Import Rust.

(* 64 bits *)
Definition bits64 (b : Z) : Prop := 0 <= b < 2 ^ 64.
(* the exponent and the fraction of a bit pattern *)
Definition exponent (b : Z) : Z := b / 2 ^ 52 mod 2 ^ 11.
Definition fraction (b : Z) : Z := b mod 2 ^ 52.
Definition finite (b : Z) : Prop := exponent b <> 2047.
Definition nan (b : Z) : Prop := exponent b = 2047 /\ fraction b <> 0.
Definition plus_infinity : Z := 2047 * 2 ^ 52.
Definition minus_infinity : Z := 2 ^ 63 + 2047 * 2 ^ 52.
