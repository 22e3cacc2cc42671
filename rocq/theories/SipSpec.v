(* Specification vocabulary: SipHash-1-3 as its authors define it (Aumasson and Bernstein, "SipHash: a fast short-input PRF"),
   with both keys 0; nothing of the model. *)
From Coq Require Import String.
From Verif Require Import Rust.
Local Notation length := List.length.

(* words of 64 bits: sum and rotation to the left *)
Definition plus64 (x y : Z) : Z := (x + y) mod 2 ^ 64.
Definition rotl (x n : Z) : Z := (x * 2 ^ n) mod 2 ^ 64 + x / 2 ^ (64 - n).
(* one SipRound *)
Definition sipround (v : Z * Z * Z * Z) : Z * Z * Z * Z :=
  let '(v0, v1, v2, v3) := v in
  let v0 := plus64 v0 v1 in let v2 := plus64 v2 v3 in
  let v1 := rotl v1 13 in let v3 := rotl v3 16 in
  let v1 := Z.lxor v1 v0 in let v3 := Z.lxor v3 v2 in
  let v0 := rotl v0 32 in
  let v2 := plus64 v2 v1 in let v0 := plus64 v0 v3 in
  let v1 := rotl v1 17 in let v3 := rotl v3 21 in
  let v1 := Z.lxor v1 v2 in let v3 := Z.lxor v3 v0 in
  let v2 := rotl v2 32 in
  (v0, v1, v2, v3).
(* the message, filled up with zeros and ended by its length modulo 256, as little-endian words *)
Definition padded (b : bytes) : bytes := b ++ repeat 0 (7 - length b mod 8) ++ [Z.of_nat (length b) mod 256].
Definition word (b : bytes) (i : nat) : Z :=
  fold_right (fun j s => nth (8 * i + j) b 0 * 256 ^ Z.of_nat j + s) 0 (seq 0 8).
Definition message (b : bytes) : list Z := map (word (padded b)) (seq 0 (length (padded b) / 8)).
Definition compress (v : Z * Z * Z * Z) (m : Z) : Z * Z * Z * Z :=
  let '(v0, v1, v2, v3) := v in
  let '(v0, v1, v2, v3) := sipround (v0, v1, v2, Z.lxor v3 m) in
  (Z.lxor v0 m, v1, v2, v3).
Definition siphash13 (b : bytes) : Z :=
  let start := (from_be (s2b "somepseu"), from_be (s2b "dorandom"), from_be (s2b "lygenera"), from_be (s2b "tedbytes")) in
  let '(v0, v1, v2, v3) := fold_left compress (message b) start in
  let '(v0, v1, v2, v3) := sipround (sipround (sipround (v0, v1, Z.lxor v2 255, v3))) in
  Z.lxor (Z.lxor v0 v1) (Z.lxor v2 v3).
