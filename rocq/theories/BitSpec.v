(* Specification vocabulary for bit streams: the bits a byte vector holds, most
   significant bit first.  Independent of the Bstream implementation. *)
From Verif Require Import Rust Bstream.

(* the 8 bits of a byte, most significant first *)
Definition byte_bits (b : Z) : list bool :=
  [Z.testbit b 7; Z.testbit b 6; Z.testbit b 5; Z.testbit b 4;
   Z.testbit b 3; Z.testbit b 2; Z.testbit b 1; Z.testbit b 0].

Definition raw_bits (d : bytes) : list bool := flat_map byte_bits d.

(* the stream [b] is well formed and its content is the bit list [xs]: its bytes spell xs
   followed by `remaining` (< 8) zero bits *)
Definition holds (b : bstream) (xs : list bool) : Prop :=
  Forall is_byte (bs_data b) /\ 0 <= bs_rem b < 8 /\
  raw_bits (bs_data b) = xs ++ repeat false (Z.to_nat (bs_rem b)).

Definition wf_bs (b : bstream) : Prop := exists xs, holds b xs.

(* n-bit big-endian binary notation of z (two's complement for negative z) *)
Fixpoint zbits (n : nat) (z : Z) : list bool :=
  match n with
  | O => []
  | S n' => Z.testbit z (Z.of_nat n') :: zbits n' z
  end.

(* the number a bit list denotes, most significant bit first *)
Definition bval (l : list bool) : Z :=
  fold_left (fun acc (b : bool) => 2 * acc + (if b then 1 else 0)) l 0.

(* operations a client of a bit stream may issue *)
Inductive bop :=
| OWrite (b : bool)                      (* write one bit *)
| OBytes (l : bytes)                     (* append whole bytes *)
| OPart (x : Z) (unused : Z)             (* append one byte of which `unused` low bits are free *)
| OBits (v n : Z)                        (* write the low n bits of v *)
| ODelta (d n : Z).                      (* append the low n bits of a time delta *)

(* the bits each operation asks for *)
Definition bop_bits (o : bop) : list bool :=
  match o with
  | OWrite b => [b]
  | OBytes l => raw_bits l
  | OPart x u => firstn (8 - Z.to_nat u) (byte_bits x)
  | OBits v n => zbits (Z.to_nat n) v
  (* any other width is ignored *)
  | ODelta d n => if existsb (Z.eqb n) [8; 16; 32; 64] then zbits (Z.to_nat n) d else []
  end.

(* legal arguments: bytes are bytes, free bits are zero, 1..64 bits of a u64, any i64 and width *)
Definition bop_ok (o : bop) : Prop :=
  match o with
  | OWrite _ => True
  | OBytes l => Forall is_byte l
  | OPart x u => is_byte x /\ 0 <= u < 8 /\ x mod 2 ^ u = 0
  | OBits v n => 0 <= v < 2 ^ 64 /\ 1 <= n <= 64
  | ODelta d n => - 2 ^ 63 <= d < 2 ^ 63 /\ 0 <= n < 256
  end.

Definition bop_run (dbg : bool) (s : bstream) (o : bop) : res bstream :=
  match o with
  | OWrite b => bs_write dbg s b
  | OBytes l => bs_append_bytes dbg s l 0
  | OPart x u => bs_append_bytes dbg s [x] u
  | OBits v n => bs_write_bits dbg s v n
  | ODelta d n => bs_append_timestamp_delta dbg s d n
  end.

Fixpoint bops_run (dbg : bool) (s : bstream) (os : list bop) : res bstream :=
  match os with
  | [] => Ok s
  | o :: os' => let* s' := bop_run dbg s o in bops_run dbg s' os'
  end.

(* number of bits a read of n bits at cursor c of content xs can deliver *)
Definition avail (xs : list bool) (c n : Z) : Z := Z.min n (zlen xs - c).
(* number of bytes that hold n bits *)
Definition nbytes (n : Z) : nat := Z.to_nat ((n + 7) / 8).

(* Exactly which pairs of streams `append` concatenates correctly: the first has no free
   bits, or the second is at most one byte, or together they have fewer than 8 free bits,
   or one of the (accidental) pairs whose free bits differ by their sum modulo 8. *)
Definition append_domain (s b : bstream) : Prop :=
  bs_rem s = 0 \/ (length (bs_data b) <= 1)%nat \/ bs_rem s + bs_rem b < 8 \/
  (bs_rem s + bs_rem b > 8 /\ (bs_rem s = 4 \/ bs_rem b = 4)).
