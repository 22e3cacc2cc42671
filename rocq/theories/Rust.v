(* Base layer: outcomes of Rust calls, machine integers, bytes, strings.
   Nothing here models a function of the repository; these are the meanings of
   the Rust primitives the repository uses. *)
From Coq Require Export List ZArith Lia Bool.
From Coq Require Import Ascii String.
Export ListNotations.
Open Scope Z_scope.

(* ------------------------------------------------------------------ *)
(** * Errors and outcomes *)

(* src/error.rs:12-37 (MonolithErr).  The String payloads of IoError and
   InternalErr and the foreign payloads of the serde/TiKV variants are dropped:
   no caller inspects them. *)
Inductive err : Type :=
| IoError
| OptionErr
| ParseErr
| NotFoundErr
| OutOfRangeErr (s e : Z)
| InternalErr
| SerdeJsonErr
| TiKvErr
| CompactionTypeDontMatch (expected found : Z)
| WalErr.

(* A Rust call that returns Result<A>: Ok, Err, or unwinding (panic). *)
Inductive res (A : Type) : Type :=
| Ok (a : A)
| Err (e : err)
| Panic.
Arguments Ok {A} a.
Arguments Err {A} e.
Arguments Panic {A}.

Definition rbind {A B} (m : res A) (k : A -> res B) : res B :=
  match m with Ok a => k a | Err e => Err e | Panic => Panic end.
Notation "'let*' x ':=' m 'in' k" := (rbind m (fun x => k))
  (at level 200, x pattern, right associativity, only parsing).

Definition rmap {A B} (f : A -> B) (m : res A) : res B :=
  match m with Ok a => Ok (f a) | Err e => Err e | Panic => Panic end.

(* Option::unwrap *)
Definition unwrap {A} (o : option A) : res A :=
  match o with Some a => Ok a | None => Panic end.

(* ------------------------------------------------------------------ *)
(** * Machine integers: values are Z, [dbg] = overflow checks enabled
    (Rust's dev/test profile); without them arithmetic wraps (release). *)

(* unsigned n-bit value of z *)
Definition wrapu (n z : Z) : Z := z mod 2 ^ n.
(* signed n-bit value of z (two's complement) *)
Definition wraps (n z : Z) : Z :=
  let m := z mod 2 ^ n in if m <? 2 ^ (n - 1) then m else m - 2 ^ n.

Definition in_u (n z : Z) : bool := (0 <=? z) && (z <? 2 ^ n).
Definition in_s (n z : Z) : bool := (- 2 ^ (n - 1) <=? z) && (z <? 2 ^ (n - 1)).

(* an unsigned (resp. signed) n-bit arithmetic operation with exact result z *)
Definition arith_u (dbg : bool) (n z : Z) : res Z :=
  if in_u n z then Ok z else if dbg then Panic else Ok (wrapu n z).
Definition arith_s (dbg : bool) (n z : Z) : res Z :=
  if in_s n z then Ok z else if dbg then Panic else Ok (wraps n z).

(* u8 << s and u8 >> s for a non-negative shift amount: a shift by 8 or more
   panics with overflow checks and masks the amount without. *)
Definition shl8 (dbg : bool) (x s : Z) : res Z :=
  if s <? 8 then Ok (wrapu 8 (Z.shiftl x s))
  else if dbg then Panic else Ok (wrapu 8 (Z.shiftl x (s mod 8))).
Definition shr8 (dbg : bool) (x s : Z) : res Z :=
  if s <? 8 then Ok (Z.shiftr x s)
  else if dbg then Panic else Ok (Z.shiftr x (s mod 8)).

(* u64 >> s *)
Definition shr64 (dbg : bool) (x s : Z) : res Z :=
  if s <? 64 then Ok (Z.shiftr x s)
  else if dbg then Panic else Ok (Z.shiftr x (s mod 64)).

(* u64::trailing_zeros / leading_zeros *)
Fixpoint ctz_fuel (n : nat) (x : Z) : Z :=
  match n with
  | O => 0
  | S n' => if Z.odd x then 0 else 1 + ctz_fuel n' (Z.div2 x)
  end.
Definition trailing_zeros64 (x : Z) : Z := ctz_fuel 64 x.
Definition leading_zeros64 (x : Z) : Z :=
  if x =? 0 then 64 else 63 - Z.log2 x.

(* ------------------------------------------------------------------ *)
(** * Bytes and strings *)

Notation byte := Z (only parsing).
Notation bytes := (list Z) (only parsing).

Definition is_byte (b : Z) : Prop := 0 <= b < 256.
Definition is_byteb (b : Z) : bool := (0 <=? b) && (b <? 256).

(* uN::to_be_bytes on n bytes, and from_be_bytes *)
Fixpoint be_bytes (n : nat) (z : Z) : bytes :=
  match n with
  | O => []
  | S n' => (z / 256 ^ Z.of_nat n') mod 256 :: be_bytes n' z
  end.
Definition from_be (bs : bytes) : Z := fold_left (fun acc b => acc * 256 + b) bs 0.

(* list equality on bytes, as str/[u8] equality *)
Fixpoint bytes_eqb (a b : bytes) : bool :=
  match a, b with
  | [], [] => true
  | x :: a', y :: b' => (x =? y) && bytes_eqb a' b'
  | _, _ => false
  end.

(* string literals as byte lists (ASCII) *)
Fixpoint s2b (s : string) : bytes :=
  match s with
  | EmptyString => []
  | String c s' => Z.of_N (N_of_ascii c) :: s2b s'
  end.

(* decimal and hexadecimal printing of a non-negative number (Display, {:x}) *)
Definition digit_char (d : Z) : Z := if d <? 10 then 48 + d else 87 + d.
Fixpoint to_radix_fuel (n : nat) (r z : Z) (acc : bytes) : bytes :=
  match n with
  | O => acc
  | S n' =>
      let acc' := digit_char (z mod r) :: acc in
      if z / r =? 0 then acc' else to_radix_fuel n' r (z / r) acc'
  end.
(* 129 steps are enough for every u128 in every radix >= 2 *)
Definition to_radix (r z : Z) : bytes := to_radix_fuel 129 r z [].
Arguments to_radix : simpl never.
Definition to_dec (z : Z) : bytes := to_radix 10 z.
Definition to_hex (z : Z) : bytes := to_radix 16 z.
Arguments to_dec : simpl never.
Arguments to_hex : simpl never.

(* char::to_digit *)
Definition char_digit (r c : Z) : option Z :=
  let d :=
    if (48 <=? c) && (c <=? 57) then Some (c - 48)
    else if (97 <=? c) && (c <=? 122) then Some (c - 87)
    else if (65 <=? c) && (c <=? 90) then Some (c - 55)
    else None in
  match d with
  | Some v => if v <? r then Some v else None
  | None => None
  end.

Fixpoint parse_digits (r max acc : Z) (s : bytes) : option Z :=
  match s with
  | [] => Some acc
  | c :: s' =>
      match char_digit r c with
      | None => None
      | Some d =>
          let v := acc * r + d in
          if v <=? max then parse_digits r max v s' else None
      end
  end.

(* uN::from_str_radix (core/num/mod.rs, Rust 1.4x): empty is an error, one leading '+'
   is skipped unless it is the whole string, overflow is an error.  A leading '-' is
   not skipped for an unsigned type and is not a digit, so it is an error. *)
Definition parse_u (n r : Z) (s : bytes) : option Z :=
  match s with
  | [] => None
  | c :: s' =>
      if c =? 43
      then match s' with [] => None | _ => parse_digits r (2 ^ n - 1) 0 s' end
      else parse_digits r (2 ^ n - 1) 0 s
  end.

(* str::split(c) for a single character *)
Fixpoint split_on (c : Z) (s : bytes) : list bytes :=
  match s with
  | [] => [[]]
  | x :: s' =>
      if x =? c then [] :: split_on c s'
      else match split_on c s' with
           | [] => [[x]]
           | w :: ws => (x :: w) :: ws
           end
  end.

(* str::find(c), byte offset *)
Fixpoint find_char (c : Z) (s : bytes) : option nat :=
  match s with
  | [] => None
  | x :: s' => if x =? c then Some O else option_map S (find_char c s')
  end.

Definition concat_bytes (l : list bytes) : bytes := List.concat l.
