(* Model of src/compaction/mod.rs:183-430 (Bstream, BstreamSeeker). *)
From Verif Require Import Rust.

(* src/compaction/mod.rs:190-194.  usize is 64 bits. *)
Record bstream := mkBs { bs_data : bytes; bs_rem : Z }.

(* src/compaction/mod.rs:197-202 *)
Definition bs_new : bstream := mkBs [] 0.

(* src/compaction/mod.rs:212-215: pop the last byte as `remaining` (0 if there is none) *)
Definition bs_from_bytes (data : bytes) : bstream :=
  match data with
  | [] => mkBs [] 0
  | _ => mkBs (removelast data) (last data 0)
  end.

(* data.last_mut().unwrap() with an update function *)
Definition upd_last (f : Z -> Z) (l : bytes) : res bytes :=
  match l with
  | [] => Panic
  | _ => Ok (removelast l ++ [f (last l 0)])
  end.

Definition zlen {A} (l : list A) : Z := Z.of_nat (length l).

(* src/compaction/mod.rs:218-233.  The shift is of an i32-free u8 literal by
   `remaining` after the decrement. *)
Definition bs_write (dbg : bool) (b : bstream) (bit : bool) : res bstream :=
  if bs_rem b =? 0 then
    Ok (mkBs (bs_data b ++ [if bit then 128 else 0]) 7)
  else
    let rem' := bs_rem b - 1 in
    if bit then
      let* m := shl8 dbg 1 rem' in
      let* d := upd_last (fun x => Z.lor x m) (bs_data b) in
      Ok (mkBs d rem')
    else Ok (mkBs (bs_data b) rem').

(* src/compaction/mod.rs:236-238; usize arithmetic.  The subtraction can underflow.
   Simplification: len * 8 is taken not to overflow (no Vec holds 2^61 bytes). *)
Definition bs_bitlen (dbg : bool) (b : bstream) : res Z :=
  let z := zlen (bs_data b) * 8 - bs_rem b in
  if 0 <=? z then Ok z else if dbg then Panic else Ok (wrapu 64 z).

(* the `for i in 0..(bstream.data.len() - 1)` loop, src/compaction/mod.rs:261-268:
   [l] is bstream.data, [rem] self.remaining, [out] self.data *)
Fixpoint append_loop (dbg : bool) (rem : Z) (l : bytes) (out : bytes) : res bytes :=
  match l with
  | x :: ((y :: _) as l') =>
      let* first := shl8 dbg x rem in
      let* sh := arith_u dbg 8 (8 - rem) in
      let* second := shr8 dbg y sh in
      append_loop dbg rem l' (out ++ [Z.lor first second])
  | _ => Ok out
  end.

(* i8 value of a u8, then difference and abs as u8, src/compaction/mod.rs:276 *)
Definition abs_diff_i8 (dbg : bool) (a b : Z) : res Z :=
  let* d := arith_s dbg 8 (wraps 8 a - wraps 8 b) in
  let* ab := arith_s dbg 8 (Z.abs d) in
  Ok (wrapu 8 ab).

(* src/compaction/mod.rs:241-283 *)
Definition bs_append (dbg : bool) (s b : bstream) : res bstream :=
  let* blen := bs_bitlen dbg b in
  if blen =? 0 then Ok s
  else if negb (bs_rem s =? 0) then
    let* b0 := unwrap (nth_error (bs_data b) 0) in
    let* sh := arith_u dbg 8 (8 - bs_rem s) in
    let* m := shr8 dbg b0 sh in
    let* d := upd_last (fun x => Z.lor x m) (bs_data s) in
    if blen <=? bs_rem s then
      Ok (mkBs d (bs_rem s - wrapu 8 blen))
    else
      let* d2 := append_loop dbg (bs_rem s) (bs_data b) d in
      let* cap := arith_u dbg 8 (8 - bs_rem b) in
      if bs_rem s <=? cap then
        let* l := shl8 dbg (last (bs_data b) 0) (bs_rem s) in
        let* r := arith_u dbg 8 (bs_rem b + bs_rem s) in
        Ok (mkBs (d2 ++ [l]) r)
      else
        let* r := abs_diff_i8 dbg (bs_rem b) (bs_rem s) in
        Ok (mkBs d2 r)
  else
    Ok (mkBs (bs_data s ++ bs_data b) (bs_rem b)).

(* src/compaction/mod.rs:285-291 *)
Definition bs_append_bytes (dbg : bool) (s : bstream) (bs : bytes) (rem : Z) : res bstream :=
  if (rem <=? 8) && (0 <=? rem) then bs_append dbg s (mkBs bs rem) else Panic.

(* src/compaction/mod.rs:298-318 *)
Definition bs_append_timestamp_delta (dbg : bool) (s : bstream) (delta bits : Z) : res bstream :=
  if bits =? 8 then bs_append_bytes dbg s (be_bytes 1 (wrapu 8 delta)) 0
  else if bits =? 16 then bs_append_bytes dbg s (be_bytes 2 (wrapu 16 delta)) 0
  else if bits =? 32 then bs_append_bytes dbg s (be_bytes 4 (wrapu 32 delta)) 0
  else if bits =? 64 then bs_append_bytes dbg s (be_bytes 8 (wrapu 64 delta)) 0
  else Ok s.

(* src/compaction/mod.rs:323-328; [v] is the u64 whose big-endian bytes are passed.
   Slicing bytes[(leading/8+1)..8] panics when the start exceeds 8. *)
Definition bs_write_bits (dbg : bool) (s : bstream) (v nbits : Z) : res bstream :=
  let bs := be_bytes 8 v in
  let* leading := arith_u dbg 8 (64 - nbits) in
  let i := Z.to_nat (leading / 8) in
  let* x := unwrap (nth_error bs i) in
  let* val := shl8 dbg x (leading mod 8) in
  let* s1 := bs_append_bytes dbg s [val] (leading mod 8) in
  if (8 <? S i)%nat then Panic
  else bs_append_bytes dbg s1 (skipn (S i) bs) 0.

(* src/compaction/mod.rs:330-336 *)
Definition bs_write_one (dbg : bool) (s : bstream) : res bstream := bs_write dbg s true.
Definition bs_write_zero (dbg : bool) (s : bstream) : res bstream := bs_write dbg s false.

(* src/compaction/mod.rs:339-347, first component only: the callers ignore the second *)
Definition bs_read_byte (b : bstream) (idx : Z) : option Z :=
  if idx <? zlen (bs_data b) then nth_error (bs_data b) (Z.to_nat idx) else None.

(* src/compaction/mod.rs:354-358 *)
Definition bs_as_bytes_vec (b : bstream) : bytes := bs_data b ++ [bs_rem b].

(* src/compaction/mod.rs:361-374 *)
Record seeker := mkSk { sk_data : bstream; sk_cursor : Z }.
Definition sk_new (b : bstream) : seeker := mkSk b 0.

(* data[i] = v on a slice: panics out of bounds *)
Fixpoint set_nth (l : bytes) (i : nat) (v : Z) : res bytes :=
  match l, i with
  | [], _ => Panic
  | _ :: l', O => Ok (v :: l')
  | x :: l', S i' => let* r := set_nth l' i' v in Ok (x :: r)
  end.

(* loop body, src/compaction/mod.rs:392-404 *)
Definition read_one (b : bstream) (cursor cur : Z) : res Z :=
  let leading := cursor mod 8 in
  let* first := unwrap (bs_read_byte b (cursor / 8 + cur)) in
  let first := wrapu 8 (Z.shiftl (Z.land first (Z.shiftr 255 leading)) leading) in
  let second := match bs_read_byte b (cursor / 8 + cur + 1) with
                | Some x => x | None => 0 end in
  (* checked_shr(8 - leading).unwrap_or(0): None exactly when the amount is 8 *)
  let second' := if leading =? 0 then 0 else Z.shiftr second (8 - leading) in
  Ok (Z.lor first second').

(* while cur * 8 < n, src/compaction/mod.rs:391-404; [k] bounds the iterations
   (ceil(n/8) are needed), running out of it is reported as Panic *)
Fixpoint read_loop (k : nat) (b : bstream) (cursor n cur : Z) (buf : bytes) : res (Z * bytes) :=
  if cur * 8 <? n then
    match k with
    | O => Panic
    | S k' =>
        let* x := read_one b cursor cur in
        let* buf' := set_nth buf (Z.to_nat cur) x in
        read_loop k' b cursor n (cur + 1) buf'
    end
  else Ok (cur, buf).

(* src/compaction/mod.rs:377-419: returns (bits read, buffer, seeker).
   The loop stores one byte per iteration, so it runs at most length buf + 1 times
   before it is out of bounds. *)
Definition sk_read (dbg : bool) (sk : seeker) (buf : bytes) (n : Z) : res (Z * bytes * seeker) :=
  let* len := bs_bitlen dbg (sk_data sk) in
  if len <? sk_cursor sk then Ok (0, buf, sk)
  else
    let n := if len <? sk_cursor sk + n then len - sk_cursor sk else n in
    let* (cur, buf1) := read_loop (S (length buf)) (sk_data sk) (sk_cursor sk) n 0 buf in
    let* buf2 :=
      if cur =? 0 then Ok buf1
      else
        let flag := if n mod 8 =? 0 then 255 else wrapu 8 (Z.shiftl 255 (8 - n mod 8)) in
        let* x := unwrap (nth_error buf1 (Z.to_nat (cur - 1))) in
        set_nth buf1 (Z.to_nat (cur - 1)) (Z.land flag x) in
    Ok (n, buf2, mkSk (sk_data sk) (sk_cursor sk + n)).

(* src/compaction/mod.rs:422-429 *)
Definition sk_reset (sk : seeker) (pos : Z) : seeker := mkSk (sk_data sk) pos.
