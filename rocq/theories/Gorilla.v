(* Model of src/compaction/gorilla.rs. *)
From Verif Require Import Rust Bstream.

(* src/common/time_point.rs: TimePoint { timestamp: u64, value: f64 }; the value is
   represented by its IEEE-754 bit pattern (f64::to_bits / to_be_bytes). *)
Record tp := mkTp { tp_ts : Z; tp_val : Z }.

(* src/compaction/gorilla.rs:10-36; v: 0.0 has bit pattern 0 *)
Record gcomp := mkGc {
  gc_bs : bstream; gc_t : Z; gc_v : Z; gc_leading : Z; gc_tailing : Z; gc_d : Z; gc_len : Z }.
Definition gc_new : gcomp := mkGc bs_new 0 0 0 0 0 0.

(* src/compaction/gorilla.rs:395-397.  The literal in the lower bound is an i32:
   (1 << 31) - 1 overflows i32. *)
Definition in_bit_range (dbg : bool) (t nbits : Z) : res bool :=
  let* lo0 := arith_s dbg 32 (wraps 32 (Z.shiftl 1 (nbits - 1)) - 1) in
  let* lo := arith_s dbg 32 (- lo0) in
  Ok ((lo <=? t) && (t <=? wraps 64 (Z.shiftl 1 (nbits - 1)))).

(* src/compaction/gorilla.rs:87-127.  value_size as u8 - leading - tailing is u8 arithmetic. *)
Definition gc_compact_value (dbg : bool) (g : gcomp) (value : Z) : res gcomp :=
  if gc_len g =? 0 then
    let* bs := bs_append_bytes dbg (gc_bs g) (be_bytes 8 value) 0 in
    Ok (mkGc bs (gc_t g) value (leading_zeros64 value) (trailing_zeros64 value)
             (gc_d g) (gc_len g))
  else
    let xord := Z.lxor value (gc_v g) in
    if xord =? 0 then
      let* bs := bs_write_zero dbg (gc_bs g) in
      Ok (mkGc bs (gc_t g) (gc_v g) (gc_leading g) (gc_tailing g) (gc_d g) (gc_len g))
    else
      let* bs1 := bs_write_one dbg (gc_bs g) in
      let leading := leading_zeros64 xord in
      let trailing := trailing_zeros64 xord in
      if (1 <? gc_len g) && (gc_leading g <=? leading) && (gc_tailing g <=? trailing) then
        let* bs2 := bs_write_zero dbg bs1 in
        let* sh := shr64 dbg xord (gc_tailing g) in
        let* w1 := arith_u dbg 8 (64 - gc_leading g) in
        let* w := arith_u dbg 8 (w1 - gc_tailing g) in
        let* bs3 := bs_write_bits dbg bs2 sh w in
        Ok (mkGc bs3 (gc_t g) (gc_v g) (gc_leading g) (gc_tailing g) (gc_d g) (gc_len g))
      else
        let* bs2 := bs_write_one dbg bs1 in
        let* bs3 := bs_write_bits dbg bs2 leading 5 in
        let* s1 := arith_u dbg 8 (64 - leading) in
        let* sigbits := arith_u dbg 8 (s1 - trailing) in
        let* bs4 := bs_write_bits dbg bs3 sigbits 6 in
        let* sh := shr64 dbg xord trailing in
        let* bs5 := bs_write_bits dbg bs4 sh sigbits in
        Ok (mkGc bs5 (gc_t g) (gc_v g) leading trailing (gc_d g) (gc_len g)).

Definition gc_with_bs (g : gcomp) (bs : bstream) : gcomp :=
  mkGc bs (gc_t g) (gc_v g) (gc_leading g) (gc_tailing g) (gc_d g) (gc_len g).
Definition gc_with_d (g : gcomp) (d : Z) : gcomp :=
  mkGc (gc_bs g) (gc_t g) (gc_v g) (gc_leading g) (gc_tailing g) d (gc_len g).

(* src/compaction/gorilla.rs:65-79: the delta-of-delta field *)
Definition gc_write_dod (dbg : bool) (bs : bstream) (dod : Z) : res bstream :=
  if dod =? 0 then bs_append_bytes dbg bs [0] 7
  else
    let* r8 := in_bit_range dbg dod 8 in
    if r8 then
      let* b1 := bs_append_bytes dbg bs [128] 6 in bs_write_bits dbg b1 (wrapu 64 dod) 8
    else
      let* r16 := in_bit_range dbg dod 16 in
      if r16 then
        let* b1 := bs_append_bytes dbg bs [192] 5 in bs_write_bits dbg b1 (wrapu 64 dod) 16
      else
        let* r32 := in_bit_range dbg dod 32 in
        if r32 then
          let* b1 := bs_append_bytes dbg bs [224] 4 in bs_write_bits dbg b1 (wrapu 64 dod) 32
        else
          let* b1 := bs_append_bytes dbg bs [240] 4 in bs_write_bits dbg b1 (wrapu 64 dod) 64.

(* src/compaction/gorilla.rs:39-85.  Simplification: the usize point counters `len` and
   `idx` are taken not to overflow (2^64 points). *)
Definition gc_compact (dbg : bool) (g : gcomp) (p : tp) : res gcomp :=
  let* g1 :=
    if gc_len g =? 0 then
      let* b1 := bs_append_bytes dbg (gc_bs g) (be_bytes 8 (tp_ts p)) 0 in
      let* b2 := bs_append_bytes dbg b1 (be_bytes 8 (tp_val p)) 0 in
      Ok (gc_with_bs g b2)
    else if gc_len g =? 1 then
      let* du := arith_u dbg 64 (tp_ts p - gc_t g) in
      let t_delta := wraps 64 du in
      let* b1 := bs_append_bytes dbg (gc_bs g) (be_bytes 8 (wrapu 64 t_delta)) 0 in
      let* g1 := gc_compact_value dbg (gc_with_bs g b1) (tp_val p) in
      Ok (gc_with_d g1 t_delta)
    else
      let* du := arith_u dbg 64 (tp_ts p - gc_t g) in
      let t_delta := wraps 64 du in
      let* dod := arith_s dbg 64 (t_delta - gc_d g) in
      let* b1 := gc_write_dod dbg (gc_bs g) dod in
      gc_compact_value dbg (gc_with_d (gc_with_bs g b1) t_delta) (tp_val p) in
  Ok (mkGc (gc_bs g1) (tp_ts p) (tp_val p) (gc_leading g1) (gc_tailing g1) (gc_d g1)
           (gc_len g1 + 1)).

(* compacting a whole series: the loop of src/compaction/mod.rs:94-96 *)
Fixpoint gc_compact_all (dbg : bool) (g : gcomp) (ps : list tp) : res gcomp :=
  match ps with
  | [] => Ok g
  | p :: ps' => let* g' := gc_compact dbg g p in gc_compact_all dbg g' ps'
  end.

(* src/compaction/gorilla.rs:129-131 *)
Definition gc_as_bytes_vec (g : gcomp) : bytes := bs_as_bytes_vec (gc_bs g).

(* src/compaction/gorilla.rs:135-162 *)
Record gdec := mkGd {
  gd_src : seeker; gd_t : Z; gd_v : Z; gd_leading : Z; gd_tailing : Z; gd_d : Z; gd_idx : Z }.
Definition gd_new (b : bstream) : gdec := mkGd (sk_new b) 0 0 0 0 0 0.

(* src/compaction/gorilla.rs:386-392 *)
Definition vec_with_len (n : nat) : bytes := repeat 0 n.

(* src/compaction/gorilla.rs:164-233: None ends the iteration *)
Definition gd_values (dbg : bool) (g : gdec) : res (option Z * gdec) :=
  let* (rl, nb, sk1) := sk_read dbg (gd_src g) [0] 2 in
  let g1 := mkGd sk1 (gd_t g) (gd_v g) (gd_leading g) (gd_tailing g) (gd_d g) (gd_idx g) in
  if (2 <? rl) || (rl =? 0) then Ok (None, g1)
  else
    let* x := unwrap (nth_error nb 0) in
    if (rl =? 1) || (Z.land x 128 =? 0) then
      let sk2 := sk_reset sk1 (sk_cursor sk1 + (2 - rl) - 1) in
      Ok (Some (gd_v g),
          mkGd sk2 (gd_t g) (gd_v g) (gd_leading g) (gd_tailing g) (gd_d g) (gd_idx g))
    else if Z.land x 192 =? 128 then
      let* l1 := arith_u dbg 8 (64 - gd_leading g) in
      let* len := arith_u dbg 8 (l1 - gd_tailing g) in
      let* (l, bs, sk2) := sk_read dbg sk1 (vec_with_len 8) len in
      let g2 := mkGd sk2 (gd_t g) (gd_v g) (gd_leading g) (gd_tailing g) (gd_d g) (gd_idx g) in
      if negb (l =? len) then Ok (None, g2)
      else
        let* xord := shr64 dbg (from_be bs) (gd_leading g) in
        let v := Z.lxor (gd_v g) xord in
        Ok (Some v,
            mkGd sk2 (gd_t g) v (gd_leading g) (gd_tailing g) (gd_d g) (gd_idx g))
    else
      let* (l, lb, sk2) := sk_read dbg sk1 [0] 5 in
      let g2 := mkGd sk2 (gd_t g) (gd_v g) (gd_leading g) (gd_tailing g) (gd_d g) (gd_idx g) in
      if negb (l =? 5) then Ok (None, g2)
      else
        let* lb0 := unwrap (nth_error lb 0) in
        let leading := Z.shiftr lb0 3 in
        let* (l, sb, sk3) := sk_read dbg sk2 [0] 6 in
        let g3 := mkGd sk3 (gd_t g) (gd_v g) (gd_leading g) (gd_tailing g) (gd_d g) (gd_idx g) in
        if negb (l =? 6) then Ok (None, g3)
        else
          let* sb0 := unwrap (nth_error sb 0) in
          let sig_len := Z.shiftr sb0 2 in
          let* t1 := arith_u dbg 8 (64 - sig_len) in
          let* tailing := arith_u dbg 8 (t1 - leading) in
          let* (l, bs, sk4) := sk_read dbg sk3 (vec_with_len 8) sig_len in
          let g4 := mkGd sk4 (gd_t g) (gd_v g) (gd_leading g) (gd_tailing g) (gd_d g) (gd_idx g) in
          if negb (l =? sig_len) then Ok (None, g4)
          else
            let* xord := shr64 dbg (from_be bs) leading in
            let v := Z.lxor (gd_v g) xord in
            Ok (Some v, mkGd sk4 (gd_t g) v leading tailing (gd_d g) (gd_idx g)).

(* src/compaction/gorilla.rs:235-264 *)
Definition gd_timestamp (dbg : bool) (g : gdec) (range : Z) : res (option Z * gdec) :=
  if negb (existsb (Z.eqb range) [8; 16; 32; 64]) then Ok (None, g)
  else
    let* (l, bs, sk1) := sk_read dbg (gd_src g) (vec_with_len (Z.to_nat (range / 8))) range in
    let g1 := mkGd sk1 (gd_t g) (gd_v g) (gd_leading g) (gd_tailing g) (gd_d g) (gd_idx g) in
    if negb (l =? range) then Ok (None, g1)
    else
      let* d := arith_s dbg 64 (wraps range (from_be bs) + gd_d g) in
      let* t := arith_u dbg 64 (gd_t g + wrapu 64 d) in
      Ok (Some t, mkGd sk1 (gd_t g) (gd_v g) (gd_leading g) (gd_tailing g) d (gd_idx g)).

Definition gd_with_src (g : gdec) (s : seeker) : gdec :=
  mkGd s (gd_t g) (gd_v g) (gd_leading g) (gd_tailing g) (gd_d g) (gd_idx g).
Definition gd_with_t (g : gdec) (t : Z) : gdec :=
  mkGd (gd_src g) t (gd_v g) (gd_leading g) (gd_tailing g) (gd_d g) (gd_idx g).

(* src/compaction/gorilla.rs:363-369 and 310-315: read the value, count the point *)
Definition gd_finish (dbg : bool) (g : gdec) (timestamp : Z) : res (option tp * gdec) :=
  let* (ov, g1) := gd_values dbg g in
  match ov with
  | Some v =>
      Ok (Some (mkTp timestamp v),
          mkGd (gd_src g1) (gd_t g1) (gd_v g1) (gd_leading g1) (gd_tailing g1) (gd_d g1)
               (gd_idx g1 + 1))
  | None => Ok (None, g1)
  end.

(* src/compaction/gorilla.rs:270-371.  usize cursor arithmetic is exact: the cursor has
   just been advanced by l >= 1 and (4 - l) + l >= 3. *)
Definition gd_next (dbg : bool) (g : gdec) : res (option tp * gdec) :=
  if gd_idx g =? 0 then
    let* (l, buf, sk1) := sk_read dbg (gd_src g) (vec_with_len 16) 128 in
    if negb (l =? 128) then Ok (None, gd_with_src g sk1)
    else
      let ts := from_be (firstn 8 buf) in
      let v := from_be (skipn 8 buf) in
      Ok (Some (mkTp ts v), mkGd sk1 ts v (gd_leading g) (gd_tailing g) (gd_d g) (gd_idx g + 1))
  else if gd_idx g =? 1 then
    let* (l, buf, sk1) := sk_read dbg (gd_src g) (vec_with_len 8) 64 in
    if negb (l =? 64) then Ok (None, gd_with_src g sk1)
    else
      let delta := wraps 64 (from_be buf) in
      let* tsi := arith_s dbg 64 (delta + wraps 64 (gd_t g)) in
      let ts := wrapu 64 tsi in
      gd_finish dbg (mkGd sk1 ts (gd_v g) (gd_leading g) (gd_tailing g) delta (gd_idx g)) ts
  else
    let* (l, fb, sk1) := sk_read dbg (gd_src g) [0] 4 in
    let g1 := gd_with_src g sk1 in
    if (l =? 0) || (4 <? l) then Ok (None, g1)
    else
      let* f := unwrap (nth_error fb 0) in
      let* (ots, g2) :=
        if Z.land f 128 =? 0 then
          let* t := arith_u dbg 64 (gd_t g + wrapu 64 (gd_d g)) in
          Ok (Some t, gd_with_src g (sk_reset sk1 (sk_cursor sk1 + (4 - l) - 3)))
        else if Z.land f 192 =? 128 then
          gd_timestamp dbg (gd_with_src g (sk_reset sk1 (sk_cursor sk1 + (4 - l) - 2))) 8
        else if Z.land f 224 =? 192 then
          gd_timestamp dbg (gd_with_src g (sk_reset sk1 (sk_cursor sk1 + (4 - l) - 1))) 16
        else if Z.land f 240 =? 224 then gd_timestamp dbg g1 32
        else gd_timestamp dbg g1 64 in
      match ots with
      | None => Ok (None, g2)
      | Some ts => gd_finish dbg (gd_with_t g2 ts) ts
      end.

(* Vec::from_iter(decompactor): call next until None.  [fuel] bounds the number of
   calls; exhaustion is reported as None (never as a normal result). *)
Fixpoint gd_collect (fuel : nat) (dbg : bool) (g : gdec) : option (res (list tp)) :=
  match fuel with
  | O => None
  | S fuel' =>
      match gd_next dbg g with
      | Ok (Some p, g') =>
          match gd_collect fuel' dbg g' with
          | Some r => Some (rmap (cons p) r)
          | None => None
          end
      | Ok (None, _) => Some (Ok [])
      | Err e => Some (Err e)
      | Panic => Some Panic
      end
  end.
