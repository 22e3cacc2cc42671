(* Model of src/wal: log entries and segments, and the two checksums of the crc crate (1.8.1) they
   use.  src/wal/writer.rs has only unimplemented!() bodies and is left out. *)
From Verif Require Import Rust.

(* ------------------------------------------------------------------ *)
(** * crc::crc32 and crc::crc64, as used *)

(* one entry of the table that Digest::new makes for a reflected polynomial: eight shift steps *)
Definition crc_step (poly s : Z) : Z :=
  if Z.odd s then Z.lxor (Z.shiftr s 1) poly else Z.shiftr s 1.
Definition crc_table (poly i : Z) : Z := Nat.iter 8 (crc_step poly) i.
(* one byte: (acc >> 8) ^ table[(acc ^ x) & 0xff] *)
Definition crc_byte (poly acc x : Z) : Z :=
  Z.lxor (Z.shiftr acc 8) (crc_table poly (Z.land (Z.lxor acc x) 255)).
(* !v on n bits *)
Definition notn (n v : Z) : Z := Z.lxor v (Z.ones n).
(* Digest::write: value = !fold(!value) *)
Definition digest_write (n poly v : Z) (bs : bytes) : Z :=
  notn n (fold_left (crc_byte poly) bs (notn n v)).
(* the IEEE polynomial of CRC-32 and the ECMA-182 polynomial of CRC-64, reflected *)
Definition ieee : Z := 0xEDB88320.
Definition ecma : Z := 0xC96C5795D7870F42.
(* crc32::Digest and crc64::Digest with the initial value 0 or a given one: the current value;
   sum32, sum64 and finish return it *)
Definition digest32 := Z.
Definition digest64 := Z.

(* ------------------------------------------------------------------ *)
(** * src/wal/mod.rs *)

(* src/wal/mod.rs:25-30 Entry *)
Record entry := mkEntry { e_seq : Z; e_type : Z; e_content : bytes; e_crc : digest32 }.

(* src/wal/mod.rs:32-41 Clone: a new digest started at the value of the old one *)
Definition entry_clone (e : entry) : entry := mkEntry (e_seq e) (e_type e) (e_content e) (e_crc e).
(* src/wal/mod.rs:43-52 Default *)
Definition entry_default : entry := mkEntry 0 0 [] 0.
(* src/wal/mod.rs:55-62 new; the only EntryType is Default = 0 *)
Definition entry_new (seq : Z) : entry := mkEntry seq 0 [] 0.
(* src/wal/mod.rs:64-66 len *)
Definition entry_len (e : entry) : Z := 8 + 1 + Z.of_nat (length (e_content e)) + 4.
(* src/wal/mod.rs:68-77 get_bytes; [len() as u16] truncates *)
Definition get_bytes (e : entry) : bytes :=
  be_bytes 8 (e_seq e) ++ [e_type e] ++ be_bytes 2 (wrapu 16 (Z.of_nat (length (e_content e)))) ++
  e_content e ++ be_bytes 4 (e_crc e).
(* src/wal/mod.rs:79-82 push *)
Definition entry_push (e : entry) (c : bytes) : entry :=
  mkEntry (e_seq e) (e_type e) (e_content e ++ c) (digest_write 32 ieee (e_crc e) c).

(* ------------------------------------------------------------------ *)
(** * src/wal/segment.rs *)

(* the writer W of a segment: the bytes it has taken, and what it does at the next write calls:
   take the first n bytes of the buffer, or fail; after the end of the list it takes everything.
   flush is left out: its result is dropped by every caller but Write::flush itself. *)
Inductive answer := Takes (n : nat) | Refuses.
Record writer := mkWriter { wr_out : bytes; wr_plan : list answer }.
Definition wr_write (w : writer) (bs : bytes) : res Z * writer :=
  match wr_plan w with
  | [] => (Ok (Z.of_nat (length bs)), mkWriter (wr_out w ++ bs) [])
  | Takes n :: p => let took := firstn n bs in (Ok (Z.of_nat (length took)), mkWriter (wr_out w ++ took) p)
  | Refuses :: p => (Err IoError, mkWriter (wr_out w) p)
  end.

(* src/wal/mod.rs:89-98 FlushPolicy *)
Inductive policy := PTime | PNum (limit : nat) | PSize (limit : Z) | PImmediate.
(* src/wal/mod.rs:101-117 FlushCache; the join handle is left out *)
Inductive cache :=
| CTime (c : list entry)
| CNum (limit idx : nat) (c : list entry)
| CSize (limit size : Z) (c : list entry)
| CNone.
(* src/wal/segment.rs:16-20 Segment *)
Record seg := mkSeg { s_writer : writer; s_cache : cache; s_crc : digest64 }.

(* src/wal/mod.rs:11 *)
Definition WAL_MAGIC_NUMBER : Z := 0x57414C0000000000.

(* src/wal/segment.rs:23-26 Write::write *)
Definition seg_write (s : seg) (bs : bytes) : res Z * seg :=
  let '(r, w) := wr_write (s_writer s) bs in
  (r, mkSeg w (s_cache s) (digest_write 64 ecma (s_crc s) bs)).

(* src/wal/segment.rs:57-61: write the contents of the entries, stop at the first error *)
Fixpoint write_contents (s : seg) (es : list entry) : res unit * seg :=
  match es with
  | [] => (Ok tt, s)
  | e :: es' =>
      match seg_write s (e_content e) with
      | (Ok _, s') => write_contents s' es'
      | (Err x, s') => (Err x, s')
      | (Panic, s') => (Panic, s')
      end
  end.
(* src/wal/segment.rs:28-64 Write::flush *)
Definition seg_flush (s : seg) : res unit * seg :=
  let '(remaining, c) :=
    match s_cache s with
    | CNone => ([], CNone)
    | CNum limit _ c => (map entry_clone c, CNum limit 0 (repeat entry_default limit))
    | CTime c => ([], CTime c)
    | CSize limit _ c => (map entry_clone c, CSize limit 0 [])
    end in
  write_contents (mkSeg (s_writer s) c (s_crc s)) remaining.

(* src/wal/segment.rs:71-100 new; the results of writing the magic number are dropped; the
   capacities are left out *)
Definition seg_new (p : policy) (w : writer) : seg :=
  let '(_, w) := wr_write w (be_bytes 8 WAL_MAGIC_NUMBER) in
  mkSeg w match p with
          | PImmediate => CNone
          | PTime => CTime []
          | PNum limit => CNum limit 0 []
          | PSize limit => CSize limit 0 []
          end 0.

(* src/wal/segment.rs:103-107 close *)
Definition seg_close (s : seg) : res unit * seg :=
  let '(r, s) := seg_write s (be_bytes 8 (s_crc s)) in (rmap (fun _ => tt) r, s).

(* src/wal/segment.rs:109-144 write_entry; results of flush are dropped (no flush panics);
   [*size + entry_len] is taken not to overflow usize *)
Definition write_entry (s : seg) (e : entry) : res unit * seg :=
  match s_cache s with
  | CNone =>
      match seg_write s (get_bytes e) with
      | (Ok _, s') => (Ok tt, snd (seg_flush s'))
      | (Err x, s') => (Err x, s')
      | (Panic, s') => (Panic, s')
      end
  | CNum limit idx c =>
      (* cache[*idx] = entry panics out of bounds *)
      if (idx <? length c)%nat then
        let s' := mkSeg (s_writer s) (CNum limit (S idx) (firstn idx c ++ e :: skipn (S idx) c)) (s_crc s) in
        (Ok tt, if (S idx =? limit)%nat then snd (seg_flush s') else s')
      else (Panic, s)
  | CTime c => (Ok tt, mkSeg (s_writer s) (CTime (c ++ [e])) (s_crc s))
  | CSize limit size c =>
      if limit <=? size + entry_len e
      then (Ok tt, snd (seg_flush (mkSeg (s_writer s) (CSize limit size (c ++ [e])) (s_crc s))))
      else (Ok tt, mkSeg (s_writer s) (CSize limit (size + entry_len e) (c ++ [e])) (s_crc s))
  end.

(* a sequence of write_entry calls, until one panics *)
Fixpoint write_entries (s : seg) (es : list entry) : list (res unit) * seg :=
  match es with
  | [] => ([], s)
  | e :: es' =>
      match write_entry s e with
      | (Panic, s') => ([Panic], s')
      | (r, s') => let '(rs, s'') := write_entries s' es' in (r :: rs, s'')
      end
  end.
