(* Model of src/compaction/mod.rs:30-181 (CompactType, Compactor, Decompactor). *)
From Verif Require Import Rust Bstream Gorilla.

(* src/compaction/mod.rs:30-34 *)
Inductive ctype := CGorilla | CSimple | CNone.
Definition ctag (c : ctype) : Z := match c with CGorilla => 1 | CSimple => 2 | CNone => 3 end.

(* src/compaction/mod.rs:37-50 *)
Inductive compactor := KGorilla (g : gcomp) | KSimple | KNone (v : bytes).

(* src/compaction/mod.rs:53-59 *)
Definition compactor_new (c : ctype) : compactor :=
  match c with CGorilla => KGorilla gc_new | CSimple => KSimple | CNone => KNone [] end.

(* src/compaction/mod.rs:62-77 *)
Definition compactor_compact (dbg : bool) (k : compactor) (p : tp) : res compactor :=
  match k with
  | KGorilla g => rmap KGorilla (gc_compact dbg g p)
  | KNone v => Ok (KNone (v ++ be_bytes 8 (tp_ts p) ++ be_bytes 8 (tp_val p)))
  | KSimple => Ok KSimple
  end.

(* src/compaction/mod.rs:113-127; unimplemented!() panics *)
Definition compactor_bytes (k : compactor) : res bytes :=
  match k with
  | KSimple => Panic
  | KGorilla g => Ok (gc_as_bytes_vec g ++ [ctag CGorilla])
  | KNone v => Ok (v ++ [ctag CNone])
  end.

(* src/compaction/mod.rs:90-109: for None the points are not used *)
Definition compactor_compact_vec (dbg : bool) (k : compactor) (ps : list tp)
  : res (bytes * compactor) :=
  match k with
  | KSimple => Panic
  | KGorilla g =>
      let* g' := gc_compact_all dbg g ps in
      Ok (gc_as_bytes_vec g' ++ [ctag CGorilla], KGorilla g')
  | KNone v => Ok (v ++ [ctag CNone], k)
  end.

(* a caller feeding points one at a time *)
Fixpoint compactor_feed (dbg : bool) (k : compactor) (ps : list tp) : res compactor :=
  match ps with
  | [] => Ok k
  | p :: ps' => let* k' := compactor_compact dbg k p in compactor_feed dbg k' ps'
  end.

(* src/compaction/mod.rs:130-133 *)
Inductive decompactor := DGorilla (g : gdec) | DNone (v : bytes).

(* Vec::pop().unwrap_or(0) *)
Definition pop_or0 (l : bytes) : Z * bytes :=
  match l with [] => (0, []) | _ => (last l 0, removelast l) end.

(* src/compaction/mod.rs:136-161 *)
Definition decompactor_from (c : ctype) (data : bytes) : res decompactor :=
  match c with
  | CGorilla =>
      let (t, d) := pop_or0 data in
      if t =? ctag CGorilla then Ok (DGorilla (gd_new (bs_from_bytes d)))
      else Err (CompactionTypeDontMatch (ctag CGorilla) t)
  | CNone =>
      let (t, d) := pop_or0 data in
      if t =? ctag CNone then Ok (DNone d)
      else Err (CompactionTypeDontMatch (ctag CNone) t)
  | CSimple => Err InternalErr
  end.

(* slice::chunks(n) *)
Fixpoint chunks_fuel (k : nat) (n : nat) (l : bytes) : list bytes :=
  match k, l with
  | _, [] => []
  | O, _ => []
  | S k', _ => firstn n l :: chunks_fuel k' n (skipn n l)
  end.
Definition chunks (n : nat) (l : bytes) : list bytes := chunks_fuel (length l) n l.

(* src/compaction/mod.rs:171-175: split_at(8) panics on a chunk shorter than 8, and
   try_into().unwrap() panics unless exactly 8 bytes remain *)
Definition decode_none_chunk (b : bytes) : res tp :=
  if (length b <? 8)%nat then Panic
  else if negb (length (skipn 8 b) =? 8)%nat then Panic
  else Ok (mkTp (from_be (firstn 8 b)) (from_be (skipn 8 b))).

Fixpoint mapM {A B} (f : A -> res B) (l : list A) : res (list B) :=
  match l with
  | [] => Ok []
  | x :: l' => let* y := f x in let* ys := mapM f l' in Ok (y :: ys)
  end.

(* src/compaction/mod.rs:163-180: the chunk size is size_of::<Timestamp>() * 8 +
   size_of::<Value>() = 72 bytes.  The Gorilla case clones the decompactor and collects
   the iterator.  The iteration is given one step per bit of data plus one; running out of
   steps is the distinct value None (theorem C08 shows that it never happens). *)
Definition none_chunk_size : nat := 72.
Definition decompactor_decompact (dbg : bool) (d : decompactor) : option (res (list tp)) :=
  match d with
  | DGorilla g => gd_collect (S (8 * length (bs_data (sk_data (gd_src g))))) dbg g
  | DNone v => Some (mapM decode_none_chunk (chunks none_chunk_size v))
  end.

(* Decompactor::from(type, bytes)?.decompact() *)
Definition decompress (dbg : bool) (c : ctype) (data : bytes) : option (res (list tp)) :=
  match decompactor_from c data with
  | Ok d => decompactor_decompact dbg d
  | Err e => Some (Err e)
  | Panic => Some Panic
  end.
