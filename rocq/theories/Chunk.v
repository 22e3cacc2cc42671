(* Model of src/chunk/chunk.rs and of IdGenerator in src/common/mod.rs. *)
From Verif Require Import Rust Prog Gorilla Storage Labels Indexer.

(* the commands a chunk issues: operations of its point store and of its index store (each
   atomic), and operations on its shared fields *)
Inductive ccmd : Type -> Type :=
| CSt {X} (c : kcmd X) : ccmd X
| CIx {X} (c : kcmd X) : ccmd X
(* IdGenerator::next *)
| CNextId : ccmd Z
(* RwLock::write: waits for the lock; tells whether it is poisoned *)
| CWriteLock : ccmd bool
(* the write guard is dropped, while unwinding or not *)
| CWriteUnlock (unwinding : bool) : ccmd unit
(* RwLock::read with the guard dropped at once: waits until no writer holds the lock *)
| CReadPass : ccmd bool
(* AtomicBool load and store *)
| CSetClosed : ccmd unit
| CGetClosed : ccmd bool.

(* src/chunk/chunk.rs:72-80 Chunk: the fields that never change *)
Record chunk := mkChunk {
  c_storage : storage;
  c_indexer : indexer;
  c_start : Z;
  c_end : Z }.

(* src/chunk/chunk.rs:72-80: the content of the two stores and the fields that change.
   [w_faults] tells which of the coming store operations fail ([] = none) *)
Record cworld := mkW {
  w_st : kv;
  w_ix : kv;
  w_next : Z;
  w_closed : bool;
  w_locked : bool;
  w_poisoned : bool;
  w_faults : list fault }.

Definition set_st (w : cworld) (s : kv) (fs : list fault) : cworld :=
  mkW s (w_ix w) (w_next w) (w_closed w) (w_locked w) (w_poisoned w) fs.
Definition set_ix (w : cworld) (s : kv) (fs : list fault) : cworld :=
  mkW (w_st w) s (w_next w) (w_closed w) (w_locked w) (w_poisoned w) fs.
Definition set_next (w : cworld) (n : Z) : cworld :=
  mkW (w_st w) (w_ix w) n (w_closed w) (w_locked w) (w_poisoned w) (w_faults w).
Definition set_closed (w : cworld) (b : bool) : cworld :=
  mkW (w_st w) (w_ix w) (w_next w) b (w_locked w) (w_poisoned w) (w_faults w).
Definition set_lock (w : cworld) (locked poisoned : bool) : cworld :=
  mkW (w_st w) (w_ix w) (w_next w) (w_closed w) locked poisoned (w_faults w).

(* src/error.rs:60-67, 96-100: the error a failing store operation turns into *)
Definition storage_err (st : storage) : err :=
  match st with SledStorage => IoError | TiKvStorage _ => TiKvErr end.
Definition indexer_err (ix : indexer) : err :=
  match ix with SledIndexer => IoError | TiKvIndexer _ => TiKvErr end.

(* what the commands of a chunk do; src/common/mod.rs:46-55 IdGenerator::next = fetch_add,
   which wraps around *)
Definition chandler (ch : chunk) : handler ccmd cworld :=
  fun X c w =>
    match c in ccmd X return option (X * cworld) with
    | CSt c =>
        match kv_fault_handler (storage_err (c_storage ch)) _ c (w_st w, w_faults w) with
        | Some (x, (s, fs)) => Some (x, set_st w s fs)
        | None => None
        end
    | CIx c =>
        match kv_fault_handler (indexer_err (c_indexer ch)) _ c (w_ix w, w_faults w) with
        | Some (x, (s, fs)) => Some (x, set_ix w s fs)
        | None => None
        end
    | CNextId => Some (w_next w, set_next w (wrapu 64 (w_next w + 1)))
    | CWriteLock => if w_locked w then None else Some (w_poisoned w, set_lock w true (w_poisoned w))
    | CWriteUnlock unwinding => Some (tt, set_lock w false (w_poisoned w || unwinding))
    | CReadPass => if w_locked w then None else Some (w_poisoned w, w)
    | CSetClosed => Some (tt, set_closed w true)
    | CGetClosed => Some (w_closed w, w)
    end.

Definition is_panic {A} (r : res A) : bool := match r with Panic => true | _ => false end.

(* [let _m = self.mutex.write().expect(..); body]: the guard lives until the end of the
   function, also when it unwinds; expect panics on a poisoned lock (and drops the guard) *)
Definition with_write_lock {A} (body : prog ccmd (res A)) : prog ccmd (res A) :=
  let! poisoned := call CWriteLock in
  if poisoned : bool then
    let! _ := call (CWriteUnlock true) in Ret Panic
  else
    let! r := body in
    let! _ := call (CWriteUnlock (is_panic r)) in Ret r.

(* src/chunk/chunk.rs:83-96 Chunk::new: a chunk and the initial state of its fields; the
   defaults for absent options (now, now + 12000) are left out: every caller sets both *)
Definition new_world (st ix : kv) : cworld := mkW st ix 1 false false false [].

(* src/chunk/chunk.rs:98-104 close *)
Definition chunk_close : prog ccmd (res unit) :=
  with_write_lock (let! _ := call CSetClosed in Ret (Ok tt)).
(* src/chunk/chunk.rs:106-108 is_closed *)
Definition chunk_is_closed : prog ccmd bool := call CGetClosed.

(* src/chunk/chunk.rs:173-175 is_in_range *)
Definition is_in_range (ch : chunk) (t : Z) : bool := (c_start ch <? t) && (t <? c_end ch).

(* src/chunk/chunk.rs:115-136: the body of insert under the lock; the result of the write to an
   existing series is dropped (a panic in it still unwinds) *)
Definition insert_body (ch : chunk) (ls : list label) (p : tp) : prog ccmd (res unit) :=
  if negb (is_in_range ch (tp_ts p)) then Ret (Err (OutOfRangeErr (c_start ch) (c_end ch)))
  else
    let? id := lift (@CIx) (series_id_by_labels (c_indexer ch) ls) in
    match id with
    | None =>
        let! new_id := call CNextId in
        let? _ := lift (@CIx) (create_index (c_indexer ch) ls new_id) in
        let? _ := lift (@CSt) (write_time_point (c_storage ch) new_id (tp_ts p) (tp_val p)) in
        Ret (Ok tt)
    | Some id =>
        let! r := lift (@CSt) (write_time_point (c_storage ch) id (tp_ts p) (tp_val p)) in
        Ret match r with Panic => Panic | _ => Ok tt end
    end.
(* src/chunk/chunk.rs:110-137 insert *)
Definition chunk_insert (ch : chunk) (ls : list label) (p : tp) : prog ccmd (res unit) :=
  with_write_lock (insert_body ch ls p).

(* src/common/utils.rs:11-18 is_duration_overlap *)
Definition is_duration_overlap (s1 e1 s2 e2 : Z) : bool := negb ((e2 <? s1) || (e1 <? s2)).
(* src/chunk/chunk.rs:164-166 is_with_range *)
Definition is_with_range (ch : chunk) (s e : Z) : bool := is_duration_overlap (c_start ch) (c_end ch) s e.

(* src/common/time_series.rs:10-15 TimeSeries *)
Record series := mkSeries { s_id : Z; s_meta : list label; s_points : list tp }.

(* src/chunk/chunk.rs:139-162 query; [bs] is the binary search of the standard library, [o] the
   timing of the intersection threads *)
Definition chunk_query (ch : chunk) (bs : bsearch) (o : timing) (ls : list label) (s e : Z)
  : prog ccmd (res (list series)) :=
  let! poisoned := call CReadPass in
  if poisoned : bool then Ret Panic
  else if negb (is_with_range ch s e) then Ret (Err (OutOfRangeErr (c_start ch) (c_end ch)))
  else
    let? candidates := lift (@CIx) (series_metadata_contains_labels (c_indexer ch) o ls) in
    let? found := forM (fun c =>
        let? data := lift (@CSt) (read_time_series (c_storage ch) bs (fst c) s e) in
        Ret (Ok (match data with
                 | [] => None
                 | _ => Some (mkSeries (fst c) (snd c) data)
                 end))) candidates in
    Ret (Ok (somes found)).

(* src/chunk/chunk.rs:194-204 Ord for Chunk: by start time *)
Definition chunk_cmp (a b : chunk) : comparison := c_start a ?= c_start b.
