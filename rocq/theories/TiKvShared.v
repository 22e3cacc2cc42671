(* Model of chunks over one real TiKV: src/backend/tikv.rs:94-103 get_instance with dry_run false
   connects every storage and every indexer to the same store. *)
From Verif Require Import Rust Prog Gorilla Storage Labels Indexer Chunk TiKvInit.

(* The commands of a chunk over a shared store: [w_st] is the whole store, [w_ix] is not used.
   Everything else is as in Chunk.v (src/chunk/chunk.rs:72-80). *)
Definition shandler (ch : chunk) : handler ccmd cworld :=
  fun X c w =>
    match c in ccmd X return option (X * cworld) with
    | CSt c | CIx c =>
        match kv_fault_handler TiKvErr _ c (w_st w, w_faults w) with
        | Some (x, (s, fs)) => Some (x, set_st w s fs)
        | None => None
        end
    | CNextId => Some (w_next w, set_next w (wrapu 64 (w_next w + 1)))
    | CWriteLock => if w_locked w then None else Some (w_poisoned w, set_lock w true (w_poisoned w))
    | CWriteUnlock unwinding => Some (tt, set_lock w false (w_poisoned w || unwinding))
    | CReadPass => if w_locked w then None else Some (w_poisoned w, w)
    | CSetClosed => Some (tt, set_closed w true)
    | CGetClosed => Some (w_closed w, w)
    end.

(* src/db.rs:60-84 with src/storage/tikv_storage.rs:103-118 and src/indexer/tikv_indexer.rs:185-200:
   build the storage, then the indexer, of the chunk [cid] with window (lo, hi); [u1], [u2] are the
   uuids the two draw *)
Definition tikv_chunk_new (cid u1 u2 : bytes) (lo hi : Z) : prog kcmd (res chunk) :=
  let? si := init_component cid false u1 in
  let? ii := init_component cid true u2 in
  Ret (Ok (mkChunk (TiKvStorage si) (TiKvIndexer ii) lo hi)).
(* src/db.rs:141-166 with src/storage/tikv_storage.rs:124-143 and
   src/indexer/tikv_indexer.rs:206-225: open it again *)
Definition tikv_chunk_open (cid : bytes) (lo hi : Z) : prog kcmd (res (option chunk)) :=
  let? si := tikv_storage_read cid in
  let? ii := tikv_indexer_read cid in
  Ret (Ok match si, ii with
          | Some si, Some ii => Some (mkChunk (TiKvStorage si) (TiKvIndexer ii) lo hi)
          | _, _ => None
          end).
