(* Model of the insert of a chunk whose index is a sled store, with the flush of
   src/indexer/sled_indexer.rs:143 that Indexer.v leaves out.  Everything else is as in Chunk.v
   and Indexer.v. *)
From Verif Require Import Rust Prog Gorilla Storage Labels Indexer Chunk.

(* a command of the chunk, or a flush of its index store *)
Inductive lcmd : Type -> Type :=
| LC {X} (c : ccmd X) : lcmd X
| LFlush : lcmd (res unit).
Definition lix X (c : kcmd X) : lcmd X := LC (CIx c).
Definition lst X (c : kcmd X) : lcmd X := LC (CSt c).

(* the chunk, and how many of the sets of its index store no flush has followed yet; a flush
   makes everything set before it durable and succeeds *)
Definition lhandler (ch : chunk) : handler lcmd (cworld * nat) :=
  fun X c wn =>
    match c in lcmd X return option (X * (cworld * nat)) with
    | LC c =>
        match chandler ch _ c (fst wn) with
        | Some (x, w') => Some (x, (w', (snd wn + (List.length (w_ix w') - List.length (w_ix (fst wn))))%nat))
        | None => None
        end
    | LFlush => Some (Ok tt, (fst wn, O))
    end.

(* src/indexer/sled_indexer.rs:134-144: one reverse entry, set and flushed; the results of both
   are dropped *)
Definition sled_add_reverse_f (id : Z) (l : label) : prog lcmd (res unit) :=
  let? v := call (lix _ (KGet (encode_label l))) in
  let val := match v with
             | None => to_dec id
             | Some s => s ++ [comma] ++ to_dec id
             end in
  let! _ := call (lix _ (KSet (encode_label l) val)) in
  let! _ := call LFlush in
  Ret (Ok tt).
(* src/indexer/sled_indexer.rs:109-147 create_index *)
Definition sled_create_f (ls : list label) (id : Z) : prog lcmd (res unit) :=
  let? v := call (lix _ (KGet (encode_labels ls true))) in
  match v with
  | Some _ => Ret (Err InternalErr)
  | None =>
      let! _ := call (lix _ (KSet (encode_labels ls true) (to_dec id))) in
      let! _ := call (lix _ (KSet (encode_time_series_id id) (encode_labels ls false))) in
      let? _ := forM (sled_add_reverse_f id) ls in
      Ret (Ok tt)
  end.
(* src/indexer/tikv_indexer.rs flushes nothing *)
Definition create_index_f (ix : indexer) (ls : list label) (id : Z) : prog lcmd (res unit) :=
  match ix with
  | SledIndexer => sled_create_f ls id
  | TiKvIndexer i => lift lix (tikv_create i ls id)
  end.
(* src/chunk/chunk.rs:115-136 *)
Definition insert_body_f (ch : chunk) (ls : list label) (p : tp) : prog lcmd (res unit) :=
  if negb (is_in_range ch (tp_ts p)) then Ret (Err (OutOfRangeErr (c_start ch) (c_end ch)))
  else
    let? id := lift lix (series_id_by_labels (c_indexer ch) ls) in
    match id with
    | None =>
        let! new_id := call (LC CNextId) in
        let? _ := create_index_f (c_indexer ch) ls new_id in
        let? _ := lift lst (write_time_point (c_storage ch) new_id (tp_ts p) (tp_val p)) in
        Ret (Ok tt)
    | Some id =>
        let! r := lift lst (write_time_point (c_storage ch) id (tp_ts p) (tp_val p)) in
        Ret match r with Panic => Panic | _ => Ok tt end
    end.
(* src/chunk/chunk.rs:110-137 insert *)
Definition chunk_insert_f (ch : chunk) (ls : list label) (p : tp) : prog lcmd (res unit) :=
  let! poisoned := call (LC CWriteLock) in
  if poisoned : bool then
    let! _ := call (LC (CWriteUnlock true)) in Ret Panic
  else
    let! r := insert_body_f ch ls p in
    let! _ := call (LC (CWriteUnlock (is_panic r))) in Ret r.
