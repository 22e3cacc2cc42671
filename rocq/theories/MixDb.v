(* Model of src/db.rs when TiKV is real (src/backend/tikv.rs:94-103 with dry_run false) for the storage, for the
   indexer, or for both, and the other one is sled: every TiKV component of every chunk works on one store, every sled
   component on its own.  For a database of TiKV components only this is TiKvDb.v. *)
From Verif Require Import Rust Prog Gorilla Storage Labels Indexer Chunk Utils TiKvInit TiKvShared Db TiKvDb.

(* The commands of a chunk (src/chunk/chunk.rs:72-80): those to a TiKV component go to the store, which is the second
   part of the state; everything else is as in Chunk.v *)
Definition xchandler (ch : chunk) : handler ccmd (cworld * kv) :=
  fun X c v =>
    let own {X} (c : ccmd X) : option (X * (cworld * kv)) :=
      match chandler ch _ c (fst v) with
      | Some (x, w) => Some (x, (w, snd v))
      | None => None
      end in
    let shared {X} (c : kcmd X) : option (X * (cworld * kv)) :=
      match kv_fault_handler TiKvErr _ c (snd v, w_faults (fst v)) with
      | Some (x, (s, fs)) => Some (x, (set_st (fst v) (w_st (fst v)) fs, s))
      | None => None
      end in
    match c in ccmd X return option (X * (cworld * kv)) with
    | CSt c => match c_storage ch with TiKvStorage _ => shared c | SledStorage => own (CSt c) end
    | CIx c => match c_indexer ch with TiKvIndexer _ => shared c | SledIndexer => own (CIx c) end
    | CNextId => own CNextId
    | CWriteLock => own CWriteLock
    | CWriteUnlock u => own (CWriteUnlock u)
    | CReadPass => own CReadPass
    | CSetClosed => own CSetClosed
    | CGetClosed => own CGetClosed
    end.

(* what the commands of the database do: those of its chunks as above, the others as in Db.v *)
Definition xdhandler : handler dcmd tworld :=
  fun X c t =>
    let plain {X} (c : dcmd X) :=
      match dhandler _ c (t_db t) with
      | None => None
      | Some (x, w) => Some (x, mkT w (t_kv t))
      end in
    match c in dcmd X return option (X * tworld) with
    | DC i c =>
        match nth_error (d_heap (t_db t)) i with
        | None => None
        | Some d =>
            match xchandler (dc_chunk d) _ c (dc_world d, t_kv t) with
            | None => None
            | Some (x, (w, s)) =>
                Some (x, mkT (set_heap (t_db t) (upd (d_heap (t_db t)) i (mkDc (dc_chunk d) w (dc_name d)))) s)
            end
        end
    | DF c => plain (DF c)
    | DAlloc c => plain (DAlloc c)
    | DCurRead => plain DCurRead
    | DCurUnread => plain DCurUnread
    | DCurWrite => plain DCurWrite
    | DCurStore i => plain (DCurStore i)
    | DCurUnwrite u => plain (DCurUnwrite u)
    | DSecRead => plain DSecRead
    | DSecUnread => plain DSecUnread
    | DSecWrite => plain DSecWrite
    | DSecPush i => plain (DSecPush i)
    | DSecUnwrite u => plain (DSecUnwrite u)
    end.
(* and the commands sent to the store while a chunk is built or opened *)
Definition xhandler : handler tcmd tworld :=
  fun X c t =>
    match c in tcmd X return option (X * tworld) with
    | TD c => xdhandler _ c t
    | TK c => match kv_handler _ c (t_kv t) with
              | Some (x, s) => Some (x, mkT (t_db t) s)
              | None => None
              end
    end.

(* src/storage/sled_storage.rs:137-144 and src/storage/tikv_storage.rs:103-118 build: the storage and the content of
   its own store *)
Definition x_build_storage (b : backend) (name : list Z) (o : chunk_opts) : prog tcmd (res (storage * kv)) :=
  match b with
  | Sled => lift ff (build_storage Sled name o)
  | TiKvDry => let? st := t_build_storage name o in Ret (Ok (st, []))
  end.
(* src/indexer/sled_indexer.rs:153-160 and src/indexer/tikv_indexer.rs:185-200 build *)
Definition x_build_indexer (b : backend) (name : list Z) (o : chunk_opts) : prog tcmd (res (indexer * kv)) :=
  match b with
  | Sled => lift ff (build_indexer Sled name o)
  | TiKvDry => let? ix := t_build_indexer name o in Ret (Ok (ix, []))
  end.
(* src/storage/sled_storage.rs:150-156 and src/storage/tikv_storage.rs:124-143 read_from_chunk *)
Definition x_read_storage (b : backend) (name : list Z) (o : chunk_opts) : prog tcmd (res (option (storage * kv))) :=
  match b with
  | Sled => lift ff (read_storage Sled name o)
  | TiKvDry => let? id := lift (@TK) (tikv_storage_read (o_ident o)) in Ret (Ok (option_map (fun i => (TiKvStorage i, [])) id))
  end.
(* src/indexer/sled_indexer.rs:166-170 and src/indexer/tikv_indexer.rs:206-225 read_from_chunk *)
Definition x_read_indexer (b : backend) (name : list Z) (o : chunk_opts) : prog tcmd (res (option (indexer * kv))) :=
  match b with
  | Sled => lift ff (read_indexer Sled name o)
  | TiKvDry => let? id := lift (@TK) (tikv_indexer_read (o_ident o)) in Ret (Ok (option_map (fun i => (TiKvIndexer i, [])) id))
  end.

(* src/db.rs:60-84 and 269-303: the new chunk starting at [start] *)
Definition x_create_chunk (cf : config) (start : Z) : prog tcmd (res dchunk) :=
  let! ident := call (ff _ FUuid) in
  match arith_u (cf_dbg cf) 64 (start + cf_size cf) with
  | Panic => Ret Panic
  | Err e => Ret (Err e)
  | Ok en =>
      let o := mkOpts start en ident in
      let name := encode_chunk_dir start en in
      let! w := lift ff (write_config_to_dir name o) in
      match w with
      | Panic => Ret Panic
      | Err _ => Ret (Err InternalErr)
      | Ok _ =>
          let? st := x_build_storage (cf_st cf) name o in
          let? ix := x_build_indexer (cf_ix cf) name o in
          Ret (Ok (mkDc (mkChunk (fst st) (fst ix) start en) (new_world (snd st) (snd ix)) name))
      end
  end.
(* src/db.rs:134-169: one entry of the directory *)
Definition x_read_entry (cf : config) (name : list Z) : prog tcmd (res (option dchunk)) :=
  match extract_name (join (cf_base cf) name) with
  | Panic => Ret Panic
  | Err e => Ret (Err e)
  | Ok dir_name =>
      match decode_chunk_dir dir_name with
      | Ok (s, e) =>
          let? o := lift ff (read_config_from_dir name) in
          let! now := call (ff _ FClock) in
          let? st := x_read_storage (cf_st cf) name o in
          let? ix := x_read_indexer (cf_ix cf) name o in
          Ret (Ok match st, ix with
                  | Some (st, ss), Some (ix, si) =>
                      Some (mkDc (mkChunk st ix s (if now <? e then now else e)) (set_closed (new_world ss si) true) name)
                  | _, _ => None
                  end)
      | _ => Ret (Ok None)
      end
  end.
(* src/db.rs:127-173 read_existing_chunk *)
Definition x_read_existing_chunk (cf : config) : prog tcmd (res (list dchunk)) :=
  let? names := call (ff _ FReadDir) in
  let? l := forM (x_read_entry cf) names in
  Ret (Ok (sort_chunks (somes l))).
(* src/db.rs:39-103 MonolithDb::new, up to the start of the two threads *)
Definition x_db_new (cf : config) : prog tcmd (res (list dchunk * dchunk)) :=
  let? _ := lift ff (read_or_create_metadata (own_meta cf)) in
  let? old := x_read_existing_chunk cf in
  let! now := call (ff _ FClock) in
  let? cur := x_create_chunk cf now in
  Ret (Ok (old, cur)).
(* src/db.rs:269-318 swap *)
Definition x_swap (cf : config) (start : Z) : prog tcmd (res unit) :=
  let? c := x_create_chunk cf start in
  lift (@TD) (swap_in c).
