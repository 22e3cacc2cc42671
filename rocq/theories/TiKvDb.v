(* Model of src/db.rs over one real TiKV: src/backend/tikv.rs:94-103 get_instance with dry_run false
   gives every storage and every indexer, of every chunk and of every process, the same store.  Both
   the storage type and the indexer type are the TiKV ones. *)
From Verif Require Import Rust Prog Gorilla Storage Labels Indexer Chunk Utils TiKvInit TiKvShared Db.

(* the database and the store; the chunks keep no store of their own *)
Record tworld := mkT { t_db : dworld; t_kv : kv }.
Inductive tcmd : Type -> Type :=
| TD {X} (c : dcmd X) : tcmd X
| TK {X} (c : kcmd X) : tcmd X.
Definition ff X (c : fcmd X) : tcmd X := TD (DF c).

(* the state of a chunk with the store in its place, and without it *)
Definition enter (s : kv) (w : cworld) : cworld := set_st w s (w_faults w).
Definition leave (w : cworld) : cworld := set_st w [] (w_faults w).

(* what the commands of the database do: those of its chunks work on the store (TiKvShared.v), the
   others are as in Db.v *)
Definition tdhandler : handler dcmd tworld :=
  fun X c t =>
    let plain {X} (c : dcmd X) :=
      match dhandler _ c (t_db t) with
      | None => None
      | Some (x, w) => Some (x, mkT w (t_kv t))
      end in
    match c in dcmd X return option (X * tworld) with
    | DC i c =>
        match nth_error (d_heap (t_db t)) i with
        | None => None
        | Some d =>
            match shandler (dc_chunk d) _ c (enter (t_kv t) (dc_world d)) with
            | None => None
            | Some (x, w') =>
                Some (x, mkT (set_heap (t_db t) (upd (d_heap (t_db t)) i (mkDc (dc_chunk d) (leave w') (dc_name d)))) (w_st w'))
            end
        end
    | DF c => plain (DF c)
    | DAlloc c => plain (DAlloc c)
    | DCurRead => plain DCurRead
    | DCurUnread => plain DCurUnread
    | DCurWrite => plain DCurWrite
    | DCurStore i => plain (DCurStore i)
    | DCurUnwrite u => plain (DCurUnwrite u)
    | DSecRead => plain DSecRead
    | DSecUnread => plain DSecUnread
    | DSecWrite => plain DSecWrite
    | DSecPush i => plain (DSecPush i)
    | DSecUnwrite u => plain (DSecUnwrite u)
    end.
(* and the commands sent to the store while a chunk is built or opened *)
Definition thandler : handler tcmd tworld :=
  fun X c t =>
    match c in tcmd X return option (X * tworld) with
    | TD c => tdhandler _ c t
    | TK c => match kv_handler _ c (t_kv t) with
              | Some (x, s) => Some (x, mkT (t_db t) s)
              | None => None
              end
    end.

(* src/storage/tikv_storage.rs:103-118 build *)
Definition t_build_storage (name : list Z) (o : chunk_opts) : prog tcmd (res storage) :=
  let? _ := call (ff _ (FMkDir name)) in
  let! u := call (ff _ FUuid) in
  let? id := lift (@TK) (init_component (o_ident o) false u) in
  Ret (Ok (TiKvStorage id)).
(* src/indexer/tikv_indexer.rs:185-200 build *)
Definition t_build_indexer (name : list Z) (o : chunk_opts) : prog tcmd (res indexer) :=
  let? _ := call (ff _ (FMkDir name)) in
  let! u := call (ff _ FUuid) in
  let? id := lift (@TK) (init_component (o_ident o) true u) in
  Ret (Ok (TiKvIndexer id)).

(* src/db.rs:60-84 and 269-303: the new chunk starting at [start] *)
Definition t_create_chunk (cf : config) (start : Z) : prog tcmd (res dchunk) :=
  let! ident := call (ff _ FUuid) in
  match arith_u (cf_dbg cf) 64 (start + cf_size cf) with
  | Panic => Ret Panic
  | Err e => Ret (Err e)
  | Ok en =>
      let o := mkOpts start en ident in
      let name := encode_chunk_dir start en in
      let! w := lift ff (write_config_to_dir name o) in
      match w with
      | Panic => Ret Panic
      | Err _ => Ret (Err InternalErr)
      | Ok _ =>
          let? st := t_build_storage name o in
          let? ix := t_build_indexer name o in
          Ret (Ok (mkDc (mkChunk st ix start en) (new_world [] []) name))
      end
  end.

(* src/db.rs:134-169: one entry of the directory.  src/storage/tikv_storage.rs:124-143 and
   src/indexer/tikv_indexer.rs:206-225 read_from_chunk: a chunk the store does not know is left out *)
Definition t_read_entry (cf : config) (name : list Z) : prog tcmd (res (option dchunk)) :=
  match extract_name (join (cf_base cf) name) with
  | Panic => Ret Panic
  | Err e => Ret (Err e)
  | Ok dir_name =>
      match decode_chunk_dir dir_name with
      | Ok (s, e) =>
          let? o := lift ff (read_config_from_dir name) in
          let! now := call (ff _ FClock) in
          let? st := lift (@TK) (tikv_storage_read (o_ident o)) in
          let? ix := lift (@TK) (tikv_indexer_read (o_ident o)) in
          Ret (Ok match st, ix with
                  | Some st, Some ix =>
                      Some (mkDc (mkChunk (TiKvStorage st) (TiKvIndexer ix) s (if now <? e then now else e))
                                 (set_closed (new_world [] []) true) name)
                  | _, _ => None
                  end)
      | _ => Ret (Ok None)
      end
  end.
(* src/db.rs:127-173 read_existing_chunk *)
Definition t_read_existing_chunk (cf : config) : prog tcmd (res (list dchunk)) :=
  let? names := call (ff _ FReadDir) in
  let? l := forM (t_read_entry cf) names in
  Ret (Ok (sort_chunks (somes l))).
(* src/db.rs:39-103 MonolithDb::new, up to the start of the two threads *)
Definition t_db_new (cf : config) : prog tcmd (res (list dchunk * dchunk)) :=
  let? _ := lift ff (read_or_create_metadata (own_meta cf)) in
  let? old := t_read_existing_chunk cf in
  let! now := call (ff _ FClock) in
  let? cur := t_create_chunk cf now in
  Ret (Ok (old, cur)).

(* src/db.rs:304-317: the rest of swap, once the new chunk is there *)
Definition swap_in (c : dchunk) : prog dcmd (res unit) :=
  let! new := call (DAlloc c) in
  let? _ := with_current (fun old _ =>
      let! poisoned := call DSecWrite in
      if poisoned : bool then let! _ := call (DSecUnwrite true) in Ret Panic
      else
        let! _ := call (DSecPush old) in
        let! _ := call (DSecUnwrite false) in
        Ret (Ok tt)) in
  let! c := call DCurWrite in
  let '(poisoned, (old, _)) := c in
  if poisoned : bool then let! _ := call (DCurUnwrite true) in Ret Panic
  else
    let! r := lift (fun X c => @DC X old c) chunk_close in
    match r with
    | Ok _ =>
        let! _ := call (DCurStore new) in
        let! _ := call (DCurUnwrite false) in
        Ret (Ok tt)
    | Err x => let! _ := call (DCurUnwrite false) in Ret (Err x)
    | Panic => let! _ := call (DCurUnwrite true) in Ret Panic
    end.
(* src/db.rs:269-318 swap *)
Definition t_swap (cf : config) (start : Z) : prog tcmd (res unit) :=
  let? c := t_create_chunk cf start in
  lift (@TD) (swap_in c).
