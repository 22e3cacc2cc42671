(* Model of src/db.rs: opening a database, writing, querying and swapping chunks; of ChunkOpts in
   src/chunk/chunk.rs; and of the builders of the storages and indexers. *)
From Coq Require Import String.
From Verif Require Import Rust Prog Gorilla Storage Labels Indexer Chunk Utils TiKvInit.
Local Notation length := List.length.

(* ------------------------------------------------------------------ *)
(** * Files *)

(* src/chunk/chunk.rs:23-28 ChunkOpts (as stored, both times are always present) *)
Record chunk_opts := mkOpts { o_start : Z; o_end : Z; o_ident : bytes }.
(* src/common/metadata.rs:4-8 DbMetadata *)
Record db_meta := mkMeta { m_indexer_type : bytes; m_storage_type : bytes }.

(* A JSON file: created (or truncated) and not yet written, or written.  The text is left out:
   an empty file does not parse, a written file parses to what was written (serde). *)
Inductive file (A : Type) : Type := Empty | Written (a : A).
Arguments Empty {A}.
Arguments Written {A} a.

(* a directory inside the database directory: its metadata.json, and the content of the sled
   databases below storage/ and indexer/, if they exist *)
Record cdir := mkCdir { cd_meta : option (file chunk_opts); cd_st : option kv; cd_ix : option kv }.

(* The file system below the database directory, the clock and the source of uuids.
   [f_dirs]: name and content of each directory.  [f_order]: the order in which read_dir lists
   entries.  [f_clock n], [f_uuid n]: the answer to the n-th question.  [f_faults]: which of the
   coming file operations fail ([] = none). *)
Record fworld := mkF {
  f_meta : option (file db_meta);
  f_dirs : list (list Z * cdir);
  f_order : list (list Z) -> list (list Z);
  f_clock : nat -> Z;
  f_ticks : nat;
  f_uuid : nat -> bytes;
  f_drawn : nat;
  f_faults : list bool }.

Inductive fcmd : Type -> Type :=
(* get_current_timestamp; Uuid::new_v4 *)
| FClock : fcmd Z
| FUuid : fcmd bytes
(* the metadata.json of the database: fs::read_to_string (None: cannot be read), File::create,
   serde_json::to_writer (one write) *)
| FReadMeta : fcmd (option (file db_meta))
| FCreateMeta : fcmd (res unit)
| FWriteMeta (m : db_meta) : fcmd (res unit)
(* fs::read_dir: the names of the entries *)
| FReadDir : fcmd (res (list (list Z)))
(* the directory [name]: fs::create_dir_all; the same three for its metadata.json *)
| FMkDir (name : list Z) : fcmd (res unit)
| FReadOpts (name : list Z) : fcmd (option (file chunk_opts))
| FCreateOpts (name : list Z) : fcmd (res unit)
| FWriteOpts (name : list Z) (o : chunk_opts) : fcmd (res unit)
(* sled's open of [name]/storage and [name]/indexer: the content; created when absent *)
| FOpenSt (name : list Z) : fcmd (res kv)
| FOpenIx (name : list Z) : fcmd (res kv).

Definition name_eqb : list Z -> list Z -> bool := bytes_eqb.
Fixpoint find_dir (ds : list (list Z * cdir)) (name : list Z) : option cdir :=
  match ds with
  | [] => None
  | (n, d) :: ds' => if name_eqb n name then Some d else find_dir ds' name
  end.
(* replace the directory, or add it at the end *)
Fixpoint put_dir (ds : list (list Z * cdir)) (name : list Z) (d : cdir) : list (list Z * cdir) :=
  match ds with
  | [] => [(name, d)]
  | (n, d') :: ds' => if name_eqb n name then (n, d) :: ds' else (n, d') :: put_dir ds' name d
  end.
Definition no_dir : cdir := mkCdir None None None.

Definition set_dirs (f : fworld) (ds : list (list Z * cdir)) : fworld :=
  mkF (f_meta f) ds (f_order f) (f_clock f) (f_ticks f) (f_uuid f) (f_drawn f) (f_faults f).
Definition set_fmeta (f : fworld) (m : option (file db_meta)) : fworld :=
  mkF m (f_dirs f) (f_order f) (f_clock f) (f_ticks f) (f_uuid f) (f_drawn f) (f_faults f).
Definition tick (f : fworld) : fworld :=
  mkF (f_meta f) (f_dirs f) (f_order f) (f_clock f) (S (f_ticks f)) (f_uuid f) (f_drawn f) (f_faults f).
Definition draw (f : fworld) : fworld :=
  mkF (f_meta f) (f_dirs f) (f_order f) (f_clock f) (f_ticks f) (f_uuid f) (S (f_drawn f)) (f_faults f).
Definition next_fault (f : fworld) : fworld :=
  mkF (f_meta f) (f_dirs f) (f_order f) (f_clock f) (f_ticks f) (f_uuid f) (f_drawn f) (tl (f_faults f)).

(* src/lib.rs:50-51 *)
Definition metadata_name : list Z := s2b "metadata.json".

(* the entries of the database directory *)
Definition entries (f : fworld) : list (list Z) :=
  match f_meta f with Some _ => [metadata_name] | None => [] end ++ map fst (f_dirs f).

Definition open_or_new (o : option kv) : kv := match o with Some s => s | None => [] end.

(* What the file commands do.  An operation that fails does nothing.  Opening the same sled
   database twice in one process (sled refuses it) is left out: chunk directories differ. *)
Definition fhandler : handler fcmd fworld :=
  fun X c f =>
    let fails := hd false (f_faults f) in
    let g := next_fault f in
    let upd_dir name (h : cdir -> cdir) :=
      set_dirs g (put_dir (f_dirs g) name (h (match find_dir (f_dirs g) name with
                                              | Some d => d | None => no_dir end))) in
    match c in fcmd X return option (X * fworld) with
    | FClock => Some (f_clock f (f_ticks f), tick f)
    | FUuid => Some (f_uuid f (f_drawn f), draw f)
    | FReadMeta => Some (if fails then None else f_meta f, g)
    | FCreateMeta => Some (if fails then (Err IoError, g) else (Ok tt, set_fmeta g (Some Empty)))
    | FWriteMeta m => Some (if fails then (Err SerdeJsonErr, g) else (Ok tt, set_fmeta g (Some (Written m))))
    | FReadDir => Some (if fails then Err IoError else Ok (f_order f (entries f)), g)
    | FMkDir name => Some (if fails then (Err IoError, g) else (Ok tt, upd_dir name (fun d => d)))
    | FReadOpts name =>
        Some (if fails then None
              else match find_dir (f_dirs f) name with Some d => cd_meta d | None => None end, g)
    | FCreateOpts name =>
        Some (if fails then (Err IoError, g)
              else (Ok tt, upd_dir name (fun d => mkCdir (Some Empty) (cd_st d) (cd_ix d))))
    | FWriteOpts name o =>
        Some (if fails then (Err SerdeJsonErr, g)
              else (Ok tt, upd_dir name (fun d => mkCdir (Some (Written o)) (cd_st d) (cd_ix d))))
    | FOpenSt name =>
        Some (if fails then (Err IoError, g)
              else (Ok (open_or_new (match find_dir (f_dirs f) name with Some d => cd_st d | None => None end)),
                    upd_dir name (fun d => mkCdir (cd_meta d) (Some (open_or_new (cd_st d))) (cd_ix d))))
    | FOpenIx name =>
        Some (if fails then (Err IoError, g)
              else (Ok (open_or_new (match find_dir (f_dirs f) name with Some d => cd_ix d | None => None end)),
                    upd_dir name (fun d => mkCdir (cd_meta d) (cd_st d) (Some (open_or_new (cd_ix d))))))
    end.

(* ------------------------------------------------------------------ *)
(** * Options and builders *)

(* the two storage types; TiKV here is the dry run (src/backend/tikv.rs:94-103: every
   get_instance makes a new in-memory backend).  A shared TiKV is the subject of TiKvProofs. *)
Inductive backend := Sled | TiKvDry.

(* src/storage/sled_storage.rs:99-103, src/storage/tikv_storage.rs:86-90,
   src/indexer/sled_indexer.rs:63-67, src/indexer/tikv_indexer.rs:168-172: get_type_name *)
Definition storage_name (b : backend) : bytes :=
  match b with Sled => s2b "SledStorage" | TiKvDry => s2b "TiKvStorage" end.
Definition indexer_name (b : backend) : bytes :=
  match b with Sled => s2b "SledIndexer" | TiKvDry => s2b "TiKvIndexer" end.

(* src/chunk/chunk.rs:31-43 read_config_from_dir *)
Definition read_config_from_dir (name : list Z) : prog fcmd (res chunk_opts) :=
  let! c := call (FReadOpts name) in
  Ret match c with
      | None => Err NotFoundErr
      | Some Empty => Err SerdeJsonErr
      | Some (Written o) => Ok o
      end.
(* src/chunk/chunk.rs:46-55 write_config_to_dir: the result of the write is dropped *)
Definition write_config_to_dir (name : list Z) (o : chunk_opts) : prog fcmd (res unit) :=
  let? _ := call (FMkDir name) in
  let? _ := call (FCreateOpts name) in
  let! _ := call (FWriteOpts name o) in
  Ret (Ok tt).

(* src/storage/sled_storage.rs:137-144 and src/storage/tikv_storage.rs:103-118 build *)
Definition build_storage (b : backend) (name : list Z) (o : chunk_opts) : prog fcmd (res (storage * kv)) :=
  match b with
  | Sled => let? s := call (FOpenSt name) in Ret (Ok (SledStorage, s))
  | TiKvDry =>
      let? _ := call (FMkDir name) in
      let! u := call FUuid in
      let '(r, s) := krun (init_component (o_ident o) false u) [] in
      Ret (rmap (fun id => (TiKvStorage id, s)) r)
  end.
(* src/indexer/sled_indexer.rs:153-160 and src/indexer/tikv_indexer.rs:185-200 build *)
Definition build_indexer (b : backend) (name : list Z) (o : chunk_opts) : prog fcmd (res (indexer * kv)) :=
  match b with
  | Sled => let? s := call (FOpenIx name) in Ret (Ok (SledIndexer, s))
  | TiKvDry =>
      let? _ := call (FMkDir name) in
      let! u := call FUuid in
      let '(r, s) := krun (init_component (o_ident o) true u) [] in
      Ret (rmap (fun id => (TiKvIndexer id, s)) r)
  end.
(* src/storage/sled_storage.rs:150-156 and src/storage/tikv_storage.rs:124-143 read_from_chunk;
   a new in-memory backend does not know the identifier *)
Definition read_storage (b : backend) (name : list Z) (o : chunk_opts)
  : prog fcmd (res (option (storage * kv))) :=
  match b with
  | Sled => let? s := call (FOpenSt name) in Ret (Ok (Some (SledStorage, s)))
  | TiKvDry =>
      let '(r, s) := krun (tikv_storage_read (o_ident o)) [] in
      Ret (rmap (option_map (fun id => (TiKvStorage id, s))) r)
  end.
(* src/indexer/sled_indexer.rs:166-170 and src/indexer/tikv_indexer.rs:206-225 *)
Definition read_indexer (b : backend) (name : list Z) (o : chunk_opts)
  : prog fcmd (res (option (indexer * kv))) :=
  match b with
  | Sled => let? s := call (FOpenIx name) in Ret (Ok (Some (SledIndexer, s)))
  | TiKvDry =>
      let '(r, s) := krun (tikv_indexer_read (o_ident o)) [] in
      Ret (rmap (option_map (fun id => (TiKvIndexer id, s))) r)
  end.

(* ------------------------------------------------------------------ *)
(** * Opening *)

(* a chunk with its initial state and the name of its directory *)
Record dchunk := mkDc { dc_chunk : chunk; dc_world : cworld; dc_name : list Z }.

Record config := mkConfig {
  cf_dbg : bool;          (* overflow checks *)
  cf_base : list Z;       (* the path of the database directory *)
  cf_st : backend;        (* the type S *)
  cf_ix : backend;        (* the type I *)
  cf_size : Z }.          (* the chunk size in ms, as u64 *)

(* src/db.rs:44-47: the names are swapped *)
Definition own_meta (cf : config) : db_meta := mkMeta (storage_name (cf_st cf)) (indexer_name (cf_ix cf)).

(* src/db.rs:107-124 read_or_create_metadata *)
Definition read_or_create_metadata (m : db_meta) : prog fcmd (res unit) :=
  let! c := call FReadMeta in
  match c with
  | Some Empty => Ret (Err SerdeJsonErr)
  | Some (Written m') =>
      Ret (if bytes_eqb (m_indexer_type m') (m_indexer_type m)
              && bytes_eqb (m_storage_type m') (m_storage_type m)
           then Ok tt else Err OptionErr)
  | None =>
      let? _ := call FCreateMeta in
      let? _ := call (FWriteMeta m) in
      Ret (Ok tt)
  end.

(* src/db.rs:134-169: one entry of the directory; the opened chunk has been closed *)
Definition read_entry (cf : config) (name : list Z) : prog fcmd (res (option dchunk)) :=
  match extract_name (join (cf_base cf) name) with
  | Panic => Ret Panic
  | Err e => Ret (Err e)
  | Ok dir_name =>
      match decode_chunk_dir dir_name with
      | Ok (s, e) =>
          let? o := read_config_from_dir name in
          let! now := call FClock in
          let o := mkOpts s (if now <? e then now else e) (o_ident o) in
          let? st := read_storage (cf_st cf) name o in
          let? ix := read_indexer (cf_ix cf) name o in
          Ret (Ok match st, ix with
                  | Some (st, ss), Some (ix, si) =>
                      Some (mkDc (mkChunk st ix (o_start o) (o_end o))
                                 (set_closed (new_world ss si) true) name)
                  | _, _ => None
                  end)
      | _ => Ret (Ok None)
      end
  end.

(* Vec::sort on chunks (by start time): a stable sort *)
Fixpoint insert_chunk (x : dchunk) (l : list dchunk) : list dchunk :=
  match l with
  | [] => [x]
  | y :: l' => match chunk_cmp (dc_chunk x) (dc_chunk y) with
               | Gt => y :: insert_chunk x l'
               | _ => x :: l
               end
  end.
Definition sort_chunks (l : list dchunk) : list dchunk := fold_right insert_chunk [] l.

(* src/db.rs:127-173 read_existing_chunk *)
Definition read_existing_chunk (cf : config) : prog fcmd (res (list dchunk)) :=
  let? names := call FReadDir in
  let? l := forM (read_entry cf) names in
  Ret (Ok (sort_chunks (somes l))).

(* src/db.rs:60-84 and 269-303: the new chunk starting at [start]; any error of
   write_config_to_dir is turned into InternalErr *)
Definition create_chunk (cf : config) (start : Z) : prog fcmd (res dchunk) :=
  let! ident := call FUuid in
  match arith_u (cf_dbg cf) 64 (start + cf_size cf) with
  | Panic => Ret Panic
  | Err e => Ret (Err e)
  | Ok en =>
      let o := mkOpts start en ident in
      let name := encode_chunk_dir start en in
      let! w := write_config_to_dir name o in
      match w with
      | Panic => Ret Panic
      | Err _ => Ret (Err InternalErr)
      | Ok _ =>
          let? st := build_storage (cf_st cf) name o in
          let? ix := build_indexer (cf_ix cf) name o in
          Ret (Ok (mkDc (mkChunk (fst st) (fst ix) start en) (new_world (snd st) (snd ix)) name))
      end
  end.

(* src/db.rs:39-103 MonolithDb::new, up to the start of the two threads: the chunks read and the
   current chunk.  The calls of write_config and write_to_chunk do nothing in every builder. *)
Definition db_new (cf : config) : prog fcmd (res (list dchunk * dchunk)) :=
  let? _ := read_or_create_metadata (own_meta cf) in
  let? old := read_existing_chunk cf in
  let! now := call FClock in
  let? cur := create_chunk cf now in
  Ret (Ok (old, cur)).

(* ------------------------------------------------------------------ *)
(** * The running database *)

(* the state of a std::sync::RwLock *)
Record rw := mkRw { rw_readers : nat; rw_writer : bool; rw_poisoned : bool }.

(* src/db.rs:24-34 MonolithDb: the chunks ever held, the places of current_chuck and
   secondary_chunks among them, the two locks, and the file system *)
Record dworld := mkD {
  d_heap : list dchunk;
  d_cur : nat;
  d_sec : list nat;
  d_curl : rw;
  d_secl : rw;
  d_fs : fworld }.

Inductive dcmd : Type -> Type :=
| DC {X} (i : nat) (c : ccmd X) : dcmd X
| DF {X} (c : fcmd X) : dcmd X
| DAlloc (c : dchunk) : dcmd nat
(* current_chuck.read(): poisoned?, and the chunk held; the guard is dropped *)
| DCurRead : dcmd (bool * (nat * chunk))
| DCurUnread : dcmd unit
| DCurWrite : dcmd (bool * (nat * chunk))
| DCurStore (i : nat) : dcmd unit
| DCurUnwrite (unwinding : bool) : dcmd unit
(* secondary_chunks.read() *)
| DSecRead : dcmd (bool * list (nat * chunk))
| DSecUnread : dcmd unit
| DSecWrite : dcmd bool
| DSecPush (i : nat) : dcmd unit
| DSecUnwrite (unwinding : bool) : dcmd unit.

Definition set_heap (w : dworld) (h : list dchunk) : dworld :=
  mkD h (d_cur w) (d_sec w) (d_curl w) (d_secl w) (d_fs w).
Definition set_fs (w : dworld) (f : fworld) : dworld :=
  mkD (d_heap w) (d_cur w) (d_sec w) (d_curl w) (d_secl w) f.
Definition set_curl (w : dworld) (l : rw) : dworld :=
  mkD (d_heap w) (d_cur w) (d_sec w) l (d_secl w) (d_fs w).
Definition set_secl (w : dworld) (l : rw) : dworld :=
  mkD (d_heap w) (d_cur w) (d_sec w) (d_curl w) l (d_fs w).
Definition set_cur (w : dworld) (i : nat) : dworld :=
  mkD (d_heap w) i (d_sec w) (d_curl w) (d_secl w) (d_fs w).
Definition set_sec (w : dworld) (l : list nat) : dworld :=
  mkD (d_heap w) (d_cur w) l (d_curl w) (d_secl w) (d_fs w).

(* RwLock::read waits for a writer, RwLock::write for readers and writers.  A dropped read guard
   never poisons, a write guard dropped while unwinding does. *)
Definition rw_read (l : rw) : option rw :=
  if rw_writer l then None else Some (mkRw (S (rw_readers l)) false (rw_poisoned l)).
Definition rw_unread (l : rw) : rw := mkRw (pred (rw_readers l)) (rw_writer l) (rw_poisoned l).
Definition rw_write (l : rw) : option rw :=
  if rw_writer l || negb (rw_readers l =? 0)%nat then None else Some (mkRw 0 true (rw_poisoned l)).
Definition rw_unwrite (l : rw) (unwinding : bool) : rw :=
  mkRw (rw_readers l) false (rw_poisoned l || unwinding).

Fixpoint lookups (h : list dchunk) (l : list nat) : option (list (nat * chunk)) :=
  match l with
  | [] => Some []
  | i :: l' =>
      match nth_error h i, lookups h l' with
      | Some d, Some r => Some ((i, dc_chunk d) :: r)
      | _, _ => None
      end
  end.

(* what the commands do; a place outside the heap (there is none) counts as blocked *)
Definition dhandler : handler dcmd dworld :=
  fun X c w =>
    match c in dcmd X return option (X * dworld) with
    | DC i c =>
        match nth_error (d_heap w) i with
        | None => None
        | Some d =>
            match chandler (dc_chunk d) _ c (dc_world d) with
            | None => None
            | Some (x, w') =>
                Some (x, set_heap w (upd (d_heap w) i (mkDc (dc_chunk d) w' (dc_name d))))
            end
        end
    | DF c =>
        match fhandler _ c (d_fs w) with
        | None => None
        | Some (x, f) => Some (x, set_fs w f)
        end
    | DAlloc c => Some (length (d_heap w), set_heap w (d_heap w ++ [c]))
    | DCurRead =>
        match rw_read (d_curl w), nth_error (d_heap w) (d_cur w) with
        | Some l, Some d => Some ((rw_poisoned l, (d_cur w, dc_chunk d)), set_curl w l)
        | _, _ => None
        end
    | DCurUnread => Some (tt, set_curl w (rw_unread (d_curl w)))
    | DCurWrite =>
        match rw_write (d_curl w), nth_error (d_heap w) (d_cur w) with
        | Some l, Some d => Some ((rw_poisoned l, (d_cur w, dc_chunk d)), set_curl w l)
        | _, _ => None
        end
    | DCurStore i => Some (tt, set_cur w i)
    | DCurUnwrite u => Some (tt, set_curl w (rw_unwrite (d_curl w) u))
    | DSecRead =>
        match rw_read (d_secl w), lookups (d_heap w) (d_sec w) with
        | Some l, Some cs => Some ((rw_poisoned l, cs), set_secl w l)
        | _, _ => None
        end
    | DSecUnread => Some (tt, set_secl w (rw_unread (d_secl w)))
    | DSecWrite =>
        match rw_write (d_secl w) with
        | Some l => Some (rw_poisoned l, set_secl w l)
        | None => None
        end
    | DSecPush i => Some (tt, set_sec w (d_sec w ++ [i]))
    | DSecUnwrite u => Some (tt, set_secl w (rw_unwrite (d_secl w) u))
    end.

(* the database just opened *)
Definition free_lock : rw := mkRw 0 false false.
Definition opened (r : list dchunk * dchunk) (f : fworld) : dworld :=
  mkD (fst r ++ [snd r]) (length (fst r)) (seq 0 (length (fst r))) free_lock free_lock f.

(* the process is gone: what is left are the files, with what the sled stores hold *)
Definition left_behind (st ix : backend) (h : list dchunk) (f : fworld) : fworld :=
  set_dirs f (map (fun e =>
    match find (fun d => name_eqb (dc_name d) (fst e)) h with
    | None => e
    | Some d => (fst e, mkCdir (cd_meta (snd e))
                               (match st with Sled => Some (w_st (dc_world d)) | _ => cd_st (snd e) end)
                               (match ix with Sled => Some (w_ix (dc_world d)) | _ => cd_ix (snd e) end))
    end) (f_dirs f)).

(* ------------------------------------------------------------------ *)
(** * Writing *)

(* src/db.rs:186: the points of a batch given to the current chunk *)
Definition batch_passes (ch : chunk) (p : tp) : bool :=
  (c_start ch <=? tp_ts p) && (tp_ts p <=? c_end ch) && negb (tp_ts p =? 0).

(* src/db.rs:183-189: insert them in order; did some insert fail? *)
Fixpoint write_all (i : nat) (ch : chunk) (ls : list label) (pts : list tp) : prog dcmd (res bool) :=
  match pts with
  | [] => Ret (Ok false)
  | p :: pts' =>
      if batch_passes ch p then
        let! r := lift (fun X c => @DC X i c) (chunk_insert ch ls p) in
        match r with
        | Panic => Ret Panic
        | Ok _ => write_all i ch ls pts'
        | Err _ => let? _ := write_all i ch ls pts' in Ret (Ok true)
        end
      else write_all i ch ls pts'
  end.

(* [let c = self.current_chuck.read().unwrap(); body]: the guard lives until the end *)
Definition with_current {A} (body : nat -> chunk -> prog dcmd (res A)) : prog dcmd (res A) :=
  let! c := call DCurRead in
  let '(poisoned, (i, ch)) := c in
  if poisoned : bool then let! _ := call DCurUnread in Ret Panic
  else let! r := body i ch in let! _ := call DCurUnread in Ret r.

(* src/db.rs:176-194 write_time_points *)
Definition db_write_points (ls : list label) (pts : list tp) : prog dcmd (res unit) :=
  with_current (fun i ch =>
    let? failed := write_all i ch ls pts in
    Ret (if failed : bool then Err InternalErr else Ok tt)).

(* src/db.rs:196-200 write_time_point *)
Definition db_write_point (ls : list label) (p : tp) : prog dcmd (res unit) :=
  with_current (fun i ch => lift (fun X c => @DC X i c) (chunk_insert ch ls p)).

(* ------------------------------------------------------------------ *)
(** * Querying *)

(* std::collections::HashMap<Labels, _>: the entries in order of insertion.  [h_probe keys k]:
   the entries whose key is compared with k when k is looked up, in order (this depends on the
   hashes and the table); [h_iter keys]: the order in which keys() lists the entries. *)
Definition hmap := list (list label * list tp).
Record hasher := mkH {
  h_probe : list (list label) -> list label -> list nat;
  h_iter : list (list label) -> list nat }.

Fixpoint probe (m : hmap) (k : list label) (l : list nat) : res (option nat) :=
  match l with
  | [] => Ok None
  | i :: l' =>
      match nth_error m i with
      | None => probe m k l'
      | Some e =>
          let* same := labels_eq k (fst e) in
          if same : bool then Ok (Some i) else probe m k l'
      end
  end.
Definition hm_find (hs : hasher) (m : hmap) (k : list label) : res (option nat) :=
  probe m k (h_probe hs (map fst m) k).

(* HashMap::insert: the key of an existing entry stays, its value is replaced *)
Definition hm_insert (hs : hasher) (m : hmap) (k : list label) (v : list tp) : res hmap :=
  let* o := hm_find hs m k in
  Ok match o with
     | None => m ++ [(k, v)]
     | Some i => match nth_error m i with Some e => upd m i (fst e, v) | None => m end
     end.
(* src/db.rs:238-247: get_mut and append, or insert *)
Definition hm_append (hs : hasher) (m : hmap) (k : list label) (v : list tp) : res hmap :=
  let* o := hm_find hs m k in
  match o with
  | Some i => Ok match nth_error m i with Some e => upd m i (fst e, snd e ++ v) | None => m end
  | None => hm_insert hs m k v
  end.

(* src/db.rs:216-222 and 236-248: the series of one chunk, points reversed *)
Fixpoint merge (f : hmap -> list label -> list tp -> res hmap) (m : hmap) (l : list series) : res hmap :=
  match l with
  | [] => Ok m
  | x :: l' => let* m' := f m (s_meta x) (rev (s_points x)) in merge f m' l'
  end.

(* src/db.rs:252-266: keys, get_key_value, and the points in order again *)
Fixpoint listing (hs : hasher) (m : hmap) (order : list nat) : res (list (list label * list tp)) :=
  match order with
  | [] => Ok []
  | i :: order' =>
      match nth_error m i with
      | None => listing hs m order'
      | Some e =>
          let* o := hm_find hs m (fst e) in
          let* rest := listing hs m order' in
          Ok (match o with
              | Some j => match nth_error m j with
                          | Some e' => (fst e', rev (snd e')) :: rest
                          | None => rest
                          end
              | None => rest
              end)
      end
  end.

(* src/db.rs:229-249: the secondary chunks, given in the order visited; errors are ignored *)
Fixpoint query_secondaries (hs : hasher) (bs : bsearch) (o : timing) (ls : list label) (s e : Z)
    (cs : list (nat * chunk)) (m : hmap) : prog dcmd (res hmap) :=
  match cs with
  | [] => Ret (Ok m)
  | (i, ch) :: cs' =>
      if is_with_range ch s e then
        let! r := lift (fun X c => @DC X i c) (chunk_query ch bs o ls s e) in
        match r with
        | Panic => Ret Panic
        | Err _ => query_secondaries hs bs o ls s e cs' m
        | Ok l =>
            match merge (hm_append hs) m l with
            | Ok m' => query_secondaries hs bs o ls s e cs' m'
            | Err x => Ret (Err x)
            | Panic => Ret Panic
            end
        end
      else query_secondaries hs bs o ls s e cs' m
  end.

(* src/db.rs:202-267 query *)
Definition db_query (hs : hasher) (bs : bsearch) (o : timing) (ls : list label) (s e : Z)
  : prog dcmd (res (list (list label * list tp))) :=
  let? m := with_current (fun i ch =>
      let! r := lift (fun X c => @DC X i c) (chunk_query ch bs o ls s e) in
      Ret match r with
          | Panic => Panic
          | Err _ => Ok []
          | Ok l => merge (hm_insert hs) [] l
          end) in
  let! c := call DSecRead in
  let '(poisoned, cs) := c in
  let! r := if poisoned : bool then Ret Panic else query_secondaries hs bs o ls s e (rev cs) m in
  let! _ := call DSecUnread in
  Ret (let* m := r in listing hs m (h_iter hs (map fst m))).

(* ------------------------------------------------------------------ *)
(** * Swapping *)

(* src/db.rs:269-318 swap *)
Definition db_swap (cf : config) (start : Z) : prog dcmd (res unit) :=
  let? c := lift (@DF) (create_chunk cf start) in
  let! new := call (DAlloc c) in
  let? _ := with_current (fun old _ =>
      let! poisoned := call DSecWrite in
      if poisoned : bool then let! _ := call (DSecUnwrite true) in Ret Panic
      else
        let! _ := call (DSecPush old) in
        let! _ := call (DSecUnwrite false) in
        Ret (Ok tt)) in
  let! c := call DCurWrite in
  let '(poisoned, (old, _)) := c in
  if poisoned : bool then let! _ := call (DCurUnwrite true) in Ret Panic
  else
    let! r := lift (fun X c => @DC X old c) chunk_close in
    match r with
    | Ok _ =>
        let! _ := call (DCurStore new) in
        let! _ := call (DCurUnwrite false) in
        Ret (Ok tt)
    | Err x => let! _ := call (DCurUnwrite false) in Ret (Err x)
    | Panic => let! _ := call (DCurUnwrite true) in Ret Panic
    end.

(* src/db.rs:93-101: the tick thread sends its clock reading, the swap thread starts the next
   chunk one after it *)
Definition db_tick (cf : config) (now : Z) : prog dcmd (res unit) :=
  match arith_u (cf_dbg cf) 64 (now + 1) with
  | Ok start => db_swap cf start
  | Err e => Ret (Err e)
  | Panic => Ret Panic
  end.
