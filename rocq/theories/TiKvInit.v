(* Model of src/backend/tikv.rs: the identifiers of TiKV components. *)
From Verif Require Import Rust Prog.

(* uuid::Uuid::nil *)
Definition nil_uuid : bytes := repeat 0 16.

(* &value[..16] and &value[16..] *)
Definition low16 (v : bytes) : res bytes := if (16 <=? length v)%nat then Ok (firstn 16 v) else Panic.
Definition high16 (v : bytes) : res bytes := if (16 <=? length v)%nat then Ok (skipn 16 v) else Panic.

(* src/backend/tikv.rs:15-35 init_component; [uuid] is the fresh identifier.  The results of the
   two sets are dropped.  [res.append(storage_id.as_mut())] moves the bytes out, so the returned
   [storage_id] is empty. *)
Definition init_component (chunk_id : bytes) (is_indexer : bool) (uuid : bytes) : prog kcmd (res bytes) :=
  let? cur := call (KGet chunk_id) in
  let value := match cur with Some v => v | None => nil_uuid ++ nil_uuid end in
  if is_indexer then
    match low16 value with
    | Ok lo =>
        let! _ := call (KSet chunk_id (uuid ++ lo)) in
        Ret (Ok (uuid ++ lo))
    | Err e => Ret (Err e)
    | Panic => Ret Panic
    end
  else
    match high16 value with
    | Ok hi =>
        let! _ := call (KSet chunk_id (hi ++ uuid)) in
        Ret (Ok [])
    | Err e => Ret (Err e)
    | Panic => Ret Panic
    end.

(* src/storage/tikv_storage.rs:124-143 read_from_chunk: the identifier under which a reopened
   storage looks for its data (None: the chunk is not opened) *)
Definition tikv_storage_read (chunk_id : bytes) : prog kcmd (res (option bytes)) :=
  let? v := call (KGet chunk_id) in
  Ret match v with Some b => rmap Some (high16 b) | None => Ok None end.
(* src/indexer/tikv_indexer.rs:206-225 read_from_chunk *)
Definition tikv_indexer_read (chunk_id : bytes) : prog kcmd (res (option bytes)) :=
  let? v := call (KGet chunk_id) in
  Ret match v with Some b => rmap Some (low16 b) | None => Ok None end.
