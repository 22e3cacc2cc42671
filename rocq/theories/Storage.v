(* Model of src/storage: the time point codec, range trimming, and the sled and TiKV point
   stores as programs over a key-value store. *)
From Coq Require Import String.
From Verif Require Import Rust Prog Gorilla Compactor.

(* src/storage/sled_storage.rs:108-116 KvStorageProcessor::encode_time_point *)
Definition encode_time_point (ts v : Z) : bytes := be_bytes 8 ts ++ be_bytes 8 v.

(* src/storage/sled_storage.rs:118-132 KvStorageProcessor::decode_time_point; the two
   try_into().unwrap() cannot fail after the length check *)
Definition decode_time_point (raw : bytes) : res tp :=
  if negb (List.length raw =? 16)%nat then Err InternalErr
  else Ok (mkTp (from_be (firstn 8 raw)) (from_be (skipn 8 raw))).

(* the outcome of slice::binary_search: Ok(i) / Err(i).  The search itself is the standard
   library's; its result is a parameter [bs] of the model. *)
Inductive found := Found (i : nat) | Missing (i : nat).
Definition bsearch := list tp -> Z -> found.

(* &series[l..=r] as src/storage/common.rs:46-47 uses it: panics if l > r+1 or r+1 > len *)
Definition slice_incl (series : list tp) (l r : nat) : res (list tp) :=
  if (l <=? S r)%nat && (S r <=? List.length series)%nat
  then Ok (firstn (S r - l) (skipn l series)) else Panic.

(* src/storage/common.rs:32-48 trim_time_series.  [idx - 1] on 0usize panics with overflow
   checks; without, it wraps to usize::MAX and the inclusive slice up to usize::MAX panics, so
   both profiles panic. *)
Definition trim_time_series (bs : bsearch) (series : list tp) (s e : Z) : res (list tp) :=
  let lft := match bs series s with Found i => i | Missing i => i end in
  let* rgt := match bs series e with
                | Found i => Ok i
                | Missing i => match i with O => Panic | S j => Ok j end
                end in
  slice_incl series lft rgt.

(* src/storage/sled_storage.rs:84-95 and src/storage/tikv_storage.rs:65-79: the common tail of
   both read_time_series; first().unwrap() and last().unwrap() panic on an empty series *)
Definition read_tail (bs : bsearch) (series : list tp) (s e : Z) : res (list tp) :=
  match series with
  | [] => Panic
  | f :: _ =>
      let l := List.last series f in
      if (e <? tp_ts f) || (tp_ts l <? s) then Err (OutOfRangeErr (tp_ts f) (tp_ts l))
      else trim_time_series bs series s e
  end.

(* which storage; a TiKV storage carries its storage_identifier (src/storage/tikv_storage.rs:14-18) *)
Inductive storage := SledStorage | TiKvStorage (ident : bytes).

(* src/storage/sled_storage.rs:13, 35-37: "TS" ++ decimal id *)
Definition sled_series_key (id : Z) : bytes := s2b "TS" ++ to_dec id.
(* src/storage/tikv_storage.rs:32-34: identifier ++ id big endian *)
Definition tikv_series_key (ident : bytes) (id : Z) : bytes := ident ++ be_bytes 8 id.

(* src/storage/sled_storage.rs:61-78 SledStorage::write_time_point; the result of the appending
   set is dropped *)
Definition sled_write (id ts v : Z) : prog kcmd (res unit) :=
  let? cur := call (KGet (sled_series_key id)) in
  match cur with
  | Some b => let! _ := call (KSet (sled_series_key id) (b ++ encode_time_point ts v)) in Ret (Ok tt)
  | None => let? _ := call (KSet (sled_series_key id) (encode_time_point ts v)) in Ret (Ok tt)
  end.

(* src/storage/sled_storage.rs:39-56 get_series_by_id and 80-96 read_time_series; the Option is
   always Some on success *)
Definition sled_read (bs : bsearch) (id s e : Z) : prog kcmd (res (list tp)) :=
  let? cur := call (KGet (sled_series_key id)) in
  Ret match cur with
      | None => Err NotFoundErr
      | Some b => let* series := mapM decode_time_point (chunks 16 b) in read_tail bs series s e
      end.

(* src/storage/tikv_storage.rs:23-51 TiKvStorage::write_time_point; [val.len() - 16] on a shorter
   value panics in both profiles (the wrapped index is out of bounds) *)
Definition tikv_write (ident : bytes) (id ts v : Z) : prog kcmd (res unit) :=
  let key := tikv_series_key ident id in
  let? cur := call (KGet key) in
  match cur with
  | Some b =>
      if (List.length b <? 16)%nat then Ret Panic
      else match decode_time_point (skipn (List.length b - 16) b) with
           | Ok last =>
               if ts <=? tp_ts last then Ret (Err InternalErr)
               else let? _ := call (KSet key (b ++ encode_time_point ts v)) in Ret (Ok tt)
           | Err e => Ret (Err e)
           | Panic => Ret Panic
           end
  | None => let? _ := call (KSet key (encode_time_point ts v)) in Ret (Ok tt)
  end.

(* src/storage/tikv_storage.rs:53-83 TiKvStorage::read_time_series *)
Definition tikv_read (ident : bytes) (bs : bsearch) (id s e : Z) : prog kcmd (res (list tp)) :=
  let? cur := call (KGet (tikv_series_key ident id)) in
  Ret match cur with
      | None => Err NotFoundErr
      | Some b => let* series := mapM decode_time_point (chunks 16 b) in read_tail bs series s e
      end.

(* src/storage/common.rs:8-30: the Storage trait, dispatched on the implementation *)
Definition write_time_point (st : storage) (id ts v : Z) : prog kcmd (res unit) :=
  match st with
  | SledStorage => sled_write id ts v
  | TiKvStorage ident => tikv_write ident id ts v
  end.
Definition read_time_series (st : storage) (bs : bsearch) (id s e : Z) : prog kcmd (res (list tp)) :=
  match st with
  | SledStorage => sled_read bs id s e
  | TiKvStorage ident => tikv_read ident bs id s e
  end.
