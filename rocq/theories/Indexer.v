(* Model of src/indexer: the sled and TiKV label indexes as programs over a key-value store. *)
From Coq Require Import String.
From Verif Require Import Rust Prog Compactor Labels.

(* which indexer; a TiKV indexer carries its indexer_identifier (src/indexer/tikv_indexer.rs:14-18) *)
Inductive indexer := SledIndexer | TiKvIndexer (ident : bytes).

(* String::from_utf8 on a stored value is modelled as the identity: every value a sled indexer
   stores is a String. *)

(* str::parse::<u64>()? *)
Definition parse_id (s : bytes) : res Z :=
  match parse_u 64 10 s with Some z => Ok z | None => Err ParseErr end.

(* the result of the parallel intersection; None (out of fuel) never happens, see C18 *)
Definition finish (r : option (list Z)) : res (list Z) :=
  match r with Some l => Ok l | None => Panic end.

(* src/indexer/sled_indexer.rs:47-60 get_id *)
Definition sled_get_id (l : label) : prog kcmd (res (option (list Z))) :=
  let? v := call (KGet (encode_label l)) in
  Ret match v with
      | Some s => rmap Some (mapM parse_id (split_on comma s))
      | None => Ok None
      end.

Definition somes {A} (l : list (option A)) : list A :=
  flat_map (fun o => match o with Some a => [a] | None => [] end) l.

(* src/indexer/sled_indexer.rs:87-96 get_series_id_contains_labels *)
Definition sled_contains (o : timing) (ls : list label) : prog kcmd (res (list Z)) :=
  let? found := forM sled_get_id ls in
  Ret (finish (intersect_time_series_id_vec o (somes found))).

(* src/indexer/sled_indexer.rs:70-85 get_series_metadata_contains_labels *)
Definition sled_metadata (o : timing) (ls : list label) : prog kcmd (res (list (Z * list label))) :=
  let? ids := sled_contains o ls in
  let? found := forM (fun id =>
      let? v := call (KGet (encode_time_series_id id)) in
      Ret match v with
          | Some s => rmap (fun l => Some (id, l)) (decode_labels s false)
          | None => Ok None
          end) ids in
  Ret (Ok (somes found)).

(* src/indexer/sled_indexer.rs:98-107 get_series_id_by_labels *)
Definition sled_by_labels (ls : list label) : prog kcmd (res (option Z)) :=
  let? v := call (KGet (encode_labels ls true)) in
  Ret match v with
      | Some s => rmap Some (parse_id s)
      | None => Ok None
      end.

(* src/indexer/sled_indexer.rs:134-144: one reverse entry; the results of set and flush are
   dropped (flush, which makes the write durable, is left out) *)
Definition sled_add_reverse (id : Z) (l : label) : prog kcmd (res unit) :=
  let? v := call (KGet (encode_label l)) in
  let val := match v with
             | None => to_dec id
             | Some s => s ++ [comma] ++ to_dec id
             end in
  let! _ := call (KSet (encode_label l) val) in
  Ret (Ok tt).

(* src/indexer/sled_indexer.rs:109-147 create_index; contains_key is a get whose value is not
   used; the results of the two sets are dropped *)
Definition sled_create (ls : list label) (id : Z) : prog kcmd (res unit) :=
  let? v := call (KGet (encode_labels ls true)) in
  match v with
  | Some _ => Ret (Err InternalErr)
  | None =>
      let! _ := call (KSet (encode_labels ls true) (to_dec id)) in
      let! _ := call (KSet (encode_time_series_id id) (encode_labels ls false)) in
      let? _ := forM (sled_add_reverse id) ls in
      Ret (Ok tt)
  end.

(* u64::from_be_bytes(raw.try_into().unwrap()) *)
Definition id_of_bytes (b : bytes) : res Z :=
  if (List.length b =? 8)%nat then Ok (from_be b) else Panic.

(* src/indexer/tikv_indexer.rs:72-87: gets that fail or find nothing are skipped *)
Fixpoint tikv_gets (keys : list bytes) : prog kcmd (list bytes) :=
  match keys with
  | [] => Ret []
  | k :: ks =>
      let! r := call (KGet k) in
      let! rest := tikv_gets ks in
      Ret match r with Ok (Some v) => v :: rest | _ => rest end
  end.

(* src/indexer/tikv_indexer.rs:70-101 get_series_id_contains_labels *)
Definition tikv_contains (ident : bytes) (o : timing) (ls : list label) : prog kcmd (res (list Z)) :=
  let! vals := tikv_gets (map (fun l => ident ++ encode_label l) ls) in
  Ret (let* idss := mapM (fun v => mapM id_of_bytes (chunks 8 v)) vals in
       finish (intersect_time_series_id_vec o idss)).

(* src/indexer/tikv_indexer.rs:36-67: one id after the other, the lazy iterator chain; ids whose
   get fails, finds nothing or does not decode are skipped; from_utf8_lossy is the identity on
   the strings stored *)
Fixpoint tikv_metas (ident : bytes) (ids : list Z) : prog kcmd (list (Z * list label)) :=
  match ids with
  | [] => Ret []
  | id :: ids' =>
      let! r := call (KGet (ident ++ encode_time_series_id id)) in
      let! rest := tikv_metas ident ids' in
      Ret match r with
          | Ok (Some s) =>
              match decode_labels s false with Ok l => (id, l) :: rest | _ => rest end
          | _ => rest
          end
  end.
(* src/indexer/tikv_indexer.rs:29-68 get_series_metadata_contains_labels *)
Definition tikv_metadata (ident : bytes) (o : timing) (ls : list label)
  : prog kcmd (res (list (Z * list label))) :=
  let? ids := tikv_contains ident o ls in
  let! m := tikv_metas ident ids in
  Ret (Ok m).

(* src/indexer/tikv_indexer.rs:103-113 get_series_id_by_labels *)
Definition tikv_by_labels (ident : bytes) (ls : list label) : prog kcmd (res (option Z)) :=
  let? v := call (KGet (ident ++ encode_labels ls true)) in
  Ret match v with
      | Some b => rmap Some (id_of_bytes b)
      | None => Ok None
      end.

(* src/indexer/tikv_indexer.rs:139-161: one reverse entry; a failing get skips the entry, the
   result of set is dropped *)
Fixpoint tikv_add_reverse (ident : bytes) (id : Z) (ls : list label) : prog kcmd unit :=
  match ls with
  | [] => Ret tt
  | l :: ls' =>
      let! r := call (KGet (ident ++ encode_label l)) in
      let! _ := match r with
                | Ok v =>
                    let! _ := call (KSet (ident ++ encode_label l)
                                         (match v with Some b => b | None => [] end ++ be_bytes 8 id)) in
                    Ret tt
                | _ => Ret tt
                end in
      tikv_add_reverse ident id ls'
  end.
(* src/indexer/tikv_indexer.rs:115-165 create_index *)
Definition tikv_create (ident : bytes) (ls : list label) (id : Z) : prog kcmd (res unit) :=
  let! _ := call (KSet (ident ++ encode_time_series_id id) (encode_labels ls false)) in
  let! _ := call (KSet (ident ++ encode_labels ls true) (be_bytes 8 id)) in
  let! _ := tikv_add_reverse ident id ls in
  Ret (Ok tt).

(* src/indexer/common.rs: the Indexer trait, dispatched on the implementation *)
Definition series_id_by_labels (ix : indexer) (ls : list label) : prog kcmd (res (option Z)) :=
  match ix with SledIndexer => sled_by_labels ls | TiKvIndexer i => tikv_by_labels i ls end.
Definition series_id_contains_labels (ix : indexer) (o : timing) (ls : list label)
  : prog kcmd (res (list Z)) :=
  match ix with SledIndexer => sled_contains o ls | TiKvIndexer i => tikv_contains i o ls end.
Definition series_metadata_contains_labels (ix : indexer) (o : timing) (ls : list label)
  : prog kcmd (res (list (Z * list label))) :=
  match ix with SledIndexer => sled_metadata o ls | TiKvIndexer i => tikv_metadata i o ls end.
Definition create_index (ix : indexer) (ls : list label) (id : Z) : prog kcmd (res unit) :=
  match ix with SledIndexer => sled_create ls id | TiKvIndexer i => tikv_create i ls id end.
