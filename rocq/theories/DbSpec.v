(* Specification vocabulary for the database: a database is a list of chunk windows with their
   contents, oldest first, the last one being the current chunk.  No files, locks, maps or
   stores. *)
From Coq Require Import Permutation.
From Verif Require Import Rust Prog Gorilla GorillaSpec Storage StorageSpec Labels IndexSpec Indexer Chunk ChunkSpec
  Utils DirSpec TiKvInit Db.


(* ------------------------------------------------------------------ *)
(** * Histories *)

(* what a client and the swap thread do *)
Inductive dop :=
| OpPoint (ls : list label) (p : tp)
| OpBatch (ls : list label) (pts : list tp)
| OpSwap (start : Z).
Definition dop_prog (cf : config) (o : dop) : prog dcmd (res unit) :=
  match o with
  | OpPoint ls p => db_write_point ls p
  | OpBatch ls pts => db_write_points ls pts
  | OpSwap start => db_swap cf start
  end.

Definition drun {A} (p : prog dcmd A) (w : dworld) : option (A * dworld) := run dhandler p w.

(* opening: None = blocked forever *)
Definition db_open (cf : config) (f : fworld) : option (res unit * dworld) :=
  match run fhandler (db_new cf) f with
  | Some (Ok r, f') => Some (Ok tt, opened r f')
  | Some (Err e, f') => Some (Err e, mkD [] 0 [] free_lock free_lock f')
  | Some (Panic, f') => Some (Panic, mkD [] 0 [] free_lock free_lock f')
  | None => None
  end.
(* the state after a history, and what its operations returned *)
Fixpoint db_after_from (cf : config) (ops : list dop) (w : dworld) : option (list (res unit) * dworld) :=
  match ops with
  | [] => Some ([], w)
  | o :: ops' =>
      match drun (dop_prog cf o) w with
      | None => None
      | Some (r, w') => match db_after_from cf ops' w' with
                        | None => None
                        | Some (rs, w'') => Some (r :: rs, w'')
                        end
      end
  end.
(* open, then the history *)
Definition db_after (cf : config) (f : fworld) (ops : list dop) : option (list (res unit) * dworld) :=
  match db_open cf f with
  | Some (Ok _, w) => db_after_from cf ops w
  | _ => None
  end.

(* a working environment: read_dir lists each entry once, uuids have 16 bytes, times are u64, no
   file operation fails *)
Definition env_ok (f : fworld) : Prop :=
  (forall l, Permutation (f_order f l) l) /\ (forall n, length (f_uuid f n) = 16%nat) /\
  (forall n, u64 (f_clock f n)) /\ f_faults f = [].
Definition empty_dir (f : fworld) : Prop := f_meta f = None /\ f_dirs f = [].

(* ------------------------------------------------------------------ *)
(** * What a history should lead to *)

Definition part := (chunk * content)%type.

(* the chunk of the window starting at [start]; the index does not matter here *)
Definition the_chunk (cf : config) (start : Z) : chunk :=
  mkChunk (match cf_st cf with Sled => SledStorage | TiKvDry => TiKvStorage [] end) SledIndexer
          start (start + cf_size cf).

(* the windows with what was written while each was current; [h]: written so far *)
Fixpoint parts_from (cf : config) (start : Z) (h : list ireq) (ops : list dop) : list part :=
  match ops with
  | [] => [(the_chunk cf start, content_of (the_chunk cf start) h)]
  | OpPoint ls p :: ops' => parts_from cf start (h ++ [(ls, p)]) ops'
  | OpBatch ls pts :: ops' => parts_from cf start (h ++ map (pair ls) pts) ops'
  | OpSwap start' :: ops' =>
      (the_chunk cf start, content_of (the_chunk cf start) h) :: parts_from cf start' [] ops'
  end.
Definition parts (cf : config) (start : Z) (ops : list dop) : list part := parts_from cf start [] ops.

(* the start of the window current after the history *)
Fixpoint last_start (start : Z) (ops : list dop) : Z :=
  match ops with
  | [] => start
  | OpSwap start' :: ops' => last_start start' ops'
  | _ :: ops' => last_start start ops'
  end.
Definition current_window (cf : config) (start : Z) (ops : list dop) : chunk := the_chunk cf (last_start start ops).

(* what the operations return: a single point outside the window is an error; a batch is an error
   iff a point lies on an end of the window (a point at time 0 does not count) *)
Definition on_edge (ch : chunk) (p : tp) : bool :=
  negb (tp_ts p =? 0) && ((tp_ts p =? c_start ch) || (tp_ts p =? c_end ch)).
Definition outcome (ch : chunk) (o : dop) : res unit :=
  match o with
  | OpPoint _ p => if in_windowb ch (tp_ts p) then Ok tt else Err (OutOfRangeErr (c_start ch) (c_end ch))
  | OpBatch _ pts => if existsb (on_edge ch) pts then Err InternalErr else Ok tt
  | OpSwap _ => Ok tt
  end.
Fixpoint outcomes (cf : config) (start : Z) (ops : list dop) : list (res unit) :=
  match ops with
  | [] => []
  | o :: ops' => outcome (the_chunk cf start) o ::
                 outcomes cf (match o with OpSwap start' => start' | _ => start end) ops'
  end.

(* everything written, in order *)
Fixpoint written (ops : list dop) : list ireq :=
  match ops with
  | [] => []
  | OpPoint ls p :: ops' => (ls, p) :: written ops'
  | OpBatch ls pts :: ops' => map (pair ls) pts ++ written ops'
  | OpSwap _ :: ops' => written ops'
  end.

(* each swap starts later than the previous one, and the windows end before the end of time (the
   path of the data directory is not empty) *)
Fixpoint starts_ok (cf : config) (start : Z) (ops : list dop) : Prop :=
  match ops with
  | [] => True
  | OpSwap start' :: ops' => start < start' /\ start' + cf_size cf < 2 ^ 64 /\ starts_ok cf start' ops'
  | _ :: ops' => starts_ok cf start ops'
  end.
Definition ops_ok (cf : config) (start : Z) (ops : list dop) : Prop :=
  cf_base cf <> [] /\ 0 <= start /\ 0 <= cf_size cf /\ start + cf_size cf < 2 ^ 64 /\ starts_ok cf start ops /\
  Forall ireq_ok (written ops) /\ Z.of_nat (length (written ops)) < 2 ^ 64 - 1.

(* each label set gets its points in time order *)
Definition timely (h : list ireq) : Prop :=
  forall ls, increasing (map snd (filter (fun r => same_setb (fst r) ls) h)).

(* ------------------------------------------------------------------ *)
(** * Answers *)

Fixpoint labs_eqb (a b : list label) : bool :=
  match a, b with
  | [], [] => true
  | x :: a', y :: b' => label_eqb x y && labs_eqb a' b'
  | _, _ => false
  end.

(* does the chunk answer the query?  Its window overlaps the range and each matching series has a
   point not after the end and a point not before the start of the range *)
Definition touchesb (s e : Z) (pts : list tp) : bool :=
  existsb (fun p => tp_ts p <=? e) pts && existsb (fun p => s <=? tp_ts p) pts.
Definition answers (c : part) (q : list label) (s e : Z) : bool :=
  (c_start (fst c) <=? e) && (s <=? c_end (fst c)) &&
  forallb (fun x => negb (matches (snd c) q (fst x)) || touchesb s e (snd x)) (snd c).
(* the points a chunk contributes to the answer for the label set m (written in name order) *)
Definition piece (c : part) (q : list label) (s e : Z) (m : list label) : list tp :=
  if answers c q s e then
    match find (fun x => labs_eqb (sort_labels (fst x)) m && matches (snd c) q (fst x)) (snd c) with
    | Some x => within s e (snd x)
    | None => []
    end
  else [].

(* r is the answer of the database: each label set once, with the points of all chunks, oldest
   chunk first; label sets without points are left out *)
Definition db_answer (l : list part) (q : list label) (s e : Z) (r : list (list label * list tp)) : Prop :=
  NoDup (map fst r) /\
  forall m pts, In (m, pts) r <-> pts <> [] /\ pts = concat (map (fun c => piece c q s e m) l).

(* what a HashMap guarantees: a lookup reaches the entry with the same key; keys() lists every
   entry once *)
Definition hasher_ok (hs : hasher) : Prop :=
  (forall ks k i, nth_error ks i = Some k -> In i (h_probe hs ks k)) /\
  (forall ks, Permutation (h_iter hs ks) (seq 0 (length ks))).

(* whatever label sets of U the map holds, no lookup of one of U compares two of which one is a proper
   prefix of the other (labels in name order) *)
Definition tells_apart (hs : hasher) (U : list label -> Prop) : Prop :=
  forall ks k i k' x, U k -> (forall a, In a ks -> U a) -> In i (h_probe hs ks k) -> nth_error ks i = Some k' ->
    k' = k ++ x \/ k = k' ++ x -> x = [].
(* so for the label sets of the answer *)
Definition unmixed (hs : hasher) (l : list part) (q : list label) (s e : Z) : Prop :=
  tells_apart hs (fun m => exists c, In c l /\ piece c q s e m <> []).
(* enough for that: no label set of the answer is a proper prefix of another *)
Definition prefix_free (l : list part) (q : list label) (s e : Z) : Prop :=
  forall c c' m x, In c l -> In c' l -> piece c q s e m <> [] -> piece c' q s e (m ++ x) <> [] -> x = [].

(* one hash map with that contract: compares with every entry *)
Definition all_probe : hasher := mkH (fun ks _ => seq 0 (length ks)) (fun ks => seq 0 (length ks)).
