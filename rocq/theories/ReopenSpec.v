(* Specification vocabulary for stopping and reopening a database. *)
From Coq Require Import Permutation.
From Verif Require Import Rust Prog Gorilla GorillaSpec Storage StorageSpec Labels IndexSpec Indexer Chunk ChunkSpec
  Utils DirSpec TiKvInit Db DbSpec.

(* the files after the process has stopped between two operations *)
Definition stopped (cf : config) (w : dworld) : fworld := left_behind (cf_st cf) (cf_ix cf) (d_heap w) (d_fs w).

(* a process: how it opens the directory and what it does until it stops *)
Record life := mkLife { lf_cf : config; lf_ops : list dop }.

(* one process after the other; the state in which the last one is *)
Fixpoint live (L : list life) (f : fworld) : option dworld :=
  match L with
  | [] => None
  | [x] => option_map snd (db_after (lf_cf x) f (lf_ops x))
  | x :: L' =>
      match db_after (lf_cf x) f (lf_ops x) with
      | Some (_, w) => live L' (stopped (lf_cf x) w)
      | None => None
      end
  end.

(* Opening a directory with n chunks reads the clock n times and then once for the start of its
   own chunk.  [tick]: the readings so far. *)
Fixpoint life_parts (clock : nat -> Z) (tick n : nat) (L : list life) : list part :=
  match L with
  | [] => []
  | x :: L' =>
      let l := parts (lf_cf x) (clock (tick + n)%nat) (lf_ops x) in
      l ++ life_parts clock (S (tick + n)) (n + length l) L'
  end.
Definition life_written (L : list life) : list ireq := concat (map (fun x => written (lf_ops x)) L).

(* points kept by a list of chunks *)
Definition stored (l : list part) (p : tp) : Prop := exists c ls pts, In c l /\ In (ls, pts) (snd c) /\ In p pts.

(* the processes use sled and name the directory in ASCII; each does what it may; each starts
   after the last window of the previous one ([last]) was opened, and not before any of its points *)
Fixpoint lives_ok (clock : nat -> Z) (tick n : nat) (last : Z) (L : list life) : Prop :=
  match L with
  | [] => True
  | x :: L' =>
      let start := clock (tick + n)%nat in
      let l := parts (lf_cf x) start (lf_ops x) in
      cf_st (lf_cf x) = Sled /\ cf_ix (lf_cf x) = Sled /\ ascii (cf_base (lf_cf x)) /\
      last < start /\ ops_ok (lf_cf x) start (lf_ops x) /\
      (L' <> [] -> forall p, stored l p -> tp_ts p <= clock (S (tick + n))) /\
      lives_ok clock (S (tick + n)) (n + length l) (last_start start (lf_ops x)) L'
  end.
Definition monotone (clock : nat -> Z) : Prop := forall i j, (i <= j)%nat -> clock i <= clock j.

(* each swap starts not before the end of the previous window *)
Fixpoint apart (cf : config) (start : Z) (ops : list dop) : Prop :=
  match ops with
  | [] => True
  | OpSwap st :: ops' => start + cf_size cf <= st /\ apart cf st ops'
  | _ :: ops' => apart cf start ops'
  end.

(* the database with its clock: clients write, and the swap thread receives a clock reading *)
Inductive lop :=
| LPoint (ls : list label) (p : tp)
| LBatch (ls : list label) (pts : list tp)
| LTick (now : Z).
Definition lop_prog (cf : config) (o : lop) : prog dcmd (res unit) :=
  match o with
  | LPoint ls p => db_write_point ls p
  | LBatch ls pts => db_write_points ls pts
  | LTick now => db_tick cf now
  end.
Fixpoint clocked_from (cf : config) (ops : list lop) (w : dworld) : option (list (res unit) * dworld) :=
  match ops with
  | [] => Some ([], w)
  | o :: ops' =>
      match drun (lop_prog cf o) w with
      | None => None
      | Some (r, w') => match clocked_from cf ops' w' with
                        | None => None
                        | Some (rs, w'') => Some (r :: rs, w'')
                        end
      end
  end.
Definition clocked (cf : config) (f : fworld) (ops : list lop) : option (list (res unit) * dworld) :=
  match db_open cf f with
  | Some (Ok _, w) => clocked_from cf ops w
  | _ => None
  end.
(* the tick thread sleeps for one chunk size before each reading: a reading is at least one chunk
   size after the previous one, the first one at least one chunk size after the opening *)
Fixpoint readings (cf : config) (last : Z) (ops : list lop) : Prop :=
  match ops with
  | [] => True
  | LTick now :: ops' => last + cf_size cf <= now /\ now + 1 + cf_size cf < 2 ^ 64 /\ readings cf now ops'
  | _ :: ops' => readings cf last ops'
  end.
Fixpoint ticks (ops : list lop) : list Z :=
  match ops with
  | [] => []
  | LTick now :: ops' => now :: ticks ops'
  | _ :: ops' => ticks ops'
  end.
Fixpoint asked_for (ops : list lop) : list ireq :=
  match ops with
  | [] => []
  | LPoint ls p :: ops' => (ls, p) :: asked_for ops'
  | LBatch ls pts :: ops' => map (pair ls) pts ++ asked_for ops'
  | LTick _ :: ops' => asked_for ops'
  end.

(* a directory that can be opened: its metadata.json is absent or complete and names the backends,
   and so is (complete) the one of every chunk directory *)
Definition healthy (cf : config) (f : fworld) : Prop :=
  (f_meta f = None \/ f_meta f = Some (Written (own_meta cf))) /\
  forall name d s e, In (name, d) (f_dirs f) -> decode_chunk_dir name = Ok (s, e) -> exists o, cd_meta d = Some (Written o).
(* names are names *)
Definition names_ok (f : fworld) : Prop := NoDup (map fst (f_dirs f)) /\ Forall plain_name (map fst (f_dirs f)).

(* a directory of chunk directories; a working environment in which the next window ends before the
   end of time *)
Definition plain_dir (f : fworld) : Prop := names_ok f /\ ~ In metadata_name (map fst (f_dirs f)).
Definition open_env (cf : config) (f : fworld) : Prop :=
  env_ok f /\ cf_base cf <> [] /\ ascii (cf_base cf) /\ 0 <= cf_size cf /\ (forall i, f_clock f i + cf_size cf < 2 ^ 64).

(* opening n times, each time after the previous attempt failed *)
Fixpoint attempts (n : nat) (cf : config) (f : fworld) : option fworld :=
  match n with
  | O => Some f
  | S n' => match db_open cf f with
            | Some (Err _, w) => attempts n' cf (d_fs w)
            | _ => None
            end
  end.
