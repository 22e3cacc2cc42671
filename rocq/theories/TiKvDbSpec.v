(* Specification vocabulary for a database over one real TiKV.  What the database amounts to: each
   chunk has its own list of label sets, numbered from 1, and there is one table of points, shared by
   all chunks and all processes, in which the series of every chunk that has the same number
   are one and the same. *)
From Verif Require Import Rust Prog Gorilla GorillaSpec Storage StorageSpec Labels IndexSpec Indexer Chunk ChunkSpec
  Utils DirSpec TiKvInit TiKvShared TiKvSpec Db DbSpec ReopenSpec TiKvDb.

(* ------------------------------------------------------------------ *)
(** * Running *)

Definition trun {A} (p : prog tcmd A) (t : tworld) : option (A * tworld) := run thandler p t.
Definition top_prog (cf : config) (o : dop) : prog tcmd (res unit) :=
  match o with
  | OpPoint ls p => lift (@TD) (db_write_point ls p)
  | OpBatch ls pts => lift (@TD) (db_write_points ls pts)
  | OpSwap start => t_swap cf start
  end.
Definition t_query (hs : hasher) (bs : bsearch) (o : timing) (q : list label) (s e : Z) : prog tcmd (res (list (list label * list tp))) :=
  lift (@TD) (db_query hs bs o q s e).

(* opening the directory with the store s *)
Definition closed_db (f : fworld) : dworld := mkD [] 0 [] free_lock free_lock f.
Definition t_open (cf : config) (f : fworld) (s : kv) : option (res unit * tworld) :=
  match trun (t_db_new cf) (mkT (closed_db f) s) with
  | Some (Ok r, t) => Some (Ok tt, mkT (opened r (d_fs (t_db t))) (t_kv t))
  | Some (Err e, t) => Some (Err e, t)
  | Some (Panic, t) => Some (Panic, t)
  | None => None
  end.
Fixpoint t_after_from (cf : config) (ops : list dop) (t : tworld) : option (list (res unit) * tworld) :=
  match ops with
  | [] => Some ([], t)
  | o :: ops' =>
      match trun (top_prog cf o) t with
      | None => None
      | Some (r, t') => match t_after_from cf ops' t' with
                        | None => None
                        | Some (rs, t'') => Some (r :: rs, t'')
                        end
      end
  end.
Definition t_after (cf : config) (f : fworld) (s : kv) (ops : list dop) : option (list (res unit) * tworld) :=
  match t_open cf f s with
  | Some (Ok _, t) => t_after_from cf ops t
  | _ => None
  end.
(* one process after the other; what each answered, and the state in which the last one is.  A
   process that stops leaves its files and the store. *)
Fixpoint t_live (L : list life) (f : fworld) (s : kv) : option (list (list (res unit)) * tworld) :=
  match L with
  | [] => None
  | x :: L' =>
      match t_after (lf_cf x) f s (lf_ops x) with
      | None => None
      | Some (rs, t) =>
          match L' with
          | [] => Some ([rs], t)
          | _ => match t_live L' (d_fs (t_db t)) (t_kv t) with
                 | None => None
                 | Some (rss, t') => Some (rs :: rss, t')
                 end
          end
      end
  end.

(* uuids do not repeat, and the store has no key that starts with one of those to come *)
Definition new_uuids (f : fworld) (s : kv) : Prop :=
  (forall i j, f_uuid f i = f_uuid f j -> i = j) /\
  forall n r, kv_get s (f_uuid f n ++ r) = None.

(* ------------------------------------------------------------------ *)
(** * What it amounts to *)

Definition table := Z -> list tp.
Definition no_table : table := fun _ => [].

(* the number of the label set, if it has one *)
Fixpoint place (n : Z) (ks : list (list label)) (ls : list label) : option Z :=
  match ks with
  | [] => None
  | x :: ks' => if same_setb x ls then Some n else place (n + 1) ks' ls
  end.
(* is p later than all points? *)
Definition later (pts : list tp) (p : tp) : bool := forallb (fun x => tp_ts x <? tp_ts p) pts.
(* append p to series n, if it is later than what is there *)
Definition append (T : table) (n : Z) (p : tp) : table :=
  fun i => if i =? n then (if later (T n) p then T n ++ [p] else T n) else T i.

(* the window, its label sets and the table; was the point taken without an error? *)
Definition put (ch : chunk) (x : list (list label) * table) (ls : list label) (p : tp) : (list (list label) * table) * bool :=
  let '(ks, T) := x in
  if in_windowb ch (tp_ts p) then
    match place 1 ks ls with
    | Some n => ((ks, append T n p), true)
    | None => let n := Z.of_nat (length ks) + 1 in ((ks ++ [ls], append T n p), later (T n) p)
    end
  else (x, true).
Fixpoint puts (ch : chunk) (x : list (list label) * table) (ls : list label) (pts : list tp) : (list (list label) * table) * bool :=
  match pts with
  | [] => (x, true)
  | p :: pts' => let '(x', b) := put ch x ls p in let '(x'', b') := puts ch x' ls pts' in (x'', b && b')
  end.

(* the database: the windows before the current one with their label sets, the current one, and
   the table *)
Record shelf := mkShelf { sh_old : list (chunk * list (list label)); sh_cur : chunk; sh_sets : list (list label); sh_tab : table }.
Definition shelf_op (cf : config) (d : shelf) (o : dop) : shelf * res unit :=
  let c := sh_cur d in
  match o with
  | OpPoint ls p =>
      let '((ks, T), ok) := put c (sh_sets d, sh_tab d) ls p in
      (mkShelf (sh_old d) c ks T,
       if in_windowb c (tp_ts p) then (if ok then Ok tt else Err InternalErr)
       else Err (OutOfRangeErr (c_start c) (c_end c)))
  | OpBatch ls pts =>
      let '((ks, T), ok) := puts c (sh_sets d, sh_tab d) ls pts in
      (mkShelf (sh_old d) c ks T, if existsb (on_edge c) pts || negb ok then Err InternalErr else Ok tt)
  | OpSwap start => (mkShelf (sh_old d ++ [(c, sh_sets d)]) (the_chunk cf start) [] (sh_tab d), Ok tt)
  end.
Fixpoint shelf_ops (cf : config) (d : shelf) (ops : list dop) : shelf * list (res unit) :=
  match ops with
  | [] => (d, [])
  | o :: ops' => let '(d', r) := shelf_op cf d o in let '(d'', rs) := shelf_ops cf d' ops' in (d'', r :: rs)
  end.
(* a process starting at [start] knows none of the label sets of earlier ones, but finds their table *)
Definition open_shelf (cf : config) (start : Z) (T : table) : shelf := mkShelf [] (the_chunk cf start) [] T.
(* processes one after the other; [tick], [n] as for life_parts *)
Fixpoint swaps (ops : list dop) : nat :=
  match ops with
  | [] => 0
  | OpSwap _ :: ops' => S (swaps ops')
  | _ :: ops' => swaps ops'
  end.
Fixpoint shelf_lives (clock : nat -> Z) (tick n : nat) (T : table) (L : list life) : list (shelf * list (res unit)) :=
  match L with
  | [] => []
  | x :: L' =>
      let y := shelf_ops (lf_cf x) (open_shelf (lf_cf x) (clock (tick + n)%nat) T) (lf_ops x) in
      y :: shelf_lives clock (S (tick + n)) (n + S (swaps (lf_ops x))) (sh_tab (fst y)) L'
  end.

(* the chunks as queries see them *)
Fixpoint seen (n : Z) (ks : list (list label)) (T : table) : content :=
  match ks with
  | [] => []
  | ls :: ks' => (ls, T n) :: seen (n + 1) ks' T
  end.
Definition shelf_parts (d : shelf) : list part :=
  map (fun c => (fst c, seen 1 (snd c) (sh_tab d))) (sh_old d ++ [(sh_cur d, sh_sets d)]).

(* both types are TiKV and the directory is named in ASCII; each process starts after the last window of the previous one was opened *)
Fixpoint tlives_ok (clock : nat -> Z) (tick n : nat) (last : Z) (L : list life) : Prop :=
  match L with
  | [] => True
  | x :: L' =>
      let start := clock (tick + n)%nat in
      cf_st (lf_cf x) = TiKvDry /\ cf_ix (lf_cf x) = TiKvDry /\ ascii (cf_base (lf_cf x)) /\ last < start /\ ops_ok (lf_cf x) start (lf_ops x) /\
      tlives_ok clock (S (tick + n)) (n + S (swaps (lf_ops x))) (last_start start (lf_ops x)) L'
  end.
