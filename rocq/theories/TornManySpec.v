(* Specification vocabulary for a directory on which processes work one after the other, any of which
   may end in the middle of a write. *)
From Verif Require Import Rust Prog Gorilla GorillaSpec Storage StorageSpec Labels IndexSpec Indexer Chunk ChunkSpec Utils DirSpec TiKvInit Db DbSpec
  ReopenSpec StopSpec TornSpec.

(* a process: how it opens the directory, what it does, and the write, if any, at work on which it ends
   after so many commands *)
Record cut_life := mkCut { cl_cf : config; cl_ops : list dop; cl_cut : option (dop * nat) }.
Definition began (x : cut_life) : list dop := match cl_cut x with Some (op, _) => cl_ops x ++ [op] | None => cl_ops x end.
(* the files after these processes *)
Fixpoint live_cut (L : list cut_life) (f : fworld) : option fworld :=
  match L with
  | [] => Some f
  | x :: L' =>
      match db_after (cl_cf x) f (cl_ops x) with
      | Some (_, w) =>
          live_cut L' (stopped (cl_cf x) match cl_cut x with
                                         | Some (op, n) => snd (crash_at dhandler n (dop_prog (cl_cf x) op) w)
                                         | None => w
                                         end)
      | None => None
      end
  end.

(* what was done of the write *)
Definition done_by (x : cut_life) (done : list dop) : Prop :=
  match cl_cut x with Some (op, _) => done_of op done | None => done = [] end.
(* the queries that a cut cannot harm: those that have no label in common with the write, and all of
   them if the current window had the series *)
Definition spared (x : cut_life) (start : Z) (op : dop) (q : list label) : Prop :=
  exists ls, writes ls op /\ (~ shares q ls \/ has_series (cl_cf x) start (cl_ops x) ls).
(* the chunks left, and, if a process ended at work on the chunk, which queries were spared; as in
   life_parts, opening a directory with n chunks reads the clock n times and then once for the start of
   its own chunk *)
Definition marked (x : cut_life) (start : Z) (l : list part) : list (option (list label -> Prop) * part) :=
  match cl_cut x with
  | Some (op, _) => map (pair None) (removelast l) ++ map (pair (Some (spared x start op))) (skipn (pred (length l)) l)
  | None => map (pair None) l
  end.
Fixpoint cut_parts (clock : nat -> Z) (tick n : nat) (L : list (cut_life * list dop)) : list (option (list label -> Prop) * part) :=
  match L with
  | [] => []
  | (x, done) :: L' =>
      let start := clock (tick + n)%nat in
      let l := parts (cl_cf x) start (cl_ops x ++ done) in
      marked x start l ++ cut_parts clock (S (tick + n)) (n + length l) L'
  end.
Definition cut_written (L : list cut_life) : list ireq := concat (map (fun x => written (began x)) L).

(* as lives_ok: sled; the directory has an ASCII name; each process does what it may, starts after the
   last window of the previous one was opened and not before any of its points *)
Fixpoint cuts_ok (clock : nat -> Z) (tick n : nat) (last : Z) (L : list cut_life) : Prop :=
  match L with
  | [] => True
  | x :: L' =>
      let start := clock (tick + n)%nat in
      let l := parts (cl_cf x) start (began x) in
      cf_st (cl_cf x) = Sled /\ cf_ix (cl_cf x) = Sled /\ ascii (cf_base (cl_cf x)) /\
      last < start /\ ops_ok (cl_cf x) start (began x) /\
      match cl_cut x with Some (op, _) => exists ls, writes ls op | None => True end /\
      (L' <> [] -> forall p, stored l p -> tp_ts p <= clock (S (tick + n))) /\
      cuts_ok clock (S (tick + n)) (n + length l) (last_start start (cl_ops x)) L'
  end.

(* r is an answer: every chunk gives its piece; one at work on which a process ended does so if the
   query was spared, and otherwise gives, for each label set, nothing or all points in the range of a
   matching series it holds *)
Definition gives_piece (x : option (list label -> Prop) * part) (q : list label) (s e : Z) (y : list label -> list tp) : Prop :=
  forall m,
    match fst x with
    | None => y m = piece (snd x) q s e m
    | Some Q => (y m = [] \/ found (snd x) q s e m (y m)) /\ (Q q -> y m = piece (snd x) q s e m)
    end.
Definition answer_torn (l : list (option (list label -> Prop) * part)) (q : list label) (s e : Z) (r : list (list label * list tp)) : Prop :=
  exists Y : list (list label -> list tp),
    Forall2 (fun x y => gives_piece x q s e y) l Y /\
    NoDup (map fst r) /\
    forall m pts, In (m, pts) r <-> pts <> [] /\ pts = concat (map (fun y => y m) Y).
