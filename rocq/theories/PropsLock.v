(* Property C62: no deadlock, whatever order the locks let the waiting threads through. *)
From Coq Require Import String.
From Verif Require Import Rust Prog Gorilla GorillaSpec Storage StorageSpec StorageProofs Labels Indexer IndexSpec
  Chunk ChunkSpec ChunkProofs ChunkFacts Utils DirSpec TiKvInit Db DbSpec PropsChunk PropsDb SwapSpec SwapMain PropsSwap WritersSpec WritersMain PropsWriters
  LockSpec LockProofs LockDead.
Local Notation lab k v := (mkLabel (s2b k) (s2b v)).
Local Notation length := List.length.

(** C62: any number of clients, query threads and the swap thread, on a database with any history since its opening
    on any directory, with any failures of file operations, and any labels: panics and poisoned locks included.  The
    locks may prefer readers or writers or go by any other rule, as long as one that nobody holds lets one of those
    waiting for it through.  Then there is no deadlock: some thread can move, or all have returned *)
Theorem C62_never_stuck : forall cf f w0 ops rs0 w starts cs qs (g : policy wanswer) sched, db_open cf f = Some (Ok tt, w0) ->
  db_after_from cf ops w0 = Some (rs0, w) -> lets_someone g ->
  let '(ts, w') := obeying g [] sched (threads cf starts cs qs) w in
  (forall p, In p ts -> finished p) \/ exists i ts' w'', move g sched ts w' i = Some (ts', w'').
Proof. exact (fun cf f w0 ops rs0 w starts cs qs g sched Ho Ha => db_never_stuck cf f w0 ops rs0 w Ho Ha starts cs qs g sched). Qed.
Print Assumptions C62_never_stuck.

(* nor is there an endless run: every endless schedule comes to a thread that does not move *)
Theorem C62_no_endless_run : forall (g : policy wanswer) ts w (s : nat -> nat), exists n,
  let '(ts', w') := obeying g [] (map s (seq 0 n)) ts w in move g (map s (seq 0 n)) ts' w' (s n) = None.
Proof. exact (fun g ts w s => ends g s ts (later_wf ts) [] w). Qed.
Print Assumptions C62_no_endless_run.

(* so from every state that is reached, all can return *)
Theorem C62_finish : forall cf f w0 ops rs0 w starts cs qs (g : policy wanswer) sched, db_open cf f = Some (Ok tt, w0) ->
  db_after_from cf ops w0 = Some (rs0, w) -> lets_someone g ->
  exists more, forall p, In p (fst (obeying g [] (sched ++ more) (threads cf starts cs qs) w)) -> finished p.
Proof. exact (fun cf f w0 ops rs0 w starts cs qs g sched Ho Ha => db_can_finish cf f w0 ops rs0 w Ho Ha starts cs qs g sched). Qed.
Print Assumptions C62_finish.

(* what happens under a rule happens in some interleaving: what C57, C58 and C60 say holds for every rule *)
Theorem C62_interleaving : forall A (g : policy A) sched ts w, exists sched', obeying g [] sched ts w = interleave dhandler sched' ts w.
Proof. intros A g sched ts w. destruct (obeying_some g sched [] ts w) as (s & E & _). exists s. exact E. Qed.
Print Assumptions C62_interleaving.

(* two rules: readers wait while a writer waits; threads go by number *)
Theorem C62_rules : lets_someone (@writers_first wanswer) /\ lets_someone (@lowest_first wanswer).
Proof. split; [exact writers_first_ok|exact lowest_first_ok]. Qed.
Print Assumptions C62_rules.

(* the first client is in the middle of its write when the swap thread asks for the lock of the current chunk; the
   second client could read, but has to wait for the swap thread *)
Definition lk_threads := threads (ex_config Sled Sled) [1101] ex_calls [[ex_ask]].
Definition lk_start : dworld := match db_after (ex_config Sled Sled) (ex_flaky false) (firstn 3 ex_ops) with Some (_, w) => w | None => opened ([], mkDc ex_chunk (new_world [] []) []) (ex_flaky false) end.
Definition lk_after (sched : list nat) := obeying writers_first [] sched lk_threads lk_start.
Definition lk_sched : list nat := ([1; 1] ++ repeat 0 20)%list%nat.
Definition lk_moves (sched : list nat) : list bool :=
  map (fun i => match move writers_first sched (fst (lk_after sched)) (snd (lk_after sched)) i with None => false | _ => true end) (seq 0 4).
Definition lk_able (sched : list nat) : list bool := map (fun p => match step dhandler p (snd (lk_after sched)) with None => false | _ => true end) (fst (lk_after sched)).
Definition is_ret {A} (p : prog dcmd A) : bool := match p with Ret _ => true | _ => false end.
Lemma all_ret {A} (ts : list (prog dcmd A)) : forallb is_ret ts = true -> forall p, In p ts -> finished p.
Proof. intros F p Hp. rewrite forallb_forall in F. specialize (F p Hp). destruct p as [a|]; [now exists a|discriminate]. Qed.
Example C62_case : exists w0 rs0, db_open (ex_config Sled Sled) (ex_flaky false) = Some (Ok tt, w0) /\ db_after_from (ex_config Sled Sled) (firstn 3 ex_ops) w0 = Some (rs0, lk_start) /\
  map waits_for (fst (lk_after lk_sched)) = [Some LCur; None; Some LCur; Some LCur] /\
  lk_able lk_sched = [false; true; true; true] /\ lk_moves lk_sched = [false; true; false; false] /\
  forall p, In p (fst (obeying writers_first [] (lk_sched ++ concat (repeat [0; 1; 2; 3]%nat 180)) lk_threads lk_start)) -> finished p.
Proof.
  do 2 eexists. split; [vm_compute; reflexivity|]. split; [vm_compute; reflexivity|]. split; [vm_compute; reflexivity|]. split; [vm_compute; reflexivity|]. split; [vm_compute; reflexivity|].
  apply all_ret. vm_compute. reflexivity.
Qed.
