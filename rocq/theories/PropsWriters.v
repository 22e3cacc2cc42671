(* Properties of clients, queries and the swap thread at work at the same time: C57. *)
From Coq Require Import String.
From Verif Require Import Rust Prog Gorilla GorillaSpec Storage StorageSpec StorageProofs Labels Indexer IndexSpec
  Chunk ChunkSpec ChunkProofs ChunkFacts Utils DirSpec TiKvInit Db DbSpec DbProofs DbHist DbFacts PropsChunk PropsDb
  SwapSpec SwapMain PropsSwap WritersSpec WritersMain.
Local Notation lab k v := (mkLabel (s2b k) (s2b v)).
Local Notation length := List.length.

(** C57: any number of clients, query threads and the swap thread, interleaved in any way, on a
    database with any history since its opening on any directory, with any failures of file
    operations.  When all have returned there is one order of the writes, the points of batches
    and the swaps such that doing them one after the other leads to the same database and to the
    same results; each thread's operations are in that order as the thread asked for them.  The
    order respects real time: split the schedule anywhere, then the order splits as well such that
    no operation of a thread that has returned is in the second part and no operation of a thread
    that has not started is in the first *)
Theorem C57_serialised : forall cf f w0 ops rs0 w starts cs qs sched ts w', uuids_ok f -> db_open cf f = Some (Ok tt, w0) ->
  ops_fit cf ops -> db_after_from cf ops w0 = Some (rs0, w) -> calls_ok cf cs ->
  interleave dhandler sched (threads cf starts cs qs) w = (ts, w') -> (forall p, In p ts -> finished p) ->
  exists log, one_by_one cf log w w' /\ Forall (fun e => e_who e <= length cs)%nat log /\
    (exists rs, nth_error ts 0 = Some (Ret (Rotated rs)) /\ rotations starts (of_thread 0 log) rs) /\
    (forall i c, nth_error cs i = Some c -> exists rs, nth_error ts (S i) = Some (Ret (Wrote rs)) /\ session c (of_thread (S i) log) rs) /\
    forall n, exists before since, log = before ++ since /\
      (forall i, returned (threads cf starts cs qs) w sched n i -> of_thread i since = []) /\
      (forall i, ~ In i (firstn n sched) -> of_thread i before = []).
Proof. exact writers_real_time. Qed.
Print Assumptions C57_serialised.

(* nobody waits for ever: from every point of every interleaving, all can finish *)
Theorem C57_finish : forall cf f w0 ops rs0 w starts cs qs sched, uuids_ok f -> db_open cf f = Some (Ok tt, w0) ->
  ops_fit cf ops -> db_after_from cf ops w0 = Some (rs0, w) -> calls_ok cf cs ->
  exists more, forall p, In p (fst (interleave dhandler (sched ++ more) (threads cf starts cs qs) w)) -> finished p.
Proof. exact writers_finish. Qed.
Print Assumptions C57_finish.

Definition ex_calls : list (list wcall) :=
  [[WPoint [lab "job" "a"; lab "host" "x"] (mkTp 1010 7); WBatch [lab "job" "a"] [mkTp 1011 1; mkTp 1150 2; mkTp 2000 3]];
   [WBatch [lab "job" "a"] [mkTp 1012 5; mkTp 1013 6]; WPoint [lab "job" "b"] (mkTp 1500 1)]].
(* the third file operation of the second swap fails *)
Definition ex_flaky (b : bool) : fworld :=
  mkF None [] (fun l => l) (fun n => 1000 + Z.of_nat (Nat.min n 500)) 0 (fun n => repeat (Z.of_nat n) 16) 0
      (if b then repeat false 17 ++ [true] else [])%list.
(* before the threads start, there are some writes and a swap; at step 172 the first client has returned and the query thread not yet started *)
Example C57_case : exists w0 rs0 w ts w', uuids_ok (ex_flaky true) /\ db_open (ex_config Sled Sled) (ex_flaky true) = Some (Ok tt, w0) /\
  ops_fit (ex_config Sled Sled) (firstn 3 ex_ops) /\ db_after_from (ex_config Sled Sled) (firstn 3 ex_ops) w0 = Some (rs0, w) /\ calls_ok (ex_config Sled Sled) ex_calls /\
  interleave dhandler (concat (repeat [0; 1] 86) ++ concat (repeat [0; 2; 3] 90))%list%nat (threads (ex_config Sled Sled) [1101; 1202; 1303] ex_calls [[ex_ask; ex_ask]]) w = (ts, w') /\
  (forall p, In p ts -> finished p) /\ length (d_heap w') = 4%nat /\
  returned (threads (ex_config Sled Sled) [1101; 1202; 1303] ex_calls [[ex_ask; ex_ask]]) w (concat (repeat [0; 1] 86) ++ concat (repeat [0; 2; 3] 90))%list%nat 172 1.
Proof.
  do 5 eexists. split; [intros n; apply repeat_length|]. split; [vm_compute; reflexivity|]. split; [now left|]. split; [vm_compute; reflexivity|].
  split; [now left|]. split; [vm_compute; reflexivity|]. split; [|split].
  - intros p Hp. cbn [In] in Hp. repeat (destruct Hp as [<-|Hp]; [eexists; reflexivity|]). contradiction.
  - vm_compute. reflexivity.
  - eexists. vm_compute. reflexivity.
Qed.

(* not: a batch is one step.  Two clients write one batch each to the same series.  A query
   afterwards finds what it would not find after one batch and then the other, in either order *)
Theorem C57_batch_atomic_refuted : exists cf f w ls a b sched ts w' q r, uuids_ok f /\ db_open cf f = Some (Ok tt, w) /\ calls_ok cf [[WBatch ls a]; [WBatch ls b]] /\
  interleave dhandler sched (threads cf [] [[WBatch ls a]; [WBatch ls b]] []) w = (ts, w') /\ (forall p, In p ts -> finished p) /\
  drun (ask_prog q) w' = Some (Ok r, w') /\
  forall ops rs w2, ops = [OpBatch ls a; OpBatch ls b] \/ ops = [OpBatch ls b; OpBatch ls a] ->
    db_after_from cf ops w = Some (rs, w2) -> drun (ask_prog q) w2 <> Some (Ok r, w2).
Proof.
  exists (ex_config TiKvDry TiKvDry), ex_fs. eexists. exists [lab "job" "a"], [mkTp 1010 1; mkTp 1030 2], [mkTp 1020 3; mkTp 1040 4],
    (repeat 1 11 ++ repeat 2 8 ++ repeat 1 12 ++ repeat 2 40 ++ repeat 1 40)%list%nat. do 2 eexists. exists (mkAsk all_probe scan_bs no_timing [lab "job" "a"] 1000 1050). eexists.
  split; [intros n; apply repeat_length|]. split; [vm_compute; reflexivity|]. split.
  { right. assert (set_ok [lab "job" "a"]) by set_tac. constructor; [constructor; [assumption|constructor]|constructor; [constructor; [assumption|constructor]|constructor]]. }
  split; [vm_compute; reflexivity|]. split; [intros p Hp; cbn [In] in Hp; repeat (destruct Hp as [<-|Hp]; [eexists; reflexivity|]); contradiction|].
  split; [vm_compute; reflexivity|].
  intros ops rs w2 [->| ->] E H; vm_compute in E; injection E as <- <-; vm_compute in H; discriminate.
Qed.
Print Assumptions C57_batch_atomic_refuted.
