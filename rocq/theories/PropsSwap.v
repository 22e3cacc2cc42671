(* Properties of queries running while the current chunk is swapped: the rest of C33. *)
From Coq Require Import Permutation Sorted String.
From Verif Require Import Rust Prog Gorilla GorillaSpec Storage StorageSpec StorageProofs Labels Indexer IndexSpec
  Chunk ChunkSpec ChunkProofs ChunkFacts Utils DirSpec TiKvInit Db DbSpec DbProofs DbHist DbFacts PropsChunk PropsDb
  SwapSpec SwapMain.
Local Notation lab k v := (mkLabel (s2b k) (s2b v)).
Local Notation length := List.length.

(** C33: one swap and any number of queries, interleaved in any way.  A query that returns has
    exactly the points it would return alone *)
Theorem C33_interleaved_points : forall cf f ops st qs, env_ok f -> empty_dir f ->
  let t0 := f_clock f (f_ticks f) in let l := parts cf t0 ops in
  ops_ok cf t0 (ops ++ [OpSwap st]) -> timely (written ops) -> Forall (ask_ok l) qs ->
  exists rs w, db_after cf f ops = Some (rs, w) /\
  forall sched ts w' i a x, interleave dhandler sched (swapping cf st :: map asking qs) w = (ts, w') ->
    nth_error qs i = Some a -> nth_error ts (S i) = Some (Ret x) ->
    exists r r0, x = Asked (Ok r) /\ drun (asking a) w = Some (Asked (Ok r0), w) /\ forall m p, has_point r m p <-> has_point r0 m p.
Proof. exact swap_points. Qed.
Print Assumptions C33_interleaved_points.

(* more exactly: it is the answer of the chunks, or of the chunks with the last one twice; the swap
   succeeds; when all have returned the database is as after the swap alone; if nobody can make a
   step then all have returned *)
Theorem C33_interleaved : forall cf f ops st qs, env_ok f -> empty_dir f ->
  let t0 := f_clock f (f_ticks f) in let l := parts cf t0 ops in
  ops_ok cf t0 (ops ++ [OpSwap st]) -> timely (written ops) -> Forall (ask_ok l) qs ->
  exists rs w w1, db_after cf f ops = Some (rs, w) /\ drun (db_swap cf st) w = Some (Ok tt, w1) /\
  forall sched ts w', interleave dhandler sched (swapping cf st :: map asking qs) w = (ts, w') ->
    (forall x, nth_error ts 0 = Some (Ret x) -> x = Swapped (Ok tt)) /\
    (forall i a x, nth_error qs i = Some a -> nth_error ts (S i) = Some (Ret x) ->
       exists r, x = Asked (Ok r) /\
         (db_answer l (k_labels a) (k_from a) (k_to a) r \/ db_answer (twice_last l) (k_labels a) (k_from a) (k_to a) r)) /\
    ((forall p, In p ts -> finished p) -> w' = w1) /\
    ((forall p, In p ts -> step dhandler p w' = None) -> forall p, In p ts -> finished p).
Proof. exact swap_interleaved. Qed.
Print Assumptions C33_interleaved.

(* from every point of every interleaving, all can finish *)
Theorem C33_interleaved_finish : forall cf f ops st qs, env_ok f -> empty_dir f ->
  let t0 := f_clock f (f_ticks f) in
  ops_ok cf t0 (ops ++ [OpSwap st]) -> timely (written ops) -> Forall (ask_ok (parts cf t0 ops)) qs ->
  exists rs w, db_after cf f ops = Some (rs, w) /\
  forall sched, exists more, forall p, In p (fst (interleave dhandler (sched ++ more) (swapping cf st :: map asking qs) w)) -> finished p.
Proof. exact swap_finishes. Qed.
Print Assumptions C33_interleaved_finish.

Definition ex_ask : ask := mkAsk all_probe scan_bs no_timing [lab "job" "a"] 1100 1250.
Example C33_interleaved_case st ix : let l := parts (ex_config st ix) 1000 ex_ops in
  ops_ok (ex_config st ix) 1000 (ex_ops ++ [OpSwap 1300]) /\ timely (written ex_ops) /\ Forall (ask_ok l) [ex_ask; ex_ask].
Proof.
  intros l. split; [|split; [apply ex_timely|]].
  - split; [discriminate|]. split; [lia|]. split; [cbn; lia|]. split; [cbn; lia|]. split; [cbn; lia|].
    split; [cbn [written ex_ops map app]; reqs_tac|]. cbn. lia.
  - assert (ask_ok l ex_ask); [|auto]. split; [apply all_probe_ok|]. split; [exact scan_contract|]. split; [labs_tac|]. split; [cbn; lia|].
    apply unmixed_check. destruct st, ix; vm_compute; reflexivity.
Qed.

(* not: every point once.  A query that runs after the swap has put the old chunk among the
   secondary chunks and before it has replaced the current one returns its points twice *)
Theorem C33_once_refuted : exists cf f ops st a m pts, env_ok f /\ empty_dir f /\
  let t0 := f_clock f (f_ticks f) in ops_ok cf t0 (ops ++ [OpSwap st]) /\ timely (written ops) /\ ask_ok (parts cf t0 ops) a /\
  exists rs w sched p w', db_after cf f ops = Some (rs, w) /\
    drun (asking a) w = Some (Asked (Ok [(m, pts)]), w) /\ pts <> [] /\
    interleave dhandler sched [swapping cf st; asking a] w = ([p; Ret (Asked (Ok [(m, pts ++ pts)]))], w').
Proof.
  exists (ex_config TiKvDry TiKvDry), ex_fs, ex_ops, 1300, ex_ask. do 2 eexists.
  split; [apply ex_env|]. split; [apply ex_empty|]. destruct (C33_interleaved_case TiKvDry TiKvDry) as (H1 & H2 & H3).
  split; [exact H1|]. split; [exact H2|]. split; [apply Forall_inv in H3; exact H3|].
  do 2 eexists. exists (repeat 0%nat 13 ++ repeat 1%nat 100)%list. do 2 eexists.
  split; [vm_compute; reflexivity|]. split; [vm_compute; reflexivity|]. split; [discriminate|]. vm_compute. reflexivity.
Qed.
Print Assumptions C33_once_refuted.
