(* Properties of what queries answer while clients write and the swap thread works: C60. *)
From Coq Require Import String Permutation.
From Verif Require Import Rust Prog Gorilla GorillaSpec Storage StorageSpec StorageProofs Labels Indexer IndexSpec LabelProofs
  Chunk ChunkSpec ChunkProofs ChunkFacts Utils DirSpec TiKvInit Db DbSpec DbProofs DbHist DbFacts RangeSpec PropsChunk PropsDb
  FaultsSpec SwapSpec SwapMain PropsSwap ReadsSpec WritersSpec WritersMain PropsWriters SharedSpec SharedFacts SharedAck.
Local Notation lab k v := (mkLabel (s2b k) (s2b v)).
Local Notation length := List.length.

(** C60: any number of clients, queries and the swap thread, interleaved in any way, on a database
    with any history, with any failures of file operations.  There is one log of the writes, points
    of batches and swaps, growing with the steps of the schedule, that explains what the threads
    have done so far.  A query, over any two instants, that starts after step n1 and has ended by step n2
    has an outcome between the chunks after the log of step n1, without one write in the
    making at most, and the chunks after the log of step n2: it has succeeded, or, if its start is later than its
    end, maybe met a chunk that brought it down ([query_outcome], SharedSpec.v) *)
Theorem C60_between : forall cf f ops rs0 starts cs qs w0 w sched, let t0 := f_clock f (f_ticks f) in
  env_weak f -> empty_dir f -> db_open cf f = Some (Ok tt, w0) -> ops_ok cf t0 ops -> db_after_from cf ops w0 = Some (rs0, w) -> work_ok cf t0 ops starts cs ->
  let at_ n := interleave dhandler (firstn n sched) (threads cf starts cs qs) w in
  let chunks_of := chunks_after cf t0 ops rs0 in
  exists E, length E = length sched /\
    (forall n i a, nth_error sched n = Some i -> nth_error (fst (at_ n)) i = Some (Ret a) -> nth_error E n = Some []) /\
    (forall n, explains cf starts cs w (at_ n) (logged (firstn n sched) E)) /\
    forall k a n1 n2 rs, let j := S (length cs + k) in
      nth_error qs k = Some [a] -> asks a -> ~ In j (firstn n1 sched) -> nth_error (fst (at_ n2)) j = Some (Ret (Answered rs)) ->
      let before := logged (firstn n1 sched) E in let upto := logged (firstn n2 sched) E in
      unmixed_sets (k_hs a) (chunks_of upto) (k_labels a) -> timely (written (ops ++ map e_op upto)) \/ cf_st cf = TiKvDry ->
      exists acked pend r, rs = [r] /\ done_of before acked pend /\
        (forall e, pend = Some e -> exists p, nth_error (fst (at_ n1)) (e_who e) = Some p /\ ~ finished p) /\
        grew (chunks_of acked) (chunks_of upto) /\ sets_once (chunks_of upto) /\
        query_outcome (chunks_of acked) (chunks_of upto) (k_labels a) (k_from a) (k_to a) r.
Proof. exact shared_work. Qed.
Print Assumptions C60_between.
(* the order of the points: if each client has label sets of its own and writes them in time order *)
Theorem C60_own_series : forall cf t0 ops starts cs w now log, own_series ops cs -> work_ok cf t0 ops starts cs -> explains cf starts cs w now log ->
  timely (written (ops ++ map e_op log)).
Proof. exact own_timely_log. Qed.
Print Assumptions C60_own_series.

(** what an answer in between is *)
(* every point answered was written: it is of the range, and in a chunk, in a series with a searched label *)
Theorem C60_sound : forall l0 l1 q s e r m pts p, between l0 l1 q s e r -> In (m, pts) r -> In p pts ->
  s <= tp_ts p <= e /\ exists c x, In c l1 /\ In x (snd c) /\ sort_labels (fst x) = m /\ wanted q (fst x) /\ In p (snd x).
Proof. exact between_sound. Qed.
Print Assumptions C60_sound.
(* what was in a chunk at first is found, if no series with searched labels came up in that chunk *)
Theorem C60_complete : forall l0 l1 q s e r j c A0 A1 ls pts p, grew l0 l1 -> sets_once l1 -> between l0 l1 q s e r ->
  nth_error l0 j = Some (c, A0) -> nth_error l1 j = Some (c, A1) -> c_start c <= e -> s <= c_end c ->
  (forall i x, nth_error A1 i = Some x -> (length A0 <= i)%nat -> ~ wanted q (fst x)) ->
  (forall x, In x A0 -> matches A0 q (fst x) = true -> touches s e (snd x)) ->
  In (ls, pts) A0 -> matches A0 q ls = true -> In p pts -> s <= tp_ts p <= e ->
  exists ps, In (sort_labels ls, ps) r /\ In p ps.
Proof. exact between_complete. Qed.
Print Assumptions C60_complete.
(* if no series with searched labels came up in any chunk, the answer is that of chunks with
   contents in between *)
Theorem C60_snapshot : forall l0 l1 q s e r, grew l0 l1 -> settled l0 l1 q -> between l0 l1 q s e r ->
  exists k i l, (length l0 <= S i)%nat /\ (i <= k <= length l1)%nat /\ (i < length l1)%nat /\
    Forall2 (fun j c => exists A, nth_error l1 j = Some (fst c, A) /\ grown (content_at l0 j) (snd c) /\ grown (snd c) A) (seq 0 k ++ [i]) l /\
    db_answer l q s e r.
Proof. exact between_snapshot. Qed.
Print Assumptions C60_snapshot.
(* if nothing was written meanwhile, the answer is the exact one, or has the newest chunk twice *)
Theorem C60_quiet : forall l q s e r, between l l q s e r -> db_answer l q s e r \/ db_answer (twice_last l) q s e r.
Proof. exact between_same. Qed.
Print Assumptions C60_quiet.

(* the same for a query over any two instants: it goes down if and only if one of the chunks brings it down *)
Theorem C60_quiet_outcome : forall l q s e o, query_outcome l l q s e o ->
  ((exists c, In c l /\ crashes c q s e) /\ o = Panic) \/
  (~ (exists c, In c l /\ crashes c q s e) /\ exists r, o = Ok r /\ (db_answer l q s e r \/ db_answer (twice_last l) q s e r)).
Proof. exact outcome_same. Qed.
Print Assumptions C60_quiet_outcome.
(* a query whose start is not after its end always succeeds *)
Theorem C60_succeeds : forall l0 l1 q s e o, s <= e -> query_outcome l0 l1 q s e o -> exists r, o = Ok r /\ between l0 l1 q s e r.
Proof. exact outcome_calm. Qed.
Print Assumptions C60_succeeds.
(* a query that goes down has start after end, and met a series, written by its end, with a point strictly between and
   points on both sides *)
Theorem C60_broke_down : forall l0 l1 q s e, broke_down l0 l1 q s e ->
  e < s /\ exists c x, In c l1 /\ In x (snd c) /\ wanted q (fst x) /\ touches s e (snd x) /\ gap s e (snd x).
Proof. exact broke_down_series. Qed.
Print Assumptions C60_broke_down.

(** a write answered with success before a query starts is in its answer, whatever the other
    clients and the swap thread do meanwhile *)
Theorem C60_acknowledged : forall cf f ops rs0 starts cs qs w0 w sched k a n1 n2 rs ls p, let t0 := f_clock f (f_ticks f) in
  env_weak f -> empty_dir f -> db_open cf f = Some (Ok tt, w0) -> ops_ok cf t0 ops -> db_after_from cf ops w0 = Some (rs0, w) -> work_ok cf t0 ops starts cs ->
  own_series ops cs ->
  let at_ n := fst (interleave dhandler (firstn n sched) (threads cf starts cs qs) w) in let j := S (length cs + k) in
  nth_error qs k = Some [a] -> asks a -> ~ In j (firstn n1 sched) -> nth_error (at_ n2) j = Some (Ret (Answered rs)) ->
  acknowledged ops rs0 cs (at_ n1) ls p -> k_labels a <> [] -> incl (k_labels a) ls -> only_set ops cs (k_labels a) ls -> k_from a <= tp_ts p <= k_to a ->
  exists r ps, rs = [Ok r] /\ In (sort_labels ls, ps) r /\ In p ps.
Proof. exact acknowledged_found. Qed.
Print Assumptions C60_acknowledged.

(* an execution: a swap fails; client 1 has returned at step 86, the others, the swaps and the
   query follow *)
Definition sh_calls : list (list wcall) :=
  [[WPoint [lab "job" "a"; lab "zone" "1"] (mkTp 1110 7); WPoint [lab "job" "a"; lab "zone" "1"] (mkTp 1111 8)];
   [WBatch [lab "job" "b"] [mkTp 1112 5; mkTp 1113 6]; WPoint [lab "job" "c"] (mkTp 1500 1)]].
Definition sh_ask : ask := mkAsk all_probe scan_bs no_timing [lab "zone" "1"] 1000 1200.
Definition sh_sched : list nat := (concat (repeat [1] 86) ++ concat (repeat [0; 2; 3] 120))%list%nat.
Definition sh_w0 : dworld :=
  match db_open (ex_config Sled Sled) (ex_flaky true) with Some (_, w) => w | None => mkD [] 0 [] free_lock free_lock ex_fs end.
Definition sh_w : dworld :=
  match db_after_from (ex_config Sled Sled) (firstn 3 ex_ops) sh_w0 with Some (_, w) => w | None => sh_w0 end.
Definition sh_at (n : nat) : list (prog dcmd wanswer) :=
  fst (interleave dhandler (firstn n sh_sched) (threads (ex_config Sled Sled) [1202; 1303] sh_calls [[sh_ask]]) sh_w).
Lemma world_eq {A} (x : option (A * dworld)) a d : option_map fst x = Some a -> x = Some (a, match x with Some (_, w) => w | None => d end).
Proof. destruct x as [[b w]|]; cbn; [|discriminate]. intros H. now injection H as ->. Qed.
Example C60_case : let cf := ex_config Sled Sled in let f := ex_flaky true in let ops := firstn 3 ex_ops in
  env_weak f /\ empty_dir f /\ db_open cf f = Some (Ok tt, sh_w0) /\ ops_ok cf 1000 ops /\ db_after_from cf ops sh_w0 = Some ([Ok tt; Ok tt; Ok tt], sh_w) /\
  work_ok cf 1000 ops [1202; 1303] sh_calls /\ own_series ops sh_calls /\ asks sh_ask /\
  ~ In 3%nat (firstn 86 sh_sched) /\
  (exists r, nth_error (sh_at 446) 3 = Some (Ret (Answered [Ok r])) /\ r = [([lab "job" "a"; lab "zone" "1"], [mkTp 1110 7; mkTp 1111 8; mkTp 1110 7; mkTp 1111 8])]) /\
  acknowledged ops [Ok tt; Ok tt; Ok tt] sh_calls (sh_at 86) [lab "job" "a"; lab "zone" "1"] (mkTp 1111 8) /\
  incl (k_labels sh_ask) [lab "job" "a"; lab "zone" "1"] /\ only_set ops sh_calls (k_labels sh_ask) [lab "job" "a"; lab "zone" "1"].
Proof.
  cbv zeta.
  split; [split; [intros l; apply Permutation_refl|split; [intros n; apply repeat_length|intros n; unfold u64, ex_flaky; cbn [f_clock]; lia]]|].
  split; [split; reflexivity|]. split; [apply world_eq; vm_compute; reflexivity|].
  assert (O: ops_ok (ex_config Sled Sled) 1000 (firstn 3 ex_ops)).
  { cbn [firstn ex_ops]. split; [discriminate|]. split; [lia|]. split; [cbn; lia|]. split; [cbn; lia|]. split; [cbn; lia|].
    split; [cbn [written map app]; reqs_tac|]. cbn. lia. }
  split; [exact O|]. split; [apply world_eq; vm_compute; reflexivity|].
  assert (F: Forall (fun c => Forall ireq_ok (points_of c)) sh_calls).
  { constructor; [cbn [points_of call_points map concat app]; reqs_tac|]. constructor; [cbn [points_of call_points map concat app]; reqs_tac|constructor]. }
  split. { split; [cbn; lia|]. split; [exact F|]. vm_compute. reflexivity. }
  split.
  { inversion F as [|? ? F1 F']; subst. inversion F' as [|? ? F2 _]; subst. split; [|split].
    - apply timely_check; [apply O|vm_compute; reflexivity].
    - constructor; [|constructor; [|constructor]]; (apply timely_check; [apply Forall_app; split; [apply O|assumption]|vm_compute; reflexivity]).
    - intros i j c c' r r' Nij Hi Hj Hr Hr' P. apply Permutation_length in P as L.
      assert (C: forall n c0, nth_error sh_calls n = Some c0 -> (n = 0%nat /\ forall x, In x (points_of c0) -> length (fst x) = 2%nat) \/ (n = 1%nat /\ forall x, In x (points_of c0) -> length (fst x) = 1%nat)).
      { intros n c0 H. destruct n as [|[|n]]; [left|right|destruct n; discriminate]; (split; [reflexivity|]); injection H as <-; intros x Hx; cbn in Hx; repeat (destruct Hx as [<-|Hx]; [reflexivity|]); contradiction. }
      destruct (C _ _ Hi) as [[-> C1]|[-> C1]], (C _ _ Hj) as [[-> C2]|[-> C2]]; try congruence; rewrite (C1 _ Hr), (C2 _ Hr') in L; discriminate. }
  split. { split; [exact all_probe_ok|]. split; [exact scan_contract|]. cbn [k_labels sh_ask]; labs_tac. }
  split. { intros H. change (firstn 86 sh_sched) with (repeat 1%nat 86) in H. apply repeat_spec in H. discriminate. }
  split. { eexists. split; vm_compute; reflexivity. }
  split. { right. exists 0%nat. eexists. exists [Ok tt; Ok tt], 1%nat. split; [reflexivity|]. split; [vm_compute; reflexivity|]. split; reflexivity. }
  split. { intros l [<-|[]]. right. now left. }
  intros r Hr (l & Hl & Hh). destruct Hl as [<-|[]]. cbn in Hr. repeat (destruct Hr as [<-|Hr]; [try (vm_compute in Hh; discriminate); try apply Permutation_refl|]). contradiction.
Qed.

(* a query from 1112 back to 1110, while a client writes points at 1110, 1111 and 1112: it finds nothing, or goes down,
   as it comes before or after the third *)
Definition bk_calls : list (list wcall) :=
  [[WPoint [lab "job" "a"; lab "zone" "1"] (mkTp 1110 7); WPoint [lab "job" "a"; lab "zone" "1"] (mkTp 1111 8); WPoint [lab "job" "a"; lab "zone" "1"] (mkTp 1112 9)]].
Definition bk_ask : ask := mkAsk all_probe scan_bs no_timing [lab "zone" "1"] 1112 1110.
Definition bk_at (sched : list nat) :=
  map (fun p => match p with Ret x => Some x | _ => None end) (fst (interleave dhandler sched (threads (ex_config Sled Sled) [] bk_calls [[bk_ask]]) sh_w)).
Example C60_back_case : asks bk_ask /\ work_ok (ex_config Sled Sled) 1000 (firstn 3 ex_ops) [] bk_calls /\
  bk_at (repeat 1 22 ++ repeat 2 60 ++ repeat 1 100 ++ repeat 2 60 ++ repeat 0 5)%list%nat = [Some (Rotated []); Some (Wrote [Ok tt; Ok tt; Ok tt]); Some (Answered [Ok []])] /\
  bk_at (repeat 1 200 ++ repeat 2 60 ++ repeat 0 5)%list%nat = [Some (Rotated []); Some (Wrote [Ok tt; Ok tt; Ok tt]); Some (Answered [Panic])].
Proof.
  split. { split; [exact all_probe_ok|]. split; [exact scan_contract|]. cbn [k_labels bk_ask]; labs_tac. }
  split. { split; [exact I|]. split; [constructor; [cbn [points_of call_points map concat app]; reqs_tac|constructor]|]. vm_compute. reflexivity. }
  split; vm_compute; reflexivity.
Qed.

(* not: a query sees the writes in the order in which they were answered.  One client writes to two
   series, one after the other; a query meanwhile answers the second point and not the first *)
Definition or_ops : list dop := [OpPoint [lab "job" "a"; lab "host" "x"] (mkTp 1010 1); OpPoint [lab "job" "a"; lab "host" "y"] (mkTp 1010 2)].
Definition or_call : list wcall := [WPoint [lab "job" "a"; lab "host" "x"] (mkTp 1020 3); WPoint [lab "job" "a"; lab "host" "y"] (mkTp 1020 4)].
Theorem C60_order_refuted : exists cf f w0 rs0 w sched a r m1 m2 p1 p2, env_weak f /\ empty_dir f /\ db_open cf f = Some (Ok tt, w0) /\ asks a /\
  db_after_from cf or_ops w0 = Some (rs0, w) /\ or_call = [WPoint m1 p1; WPoint m2 p2] /\
  map (fun p => match p with Ret x => Some x | _ => None end) (fst (interleave dhandler sched (threads cf [] [or_call] [[a]]) w)) =
    [Some (Rotated []); Some (Wrote [Ok tt; Ok tt]); Some (Answered [Ok r])] /\
  (exists ps, In (sort_labels m2, ps) r /\ In p2 ps) /\ (forall ps, In (sort_labels m1, ps) r -> ~ In p1 ps) /\
  forall n rs w', db_after_from cf (firstn n [OpPoint m1 p1; OpPoint m2 p2]) w = Some (rs, w') -> drun (ask_prog a) w' <> Some (Ok r, w').
Proof.
  exists (ex_config Sled Sled), ex_fs. do 3 eexists. exists (repeat 2 6 ++ repeat 1 80 ++ repeat 2 60 ++ repeat 0 5)%list%nat, (mkAsk all_probe scan_bs no_timing [lab "job" "a"] 1000 1100).
  do 5 eexists. destruct ex_env as (E1 & E2 & E3 & _). split; [split; [exact E1|split; assumption]|]. split; [exact ex_empty|]. split; [vm_compute; reflexivity|].
  split. { split; [exact all_probe_ok|]. split; [exact scan_contract|]. cbn [k_labels]; labs_tac. }
  split; [vm_compute; reflexivity|]. split; [reflexivity|]. split; [vm_compute; reflexivity|]. split; [eexists; split; [right; left; reflexivity|right; left; reflexivity]|].
  split. { intros ps [H|[H|[]]]; [injection H as <-; intros [H|[]]; discriminate|discriminate]. }
  intros n rs w' H Q. assert (C: n = 0%nat \/ n = 1%nat \/ (2 <= n)%nat) by lia. destruct C as [->|[->|C]].
  - vm_compute in H. injection H as <- <-. vm_compute in Q. discriminate.
  - vm_compute in H. injection H as <- <-. vm_compute in Q. discriminate.
  - rewrite firstn_all2 in H by (cbn; lia). vm_compute in H. injection H as <- <-. vm_compute in Q. discriminate.
Qed.
Print Assumptions C60_order_refuted.
