(* Property C76: the process ends while the server is at work on a request, and the directory is opened again. *)
From Coq Require Import Permutation Sorted String.
From Verif Require Import WireSpec WireMsgs WireWrong WireWritten PropsWire.
From Verif Require Import Rust Prog Gorilla GorillaSpec Storage StorageSpec StorageProofs Labels Indexer IndexSpec
  Chunk ChunkSpec ChunkProofs ChunkFacts Conc Utils DirSpec TiKvInit Db DbSpec DbProofs DbHist RangeSpec RangeProofs DbFacts ReopenSpec ReopenProofs OpenProofs CrashOpen CrashKeep StopSpec
  SearchSpec SearchProofs Proto ProtoSpec ProtoProofs Server ServerSpec ServerProofs TornSpec TornServeSpec TornServe TornSession PropsChunk PropsDb PropsReopen PropsCrash PropsProto PropsServer PropsTorn.
Local Notation lab k v := (mkLabel (s2b k) (s2b v)).
Local Notation length := List.length.

(* a request that is no write request (a read request, an unknown path): what the process leaves
   behind is what it would have left behind before the request *)
Theorem C76_no_write : forall cf sv z bs ch rq n w, rq_url rq = sv_read_path sv \/ rq_url rq <> sv_write_path sv ->
  stopped cf (snd (crash_at dhandler n (process sv z bs ch rq) w)) = stopped cf w.
Proof. exact reading_crash. Qed.
Print Assumptions C76_no_write.

(* a write request, cut anywhere: the first series are written and of one more the first points; the
   database opens, and a query finds every earlier window in full, and in the current one nothing but
   points that are stored *)
Theorem C76_every_query : forall cf f ops sv z bs0 ch rq m n, open_env cf f -> empty_dir f -> monotone (f_clock f) ->
  cf_st cf = Sled -> cf_ix cf = Sled ->
  let t0 := f_clock f (f_ticks f) in let todo := applied (current_window cf t0 ops) (wq_series m) in
  carries sv z rq (CWrite m) -> ops_ok cf t0 (ops ++ batches todo) -> timely (written (ops ++ batches todo)) ->
  (forall i, (f_ticks f < i)%nat -> last_start t0 ops < f_clock f i) ->
  (forall p, stored (parts cf t0 (ops ++ batches todo)) p -> tp_ts p <= f_clock f (S (f_ticks f))) ->
  exists part w, some_of part todo /\ db_after cf f ops = Some (outcomes cf t0 ops, w) /\
    forall hs bs o q s e, hasher_ok hs -> bs_contract bs -> Forall lab_ok q -> s <= e -> apart_in hs (parts cf t0 (ops ++ batches part)) ->
    exists w' r', db_open cf (stopped cf (snd (crash_at dhandler n (process sv z bs0 ch rq) w))) = Some (Ok tt, w') /\
      drun (db_query hs bs o q s e) w' = Some (Ok r', w') /\ answer_short (parts cf t0 (ops ++ batches part)) q s e r'.
Proof. intros. now apply request_crash_any. Qed.
Print Assumptions C76_every_query.

(* when the current window has all series of the request: the answer is that of a database to which
   just that part had been written *)
Theorem C76_known_series : forall cf f ops sv z bs0 ch rq m n, open_env cf f -> empty_dir f -> monotone (f_clock f) ->
  cf_st cf = Sled -> cf_ix cf = Sled ->
  let t0 := f_clock f (f_ticks f) in let todo := applied (current_window cf t0 ops) (wq_series m) in
  carries sv z rq (CWrite m) -> ops_ok cf t0 (ops ++ batches todo) -> timely (written (ops ++ batches todo)) ->
  (forall i, (f_ticks f < i)%nat -> last_start t0 ops < f_clock f i) ->
  (forall p, stored (parts cf t0 (ops ++ batches todo)) p -> tp_ts p <= f_clock f (S (f_ticks f))) ->
  has_all cf t0 ops todo ->
  exists part w, some_of part todo /\ db_after cf f ops = Some (outcomes cf t0 ops, w) /\
    forall hs bs o q s e, hasher_ok hs -> bs_contract bs -> Forall lab_ok q -> unmixed hs (parts cf t0 (ops ++ batches part)) q s e ->
    exists w' r', db_open cf (stopped cf (snd (crash_at dhandler n (process sv z bs0 ch rq) w))) = Some (Ok tt, w') /\
      drun (db_query hs bs o q s e) w' = Some (r', w') /\ comes_to (parts cf t0 (ops ++ batches part)) q s e r'.
Proof. intros. now apply request_crash_known. Qed.
Print Assumptions C76_known_series.

(* a query that shares no label with a series of the request: answered as before the request *)
Theorem C76_other_queries : forall cf f ops sv z bs0 ch rq m n, open_env cf f -> empty_dir f -> monotone (f_clock f) ->
  cf_st cf = Sled -> cf_ix cf = Sled ->
  let t0 := f_clock f (f_ticks f) in let todo := applied (current_window cf t0 ops) (wq_series m) in
  carries sv z rq (CWrite m) -> ops_ok cf t0 (ops ++ batches todo) -> timely (written (ops ++ batches todo)) ->
  (forall i, (f_ticks f < i)%nat -> last_start t0 ops < f_clock f i) ->
  (forall p, stored (parts cf t0 (ops ++ batches todo)) p -> tp_ts p <= f_clock f (S (f_ticks f))) ->
  exists w, db_after cf f ops = Some (outcomes cf t0 ops, w) /\
    forall hs bs o q s e, hasher_ok hs -> bs_contract bs -> Forall lab_ok q -> s <= e -> unmixed hs (parts cf t0 ops) q s e ->
    (forall x, In x todo -> ~ shares q (stored_labels x)) ->
    exists w' r', db_open cf (stopped cf (snd (crash_at dhandler n (process sv z bs0 ch rq) w))) = Some (Ok tt, w') /\
      drun (db_query hs bs o q s e) w' = Some (Ok r', w') /\ db_answer (parts cf t0 ops) q s e r'.
Proof. intros. now apply (request_crash_others cf f ops sv z bs0 ch rq m n). Qed.
Print Assumptions C76_other_queries.

(* what a query finds once a request, after torn_ops, was cut after n commands *)
Definition ask_cut (rq : request) (n : nat) (q : list label) (s e : Z) :=
  match db_after (ex_config Sled Sled) slow_fs torn_ops with
  | Some (_, w) =>
      match db_open (ex_config Sled Sled) (stopped (ex_config Sled Sled) (snd (crash_at dhandler n (process ex_server ex_snappy scan_bs ex_choices rq) w))) with
      | Some (Ok _, w') => option_map fst (drun (db_query all_probe scan_bs no_timing q s e) w')
      | _ => None
      end
  | None => None
  end.
Definition cut_known : write_request :=
  mkWriteReq [mkPSeries [mkPLabel (s2b "host") (s2b "x") []; mkPLabel (s2b "job") (s2b "a") []] [mkSample 1 1170 []; mkSample 2 1180 []] [];
              mkPSeries [mkPLabel (s2b "job") (s2b "a") []; mkPLabel (s2b "host") (s2b "x") []] [mkSample 3 1190 []] []] [].
Definition cut_new : write_request := mkWriteReq [ex_wire "p" [1160; 1170]; ex_wire "q" [1165]] [].
Definition cut_request (m : write_request) : request := ex_post "/write" (write_request_write m).

(* two series of the request, both the one that is there: nothing, one, two or three points *)
Example C76_known_case : let todo := applied (current_window (ex_config Sled Sled) 1000 torn_ops) (wq_series cut_known) in let q := [lab "job" "a"] in
  carries ex_server ex_snappy (cut_request cut_known) (CWrite cut_known) /\
  ops_ok (ex_config Sled Sled) 1000 (torn_ops ++ batches todo) /\ timely (written (torn_ops ++ batches todo)) /\
  (forall i, (0 < i)%nat -> last_start 1000 torn_ops < f_clock slow_fs i) /\
  (forall p, stored (parts (ex_config Sled Sled) 1000 (torn_ops ++ batches todo)) p -> tp_ts p <= f_clock slow_fs 1) /\
  has_all (ex_config Sled Sled) 1000 torn_ops todo /\
  let y := ([lab "host" "y"; lab "job" "a"], [mkTp 1050 2]) in
  let x k := ([lab "host" "x"; lab "job" "a"], mkTp 1150 8 :: firstn k [mkTp 1170 1; mkTp 1180 2; mkTp 1190 3]) in
  map (fun n => ask_cut (cut_request cut_known) n q 1000 5000) (seq 0 20) =
    repeat (Some (Ok [x 0%nat; y])) 5 ++ repeat (Some (Ok [x 1%nat; y])) 5 ++ repeat (Some (Ok [x 2%nat; y])) 7 ++ repeat (Some (Ok [x 3%nat; y])) 3.
Proof.
  assert (TD: applied (current_window (ex_config Sled Sled) 1000 torn_ops) (wq_series cut_known) = wq_series cut_known) by (vm_compute; reflexivity).
  cbv zeta. rewrite TD.
  assert (O: ops_ok (ex_config Sled Sled) 1000 (torn_ops ++ batches (wq_series cut_known))).
  { split; [discriminate|]. split; [lia|]. split; [cbn; lia|]. split; [vm_compute; reflexivity|]. split; [cbn; lia|].
    split; [|cbn; lia].
    change (batches (wq_series cut_known)) with [OpBatch [lab "host" "x"; lab "job" "a"] [mkTp 1170 1; mkTp 1180 2]; OpBatch [lab "job" "a"; lab "host" "x"] [mkTp 1190 3]].
    cbn [written torn_ops map app]; reqs_tac. }
  split. { eapply carries_write; [reflexivity|reflexivity|apply write_request_b; unfold cut_known; split; cbn [wq_series wq_unk]; ok_tac|reflexivity|reflexivity|discriminate|vm_compute; reflexivity]. }
  split; [exact O|]. split; [apply timely_check; [apply O|vm_compute; reflexivity]|].
  split. { intros i H. unfold slow_fs. cbn [f_clock last_start torn_ops]. lia. }
  split. { match goal with |- ?G => assert (K: 0 = 0 -> G) by stored_tac end. exact (K eq_refl). }
  split.
  { intros x Hx. exists [(mkChunk SledStorage SledIndexer 1000 1100, [([lab "job" "a"; lab "host" "y"], [mkTp 1050 2])])], (mkChunk SledStorage SledIndexer 1101 1201),
      [([lab "host" "x"; lab "job" "a"], [mkTp 1150 8])], ([lab "host" "x"; lab "job" "a"], [mkTp 1150 8]).
    split; [vm_compute; reflexivity|]. split; [now left|].
    destruct Hx as [<-|[<-|[]]]; [apply Permutation_refl|apply perm_swap]. }
  vm_compute. reflexivity.
Qed.
(* two series that are new: the query for another series finds it wherever the request is cut; a query
   for the new ones finds, as the request goes on, nothing, one point, two points, nothing, all three *)
Example C76_new_case : let todo := applied (current_window (ex_config Sled Sled) 1000 torn_ops) (wq_series cut_new) in
  carries ex_server ex_snappy (cut_request cut_new) (CWrite cut_new) /\
  ops_ok (ex_config Sled Sled) 1000 (torn_ops ++ batches todo) /\ timely (written (torn_ops ++ batches todo)) /\
  (forall p, stored (parts (ex_config Sled Sled) 1000 (torn_ops ++ batches todo)) p -> tp_ts p <= f_clock slow_fs 1) /\
  (forall x, In x todo -> ~ shares [lab "job" "a"] (stored_labels x)) /\
  unmixed all_probe (parts (ex_config Sled Sled) 1000 torn_ops) [lab "job" "a"] 1000 5000 /\
  apart_in all_probe (parts (ex_config Sled Sled) 1000 (torn_ops ++ batches todo)) /\
  let y := ([lab "host" "y"; lab "job" "a"], [mkTp 1050 2]) in
  let x := ([lab "host" "x"; lab "job" "a"], [mkTp 1150 8]) in
  let p k := ([lab "host" "p"; lab "job" "c"], firstn k [mkTp 1160 1; mkTp 1170 1]) in
  let z := ([lab "host" "q"; lab "job" "c"], [mkTp 1165 1]) in
  map (fun n => ask_cut (cut_request cut_new) n [lab "job" "a"] 1000 5000) (seq 0 40) = repeat (Some (Ok [x; y])) 40 /\
  map (fun n => ask_cut (cut_request cut_new) n [lab "job" "c"] 1000 5000) (seq 0 40) =
    repeat (Some (Ok [])) 13 ++ repeat (Some (Ok [p 1%nat])) 5 ++ repeat (Some (Ok [p 2%nat])) 11 ++ repeat (Some (Ok [])) 4 ++ repeat (Some (Ok [p 2%nat; z])) 7.
Proof.
  assert (TD: applied (current_window (ex_config Sled Sled) 1000 torn_ops) (wq_series cut_new) = wq_series cut_new) by (vm_compute; reflexivity).
  cbv zeta. rewrite TD.
  assert (O: ops_ok (ex_config Sled Sled) 1000 (torn_ops ++ batches (wq_series cut_new))).
  { split; [discriminate|]. split; [lia|]. split; [cbn; lia|]. split; [vm_compute; reflexivity|]. split; [cbn; lia|].
    split; [|cbn; lia].
    change (batches (wq_series cut_new)) with [OpBatch [lab "job" "c"; lab "host" "p"] [mkTp 1160 1; mkTp 1170 1]; OpBatch [lab "job" "c"; lab "host" "q"] [mkTp 1165 1]].
    cbn [written torn_ops map app]; reqs_tac. }
  split. { eapply carries_write; [reflexivity|reflexivity|apply write_request_b; unfold cut_new, ex_wire; cbn [map]; split; cbn [wq_series wq_unk]; ok_tac|reflexivity|reflexivity|discriminate|vm_compute; reflexivity]. }
  split; [exact O|]. split; [apply timely_check; [apply O|vm_compute; reflexivity]|].
  split. { match goal with |- ?G => assert (K: 0 = 0 -> G) by stored_tac end. exact (K eq_refl). }
  split. { intros x [<-|[<-|[]]] (l & [<-|[]] & [H|[H|[]]]); discriminate H. }
  split; [apply unmixed_check; vm_compute; reflexivity|]. split; [apply apart_check; vm_compute; reflexivity|].
  split; vm_compute; reflexivity.
Qed.
(* a read request cut anywhere *)
Example C76_no_write_case : let rq := ex_post "/read" (read_request_write (mkReadReq ex_queries [] [])) in
  rq_url rq = sv_read_path ex_server /\
  map (fun n => ask_cut rq n [lab "job" "a"] 1000 5000) (seq 0 30) = repeat (ask_ops torn_ops [lab "job" "a"] 1000 5000) 30.
Proof. split; vm_compute; reflexivity. Qed.

(** A whole session: the server answers the requests rqs one after the other, and its process ends
    after any number n of commands.  Some requests had been answered, rightly; the next one, if any,
    was being worked on. *)
(* what is found afterwards: all that had been acknowledged, and a part of the request at work; every
   earlier window in full, and of the current one nothing but points that are stored *)
Theorem C76_sessions : forall cf f sv z bs0 ch, open_env cf f -> empty_dir f -> monotone (f_clock f) ->
  cf_st cf = Sled -> cf_ix cf = Sled -> bs_contract bs0 -> (forall k n, hasher_ok (fst (ch k n))) ->
  let t0 := f_clock f (f_ticks f) in forall rqs l k ops n,
  Forall2 (carries sv z) rqs l -> session_ok ch cf t0 z ops l ->
  let ops' := after_session cf t0 ops l in ops_ok cf t0 ops' -> timely (written ops') ->
  (forall i, (f_ticks f < i)%nat -> last_start t0 ops < f_clock f i) ->
  (forall p, stored (parts cf t0 ops') p -> tp_ts p <= f_clock f (S (f_ticks f))) ->
  exists w rqs1 rqs2 l1 l2 rss, rqs = rqs1 ++ rqs2 /\ l = l1 ++ l2 /\ db_after cf f ops = Some (outcomes cf t0 ops, w) /\
    answered_by n sv z bs0 ch k rqs1 rqs2 rss w /\ session_answered cf t0 z ops l1 rss /\
    exists part, cut_in cf t0 (after_session cf t0 ops l1) l2 part /\ let seen := parts cf t0 (after_session cf t0 ops l1 ++ batches part) in
    forall hs bs o q s e, hasher_ok hs -> bs_contract bs -> Forall lab_ok q -> s <= e -> apart_in hs seen ->
    exists w' r', db_open cf (stopped cf (snd (crash_at dhandler n (serve sv z bs0 ch k rqs) w))) = Some (Ok tt, w') /\
      drun (db_query hs bs o q s e) w' = Some (Ok r', w') /\ answer_short seen q s e r'.
Proof. intros. now apply session_crash_any. Qed.
Print Assumptions C76_sessions.
(* a query that shares no label with a series of the request at work: all that had been acknowledged
   is answered, in full *)
Theorem C76_sessions_others : forall cf f sv z bs0 ch, open_env cf f -> empty_dir f -> monotone (f_clock f) ->
  cf_st cf = Sled -> cf_ix cf = Sled -> bs_contract bs0 -> (forall k n, hasher_ok (fst (ch k n))) ->
  let t0 := f_clock f (f_ticks f) in forall rqs l k ops n,
  Forall2 (carries sv z) rqs l -> session_ok ch cf t0 z ops l ->
  let ops' := after_session cf t0 ops l in ops_ok cf t0 ops' -> timely (written ops') ->
  (forall i, (f_ticks f < i)%nat -> last_start t0 ops < f_clock f i) ->
  (forall p, stored (parts cf t0 ops') p -> tp_ts p <= f_clock f (S (f_ticks f))) ->
  exists w rqs1 rqs2 l1 l2 rss, rqs = rqs1 ++ rqs2 /\ l = l1 ++ l2 /\ db_after cf f ops = Some (outcomes cf t0 ops, w) /\
    answered_by n sv z bs0 ch k rqs1 rqs2 rss w /\ session_answered cf t0 z ops l1 rss /\
    let done := after_session cf t0 ops l1 in
    forall hs bs o q s e, hasher_ok hs -> bs_contract bs -> Forall lab_ok q -> s <= e -> unmixed hs (parts cf t0 done) q s e ->
    (forall x, In x (next_series cf t0 done l2) -> ~ shares q (stored_labels x)) ->
    exists w' r', db_open cf (stopped cf (snd (crash_at dhandler n (serve sv z bs0 ch k rqs) w))) = Some (Ok tt, w') /\
      drun (db_query hs bs o q s e) w' = Some (Ok r', w') /\ db_answer (parts cf t0 done) q s e r'.
Proof. intros. now apply session_crash_others. Qed.
Print Assumptions C76_sessions_others.
(* when the current window has all series of the requests: as if just the acknowledged requests and a
   part of the next had been written *)
Theorem C76_sessions_known : forall cf f sv z bs0 ch, open_env cf f -> empty_dir f -> monotone (f_clock f) ->
  cf_st cf = Sled -> cf_ix cf = Sled -> bs_contract bs0 -> (forall k n, hasher_ok (fst (ch k n))) ->
  let t0 := f_clock f (f_ticks f) in forall rqs l k ops n,
  Forall2 (carries sv z) rqs l -> session_ok ch cf t0 z ops l ->
  let ops' := after_session cf t0 ops l in ops_ok cf t0 ops' -> timely (written ops') ->
  (forall i, (f_ticks f < i)%nat -> last_start t0 ops < f_clock f i) ->
  (forall p, stored (parts cf t0 ops') p -> tp_ts p <= f_clock f (S (f_ticks f))) ->
  (forall l1 l2, l = l1 ++ l2 -> has_all cf t0 (after_session cf t0 ops l1) (next_series cf t0 (after_session cf t0 ops l1) l2)) ->
  exists w rqs1 rqs2 l1 l2 rss, rqs = rqs1 ++ rqs2 /\ l = l1 ++ l2 /\ db_after cf f ops = Some (outcomes cf t0 ops, w) /\
    answered_by n sv z bs0 ch k rqs1 rqs2 rss w /\ session_answered cf t0 z ops l1 rss /\
    exists part, cut_in cf t0 (after_session cf t0 ops l1) l2 part /\ let seen := parts cf t0 (after_session cf t0 ops l1 ++ batches part) in
    forall hs bs o q s e, hasher_ok hs -> bs_contract bs -> Forall lab_ok q -> unmixed hs seen q s e ->
    exists w' r', db_open cf (stopped cf (snd (crash_at dhandler n (serve sv z bs0 ch k rqs) w))) = Some (Ok tt, w') /\
      drun (db_query hs bs o q s e) w' = Some (r', w') /\ comes_to seen q s e r'.
Proof. intros. now apply session_crash_known. Qed.
Print Assumptions C76_sessions_known.

Definition ask_session (rqs : list request) (n : nat) (q : list label) (s e : Z) :=
  match db_after (ex_config Sled Sled) slow_fs torn_ops with
  | Some (_, w) =>
      match db_open (ex_config Sled Sled) (stopped (ex_config Sled Sled) (snd (crash_at dhandler n (serve ex_server ex_snappy scan_bs (fun _ => ex_choices) 0 rqs) w))) with
      | Some (Ok _, w') => option_map fst (drun (db_query all_probe scan_bs no_timing q s e) w')
      | _ => None
      end
  | None => None
  end.
Definition cut_read : read_request := mkReadReq [mkPQuery 1000 1300 [mkMatcher EQ (s2b "job") (s2b "a") []] None []] [] [].
Definition cut_session : list ServerSpec.client := [CWrite cut_known; CRead cut_read; CWrite cut_new].
Definition cut_requests : list request := [cut_request cut_known; ex_post "/read" (read_request_write cut_read); cut_request cut_new].

Example C76_sessions_case :
  Forall2 (carries ex_server ex_snappy) cut_requests cut_session /\
  session_ok (fun _ => ex_choices) (ex_config Sled Sled) 1000 ex_snappy torn_ops cut_session /\
  let ops' := after_session (ex_config Sled Sled) 1000 torn_ops cut_session in
  ops_ok (ex_config Sled Sled) 1000 ops' /\ timely (written ops') /\
  (forall p, stored (parts (ex_config Sled Sled) 1000 ops') p -> tp_ts p <= f_clock slow_fs 1) /\
  (* the series of the last request are new, and no series of it has the label that is asked for *)
  next_series (ex_config Sled Sled) 1000 (after_session (ex_config Sled Sled) 1000 torn_ops [CWrite cut_known; CRead cut_read]) [CWrite cut_new] = wq_series cut_new /\
  (forall x, In x (wq_series cut_new) -> ~ shares [lab "job" "a"] (stored_labels x)) /\
  let y := ([lab "host" "y"; lab "job" "a"], [mkTp 1050 2]) in
  let x k := ([lab "host" "x"; lab "job" "a"], mkTp 1150 8 :: firstn k [mkTp 1170 1; mkTp 1180 2; mkTp 1190 3]) in
  let p k := ([lab "host" "p"; lab "job" "c"], firstn k [mkTp 1160 1; mkTp 1170 1]) in
  let z := ([lab "host" "q"; lab "job" "c"], [mkTp 1165 1]) in
  map (fun n => ask_session cut_requests n [lab "job" "a"] 1000 5000) (seq 0 70) =
    repeat (Some (Ok [x 0%nat; y])) 5 ++ repeat (Some (Ok [x 1%nat; y])) 5 ++ repeat (Some (Ok [x 2%nat; y])) 7 ++ repeat (Some (Ok [x 3%nat; y])) 53 /\
  map (fun n => ask_session cut_requests n [lab "job" "c"] 1000 5000) (seq 0 70) =
    repeat (Some (Ok [])) 44 ++ repeat (Some (Ok [p 1%nat])) 5 ++ repeat (Some (Ok [p 2%nat])) 11 ++ repeat (Some (Ok [])) 4 ++ repeat (Some (Ok [p 2%nat; z])) 6.
Proof.
  assert (A: after_session (ex_config Sled Sled) 1000 torn_ops cut_session = torn_ops ++
    [OpBatch [lab "host" "x"; lab "job" "a"] [mkTp 1170 1; mkTp 1180 2]; OpBatch [lab "job" "a"; lab "host" "x"] [mkTp 1190 3];
     OpBatch [lab "job" "c"; lab "host" "p"] [mkTp 1160 1; mkTp 1170 1]; OpBatch [lab "job" "c"; lab "host" "q"] [mkTp 1165 1]]) by reflexivity.
  assert (O: ops_ok (ex_config Sled Sled) 1000 (after_session (ex_config Sled Sled) 1000 torn_ops cut_session)).
  { rewrite A. split; [discriminate|]. split; [lia|]. split; [cbn; lia|]. split; [vm_compute; reflexivity|]. split; [cbn; lia|].
    split; [|cbn; lia]. cbn [written torn_ops map app]; reqs_tac. }
  split.
  { unfold cut_requests, cut_session. constructor; [|constructor; [|constructor; [|constructor]]].
    - apply C76_known_case.
    - eapply carries_read; [reflexivity|reflexivity|apply read_request_b; split; cbn [rq_queries rq_unk cut_read]; ok_tac|reflexivity|reflexivity|vm_compute; reflexivity].
    - apply C76_new_case. }
  split.
  { cbn [session_ok cut_session client_ok]. split; [exact I|]. split; [|split; exact I]. split; [|intros rs _; discriminate].
    intros k. apply Forall_forall. intros q H. split; [|split].
    - destruct H as [<-|[]]. cbn [asked_labels pq_matchers map mt_name mt_value]. labs_tac.
    - destruct H as [<-|[]]. vm_compute; discriminate.
    - intros n. apply unmixed_check. vm_compute. reflexivity. }
  cbv zeta. split; [exact O|]. split; [apply timely_check; [apply O|vm_compute; reflexivity]|].
  split. { match goal with |- ?G => assert (K: 0 = 0 -> G) by stored_tac end. exact (K eq_refl). }
  split; [vm_compute; reflexivity|].
  split. { intros x [<-|[<-|[]]] (l & [<-|[]] & [H|[H|[]]]); discriminate H. }
  split; vm_compute; reflexivity.
Qed.
(* the first two requests: all series are there *)
Example C76_sessions_known_case : forall l1 l2, [CWrite cut_known; CRead cut_read] = l1 ++ l2 ->
  let a := after_session (ex_config Sled Sled) 1000 torn_ops l1 in has_all (ex_config Sled Sled) 1000 a (next_series (ex_config Sled Sled) 1000 a l2).
Proof.
  intros [|c l1] l2 E; cbn [app] in E.
  - subst l2. cbv zeta. cbn [after_session]. exact (proj1 (proj2 (proj2 (proj2 (proj2 (proj2 C76_known_case)))))).
  - assert (N: forall m l3, l2 <> CWrite m :: l3).
    { intros m l3 ->. destruct l1 as [|c1 [|c2 l1]]; cbn [app] in E; try discriminate. }
    cbv zeta. intros x Hx. destruct l2 as [|[m|m|] l2]; cbn [next_series] in Hx; try contradiction. exfalso. now apply (N m l2).
Qed.
