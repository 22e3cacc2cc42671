(* Property C69, and the positive part of C32: queries over any two instants. *)
From Coq Require Import Permutation String.
From Verif Require Import WireSpec WireMsgs WireWrong WireWritten PropsWire.
From Verif Require Import Rust Prog Gorilla GorillaSpec Storage StorageSpec Labels Indexer IndexSpec Chunk ChunkSpec Utils DirSpec TiKvInit
  Db DbSpec RangeSpec Proto ProtoSpec Server ServerSpec AskSpec.
From Verif Require Import ChunkProofs DbFacts RangeProofs ServerProofs AskProofs PropsChunk PropsDb PropsProto PropsServer ReopenSpec PropsReopen.
Local Notation lab k v := (mkLabel (s2b k) (s2b v)).
Local Notation length := List.length.

(** C32: exactly when a query brings the database down, and that it otherwise answers *)
Theorem C32_any_range : forall cf f hs bs o ops q s e, env_ok f -> empty_dir f -> let t0 := f_clock f (f_ticks f) in
  ops_ok cf t0 ops -> timely (written ops) -> hasher_ok hs -> bs_contract bs -> Forall lab_ok q ->
  let l := parts cf t0 ops in unmixed hs l q s e ->
  exists w r, db_after cf f ops = Some (outcomes cf t0 ops, w) /\ drun (db_query hs bs o q s e) w = Some (r, w) /\
    ((exists c, In c l /\ crashes c q s e) /\ r = Panic \/
     ~ (exists c, In c l /\ crashes c q s e) /\ exists a, r = Ok a /\ db_answer l q s e a).
Proof. exact any_range. Qed.
Print Assumptions C32_any_range.
(* and what it answers then, if the instants are in the wrong order, is nothing *)
Theorem C32_inverted_answer : forall l q s e a, e < s -> db_answer l q s e a -> a = [].
Proof.
  intros l q s e a He [_ H]. destruct a as [|[m pts] a]; [reflexivity|]. exfalso. apply (empty_answer l q s e) in He as [_ He].
  apply (He m pts), H. now left.
Qed.
Print Assumptions C32_inverted_answer.
(* one series with points around the gap, one with none between, one that has none late enough *)
Definition ask_ops : list dop :=
  [OpBatch [lab "a" "1"; lab "b" "1"] [mkTp 1010 1; mkTp 1020 2; mkTp 1040 3];
   OpBatch [lab "a" "2"; lab "b" "1"; lab "c" "1"] [mkTp 1010 4; mkTp 1040 5];
   OpBatch [lab "a" "3"; lab "c" "1"] [mkTp 1012 6; mkTp 1018 7]; OpSwap 1101;
   OpBatch [lab "a" "1"; lab "b" "1"] [mkTp 1110 1; mkTp 1120 2; mkTp 1140 3]].
Lemma ask_ops_ok : ops_ok (ex_config Sled Sled) 1000 ask_ops.
Proof.
  split; [discriminate|]. split; [lia|]. split; [cbn; lia|]. split; [cbn; lia|]. split; [cbn; lia|].
  split; [cbn [written ask_ops map app]; reqs_tac|]. cbn. lia.
Qed.
Example C32_any_range_case :
  ops_ok (ex_config Sled Sled) 1000 ask_ops /\ timely (written ask_ops) /\
  unmixed all_probe (parts (ex_config Sled Sled) 1000 ask_ops) [lab "b" "1"] 1030 1015 /\
  (exists c, In c (parts (ex_config Sled Sled) 1000 ask_ops) /\ crashes c [lab "b" "1"] 1030 1015) /\
  ask Sled Sled ask_ops [lab "b" "1"] 1030 1015 = Some Panic /\
  (* the older chunk is asked too *)
  ask Sled Sled ask_ops [lab "b" "1"] 1130 1115 = Some Panic /\
  (* none between; no matching series; not one window *)
  ask Sled Sled ask_ops [lab "b" "1"] 1039 1021 = Some (Ok []) /\ ask Sled Sled ask_ops [lab "c" "2"] 1030 1015 = Some (Ok []) /\
  ask Sled Sled ask_ops [lab "b" "1"] 1130 1015 = Some (Ok []) /\
  (* a matching series without points from 1030 on *)
  ask Sled Sled ask_ops [lab "c" "1"] 1030 1015 = Some (Ok []) /\
  ask Sled Sled ask_ops [lab "b" "1"] 1015 1030 =
    Some (Ok [([lab "a" "1"; lab "b" "1"], [mkTp 1020 2])]).
Proof.
  split; [exact ask_ops_ok|]. split; [apply timely_check; [apply ask_ops_ok|vm_compute; reflexivity]|].
  split; [apply unmixed_check; vm_compute; reflexivity|]. split; [|repeat split; vm_compute; reflexivity].
  eexists.
  split; [left; reflexivity|]. split; [lia|]. split; [cbn; lia|].
  exists [], [lab "a" "1"; lab "b" "1"], [mkTp 1010 1; mkTp 1020 2; mkTp 1040 3]. eexists.
  split; [vm_compute; reflexivity|]. split; [intros ? ? []|]. split; [vm_compute; reflexivity|]. split.
  - split; [exists (mkTp 1010 1)|exists (mkTp 1040 3)]; (split; [cbn [In]; tauto|cbn [tp_ts]; lia]).
  - exists (mkTp 1020 2). split; [cbn [In]; tauto|cbn [tp_ts]; lia].
Qed.
(* a restart makes no difference to it (C35_restart_keeps_answers), nor does a swap (C33_swap_keeps_answers) *)
Example C35_back_case :
  lives_ok (f_clock slow_fs) 0 0 (-1) ([mkLife (ex_config Sled Sled) ask_ops] ++ [mkLife (ex_config Sled Sled) []]) /\
  timely (life_written [mkLife (ex_config Sled Sled) ask_ops]) /\
  unmixed all_probe (life_parts (f_clock slow_fs) 0 0 [mkLife (ex_config Sled Sled) ask_ops]) [lab "b" "1"] 1030 1015 /\
  ask_lives [mkLife (ex_config Sled Sled) ask_ops] slow_fs [lab "b" "1"] 1030 1015 = Some Panic /\
  ask_lives [mkLife (ex_config Sled Sled) ask_ops; mkLife (ex_config Sled Sled) []] slow_fs [lab "b" "1"] 1030 1015 = Some Panic /\
  ask_lives [mkLife (ex_config Sled Sled) ask_ops; mkLife (ex_config Sled Sled) []] slow_fs [lab "b" "1"] 1130 1115 = Some Panic /\
  ask_lives [mkLife (ex_config Sled Sled) ask_ops; mkLife (ex_config Sled Sled) []] slow_fs [lab "b" "1"] 1039 1021 = Some (Ok []) /\
  ask Sled Sled (ask_ops ++ [OpSwap 1202]) [lab "b" "1"] 1130 1115 = Some Panic.
Proof.
  split.
  { cbn [app lives_ok lf_cf lf_ops].
    assert (A: ascii (cf_base (ex_config Sled Sled))) by (unfold ascii; cbn; repeat constructor; lia).
    split; [reflexivity|]. split; [reflexivity|]. split; [exact A|]. split; [vm_compute; reflexivity|].
    split; [exact ask_ops_ok|]. split; [stored_tac|].
    split; [reflexivity|]. split; [reflexivity|]. split; [exact A|]. split; [vm_compute; reflexivity|].
    split.
    { split; [discriminate|]. split; [vm_compute; discriminate|]. split; [cbn; lia|]. split; [vm_compute; reflexivity|].
      split; [exact I|]. split; [constructor|]. cbn. lia. }
    split; [intros K; contradiction|exact I]. }
  split; [apply timely_check; [apply ask_ops_ok|vm_compute; reflexivity]|].
  split; [apply unmixed_check; vm_compute; reflexivity|]. repeat split; vm_compute; reflexivity.
Qed.

(** C69: what the server answers to requests of all kinds, and when it stops *)
Theorem C69_sessions : forall cf f sv z bs (ch : nat -> choices), env_ok f -> empty_dir f -> let t0 := f_clock f (f_ticks f) in
  bs_contract bs -> (forall k n, hasher_ok (fst (ch k n))) ->
  forall rqs l, Forall2 (brings sv z) rqs l -> forall k ops,
  events_sane ch cf t0 z ops l ->
  ops_ok cf t0 (after_events cf t0 ops l) -> timely (written (after_events cf t0 ops l)) ->
  exists w rss r w' ops', db_after cf f ops = Some (outcomes cf t0 ops, w) /\
    drun (serve sv z bs ch k rqs) w = Some ((rss, r), w') /\
    (r = Panic -> forall more, drun (serve sv z bs ch k (rqs ++ more)) w = Some ((rss, r), w')) /\
    db_after cf f ops' = Some (outcomes cf t0 ops', w') /\
    session_runs cf t0 z ops l rss r ops'.
Proof. exact session_any. Qed.
Print Assumptions C69_sessions.
(* every request is of one of the kinds *)
Theorem C69_every_request : forall sv z rq,
  (forall c b, rq_content rq = Some c -> decompress z c = Some b -> Forall is_byte b /\ Z.of_nat (length b) < 2 ^ 64) ->
  exists v, brings sv z rq v.
Proof. exact every_request. Qed.
Print Assumptions C69_every_request.
(* a read back in time in the middle of a session: the write before it is kept, the one after it never made *)
Definition ask_back (s e : Z) : read_request := mkReadReq [mkPQuery s e [mkMatcher EQ (s2b "b") (s2b "1") []] None []] [] [].
Definition ask_session : list event :=
  [Asked (CRead (ask_back 1039 1021)); Asked (CWrite ex_body); Elsewhere; Asked CGarbled; Asked (CRead (ask_back 1030 1015)); Asked (CWrite ex_body)].
Definition ask_requests : list request :=
  [ex_post "/read" (read_request_write (ask_back 1039 1021)); ex_post "/write" (write_request_write ex_body); ex_post "/x" [1];
   ex_post "/read" [10; 7; 8]; ex_post "/read" (read_request_write (ask_back 1030 1015)); ex_post "/write" (write_request_write ex_body)].
Example C69_sessions_case :
  Forall2 (brings ex_server ex_snappy) (firstn 5 ask_requests) (firstn 5 ask_session) /\
  events_sane (fun _ => ex_choices) (ex_config Sled Sled) 1000 ex_snappy ask_ops (firstn 5 ask_session) /\
  ops_ok (ex_config Sled Sled) 1000 (after_events (ex_config Sled Sled) 1000 ask_ops (firstn 5 ask_session)) /\
  timely (written (after_events (ex_config Sled Sled) 1000 ask_ops (firstn 5 ask_session))) /\
  match db_after (ex_config Sled Sled) ex_fs ask_ops with
  | Some (_, w) => option_map (fun x => (map rs_status (fst (fst x)), snd (fst x)))
                              (drun (serve ex_server ex_snappy scan_bs (fun _ => ex_choices) 0 ask_requests) w)
  | None => None
  end = Some ([200; 200; 404; 500], Panic) /\
  brings ex_server ex_snappy (mkRequest (s2b "/read") None) Unreadable.
Proof.
  assert (A: after_events (ex_config Sled Sled) 1000 ask_ops (firstn 5 ask_session) = ask_ops ++
    [OpBatch [lab "job" "c"; lab "host" "p"] [mkTp 1110 1; mkTp 1111 1]; OpBatch [lab "job" "c"; lab "host" "q"] [mkTp 1112 1; mkTp 1113 1]]) by reflexivity.
  split.
  { unfold ask_requests, ask_session. cbn [firstn]. constructor; [|constructor; [|constructor; [|constructor; [|constructor; [|constructor]]]]]; cbn [brings].
    - eapply carries_read; [reflexivity|reflexivity| |reflexivity|reflexivity|vm_compute; reflexivity]. apply read_request_b.
      split; cbn [rq_queries rq_unk ask_back]; ok_tac.
    - eapply carries_write; [reflexivity|reflexivity|apply write_request_b, ex_body_ok|reflexivity|reflexivity|discriminate|vm_compute; reflexivity].
    - split; [exists [1], [1]; split; reflexivity|]. split; discriminate.
    - eapply carries_garbled; [reflexivity|reflexivity|bytes_tac|reflexivity|reflexivity|vm_compute; reflexivity].
    - eapply carries_read; [reflexivity|reflexivity| |reflexivity|reflexivity|vm_compute; reflexivity]. apply read_request_b.
      split; cbn [rq_queries rq_unk ask_back]; ok_tac. }
  assert (O: ops_ok (ex_config Sled Sled) 1000 (after_events (ex_config Sled Sled) 1000 ask_ops (firstn 5 ask_session))).
  { rewrite A. split; [discriminate|]. split; [lia|]. split; [cbn; lia|]. split; [cbn; lia|]. split; [cbn; lia|].
    split; [|cbn; lia]. cbn [written ask_ops map app]. reqs_tac. }
  split; [|split; [exact O|split; [apply timely_check; [apply O|vm_compute; reflexivity]|split; [vm_compute; reflexivity|left; reflexivity]]]].
  assert (R: forall s e ops, freeb (parts (ex_config Sled Sled) 1000 ops) = true ->
     event_sane (fun _ => ex_choices) ex_snappy (parts (ex_config Sled Sled) 1000 ops) (Asked (CRead (ask_back s e)))).
  { intros s e ops F. split; [|intros rs _; discriminate]. intros _. constructor; [|constructor].
    split; [cbn [asked_labels pq_matchers map mt_name mt_value]; labs_tac|]. intros n. now apply unmixed_check. }
  cbn [events_sane ask_session firstn event_sane]. split; [apply R; vm_compute; reflexivity|]. split; [exact I|]. split; [exact I|]. split; [exact I|].
  split; [apply R; vm_compute; reflexivity|exact I].
Qed.

(* instants before 1970 are negative on the wire and wrap around: nothing is found from there on *)
Theorem C69_from_before_1970 : forall cf f bs ch ops m, env_ok f -> empty_dir f -> let t0 := f_clock f (f_ticks f) in
  ops_ok cf t0 ops -> timely (written ops) -> bs_contract bs -> (forall n, hasher_ok (fst (ch n))) ->
  (forall c, In c (parts cf t0 ops) -> c_end (fst c) < 2 ^ 63) ->
  Forall (fun q => Forall lab_ok (asked_labels q) /\ - 2 ^ 63 <= pq_start q < 0) (rq_queries m) ->
  exists w, db_after cf f ops = Some (outcomes cf t0 ops, w) /\
    drun (server_query bs ch m) w = Some (Ok (mkReadResp (map (fun _ => mkQResult [] []) (rq_queries m)) []), w).
Proof. exact before_1970. Qed.
Print Assumptions C69_from_before_1970.
(* and a query up to such an instant is one up to the end of time *)
Theorem C69_to_before_1970 : forall cf t0 ops q, ops_ok cf t0 ops -> (forall c, In c (parts cf t0 ops) -> c_end (fst c) < 2 ^ 63) ->
  0 <= pq_start q < 2 ^ 63 -> - 2 ^ 63 <= pq_end q < 0 ->
  asked_from q <= asked_to q /\
  forall a, db_answer (parts cf t0 ops) (asked_labels q) (asked_from q) (asked_to q) a <->
            db_answer (parts cf t0 ops) (asked_labels q) (pq_start q) (2 ^ 63 - 1) a.
Proof. exact ends_before_1970. Qed.
Print Assumptions C69_to_before_1970.
Example C69_before_1970_case :
  (forall c, In c (parts (ex_config Sled Sled) 1000 ask_ops) -> c_end (fst c) < 2 ^ 63) /\
  (* from -1 to 1300, from 0 to 1300, from 1000 to -1 *)
  map (fun m => option_map (fun r => match r with Ok x => map (fun y => length (qr_series y)) (rp_results x) | _ => [99%nat] end) (ask_server Sled Sled ask_ops m))
      [ask_back (-1) 1300; ask_back 0 1300; ask_back 1000 (-1)] = [Some [0%nat]; Some [2%nat]; Some [2%nat]].
Proof.
  split; [|vm_compute; reflexivity]. intros c [<-|[<-|[]]]; reflexivity.
Qed.
