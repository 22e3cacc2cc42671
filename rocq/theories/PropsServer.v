(* Properties of the server: C45-C49. *)
From Coq Require Import ZifyBool ZifyNat Permutation String.
From Verif Require Import WireSpec WireMsgs WireWrong WireWritten PropsWire.
From Verif Require Import Rust Prog Gorilla GorillaSpec Storage StorageSpec StringProofs StorageProofs Labels Indexer IndexSpec
  Chunk ChunkSpec ChunkProofs ChunkFacts Utils DirSpec TiKvInit Db DbSpec DbProofs DbHist DbFacts PropsChunk PropsDb
  Proto ProtoSpec ProtoProofs ProtoRound ProtoCut Server ServerSpec ServerProofs ServerCut PropsProto.
Local Notation lab k v := (mkLabel (s2b k) (s2b v)).
Local Notation length := List.length.

(* the paths of the server, no compression, hash maps comparing with every entry *)
Definition ex_server : server := mkServer (s2b "/read") (s2b "/write").
Definition ex_snappy : snappy := mkSnappy (fun b => if nonempty b then Some b else None) Some.
Definition ex_choices : choices := fun _ => (all_probe, no_timing).
Definition ex_queries : list pquery :=
  [mkPQuery 1000 1300 [mkMatcher EQ (s2b "job") (s2b "a") []] None [];
   mkPQuery 1000 1100 [mkMatcher EQ (s2b "host") (s2b "y") []] None [];
   mkPQuery 1000 1300 [mkMatcher EQ (s2b "job") (s2b "b") []] None []].
Lemma ex_query_ok ch st ix q : In q ex_queries -> query_ok ch (parts (ex_config st ix) 1000 ex_ops) q.
Proof.
  intros H. split; [|split; [|intros n; apply ex_free]].
  - destruct H as [<-|[<-|[<-|[]]]]; cbn [asked_labels pq_matchers map mt_name mt_value]; labs_tac.
  - destruct H as [<-|[<-|[<-|[]]]]; vm_compute; discriminate.
Qed.
(* the result of a read request after a history on the empty directory *)
Definition ask_server (st ix : backend) (ops : list dop) (m : read_request) :=
  match db_after (ex_config st ix) ex_fs ops with
  | Some (_, w) => option_map fst (drun (server_query scan_bs ex_choices m) w)
  | None => None
  end.

(** C45 *)
Theorem C45_one_result_per_query : forall cf f bs ch ops m, env_ok f -> empty_dir f -> let t0 := f_clock f (f_ticks f) in
  ops_ok cf t0 ops -> timely (written ops) -> bs_contract bs -> (forall n, hasher_ok (fst (ch n))) ->
  Forall (query_ok ch (parts cf t0 ops)) (rq_queries m) ->
  exists w rs, db_after cf f ops = Some (outcomes cf t0 ops, w) /\
    drun (server_query bs ch m) w = Some (Ok rs, w) /\
    results_for (parts cf t0 ops) (rq_queries m) (rp_results rs) /\ rp_unk rs = [].
Proof. exact read_answered. Qed.
Print Assumptions C45_one_result_per_query.
(* the client can read it, if the labels written were in UTF-8 *)
Theorem C45_readable : forall cf t ops qs rs, ops_ok cf t ops -> texts ops -> results_for (parts cf t ops) qs rs ->
  read_response_size (mkReadResp rs []) < 2 ^ 32 ->
  merge_from read_response_read (read_response_write (mkReadResp rs [])) read_response_new = (read_response_back (mkReadResp rs []), true).
Proof. intros cf t ops qs rs Ho Ht H Hs. apply read_response_round; [exact (results_ok cf t ops qs rs Ho Ht H)|exact Hs]. Qed.
Print Assumptions C45_readable.
Example C45_case : Forall (query_ok ex_choices (parts (ex_config Sled Sled) 1000 ex_ops)) ex_queries /\
  (forall n, hasher_ok (fst (ex_choices n))) /\ texts ex_ops /\
  ask_server Sled Sled ex_ops (mkReadReq ex_queries [] []) = Some (Ok (mkReadResp
    [mkQResult [mkPSeries [mkPLabel (s2b "host") (s2b "x") []; mkPLabel (s2b "job") (s2b "a") []]
                          [mkSample 7 1010 []; mkSample 8 1150 []; mkSample 9 1160 []] [];
                mkPSeries [mkPLabel (s2b "host") (s2b "y") []; mkPLabel (s2b "job") (s2b "a") []]
                          [mkSample 1 1011 []; mkSample 2 1050 []] []] [];
     mkQResult [mkPSeries [mkPLabel (s2b "host") (s2b "y") []; mkPLabel (s2b "job") (s2b "a") []]
                          [mkSample 1 1011 []; mkSample 2 1050 []] []] [];
     mkQResult [] []] [])).
Proof.
  split; [apply Forall_forall; intros q; apply ex_query_ok|]. split; [intros n; exact all_probe_ok|].
  split; [|vm_compute; reflexivity].
  unfold texts. cbn [written ex_ops map app]. repeat apply Forall_cons; try apply Forall_nil; cbn [fst];
    repeat apply Forall_cons; try apply Forall_nil; cbn [l_key l_val]; split; text_tac.
Qed.

(** C46 *)
(* the same program, so the same answer and the same effect in every state *)
Theorem C46_types_ignored : forall bs ch a b, same_but_types a b -> server_query bs ch a = server_query bs ch b.
Proof. exact types_ignored. Qed.
Print Assumptions C46_types_ignored.
Definition typed (t : mtype) : read_request := mkReadReq [mkPQuery 1000 1100 [mkMatcher t (s2b "host") (s2b "y") []] None []] [] [].
(* "host is not y", "host does not match y" both return the series of host y and only that *)
Theorem C46_not_equal_refuted : forall t, (t = NEQ \/ t = NRE) ->
  exists s, ask_server Sled Sled ex_ops (typed t) = Some (Ok (mkReadResp [mkQResult [s] []] [])) /\
    In (mkPLabel (s2b "host") (s2b "y") []) (ps_labels s).
Proof. intros t [-> | ->]; eexists; (split; [vm_compute; reflexivity|left; reflexivity]). Qed.
Print Assumptions C46_not_equal_refuted.
Example C46_case : forall t t', same_but_types (typed t) (typed t').
Proof.
  intros t t'. unfold same_but_types, typed. cbn [rq_queries]. constructor; [|constructor]. cbn [pq_start pq_end pq_matchers].
  split; [reflexivity|]. split; [reflexivity|]. constructor; [|constructor]. split; reflexivity.
Qed.

(** C47 *)
Theorem C47_sample_round_trip : forall x, i64 (sm_ts x) -> sm_unk x = [] -> wire_sample (point_of_wire x) = x.
Proof. exact sample_round_trip. Qed.
Print Assumptions C47_sample_round_trip.
Theorem C47_point_round_trip : forall p, u64 (tp_ts p) -> point_of_wire (wire_sample p) = p.
Proof. exact point_round_trip. Qed.
Print Assumptions C47_point_round_trip.
Theorem C47_negative_times : forall x, i64 (sm_ts x) -> sm_ts x < 0 ->
  2 ^ 63 <= tp_ts (point_of_wire x) < 2 ^ 64 /\
  forall ch, c_end ch <= 2 ^ 63 -> in_windowb ch (tp_ts (point_of_wire x)) = false.
Proof.
  intros x H1 H2. pose proof (negative_point x H1 H2) as N. split; [exact N|]. intros ch Hc. unfold in_windowb. lia.
Qed.
Print Assumptions C47_negative_times.
(* a request all of whose samples are before 1970 is acknowledged and writes nothing *)
Theorem C47_negative_dropped : forall cf f ops l, env_ok f -> empty_dir f -> let t0 := f_clock f (f_ticks f) in
  ops_ok cf t0 ops -> c_end (current_window cf t0 ops) < 2 ^ 63 ->
  (forall s x, In s l -> In x (ps_samples s) -> i64 (sm_ts x) /\ sm_ts x < 0) ->
  exists w, db_after cf f ops = Some (outcomes cf t0 ops, w) /\ drun (server_write (mkWriteReq l [])) w = Some (Ok tt, w).
Proof. exact negative_dropped. Qed.
Print Assumptions C47_negative_dropped.
Example C47_case : i64 (-1) /\ tp_ts (point_of_wire (mkSample 5 (-1) [])) = 2 ^ 64 - 1 /\
  c_end (current_window (ex_config Sled Sled) 1000 ex_ops) < 2 ^ 63 /\
  wire_sample (mkTp (2 ^ 63) 5) = mkSample 5 (- 2 ^ 63) [].
Proof. split; [unfold i64; lia|]. split; [reflexivity|]. split; reflexivity. Qed.

(** C48 *)
(* [applied]: the series up to and including the first that fails; [fails]: a point on an end of
   the window *)
Theorem C48_applied_up_to_failure : forall cf f ops l, env_ok f -> empty_dir f -> let t0 := f_clock f (f_ticks f) in
  let ch := current_window cf t0 ops in
  let ops' := ops ++ batches (applied ch l) in
  ops_ok cf t0 ops' ->
  exists w w', db_after cf f ops = Some (outcomes cf t0 ops, w) /\
    drun (server_write (mkWriteReq l [])) w = Some (if existsb (fails ch) l then Err InternalErr else Ok tt, w') /\
    db_after cf f ops' = Some (outcomes cf t0 ops', w').
Proof. exact write_applied. Qed.
Print Assumptions C48_applied_up_to_failure.
(* in any state: the series after one whose batch fails make no difference *)
Theorem C48_rest_unwritten : forall l1 s l2 w w1 r w2,
  drun (server_write (mkWriteReq l1 [])) w = Some (Ok tt, w1) ->
  drun (db_write_points (stored_labels s) (map stored_point (ps_samples s))) w1 = Some (r, w2) -> r <> Ok tt ->
  drun (server_write (mkWriteReq (l1 ++ s :: l2) [])) w = Some (r, w2).
Proof.
  intros l1 s l2 w w1 r w2 H1 H2 H3. unfold server_write in *. cbn [wq_series] in *. rewrite write_series_app, H1.
  change (s :: l2) with ([s] ++ l2). rewrite write_series_app, write_series_one, H2. destruct r as [[]|e|]; congruence.
Qed.
Print Assumptions C48_rest_unwritten.
Definition ex_wire (host : string) (ts : list Z) : pseries :=
  mkPSeries [mkPLabel (s2b "job") (s2b "c") []; mkPLabel (s2b "host") (s2b host) []] (map (fun t => mkSample 1 t []) ts) [].
Definition ex_batch : list pseries := [ex_wire "p" [1110; 1111]; ex_wire "q" [1112; 1201; 1113]; ex_wire "r" [1114]].
Definition ex_after : list dop := ex_ops ++ batches (applied (current_window (ex_config Sled Sled) 1000 ex_ops) ex_batch).
Lemma ex_after_ok : ops_ok (ex_config Sled Sled) 1000 ex_after.
Proof.
  change ex_after with (ex_ops ++ [OpBatch [lab "job" "c"; lab "host" "p"] [mkTp 1110 1; mkTp 1111 1];
                                   OpBatch [lab "job" "c"; lab "host" "q"] [mkTp 1112 1; mkTp 1201 1; mkTp 1113 1]]).
  split; [discriminate|]. split; [lia|]. split; [cbn; lia|]. split; [cbn; lia|]. split; [cbn; lia|].
  split; [|cbn; lia]. cbn [written ex_ops map app]. reqs_tac.
Qed.
Example C48_case : ops_ok (ex_config Sled Sled) 1000 ex_after /\
  existsb (fails (current_window (ex_config Sled Sled) 1000 ex_ops)) ex_batch = true /\
  ask Sled Sled ex_after [lab "job" "c"] 1101 1300 =
    Some (Ok [([lab "host" "p"; lab "job" "c"], [mkTp 1110 1; mkTp 1111 1]);
              ([lab "host" "q"; lab "job" "c"], [mkTp 1112 1; mkTp 1113 1])]).
Proof. split; [exact ex_after_ok|]. split; vm_compute; reflexivity. Qed.

(** C49 *)
(* a body that cannot be read or decompressed ends the serving: the requests before it are
   answered, those after it are not *)
Theorem C49_bad_body_ends_serving : forall sv z bs ch bad rqs2,
  rq_content bad = None \/ (exists c, rq_content bad = Some c /\ decompress z c = None) ->
  forall rqs1 k w rs w1, drun (serve sv z bs ch k rqs1) w = Some ((rs, Ok tt), w1) ->
  drun (serve sv z bs ch k (rqs1 ++ bad :: rqs2)) w = Some ((rs, Panic), w1).
Proof. exact serve_stops. Qed.
Print Assumptions C49_bad_body_ends_serving.
Theorem C49_other_paths : forall sv z bs ch rq w c body, rq_content rq = Some c -> decompress z c = Some body ->
  rq_url rq <> sv_read_path sv -> rq_url rq <> sv_write_path sv ->
  drun (process sv z bs ch rq) w = Some (Ok (empty_response 404), w).
Proof. exact process_other. Qed.
Print Assumptions C49_other_paths.
(* the read path, whatever the write path *)
Theorem C49_read_refused : forall sv z bs ch rq w c body, rq_content rq = Some c -> decompress z c = Some body ->
  rq_url rq = sv_read_path sv ->
  (snd (merge_from read_request_read body read_request_new) = false \/
   nothing_asked (fst (merge_from read_request_read body read_request_new))) ->
  drun (process sv z bs ch rq) w = Some (Ok (empty_response 500), w).
Proof. exact process_read_bad. Qed.
Print Assumptions C49_read_refused.
Theorem C49_read_answered : forall sv z bs ch rq w c body m, rq_content rq = Some c -> decompress z c = Some body ->
  rq_url rq = sv_read_path sv ->
  merge_from read_request_read body read_request_new = (m, true) -> ~ nothing_asked m ->
  forall rs w' c', drun (server_query bs ch m) w = Some (Ok rs, w') -> compress z (read_response_write rs) = Some c' ->
  drun (process sv z bs ch rq) w = Some (Ok (mkResponse 200 c'), w').
Proof. exact process_read. Qed.
Print Assumptions C49_read_answered.
(* the write path: the outcome of the decoding is not looked at *)
Theorem C49_write : forall sv z bs ch rq w c body r w', rq_content rq = Some c -> decompress z c = Some body ->
  rq_url rq = sv_write_path sv -> rq_url rq <> sv_read_path sv ->
  drun (server_write (fst (merge_from write_request_read body write_request_new))) w = Some (r, w') ->
  drun (process sv z bs ch rq) w =
    Some (match r with Ok _ => Ok (empty_response 200) | Err _ => Ok (empty_response 500) | Panic => Panic end, w').
Proof. exact process_write. Qed.
Print Assumptions C49_write.
(* in particular a body cut anywhere, like every proper first part of a write request, is
   acknowledged, and a first part of the request written *)
Theorem C49_cut_write_body : forall cf f sv z bs ch ops m p rq c, env_ok f -> empty_dir f -> let t0 := f_clock f (f_ticks f) in
  write_request_ok m -> Forall pseries_plain (wq_series m) -> wq_unk m = [] -> write_request_size m < 2 ^ 32 ->
  cut p (write_request_write m) ->
  rq_content rq = Some c -> decompress z c = Some p -> rq_url rq = sv_write_path sv -> rq_url rq <> sv_read_path sv ->
  let whole := map pseries_back (wq_series m) in
  ops_ok cf t0 (ops ++ batches whole) ->
  exists part, first_part part whole /\
  let ch' := current_window cf t0 ops in
  let ops' := ops ++ batches (applied ch' part) in
  exists w w', db_after cf f ops = Some (outcomes cf t0 ops, w) /\
    drun (process sv z bs ch rq) w = Some (Ok (empty_response (if existsb (fails ch') part then 500 else 200)), w') /\
    db_after cf f ops' = Some (outcomes cf t0 ops', w').
Proof.
  intros cf f sv z bs ch ops m p rq c He Hd t0 H1 H2 H3 H4 H5 C1 C2 C3 C4 whole Ho.
  destruct (cut_applied cf f ops m p He Hd H1 H2 H3 H4 H5 Ho) as (part & FP & w & w' & A1 & A2 & A3). exists part. split; [exact FP|]. cbv zeta.
  fold t0 in A1, A2, A3. exists w, w'. split; [exact A1|]. split; [|exact A3].
  rewrite (process_write sv z bs ch rq w c p _ w' C1 C2 C3 C4 A2). destruct (existsb _ part); reflexivity.
Qed.
Print Assumptions C49_cut_write_body.
Definition ex_post (url : string) (body : bytes) : request := mkRequest (s2b url) (Some body).
(* a write request in the window of ex_ops *)
Definition ex_body : write_request := mkWriteReq [ex_wire "p" [1110; 1111]; ex_wire "q" [1112; 1113]] [].
(* the statuses of the responses, and how the serving ended *)
Definition statuses (sv : server) (rqs : list request) :=
  match db_after (ex_config Sled Sled) ex_fs ex_ops with
  | Some (_, w) => option_map (fun x => (map rs_status (fst (fst x)), snd (fst x)))
                              (drun (serve sv ex_snappy scan_bs (fun _ => ex_choices) 0 rqs) w)
  | None => None
  end.
Lemma ex_body_ok : write_request_ok ex_body /\ Forall pseries_plain (wq_series ex_body).
Proof.
  unfold ex_body, ex_wire. cbn [map]. split; [split; cbn [wq_series wq_unk]; ok_tac|].
  cbn [wq_series]. unfold pseries_plain, sample_plain.
  repeat apply Forall_cons; try apply Forall_nil; cbn [ps_labels ps_samples ps_unk]; (split; [|split]);
    try (repeat apply Forall_cons; try apply Forall_nil); reflexivity.
Qed.
Lemma ex_body_ops : ops_ok (ex_config Sled Sled) 1000 (ex_ops ++ batches (map pseries_back (wq_series ex_body))).
Proof.
  change (batches _) with [OpBatch [lab "job" "c"; lab "host" "p"] [mkTp 1110 1; mkTp 1111 1];
                           OpBatch [lab "job" "c"; lab "host" "q"] [mkTp 1112 1; mkTp 1113 1]].
  split; [discriminate|]. split; [lia|]. split; [cbn; lia|]. split; [cbn; lia|]. split; [cbn; lia|].
  split; [|cbn; lia]. cbn [written ex_ops map app]. reqs_tac.
Qed.
Example C49_case :
  let w := ex_post "/write" (write_request_write ex_body) in
  let r := ex_post "/read" (read_request_write (mkReadReq ex_queries [] [])) in
  statuses ex_server [w; r; ex_post "/x" [1]; ex_post "/read" [0]; ex_post "/read" [10; 200]; ex_post "/write" [10; 200];
                      ex_post "/write" (write_request_write (mkWriteReq ex_batch [])); ex_post "/read" []; r]
    = Some ([200; 200; 404; 500; 500; 200; 500], Panic) /\
  (* equal paths: the body of the write request is read as a read request *)
  statuses (mkServer (s2b "/x") (s2b "/x")) [ex_post "/x" (read_request_write (mkReadReq ex_queries [] []));
                                             ex_post "/x" [10; 200]] = Some ([200; 500], Ok tt) /\
  write_request_ok ex_body /\ Forall pseries_plain (wq_series ex_body) /\
  ops_ok (ex_config Sled Sled) 1000 (ex_ops ++ batches (map pseries_back (wq_series ex_body))) /\
  cut (firstn 50 (write_request_write ex_body)) (write_request_write ex_body).
Proof.
  cbv zeta. split; [vm_compute; reflexivity|]. split; [vm_compute; reflexivity|]. split; [apply ex_body_ok|]. split; [apply ex_body_ok|].
  split; [exact ex_body_ops|]. exists (skipn 50 (write_request_write ex_body)). split; [vm_compute; discriminate|symmetry; apply firstn_skipn].
Qed.

(** C55: a session, request after request *)
Theorem C55_sessions : forall cf f sv z bs (ch : nat -> choices), env_ok f -> empty_dir f -> let t0 := f_clock f (f_ticks f) in
  bs_contract bs -> (forall k n, hasher_ok (fst (ch k n))) ->
  forall rqs l, Forall2 (carries sv z) rqs l -> forall k ops,
  session_ok ch cf t0 z ops l ->
  let ops' := after_session cf t0 ops l in
  ops_ok cf t0 ops' -> timely (written ops') ->
  exists w rss w', db_after cf f ops = Some (outcomes cf t0 ops, w) /\
    drun (serve sv z bs ch k rqs) w = Some ((rss, Ok tt), w') /\
    db_after cf f ops' = Some (outcomes cf t0 ops', w') /\
    session_answered cf t0 z ops l rss.
Proof. exact session_served. Qed.
Print Assumptions C55_sessions.
(* requests as other clients send them *)
Lemma carries_write sv z rq content body m ok : rq_content rq = Some content -> decompress z content = Some body -> Forall is_byte body ->
  Z.of_nat (length body) < 2 ^ 64 -> rq_url rq = sv_write_path sv -> rq_url rq <> sv_read_path sv ->
  merge_from write_request_read body write_request_new = (m, ok) -> carries sv z rq (CWrite m).
Proof.
  intros H1 H2 H3 H4 H5 H6 E. exists content, body. split; [exact H1|]. split; [exact H2|]. split; [exact H3|]. split; [exact H4|]. split; [exact H5|]. split; [exact H6|].
  destruct ok; [apply C65_write_request in E as (fs & E & ->)|apply C65_stops_write_request in E as (fs & E & ->)]; eauto.
Qed.
Lemma carries_read sv z rq content body m : rq_content rq = Some content -> decompress z content = Some body -> Forall is_byte body ->
  Z.of_nat (length body) < 2 ^ 64 -> rq_url rq = sv_read_path sv ->
  merge_from read_request_read body read_request_new = (m, true) -> carries sv z rq (CRead m).
Proof.
  intros H1 H2 H3 H4 H5 E. exists content, body. split; [exact H1|]. split; [exact H2|]. split; [exact H3|]. split; [exact H4|]. split; [exact H5|].
  apply C65_read_request in E as (fs & E & ->); eauto.
Qed.
Lemma carries_garbled sv z rq content body m : rq_content rq = Some content -> decompress z content = Some body -> Forall is_byte body ->
  Z.of_nat (length body) < 2 ^ 64 -> rq_url rq = sv_read_path sv ->
  merge_from read_request_read body read_request_new = (m, false) -> carries sv z rq CGarbled.
Proof.
  intros H1 H2 H3 H4 H5 E. exists content, body. split; [exact H1|]. split; [exact H2|]. split; [exact H3|]. split; [exact H4|]. split; [exact H5|].
  intros (fs & F). assert (Q: merge_from read_request_read body read_request_new = (read_request_of fs, true)) by (apply C65_read_request; eauto). congruence.
Qed.
(* fields in an unusual order, an unknown group, and the second series cut off in a point, which is taken with value 0 *)
Definition ex_strange : bytes :=
  [10; 35; 18; 12; 16; 224; 8; 9; 1; 0; 0; 0; 0; 0; 0; 0; 10; 9; 18; 1; 114; 10; 4; 104; 111; 115; 116; 10; 8; 10; 3; 106; 111; 98; 18; 1; 99;
   59; 60; 10; 22; 10; 6; 10; 4; 104; 111; 115; 116; 18; 12; 16; 225; 8; 9; 1].
Definition ex_strange_taken : write_request :=
  mkWriteReq [mkPSeries [mkPLabel (s2b "host") (s2b "r") []; mkPLabel (s2b "job") (s2b "c") []] [mkSample 1 1120 []] [];
              mkPSeries [mkPLabel (s2b "host") [] []] [mkSample 0 1121 []] []] [].
Definition ex_session : list client := [CWrite ex_body; CWrite ex_strange_taken; CGarbled; CRead (mkReadReq ex_queries [] [])].
Definition ex_session_requests : list request :=
  [ex_post "/write" (write_request_write ex_body); ex_post "/write" ex_strange; ex_post "/read" [10; 7; 8];
   ex_post "/read" (read_request_write (mkReadReq ex_queries [] []))].
Example C55_case :
  Forall2 (carries ex_server ex_snappy) ex_session_requests ex_session /\
  session_ok (fun _ => ex_choices) (ex_config Sled Sled) 1000 ex_snappy ex_ops ex_session /\
  ops_ok (ex_config Sled Sled) 1000 (after_session (ex_config Sled Sled) 1000 ex_ops ex_session) /\
  timely (written (after_session (ex_config Sled Sled) 1000 ex_ops ex_session)) /\
  statuses ex_server ex_session_requests = Some ([200; 200; 500; 200], Ok tt).
Proof.
  assert (A: after_session (ex_config Sled Sled) 1000 ex_ops ex_session = ex_ops ++ 
    [OpBatch [lab "job" "c"; lab "host" "p"] [mkTp 1110 1; mkTp 1111 1]; OpBatch [lab "job" "c"; lab "host" "q"] [mkTp 1112 1; mkTp 1113 1];
     OpBatch [lab "host" "r"; lab "job" "c"] [mkTp 1120 1]; OpBatch [lab "host" ""] [mkTp 1121 0]]) by reflexivity.
  split.
  { unfold ex_session_requests, ex_session. constructor; [|constructor; [|constructor; [|constructor; [|constructor]]]].
    - eapply carries_write; [reflexivity|reflexivity|apply write_request_b, ex_body_ok|reflexivity|reflexivity|discriminate|vm_compute; reflexivity].
    - eapply carries_write; [reflexivity|reflexivity|bytes_tac|reflexivity|reflexivity|discriminate|vm_compute; reflexivity].
    - eapply carries_garbled; [reflexivity|reflexivity|bytes_tac|reflexivity|reflexivity|vm_compute; reflexivity].
    - eapply carries_read; [reflexivity|reflexivity| |reflexivity|reflexivity|vm_compute; reflexivity]. apply read_request_b.
      split; cbn [rq_queries rq_unk]; unfold ex_queries; ok_tac. }
  assert (O: ops_ok (ex_config Sled Sled) 1000 (after_session (ex_config Sled Sled) 1000 ex_ops ex_session)).
  { rewrite A. split; [discriminate|]. split; [lia|]. split; [cbn; lia|]. split; [cbn; lia|]. split; [cbn; lia|].
    split; [|cbn; lia]. cbn [written ex_ops map app]. reqs_tac. }
  split; [|split; [exact O|split; [apply timely_check; [apply O|vm_compute; reflexivity]|vm_compute; reflexivity]]].
  cbn [session_ok ex_session client_ok]. split; [exact I|]. split; [exact I|]. split; [exact I|]. split; [|exact I]. cbn [rq_queries]. split.
  - intros k. apply Forall_forall. intros q H. split; [|split].
    + destruct H as [<-|[<-|[<-|[]]]]; cbn [asked_labels pq_matchers map mt_name mt_value]; labs_tac.
    + destruct H as [<-|[<-|[<-|[]]]]; vm_compute; discriminate.
    + intros n. apply unmixed_check. vm_compute. reflexivity.
  - intros rs _. discriminate.
Qed.
