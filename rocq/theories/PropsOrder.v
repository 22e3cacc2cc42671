(* Property C68: points written out of time order. *)
From Coq Require Import Permutation String.
From Verif Require Import WireSpec WireMsgs WireWrong WireWritten PropsWire.
From Verif Require Import Rust Prog Gorilla GorillaSpec Storage StorageSpec Search Labels Indexer IndexSpec Chunk ChunkSpec Utils DirSpec TiKvInit
  Db DbSpec ReopenSpec Proto ProtoSpec Server ServerSpec SearchSpec.
From Verif Require Import ChunkProofs DbFacts ReopenProofs ServerProofs SearchProofs PropsChunk PropsDb PropsReopen PropsProto PropsServer.
Local Notation lab k v := (mkLabel (s2b k) (s2b v)).
Local Notation length := List.length.

(** C68: both searches the standard library has had find what they should in a sorted slice *)
Theorem C68_searches : forall bs, std_search bs -> bs_contract bs.
Proof. exact std_contract. Qed.
Print Assumptions C68_searches.
(* found, absent, before the first, after the last; among equal elements they differ *)
Example C68_searches_case :
  let l := map (fun t => mkTp t 0) [10; 20; 20; 20; 20; 30; 40] in
  map (halving_search l) [10; 20; 25; 5; 50] = [Found 0; Found 4; Missing 5; Missing 0; Missing 7] /\
  map (stopping_search l) [10; 20; 25; 5; 50] = [Found 0; Found 3; Missing 5; Missing 0; Missing 7].
Proof. vm_compute. split; reflexivity. Qed.

(* reading a series of the storage, its points appended in any order: no panic, and a stretch of
   what was appended if the range meets the span from the first to the last append *)
Theorem C68_read : forall bs h id s e, std_search bs -> Forall app_ok h -> 0 <= id < 2 ^ 64 -> s <= e ->
  let pts := points_of id h in
  exists r, krun (read_time_series SledStorage bs id s e) (apply_apps SledStorage h []) = (r, apply_apps SledStorage h []) /\
    match r with
    | Ok x => spans s e pts /\ stretch x pts
    | Err NotFoundErr => pts = []
    | Err (OutOfRangeErr _ _) => pts <> [] /\ ~ spans s e pts
    | _ => False
    end.
Proof. intros bs h id s e Hb. apply sled_read_any. now apply std_tame. Qed.
Print Assumptions C68_read.
(* series 1 in disorder, series 2 in between *)
Definition ord_apps : list areq :=
  [(1, mkTp 40 1); (2, mkTp 7 9); (1, mkTp 20 2); (1, mkTp 60 3); (1, mkTp 10 4); (1, mkTp 50 5)].
Definition ord_read (bs : bsearch) (id s e : Z) :=
  fst (krun (read_time_series SledStorage bs id s e) (apply_apps SledStorage ord_apps [])).
Example C68_read_case :
  Forall app_ok ord_apps /\ spans 15 55 (points_of 1 ord_apps) /\
  ord_read halving_search 1 15 55 = Ok [mkTp 40 1; mkTp 20 2] /\ ord_read stopping_search 1 15 55 = Ok [mkTp 40 1; mkTp 20 2] /\
  ord_read halving_search 1 40 60 = Ok [mkTp 60 3; mkTp 10 4; mkTp 50 5] /\ ord_read stopping_search 1 40 60 = Ok [mkTp 60 3] /\
  (* points at 10 and 20 are stored: the range ends before the first append *)
  ord_read halving_search 1 5 30 = Err (OutOfRangeErr 40 50) /\ ord_read stopping_search 3 5 30 = Err NotFoundErr.
Proof.
  split. { unfold ord_apps, app_ok, tp_ok. repeat constructor; cbn; lia. }
  vm_compute. repeat split; try discriminate.
Qed.

(* the database: every history, in any order of the points *)
Theorem C68_any_order : forall cf f hs bs o ops q s e, std_search bs -> env_ok f -> empty_dir f ->
  let t0 := f_clock f (f_ticks f) in
  ops_ok cf t0 ops -> hasher_ok hs -> Forall lab_ok q -> s <= e -> apart_in hs (parts cf t0 ops) ->
  exists w r, db_after cf f ops = Some (outcomes cf t0 ops, w) /\ drun (db_query hs bs o q s e) w = Some (Ok r, w) /\
    answer_any (parts cf t0 ops) q s e r /\
    (forall m pts, In (m, pts) r -> pts <> [] /\ sublist pts (written_under m (written ops))).
Proof. intros cf f hs bs o ops q s e Hb. apply any_order; [now apply std_tame|now apply std_contract]. Qed.
Print Assumptions C68_any_order.
Definition ord_ops : list dop :=
  [OpPoint [lab "job" "a"; lab "host" "x"] (mkTp 1010 1); OpPoint [lab "job" "a"; lab "host" "x"] (mkTp 1090 2);
   OpPoint [lab "host" "x"; lab "job" "a"] (mkTp 1020 3); OpBatch [lab "job" "a"; lab "host" "y"] [mkTp 1030 1; mkTp 1005 2];
   OpPoint [lab "job" "a"; lab "host" "x"] (mkTp 1030 4); OpSwap 1101;
   OpPoint [lab "host" "x"; lab "job" "a"] (mkTp 1150 5); OpPoint [lab "host" "x"; lab "job" "a"] (mkTp 1140 6)].
Definition ask_with (bs : bsearch) (ops : list dop) (q : list label) (s e : Z) :=
  match db_after (ex_config Sled Sled) ex_fs ops with
  | Some (_, w) => option_map fst (drun (db_query all_probe bs no_timing q s e) w)
  | None => None
  end.
Lemma ord_ops_ok st ix : ops_ok (ex_config st ix) 1000 ord_ops.
Proof.
  split; [discriminate|]. split; [lia|]. split; [cbn; lia|]. split; [cbn; lia|]. split; [cbn; lia|].
  split; [cbn [written ord_ops map app]; reqs_tac|]. cbn. lia.
Qed.
Example C68_any_order_case :
  ops_ok (ex_config Sled Sled) 1000 ord_ops /\ ~ timely (written ord_ops) /\
  apart_in all_probe (parts (ex_config Sled Sled) 1000 ord_ops) /\
  ask_with halving_search ord_ops [lab "job" "a"] 1000 1200 =
    Some (Ok [([lab "host" "x"; lab "job" "a"], [mkTp 1010 1; mkTp 1090 2; mkTp 1020 3; mkTp 1030 4; mkTp 1150 5; mkTp 1140 6]);
              ([lab "host" "y"; lab "job" "a"], [mkTp 1030 1; mkTp 1005 2])]) /\
  ask_with stopping_search ord_ops [lab "host" "x"] 1015 1145 =
    Some (Ok [([lab "host" "x"; lab "job" "a"], [mkTp 1090 2; mkTp 1020 3; mkTp 1030 4])]).
Proof.
  split; [apply ord_ops_ok|]. split.
  { intros T. specialize (T [lab "host" "x"; lab "job" "a"]). vm_compute in T. destruct T as (_ & T & _). inversion T as [|? ? B ?]. discriminate B. }
  split; [apply apart_check; vm_compute; reflexivity|]. split; vm_compute; reflexivity.
Qed.

Lemma asked_with cf f bs ops q s e x : std_search bs -> env_ok f -> empty_dir f -> ops_ok cf (f_clock f (f_ticks f)) ops ->
  apart_in all_probe (parts cf (f_clock f (f_ticks f)) ops) -> Forall lab_ok q -> s <= e ->
  match db_after cf f ops with Some (_, w) => option_map fst (drun (db_query all_probe bs no_timing q s e) w) | None => None end = x ->
  exists w, db_after cf f ops = Some (outcomes cf (f_clock f (f_ticks f)) ops, w) /\
    option_map fst (drun (db_query all_probe bs no_timing q s e) w) = x.
Proof.
  intros Hb He Hd Ho Ha Hq Hse A.
  destruct (any_order cf f all_probe bs no_timing ops q s e (std_tame bs Hb) (std_contract bs Hb) He Hd Ho all_probe_ok Hq Hse Ha) as (w & r & E & _).
  exists w. split; [exact E|]. rewrite E in A. exact A.
Qed.
Lemma ord_apart : apart_in all_probe (parts (ex_config Sled Sled) (f_clock ex_fs (f_ticks ex_fs)) ord_ops).
Proof. apply apart_check. vm_compute. reflexivity. Qed.
(* out of order, an answer may hold a point outside the range *)
Theorem C68_in_range_refuted :
  exists cf f ops q s e m pts p, env_ok f /\ empty_dir f /\ ops_ok cf (f_clock f (f_ticks f)) ops /\
    apart_in all_probe (parts cf (f_clock f (f_ticks f)) ops) /\ s <= e /\ In p pts /\ e < tp_ts p /\
    forall bs, std_search bs -> exists w, db_after cf f ops = Some (outcomes cf (f_clock f (f_ticks f)) ops, w) /\
      option_map fst (drun (db_query all_probe bs no_timing q s e) w) = Some (Ok [(m, pts)]).
Proof.
  exists (ex_config Sled Sled), ex_fs, ord_ops, [lab "host" "x"], 1010, 1030, [lab "host" "x"; lab "job" "a"],
    [mkTp 1010 1; mkTp 1090 2; mkTp 1020 3; mkTp 1030 4], (mkTp 1090 2).
  split; [exact ex_env|]. split; [exact ex_empty|]. split; [apply ord_ops_ok|]. split; [exact ord_apart|].
  split; [lia|]. split; [right; now left|]. split; [reflexivity|].
  intros bs Hb. apply asked_with; [assumption|exact ex_env|exact ex_empty|apply ord_ops_ok|exact ord_apart|labs_tac|lia|]. destruct Hb as [-> | ->]; vm_compute; reflexivity.
Qed.
Print Assumptions C68_in_range_refuted.
(* and may lack a point of the range, although its label set and window match *)
Theorem C68_complete_refuted :
  exists cf f ops q s e ls p, env_ok f /\ empty_dir f /\ ops_ok cf (f_clock f (f_ticks f)) ops /\
    apart_in all_probe (parts cf (f_clock f (f_ticks f)) ops) /\
    (exists c pts, In c (parts cf (f_clock f (f_ticks f)) ops) /\ In (ls, pts) (snd c) /\ In p pts /\ matches (snd c) q ls = true) /\
    s <= tp_ts p <= e /\
    forall bs, std_search bs -> exists w, db_after cf f ops = Some (outcomes cf (f_clock f (f_ticks f)) ops, w) /\
      option_map fst (drun (db_query all_probe bs no_timing q s e) w) = Some (Ok []).
Proof.
  exists (ex_config Sled Sled), ex_fs, ord_ops, [lab "host" "y"], 1004, 1006, [lab "job" "a"; lab "host" "y"], (mkTp 1005 2).
  split; [exact ex_env|]. split; [exact ex_empty|]. split; [apply ord_ops_ok|]. split; [exact ord_apart|].
  split. { exists (hd (the_chunk (ex_config Sled Sled) 0, []) (parts (ex_config Sled Sled) 1000 ord_ops)), [mkTp 1030 1; mkTp 1005 2].
    split; [left; reflexivity|]. split; [vm_compute; right; left; reflexivity|]. split; [right; now left|vm_compute; reflexivity]. }
  split; [cbn; lia|].
  intros bs Hb. apply asked_with; [assumption|exact ex_env|exact ex_empty|apply ord_ops_ok|exact ord_apart|labs_tac|lia|]. destruct Hb as [-> | ->]; vm_compute; reflexivity.
Qed.
Print Assumptions C68_complete_refuted.

(* across stops and restarts *)
Theorem C68_restarts : forall f L hs bs o q s e, std_search bs -> env_ok f -> empty_dir f -> monotone (f_clock f) -> L <> [] ->
  lives_ok (f_clock f) (f_ticks f) 0 (-1) L -> hasher_ok hs -> Forall lab_ok q -> s <= e ->
  let P := life_parts (f_clock f) (f_ticks f) 0 L in
  apart_in hs P ->
  exists w r, live L f = Some w /\ drun (db_query hs bs o q s e) w = Some (Ok r, w) /\ answer_any P q s e r /\
    (forall m pts, In (m, pts) r -> pts <> [] /\ sublist pts (written_under m (life_written L))).
Proof. intros f L hs bs o q s e Hb. apply lives_any; [now apply std_tame|now apply std_contract]. Qed.
Print Assumptions C68_restarts.
Definition ord_lives : list life :=
  [mkLife (ex_config Sled Sled) ord_ops;
   mkLife (ex_config Sled Sled) [OpPoint [lab "host" "x"; lab "job" "a"] (mkTp 4050 10); OpPoint [lab "host" "x"; lab "job" "a"] (mkTp 4040 11)]].
Example C68_restarts_case :
  env_ok slow_fs /\ empty_dir slow_fs /\ monotone (f_clock slow_fs) /\
  lives_ok (f_clock slow_fs) 0 0 (-1) ord_lives /\ apart_in all_probe (life_parts (f_clock slow_fs) 0 0 ord_lives) /\
  match live ord_lives slow_fs with
  | Some w => option_map fst (drun (db_query all_probe halving_search no_timing [lab "job" "a"] 1000 5000) w)
  | None => None
  end = Some (Ok [([lab "host" "x"; lab "job" "a"],
                   [mkTp 1010 1; mkTp 1090 2; mkTp 1020 3; mkTp 1030 4; mkTp 1150 5; mkTp 1140 6; mkTp 4050 10; mkTp 4040 11]);
                  ([lab "host" "y"; lab "job" "a"], [mkTp 1030 1; mkTp 1005 2])]).
Proof.
  split.
  { split; [intros l; symmetry; apply Permutation_rev|]. split; [intros n; apply repeat_length|].
    split; [|reflexivity]. intros n. unfold u64, slow_fs. cbn [f_clock]. lia. }
  split; [split; reflexivity|]. split.
  { intros i j H. unfold slow_fs. cbn [f_clock]. lia. }
  split.
  { cbn [app ord_lives lives_ok lf_cf lf_ops].
    assert (A: ascii (cf_base (ex_config Sled Sled))) by (unfold ascii; cbn; repeat constructor; lia).
    split; [reflexivity|]. split; [reflexivity|]. split; [exact A|]. split; [vm_compute; reflexivity|].
    split; [exact (ord_ops_ok Sled Sled)|]. split; [stored_tac|].
    split; [reflexivity|]. split; [reflexivity|]. split; [exact A|]. split; [vm_compute; reflexivity|].
    split.
    { split; [discriminate|]. split; [vm_compute; discriminate|]. split; [cbn; lia|]. split; [vm_compute; reflexivity|].
      split; [cbn [starts_ok]; repeat split; vm_compute; reflexivity|].
      split; [cbn [written map app]; reqs_tac|]. cbn. lia. }
    split; [stored_tac|exact I]. }
  split; [apply apart_check; vm_compute; reflexivity|]. vm_compute. reflexivity.
Qed.

(* the server, request after request *)
Theorem C68_server : forall cf f sv z bs (ch : nat -> choices), std_search bs -> env_ok f -> empty_dir f -> let t0 := f_clock f (f_ticks f) in
  (forall k n, hasher_ok (fst (ch k n))) ->
  forall rqs l, Forall2 (carries sv z) rqs l -> forall k ops,
  session_any ch cf t0 z ops l ->
  let ops' := after_session cf t0 ops l in
  ops_ok cf t0 ops' ->
  exists w rss w', db_after cf f ops = Some (outcomes cf t0 ops, w) /\
    drun (serve sv z bs ch k rqs) w = Some ((rss, Ok tt), w') /\
    db_after cf f ops' = Some (outcomes cf t0 ops', w') /\
    session_answered_any cf t0 z ops l rss.
Proof. intros cf f sv z bs ch Hb He Hd t0. apply session_any_order; [assumption|assumption|now apply std_tame|now apply std_contract]. Qed.
Print Assumptions C68_server.
(* samples of one series in descending order, then a read *)
Definition ord_body : write_request := mkWriteReq [ex_wire "p" [1190; 1110; 1150]] [].
Definition ord_session : list ServerSpec.client := [CWrite ord_body; CGarbled; CRead (mkReadReq ex_queries [] [])].
Definition ord_requests : list request :=
  [ex_post "/write" (write_request_write ord_body); ex_post "/read" [10; 7; 8]; ex_post "/read" (read_request_write (mkReadReq ex_queries [] []))].
Example C68_server_case :
  Forall2 (carries ex_server ex_snappy) ord_requests ord_session /\
  session_any (fun _ => ex_choices) (ex_config Sled Sled) 1000 ex_snappy ord_ops ord_session /\
  ops_ok (ex_config Sled Sled) 1000 (after_session (ex_config Sled Sled) 1000 ord_ops ord_session) /\
  ~ timely (written (after_session (ex_config Sled Sled) 1000 ord_ops ord_session)) /\
  match db_after (ex_config Sled Sled) ex_fs ord_ops with
  | Some (_, w) => option_map (fun x => (map rs_status (fst (fst x)), snd (fst x)))
                              (drun (serve ex_server ex_snappy stopping_search (fun _ => ex_choices) 0 ord_requests) w)
  | None => None
  end = Some ([200; 500; 200], Ok tt).
Proof.
  assert (A: after_session (ex_config Sled Sled) 1000 ord_ops ord_session = ord_ops ++
    [OpBatch [lab "job" "c"; lab "host" "p"] [mkTp 1190 1; mkTp 1110 1; mkTp 1150 1]]) by reflexivity.
  split.
  { unfold ord_requests, ord_session. constructor; [|constructor; [|constructor; [|constructor]]].
    - eapply carries_write; [reflexivity|reflexivity| |reflexivity|reflexivity|discriminate|vm_compute; reflexivity].
      apply write_request_b. unfold ord_body, ex_wire. cbn [map]. split; cbn [wq_series wq_unk]; ok_tac.
    - eapply carries_garbled; [reflexivity|reflexivity|bytes_tac|reflexivity|reflexivity|vm_compute; reflexivity].
    - eapply carries_read; [reflexivity|reflexivity| |reflexivity|reflexivity|vm_compute; reflexivity]. apply read_request_b.
      split; cbn [rq_queries rq_unk]; unfold ex_queries; ok_tac. }
  split.
  { cbn [session_any ord_session client_any]. split; [exact I|]. split; [exact I|]. split; [|exact I]. cbn [rq_queries]. split.
    - intros k. apply Forall_forall. intros q H. split; [|split].
      + destruct H as [<-|[<-|[<-|[]]]]; cbn [asked_labels pq_matchers map mt_name mt_value]; labs_tac.
      + destruct H as [<-|[<-|[<-|[]]]]; vm_compute; discriminate.
      + intros n. apply apart_check. vm_compute. reflexivity.
    - intros rs _. discriminate. }
  rewrite A. split.
  { split; [discriminate|]. split; [lia|]. split; [cbn; lia|]. split; [cbn; lia|]. split; [cbn; lia|].
    split; [|cbn; lia]. cbn [written ord_ops map app]. reqs_tac. }
  split; [|vm_compute; reflexivity].
  intros T. specialize (T [lab "host" "p"; lab "job" "c"]). vm_compute in T. destruct T as (T & _). inversion T as [|? ? B ?]. discriminate B.
Qed.
