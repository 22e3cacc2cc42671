(* Property C63: the server answering requests while the swap thread works. *)
From Coq Require Import ZifyBool ZifyNat Permutation String.
From Verif Require Import WireSpec WireMsgs WireWrong WireWritten PropsWire.
From Verif Require Import MapProofs.
From Verif Require Import Rust Prog Gorilla GorillaSpec Storage StorageSpec StringProofs StorageProofs Labels Indexer IndexSpec LabelProofs
  Chunk ChunkSpec ChunkProofs ChunkFacts Utils DirSpec TiKvInit Db DbSpec DbProofs DbHist DbFacts ReopenSpec LossSpec LossDbSpec PropsChunk PropsDb PropsReopen PropsLossDb
  FaultsSpec SwapSpec SwapMain PropsSwap ReadsSpec WritersSpec WritersMain PropsWriters SharedSpec SharedFacts PropsShared AgainSpec Again PropsAgain
  Proto ProtoSpec ProtoProofs Server ServerSpec ServerProofs PropsProto PropsServer LockSpec LockProofs LockDead PropsLock ServingSpec Serving ServingMain.
Local Notation lab k v := (mkLabel (s2b k) (s2b v)).
Local Notation length := List.length.

(** C63: the database was opened on an empty directory, any file operations failing from then on, and has the history
    ops.  The server then answers requests, one after the other, while the swap thread makes swaps at the times starts,
    interleaved in any way.  When the server has come to the end, [rss] are its responses and [r] is how it ended.
    There is a log of swaps (thread 0) and of points written by the server (thread 1), as if each had happened at one
    moment, such that the responses are right ([conversation], ServingSpec.v): a write request is answered with 200 and
    its points, up to a series that fails, with 500; a read request is answered with what the chunks hold at the moment
    of each query, in which a chunk just swapped out may be counted twice; other paths get 404; a body that cannot be
    read, or a query that one of the chunks brings down ([crashes], RangeSpec.v), ends the serving.  The swap thread has made, or is making, the swaps of the log. *)
Theorem C63_serving : forall cf f ops rs0 starts w00 w sv z bs ch rqs l sched p0 rss r v, let t0 := f_clock f (f_ticks f) in
  env_weak f -> empty_dir f -> db_open cf f = Some (Ok tt, w00) -> ops_ok cf t0 ops -> db_after_from cf ops w00 = Some (rs0, w) ->
  starts_ok cf (last_start t0 ops) (map OpSwap starts) ->
  bs_contract bs -> (forall k n, hasher_ok (fst (ch k n))) -> Forall2 (wanting sv z) rqs l -> wants_ok ch cf [] ops l ->
  interleave dhandler sched (at_work cf starts sv z bs ch rqs) w = ([p0; Ret (Served (rss, r))], v) ->
  exists turns post, conversation (chunks_after cf t0 ops rs0) z [] l turns rss r /\
    let log := turns ++ post in
    Forall (fun e => e_who e <= 1)%nat log /\ of_thread 1 post = [] /\
    (exists v', one_by_one cf log w v' /\ (finished p0 -> v' = v)) /\
    (exists rest rs, rotations starts (of_thread 0 log ++ rest) rs /\ forall x, p0 = Ret x -> rest = [] /\ x = Swaps (Rotated rs)) /\
    reported cf t0 (ops ++ map e_op log) (rs0 ++ map e_res log).
Proof. exact served_empty. Qed.
Print Assumptions C63_serving.

(* the same on a directory that earlier processes have left, whether they stopped or ended in a power failure *)
Theorem C63_serving_reopened : forall f L cf w1, env_ok f -> empty_dir f -> monotone (f_clock f) ->
  lives_ok (f_clock f) (f_ticks f) 0 (-1) (map fst (once_more L cf)) -> live_off (once_more L cf) f = Some w1 ->
  let t0 := opened_at (f_clock f) (f_ticks f) 0 L in
  forall fl ops rs0 starts w sv z bs ch rqs l sched p0 rss r v,
  ops_ok cf t0 ops -> db_after_from cf ops (failing fl w1) = Some (rs0, w) -> starts_ok cf (last_start t0 ops) (map OpSwap starts) ->
  timely (life_written (map fst L)) ->
  bs_contract bs -> (forall k n, hasher_ok (fst (ch k n))) -> Forall2 (wanting sv z) rqs l -> wants_ok ch cf (left_parts (f_clock f) (f_ticks f) 0 L) ops l ->
  interleave dhandler sched (at_work cf starts sv z bs ch rqs) w = ([p0; Ret (Served (rss, r))], v) ->
  exists old turns post, Forall2 reread (left_parts (f_clock f) (f_ticks f) 0 L) old /\ conversation (fun log => old ++ chunks_after cf t0 ops rs0 log) z [] l turns rss r /\
    let log := turns ++ post in
    Forall (fun e => e_who e <= 1)%nat log /\ of_thread 1 post = [] /\
    (exists v', one_by_one cf log w v' /\ (finished p0 -> v' = v)) /\
    (exists rest rs, rotations starts (of_thread 0 log ++ rest) rs /\ forall x, p0 = Ret x -> rest = [] /\ x = Swaps (Rotated rs)) /\
    reported cf t0 (ops ++ map e_op log) (rs0 ++ map e_res log).
Proof. exact served_again. Qed.
Print Assumptions C63_serving_reopened.

(* the end is always reached: whatever the requests, on any directory, with any failures, and whatever rule the locks
   follow, the server and the swap thread are never both waiting, and from every state that is reached they can end *)
Theorem C63_never_stuck : forall cf f w0 ops rs0 w starts sv z bs ch rqs (g : policy worker) sched, db_open cf f = Some (Ok tt, w0) ->
  db_after_from cf ops w0 = Some (rs0, w) -> lets_someone g ->
  let '(ts, w') := obeying g [] sched (at_work cf starts sv z bs ch rqs) w in
  (forall p, In p ts -> finished p) \/ exists i ts' w'', move g sched ts w' i = Some (ts', w'').
Proof. exact (fun cf f w0 ops rs0 w starts sv z bs ch rqs g sched Ho Ha => serving_never_stuck cf f w0 ops rs0 w Ho Ha starts sv z bs ch rqs g sched). Qed.
Print Assumptions C63_never_stuck.
Theorem C63_finish : forall cf f w0 ops rs0 w starts sv z bs ch rqs (g : policy worker) sched, db_open cf f = Some (Ok tt, w0) ->
  db_after_from cf ops w0 = Some (rs0, w) -> lets_someone g ->
  exists more, forall p, In p (fst (obeying g [] (sched ++ more) (at_work cf starts sv z bs ch rqs) w)) -> finished p.
Proof. exact (fun cf f w0 ops rs0 w starts sv z bs ch rqs g sched Ho Ha => serving_can_finish cf f w0 ops rs0 w Ho Ha starts sv z bs ch rqs g sched). Qed.
Print Assumptions C63_finish.

(* two writes, two reads, a request for another path, a read request that is no message and one that cannot be read; the swap comes during the first read,
   which counts its chunk twice *)
Definition sv_read (from to : Z) : read_request := mkReadReq [mkPQuery from to [mkMatcher EQ (s2b "job") (s2b "c") []] None []] [] [].
Definition sv_more : write_request := mkWriteReq [ex_wire "p" [1205; 1206]] [].
Definition sv_wants : list want :=
  [Wants (CWrite ex_body); Wants (CRead (sv_read 1100 1300)); Elsewhere; Wants (CWrite sv_more); Wants CGarbled; Wants (CRead (sv_read 1112 1300)); Broken].
Definition sv_requests : list request :=
  [ex_post "/write" (write_request_write ex_body); ex_post "/read" (read_request_write (sv_read 1100 1300)); ex_post "/x" [1];
   ex_post "/write" (write_request_write sv_more); ex_post "/read" [10; 7; 8]; ex_post "/read" (read_request_write (sv_read 1112 1300)); ex_post "/read" []].
Definition sv_w0 : dworld := match db_open (ex_config Sled Sled) (ex_flaky false) with Some (_, w) => w | None => sh_w0 end.
Definition sv_w : dworld := match db_after_from (ex_config Sled Sled) (firstn 3 ex_ops) sv_w0 with Some (_, w) => w | None => sh_w0 end.
Definition sv_at (sched : list nat) := interleave dhandler sched (at_work (ex_config Sled Sled) [1202] ex_server ex_snappy scan_bs (fun _ => ex_choices) sv_requests) sv_w.
Definition sv_sched : list nat := (repeat 1 30 ++ concat (repeat [0; 1] 150) ++ repeat 1 300)%list%nat.
(* the points of a response, and how the serving ended *)
Definition times (r : response) : list (list (list Z)) :=
  map (fun x => map (fun s => map sm_ts (ps_samples s)) (qr_series x)) (rp_results (fst (merge_from read_response_read (rs_body r) read_response_new))).
Definition brief (ps : list (prog dcmd worker)) :=
  match ps with
  | [Ret (Swaps a); Ret (Served (x, r))] => Some (a, map rs_status x, map times x, r)
  | _ => None
  end.
Lemma brief_ends (x : list (prog dcmd worker) * dworld) y : option_map (fun _ => tt) (brief (fst x)) = Some y -> exists a rss r v, x = ([Ret (Swaps a); Ret (Served (rss, r))], v).
Proof.
  destruct x as [ps v]. cbn [fst]. destruct ps as [|[[a|]|] ps]; try discriminate. destruct ps as [|[[|[rss r]]|] ps]; try discriminate.
  destruct ps; [|discriminate]. intros _. now exists a, rss, r, v.
Qed.
Lemma of_length ch sets q n : Forall (fun ls => length ls = n) sets -> unmixed_among ch sets q.
Proof.
  intros F k i. apply apart_free. intros mm m (x & Hx & _ & ->) (x' & Hx' & _ & E). symmetry in E. rewrite Forall_forall in F. apply (f_equal (@List.length _)) in E. rewrite app_length in E.
  pose proof (Permutation_length (sort_perm x)). pose proof (Permutation_length (sort_perm x')). pose proof (F _ Hx).
  pose proof (F _ Hx'). destruct m; [reflexivity|cbn in E; lia].
Qed.
Example C63_case : let cf := ex_config Sled Sled in let f := ex_flaky false in let ops := firstn 3 ex_ops in
  env_weak f /\ empty_dir f /\ db_open cf f = Some (Ok tt, sv_w0) /\ ops_ok cf 1000 ops /\ db_after_from cf ops sv_w0 = Some ([Ok tt; Ok tt; Ok tt], sv_w) /\
  starts_ok cf (last_start 1000 ops) (map OpSwap [1202]) /\
  bs_contract scan_bs /\ (forall n, hasher_ok (fst (ex_choices n))) /\ Forall2 (wanting ex_server ex_snappy) sv_requests sv_wants /\ wants_ok (fun _ => ex_choices) cf [] ops sv_wants /\
  (exists a rss r v, sv_at sv_sched = ([Ret (Swaps a); Ret (Served (rss, r))], v)) /\
  brief (fst (sv_at sv_sched)) =
    Some (Rotated [Ok tt], [200; 200; 404; 200; 500; 200],
          [[]; [[[1110; 1111; 1110; 1111]; [1112; 1113; 1112; 1113]]]; []; []; []; [[[1205; 1206]]]], Panic) /\
  lets_someone (@writers_first worker).
Proof.
  cbv zeta.
  split; [split; [intros l; apply Permutation_refl|split; [intros n; apply repeat_length|intros n; unfold u64, ex_flaky; cbn [f_clock]; lia]]|].
  split; [split; reflexivity|]. split; [apply world_eq; vm_compute; reflexivity|].
  assert (O: ops_ok (ex_config Sled Sled) 1000 (firstn 3 ex_ops)).
  { cbn [firstn ex_ops]. split; [discriminate|]. split; [lia|]. split; [cbn; lia|]. split; [cbn; lia|]. split; [cbn; lia|].
    split; [cbn [written map app]; reqs_tac|]. cbn. lia. }
  split; [exact O|]. split; [apply world_eq; vm_compute; reflexivity|]. split; [cbn; lia|]. split; [exact scan_contract|]. split; [intros n; exact all_probe_ok|].
  split.
  { unfold sv_requests, sv_wants. constructor; [|constructor; [|constructor; [|constructor; [|constructor; [|constructor; [|constructor; [|constructor]]]]]]]; cbn [wanting].
    - eapply carries_write; [reflexivity|reflexivity|apply write_request_b; apply ex_body_ok|reflexivity|reflexivity|discriminate|vm_compute; reflexivity].
    - eapply carries_read; [reflexivity|reflexivity|apply read_request_b; split; cbn [rq_queries rq_unk sv_read]; ok_tac|reflexivity|reflexivity|vm_compute; reflexivity].
    - split; [exists [1]; split; [reflexivity|discriminate]|]. split; discriminate.
    - eapply carries_write; [reflexivity|reflexivity|apply write_request_b; unfold sv_more, ex_wire; cbn [map]; split; cbn [wq_series wq_unk]; ok_tac|reflexivity|reflexivity|discriminate|vm_compute; reflexivity].
    - eapply carries_garbled; [reflexivity|reflexivity|bytes_tac|reflexivity|reflexivity|vm_compute; reflexivity].
    - eapply carries_read; [reflexivity|reflexivity|apply read_request_b; split; cbn [rq_queries rq_unk sv_read]; ok_tac|reflexivity|reflexivity|vm_compute; reflexivity].
    - right. exists []. split; reflexivity. }
  assert (P: Forall ireq_ok (all_points sv_wants)).
  { change (all_points sv_wants) with [([lab "job" "c"; lab "host" "p"], mkTp 1110 1); ([lab "job" "c"; lab "host" "p"], mkTp 1111 1);
      ([lab "job" "c"; lab "host" "q"], mkTp 1112 1); ([lab "job" "c"; lab "host" "q"], mkTp 1113 1);
      ([lab "job" "c"; lab "host" "p"], mkTp 1205 1); ([lab "job" "c"; lab "host" "p"], mkTp 1206 1)]. reqs_tac. }
  split.
  { split; [|split; [exact P|split; [vm_compute; reflexivity|left; apply timely_check; [apply Forall_app; split; [apply O|exact P]|vm_compute; reflexivity]]]].
    assert (N: forall q, unmixed_among (fun _ => ex_choices) (all_sets [] (written (firstn 3 ex_ops) ++ all_points sv_wants)) q).
    { intros q. apply (of_length _ _ q 2). apply Forall_forall. intros x Hx.
      assert (B: forallb (fun ls => (length ls =? 2)%nat) (all_sets [] (written (firstn 3 ex_ops) ++ all_points sv_wants)) = true) by (vm_compute; reflexivity).
      rewrite forallb_forall in B. apply Nat.eqb_eq. exact (B x Hx). }
    set (sets := all_sets [] _) in *. clearbody sets. unfold sv_wants.
    assert (R: forall a b, Forall (fun q => Forall lab_ok (asked_labels q) /\ unmixed_among (fun _ => ex_choices) sets (asked_labels q)) (rq_queries (sv_read a b))).
    { intros a b. cbn [rq_queries sv_read]. constructor; [|constructor]. split; [cbn [asked_labels pq_matchers map mt_name mt_value]; labs_tac|]. apply N. }
    constructor; [exact I|]. constructor; [apply R|]. constructor; [exact I|]. constructor; [exact I|].
    constructor; [exact I|]. constructor; [apply R|]. constructor; [exact I|constructor]. }
  split; [apply (brief_ends _ tt); vm_compute; reflexivity|]. split; [vm_compute; reflexivity|]. exact writers_first_ok.
Qed.

(* the directory of C60_reopened_case: two processes before, the first ended by a power failure; the first swap fails,
   the second comes during the read, which counts its chunk twice *)
Definition sr_write : write_request :=
  mkWriteReq [mkPSeries [mkPLabel (s2b "host") (s2b "y") []; mkPLabel (s2b "job") (s2b "a") []] [mkSample 13 9050 []; mkSample 14 9060 []] []] [].
Definition sr_read : read_request := mkReadReq [mkPQuery 4000 9300 [mkMatcher EQ (s2b "host") (s2b "y") []] None []] [] [].
Definition sr_wants : list want := [Wants (CWrite sr_write); Wants (CRead sr_read)].
Definition sr_requests : list request := [ex_post "/write" (write_request_write sr_write); ex_post "/read" (read_request_write sr_read)].
Definition sr_at (sched : list nat) := interleave dhandler sched (at_work (ex_config Sled Sled) [9102; 9203] ex_server ex_snappy scan_bs (fun _ => ex_choices) sr_requests) ag_w.
Definition sr_sched : list nat := (repeat 1 7 ++ concat (repeat [0; 1] 150) ++ repeat 1 300)%list%nat.
Example C63_reopened_case : let cf := ex_config Sled Sled in
  env_ok slow_fs /\ empty_dir slow_fs /\ monotone (f_clock slow_fs) /\ lives_ok (f_clock slow_fs) 0 0 (-1) (map fst (once_more ag_lives cf)) /\
  live_off (once_more ag_lives cf) slow_fs = Some ag_w1 /\ opened_at (f_clock slow_fs) 0 0 ag_lives = 9000 /\
  ops_ok cf 9000 ag_ops /\ db_after_from cf ag_ops (failing ag_fl ag_w1) = Some ([Ok tt], ag_w) /\ starts_ok cf (last_start 9000 ag_ops) (map OpSwap [9102; 9203]) /\
  timely (life_written (map fst ag_lives)) /\ Forall2 (wanting ex_server ex_snappy) sr_requests sr_wants /\
  wants_ok (fun _ => ex_choices) cf (left_parts (f_clock slow_fs) 0 0 ag_lives) ag_ops sr_wants /\
  (exists a rss r v, sr_at sr_sched = ([Ret (Swaps a); Ret (Served (rss, r))], v)) /\
  brief (fst (sr_at sr_sched)) = Some (Rotated [Err InternalErr; Ok tt], [200; 200], [[]; [[[4250; 9010; 9050; 9060; 9010; 9050; 9060]]]], Ok tt).
Proof.
  cbv zeta. destruct C60_reopened_case as (H1 & H2 & H3 & H4 & H5 & H6 & O & H7 & _ & H8 & _).
  split; [exact H1|]. split; [exact H2|]. split; [exact H3|]. split; [exact H4|]. split; [exact H5|]. split; [exact H6|]. split; [exact O|]. split; [exact H7|].
  split; [cbn; lia|]. split; [exact H8|]. split.
  { unfold sr_requests, sr_wants. constructor; [|constructor; [|constructor]]; cbn [wanting].
    - eapply carries_write; [reflexivity|reflexivity|apply write_request_b; unfold sr_write; split; cbn [wq_series wq_unk]; ok_tac|reflexivity|reflexivity|discriminate|vm_compute; reflexivity].
    - eapply carries_read; [reflexivity|reflexivity|apply read_request_b; split; cbn [rq_queries rq_unk sr_read]; ok_tac|reflexivity|reflexivity|vm_compute; reflexivity]. }
  assert (P: Forall ireq_ok (all_points sr_wants)).
  { change (all_points sr_wants) with [([lab "host" "y"; lab "job" "a"], mkTp 9050 13); ([lab "host" "y"; lab "job" "a"], mkTp 9060 14)]. reqs_tac. }
  split.
  { split; [|split; [exact P|split; [vm_compute; reflexivity|left; apply timely_check; [apply Forall_app; split; [apply O|exact P]|vm_compute; reflexivity]]]].
    assert (N: forall q, unmixed_among (fun _ => ex_choices) (all_sets (left_parts (f_clock slow_fs) 0 0 ag_lives) (written ag_ops ++ all_points sr_wants)) q).
    { intros q. apply (of_length _ _ q 2). apply Forall_forall. intros x Hx.
      assert (B: forallb (fun ls => (length ls =? 2)%nat) (all_sets (left_parts (f_clock slow_fs) 0 0 ag_lives) (written ag_ops ++ all_points sr_wants)) = true) by (vm_compute; reflexivity).
      rewrite forallb_forall in B. apply Nat.eqb_eq. exact (B x Hx). }
    set (sets := all_sets _ _) in *. clearbody sets. unfold sr_wants.
    constructor; [|constructor; [|constructor]].
    - exact I.
    - cbn [want_ok rq_queries sr_read]. constructor; [|constructor]. split; [cbn [asked_labels pq_matchers map mt_name mt_value]; labs_tac|]. apply N. }
  split; [apply (brief_ends _ tt); vm_compute; reflexivity|]. vm_compute. reflexivity.
Qed.

(* a write, a read from 1114 back to 1110, which brings the server down, and a request that is never answered *)
Definition sd_body : write_request := mkWriteReq [ex_wire "p" [1110; 1112; 1114]] [].
Definition sd_wants : list want := [Wants (CWrite sd_body); Elsewhere; Wants (CRead (sv_read 1114 1110)); Elsewhere].
Definition sd_requests : list request :=
  [ex_post "/write" (write_request_write sd_body); ex_post "/x" [1]; ex_post "/read" (read_request_write (sv_read 1114 1110)); ex_post "/x" [1]].
Definition sd_at (sched : list nat) := interleave dhandler sched (at_work (ex_config Sled Sled) [1202] ex_server ex_snappy scan_bs (fun _ => ex_choices) sd_requests) sv_w.
Example C63_crash_case : let cf := ex_config Sled Sled in let ops := firstn 3 ex_ops in
  Forall2 (wanting ex_server ex_snappy) sd_requests sd_wants /\ wants_ok (fun _ => ex_choices) cf [] ops sd_wants /\
  brief (fst (sd_at (repeat 1 160 ++ concat (repeat [0; 1] 150))%list%nat)) = Some (Rotated [Ok tt], [200; 404], [[]; []], Panic).
Proof.
  cbv zeta.
  assert (O: Forall ireq_ok (written (firstn 3 ex_ops))) by (cbn [firstn ex_ops written map app]; reqs_tac).
  split.
  { unfold sd_requests, sd_wants. constructor; [|constructor; [|constructor; [|constructor; [|constructor]]]]; cbn [wanting].
    - eapply carries_write; [reflexivity|reflexivity|apply write_request_b; unfold sd_body, ex_wire; cbn [map]; split; cbn [wq_series wq_unk]; ok_tac|reflexivity|reflexivity|discriminate|vm_compute; reflexivity].
    - split; [exists [1]; split; [reflexivity|discriminate]|]. split; discriminate.
    - eapply carries_read; [reflexivity|reflexivity|apply read_request_b; split; cbn [rq_queries rq_unk sv_read]; ok_tac|reflexivity|reflexivity|vm_compute; reflexivity].
    - split; [exists [1]; split; [reflexivity|discriminate]|]. split; discriminate. }
  assert (P: Forall ireq_ok (all_points sd_wants)).
  { change (all_points sd_wants) with [([lab "job" "c"; lab "host" "p"], mkTp 1110 1); ([lab "job" "c"; lab "host" "p"], mkTp 1112 1); ([lab "job" "c"; lab "host" "p"], mkTp 1114 1)]. reqs_tac. }
  split; [|vm_compute; reflexivity].
  split; [|split; [exact P|split; [vm_compute; reflexivity|left; apply timely_check; [apply Forall_app; split; [exact O|exact P]|vm_compute; reflexivity]]]].
  assert (N: forall q, unmixed_among (fun _ => ex_choices) (all_sets [] (written (firstn 3 ex_ops) ++ all_points sd_wants)) q).
  { intros q. apply (of_length _ _ q 2). apply Forall_forall. intros x Hx.
    assert (B: forallb (fun ls => (length ls =? 2)%nat) (all_sets [] (written (firstn 3 ex_ops) ++ all_points sd_wants)) = true) by (vm_compute; reflexivity).
    rewrite forallb_forall in B. apply Nat.eqb_eq. exact (B x Hx). }
  set (sets := all_sets [] _) in *. clearbody sets. unfold sd_wants.
  constructor; [exact I|]. constructor; [exact I|]. constructor; [|constructor; [exact I|constructor]].
  cbn [want_ok rq_queries sv_read]. constructor; [|constructor]. split; [cbn [asked_labels pq_matchers map mt_name mt_value]; labs_tac|apply N].
Qed.
