(* Property C70: the server in front of a database over a real TiKV, and the program tikv-cli. *)
From Coq Require Import Permutation String.
From Verif Require Import WireSpec WireMsgs WireWrong WireWritten PropsWire.
From Verif Require Import Rust Prog Gorilla GorillaSpec Storage StorageSpec Labels Indexer IndexSpec Chunk ChunkSpec Utils DirSpec TiKvInit TiKvShared TiKvSpec
  Db DbSpec ReopenSpec TiKvDb TiKvDbSpec MixDb MixSpec RangeSpec Proto ProtoSpec Server ServerSpec AskSpec TalkSpec TiKvCli.
From Verif Require Import ChunkProofs DbFacts ServerProofs AskProofs TalkProofs TalkTiKv PropsChunk PropsDb PropsProto PropsServer PropsReopen PropsTiKvDb PropsMix.
Local Notation lab k v := (mkLabel (s2b k) (s2b v)).
Local Notation length := List.length.

(** C70 *)
(* both types TiKV: after processes L and the operations ops of the running one, the requests are answered as the shelf
   (C64) says; what they made is part of the history then *)
Theorem C70_sessions : forall f s L cf ops, env_ok f -> empty_dir f -> new_uuids f s -> no_points s ->
  tlives_ok (f_clock f) (f_ticks f) 0 (-1) (L ++ [mkLife cf ops]) ->
  exists y d t, shelf_lives (f_clock f) (f_ticks f) 0 no_table (L ++ [mkLife cf ops]) = y ++ [d] /\
    t_live (L ++ [mkLife cf ops]) f s = Some (map snd (y ++ [d]), t) /\
    forall sv z bs (ch : nat -> choices) rqs l k, bs_contract bs -> (forall k n, hasher_ok (fst (ch k n))) -> Forall2 (brings sv z) rqs l ->
      talk_sane (shelf_op cf) shelf_parts ch z (fst d) l ->
      tlives_ok (f_clock f) (f_ticks f) 0 (-1) (L ++ [mkLife cf (ops ++ all_ops (shelf_op cf) (fst d) l)]) ->
      exists rss r t' more rs, trun (lift (@TD) (serve sv z bs ch k rqs)) t = Some ((rss, r), t') /\
        (r = Panic -> forall rest, trun (lift (@TD) (serve sv z bs ch k (rqs ++ rest))) t = Some ((rss, r), t')) /\
        t_live (L ++ [mkLife cf (ops ++ more)]) f s = Some (rs, t') /\
        talk (shelf_op cf) shelf_parts z (fst d) l rss r more.
Proof. exact talk_tikv. Qed.
Print Assumptions C70_sessions.
(* the points in TiKV, the series in sled (C67) *)
Theorem C70_points_in_tikv : forall f s L cf ops, env_ok f -> empty_dir f -> new_uuids f s -> no_points s ->
  mlives_ok TiKvDry Sled (f_clock f) (f_ticks f) 0 (-1) (L ++ [mkLife cf ops]) ->
  exists y d t, shelf_lives (f_clock f) (f_ticks f) 0 no_table (L ++ [mkLife cf ops]) = y ++ [d] /\
    x_live (L ++ [mkLife cf ops]) f s = Some (map snd (y ++ [d]), t) /\
    forall sv z bs (ch : nat -> choices) rqs l k, bs_contract bs -> (forall k n, hasher_ok (fst (ch k n))) -> Forall2 (brings sv z) rqs l ->
      talk_sane (shelf_op cf) shelf_parts ch z (fst d) l ->
      mlives_ok TiKvDry Sled (f_clock f) (f_ticks f) 0 (-1) (L ++ [mkLife cf (ops ++ all_ops (shelf_op cf) (fst d) l)]) ->
      exists rss r t' more rs, xrun (lift (@TD) (serve sv z bs ch k rqs)) t = Some ((rss, r), t') /\
        (r = Panic -> forall rest, xrun (lift (@TD) (serve sv z bs ch k (rqs ++ rest))) t = Some ((rss, r), t')) /\
        x_live (L ++ [mkLife cf (ops ++ more)]) f s = Some (rs, t') /\
        talk (shelf_op cf) shelf_parts z (fst d) l rss r more.
Proof. exact talk_points. Qed.
Print Assumptions C70_points_in_tikv.
(* the series in TiKV, the points in sled: as over sled, with nothing of earlier processes *)
Theorem C70_series_in_tikv : forall f s L cf ops, env_ok f -> empty_dir f -> new_uuids f s ->
  mlives_ok Sled TiKvDry (f_clock f) (f_ticks f) 0 (-1) (L ++ [mkLife cf ops]) ->
  exists y start t, begun (f_clock f) (f_ticks f) 0 (L ++ [mkLife cf ops]) = y ++ [(start, mkLife cf ops)] /\
    x_live (L ++ [mkLife cf ops]) f s = Some (map (fun z => outcomes (lf_cf (snd z)) (fst z) (lf_ops (snd z))) (y ++ [(start, mkLife cf ops)]), t) /\
    forall sv z bs (ch : nat -> choices) rqs l k, bs_contract bs -> (forall k n, hasher_ok (fst (ch k n))) -> Forall2 (brings sv z) rqs l ->
      talk_sane (history_step cf start) (parts cf start) ch z ops l ->
      let all := ops ++ all_ops (history_step cf start) ops l in
      mlives_ok Sled TiKvDry (f_clock f) (f_ticks f) 0 (-1) (L ++ [mkLife cf all]) -> timely (written all) ->
      exists rss r t' more rs, xrun (lift (@TD) (serve sv z bs ch k rqs)) t = Some ((rss, r), t') /\
        (r = Panic -> forall rest, xrun (lift (@TD) (serve sv z bs ch k (rqs ++ rest))) t = Some ((rss, r), t')) /\
        x_live (L ++ [mkLife cf (ops ++ more)]) f s = Some (rs, t') /\
        talk (history_step cf start) (parts cf start) z ops l rss r more.
Proof. exact talk_series. Qed.
Print Assumptions C70_series_in_tikv.
(* tikv-cli started in an empty directory, over a TiKV without points: until its first window ends it answers what was
   written since *)
Theorem C70_tikv_cli : forall dbg cwd f s z bs (ch : nat -> choices), let cf := cli_config dbg cwd in let start := f_clock f (f_ticks f) in
  env_ok f -> empty_dir f -> new_uuids f s -> no_points s -> ascii cwd -> bs_contract bs -> (forall k n, hasher_ok (fst (ch k n))) ->
  forall rqs l, Forall2 (brings cli_server z) rqs l ->
  talk_sane (history_step cf start) (parts cf start) ch z [] l -> ops_ok cf start (all_ops (history_step cf start) [] l) ->
  exists rss r t more, tikv_cli dbg cwd f s z bs ch rqs = Some ((rss, r), t) /\ talk (history_step cf start) (parts cf start) z [] l rss r more /\
    (r = Panic -> forall rest, tikv_cli dbg cwd f s z bs ch (rqs ++ rest) = Some ((rss, r), t)).
Proof. exact cli_first. Qed.
Print Assumptions C70_tikv_cli.
(* its windows last 12000 s, and its paths are these *)
Theorem C70_tikv_cli_options : forall dbg cwd, cf_size (cli_config dbg cwd) = 12000 * 1000 /\ cf_base (cli_config dbg cwd) = cwd /\
  cli_server = mkServer (s2b "/read") (s2b "/write").
Proof. repeat split. Qed.
Print Assumptions C70_tikv_cli_options.

(* {job=c} is answered with a point of {host=x, job=a}; the last read goes back in time over a point of {job=b} *)
Definition tt_read (k v : string) (s e : Z) : read_request := mkReadReq [mkPQuery s e [mkMatcher EQ (s2b k) (s2b v) []] None []] [] [].
Definition tt_session : list event :=
  [Asked (CRead (tt_read "job" "c" 1000 2000)); Asked (CWrite ex_body); Elsewhere; Asked CGarbled; Asked (CRead (tt_read "job" "b" 1060 1040))].
Definition tt_requests : list request :=
  [ex_post "/read" (read_request_write (tt_read "job" "c" 1000 2000)); ex_post "/write" (write_request_write ex_body); ex_post "/x" [1];
   ex_post "/read" [10; 7; 8]; ex_post "/read" (read_request_write (tt_read "job" "b" 1060 1040))].
Definition tt_shelf : shelf := fst (shelf_ops tk_cf (open_shelf tk_cf 1000 no_table) tk_ops).
Definition tt_told (p : list request -> option ((list response * res unit) * tworld)) (rqs : list request) :=
  option_map (fun x => (map (fun rs => (rs_status rs, rs_body rs)) (fst (fst x)), snd (fst x))) (p rqs).
Definition tt_body (pts : list (Z * Z)) : bytes :=
  read_response_write (mkReadResp [mkQResult [mkPSeries [mkPLabel (s2b "job") (s2b "c") []] (map (fun p => mkSample (snd p) (fst p) []) pts) []] []] []).
Lemma tt_brings : Forall2 (brings ex_server ex_snappy) tt_requests tt_session.
Proof.
  unfold tt_requests, tt_session. constructor; [|constructor; [|constructor; [|constructor; [|constructor; [|constructor]]]]]; cbn [brings].
  - eapply carries_read; [reflexivity|reflexivity| |reflexivity|reflexivity|vm_compute; reflexivity]. apply read_request_b.
    split; cbn [rq_queries rq_unk tt_read]; ok_tac.
  - eapply carries_write; [reflexivity|reflexivity|apply write_request_b, ex_body_ok|reflexivity|reflexivity|discriminate|vm_compute; reflexivity].
  - split; [exists [1], [1]; split; reflexivity|]. split; discriminate.
  - eapply carries_garbled; [reflexivity|reflexivity|bytes_tac|reflexivity|reflexivity|vm_compute; reflexivity].
  - eapply carries_read; [reflexivity|reflexivity| |reflexivity|reflexivity|vm_compute; reflexivity]. apply read_request_b.
    split; cbn [rq_queries rq_unk tt_read]; ok_tac.
Qed.
Lemma tt_sane (l : list part) k v s e : Forall lab_ok [lab k v] -> freeb l = true -> event_sane (fun _ => ex_choices) ex_snappy l (Asked (CRead (tt_read k v s e))).
Proof.
  intros H F. split; [|intros rs _; discriminate]. intros _. constructor; [|constructor]. split; [exact H|]. intros n. now apply unmixed_check.
Qed.
Definition tt_made : list dop :=
  [OpBatch [lab "job" "c"; lab "host" "p"] [mkTp 1110 1; mkTp 1111 1]; OpBatch [lab "job" "c"; lab "host" "q"] [mkTp 1112 1; mkTp 1113 1]].
Lemma tt_ok st ix : ops_ok (ex_config st ix) 1000 (tk_ops ++ tt_made).
Proof.
  split; [discriminate|]. split; [lia|]. split; [cbn; lia|]. split; [cbn; lia|]. split; [cbn [starts_ok tk_ops app tt_made]; repeat split; vm_compute; reflexivity|].
  split; [cbn [written tk_ops tt_made map app]; reqs_tac|]. cbn. lia.
Qed.
Example C70_case :
  Forall2 (brings ex_server ex_snappy) tt_requests tt_session /\
  shelf_lives (f_clock slow_fs) 0 0 no_table [mkLife tk_cf tk_ops] = [(tt_shelf, [Ok tt; Ok tt; Ok tt; Ok tt])] /\
  talk_sane (shelf_op tk_cf) shelf_parts (fun _ => ex_choices) ex_snappy tt_shelf tt_session /\
  all_ops (shelf_op tk_cf) tt_shelf tt_session = tt_made /\
  tlives_ok (f_clock slow_fs) 0 0 (-1) [mkLife tk_cf (tk_ops ++ tt_made)] /\
  mlives_ok TiKvDry Sled (f_clock slow_fs) 0 0 (-1) [mkLife pk_cf (tk_ops ++ tt_made)] /\
  match t_live [mkLife tk_cf tk_ops] slow_fs [] with
  | Some (_, t) => tt_told (fun rqs => trun (lift (@TD) (serve ex_server ex_snappy scan_bs (fun _ => ex_choices) 0 rqs)) t) (tt_requests ++ tt_requests)
  | None => None
  end = Some ([(200, tt_body [(1010, 7); (1150, 8)]); (200, []); (404, []); (500, [])], Panic) /\
  match x_live [mkLife pk_cf tk_ops] slow_fs [] with
  | Some (_, t) => tt_told (fun rqs => xrun (lift (@TD) (serve ex_server ex_snappy scan_bs (fun _ => ex_choices) 0 rqs)) t) (tt_requests ++ tt_requests)
  | None => None
  end = Some ([(200, tt_body [(1010, 7); (1150, 8)]); (200, []); (404, []); (500, [])], Panic).
Proof.
  assert (U: forall st ix, ops_ok (ex_config st ix) (f_clock slow_fs (0 + 0)%nat) (tk_ops ++ tt_made)) by (intros; apply tt_ok).
  split; [exact tt_brings|]. split; [reflexivity|].
  split. { cbn [talk_sane tt_session]. split; [apply tt_sane; [labs_tac|vm_compute; reflexivity]|]. split; [exact I|]. split; [exact I|]. split; [exact I|].
    split; [apply tt_sane; [labs_tac|vm_compute; reflexivity]|exact I]. }
  split; [vm_compute; reflexivity|].
  split. { split; [reflexivity|]. split; [reflexivity|]. split; [exact tk_ascii|]. split; [vm_compute; reflexivity|]. split; [apply U|exact I]. }
  split. { split; [reflexivity|]. split; [reflexivity|]. split; [exact tk_ascii|]. split; [vm_compute; reflexivity|]. split; [apply U|exact I]. }
  split; vm_compute; reflexivity.
Qed.
Example C70_series_case :
  talk_sane (history_step sk_cf 1000) (parts sk_cf 1000) (fun _ => ex_choices) ex_snappy tk_ops (firstn 4 tt_session) /\
  all_ops (history_step sk_cf 1000) tk_ops (firstn 4 tt_session) = tt_made /\
  mlives_ok Sled TiKvDry (f_clock slow_fs) 0 0 (-1) [mkLife sk_cf (tk_ops ++ tt_made)] /\ timely (written (tk_ops ++ tt_made)) /\
  match x_live [mkLife sk_cf tk_ops] slow_fs [] with
  | Some (_, t) => tt_told (fun rqs => xrun (lift (@TD) (serve ex_server ex_snappy scan_bs (fun _ => ex_choices) 0 rqs)) t) (firstn 4 tt_requests)
  | None => None
  end = Some ([(200, tt_body [(1150, 8)]); (200, []); (404, []); (500, [])], Ok tt).
Proof.
  split. { cbn [talk_sane tt_session firstn]. split; [apply tt_sane; [labs_tac|vm_compute; reflexivity]|]. split; [exact I|]. split; [exact I|]. split; exact I. }
  split; [vm_compute; reflexivity|].
  split. { split; [reflexivity|]. split; [reflexivity|]. split; [exact tk_ascii|]. split; [vm_compute; reflexivity|]. split; [apply tt_ok|exact I]. }
  split; [apply timely_check; [apply (tt_ok Sled Sled)|vm_compute; reflexivity]|]. vm_compute. reflexivity.
Qed.
(* a write, a read of what it wrote and one without a body *)
Definition cli_session : list event := [Asked (CWrite ex_body); Asked (CRead (tt_read "host" "p" 1000 2000)); Unreadable].
Definition cli_requests : list request :=
  [ex_post "/write" (write_request_write ex_body); ex_post "/read" (read_request_write (tt_read "host" "p" 1000 2000)); mkRequest (s2b "/read") None].
Example C70_cli_case : let cf := cli_config true (s2b "/home") in
  Forall2 (brings cli_server ex_snappy) cli_requests cli_session /\ ascii (s2b "/home") /\
  talk_sane (history_step cf 1000) (parts cf 1000) (fun _ => ex_choices) ex_snappy [] cli_session /\
  all_ops (history_step cf 1000) [] cli_session = tt_made /\ ops_ok cf 1000 tt_made /\
  option_map (fun x => (map rs_status (fst (fst x)), snd (fst x))) (tikv_cli true (s2b "/home") slow_fs [] ex_snappy scan_bs (fun _ => ex_choices) cli_requests) = Some ([200; 200], Panic).
Proof.
  intros cf. split.
  { unfold cli_requests, cli_session. constructor; [|constructor; [|constructor; [|constructor]]]; cbn [brings].
    - eapply carries_write; [reflexivity|reflexivity|apply write_request_b, ex_body_ok|reflexivity|reflexivity|discriminate|vm_compute; reflexivity].
    - eapply carries_read; [reflexivity|reflexivity| |reflexivity|reflexivity|vm_compute; reflexivity]. apply read_request_b.
      split; cbn [rq_queries rq_unk tt_read]; ok_tac.
    - left. reflexivity. }
  split; [unfold ascii; cbn; repeat constructor; lia|].
  split. { cbn [talk_sane cli_session]. split; [exact I|]. split; [apply tt_sane; [labs_tac|vm_compute; reflexivity]|]. split; exact I. }
  split; [vm_compute; reflexivity|].
  split. { split; [discriminate|]. split; [lia|]. split; [vm_compute; discriminate|]. split; [vm_compute; reflexivity|]. split; [exact I|]. split; [cbn [written tt_made map app]; reqs_tac|]. cbn. lia. }
  vm_compute. reflexivity.
Qed.
