(* Specification vocabulary for the server answering requests while the swap thread works. *)
From Verif Require Import Rust Prog Gorilla GorillaSpec Storage StorageSpec Labels IndexSpec Indexer Chunk ChunkSpec ConcSpec
  Utils DirSpec TiKvInit Db DbSpec RangeSpec SwapSpec ReadsSpec WritersSpec FaultsSpec SharedSpec Proto ProtoSpec Server ServerSpec.

(* the two threads of the program: MonolithDb::new starts the swap thread (src/db.rs:93-101, the waiting for the next
   swap left out: a swap may come at any time); the main thread then serves (src/bin/monolith-server.rs:104-115,
   src/server.rs:48-63), one request after the other *)
Inductive worker := Swaps (a : wanswer) | Served (x : list response * res unit).
Definition at_work (cf : config) (starts : list Z) (sv : server) (z : snappy) (bs : bsearch) (ch : nat -> choices) (rqs : list request) : list (prog dcmd worker) :=
  [let! a := rotator cf starts in Ret (Swaps a); let! x := serve sv z bs ch 0 rqs in Ret (Served x)].

(* what a request asks for: a read or a write, something else, or nothing that can be read *)
Inductive want := Wants (c : client) | Elsewhere | Broken.
Definition wanting (sv : server) (z : snappy) (rq : request) (x : want) : Prop :=
  match x with
  | Wants c => carries sv z rq c
  | Elsewhere => (exists c, rq_content rq = Some c /\ decompress z c <> None) /\ rq_url rq <> sv_read_path sv /\ rq_url rq <> sv_write_path sv
  | Broken => rq_content rq = None \/ exists c, rq_content rq = Some c /\ decompress z c = None
  end.

(** * What happens, as a list of events: of the swap thread (0) and of the server (1) *)
(* the queries qs are answered, one after the other, with the results l: each with what the chunks
   held when its turn came, the newest chunk maybe counted twice; none of the chunks brings it down (RangeSpec.v).
   Nothing is written meanwhile. *)
Definition down (l : list part) (q : pquery) : Prop := exists c, In c l /\ crashes c (asked_labels q) (asked_from q) (asked_to q).
Inductive results_in (chunks_of : list event -> list part) : list event -> list pquery -> list event -> list query_result -> Prop :=
| Ri_end before : results_in chunks_of before [] [] []
| Ri_query before q qs turn more a r l :
    of_thread 1 turn = [] -> ~ down (chunks_of before) q ->
    db_answer (chunks_of before) (asked_labels q) (asked_from q) (asked_to q) a \/
    db_answer (twice_last (chunks_of before)) (asked_labels q) (asked_from q) (asked_to q) a ->
    qr_series r = map sent_series a -> qr_unk r = [] ->
    results_in chunks_of (before ++ turn) qs more l ->
    results_in chunks_of before (q :: qs) (turn ++ more) (r :: l).
(* some of the queries qs are answered; the next one brings the server down *)
Inductive crash_in (chunks_of : list event -> list part) : list event -> list pquery -> list event -> Prop :=
| Ci_query before qs q qs' turn more l :
    results_in chunks_of before qs turn l -> of_thread 1 more = [] -> down (chunks_of (before ++ turn)) q ->
    crash_in chunks_of before (qs ++ q :: qs') (turn ++ more).
(* the series are written one after the other, each point by point, up to the first that fails *)
Definition batch_call (s : pseries) : wcall := WBatch (stored_labels s) (map stored_point (ps_samples s)).
Inductive written_in : list pseries -> list event -> bool -> Prop :=
| Wi_end : written_in [] [] true
| Wi_ok s l turn more ok : session [batch_call s] (of_thread 1 turn) [Ok tt] -> written_in l more ok -> written_in (s :: l) (turn ++ more) ok
| Wi_err s l turn e : session [batch_call s] (of_thread 1 turn) [Err e] -> written_in (s :: l) turn false.
(* the requests are served one after the other, with these responses; a request that cannot be read, a query that
   brings the server down or an answer that cannot be compressed ends it all *)
Inductive conversation (chunks_of : list event -> list part) (z : snappy) : list event -> list want -> list event -> list response -> res unit -> Prop :=
| Co_end before : conversation chunks_of z before [] [] [] (Ok tt)
| Co_write before m l turn more ok rss r :
    written_in (wq_series m) turn ok ->
    conversation chunks_of z (before ++ turn) l more rss r ->
    conversation chunks_of z before (Wants (CWrite m) :: l) (turn ++ more) (empty_response (if ok then 200 else 500) :: rss) r
| Co_nothing before m l more rss r :
    nothing_asked m -> conversation chunks_of z before l more rss r ->
    conversation chunks_of z before (Wants (CRead m) :: l) more (empty_response 500 :: rss) r
| Co_read before m l turn more res body rss r :
    ~ nothing_asked m -> results_in chunks_of before (rq_queries m) turn res ->
    compress z (read_response_write (mkReadResp res [])) = Some body ->
    conversation chunks_of z (before ++ turn) l more rss r ->
    conversation chunks_of z before (Wants (CRead m) :: l) (turn ++ more) (mkResponse 200 body :: rss) r
| Co_large before m l turn res :
    ~ nothing_asked m -> results_in chunks_of before (rq_queries m) turn res ->
    compress z (read_response_write (mkReadResp res [])) = None ->
    conversation chunks_of z before (Wants (CRead m) :: l) turn [] Panic
| Co_crash before m l turn :
    ~ nothing_asked m -> crash_in chunks_of before (rq_queries m) turn ->
    conversation chunks_of z before (Wants (CRead m) :: l) turn [] Panic
| Co_garbled before l more rss r :
    conversation chunks_of z before l more rss r ->
    conversation chunks_of z before (Wants CGarbled :: l) more (empty_response 500 :: rss) r
| Co_other before l more rss r :
    conversation chunks_of z before l more rss r ->
    conversation chunks_of z before (Elsewhere :: l) more (empty_response 404 :: rss) r
| Co_broken before l : conversation chunks_of z before (Broken :: l) [] [] Panic.

(** * Requests considered *)
(* the points the requests bring *)
Definition series_points (s : pseries) : list ireq := map (pair (stored_labels s)) (map stored_point (ps_samples s)).
Definition want_points (x : want) : list ireq :=
  match x with Wants (CWrite m) => concat (map series_points (wq_series m)) | _ => [] end.
Definition all_points (l : list want) : list ireq := concat (map want_points l).
(* the label sets there are, or will be *)
Definition all_sets (old : list part) (reqs : list ireq) : list (list label) := concat (map (fun c : part => map fst (snd c)) old) ++ map fst reqs.
(* the hash maps of the queries never compare one with a searched label with a proper prefix of it (labels
   in name order) *)
Definition unmixed_among (ch : nat -> choices) (sets : list (list label)) (q : list label) : Prop :=
  forall k n, tells_apart (fst (ch k n)) (fun m => exists x, In x sets /\ wanted q x /\ m = sort_labels x).
Definition want_ok (ch : nat -> choices) (sets : list (list label)) (x : want) : Prop :=
  match x with
  | Wants (CRead m) =>
      Forall (fun q => Forall lab_ok (asked_labels q) /\ unmixed_among ch sets (asked_labels q)) (rq_queries m)
  | _ => True
  end.
(* queries with an answer, and points in time order, later than those there are *)
Definition wants_ok (ch : nat -> choices) (cf : config) (old : list part) (ops : list dop) (l : list want) : Prop :=
  Forall (want_ok ch (all_sets old (written ops ++ all_points l))) l /\
  Forall ireq_ok (all_points l) /\ Z.of_nat (length (written ops) + length (all_points l)) < 2 ^ 64 - 1 /\
  (timely (written ops ++ all_points l) \/ cf_st cf = TiKvDry).
