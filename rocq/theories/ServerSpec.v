(* Specification vocabulary for the server: what requests mean for the database, and what is
   answered. *)
From Verif Require Import WireSpec.
From Verif Require Import Rust Prog Gorilla GorillaSpec Storage StorageSpec Labels IndexSpec Indexer Chunk ChunkSpec
  Utils DirSpec TiKvInit Db DbSpec Proto ProtoSpec Server.

(* ------------------------------------------------------------------ *)
(** * Labels, points and series on the wire *)

(* a timestamp on the wire is an i64, in the database a u64: modulo 2^64 *)
Definition stored_point (x : sample) : tp := mkTp (sm_ts x mod 2 ^ 64) (sm_value x).
Definition stored_labels (s : pseries) : list label := map (fun l => mkLabel (pl_name l) (pl_value l)) (ps_labels s).
(* what writing a series should do *)
Definition batch_of (s : pseries) : dop := OpBatch (stored_labels s) (map stored_point (ps_samples s)).

(* the wire form of an answer *)
Definition sent_point (p : tp) : sample :=
  mkSample (tp_val p) (if tp_ts p <? 2 ^ 63 then tp_ts p else tp_ts p - 2 ^ 64) [].
Definition sent_series (x : list label * list tp) : pseries :=
  mkPSeries (map (fun l => mkPLabel (l_key l) (l_val l) []) (fst x)) (map sent_point (snd x)) [].

(* ------------------------------------------------------------------ *)
(** * Read requests *)

(* the query of the database that a query of a request asks for: its matchers are taken as equalities *)
Definition asked_labels (q : pquery) : list label := map (fun m => mkLabel (mt_name m) (mt_value m)) (pq_matchers q).
Definition asked_from (q : pquery) : Z := pq_start q mod 2 ^ 64.
Definition asked_to (q : pquery) : Z := pq_end q mod 2 ^ 64.
(* queries with an answer, see C31 *)
Definition query_ok (ch : choices) (l : list part) (q : pquery) : Prop :=
  Forall lab_ok (asked_labels q) /\ asked_from q <= asked_to q /\
  forall n, unmixed (fst (ch n)) l (asked_labels q) (asked_from q) (asked_to q).
(* rs answers qs: one result per query, in order *)
Definition results_for (l : list part) (qs : list pquery) (rs : list query_result) : Prop :=
  Forall2 (fun q r => exists a, db_answer l (asked_labels q) (asked_from q) (asked_to q) a /\
                                qr_series r = map sent_series a /\ qr_unk r = []) qs rs.

(* the same request but for the types of the matchers *)
Definition same_but_types (a b : read_request) : Prop :=
  Forall2 (fun p q => pq_start p = pq_start q /\ pq_end p = pq_end q /\
                      Forall2 (fun m n => mt_name m = mt_name n /\ mt_value m = mt_value n) (pq_matchers p) (pq_matchers q))
          (rq_queries a) (rq_queries b).

(* ------------------------------------------------------------------ *)
(** * Write requests *)

(* a series has a point on an end of the window: its batch fails *)
Definition fails (ch : chunk) (s : pseries) : bool := existsb (on_edge ch) (map stored_point (ps_samples s)).
(* the series applied: those up to and including the first that fails *)
Fixpoint applied (ch : chunk) (l : list pseries) : list pseries :=
  match l with
  | [] => []
  | s :: l' => if fails ch s then [s] else s :: applied ch l'
  end.
Definition batches (l : list pseries) : list dop := map batch_of l.

(* ------------------------------------------------------------------ *)
(** * Sessions: what clients send, one request after the other *)

(* a write, a read, or a read request that is no message *)
Inductive client := CWrite (m : write_request) | CRead (m : read_request) | CGarbled.
(* the history of the database after a session *)
Definition received (cf : config) (t0 : Z) (ops : list dop) (c : client) : list dop :=
  match c with
  | CWrite m => ops ++ batches (applied (current_window cf t0 ops) (wq_series m))
  | _ => ops
  end.
Fixpoint after_session (cf : config) (t0 : Z) (ops : list dop) (l : list client) : list dop :=
  match l with
  | [] => ops
  | c :: l' => after_session cf t0 (received cf t0 ops c) l'
  end.
(* queries with an answer that can be compressed *)
Definition client_ok (ch : nat -> choices) (z : snappy) (l : list part) (c : client) : Prop :=
  match c with
  | CRead m => (forall k, Forall (query_ok (ch k) l) (rq_queries m)) /\
      forall rs, results_for l (rq_queries m) rs -> compress z (read_response_write (mkReadResp rs [])) <> None
  | _ => True
  end.
Fixpoint session_ok (ch : nat -> choices) (cf : config) (t0 : Z) (z : snappy) (ops : list dop) (l : list client) : Prop :=
  match l with
  | [] => True
  | c :: l' => client_ok ch z (parts cf t0 ops) c /\ session_ok ch cf t0 z (received cf t0 ops c) l'
  end.
(* rq is an HTTP request for c: its body is an encoding, by whatever client, of the message (WireSpec.v).  A body for
   the write path need not be one to the end: what was taken from it before it went wrong is written. *)
Definition carries (sv : server) (z : snappy) (rq : request) (c : client) : Prop :=
  exists content body, rq_content rq = Some content /\ decompress z content = Some body /\
  Forall is_byte body /\ Z.of_nat (length body) < 2 ^ 64 /\
  match c with
  | CWrite m => rq_url rq = sv_write_path sv /\ rq_url rq <> sv_read_path sv /\
      exists fs, (body_in write_request_desc body fs \/ stops_in write_request_desc body fs) /\ m = write_request_of fs
  | CRead m => rq_url rq = sv_read_path sv /\ exists fs, body_in read_request_desc body fs /\ m = read_request_of fs
  | CGarbled => rq_url rq = sv_read_path sv /\ ~ exists fs, body_in read_request_desc body fs
  end.
(* rs answers c *)
Definition nothing_asked (m : read_request) : Prop := rq_queries m = [] /\ rq_types m = [] /\ rq_unk m = [].
Definition answered (cf : config) (t0 : Z) (z : snappy) (ops : list dop) (c : client) (rs : response) : Prop :=
  match c with
  | CWrite m =>
      rs = empty_response (if existsb (fails (current_window cf t0 ops)) (wq_series m) then 500 else 200)
  | CRead m =>
      (nothing_asked m /\ rs = empty_response 500) \/
      (~ nothing_asked m /\ rs_status rs = 200 /\
       exists l, compress z (read_response_write (mkReadResp l [])) = Some (rs_body rs) /\
                 results_for (parts cf t0 ops) (rq_queries m) l)
  | CGarbled => rs = empty_response 500
  end.
Fixpoint session_answered (cf : config) (t0 : Z) (z : snappy) (ops : list dop) (l : list client) (rss : list response) : Prop :=
  match l, rss with
  | [], [] => True
  | c :: l', rs :: rss' => answered cf t0 z ops c rs /\ session_answered cf t0 z (received cf t0 ops c) l' rss'
  | _, _ => False
  end.

(* ------------------------------------------------------------------ *)
(** * Parts of a write request *)

(* all of the first series, and of one more series the first points, if any *)
Definition first_part (part whole : list pseries) : Prop :=
  exists l1 x l2 k, whole = l1 ++ x :: l2 /\ part = l1 ++ [mkPSeries (ps_labels x) (firstn k (ps_samples x)) (ps_unk x)].
