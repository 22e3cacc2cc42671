(* Specification vocabulary for queries over any two instants, in order or not. *)
From Verif Require Import WireSpec.
From Verif Require Import Rust Prog Gorilla GorillaSpec Storage StorageSpec Labels IndexSpec Indexer Chunk ChunkSpec Db DbSpec RangeSpec Proto ProtoSpec
  Server ServerSpec.

(* a query of a request; its range may be in any order *)
Definition query_sane (ch : choices) (l : list part) (q : pquery) : Prop :=
  Forall lab_ok (asked_labels q) /\
  forall n, unmixed (fst (ch n)) l (asked_labels q) (asked_from q) (asked_to q).

(* a request: one of a client (ServerSpec.v), one for another path, or one without a body that can be decompressed *)
Inductive event := Asked (c : client) | Elsewhere | Unreadable.
Definition brings (sv : server) (z : snappy) (rq : request) (v : event) : Prop :=
  match v with
  | Asked c => carries sv z rq c
  | Elsewhere => (exists content body, rq_content rq = Some content /\ decompress z content = Some body) /\
      rq_url rq <> sv_read_path sv /\ rq_url rq <> sv_write_path sv
  | Unreadable => rq_content rq = None \/ exists content, rq_content rq = Some content /\ decompress z content = None
  end.
Definition taken (cf : config) (t0 : Z) (ops : list dop) (v : event) : list dop :=
  match v with Asked c => received cf t0 ops c | _ => ops end.
Fixpoint after_events (cf : config) (t0 : Z) (ops : list dop) (l : list event) : list dop :=
  match l with
  | [] => ops
  | v :: l' => after_events cf t0 (taken cf t0 ops v) l'
  end.
(* as client_ok, whatever the ranges *)
Definition event_sane (ch : nat -> choices) (z : snappy) (l : list part) (v : event) : Prop :=
  match v with
  | Asked (CRead m) => (forall k, Forall (query_sane (ch k) l) (rq_queries m)) /\
      forall rs, results_for l (rq_queries m) rs -> compress z (read_response_write (mkReadResp rs [])) <> None
  | _ => True
  end.
Fixpoint events_sane (ch : nat -> choices) (cf : config) (t0 : Z) (z : snappy) (ops : list dop) (l : list event) : Prop :=
  match l with
  | [] => True
  | v :: l' => event_sane ch z (parts cf t0 ops) v /\ events_sane ch cf t0 z (taken cf t0 ops v) l'
  end.
(* the request ends the serving *)
Definition fatal (cf : config) (t0 : Z) (ops : list dop) (v : event) : Prop :=
  match v with
  | Asked (CRead m) => exists q p, In q (rq_queries m) /\ In p (parts cf t0 ops) /\ crashes p (asked_labels q) (asked_from q) (asked_to q)
  | Asked _ | Elsewhere => False
  | Unreadable => True
  end.
Definition event_answered (cf : config) (t0 : Z) (z : snappy) (ops : list dop) (v : event) (rs : response) : Prop :=
  match v with
  | Asked c => answered cf t0 z ops c rs
  | _ => rs = empty_response 404
  end.
(* the requests before the first fatal one are answered, with rss; it is not and none after it is.  ops' is the history
   of the database then. *)
Fixpoint session_runs (cf : config) (t0 : Z) (z : snappy) (ops : list dop) (l : list event) (rss : list response) (r : res unit) (ops' : list dop) : Prop :=
  match l with
  | [] => rss = [] /\ r = Ok tt /\ ops' = ops
  | v :: l' =>
      (fatal cf t0 ops v /\ rss = [] /\ r = Panic /\ ops' = ops) \/
      (~ fatal cf t0 ops v /\ exists rs rss', rss = rs :: rss' /\ event_answered cf t0 z ops v rs /\
         session_runs cf t0 z (taken cf t0 ops v) l' rss' r ops')
  end.
