(* Specification vocabulary for points written out of time order. *)
From Verif Require Import WireSpec.
From Verif Require Import Rust Prog Gorilla GorillaSpec Storage StorageSpec Search Labels IndexSpec Indexer Chunk ChunkSpec Db DbSpec Proto ProtoSpec
  Server ServerSpec.

(* the standard library's searches *)
Definition std_search (bs : bsearch) : Prop := bs = halving_search \/ bs = stopping_search.

(* a is b with some elements left out *)
Inductive sublist {T} : list T -> list T -> Prop :=
| sub_nil : sublist [] []
| sub_skip x a b : sublist a b -> sublist a (x :: b)
| sub_take x a b : sublist a b -> sublist (x :: a) (x :: b).
(* x is a stretch of l *)
Definition stretch {T} (x l : list T) : Prop := exists a b, l = a ++ x ++ b.

(* the points written under a label set, in order of writing *)
Definition written_under (m : list label) (h : list ireq) : list tp :=
  map snd (filter (fun r => same_setb (fst r) m) h).

(* the range meets the span from the first to the last point written *)
Definition spans (s e : Z) (pts : list tp) : Prop :=
  match pts with
  | [] => False
  | f :: _ => tp_ts f <= e /\ s <= tp_ts (last pts f)
  end.
(* does the chunk answer?  Its window overlaps the range and so does the span of every matching series *)
Definition answers_any (c : part) (q : list label) (s e : Z) : Prop :=
  (c_start (fst c) <= e /\ s <= c_end (fst c)) /\
  forall ls pts, In (ls, pts) (snd c) -> matches (snd c) q ls = true -> spans s e pts.
(* x is what the chunk may contribute for the label set m: a stretch of the series; all its points
   of the range and no others if they were written in time order *)
Definition part_of (c : part) (q : list label) (s e : Z) (m : list label) (x : list tp) : Prop :=
  (x <> [] -> answers_any c q s e /\
     exists ls pts, In (ls, pts) (snd c) /\ sort_labels ls = m /\ matches (snd c) q ls = true /\ stretch x pts) /\
  (answers_any c q s e -> forall ls pts, In (ls, pts) (snd c) -> sort_labels ls = m -> matches (snd c) q ls = true ->
     increasing pts -> x = within s e pts).

(* r is an answer: each label set once, with what the chunks contribute, oldest chunk first *)
Definition answer_any (l : list part) (q : list label) (s e : Z) (r : list (list label * list tp)) : Prop :=
  NoDup (map fst r) /\
  forall m, exists xs, Forall2 (fun c x => part_of c q s e m x) l xs /\
    forall pts, In (m, pts) r <-> pts <> [] /\ pts = concat xs.

(* no lookup compares two label sets of the database of which one is a proper prefix of the other *)
Definition apart_in (hs : hasher) (l : list part) : Prop :=
  tells_apart hs (fun m => exists c ls pts, In c l /\ In (ls, pts) (snd c) /\ m = sort_labels ls).

(* rs answers the queries of a read request *)
Definition query_any (ch : choices) (l : list part) (q : pquery) : Prop :=
  Forall lab_ok (asked_labels q) /\ asked_from q <= asked_to q /\ forall n, apart_in (fst (ch n)) l.
Definition results_any (l : list part) (qs : list pquery) (rs : list query_result) : Prop :=
  Forall2 (fun q r => exists a, answer_any l (asked_labels q) (asked_from q) (asked_to q) a /\
                                qr_series r = map sent_series a /\ qr_unk r = []) qs rs.

(* a session of the server (ServerSpec.v) with such answers *)
Definition client_any (ch : nat -> choices) (z : snappy) (l : list part) (c : client) : Prop :=
  match c with
  | CRead m => (forall k, Forall (query_any (ch k) l) (rq_queries m)) /\
      forall rs, results_any l (rq_queries m) rs -> compress z (read_response_write (mkReadResp rs [])) <> None
  | _ => True
  end.
Fixpoint session_any (ch : nat -> choices) (cf : config) (t0 : Z) (z : snappy) (ops : list dop) (l : list client) : Prop :=
  match l with
  | [] => True
  | c :: l' => client_any ch z (parts cf t0 ops) c /\ session_any ch cf t0 z (received cf t0 ops c) l'
  end.
Definition answered_any (cf : config) (t0 : Z) (z : snappy) (ops : list dop) (c : client) (rs : response) : Prop :=
  match c with
  | CRead m =>
      (nothing_asked m /\ rs = empty_response 500) \/
      (~ nothing_asked m /\ rs_status rs = 200 /\
       exists l, compress z (read_response_write (mkReadResp l [])) = Some (rs_body rs) /\
                 results_any (parts cf t0 ops) (rq_queries m) l)
  | _ => answered cf t0 z ops c rs
  end.
Fixpoint session_answered_any (cf : config) (t0 : Z) (z : snappy) (ops : list dop) (l : list client) (rss : list response) : Prop :=
  match l, rss with
  | [], [] => True
  | c :: l', rs :: rss' => answered_any cf t0 z ops c rs /\ session_answered_any cf t0 z (received cf t0 ops c) l' rss'
  | _, _ => False
  end.
