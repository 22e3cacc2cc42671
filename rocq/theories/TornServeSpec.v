(* Specification vocabulary for a request cut short by the end of the process. *)
From Verif Require Import WireSpec.
From Verif Require Import Rust Prog Gorilla GorillaSpec Storage StorageSpec Labels IndexSpec Indexer Chunk ChunkSpec Utils DirSpec TiKvInit Db DbSpec
  Proto ProtoSpec Server ServerSpec TornSpec.

(* what may have been done of some series: the first ones, and of one more the first points *)
Definition some_of (part whole : list pseries) : Prop := whole = [] /\ part = [] \/ first_part part whole.
(* the window current after ops has all these series *)
Definition has_all (cf : config) (start : Z) (ops : list dop) (l : list pseries) : Prop :=
  forall x, In x l -> has_series cf start ops (stored_labels x).
(* what may have been done of the first of the requests that are left, when those before it led to ops *)
Definition cut_in (cf : config) (start : Z) (ops : list dop) (left : list client) (part : list pseries) : Prop :=
  match left with
  | CWrite m :: _ => some_of part (applied (current_window cf start ops) (wq_series m))
  | _ => part = []
  end.
(* the series of the first of the requests that are left *)
Definition next_series (cf : config) (start : Z) (ops : list dop) (left : list client) : list pseries :=
  match left with
  | CWrite m :: _ => applied (current_window cf start ops) (wq_series m)
  | _ => []
  end.
(* after n commands rss had been sent in answer to the requests rqs1, and no more: the next request,
   if any, was being worked on *)
Definition answered_by (n : nat) (sv : server) (z : snappy) (bs : bsearch) (ch : nat -> choices) (k : nat) (rqs1 rqs2 : list request) (rss : list response) (w : dworld) : Prop :=
  (exists w1, crash_at dhandler n (serve sv z bs ch k rqs1) w = (Ret (rss, Ok tt), w1)) /\
  forall rq rqs3, rqs2 = rq :: rqs3 -> forall a, fst (crash_at dhandler n (serve sv z bs ch k (rqs1 ++ [rq])) w) <> Ret a.
