(* Specification vocabulary for queries running while the current chunk is swapped. *)
From Verif Require Import Rust Prog Gorilla Storage StorageSpec Labels IndexSpec Indexer Chunk ChunkSpec TiKvInit Db DbSpec.

(* a query: labels and range, and the environment it happens to run in (hash map, binary search,
   timing of the intersection threads) *)
Record ask := mkAsk { k_hs : hasher; k_bs : bsearch; k_timing : timing; k_labels : list label; k_from : Z; k_to : Z }.
(* what a thread returns *)
Inductive danswer := Swapped (r : res unit) | Asked (r : res (list (list label * list tp))).
Definition swapping (cf : config) (start : Z) : prog dcmd danswer :=
  let! r := db_swap cf start in Ret (Swapped r).
Definition asking (a : ask) : prog dcmd danswer :=
  let! r := db_query (k_hs a) (k_bs a) (k_timing a) (k_labels a) (k_from a) (k_to a) in Ret (Asked r).

(* a query on the database with these contents that C30 and C31 speak about *)
Definition ask_ok (l : list part) (a : ask) : Prop :=
  hasher_ok (k_hs a) /\ bs_contract (k_bs a) /\ Forall lab_ok (k_labels a) /\ k_from a <= k_to a /\
  unmixed (k_hs a) l (k_labels a) (k_from a) (k_to a).

(* the last chunk twice *)
Definition twice_last (l : list part) : list part :=
  match rev l with [] => [] | c :: _ => l ++ [c] end.

Definition finished {A} (p : prog dcmd A) : Prop := exists a, p = Ret a.

(* the answer r has point p for label set m *)
Definition has_point (r : list (list label * list tp)) (m : list label) (p : tp) : Prop :=
  exists pts, In (m, pts) r /\ In p pts.
