(* Specification vocabulary for a process that ends at work on a request. *)
From Verif Require Import WireSpec.
From Verif Require Import Rust Prog Gorilla GorillaSpec Storage StorageSpec Labels IndexSpec Indexer Chunk ChunkSpec Utils DirSpec TiKvInit Db DbSpec
  Proto ProtoSpec Server ServerSpec TornSpec TornManySpec.

(* y is a process that did ops, then wrote the first of the series S, and ended at work on one more; or
   there was no series *)
Definition within (y : cut_life) (cf : config) (ops : list dop) (S : list pseries) : Prop :=
  S = [] /\ y = mkCut cf ops None \/
  exists l1 x l2 n, S = l1 ++ x :: l2 /\ y = mkCut cf (ops ++ batches l1) (Some (batch_of x, n)).
