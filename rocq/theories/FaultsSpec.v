(* Specification vocabulary for a database whose file operations may fail while it runs. *)
From Coq Require Import Permutation.
From Verif Require Import Rust Prog Gorilla GorillaSpec Storage StorageSpec Labels IndexSpec Indexer Chunk ChunkSpec
  Utils DirSpec TiKvInit Db DbSpec.

(* as [env_ok], but any file operation may fail *)
Definition env_weak (f : fworld) : Prop :=
  (forall l, Permutation (f_order f l) l) /\ (forall n, length (f_uuid f n) = 16%nat) /\ (forall n, u64 (f_clock f n)).

(* a history without the swaps that did not succeed *)
Fixpoint performed (ops : list dop) (rs : list (res unit)) : list dop :=
  match ops, rs with
  | OpSwap st :: ops', Ok _ :: rs' => OpSwap st :: performed ops' rs'
  | OpSwap _ :: ops', _ :: rs' => performed ops' rs'
  | o :: ops', _ :: rs' => o :: performed ops' rs'
  | _, _ => []
  end.

(* the results: those of a database that never saw the failed swaps; a failed swap reports an error *)
Fixpoint reported (cf : config) (start : Z) (ops : list dop) (rs : list (res unit)) : Prop :=
  match ops, rs with
  | [], [] => True
  | OpSwap st :: ops', Ok _ :: rs' => reported cf st ops' rs'
  | OpSwap _ :: ops', Err _ :: rs' => reported cf start ops' rs'
  | OpSwap _ :: _, _ => False
  | o :: ops', r :: rs' => r = outcome (the_chunk cf start) o /\ reported cf start ops' rs'
  | _, _ => False
  end.
