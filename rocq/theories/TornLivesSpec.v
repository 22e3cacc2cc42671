(* Specification vocabulary for a write cut short in a directory that earlier processes have worked on. *)
From Verif Require Import Rust Prog Gorilla GorillaSpec Storage StorageSpec Labels IndexSpec Chunk ChunkSpec Db DbSpec ReopenSpec.

(* Which reading of the clock starts the window of the process that comes after L.  As in life_parts,
   opening a directory with n chunks reads the clock n times, and then once for the start of its own
   chunk.  [tick]: the readings so far. *)
Fixpoint opening (clock : nat -> Z) (tick n : nat) (L : list life) : nat :=
  match L with
  | [] => (tick + n)%nat
  | x :: L' => opening clock (S (tick + n)) (n + length (parts (lf_cf x) (clock (tick + n)%nat) (lf_ops x))) L'
  end.
