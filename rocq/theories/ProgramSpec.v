(* Specification vocabulary for the program as a whole (C66). *)
From Coq Require Import String.
From Verif Require Import Rust Prog Storage Chunk Db Opts Program.

(* the chunks that begin one after each of the first k readings of the tick thread *)
Definition starts_after (clock : nat -> Z) (k : nat) : list Z := map (fun i => clock i + 1) (seq 0 k).
(* the first N readings: not before the database was opened, each later than the one before it, and such that a chunk
   that begins after it ends before the end of time *)
Definition ticking (size t0 : Z) (clock : nat -> Z) (N : nat) : Prop :=
  (forall i, (i < N)%nat -> t0 <= clock i /\ clock i + 1 + size < 2 ^ 64) /\ (forall i, (S i < N)%nat -> clock i < clock (S i)).
(* sleeping takes at least as long as it is meant to *)
Definition paced (size t0 : Z) (clock : nat -> Z) : Prop := t0 + size <= clock 0%nat /\ forall i, clock i + size <= clock (S i).
(* the backend a component runs on *)
Definition runs_on (name : bytes) (b : backend) : Prop := (name = s2b "sled" /\ b = Sled) \/ (name = s2b "tikv" /\ b = TiKvDry).
