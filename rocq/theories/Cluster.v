(* Model of several monolith processes, each with a directory of its own, that use one TiKV: src/backend/tikv.rs:94-103
   get_instance with dry_run false connects every one of them to the same store.  Both types are the TiKV ones. *)
From Verif Require Import Rust Prog Gorilla Storage Labels Indexer Chunk TiKvInit TiKvShared Db TiKvDb.

(* for each directory the configuration of the process that has it open, if any, and that process; and the store *)
Record cluster := mkCl { cl_dbs : list (option config * dworld); cl_kv : kv }.
(* a command of the process on directory i *)
Inductive clcmd : Type -> Type :=
| CL {X} (i : nat) (c : tcmd X) : clcmd X.
(* it works on its own files and memory and on the store (TiKvDb.v) *)
Definition clhandler : handler clcmd cluster :=
  fun X c C =>
    match c in clcmd X return option (X * cluster) with
    | CL i c =>
        match nth_error (cl_dbs C) i with
        | None => None
        | Some (cf, db) =>
            match thandler _ c (mkT db (cl_kv C)) with
            | None => None
            | Some (x, t) => Some (x, mkCl (upd (cl_dbs C) i (cf, t_db t)) (t_kv t))
            end
        end
    end.
(* a program of the process on directory i *)
Definition at_dir {A} (i : nat) (p : prog tcmd A) : prog clcmd A := lift (fun X c => @CL X i c) p.
