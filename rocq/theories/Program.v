(* The program as a whole: from the command line to the three threads that are then at work. *)
From Verif Require Import Rust Prog Gorilla Storage Labels Indexer Chunk TiKvInit Db WritersSpec Proto Server ServingSpec Opts.

(* src/bin/monolith-server.rs:120-145 match: the types S and I of the database, for the backends of this model: sled, and
   TiKV run dry (src/backend/tikv.rs:57-66); a database over a real TiKV is in TiKvDb.v *)
Definition backend_of (k : kind) : option backend :=
  match k with KSled => Some Sled | KTiKv true => Some TiKvDry | KTiKv false => None end.
(* src/bin/monolith-server.rs:104-115 start_server: the options as MonolithDb::new (src/db.rs:37-47) and
   MonolithServer::new (src/server.rs:37-45) use them; [dbg]: overflow checks *)
Definition launch (dbg : bool) (file : bytes -> option bool) (a : args) : option (config * server) :=
  match startup file a with
  | Starts st ix o so =>
      match backend_of st, backend_of ix with
      | Some s, Some i => Some (mkConfig dbg (o_base_dir o) s i (chunk_millis o), mkServer (so_read_path so) (so_write_path so))
      | _, _ => None
      end
  | _ => None
  end.

(* the commands of the threads: those of the database; to sleep for the chunk size, read the clock and send the
   reading; to receive one *)
Inductive pcmd : Type -> Type :=
| PDb {X} (c : dcmd X) : pcmd X
| PTick : pcmd unit
| PRecv : pcmd Z.
(* the database, how many readings were sent, and those not yet received (std::sync::mpsc::channel: in order, none
   lost, without a bound) *)
Record pworld := mkPw { pw_db : dworld; pw_sent : nat; pw_chan : list Z }.
(* [clock k]: the reading number k of the tick thread.  Receiving waits while there is nothing to receive. *)
Definition phandler (clock : nat -> Z) : handler pcmd pworld := fun X c =>
  match c in pcmd X return pworld -> option (X * pworld) with
  | PDb c => fun w => match dhandler _ c (pw_db w) with Some (x, d) => Some (x, mkPw d (pw_sent w) (pw_chan w)) | None => None end
  | PTick => fun w => Some (tt, mkPw (pw_db w) (S (pw_sent w)) (pw_chan w ++ [clock (pw_sent w)]))
  | PRecv => fun w => match pw_chan w with [] => None | t :: l => Some (t, mkPw (pw_db w) (pw_sent w) l) end
  end.

(* what a thread ends with; the tick and swap threads are endless loops, of which some number of rounds is looked at *)
Inductive pworker := Ticked | Works (x : worker).
(* src/db.rs:93-96 *)
Fixpoint ticker (rounds : nat) : prog pcmd pworker :=
  match rounds with
  | O => Ret Ticked
  | S k => let! _ := call PTick in ticker k
  end.
(* src/db.rs:97-101; what swap returns is dropped, a panic ends the thread *)
Fixpoint swapper (cf : config) (rounds : nat) : prog pcmd (list (res unit)) :=
  match rounds with
  | O => Ret []
  | S k =>
      let! now := call PRecv in
      let! r := lift (@PDb) (db_tick cf now) in
      match r with
      | Panic => Ret [Panic]
      | _ => let! rs := swapper cf k in Ret (r :: rs)
      end
  end.
(* src/db.rs:93-101, src/bin/monolith-server.rs:111-112, src/server.rs:48-63 *)
Definition running (cf : config) (n m : nat) (sv : server) (z : snappy) (bs : bsearch) (ch : nat -> choices) (rqs : list request)
  : list (prog pcmd pworker) :=
  [ticker n; let! rs := swapper cf m in Ret (Works (Swaps (Rotated rs))); let! x := lift (@PDb) (serve sv z bs ch 0 rqs) in Ret (Works (Served x))].
