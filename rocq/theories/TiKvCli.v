(* Model of src/bin/tikv-cli.rs, up to the requests it answers. *)
From Verif Require Import Rust Prog Gorilla Storage Labels Indexer Chunk TiKvInit Db DbSpec TiKvDb TiKvDbSpec Proto Server Opts.

(* src/bin/tikv-cli.rs:24-25, src/common/option.rs:39-49, 89-98: the options, as MonolithDb::new (src/db.rs:37-57) and
   MonolithServer::new (src/server.rs:37-45) use them; [dbg]: overflow checks, [cwd]: the current directory.  The types
   are those of line 27, whatever the options say. *)
Definition cli_config (dbg : bool) (cwd : bytes) : config :=
  mkConfig dbg (o_base_dir (default_db_opts cwd)) TiKvDry TiKvDry (chunk_millis (default_db_opts cwd)).
Definition cli_server : server := mkServer (so_read_path default_server_opts) (so_write_path default_server_opts).
(* src/bin/tikv-cli.rs:13-35 main, for a TiKV at 127.0.0.1:2379 that can be reached and has the content s: the responses,
   how serving ended, and the state then.  The tick and swap threads (src/db.rs:93-101) are left out: they do nothing
   until the chunk size has passed. *)
Definition tikv_cli (dbg : bool) (cwd : bytes) (f : fworld) (s : kv) (z : snappy) (bs : bsearch) (ch : nat -> choices) (rqs : list request)
  : option ((list response * res unit) * tworld) :=
  match t_open (cli_config dbg cwd) f s with
  | Some (Ok _, t) => trun (lift (@TD) (serve cli_server z bs ch 0 rqs)) t
  | Some (_, t) => Some (([], Panic), t)
  | None => None
  end.
