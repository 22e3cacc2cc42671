(* Model of the options: src/common/option.rs, and of the start of src/bin/monolith-server.rs. *)
From Coq Require Import String.
From Verif Require Import Rust.
Local Notation length := List.length.

(* ------------------------------------------------------------------ *)
(** * Numbers *)

Fixpoint parse_neg_digits (r min acc : Z) (s : bytes) : option Z :=
  match s with
  | [] => Some acc
  | c :: s' =>
      match char_digit r c with
      | None => None
      | Some d =>
          let v := acc * r - d in
          if min <=? v then parse_neg_digits r min v s' else None
      end
  end.
(* iN::from_str_radix (core/num/mod.rs): as parse_u, but a leading '-' is taken *)
Definition parse_i (n r : Z) (s : bytes) : option Z :=
  match s with
  | [] => None
  | c :: s' =>
      if c =? 43 then match s' with [] => None | _ => parse_digits r (2 ^ (n - 1) - 1) 0 s' end
      else if c =? 45 then match s' with [] => None | _ => parse_neg_digits r (- 2 ^ (n - 1)) 0 s' end
      else parse_digits r (2 ^ (n - 1) - 1) 0 s
  end.

(* ------------------------------------------------------------------ *)
(** * Options *)

(* the values of the command line options, after defaults (clap; src/bin/monolith-server.rs:27-63).
   Options without UTF-8 are left out. *)
Record args := mkArgs {
  a_storage : bytes; a_indexer : bytes; a_dir : bytes; a_chunk_size : bytes; a_port : bytes;
  a_write_path : bytes; a_read_path : bytes; a_workers : bytes; a_tikv : option bytes }.

(* src/lib.rs:42-52: the defaults; [pwd]: the directory at build time *)
Definition default_args (pwd : bytes) : args :=
  mkArgs (s2b "sled") (s2b "sled") pwd (s2b "12000") (s2b "9001") (s2b "/write") (s2b "/read") (s2b "8") None.

(* src/common/option.rs:14-21; chunk_size in seconds *)
Record db_opts := mkDbOpts {
  o_storage : bytes; o_indexer : bytes; o_base_dir : bytes; o_chunk_secs : Z; o_tikv : option bytes }.
(* src/common/option.rs:23-37 DbOpts::get_config *)
Definition db_opts_of (a : args) : res db_opts :=
  match parse_u 64 10 (a_chunk_size a) with
  | None => Err ParseErr
  | Some secs => Ok (mkDbOpts (a_storage a) (a_indexer a) (a_dir a) secs (a_tikv a))
  end.
(* src/common/option.rs:39-49 Default *)
Definition default_db_opts (cwd : bytes) : db_opts := mkDbOpts (s2b "sled") (s2b "sled") cwd 12000 None.

(* src/common/option.rs:51-56 *)
Record server_opts := mkServerOpts { so_port : Z; so_write_path : bytes; so_read_path : bytes; so_workers : Z }.
(* src/common/option.rs:58-72 ServerOpts::get_config; usize has 64 bits *)
Definition server_opts_of (a : args) : res server_opts :=
  match parse_u 64 10 (a_workers a) with
  | None => Err ParseErr
  | Some workers =>
      match parse_i 32 10 (a_port a) with
      | None => Err ParseErr
      | Some port =>
          if (65535 <? port) || (port <? 1024) then Err OptionErr
          else Ok (mkServerOpts port (a_write_path a) (a_read_path a) workers)
      end
  end.
(* src/common/option.rs:89-98 Default; src/lib.rs:44-47 *)
Definition default_server_opts : server_opts := mkServerOpts 9001 (s2b "/write") (s2b "/read") 8.

(* ------------------------------------------------------------------ *)
(** * Starting *)

(* the backend of a component: sled, or TiKV, dry (in memory) or not *)
Inductive kind := KSled | KTiKv (dry : bool).

(* how main goes on: exit(1), a panic, or MonolithDb::new and then the server *)
Inductive started :=
| Exits (code : Z)
| Panics
| Starts (storage indexer : kind) (o : db_opts) (so : server_opts).

(* src/bin/monolith-server.rs:20-146 main.  [file path]: reading and parsing the TiKV
   configuration file (src/backend/tikv.rs:79-90, 119-124): None is an error, else its dry_run.
   The shared handle: src/bin/monolith-server.rs:70-91. *)
Definition startup (file : bytes -> option bool) (a : args) : started :=
  match db_opts_of a with
  | Ok o =>
      match server_opts_of a with
      | Ok so =>
          let wants_tikv := bytes_eqb (o_indexer o) (s2b "tikv") || bytes_eqb (o_storage o) (s2b "tikv") in
          let go (dry : bool) :=
            let kind_of name := if bytes_eqb name (s2b "tikv") then Some (KTiKv dry)
                                else if bytes_eqb name (s2b "sled") then Some KSled else None in
            match kind_of (o_storage o) with
            | None => Exits 1
            | Some st => match kind_of (o_indexer o) with
                         | None => Exits 1
                         | Some ix => Starts st ix o so
                         end
            end in
          match o_tikv o with
          | Some path => if wants_tikv
                         then match file path with None => Panics | Some dry => go dry end
                         else go true
          | None => go true
          end
      | _ => Panics
      end
  | _ => Panics
  end.

(* src/db.rs:57, 62, 273: Duration::as_millis() as u64 *)
Definition chunk_millis (o : db_opts) : Z := wrapu 64 (o_chunk_secs o * 1000).
