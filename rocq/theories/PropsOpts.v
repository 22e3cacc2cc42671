(* Properties of the options and of starting the server: C50, C56. *)
From Coq Require Import ZifyBool ZifyNat String.
From Verif Require Import Rust StringProofs Opts OptsSpec OptsProofs.
Local Notation length := List.length.

(** * C50: server options accept exactly the unprivileged ports *)

(* accepted iff the worker number is an unsigned numeral below 2^64 and the port a numeral,
   possibly signed, of 1024..65535; and the accepted options are those given *)
Theorem C50_accepted_iff : forall a so,
  server_opts_of a = Ok so <->
  unsigned (a_workers a) (so_workers so) /\ so_workers so < 2 ^ 64 /\
  signed (a_port a) (so_port so) /\ 1024 <= so_port so <= 65535 /\
  so_write_path so = a_write_path a /\ so_read_path so = a_read_path a.
Proof. exact server_opts_iff. Qed.
Print Assumptions C50_accepted_iff.
Example C50_accepted_ex : exists so,
  server_opts_of (mkArgs (s2b "sled") (s2b "tikv") (s2b "/tmp") (s2b "1") (s2b "+1024") (s2b "/w") (s2b "/r") (s2b "007") None) = Ok so /\
  so_port so = 1024 /\ so_workers so = 7.
Proof. eexists. split; [vm_compute; reflexivity|]. split; reflexivity. Qed.

(* nothing panics; a refusal is OptionErr iff the numbers are fine but the port is out of range *)
Theorem C50_refusals : forall a,
  (exists so, server_opts_of a = Ok so) \/
  (server_opts_of a = Err OptionErr /\
     (exists w, unsigned (a_workers a) w /\ w < 2 ^ 64) /\
     exists p, signed (a_port a) p /\ - 2 ^ 31 <= p < 2 ^ 31 /\ ~ 1024 <= p <= 65535) \/
  (server_opts_of a = Err ParseErr /\
     ((forall w, unsigned (a_workers a) w -> 2 ^ 64 <= w) \/
      (forall p, signed (a_port a) p -> ~ - 2 ^ 31 <= p < 2 ^ 31))).
Proof. exact server_opts_refusals. Qed.
Print Assumptions C50_refusals.
Definition ex_args (port workers : string) : args :=
  mkArgs (s2b "sled") (s2b "tikv") (s2b "/tmp") (s2b "1") (s2b port) (s2b "/w") (s2b "/r") (s2b workers) None.
Example C50_refusals_ex :
  server_opts_of (ex_args "1023" "8") = Err OptionErr /\ server_opts_of (ex_args "65536" "8") = Err OptionErr /\
  server_opts_of (ex_args "-9001" "8") = Err OptionErr /\ server_opts_of (ex_args "2147483648" "8") = Err ParseErr /\
  server_opts_of (ex_args "9001" "-8") = Err ParseErr /\ server_opts_of (ex_args "9001" "18446744073709551616") = Err ParseErr /\
  server_opts_of (ex_args "9001" "+") = Err ParseErr /\ server_opts_of (ex_args " 9001" "8") = Err ParseErr.
Proof. repeat split; vm_compute; reflexivity. Qed.
(* the database options: a refusal is ParseErr, and only for a chunk size that is not a number of 64 bits *)
Theorem C50_db_refusals : forall a,
  (exists o, db_opts_of a = Ok o) \/ (db_opts_of a = Err ParseErr /\ forall z, unsigned (a_chunk_size a) z -> 2 ^ 64 <= z).
Proof. exact db_opts_refusals. Qed.
Print Assumptions C50_db_refusals.
Example C50_db_refusals_ex : let a (size : string) := mkArgs (s2b "sled") (s2b "tikv") (s2b "/tmp") (s2b size) (s2b "9001") (s2b "/w") (s2b "/r") (s2b "8") None in
  (exists o, db_opts_of (a "12000"%string) = Ok o) /\ db_opts_of (a "12 000"%string) = Err ParseErr /\ db_opts_of (a "-1"%string) = Err ParseErr /\
  db_opts_of (a "18446744073709551616"%string) = Err ParseErr.
Proof. cbv zeta. split; [eexists; vm_compute; reflexivity|]. repeat split; vm_compute; reflexivity. Qed.
(* the defaults are accepted, and are the Default impls *)
Theorem C50_defaults : forall pwd,
  server_opts_of (default_args pwd) = Ok default_server_opts /\ db_opts_of (default_args pwd) = Ok (default_db_opts pwd).
Proof. intros pwd. split; vm_compute; reflexivity. Qed.
Print Assumptions C50_defaults.

(** * C56: starting the server *)

(* main reaches the database iff the options are accepted, both backends are known, and the TiKV
   configuration can be read when one is given and some component is on TiKV; without a
   configuration TiKV is the in-memory one *)
Theorem C56_starts_iff : forall file a st ix o so,
  startup file a = Starts st ix o so <->
  (unsigned (a_chunk_size a) (o_chunk_secs o) /\ o_chunk_secs o < 2 ^ 64 /\
   o_storage o = a_storage a /\ o_indexer o = a_indexer a /\ o_base_dir o = a_dir a /\ o_tikv o = a_tikv a) /\
  (unsigned (a_workers a) (so_workers so) /\ so_workers so < 2 ^ 64 /\
   signed (a_port a) (so_port so) /\ 1024 <= so_port so <= 65535 /\
   so_write_path so = a_write_path a /\ so_read_path so = a_read_path a) /\
  exists dry, kind_for (a_storage a) dry st /\ kind_for (a_indexer a) dry ix /\ (wants_tikv a -> dry_run file a dry).
Proof. intros file a st ix o so. rewrite startup_starts, db_opts_iff, server_opts_iff. reflexivity. Qed.
Print Assumptions C56_starts_iff.
Example C56_starts_ex : exists o so,
  startup (fun p => if bytes_eqb p (s2b "t.yaml") then Some false else None)
    (mkArgs (s2b "tikv") (s2b "sled") (s2b "/d") (s2b "600") (s2b "9001") (s2b "/w") (s2b "/r") (s2b "8") (Some (s2b "t.yaml")))
  = Starts (KTiKv false) KSled o so /\ o_chunk_secs o = 600.
Proof. eexists _, _. split; [vm_compute; reflexivity|reflexivity]. Qed.
Example C56_default_ex : forall file pwd,
  startup file (default_args pwd) = Starts KSled KSled (default_db_opts pwd) default_server_opts.
Proof. intros file pwd. vm_compute. reflexivity. Qed.

(* otherwise it exits with 1 (only for an unknown backend, all options being fine) or panics (only
   for refused options, or a TiKV configuration that is needed and cannot be read) *)
Theorem C56_exits : forall file a c,
  startup file a = Exits c ->
  c = 1 /\ (exists o so, db_opts_of a = Ok o /\ server_opts_of a = Ok so) /\
  ~ (backend_name (a_storage a) /\ backend_name (a_indexer a)).
Proof. exact startup_exits. Qed.
Print Assumptions C56_exits.
Example C56_exits_ex : startup (fun _ => None)
  (mkArgs (s2b "sled") (s2b "Sled") (s2b "/d") (s2b "600") (s2b "9001") (s2b "/w") (s2b "/r") (s2b "8") (Some (s2b "t.yaml"))) = Exits 1.
Proof. vm_compute. reflexivity. Qed.
Theorem C56_panics_iff : forall file a,
  startup file a = Panics <->
  (forall z, unsigned (a_chunk_size a) z -> 2 ^ 64 <= z) \/
  (forall so, server_opts_of a <> Ok so) \/
  (wants_tikv a /\ exists path, a_tikv a = Some path /\ file path = None).
Proof. exact startup_panics. Qed.
Print Assumptions C56_panics_iff.
Example C56_panics_ex : startup (fun _ => None)
  (mkArgs (s2b "nosuch") (s2b "tikv") (s2b "/d") (s2b "600") (s2b "9001") (s2b "/w") (s2b "/r") (s2b "8") (Some (s2b "t.yaml"))) = Panics.
Proof. vm_compute. reflexivity. Qed.

(* the chunk size in milliseconds that the database uses is the given number of seconds iff it
   fits 64 bits; larger sizes wrap *)
Theorem C56_chunk_size : forall a o, db_opts_of a = Ok o ->
  (chunk_millis o = o_chunk_secs o * 1000 <-> o_chunk_secs o * 1000 < 2 ^ 64).
Proof. intros a o H. apply chunk_millis_exact. apply db_opts_iff in H as [H _]. exact (unsigned_nonneg _ _ H). Qed.
Print Assumptions C56_chunk_size.
(* so a huge accepted chunk size can give a tiny chunk, even an empty one *)
Theorem C56_chunk_size_refuted : exists a o, db_opts_of a = Ok o /\ 2 ^ 60 < o_chunk_secs o /\ chunk_millis o = 0.
Proof.
  exists (mkArgs (s2b "sled") (s2b "sled") (s2b "/d") (s2b "2305843009213693952") (s2b "9001") (s2b "/w") (s2b "/r") (s2b "8") None).
  eexists. split; [vm_compute; reflexivity|]. split; vm_compute; reflexivity.
Qed.
Print Assumptions C56_chunk_size_refuted.
