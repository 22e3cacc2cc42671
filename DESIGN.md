# Formal model of TommyCpp/monolith in Rocq

The model lives in `rocq/theories`.  Properties are listed in `properties.jsonl`, and
`MANIFEST.json` maps each of them to the theorems that state it.

## 1. Modelling conventions

* Machine integers are `Z`, with the wrap-around or overflow panic of each operation written
  explicitly.  Rust's debug profile (overflow checks on, what CI runs) and release profile
  (wrap-around) are a boolean parameter `dbg` wherever they differ.
* Bytes and strings are `list Z`; `f64` values are their 64-bit patterns (`to_bits`).
* A Rust call returns `Ok`, `Err e` or `Panic`; `&mut self` methods return the new value.
* Code that touches shared or persistent state is a *program*: a tree of single atomic commands
  (one key-value get or set, one fetch-add, one lock acquire or release, one file-system call, one
  clock reading) with continuations.  One and the same program is interpreted three ways:
  sequentially (`run`), with a crash after any number of commands, and interleaved with other
  programs (small-step relation over a thread pool).
* External calls (clock, UUIDs, store faults, hasher, thread scheduling, binary search tie-breaking)
  are quantified parameters or oracles, never axioms.

## 2. Plan per property

| property | modelled code | method |
|---|---|---|
| C01-C03 | `compaction/mod.rs` Bstream | abstraction function to `list bool`; one lemma per operation, induction over operation lists; finite sweep over alignments; witnesses for the refutation |
| C04, C05, C08 | `compaction/gorilla.rs`, Compactor, Decompactor | encoder emits a bit list determined by a state machine; simulation relation between encoder state and decoder state; induction over the series; panics of a release build on arbitrary bytes (C08): a decoder invariant (cursor, window width modulo 256) under which every read succeeds, and its opposite, a wrapped length under which no read is ever short, so that the decoder runs on until it indexes past the end (GorillaSafe) |
| C06, C07 | Compactor/Decompactor | case analysis; witnesses |
| C09 | KvStorageProcessor | big-endian round trip |
| C10-C13 | sled and TiKV storage | refinement to a map id -> point list; induction over append histories; binary search contract |
| C14-C20 | sled and TiKV indexer, utils, ops | refinement to a list of registered label sets; injectivity of key encodings; well-founded induction for the parallel intersection, with the completion order an oracle |
| C21-C24, C26 | chunk | refinement to an abstract chunk |
| C25, C27, C28 | id generator, chunk | small-step interleaving semantics, invariants over all schedules; explicit interleavings for refutations |
| C33 | db | sequential: refinement; concurrent: any number of queries interleaved with a swap at the granularity of single commands, a weakest-precondition calculus per thread with the other threads as environment, a termination measure for the absence of deadlock; an explicit schedule for the refutation |
| C29, C39 | chunk, db | crash semantics: every prefix of the command sequence; for the queries after a restart (C29), the index is written before the point store (`ordered` in `CrashQuery.v`), every index key read has its value from before or after the insert, and what a query may look at then is characterised by `seen` (`ReadsSpec.v`) |
| C30, C31, C32, C34-C38 | db, utils | refinement to an abstract database over arbitrary operation sequences |
| C40, C53, C54 | TiKV backend, indexer, storage | computation for all identifiers; witnesses |
| C41-C44 | `wal` | codec round trip; CRC as a linear map over GF(2), injectivity on a window |
| C45-C50 | server, options | server over the database program |
| C51 | TimePoint | IEEE comparison on decoded doubles |
| C52 | generated protobuf code | wire codec round trip |
| C55 | server over db | induction over request sequences, on top of the history theorems of the database; which message a body carries is said by the grammar of `WireSpec.v` (C65), so the bodies are arbitrary |
| C56 | `monolith-server.rs`, options | case analysis over all argument values; witness for the wrapped chunk size |
| C57 | db, chunk, file operations of a rotation | `WritersSpec.v` gives the threads, the sequential history (`one_by_one`) and each client's view of it; a simulation invariant over all interleavings keeps a log whose sequential run gives the current heap; no stuck state by lock order. From any history; the order respects real time, because the log only grows at steps of the thread concerned. The answers of the concurrent queries are C60. Out of scope: sled's refusal to open one directory twice (chunk directories are distinct by construction) |
| C58 | chunk, indexers, point stores | `ReadsSpec.v` gives the threads, the acknowledged and the begun inserts, and what a query may look at between two contents (`seen`). Every state on the way is an acknowledged content plus a crash point of the one insert that holds the lock; each read of the query sees an old or a new value of one key (`ReadsCrash.v`), and the query is evaluated over all such readings (`ReadsMay.v`) |
| C59 | db, chunk creation, file operations | `FaultsSpec.v` says which operations count as performed (`performed`) and which environments may fail at any file operation (`env_weak`); the invariant of the database histories is kept by every outcome of every file operation, an operation with an error leaves it in place. Witnesses for the restart and the unreported failure. On a directory that earlier processes have left (`AgainSpec.v`) the invariant starts from the chunks read again; the opening itself is then free of failures |
| C60 | db, chunk, file operations of a rotation | `SharedSpec.v` gives the log of a run so far (`explains`), the chunks after it (`chunks_after`), an answer in between (`between`, on `seen` of C58), what may become of a query over any two instants (`query_outcome`: an answer, or a visit that brings it down) and acknowledged writes. The invariant of C57 also keeps the log without the write under way; each read of a query step is located between the contents at its start and at its end, and what the query's program may answer given such reads is computed once for all. Then: soundness, completeness for series present at first, a set of contents in between, the exact answer when nothing is written, and the end-to-end statement for acknowledged writes. A client of one call loses no generality: a later call of the same user is another client that the schedule starts later. Witness against an order of the writes seen. All of this starts from any chunks that were there before; `C60_reopened` puts those of earlier processes, ended by stops or power failures, there |
| C61 | sled stores with their flush, insert and query of a chunk | `Flush.v` is the insert with the flush of the index store and a counter of the sets not flushed; it refines `Chunk.v`'s insert (`C61_same_effects`). A store is the log of its sets, so a loss drops a prefix of the log; an invariant describes the point store after every loss, and each key of a partly lost index store is located between two registrations, from which the query answer follows by the argument of C58. Witness against "what survived is answered". For a database, the files that power failures leave are those of a history with the surviving points, so the invariant of C35 carries over (`LossDb.v`); there the failures are between operations and only the point stores lose sets (series with labels, `C61_index_flushed`) |
| C62 | the locks of the database and of its chunks, all threads | A weakest precondition for programs that says which locks are held at every command (`LockProofs.v`): every operation asks for locks only in the order current chunk, older chunks, one chunk, and gives back what it took. An invariant counts the guards; the thread that holds the highest lock can move or waits for one that nobody holds. Trees of commands are well founded, so runs end |
| C63 | server, db, the two threads of the program | `ServingSpec.v` gives the two threads (`at_work`) and what responses fit a sequence of events (`conversation`). The server's program is a script of database calls (`Script.v`); a run of it next to the swap thread is matched with a run of C60 in which every call is a client or query of its own, started after the one before (`sim_run`, `script_run`), so each write and each answer is located between the events before and after it; nothing is written during a query, so C60's exact answer applies, and it goes down exactly if a chunk of that moment brings it down (`visits_crash`). Progress is C62's argument for the server's program. The bodies of the requests are arbitrary, which message they carry is said by the grammar of `WireSpec.v` (C65); points of the requests must be in time order per series (or TiKV in memory), and no lookup of an answer's hash map may compare a label set with a proper prefix of it (`unmixed_among`) |
| C64 | db over one real TiKV, process after process | `TiKvDb.v` puts `TiKvShared`'s one store below the whole database (opening, writing, rotating, querying). `TiKvDbSpec.v` says what it amounts to (`shelf`): label sets per window, one table of points for all. `TiKvDbChunk.v` shows that a chunk refines its part of the shelf while the others change the table; `TiKvDbProofs.v` has the invariant of the running database (`running`) and of the files and the store (`disk`); `TiKvDbMain.v` opens a directory again and runs lives by induction. Queries: a query only reads, so it runs as over separate copies of the store (`proj`), where the general query theorem (`query_anyq`, for any two instants) applies. The shelf of one window is the content of C23/C24 (`one_window`). Three intuitive claims are refuted (`C64_own_points_refuted`, `C64_acknowledged_refuted`, and `C64_restart_forgets` as the general form of "not kept") |
| C65 | generated protobuf code | `WireSpec.v` is the wire format as a grammar over byte strings, each message a table of field numbers and kinds, and the message a list of fields stands for; it does not use the readers. Each primitive reader is shown to accept exactly its production, then by induction over the input each message reader exactly the fields of its table (`WireProofs.v`, `WireMsgs.v`). `stops_in` is the grammar of the bodies that are no encoding, with the fields before the first fault; `WireWrong.v` shows the readers to fail on exactly these, leaving exactly those fields |
| C66 | the program: command line, the three threads | `Program.v` puts the option values (C56) and the three threads of a run together: the tick thread and its channel, the swap thread, the server. A run of the three is matched with a run of the two threads of C63, the swap thread having as many rotations as there are readings it receives (`three_as_two`); the other way round, what the two can do the three can (`two_as_three`), which gives progress |
| C67 | db with one type over a real TiKV and the other over sled | `MixDb.v` sends the commands of each component of each chunk either to the one store or to the chunk's own. `MixEngine.v` has the invariant of the running database and the induction over lives once, over an interface of what the files and the store hold, what the current chunk and what the closed chunks refine; `MixPoints.v` instantiates it with C64's shelf (points in TiKV) and `MixIndex.v` with C23's parts (series in TiKV). A command of a chunk runs as in `Chunk.v` with the shared store put in its place (`xchandler_run`), and an insert only touches keys of its own identifier (`run_uses_st`). The claim that answered points are one's own is refuted for points in TiKV |
| C68 | the library's binary search; points in any order | `Search.v` models both forms the standard library's search has had. Their contract (assumed by C10-C67 for any `bs`) is proved of them, and that for `s <= e` the two positions they yield make a legal slice of any non-empty series, sorted or not (`tame`: two searches for `s` and `e` take the same path up to the first comparison that separates them). From there the read of a series, a chunk (`chunk_any`), the database (`any_order`), restarts (`lives_any`) and sessions of the server (`session_any_order`) follow the proofs of C31, C35 and C55 without the assumption that points come in time order. In-range and completeness are refuted |
| C69 (and the exact form of C32) | queries over any two instants; requests of every kind | `RangeSpec.v` says which chunk makes a query panic (`crashes`); `AskSpec.v` gives requests of every kind. `reader_cases` decides the read of one series for `e < s`; from there the scan over the matching series, the chunk, the query of the database (`query_empty`) and sessions of the server (`session_any`, by induction over the requests as for C55). `comes_to` puts the two outcomes together for a list of chunks, and `alike` compares two outcomes; C33, C35, C39, C59, C61, C64 and C67 speak of queries over any two instants in these words: `fits_crashes` shows that the window read again after a restart brings a query down exactly when the window before did |
| C70 | server over a real TiKV; tikv-cli | `TalkSpec.v` says what a session amounts to for any database given by a step function and the chunks its queries see. `TalkProofs.v` proves it once, for any handler of the database's commands that keeps histories (`g_serve`), by induction over the requests; `TalkTiKv.v` instantiates it with C64's shelf, with C67's shelf and with C67's parts, where the state after a history is that of `t_live`/`x_live`. `TiKvCli.v` models the program; its first window is the shelf seen as a history (`same_talk`) |
| C71 | several databases at once over one TiKV | `Cluster.v` runs the commands of C64's model for any number of directories over one store. `ClusterSpec.v` gives each directory a seat (C64's shelf with the clock and the number of windows) and one table to all. The step of each act is C64's, strengthened to say that a process sets only keys of its own uuids and 8-byte keys of points (`own_only`); from this the invariants of the other seats survive with the new table (`running_frame`). Soundness and the newest point are proved of the seats, by induction over the acts. The refutations are concrete runs, one of them with the commands of two writes interleaved |
| C72 | comparing and hashing label sets | `Hashing.v`: the bytes the derived and the written `Hash` feed, and SipHash-1-3 with zero keys (`DefaultHasher::new()`), checked against another implementation in `C72_case`. Equality by induction on the first list; injectivity of the fed bytes because no UTF-8 text has a byte 255. `SipSpec.v` restates SipHash-1-3 from its authors' definition (padded message, words, rounds) and `SipProofs.v` proves the model's word-by-word hasher equal to it for all byte strings |
| C73 | chunk sizes of every magnitude | `WideSpec.v` gives the windows with their ends modulo 2^64. Without overflow checks `create_chunk` is the same program for a size and for that size less 2^64 (`create_shorter`), so the steps of C30 and C31, proved for any window that fits 64 bits (`create_at`, `swap_at`, `open_at`), apply to each window with the size that fits it; the state does not mention the size. With overflow checks: the failing addition precedes every file operation of a new chunk |
| C74 | builds with and without overflow checks | the two builds of every bit stream, compactor and decompactor function are related by `agrees` (`BuildSpec.v`); `agrees` is preserved by sequencing, branching and recursion (`BuildProofs.v`), so it lifts from single arithmetic operations to whole scripts; exchange follows with C04 |
| C75 | the process ends in the middle of a database write | every prefix of the command sequence of a write, for every history (`TornSpec.v`, `TornProofs.v`, `TornKnown.v`, `TornAll.v`): an invariant of the prefixes (`keeps`) says what the stores of the current window answer (`answering`), which is carried through the reopening by comparing the reopened world with one whose last chunk is intact (`query_moves`); for a series that is there the content is that of the first k points of the write; for a new series the current window shows a part of its matching series (`hiding`), and the answer is assembled from what each window gives (`query_gives`); the refutation is computed; with earlier processes (`TornLivesSpec.v`, `TornLives.v`): the state in which the last of several processes is (`last_state`) is of the same form, with the chunks left by the others in front, which are read again from the disk (`fits`) |
| C76 | the process ends while the server is at work on a request | every prefix of the command sequence of `process` (`TornServeSpec.v`, `TornServe.v`): requests that are no write requests issue only commands that read; a write request is a sequence of batches, and every cut of it is a cut of one batch after the earlier ones (`in_series`, `write_series_keeps`), so the theorems of C75 apply with the earlier batches in the history (`request_cut`); a cut of a session is a cut of one request after the answered ones (`TornSession.v`: `serve_cut`, by induction on the requests), with the requests answered by that moment defined by running the serving loop on them for the same number of commands (`answered_by`) |
| C77 | looking up a file in a directory | `Find.v`: the search over the listing, whose entries are names as bytes or could not be read; the outcome is characterised by the entries before the first with the name (`FindSpec.v`), by induction on the listing; text is UTF-8 as in C65 |
| C78 | comparing chunks | `Find.v` (==) and `Chunk.v` (cmp): directly; the inconsistency of == and cmp is a counterexample |
| C79 | several processes, each of which may end in the middle of a write | a database whose old chunks may each have been left halfway (`TornMany.v`: `gstate`, `kept_as`) takes every history as an intact one does (`ghist_from`); it can be opened again whether it stopped or was cut (`greopen`, `cut_rest`, `opens`), and a query over it is assembled from what each chunk gives (`gquery`); which queries a cut chunk still answers in full is part of its mark (`spared`), the two invariants of C75 (`gop_halfway`, `gop_keeps`; `gop_partly` for a series that is there) being about the same cut world; induction over the processes (`TornCuts.v`: `cuts_from`) with the chunks re-read from the disk (`tfits`); specification in `TornManySpec.v` (`live_cut`, `cut_parts`, `answer_torn`); a process that ends at work on a write request is one of these processes (`TornReq.v`: `request_as_cut`, by the prefixes of the request's command sequence as in C76; `within` in `TornReqSpec.v`), and the conditions on the whole request are conditions on it (`cuts_within`) |

None of the listed properties is inexpressible.  Section 3 lists what is outside the model.

## 3. Trusted base

### 3.1 Logic

* The kernel of Coq 8.16.1 (with `vm_compute`).
* Every theorem in `MANIFEST.json` has a `Print Assumptions` under it in its `Props*.v` file.  Each
  of them prints `Closed under the global context`: no axiom is used, neither from the standard
  library nor from any other library.  Only the standard library is imported.
* No axiom, no `Admitted`, no switched-off check, no functor or module type, no plugin.
  `Variable` and `Hypothesis` occur only inside sections and are discharged.
* The statements themselves: `Props*.v`, the specification files `*Spec.v` they refer to, and the
  model files.  Proof files (`*Proofs.v`, `*Facts.v`, `Conc.v`, ...) need not be read.

### 3.2 Modelled code

| source | model | what is covered |
|---|---|---|
| `src/compaction/mod.rs`, `gorilla.rs` | `Bstream`, `Gorilla`, `Compactor` | all functions of Bstream, BstreamSeeker, the Gorilla compactor and decompactor, Compactor, Decompactor |
| `src/storage/*.rs` | `Storage` | point codec, trimming, sled and TiKV write and read; the builders in `Db` |
| `slice::binary_search` of the standard library, as called at `src/storage/common.rs:39-46` | `Search` | both algorithms it has had (before 1.52 and from 1.82; 1.52 to 1.81), on a series ordered or not |
| `src/indexer/*.rs` | `Indexer`, `Labels`, `Flush` | label codec, sled and TiKV index creation and searches; the builders in `Db` |
| `src/common/label.rs`, `mod.rs`, `utils.rs` | `Labels`, `Hashing`, `Chunk`, `Utils`, `Find` | label order, equality and hash, ordered and parallel intersection, id generator, directory names, overlap test |
| `src/common/time_point.rs`, `time_series.rs` | `TimePoint`, `Server`, `Chunk` | comparisons, conversions to and from the wire |
| `src/common/option.rs`, `src/bin/monolith-server.rs` | `Opts` | option values, start-up decisions |
| `src/backend/tikv.rs` | `TiKvInit`, `TiKvShared`, `TiKvDb`, `MixDb`, `Cluster`, `Db` | component identifiers; dry run (own store per component) and real TiKV (one store), with one database or several at once |
| `src/chunk/chunk.rs` | `Chunk`, `Db` | new, insert, query, close, options on disk |
| `src/db.rs` | `Db` | open, write, query, swap, tick |
| `src/server.rs` | `Server` | dispatch, read, write, the serving loop |
| `src/bin/monolith-server.rs`, `src/db.rs` (threads) | `Program` | from the option values to the three threads at work, for sled and dry-run TiKV |
| `src/bin/tikv-cli.rs` | `TiKvCli` | the options, opening the database over a TiKV that can be reached, and serving; without the tick and swap threads |
| `src/proto/types.rs`, `remote.rs` | `Proto`, `Stream` | size, writer and reader of every message, those the server does not use (streamed answers) in `Stream` |
| `src/wal/mod.rs`, `segment.rs` | `Wal` | entries, checksums, segments, flush policies |

Every definition cites the lines it models and says where it simplifies.

### 3.3 Not modelled

* `src/wal/writer.rs` and `src/compaction/simple.rs` (no code yet),
  `common::test_utils`, reflection and text output of the generated code.
* HTTP transport (tiny_http), rayon, logging, clap's parsing of the command line (the model starts
  at the option values), reading and parsing the TiKV configuration file (a function parameter).

### 3.4 Assumptions about what the code calls

These are choices of the model, visible in its definitions; none is an axiom.

* Key-value stores (sled, TiKV): a get or set is atomic, a get returns the last value set.  Sets
  reach the disk in order.  A crash of the process keeps all of them (C35, C36, C39); a power failure
  keeps a prefix of them, with everything set before the last successful flush of that store, and a
  flush succeeds (C61).  Where faults matter, an oracle decides which operations fail, with or
  without effect.
* A file of JSON is absent, created but unparsable, or complete; a complete one parses to what was
  written (serde).  A directory listing has any order.  The same sled database is not opened twice.
* `Vec::sort` is stable, `binary_search` satisfies its documented contract and is otherwise
  arbitrary (C68: one of the two algorithms the standard library has had, for which the contract is
  proved), `HashMap` compares a looked-up key with an arbitrary sequence of entries and lists its
  entries in an arbitrary order (`hasher_ok` states when it finds equal keys). The theorems about database
  answers assume `unmixed`: no lookup compares a label set of the answer with a proper prefix of it.
  `C31_unmixed` gives two sufficient conditions, `C31_prefix_refuted` shows what happens otherwise.
* `RwLock`: readers wait for a writer only, writers wait for everyone; a panic poisons under a write
  guard.  That readers do not wait for waiting writers is more permissive than some platforms; all
  theorems over all schedules cover the stricter ones, and progress is proved for every rule by
  which a lock chooses among those waiting (C62).
* `crc` 1.8.1: table driven reflected CRC-32 (IEEE) and CRC-64 (ECMA).  `protobuf` 2.8.0: the
  run-time functions called by the generated code, written down from its documented behaviour.
  `snap`: two arbitrary partial functions; theorems take what a body decompresses to as a premise.
* `f64`: bit patterns; comparisons and subtraction as in the standard library's `SpecFloat`.
* `usize` is 64 bits; counters of points, bits and bytes in memory do not overflow it.
* A real shared TiKV is modelled below one database used by one thread, with both types TiKV (`TiKvDb`, C64) or one of them (`MixDb`, C67), with or without the server in front (C70); databases over it follow one another, or act in turn, each act whole (C71; `C71_at_once_refuted` shows what happens otherwise). Concurrency and file failures (C57-C63) are modelled with a store per chunk only.

## 4. Testing the theorems

`seeded/LOG.jsonl` lists the wrong programs tried: edits of the model in a scratch copy, with the
theorems that no longer prove.  A theorem counts as failed when its proof, or the proof of a lemma
it uses, no longer goes through.
