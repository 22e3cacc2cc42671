{"id": "C01", "title": "Writing to a bit stream appends exactly the requested bits", "statement": "Starting from an empty bit stream, after any sequence of single-bit writes, whole-byte appends and n-bit writes (1..64 bits), the stream's content is exactly the concatenation of the bits requested, in order, its reported bit length is the number of bits requested, no panic occurs in either build profile, and the unused low bits of the last byte are zero.", "quantifier": "every sequence of write / append_bytes(bytes, r) with a single partially filled byte or full bytes / write_bits(bytes, n) operations, every length", "why_tests_cant": "The byte-splitting logic behaves differently for each of the 8 alignments and each operand length; a unit test samples a handful of (alignment, length) pairs.", "anchors": ["src/compaction/mod.rs: Bstream::write, Bstream::append, Bstream::append_bytes, Bstream::write_bits, Bstream::bitlen"]}
{"id": "C02", "title": "Reading n bits returns exactly the next bits of the stream", "statement": "Reading n bits at any cursor inside a well-formed stream returns min(n, bits left), writes exactly those bits, left-aligned and zero-padded, into the output buffer, leaves the rest of the buffer untouched, and advances the cursor by that amount; with no bits left it returns 0. It never panics when the buffer holds n bits.", "quantifier": "every well-formed stream, every cursor up to the end, every n and every large enough buffer", "why_tests_cant": "All 8 cursor alignments times all end-of-stream offsets times all n; a test picks five.", "anchors": ["src/compaction/mod.rs: BstreamSeeker::read_next_n_bit, Bstream::read_bytes"]}
{"id": "C03", "title": "Appending one bit stream to another concatenates their bits (exact domain)", "statement": "Appending stream b to stream a yields the bits of a followed by the bits of b whenever a is byte aligned, or b is byte aligned, or b fits in one byte, or the free bits of a and b sum to fewer than 8. It is not true for all pairs of well-formed streams: when a has r>0 free bits, b has s free bits, b has more than one byte and r+s >= 8, the result is wrong, except in the accidental cases r+s > 8 with r = 4 or s = 4. No pair panics.", "quantifier": "every pair of well-formed streams", "why_tests_cant": "The failing pairs depend on the sum of two alignments; the existing test hits a failing branch with the one pair of alignments (4,7) where the wrong formula happens to give the right number.", "anchors": ["src/compaction/mod.rs: Bstream::append"]}
{"id": "C04", "title": "Gorilla compression is lossless (exact domain)", "statement": "Compressing any series of points with the Gorilla compactor and decompressing the result yields exactly the same timestamps and bit-identical values, provided no delta-of-delta equals 128, 32768 or 2^31 and every new XOR window has fewer than 32 leading zeros and fewer than 64 significant bits; with overflow checks on, additionally timestamps must not decrease and deltas of deltas must fit in 16 bits. The condition is exact.  Each of these provisos is needed: each has a series that does not survive.", "quantifier": "every finite series of points of any length, both build profiles", "why_tests_cant": "The encoder state (previous delta, previous window, bit alignment) ranges over every history; the boundary values 128, 32768, 2^31, 32 leading zeros are single points in a 2^128 space.", "anchors": ["src/compaction/gorilla.rs: GorillaCompactor::compact, GorillaCompactor::compact_value, GorillaDecompactor::next, decompact_values, decompact_timestamp, in_bit_range"]}
{"id": "C05", "title": "The public compaction API round-trips and its output can be taken at any time", "statement": "Bytes returned by get_bytes_vec (or compact_vec) of a Gorilla compactor fed any admissible series decompress, through Decompactor::from and decompact, to exactly the points fed so far; taking the bytes does not disturb later compaction.", "quantifier": "every admissible series, every prefix of it", "why_tests_cant": "The framing adds a remaining-bits byte and a type byte to a bit-aligned payload; all alignments matter.", "anchors": ["src/compaction/mod.rs: Compactor::compact, Compactor::compact_vec, Compactor::get_bytes_vec, Decompactor::from, Decompactor::decompact, Bstream::as_bytes_vec, Bstream::from_bytes"]}
{"id": "C06", "title": "Decompaction rejects data whose type tag does not match", "statement": "Decompactor::from succeeds only if the last byte is the tag of the requested type, and otherwise reports the expected and the found tag (0 for empty data); the Simple type is always rejected.", "quantifier": "every byte vector and every requested type", "why_tests_cant": "All byte vectors.", "anchors": ["src/compaction/mod.rs: Decompactor::from, CompactType"]}
{"id": "C07", "title": "The no-compression mode round-trips (exact domain)", "statement": "Data produced by the None compactor fed point by point decompresses to the same points exactly when at most one point was compacted; with two or more points decompaction panics, and compact_vec drops the points it is given.", "quantifier": "every list of points", "why_tests_cant": "Only lengths 0 and 1 work; a test on a single point passes.", "anchors": ["src/compaction/mod.rs: Compactor::compact, Compactor::compact_vec, Decompactor::decompact"]}
{"id": "C08", "title": "Decompaction terminates and is stable on any well-formed stream", "statement": "For every well-formed bit stream, decompression yields a finite list: each produced point consumes at least one bit, so at most one point per bit is produced.  It does not hold that decompression never panics on arbitrary bytes (there are byte strings on which it does).  In a release build the accepted byte strings on which it panics are exactly those whose next-to-last byte, the number of unused bits, exceeds the number of bits before it; every other accepted byte string decompresses to some list of points, and in particular whatever a compactor produced does.", "quantifier": "every byte string accepted by Decompactor::from", "why_tests_cant": "Arbitrary hostile or corrupt input; the cursor is moved backwards in several branches, so progress is not syntactic.", "anchors": ["src/compaction/gorilla.rs: GorillaDecompactor::next", "src/compaction/mod.rs: Bstream::bitlen"]}
{"id": "C09", "title": "Time points survive encoding in the key-value store", "statement": "Encoding a (timestamp, value) pair gives 16 bytes which decode to the same pair bit for bit, any 16 bytes decode, re-encode to themselves, and any other length is rejected with an error.", "quantifier": "every u64 timestamp, every f64 bit pattern (NaN included), every byte string", "why_tests_cant": "2^128 pairs and all lengths.", "anchors": ["src/storage/sled_storage.rs: KvStorageProcessor::encode_time_point, decode_time_point"]}
{"id": "C10", "title": "Sled storage: a series reads back exactly the appended points in range", "statement": "After any sequence of appends to any series, reading series id over [s,e] with s<=e returns NotFound if nothing was appended to id, OutOfRange(first,last) if the series lies wholly outside, and otherwise, for a series appended in strictly increasing time order, exactly the appended points with s<=t<=e in order, possibly none. Appends to one id never change another.", "quantifier": "every sequence of appends over any set of ids, every range", "why_tests_cant": "Unbounded histories; id keys are decimal strings sharing a prefix; binary search has boundary cases at every index.", "anchors": ["src/storage/sled_storage.rs: SledStorage::write_time_point, read_time_series, get_series_by_id", "src/storage/common.rs: Storage::trim_time_series"]}
{"id": "C11", "title": "TiKV storage: series are strictly increasing in time and reads are exact", "statement": "After any sequence of write attempts every stored series has strictly increasing timestamps; a write is accepted iff its timestamp is greater than the last stored one, a rejected write changes nothing, and reads return exactly the accepted points in the range.", "quantifier": "every sequence of write attempts over any ids, every range", "why_tests_cant": "Unbounded histories.", "anchors": ["src/storage/tikv_storage.rs: TiKvStorage::write_time_point, read_time_series"]}
{"id": "C12", "title": "Range trimming returns exactly the points in the closed interval and panics only on inverted ranges", "statement": "For a strictly increasing series that is not wholly outside [s,e], the read returns exactly the points with s<=t<=e when s<=e.  When s>e the read panics exactly if some point lies strictly between e and s (more precisely when more points are < s than are <= e), and otherwise returns the empty list. This holds for every binary search that satisfies the documented contract of the standard library.", "quantifier": "every strictly increasing series, every s and e, every contract-abiding binary search", "why_tests_cant": "Boundary behaviour at each position and absent/present endpoints; inverted ranges come from remote clients.", "anchors": ["src/storage/common.rs: Storage::trim_time_series"]}
{"id": "C13", "title": "Sled storage accepts out-of-order points but then reads are wrong", "statement": "It is not true that every point accepted by the sled storage is returned by a read covering its timestamp: a concrete out-of-order history loses a point; likewise with duplicate timestamps a boundary read can miss a point. (Refutation; the positive part is C10.)", "quantifier": "every history of appends", "why_tests_cant": "Depends on the interplay of insertion order and bisection.", "anchors": ["src/storage/sled_storage.rs: write_time_point", "src/storage/common.rs: trim_time_series"]}
{"id": "C14", "title": "Label sets survive encoding in the index (exact domain)", "statement": "Decoding the stored form of a non-empty label set returns the label set sorted by key, provided no key or value contains a comma and no key contains '='. Values may contain '='. Outside this domain it fails.", "quantifier": "every label set", "why_tests_cant": "All strings.", "anchors": ["src/indexer/sled_indexer.rs: KvIndexerProcessor::encode_labels, decode_labels"]}
{"id": "C15", "title": "Label order does not matter", "statement": "Two label lists that are permutations of each other with distinct keys identify the same series: looking up one finds the id registered under the other.", "quantifier": "every label list with distinct keys and every permutation of it", "why_tests_cant": "n! orders.", "anchors": ["src/indexer/sled_indexer.rs: encode_labels, get_series_id_by_labels", "src/common/label.rs: Labels::sort"]}
{"id": "C16", "title": "Different label sets never share a series (exact domain)", "statement": "After any sequence of index creations, looking up a label set returns an id only if that very label set (up to order) was registered under that id - provided label sets have distinct keys, no comma, no '=' in keys, and are not a single label whose name starts with 'R'. Without the comma proviso and without the 'R' proviso it is false.", "quantifier": "every history of create_index calls and every looked-up label set", "why_tests_cant": "Key spaces of three mappings share one store, distinguished only by string prefixes; collisions are individual points in an infinite space.", "anchors": ["src/indexer/sled_indexer.rs: LABEL_REVERSE_PREFIX, LABEL_PREFIX, create_index, get_series_id_by_labels", "src/indexer/tikv_indexer.rs"]}
{"id": "C17", "title": "Search by labels returns the series that contain all of them (exact answer)", "statement": "Under the provisos of C16 (on the registered sets and the searched labels): after any history of index creations with increasing ids, searching by a list of labels returns, in increasing id order, exactly the series containing every searched label that occurs in the index at all (and nothing if none of them does). Hence it is exact when all searched labels are known; when some searched label is unknown the result wrongly contains series lacking it.", "quantifier": "every history of create_index calls with increasing ids and every searched label list", "why_tests_cant": "Unbounded histories and label lists; the wrong case needs a label absent from the whole chunk.", "anchors": ["src/indexer/sled_indexer.rs: get_series_id_contains_labels, get_id", "src/indexer/tikv_indexer.rs", "src/common/utils.rs: intersect_time_series_id_vec"]}
{"id": "C18", "title": "Intersection of id lists is schedule independent and exact", "statement": "For any number of strictly increasing id lists, the parallel divide-and-conquer intersection terminates and returns exactly the ids present in all lists, in increasing order, whichever worker thread finishes first at each level.", "quantifier": "every list of strictly increasing lists, every completion order of the worker threads", "why_tests_cant": "The order of partial results depends on thread scheduling.", "anchors": ["src/common/utils.rs: intersect_time_series_id_vec", "src/common/mod.rs: OrderIntersect::order_intersect"]}
{"id": "C19", "title": "Registering a label set twice is refused without side effects (sled)", "statement": "With the sled indexer, creating an index for a label set already registered returns an error and changes nothing in the store; with TiKV it silently re-binds the label set to the new id.", "quantifier": "every reachable index and label set", "why_tests_cant": "All histories.", "anchors": ["src/indexer/sled_indexer.rs: create_index", "src/indexer/tikv_indexer.rs: create_index"]}
{"id": "C20", "title": "Series metadata search returns the registered labels", "statement": "Under the provisos of C16, the metadata search returns for each id found by C17 the label set it was registered with (sorted by key).", "quantifier": "every history of create_index calls, every search", "why_tests_cant": "All histories.", "anchors": ["src/indexer/sled_indexer.rs: get_series_metadata_contains_labels", "src/indexer/tikv_indexer.rs: get_series_metadata_contains_labels"]}
{"id": "C21", "title": "A chunk accepts exactly the points strictly inside its window", "statement": "Inserting a point succeeds (fault-free backend, well-formed labels) iff start < t < end; otherwise it fails with OutOfRange(start,end) and changes nothing.", "quantifier": "every chunk state, label set and point", "why_tests_cant": "All boundary values in all states.", "anchors": ["src/chunk/chunk.rs: Chunk::insert, is_in_range"]}
{"id": "C22", "title": "A chunk behaves like a map from label set to point list", "statement": "For every history of inserts with well-formed label sets, a chunk over sled backends answers every query exactly as the abstract chunk that keeps, for each distinct label set in order of first insertion, the list of inserted points.", "quantifier": "every insert history, every query", "why_tests_cant": "Refinement over unbounded histories; three index mappings, an id generator and a byte-level point log must stay consistent.", "anchors": ["src/chunk/chunk.rs: Chunk::insert, Chunk::query", "src/indexer/sled_indexer.rs", "src/storage/sled_storage.rs"]}
{"id": "C23", "title": "Queries are sound: nothing is returned that was not inserted", "statement": "Every point returned by a chunk query or a database query for a label set was inserted under exactly that label set, lies in the requested range (points inserted in time order), and the label set contains every requested label known to that chunk. (At database level, provided no lookup of the answer's hash map compares a label set with a proper prefix of it: see C31.)", "quantifier": "every history, every query", "why_tests_cant": "All histories.", "anchors": ["src/chunk/chunk.rs: query", "src/db.rs: query"]}
{"id": "C24", "title": "Queries are complete (exact failure condition)", "statement": "A chunk query returns all matching points of all matching series iff every matching series of the chunk has at least one point not after the end and one not before the start of the range; otherwise the whole chunk query fails, and the database query silently omits the whole chunk.", "quantifier": "every history, every query", "why_tests_cant": "Needs two series with disjoint activity inside one chunk.", "anchors": ["src/chunk/chunk.rs: query", "src/storage/sled_storage.rs: read_time_series", "src/db.rs: query"]}
{"id": "C25", "title": "Series ids are never reused within a chunk", "statement": "Under every interleaving of any number of threads drawing ids from one generator, all ids drawn are distinct and exactly the consecutive numbers from the initial one (before 2^64 draws).", "quantifier": "every number of threads, every interleaving", "why_tests_cant": "Interleavings.", "anchors": ["src/common/mod.rs: IdGenerator::next"]}
{"id": "C26", "title": "Closing a chunk does not stop inserts", "statement": "It is not true that a closed chunk refuses inserts: insert never consults the closed flag. (Refutation; insert behaves identically on a closed and an open chunk.)", "quantifier": "every chunk state and insert", "why_tests_cant": "Absence of a check on all paths.", "anchors": ["src/chunk/chunk.rs: close, is_closed, insert"]}
{"id": "C27", "title": "Concurrent inserts into one chunk are serialised", "statement": "Under every interleaving of any number of concurrent insert calls on one chunk, at the granularity of single key-value store operations, when all have returned the stores are as if the calls had run one after another in the order they took the chunk lock, each returning the result of that serial run.", "quantifier": "every number of threads, every interleaving of single store operations", "why_tests_cant": "Schedules.", "anchors": ["src/chunk/chunk.rs: insert, mutex"]}
{"id": "C28", "title": "Queries are not atomic with respect to inserts", "statement": "It is not true that a query running concurrently with an insert returns the result from before or after the insert: the read guard is dropped at once, and there is an interleaving in which a query that would succeed both before and after fails with NotFound.", "quantifier": "every interleaving of a query with an insert", "why_tests_cant": "Schedules.", "anchors": ["src/chunk/chunk.rs: query"]}
{"id": "C29", "title": "A crash during an insert never damages stored points, but can hide a chunk's other series", "statement": "If the process stops at any store operation of an insert, then every series stored before is unchanged in the point store, except that the inserted point may have been appended. It is not true that queries acknowledged before still work: a crash between index creation and the first point write makes later queries for a shared label fail for the entire chunk. Exactly: after a restart on the same stores, in a chunk whose series have increasing timestamps, every query with start at most end answers as if the insert had not been made or as if it had been made in full, unless the insert started a new series and the query searches one of its labels. In that case it may also answer for only some of the series that matched before (never dropping one that still matches after the insert), or fail with \"not found\" after reading them; it can even silently answer with nothing where it answered with points before. A query that searches no label of the insert answers as before the insert, wherever it was stopped.", "quantifier": "every reachable chunk state, every insert, every crash point (prefix of its store operations)", "why_tests_cant": "Crash points.", "anchors": ["src/chunk/chunk.rs: insert", "src/indexer/sled_indexer.rs: create_index", "doc/wal.md"]}
{"id": "C30", "title": "Batch writes: which points are stored and what is reported", "statement": "Writing a batch stores exactly the points strictly inside the current window (in batch order); it returns an error iff some non-zero timestamp in the batch equals the start or the end of the window, and silently drops every other out-of-window point and every point with timestamp 0.", "quantifier": "every database state, label set and batch", "why_tests_cant": "All boundary combinations.", "anchors": ["src/db.rs: write_time_points"]}
{"id": "C31", "title": "Database queries merge chunks in time order", "statement": "For every history of writes and swaps with a non-decreasing clock and per-series increasing timestamps, each label set occurs once in a query result and its points are strictly increasing in time - for every behaviour of the hash map's hasher, provided no lookup compares a label set with a proper prefix of it (so: if no label set of the answer is a proper prefix of another, or if the map compares only keys of equal hash and no such two collide). Without that proviso two series can be merged or the query can panic.", "quantifier": "every history, every query, every hasher", "why_tests_cant": "Hash collisions depend on random seeds; histories are unbounded.", "anchors": ["src/db.rs: query, swap", "src/common/label.rs: Labels::eq, Labels::hash"]}
{"id": "C32", "title": "An inverted query range must not crash the server", "statement": "It is not true that a query with start > end is harmless: on a reachable database such a query panics. Exactly: with points in time order, a query panics if and only if start > end, some chunk's window contains both instants, and among that chunk's matching series in order of first insertion there is one with points up to end, points from start on and points between the two, all matching series before it having points up to end and from start on but none between. Every other query, in whatever order its instants, succeeds and is answered as C31 says; if start > end that is with no series. Either way the database is unchanged.", "quantifier": "every query range", "why_tests_cant": "Needs a point strictly between the two bounds.", "anchors": ["src/db.rs: query", "src/storage/common.rs: trim_time_series"]}
{"id": "C33", "title": "Rotating the current chunk never loses points", "statement": "After a swap every query, over any two instants, returns what it returned before, plus nothing, or brings the database down as it did before (C32), for ranges and labels answered by the old chunk (as long as no lookup of the answer's hash map compares a label set with a proper prefix of it: see C31); and under every interleaving of one query with one swap, no acknowledged point is missed. It is not true that it returns each point once: an interleaving exists that returns every point of the old chunk twice.", "quantifier": "every database state, every query, every interleaving of query and swap steps", "why_tests_cant": "Schedules.", "anchors": ["src/db.rs: query, swap"]}
{"id": "C34", "title": "Chunk windows never overlap", "statement": "Let the clock readings that trigger the swaps be at least one chunk size apart. Then the window of the chunk made at the reading n is the open interval from n+1 to n+1+size (the first one starts at the opening), the windows are pairwise disjoint and ordered, and a point is accepted exactly when its timestamp lies inside the window current at that moment: a timestamp is accepted by at most one chunk over the life of the process, and instants between windows (at least the two boundaries) by none. It is not true that a point stamped with the current time is always accepted.", "quantifier": "every sequence of clock readings that far apart, any writes between them", "why_tests_cant": "Unbounded number of swaps and all timings.", "anchors": ["src/db.rs: new, swap"]}
{"id": "C35", "title": "Reopening a database preserves query answers (sled)", "statement": "After a clean stop and reopen over sled backends, every query answered from a chunk before, over any two instants, is answered identically from it after, or brings the database down as it did before (C32), provided no stored point lies after the reopening instant, the base path is ASCII (see C38) and no lookup of the answer's hash map compares a label set with a proper prefix of it (see C31); the reopened chunks are in start-time order. Without the proviso points in the future become invisible to some queries.", "quantifier": "every history of writes and swaps, every query", "why_tests_cant": "All histories.", "anchors": ["src/db.rs: read_existing_chunk, new"]}
{"id": "C36", "title": "A data directory can only be reopened with the backends it was created with", "statement": "Creating a database in an empty directory and reopening it with storage and indexer types (S,I) succeeds iff (S,I) are the types it was created with; otherwise it fails with OptionErr and writes nothing.", "quantifier": "every pair of backend configurations", "why_tests_cant": "All pairs over all directory contents.", "anchors": ["src/db.rs: new, read_or_create_metadata"]}
{"id": "C37", "title": "Chunk directory names encode the window", "statement": "Decoding the directory name of any window returns the window; names of different windows differ; names that are not 1 to 128-bit hexadecimal numbers are rejected.", "quantifier": "every pair of u64, every string", "why_tests_cant": "2^128 windows.", "anchors": ["src/common/utils.rs: encode_chunk_dir, decode_chunk_dir"]}
{"id": "C38", "title": "Existing chunks are found under their directory name (exact domain)", "statement": "The name extracted from a directory entry's path is the entry's name whenever the data directory path is ASCII; with a non-ASCII path the extracted name loses leading characters, so existing chunks are ignored or opened with a wrong window.", "quantifier": "every data directory path and entry name", "why_tests_cant": "All Unicode paths.", "anchors": ["src/db.rs: read_existing_chunk"]}
{"id": "C39", "title": "A crash while a chunk is created must not prevent reopening", "statement": "It is not true that the database can be reopened after a crash at any point of chunk creation. The database opens exactly on directories whose metadata files (its own, and that of every chunk directory) are complete. Stopping after the database's metadata file was created but before it is written, or after a chunk directory (or its metadata file) has been created but before the metadata is written, makes every later open fail, however often it is tried. For every other crash point of the first start, of a swap or of a restart, opening succeeds; and after a crash in a swap every query, over any two instants, answers as it did before the swap, or brings the database down as it did before (C32).", "quantifier": "every crash point of new and swap", "why_tests_cant": "Crash points.", "anchors": ["src/db.rs: new, swap, read_existing_chunk", "src/chunk/chunk.rs: write_config_to_dir, read_config_from_dir"]}
{"id": "C40", "title": "TiKV component identifiers are stable across reopening and separate chunks", "statement": "It is not true that a reopened chunk uses the identifiers under which its data was written, nor that two chunks use different storage key spaces: for every pair of generated identifiers the running storage uses the empty identifier and the reopened components use identifiers different from the running ones. (Refutation, for every choice of UUIDs.)", "quantifier": "every choice of generated UUIDs, every chunk", "why_tests_cant": "Random identifiers.", "anchors": ["src/backend/tikv.rs: TiKvRawBackend::init_component", "src/storage/tikv_storage.rs: build, read_from_chunk", "src/indexer/tikv_indexer.rs: build, read_from_chunk"]}
{"id": "C41", "title": "A write-ahead-log entry can be decoded from the documented layout (exact domain)", "statement": "The bytes of an entry with at most 65535 bytes of content, followed by anything, parse under the documented layout to the same sequence number, type and content with a matching checksum, and exactly the entry's bytes are consumed. With longer content the length field wraps and the parse is wrong.", "quantifier": "every entry, every following byte string", "why_tests_cant": "All contents and lengths.", "anchors": ["src/wal/mod.rs: Entry::get_bytes, Entry::push"]}
{"id": "C42", "title": "Entry checksums do not depend on how the content was pushed and survive cloning", "statement": "Pushing content in any number of pieces, cloning at any point, gives the checksum of the concatenated content; any corruption confined to four consecutive content bytes changes the checksum.", "quantifier": "every split of every content, every corruption confined to 4 bytes", "why_tests_cant": "All contents and all corruptions.", "anchors": ["src/wal/mod.rs: Entry::push, Entry::clone"]}
{"id": "C43", "title": "Immediate flush policy: every acknowledged entry is on the writer, framed", "statement": "Under the Immediate policy with a writer that accepts whole buffers, after any sequence of write_entry calls the writer holds the magic number followed by exactly the framed entries in order, and close appends the CRC-64 of everything after the magic number.", "quantifier": "every sequence of entries", "why_tests_cant": "All sequences.", "anchors": ["src/wal/segment.rs: Segment::new, write_entry, flush, close"]}
{"id": "C44", "title": "Cached flush policies do not write framed entries", "statement": "It is not true that the cached policies write the entries: the count-based policy panics on the first entry, the size-based one writes bare contents without framing and close drops what is cached, the time-based one writes nothing ever. (Refutation for every entry sequence.)", "quantifier": "every sequence of entries and every limit", "why_tests_cant": "All sequences and limits.", "anchors": ["src/wal/segment.rs: write_entry, flush, close, new"]}
{"id": "C45", "title": "A read request gets one result per query, in order", "statement": "The response to a read request holds exactly one result per query, in order, each being the database's answer for that query's matchers and range.", "quantifier": "every request", "why_tests_cant": "All requests.", "anchors": ["src/server.rs: MonolithServer::query"]}
{"id": "C46", "title": "Matcher types are ignored", "statement": "It is not true that not-equal and regular-expression matchers are honoured: the answer is the same for every assignment of types to the matchers of a query. (Refutation.)", "quantifier": "every query and every choice of matcher types", "why_tests_cant": "All type assignments.", "anchors": ["src/common/label.rs: Label::from_label_matcher", "src/server.rs: query"]}
{"id": "C47", "title": "Samples survive the conversion between wire and internal form", "statement": "Converting a wire sample to a time point and back is the identity on all i64 timestamps and all values; negative timestamps become values of at least 2^63 and are therefore never inside a window below 2^63.", "quantifier": "every sample", "why_tests_cant": "2^128 samples.", "anchors": ["src/common/time_point.rs: From impls", "src/common/time_series.rs: From impls"]}
{"id": "C48", "title": "Write requests are applied series by series up to the first failure", "statement": "A write request applies its series in order, stops at the first series whose batch write fails, reports that failure, and leaves later series unwritten.", "quantifier": "every request and database state", "why_tests_cant": "All requests.", "anchors": ["src/server.rs: write"]}
{"id": "C49", "title": "Request dispatch", "statement": "A request whose body cannot be decompressed kills the serving loop; otherwise the read path wins over the write path when equal, other paths get 404, an empty or undecodable read request gets 500, and a write request is acknowledged with 200 iff the (possibly truncated) decoded request was applied without error - in particular an undecodable write body is applied up to the error and acknowledged.", "quantifier": "every request", "why_tests_cant": "All bodies and paths.", "anchors": ["src/server.rs: _process, serve"]}
{"id": "C50", "title": "Server options admit exactly the unprivileged ports", "statement": "Server options are accepted iff the port parses as an i32 in 1024..=65535 and the worker number parses as an unsigned integer.", "quantifier": "every pair of strings", "why_tests_cant": "All strings.", "anchors": ["src/common/option.rs: ServerOpts::get_config"]}
{"id": "C51", "title": "Equality of time points ignores the value", "statement": "It is not true that time points with different values compare unequal: for all finite values two time points are equal iff their timestamps are equal.", "quantifier": "every pair of time points", "why_tests_cant": "All pairs of doubles.", "anchors": ["src/common/time_point.rs: PartialEq for TimePoint"]}
{"id": "C52", "title": "Wire messages round-trip (exact domain)", "statement": "Serialising a read response (or write request, read request) with the generated code and parsing the bytes back yields the same message, except that a sample value of negative zero becomes positive zero. The messages for streamed answers (labels, chunks with arbitrary data, chunked series and responses) come back unchanged.", "quantifier": "every message", "why_tests_cant": "All messages.", "anchors": ["src/proto/types.rs", "src/proto/remote.rs"]}
{"id": "C53", "title": "A label value can poison a chunk (TiKV)", "statement": "It is not true that inserts with valid Prometheus label names never panic: with the TiKV indexer, after two series sharing a label foo=bar, inserting the series Rfoo=bar panics while holding the chunk lock, after which every insert and query on the chunk panics.", "quantifier": "every history of inserts with valid label names", "why_tests_cant": "Needs a key-space collision.", "anchors": ["src/indexer/tikv_indexer.rs: get_series_id_by_labels", "src/chunk/chunk.rs: insert"]}
{"id": "C54", "title": "A write that is acknowledged may not be stored (TiKV)", "statement": "It is not true that insert returning Ok means the point is stored: for an existing series the storage result is discarded, so with TiKV a point not newer than the last one is dropped with Ok; with a failing backend any point of an existing series may be dropped with Ok.", "quantifier": "every chunk state and insert", "why_tests_cant": "Error paths.", "anchors": ["src/chunk/chunk.rs: insert", "src/storage/tikv_storage.rs: write_time_point"]}
{"id": "C55", "title": "Sessions answer every request from what was written before it", "statement": "For every sequence of write and read requests sent to the server, with any bodies that can be decompressed: each write request applies the series its body encodes, or, of a body that is no encoding to the end, the series taken before its first fault, up to the first failing one, and is answered 200 or 500 accordingly; each read request gets one result per query computed from everything written by the requests before it, and 500 if its body is no encoding of a read request or asks for nothing; and the database ends in the state of the corresponding history of writes.", "quantifier": "every sequence of requests with any decompressible bodies, every clock, every snappy codec", "why_tests_cant": "All request histories.", "anchors": ["src/server.rs: serve, _process, query, write"]}
{"id": "C56", "title": "When the server starts", "statement": "The server starts a database exactly when its options are accepted, both backends are named sled or tikv, and the TiKV configuration can be read if one is given and needed; without configuration TiKV is in memory. Otherwise it exits with 1 for an unknown backend, or panics. The chunk size used is the number of seconds given iff it fits 64 bits of milliseconds: it is not true that a larger accepted chunk size gives a larger chunk.", "quantifier": "every command line", "why_tests_cant": "All strings.", "anchors": ["src/bin/monolith-server.rs: main", "src/common/option.rs", "src/backend/tikv.rs: TiKvRawBackendSingleton"]}
{"id": "C57", "title": "Concurrent clients and rotation are serialisable, batches are not atomic", "statement": "At any point of the life of a database, whatever number of clients insert points and batches, whatever number of threads query and one thread rotates the chunk again and again, in any interleaving, with any directory contents and any file failures: when all threads are done, the final database and every answer the writers and the rotation got are those of one sequential history, in which each batch counts as its points inserted one after the other and every client's inserts stand in its own order. The order respects real time: nothing of a call that had returned comes after, and nothing of a call that had not started comes before, any moment of the run. No interleaving gets stuck. It is not true that a batch is atomic: two interleaved batches can lead to a query answer that no serial order of the two batches gives.", "quantifier": "every history before, every number of threads, every program of each, every interleaving, every file outcome", "why_tests_cant": "Needs every schedule.", "anchors": ["src/db.rs: write_time_points, write_time_point, query, swap", "src/chunk/chunk.rs: insert, query"]}
{"id": "C58", "title": "A query that runs while others insert sees everything acknowledged and nothing that was not inserted", "statement": "Any number of threads insert into and query one chunk, in any interleaving. A query that succeeds returns every point in its range of every matching series whose insert had returned before the query started, and only points whose insert had begun, under their own labels. It never panics for increasing series. The answer is that of one state between the two unless a series that is new meanwhile carries a searched label. Inserts answer as if alone, and once all have returned the chunk answers for all of them in the order in which they took the lock.", "quantifier": "every history before, every number of threads, every interleaving, every query", "why_tests_cant": "Needs every schedule.", "anchors": ["src/chunk/chunk.rs: insert, query", "src/indexer/sled_indexer.rs", "src/indexer/tikv_indexer.rs", "src/storage/sled_storage.rs", "src/storage/tikv_storage.rs"]}
{"id": "C59", "title": "A failing disk while the database runs", "statement": "A database is opened, on an empty directory or on one that any earlier processes have left, and from then on creating directories, creating or writing files and opening stores may fail at any points. Nothing blocks, and nothing panics but the queries from an instant back to an earlier one that do so without failures (C32). A rotation fails only when one of its file operations did; it is then reported and changes nothing but files: writes are taken and refused and queries answered as before. All results and all query answers are those of the history without the rotations that failed. Two things do not hold: that the directory can be opened again after a rotation that failed half-way, and that a rotation that reports success has written the configuration of the new chunk, without which the next opening fails.", "quantifier": "every sequence of earlier processes that stopped or ended in power failures, every sequence of operations, every pattern of file failures", "why_tests_cant": "Every failure point of every history.", "anchors": ["src/db.rs: swap, write_time_points, query", "src/chunk/chunk.rs: create_chunk, write_config_to_dir, read_config_from_dir"]}
{"id": "C60", "title": "What a query answers while clients write and the swap thread rotates", "statement": "Any number of clients, queries and the swap thread work on one database, on a directory that may have been left by earlier processes, in any interleaving, with any failures of file operations. A query whose start is not after its end succeeds; one with its start after its end finds nothing, unless it meets a series with points on both sides and strictly between, which brings it down (when nothing is written meanwhile, exactly if a chunk holds such a series that the query reaches, as in C69). Every point a query answers was written, lies in the range and is answered under its own label set. A single point whose write was answered with success before the query started is in the answer, also when an earlier process that lost nothing gave that answer, whatever the others do meanwhile, if the query asks for labels of that series only and each client writes its own series in time order. In general the answer lies between the content when the query started (without the writes still under way) and the content when it returned; it is the answer of one set of chunk contents in between, unless a series that is new meanwhile carries a searched label; and when nothing is written meanwhile it is the exact answer, or has the points of the newest chunk twice. It is not so that a query sees the writes of one client in the order in which they were answered.", "quantifier": "every sequence of earlier processes, every history before, every number of clients and queries, every interleaving, every pattern of file failures", "why_tests_cant": "Needs every schedule of every number of threads.", "anchors": ["src/db.rs: write_time_point, write_time_points, query, swap", "src/chunk/chunk.rs: insert, query, close", "src/indexer/*.rs", "src/storage/*.rs"]}
{"id": "C61", "title": "A power failure loses the last points, not the index, and can hide what survived", "statement": "The sled stores may lose, at a power failure, the last sets that no flush followed; the index of a chunk is flushed with every label of a new series, its points never. Between inserts the index is then complete, unless a series without labels was inserted, and a query of the chunk answers exactly for the series ever inserted with the points of all but the last few accepted inserts. Inside an insert the same holds, up to the series being inserted. Whatever is lost, every point answered was inserted with the labels it is answered under and is one that survived. It is not so that a point that survived is answered: a series whose index survived and whose points did not makes the whole query of the chunk fail. A database that loses points of its chunks so, any number of times, still opens every time, and every query over any two instants is answered from what survived, or brings the database down exactly as C32 says; it answers each label set once, with increasing points that were written, and that survived in a chunk whose query does not fail.", "quantifier": "every history of inserts, every point inside the next insert, every loss, every query; for databases every sequence of processes that end in power failures between operations", "why_tests_cant": "Every moment of a power failure and every extent of the loss.", "anchors": ["src/indexer/sled_indexer.rs: create_index", "src/storage/sled_storage.rs: write_time_point", "src/chunk/chunk.rs: insert, query", "src/db.rs: new, query"]}
{"id": "C62", "title": "No deadlock, whatever order the locks let threads through", "statement": "Clients that write, threads that query and the swap thread work on one database. Whatever history it has, whatever file operations fail, whatever labels are used (panics and poisoned locks included), and whether the locks prefer readers, writers or follow any other rule, as long as a lock that nobody holds lets one of those waiting for it through: in every state that is reached all threads have returned or one of them can move, no run is endless, and so all can return. What happens under such a rule is one of the interleavings that the other concurrency properties speak about.", "quantifier": "every database history, every set of clients, queries and rotations, every lock rule, every schedule", "why_tests_cant": "Deadlocks need particular schedules and lock implementations; a test runs a few schedules on one platform.", "anchors": ["src/db.rs: write_time_points, query, swap", "src/chunk/chunk.rs: insert, query, close"]}
{"id": "C63", "title": "What the server answers while the swap thread rotates", "statement": "The program at work: the server answers any sequence of requests, one after the other, while the swap thread rotates the database at any moments, on a new directory or one that earlier processes have left, with any failures of file operations. The responses are those of one sequence of rotations and of points written by the requests in their order: a write request is answered 200 when all its series were written, and 500 after the first series with a point on the edge of the window current at that moment, of which the later series are not written; a read request is answered 200 with one result per query, each that of the database at one moment in the middle of this sequence (the points of a chunk just rotated may come twice), or 500 if it asks for nothing or its body is no encoding of a read request; of a write request whose body goes wrong somewhere, what came before is written; another path gets 404; a body that cannot be read or decompressed, an answer that cannot be compressed, or a query from an instant back to an earlier one that a chunk of that moment brings down (C69), ends the serving, and nothing else does. The rotations are reported as they are in this sequence. Whatever the requests and the lock rule, server and swap thread never wait for each other forever, and can always come to the end.", "quantifier": "every history before, every sequence of requests, every sequence of rotations, every interleaving, every pattern of file failures, every lock rule", "why_tests_cant": "Needs every schedule of the two threads and every sequence of requests.", "anchors": ["src/server.rs: serve, _process, query, write", "src/db.rs: new, swap, write_time_points, query", "src/bin/monolith-server.rs: main"]}
{"id": "C64", "title": "What a database over one TiKV answers", "statement": "A database whose points and series are both kept in one TiKV, opened by one process after the other, takes writes, rotates and answers as follows: each chunk numbers its label sets 1, 2, 3, ... in order of first insertion, and the points of series n of every chunk, of every process and of every other database over that TiKV are one list, to which a point is appended if it is later than the last. This holds for queries over any two instants: a query panics exactly if one of the chunks so described makes it (C32), and is answered from them otherwise. As long as the process runs, its first window lasts and nobody else wrote to the TiKV, that is exactly what was written, as over a store of its own. It is not so that an answered point was written with the labels it is answered with (the first series of two windows share their points), nor that a database can be reopened: after a restart every query answers nothing until something is written. Nor is an acknowledged point always answered: the first point of a series may be refused, and later ones taken and dropped, because of points of other series.", "quantifier": "every sequence of processes, every sequence of writes and rotations, every query, every store without points that an earlier database may have left", "why_tests_cant": "Needs every history of several processes over a real TiKV; the tests use one in-memory store per chunk.", "anchors": ["src/backend/tikv.rs: get_instance, init_component", "src/storage/tikv_storage.rs", "src/indexer/tikv_indexer.rs", "src/chunk/chunk.rs: insert, query", "src/db.rs: new, swap, write_time_points, query"]}
{"id": "C65", "title": "Requests are read as protobuf says", "statement": "Reading the body of a write request, read request or (streamed) read response succeeds exactly when the bytes are an encoding of a message of that type in the protobuf wire format: tags and values in any order, with numbers in longer forms than needed, repeated fields, packed or unpacked enums, unknown fields and groups, and a body that ends between two fields, at whatever depth. The message read is the one the encoding stands for: of singular fields the last value, of repeated ones all in order, text exactly as sent, unknown fields and unknown enum values kept apart. Text is accepted exactly when it is UTF-8. Anything else is refused at its first fault, with exactly the fields before it taken (of a message that goes wrong inside, its fields before the fault). What the crate itself writes is an encoding of the message written, up to negative zeros.", "quantifier": "every sequence of bytes of less than 2^64", "why_tests_cant": "All byte strings a client may send.", "anchors": ["src/proto/types.rs: merge_from", "src/proto/remote.rs: merge_from", "src/server.rs: _process"]}
{"id": "C66", "title": "The program, from its command line to its answers", "statement": "The program is started with a command line: it runs a database in the given directory, over the given backends, with the given number of seconds per chunk (taken as 64-bit milliseconds), and answers under the two given paths, exactly when the numbers are acceptable and a TiKV configuration that is needed can be read. Its three threads then work in any interleaving: one sleeps for the chunk size, reads the clock and sends the reading, one receives readings and starts a chunk one after each, one answers the requests. If the clock goes forward, the responses are those of one sequence of points written and of rotations that begin one after the readings, in the order of the readings and none left out (as in C63), on an empty directory or on one that earlier runs left, whatever file operations fail. Whatever the threads have done so far, the server can always come to the end of its requests.", "quantifier": "every command line, every sequence of clock readings, every sequence of requests, every interleaving of the three threads, every pattern of file failures, every sequence of earlier processes", "why_tests_cant": "Needs every schedule of the three threads and every sequence of readings and requests.", "anchors": ["src/bin/monolith-server.rs: main, start_server", "src/db.rs: new, swap, write_time_points, query", "src/server.rs: serve"]}
{"id": "C67", "title": "What a database answers that keeps only its points or only its series in a TiKV", "statement": "The two types can be chosen one by one, so that a real TiKV holds only the points (and sled the series) or only the series (and sled the points). Process after process on one directory: With the points in TiKV, the database takes, refuses and answers, over any two instants, what C64 says of one with both in TiKV, so points of other windows and of other databases are answered under labels they were not written with. With the series in TiKV, windows and databases are kept apart: every operation is answered as over sled only, and a query over any two instants answers exactly what this process wrote, or panics as C32 says. Either way a restarted database answers nothing until something is written; with the series in TiKV the answer is always that of the last process alone, as if the earlier ones had not written anything.", "quantifier": "every sequence of processes, every sequence of writes and rotations, every query, every store without keys of new identifiers", "why_tests_cant": "Needs every history of several processes over a real TiKV; no test mixes the two types.", "anchors": ["src/bin/monolith-server.rs: main", "src/backend/tikv.rs: get_instance, init_component", "src/storage/*.rs", "src/indexer/*.rs", "src/chunk/chunk.rs: insert, query", "src/db.rs: new, swap, write_time_points, query"]}
{"id": "C68", "title": "Points written out of time order", "statement": "Points may be written in any order of their timestamps. The library's binary search, in both of the forms it has had, finds what it should in a sorted series; in an unsorted one it never makes a read with start <= end panic. The read of a stored series then gives a contiguous stretch of the points in the order they were appended if the range meets the span from the first to the last append, and otherwise the errors of C10. A query of the database, also after restarts and over HTTP, succeeds and changes nothing: it answers each label set at most once, with points written under exactly this label set, in the order they were written and each at most as often as it was written; a chunk contributes a stretch of each matching series, and exactly the points of the range from those series that were written in time order. It is not so that all points answered are in the range, nor that all points of the range are answered.", "quantifier": "every sequence of writes and rotations with timestamps in any order, every query with start <= end, every sequence of processes, every sequence of requests", "why_tests_cant": "The answer for an unsorted series depends on the path the search takes through it, on its length and on all of its timestamps.", "anchors": ["src/storage/common.rs:34-49 trim_time_series", "src/storage/sled_storage.rs: read_time_series", "src/db.rs: query", "src/server.rs: serve"]}
{"id": "C69", "title": "The server on requests of every kind, and when it stops", "statement": "Every HTTP request is of one of five kinds: a write, a read, a read whose body is no message, a request for another path, or one without a body that can be decompressed. In a sequence of such requests, with points in time order, all are answered up to the first fatal one: writes and reads as C55 says, requests for other paths with 404. Fatal are exactly the requests without a readable body and the reads with a query that panics as C32 says; such a request gets no answer, it ends the serving, no request after it is answered or has an effect, and all that was written before it is kept. Instants before 1970, which are negative in a request, wrap around: a query from such an instant is answered with no series at all, and a query up to one as if asked up to the largest instant.", "quantifier": "every sequence of requests of all kinds after every history, every query range", "why_tests_cant": "Sequences are unbounded and whether a request is fatal depends on all that was written before it.", "anchors": ["src/server.rs: serve", "src/db.rs: query", "src/chunk.rs: query", "src/storage/common.rs: trim_time_series"]}
{"id": "C70", "title": "The server over a real TiKV, and the program tikv-cli", "statement": "Requests of the five kinds of C69 are sent to a server whose database is over a real TiKV, with both its types or only one of them, after any history of processes on the directory and any operations of the running one. A write makes one batch per series up to the first that fails, and is answered with 200 if none failed and with 500 otherwise, where a batch fails as C64 and C67 say (also because of points of other series and other databases). A read is answered with exactly what C64 and C67 say the chunks show at that moment; other paths get 404, a read whose body is no message or that asks for nothing 500. The first request without a readable body, or with a query that panics on these chunks, ends the serving unanswered, and no request after it is answered or has an effect. The database is afterwards in the state of the same history with these batches made. The program tikv-cli keeps both types in TiKV, its windows last 12000 seconds and it serves /read and /write; started in an empty directory over a TiKV without points it answers, until its first window ends, exactly what was written since.", "quantifier": "every sequence of processes and operations before, every sequence of requests of all kinds, every query range", "why_tests_cant": "Needs a server over a real TiKV and every history of it; there is no test of either.", "anchors": ["src/bin/tikv-cli.rs: main", "src/server.rs: serve", "src/db.rs: query, write_time_points", "src/backend/tikv.rs: get_instance"]}
{"id": "C71", "title": "Several databases at once over one TiKV", "statement": "Any number of databases, each on a directory of its own and with both its types kept in one real TiKV that they share, are started, restarted, written to, rotated and queried in any order, one act after the other. Every act returns, and every query over any two instants answers (or panics), as follows: the label sets a database numbers, window by window, are its own, and nobody else's acts change them; the points of series n of all windows of all databases are one list, to which a point is appended if it is later than the last. So every point answered was written to one of the databases, and every label set answered was written to the answering one since it was started. A point that was taken, and is later than all points written before to any of them, is answered from then on by the running process that took it. It is not so that a database answers only points written to it, nor that an acknowledged point is answered if each database is given its points in order. If two processes write at once, even the newest acknowledged point may be lost.", "quantifier": "every number of databases, every sequence of starts, writes and rotations in any order, every query over any two instants, every store without points and keys of new identifiers", "why_tests_cant": "Needs every history of several processes over a real TiKV; there is no test with more than one.", "anchors": ["src/backend/tikv.rs: get_instance, init_component", "src/storage/tikv_storage.rs", "src/indexer/tikv_indexer.rs", "src/chunk/chunk.rs: insert, query", "src/db.rs: new, swap, write_time_points, query"]}
{"id": "C72", "title": "Comparing and hashing label sets", "statement": "Comparing label set a with label set b (==) gives true exactly if the labels of a, in order, are the first labels of b, panics exactly if b is a proper beginning of a, and gives false exactly if they differ at a place both have. What is hashed of a list of labels determines the list: different lists feed different bytes to the hasher. Therefore a hash map that compares only keys of equal hashes keeps the label sets of an answer apart as long as no two of them collide, whatever its hash function. The hash of a label set is the SipHash-1-3 with keys 0 of its names and values, each followed by the byte 255: a 64-bit number that does not depend on the order in which the labels were given, once they are sorted. It is not so that equal label sets have equal hashes, that == is symmetric or always returns, nor that the hash of an unsorted label set does not depend on its order.", "quantifier": "every two lists of labels, every hash function", "why_tests_cant": "All pairs of label sets; the only test of the hash prints it.", "anchors": ["src/common/label.rs: Hash and PartialEq for Labels, get_hash, sort", "src/db.rs:208 HashMap of query"]}
{"id": "C73", "title": "Chunk sizes of every magnitude", "statement": "A chunk size can be given for which the end of a chunk's window, its start plus the size, lies beyond the last instant 2^64-1 ms. Without overflow checks the window then ends where the sum comes round to, before its start, and the database goes on: writes, rotations and queries are as for other windows, but such a window takes in no point: a single point is refused as out of range, every batch is acknowledged although nothing of it is stored, and if the first window is such a one every query is answered with nothing. With overflow checks opening panics on an empty directory, leaving only the database's metadata file, and never succeeds on any directory; a rotation into such a window panics, and the database goes on with the window it has, answering what was written before and after. While no window reaches that far all is as in C30 and C31. The size in milliseconds is itself taken modulo 2^64.", "quantifier": "every chunk size below 2^64 ms, every history of writes and of rotations at later and later instants, every query, both build profiles; for opening with overflow checks every directory and every pattern of file failures", "why_tests_cant": "Needs clocks near the end of time or a chunk size of hundreds of millions of years, and both build profiles; no test sets either.", "anchors": ["src/db.rs:57-67 MonolithDb::new", "src/db.rs:176-200 write_time_points, write_time_point", "src/db.rs:269-276 swap", "src/chunk/chunk.rs is_in_range", "src/common/option.rs:25-31"]}
{"id": "C74", "title": "Builds with and without overflow checks exchange compressed data", "statement": "Whatever is written to a bit stream, fed to a compactor (the bytes being taken at any time) or decompressed: the build with overflow checks panics, or it returns exactly what the build without them returns, be it a value or an error. Hence a series that the build with overflow checks compresses and reads back is compressed to the same bytes by both builds and read back by both, whichever wrote it. It is not so for every series that the build without them reads back: there are some on which the other panics both when it writes and when it reads.", "quantifier": "every sequence of bit stream operations, every script of feeding and taking, every byte string and every series", "why_tests_cant": "Tests run in one build profile; the claim compares the two on every input.", "anchors": ["src/compaction/mod.rs: Bstream, Compactor, Decompactor", "src/compaction/gorilla.rs"]}
{"id": "C75", "title": "A process that ends in the middle of a write", "statement": "A database over sled takes any history of writes and rotations, in one process or in several that worked on the directory one after the other, and the (last) process ends at any moment of a further write, of one point or of a batch; the directory is then opened again. Opening succeeds. A query that has no label in common with the write is answered as it was before the write. If the current window already had a series with this label set, every query is answered as if the write had been of its first k points, for one k that is the same for all queries, and had ended there. It is not so for every query if the write was the first of its series in the window: then stored points of other series, answered before the write, can be missing from an answer that reports success. But also then every query whose range is not reversed is answered, every earlier window in full, and from the current window with nothing but the points in the range of matching series that it holds: for each label set all of them or none.", "quantifier": "every history, every write and every moment at which it can be cut, every query", "why_tests_cant": "The moments between two steps of the storage cannot be hit by tests, and what is lost depends on the whole history.", "anchors": ["src/db.rs:176-240 write_time_points, write_time_point, query", "src/db.rs:40-130 new", "src/chunk/chunk.rs: insert, query", "src/indexer/sled_indexer.rs", "src/storage/sled_storage.rs"]}
{"id": "C76", "title": "A process that ends while the server answers a request", "statement": "A server over sled has any history of writes and rotations behind it and is at work on a request; its process ends at any moment, and the directory is opened again. If the request was no write request, what is found on opening is what would have been found had the process ended before the request. If it was a write request, opening succeeds, and there is a part of the request (its first series in full, and of one more series the first points) such that: every query over an interval is answered with every earlier window in full and, of the current window, for each label set nothing or all points in the interval of a matching series, as they are after that part was written, so no point is answered that was not written; if the current window already had all series of the request, there is such a part for which every query over any two instants is answered as by a database to which just that part was written; and, in either case, a query that has no label in common with any series of the request is answered as before the request. Series after one with a point on an end of the window are never written. The same holds of a whole sequence of requests, answered one after the other, and any moment of it: the requests answered by then were answered rightly, and what they acknowledged counts as written in all of the above, together with a part of the request that was being worked on; in particular a query that has no label in common with that request finds everything acknowledged, in full.", "quantifier": "every history, every request as it stands on the wire, every moment at which the process can end, every query", "why_tests_cant": "The moments between two steps of the storage cannot be hit by tests, and the request is not atomic.", "anchors": ["src/server.rs: serve, process, write", "src/db.rs:176-240 write_time_points, query", "src/db.rs:40-130 new", "src/chunk/chunk.rs: insert, query", "src/indexer/sled_indexer.rs", "src/storage/sled_storage.rs"]}
{"id": "C77", "title": "Looking up a file in a directory", "statement": "get_file_from_dir, given a directory and a file name, returns the opened file exactly if an entry of that name is listed, every readable entry listed before it has a name that is text (UTF-8), and opening succeeds; nothing exactly if all readable entries have names that are text and none is the name; an error exactly if the directory cannot be read or the entry is found and cannot be opened; and it panics exactly if an entry whose name is not text is listed before the file (or, if the file is not there, anywhere). Entries that could not be read are passed over. So whether a file is found can depend on the order in which the system lists the directory.", "quantifier": "every listing in every order, with any names and any entries that could not be read, and every file name", "why_tests_cant": "The order and the names in a directory are the system's; no test calls the function.", "anchors": ["src/common/utils.rs:130-147 get_file_from_dir"]}
{"id": "C78", "title": "Comparing chunks", "statement": "Two chunks are equal (==) exactly if their windows have the same start and end, whatever is stored in them. They are ordered by the start of the window alone: the order is total, comparing the other way round gives the opposite, and it is transitive. Equal chunks compare as Equal, and for chunks whose windows have one size the converse holds. In general it does not, against the contract of Ord: chunks with the same start and different ends compare as Equal and are not equal.", "quantifier": "every three chunks", "why_tests_cant": "All triples of windows; no test compares chunks.", "anchors": ["src/chunk/chunk.rs:178-216 PartialEq, Eq, PartialOrd, Ord for Chunk"]}
{"id": "C79", "title": "Any number of processes that end in the middle of a write", "statement": "Processes work one after the other on a directory over sled, each opening it and doing any writes and rotations; each either stops after its last operation or ends at any moment of a further write, of one point or of a batch. Whatever they left, the next process opens the directory, carries out its operations and answers every query: every window in which no process ended gives all its points in the range, in the order of the windows; a window at work on which a process ended does so too if the write that was cut was to a series that the window had, or has no label in common with the query; otherwise it gives, for each series, either nothing or all points in the range of a matching series it holds. Such a window holds what the process had written before and the first points of the write that was cut. Hence nothing is missing from the answer to a query that none of the cuts can harm, and nothing is ever answered that was not written. A process that ends at any moment of a server's work on a write request has written the first of the series of the request and ended at work on one more, so all this holds of it too. (Each process starts later than the last window was opened and not before the points stored, and the points of a series come in order of time.)", "quantifier": "every number of processes, every history of each, every write and every moment at which each can be cut, every query", "why_tests_cant": "The damage of one cut must not spread over later openings; tests can neither cut a write nor do so several times in all combinations.", "anchors": ["src/db.rs:40-130 new", "src/db.rs:176-240 write_time_points, write_time_point, query", "src/db.rs:269-290 swap", "src/chunk/chunk.rs: insert, query", "src/indexer/sled_indexer.rs", "src/storage/sled_storage.rs"]}
