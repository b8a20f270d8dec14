{"id": "C01", "title": "Stored cells read back as the same value", "statement": "Writing any storable column value (null, bool, unsigned/signed integer of any width, float, binary, string, list nested to any depth) to disk and reading it back yields the identical value and type tag, and consumes exactly the bytes that were written, so the next value in the file is found at the right place.", "quantifier": "every value, including lists nested to any depth, followed by any bytes", "why_tests_cant": "The value space is unbounded (arbitrary nesting and lengths); tests only sample a few cells.", "anchors": ["server/src/engine/storage/common_encoding/r1/obj.rs: cell::encode / StorageCellTypeID / ElementYield", "server/src/engine/storage/common_encoding/r1/mod.rs"]}
{"id": "C02", "title": "Stored metadata dictionaries read back unchanged", "statement": "Any property dictionary attached to a space or model (values are any storable value or nested dictionaries) decodes from its stored bytes to the same mapping.", "quantifier": "every dictionary with any nesting depth and any number of entries", "why_tests_cant": "Unbounded nesting and key sets.", "anchors": ["server/src/engine/storage/common_encoding/r1/map.rs: GenericDictSpec / enc_dict / dec_dict", "server/src/engine/data/dict.rs"]}
{"id": "C03", "title": "Stored table layouts read back unchanged", "statement": "The definition of a model (name of the primary key, all fields in declaration order, each with nullability and type layers) that is written in the system log decodes to the same definition.", "quantifier": "every model definition: any number of fields, any layer depth, any names", "why_tests_cant": "Combination space of field counts, names and layers is unbounded.", "anchors": ["server/src/engine/storage/common_encoding/r1/obj.rs: ModelLayoutRef, FieldRef, LayerRef", "server/src/engine/storage/common_encoding/r1/map.rs: FieldMapSpec"]}
{"id": "C04", "title": "System log entries read back unchanged", "statement": "Every system-log entry (create/alter/drop space, create/alter-add/alter-remove/alter-update/drop model, create/alter/drop user) decodes from its stored payload to the same operation with the same arguments.", "quantifier": "every operation kind with any arguments", "why_tests_cant": "Arguments are unbounded.", "anchors": ["server/src/engine/storage/common_encoding/r1/impls/gns/space.rs", "server/src/engine/storage/common_encoding/r1/impls/gns/model.rs", "server/src/engine/storage/common_encoding/r2.rs", "server/src/engine/txn/gns"]}
{"id": "C05", "title": "File header accepted iff it is a header of the right kind", "statement": "A data file header produced by this server for a given file class, file kind and version is accepted when the file is opened as that class/kind/version and the metadata is recovered exactly; opening it as another class, kind or version, or with damaged magic/version bytes, is refused.", "quantifier": "every header metadata combination and every 64-byte block", "why_tests_cant": "Requires ranging over all 64-byte headers.", "anchors": ["server/src/engine/storage/common/sdss/impls/sdss_r1/mod.rs: HeaderV1::_encode/_decode, SimpleFileSpecV1", "server/src/engine/storage/common/static_meta.rs"]}
{"id": "C06", "title": "Clean journal reopening replays exactly the committed events", "statement": "For every history of journal use made of any number of sessions, each committing any number of events and then closing cleanly, opening the file replays exactly the committed events, in commit order, each once.", "quantifier": "every number of sessions, every number and content of events per session", "why_tests_cant": "Unbounded histories.", "anchors": ["server/src/engine/storage/v2/raw/journal/raw/mod.rs: RawJournalWriter, RawJournalReader::scroll", "server/src/engine/storage/v2/raw/journal/mod.rs: EventLogAdapter"]}
{"id": "C07", "title": "A journal cut short by a crash is never silently misread", "statement": "If the process or machine dies so that only some prefix of the journal file survives, opening the file either fails, or the surviving prefix is exactly the file as it was at an earlier clean close, in which case exactly the events committed up to that close are replayed.", "quantifier": "every history and every truncation point (every byte offset)", "why_tests_cant": "All crash points of all histories cannot be enumerated by tests.", "anchors": ["server/src/engine/storage/v2/raw/journal/raw/mod.rs: RawJournalReader::_scroll/_apply_next_event_and_stop/handle_close/handle_reopen"]}
{"id": "C08", "title": "Replayed journal entries are an unbroken numbered sequence", "statement": "Whatever bytes are in a journal file, if opening it succeeds then the entries it replays carry the consecutive sequence numbers 0,1,2,... in file order with no gap, repetition or reordering, the file ends in a clean-close record, and after opening the writer continues with the next number.", "quantifier": "every byte string used as journal file", "why_tests_cant": "Ranges over all byte strings (including adversarially damaged ones).", "anchors": ["server/src/engine/storage/v2/raw/journal/raw/mod.rs: RawJournalReader, __refresh_known_txn"]}
{"id": "C09", "title": "Damaged system-log entry payloads are detected up to checksum strength", "statement": "If the length-and-payload section of a system-log entry is altered and the journal still opens, then the altered section has the same checksum as recorded; in particular the entry applied is always the one whose checksum is stored beside it.", "quantifier": "every altered payload, every checksum function", "why_tests_cant": "Ranges over all corruptions.", "anchors": ["server/src/engine/storage/v2/raw/journal/mod.rs: EventLogAdapter::decode_apply/commit_direct", "server/src/engine/storage/common/checksum.rs"]}
{"id": "C10", "title": "A failed journal write followed by successful self-repair leaves a usable journal", "statement": "After a failed append, if the driver health check declares the journal healthy again and later events are committed and the journal is closed cleanly, then reopening the journal succeeds and replays exactly the events reported as committed.", "quantifier": "every history with write failures at any point", "why_tests_cant": "I/O failure points are not reachable in unit tests.", "anchors": ["server/src/engine/storage/v2/raw/journal/raw/mod.rs: txn_context, __lwt_heartbeat", "server/src/engine/fractal/mgr.rs", "server/src/engine/fractal/drivers.rs"]}
{"id": "C11", "title": "Buffered file writer never loses, duplicates or reorders bytes", "statement": "For any sequence of buffered writes, write-throughs and flushes that all succeed, the bytes on disk followed by the bytes still buffered are exactly the concatenation of everything written in order; the tracked cursor equals the number of bytes on disk; after a sync everything is on disk; and the running checksum is the checksum of exactly the tracked bytes.", "quantifier": "every sequence of operations with any chunk sizes (smaller, equal or larger than the 8 KiB buffer)", "why_tests_cant": "Buffer boundary interleavings are unbounded.", "anchors": ["server/src/engine/storage/common/sdss/impls/sdss_r1/rw.rs: TrackedWriter"]}
{"id": "C12", "title": "Restart reproduces the namespace", "statement": "After any sequence of space/model/user administration statements (successful or failing), replaying the system log written so far yields the same spaces (with properties), the same models (with fields in order) and the same users as were visible in memory just before the restart.", "quantifier": "every sequence of administrative statements", "why_tests_cant": "Unbounded histories; tests cover a handful of statement orders.", "anchors": ["server/src/engine/core/space.rs", "server/src/engine/core/model/mod.rs: ModelData", "server/src/engine/core/model/alt.rs", "server/src/engine/core/system_db.rs", "server/src/engine/storage/v2/impls/gns_log.rs", "server/src/engine/storage/common_encoding/r1/impls/gns"]}
{"id": "C13", "title": "Failed administrative statements change nothing", "statement": "A create/alter/drop statement that returns an error leaves the visible namespace and the system log unchanged.", "quantifier": "every namespace state and every statement, including statements whose log write fails", "why_tests_cant": "All states and all failure points.", "anchors": ["server/src/engine/core/space.rs: exec_create/exec_alter/exec_drop", "server/src/engine/core/model/mod.rs: transactional_exec_create/transactional_exec_drop", "server/src/engine/core/dcl.rs"]}
{"id": "C14", "title": "The root account cannot be lost and only root administers users", "statement": "In every reachable state the root user exists; no statement by anyone removes it; and any user-administration statement issued by a non-root connection is refused without effect.", "quantifier": "every sequence of statements by any mix of users", "why_tests_cant": "Security invariants over all histories.", "anchors": ["server/src/engine/core/dcl.rs", "server/src/engine/core/system_db.rs", "server/src/engine/core/exec.rs: dispatch_to_executor"]}
{"id": "C15", "title": "Login succeeds exactly for the right password", "statement": "A login attempt succeeds if and only if the user exists and the supplied non-empty password is the one most recently set for it (up to the password hash function); it is given root rights if and only if the user name is root.", "quantifier": "every history of user administration and every attempt", "why_tests_cant": "All histories.", "anchors": ["server/src/engine/core/system_db.rs: verify_user", "server/src/engine/net/protocol/mod.rs: do_handshake"]}
{"id": "C16", "title": "A user's password can be changed by root", "statement": "An ALTER USER statement by root naming an existing user and giving a new password succeeds, after which the new password and only the new password is accepted.", "quantifier": "every user and password", "why_tests_cant": "Quantifies over histories and users.", "anchors": ["server/src/engine/core/dcl.rs: alter_user"]}
{"id": "C17", "title": "Spaces and models stay consistent", "statement": "In every reachable namespace, a model is listed under a space exactly if it exists in the model index, each under one existing space; a non-empty space cannot be dropped unless forced, and a forced drop removes the space with all its models and nothing else.", "quantifier": "every sequence of DDL statements", "why_tests_cant": "Invariant over unbounded histories.", "anchors": ["server/src/engine/core/space.rs", "server/src/engine/core/model/mod.rs", "server/src/engine/core/mod.rs: GNSData"]}
{"id": "C18", "title": "Rows always satisfy the declared schema after INSERT", "statement": "A row accepted by INSERT (positional or by name) has exactly the declared fields, every stored value has the field's declared type and lies in the range of its declared width (list elements likewise, to any nesting depth), null appears only in nullable fields, and the primary key is not null.", "quantifier": "every model definition and every insert statement", "why_tests_cant": "All types x values x nesting.", "anchors": ["server/src/engine/core/dml/ins.rs: prepare_insert", "server/src/engine/core/model/mod.rs: Field::vt_data_fpath, layertrace", "server/src/engine/data/tag.rs"]}
{"id": "C19", "title": "Primary keys are unique and point queries see the last write", "statement": "For every history of INSERT, UPDATE, DELETE and SELECT on a model, an INSERT succeeds exactly when its key is absent, DELETE and UPDATE succeed exactly when it is present, and SELECT returns the values of the last successful write to that key; other rows are not affected.", "quantifier": "every history on one model with any keys", "why_tests_cant": "Unbounded histories.", "anchors": ["server/src/engine/core/index/mod.rs: PrimaryIndex", "server/src/engine/core/dml"]}
{"id": "C20", "title": "UPDATE is all-or-nothing", "statement": "An UPDATE that returns an error leaves the row exactly as it was.", "quantifier": "every row and every list of assignments", "why_tests_cant": "Error position within an arbitrary list of assignments.", "anchors": ["server/src/engine/core/dml/upd.rs: update"]}
{"id": "C21", "title": "UPDATE never stores an out-of-range, wrapped or ill-typed value", "statement": "After a successful UPDATE every column of the row still has its declared type, range and nullability, and arithmetic assignments store the mathematically exact result (integer) or report an error.", "quantifier": "every row satisfying the schema, every list of assignments", "why_tests_cant": "All operand values and operator combinations.", "anchors": ["server/src/engine/core/dml/upd.rs: update, OPERATOR table"]}
{"id": "C22", "title": "Rows written before an ALTER MODEL show added fields as null and no removed fields", "statement": "For every interleaving of row writes and ALTER MODEL ADD/REMOVE statements, reading any row yields exactly the current fields: values written for surviving fields, and null for fields added after the row was written.", "quantifier": "every interleaving of inserts, alters and reads", "why_tests_cant": "Unbounded interleavings of schema versions.", "anchors": ["server/src/engine/core/model/delta.rs: DeltaState", "server/src/engine/core/index/row.rs: resolve_schema_deltas_and_freeze", "server/src/engine/core/dml/sel.rs"]}
{"id": "C23", "title": "ALTER MODEL never invalidates stored data", "statement": "An accepted ALTER MODEL never removes or retypes the primary key, only widens a field's type (same type class) or relaxes nullability, so that every row valid before is valid after; a change that would need a narrower type, or a nullable field to be made non-null, is refused.", "quantifier": "every model and every alter statement", "why_tests_cant": "All type pairs and layer depths.", "anchors": ["server/src/engine/core/model/alt.rs: AlterPlan", "server/src/engine/core/model/mod.rs: Layer compatibility"]}
{"id": "C24", "title": "Saved model data reloads to the same rows", "statement": "For a model whose schema is not altered, after any history of row writes with any batching of the pending changes to disk, reloading the model file yields exactly the live rows.", "quantifier": "every write history and every batching of it", "why_tests_cant": "Unbounded histories and schedules of the background flusher.", "anchors": ["server/src/engine/storage/v2/impls/mdl_journal.rs: BatchWriter, BatchRestoreState, ModelDataAdapter::finish", "server/src/engine/core/model/delta.rs: DataDelta", "server/src/engine/fractal/mgr.rs"]}
{"id": "C25", "title": "Saved model data reloads correctly across ALTER MODEL", "statement": "As C24, but with ALTER MODEL ADD/REMOVE statements interleaved with the writes and flushes.", "quantifier": "every interleaving of writes, flushes and alters", "why_tests_cant": "Unbounded interleavings.", "anchors": ["server/src/engine/storage/v2/impls/mdl_journal.rs: decode_batch_event/finish", "server/src/engine/core/model/alt.rs"]}
{"id": "C26", "title": "A failed flush loses no change", "statement": "When writing a batch fails part-way, every pending change is either already durably in the file or still queued for the next attempt.", "quantifier": "every queue content and every failure position", "why_tests_cant": "All failure points.", "anchors": ["server/src/engine/storage/v2/impls/mdl_journal.rs: write_batch", "server/src/engine/fractal/mgr.rs: try_write_model_data_batch, re_enqueue"]}
{"id": "C27", "title": "Change numbers are unique and increasing", "statement": "Every row write to a model gets a change number strictly larger than all earlier ones, also after any number of restarts.", "quantifier": "every history including restarts", "why_tests_cant": "Histories across restarts.", "anchors": ["server/src/engine/core/model/delta.rs: create_new_data_delta_version, __set_delta_version", "server/src/engine/storage/v2/impls/mdl_journal.rs: finish"]}
{"id": "C28", "title": "Login handshake does not depend on packet fragmentation", "statement": "However the bytes of a client handshake are split into network reads, the server reaches the same decision with the same user name and password, and never reads beyond the handshake.", "quantifier": "every byte string and every way of splitting it", "why_tests_cant": "Exponentially many fragmentations of unbounded inputs.", "anchors": ["server/src/engine/net/protocol/handshake.rs: CHandshake::resume_with", "server/src/engine/net/protocol/mod.rs: do_handshake"]}
{"id": "C29", "title": "No client hello can crash a connection handler", "statement": "For every byte string sent as handshake the parser returns (accept, reject with error, or wait for more); it never aborts the handler.", "quantifier": "every byte string", "why_tests_cant": "All inputs.", "anchors": ["server/src/engine/net/protocol/handshake.rs: CHandshakeStatic::parse"]}
{"id": "C30", "title": "A query packet is delivered intact however it is fragmented", "statement": "For every query and parameter block, the packet built for them is recognised as complete exactly when all bytes arrived, for every fragmentation, and yields exactly that query text and that parameter block.", "quantifier": "every query, every parameter block, every fragmentation", "why_tests_cant": "Unbounded inputs x fragmentations.", "anchors": ["server/src/engine/net/protocol/exchange.rs: QueryTimeExchangeState/resume, SQuery"]}
{"id": "C31", "title": "No query packet can crash a connection handler", "statement": "For every byte string received as a query packet the parser returns without aborting, and a packet declared complete has a query part that lies within the packet.", "quantifier": "every byte string and fragmentation", "why_tests_cant": "All inputs.", "anchors": ["server/src/engine/net/protocol/exchange.rs", "server/src/engine/net/protocol/mod.rs: query_loop"]}
{"id": "C32", "title": "Responses are unambiguous", "statement": "A client can decode the response bytes of any result (empty, row, multiple rows, error) back to exactly the values that were sent, and no response is a proper prefix of another.", "quantifier": "every list of rows of any cells", "why_tests_cant": "Unbounded values.", "anchors": ["server/src/engine/net/protocol/mod.rs: Response encoding", "server/src/engine/core/dml/sel.rs", "server/src/engine/data/cell.rs"]}
{"id": "C33", "title": "Integers are printed exactly", "statement": "The decimal text the server emits for any 8/16/32/64-bit signed or unsigned integer is the exact canonical decimal representation.", "quantifier": "every integer of each width", "why_tests_cant": "2^64 values.", "anchors": ["server/src/engine/mem/numbuf.rs: IntegerRepr"]}
{"id": "C34", "title": "Parameters can never change the meaning of a query", "statement": "Whatever bytes are passed as query parameters, the token sequence the server works with is the query text's own token sequence with each placeholder that has a parameter replaced by exactly one literal (or null), in order; parameter bytes never become keywords, identifiers or symbols.", "quantifier": "every query text and every parameter block", "why_tests_cant": "Injection safety ranges over all parameter bytes.", "anchors": ["server/src/engine/ql/lex/mod.rs: SecureLexer"]}
{"id": "C35", "title": "Parameter literals carry exactly the value sent", "statement": "For every null, boolean, integer, float, binary or string value, the parameter encoding sent by a client is read as a literal of that type with exactly that value; integer text out of the 64-bit range and malformed text are refused.", "quantifier": "every value and every malformed text", "why_tests_cant": "All values.", "anchors": ["server/src/engine/ql/lex/mod.rs: SCAN_PARAM table", "server/src/engine/mem/scanner.rs"]}
{"id": "C36", "title": "Keywords are recognised exactly", "statement": "A word in a query is treated as a keyword if and only if it is, ignoring case, one of the reserved words; every other word is an identifier, except the truth values, which are literals.", "quantifier": "every byte string", "why_tests_cant": "Perfect hashing must be right for all strings, not just the reserved ones.", "anchors": ["server/src/engine/ql/lex/raw.rs: Keyword::get"]}
{"id": "C37", "title": "The ordered map behaves as an insertion-ordered map", "statement": "For every sequence of insert/update/upsert/remove/clear operations the ordered index answers lookups like a mathematical map and iterates in order of last write, forwards and backwards, each key once; recycled memory is never observable.", "quantifier": "every operation sequence, keys and values", "why_tests_cant": "Pointer-structure invariants over unbounded histories.", "anchors": ["server/src/engine/idx/stord/mod.rs: IndexSTSeqDll", "server/src/engine/idx/stord/iter.rs", "server/src/engine/idx/stord/config.rs"]}
{"id": "C38", "title": "The concurrent row index behaves as a map", "statement": "For every sequence of insert/update/upsert/delete operations, and for every hash function, lookups in the row index return the last value written for the key and nothing else; the reported size equals the number of keys.", "quantifier": "every operation sequence, every hash function (including total collisions)", "why_tests_cant": "Hash collisions at every trie level cannot be tested exhaustively.", "anchors": ["server/src/engine/idx/mtchm/mod.rs: RawTree", "server/src/engine/idx/mtchm/patch.rs", "server/src/engine/idx/mtchm/imp.rs"]}
{"id": "C39", "title": "Full scans of the row index visit every row once", "statement": "Iterating over the row index returns each stored row exactly once and never overflows its traversal stack.", "quantifier": "every tree shape", "why_tests_cant": "All tree shapes/hash functions.", "anchors": ["server/src/engine/idx/mtchm/iter.rs: RawIter"]}
{"id": "C40", "title": "The change queue is FIFO and loses nothing under concurrency", "statement": "For every number of threads and every interleaving of their atomic steps, the items dequeued so far followed by the items in the queue are exactly the items enqueued so far in the order their enqueue took effect.", "quantifier": "every number of threads and every schedule", "why_tests_cant": "All schedules.", "anchors": ["server/src/engine/sync/queue.rs: Queue"]}
{"id": "C41", "title": "Only root can run schema statements", "statement": "Every CREATE, ALTER, DROP or user statement from a connection not logged in as root is refused and changes nothing, whatever tokens follow.", "quantifier": "every token sequence and state", "why_tests_cant": "All token sequences.", "anchors": ["server/src/engine/core/exec.rs: dispatch_to_executor, run_blocking_stmt"]}
{"id": "C42", "title": "The default space selected with USE applies to unqualified names only", "statement": "After USE s succeeds, an unqualified model name means that model in s and a qualified name is unaffected; after USE NULL an unqualified name is an error.", "quantifier": "every connection history and statement", "why_tests_cant": "All histories.", "anchors": ["server/src/engine/core/exec.rs: cstate_use", "server/src/engine/ql/ast/mod.rs: try_entity_ref"]}
{"id": "C43", "title": "The reported health status is accurate", "statement": "The system reports itself healthy exactly when no storage driver is in a failed state, after every sequence of faults and recoveries.", "quantifier": "every sequence of faults and recoveries", "why_tests_cant": "Histories of failures.", "anchors": ["server/src/engine/fractal/mod.rs: GlobalHealth", "server/src/engine/fractal/mgr.rs", "server/src/engine/fractal/drivers.rs"]}
{"id": "C44", "title": "Property updates on a space merge exactly", "statement": "ALTER SPACE with a properties dictionary sets the given entries (recursively), removes those given as null and keeps all others.", "quantifier": "every current dictionary and every patch, any nesting", "why_tests_cant": "Unbounded nesting.", "anchors": ["server/src/engine/data/dict.rs: rprepare_metadata_patch, rmerge_data_with_patch", "server/src/engine/core/space.rs: exec_alter"]}
{"id": "C45", "title": "Type names are recognised exactly", "statement": "A field type in a model definition is accepted if and only if every layer name is one of the documented type names, and scalar types are innermost with only lists outside.", "quantifier": "every list of layer names", "why_tests_cant": "Perfect hashing over all strings and all depths.", "anchors": ["server/src/engine/core/model/mod.rs: Field::parse_layers, TagSelector lookup"]}
{"id": "C46", "title": "Parsing accepts exactly complete statements", "statement": "INSERT/SELECT/UPDATE/DELETE parsers consume every token of an accepted statement and return exactly the entity, fields, assignments and conditions written; a statement with leftover or missing tokens is refused, and no token sequence makes the parser read outside the statement.", "quantifier": "every token sequence", "why_tests_cant": "All token sequences.", "anchors": ["server/src/engine/ql/dml", "server/src/engine/ql/ast/mod.rs"]}
{"id": "C47", "title": "A stored value has only one accepted byte form", "statement": "If the server accepts some bytes as a stored value or property dictionary, those bytes are exactly the encoding of the value it returns, followed by the unread rest; the value satisfies the structural rules (valid text, no duplicate keys).", "quantifier": "every byte string", "why_tests_cant": "Ranges over all byte strings.", "anchors": ["server/src/engine/storage/common_encoding/r1/obj.rs: decode_element", "server/src/engine/storage/common_encoding/r1/map.rs: PersistMapImpl::obj_dec"]}
{"id": "C48", "title": "Reading stored metadata never reads outside the input", "statement": "Decoding any byte string as a stored value, dictionary or layout either succeeds or reports corruption; it never accesses memory outside the input.", "quantifier": "every byte string", "why_tests_cant": "Ranges over all byte strings (truncated or damaged files).", "anchors": ["server/src/engine/storage/common_encoding/r1/map.rs: obj_dec", "server/src/engine/mem/scanner.rs: next_chunk_variable", "server/src/engine/storage/v2/impls/mdl_journal.rs: DataSource for TrackedReaderContext"]}
{"id": "C49", "title": "Each released server version has its own version number in file headers", "statement": "Two different released server versions are given different numbers by the version table that is written into every file header, so that a file written by one release can be recognised by another.", "quantifier": "every pair of version tags in the server's release list", "why_tests_cant": "A test checks a handful of versions against the function itself; the claim is about all pairs in the list and about tags in unknown form.", "anchors": ["server/src/engine/storage/common/versions/server_version.rs: fetch_id, VERSION_TAGS"]}
{"id": "C50", "title": "A short write by the operating system is continued where it stopped", "statement": "When the operating system accepts only part of the bytes handed to a write (which POSIX allows at any time, e.g. when the disk is nearly full or a signal arrives), the storage layer continues with the remaining bytes, so that a write reported as successful put exactly the given bytes into the file, and the call returns.", "quantifier": "every buffer and every sequence of partial write results", "why_tests_cant": "The tests use a virtual file system that always accepts the full buffer; partial writes never occur in them.", "anchors": ["server/src/engine/storage/common/interface/fs.rs: FileWriteExt::fwrite_all_count", "server/src/engine/storage/common/sdss/impls/sdss_r1/rw.rs: TrackedWriter::untracked_write, flush_buf"]}
{"id": "C51", "title": "Damage confined to eight consecutive bytes of a closed journal is always detected", "statement": "If at most eight consecutive bytes, anywhere after the header of a cleanly closed system log, are replaced by other bytes, opening the log reports an error instead of replaying altered events.", "quantifier": "every history of sessions and events, every position, every replacement of up to 8 bytes", "why_tests_cant": "Ranges over all files and all damage patterns; relies on the error-detection property of the 64-bit CRC, which no finite test establishes.", "anchors": ["server/src/engine/storage/v2/raw/journal/raw/mod.rs: RawJournalReader", "server/src/engine/storage/v2/raw/journal/mod.rs: EventLogAdapter", "server/src/engine/storage/common/checksum.rs: SCrc64"]}
{"id": "C52", "title": "Queries sent back to back are all answered", "statement": "A client that sends a second query packet before it received the answer to the first (so that both may arrive in one network read) still gets both answers, in order.", "quantifier": "every sequence of query packets and every division of the byte stream into network reads", "why_tests_cant": "Whether a read boundary falls inside, at, or beyond a packet end depends on network timing; tests use one packet per read.", "anchors": ["server/src/engine/net/protocol/mod.rs: do_exchange loop", "server/src/engine/net/protocol/exchange.rs: QueryTimeExchangeState"]}
{"id": "C53", "title": "A rejected handshake names a field that is really wrong", "statement": "When the server rejects a client hello because of its fixed header, the reported error code is that of one of the header fields the client got wrong.", "quantifier": "every six-byte header", "why_tests_cant": "2^48 headers; tests check single faults only.", "anchors": ["server/src/engine/net/protocol/handshake.rs: CHandshake::resume_initial, ProtocolError"]}
{"id": "C54", "title": "An administrative statement never crashes its connection", "statement": "Every well-formed administrative statement is answered with a result or an error; none makes the task serving the connection panic, in any reachable state.", "quantifier": "every history of statements, restarts and log failures, and every statement", "why_tests_cant": "The crash depends on states left behind by earlier failures and on unusual property values that tests do not combine.", "anchors": ["server/src/engine/core/model/alt.rs: check_nullable, transactional_exec_alter", "server/src/engine/core/space.rs: transactional_exec_drop", "server/src/engine/core/mod.rs: with_model_space_mut_for_ddl"]}
{"id": "C55", "title": "INSPECT answers are well-formed JSON", "statement": "The answer to every INSPECT statement (global, space, model) is one well-formed JSON document that lists exactly the existing spaces, users (for root) or models.", "quantifier": "every reachable namespace state, every user, every INSPECT statement", "why_tests_cant": "Tests check the Rust result in one or two states; whether the text is well-formed for all sets of names is a claim about all states.", "anchors": ["server/src/engine/core/ddl_misc.rs: inspect"]}
{"id": "C56", "title": "Administrative statements running at the same time cannot block each other forever", "statement": "Whatever statements are executed concurrently, every one of them eventually finishes: no set of statements can wait for each other's locks in a cycle.", "quantifier": "every set of concurrent statements and every schedule", "why_tests_cant": "A deadlock needs a particular interleaving that tests do not force.", "anchors": ["server/src/engine/core/mod.rs: with_model_space_mut_for_ddl, ddl_with_all_mut", "server/src/engine/core/space.rs: transactional_exec_drop", "server/src/engine/core/model/alt.rs", "server/src/engine/core/model/mod.rs"]}
{"id": "C57", "title": "A statement only touches a row that satisfies its whole WHERE clause", "statement": "SELECT, UPDATE and DELETE act on a row only if the row satisfies every condition of the WHERE clause; if a condition cannot be used, the statement is refused.", "quantifier": "every model state, every WHERE clause", "why_tests_cant": "Tests only write WHERE clauses with the single key condition.", "anchors": ["server/src/engine/core/dml/mod.rs: ModelData::resolve_where", "server/src/engine/ql/dml/mod.rs: WhereClause"]}
{"id": "C58", "title": "SELECT and SELECT ALL report the same values for the same row", "statement": "For a row that exists, the point query and the full scan with the same columns report the same values of the same types.", "quantifier": "every history of statements, every row and every column list", "why_tests_cant": "Two code paths encode the same row; tests exercise them on different data.", "anchors": ["server/src/engine/core/dml/sel.rs: select_custom, select_all"]}
{"id": "C59", "title": "The order of columns is stable under ALTER MODEL", "statement": "ALTER MODEL ADD appends the new columns after the existing ones, REMOVE and UPDATE keep the relative order of all remaining columns, so that positional INSERT and SELECT * keep their meaning.", "quantifier": "every model and every ALTER MODEL statement", "why_tests_cant": "Depends on the ordered map's update operation for every position and length.", "anchors": ["server/src/engine/core/model/alt.rs: transactional_exec_alter", "server/src/engine/idx/stord/mod.rs: IndexSTSeqDll"]}
{"id": "C60", "title": "Schema and system statements mean exactly what is written", "statement": "CREATE/ALTER/DROP SPACE and MODEL, SYSCTL, USE and INSPECT are accepted exactly when the tokens form such a statement, with the names, columns, types, properties and flags written; any other token sequence gets an error, and the parser reads no token outside the statement.", "quantifier": "every token sequence", "why_tests_cant": "Recursive dictionaries and type layers are read by hand-written state machines that move a cursor over the tokens; tests cover well-formed statements and few truncated ones.", "anchors": ["server/src/engine/ql/ddl/syn.rs: _rfold_dict, rfold_layers, FieldSpec, ExpandedField", "server/src/engine/ql/ddl/crt.rs", "server/src/engine/ql/ddl/alt.rs", "server/src/engine/ql/ddl/drop.rs", "server/src/engine/ql/ddl/mod.rs", "server/src/engine/ql/dcl.rs"]}
{"id": "C61", "title": "Dropping a user ends their access", "statement": "Once SYSCTL DROP USER u (or a change of u's password) has been answered, no statement sent over a connection opened earlier as u reads or changes any row.", "quantifier": "every state, every statement, every connection of every user", "why_tests_cant": "The rights of a connection are decided once at login; a test would have to try every statement on every old connection.", "anchors": ["server/src/engine/core/exec.rs: dispatch_to_executor", "server/src/engine/core/dcl.rs: drop_user", "server/src/engine/net/protocol/mod.rs: ClientLocalState"]}
{"id": "C62", "title": "No statement reaches outside the data directory or into another object's files", "statement": "Every name of a space, model, column or user on a server consists of letters, digits and underscores; the directory of a space lies directly below data/ and that of a model directly below its space's, and different spaces and models have different directories.", "quantifier": "every history of queries (texts with parameters) from every connection, every name and uuid", "why_tests_cant": "Names come from text sent by clients and end up in paths passed to create_dir_all and remove_dir_all; tests use well-behaved names.", "anchors": ["server/src/engine/storage/common/mod.rs: paths_v1", "server/src/engine/ql/lex/mod.rs", "server/src/engine/fractal/mod.rs: initialize_space", "server/src/engine/fractal/mgr.rs: GenericTask"]}
{"id": "C63", "title": "Operations on the change queue always finish", "statement": "No thread using the change queue can be stopped by another: a thread inside an operation can always take its next step, and in every execution of n threads the number of steps taken is at most a constant multiple of n times the number of operations called, so queries never hang in the queue.", "quantifier": "every number of threads and every schedule", "why_tests_cant": "Lock freedom is about infinitely many schedules, including those in which some thread never runs again.", "anchors": ["server/src/engine/sync/queue.rs: Queue::blocking_enqueue, blocking_try_dequeue"]}
{"id": "C64", "title": "The change queue leaks no memory and frees nothing early", "statement": "When no operation is under way the blocks in use are the sentinel, one per stored item and those waiting for the epoch collector; the latter can all be freed once all threads have left their guards; dropping the queue drops every stored item exactly once and frees every node.", "quantifier": "every number of threads, every schedule, every allocator", "why_tests_cant": "Leaks and use after free depend on the interleaving and on when the collector runs.", "anchors": ["server/src/engine/sync/queue.rs: Queue, Drop for Queue"]}
{"id": "C65", "title": "The row index is linearizable", "statement": "Whatever inserts, updates, removals and lookups run at the same time on the index of a model, every call answers as if all calls took effect one after the other, each at one moment between its call and its return; no schedule leads to undefined behaviour or a panic, and no thread ever waits for another.", "quantifier": "every number of threads, every schedule, every sequence of calls, every key type and hash function", "why_tests_cant": "The index is a lock-free tree that splits and compresses under concurrent access; tests run few threads and few of the interleavings.", "anchors": ["server/src/engine/idx/mtchm/mod.rs: RawTree::patch, _lookup, _remove, compress", "server/src/engine/idx/mtchm/patch.rs", "server/src/engine/idx/mtchm/access.rs"]}
{"id": "C66", "title": "A scan across concurrent writes is consistent row by row", "statement": "A scan of the index that runs while other threads write answers no key twice, only pairs that were in the index at some moment of the scan, and every key that was in the index during the whole scan.", "quantifier": "every number of threads, every schedule, every sequence of calls", "why_tests_cant": "Whether the iterator meets a key twice or not at all depends on where splits and compressions happen relative to its position.", "anchors": ["server/src/engine/idx/mtchm/iter.rs: RawIter", "server/src/engine/idx/mtchm/mod.rs: RawTree"]}
{"id": "C67", "title": "The row index leaks no memory and frees nothing in use", "statement": "At every moment the nodes that are allocated and not handed to the epoch collector are exactly those reached from the root; each is handed over at most once; no thread reads a node that may be freed.", "quantifier": "every number of threads, every schedule, every moment at which the collector may run", "why_tests_cant": "Use after free and leaks depend on the interleaving and on when the collector runs.", "anchors": ["server/src/engine/idx/mtchm/mod.rs: RawTree::patch, _remove, compress, rdrop"]}
{"id": "C68", "title": "The size of the index is the number of rows", "statement": "The size reported for an index is the number of keys in it at some moment of the call; when no call is under way it is exact.", "quantifier": "every number of threads and every schedule", "why_tests_cant": "The counter is changed after the tree, so the answer depends on the interleaving.", "anchors": ["server/src/engine/idx/mtchm/mod.rs: RawTree::len, incr_len, decr_len_by", "server/src/engine/core/index/mod.rs: count"]}
{"id": "C69", "title": "Lookups never wait", "statement": "A lookup of a key ends after a fixed number of its own steps, whatever the other threads do.", "quantifier": "every number of threads and every schedule", "why_tests_cant": "Wait freedom is about schedules in which others interfere with every step.", "anchors": ["server/src/engine/idx/mtchm/mod.rs: RawTree::_lookup"]}
{"id": "C70", "title": "Schema and account statements do exactly what they say", "statement": "CREATE, ALTER and DROP of spaces, models and users are accepted exactly under their documented conditions (name free or taken, IF [NOT] EXISTS, valid properties, at most one primary key that is not declared null and has a key type, distinct column names, columns only widened and never made non-null, the key column never altered, a password and no other option); an accepted statement changes exactly the named space, model or account to the described new value, with the schema version counting the added and removed columns; a refused one changes nothing.", "quantifier": "every state reached by any history in which no forced DROP SPACE failed in the log, every statement and every session, storage working for the statement itself", "why_tests_cant": "A unit test creates one model; the claim is the exact acceptance condition and the exact effect over all states, definitions and property dictionaries.", "anchors": ["server/src/engine/core/space.rs: Space::transactional_exec_create, transactional_exec_alter, transactional_exec_drop", "server/src/engine/core/model/mod.rs: ModelData::process_create, transactional_exec_create, transactional_exec_drop", "server/src/engine/core/model/alt.rs: AlterPlan::fdeltas, AlterPlan::ldeltas", "server/src/engine/core/dcl.rs: create_user, alter_user, drop_user"]}
{"id": "C71", "title": "The data file brings back exactly what was flushed", "statement": "Reading the bytes of a model's data file after any number of flushes and restarts gives exactly the batches that were flushed, in order; the restarted server has the same rows as one that had kept the batches in memory, and every SELECT of a key without a queued change answers as before.", "quantifier": "every model, every interleaving of statements, flush steps and restarts in which the disk accepts the writes, every size of the write buffer", "why_tests_cant": "The file's content depends on the whole history, on checksums running over all of it and on how batches, restarts and buffer flushes interleave.", "anchors": ["server/src/engine/storage/v2/impls/mdl_journal.rs: StdModelBatch, BatchWriter, BatchAdapter", "server/src/engine/storage/v2/raw/journal/mod.rs: BatchAdapter", "server/src/engine/storage/v2/raw/journal/raw/mod.rs: RawJournalWriter, RawJournalReader", "server/src/engine/core/dml/upd.rs: dc_op_str_add"]}
{"id": "C72", "title": "A data file cut off anywhere is refused or is that of an earlier clean shutdown", "statement": "If a model's data file is cut at any byte, opening it either fails or the cut is exactly at the end of an earlier clean shutdown and the model has exactly the rows of that moment.", "quantifier": "every history of a model's data file, every cut position", "why_tests_cant": "There are as many cuts as bytes, for every history.", "anchors": ["server/src/engine/storage/v2/raw/journal/raw/mod.rs: RawJournalReader::scroll", "server/src/engine/storage/v2/raw/journal/mod.rs: decode_apply", "server/src/engine/storage/v2/impls/mdl_journal.rs: decode_batch_metadata"]}
{"id": "C73", "title": "Damage to a data file within eight bytes is noticed", "statement": "Changing any bytes within a window of at most eight consecutive bytes behind the header of a cleanly closed data file makes opening it fail.", "quantifier": "every history of a model's data file, every window and every change", "why_tests_cant": "2^64 changes at every position of every file.", "anchors": ["server/src/engine/storage/v2/raw/journal/raw/mod.rs: RawJournalReader", "server/src/engine/storage/common/checksum.rs: SCrc64", "server/src/engine/storage/v2/raw/journal/mod.rs: decode_apply"]}
{"id": "C74", "title": "The bytes of a batch determine it", "statement": "The bytes written for a batch are read back as exactly that batch, whatever follows; conversely everything the reader accepts is the writing of the batch it returns, so that no two batches share their bytes and no batch has two writings.", "quantifier": "every batch (all key types, all cell types including nested lists, every number of rows), every suffix", "why_tests_cant": "The nesting of lists and the number of rows are unbounded, and the converse ranges over all byte strings.", "anchors": ["server/src/engine/storage/v2/impls/mdl_journal.rs: BatchWriter::encode_delta, encode_pk, encode_cells, decode_primary_key, update_state_for_new_event", "server/src/engine/storage/v2/raw/journal/mod.rs: decode_apply"]}
{"id": "C75", "title": "The server starts with exactly the configuration it was given", "statement": "A start is accepted exactly when the command line alone, the environment alone or a configuration file alone describes a complete configuration (known options with the right number of values, well-formed endpoints and numbers, readable files), and the server then has exactly the described settings, defaults for the rest; -h and -v answer help and version wherever an option may stand; the process dies only of an argument that is not UTF-8.", "quantifier": "every command line, every environment, every file system and configuration file", "why_tests_cant": "Options can be given in any number, order and form, from three sources, with arbitrary texts.", "anchors": ["server/src/engine/config.rs: check_configuration, parse_cli_args, parse_env_args, apply_config_changes, validate_configuration, check_config_file"]}
{"id": "C76", "title": "Command line and environment are interchangeable", "statement": "What can be configured on the command line can be configured through environment variables and the other way around, with the same result.", "quantifier": "every assignment of values to the eight options", "why_tests_cant": "The claim ranges over all texts as values; splitting rules differ between the sources.", "anchors": ["server/src/engine/config.rs: parse_cli_args, parse_env_args, parse_endpoint"]}
{"id": "C77", "title": "The documented options work", "statement": "The options of the help text are accepted with the documented meaning, and every configuration within the documented limits can be asked for by options.", "quantifier": "every configuration within the limits; every command line", "why_tests_cant": "All configurations and command lines.", "anchors": ["server/help_text/help", "server/src/engine/config.rs: CSCommandLine, arg_decode_tls_endpoint, apply_config_changes"]}
{"id": "C78", "title": "The limits on a configuration are kept", "statement": "Whatever the source, a server starts only with a root password of at least 16 characters and a non-zero service window; TLS asked for is never dropped, and its key material was read from existing files.", "quantifier": "every accepted start", "why_tests_cant": "All inputs from all sources.", "anchors": ["server/src/engine/config.rs: validate_configuration, arg_decode_endpoints, decode_tls_ep"]}
{"id": "C79", "title": "Complaints about options are true", "statement": "When a start is refused, the message names an option that is indeed missing, repeated, unknown or has an invalid value, and the source it came from.", "quantifier": "every refused command line and environment", "why_tests_cant": "All combinations of faulty options.", "anchors": ["server/src/engine/config.rs: arg_decode_auth, argck_duplicate_values, arg_decode_tls_endpoint, ConfigError"]}
{"id": "C80", "title": "Upgrading the storage format keeps everything", "statement": "Starting the server on a data directory of the older storage format brings up exactly the spaces, models, accounts and rows of that directory, and a restart from the newly written files brings up the same again.", "quantifier": "every old system log, account file and data file; every order of hash map and index iteration", "why_tests_cant": "All contents of a database; tests cover one small directory.", "anchors": ["server/src/engine/storage/mod.rs: load", "server/src/engine/storage/v1/loader.rs: load_gns", "server/src/engine/storage/v1/raw/batch_jrnl/restore.rs: apply_batch, read_batch", "server/src/engine/storage/v1/raw/sysdb.rs: restore", "server/src/engine/storage/v2/mod.rs: recreate", "server/src/engine/storage/v2/impls/mdl_journal.rs: FullModel"]}
{"id": "C81", "title": "An interrupted upgrade loses nothing", "statement": "If the server stops at any point while upgrading the storage format, the next start either brings up all the data or refuses to start; it never comes up without the data.", "quantifier": "every old data directory and every point of interruption", "why_tests_cant": "The interruption points are the instants between any two file system operations.", "anchors": ["server/src/engine/storage/v1/mod.rs: load_gns_prepare_migration", "server/src/engine/storage/mod.rs: load", "server/src/engine/storage/v2/mod.rs: recreate, initialize_new", "server/src/util/os.rs: move_files_recursively"]}
{"id": "C82", "title": "After an upgrade the server works as before", "statement": "Rows that came through an upgrade can be updated and deleted, and models altered, with the same durability as rows created afterwards.", "quantifier": "every upgraded model, every later history of statements, flushes and restarts", "why_tests_cant": "Needs histories spanning an upgrade, writes, flushes and a restart.", "anchors": ["server/src/engine/storage/v1/raw/batch_jrnl/restore.rs: apply_batch", "server/src/engine/storage/v2/impls/mdl_journal.rs: FullModel, finish", "server/src/engine/core/model/delta.rs: DeltaState"]}
{"id": "C83", "title": "The old system log is read exactly", "statement": "Reading an old system log applies exactly its intact events in order, skipping events that were marked as failed; a log the reader cannot make sense of is refused without crashing.", "quantifier": "every log, with any number of sessions and failed writes; every byte string", "why_tests_cant": "All logs and all damaged logs.", "anchors": ["server/src/engine/storage/v1/raw/journal/raw.rs: rapply_next_event, handle_driver_reopen, try_recover_journal_strategy_simple_reverse, scroll", "server/src/engine/storage/v1/raw/journal/mod.rs: GNSAdapter::decode_and_update_state"]}
{"id": "C84", "title": "An old file cut short is noticed", "statement": "A data file or system log of the old format that lost its end is refused, or is that of an earlier clean shutdown.", "quantifier": "every well-formed old file and every cut", "why_tests_cant": "All files times all cut positions.", "anchors": ["server/src/engine/storage/v1/raw/batch_jrnl/restore.rs: read_all_batches_and_for_each, attempt_recover_data_batch", "server/src/engine/storage/v1/raw/journal/raw.rs: scroll", "server/src/engine/storage/v1/raw/rw.rs: TrackedReader"]}
{"id": "C85", "title": "The shell sends what was typed", "statement": "A query typed at the interactive shell reaches the server as the words, symbols and literal values that were typed: each number, string and binary literal arrives as exactly that value.", "quantifier": "every query text", "why_tests_cant": "All texts; the shell has no tests, and the server's lexer is tested apart from it.", "anchors": ["cli/src/query.rs: Parameterizer", "cli/src/main.rs: run", "server/src/engine/ql/lex/mod.rs: SecureLexer"]}
{"id": "C86", "title": "No input crashes the shell", "statement": "Whatever line is entered, the shell answers, reports an error, or goes on; it does not crash.", "quantifier": "every line of valid UTF-8", "why_tests_cant": "All texts; the crash needs a character at one particular position.", "anchors": ["cli/src/query.rs: Parameterizer::parameterize", "cli/src/repl.rs: repl"]}
{"id": "C87", "title": "The shell's output tells values apart", "statement": "Two different answers of the server to the same query are printed differently by the interactive shell.", "quantifier": "every two rows of the same column types", "why_tests_cant": "All pairs of values.", "anchors": ["cli/src/resp.rs: format_response, print_row, print_value, print_string, print_binary"]}
{"id": "C88", "title": "Primary keys compare by value", "statement": "Two primary keys, or a primary key and a literal of a query, compare equal exactly when they are the same value of the same kind; equal ones always send the same bytes to the hasher; neither comparing nor hashing reads memory the key does not own.", "quantifier": "every two keys made from cells, files or copies, every literal, every memory", "why_tests_cant": "All pairs of 128-bit keys with all placements of their blocks in memory; the words are reinterpreted as integers or as pointers depending on a tag.", "anchors": ["server/src/engine/core/index/key.rs: PrimaryIndexKey", "server/src/engine/data/lit.rs: Lit::__vdata, Hash", "server/src/engine/mem/word.rs", "server/src/engine/data/cell.rs: VirtualDatacell"]}
{"id": "C89", "title": "Finding a row does not look through the others", "statement": "With a hash function that never gives two different inputs the same result, looking up a key compares it with at most one stored key, however many rows there are.", "quantifier": "every history of the row index, every hash function, every key", "why_tests_cant": "All histories and all hash functions; tests check answers, not the work done for them.", "anchors": ["server/src/engine/core/index/key.rs: Hash for PrimaryIndexKey", "server/src/engine/data/lit.rs: Hash for Lit", "server/src/engine/idx/mtchm/mod.rs: patch, _lookup"]}
{"id": "C90", "title": "Small vectors are lists and own their memory exactly", "statement": "The vector that lives inside its owner until it outgrows it (VInline), and the fixed-size one (UArray), behave as lists; they never read or write a place that was not written or is outside their block, give every element out or destroy it exactly once, and free every block exactly once with the size it was allocated with.", "quantifier": "every sequence of operations, every capacity, every element", "why_tests_cant": "All sequences of operations; memory errors are not visible to ordinary tests.", "anchors": ["server/src/engine/mem/vinline.rs", "server/src/engine/mem/uarray.rs", "server/src/engine/mem/unsafe_apis.rs"]}
{"id": "C91", "title": "Values own their memory exactly", "statement": "However literals, cells, primary keys and rows are made from each other, copied, handed over and dropped, every block of memory is freed exactly once, with its size, and never used after that.", "quantifier": "every sequence of such operations", "why_tests_cant": "All sequences of operations on shared raw pointers.", "anchors": ["server/src/engine/data/cell.rs", "server/src/engine/data/lit.rs", "server/src/engine/core/index/key.rs", "server/src/engine/core/index/row.rs"]}
{"id": "C92", "title": "A shared row is freed once, by its last holder", "statement": "However many threads copy, read and drop handles of a row or shared string at the same time, the data are destroyed exactly once, after the last use, and the counter is never used after it was freed.", "quantifier": "every interleaving of any number of threads", "why_tests_cant": "All interleavings of atomic operations.", "anchors": ["server/src/engine/sync/smart.rs: RawRC, SliceRC", "server/src/engine/core/index/row.rs: Clone, Drop for Row"]}
{"id": "C93", "title": "Rows never refer to a field name that was freed", "statement": "Rows and pending schema changes hold raw pointers to field names owned by the model; every pointer that is ever followed points to a name that still exists and is the right name.", "quantifier": "every history of field additions, removals, inserts, reads, updates and restarts", "why_tests_cant": "All histories; the memory of removed names is reclaimed only at a restart, far from where the pointers were made.", "anchors": ["server/src/engine/core/model/mod.rs: ModelPrivate, ModelMutator", "server/src/engine/core/index/row.rs: resolve_schema_deltas_and_freeze_if", "server/src/engine/core/model/delta.rs", "server/src/engine/storage/v2/mod.rs: restore"]}
{"id": "C94", "title": "No statement leads to undefined behaviour", "statement": "Whatever statements are executed on a model, in whatever order and with whatever outcomes, none of them reads memory that does not belong to the value it asks for.", "quantifier": "every history of statements on one model, every next statement", "why_tests_cant": "All histories; the reads that go wrong need columns that were null, removed or declared anew.", "anchors": ["server/src/engine/core/dml/upd.rs", "server/src/engine/data/cell.rs: read_list, read_str, read_bin", "server/src/engine/core/model/alt.rs"]}
{"id": "C95", "title": "A graceful shutdown keeps every acknowledged change", "statement": "When the server is told to stop, every row change it has answered with success is in the data file by the time the files are closed.", "quantifier": "every number of connections and models, every interleaving of handlers, executors and the main task", "why_tests_cant": "All interleavings of tasks around the termination signal.", "anchors": ["server/src/engine/mod.rs: start, finish", "server/src/engine/net/mod.rs: ConnectionHandler::run, Listener::terminate", "server/src/engine/fractal/mgr.rs: hp_executor_svc, general_executor_svc", "server/src/engine/fractal/mod.rs: request_batch_resolve_if_cache_full", "server/src/engine/core/model/delta.rs"]}
{"id": "C96", "title": "A graceful shutdown comes to its end", "statement": "Once told to stop, the server closes its files and ends, whatever was going on.", "quantifier": "every reachable state of the tasks, every interleaving, every behaviour of the disk", "why_tests_cant": "Liveness over all interleavings and disk failures.", "anchors": ["server/src/engine/fractal/mgr.rs: hp_executor_svc, hp_executor", "server/src/engine/mod.rs: start"]}
{"id": "C97", "title": "Threads never use the memory of a connection that has ended", "statement": "Administrative statements run on another thread with references into the connection's task; those references are never used after the connection's task is gone.", "quantifier": "every interleaving of handlers and threads, before and during the shutdown", "why_tests_cant": "Needs the drop of a future between two instructions of another thread.", "anchors": ["server/src/engine/core/exec.rs: run_nb, transmute", "server/src/engine/net/mod.rs: ConnectionHandler::run"]}
{"id": "C98", "title": "Pending changes are written within the configured window", "statement": "Changes that do not fill a model's quota are written to its data file at the latest one service window after they were made, whatever else the server is doing in the background.", "quantifier": "every window, every sequence of background tasks with their outcomes and times", "why_tests_cant": "Starvation over unbounded time and all arrival patterns.", "anchors": ["server/src/engine/fractal/mgr.rs: general_executor_svc", "server/src/engine/config.rs: rs_window"]}
{"id": "C99", "title": "What is dropped disappears from the disk", "statement": "The directory of every dropped space or model, and of every one whose creation failed, is deleted eventually.", "quantifier": "every sequence of drops, failures of the disk and shutdowns", "why_tests_cant": "All orders of tasks and failures, across shutdowns.", "anchors": ["server/src/engine/fractal/mgr.rs: general_executor_svc, GenericTask", "server/src/engine/core/space.rs: transactional_exec_drop, transactional_exec_create", "server/src/engine/core/model/mod.rs: transactional_exec_drop"]}
{"id": "C100", "title": "Only one server works in a directory at a time", "statement": "However many servers are started, stopped or killed in the same directory, at no time do two of them have it open.", "quantifier": "every interleaving of any number of server processes", "why_tests_cant": "All interleavings of processes and file system calls.", "anchors": ["server/src/util/os/flock.rs", "server/src/main.rs: entrypoint"]}
{"id": "C101", "title": "The number of connections is limited and no client keeps others out", "statement": "There are never more open connections than the limit, and a client that does nothing after connecting does not keep others from being served.", "quantifier": "every sequence of connections, handshakes and disconnections on both listeners", "why_tests_cant": "All interleavings of clients and listeners.", "anchors": ["server/src/engine/net/mod.rs: CLIM, listen_tcp, listen_tls, accept, NetBackoff"]}
{"id": "C102", "title": "Fixed vectors behave as bounded lists and give back their memory", "statement": "A fixed vector holds what was pushed and not cleared, in order, never more than its capacity; every element is dropped once, and its block is freed when it is dropped.", "quantifier": "every sequence of operations, every capacity and element type", "why_tests_cant": "Memory ownership over all operation sequences.", "anchors": ["server/src/engine/mem/fixed_vec.rs", "server/src/engine/mem/unsafe_apis.rs"]}
{"id": "C103", "title": "The client's command line means what it says", "statement": "Every well-formed command line of the shell is accepted with the endpoint, account, password and query it names; any other one is refused.", "quantifier": "every list of arguments and every environment", "why_tests_cant": "All argument lists; values with special characters.", "anchors": ["libsky/src/lib.rs: parse_args_deny_duplicate, extract_arg", "cli/src/args.rs: parse"]}
{"id": "C104", "title": "The password prompt yields the password typed", "statement": "What the shell sends as the password is what was typed at the prompt, with deletions applied.", "quantifier": "every sequence of keys", "why_tests_cant": "All key sequences with modifiers.", "anchors": ["cli/src/args.rs: read_password"]}
{"id": "C105", "title": "The benchmark runs every query once, in order, and finishes", "statement": "A benchmark of n rows inserts, reads, updates and deletes each of the keys 1 to n exactly once, never starts one phase before the previous one is complete, and comes to its end when the server answers everything.", "quantifier": "every number of workers, every number of rows, every interleaving", "why_tests_cant": "All interleavings of the workers' compare-and-swap loops.", "anchors": ["sky-bench/src/runtime/rookie.rs", "sky-bench/src/runtime/fury.rs", "sky-bench/src/bench.rs"]}
{"id": "C106", "title": "The figures of the benchmark are true", "statement": "The fastest and slowest query reported are those measured, and the rate is the number of queries divided by the time they took.", "quantifier": "every number of workers, every interleaving and every timing", "why_tests_cant": "All timings.", "anchors": ["sky-bench/src/runtime/rookie.rs: blocking_bombard", "sky-bench/src/runtime/fury.rs: bombard", "sky-bench/src/runtime.rs: qps"]}
{"id": "C107", "title": "The benchmark leaves the database as it was", "statement": "Whatever happens during a benchmark, all spaces are afterwards as before, and a space called bench that was there is not touched.", "quantifier": "every database and every failure during the run", "why_tests_cant": "Failures at every step.", "anchors": ["sky-bench/src/bench.rs: run, cleanup"]}
{"id": "C108", "title": "Models do not touch each other", "statement": "On the whole server, a model holds what the statements addressed to it since it was created did to it: no statement on, and no write, deletion, drop or re-creation of, another model or space changes its rows or its file, and a model created under the name of a dropped one starts empty and stays so over a restart.", "quantifier": "every history of logins, statements, background writes, deletions of directories and restarts", "why_tests_cant": "All histories over all models with background work and restarts in between.", "anchors": ["server/src/engine/core/mod.rs: with_model, with_model_for_data_update", "server/src/engine/fractal/mgr.rs: hp_executor, general_executor", "server/src/engine/fractal/mod.rs: initialize_model_driver, purge_model_driver", "server/src/engine/storage/v2/mod.rs: restore", "server/src/engine/core/model/mod.rs: transactional_exec_create, transactional_exec_drop"]}
{"id": "C109", "title": "What the whole server acknowledged is there after a restart", "statement": "After a clean shutdown the server starts again, with the same spaces, models and accounts, and every SELECT of a row answers what the acknowledged statements since the creation of the model say, over any number of restarts.", "quantifier": "every history of logins, statements, background writes, deletions of directories and restarts", "why_tests_cant": "All histories over all models, any number of restarts.", "anchors": ["server/src/engine/storage/v2/mod.rs: restore", "server/src/engine/fractal/mgr.rs", "server/src/engine/core/exec.rs"]}
{"id": "C110", "title": "A packet does what its text says and gets exactly one answer", "statement": "On the whole server, however the bytes of the clients are cut and interleaved, each complete packet of a logged-in client is carried out once, with the meaning of its text and parameters in the connection's current space, and is answered by exactly one well-formed response that tells the outcome; bytes of an incomplete packet do nothing.", "quantifier": "every interleaving of all connections' bytes, every statement, background work and restarts", "why_tests_cant": "All interleavings of all connections on one server.", "anchors": ["server/src/engine/net/protocol/mod.rs: query_loop", "server/src/engine/core/exec.rs: dispatch_to_executor", "server/src/engine/net/protocol/exchange.rs"]}
{"id": "C111", "title": "An acknowledged row can be read back over the wire, also after a restart", "statement": "When the packet of an INSERT was answered with success, a later SELECT packet for its key on any connection is answered with exactly the inserted values, whatever other packets, background work and restarts come in between, as long as no UPDATE or DELETE of that key was acknowledged and the model was not altered or dropped.", "quantifier": "all histories of bytes on all connections, background work and restarts", "why_tests_cant": "All histories between the two packets.", "anchors": ["server/src/engine/net/protocol/mod.rs: query_loop", "server/src/engine/core/dml/ins.rs: insert", "server/src/engine/core/dml/sel.rs: select_resp", "server/src/engine/storage/v2/mod.rs: restore"]}
{"id": "C112", "title": "Nothing happens on the server without accepted credentials", "statement": "Every statement that was carried out came as a packet on a connection that had before sent a handshake with a name and a password that were those of an account at that time; statements that change spaces, models or accounts came on a connection that had logged in as root; other bytes change nothing.", "quantifier": "all histories of bytes on all connections, background work and restarts", "why_tests_cant": "All byte streams.", "anchors": ["server/src/engine/net/protocol/mod.rs: do_handshake, query_loop", "server/src/engine/core/exec.rs: run_blocking_stmt", "server/src/engine/core/system_db.rs: verify_user"]}
{"id": "C113", "title": "Every data packet is answered as the table of acknowledged statements says", "statement": "On the whole server the answer to each packet of a data statement is the one that a plain table gives, which holds the rows of the acknowledged statements on that model since its creation: INSERT is refused exactly if the row does not conform or the key is there, DELETE, UPDATE and SELECT exactly if the key is not there, and SELECT ALL returns rows of exactly the keys in the table, up to its limit.", "quantifier": "all histories of bytes on all connections, background work and restarts, every data statement", "why_tests_cant": "All histories before the packet, over all connections and restarts.", "anchors": ["server/src/engine/net/protocol/mod.rs: query_loop", "server/src/engine/core/dml", "server/src/engine/storage/v2/mod.rs: restore"]}
{"id": "C114", "title": "A shutdown that leaves changes unwritten leaves every row as it was at some moment", "statement": "When the server is shut down while changes are acknowledged but not written (C95 shows that this happens; after a kill the files are refused, C07 and C72), the row of each key comes back as it was at one moment: not before the last moment at which all changes of that key were written, and not in a state that the key never had.", "quantifier": "all histories of statements, flushes and background work, every key, every moment between two flushes", "why_tests_cant": "All interleavings of statements and flushes before the stop.", "anchors": ["server/src/engine/fractal/mgr.rs: try_write_model_data_batch", "server/src/engine/storage/v2/impls/mdl_journal.rs: BatchWriter, BatchAdapterSpec", "server/src/engine/core/model/delta.rs"]}
{"id": "C115", "title": "Changes waiting for the disk stay within the share of memory set aside for them", "statement": "A model never holds more changes that are acknowledged but not written than its limit, but for the statements under way; the limits of all models together stay within a fiftieth of the memory that was free at the start; a failed disk does not make the queue grow.", "quantifier": "all interleavings of connections, executors and disk failures, every limit and number of models", "why_tests_cant": "All interleavings of statements and background work, of any length.", "anchors": ["server/src/engine/fractal/mgr.rs: FractalRTStat", "server/src/engine/fractal/mod.rs: request_batch_resolve_if_cache_full", "server/src/engine/core/model/delta.rs: append_new_data_delta", "server/src/util/os/free_memory.rs"]}
{"id": "C116", "title": "Statements that run at the same time have the effect of one order", "statement": "However the steps of data statements on one model from different connections are mixed, INSERT, UPDATE, DELETE and SELECT answer exactly as if they had been performed one after the other on a plain table, each at a moment between its beginning and its answer; and SELECT ALL returns the rows of one such moment.", "quantifier": "all interleavings of any number of statements, with the flush, every effect of UPDATE on a row", "why_tests_cant": "All interleavings: a statement takes a change number, uses the index, locks the row and queues its change in separate steps, and others get between them.", "anchors": ["server/src/engine/core/dml/ins.rs: insert", "server/src/engine/core/dml/upd.rs: update", "server/src/engine/core/dml/del.rs: delete", "server/src/engine/core/dml/sel.rs", "server/src/engine/core/index/mod.rs: IndexLatch", "server/src/engine/core/index/row.rs: Row"]}
{"id": "C117", "title": "After statements at the same time a restart brings back the rows that were in memory", "statement": "However the steps of data statements on one model are mixed with each other and with the flush: when all are answered and all changes are written, the next start succeeds and the rows are exactly those in memory before, that is, those of the one order of C116.", "quantifier": "all interleavings of any number of statements and flushes, batches of any size", "why_tests_cant": "All interleavings: the numbers by which the loader decides between changes are taken before the row is locked, inserted or removed.", "anchors": ["server/src/engine/core/dml", "server/src/engine/core/model/delta.rs", "server/src/engine/fractal/mgr.rs: try_write_model_data_batch", "server/src/engine/storage/v2/impls/mdl_journal.rs: BatchWriter, BatchAdapterSpec::finish"]}
{"id": "C118", "title": "Data statements never wait for each other for ever", "statement": "Whatever INSERT, UPDATE, DELETE, SELECT and SELECT ALL statements run at the same time on a model, and however their steps and those of the flush are mixed, they cannot block each other or the flush: whoever goes on, all statements are answered and all changes written after a bounded number of steps. A statement waits only for a SELECT ALL, for an UPDATE of the same row, or, if it is a SELECT ALL, for statements under way; the flush waits only for an UPDATE of the row whose change it is about to write, and not at all for a deletion.", "quantifier": "all interleavings of any number of statements and flush steps, from every state they reach", "why_tests_cant": "Deadlock freedom under every schedule of two kinds of locks.", "anchors": ["server/src/engine/core/dml", "server/src/engine/core/index/mod.rs: IndexLatch", "server/src/engine/core/index/row.rs: Row", "server/src/engine/storage/v2/impls/mdl_journal.rs: BatchWriter"]}
{"id": "C119", "title": "The shell's prompt shows the current space", "statement": "At every moment of a session the interactive shell's prompt is the name of the space that unqualified names are taken from on its connection, or bare when there is none.", "quantifier": "every session: all lines typed, whatever other connections do in between", "why_tests_cant": "All lines and sessions; the shell guesses from the text of the line what the server will make of it, and has no tests.", "anchors": ["cli/src/repl.rs: repl", "cli/src/query.rs: Parameterizer::parameterize", "cli/src/resp.rs: format_response", "server/src/engine/core/exec.rs: cstate_use"]}
{"id": "C120", "title": "The benchmark runs what its command line asks for", "statement": "The benchmark tool starts exactly for the command lines its help text describes, with the endpoint, password, threads, connections, rows, key size and engine named there and the documented defaults for those not named; everything else is refused with a true complaint.", "quantifier": "every list of arguments, every environment", "why_tests_cant": "All command lines: every combination of options, absent options and malformed values, and no other accepted.", "anchors": ["sky-bench/src/args.rs: parse", "libsky/src/lib.rs: parse_args_deny_duplicate", "sky-bench/help_text/help"]}
{"id": "C121", "title": "The benchmark's keys are different and of the size asked for", "statement": "In every accepted configuration the primary keys of the rows the benchmark writes, reads, changes and deletes are pairwise different and each exactly as long as the key size, which is no larger than need be when it is not named.", "quantifier": "every accepted configuration, every row", "why_tests_cant": "All row counts up to 2^64 and all key sizes, beyond where floating-point logarithms are exact.", "anchors": ["sky-bench/src/args.rs: cdig", "sky-bench/src/bench.rs: fmt_pk"]}
{"id": "C122", "title": "A benchmark on a model of its own gets the answers it expects", "statement": "Every query of a benchmark whose model nobody else uses is read by the server as the statement meant and answered as the benchmark expects: INSERT, UPDATE and DELETE succeed, SELECT shows the key and 0, whatever the order in which its workers and the writer of batches take their steps.", "quantifier": "every accepted configuration, every key, every interleaving of the workers' statements", "why_tests_cant": "All interleavings of any number of workers with the background writer, all row counts and key sizes.", "anchors": ["sky-bench/src/bench.rs: prepare_bench_spec, run", "server/src/engine/core/dml", "server/src/engine/ql/dml"]}
{"id": "C123", "title": "The benchmark reports the number of queries it performed", "statement": "When a benchmark ends well, the number of queries in its last message is that of the queries answered in it, in decimal with a comma before every three digits counted from the right.", "quantifier": "All row counts, both engines, any number of workers, every schedule of theirs.", "why_tests_cant": "The text depends on the number of digits modulo three and the number on schedules of workers; a test looks at a few.", "anchors": ["sky-bench/src/bench.rs:146-149,303-314,329,359"]}
{"id": "C124", "title": "A server that cannot start says which step failed", "statement": "When a step of the start fails (PID file, runtime, signals, creating, loading or upgrading the data, binding, TLS), the server ends with a message about the first step that failed: the part of the server, the step (with the file or the port it is about) and the failure.", "quantifier": "All installs (new, current, older; any number of spaces, models and users), all endpoint configurations, every step at which a failure can happen, every sequence of errors made and dropped before.", "why_tests_cant": "The message is put together from a thread-local context that conversions of errors empty; which step has which context depends on everything that happened before on that thread, which fault injection at single points does not cover.", "anchors": ["server/src/main.rs:81-129", "server/src/engine/mod.rs:58-172", "server/src/engine/fractal/context.rs", "server/src/engine/fractal/error.rs", "server/src/engine/storage/mod.rs:60-83", "server/src/engine/storage/v2/mod.rs:57-156", "server/src/engine/storage/v1/loader.rs:44-93", "server/src/engine/net/mod.rs:169-259"]}
{"id": "C125", "title": "A refused configuration is refused with its reason", "statement": "When the server refuses its configuration, its message says why: two refusals with the same message blame the same source for the same mistake with the same option or argument, and if a file could not be read the message tells which one and what it is for.", "quantifier": "all command lines, environments, configuration files, and readable or unreadable files", "why_tests_cant": "The space of command lines, environments and files has no finite cover; a test looks at single messages, not at whether two different mistakes share one.", "anchors": ["server/src/engine/config.rs:300-420", "server/src/engine/config.rs:463-518", "server/src/engine/config.rs:1039-1053", "server/src/engine/config.rs:1090-1189", "server/src/engine/fractal/error.rs:95-120, 319-322", "server/src/engine/error.rs:146-155", "server/src/main.rs:69-77"]}
