# Formal model of skytable's server engine — design

All paths are relative to `/repo/server/src/engine/` unless they start with `/`.
The code is modelled in Rocq (Coq 8.16.1) under `rocq/theories`.

## Method

* Model = small total computable functions written function-by-function from the Rust code; each
  definition carries a comment with the file and lines it models and what was simplified.
* Spec = separate, small, written without the model's helpers.
* Theorems = round trips, invariants by induction over histories, or refinement.
* A property that is *false* of the faithful model is recorded as a finding: a theorem
  `..._refuted` exhibits a concrete witness, and the strongest true version that was found is proved
  as `..._partial` (hypotheses say exactly what has to be excluded). The full statement stays
  in this file and in `properties.jsonl`.
* A panic is an explicit error value in the model; unwinding is not modelled further.
* External functions are section variables (so every theorem is quantified over them):
  password hashing (`rcrypt`),
  key hashing (`ahash`/`RandomState`), UTF-8 validation where only "same check at write and read"
  matters, float text parsing, wall-clock/uuid producers, and file I/O success or failure.

* CRC-64 (`storage/common/checksum.rs`) is concrete: the CRC-64/XZ algorithm that crate `crc` implements,
  bit by bit, checked against the published check value.

## Plan per property

| id | model | proof |
|----|-------|-------|
| C01 | cell encoder/decoder over byte lists | round trip, induction on nesting |
| C02 | dict encoder/decoder | round trip; decoder's missing bounds check reported |
| C03 | field/model layout codec | round trip |
| C04 | payload codec of the eleven system-log events | round trip |
| C05 | 64-byte header codec, file-spec validation | round trip + inversion |
| C06 | raw journal writer as a state machine producing bytes; reader over bytes | invariant: reader on the bytes so far is in sync with the writer |
| C07 | same | prefix analysis of the reader |
| C08 | reader on arbitrary bytes | induction on the reader loop |
| C09 | event-log adapter | inversion, CRC burst detection |
| C10 | writer with failing appends + heartbeat | expected false: refutation witness + partial |
| C11 | tracked writer state machine | invariant over operation lists |
| C12 | GNS state machine + log + replay | refinement, induction on statements |
| C13 | GNS state machine with failing log writes | case analysis; forced drop expected false |
| C14 | users/DCL state machine | invariant |
| C15 | verify_user with hash as variable | invariant relating stored hash to last set password |
| C16 | DCL state machine | expected false (root is refused): refutation |
| C17 | GNS state machine | invariant |
| C18 | type descriptors, range tables, layertrace | induction on value nesting |
| C19 | model state machine | refinement to a finite map |
| C20, C21 | update loop with rollback | expected false: refutation + partial |
| C22 | schema delta log, per-row version | expected false: refutation + partial |
| C23 | alter plan | case analysis + subtyping lemma |
| C24–C27 | delta queue, batch writer, restore | simulation (what is written plus what is queued amounts to the rows); failures and schema changes expected false |
| C28, C29 | handshake parser | chunking lemma; panic witness |
| C30, C31 | exchange parser | chunking lemma; panic witness |
| C32 | response encoder, client-side decoder written as spec | round trip |
| C33 | IntegerRepr | arithmetic |
| C34, C35 | secure lexer | induction on the lexer loop |
| C36, C45 | perfect hash lookup | reduction to table checks valid for all strings |
| C37 | linked list in an explicit heap + key table | representation invariant |
| C38, C39 | trie with hash as variable; DFS iterator | representation invariant |
| C40 | Michael–Scott queue, small-step, any number of threads | invariant over all schedules |
| C41, C42 | dispatcher, connection state | case analysis / invariant |
| C43 | health counter | expected false: refutation |
| C44 | dict merge | expected false (new nested maps): refutation + partial |
| C46 | DML parsers over token lists | round trip/inversion |
| C47 | cell and dict decoders | inversion: accepted bytes are the encoding of the result |
| C48 | decoders over sources with and without bounds checks | expected false for one source |
| C49 | version table lookup | expected false: universal + witness |
| C50 | the write loop against arbitrary system-call results | expected false |
| C51 | journal reader + CRC | burst detection lemma + reader synchronisation |
| C52 | exchange parser driven past a packet end | expected false: stuck invariant |
| C54 | GNS state machine | invariant; two panics expected: refutations |
| C53 | header error index | expected false: enumeration of the OR-ed index |
| C55 | INSPECT answer text from the GNS state | JSON grammar as spec; space answer expected false |
| C56 | lock requests per statement, small-step scheduler | expected false: deadlock witness; order argument for the rest |
| C57 | model state machine | conditions ignored: universal + witness |
| C58 | model state machine, both read paths | comparison up to width; exact claim expected false |
| C59 | field map under ALTER | list equations; UPDATE expected false |
| C60 | DDL/DCL parsers over token lists | inversion against a relational grammar; panics expected |
| C63 | as C40 | a measure that every step of an operation decreases and every call increases by a bounded amount |
| C64 | as C40, plus `Drop` | partition of the blocks in use (part of the invariant of C40) |
| C65 | the index as a heap of nodes, one step per atomic access, any threads | simulation of an atomic map: heap invariant (positions of nodes), status of each call as a function of heap and program point |
| C66 | as C65; the specification of a scan records what it must and may answer | part of the simulation: what the scan's stack has passed |
| C67 | as C65 | reachability from the root against the heap invariant |
| C68 | as C65 | balance of owed increments and decrements; the exact claim is expected false |
| C69 | as C65 | levels passed as a measure |
| C70 | GnsModel.v against EffSpec.v: catalogue of maps, relation of accepted statements, answers and changes | case analysis per statement, induction over field lists; the model list kept in a space is eliminated with the C17 invariant |
| C71 | BatchModel.v with the journal's bytes in place of the list of batches (BatchLog.v) | simulation by induction over histories; expected false in general: witness |
| C72 | as C71 | prefix theorem of the journal (C07) instantiated with the batch codec; the cut is matched with a restart of the history |
| C73 | as C71 | burst theorem of the checksum (C51) instantiated with the batch codec |
| C74 | the bytes of a batch: writer and reader (BatchCodec.v) | inversion of the reader, iff |
| C75 | config.rs: command line, environment, file (YAML parser and file system are variables) | exact iff against a specification of settings (ConfigSpec.v): grammar of command lines, independent reading of every option |
| C76 | as C75 | both are reduced to the specification of settings; the converse is expected false: witness |
| C77 | as C75, with the options of help_text/help | expected false: universal theorem that the option is refused |
| C78 | as C75 | consequence of C75; expected false for characters: witness |
| C79 | as C75 with error values | case analysis; expected false: witness |
| C80 | storage v1 readers, sys.db, `recreate`, `FullModel`, on top of the models of C12, C24 and C71 | old data file: exact meaning of a batch list; namespace and rows: written state replayed is the state, for every iteration order |
| C81 | the upgrade as a list of disk steps over an abstract directory; a crash is a prefix | expected false: classification of every crash point, witness |
| C82 | the flusher machine of C24 started from an upgraded model | expected false (the change counter restarts at 0): universal theorems about UPDATE and DELETE, positive theorem after one restart |
| C83 | v1 journal reader, with any adapter and any checksum function | induction over a grammar of logs with failed writes; opcode table: witness |
| C84 | v1 readers on prefixes | expected false (recovery marks inside values): witness; partial without such marks |
| C85 | `cli/src/query.rs`, composed with the lexer of C34 | grammar of typed texts; expected false (escapes, `-`, binary, floats): witnesses and universal theorems; positive theorem for the rest of the grammar |
| C86 | the same | exact condition for the crash (slice inside a character), witness |
| C87 | `cli/src/resp.rs` | expected false (backslashes, binary against list): witnesses; injectivity by unique parsing without them |
| C88 | `core/index/key.rs`, `data/lit.rs`, `mem/word.rs` over a memory of blocks; reading outside a block is an explicit failure | representation relation to values; exact iff; null key, `Clone`: expected false, witnesses |
| C89 | calls made to the hasher, on top of the tree of C38 with comparisons counted | bound by the tree invariant; expected false for integers: universal theorem for every hasher |
| C90 | `mem/vinline.rs`, `mem/uarray.rs` over slots and blocks | refinement to lists with a ledger of live elements and blocks; `into_iter` expected false: witness |
| C91 | literals, cells, keys, rows over a heap with a ledger | ownership invariant by induction over operations |
| C92 | counters under an interleaving semantics | invariant: counter = handles not yet released |
| C93 | names as addresses in a heap; fields, deltas, rows, restart | invariant over histories |
| C94 | the rows of `RowModel.v` | exact condition of the undefined answer by induction over assignments; shapes of cells by induction over histories |
| C95 | tasks of the server as a transition system: handlers, two executors, main task, queue and counter of each model | invariant of the counters by induction over interleavings; exact contents of the file at the end; witnesses |
| C96 | the same | invariant "a recovery is pending" under a failing disk; constructed schedule from every reachable state |
| C97 | the same, with the threads of administrative statements | invariant before the signal; witness after it |
| C98 | the loop of the low-priority executor with a clock: timer, queue, sleeping after failures | exact times of writes by induction over runs; starvation: universal and witness |
| C99 | the same with directories | exact condition of deletion; witness at shutdown |
| C100 | processes, one file name, inodes with locks | invariant when no removal falls between open and lock; witness otherwise |
| C101 | the accept loops as transition systems: permit, handshake, back-off | expected false: universal (no bound; blocked while a handshake is open) and witness; back-off bounded |
| C102 | `mem/fixed_vec.rs` over slots and blocks (memory of C90) | refinement to bounded lists; block never freed: universal |
| C103 | `libsky` argument parser, `cli/src/args.rs: parse` | exact acceptance against a grammar of command lines; refused values with `=`: witness |
| C104 | the loop of `read_password` over key events | exact text; shifted characters lost: witness |
| C105 | workers of both engines and the main thread as a transition system, one step per atomic access; several phases | invariant: keys taken + target = all keys; a worker without a query panics: universal + witness |
| C106 | the local and global figures of the same system, with a clock | extremes exact; time only counts the queries of a worker: bound + witness |
| C107 | `bench::run` as a sequence of statements that may fail | case analysis over failures; a failed CREATE MODEL leaves the space: witness |
| C108 | the whole server: namespace with its log (`GnsModel`), one `BatchModel` machine per model, files by directory, the two task queues, restart by replay and loading (`WholeModel.v`) | projection: what each live model has gone through is a history of the per-model machine whose statements are exactly those addressed to it since its creation; invariant over all steps, given that generated uuids differ |
| C109 | the same | C108 with the theorems C12 and C24; conditions as there |
| C110 | every connection's bytes on top of the whole server: handshake, packets, lexer, dispatcher, current space, execution, response bytes; restarts close the connections | refinement into C108's histories by induction; the packet completed by a read is found by C30, its meaning by C34, C46, C60 (exact), the answer decodes by C32 |
| C111 | the same | C110 with C109's table: the row of an acknowledged INSERT stays in the table over the events named; the values of an INSERT text meet C109's condition (from the grammar) |
| C112 | the same | induction over the histories with an invariant tying a connection to its session and to the handshake it sent |
| C113 | the same | C110 with the table of C19 and C109: the table of the acknowledged statements, and for each kind of data packet the response it must get; conditions as C111 |
| C114 | the machine of C24 and the whole server of C109, shut down with a queue that is not empty | invariant over flushes: per key, what is written is what the key had at a moment of the history; one moment for all keys is expected false |
| C115 | the tasks of C95 with the limit of `FractalRTStat` and the decision of `request_batch_resolve_if_cache_full` | invariant: counter below the limit but for statements under way, queue = counter + promised batches; a bound on the queue is expected false |
| C116 | INSERT, UPDATE, DELETE, SELECT on one model as tasks of several steps each (change number, index, row lock, queue) | every interleaving: a list of effects with moments inside the statements' intervals, kept by induction; an UPDATE or SELECT that holds a row deleted meanwhile is put before the deletion |
| C117 | the same tasks with the flush and the loader of `finish` | per key the numbers written increase, so that the loader ends with the last; without a DELETE beside other changes of its key; expected false otherwise |
| C118 | the tasks of C116 with the latch, the row locks and the flush | invariant: a locked row has an UPDATE that holds the lock and can go on; a measure bounds the steps |
| C119 | the shell's loop over lines (`cli/src/repl.rs`) on the shell model of C85 and the connection of C42 | the words the shell splits a line into against the server's tokens of the same text; step: the prompt stays right exactly when the line is not one of three kinds; refutation for each kind |
| C120 | `sky-bench/src/args.rs: parse` on the argument reader of C103 | exact: accepted with a configuration iff the options, each once, say so (specification of its own), help and version included; the complaint about the key size is true of the positions 1 to the row count; the help text's key size is expected false |
| C121 | `cdig` with the floating-point logarithm left open but for a lower bound, `fmt_pk` | keys as decimal texts of the position padded with zeros: length and value by induction, different since the values are |
| C122 | the queries of `prepare_bench_spec` as texts with parameters, on the reading of C112 and the interleaved statements of C116 | the four texts say the four statements for every key; by induction over the order of C116 a prefix holds, of each key, the first few of its four statements, so that each answer is determined |
| C123 | `fmt_u64` and the total of `bench_rookie`, `bench_fury`, on the runs of C105 | exact: a text is the one of the code iff it is the decimal text cut into threes from the right; length of the log of a run that ended well; the product is expected to overflow |
| C124 | the context of errors, their conversions and text, and the start as a sequence of context settings and calls that can fail | abstract interpretation of the sequence (the context each call should have), induction over it with any outcomes of the calls; table of messages as specification; expected to fail where errors are made and dropped |
| C125 | the texts of configuration errors on the configuration model of C75, with the context of C124 for files that cannot be read | the text of an error is decoded again: source, kind and names are the same where texts are; a file: the first in reading order that cannot be read, by cases on the source; which of the three TLS files is expected not to be told |
| C62 | names through lexer, parsers, executors; path texts | invariant over histories; injectivity; then on the bytes of the whole server: names of files and deletions as an invariant, deletion = paths below a directory |
| C61 | dispatcher + accounts | expected false: witness + independence of the accounts |

## Findings (statements that are false of the code as modelled)

Each has a `..._refuted` theorem (or a universal theorem about the failure) in the `*Props.v` file named.

* C48 (`CodecProps.v`): `storage/common_encoding/r1/map.rs` checks `has_left` for metadata only; a dictionary
  whose key or value is cut reads outside the input buffer.
* C49 (`HeaderProps.v`): `versions/server_version.rs: fetch_id` compares the wrong byte index; every
  release gets number 0.
* C11 (`WriterProps.v`): after a failed large buffered write the running checksum no longer matches the
  file; a failed write that had first flushed a longer buffer panics (`rw.rs:472` slices past the end).
* C50 (`WriterProps.v`): `fwrite_all_count` sends the whole buffer again after a short write; it then
  never returns, or (when lengths add up) reports success over duplicated data.
* C10 (`JournalProps.v`): a failed append consumes its sequence number. Even when the health check
  passes, whatever is appended next makes the file unopenable, for every history
  (`C10_self_repair_never_works`). On a journal without entries the health check never passes.
* C28 (`NetProps.v`): the handshake loop waits for an expected *total* that ignores what it has already
  consumed; a malformed hello is rejected or left waiting depending on the reads.
* C29 (`NetProps.v`): `handshake.rs` ORs error indexes together and indexes a table of six errors, so e.g. any
  plain HTTP request panics the task; user-name and password sizes are added with wrap-around, which
  lets an unauthenticated client make the server build slices outside its buffer.
* C53 (`NetProps.v`): with two wrong header fields the reported one may be a correct one.
* C31 (`NetProps.v`): a packet whose declared query length exceeds its body panics the task
  (`S2\n9\n`); a packet whose declared total is smaller than its own second field wedges the connection.
* C52 (`NetProps.v`): the exchange completes only if the buffer ends exactly with the packet; pipelined
  queries are never answered, nor is anything sent afterwards.
* C44 (`DictProps.v`): a new nested map in `ALTER SPACE` is accepted and silently lost; a value written over
  an existing map deletes the key.
* C12, C13, C17, C54 (`GnsProps.v`): a forced `DROP SPACE` takes the space out of memory before the log write.
  If that write fails the client sees an error but the space is gone and its models are orphaned; `ALTER MODEL`
  on such a model panics; recreating the space logs a second creation and the server cannot start any more.
* C12 (`GnsProps.v`): `ALTER SPACE` with `env: null` puts an empty `env` back in memory but not on replay; every later
  change of that space's environment is lost at restart.
* C16 (`GnsProps.v`): `ALTER USER` is refused for root by one check and for everybody else by another.
* C54 (`GnsProps.v`): `ALTER MODEL` with `nullable: null` panics (null has the boolean tag).

* C18 (`RowProps.v`): without `primary`, a nullable first field becomes the key; the null key is accepted, its row can
  never be addressed and `SELECT ALL` prints it as 0.
* C20 (`RowProps.v`): `UPDATE` that fails keeps list elements appended before the error, restores a column assigned twice to
  its intermediate value, and after an integer division by zero (panic) keeps what was assigned so far.
* C21 (`RowProps.v`): `UPDATE` checks type classes only: `uint8 := 1000`, `10 - 11`, `1000` into a list of `uint8` are stored; an
  operator a type does not have stores null into a non-null column.
* C22 (`RowProps.v`): every row misses exactly the first schema change after it was written (`delta.rs` range starts one too
  late): the added column is absent (`SELECT *` fails, `SELECT ALL` panics), the removed one stays readable and comes
  back under a new type.
* C23 (`RowProps.v`): a non-nullable column can be added to a model that has rows.
* C57 (`RowProps.v`): conditions on other columns than the key are ignored, by `DELETE` too.
* C58 (`RowProps.v`): the key is reported with a 64-bit type by `SELECT`, with the declared type by `SELECT ALL`.
* C59 (`RowProps.v`): `ALTER MODEL ... UPDATE` moves the changed column to the end.
* C24 (`BatchProps.v`): reload differs from memory after an UPDATE that was refused but changed the row (C20); a DELETE takes
  its number before it looks up the row, so that a row inserted in between and then deleted by it is back after reload; a
  null key (C18) makes the flush undefined; writes acknowledged after the final flush of a shutdown are lost (executors and
  connections are stopped by the same signal, `engine/mod.rs:180-190`).
* C25 (`BatchProps.v`): rows saved before ALTER MODEL REMOVE or UPDATE are read back with the values in other columns, of
  other types (`mdl_journal.rs:536-550` zips the stored cells with the columns declared now).
* C26 (`BatchProps.v`): a flush that fails after its first change loses every change it had taken off the queue, and the
  model is read-only for good and cannot be loaded again; a failure at the end of a batch makes the retry ask for more
  changes than are queued, which panics the flusher.
* C27 (`BatchProps.v`): a batch without changes at the end of the file sets the change counter back to 1 at reload; numbers are
  reused and the load after that fails its assertion.
* C71 (`BatchLogProps.v`): a binary value of a removed column comes back as a string of a new column of the same name (C22), an append
  (`core/dml/upd.rs: dc_op_str_add`) makes a string of it that is not UTF-8, the flush writes it, and from then on the data file can
  never be opened: the server does not start.
* The partial checksum of a batch (`sdss_r1/rw.rs:455`) is not reset when a batch fails nor by the health check
  (`raw/journal/raw/mod.rs:570-582`): the next batch would carry a wrong checksum. It makes no difference because of C10.
* C35 (`LexProps.v`): the parameter `-` (no digits) is read as the integer 0; so is an empty unsigned text followed by another parameter.
* C46 (`ParseProps.v`): up to three `AND` without a condition may end a statement (`ql/dml/mod.rs:98-149`); `INSERT INTO s.m(1,` and
  `INSERT INTO s.m{a:1,` are accepted without their closing bracket; `SELECT a, FROM s.m` is accepted; `INSERT INTO m()` in a
  current space is refused; **every `SELECT ... FROM m` of a model of the current space without `WHERE` panics** (`try_entity_buffered_into_state_uninit`
  reads three tokens), as does `INSERT INTO s.m([[`; `SELECT ALL ... LIMIT x` with a token that is no literal reads a
  union field that is not there; element types are checked one level deep only, so `[[[1]],[["a"]]]` parses.
* C60 (`DdlProps.v`): `CREATE MODEL s.m(primary a: string)` (nine tokens) is refused as cut short while the same with `IF NOT EXISTS` is
  accepted (`ql/ddl/crt.rs:141`); `SYSCTL CREATE USER u WITH {}` is refused; `ALTER MODEL s.m` panics, as does any `ALTER MODEL` ending
  after a column's type (`ql/ddl/syn.rs:454`), and any `CREATE MODEL` ending in `primary x`, `null x` or `primary null x` (`syn.rs:386`).
* C42 (`ExecProps.v`): after `USE s`, `SELECT a FROM m` does not read `s.m` but ends the connection (the C46 panic).
* C61 (`ExecProps.v`): `SYSCTL DROP USER u` leaves u's open connections working: nothing but the login reads the accounts.
  The same on the bytes of the whole server (`WireInspectProps.v`).
* C55 (`InspectProps.v`): the answer of INSPECT SPACE ends in `]}}` with one opening brace (`core/ddl_misc.rs:96`): never JSON.
* C43 (`HealthProps.v`): a failed model driver is not reported; its recovery takes one off the counter, which wraps to
  2^64-1; after that a failure of the system journal makes the status healthy.
* C56 (`LockProps.v`): ALTER MODEL locks models then spaces (`core/mod.rs:135-139`), CREATE MODEL, DROP MODEL and forced DROP SPACE lock
  spaces then models: they can deadlock, and with them every later statement on spaces, models or rows.
* C37 (`StordProps.v`): the iterator that takes an ordered map apart (`stseq_owned_kv`, `idx/stord/iter.rs:298-311`) gives every node back to
  the allocator and then reads the pointer to the next one from it, for every non-empty map (also when it is dropped). It is used when
  models are loaded (`core/model/mod.rs:214`, `storage/common_encoding/r1/impls/gns/model.rs:366, 537`). It also never gives back the
  sentinel. `==` of two ordered maps of the same size with different keys panics instead of answering `false`
  (`idx/stord/mod.rs:805-813`), and does not look at the order.
* C76 (`ConfigProps.v`): values in the environment are split at commas (`config.rs:754`), so no root password with a comma can be
  set there; the complaint names the plugin. Hosts with a colon (IPv6) can be given neither on the command line nor in the
  environment (`config.rs:445`), only in a file.
* C77 (`ConfigProps.v`): the option `--auth` of `help_text/help` is refused always ("unknown arguments"), and a TLS endpoint with the
  documented `--tlscert` and `--tlskey` is refused without `--tls-passphrase`, which the help text does not have.
* C78 (`ConfigProps.v`): "at least 16 characters" counts bytes (`config.rs:962`): four emoji pass.
* C79 (`ConfigProps.v`): two root passwords, or none, are complained about under the name of `--auth-plugin` (`config.rs:534, 542`);
  missing TLS files in the environment are reported as an error of the command line (`config.rs:497`).
* C68 (`ChtProps.v`): the length of the row index is changed after the tree (`idx/mtchm/mod.rs:305, 408, 594`): a removal that overtakes
  the increment of an insert makes it 2^64-1 for a while; `core/index/mod.rs:69` and `storage/v2/impls/mdl_journal.rs:344` read it.
* C83 (`V1LogProps.v`): an old system log with an operation code of 9 or more crashes the reader (`raw/journal/mod.rs:78` clamps the code to the length of a
  table of nine entries and indexes with it): `C83_no_crash_refuted`, and for every such code `C83_unknown_operation_crashes`. A failed event of which no
  byte reached the disk leaves a recovery mark that makes the reader refuse the whole log: `C83_failed_writes_skipped_refuted`,
  for all logs `C83_unwritten_event_never_recovered`.
* C84 (`V1LogProps.v`, `V1FileProps.v`): old files are recovered by looking for a recovery mark wherever reading stopped, and that may be
  inside of user data: a data file cut inside a key beginning with FF FC is accepted without the batch
  (`C84_data_cut_refuted`), and so is a log cut inside a payload that contains marks (`C84_log_cut_refuted`).

* C80 (`UpgradeProps.v`, `V1FileProps.v`): a column removed under the old format: rows written before the ALTER come back with their values in the wrong
  columns (`restore.rs:232-237` zips the stored values with the columns of the final schema): `C80_removed_column_refuted`. A batch that deletes a
  row which neither the file so far nor the batch contains crashes the server at start (`restore.rs:288-291`, exact condition in `C80_batch_crash`).
* C81 (`UpgradeProps.v`): between moving the old files to the backup directory and creating the new log there is nothing in the data directory, so
  a server stopped there comes up as a new, empty database on the next start: `C81_comes_up_empty_refuted`; `C81_interrupted_partial` shows it
  is the only such point. (The old files are in the backup directory; nothing looks there.)
* C82 (`UpgradeProps.v`): the restore of an old data file does not set the model's change counter, so after the upgrade changes are
  numbered from 0 again while rows keep their old numbers. Until the next restart, for every row with a number other than 0: an UPDATE is acknowledged
  and written and then the server cannot start any more (`C82_update_kills`, `C82_update_refuted`); a DELETE is undone by a restart
  (`C82_delete_undone`, `C82_delete_refuted`).
* C85 (`ShellProps.v`): the shell keeps the backslash of an escape behind the escaped character (`C85_escape_refuted`), adds the closing
  accent to binary values (`C85_binary_refuted`), refuses every minus sign (its integer scan stops at the sign itself:
  `C85_minus_refused`, and of any line that is sent `C85_never_negative`), floats followed by a space and integers followed by a line feed (`C85_refused_refuted`). `C85_exact`: exactly the
  lines without these arrive as typed. A query given on the command line is sent without parameters, so it can hold no literal but
  booleans (`C85_command_line`).
* C120 (`BenchArgsProps.v`): the help text's default key size of 7
  is used only for row counts of seven digits (`C120_default_key_refuted`). (An earlier version of this file also called the refusal of
  `--rowcount 10 --keysize 1` a fault. That was an error of the model, which took positions to start at 0; they are 1 to the row count, and
  `C120_key_complaint` now shows the refusal to be right.)
* C123 (`BenchReportProps.v`): 2^62 rows are accepted and would be reported as 0 queries (`C123_total_refuted`; `query_count * 4` is not checked).
* C124 (`StartMsgProps.v`): making a storage or transaction error into an `Error` empties the thread's context, also where the error is then dropped. An older install whose log has an event that cannot be applied fails with "runtime error: storage error: journal-corrupted", without part or step (`C124_message_refuted`); if the event is skipped by recovery, later failures of the same load lack the part (`C124_skipped_event_refuted`). Failures to bind or to set up TLS lose the network as their origin (`C124_network_lost`), and messages of the storage begin with "storage error error:".
* C125 (`CfgMsgProps.v`): a TLS file that cannot be read is reported as "runtime error: loading TLS configuration from disk; io error: ..." whichever of certificate, key and passphrase it is, and the path is never named (config.rs:471-474, 1171-1174: one context for three reads). `C125_which_file_refuted`: one command line, without the certificate and without the key, the same message.
* C119 (`ReplProps.v`): the shell's prompt names a space that is not the current one after `use  null` or `use null ` (prompt `null>`), after
  `use $ current` (prompt `$>`), and after `use $current` when another connection has dropped the space (the server lets go of it and answers
  an error, the shell keeps the old prompt). `C119_line` shows that no other line does this.
* C86 (`ShellProps.v`): the shell takes the first 8 bytes of the query text; it crashes when the ninth byte is in the middle of a
  character (`C86_refuted`, exact for lines without literals: `C86_crash_exact`).
* C87 (`PrintProps.v`): strings are printed with tab and line feed escaped but not the backslash, so a tab and `\t` look the same
  (`C87_backslash`, `C87_refuted`); on the command line strings are printed bare (`C87_command_line_refuted`).
* C88 (`KeyProps.v`): a key made from a null cell is a slice at address 0 (`C88_null_refuted`); hashing a boolean or float literal reads
  a slice whose pointer is not one (`C88_other_literal_refuted`); `Clone for PrimaryIndexKey` has its two arms swapped: it copies the block of an
  integer as if it had one and shares the block of a string, which is then freed twice (`C88_clone_integer`, `C88_clone_bytes`;
  the server only uses `raw_clone`).
* C89 (`CostProps.v`): the hash of an integer key is taken of the tag and of an empty slice, so nothing of the integer reaches the hasher
  and all rows of a table with an integer key fall into one leaf (`C89_integers`, `C89_refuted`): a lookup compares with the rows one by
  one, an insert copies all of them (`C89_integer_insert`).
* C90 (`VecProps.v`): `into_iter` of the inline vector reads an element as an `Option` of it, one byte or more past the element for types
  without a niche (`C90_into_iter_refuted`; not called by the server); with capacity 0 it never grows (`C90_empty_refuted`).
* C91 (`OwnProps.v`): four safe-looking functions break ownership: the slice of a literal that owns its bytes outlives the literal
  (`lit.rs:133-166, 209-216`), so does a virtual cell made from one (`cell.rs:524-534`), the clone of a key is freed twice or read at a number
  (`key.rs:52-73`), and an element appended to a null list goes through a null cell (`upd.rs:330-337`). Only the last is reached by the
  server (C94).
* C94 (`UbProps.v`): three ways for any client that may UPDATE to reach undefined behaviour: append to a null list in a nullable list column
  (`C94_null_list_refuted`; `upd.rs:330-337` takes the cell for a list without a look), append to a list column added after the row was
  written (`C94_added_list_refuted`), append to a string column that took the name of a removed integer column: the integer is read as length
  of a string (`C94_integer_as_string_refuted`). Without ALTER the first is the only one (`C94_without_alter`).


* C95 (`ShutProps.v`): the termination signal wakes the connections and both executors at the same time, so the executors can write their last
  batches before statements that are under way have finished. A change answered with success after that is lost
  (`C95_late_refuted`), one answered before the signal too (`C95_answered_before_refuted`: queue and counter are two steps), a statement that
  fills the cache then panics and takes the counts of other connections with it (`C95_panic_refuted`), and one failed write ends
  the last scan so that other models are not written (`C95_other_model_refuted`).
* C96 (`ShutProps.v`): the high-priority executor drains its queue before it ends, and a failed recovery queues itself again without the pause it has
  otherwise: with a disk that keeps failing the server never ends and turns in a busy loop (`C96_refuted`, `C96_never_ends`).
* C97 (`ShutProps.v`): administrative statements run on another thread with references made `'static` by `transmute` (`core/exec.rs:175-187`); the signal
  drops the connection's future while it waits for that thread, which goes on reading freed memory (`C97_refuted`, `C97_after_signal`).
* C98 (`TimerProps.v`): the low-priority executor makes its timer anew in every round of its loop (`fractal/mgr.rs`, `tokio::select!` over a fresh `sleep`), so
  every deletion starts the window again: drops more often than the window stop all periodic writes (`C98_starved`). One transient failure of the deletion of a
  model's directory, followed by the deletion of its space, leaves a task that can never succeed and is retried for ever: no periodic write until shutdown
  (`C98_missing_directory`, `C98_stuck_refuted`).
* C99 (`TimerProps.v`): the queue of deletions lives in memory and is thrown away at shutdown; the directories stay for ever (`C99_shutdown_refuted`).
* C100 (`PidProps.v`): a server removes `.sky_pid` by name (`main.rs:121`), and a starting one locks the file it has opened without looking whether it still
  has that name (`util/os/flock.rs:53,79`). A server that starts while another stops can lock a file without a name; it then keeps nobody out, and any number of
  servers can come to work in one directory (`C100_refuted`, `C100_nameless`, `C100_unbounded`).
* C101 (`ListenProps.v`): the permit of `CLIM` is dropped right after the handler is spawned (`net/mod.rs:216,239`) and `listen_tls` takes none, so the limit of
  50000 connections does not exist (`C101_permit_never_waits`, `C101_unbounded`). `listen_tls` awaits the handshake inside its accept loop (268): one client
  that connects and sends nothing keeps all others out for ever (`C101_handshake_blocks`, `C101_silent_client_refuted`).
* C102 (`FixedProps.v`): `FixedVec::drop` clears the vector first and then frees an array of its length, which is 0 by then (`mem/fixed_vec.rs:135-138`): the
  block is never freed (`C102_leak`). Each closed journal loses its buffer of 8 KiB.
* C103 (`ArgsProps.v`): `--option=value` is refused if the value has an equals sign, as queries and base64 passwords do (`C103_equals_sign`); a host with a colon
  cannot be named (`C103_no_ipv6`); a certificate given with a TCP endpoint is silently ignored (`C103_certificate_ignored`).
* C104 (`ArgsProps.v`): the prompt counts only strokes without any modifier (`cli/src/args.rs:189-194`), so characters reported with SHIFT are silently not
  part of the password (`C104_shifted_lost`, `C104_typed_refuted`); which characters a terminal reports so is up to the crossterm library, which is not part of
  /repo (not checked here). A failed read leaves the terminal in raw mode (`C104_raw_mode`).
* C105 (`BenchProps.v`): a worker of sky-bench that gets no query of a phase panics (`local_start.unwrap()`, `runtime/rookie.rs:218`, `runtime/fury.rs:332`) and
  the main thread waits for its result for ever. With fewer rows than connections this always happens (`C105_too_few`), with two or more connections it can
  happen to every benchmark (`C105_can_hang`, `C105_dead_forever`).
* C106: the time a phase took is computed from sums of the times of single queries, without what passes between them; the reported rate is
  too high, without bound (`C106_rate_exact`, `C106_rate_refuted`).
* C107: if CREATE MODEL fails after CREATE SPACE, or the clean-up fails, the space `bench` stays and every later benchmark fails
  (`C107_exact`, `C107_next_fails`).
* C108: a CREATE MODEL that is refused because the log of the namespace is already known to be broken has made its directory and does
  not ask for its deletion (fractal/drivers.rs:63-65): the directory stays and belongs to no model (`C108_orphan_refuted`).
* C115 (`PendProps.v`): the limit on unwritten changes does not limit them: a statement that reaches it asks for a batch, sets the counter to 0 and is answered at once;
  nothing waits for the executor, so a client that is faster than the disk fills the memory (`C115_unbounded`). The limit is computed once at the start from the models
  there are then, so models made later each get a share of their own (`C115_share_refuted`). In `request_batch_resolve_if_cache_full` (fractal/mod.rs:158-161) the criterion
  of 5 % of the rows is combined by `&` with the one on the limit and hence never decides (`C115_rows_ignored`). Where free memory is unknown the limit is 0 and
  every change becomes a batch of its own (`C115_no_memory`).
* C116 (`ConcProps.v`): a SELECT ALL beside UPDATEs can show a later acknowledged change without an earlier one: the index latch keeps INSERT and DELETE out, but not UPDATE
  (`C116_all_refuted`).
* C117 (`ConcProps.v`): change numbers are taken before the row is inserted or removed, and an UPDATE may hold a row that a DELETE has just removed. All statements answered with
  success and everything written: a deleted row is back after the next start (`C117_deleted_row_back_refuted`), an inserted row is gone (`C117_inserted_row_gone_refuted`), or
  the assertion at mdl_journal.rs:526-531 fails and the server does not start any more (`C117_cannot_start_refuted`: two INSERTs and a DELETE of one key).
* C114 (`CrashProps.v`): a shutdown with unwritten changes (C95) does not leave the rows of one moment: a change that is overtaken by a newer one of the same row is
  left out of its batch (mdl_journal.rs), so a row inserted later can be there while one inserted before it is not (`C114_one_moment_refuted`).

## What is modelled, file by file

* `Bytes.v`, `DataModel.v`, `CodecModel.v`: `storage/common_encoding/r1/{mod,map,obj}.rs`, `data/{tag,cell,dict_meta}.rs`.
* `GnsCodecModel.v`: payloads of `storage/v2/impls/gns_log.rs` and `txn/gns/*.rs`.
* `HeaderModel.v`: `storage/common/sdss/impls/sdss_r1/mod.rs`, `storage/common/versions/*`.
* `CrcModel.v`: `storage/common/checksum.rs`.
* `WriterModel.v`: `storage/common/interface/fs.rs` (write loop), `sdss_r1/rw.rs` (TrackedWriter), `mem/fixed_vec.rs` (as a list).
* `JournalModel.v`: `storage/v2/raw/journal/raw/mod.rs`, event-log adapter of `storage/v2/raw/journal/mod.rs`.
  Not modelled: statistics, tracing, the buffered commit preference (unused by the server), OS read errors.
* `NumModel.v`: `mem/numbuf.rs` (decimal printing), `mem/scanner.rs` LF-terminated integers.
* `NetModel.v`: `net/protocol/handshake.rs`, `net/protocol/exchange.rs`, the read loops and response writers of
  `net/protocol/mod.rs`, row encoding of `core/dml/sel.rs`. Not modelled: TLS, timeouts, write errors,
  the float formatter (a variable of the theorems, assumed to print no line feed).
* `AMap.v` (association lists with distinct keys standing for hash maps), `DictModel.v`: `data/dict.rs`.
* `TypeModel.v`: type-name lookup and `Field::parse_layers` of `core/model/mod.rs`.
* `GnsModel.v`: `core/space.rs`, `core/model/{mod,alt}.rs` (DDL parts), `core/dcl.rs`, `core/system_db.rs`, the dispatch and permission
  check of `core/exec.rs`, replay in `storage/v2/impls/gns_log.rs`, start-up in `storage/v2/mod.rs`, the log driver of
  `fractal/drivers.rs`. Statements are taken as parsed; hash maps are association lists; the order in which a hash map of
  updated fields is iterated, password hashing and verification are variables. Not modelled: locks (statements are atomic),
  directories on disk beyond success/failure, model data, the cleanup tasks queued after a drop.

* `RowModel.v`: `core/dml/{ins,upd,del,sel,mod}.rs`, `core/index/{row,key}.rs`, `core/model/{delta,alt}.rs`, the typing of
  `core/model/mod.rs` (`Field::vt_data_fpath`, `Layer`), `data/cell.rs` construction. One model, statements atomic; the row index is a
  finite map from keys to row objects, row objects are shared with the delta queue by position. Float arithmetic and the
  iteration order of ALTER UPDATE's hash map are variables. `RowSpec.v` is the independent specification.
* `BatchModel.v`: `storage/v2/impls/mdl_journal.rs` (batch writer and restore), the batch adapter of
  `storage/v2/raw/journal/mod.rs`, flushing in `fractal/mgr.rs`, the delta queue of `core/model/delta.rs`. Statements and single
  steps of a flush interleave freely; each is atomic (the two halves of DELETE are modelled apart for the race). A disk write
  succeeds or fails at any step.
* `BatchCodec.v`, `BatchLog.v`: the same with every byte: the batch as written by `mdl_journal.rs` through the tracked writer, the journal
  of `JournalModel.v` around it, the file read again at a restart. Disk writes succeed. `Utf8.v` is the table of well-formed UTF-8 of
  the Unicode standard (for examples; the theorems hold for every predicate).
* `ConfigModel.v`: `config.rs`: command line, environment, configuration file, validation. Variables: the file system, the YAML parser, which
  arguments are UTF-8. Error messages are constructors with the names they mention. `ConfigSpec.v` describes settings, command
  lines and environments without the functions of the model. Not modelled: logging, the texts of the messages.
* `LexModel.v`: `ql/lex/{mod,raw}.rs` (secure lexer, parameter scanners, keyword and symbol perfect hashes). UTF-8 validation and Rust's
  float parser are variables. `LexSpec.v` is the independent specification of tokens and parameters. Not modelled: the
  insecure lexer (tests only).
* `ParseModel.v`: `ql/ast/mod.rs` (parser state, entities), `ql/dml/{mod,ins,sel,upd,del}.rs`, `ql/ast/traits.rs` (full-range check).
  A read past the end is the value `PPanic`, a union read of a missing literal `PUb`. What `@uuidstr`, `@uuidbin` and `@timesec` return is a
  variable. `ParseSpec.v` is the grammar, without reference to the parsers.
* `DdlModel.v`: `ql/ddl/{syn,crt,alt,drop,mod}.rs`, `ql/dcl.rs`, the same way. `DdlSpec.v` is the grammar.
* `ExecModel.v`: `core/exec.rs` (dispatch, permission check, USE), the connection state of `net/protocol/mod.rs`. DML and INSPECT are
  functions of the request, the namespace and the rows (variables); a panic is the answer `AnDead`.
* `InspectModel.v`: `core/ddl_misc.rs`, `redescribe` of `core/model/mod.rs`, `name_str` of `data/tag.rs`. `JsonSpec.v` is the grammar of JSON. `InspectReach.v`
  connects lexer, parsers, dispatcher and executors: the states a server gets to by texts of queries.
* `PathModel.v`: `paths_v1` of `storage/common/mod.rs`.
* `HealthModel.v`: `GlobalHealth` (`fractal/mod.rs`), `driver_context` (`fractal/drivers.rs`), the executors of `fractal/mgr.rs` as
  far as they touch the status of drivers.
* `LockModel.v`: the sequence of lock operations of every statement and background task (parking_lot locks; shared,
  upgradable, exclusive). Not: what happens between the operations; start-up and shut-down; the runtime's thread pool.
* `StordModel.v`: `idx/stord/mod.rs`, `config.rs`, `iter.rs`: nodes in an explicit memory with an arbitrary allocator, both allocation
  strategies, sentinel, links, every operation, iterators from both ends, unordered iteration, the owned iterator, `Drop`, `==`. Access to a
  block not in use or to a moved-out key or value is an explicit failure. Simplified: the hash table of the standard library is the list of
  its entries; `new_owned` iterators from the back and `Clone` are not modelled.
* `QueueModel.v`: `sync/queue.rs`: the queue's memory, head and tail, and one step per atomic access; any number of threads, any schedule,
  any allocator. The epoch collector (`crossbeam_epoch`) is its contract: a block handed to it can be freed at any time after every thread
  that was inside a guard has left it. Not modelled: weak memory (steps are sequentially consistent), allocation failure.
* `MtModel.v`: `idx/mtchm/{mod,patch,access,imp,iter,meta}.rs` used by one thread: the tree, insert/upsert/update/delete with splitting
  and compression, lookups, the size counter, the depth-first iterator with its bounded stack. The hash is any function. Not modelled:
  `mt_clear` (unused), the debug counters, the inline vector of a leaf (a list here).
* `ChtModel.v`: the same files under any number of threads: nodes in an explicit memory, slots with their tag, one step per atomic access, calls
  `patch`, `remove`, `_lookup`, iteration, `len`. The epoch collector is its contract, as for the queue; reading a node that may be freed,
  retiring a node twice, an index out of bounds or a panic is an explicit failure. Not modelled: weak memory (steps are sequentially
  consistent), reuse of addresses while a thread is in a guard (excluded by the contract), `mt_clear`, `Drop`.
* `V1Model.v`: `storage/v1/raw/journal/{raw,mod}.rs` (old system log), `storage/v1/raw/batch_jrnl/{restore,mod}.rs` (old data files),
  `storage/v1/raw/sysdb.rs` (accounts), `storage/v1/raw/rw.rs` with any buffer size. `V1Spec.v` is the grammar of files the old server left. The writers of
  the old format are the grammar only. Not modelled: file headers (C05), OS errors.
* `UpgradeModel.v`: `load` of `storage/mod.rs`, `storage/v1/{mod,loader}.rs`, `recreate` of `storage/v2/mod.rs`, `FullModel` of
  `storage/v2/impls/mdl_journal.rs`, the upgrade as a list of changes of a directory, each complete or not at all. The new log and the new data files are lists
  of events and batches here (their bytes: C06-C12, C71-C73). Not modelled: the settings (`config`) stored in the old account file.
* `ShellModel.v`: `cli/src/query.rs` (`Parameterizer`); reading of floats is a parameter; `repl.rs` only as the caller. `PrintModel.v`:
  `cli/src/resp.rs`; printing of floats and terminal styles are parameters. The client library (not in /repo) is assumed to send the
  values it is given in the canonical encodings of C35.

* `KeyModel.v`: `core/index/key.rs`, the hashing and comparing parts of `data/lit.rs`, `mem/word.rs`, over a memory of blocks; a read outside a
  block is an explicit failure.
* `CostModel.v`: `patch` and `_lookup` of `idx/mtchm/mod.rs` with comparisons and copies counted; counting erases to `MtModel.v`.
* `VecModel.v`: `mem/vinline.rs`, `mem/uarray.rs`, `mem/unsafe_apis.rs`: slots that hold an element or nothing, blocks with their size, a ledger of
  elements destroyed. Not modelled: panics of an element's `Clone` or `Drop`, failure of the allocator.
* `RcModel.v`: `RawRC` of `sync/smart.rs`: one step per atomic access, any number of threads, handles lent to other threads, release and
  acquire as views (sets of earlier actions), the 64-bit counter with its abort. Not modelled: `SliceRC`'s data pointer (the same counter).
* `NameModel.v`: `ModelPrivate` and `ModelMutator` of `core/model/mod.rs`, `delta.rs`, `resolve_schema_deltas_and_freeze_if` of `core/index/row.rs`, the
  statements that touch field names, the log's events about one model, loading and `vacuum_stashed` of `storage/v2/mod.rs`, over a memory where
  a freed address never comes back (so every use of it is noticed). Every key of a table is read at each look-up (the code reads
  some). Not modelled: types, values, the index, logs that this server did not write (a forged log could remove the
  primary key: replay does not check that).

* `OwnModel.v`: `data/lit.rs`, `data/cell.rs`, `core/index/key.rs`, `core/index/row.rs` as far as memory is concerned: constructors, conversions, `clone`,
  `Drop`, over blocks of which each access says the length; a program is any list of such calls on variables, with the
  borrowing rules of the compiler as far as these types need them (what borrows from a variable keeps it from being moved or dropped).
  Capacities equal lengths (`into_boxed_slice`); the counter of a row is a number here (its atomics: C92). Not modelled: locks,
  field names (C93), allocation failure.
* `UbSpec.v`, `UbProofs.v`, `UbProps.v`: no new model; the answer `RoUb` of `RowModel.v`.
* `ShutModel.v`: `engine/mod.rs: start`, `net/mod.rs: ConnectionHandler::run, terminate`, `fractal/mgr.rs` (both executors, `try_write_model_data_batch`),
  `request_batch_resolve_if_cache_full`, the counter and queue of `delta.rs`, as a transition system with one step per access to what tasks share. A
  change is a number; a failed write leaves queue and counter as they were (what it really does: C26). Not modelled: sleeping, the
  queue of directory deletions, `CheckGNSDriver` (behaves as a model's recovery), locks of rows, panics elsewhere.
* `ReplayProps.v`: no code of its own; what `BatchModel.v: apply_batch` does to one key for every batch, also one whose events are out of order (C24), and
  `RowModel.v: resolve` with a read between two schema changes (C22). Both were added because a wrong program survived the other theorems.
* `TimerModel.v`: `fractal/mgr.rs`: the loop of the low-priority executor (timer, queue of deletions, retries, shutdown) with a clock in seconds. Directories are
  names; what is inside a space's directory goes with it.
* `PidModel.v`: `main.rs: entrypoint` and `util/os/flock.rs` (Unix part), one step per system call, any number of processes. Inodes are not used again.
* `ListenModel.v`: `net/mod.rs`: `CLIM`, `NetBackoff`, `accept`, `listen_tcp`, `listen_tls`. The kernel's backlog is a queue without a bound; what handlers do
  is in `NetModel.v` and `ShutModel.v`.
* `FixedModel.v`: all of `mem/fixed_vec.rs` in the release build, on the memory of `VecModel.v`.
* `ArgsModel.v`: `libsky/src/lib.rs: parse_args_deny_duplicate, extract_arg`; `cli/src/args.rs: parse, read_password`. Key events are those handed over by
  crossterm; switching the terminal's mode does not fail.
* `BenchModel.v`: `sky-bench/src/runtime/rookie.rs`, `runtime/fury.rs`, `runtime.rs: RuntimeStats`, `bench.rs: run, cleanup`: any number of workers, one step per
  access to what they share, a clock; both engines. Not modelled: connecting, the text of queries, floating point, what panics print.

* `WholeModel.v`: the server put together: `core/mod.rs` (`with_model`, locks), `core/model/mod.rs` and `core/space.rs` (files and
  tasks of CREATE, DROP), `core/model/alt.rs`, `fractal/{mod,mgr,drivers}.rs` (task queues, uuid checks, deletion), `storage/v2/mod.rs`
  (restart: replay, then every data file). Statements and steps of a flush are atomic; a file is a list of batches; crashes are not
  events (they are C06-C11).

* `WireModel.v`: connections on top of `WholeModel.v`: `net/protocol/mod.rs` (`do_handshake`, `query_loop`), `core/exec.rs: dispatch_to_executor`, the responses of
  all statements and the error numbers of `error.rs`, for any number of connections. A read is handled in one step with its statement; statements of different
  connections interleave in every order. A statement that waits for the models of a flush is no event yet. Packets are sent one after the other was answered
  (otherwise C52); bytes left after the handshake stay in the buffer. TLS is not modelled.
* `PendModel.v`, `PendProps.v`: fractal/mgr.rs:134-143, fractal/mod.rs:150-175; the rest is `ShutModel.v`.
* `BenchArgsModel.v`, `BenchArgsProps.v` (C120, C121): sky-bench/src/args.rs (all but the texts of help and version), `fmt_pk` of bench.rs. The
  floating-point logarithm of `cdig`, the environment and the number of processors are parameters; widths beyond the formatter's are not modelled.
* `BenchReportModel.v`, `BenchReportProps.v` (C123): `fmt_u64` and the total of queries in sky-bench/src/bench.rs. The table of figures (`print_table`) is not modelled.
* `StartMsgModel.v`, `StartMsgProps.v` (C124): fractal/context.rs, the conversions and texts of fractal/error.rs, and the order of context settings and fallible calls from main.rs to net/mod.rs. What a call does inside is given from outside: the errors it makes and drops, and its failure. The blocking pool's thread is taken to be fresh.
* `CfgMsgModel.v`, `CfgMsgProps.v` (C125): the texts of `ConfigError` and `ConfigErrorKind` (config.rs:300-420), their way through `Error` to the log (error.rs, fractal/error.rs, main.rs:69-77), and which file is read for what in which order, on the configuration model of C75. Texts of the operating system and of the YAML reader are given from outside, as functions of the path and of the file's text.
* `BenchRunModel.v`, `BenchRunProps.v` (C122): the texts and parameters of the queries in sky-bench/src/bench.rs: run, worker_init, prepare_bench_spec. The
  `skytable` client crate that sends them is not in the repository; its encoding of parameters is that of C34's specification.
* `ReplModel.v`, `ReplProofs.v`, `ReplProps.v` (C119): cli/src/repl.rs (the loop over lines and the prompt), cli/src/resp.rs (only whether an
  answer counts as an error). Not modelled: the line editor, history, terminal, and the client library (any encoding of parameters that
  never starts with NULL's code).
* `ConcModel.v`, `ConcSpec.v`, `ConcProofs.v` (C116), `ConcScan.v` (SELECT ALL), `ConcDisk.v`, `ConcFile.v` (C117), `ConcProps.v`, `ConcLiveProps.v` (C118): core/dml/{ins,upd,del,sel}.rs, core/index/mod.rs:55-98,
  core/index/row.rs, core/model/delta.rs:86-108, mdl_journal.rs:262-290, 502-613, statement by statement in steps of one access to shared state each. Rows and UPDATEs are parameters
  (`srv_app` is the server's); schema changes, errors found before shared state is touched and failed writes are not there.
* `WireBack.v`, `WireInspect.v`, `WireTableProps.v`, `WirePathProps.v`, `BatchCrash.v`, `CrashProps.v`, `TightProps.v`, `WireStayProps.v`: no code of their own; further theorems about `WireModel.v`,
  `WholeModel.v`, `BatchModel.v` and the models of the old format.

## Trusted base

* Coq 8.16.1's kernel. `Print Assumptions` of each of the 562 theorems named in MANIFEST.json answers "Closed under the global context": no theorem
  depends on an axiom, of the standard library or other. (Each `*Props.v` prints it again while it is compiled. The names of `Coq.ssr.ssrunder` that a list of all
  axioms of the loaded libraries shows are fields of a module type there; nothing here uses them.)
* The reading of the Rust code as recorded in the model's comments: the code is not executed and
  nothing is extracted.
