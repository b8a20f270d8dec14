{
 "claims": [
  {
   "property": "C01",
   "status": "proved",
   "theorems": [
    "C01_cell_roundtrip",
    "C01_cell_encoding_injective"
   ],
   "note": "For every cell whose words are 64-bit, lengths fit u64 and strings pass the same UTF-8 check at write and read."
  },
  {
   "property": "C02",
   "status": "proved",
   "theorems": [
    "C02_dict_roundtrip"
   ],
   "note": "Dictionary listed in hash-iteration order; keys distinct."
  },
  {
   "property": "C03",
   "status": "proved",
   "theorems": [
    "C03_layout_roundtrip",
    "C03_space_roundtrip"
   ],
   "note": "Model and space layouts; field types as built by the server (lists outside, one non-list innermost)."
  },
  {
   "property": "C04",
   "status": "proved",
   "theorems": [
    "C04_event_roundtrip",
    "C04_event_kind"
   ],
   "note": "All eleven event kinds; name/dict lengths within u64; uuid within u128."
  },
  {
   "property": "C05",
   "status": "proved",
   "theorems": [
    "C05_header_roundtrip",
    "C05_wrong_kind_refused",
    "C05_accepted_iff",
    "C05_other_version_refused"
   ],
   "note": "Header round trip, exact acceptance condition, refusal of other kinds and versions."
  },
  {
   "property": "C06",
   "status": "proved",
   "theorems": [
    "C06_clean_reopen_replays_history",
    "C06_exactly_the_committed_events"
   ],
   "note": "Any number of sessions and events on a healthy disk; file below 2^64 bytes; replay of the events does not fail."
  },
  {
   "property": "C07",
   "status": "proved",
   "theorems": [
    "C07_truncated_journal_never_misread"
   ],
   "note": "Every byte prefix of the file of a journal in use."
  },
  {
   "property": "C08",
   "status": "proved",
   "theorems": [
    "C08_any_accepted_journal_is_numbered"
   ],
   "note": "Every byte string; system-log adapter."
  },
  {
   "property": "C09",
   "status": "proved",
   "theorems": [
    "C09_altered_section_needs_same_checksum",
    "C09_payload_damage_within_8_bytes_detected"
   ],
   "note": "Any replacement of the bytes after the stored checksum; with the concrete CRC, any change within 8 payload bytes is refused."
  },
  {
   "property": "C10",
   "status": "partial",
   "theorems": [
    "C10_heartbeat_means_file_intact_partial",
    "C10_self_repair_never_works",
    "C10_fresh_journal_check_always_fails",
    "C10_repaired_journal_unusable_refuted"
   ],
   "note": "False: the number of the failed append is consumed, so the file never opens again (universal theorem and witness); the health check itself is accurate about the file contents."
  },
  {
   "property": "C11",
   "status": "proved",
   "theorems": [
    "C11_no_byte_lost_or_reordered",
    "C11_checksum_tracks_all_bytes",
    "C11_sync_puts_everything_on_disk",
    "C11_checksum_after_failure_refuted",
    "C11_failed_write_panics_refuted"
   ],
   "note": "Whole-or-nothing system calls. Two refutations record what happens to the checksum, and a panic, after a failed write."
  },
  {
   "property": "C12",
   "status": "partial",
   "theorems": [
    "C12_restart_exact_partial",
    "C12_restart_up_to_env_partial",
    "C12_on_disk_partial",
    "C12_env_null_refuted",
    "C12_failed_drop_refuted"
   ],
   "note": "Exact for every history without a failed forced DROP SPACE and without ALTER SPACE env:null, in memory and through the encoded journal file; with env:null only the properties of a space may be lost. Both excluded cases are refuted with witnesses."
  },
  {
   "property": "C13",
   "status": "partial",
   "theorems": [
    "C13_failed_changes_nothing_partial",
    "C13_failed_drop_refuted"
   ],
   "note": "Every state, every statement and failure except a forced DROP SPACE whose log write fails (refuted)."
  },
  {
   "property": "C14",
   "status": "proved",
   "theorems": [
    "C14_root_always_exists",
    "C14_only_root_administers"
   ],
   "note": "Every history of logins, statements, failures, repairs and restarts."
  },
  {
   "property": "C15",
   "status": "proved",
   "theorems": [
    "C15_login_iff_password",
    "C15_root_rights_iff_root"
   ],
   "note": "Hash and verify are variables; verify (hash q) p is an equivalence of passwords."
  },
  {
   "property": "C16",
   "status": "partial",
   "theorems": [
    "C16_alter_user_never_works",
    "C16_alter_user_refuted"
   ],
   "note": "False: ALTER USER is refused for everyone in every state (universal theorem and witness)."
  },
  {
   "property": "C17",
   "status": "partial",
   "theorems": [
    "C17_models_match_spaces_partial",
    "C17_models_well_formed_partial",
    "C17_nonempty_space_kept",
    "C17_drop_exact_partial",
    "C17_failed_drop_refuted"
   ],
   "note": "Invariant for histories without a failed forced DROP SPACE (refuted otherwise); the drop rules are exact."
  },
  {
   "property": "C18",
   "status": "partial",
   "theorems": [
    "C18_insert_exact",
    "C18_key_not_null_partial",
    "C18_null_key_refuted"
   ],
   "note": "Exact acceptance, stored values, no panic, in every state reached by any statements. Refuted only for a nullable primary key: INSERT accepts the null key."
  },
  {
   "property": "C19",
   "status": "proved",
   "theorems": [
    "C19_table",
    "C19_other_rows"
   ],
   "note": "All histories of INSERT/UPDATE/DELETE/SELECT/SELECT ALL (no ALTER; see C22 for those); serial execution; the row index is a finite map (its own implementation is C38)."
  },
  {
   "property": "C20",
   "status": "partial",
   "theorems": [
    "C20_error_restores_partial",
    "C20_repeated_column_refuted",
    "C20_list_append_refuted",
    "C20_division_panic_refuted"
   ],
   "note": "Errors restore the whole model when each column is named once and nothing is appended to a list. Refuted: repeated column, list append, division by zero (panic mid-update)."
  },
  {
   "property": "C21",
   "status": "partial",
   "theorems": [
    "C21_update_exact_partial",
    "C21_classes_kept_partial",
    "C21_no_result_is_refused",
    "C21_wrong_values_refuted",
    "C21_null_stored_refuted"
   ],
   "note": "Exact when the exact results exist and fit; type classes always kept. Refuted: out-of-range assignment, wrap-around, element out of range, null stored by an unsupported operator; no result is ever refused."
  },
  {
   "property": "C22",
   "status": "partial",
   "theorems": [
    "C22_read_in_between",
    "C22_unaltered_columns_partial",
    "C22_current_rows_partial",
    "C22_first_added_column_missing",
    "C22_first_removed_column_stays",
    "C22_removed_column_refuted"
   ],
   "note": "Columns no ALTER ADD/REMOVE ever named, and rows written after the last change, read exactly. False in general: every row misses exactly the first schema change after it was written (universal theorems and witness). Reading a row between two changes makes no difference (C22_read_in_between)."
  },
  {
   "property": "C23",
   "status": "partial",
   "theorems": [
    "C23_alter_only_widens",
    "C23_rows_stay_valid_partial",
    "C23_add_non_null_refuted"
   ],
   "note": "UPDATE only widens, key untouched, rows unchanged (full). Refuted for ADD of a non-nullable column to a model with rows."
  },
  {
   "property": "C24",
   "status": "partial",
   "theorems": [
    "C24_reload_partial",
    "C24_durable_partial",
    "C24_clean_shutdown_partial",
    "C24_refused_update_refuted",
    "C24_delete_race_refuted",
    "C24_null_key_refuted",
    "C24_late_write_refuted",
    "C24_batch_exact"
   ],
   "note": "Any interleaving of statements and flush steps without failed disk writes and ALTER: reload answers every SELECT of a flushed key as before; across restarts rows are exactly those of the acknowledged statements; a completed shutdown loses nothing. What a batch in any order does to a key is exact (C24_batch_exact). \"Completed shutdown\" means no statement after the final flush; see C95. Refuted: refused UPDATE that changed memory, DELETE/INSERT race, null key, statement acknowledged after the final flush."
  },
  {
   "property": "C25",
   "status": "partial",
   "theorems": [
    "C25_add_partial",
    "C25_remove_refuted",
    "C25_update_refuted"
   ],
   "note": "Exact (missing = null) for every interleaving with ALTER MODEL ADD. Refuted for REMOVE and UPDATE."
  },
  {
   "property": "C26",
   "status": "partial",
   "theorems": [
    "C26_nothing_lost_partial",
    "C26_no_panic_partial",
    "C26_failed_step",
    "C26_failed_end",
    "C26_stuck_forever",
    "C26_retry_panics_refuted"
   ],
   "note": "False. Proved: what a failed step or a failed end loses and keeps (all states reached without earlier failure), the model is then stuck for good; without failures nothing is lost and nothing panics. Retry panic refuted with witness."
  },
  {
   "property": "C27",
   "status": "partial",
   "theorems": [
    "C27_increasing_partial",
    "C27_reuse_refuted"
   ],
   "note": "Strictly increasing for all histories without disk failures whose restarts find nothing pending or a non-empty last batch. Refuted otherwise."
  },
  {
   "property": "C28",
   "status": "partial",
   "theorems": [
    "C28_login_parsed_iff_hello_partial",
    "C28_never_reads_beyond_the_hello",
    "C28_answers_agree_partial",
    "C28_same_decision_refuted",
    "C28_told",
    "C28_told_refused"
   ],
   "note": "Acceptance is independent of fragmentation (iff a complete hello was received) and two answers never differ; a client is told that it is logged in iff the credentials of a complete hello are accepted, and is told so if not. False in general: a malformed hello may be rejected or left waiting depending on the reads (refuted)."
  },
  {
   "property": "C29",
   "status": "partial",
   "theorems": [
    "C29_no_crash_refuted",
    "C29_panics_exactly_for_bad_headers_partial",
    "C29_out_of_bounds_only_on_wrapping_sizes_partial"
   ],
   "note": "False: 6-byte headers that panic and size pairs that read out of bounds (refuted). Exact characterisation of the panicking headers; out-of-bounds only for sizes whose sum reaches 2^64."
  },
  {
   "property": "C30",
   "status": "proved",
   "theorems": [
    "C30_packet_delivered_intact",
    "C30_conversation_partial"
   ],
   "note": "Packets below 2^64 bytes; conversation theorem for clients that wait for each answer (see C52 for others)."
  },
  {
   "property": "C31",
   "status": "partial",
   "theorems": [
    "C31_no_crash_refuted",
    "C31_oversized_window_always_crashes",
    "C31_only_oversized_window_crashes_partial",
    "C31_undersized_packet_wedges"
   ],
   "note": "False: query length beyond the packet aborts the handler (refuted); that is the only crash; undersized packets wedge the connection forever."
  },
  {
   "property": "C32",
   "status": "proved",
   "theorems": [
    "C32_responses_decode",
    "C32_responses_unambiguous"
   ],
   "note": "Quantified over the float formatter, assumed only to print no line feed; floats are compared as text."
  },
  {
   "property": "C33",
   "status": "proved",
   "theorems": [
    "C33_integers_printed_exactly"
   ],
   "note": "All eight types, every value of the type."
  },
  {
   "property": "C34",
   "status": "proved",
   "theorems": [
    "C34_text",
    "C34_exact",
    "C34_tokens",
    "C34_refused"
   ],
   "note": "Exact: the token list is the text's own tokens with the leading placeholders filled in order from the parameter block, for any UTF-8 check and float parser."
  },
  {
   "property": "C35",
   "status": "partial",
   "theorems": [
    "C35_values_partial",
    "C35_leftover",
    "C35_exact_partial",
    "C35_uint_refused",
    "C35_sint_refused",
    "C35_malformed_refuted"
   ],
   "note": "Every encodable value is read back exactly and out-of-range integers are refused; but a lone minus sign and an empty unsigned text followed by another parameter are read as 0 (refuted part)."
  },
  {
   "property": "C36",
   "status": "proved",
   "theorems": [
    "C36_keyword",
    "C36_identifier",
    "C36_total"
   ],
   "note": "Keyword lookup is exact for every word; the only words that are neither keyword nor identifier are true and false."
  },
  {
   "property": "C37",
   "status": "partial",
   "theorems": [
    "C37_partial",
    "C37_memory_unobservable",
    "C37_iteration",
    "C37_order",
    "C37_no_leak",
    "C37_owned_iteration",
    "C37_refuted",
    "C37_eq",
    "C37_eq_refuted"
   ],
   "note": "Proved for every history of operations, every allocator and both allocation strategies: no undefined behaviour, every answer that of an insertion-ordered list, iteration from both ends, nothing leaked. Refuted part: the iterator by value reads freed memory for every non-empty map; == panics on maps with different keys."
  },
  {
   "property": "C38",
   "status": "proved",
   "theorems": [
    "C38_map",
    "C38_hash_unobservable",
    "C38_last_write",
    "C38_size"
   ],
   "note": "For every history of insert, upsert, update, delete, lookup and size calls by one thread, every hash function (total collisions included): no panic and every answer is that of a map; a lookup gives the last value written; the size is the number of keys modulo 2^64. Threads running together are not part of this property."
  },
  {
   "property": "C39",
   "status": "proved",
   "theorems": [
    "C39_scan"
   ],
   "note": "After every history a scan answers every stored pair exactly once and its 17-place stack never overflows (one thread)."
  },
  {
   "property": "C40",
   "status": "proved",
   "theorems": [
    "C40_no_undefined_behaviour",
    "C40_linearizable",
    "C40_conservation"
   ],
   "note": "For every schedule of any number of threads, every allocator (addresses may be reused) and every time the collector may run: no undefined behaviour, linearizable to a FIFO queue, and items sent = received + stored + under way. Memory is sequentially consistent; the epoch collector is modelled by its contract."
  },
  {
   "property": "C41",
   "status": "proved",
   "theorems": [
    "C41_schema_needs_root",
    "C41_sysctl_needs_root",
    "C41_namespace_unchanged",
    "C41_root_runs"
   ],
   "note": "For every token sequence and state: CREATE/ALTER/DROP from a non-root connection is refused unchanged; SYSCTL other than REPORT STATUS is refused unchanged; no statement at all changes the namespace. With C15 (root rights iff logged in as root)."
  },
  {
   "property": "C42",
   "status": "partial",
   "theorems": [
    "C42_default_space",
    "C42_default_space_unique",
    "C42_meaning",
    "C42_unqualified_needs_space",
    "C42_qualified_unaffected",
    "C42_schema_ignores_space",
    "C42_current_space_partial",
    "C42_select_dies",
    "C42_select_refuted"
   ],
   "note": "The current space after every connection history equals an independent specification; every DML/INSPECT request names a model written in the statement, qualified or in the current space; qualified statements mean the same in every current space; without a current space and a period no model is reached. Refuted: SELECT ... FROM m without WHERE panics in every current space."
  },
  {
   "property": "C43",
   "status": "partial",
   "theorems": [
    "C43_count",
    "C43_exact",
    "C43_partial",
    "C43_sequential_partial",
    "C43_model_failure_unreported",
    "C43_unhealthy_for_ever",
    "C43_refuted"
   ],
   "note": "Refuted: failures of model drivers are not counted but their recoveries are subtracted, so the status is healthy with a failed model, unhealthy for ever after a recovery, and can hide a failed system journal (each with a witness). Proved: the exact count after every history (modulo 2^64); accuracy when no batch write fails and journal statements do not overlap; under any overlap a healthy status means nothing is failed."
  },
  {
   "property": "C44",
   "status": "partial",
   "theorems": [
    "C44_merge_refuted",
    "C44_value_over_map_refuted",
    "C44_accepts_exactly",
    "C44_merge_result",
    "C44_merge_partial",
    "C44_new_map_lost",
    "C44_flatten_exact",
    "C44_no_nulls_stored"
   ],
   "note": "Refuted twice (a new nested map is lost; a value written over a map deletes the key). Proved: exact acceptance condition, no panic, exact result at every path (got), and the full claim for patches without new maps or values over maps."
  },
  {
   "property": "C45",
   "status": "proved",
   "theorems": [
    "C45_type_name_exact",
    "C45_unknown_type_refused",
    "C45_field_type_exact"
   ],
   "note": "All identifiers and all layer lists, as produced by the layer parser (innermost first)."
  },
  {
   "property": "C46",
   "status": "partial",
   "theorems": [
    "C46_delete",
    "C46_update",
    "C46_select",
    "C46_select_all",
    "C46_insert",
    "C46_written_partial",
    "C46_one_meaning",
    "C46_delete_update_inside",
    "C46_select_outside",
    "C46_select_current_space",
    "C46_select_else_answers",
    "C46_select_all_undefined",
    "C46_select_all_else_answers",
    "C46_insert_inside",
    "C46_missing_condition_refuted",
    "C46_missing_bracket_refuted",
    "C46_missing_field_refuted",
    "C46_select_panics_refuted",
    "C46_insert_panics_refuted",
    "C46_select_all_undefined_refuted",
    "C46_short_insert_refuted",
    "C46_deep_list_mixed"
   ],
   "note": "Exact acceptance (iff) and result for all five DML statements and every token sequence, and exactly when SELECT and SELECT ALL read outside the statement. Refuted: trailing AND, missing closing bracket, trailing comma in the fields, panics of SELECT and INSERT, undefined behaviour of SELECT ALL, four-token INSERT."
  },
  {
   "property": "C47",
   "status": "proved",
   "theorems": [
    "C47_cell_canonical",
    "C47_dict_canonical",
    "C47_layout_canonical",
    "C47_space_canonical",
    "C47_decoders_total"
   ],
   "note": "Cells and dictionaries; also shows that the model's recursion bound is never reached."
  },
  {
   "property": "C48",
   "status": "partial",
   "theorems": [
    "C48_dict_out_of_bounds_refuted",
    "C48_string_out_of_bounds_refuted",
    "C48_row_cells_in_bounds_partial"
   ],
   "note": "False for the in-memory source used for the system log (two refutations); proved for the file reader used for row data."
  },
  {
   "property": "C49",
   "status": "partial",
   "theorems": [
    "C49_version_ids_refuted",
    "C49_all_ids_zero_refuted"
   ],
   "note": "False: the lookup always returns 0 (two refutations)."
  },
  {
   "property": "C50",
   "status": "partial",
   "theorems": [
    "C50_short_write_never_returns",
    "C50_short_write_repeats_data",
    "C50_short_write_silent_corruption_refuted",
    "C50_full_or_failed_write_partial"
   ],
   "note": "False: the whole buffer is sent again (universal non-termination and a silent-corruption witness). Holds when every call writes all or nothing."
  },
  {
   "property": "C51",
   "status": "proved",
   "theorems": [
    "C51_damage_within_8_bytes_detected"
   ],
   "note": "All sessions, positions and replacements; header excluded."
  },
  {
   "property": "C52",
   "status": "partial",
   "theorems": [
    "C52_pipelined_queries_never_answered",
    "C52_back_to_back_refuted"
   ],
   "note": "False: a read that carries the end of a packet and any further byte silences the connection forever (universal theorem and witness)."
  },
  {
   "property": "C53",
   "status": "partial",
   "theorems": [
    "C53_single_fault_reported_partial",
    "C53_reported_field_is_wrong_refuted"
   ],
   "note": "False for two wrong fields (refuted); holds for one."
  },
  {
   "property": "C54",
   "status": "partial",
   "theorems": [
    "C54_no_crash_partial",
    "C54_nullable_null_refuted",
    "C54_orphan_model_refuted"
   ],
   "note": "False for nullable:null and for models orphaned by a failed forced drop (both refuted); proved for all other statements and histories."
  },
  {
   "property": "C55",
   "status": "partial",
   "theorems": [
    "C55_global",
    "C55_model",
    "C55_space_malformed",
    "C55_space_partial",
    "C55_not_found",
    "C55_decl_determines",
    "C55_space_refuted",
    "C55_wire_global",
    "C55_wire_model",
    "C55_wire_space_malformed",
    "C55_wire_missing"
   ],
   "note": "For every server reached by any texts of queries: INSPECT GLOBAL and INSPECT MODEL are JSON texts (RFC 8259 grammar) with exactly the spaces, users (root only), columns and row count; the column description determines the columns. Refuted: INSPECT SPACE has one closing brace too many, for every space of every server (it is JSON without the last byte). Also on the bytes of the whole server with background work and restarts (C55_wire_*): the INSPECT packet is answered with exactly that text, with the row count of that moment."
  },
  {
   "property": "C56",
   "status": "partial",
   "theorems": [
    "C56_deadlock",
    "C56_exact",
    "C56_server_stuck",
    "C56_which_statements",
    "C56_partial",
    "C56_refuted"
   ],
   "note": "Refuted, with the exact condition: statements and background tasks running at the same time all finish under every schedule iff there is not both an ALTER MODEL (of an existing model) and a CREATE MODEL / DROP MODEL / forced DROP SPACE; otherwise a schedule deadlocks them, and then no statement on spaces or models ever proceeds."
  },
  {
   "property": "C57",
   "status": "partial",
   "theorems": [
    "C57_other_conditions_ignored",
    "C57_conditions_refuted",
    "C57_key_condition_partial"
   ],
   "note": "False: conditions on non-key columns are ignored (universal theorem and witness). Unusable key conditions are refused."
  },
  {
   "property": "C58",
   "status": "partial",
   "theorems": [
    "C58_same_row_partial",
    "C58_key_type_refuted"
   ],
   "note": "Same values up to the recorded width of the key; exact claim refuted."
  },
  {
   "property": "C59",
   "status": "partial",
   "theorems": [
    "C59_order_partial",
    "C59_update_reorders_refuted"
   ],
   "note": "ADD and REMOVE keep the order; refuted for UPDATE."
  },
  {
   "property": "C60",
   "status": "partial",
   "theorems": [
    "C60_space_statements",
    "C60_model_statements",
    "C60_create_model_partial",
    "C60_short_create_model_refused",
    "C60_sysctl_partial",
    "C60_use",
    "C60_inspect",
    "C60_one_meaning",
    "C60_inside_partial",
    "C60_create_model_outside",
    "C60_create_model_else_answers",
    "C60_alter_model_outside",
    "C60_alter_model_else_answers",
    "C60_written_refuted",
    "C60_user_refuted",
    "C60_inside_refuted"
   ],
   "note": "Exact acceptance (iff) and result for every schema, system, USE and INSPECT statement and every token sequence, and exactly when CREATE MODEL reads outside the statement. Refuted: nine-token CREATE MODEL and CREATE USER with empty options refused; CREATE MODEL and ALTER MODEL panic on statements cut short."
  },
  {
   "property": "C61",
   "status": "partial",
   "theorems": [
    "C61_accounts_not_consulted",
    "C61_drop_ends_access_refuted",
    "C61_wire_accounts_not_consulted",
    "C61_wire_drop_ends_access_refuted"
   ],
   "note": "Refuted: a dropped user's open connection keeps working. Proved: on a non-root connection no statement's effect or answer depends on the accounts, for every state and token sequence (there DML and INSPECT are functions assumed not to read the accounts); on the whole server, over the bytes of a connection and without that hypothesis: C61_wire_accounts_not_consulted; the refutation also over bytes: a new handshake is refused while the open connection deletes a row."
  },
  {
   "property": "C62",
   "status": "proved",
   "theorems": [
    "C62_names",
    "C62_inside",
    "C62_distinct",
    "C62_wire_inside",
    "C62_wire_deletion",
    "C62_wire_living_partial"
   ],
   "note": "Names are words on every server reached by any texts of queries from any connections; directories are below data/ and distinct (the text of uuids: hexadecimal digits and hyphens, injective, as hypotheses). Restarts are not part of the histories. On the bytes of the whole server with restarts: every file and every deletion is inside data/, a deletion takes exactly the files below its directory, and never that of a model that exists (the last under the conditions of C108)."
  },
  {
   "property": "C63",
   "status": "proved",
   "theorems": [
    "C63_total_work",
    "C63_never_blocked"
   ],
   "note": "Lock freedom with an explicit bound: steps <= calls * (12 n + 6), and no thread inside an operation is ever blocked. Sequentially consistent memory."
  },
  {
   "property": "C64",
   "status": "proved",
   "theorems": [
    "C64_no_leak",
    "C64_collectable",
    "C64_drop"
   ],
   "note": "Exact accounting of blocks when no operation is under way, collectability, and the effect of Drop."
  },
  {
   "property": "C65",
   "status": "proved",
   "theorems": [
    "C65_no_undefined",
    "C65_linearizable",
    "C65_never_blocked"
   ],
   "note": "Linearizability, absence of undefined behaviour and panics, and non-blocking steps for every schedule, every number of threads, every hash function. Memory is sequentially consistent; the epoch collector is modelled by its contract; a removal or write that keeps losing races may retry without end (not claimed otherwise)."
  },
  {
   "property": "C66",
   "status": "proved",
   "theorems": [
    "C66_scan"
   ],
   "note": "For every schedule: no key twice, every pair in the map at some moment of the scan, every key present throughout is answered; moments are those of the linearization of all the other calls."
  },
  {
   "property": "C67",
   "status": "proved",
   "theorems": [
    "C67_memory",
    "C67_collectable"
   ],
   "note": "Exact at every moment: allocated and not retired iff reached from the root; no double retirement and no read of memory that may be freed (part of C65_no_undefined)."
  },
  {
   "property": "C68",
   "status": "partial",
   "theorems": [
    "C68_size_partial",
    "C68_quiet_size",
    "C68_len_refuted"
   ],
   "note": "Exact when no call is under way; at any moment size + increments owed - decrements owed is the number of keys modulo 2^64. Refuted: the answer of len during other calls can be 2^64-1 with one pair ever inserted (the counter is changed after the tree)."
  },
  {
   "property": "C69",
   "status": "proved",
   "theorems": [
    "C69_wait_free"
   ],
   "note": "At most 18 steps of its own under every schedule; the bound is met (example)."
  },
  {
   "property": "C70",
   "status": "proved",
   "theorems": [
    "C70_exact_effect",
    "C70_one_answer"
   ],
   "note": "Refinement of an independent relation on the catalogue (EffSpec.v); the kind of error is fixed up to the two or five kinds a definition can be refused with; the specification is shown to leave no choice of answer. nullable:null (panic, C54) excluded."
  },
  {
   "property": "C71",
   "status": "partial",
   "theorems": [
    "C71_restart_from_bytes_partial",
    "C71_select_after_restart_partial",
    "C71_unreadable_refuted"
   ],
   "note": "Proved for every history whose disk writes succeed and whose batches hold 64-bit numbers and UTF-8 strings: the machine on the file's bytes answers every operation, restarts included, as the machine that keeps the batches. Refuted otherwise: a binary value that comes back as a string (C22) and is appended to is flushed as a string that is not UTF-8, and the file can never be opened again."
  },
  {
   "property": "C72",
   "status": "proved",
   "theorems": [
    "C72_truncated_data_file_never_misread"
   ],
   "note": "For every history and every cut; an accepted cut is matched with the restart of the history and the rows of that moment. Same hypotheses on values as C71."
  },
  {
   "property": "C73",
   "status": "proved",
   "theorems": [
    "C73_damage_within_8_bytes_detected"
   ],
   "note": "Every change within 8 consecutive bytes behind the 64-byte header. Same hypotheses on values as C71."
  },
  {
   "property": "C74",
   "status": "proved",
   "theorems": [
    "C74_batch_bytes_exact",
    "C74_batch_bytes_unambiguous"
   ],
   "note": "Exact in both directions."
  },
  {
   "property": "C75",
   "status": "proved",
   "theorems": [
    "C75_accepted_exactly",
    "C75_one_meaning",
    "C75_no_mixing",
    "C75_help_version",
    "C75_panics_exactly"
   ],
   "note": "Exact for all three sources against ConfigSpec.v; file system, YAML parser and the test for UTF-8 arguments are arbitrary functions."
  },
  {
   "property": "C76",
   "status": "partial",
   "theorems": [
    "C76_sources_agree_partial",
    "C76_every_setting_on_command_line",
    "C76_comma_free_in_environment",
    "C76_environment_has_no_commas",
    "C76_hosts_have_no_colon",
    "C76_interchangeable_refuted"
   ],
   "note": "Proved for values without a comma (the environment's separator): same settings, same configuration. Refuted: a root password with a comma can be given by no environment; IPv6 hosts by neither."
  },
  {
   "property": "C77",
   "status": "partial",
   "theorems": [
    "C77_auth_option_refused",
    "C77_tls_needs_passphrase",
    "C77_documented_options_refuted",
    "C77_documented_tls_refuted",
    "C77_expressible"
   ],
   "note": "Proved: every configuration within the limits is reachable by options. Refuted: --auth is always refused; TLS needs the undocumented --tls-passphrase."
  },
  {
   "property": "C78",
   "status": "partial",
   "theorems": [
    "C78_limits_kept",
    "C78_tls_not_dropped",
    "C78_sixteen_characters_refuted",
    "C78_ascii_password_partial"
   ],
   "note": "16 bytes, window, TLS proved for every start; the message's 16 characters hold for ASCII and are refuted in general (4 characters suffice)."
  },
  {
   "property": "C79",
   "status": "partial",
   "theorems": [
    "C79_complaints_true_partial",
    "C79_environment_complaints_true_partial",
    "C79_complaints_true_refuted"
   ],
   "note": "Every complaint is true of the settings but for the two about the root password that name the plugin (refuted), and the source of the TLS complaint in the environment."
  },
  {
   "property": "C80",
   "status": "partial",
   "theorems": [
    "C80_accounts_exact",
    "C80_deltas",
    "C80_first_start_partial",
    "C80_accounts_added",
    "C80_upgrade_and_restart_partial",
    "C80_removed_column_refuted",
    "C80_data_file_read_exactly",
    "C80_batch_meaning",
    "C80_batch_crash",
    "C80_rows_latest_change",
    "C80_accounts_read_exactly"
   ],
   "note": "Old log, data files and accounts are read exactly; the upgrade followed by shutdown and restart keeps spaces, models, accounts, rows and every SELECT by key. Refuted for models from which a column was removed under the old format; a batch deleting a missing row crashes (exact condition)."
  },
  {
   "property": "C81",
   "status": "partial",
   "theorems": [
    "C81_interrupted_partial",
    "C81_comes_up_empty_refuted"
   ],
   "note": "Exact classification of all interruption points: refused, everything, or - at one point, refuted - an empty database; never a crash."
  },
  {
   "property": "C82",
   "status": "partial",
   "theorems": [
    "C82_update_kills",
    "C82_delete_undone",
    "C82_update_refuted",
    "C82_delete_refuted",
    "C82_restart_first_partial"
   ],
   "note": "False before the first restart: every UPDATE of a row with number > 0 makes the next start fail, every DELETE is undone (universal theorems and witnesses). Proved after one restart, for histories without ALTER."
  },
  {
   "property": "C83",
   "status": "partial",
   "theorems": [
    "C83_trailing_refused",
    "C83_log_read_exactly",
    "C83_events_replayed",
    "C83_reading_ends",
    "C83_unwritten_event_never_recovered",
    "C83_failed_writes_skipped_refuted",
    "C83_unknown_operation_crashes",
    "C83_no_crash_refuted"
   ],
   "note": "Exact replay with any sessions and failed writes proved; refuted: a log with an event code 9 or higher crashes the server instead of being refused, and a failed event of which nothing reached the disk makes the whole log refused."
  },
  {
   "property": "C84",
   "status": "partial",
   "theorems": [
    "C84_data_cut_partial",
    "C84_data_answer",
    "C84_data_cut_refuted",
    "C84_log_cut_partial",
    "C84_log_cut_refuted"
   ],
   "note": "Log: proved when no payload contains the tail of a recovery record; data file: proved when no batch contains the byte FF; both refuted without."
  },
  {
   "property": "C85",
   "status": "partial",
   "theorems": [
    "C85_sent_partial",
    "C85_arrives",
    "C85_exact",
    "C85_minus_refused",
    "C85_never_negative",
    "C85_command_line",
    "C85_escape_refuted",
    "C85_binary_refuted",
    "C85_refused_refuted"
   ],
   "note": "Exact: the lines of the language that arrive as typed are those without minus signs, binary literals, backslashes in strings, line feeds after integers and spaces after floats; what arrives for binary and escaped literals is described; refuted for each of these. Of any line that is sent, no parameter is negative and no minus sign is in the query."
  },
  {
   "property": "C86",
   "status": "partial",
   "theorems": [
    "C86_no_crash_partial",
    "C86_terminates",
    "C86_crash_exact",
    "C86_refuted"
   ],
   "note": "Proved for ASCII lines and for lines of the language with any text inside strings; refuted otherwise, exact condition for lines without literals."
  },
  {
   "property": "C87",
   "status": "partial",
   "theorems": [
    "C87_told_apart_partial",
    "C87_backslash",
    "C87_refuted",
    "C87_command_line_refuted",
    "C87_rows_numbered"
   ],
   "note": "Proved for answers whose strings have no backslash; refuted with backslashes, and for queries given on the command line."
  },
  {
   "property": "C88",
   "status": "partial",
   "theorems": [
    "C88_compare_partial",
    "C88_literal_partial",
    "C88_hash_partial",
    "C88_made",
    "C88_from_file",
    "C88_raw_clone",
    "C88_null_refuted",
    "C88_other_literal_refuted",
    "C88_clone_integer",
    "C88_clone_bytes"
   ],
   "note": "Exact comparing and hashing for keys made from cells, files and raw copies, and for literals of key kinds; refuted: key from a null cell, hashing of bool/float literals; Clone shown wrong (unused by the server)."
  },
  {
   "property": "C89",
   "status": "partial",
   "theorems": [
    "C89_counted",
    "C89_lookup",
    "C89_bytes_partial",
    "C89_integers",
    "C89_integer_insert",
    "C89_refuted"
   ],
   "note": "At most one comparison for binary and string keys when the hash separates the stored keys; refuted for integer keys with every hash function: linear in the number of rows."
  },
  {
   "property": "C90",
   "status": "partial",
   "theorems": [
    "C90_vinline_partial",
    "C90_elements",
    "C90_inline",
    "C90_compact",
    "C90_clone",
    "C90_into_iter_partial",
    "C90_into_iter_refuted",
    "C90_empty_refuted",
    "C90_uarray",
    "C90_uarray_into_iter",
    "C90_from_slice"
   ],
   "note": "Refinement to lists with exact ownership for both vectors, capacity at least 1; refuted: into_iter for types without a niche, capacity 0."
  },
  {
   "property": "C91",
   "status": "partial",
   "theorems": [
    "C91_safe_partial",
    "C91_values_partial",
    "C91_owned_partial",
    "C91_no_leak_partial",
    "C91_all_dropped_partial",
    "C91_literal_slice_refuted",
    "C91_virtual_literal_refuted",
    "C91_clone_number_refuted",
    "C91_clone_string_refuted",
    "C91_push_null_refuted",
    "C91_full_refuted"
   ],
   "note": "Every program over literals, cells, keys, rows that keeps away from four operations (slice or virtual cell of an owned literal, clone of a key, push to a null list): no use after free, values as without memory, one owner per block, nothing left at the end. The four are refuted by witnesses; the server itself reaches only the push to a null list (C94)."
  },
  {
   "property": "C92",
   "status": "proved",
   "theorems": [
    "C92_safe",
    "C92_order",
    "C92_no_leak",
    "C92_counter"
   ],
   "note": "Any interleaving of any number of threads with release/acquire views; fewer than 2^63-1 threads inside one clone call."
  },
  {
   "property": "C93",
   "status": "proved",
   "theorems": [
    "C93_names",
    "C93_create",
    "C93_pointers",
    "C93_reclaimed"
   ],
   "note": "Every history after CREATE MODEL, any data file contents; a freed address is never reused in the model so that every use after free would show."
  },
  {
   "property": "C94",
   "status": "partial",
   "theorems": [
    "C94_exact",
    "C94_without_alter",
    "C94_safe_partial",
    "C94_null_list_refuted",
    "C94_added_list_refuted",
    "C94_integer_as_string_refuted"
   ],
   "note": "Exact condition of undefined behaviour for every history with ALTER; exact condition without ALTER; none without ALTER and nullable list columns. The full statement is refuted by three witnesses."
  },
  {
   "property": "C95",
   "status": "partial",
   "theorems": [
    "C95_prefix",
    "C95_exact",
    "C95_safe_partial",
    "C95_late_refuted",
    "C95_answered_before_refuted",
    "C95_panic_refuted",
    "C95_other_model_refuted"
   ],
   "note": "Every interleaving: the file holds a beginning of the changes in order; at the end exactly the last cnt+lost changes are missing; nothing is missing if executors take notice of the signal only when no statement is under way and none comes later, and the disk works. The full statement is refuted by four witnesses."
  },
  {
   "property": "C96",
   "status": "partial",
   "theorems": [
    "C96_can_end_partial",
    "C96_never_ends",
    "C96_refuted"
   ],
   "note": "From every reachable state some schedule with a working disk closes the files; with a pending recovery that keeps failing no schedule does (universal, and reached by a witness)."
  },
  {
   "property": "C97",
   "status": "partial",
   "theorems": [
    "C97_before_signal_partial",
    "C97_after_signal",
    "C97_refuted"
   ],
   "note": "Before the signal no thread uses memory of an ended connection; after it two steps suffice wherever a handler waits for its thread (universal, and a witness)."
  },
  {
   "property": "C98",
   "status": "partial",
   "theorems": [
    "C98_quiet_partial",
    "C98_exact",
    "C98_starved_refuted",
    "C98_starved",
    "C98_missing_directory",
    "C98_stuck_refuted"
   ],
   "note": "As long as nothing is dropped, writes are spaced by exactly the window plus their own length; exact condition of the timer in general. The full statement is refuted: drops more often than the window, or one deletion of a directory that is gone, stop all periodic writes (universal theorems and witnesses)."
  },
  {
   "property": "C99",
   "status": "partial",
   "theorems": [
    "C99_deleted_partial",
    "C99_worked_off",
    "C99_nothing_else",
    "C99_shutdown_refuted"
   ],
   "note": "Whenever the queue is empty every dropped directory and what was in it is gone; the queue can be worked off; nothing else is ever deleted. The full statement is refuted: a shutdown throws the queue away, and no later run deletes the directory."
  },
  {
   "property": "C100",
   "status": "partial",
   "theorems": [
    "C100_exclusive_partial",
    "C100_start_exact",
    "C100_no_stale_lock",
    "C100_nameless",
    "C100_refuted",
    "C100_unbounded"
   ],
   "note": "At most one server as long as no server removes the file while another is between opening and locking it; exact condition of a start; no stale locks. The full statement is refuted, without any bound on the number of servers."
  },
  {
   "property": "C101",
   "status": "partial",
   "theorems": [
    "C101_accounting",
    "C101_permit_never_waits",
    "C101_unbounded",
    "C101_limit_refuted",
    "C101_handshake_blocks",
    "C101_silent_client_refuted",
    "C101_tcp_served_partial",
    "C101_tls_served_partial",
    "C101_backoff_exact",
    "C101_backoff_bounded"
   ],
   "note": "Exact accounting of clients on both listeners; everybody waiting on TCP can be served by the listener alone; exact back-off. Both halves of the full statement are refuted: no limit on connections, and one silent TLS client blocks all others (universal theorems)."
  },
  {
   "property": "C102",
   "status": "partial",
   "theorems": [
    "C102_list_exact",
    "C102_elements",
    "C102_leak",
    "C102_freed_refuted"
   ],
   "note": "Exact refinement to bounded lists (defined exactly when the list allows the operation); every element handed back or destroyed once. The last clause is refuted: the block is never freed, after any history."
  },
  {
   "property": "C103",
   "status": "partial",
   "theorems": [
    "C103_arguments_exact",
    "C103_accepted_partial",
    "C103_help_exact",
    "C103_equals_sign",
    "C103_value_refuted",
    "C103_no_ipv6",
    "C103_certificate_ignored"
   ],
   "note": "Exact meaning of every list of arguments, and exact condition of acceptance. The full statement is refuted for values with an equals sign; hosts with a colon and ignored certificates as universal theorems."
  },
  {
   "property": "C104",
   "status": "partial",
   "theorems": [
    "C104_password_partial",
    "C104_shifted_lost",
    "C104_interrupted",
    "C104_typed_refuted",
    "C104_raw_mode",
    "C104_raw_mode_refuted"
   ],
   "note": "Exact text for strokes without modifiers, and the process ends exactly at control-C. Refuted for strokes with SHIFT, which are lost (universal); raw mode stays on after a failed read. Which characters are reported with SHIFT is up to a library outside /repo."
  },
  {
   "property": "C105",
   "status": "partial",
   "theorems": [
    "C105_never_twice",
    "C105_in_order",
    "C105_each_once",
    "C105_bad_answer",
    "C105_too_few",
    "C105_bounded",
    "C105_finishes_partial",
    "C105_dead_forever",
    "C105_can_hang",
    "C105_refuted"
   ],
   "note": "No key twice and phases in order in every reachable state; every key exactly once when the run ends well; a bounded number of steps; at the end all is done unless a worker panicked. The last clause is refuted: a worker that gets no query panics and the benchmark hangs for ever, possible for every benchmark with two or more workers."
  },
  {
   "property": "C106",
   "status": "partial",
   "theorems": [
    "C106_extremes",
    "C106_rate_exact",
    "C106_rate_partial",
    "C106_rate_refuted"
   ],
   "note": "Number of queries, fastest and slowest one exact. The time behind the rate is characterised exactly: it leaves out what passes between the queries of a worker, so the rate is never too low and exact without pauses; refuted otherwise. Floating point not modelled."
  },
  {
   "property": "C107",
   "status": "partial",
   "theorems": [
    "C107_untouched",
    "C107_exact",
    "C107_success",
    "C107_next_fails",
    "C107_refuted"
   ],
   "note": "Exactly when a space is left behind; an existing space is never touched; everything as before after a run that ended well. The full statement is refuted: a failed CREATE MODEL or clean-up leaves the space, and every later run fails."
  },
  {
   "property": "C108",
   "status": "partial",
   "theorems": [
    "C108_own_history_partial",
    "C108_in_step_partial",
    "C108_others_untouched_partial",
    "C108_starts_empty_partial",
    "C108_orphan_refuted"
   ],
   "note": "For every history of the whole server (logins, DDL, DML, flushes step by step, failed writes, recovery, deletions of directories, restarts) in which generated uuids differ, no forced DROP SPACE failed at the log and no map names a property twice: each live model is in a state that the one-model machine reaches by exactly the statements addressed to it since its creation; other models' rows and files are untouched by every event; a re-created model starts empty. Side finding: a CREATE MODEL refused while the log is broken leaves its directory."
  },
  {
   "property": "C109",
   "status": "partial",
   "theorems": [
    "C109_table_partial",
    "C109_restart_partial"
   ],
   "note": "Per model: whatever other models go through, its rows over any number of restarts are those of the acknowledged statements; the restart succeeds with the same models, accounts and rows when all models were gentle. Missing: failed writes to the model's own file, refused UPDATEs of the harmful kind, REMOVE/UPDATE of columns (refuted in C24-C26), and the histories excluded in C108."
  },
  {
   "property": "C110",
   "status": "partial",
   "theorems": [
    "C110_history",
    "C110_incomplete",
    "C110_one_meaning",
    "C110_data_partial",
    "C110_answer_read",
    "C110_schema_partial",
    "C110_use",
    "C110_inspect",
    "C110_nothing_said_partial",
    "C110_codes",
    "C110_answered_refuted",
    "C110_answered_stays",
    "C110_ends_only",
    "C110_no_packet"
   ],
   "note": "For every history of bytes on all connections over the whole server: bytes of an incomplete packet do nothing; the read that completes a packet performs exactly what its text and parameters say (C34, C46, C60), once, and writes exactly the response of the outcome, which a client decodes; other connections are untouched; a text that says nothing changes nothing; an answered client stays connected, bytes that are no packet are answered with an error and only a complete packet (or hanging up) can end a connection. Missing: undefined behaviour, the end of a wait for a flush, packets sent before the previous answer (C52). The full statement is refuted: some packets are not answered, the connection is closed (C46)."
  },
  {
   "property": "C111",
   "status": "partial",
   "theorems": [
    "C111_row_back_partial",
    "C111_removed_partial"
   ],
   "note": "For every history of bytes, background work and restarts: after the packet of an INSERT was answered with success, a SELECT packet of its key on any connection is answered with exactly those values (and after a DELETE with the missing-row error) until an acknowledged change. Missing: failed writes to the model file, ALTER MODEL of the model, UPDATEs refused in the ways of C20, restarts with changes not written (C24), a forced DROP SPACE that failed at the log (C13)."
  },
  {
   "property": "C112",
   "status": "proved",
   "theorems": [
    "C112_login",
    "C112_nothing_else",
    "C112_origin"
   ],
   "note": "For all histories of bytes on all connections, background work and restarts, with less than 2^64 bytes received per connection. Password verification and UTF-8 are parameters."
  },
  {
   "property": "C113",
   "status": "partial",
   "theorems": [
    "C113_data_partial",
    "C113_count_partial"
   ],
   "note": "For every history of bytes, background work and restarts: the answer to every data packet, and the row count of INSPECT MODEL, are those of the table of acknowledged statements (exactly which error, which rows). Missing: failed writes to the model file, ALTER MODEL of the model, UPDATEs refused otherwise than harmlessly (C20), restarts with unwritten changes (all shown to break it by C12, C20, C24), and UPDATEs with undefined behaviour (C94)."
  },
  {
   "property": "C114",
   "status": "partial",
   "theorems": [
    "C114_row_partial",
    "C114_one_moment_refuted",
    "C114_server_partial"
   ],
   "note": "Per key, for one model and on the whole server: after a shutdown with unwritten changes a key whose changes were all written at some earlier moment answers SELECT exactly as it did at one moment since. Different keys need not be of the same moment (refuted witness: a later insert is there, an earlier one is not). Missing: failed writes, ALTER MODEL, UPDATEs refused otherwise than harmlessly, a shutdown inside a flush (the executors finish it first)."
  },
  {
   "property": "C115",
   "status": "partial",
   "theorems": [
    "C115_counter_partial",
    "C115_unbounded",
    "C115_failed_disk",
    "C115_share",
    "C115_share_refuted",
    "C115_rows_ignored",
    "C115_no_memory"
   ],
   "note": "For every interleaving: the counter of unwritten changes stays below the limit plus the statements under way, and the queue is exactly accounted for by it and the batches asked for; a failed driver adds nothing; the limits of the models present at the start share a fiftieth of the free memory. Missing because false: asking for a batch sets the counter back and nobody waits for it, so any number of acknowledged changes can wait in memory (C115_unbounded), and models made after the start each get a full share (C115_share_refuted). The criterion on the share of rows never decides (C115_rows_ignored)."
  },
  {
   "property": "C116",
   "status": "partial",
   "theorems": [
    "C116_one_order",
    "C116_all_partial",
    "C116_all_refuted"
   ],
   "note": "For every interleaving of any number of INSERT, UPDATE, DELETE and SELECT: there is one order, each statement at a moment inside its interval, in which a plain table gives exactly the answers given and the rows in memory. For SELECT ALL: its keys are exactly those of one moment, each row is what that row was at some moment inside. Missing because false: that the rows of a SELECT ALL are all of one moment (C116_all_refuted: it shows a later acknowledged UPDATE and not an earlier one). ALTER MODEL excludes data statements by a lock and has no part."
  },
  {
   "property": "C117",
   "status": "partial",
   "theorems": [
    "C117_restart_partial",
    "C117_deleted_row_back_refuted",
    "C117_inserted_row_gone_refuted",
    "C117_cannot_start_refuted"
   ],
   "note": "For every interleaving in which no DELETE overlaps an INSERT or UPDATE of the same row and refused UPDATEs leave the row: once everything is answered and written, the start succeeds and the rows are those in memory and those of the order of C116. Missing because false: with an overlapping DELETE the deleted row comes back (C117_deleted_row_back_refuted), an inserted row is lost (C117_inserted_row_gone_refuted), or the loader's assertion fails and the server does not start (C117_cannot_start_refuted)."
  },
  {
   "property": "C118",
   "status": "proved",
   "theorems": [
    "C118_somebody_goes_on",
    "C118_bounded",
    "C118_comes_to_rest",
    "C118_waits_only",
    "C118_flush_waits_only"
   ],
   "note": "From every state reached: somebody can go on as long as a statement is unanswered or a change unwritten; every way to go on is bounded in the tasks and rows, and ends with everything answered and written; exactly whom a statement may wait for. Schema changes are not among the tasks (C56); who gets a lock first is left open."
  },
  {
   "property": "C119",
   "status": "partial",
   "theorems": [
    "C119_line",
    "C119_session_partial",
    "C119_wrong_at_once",
    "C119_refuted"
   ],
   "note": "One line: a prompt that is right stays right exactly if the line is not one of three kinds; sessions without such lines always show the current space. Refuted for the three kinds: USE NULL not typed with exactly one space and nothing around it, USE $ CURRENT with blanks around the dollar sign, USE $CURRENT after another connection dropped the space."
  },
  {
   "property": "C120",
   "status": "partial",
   "theorems": [
    "C120_accepted_partial",
    "C120_complaint",
    "C120_key_complaint",
    "C120_help_exact",
    "C120_default_key_refuted"
   ],
   "note": "Exact for every list of arguments: accepted with a configuration iff the options, each once, say so; every refusal says something true of the options. Help and version exactly when asked for; a refused key size is too small for the last row's position. Missing because false: the help text's default key size of 7 (C120_default_key_refuted). The floating-point logarithm is left open."
  },
  {
   "property": "C121",
   "status": "proved",
   "theorems": [
    "C121_keys",
    "C121_default_size"
   ],
   "note": "For every accepted configuration and every row, given only that the floating-point logarithm of a number at or above a power of ten is not below its exponent. With an exact logarithm the default size is the smallest in which all positions can be written."
  },
  {
   "property": "C122",
   "status": "proved",
   "theorems": [
    "C122_read",
    "C122_answer",
    "C122_model",
    "C122_together"
   ],
   "note": "Three layers: the four texts say the four statements for every key and the CREATE MODEL makes the model; on a table that holds what the phase finds, the wire answer due by C113 is the one compared with; for every accepted configuration and every interleaving, each answered statement gets the answer expected (on the interleaving model of C116, with the schedule of C105/C106 as hypothesis). The client library that encodes the parameters is not in the repository."
  },
  {
   "property": "C123",
   "status": "partial",
   "theorems": [
    "C123_text",
    "C123_different",
    "C123_total_partial",
    "C123_total_refuted"
   ],
   "note": "Exact text for every 64-bit number (a text is that of the code iff it is the decimal text in threes), different for different numbers; the number is that of the queries answered, for every run that ended well on the model of C105, if four times the row count fits in 64 bits. Missing because false: for larger row counts the unchecked product wraps (C123_total_refuted; release build)."
  },
  {
   "property": "C124",
   "status": "partial",
   "theorems": [
    "C124_first_failure",
    "C124_message_partial",
    "C124_never_misleads",
    "C124_words",
    "C124_message_refuted",
    "C124_skipped_event_refuted",
    "C124_network_lost"
   ],
   "note": "The first failing step is the one reported, with its failure, for every install and endpoint configuration; the text is exactly part, step and failure if no error was made and dropped before; different steps have different words. In any case no message names a wrong step, files of models of older installs are always named, and only the loading can lose its context. Missing because false: after an error that was dropped while loading, the part and the step can be lost (C124_message_refuted: an older install whose log has an event that cannot be applied; C124_skipped_event_refuted: likewise with its recovery entry); failures of the network are never reported as such (C124_network_lost)."
  },
  {
   "property": "C125",
   "status": "partial",
   "theorems": [
    "C125_unread_file",
    "C125_always_a_reason",
    "C125_same_words_partial",
    "C125_which_file_refuted"
   ],
   "note": "Something is said exactly when a configuration is refused; refusals with the same words, on any two machines, have the same source, the same mistake and the same names, or concern unreadable files of the same purpose of which the systems say the same; an unreadable file is reported with its purpose and the text of the system for a file wanted for that purpose. Missing because false: which of the TLS files it was is not told (C125_which_file_refuted)."
  }
 ]
}