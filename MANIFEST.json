{
 "claims": [
  {
   "property": "C01",
   "status": "proved",
   "theorems": [
    "vector_queue_fifo",
    "vector_queue_push_back_pos"
   ],
   "note": ""
  },
  {
   "property": "C02",
   "status": "partial",
   "theorems": [
    "vector_queue_push_front_refuted",
    "vector_queue_push_front_partial"
   ],
   "note": "The code violates the property for capacities that are not a power of two (refuted with a concrete run); proved for powers of two."
  },
  {
   "property": "C03",
   "status": "proved",
   "theorems": [
    "vector_queue_copy",
    "vector_queue_assign",
    "vector_queue_move"
   ],
   "note": "Storage leaked by move assignment is not modelled."
  },
  {
   "property": "C04",
   "status": "proved",
   "theorems": [
    "ring_back_region",
    "ring_front_region",
    "ring_null_only_after_quit",
    "ring_assertions_hold"
   ],
   "note": ""
  },
  {
   "property": "C05",
   "status": "proved",
   "theorems": [
    "ring_fifo",
    "ring_front_region"
   ],
   "note": ""
  },
  {
   "property": "C06",
   "status": "proved",
   "theorems": [
    "ring_no_lost_wakeup",
    "ring_wakeup_pending",
    "ring_notification_wakes"
   ],
   "note": "That the operating system eventually delivers a notification and schedules the woken thread is assumed."
  },
  {
   "property": "C07",
   "status": "partial",
   "theorems": [
    "ring_two_waiters_refuted",
    "ring_two_waiters_pop_refuted",
    "ring_no_lost_wakeup"
   ],
   "note": "The code violates the property: notify_one wakes one of two waiters (two concrete schedules). What holds is C06: without a second waiter no wake-up is lost."
  },
  {
   "property": "C08",
   "status": "proved",
   "theorems": [
    "base64_encode_rfc4648"
   ],
   "note": ""
  },
  {
   "property": "C09",
   "status": "proved",
   "theorems": [
    "base64_decode_inverts",
    "base64_round_trip"
   ],
   "note": ""
  },
  {
   "property": "C10",
   "status": "proved",
   "theorems": [
    "base64_enc_size_bound",
    "base64_dec_size_bound"
   ],
   "note": "Proved for chunks shorter than 2^62, which excludes size_t wrap."
  },
  {
   "property": "C11",
   "status": "proved",
   "theorems": [
    "base64_writer_text",
    "base64_writer_no_breaks",
    "base64_writer_decodes"
   ],
   "note": ""
  },
  {
   "property": "C12",
   "status": "partial",
   "theorems": [
    "base64_reader_refuted",
    "base64_reader_partial"
   ],
   "note": "The code violates the property: base64_reader drops the last 1 or 2 bytes (base64.hpp:420-428). Proved when the data length is a multiple of three."
  },
  {
   "property": "C13",
   "status": "proved",
   "theorems": [
    "hex_encode_spec",
    "hex_decode_pairs",
    "hex_round_trip",
    "hex_dec_size_bound"
   ],
   "note": ""
  },
  {
   "property": "C14",
   "status": "proved",
   "theorems": [
    "mul_checked",
    "add_checked"
   ],
   "note": ""
  },
  {
   "property": "C15",
   "status": "partial",
   "theorems": [
    "muldiv32_exact",
    "muldiv64_partial",
    "muldiv64_refuted"
   ],
   "note": "The 32-bit overload is exact; the 64-bit overload violates the property when the intermediate products overflow (refuted with a witness), proved when they do not."
  },
  {
   "property": "C16",
   "status": "proved",
   "theorems": [
    "rol_bits",
    "rol_inverse"
   ],
   "note": ""
  },
  {
   "property": "C17",
   "status": "proved",
   "theorems": [
    "interval_contains_size",
    "interval_shift",
    "interval_invalid"
   ],
   "note": ""
  },
  {
   "property": "C18",
   "status": "proved",
   "theorems": [
    "mapping_dst2src",
    "mapping_src2dst",
    "mapping_answer_unique",
    "mapping_invert"
   ],
   "note": ""
  },
  {
   "property": "C19",
   "status": "proved",
   "theorems": [
    "mapping_hint"
   ],
   "note": ""
  },
  {
   "property": "C20",
   "status": "proved",
   "theorems": [
    "byteswap_reverses",
    "byteswap_involution",
    "byteswap_signed_involution"
   ],
   "note": ""
  },
  {
   "property": "C21",
   "status": "partial",
   "theorems": [
    "date_round_trip",
    "day_number_round_trip",
    "date_successor",
    "date_anchor",
    "date_before_era_refuted"
   ],
   "note": "Proved from 1 March of year 0 to year 1460000 (int overflow is undefined beyond); before 1 March 0 the code violates the property (refuted with a witness)."
  },
  {
   "property": "C22",
   "status": "partial",
   "theorems": [
    "day_of_week_spec_partial",
    "day_of_week_anchor",
    "day_of_week_dmy_agrees",
    "day_of_week_refuted"
   ],
   "note": "Proved for day numbers >= 0; negative day numbers violate the property (day -1 gives 255)."
  },
  {
   "property": "C23",
   "status": "proved",
   "theorems": [
    "time_t_round_trip",
    "timestamp_time_t_floor",
    "date_time_t",
    "timestamp_date",
    "timestamp_round_trip",
    "timestamp_tm"
   ],
   "note": ""
  },
  {
   "property": "C24",
   "status": "partial",
   "theorems": [
    "timespec_refuted",
    "timespec_partial"
   ],
   "note": "The code violates the property: nanoseconds are divided by 1000 instead of 1000000."
  },
  {
   "property": "C25",
   "status": "proved",
   "theorems": [
    "hash_chunk_independence"
   ],
   "note": ""
  },
  {
   "property": "C26",
   "status": "proved",
   "theorems": [
    "crc32_correct",
    "crc32_resume"
   ],
   "note": ""
  },
  {
   "property": "C27",
   "status": "proved",
   "theorems": [
    "md5_correct"
   ],
   "note": "For chunks below 4 GiB each (see C29)."
  },
  {
   "property": "C28",
   "status": "proved",
   "theorems": [
    "sha1_correct"
   ],
   "note": "For chunks below 4 GiB each (see C29)."
  },
  {
   "property": "C29",
   "status": "partial",
   "theorems": [
    "block_hash_length_refuted",
    "block_hash_length_partial"
   ],
   "note": "The code violates the property: a chunk of 2^32 bytes is not counted. Proved for chunks below 2^32 bytes."
  },
  {
   "property": "C30",
   "status": "partial",
   "theorems": [
    "lexicographic_total_order",
    "strcmp_spec",
    "strcmp_signed_spec",
    "strncmp_common_spec",
    "strncmp_spec",
    "strncmp_utf32_utf16_spec",
    "strrcmp_spec",
    "strrncmp_spec",
    "strncmp_signed_refuted"
   ],
   "note": "Proved for unsigned code units. With a signed char type the four-argument strncmp is not an order (refuted with three buffers)."
  },
  {
   "property": "C31",
   "status": "proved",
   "theorems": [
    "stricmp_spec",
    "strnicmp_common_spec",
    "strnicmp_spec",
    "ascii_folding"
   ],
   "note": "For every folding function that maps exactly 0 to 0; the ASCII one is proved to be such."
  },
  {
   "property": "C32",
   "status": "proved",
   "theorems": [
    "strchr_spec",
    "strnchr_correct",
    "strichr_spec",
    "strnichr_spec",
    "strrchr_spec",
    "strrnchr_correct",
    "strrichr_spec",
    "strstr_spec",
    "strnstr_spec",
    "plain_search_is_folded_search"
   ],
   "note": ""
  },
  {
   "property": "C33",
   "status": "partial",
   "theorems": [
    "strcpy_spec",
    "strcat_spec",
    "strncpy_common_spec",
    "strncpy_spec",
    "strncpy_utf16_utf32_spec",
    "strncat_spec",
    "strdup_spec",
    "strncat_common_refuted",
    "strncat_common_partial",
    "strndup_refuted",
    "strndup_partial"
   ],
   "note": "strncat(dst, src, count) and strndup violate the property (no terminator when count is reached): refuted, and proved when the source ends within count."
  },
  {
   "property": "C34",
   "status": "proved",
   "theorems": [
    "ltrim_spec",
    "rtrim_spec",
    "trim_spec",
    "trim_string_spec"
   ],
   "note": "count = SIZE_MAX is not modelled."
  },
  {
   "property": "C35",
   "status": "proved",
   "theorems": [
    "crlf2nl_buffer_spec",
    "crlf2nl_string_spec",
    "crlf2nl_idempotent",
    "crlf2nl_units"
   ],
   "note": ""
  },
  {
   "property": "C36",
   "status": "partial",
   "theorems": [
    "strtouint_spec",
    "strtoint_partial",
    "strtoint_refuted"
   ],
   "note": "strtoint violates the property for positive values between 2^(b-1) and 2^b-1 (strto8(\"200\") = -56); proved for all others. The overflow flag is internal in the public overloads."
  },
  {
   "property": "C37",
   "status": "partial",
   "theorems": [
    "strtouint_negative_refuted",
    "strtouint_negative_partial"
   ],
   "note": "The code violates the property: the result is one less than the two's complement negation, for every negative numeral in range."
  },
  {
   "property": "C38",
   "status": "proved",
   "theorems": [
    "surrogate_classes",
    "surrogate_round_trip",
    "surrogate_round_trip_inv"
   ],
   "note": ""
  },
  {
   "property": "C39",
   "status": "partial",
   "theorems": [
    "character_classes",
    "toupper_refuted",
    "islbreak_counted_refuted",
    "islbreak_counted_partial",
    "strlwr_spec",
    "isblank_spec",
    "ascii_folding"
   ],
   "note": "toupper of every lower-case letter is -1, and islbreak(ptr, 1) misses a lone break: refuted. The other classifications are proved."
  },
  {
   "property": "C40",
   "status": "partial",
   "theorems": [
    "glyphlen_utf16_spec",
    "glyphlen_utf32_spec",
    "glyphrlen_utf16_spec",
    "glyphrlen_utf32_refuted",
    "glyphrlen_utf32_partial"
   ],
   "note": "glyphrlen for UTF-32 is off by one: refuted; proved when the buffer is a single glyph."
  },
  {
   "property": "C41",
   "status": "proved",
   "theorems": [
    "sgml_lookup",
    "expansion_first",
    "expansion_unknown",
    "sgml2uni_spec"
   ],
   "note": "numeric references: sgml2uni_spec with SgmlSpec.reference"
  },
  {
   "property": "C42",
   "status": "partial",
   "theorems": [
    "sgml_round_trip_refuted",
    "sgml_round_trip_refuted2",
    "sgml_round_trip_partial",
    "aliased_iff"
   ],
   "note": "The claim is false of the code (l + U+0307 becomes &ldot; which decodes to U+22D6; U+02BC becomes an apostrophe; decomposed accents become composed). Proved for every text in which no aliased expansion (explicit finite list) occurs."
  },
  {
   "property": "C43",
   "status": "partial",
   "theorems": [
    "sgml2bufcat_spec",
    "str2sgmlbuf_refuted",
    "str2sgmlbuf_partial"
   ],
   "note": "The decoder is proved in full. The encoder writes out of bounds for numeric references (refuted); proved when the text fits, and in all cases when there is no numeric reference."
  },
  {
   "property": "C44",
   "status": "proved",
   "theorems": [
    "data_round_trip",
    "read_data_spec",
    "read_data_short",
    "read_data_skip",
    "write_data_spec",
    "write_data_skip"
   ],
   "note": "for every stream meeting the source/sink contract of StreamSpec.v; shown for fifo and memory_file separately"
  },
  {
   "property": "C45",
   "status": "proved",
   "theorems": [
    "mf_step_spec",
    "mf_run_spec",
    "mf_run_exact",
    "mf_str_round_trip",
    "mf_source",
    "mf_never_fails"
   ],
   "note": "whatever the allocator decides; with memory available the file is exactly the byte array"
  },
  {
   "property": "C46",
   "status": "partial",
   "theorems": [
    "mf_read_beyond_partial",
    "mf_read_end_partial",
    "mf_read_beyond_refuted",
    "mf_read_beyond_junk_refuted"
   ],
   "note": "m_size - m_offset wraps in read(): refuted; typed reads and reading at the end itself are proved"
  },
  {
   "property": "C47",
   "status": "proved",
   "theorems": [
    "fifo_history",
    "fifo_read_exact",
    "fifo_source",
    "fifo_sink",
    "fifo_data_round_trip",
    "fifo_str_round_trip"
   ],
   "note": ""
  },
  {
   "property": "C48",
   "status": "proved",
   "theorems": [
    "buffer_source",
    "buffer_never_fails",
    "buffer_sink",
    "buffer_always_writes",
    "buffer_flush_out",
    "buffer_done_out",
    "buffer_life",
    "buffer_read_all"
   ],
   "note": "reading side and writing side separately, over any source; for both at once on one file see C90"
  },
  {
   "property": "C49",
   "status": "proved",
   "theorems": [
    "limiter_source",
    "limiter_never_fails",
    "limiter_read_all",
    "limiter_write_spec",
    "limiter_write_total",
    "limiter_write_exact"
   ],
   "note": ""
  },
  {
   "property": "C50",
   "status": "proved",
   "theorems": [
    "window_read_spec",
    "window_reads_spec",
    "window_writes_spec"
   ],
   "note": "source long enough to reach the window; the end of the window is C92"
  },
  {
   "property": "C51",
   "status": "partial",
   "theorems": [
    "fw_seek_refuted",
    "fw_seek_start_refuted",
    "fw_new_refuted",
    "fw_seek_partial"
   ],
   "note": "seek takes source positions while tell and the value seek returns are window positions: refuted; with source positions the rest holds"
  },
  {
   "property": "C52",
   "status": "partial",
   "theorems": [
    "cache_transparent_partial",
    "cache_flush_content",
    "cache_read_ok",
    "cache_write_ok",
    "cache_truncate_ok",
    "cache_size_ok",
    "cache_run_ok"
   ],
   "note": "every history of calls at positions up to the end of file, in state ok, whose long writes do not end on a block boundary; the excluded cases are refuted in C94-C98"
  },
  {
   "property": "C53",
   "status": "proved",
   "theorems": [
    "replicator_sequential",
    "replicator_calls_complete",
    "replicator_no_deadlock",
    "replicator_steps_bounded",
    "replicator_destroyed",
    "replicator_write"
   ],
   "note": "every interleaving of the caller and one worker per sink; an operation of a sink is one step"
  },
  {
   "property": "C54",
   "status": "proved",
   "theorems": [
    "async_reader_delivers",
    "async_reader_short_read",
    "async_reader_no_race",
    "async_writer_prefix",
    "async_writer_destroyed",
    "async_writer_flush",
    "async_writer_all_ok"
   ],
   "note": "on top of the ring model, step for step; every source/sink contract, every capacity, every schedule"
  },
  {
   "property": "C55",
   "status": "proved",
   "theorems": [
    "spinlock_mutual_exclusion",
    "spinlock_acquired_when_free",
    "spinlock_try_exchange_fails_when_held",
    "spinlock_try_ends",
    "spinlock_free_lock_is_taken"
   ],
   "note": "any number of threads; relaxed loads may give any value"
  },
  {
   "property": "C56",
   "status": "proved",
   "theorems": [
    "pool_linearizable",
    "pool_conservation",
    "pool_one_owner",
    "pool_pop"
   ],
   "note": "each node is a linearizable stack; conservation as a permutation"
  },
  {
   "property": "C57",
   "status": "partial",
   "theorems": [
    "watchdog_fires_only_after_timeout",
    "watchdog_twice_between_resets_refuted",
    "watchdog_destroyed"
   ],
   "note": "whole-timeout condition and destruction proved; 'at most once between two resets' refuted (a reset between the decision and the call); see the bound in the separate property"
  },
  {
   "property": "C58",
   "status": "proved",
   "theorems": [
    "aggregate_sums",
    "aggregate_value"
   ],
   "note": "modulo 2^64 always, exact when the sums fit"
  },
  {
   "property": "C59",
   "status": "partial",
   "theorems": [
    "aggregate_last_report_refuted",
    "aggregate_one_worker"
   ],
   "note": "refuted with two workers; holds with one worker"
  },
  {
   "property": "C60",
   "status": "partial",
   "theorems": [
    "global_progress_maps",
    "global_progress_monotone",
    "global_progress_ends",
    "global_progress_empty",
    "global_progress_overflow_refuted"
   ],
   "note": "proved when the product fits 64 bits; refuted otherwise"
  },
  {
   "property": "C61",
   "status": "proved",
   "theorems": [
    "padding_least",
    "open_spec",
    "close_spec",
    "write_record_spec",
    "ignore_spec",
    "find_first",
    "find_none_below",
    "find_none_end",
    "find_total",
    "read_id_spec",
    "read_record_spec"
   ],
   "note": "over any ordinary file (plain_file contract of FileConvSpec, array_file is an instance); identifier and size fields of any width; the std::iostream overloads and the operator<< over a plain stream (temp memory file) are not modelled"
  },
  {
   "property": "C62",
   "status": "partial",
   "theorems": [
    "strtouuid_documented",
    "uuidtostr_documented",
    "uuid_round_trip",
    "strtouuid_accepts_partial",
    "strtouuid_rejects_refuted",
    "strtouuid_safe_partial",
    "strtouuid_safe_refuted",
    "uuidtostr_wide_refuted"
   ],
   "note": "Round trip and acceptance of the documented form proved for all uuids. Rejection of other texts is false of the code (line 149 has && for ||; groups may be short, signed or missing): refuted, with a theorem saying exactly what shape an accepted text has. Reads past the end of the text: refuted, with a theorem for terminated strings. The wchar_t formatter is wrong (extra NULL argument): refuted."
  },
  {
   "property": "C63",
   "status": "proved",
   "theorems": [
    "noop_spec",
    "bol_spec",
    "eol_spec",
    "any_cu_spec",
    "cu_spec",
    "space_cu_spec",
    "punct_cu_spec",
    "space_or_punct_cu_spec",
    "cu_set_spec",
    "string_spec",
    "string_exact",
    "sgml_any_cp_spec",
    "iterations_spec",
    "sequence_spec",
    "seq_is_chain",
    "branch_spec",
    "branch_is_first",
    "permutation_spec",
    "permutation_complete",
    "search_spec",
    "string_branch_spec",
    "vis_is_text"
   ],
   "note": "over any element parsers meeting the element contract (every basic test and combinator does, so trees of them do); locale facets are parameters; parsers shared between two holders are separate objects in the model; the sgml_cp/sgml_string variants are not modelled here"
  },
  {
   "property": "C64",
   "status": "proved",
   "theorems": [
    "integer_spec",
    "integer_fail_zero",
    "integer_units",
    "integer10_value",
    "integer16_value",
    "integer10ts_spec",
    "integer10ts_value"
   ],
   "note": "integer_spec over any digit parsers that consume something; the others at the text level. After a failed integer10ts match digit_count is not reset (the model shows it; not claimed)."
  },
  {
   "property": "C65",
   "status": "proved",
   "theorems": [
    "ipv4_spec",
    "ipv4_text"
   ],
   "note": "ipv4_spec: over any ten well-behaved digit parsers and any separator parser; ipv4_text: over plain '0'..'9' and '.'. Example ex_ipv4 shows '010.0.255.256' matched up to '25'."
  },
  {
   "property": "C66",
   "status": "proved",
   "theorems": [
    "iban_spec",
    "iban_plain",
    "mod97_spec",
    "iban_countries"
   ],
   "note": "The space parser must consume something when it matches: otherwise the code loops for ever."
  },
  {
   "property": "C67",
   "status": "proved",
   "theorems": [
    "charset_from_name_spec",
    "charset_case_insensitive"
   ],
   "note": ""
  },
  {
   "property": "C68",
   "status": "partial",
   "theorems": [
    "base64_writer_failed_count_refuted"
   ],
   "note": "The code violates the property: write returns length - i instead of i."
  },
  {
   "property": "C69",
   "status": "partial",
   "theorems": [
    "hex_is_last_refuted",
    "hex_is_last_partial"
   ],
   "note": "The code violates the property when ignored characters follow the final pair."
  },
  {
   "property": "C70",
   "status": "proved",
   "theorems": [
    "str2sgml_valid"
   ],
   "note": ""
  },
  {
   "property": "C71",
   "status": "proved",
   "theorems": [
    "str2sgml_flagged"
   ],
   "note": ""
  },
  {
   "property": "C72",
   "status": "proved",
   "theorems": [
    "sgml2strcat_map"
   ],
   "note": ""
  },
  {
   "property": "C73",
   "status": "proved",
   "theorems": [
    "sgml2strcat_spec",
    "segmented_src",
    "segmented_unique",
    "sgmlerr_spec"
   ],
   "note": ""
  },
  {
   "property": "C74",
   "status": "partial",
   "theorems": [
    "read_array_count_partial",
    "read_array_count_ceil",
    "read_array_count_refuted",
    "read_data_short_value_refuted"
   ],
   "note": "the code counts an element of which only a part was read (rounds up): refuted in general, proved when the bytes read are a multiple of the element size, and the exact (rounded-up) count is proved for all"
  },
  {
   "property": "C75",
   "status": "proved",
   "theorems": [
    "read_remainder_spec"
   ],
   "note": ""
  },
  {
   "property": "C76",
   "status": "partial",
   "theorems": [
    "skip_spec",
    "skip_short_partial",
    "skip_short_refuted"
   ],
   "note": "skipping within the stream proved; skipping beyond the end throws below 16 bytes (refuted), leaves eof otherwise (proved)"
  },
  {
   "property": "C77",
   "status": "proved",
   "theorems": [
    "readln_spec"
   ],
   "note": "8-bit characters"
  },
  {
   "property": "C78",
   "status": "proved",
   "theorems": [
    "str_round_trip",
    "read_str_spec",
    "write_str_spec"
   ],
   "note": ""
  },
  {
   "property": "C79",
   "status": "proved",
   "theorems": [
    "write_byte_spec"
   ],
   "note": ""
  },
  {
   "property": "C80",
   "status": "partial",
   "theorems": [
    "write_vector_partial",
    "read_vector_refuted"
   ],
   "note": "operator>> has no return statement after its loop: undefined behaviour, so the round trip is refuted; the bytes written are proved"
  },
  {
   "property": "C81",
   "status": "partial",
   "theorems": [
    "write_stream_partial",
    "write_stream_refuted"
   ],
   "note": "when both streams work the copy is proved; a failure of the sink is lost (refuted)"
  },
  {
   "property": "C82",
   "status": "partial",
   "theorems": [
    "mf_gap_refuted",
    "mf_run_spec"
   ],
   "note": "the gap is indeterminate memory: refuted; without a gap the content is exactly what was written"
  },
  {
   "property": "C83",
   "status": "partial",
   "theorems": [
    "mf_truncate_partial",
    "mf_truncate_refuted"
   ],
   "note": "within the file proved; beyond the capacity of a caller-provided buffer the size exceeds the buffer: refuted"
  },
  {
   "property": "C84",
   "status": "partial",
   "theorems": [
    "mf_read_str_refuted",
    "mf_step_spec"
   ],
   "note": "the variable keeps its old value: refuted; eof is reported (mf_step_spec)"
  },
  {
   "property": "C85",
   "status": "partial",
   "theorems": [
    "mf_set_get_partial",
    "mf_set_last_refuted"
   ],
   "note": "proved without assertions; the debug assertion rejects the last element (refuted)"
  },
  {
   "property": "C86",
   "status": "partial",
   "theorems": [
    "mf_assign_spec",
    "mf_copy_partial",
    "mf_copy_state_refuted",
    "mf_assign_fail_refuted"
   ],
   "note": "content and position proved; the copy constructor loses the state, failed assignment leaves a null buffer (refuted)"
  },
  {
   "property": "C87",
   "status": "partial",
   "theorems": [
    "mf_reserve_partial",
    "mf_reserve_refuted"
   ],
   "note": "proved below 2^63 bytes; the size computation wraps above (refuted)"
  },
  {
   "property": "C88",
   "status": "proved",
   "theorems": [
    "mf_write_stream_spec"
   ],
   "note": "amounts below 2^62 or SIZE_MAX"
  },
  {
   "property": "C89",
   "status": "partial",
   "theorems": [
    "mf_read_charset_spec",
    "mf_write_charset_spec",
    "mf_charset_partial",
    "mf_charset_refuted"
   ],
   "note": "proved except for UTF-16 text starting with U+0000, which is taken for UTF-32 (refuted)"
  },
  {
   "property": "C90",
   "status": "partial",
   "theorems": [
    "buffer_mixed_refuted",
    "buffer_mixed_partial"
   ],
   "note": "read-ahead moves the file: refuted; a buffer only written to is right"
  },
  {
   "property": "C91",
   "status": "partial",
   "theorems": [
    "limiter_short_refuted",
    "limiter_short_partial"
   ],
   "note": "a write cut at the limit leaves state ok: refuted; within the limit proved"
  },
  {
   "property": "C92",
   "status": "partial",
   "theorems": [
    "window_end_refuted",
    "window_end_partial"
   ],
   "note": "reading past the window throws when the source is short, and consumes source bytes otherwise: refuted"
  },
  {
   "property": "C93",
   "status": "partial",
   "theorems": [
    "window_count_refuted",
    "window_count_partial"
   ],
   "note": "bytes after the window are counted although earlier ones were not written: refuted; data ending inside the window proved"
  },
  {
   "property": "C94",
   "status": "partial",
   "theorems": [
    "cache_stale_refuted",
    "cache_stale_write_refuted",
    "cache_write_ok"
   ],
   "note": "a long write over the cached block that ends on a block boundary leaves the old block in the cache: refuted; otherwise proved"
  },
  {
   "property": "C95",
   "status": "partial",
   "theorems": [
    "cache_gap_refuted",
    "cache_transparent_partial"
   ],
   "note": "uninitialised memory is written to the file: refuted; without gaps proved"
  },
  {
   "property": "C96",
   "status": "partial",
   "theorems": [
    "cache_size_refuted",
    "cache_size_ok"
   ],
   "note": "loading a block past the end makes size() report its start: refuted; inside the file proved"
  },
  {
   "property": "C97",
   "status": "partial",
   "theorems": [
    "cache_null_read_refuted",
    "cache_read_ok"
   ],
   "note": "eof is reported: refuted; reads of 1 or more bytes are right"
  },
  {
   "property": "C98",
   "status": "partial",
   "theorems": [
    "cache_after_eof_refuted",
    "cache_write_ok"
   ],
   "note": "a write of several blocks tests the cache's own old state: refuted; from state ok proved"
  },
  {
   "property": "C99",
   "status": "partial",
   "theorems": [
    "fw_skip_refuted",
    "fw_read_confined",
    "fw_write_confined"
   ],
   "note": "skip moves the source only: refuted; reads and writes alone are confined"
  },
  {
   "property": "C100",
   "status": "partial",
   "theorems": [
    "async_writer_ok_after_failure_refuted",
    "async_writer_prefix",
    "async_writer_destroyed"
   ],
   "note": "refuted as stated (a write begun after the worker has given up reports ok); delivery holds while the source has not failed"
  },
  {
   "property": "C101",
   "status": "partial",
   "theorems": [
    "async_writer_flush_race_refuted",
    "async_reader_no_race"
   ],
   "note": "refuted for async_writer::flush; the reader's counterpart is proved"
  },
  {
   "property": "C102",
   "status": "proved",
   "theorems": [
    "async_reader_no_deadlock",
    "async_reader_steps_bounded",
    "async_writer_no_deadlock",
    "async_writer_steps_bounded",
    "replicator_no_deadlock",
    "replicator_steps_bounded"
   ],
   "note": "progress without spurious wake-ups plus a decreasing measure"
  },
  {
   "property": "C103",
   "status": "proved",
   "theorems": [
    "spinlock_no_lost_update"
   ],
   "note": "release/acquire views"
  },
  {
   "property": "C104",
   "status": "proved",
   "theorems": [
    "pool_clear",
    "pool_no_deadlock",
    "pool_steps_bounded"
   ],
   "note": ""
  },
  {
   "property": "C105",
   "status": "proved",
   "theorems": [
    "watchdog_fires",
    "watchdog_destructor_progress",
    "watchdog_destructor_bounded"
   ],
   "note": "firing: a path of time steps and steps of running threads exists from every such state (the thread is deterministic)"
  },
  {
   "property": "C106",
   "status": "proved",
   "theorems": [
    "watchdog_calls_bounded_by_resets"
   ],
   "note": ""
  },
  {
   "property": "C107",
   "status": "proved",
   "theorems": [
    "lazy_reports_spaced",
    "lazy_ends_reported",
    "lazy_eventually_reported"
   ],
   "note": ""
  },
  {
   "property": "C108",
   "status": "proved",
   "theorems": [
    "switcher_restores",
    "switcher_reports_to_previous"
   ],
   "note": ""
  },
  {
   "property": "C109",
   "status": "partial",
   "theorems": [
    "aggregate_host_concurrency_refuted",
    "aggregate_detached",
    "aggregate_exclusive"
   ],
   "note": "concurrent calls refuted; the rest proved"
  },
  {
   "property": "C110",
   "status": "partial",
   "theorems": [
    "ignore_spec",
    "ignore_wraps_refuted"
   ],
   "note": "true when data and padding together fit the size field (ignore_spec, find_first, read_record_spec); refuted otherwise: size += padding wraps in T_size (ignore_wraps_refuted)"
  },
  {
   "property": "C111",
   "status": "partial",
   "theorems": [
    "star_unique",
    "fraction_spec",
    "score_spec",
    "signed_numeral_spec",
    "mixed_numeral_spec",
    "monetary_numeral_spec",
    "scientific_numeral_spec",
    "monetary_null_sign_refuted"
   ],
   "note": "Proved for all six classes; for scientific_numeral the intervals of the sign, integer and decimal parts are given, those of the exponent parts are in the lemma exp_spec only, and its double value is not modelled. The last clause is false of the code: monetary_numeral dereferences a null sign (monetary_null_sign_refuted), so monetary_numeral_spec asks for all three signs."
  },
  {
   "property": "C112",
   "status": "proved",
   "theorems": [
    "roman_spec",
    "roman_text",
    "numeral_roman"
   ],
   "note": "what counts as a numeral is in RomanSpec.v (roman), together with its value and the usual numeral of a number; the parser also takes unusual rows such as IXI (10), shown by roman_odd"
  },
  {
   "property": "C113",
   "status": "partial",
   "theorems": [
    "ipv6_spec",
    "ipv6_plain_spec_partial",
    "ipv6_value_refuted"
   ],
   "note": "Match, components, scope id and clearing are proved. The value part is false of the code and refuted: basic_ipv6_address never stores the group numbers (parser.hpp 2708-2709), so all eight words are always zero. A separator behind the last group of a shortened form is consumed."
  },
  {
   "property": "C114",
   "status": "partial",
   "theorems": [
    "reference_spec_partial",
    "reference_plain_partial",
    "reference_overrun_refuted"
   ],
   "note": "All parts are proved for references with at most 19 letters. With 20 or 21 letters the code writes beyond T normalized[47] (parser.hpp 5004): proved to be undefined behaviour, so the claim as stated is refuted."
  },
  {
   "property": "C115",
   "status": "proved",
   "theorems": [
    "escape_spec",
    "escape_safe",
    "escape_decodes",
    "escape_min_safe",
    "escape_min_decodes"
   ],
   "note": "decoding by the model of sgml2strcat (SgmlModel)"
  },
  {
   "property": "C116",
   "status": "proved",
   "theorems": [
    "url_unescape_spec"
   ],
   "note": "the texts cut inside of an escape are C120"
  },
  {
   "property": "C117",
   "status": "proved",
   "theorems": [
    "url_escape_safe",
    "url_round_trip"
   ],
   "note": ""
  },
  {
   "property": "C118",
   "status": "proved",
   "theorems": [
    "css_unescape_spec",
    "css_reads_total"
   ],
   "note": "the reading is the relation css_reads of HtmlEscSpec.v"
  },
  {
   "property": "C119",
   "status": "proved",
   "theorems": [
    "css_round_trip",
    "css_escape_safe"
   ],
   "note": ""
  },
  {
   "property": "C120",
   "status": "partial",
   "theorems": [
    "url_unescape_overread_any",
    "url_unescape_overread_refuted",
    "css_unescape_endless_refuted",
    "css_unescape_overread_refuted",
    "url_unescape_spec",
    "css_unescape_spec"
   ],
   "note": "refuted: url_unescape reads behind the limit for exactly the texts that are cut inside of a percent escape (html.hpp:250-259); css_unescape never returns for a counted text that ends in a lone backslash (no branch advances i, html.hpp:399) and runs over the terminator of a zero-terminated one.  The positive part (all other texts) is in url_unescape_spec and css_unescape_spec"
  },
  {
   "property": "C121",
   "status": "proved",
   "theorems": [
    "zlib_write_spec",
    "zlib_writer_stream"
   ],
   "note": "zlib is a parameter that keeps zlib.h's promises (ZlibSpec.deflater); toy_deflater and zlib_ex show that they can be met. Partial correctness: the calls are assumed to return (zlib could fill the block forever)."
  },
  {
   "property": "C122",
   "status": "proved",
   "theorems": [
    "zlib_read_spec",
    "zlib_round_trip",
    "zlib_reader_new"
   ],
   "note": "zlib's promises about inflate are ZlibSpec.inflates; toy_inflates shows that they can be met. The reader terminates."
  },
  {
   "property": "C123",
   "status": "partial",
   "theorems": [
    "zlib_reader_trailing_refuted"
   ],
   "note": "False of the code: do_read does not look for Z_STREAM_END, so with data behind the stream it calls inflate forever (proved for every stream and every zlib that answers Z_STREAM_END without doing anything, as zlib does)."
  },
  {
   "property": "C124",
   "status": "proved",
   "theorems": [
    "hasher_spec",
    "hasher_transparent",
    "hasher_digest",
    "hasher_digest_md5",
    "hasher_digest_sha1"
   ],
   "note": ""
  },
  {
   "property": "C125",
   "status": "proved",
   "theorems": [
    "sys_read_total",
    "sys_write_total",
    "sys_is_source",
    "sys_is_sink"
   ],
   "note": "The descriptor is a parameter with POSIX's promises (SysSpec.os_source, os_sink); POSIX code path. Composes with every theorem about a source or a sink."
  },
  {
   "property": "C126",
   "status": "proved",
   "theorems": [
    "file_plain",
    "toy_posix"
   ],
   "note": "Regular file without I/O errors and without a size limit (SysSpec.posix_file); toy_posix shows that the promises can be kept."
  },
  {
   "property": "C127",
   "status": "proved",
   "theorems": [
    "file_seek",
    "file_queries_keep"
   ],
   "note": ""
  },
  {
   "property": "C128",
   "status": "partial",
   "theorems": [
    "unlock_reports_partial",
    "lock_reports_refuted"
   ],
   "note": "True of unlock; false of lock, which overwrites the failure with ok (stream.hpp:2886): proved for every descriptor that refuses."
  },
  {
   "property": "C129",
   "status": "proved",
   "theorems": [
    "diag_file_spec",
    "diag_file_run"
   ],
   "note": ""
  },
  {
   "property": "C130",
   "status": "partial",
   "theorems": [
    "diag_empty_partial",
    "diag_empty_refuted"
   ],
   "note": "False of lock, unlock and truncate, which use m_files[0] of an empty vector."
  },
  {
   "property": "C131",
   "status": "partial",
   "theorems": [
    "cached_file_partial"
   ],
   "note": "Composition of C126 with cache_transparent_partial; the histories excluded in C52 (refuted in C94-C98) are excluded here."
  },
  {
   "property": "C132",
   "status": "proved",
   "theorems": [
    "json_rfc",
    "json_generic",
    "json_example"
   ],
   "note": "the parser as one builds it for RFC 8259 (the grammar parsers it holds are parameters of the class); json_generic is for any held parsers."
  },
  {
   "property": "C133",
   "status": "proved",
   "theorems": [
    "json_code_utf8",
    "json_code_wide",
    "json_narrow_value"
   ],
   "note": ""
  },
  {
   "property": "C134",
   "status": "partial",
   "theorems": [
    "json_utf8_partial",
    "json_surrogates_refuted"
   ],
   "note": "Refuted as stated: a surrogate pair gives six bytes (CESU-8) instead of the four of UTF-8. Proved for strings without surrogate escapes."
  },
  {
   "property": "C135",
   "status": "proved",
   "theorems": [
    "element_code_narrow",
    "element_code_wide",
    "element_code_own"
   ],
   "note": ""
  },
  {
   "property": "C136",
   "status": "partial",
   "theorems": [
    "element_code_wide",
    "element_code_wide_refuted"
   ],
   "note": "False of the code: a folded wide character is cast to char (html.hpp:1478), so U+0161 is taken for a. Proved for ASCII names."
  },
  {
   "property": "C137",
   "status": "proved",
   "theorems": [
    "span_html401",
    "optional_no_nesting"
   ],
   "note": ""
  },
  {
   "property": "C138",
   "status": "proved",
   "theorems": [
    "is_uri_html401",
    "is_uri_exact",
    "is_localizable_exact"
   ],
   "note": ""
  },
  {
   "property": "C139",
   "status": "proved",
   "theorems": [
    "html_tag_within",
    "html_tag_name"
   ],
   "note": ""
  },
  {
   "property": "C140",
   "status": "proved",
   "theorems": [
    "html_tag_returns",
    "html_tag_returns_closed",
    "html_tag_returns_ends"
   ],
   "note": "also when the tag has a proper end: the next > with no slash directly in front, no -- and no quoted value before it"
  },
  {
   "property": "C141",
   "status": "partial",
   "theorems": [
    "html_end_tag_never_ends",
    "html_declaration_never_ends",
    "html_tag_returns"
   ],
   "note": "False of the code: </a/> and <!x/> make the attribute loop add empty attributes forever (parser.hpp:8160-8249). Refutation proved for every name; proved to end otherwise."
  },
  {
   "property": "C142",
   "status": "proved",
   "theorems": [
    "html_start_recognised",
    "html_end_recognised",
    "html_comment_recognised",
    "html_instruction_recognised"
   ],
   "note": "Declarations are covered by C139/C140 only."
  },
  {
   "property": "C143",
   "status": "proved",
   "theorems": [
    "html_condition_end_iff",
    "html_condition_recognised",
    "html_condition_none"
   ],
   "note": ""
  },
  {
   "property": "C144",
   "status": "proved",
   "theorems": [
    "document_sequences"
   ],
   "note": ""
  },
  {
   "property": "C145",
   "status": "proved",
   "theorems": [
    "document_nested"
   ],
   "note": ""
  },
  {
   "property": "C146",
   "status": "proved",
   "theorems": [
    "document_complete"
   ],
   "note": ""
  },
  {
   "property": "C147",
   "status": "proved",
   "theorems": [
    "document_append_returns",
    "document_assign_returns"
   ],
   "note": "The locale must not take > for white space."
  },
  {
   "property": "C148",
   "status": "proved",
   "theorems": [
    "document_chunks"
   ],
   "note": ""
  },
  {
   "property": "C149",
   "status": "proved",
   "theorems": [
    "clear_forgets"
   ],
   "note": "holds by construction of the model: assign starts with clear, which resets every member (html.hpp:1636-1652)"
  },
  {
   "property": "C150",
   "status": "proved",
   "theorems": [
    "end_tag_name"
   ],
   "note": ""
  },
  {
   "property": "C151",
   "status": "partial",
   "theorems": [
    "document_complete_refuted",
    "document_complete"
   ],
   "note": "False of the code: text in front of a conditional section is in no sequence, and a CDATA section leaves a valid condition open whose end swallows a later ]]>. Proved without <![ (C146)."
  },
  {
   "property": "C152",
   "status": "partial",
   "theorems": [
    "end_tag_name_refuted",
    "end_tag_name"
   ],
   "note": "False of the code: all unknown elements have the same code, so the comparison of names is never reached (html.hpp:1811-1813). Proved for known elements (C150)."
  },
  {
   "property": "C153",
   "status": "partial",
   "theorems": [
    "document_chunks_refuted",
    "document_chunks"
   ],
   "note": "False of the code: markup inside an unfinished comment is taken for markup. Proved when the parts agree (C148)."
  },
  {
   "property": "C154",
   "status": "partial",
   "theorems": [
    "append_after_finalize_refuted",
    "document_append_returns"
   ],
   "note": "False of the code: m_is_special_element survives finalize, so append dereferences the null active element."
  },
  {
   "property": "C155",
   "status": "proved",
   "theorems": [
    "conditional_section"
   ],
   "note": ""
  },
  {
   "property": "C156",
   "status": "proved",
   "theorems": [
    "entities_replaced"
   ],
   "note": "For entity names without a semicolon."
  },
  {
   "property": "C157",
   "status": "proved",
   "theorems": [
    "may_contain_html401"
   ],
   "note": ""
  },
  {
   "property": "C158",
   "status": "partial",
   "theorems": [
    "omitted_tbody_refuted",
    "ins_in_p_refuted",
    "may_contain_html401"
   ],
   "note": "False of the code: <tr> ends a table that has no <tbody>, <ins> ends a paragraph (omitted start tags and DTD inclusions are not modelled by may_contain). The content models themselves are exact (C157)."
  },
  {
   "property": "C159",
   "status": "proved",
   "theorems": [
    "flush_reports"
   ],
   "note": ""
  },
  {
   "property": "C160",
   "status": "partial",
   "theorems": [
    "quoted_entity_refuted",
    "entities_replaced"
   ],
   "note": "False of the code: the quotation marks become part of the value, so a quoted IGNORE does not ignore."
  },
  {
   "property": "C161",
   "status": "proved",
   "theorems": [
    "format_narrow",
    "format_wide"
   ],
   "note": "char below 1024 characters, wchar_t of any length"
  },
  {
   "property": "C162",
   "status": "partial",
   "theorems": [
    "format_narrow_1024",
    "format_long_throws",
    "format_wide_throws",
    "format_any_length_refuted"
   ],
   "note": "refuted: exactly what happens to texts of 1024 characters and to longer ones"
  },
  {
   "property": "C163",
   "status": "proved",
   "theorems": [
    "css_comment_exact",
    "css_cdo_cdc_exact"
   ],
   "note": "if and only if"
  },
  {
   "property": "C164",
   "status": "proved",
   "theorems": [
    "css_string_written",
    "css_string_sound"
   ],
   "note": ""
  },
  {
   "property": "C165",
   "status": "proved",
   "theorems": [
    "css_uri_quoted",
    "css_uri_plain",
    "css_import_written",
    "css_uri_within",
    "css_import_within"
   ],
   "note": ""
  },
  {
   "property": "C166",
   "status": "partial",
   "theorems": [
    "css_string_backslash",
    "css_uri_escape",
    "css_string_refuted",
    "css_uri_refuted"
   ],
   "note": "refuted; what happens instead is proved for all such strings and addresses"
  },
  {
   "property": "C167",
   "status": "proved",
   "theorems": [
    "tag_round_trip"
   ],
   "note": ""
  },
  {
   "property": "C168",
   "status": "proved",
   "theorems": [
    "parse_link"
   ],
   "note": "for all placements of the tokens that keep them apart"
  },
  {
   "property": "C169",
   "status": "proved",
   "theorems": [
    "document_links_nest"
   ],
   "note": ""
  },
  {
   "property": "C170",
   "status": "proved",
   "theorems": [
    "document_rebuilt_same"
   ],
   "note": ""
  },
  {
   "property": "C171",
   "status": "proved",
   "theorems": [
    "switch_tokens"
   ],
   "note": ""
  },
  {
   "property": "C172",
   "status": "proved",
   "theorems": [
    "insert_tokens"
   ],
   "note": ""
  },
  {
   "property": "C173",
   "status": "partial",
   "theorems": [
    "merge_union_partial",
    "merge_adds_nothing"
   ],
   "note": "refuted; merge never adds anything"
  },
  {
   "property": "C174",
   "status": "partial",
   "theorems": [
    "rebuilds_documents_partial"
   ],
   "note": "refuted for the five kinds of documents in the statement; proved for the others except style sheets with arbitrary contents (C168 covers those css_text holds for)"
  },
  {
   "property": "C175",
   "status": "proved",
   "theorems": [
    "tokens_true",
    "document_tokens_true"
   ],
   "note": "style sheets' own tokens: C168"
  },
  {
   "property": "C176",
   "status": "proved",
   "theorems": [
    "http_space_spec"
   ],
   "note": "if and only if; likewise below"
  },
  {
   "property": "C177",
   "status": "proved",
   "theorems": [
    "http_token_spec"
   ],
   "note": ""
  },
  {
   "property": "C178",
   "status": "proved",
   "theorems": [
    "http_quoted_string_spec",
    "http_value_spec"
   ],
   "note": ""
  },
  {
   "property": "C179",
   "status": "proved",
   "theorems": [
    "http_parameter_spec"
   ],
   "note": ""
  },
  {
   "property": "C180",
   "status": "proved",
   "theorems": [
    "http_media_range_spec",
    "http_media_type_spec"
   ],
   "note": ""
  },
  {
   "property": "C181",
   "status": "proved",
   "theorems": [
    "http_cookie_parameter_spec",
    "http_cookie_spec"
   ],
   "note": ""
  },
  {
   "property": "C182",
   "status": "proved",
   "theorems": [
    "http_url_server_spec",
    "http_url_port_spec"
   ],
   "note": ""
  },
  {
   "property": "C183",
   "status": "partial",
   "theorems": [
    "http_url_path_spec",
    "http_url_parameter_spec",
    "http_url_parameter_reads_end"
   ],
   "note": "the code reads the unit at the end, so a start in front of the end, and a terminator in front of the end, are needed"
  },
  {
   "property": "C184",
   "status": "partial",
   "theorems": [
    "http_url_spec",
    "http_url_end_beyond"
   ],
   "note": "for texts with a terminator in front of the end; refuted without"
  },
  {
   "property": "C185",
   "status": "proved",
   "theorems": [
    "http_language_spec"
   ],
   "note": ""
  },
  {
   "property": "C186",
   "status": "proved",
   "theorems": [
    "http_weight_spec"
   ],
   "note": ""
  },
  {
   "property": "C187",
   "status": "proved",
   "theorems": [
    "http_agent_spec"
   ],
   "note": ""
  },
  {
   "property": "C188",
   "status": "proved",
   "theorems": [
    "http_protocol_spec"
   ],
   "note": ""
  },
  {
   "property": "C189",
   "status": "proved",
   "theorems": [
    "http_request_spec"
   ],
   "note": "for texts with a terminator in front of the end, as the statement says"
  },
  {
   "property": "C190",
   "status": "proved",
   "theorems": [
    "http_header_spec"
   ],
   "note": ""
  },
  {
   "property": "C191",
   "status": "proved",
   "theorems": [
    "http_any_type_spec"
   ],
   "note": ""
  },
  {
   "property": "C192",
   "status": "proved",
   "theorems": [
    "http_weighted_value_spec"
   ],
   "note": ""
  },
  {
   "property": "C193",
   "status": "proved",
   "theorems": [
    "http_weighted_collection_spec"
   ],
   "note": ""
  },
  {
   "property": "C194",
   "status": "proved",
   "theorems": [
    "http_value_collection_spec"
   ],
   "note": ""
  },
  {
   "property": "C195",
   "status": "partial",
   "theorems": [
    "token_mapping_refuted",
    "tokens_true"
   ],
   "note": "refuted; texts and tags themselves are mapped right (C175)"
  },
  {
   "property": "C196",
   "status": "partial",
   "theorems": [
    "http_space_takes_an_empty_line",
    "http_quoted_string_refuses_octets",
    "http_parameter_white_space",
    "http_url_end_beyond",
    "http_url_parameter_reads_end",
    "http_url_port_zero",
    "http_weight_denominator_zero",
    "http_weighted_stale",
    "http_agent_stale",
    "http_protocol_carries",
    "http_protocol_needs_white_space",
    "http_list_empty_element",
    "http_list_bad_weight",
    "http_header_no_name"
   ],
   "note": "refuted; what is accepted instead: C176-C194"
  },
  {
   "property": "C197",
   "status": "proved",
   "theorems": [
    "mime_type_spec"
   ],
   "note": ""
  },
  {
   "property": "C198",
   "status": "partial",
   "theorems": [
    "charset_is_parameter_refuted",
    "charset_up_to_blank"
   ],
   "note": "refuted; what charset is instead: C197"
  },
  {
   "property": "C199",
   "status": "proved",
   "theorems": [
    "header_written",
    "format_written",
    "format_too_long",
    "content_written",
    "cues_written",
    "ltxt_written",
    "label_written",
    "rec_written"
   ],
   "note": ""
  },
  {
   "property": "C200",
   "status": "proved",
   "theorems": [
    "header_rec_read",
    "format_rec_read",
    "content_rec_read",
    "cues_rec_read",
    "ltxt_rec_read",
    "label_rec_read",
    "rec_of_ok"
   ],
   "note": ""
  },
  {
   "property": "C201",
   "status": "proved",
   "theorems": [
    "read_first_format",
    "read_first_none"
   ],
   "note": ""
  },
  {
   "property": "C202",
   "status": "proved",
   "theorems": [
    "cues_ex_written"
   ],
   "note": ""
  },
  {
   "property": "C203",
   "status": "proved",
   "theorems": [
    "read_cues_spec"
   ],
   "note": ""
  },
  {
   "property": "C204",
   "status": "proved",
   "theorems": [
    "cues_round_trip"
   ],
   "note": ""
  },
  {
   "property": "C205",
   "status": "partial",
   "theorems": [
    "read_cues_never",
    "read_cues_hangs",
    "default_limit_refuted"
   ],
   "note": "refuted"
  },
  {
   "property": "C206",
   "status": "partial",
   "theorems": [
    "find_first_even_partial",
    "find_first_none_partial",
    "find_content_finds",
    "find_first_odd_refuted"
   ],
   "note": "refuted at odd positions; what holds at even ones is proved"
  },
  {
   "property": "C207",
   "status": "partial",
   "theorems": [
    "remove_refuted",
    "remove_keeps",
    "remove_keeps_all"
   ],
   "note": "refuted; what it does instead is proved of every well-formed input"
  },
  {
   "property": "C208",
   "status": "proved",
   "theorems": [
    "si_reference_match"
   ],
   "note": "For every text, well-formed object and parser of spaces (toup 0 = 0); SiEx has concrete references."
  },
  {
   "property": "C209",
   "status": "proved",
   "theorems": [
    "si_reference_valid"
   ],
   "note": "The rules are the table groups of SiSpec; SiEx.ex_si11_ok meets the hypotheses."
  },
  {
   "property": "C210",
   "status": "partial",
   "theorems": [
    "si_reference_joined_partial",
    "si_reference_zero_refuted",
    "si_reference_three_refuted",
    "si_reference_bad_refuted"
   ],
   "note": "Refuted as stated: a joined check rejects a reference whose control digit is 0 because the weighted sum is a multiple of 11 (11 is not made 0), and the check of three parts compares with a unit of the second part instead of the last digit of the third, so that it rejects right and accepts wrong references. Proved instead: exactly when is_valid is set, so that except for model 01 with three parts a valid one obeys the model."
  },
  {
   "property": "C211",
   "status": "proved",
   "theorems": [
    "time_spec",
    "time_unique",
    "plain_time_spec"
   ],
   "note": "For any held parsers that behave like parsers; DateEx instantiates it with plain digits."
  },
  {
   "property": "C212",
   "status": "proved",
   "theorems": [
    "angle_spec"
   ],
   "note": "DateEx.angle_applies shows plain parsers meeting the hypotheses."
  },
  {
   "property": "C213",
   "status": "proved",
   "theorems": [
    "date_spec",
    "date_unique",
    "date_valid_spec",
    "plain_date_spec"
   ],
   "note": ""
  },
  {
   "property": "C214",
   "status": "partial",
   "theorems": [
    "date_exists_refuted",
    "day_exists_refuted",
    "date_exists_partial"
   ],
   "note": "Refuted as stated: 29 February is accepted in every year, and a number of 18446744073709551615 counts as first day or month. Proved: when no number read is SIZE_MAX, the day exists in that month in some year."
  },
  {
   "property": "C215",
   "status": "proved",
   "theorems": [
    "dns_name_spec",
    "dns_char_spec",
    "plain_dns_spec"
   ],
   "note": "For any held parsers; plain_dns_spec shows plain characters meeting the hypotheses."
  },
  {
   "property": "C216",
   "status": "proved",
   "theorems": [
    "url_path_spec",
    "plain_path_spec"
   ],
   "note": ""
  },
  {
   "property": "C217",
   "status": "proved",
   "theorems": [
    "url_spec",
    "url_unique",
    "url_applies"
   ],
   "note": "In a ftp URL the at behind a lone user name is looked for where the user name starts, see C219."
  },
  {
   "property": "C218",
   "status": "proved",
   "theorems": [
    "email_spec",
    "email_unique"
   ],
   "note": ""
  },
  {
   "property": "C219",
   "status": "partial",
   "theorems": [
    "ftp_user_refuted",
    "ftp_user_partial"
   ],
   "note": "Refuted as stated: in ftp://u@h the host is u and the path @h. Proved: what is matched instead."
  },
  {
   "property": "C220",
   "status": "proved",
   "theorems": [
    "emoticon_spec",
    "emo_unique"
   ],
   "note": "UrlEx.emo_applies shows plain parsers meeting the hypotheses."
  },
  {
   "property": "C221",
   "status": "partial",
   "theorems": [
    "emoticon_hit_refuted"
   ],
   "note": "Refuted as stated: the match that ends the run of mouths overwrites hit_offset, so it is -1 or that of another mouth."
  },
  {
   "property": "C222",
   "status": "partial",
   "theorems": [
    "user_char_refuted",
    "url_chars_partial"
   ],
   "note": "Refuted as stated: user names lack the parentheses. Proved: exactly these two are missing, and passwords and paths are as stated."
  },
  {
   "property": "C223",
   "status": "proved",
   "theorems": [
    "phone_spec",
    "phone_unique",
    "phone_element",
    "plain_phone_spec"
   ],
   "note": "For any held parsers where no space is a right parenthesis; plain_phone_spec shows plain characters meeting the hypotheses."
  },
  {
   "property": "C224",
   "status": "proved",
   "theorems": [
    "phone_shape",
    "phone_value",
    "plain_phone_spec"
   ],
   "note": ""
  },
  {
   "property": "C225",
   "status": "partial",
   "theorems": [
    "phone_null_refuted",
    "phone_null_partial"
   ],
   "note": "Refuted as stated: do_match calls invalidate of both parsers of parentheses without a test, so every match without them is undefined."
  },
  {
   "property": "C226",
   "status": "proved",
   "theorems": [
    "formula_spec",
    "formula_unique",
    "plain_chem_spec"
   ],
   "note": ""
  },
  {
   "property": "C227",
   "status": "partial",
   "theorems": [
    "next_sgml_cp_spec",
    "code_point_unique",
    "sgml_cp_spec",
    "cp_fn_iff",
    "same_cp_iff",
    "sgml_cp_chr_spec",
    "sgml_numeric_refuted"
   ],
   "note": "Refuted as stated where wchar_t has 32 bits: next_sgml_cp returns a pointer to its local buf32 for a numeric reference. Proved for every text on Windows and for every text without numeric references elsewhere."
  },
  {
   "property": "C228",
   "status": "partial",
   "theorems": [
    "sgml_class_spec",
    "cp_fn_iff",
    "space_text_iff",
    "punct_text_iff",
    "space_or_punct_text_iff",
    "sgml_empty_refuted"
   ],
   "note": "Refuted as stated for &#0;. Proved: the match is exactly that all characters of the text are in the class, with the restriction of C227."
  },
  {
   "property": "C229",
   "status": "partial",
   "theorems": [
    "sgml_cp_set_spec",
    "in_set_iff",
    "in_set_one",
    "in_set_empty",
    "sgml_empty_refuted"
   ],
   "note": "Refuted as stated for &#0;. Proved: exact, with the restriction of C227."
  },
  {
   "property": "C230",
   "status": "partial",
   "theorems": [
    "sgml_string_spec",
    "sgml_string_decodes",
    "spells_fun"
   ],
   "note": "With the restriction of C227 (no numeric reference in the text where wchar_t has 32 bits); sgml_string_decodes is for 32 bits."
  },
  {
   "property": "C231",
   "status": "partial",
   "theorems": [
    "sgml_url_char_spec",
    "sgml_dns_domain_char_spec",
    "url_text_one",
    "scope_id_text_iff",
    "sgml_dns_name_spec"
   ],
   "note": "With the restriction of C227."
  },
  {
   "property": "C232",
   "status": "proved",
   "theorems": [
    "untrusted_comment_spec",
    "untrusted_is",
    "line_break_spec"
   ],
   "note": ""
  },
  {
   "property": "C233",
   "status": "proved",
   "theorems": [
    "parse_minisig_spec",
    "sig_line_fun",
    "minisig_data_spec"
   ],
   "note": "For any source of StreamSpec that never fails (array_source, C45, is one; MinisignProps.sample_minisig runs it)."
  },
  {
   "property": "C234",
   "status": "partial",
   "theorems": [
    "minisig_file",
    "minisig_unterminated_refuted"
   ],
   "note": "Refuted as stated when the line of the signature is the last and has no line end. Proved with the line end."
  },
  {
   "property": "C235",
   "status": "proved",
   "theorems": [
    "stricmp_less_order"
   ],
   "note": ""
  },
  {
   "property": "C236",
   "status": "proved",
   "theorems": [
    "langid_from_spec",
    "maps_exist"
   ],
   "note": "The tables are generated from the header by tools/gen_langid.py; std::map is any search tree with the entries of the insertions in order."
  },
  {
   "property": "C237",
   "status": "proved",
   "theorems": [
    "rfc1766_from_spec",
    "codes_unique",
    "maps_exist"
   ],
   "note": ""
  },
  {
   "property": "C238",
   "status": "proved",
   "theorems": [
    "name_round_trip",
    "tables_inverse"
   ],
   "note": ""
  },
  {
   "property": "C239",
   "status": "partial",
   "theorems": [
    "code_round_trip_refuted",
    "code_round_trip_partial"
   ],
   "note": "Refuted as stated for the 34 codes of `shadowed`, whose names are of another entry that comes first. Proved: exactly these, and the code that comes back has the same name."
  },
  {
   "property": "C240",
   "status": "proved",
   "theorems": [
    "langid_parts"
   ],
   "note": ""
  },
  {
   "property": "C241",
   "status": "proved",
   "theorems": [
    "sys_object_owns",
    "socket_object_owns"
   ],
   "note": "HandleProps.handle_ex is a history with every operation."
  },
  {
   "property": "C242",
   "status": "proved",
   "theorems": [
    "socket_owns"
   ],
   "note": ""
  },
  {
   "property": "C243",
   "status": "partial",
   "theorems": [
    "assign_refuted",
    "close_refuted",
    "move_assign_refuted",
    "sys_object_owns"
   ],
   "note": "Refuted as stated for the three calls; a failing dup in a copy constructor and a failing close in a destructor do no harm (C241)."
  },
  {
   "property": "C244",
   "status": "proved",
   "theorems": [
    "strcat_spec"
   ],
   "note": "For any codec that writes whole units and at most a buffer for one character; u7_codec shows one, EncoderProps.encoder_ex runs it over more than one buffer."
  },
  {
   "property": "C245",
   "status": "proved",
   "theorems": [
    "strcat_parts"
   ],
   "note": "u7_stable shows that a codec with shift states meets the hypothesis."
  },
  {
   "property": "C246",
   "status": "partial",
   "theorems": [
    "utf7_refuted",
    "complete_partial",
    "u7_alphabet"
   ],
   "note": "Refuted as stated: utf7_refuted. Proved: where the codec holds nothing back at the end."
  },
  {
   "property": "C247",
   "status": "partial",
   "theorems": [
    "independent_refuted",
    "independent_partial"
   ],
   "note": "Refuted as stated: independent_refuted. Proved: where the first conversion holds nothing back (u7_holds_back: UTF-7 meets the hypothesis)."
  },
  {
   "property": "C248",
   "status": "proved",
   "theorems": [
    "operations"
   ],
   "note": "HandleProps.handle_ex is a history with every operation."
  },
  {
   "property": "C249",
   "status": "proved",
   "theorems": [
    "open_spec"
   ],
   "note": "On Linux. OpenProps.open_ex opens, creates and is refused."
  },
  {
   "property": "C250",
   "status": "partial",
   "theorems": [
    "exclusive_refuted"
   ],
   "note": "Refuted as stated."
  },
  {
   "property": "C251",
   "status": "proved",
   "theorems": [
    "cached_mode_spec"
   ],
   "note": ""
  },
  {
   "property": "C252",
   "status": "proved",
   "theorems": [
    "set_time_other",
    "time_reads"
   ],
   "note": ""
  },
  {
   "property": "C253",
   "status": "partial",
   "theorems": [
    "mtime_round_trip_refuted",
    "time_round_trip_partial"
   ],
   "note": "Refuted as stated. Proved: the time read back is 10^9 times the one set, right for 0 only (libstdc++, a file system that keeps every second)."
  },
  {
   "property": "C254",
   "status": "proved",
   "theorems": [
    "socket_stream"
   ],
   "note": "toy_conn_ok shows a connection that meets the hypotheses."
  },
  {
   "property": "C255",
   "status": "partial",
   "theorems": [
    "socket_move_state_refuted",
    "socket_move_state_partial"
   ],
   "note": "Refuted as stated. Proved: the socket is moved, and the state where it is ok or equal."
  },
  {
   "property": "C256",
   "status": "proved",
   "theorems": [
    "strcpy_16_32_spec",
    "strcpy_16_32_round_trip"
   ],
   "note": ""
  },
  {
   "property": "C257",
   "status": "proved",
   "theorems": [
    "strcoll_spec"
   ],
   "note": "For any comparison of the locale."
  },
  {
   "property": "C258",
   "status": "partial",
   "theorems": [
    "strncoll_refuted",
    "strncoll_partial"
   ],
   "note": "Refuted as stated: the limits are taken as the lengths. Proved: without terminators within the limits."
  },
  {
   "property": "C259",
   "status": "proved",
   "theorems": [
    "strtod_spec"
   ],
   "note": "For any conversion of the C library."
  },
  {
   "property": "C260",
   "status": "proved",
   "theorems": [
    "strcatftime_spec"
   ],
   "note": "For any formatted text of the C library."
  },
  {
   "property": "C261",
   "status": "partial",
   "theorems": [
    "strftime_empty_refuted"
   ],
   "note": "Refuted as stated: the string grows until resize throws."
  },
  {
   "property": "C262",
   "status": "partial",
   "theorems": [
    "get_ptr_refuted",
    "get_ptr_partial"
   ],
   "note": "Refuted as stated: an owned object the callee overwrites is never deleted. Proved: where the owner is empty, or the callee keeps or deletes the object it finds."
  },
  {
   "property": "C263",
   "status": "proved",
   "theorems": [
    "cached_reopen",
    "cached_close_spec",
    "cached_open_keeps",
    "cached_close_fails",
    "cached_close_keeps"
   ],
   "note": "For any file that is plain (StreamSpec), histories as in C52 (tame)."
  },
  {
   "property": "C264",
   "status": "partial",
   "theorems": [
    "cached_destroy_refuted",
    "cached_destroy_partial"
   ],
   "note": "Refuted as stated: after the exception of ~cached_file the base's destructor uses the file that is destroyed already. Proved: it is undefined only where the flush fails, and the flush keeps what it cannot write."
  },
  {
   "property": "C265",
   "status": "partial",
   "theorems": [
    "fw_lock_refuted",
    "fw_lock_partial"
   ],
   "note": "Refuted as stated for a window that does not start at 0. Proved: exact for a window from 0."
  },
  {
   "property": "C266",
   "status": "partial",
   "theorems": [
    "cache_lock_refuted",
    "cache_lock_partial",
    "cache_lock_fresh_partial",
    "cache_unlock_partial"
   ],
   "note": "Refuted as stated: the cache is neither discarded by lock nor written by unlock. Proved: the same section of the file is locked; exact where nothing is cached, and where all is flushed."
  },
  {
   "property": "C267",
   "status": "partial",
   "theorems": [
    "buffered_sys_spec",
    "buffered_sys_refuted"
   ],
   "note": "Refuted as stated: what cannot be written at the end is lost without notice. Proved: all is written before the close if the handle writes."
  },
  {
   "property": "C268",
   "status": "partial",
   "theorems": [
    "scoped_refuted",
    "scoped_partial"
   ],
   "note": "Refuted as stated: done is a reference, and both arguments must be rvalues, so that a lambda written in the call is gone at the end of the declaration; and done does not run where init throws. Proved: with functions that outlive the scope."
  },
  {
   "property": "C269",
   "status": "proved",
   "theorems": [
    "sanitized",
    "deallocate_spec"
   ],
   "note": "On the abstract machine: that a compiler may drop the memset as a dead store is not modelled (line 110 has no volatile)."
  },
  {
   "property": "C270",
   "status": "partial",
   "theorems": [
    "rfc822_spec",
    "rfc822_injective",
    "rfc822_year_refuted"
   ],
   "note": "Refuted as stated before the year 1000. Proved for the years 1000 to 9999."
  },
  {
   "property": "C271",
   "status": "partial",
   "theorems": [
    "to_str_refuted",
    "to_str_partial"
   ],
   "note": "Refuted as stated: array new, plain delete. Proved: exact for nonempty texts that fit the first buffer."
  },
  {
   "property": "C272",
   "status": "proved",
   "theorems": [
    "platform_spec",
    "platform_unique"
   ],
   "note": "For any tree with the entries of the one built by insertion, as libstdc++'s rotations keep them."
  },
  {
   "property": "C273",
   "status": "partial",
   "theorems": [
    "os_platform_refuted",
    "os_platform_arm_refuted",
    "os_platform_partial"
   ],
   "note": "Refuted as stated: i486 to i686 and armv* are unknown. Proved: right on x86-64, little-endian 64-bit ARM and the 80386; what is not unknown is right."
  },
  {
   "property": "C274",
   "status": "partial",
   "theorems": [
    "encoder_refuted",
    "encoder_partial"
   ],
   "note": "Refuted as stated: from every history, a copy makes the second destruction undefined, and an assignment also leaks. Proved: every history without copies keeps one owner for each conversion."
  },
  {
   "property": "C275",
   "status": "partial",
   "theorems": [
    "create_locale_refuted",
    "create_locale_glibc_refuted",
    "locale_utf8_refuted",
    "create_locale_partial",
    "newlocale_null"
   ],
   "note": "Refuted as stated: undefined by POSIX, and with glibc in all but one case. Proved: that case; and that a null base would do for LC_ALL."
  },
  {
   "property": "C276",
   "status": "partial",
   "theorems": [
    "exists_refuted",
    "exists_partial"
   ],
   "note": "Refuted as stated for links to nothing. Proved: what it says of every name, exact where the name is no link."
  },
  {
   "property": "C277",
   "status": "proved",
   "theorems": [
    "readonly_spec"
   ],
   "note": "Linux's limit of 40 links; the mode bits only, not access control lists or the superuser."
  }
 ]
}