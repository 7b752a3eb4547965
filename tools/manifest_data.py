m("C01","proved",["vector_queue_fifo","vector_queue_push_back_pos"])
m("C02","partial",["vector_queue_push_front_refuted","vector_queue_push_front_partial"],"The code violates the property for capacities that are not a power of two (refuted with a concrete run); proved for powers of two.")
m("C03","proved",["vector_queue_copy","vector_queue_assign","vector_queue_move"],"Storage leaked by move assignment is not modelled.")
m("C04","proved",["ring_back_region","ring_front_region","ring_null_only_after_quit","ring_assertions_hold"])
m("C05","proved",["ring_fifo","ring_front_region"])
m("C06","proved",["ring_no_lost_wakeup","ring_wakeup_pending","ring_notification_wakes"],"That the operating system eventually delivers a notification and schedules the woken thread is assumed.")
m("C07","partial",["ring_two_waiters_refuted","ring_two_waiters_pop_refuted","ring_no_lost_wakeup"],"The code violates the property: notify_one wakes one of two waiters (two concrete schedules). What holds is C06: without a second waiter no wake-up is lost.")
m("C08","proved",["base64_encode_rfc4648"])
m("C09","proved",["base64_decode_inverts","base64_round_trip"])
m("C10","proved",["base64_enc_size_bound","base64_dec_size_bound"],"Proved for chunks shorter than 2^62, which excludes size_t wrap.")
m("C11","proved",["base64_writer_text","base64_writer_no_breaks","base64_writer_decodes"])
m("C12","partial",["base64_reader_refuted","base64_reader_partial"],"The code violates the property: base64_reader drops the last 1 or 2 bytes (base64.hpp:420-428). Proved when the data length is a multiple of three.")
m("C68","partial",["base64_writer_failed_count_refuted"],"The code violates the property: write returns length - i instead of i.")
m("C13","proved",["hex_encode_spec","hex_decode_pairs","hex_round_trip","hex_dec_size_bound"])
m("C14","proved",["mul_checked","add_checked"])
m("C15","partial",["muldiv32_exact","muldiv64_partial","muldiv64_refuted"],"The 32-bit overload is exact; the 64-bit overload violates the property when the intermediate products overflow (refuted with a witness), proved when they do not.")
m("C16","proved",["rol_bits","rol_inverse"])
m("C17","proved",["interval_contains_size","interval_shift","interval_invalid"])
m("C18","proved",["mapping_dst2src","mapping_src2dst","mapping_answer_unique","mapping_invert"])
m("C19","proved",["mapping_hint"])
m("C20","proved",["byteswap_reverses","byteswap_involution","byteswap_signed_involution"])
m("C69","partial",["hex_is_last_refuted","hex_is_last_partial"],"The code violates the property when ignored characters follow the final pair.")
m("C21","partial",["date_round_trip","day_number_round_trip","date_successor","date_anchor","date_before_era_refuted"],"Proved from 1 March of year 0 to year 1460000 (int overflow is undefined beyond); before 1 March 0 the code violates the property (refuted with a witness).")
m("C22","partial",["day_of_week_spec_partial","day_of_week_anchor","day_of_week_dmy_agrees","day_of_week_refuted"],"Proved for day numbers >= 0; negative day numbers violate the property (day -1 gives 255).")
m("C23","proved",["time_t_round_trip","timestamp_time_t_floor","date_time_t","timestamp_date","timestamp_round_trip","timestamp_tm"])
m("C24","partial",["timespec_refuted","timespec_partial"],"The code violates the property: nanoseconds are divided by 1000 instead of 1000000.")
m("C25","proved",["hash_chunk_independence"])
m("C26","proved",["crc32_correct","crc32_resume"])
m("C27","proved",["md5_correct"],"For chunks below 4 GiB each (see C29).")
m("C28","proved",["sha1_correct"],"For chunks below 4 GiB each (see C29).")
m("C29","partial",["block_hash_length_refuted","block_hash_length_partial"],"The code violates the property: a chunk of 2^32 bytes is not counted. Proved for chunks below 2^32 bytes.")
m("C30","partial",["lexicographic_total_order","strcmp_spec","strcmp_signed_spec","strncmp_common_spec","strncmp_spec","strncmp_utf32_utf16_spec","strrcmp_spec","strrncmp_spec","strncmp_signed_refuted"],"Proved for unsigned code units. With a signed char type the four-argument strncmp is not an order (refuted with three buffers).")
m("C31","proved",["stricmp_spec","strnicmp_common_spec","strnicmp_spec","ascii_folding"],"For every folding function that maps exactly 0 to 0; the ASCII one is proved to be such.")
m("C32","proved",["strchr_spec","strnchr_correct","strichr_spec","strnichr_spec","strrchr_spec","strrnchr_correct","strrichr_spec","strstr_spec","strnstr_spec","plain_search_is_folded_search"],"")
m("C33","partial",["strcpy_spec","strcat_spec","strncpy_common_spec","strncpy_spec","strncpy_utf16_utf32_spec","strncat_spec","strdup_spec","strncat_common_refuted","strncat_common_partial","strndup_refuted","strndup_partial"],"strncat(dst, src, count) and strndup violate the property (no terminator when count is reached): refuted, and proved when the source ends within count.")
m("C34","proved",["ltrim_spec","rtrim_spec","trim_spec","trim_string_spec"],"count = SIZE_MAX is not modelled.")
m("C35","proved",["crlf2nl_buffer_spec","crlf2nl_string_spec","crlf2nl_idempotent","crlf2nl_units"],"")
m("C36","partial",["strtouint_spec","strtoint_partial","strtoint_refuted"],"strtoint violates the property for positive values between 2^(b-1) and 2^b-1 (strto8(\"200\") = -56); proved for all others. The overflow flag is internal in the public overloads.")
m("C37","partial",["strtouint_negative_refuted","strtouint_negative_partial"],"The code violates the property: the result is one less than the two's complement negation, for every negative numeral in range.")
m("C38","proved",["surrogate_classes","surrogate_round_trip","surrogate_round_trip_inv"],"")
m("C39","partial",["character_classes","toupper_refuted","islbreak_counted_refuted","islbreak_counted_partial","strlwr_spec","isblank_spec","ascii_folding"],"toupper of every lower-case letter is -1, and islbreak(ptr, 1) misses a lone break: refuted. The other classifications are proved.")
m("C40","partial",["glyphlen_utf16_spec","glyphlen_utf32_spec","glyphrlen_utf16_spec","glyphrlen_utf32_refuted","glyphrlen_utf32_partial"],"glyphrlen for UTF-32 is off by one: refuted; proved when the buffer is a single glyph.")
m("C41","proved",["sgml_lookup","expansion_first","expansion_unknown","sgml2uni_spec"],"numeric references: sgml2uni_spec with SgmlSpec.reference")
m("C42","partial",["sgml_round_trip_refuted","sgml_round_trip_refuted2","sgml_round_trip_partial","aliased_iff"],"The claim is false of the code (l + U+0307 becomes &ldot; which decodes to U+22D6; U+02BC becomes an apostrophe; decomposed accents become composed). Proved for every text in which no aliased expansion (explicit finite list) occurs.")
m("C43","partial",["sgml2bufcat_spec","str2sgmlbuf_refuted","str2sgmlbuf_partial"],"The decoder is proved in full. The encoder writes out of bounds for numeric references (refuted); proved when the text fits, and in all cases when there is no numeric reference.")
m("C70","proved",["str2sgml_valid"],"")
m("C71","proved",["str2sgml_flagged"],"")
m("C72","proved",["sgml2strcat_map"],"")
m("C73","proved",["sgml2strcat_spec","segmented_src","segmented_unique","sgmlerr_spec"],"")
m("C44","proved",["data_round_trip","read_data_spec","read_data_short","read_data_skip","write_data_spec","write_data_skip"],"for every stream meeting the source/sink contract of StreamSpec.v; shown for fifo and memory_file separately")
m("C74","partial",["read_array_count_partial","read_array_count_ceil","read_array_count_refuted","read_data_short_value_refuted"],"the code counts an element of which only a part was read (rounds up): refuted in general, proved when the bytes read are a multiple of the element size, and the exact (rounded-up) count is proved for all")
m("C75","proved",["read_remainder_spec"],"")
m("C76","partial",["skip_spec","skip_short_partial","skip_short_refuted"],"skipping within the stream proved; skipping beyond the end throws below 16 bytes (refuted), leaves eof otherwise (proved)")
m("C77","proved",["readln_spec"],"8-bit characters")
m("C78","proved",["str_round_trip","read_str_spec","write_str_spec"],"")
m("C79","proved",["write_byte_spec"],"")
m("C80","partial",["write_vector_partial","read_vector_refuted"],"operator>> has no return statement after its loop: undefined behaviour, so the round trip is refuted; the bytes written are proved")
m("C81","partial",["write_stream_partial","write_stream_refuted"],"when both streams work the copy is proved; a failure of the sink is lost (refuted)")
m("C45","proved",["mf_step_spec","mf_run_spec","mf_run_exact","mf_str_round_trip","mf_source","mf_never_fails"],"whatever the allocator decides; with memory available the file is exactly the byte array")
m("C46","partial",["mf_read_beyond_partial","mf_read_end_partial","mf_read_beyond_refuted","mf_read_beyond_junk_refuted"],"m_size - m_offset wraps in read(): refuted; typed reads and reading at the end itself are proved")
m("C47","proved",["fifo_history","fifo_read_exact","fifo_source","fifo_sink","fifo_data_round_trip","fifo_str_round_trip"],"")
m("C82","partial",["mf_gap_refuted","mf_run_spec"],"the gap is indeterminate memory: refuted; without a gap the content is exactly what was written")
m("C83","partial",["mf_truncate_partial","mf_truncate_refuted"],"within the file proved; beyond the capacity of a caller-provided buffer the size exceeds the buffer: refuted")
m("C84","partial",["mf_read_str_refuted","mf_step_spec"],"the variable keeps its old value: refuted; eof is reported (mf_step_spec)")
m("C85","partial",["mf_set_get_partial","mf_set_last_refuted"],"proved without assertions; the debug assertion rejects the last element (refuted)")
m("C86","partial",["mf_assign_spec","mf_copy_partial","mf_copy_state_refuted","mf_assign_fail_refuted"],"content and position proved; the copy constructor loses the state, failed assignment leaves a null buffer (refuted)")
m("C87","partial",["mf_reserve_partial","mf_reserve_refuted"],"proved below 2^63 bytes; the size computation wraps above (refuted)")
m("C88","proved",["mf_write_stream_spec"],"amounts below 2^62 or SIZE_MAX")
m("C89","partial",["mf_read_charset_spec","mf_write_charset_spec","mf_charset_partial","mf_charset_refuted"],"proved except for UTF-16 text starting with U+0000, which is taken for UTF-32 (refuted)")
m("C48","proved",["buffer_source","buffer_never_fails","buffer_sink","buffer_always_writes","buffer_flush_out","buffer_done_out","buffer_life","buffer_read_all"],"reading side and writing side separately, over any source; for both at once on one file see C90")
m("C49","proved",["limiter_source","limiter_never_fails","limiter_read_all","limiter_write_spec","limiter_write_total","limiter_write_exact"],"")
m("C50","proved",["window_read_spec","window_reads_spec","window_writes_spec"],"source long enough to reach the window; the end of the window is C92")
m("C51","partial",["fw_seek_refuted","fw_seek_start_refuted","fw_new_refuted","fw_seek_partial"],"seek takes source positions while tell and the value seek returns are window positions: refuted; with source positions the rest holds")
m("C52","partial",["cache_transparent_partial","cache_flush_content","cache_read_ok","cache_write_ok","cache_truncate_ok","cache_size_ok","cache_run_ok"],"every history of calls at positions up to the end of file, in state ok, whose long writes do not end on a block boundary; the excluded cases are refuted in C94-C98")
m("C90","partial",["buffer_mixed_refuted","buffer_mixed_partial"],"read-ahead moves the file: refuted; a buffer only written to is right")
m("C91","partial",["limiter_short_refuted","limiter_short_partial"],"a write cut at the limit leaves state ok: refuted; within the limit proved")
m("C92","partial",["window_end_refuted","window_end_partial"],"reading past the window throws when the source is short, and consumes source bytes otherwise: refuted")
m("C93","partial",["window_count_refuted","window_count_partial"],"bytes after the window are counted although earlier ones were not written: refuted; data ending inside the window proved")
m("C94","partial",["cache_stale_refuted","cache_stale_write_refuted","cache_write_ok"],"a long write over the cached block that ends on a block boundary leaves the old block in the cache: refuted; otherwise proved")
m("C95","partial",["cache_gap_refuted","cache_transparent_partial"],"uninitialised memory is written to the file: refuted; without gaps proved")
m("C96","partial",["cache_size_refuted","cache_size_ok"],"loading a block past the end makes size() report its start: refuted; inside the file proved")
m("C97","partial",["cache_null_read_refuted","cache_read_ok"],"eof is reported: refuted; reads of 1 or more bytes are right")
m("C98","partial",["cache_after_eof_refuted","cache_write_ok"],"a write of several blocks tests the cache's own old state: refuted; from state ok proved")
m("C99","partial",["fw_skip_refuted","fw_read_confined","fw_write_confined"],"skip moves the source only: refuted; reads and writes alone are confined")
m("C53","proved",["replicator_sequential","replicator_calls_complete","replicator_no_deadlock","replicator_steps_bounded","replicator_destroyed","replicator_write"],"every interleaving of the caller and one worker per sink; an operation of a sink is one step")
m("C54","proved",["async_reader_delivers","async_reader_short_read","async_reader_no_race","async_writer_prefix","async_writer_destroyed","async_writer_flush","async_writer_all_ok"],"on top of the ring model, step for step; every source/sink contract, every capacity, every schedule")
m("C100","partial",["async_writer_ok_after_failure_refuted","async_writer_prefix","async_writer_destroyed"],"refuted as stated (a write begun after the worker has given up reports ok); delivery holds while the source has not failed")
m("C101","partial",["async_writer_flush_race_refuted","async_reader_no_race"],"refuted for async_writer::flush; the reader's counterpart is proved")
m("C102","proved",["async_reader_no_deadlock","async_reader_steps_bounded","async_writer_no_deadlock","async_writer_steps_bounded","replicator_no_deadlock","replicator_steps_bounded"],"progress without spurious wake-ups plus a decreasing measure")
m("C55","proved",["spinlock_mutual_exclusion","spinlock_acquired_when_free","spinlock_try_exchange_fails_when_held","spinlock_try_ends","spinlock_free_lock_is_taken"],"any number of threads; relaxed loads may give any value")
m("C56","proved",["pool_linearizable","pool_conservation","pool_one_owner","pool_pop"],"each node is a linearizable stack; conservation as a permutation")
m("C57","partial",["watchdog_fires_only_after_timeout","watchdog_twice_between_resets_refuted","watchdog_destroyed"],"whole-timeout condition and destruction proved; 'at most once between two resets' refuted (a reset between the decision and the call); see the bound in the separate property")
m("C58","proved",["aggregate_sums","aggregate_value"],"modulo 2^64 always, exact when the sums fit")
m("C59","partial",["aggregate_last_report_refuted","aggregate_one_worker"],"refuted with two workers; holds with one worker")
m("C60","partial",["global_progress_maps","global_progress_monotone","global_progress_ends","global_progress_empty","global_progress_overflow_refuted"],"proved when the product fits 64 bits; refuted otherwise")
m("C103","proved",["spinlock_no_lost_update"],"release/acquire views")
m("C104","proved",["pool_clear","pool_no_deadlock","pool_steps_bounded"],"")
m("C105","proved",["watchdog_fires","watchdog_destructor_progress","watchdog_destructor_bounded"],"firing: a path of time steps and steps of running threads exists from every such state (the thread is deterministic)")
m("C106","proved",["watchdog_calls_bounded_by_resets"],"")
m("C107","proved",["lazy_reports_spaced","lazy_ends_reported","lazy_eventually_reported"],"")
m("C108","proved",["switcher_restores","switcher_reports_to_previous"],"")
m("C109","partial",["aggregate_host_concurrency_refuted","aggregate_detached","aggregate_exclusive"],"concurrent calls refuted; the rest proved")
m("C62","partial",["strtouuid_documented","uuidtostr_documented","uuid_round_trip","strtouuid_accepts_partial","strtouuid_rejects_refuted","strtouuid_safe_partial","strtouuid_safe_refuted","uuidtostr_wide_refuted"],"Round trip and acceptance of the documented form proved for all uuids. Rejection of other texts is false of the code (line 149 has && for ||; groups may be short, signed or missing): refuted, with a theorem saying exactly what shape an accepted text has. Reads past the end of the text: refuted, with a theorem for terminated strings. The wchar_t formatter is wrong (extra NULL argument): refuted.")
m("C67","proved",["charset_from_name_spec","charset_case_insensitive"],"")
m("C61","proved",["padding_least","open_spec","close_spec","write_record_spec","ignore_spec","find_first","find_none_below","find_none_end","find_total","read_id_spec","read_record_spec"],"over any ordinary file (plain_file contract of FileConvSpec, array_file is an instance); identifier and size fields of any width; the std::iostream overloads and the operator<< over a plain stream (temp memory file) are not modelled")
m("C110","partial",["ignore_spec","ignore_wraps_refuted"],"true when data and padding together fit the size field (ignore_spec, find_first, read_record_spec); refuted otherwise: size += padding wraps in T_size (ignore_wraps_refuted)")
m("C63","proved",["noop_spec","bol_spec","eol_spec","any_cu_spec","cu_spec","space_cu_spec","punct_cu_spec","space_or_punct_cu_spec","cu_set_spec","string_spec","string_exact","sgml_any_cp_spec","iterations_spec","sequence_spec","seq_is_chain","branch_spec","branch_is_first","permutation_spec","permutation_complete","search_spec","string_branch_spec","vis_is_text"],"over any element parsers meeting the element contract (every basic test and combinator does, so trees of them do); locale facets are parameters; parsers shared between two holders are separate objects in the model; the sgml_cp/sgml_string variants are not modelled here")
m("C64","proved",["integer_spec","integer_fail_zero","integer_units","integer10_value","integer16_value","integer10ts_spec","integer10ts_value"],"integer_spec over any digit parsers that consume something; the others at the text level. After a failed integer10ts match digit_count is not reset (the model shows it; not claimed).")
m("C111","partial",["star_unique","fraction_spec","score_spec","signed_numeral_spec","mixed_numeral_spec","monetary_numeral_spec","scientific_numeral_spec","monetary_null_sign_refuted"],"Proved for all six classes; for scientific_numeral the intervals of the sign, integer and decimal parts are given, those of the exponent parts are in the lemma exp_spec only, and its double value is not modelled. The last clause is false of the code: monetary_numeral dereferences a null sign (monetary_null_sign_refuted), so monetary_numeral_spec asks for all three signs.")
m("C112","proved",["roman_spec","roman_text","numeral_roman"],"what counts as a numeral is in RomanSpec.v (roman), together with its value and the usual numeral of a number; the parser also takes unusual rows such as IXI (10), shown by roman_odd")
m("C65","proved",["ipv4_spec","ipv4_text"],"ipv4_spec: over any ten well-behaved digit parsers and any separator parser; ipv4_text: over plain '0'..'9' and '.'. Example ex_ipv4 shows '010.0.255.256' matched up to '25'.")
m("C113","partial",["ipv6_spec","ipv6_plain_spec_partial","ipv6_value_refuted"],"Match, components, scope id and clearing are proved. The value part is false of the code and refuted: basic_ipv6_address never stores the group numbers (parser.hpp 2708-2709), so all eight words are always zero. A separator behind the last group of a shortened form is consumed.")
m("C66","proved",["iban_spec","iban_plain","mod97_spec","iban_countries"],"The space parser must consume something when it matches: otherwise the code loops for ever.")
m("C114","partial",["reference_spec_partial","reference_plain_partial","reference_overrun_refuted"],"All parts are proved for references with at most 19 letters. With 20 or 21 letters the code writes beyond T normalized[47] (parser.hpp 5004): proved to be undefined behaviour, so the claim as stated is refuted.")
m("C115","proved",["escape_spec","escape_safe","escape_decodes","escape_min_safe","escape_min_decodes"],"decoding by the model of sgml2strcat (SgmlModel)")
m("C116","proved",["url_unescape_spec"],"the texts cut inside of an escape are C120")
m("C117","proved",["url_escape_safe","url_round_trip"],"")
m("C118","proved",["css_unescape_spec","css_reads_total"],"the reading is the relation css_reads of HtmlEscSpec.v")
m("C119","proved",["css_round_trip","css_escape_safe"],"")
m("C120","partial",["url_unescape_overread_any","url_unescape_overread_refuted","css_unescape_endless_refuted","css_unescape_overread_refuted","url_unescape_spec","css_unescape_spec"],"refuted: url_unescape reads behind the limit for exactly the texts that are cut inside of a percent escape (html.hpp:250-259); css_unescape never returns for a counted text that ends in a lone backslash (no branch advances i, html.hpp:399) and runs over the terminator of a zero-terminated one.  The positive part (all other texts) is in url_unescape_spec and css_unescape_spec")
m("C121","proved",["zlib_write_spec","zlib_writer_stream"],"zlib is a parameter that keeps zlib.h's promises (ZlibSpec.deflater); toy_deflater and zlib_ex show that they can be met. Partial correctness: the calls are assumed to return (zlib could fill the block forever).")
m("C122","proved",["zlib_read_spec","zlib_round_trip","zlib_reader_new"],"zlib's promises about inflate are ZlibSpec.inflates; toy_inflates shows that they can be met. The reader terminates.")
m("C123","partial",["zlib_reader_trailing_refuted"],"False of the code: do_read does not look for Z_STREAM_END, so with data behind the stream it calls inflate forever (proved for every stream and every zlib that answers Z_STREAM_END without doing anything, as zlib does).")
m("C124","proved",["hasher_spec","hasher_transparent","hasher_digest","hasher_digest_md5","hasher_digest_sha1"],"")
m("C125","proved",["sys_read_total","sys_write_total","sys_is_source","sys_is_sink"],"The descriptor is a parameter with POSIX's promises (SysSpec.os_source, os_sink); POSIX code path. Composes with every theorem about a source or a sink.")
m("C126","proved",["file_plain","toy_posix"],"Regular file without I/O errors and without a size limit (SysSpec.posix_file); toy_posix shows that the promises can be kept.")
m("C127","proved",["file_seek","file_queries_keep"],"")
m("C128","partial",["unlock_reports_partial","lock_reports_refuted"],"True of unlock; false of lock, which overwrites the failure with ok (stream.hpp:2886): proved for every descriptor that refuses.")
m("C129","proved",["diag_file_spec","diag_file_run"],"")
m("C130","partial",["diag_empty_partial","diag_empty_refuted"],"False of lock, unlock and truncate, which use m_files[0] of an empty vector.")
m("C131","partial",["cached_file_partial"],"Composition of C126 with cache_transparent_partial; the histories excluded in C52 (refuted in C94-C98) are excluded here.")
m("C132","proved",["json_rfc","json_generic","json_example"],"the parser as one builds it for RFC 8259 (the grammar parsers it holds are parameters of the class); json_generic is for any held parsers.")
m("C133","proved",["json_code_utf8","json_code_wide","json_narrow_value"],"")
m("C134","partial",["json_utf8_partial","json_surrogates_refuted"],"Refuted as stated: a surrogate pair gives six bytes (CESU-8) instead of the four of UTF-8. Proved for strings without surrogate escapes.")
m("C135","proved",["element_code_narrow","element_code_wide","element_code_own"],"")
m("C136","partial",["element_code_wide","element_code_wide_refuted"],"False of the code: a folded wide character is cast to char (html.hpp:1478), so U+0161 is taken for a. Proved for ASCII names.")
m("C137","proved",["span_html401","optional_no_nesting"],"")
m("C138","proved",["is_uri_html401","is_uri_exact","is_localizable_exact"],"")
m("C139","proved",["html_tag_within","html_tag_name"],"")
m("C140","proved",["html_tag_returns","html_tag_returns_closed","html_tag_returns_ends"],"also when the tag has a proper end: the next > with no slash directly in front, no -- and no quoted value before it")
m("C141","partial",["html_end_tag_never_ends","html_declaration_never_ends","html_tag_returns"],"False of the code: </a/> and <!x/> make the attribute loop add empty attributes forever (parser.hpp:8160-8249). Refutation proved for every name; proved to end otherwise.")
m("C142","proved",["html_start_recognised","html_end_recognised","html_comment_recognised","html_instruction_recognised"],"Declarations are covered by C139/C140 only.")
m("C143","proved",["html_condition_end_iff","html_condition_recognised","html_condition_none"],"")
m("C144","proved",["document_sequences"],"")
m("C145","proved",["document_nested"],"")
m("C146","proved",["document_complete"],"")
m("C147","proved",["document_append_returns","document_assign_returns"],"The locale must not take > for white space.")
m("C148","proved",["document_chunks"],"")
m("C149","proved",["clear_forgets"],"holds by construction of the model: assign starts with clear, which resets every member (html.hpp:1636-1652)")
m("C150","proved",["end_tag_name"],"")
m("C151","partial",["document_complete_refuted","document_complete"],"False of the code: text in front of a conditional section is in no sequence, and a CDATA section leaves a valid condition open whose end swallows a later ]]>. Proved without <![ (C146).")
m("C152","partial",["end_tag_name_refuted","end_tag_name"],"False of the code: all unknown elements have the same code, so the comparison of names is never reached (html.hpp:1811-1813). Proved for known elements (C150).")
m("C153","partial",["document_chunks_refuted","document_chunks"],"False of the code: markup inside an unfinished comment is taken for markup. Proved when the parts agree (C148).")
m("C154","partial",["append_after_finalize_refuted","document_append_returns"],"False of the code: m_is_special_element survives finalize, so append dereferences the null active element.")
m("C155","proved",["conditional_section"],"")
m("C156","proved",["entities_replaced"],"For entity names without a semicolon.")
m("C157","proved",["may_contain_html401"],"")
m("C158","partial",["omitted_tbody_refuted","ins_in_p_refuted","may_contain_html401"],"False of the code: <tr> ends a table that has no <tbody>, <ins> ends a paragraph (omitted start tags and DTD inclusions are not modelled by may_contain). The content models themselves are exact (C157).")
m("C159","proved",["flush_reports"],"")
m("C160","partial",["quoted_entity_refuted","entities_replaced"],"False of the code: the quotation marks become part of the value, so a quoted IGNORE does not ignore.")
m("C161","proved",["format_narrow","format_wide"],"char below 1024 characters, wchar_t of any length")
m("C162","partial",["format_narrow_1024","format_long_throws","format_wide_throws","format_any_length_refuted"],"refuted: exactly what happens to texts of 1024 characters and to longer ones")
m("C163","proved",["css_comment_exact","css_cdo_cdc_exact"],"if and only if")
m("C164","proved",["css_string_written","css_string_sound"],"")
m("C165","proved",["css_uri_quoted","css_uri_plain","css_import_written","css_uri_within","css_import_within"],"")
m("C166","partial",["css_string_backslash","css_uri_escape","css_string_refuted","css_uri_refuted"],"refuted; what happens instead is proved for all such strings and addresses")
m("C167","proved",["tag_round_trip"],"")
m("C168","proved",["parse_link"],"for all placements of the tokens that keep them apart")
m("C169","proved",["document_links_nest"],"")
m("C170","proved",["document_rebuilt_same"],"")
m("C171","proved",["switch_tokens"],"")
m("C172","proved",["insert_tokens"],"")
m("C173","partial",["merge_union_partial","merge_adds_nothing"],"refuted; merge never adds anything")
m("C174","partial",["rebuilds_documents_partial"],"refuted for the five kinds of documents in the statement; proved for the others except style sheets with arbitrary contents (C168 covers those css_text holds for)")
m("C175","proved",["tokens_true","document_tokens_true"],"style sheets' own tokens: C168")
m("C176","proved",["http_space_spec"],"if and only if; likewise below")
m("C177","proved",["http_token_spec"],"")
m("C178","proved",["http_quoted_string_spec","http_value_spec"],"")
m("C179","proved",["http_parameter_spec"],"")
m("C180","proved",["http_media_range_spec","http_media_type_spec"],"")
m("C181","proved",["http_cookie_parameter_spec","http_cookie_spec"],"")
m("C182","proved",["http_url_server_spec","http_url_port_spec"],"")
m("C183","partial",["http_url_path_spec","http_url_parameter_spec","http_url_parameter_reads_end"],"the code reads the unit at the end, so a start in front of the end, and a terminator in front of the end, are needed")
m("C184","partial",["http_url_spec","http_url_end_beyond"],"for texts with a terminator in front of the end; refuted without")
m("C185","proved",["http_language_spec"],"")
m("C186","proved",["http_weight_spec"],"")
m("C187","proved",["http_agent_spec"],"")
m("C188","proved",["http_protocol_spec"],"")
m("C189","proved",["http_request_spec"],"for texts with a terminator in front of the end, as the statement says")
m("C190","proved",["http_header_spec"],"")
m("C191","proved",["http_any_type_spec"],"")
m("C192","proved",["http_weighted_value_spec"],"")
m("C193","proved",["http_weighted_collection_spec"],"")
m("C194","proved",["http_value_collection_spec"],"")
m("C195","partial",["token_mapping_refuted","tokens_true"],"refuted; texts and tags themselves are mapped right (C175)")
m("C196","partial",["http_space_takes_an_empty_line","http_quoted_string_refuses_octets","http_parameter_white_space","http_url_end_beyond","http_url_parameter_reads_end","http_url_port_zero","http_weight_denominator_zero","http_weighted_stale","http_agent_stale","http_protocol_carries","http_protocol_needs_white_space","http_list_empty_element","http_list_bad_weight","http_header_no_name"],"refuted; what is accepted instead: C176-C194")
m("C197","proved",["mime_type_spec"],"")
m("C198","partial",["charset_is_parameter_refuted","charset_up_to_blank"],"refuted; what charset is instead: C197")
m("C199","proved",["header_written","format_written","format_too_long","content_written","cues_written","ltxt_written","label_written","rec_written"],"")
m("C200","proved",["header_rec_read","format_rec_read","content_rec_read","cues_rec_read","ltxt_rec_read","label_rec_read","rec_of_ok"],"")
m("C201","proved",["read_first_format","read_first_none"],"")
m("C202","proved",["cues_ex_written"],"")
m("C203","proved",["read_cues_spec"],"")
m("C204","proved",["cues_round_trip"],"")
m("C205","partial",["read_cues_never","read_cues_hangs","default_limit_refuted"],"refuted")
m("C206","partial",["find_first_even_partial","find_first_none_partial","find_content_finds","find_first_odd_refuted"],"refuted at odd positions; what holds at even ones is proved")
m("C207","partial",["remove_refuted","remove_keeps","remove_keeps_all"],"refuted; what it does instead is proved of every well-formed input")
m("C208","proved",["si_reference_match"],"For every text, well-formed object and parser of spaces (toup 0 = 0); SiEx has concrete references.")
m("C209","proved",["si_reference_valid"],"The rules are the table groups of SiSpec; SiEx.ex_si11_ok meets the hypotheses.")
m("C210","partial",["si_reference_joined_partial","si_reference_zero_refuted","si_reference_three_refuted","si_reference_bad_refuted"],"Refuted as stated: a joined check rejects a reference whose control digit is 0 because the weighted sum is a multiple of 11 (11 is not made 0), and the check of three parts compares with a unit of the second part instead of the last digit of the third, so that it rejects right and accepts wrong references. Proved instead: exactly when is_valid is set, so that except for model 01 with three parts a valid one obeys the model.")
m("C211","proved",["time_spec","time_unique","plain_time_spec"],"For any held parsers that behave like parsers; DateEx instantiates it with plain digits.")
m("C212","proved",["angle_spec"],"DateEx.angle_applies shows plain parsers meeting the hypotheses.")
m("C213","proved",["date_spec","date_unique","date_valid_spec","plain_date_spec"],"")
m("C214","partial",["date_exists_refuted","day_exists_refuted","date_exists_partial"],"Refuted as stated: 29 February is accepted in every year, and a number of 18446744073709551615 counts as first day or month. Proved: when no number read is SIZE_MAX, the day exists in that month in some year.")
m("C215","proved",["dns_name_spec","dns_char_spec","plain_dns_spec"],"For any held parsers; plain_dns_spec shows plain characters meeting the hypotheses.")
m("C216","proved",["url_path_spec","plain_path_spec"],"")
m("C217","proved",["url_spec","url_unique","url_applies"],"In a ftp URL the at behind a lone user name is looked for where the user name starts, see C219.")
m("C218","proved",["email_spec","email_unique"],"")
m("C219","partial",["ftp_user_refuted","ftp_user_partial"],"Refuted as stated: in ftp://u@h the host is u and the path @h. Proved: what is matched instead.")
m("C220","proved",["emoticon_spec","emo_unique"],"UrlEx.emo_applies shows plain parsers meeting the hypotheses.")
m("C221","partial",["emoticon_hit_refuted"],"Refuted as stated: the match that ends the run of mouths overwrites hit_offset, so it is -1 or that of another mouth.")
m("C222","partial",["user_char_refuted","url_chars_partial"],"Refuted as stated: user names lack the parentheses. Proved: exactly these two are missing, and passwords and paths are as stated.")
m("C223","proved",["phone_spec","phone_unique","phone_element","plain_phone_spec"],"For any held parsers where no space is a right parenthesis; plain_phone_spec shows plain characters meeting the hypotheses.")
m("C224","proved",["phone_shape","phone_value","plain_phone_spec"],"")
m("C225","partial",["phone_null_refuted","phone_null_partial"],"Refuted as stated: do_match calls invalidate of both parsers of parentheses without a test, so every match without them is undefined.")
m("C226","proved",["formula_spec","formula_unique","plain_chem_spec"],"")
m("C227","partial",["next_sgml_cp_spec","code_point_unique","sgml_cp_spec","cp_fn_iff","same_cp_iff","sgml_cp_chr_spec","sgml_numeric_refuted"],"Refuted as stated where wchar_t has 32 bits: next_sgml_cp returns a pointer to its local buf32 for a numeric reference. Proved for every text on Windows and for every text without numeric references elsewhere.")
m("C228","partial",["sgml_class_spec","cp_fn_iff","space_text_iff","punct_text_iff","space_or_punct_text_iff","sgml_empty_refuted"],"Refuted as stated for &#0;. Proved: the match is exactly that all characters of the text are in the class, with the restriction of C227.")
m("C229","partial",["sgml_cp_set_spec","in_set_iff","in_set_one","in_set_empty","sgml_empty_refuted"],"Refuted as stated for &#0;. Proved: exact, with the restriction of C227.")
m("C230","partial",["sgml_string_spec","sgml_string_decodes","spells_fun"],"With the restriction of C227 (no numeric reference in the text where wchar_t has 32 bits); sgml_string_decodes is for 32 bits.")
m("C231","partial",["sgml_url_char_spec","sgml_dns_domain_char_spec","url_text_one","scope_id_text_iff","sgml_dns_name_spec"],"With the restriction of C227.")
m("C232","proved",["untrusted_comment_spec","untrusted_is","line_break_spec"],"")
m("C233","proved",["parse_minisig_spec","sig_line_fun","minisig_data_spec"],"For any source of StreamSpec that never fails (array_source, C45, is one; MinisignProps.sample_minisig runs it).")
m("C234","partial",["minisig_file","minisig_unterminated_refuted"],"Refuted as stated when the line of the signature is the last and has no line end. Proved with the line end.")
m("C235","proved",["stricmp_less_order"],"")
m("C236","proved",["langid_from_spec","maps_exist"],"The tables are generated from the header by tools/gen_langid.py; std::map is any search tree with the entries of the insertions in order.")
m("C237","proved",["rfc1766_from_spec","codes_unique","maps_exist"],"")
m("C238","proved",["name_round_trip","tables_inverse"],"")
m("C239","partial",["code_round_trip_refuted","code_round_trip_partial"],"Refuted as stated for the 34 codes of `shadowed`, whose names are of another entry that comes first. Proved: exactly these, and the code that comes back has the same name.")
m("C240","proved",["langid_parts"],"")
m("C241","proved",["sys_object_owns","socket_object_owns"],"HandleProps.handle_ex is a history with every operation.")
m("C242","proved",["socket_owns"],"")
m("C243","partial",["assign_refuted","close_refuted","move_assign_refuted","sys_object_owns"],"Refuted as stated for the three calls; a failing dup in a copy constructor and a failing close in a destructor do no harm (C241).")
m("C244","proved",["strcat_spec"],"For any codec that writes whole units and at most a buffer for one character; u7_codec shows one, EncoderProps.encoder_ex runs it over more than one buffer.")
m("C245","proved",["strcat_parts"],"u7_stable shows that a codec with shift states meets the hypothesis.")
m("C246","partial",["utf7_refuted","complete_partial","u7_alphabet"],"Refuted as stated: utf7_refuted. Proved: where the codec holds nothing back at the end.")
m("C247","partial",["independent_refuted","independent_partial"],"Refuted as stated: independent_refuted. Proved: where the first conversion holds nothing back (u7_holds_back: UTF-7 meets the hypothesis).")
m("C248","proved",["operations"],"HandleProps.handle_ex is a history with every operation.")
m("C249","proved",["open_spec"],"On Linux. OpenProps.open_ex opens, creates and is refused.")
m("C250","partial",["exclusive_refuted"],"Refuted as stated.")
m("C251","proved",["cached_mode_spec"],"")
m("C252","proved",["set_time_other","time_reads"],"")
m("C253","partial",["mtime_round_trip_refuted","time_round_trip_partial"],"Refuted as stated. Proved: the time read back is 10^9 times the one set, right for 0 only (libstdc++, a file system that keeps every second).")
m("C254","proved",["socket_stream"],"toy_conn_ok shows a connection that meets the hypotheses.")
m("C255","partial",["socket_move_state_refuted","socket_move_state_partial"],"Refuted as stated. Proved: the socket is moved, and the state where it is ok or equal.")
m("C256","proved",["strcpy_16_32_spec","strcpy_16_32_round_trip"],"")
m("C257","proved",["strcoll_spec"],"For any comparison of the locale.")
m("C258","partial",["strncoll_refuted","strncoll_partial"],"Refuted as stated: the limits are taken as the lengths. Proved: without terminators within the limits.")
m("C259","proved",["strtod_spec"],"For any conversion of the C library.")
m("C260","proved",["strcatftime_spec"],"For any formatted text of the C library.")
m("C261","partial",["strftime_empty_refuted"],"Refuted as stated: the string grows until resize throws.")
m("C262","partial",["get_ptr_refuted","get_ptr_partial"],"Refuted as stated: an owned object the callee overwrites is never deleted. Proved: where the owner is empty, or the callee keeps or deletes the object it finds.")
m("C263","proved",["cached_reopen","cached_close_spec","cached_open_keeps","cached_close_fails","cached_close_keeps"],"For any file that is plain (StreamSpec), histories as in C52 (tame).")
m("C264","partial",["cached_destroy_refuted","cached_destroy_partial"],"Refuted as stated: after the exception of ~cached_file the base's destructor uses the file that is destroyed already. Proved: it is undefined only where the flush fails, and the flush keeps what it cannot write.")
m("C265","partial",["fw_lock_refuted","fw_lock_partial"],"Refuted as stated for a window that does not start at 0. Proved: exact for a window from 0.")
m("C266","partial",["cache_lock_refuted","cache_lock_partial","cache_lock_fresh_partial","cache_unlock_partial"],"Refuted as stated: the cache is neither discarded by lock nor written by unlock. Proved: the same section of the file is locked; exact where nothing is cached, and where all is flushed.")
m("C267","partial",["buffered_sys_spec","buffered_sys_refuted"],"Refuted as stated: what cannot be written at the end is lost without notice. Proved: all is written before the close if the handle writes.")
m("C268","partial",["scoped_refuted","scoped_partial"],"Refuted as stated: done is a reference, and both arguments must be rvalues, so that a lambda written in the call is gone at the end of the declaration; and done does not run where init throws. Proved: with functions that outlive the scope.")
m("C269","proved",["sanitized","deallocate_spec"],"On the abstract machine: that a compiler may drop the memset as a dead store is not modelled (line 110 has no volatile).")
m("C270","partial",["rfc822_spec","rfc822_injective","rfc822_year_refuted"],"Refuted as stated before the year 1000. Proved for the years 1000 to 9999.")
m("C271","partial",["to_str_refuted","to_str_partial"],"Refuted as stated: array new, plain delete. Proved: exact for nonempty texts that fit the first buffer.")
m("C272","proved",["platform_spec","platform_unique"],"For any tree with the entries of the one built by insertion, as libstdc++'s rotations keep them.")
m("C273","partial",["os_platform_refuted","os_platform_arm_refuted","os_platform_partial"],"Refuted as stated: i486 to i686 and armv* are unknown. Proved: right on x86-64, little-endian 64-bit ARM and the 80386; what is not unknown is right.")
m("C274","partial",["encoder_refuted","encoder_partial"],"Refuted as stated: from every history, a copy makes the second destruction undefined, and an assignment also leaks. Proved: every history without copies keeps one owner for each conversion.")
m("C275","partial",["create_locale_refuted","create_locale_glibc_refuted","locale_utf8_refuted","create_locale_partial","newlocale_null"],"Refuted as stated: undefined by POSIX, and with glibc in all but one case. Proved: that case; and that a null base would do for LC_ALL.")
m("C276","partial",["exists_refuted","exists_partial"],"Refuted as stated for links to nothing. Proved: what it says of every name, exact where the name is no link.")
m("C277","proved",["readonly_spec"],"Linux's limit of 40 links; the mode bits only, not access control lists or the superuser.")
