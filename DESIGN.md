# Formal model of Amebis/stdex in Rocq (Coq 8.16.1)

The table at the end of this file, the list of assumptions and MANIFEST.json are generated (tools/gen_*.py) from
properties.jsonl, tools/manifest_data.py and the theories.

## Approach

* Every function of the C++ code that a property is about is transcribed to a total Gallina
  function in `rocq/theories/*Model.v`, with a comment citing the file and lines in /repo.
  Loops become structural recursion over the data they consume, or fuel recursion. Running out of
  fuel is the outcome `UB`, never a success: a theorem that says the result is `Ret` for every
  fuel from some bound on proves termination, one that says it is `UB` for every fuel proves that
  the loop does not end.
* Machine integers are `Z` with explicit wrap (`u8`, `u16`, `u32`, `u64`, `i32`, `i64`, in `Base.v`).
  Undefined behaviour (reads and writes outside of buffers, null pointers, signed overflow, a missing
  return) and C++ exceptions are explicit outcomes (`UB`, `Throw`).
* A pointer to text is the list of the cells that may be read from it; reading behind them is `UB`, so the
  theorems about functions that take a count and a terminator also say that they stay inside.
* Object histories are lists of operations run by a fold, or an inductive `reach`; concurrency is an
  interleaving transition system whose atomic steps are the critical sections and atomic operations of the code,
  with explicit wait sets for condition variables.
* What the code takes from outside (other streams, the operating system, zlib, locale facets, memory
  addresses, the printf of the C library, the clock) is a parameter: theorems hold for every one of them, or for
  every one that behaves as the hypotheses say.
* Specifications are separate, small definitions in `*Spec.v` (or at the top of the `*Props.v`
  file) that do not use the model's helpers.
* `*Props.v` files hold the final theorems and their non-vacuity examples, followed by
  `Print Assumptions`.
* Where the code violates the property a user would rely on, a theorem named `*_refuted` (or a conjunct of the
  `*_partial` theorem) proves that a concrete, reachable case violates it, and `_partial` theorems prove what
  remains true. Such properties have the status "partial" in MANIFEST.json: they cannot be proved of this code.

## How each kind of property is proved

| area | modelled | proof |
|---|---|---|
| vector_queue (C01-C03) | array, head and count with size_t wrap | refinement to lists over all histories |
| ring (C04-C07) | indices, array, threads, condition variables | inductive invariants of the interleavings; lost wake-ups refuted by schedules |
| base64, hex (C08-C13, C68, C69) | encoder and decoder state machines, reader, writer | induction over chunks against RFC 4648 |
| math, interval, mapping, endian (C14-C20) | all functions | arithmetic, loop invariant of the binary search |
| chrono (C21-C24) | all conversions | arithmetic over quotients |
| hash (C25-C29, C124) | block_hash, crc32, md5, sha1, stream_hasher | chunk induction; equality with independently written RFC 1321, FIPS 180-4 and bitwise CRC |
| string (C30-C40, C161, C162) | comparison, search, copy, trimming, numbers, glyphs, printf wrappers | induction over buffers |
| sgml (C41-C43, C70-C73) | entity table generated from the header, search, both directions, buffers | computation over the table and induction over the text |
| stream (C44-C54, C74-C102, C125-C131, C159) | basic, converters, memory_file, fifo, cache, async, replicator, file, diag_file | refinement to byte sequences; interleavings for the threads |
| spinlock, pool, watchdog, progress (C55-C60, C103-C109) | transition systems, release/acquire views for spinlock | inductive invariants |
| WAV files (C199-C207) | structures over any stream, searches and cue lists over any file as in idrec | induction over the records of the file, sinks and sources as in C81 |
| idrec, uuid, charset names (C61, C62, C67, C110) | functions over streams and text | round trips, computation over tables |
| parser (C63-C66, C111-C114, C132-C134, C139-C143, C163-C166, C208-C232 ...) | basic tests, combinators, numerals, addresses, references, JSON, HTML, CSS | equivalence with declarative grammars |
| html (C115-C120, C135-C138, C144-C160, C167-C174) | escapers, element tables, document, tokens and linking | induction over source and histories, computation over tables generated from the source |
| minisign (C232-C234), langid (C235-C240) | all functions | sources as in C81; strict weak order, search trees of any shape, computation over the tables |
| descriptors of sys_object and socket (C241-C243, C248) | objects, handles, a table of open descriptors that hands out the lowest free one | invariant over all histories |
| opening files, their times, socket streams (C249-C255) | flags, files and descriptors of Linux; recv and send of any connection | by the binary digits of the mode; as basic_sys |
| charset_encoder (C244-C247, C274) | conversion loop over an arbitrary codec | induction over the rounds, against conversion character by character |
| zlib (C121-C123) | reader and writer over an arbitrary zlib | induction over calls |

## Trusted base

* Coq 8.16.1's kernel (`coqc`), including its virtual machine (`vm_compute` is used for finite tables and examples; `native_compute` is not).
* `Print Assumptions` answers "Closed under the global context" for 738 of the 738 theorems of MANIFEST.json.
No theorem depends on any axiom, also none of the standard library's.

* No axioms, parameters, functors or module types are declared; no flags that weaken the kernel are used; section variables are
  generalised at the end of their sections, so they appear in the statements.
* That the Gallina definitions are what the C++ code does. The comments at the definitions say which lines they
  stand for and what they leave out. The tables (SGML entities, IBAN countries, HTML elements) are generated from the text of
  the headers by scripts in tools/ and were compared with it by count.
* The platform: Linux, 64-bit size_t, 32-bit signed wchar_t, 16-bit char16_t, little endian, release build (assertions are not
  evaluated) unless a property says otherwise.

## What is modelled, header by header

| header | modelled | not modelled |
|---|---|---|
| base64.hpp | base64_enc, base64_dec, base64_writer, base64_reader | |
| chrono.hpp | aosn_date, aosn_timestamp conversions and arithmetic; to_str, to_rfc822 (C270, C271) | the std::chrono clock wrappers, now() |
| endian.hpp | byteswap of all integer sizes | byteswap of float and double (bit casts of the modelled ones) |
| hash.hpp | block_hash, crc32, md5, sha1, stream_hasher | the Windows CryptoAPI part |
| hex.hpp | all | |
| html.hpp | escapers, element tables, document, tokens, parser::parse, parse_css, link, inserted tokens, merge | progress reporting inside of parse, words and spans of user code |
| wav.hpp | all structures, find_first, find_content, read_first, read_cues, remove_cues over any file that behaves like an array (C199-C207); std::sort and bsearch as any functions that sort and find | allocation failures of resize |
| idrec.hpp | record framing over stream::basic_file | the std::iostream overloads (same text) |
| interval.hpp, math.hpp, mapping.hpp | all but the stream operators | |
| langid.hpp | all; std::map as any search tree with the entries in order | |
| minisign.hpp | all | |
| parser.hpp | all classes, see the table of properties; the HTTP parsers (5566-7195) for char | error paths of allocation |
| pool.hpp, ring.hpp, spinlock.hpp, vector_queue.hpp, watchdog.hpp | all | memory orders weaker than the mutex everywhere but in spinlock |
| progress.hpp | lazy, global, timeout, switcher, aggregate | global_progress with floating point |
| sgml.hpp, sgml_unicode.hpp | all conversions, table | |
| stream.hpp | basic, basic_file, converter, replicator, async_reader, async_writer, buffer, limiter, window, file_window, cache, basic_sys, file, diag_file, cached_file, memory_file, fifo; socket (C242, C248, C254, C255), opening and times of files (C249-C253); opening again, locks and destruction of the converters (C263-C267); exists, readonly (C276, C277) | Windows code, SAFEARRAY, SET_FILE_OP_TIMES |
| string.hpp | comparison, search, copy, case, trimming, numbers, glyphs, printf family, collation, strftime family, strtod (C256-C261) | what the C library makes of one conversion or format (a parameter) |
| unicode.hpp | charset_from_name, charset_encoder (C244-C247, C274), see the table for others | iconv itself (a parameter) |
| uuid.hpp | all (non-Windows) | |
| zlib.hpp | zlib_writer, zlib_reader | zlib itself (a parameter) |
| assert, compat, curl, debug, exception, locale, memory, scoped_executor, socket, sys_info, system | only what a property names, as who owns descriptors (system.hpp basic_sys_object, socket.hpp socket: C241-C243, C248; memory.hpp ref_unique_ptr: C262, sanitizing_allocator: C269; scoped_executor.hpp: C268; sys_info.hpp platform_from_name, os_platform: C272, C273; locale.hpp create_locale: C275) | the rest: thin wrappers of the operating system or tables |

## Testing the theorems against wrong programs

seeded/LOG.jsonl has one line per edit of a model definition: what was edited, the claim it breaks and which theorems stopped proving.
Where an edit survived, the theorem was tightened and the line says which.

## Properties and their theorems

| id | property | status | theorems | proved in | remarks |
|---|---|---|---|---|---|
| C01 | vector_queue is a bounded FIFO | proved | `vector_queue_fifo`, `vector_queue_push_back_pos` | VectorQueueProps |  |
| C02 | vector_queue::push_front prepends | partial | `vector_queue_push_front_refuted`, `vector_queue_push_front_partial` | VectorQueueProps | The code violates the property for capacities that are not a power of two (refuted with a concrete run); proved for powers of two. |
| C03 | vector_queue copy and move preserve content | proved | `vector_queue_copy`, `vector_queue_assign`, `vector_queue_move` | VectorQueueProps | Storage leaked by move assignment is not modelled. |
| C04 | ring hands out in-bounds contiguous regions | proved | `ring_back_region`, `ring_front_region`, `ring_null_only_after_quit`, `ring_assertions_hold` | RingProps |  |
| C05 | ring delivers bytes in order | proved | `ring_fifo`, `ring_front_region` | RingProps |  |
| C06 | ring producer and consumer never lose a wake-up | proved | `ring_no_lost_wakeup`, `ring_wakeup_pending`, `ring_notification_wakes` | RingProps | That the operating system eventually delivers a notification and schedules the woken thread is assumed. |
| C07 | ring with several waiters on one condition | partial | `ring_two_waiters_refuted`, `ring_two_waiters_pop_refuted`, `ring_no_lost_wakeup` | RingProps | The code violates the property: notify_one wakes one of two waiters (two concrete schedules). What holds is C06: without a second waiter no wake-up is lost. |
| C08 | base64 encoding equals RFC 4648 | proved | `base64_encode_rfc4648` | Base64Props |  |
| C09 | base64 decode inverts encode | proved | `base64_decode_inverts`, `base64_round_trip` | Base64Props |  |
| C10 | base64 size estimates are sufficient | proved | `base64_enc_size_bound`, `base64_dec_size_bound` | Base64Props | Proved for chunks shorter than 2^62, which excludes size_t wrap. |
| C11 | base64_writer emits decodable text | proved | `base64_writer_text`, `base64_writer_no_breaks`, `base64_writer_decodes` | Base64Props |  |
| C12 | base64_reader returns all decoded bytes | partial | `base64_reader_refuted`, `base64_reader_partial` | Base64Props | The code violates the property: base64_reader drops the last 1 or 2 bytes (base64.hpp:420-428). Proved when the data length is a multiple of three. |
| C13 | hex encode/decode round trip | proved | `hex_encode_spec`, `hex_decode_pairs`, `hex_round_trip`, `hex_dec_size_bound` | HexProps |  |
| C14 | checked arithmetic never wraps | proved | `mul_checked`, `add_checked` | MathProps |  |
| C15 | muldiv computes floor(a*b/q) without intermediate overflow | partial | `muldiv32_exact`, `muldiv64_partial`, `muldiv64_refuted` | MathProps | The 32-bit overload is exact; the 64-bit overload violates the property when the intermediate products overflow (refuted with a witness), proved when they do not. |
| C16 | rol rotates bits | proved | `rol_bits`, `rol_inverse` | MathProps |  |
| C17 | interval algebra | proved | `interval_contains_size`, `interval_shift`, `interval_invalid` | MathProps |  |
| C18 | mapping position search is correct | proved | `mapping_dst2src`, `mapping_src2dst`, `mapping_answer_unique`, `mapping_invert` | MappingProps |  |
| C19 | mapping search hint does not change the result | proved | `mapping_hint` | MappingProps |  |
| C20 | byte swapping is an involution and reverses bytes | proved | `byteswap_reverses`, `byteswap_involution`, `byteswap_signed_involution` | MathProps |  |
| C21 | date conversion round trip | partial | `date_round_trip`, `day_number_round_trip`, `date_successor`, `date_anchor`, `date_before_era_refuted` | ChronoProps | Proved from 1 March of year 0 to year 1460000 (int overflow is undefined beyond); before 1 March 0 the code violates the property (refuted with a witness). |
| C22 | day_of_week is periodic | partial | `day_of_week_spec_partial`, `day_of_week_anchor`, `day_of_week_dmy_agrees`, `day_of_week_refuted` | ChronoProps | Proved for day numbers >= 0; negative day numbers violate the property (day -1 gives 255). |
| C23 | timestamp conversions invert each other | proved | `time_t_round_trip`, `timestamp_time_t_floor`, `date_time_t`, `timestamp_date`, `timestamp_round_trip`, `timestamp_tm` | ChronoProps |  |
| C24 | timestamp from timespec keeps the milliseconds | partial | `timespec_refuted`, `timespec_partial` | ChronoProps | The code violates the property: nanoseconds are divided by 1000 instead of 1000000. |
| C25 | hashes do not depend on chunking | proved | `hash_chunk_independence` | HashProps |  |
| C26 | crc32 equals the bitwise definition | proved | `crc32_correct`, `crc32_resume` | HashProps |  |
| C27 | md5 equals RFC 1321 | proved | `md5_correct` | HashProps | For chunks below 4 GiB each (see C29). |
| C28 | sha1 equals FIPS 180-4 | proved | `sha1_correct` | HashProps | For chunks below 4 GiB each (see C29). |
| C29 | block hash counts long chunks | partial | `block_hash_length_refuted`, `block_hash_length_partial` | HashProps | The code violates the property: a chunk of 2^32 bytes is not counted. Proved for chunks below 2^32 bytes. |
| C30 | string comparison is a total order | partial | `lexicographic_total_order`, `strcmp_spec`, `strcmp_signed_spec`, `strncmp_common_spec`, `strncmp_spec`, `strncmp_utf32_utf16_spec`, `strrcmp_spec`, `strrncmp_spec`, `strncmp_signed_refuted` | StringProps | Proved for unsigned code units. With a signed char type the four-argument strncmp is not an order (refuted with three buffers). |
| C31 | case-insensitive comparison | proved | `stricmp_spec`, `strnicmp_common_spec`, `strnicmp_spec`, `ascii_folding` | StringProps | For every folding function that maps exactly 0 to 0; the ASCII one is proved to be such. |
| C32 | search functions find the first occurrence | proved | `strchr_spec`, `strnchr_correct`, `strichr_spec`, `strnichr_spec`, `strrchr_spec`, `strrnchr_correct`, `strrichr_spec`, `strstr_spec`, `strnstr_spec`, `plain_search_is_folded_search` | StringProps |  |
| C33 | copy functions terminate and stay in bounds | partial | `strcpy_spec`, `strcat_spec`, `strncpy_common_spec`, `strncpy_spec`, `strncpy_utf16_utf32_spec`, `strncat_spec`, `strdup_spec`, `strncat_common_refuted`, `strncat_common_partial`, `strndup_refuted`, `strndup_partial` | StringProps, EncoderProps | strncat(dst, src, count) and strndup violate the property (no terminator when count is reached): refuted, and proved when the source ends within count. |
| C34 | trimming removes exactly the surrounding white space | proved | `ltrim_spec`, `rtrim_spec`, `trim_spec`, `trim_string_spec` | StringProps | count = SIZE_MAX is not modelled. |
| C35 | crlf2nl normalises line ends | proved | `crlf2nl_buffer_spec`, `crlf2nl_string_spec`, `crlf2nl_idempotent`, `crlf2nl_units` | StringProps |  |
| C36 | numeric parsing returns the mathematical value or saturates | partial | `strtouint_spec`, `strtoint_partial`, `strtoint_refuted` | StringProps | strtoint violates the property for positive values between 2^(b-1) and 2^b-1 (strto8("200") = -56); proved for all others. The overflow flag is internal in the public overloads. |
| C37 | strtouint of negative numerals | partial | `strtouint_negative_refuted`, `strtouint_negative_partial` | StringProps | The code violates the property: the result is one less than the two's complement negation, for every negative numeral in range. |
| C38 | surrogate pair coding | proved | `surrogate_classes`, `surrogate_round_trip`, `surrogate_round_trip_inv` | StringProps |  |
| C39 | character classification and case folding | partial | `character_classes`, `toupper_refuted`, `islbreak_counted_refuted`, `islbreak_counted_partial`, `strlwr_spec`, `isblank_spec`, `ascii_folding` | StringProps | toupper of every lower-case letter is -1, and islbreak(ptr, 1) misses a lone break: refuted. The other classifications are proved. |
| C40 | glyph length in bounds | partial | `glyphlen_utf16_spec`, `glyphlen_utf32_spec`, `glyphrlen_utf16_spec`, `glyphrlen_utf32_refuted`, `glyphrlen_utf32_partial` | StringProps | glyphrlen for UTF-32 is off by one: refuted; proved when the buffer is a single glyph. |
| C41 | SGML entity lookup | proved | `sgml_lookup`, `expansion_first`, `expansion_unknown`, `sgml2uni_spec` | SgmlProps, SgmlText | numeric references: sgml2uni_spec with SgmlSpec.reference |
| C42 | SGML encode/decode round trip | partial | `sgml_round_trip_refuted`, `sgml_round_trip_refuted2`, `sgml_round_trip_partial`, `aliased_iff` | SgmlProps | The claim is false of the code (l + U+0307 becomes &ldot; which decodes to U+22D6; U+02BC becomes an apostrophe; decomposed accents become composed). Proved for every text in which no aliased expansion (explicit finite list) occurs. |
| C43 | SGML buffer variants respect the destination size | partial | `sgml2bufcat_spec`, `str2sgmlbuf_refuted`, `str2sgmlbuf_partial` | SgmlProps | The decoder is proved in full. The encoder writes out of bounds for numeric references (refuted); proved when the text fits, and in all cases when there is no numeric reference. |
| C44 | stream read/write primitives transfer complete values | proved | `data_round_trip`, `read_data_spec`, `read_data_short`, `read_data_skip`, `write_data_spec`, `write_data_skip` | StreamProps | for every stream meeting the source/sink contract of StreamSpec.v; shown for fifo and memory_file separately |
| C45 | memory_file is a random-access byte array | proved | `mf_step_spec`, `mf_run_spec`, `mf_run_exact`, `mf_str_round_trip`, `mf_source`, `mf_never_fails` | MemFileProps | whatever the allocator decides; with memory available the file is exactly the byte array |
| C46 | memory_file reading beyond the end | partial | `mf_read_beyond_partial`, `mf_read_end_partial`, `mf_read_beyond_refuted`, `mf_read_beyond_junk_refuted` | MemFileProps | m_size - m_offset wraps in read(): refuted; typed reads and reading at the end itself are proved |
| C47 | fifo preserves bytes | proved | `fifo_history`, `fifo_read_exact`, `fifo_source`, `fifo_sink`, `fifo_data_round_trip`, `fifo_str_round_trip` | FifoProps |  |
| C48 | buffered stream is transparent | proved | `buffer_source`, `buffer_never_fails`, `buffer_sink`, `buffer_always_writes`, `buffer_flush_out`, `buffer_done_out`, `buffer_life`, `buffer_read_all` | ConvProps | reading side and writing side separately, over any source; for both at once on one file see C90 |
| C49 | limiter stops at the limit | proved | `limiter_source`, `limiter_never_fails`, `limiter_read_all`, `limiter_write_spec`, `limiter_write_total`, `limiter_write_exact` | ConvProps |  |
| C50 | window confines access | proved | `window_read_spec`, `window_reads_spec`, `window_writes_spec` | ConvProps | source long enough to reach the window; the end of the window is C92 |
| C51 | file_window positions are relative to the window | partial | `fw_seek_refuted`, `fw_seek_start_refuted`, `fw_new_refuted`, `fw_seek_partial` | FileConvProps | seek takes source positions while tell and the value seek returns are window positions: refuted; with source positions the rest holds |
| C52 | cache is transparent | partial | `cache_transparent_partial`, `cache_flush_content`, `cache_read_ok`, `cache_write_ok`, `cache_truncate_ok`, `cache_size_ok`, `cache_run_ok` | FileConvProps | every history of calls at positions up to the end of file, in state ok, whose long writes do not end on a block boundary; the excluded cases are refuted in C94-C98 |
| C53 | replicator writes to all | proved | `replicator_sequential`, `replicator_calls_complete`, `replicator_no_deadlock`, `replicator_steps_bounded`, `replicator_destroyed`, `replicator_write` | ReplicatorProps | every interleaving of the caller and one worker per sink; an operation of a sink is one step |
| C54 | async reader/writer deliver the source bytes | proved | `async_reader_delivers`, `async_reader_short_read`, `async_reader_no_race`, `async_writer_prefix`, `async_writer_destroyed`, `async_writer_flush`, `async_writer_all_ok` | AsyncReaderProps, AsyncWriterProps | on top of the ring model, step for step; every source/sink contract, every capacity, every schedule |
| C55 | spinlock mutual exclusion | proved | `spinlock_mutual_exclusion`, `spinlock_acquired_when_free`, `spinlock_try_exchange_fails_when_held`, `spinlock_try_ends`, `spinlock_free_lock_is_taken` | SpinlockProps | any number of threads; relaxed loads may give any value |
| C56 | pool hands an object to one owner | proved | `pool_linearizable`, `pool_conservation`, `pool_one_owner`, `pool_pop` | PoolProps | each node is a linearizable stack; conservation as a permutation |
| C57 | watchdog fires once per missed interval | partial | `watchdog_fires_only_after_timeout`, `watchdog_twice_between_resets_refuted`, `watchdog_destroyed` | WatchdogProps | whole-timeout condition and destruction proved; 'at most once between two resets' refuted (a reset between the decision and the call); see the bound in the separate property |
| C58 | aggregate progress equals the sum of workers | proved | `aggregate_sums`, `aggregate_value` | ProgressProps | modulo 2^64 always, exact when the sums fit |
| C59 | aggregate progress last report | partial | `aggregate_last_report_refuted`, `aggregate_one_worker` | ProgressProps | refuted with two workers; holds with one worker |
| C60 | global progress maps sections | partial | `global_progress_maps`, `global_progress_monotone`, `global_progress_ends`, `global_progress_empty`, `global_progress_overflow_refuted` | ProgressProps | proved when the product fits 64 bits; refuted otherwise |
| C61 | record padding and framing | proved | `padding_least`, `open_spec`, `close_spec`, `write_record_spec`, `ignore_spec`, `find_first`, `find_none_below`, `find_none_end`, `find_total`, `read_id_spec`, `read_record_spec` | IdrecProps, OpenProps, HtmlDocProps | over any ordinary file (plain_file contract of FileConvSpec, array_file is an instance); identifier and size fields of any width; the std::iostream overloads and the operator<< over a plain stream (temp memory file) are not modelled |
| C62 | uuid text round trip | partial | `strtouuid_documented`, `uuidtostr_documented`, `uuid_round_trip`, `strtouuid_accepts_partial`, `strtouuid_rejects_refuted`, `strtouuid_safe_partial`, `strtouuid_safe_refuted`, `uuidtostr_wide_refuted` | UuidProps | Round trip and acceptance of the documented form proved for all uuids. Rejection of other texts is false of the code (line 149 has && for //; groups may be short, signed or missing): refuted, with a theorem saying exactly what shape an accepted text has. Reads past the end of the text: refuted, with a theorem for terminated strings. The wchar_t formatter is wrong (extra NULL argument): refuted. |
| C63 | parser matches stay inside the text | proved | `noop_spec`, `bol_spec`, `eol_spec`, `any_cu_spec`, `cu_spec`, `space_cu_spec`, `punct_cu_spec`, `space_or_punct_cu_spec`, `cu_set_spec`, `string_spec`, `string_exact`, `sgml_any_cp_spec`, `iterations_spec`, `sequence_spec`, `seq_is_chain`, `branch_spec`, `branch_is_first`, `permutation_spec`, `permutation_complete`, `search_spec`, `string_branch_spec`, `vis_is_text` | ParserProps, ParserPerm, ParserRef | over any element parsers meeting the element contract (every basic test and combinator does, so trees of them do); locale facets are parameters; parsers shared between two holders are separate objects in the model; the sgml_cp/sgml_string variants are not modelled here |
| C64 | number parsers compute the value | proved | `integer_spec`, `integer_fail_zero`, `integer_units`, `integer10_value`, `integer16_value`, `integer10ts_spec`, `integer10ts_value` | ParserNumProps, ParserInt, ParserTs | integer_spec over any digit parsers that consume something; the others at the text level. After a failed integer10ts match digit_count is not reset (the model shows it; not claimed). |
| C65 | ipv4 parser value | proved | `ipv4_spec`, `ipv4_text` | ParserIp4, ParserIpEx | ipv4_spec: over any ten well-behaved digit parsers and any separator parser; ipv4_text: over plain '0'..'9' and '.'. Example ex_ipv4 shows '010.0.255.256' matched up to '25'. |
| C66 | IBAN parser and its check | proved | `iban_spec`, `iban_plain`, `mod97_spec`, `iban_countries` | ParserRef, ParserRefEx, ParserRefNum, IbanTable | The space parser must consume something when it matches: otherwise the code loops for ever. |
| C67 | charset names | proved | `charset_from_name_spec`, `charset_case_insensitive` | CharsetProps |  |
| C68 | base64_writer reports bytes taken on failure | partial | `base64_writer_failed_count_refuted` | Base64Props | The code violates the property: write returns length - i instead of i. |
| C69 | hex_dec signals the end of input | partial | `hex_is_last_refuted`, `hex_is_last_partial` | HexProps | The code violates the property when ignored characters follow the final pair. |
| C70 | SGML encoder output is valid 7-bit SGML | proved | `str2sgml_valid` | SgmlProps |  |
| C71 | SGML encoder protects the characters it is asked to protect | proved | `str2sgml_flagged` | SgmlProps |  |
| C72 | SGML decoder index mapping | proved | `sgml2strcat_map` | SgmlProps |  |
| C73 | SGML decoder and checker | proved | `sgml2strcat_spec`, `segmented_src`, `segmented_unique`, `sgmlerr_spec` | SgmlProps |  |
| C74 | read_array counts whole elements | partial | `read_array_count_partial`, `read_array_count_ceil`, `read_array_count_refuted`, `read_data_short_value_refuted` | StreamProps | the code counts an element of which only a part was read (rounds up): refuted in general, proved when the bytes read are a multiple of the element size, and the exact (rounded-up) count is proved for all |
| C75 | read_remainder returns everything up to the limit | proved | `read_remainder_spec` | StreamProps |  |
| C76 | skip advances by the amount | partial | `skip_spec`, `skip_short_partial`, `skip_short_refuted` | StreamProps, ParserPeg | skipping within the stream proved; skipping beyond the end throws below 16 bytes (refuted), leaves eof otherwise (proved) |
| C77 | readln_and_attach reads one line | proved | `readln_spec` | StreamProps | 8-bit characters |
| C78 | length-prefixed strings round trip | proved | `str_round_trip`, `read_str_spec`, `write_str_spec` | StreamProps |  |
| C79 | write_byte repeats the byte | proved | `write_byte_spec` | StreamProps |  |
| C80 | vectors round trip | partial | `write_vector_partial`, `read_vector_refuted` | StreamProps | operator>> has no return statement after its loop: undefined behaviour, so the round trip is refuted; the bytes written are proved |
| C81 | write_stream copies the stream | partial | `write_stream_partial`, `write_stream_refuted` | StreamProps | when both streams work the copy is proved; a failure of the sink is lost (refuted) |
| C82 | memory_file: writing beyond the end | partial | `mf_gap_refuted`, `mf_run_spec` | MemFileProps | the gap is indeterminate memory: refuted; without a gap the content is exactly what was written |
| C83 | memory_file::truncate | partial | `mf_truncate_partial`, `mf_truncate_refuted` | MemFileProps | within the file proved; beyond the capacity of a caller-provided buffer the size exceeds the buffer: refuted |
| C84 | memory_file: incomplete string | partial | `mf_read_str_refuted`, `mf_step_spec` | MemFileProps | the variable keeps its old value: refuted; eof is reported (mf_step_spec) |
| C85 | memory_file set/get | partial | `mf_set_get_partial`, `mf_set_last_refuted` | MemFileProps | proved without assertions; the debug assertion rejects the last element (refuted) |
| C86 | memory_file copies | partial | `mf_assign_spec`, `mf_copy_partial`, `mf_copy_state_refuted`, `mf_assign_fail_refuted` | MemFileProps | content and position proved; the copy constructor loses the state, failed assignment leaves a null buffer (refuted) |
| C87 | memory_file::reserve | partial | `mf_reserve_partial`, `mf_reserve_refuted` | MemFileProps | proved below 2^63 bytes; the size computation wraps above (refuted) |
| C88 | memory_file::write_stream | proved | `mf_write_stream_spec` | MemFileProps | amounts below 2^62 or SIZE_MAX |
| C89 | byte-order mark round trip | partial | `mf_read_charset_spec`, `mf_write_charset_spec`, `mf_charset_partial`, `mf_charset_refuted` | MemFileProps | proved except for UTF-16 text starting with U+0000, which is taken for UTF-32 (refuted) |
| C90 | buffer over a file | partial | `buffer_mixed_refuted`, `buffer_mixed_partial` | ConvProps | read-ahead moves the file: refuted; a buffer only written to is right |
| C91 | limiter write in state ok is complete | partial | `limiter_short_refuted`, `limiter_short_partial` | ConvProps | a write cut at the limit leaves state ok: refuted; within the limit proved |
| C92 | end of a window | partial | `window_end_refuted`, `window_end_partial` | ConvProps | reading past the window throws when the source is short, and consumes source bytes otherwise: refuted |
| C93 | count returned by a window write | partial | `window_count_refuted`, `window_count_partial` | ConvProps | bytes after the window are counted although earlier ones were not written: refuted; data ending inside the window proved |
| C94 | cache shows what was written | partial | `cache_stale_refuted`, `cache_stale_write_refuted`, `cache_write_ok` | FileConvProps | a long write over the cached block that ends on a block boundary leaves the old block in the cache: refuted; otherwise proved |
| C95 | cache gap | partial | `cache_gap_refuted`, `cache_transparent_partial` | FileConvProps | uninitialised memory is written to the file: refuted; without gaps proved |
| C96 | reading does not change the size | partial | `cache_size_refuted`, `cache_size_ok` | FileConvProps | loading a block past the end makes size() report its start: refuted; inside the file proved |
| C97 | null read through a cache | partial | `cache_null_read_refuted`, `cache_read_ok` | FileConvProps | eof is reported: refuted; reads of 1 or more bytes are right |
| C98 | write after eof through a cache | partial | `cache_after_eof_refuted`, `cache_write_ok` | FileConvProps | a write of several blocks tests the cache's own old state: refuted; from state ok proved |
| C99 | file_window confinement | partial | `fw_skip_refuted`, `fw_read_confined`, `fw_write_confined` | FileConvProps | skip moves the source only: refuted; reads and writes alone are confined |
| C100 | async_writer: ok means the source may still take it | partial | `async_writer_ok_after_failure_refuted`, `async_writer_prefix`, `async_writer_destroyed` | AsyncWriterProps | refuted as stated (a write begun after the worker has given up reports ok); delivery holds while the source has not failed |
| C101 | async_writer: one thread at a time uses the source | partial | `async_writer_flush_race_refuted`, `async_reader_no_race` | AsyncWriterProps, AsyncReaderProps | refuted for async_writer::flush; the reader's counterpart is proved |
| C102 | async converters and replicator never hang | proved | `async_reader_no_deadlock`, `async_reader_steps_bounded`, `async_writer_no_deadlock`, `async_writer_steps_bounded`, `replicator_no_deadlock`, `replicator_steps_bounded` | AsyncReaderProps, AsyncWriterProps, ReplicatorProps | progress without spurious wake-ups plus a decreasing measure |
| C103 | spinlock publishes what was done under it | proved | `spinlock_no_lost_update` | SpinlockProps | release/acquire views |
| C104 | pool::clear removes what was there | proved | `pool_clear`, `pool_no_deadlock`, `pool_steps_bounded` | PoolProps |  |
| C105 | watchdog fires when left alone | proved | `watchdog_fires`, `watchdog_destructor_progress`, `watchdog_destructor_bounded` | WatchdogProps | firing: a path of time steps and steps of running threads exists from every such state (the thread is deterministic) |
| C106 | watchdog callbacks are bounded by resets | proved | `watchdog_calls_bounded_by_resets` | WatchdogProps |  |
| C107 | lazy_progress spaces its reports | proved | `lazy_reports_spaced`, `lazy_ends_reported`, `lazy_eventually_reported` | ProgressProps |  |
| C108 | progress_switcher restores the indicator | proved | `switcher_restores`, `switcher_reports_to_previous` | ProgressProps |  |
| C109 | aggregate_progress calls the host from one thread at a time | partial | `aggregate_host_concurrency_refuted`, `aggregate_detached`, `aggregate_exclusive` | ProgressProps | concurrent calls refuted; the rest proved |
| C110 | records of every size the header can hold | partial | `ignore_spec`, `ignore_wraps_refuted` | IdrecProps | true when data and padding together fit the size field (ignore_spec, find_first, read_record_spec); refuted otherwise: size += padding wraps in T_size (ignore_wraps_refuted) |
| C111 | composite numeral parsers recognise their grammar | partial | `star_unique`, `fraction_spec`, `score_spec`, `signed_numeral_spec`, `mixed_numeral_spec`, `monetary_numeral_spec`, `scientific_numeral_spec`, `monetary_null_sign_refuted` | ParserPeg, ParserPeg2 | Proved for all six classes; for scientific_numeral the intervals of the sign, integer and decimal parts are given, those of the exponent parts are in the lemma exp_spec only, and its double value is not modelled. The last clause is false of the code: monetary_numeral dereferences a null sign (monetary_null_sign_refuted), so monetary_numeral_spec asks for all three signs. |
| C112 | Roman numeral parser | proved | `roman_spec`, `roman_text`, `numeral_roman` | RomanProps, RomanText | what counts as a numeral is in RomanSpec.v (roman), together with its value and the usual numeral of a number; the parser also takes unusual rows such as IXI (10), shown by roman_odd |
| C113 | ipv6 parser components and value | partial | `ipv6_spec`, `ipv6_plain_spec_partial`, `ipv6_value_refuted` | ParserIp6, ParserIpEx | Match, components, scope id and clearing are proved. The value part is false of the code and refuted: basic_ipv6_address never stores the group numbers (parser.hpp 2708-2709), so all eight words are always zero. A separator behind the last group of a shortened form is consumed. |
| C114 | creditor reference parser and its check | partial | `reference_spec_partial`, `reference_plain_partial`, `reference_overrun_refuted` | ParserRef2, ParserRefEx | All parts are proved for references with at most 19 letters. With 20 or 21 letters the code writes beyond T normalized[47] (parser.hpp 5004): proved to be undefined behaviour, so the claim as stated is refuted. |
| C115 | HTML escaping is safe and reversible | proved | `escape_spec`, `escape_safe`, `escape_decodes`, `escape_min_safe`, `escape_min_decodes` | HtmlEscProps, JsonProps | decoding by the model of sgml2strcat (SgmlModel) |
| C116 | URL unescaping is form decoding | proved | `url_unescape_spec` | HtmlEscProps | the texts cut inside of an escape are C120 |
| C117 | URL escaping is safe and reversible | proved | `url_escape_safe`, `url_round_trip` | HtmlEscProps |  |
| C118 | CSS unescaping reads a text as CSS does | proved | `css_unescape_spec`, `css_reads_total` | HtmlCssProps | the reading is the relation css_reads of HtmlEscSpec.v |
| C119 | CSS escaping is safe and reversible | proved | `css_round_trip`, `css_escape_safe` | HtmlCssProps |  |
| C120 | Unescaping stays within its limit and ends | partial | `url_unescape_overread_any`, `url_unescape_overread_refuted`, `css_unescape_endless_refuted`, `css_unescape_overread_refuted`, `url_unescape_spec`, `css_unescape_spec` | HtmlEscProps, HtmlCssProps | refuted: url_unescape reads behind the limit for exactly the texts that are cut inside of a percent escape (html.hpp:250-259); css_unescape never returns for a counted text that ends in a lone backslash (no branch advances i, html.hpp:399) and runs over the terminator of a zero-terminated one.  The positive part (all other texts) is in url_unescape_spec and css_unescape_spec |
| C121 | zlib_writer sends exactly the compressed data | proved | `zlib_write_spec`, `zlib_writer_stream` | ZlibProps | zlib is a parameter that keeps zlib.h's promises (ZlibSpec.deflater); toy_deflater and zlib_ex show that they can be met. Partial correctness: the calls are assumed to return (zlib could fill the block forever). |
| C122 | zlib_reader returns the decompressed data | proved | `zlib_read_spec`, `zlib_round_trip`, `zlib_reader_new` | ZlibProps | zlib's promises about inflate are ZlibSpec.inflates; toy_inflates shows that they can be met. The reader terminates. |
| C123 | Data behind the compressed stream does not stop zlib_reader | partial | `zlib_reader_trailing_refuted` | ZlibProps | False of the code: do_read does not look for Z_STREAM_END, so with data behind the stream it calls inflate forever (proved for every stream and every zlib that answers Z_STREAM_END without doing anything, as zlib does). |
| C124 | stream_hasher is transparent and hashes what went through | proved | `hasher_spec`, `hasher_transparent`, `hasher_digest`, `hasher_digest_md5`, `hasher_digest_sha1` | ZlibProps |  |
| C125 | OS streams are streams | proved | `sys_read_total`, `sys_write_total`, `sys_is_source`, `sys_is_sink` | SysProps | The descriptor is a parameter with POSIX's promises (SysSpec.os_source, os_sink); POSIX code path. Composes with every theorem about a source or a sink. |
| C126 | file is an ordinary file | proved | `file_plain`, `toy_posix` | SysProps | Regular file without I/O errors and without a size limit (SysSpec.posix_file); toy_posix shows that the promises can be kept. |
| C127 | Seeks and queries of a file | proved | `file_seek`, `file_queries_keep` | SysProps |  |
| C128 | Locking reports refusal | partial | `unlock_reports_partial`, `lock_reports_refuted` | SysProps | True of unlock; false of lock, which overwrites the failure with ok (stream.hpp:2886): proved for every descriptor that refuses. |
| C129 | diag_file shows one file and checks the others | proved | `diag_file_spec`, `diag_file_run` | SysProps |  |
| C130 | diag_file without files | partial | `diag_empty_partial`, `diag_empty_refuted` | SysProps | False of lock, unlock and truncate, which use m_files[0] of an empty vector. |
| C131 | cached_file is transparent | partial | `cached_file_partial` | SysProps | Composition of C126 with cache_transparent_partial; the histories excluded in C52 (refuted in C94-C98) are excluded here. |
| C132 | JSON strings are recognised and decoded as RFC 8259 has them | proved | `json_rfc`, `json_generic`, `json_example` | JsonRfc, JsonProps | the parser as one builds it for RFC 8259 (the grammar parsers it holds are parameters of the class); json_generic is for any held parsers. |
| C133 | \u escapes in narrow JSON strings become UTF-8 | proved | `json_code_utf8`, `json_code_wide`, `json_narrow_value` | JsonRfc |  |
| C134 | Narrow JSON string values are UTF-8 | partial | `json_utf8_partial`, `json_surrogates_refuted` | JsonRfc | Refuted as stated: a surrogate pair gives six bytes (CESU-8) instead of the four of UTF-8. Proved for strings without surrogate escapes. |
| C135 | HTML element names are recognised in any case | proved | `element_code_narrow`, `element_code_wide`, `element_code_own` | HtmlElemProps |  |
| C136 | Wide HTML element names with other characters are unknown | partial | `element_code_wide`, `element_code_wide_refuted` | HtmlElemProps | False of the code: a folded wide character is cast to char (html.hpp:1478), so U+0161 is taken for a. Proved for ASCII names. |
| C137 | HTML element traits follow HTML 4.01 | proved | `span_html401`, `optional_no_nesting` | HtmlElemProps |  |
| C138 | Which attributes hold URIs or text to localise | proved | `is_uri_html401`, `is_uri_exact`, `is_localizable_exact` | HtmlElemProps |  |
| C139 | A recognised HTML tag lies inside the text and its parts lie inside the tag | proved | `html_tag_within`, `html_tag_name` | HtmlTagProps |  |
| C140 | Parsing an HTML tag ends | proved | `html_tag_returns`, `html_tag_returns_closed`, `html_tag_returns_ends` | HtmlTagProps, HtmlTagSharp | also when the tag has a proper end: the next > with no slash directly in front, no -- and no quoted value before it |
| C141 | Parsing an HTML tag ends on every text | partial | `html_end_tag_never_ends`, `html_declaration_never_ends`, `html_tag_returns` | HtmlTagProps | False of the code: </a/> and <!x/> make the attribute loop add empty attributes forever (parser.hpp:8160-8249). Refutation proved for every name; proved to end otherwise. |
| C142 | Well-written HTML tags are recognised exactly | proved | `html_start_recognised`, `html_end_recognised`, `html_comment_recognised`, `html_instruction_recognised` | HtmlTagProps | Declarations are covered by C139/C140 only. |
| C143 | Conditional sections are recognised exactly | proved | `html_condition_end_iff`, `html_condition_recognised`, `html_condition_none` | HtmlTagMore |  |
| C144 | The sequences of an HTML document lie one after the other in its source | proved | `document_sequences` | HtmlDocMain |  |
| C145 | The elements of an HTML document nest | proved | `document_nested` | HtmlDocMain |  |
| C146 | The sequences of an HTML document together are its source | proved | `document_complete` | HtmlDocMore |  |
| C147 | Parsing an HTML document ends | proved | `document_append_returns`, `document_assign_returns` | HtmlDocMore | The locale must not take > for white space. |
| C148 | An HTML document may be parsed in parts | proved | `document_chunks` | HtmlDocChunk |  |
| C149 | Assigning an HTML document forgets the old one | proved | `clear_forgets` | HtmlDocChunk | holds by construction of the model: assign starts with clear, which resets every member (html.hpp:1636-1652) |
| C150 | End tags end the element of the same name | proved | `end_tag_name` | HtmlDocChunk |  |
| C151 | No text of an HTML document is lost | partial | `document_complete_refuted`, `document_complete` | HtmlDocRef, HtmlDocMore | False of the code: text in front of a conditional section is in no sequence, and a CDATA section leaves a valid condition open whose end swallows a later ]]>. Proved without <![ (C146). |
| C152 | End tags of unknown elements end the element of the same name | partial | `end_tag_name_refuted`, `end_tag_name` | HtmlDocRef, HtmlDocChunk | False of the code: all unknown elements have the same code, so the comparison of names is never reached (html.hpp:1811-1813). Proved for known elements (C150). |
| C153 | Where an HTML document is cut into parts does not matter | partial | `document_chunks_refuted`, `document_chunks` | HtmlDocRef, HtmlDocChunk | False of the code: markup inside an unfinished comment is taken for markup. Proved when the parts agree (C148). |
| C154 | A finalized HTML document may be appended to | partial | `append_after_finalize_refuted`, `document_append_returns` | HtmlDocRef, HtmlDocMore | False of the code: m_is_special_element survives finalize, so append dereferences the null active element. |
| C155 | Conditional sections of an HTML document | proved | `conditional_section` | HtmlDocCond |  |
| C156 | Parameter entities are replaced | proved | `entities_replaced` | HtmlDocCond | For entity names without a semicolon. |
| C157 | What HTML elements may contain is HTML 4.01's content model | proved | `may_contain_html401` | HtmlContent |  |
| C158 | Documents valid by HTML 4.01 nest as HTML 4.01 says | partial | `omitted_tbody_refuted`, `ins_in_p_refuted`, `may_contain_html401` | HtmlContent | False of the code: <tr> ends a table that has no <tbody>, <ins> ends a paragraph (omitted start tags and DTD inclusions are not modelled by may_contain). The content models themselves are exact (C157). |
| C159 | Flushing reports failure | proved | `flush_reports` | SysProps |  |
| C160 | Entities declared in quotation marks | partial | `quoted_entity_refuted`, `entities_replaced` | HtmlDocCond | False of the code: the quotation marks become part of the value, so a quoted IGNORE does not ignore. |
| C161 | Formatting appends the formatted text | proved | `format_narrow`, `format_wide` | FormatProps | char below 1024 characters, wchar_t of any length |
| C162 | Formatting of long texts | partial | `format_narrow_1024`, `format_long_throws`, `format_wide_throws`, `format_any_length_refuted` | FormatProps | refuted: exactly what happens to texts of 1024 characters and to longer ones |
| C163 | CSS comments and comment marks | proved | `css_comment_exact`, `css_cdo_cdc_exact` | CssTokens | if and only if |
| C164 | CSS strings | proved | `css_string_written`, `css_string_sound` | CssTokens |  |
| C165 | Addresses in CSS | proved | `css_uri_quoted`, `css_uri_plain`, `css_import_written`, `css_uri_within`, `css_import_within` | CssTokens |  |
| C166 | CSS escapes in strings and addresses | partial | `css_string_backslash`, `css_uri_escape`, `css_string_refuted`, `css_uri_refuted` | CssTokens | refuted; what happens instead is proved for all such strings and addresses |
| C167 | Tags of tokens | proved | `tag_round_trip` | HtmlTokProps |  |
| C168 | Parse and link rebuild a document | proved | `parse_link` | HtmlTokMain | for all placements of the tokens that keep them apart |
| C169 | Documents nest for the parser | proved | `document_links_nest` | HtmlTokDoc |  |
| C170 | Unescaped documents survive parse and link | proved | `document_rebuilt_same` | HtmlTokDoc |  |
| C171 | Changing the active tokens | proved | `switch_tokens` | HtmlTokMore |  |
| C172 | Inserted tokens | proved | `insert_tokens` | HtmlTokMore |  |
| C173 | Merging lists of tokens | partial | `merge_union_partial`, `merge_adds_nothing` | HtmlTokMore | refuted; merge never adds anything |
| C174 | Every document is rebuilt | partial | `rebuilds_documents_partial` | HtmlTokRef | refuted for the five kinds of documents in the statement; proved for the others except style sheets with arbitrary contents (C168 covers those css_text holds for) |
| C175 | HTML tokens tell what the document is | proved | `tokens_true`, `document_tokens_true` | HtmlTokTruth, HtmlTokTruthRef | style sheets' own tokens: C168 |
| C176 | White space in HTTP | proved | `http_space_spec` | HttpProps | if and only if; likewise below |
| C177 | HTTP tokens | proved | `http_token_spec` | HttpProps |  |
| C178 | HTTP quoted strings and values | proved | `http_quoted_string_spec`, `http_value_spec` | HttpProps |  |
| C179 | HTTP parameters | proved | `http_parameter_spec` | HttpParams |  |
| C180 | HTTP media types | proved | `http_media_range_spec`, `http_media_type_spec` | HttpParams |  |
| C181 | HTTP cookies | proved | `http_cookie_parameter_spec`, `http_cookie_spec` | HttpParams |  |
| C182 | Servers and ports of HTTP addresses | proved | `http_url_server_spec`, `http_url_port_spec` | HttpUrl |  |
| C183 | Paths and parameters of HTTP addresses | partial | `http_url_path_spec`, `http_url_parameter_spec`, `http_url_parameter_reads_end` | HttpUrl, HttpRef | the code reads the unit at the end, so a start in front of the end, and a terminator in front of the end, are needed |
| C184 | HTTP addresses | partial | `http_url_spec`, `http_url_end_beyond` | HttpUrl, HttpRef | for texts with a terminator in front of the end; refuted without |
| C185 | HTTP languages | proved | `http_language_spec` | HttpMsg |  |
| C186 | HTTP weights | proved | `http_weight_spec` | HttpMsg |  |
| C187 | HTTP agents | proved | `http_agent_spec` | HttpMsg |  |
| C188 | HTTP protocols | proved | `http_protocol_spec` | HttpReq |  |
| C189 | HTTP request lines | proved | `http_request_spec` | HttpReq2 | for texts with a terminator in front of the end, as the statement says |
| C190 | HTTP headers | proved | `http_header_spec` | HttpHead |  |
| C191 | Any HTTP media type | proved | `http_any_type_spec` | HttpList |  |
| C192 | Weighted HTTP values | proved | `http_weighted_value_spec` | HttpList |  |
| C193 | Lists of weighted HTTP values | proved | `http_weighted_collection_spec` | HttpList |  |
| C194 | Lists of HTTP values | proved | `http_value_collection_spec` | HttpList |  |
| C195 | The mapping of HTML tokens | partial | `token_mapping_refuted`, `tokens_true` | HtmlTokTruthRef, HtmlTokTruth | refuted; texts and tags themselves are mapped right (C175) |
| C196 | The HTTP parsers and RFC 2616 | partial | `http_space_takes_an_empty_line`, `http_quoted_string_refuses_octets`, `http_parameter_white_space`, `http_url_end_beyond`, `http_url_parameter_reads_end`, `http_url_port_zero`, `http_weight_denominator_zero`, `http_weighted_stale`, `http_agent_stale`, `http_protocol_carries`, `http_protocol_needs_white_space`, `http_list_empty_element`, `http_list_bad_weight`, `http_header_no_name` | HttpRef | refuted; what is accepted instead: C176-C194 |
| C197 | A MIME content type is split where the text says | proved | `mime_type_spec` | Mime |  |
| C198 | The charset of a MIME type is its charset parameter (fails) | partial | `charset_is_parameter_refuted`, `charset_up_to_blank` | MimeRef | refuted; what charset is instead: C197 |
| C199 | WAV structures are stored as the format says | proved | `header_written`, `format_written`, `format_too_long`, `content_written`, `cues_written`, `ltxt_written`, `label_written`, `rec_written` | WavWrite |  |
| C200 | WAV records are read back | proved | `header_rec_read`, `format_rec_read`, `content_rec_read`, `cues_rec_read`, `ltxt_rec_read`, `label_rec_read`, `rec_of_ok` | WavCues, WavWrite |  |
| C201 | The first WAV format record | proved | `read_first_format`, `read_first_none` | WavEx |  |
| C202 | WAV cues are stored as the format says | proved | `cues_ex_written` | WavWrite |  |
| C203 | Reading WAV cues | proved | `read_cues_spec` | WavCues |  |
| C204 | WAV cues survive a round trip | proved | `cues_round_trip` | WavRound |  |
| C205 | WAV cues up to the end of the file (fails) | partial | `read_cues_never`, `read_cues_hangs`, `default_limit_refuted` | WavRead, WavEx | refuted |
| C206 | Finding WAV blocks | partial | `find_first_even_partial`, `find_first_none_partial`, `find_content_finds`, `find_first_odd_refuted` | WavEx | refuted at odd positions; what holds at even ones is proved |
| C207 | Removing WAV cues (fails) | partial | `remove_refuted`, `remove_keeps`, `remove_keeps_all` | WavEx, WavRemove | refuted; what it does instead is proved of every well-formed input |
| C208 | SI references are recognised part by part | proved | `si_reference_match` | SiProps | For every text, well-formed object and parser of spaces (toup 0 = 0); SiEx has concrete references. |
| C209 | SI references with checks of single parts are valid exactly by the rules of their model | proved | `si_reference_valid` | SiProps | The rules are the table groups of SiSpec; SiEx.ex_si11_ok meets the hypotheses. |
| C210 | SI references with checks over joined parts are valid exactly by the rules of their model | partial | `si_reference_joined_partial`, `si_reference_zero_refuted`, `si_reference_three_refuted`, `si_reference_bad_refuted` | SiProps, SiEx | Refuted as stated: a joined check rejects a reference whose control digit is 0 because the weighted sum is a multiple of 11 (11 is not made 0), and the check of three parts compares with a unit of the second part instead of the last digit of the third, so that it rejects right and accepts wrong references. Proved instead: exactly when is_valid is set, so that except for model 01 with three parts a valid one obeys the model. |
| C211 | Times are hh:mm, hh:mm:ss or hh:mm:ss.mmm, and tell where their parts are | proved | `time_spec`, `time_unique`, `plain_time_spec` | TimeProps, DateEx | For any held parsers that behave like parsers; DateEx instantiates it with plain digits. |
| C212 | Angles are degrees, minutes and seconds, of which some may be missing | proved | `angle_spec` | TimeProps | DateEx.angle_applies shows plain parsers meeting the hypotheses. |
| C213 | Dates are recognised in the first of the allowed formats that fits | proved | `date_spec`, `date_unique`, `date_valid_spec`, `plain_date_spec` | DateProps, DateEx |  |
| C214 | A matched date exists in the calendar | partial | `date_exists_refuted`, `day_exists_refuted`, `date_exists_partial` | DateEx | Refuted as stated: 29 February is accepted in every year, and a number of 18446744073709551615 counts as first day or month. Proved: when no number read is SIZE_MAX, the day exists in that month in some year. |
| C215 | DNS names are labels between separators | proved | `dns_name_spec`, `dns_char_spec`, `plain_dns_spec` | DnsProps, UrlEx | For any held parsers; plain_dns_spec shows plain characters meeting the hypotheses. |
| C216 | URL paths split into path, query and bookmark | proved | `url_path_spec`, `plain_path_spec` | DnsProps, UrlEx |  |
| C217 | URLs are decomposed into their parts | proved | `url_spec`, `url_unique`, `url_applies` | UrlProps, UrlEx | In a ftp URL the at behind a lone user name is looked for where the user name starts, see C219. |
| C218 | E-mail addresses are user name, at, host | proved | `email_spec`, `email_unique` | UrlProps |  |
| C219 | A user name without a password is recognised in ftp URLs | partial | `ftp_user_refuted`, `ftp_user_partial` | UrlEx | Refuted as stated: in ftp://u@h the host is u and the path @h. Proved: what is matched instead. |
| C220 | Emoticons are recognised | proved | `emoticon_spec`, `emo_unique` | EmoProps | UrlEx.emo_applies shows plain parsers meeting the hypotheses. |
| C221 | The mouth of an emoticon tells which one it is | partial | `emoticon_hit_refuted` | EmoProps | Refuted as stated: the match that ends the run of mouths overwrites hit_offset, so it is -1 or that of another mouth. |
| C222 | User names, passwords and paths of URLs take the characters of RFC 3986 | partial | `user_char_refuted`, `url_chars_partial` | UrlEx | Refuted as stated: user names lack the parentheses. Proved: exactly these two are missing, and passwords and paths are as stated. |
| C223 | Phone numbers are recognised and normalised | proved | `phone_spec`, `phone_unique`, `phone_element`, `plain_phone_spec` | PhoneProps, PhoneEx | For any held parsers where no space is a right parenthesis; plain_phone_spec shows plain characters meeting the hypotheses. |
| C224 | Phone numbers have a well-formed shape | proved | `phone_shape`, `phone_value`, `plain_phone_spec` | PhoneEx |  |
| C225 | Phone numbers may be parsed without parentheses | partial | `phone_null_refuted`, `phone_null_partial` | PhoneEx | Refuted as stated: do_match calls invalidate of both parsers of parentheses without a test, so every match without them is undefined. |
| C226 | Chemical formulas are recognised | proved | `formula_spec`, `formula_unique`, `plain_chem_spec` | ChemProps |  |
| C227 | An SGML code point | partial | `next_sgml_cp_spec`, `code_point_unique`, `sgml_cp_spec`, `cp_fn_iff`, `same_cp_iff`, `sgml_cp_chr_spec`, `sgml_numeric_refuted` | SgmlCpProps | Refuted as stated where wchar_t has 32 bits: next_sgml_cp returns a pointer to its local buf32 for a numeric reference. Proved for every text on Windows and for every text without numeric references elsewhere. |
| C228 | SGML classes | partial | `sgml_class_spec`, `cp_fn_iff`, `space_text_iff`, `punct_text_iff`, `space_or_punct_text_iff`, `sgml_empty_refuted` | SgmlCpProps | Refuted as stated for &#0;. Proved: the match is exactly that all characters of the text are in the class, with the restriction of C227. |
| C229 | SGML sets | partial | `sgml_cp_set_spec`, `in_set_iff`, `in_set_one`, `in_set_empty`, `sgml_empty_refuted` | SgmlCpProps | Refuted as stated for &#0;. Proved: exact, with the restriction of C227. |
| C230 | SGML strings | partial | `sgml_string_spec`, `sgml_string_decodes`, `spells_fun` | SgmlCpProps | With the restriction of C227 (no numeric reference in the text where wchar_t has 32 bits); sgml_string_decodes is for 32 bits. |
| C231 | SGML characters of names and URLs | partial | `sgml_url_char_spec`, `sgml_dns_domain_char_spec`, `url_text_one`, `scope_id_text_iff`, `sgml_dns_name_spec` | SgmlCpProps | With the restriction of C227. |
| C232 | Minisign line parsers | proved | `untrusted_comment_spec`, `untrusted_is`, `line_break_spec` | MinisignProps |  |
| C233 | Minisign signature | proved | `parse_minisig_spec`, `sig_line_fun`, `minisig_data_spec` | MinisignProps | For any source of StreamSpec that never fails (array_source, C45, is one; MinisignProps.sample_minisig runs it). |
| C234 | Minisign files as written | partial | `minisig_file`, `minisig_unterminated_refuted` | MinisignProps | Refuted as stated when the line of the signature is the last and has no line end. Proved with the line end. |
| C235 | Order of language names | proved | `stricmp_less_order` | LangidProps |  |
| C236 | Language code of a name | proved | `langid_from_spec`, `maps_exist` | LangidProps | The tables are generated from the header by tools/gen_langid.py; std::map is any search tree with the entries of the insertions in order. |
| C237 | Name of a language code | proved | `rfc1766_from_spec`, `codes_unique`, `maps_exist` | LangidProps |  |
| C238 | Language names: name to code and back | proved | `name_round_trip`, `tables_inverse` | LangidProps |  |
| C239 | Language names: code to name and back | partial | `code_round_trip_refuted`, `code_round_trip_partial` | LangidProps | Refuted as stated for the 34 codes of `shadowed`, whose names are of another entry that comes first. Proved: exactly these, and the code that comes back has the same name. |
| C240 | Parts of a language code | proved | `langid_parts` | LangidProps |  |
| C241 | Descriptors have one owner | proved | `sys_object_owns`, `socket_object_owns` | HandleProps | HandleProps.handle_ex is a history with every operation. |
| C242 | Socket streams close their socket once | proved | `socket_owns` | HandleProps |  |
| C243 | Descriptors have one owner also when system calls fail | partial | `assign_refuted`, `close_refuted`, `move_assign_refuted`, `sys_object_owns` | HandleProps | Refuted as stated for the three calls; a failing dup in a copy constructor and a failing close in a destructor do no harm (C241). |
| C244 | Charset conversion appends the converted text | proved | `strcat_spec` | StringProps, EncoderProps | For any codec that writes whole units and at most a buffer for one character; u7_codec shows one, EncoderProps.encoder_ex runs it over more than one buffer. |
| C245 | A text may be converted in parts | proved | `strcat_parts` | EncoderProps | u7_stable shows that a codec with shift states meets the hypothesis. |
| C246 | Charset conversion gives the whole text | partial | `utf7_refuted`, `complete_partial`, `u7_alphabet` | EncoderProps | Refuted as stated: utf7_refuted. Proved: where the codec holds nothing back at the end. |
| C247 | Conversions are independent | partial | `independent_refuted`, `independent_partial` | EncoderProps | Refuted as stated: independent_refuted. Proved: where the first conversion holds nothing back (u7_holds_back: UTF-7 meets the hypothesis). |
| C248 | What happens to the descriptors of an object | proved | `operations` | HandleProps | HandleProps.handle_ex is a history with every operation. |
| C249 | Opening a file does what the mode says | proved | `open_spec` | IdrecProps, OpenProps | On Linux. OpenProps.open_ex opens, creates and is refused. |
| C250 | Exclusive access is exclusive | partial | `exclusive_refuted` | OpenProps | Refuted as stated. |
| C251 | A cached file can always read what it caches | proved | `cached_mode_spec` | OpenProps |  |
| C252 | File times are read and set one by one | proved | `set_time_other`, `time_reads` | OpenProps |  |
| C253 | A file time that was set is read back | partial | `mtime_round_trip_refuted`, `time_round_trip_partial` | OpenProps | Refuted as stated. Proved: the time read back is 10^9 times the one set, right for 0 only (libstdc++, a file system that keeps every second). |
| C254 | Socket streams transfer every byte once | proved | `socket_stream` | OpenProps | toy_conn_ok shows a connection that meets the hypotheses. |
| C255 | Moving a socket stream moves its state | partial | `socket_move_state_refuted`, `socket_move_state_partial` | OpenProps | Refuted as stated. Proved: the socket is moved, and the state where it is ok or equal. |
| C256 | strcpy from UTF-16 to UTF-32 decodes the text | proved | `strcpy_16_32_spec`, `strcpy_16_32_round_trip` | MiscProps |  |
| C257 | strcoll orders texts as the locale does | proved | `strcoll_spec` | MiscProps | For any comparison of the locale. |
| C258 | strncoll orders texts up to terminators or limits | partial | `strncoll_refuted`, `strncoll_partial` | MiscProps | Refuted as stated: the limits are taken as the lengths. Proved: without terminators within the limits. |
| C259 | strtod reads the text up to its terminator or limit | proved | `strtod_spec` | MiscProps | For any conversion of the C library. |
| C260 | strcatftime and strftime give the formatted text, whatever its length | proved | `strcatftime_spec` | MiscProps | For any formatted text of the C library. |
| C261 | strftime gives an empty text for an empty result | partial | `strftime_empty_refuted` | MiscProps | Refuted as stated: the string grows until resize throws. |
| C262 | get_ptr neither leaks nor deletes twice | partial | `get_ptr_refuted`, `get_ptr_partial` | MiscProps | Refuted as stated: an owned object the callee overwrites is never deleted. Proved: where the owner is empty, or the callee keeps or deletes the object it finds. |
| C263 | A cached file can be opened again | proved | `cached_reopen`, `cached_close_spec`, `cached_open_keeps`, `cached_close_fails`, `cached_close_keeps` | CachedProps | For any file that is plain (StreamSpec), histories as in C52 (tame). |
| C264 | Destroying a cached file reports what could not be written | partial | `cached_destroy_refuted`, `cached_destroy_partial` | CachedProps | Refuted as stated: after the exception of ~cached_file the base's destructor uses the file that is destroyed already. Proved: it is undefined only where the flush fails, and the flush keeps what it cannot write. |
| C265 | lock and unlock of a file_window concern bytes of the window | partial | `fw_lock_refuted`, `fw_lock_partial` | CachedProps | Refuted as stated for a window that does not start at 0. Proved: exact for a window from 0. |
| C266 | A lock taken through a cache protects what goes through the cache | partial | `cache_lock_refuted`, `cache_lock_partial`, `cache_lock_fresh_partial`, `cache_unlock_partial` | CachedProps | Refuted as stated: the cache is neither discarded by lock nor written by unlock. Proved: the same section of the file is locked; exact where nothing is cached, and where all is flushed. |
| C267 | buffered_sys writes everything before it closes | partial | `buffered_sys_spec`, `buffered_sys_refuted` | CachedProps | Refuted as stated: what cannot be written at the end is lost without notice. Proved: all is written before the close if the handle writes. |
| C268 | scoped_executor runs done whenever the scope is left | partial | `scoped_refuted`, `scoped_partial` | CachedProps | Refuted as stated: done is a reference, and both arguments must be rvalues, so that a lambda written in the call is gone at the end of the declaration; and done does not run where init throws. Proved: with functions that outlive the scope. |
| C269 | A sanitizing_allocator gives back no data | proved | `sanitized`, `deallocate_spec` | CachedProps | On the abstract machine: that a compiler may drop the memset as a dead store is not modelled (line 110 has no volatile). |
| C270 | to_rfc822 gives the RFC 822 date | partial | `rfc822_spec`, `rfc822_injective`, `rfc822_year_refuted` | RfcProps | Refuted as stated before the year 1000. Proved for the years 1000 to 9999. |
| C271 | to_str of a time gives the formatted text, whatever its length | partial | `to_str_refuted`, `to_str_partial` | RfcProps | Refuted as stated: array new, plain delete. Proved: exact for nonempty texts that fit the first buffer. |
| C272 | platform_from_name knows the platform of a name | proved | `platform_spec`, `platform_unique` | PlatformProps | For any tree with the entries of the one built by insertion, as libstdc++'s rotations keep them. |
| C273 | os_platform is the platform of the operating system | partial | `os_platform_refuted`, `os_platform_arm_refuted`, `os_platform_partial` | PlatformProps | Refuted as stated: i486 to i686 and armv* are unknown. Proved: right on x86-64, little-endian 64-bit ARM and the 80386; what is not unknown is right. |
| C274 | A charset conversion is closed once | partial | `encoder_refuted`, `encoder_partial` | PosixProps | Refuted as stated: from every history, a copy makes the second destruction undefined, and an assignment also leaks. Proved: every history without copies keeps one owner for each conversion. |
| C275 | create_locale gives the locale of the name | partial | `create_locale_refuted`, `create_locale_glibc_refuted`, `locale_utf8_refuted`, `create_locale_partial`, `newlocale_null` | PosixProps | Refuted as stated: undefined by POSIX, and with glibc in all but one case. Proved: that case; and that a null base would do for LC_ALL. |
| C276 | exists says whether a name is there | partial | `exists_refuted`, `exists_partial` | PosixProps | Refuted as stated for links to nothing. Proved: what it says of every name, exact where the name is no link. |
| C277 | readonly says whether nobody may write | proved | `readonly_spec` | PosixProps | Linux's limit of 40 links; the mode bits only, not access control lists or the superuser. |
