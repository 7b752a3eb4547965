# Formal model of Amebis/stdex in Rocq (Coq 8.16.1)

The table at the end of this file, the list of assumptions and MANIFEST.json are generated (tools/gen_*.py) from
properties.jsonl, tools/manifest_data.py and the theories.

## Approach

* Every function of the C++ code that a property is about is transcribed to a total Gallina
  function in `rocq/theories/*Model.v`, with a comment citing the file and lines in /repo.
  Loops become structural recursion over the data they consume, or fuel recursion. Running out of
  fuel is the outcome `UB`, never a success: a theorem that says the result is `Ret` for every
  fuel from some bound on proves termination, one that says it is `UB` for every fuel proves that
  the loop does not end.
* Machine integers are `Z` with explicit wrap (`u8`, `u16`, `u32`, `u64`, `i32`, `i64`, in `Base.v`).
  Undefined behaviour (reads and writes outside of buffers, null pointers, signed overflow, a missing
  return) and C++ exceptions are explicit outcomes (`UB`, `Throw`).
* A pointer to text is the list of the cells that may be read from it; reading behind them is `UB`, so the
  theorems about functions that take a count and a terminator also say that they stay inside.
* Object histories are lists of operations run by a fold, or an inductive `reach`; concurrency is an
  interleaving transition system whose atomic steps are the critical sections and atomic operations of the code,
  with explicit wait sets for condition variables.
* What the code takes from outside (other streams, the operating system, zlib, locale facets, memory
  addresses, the printf of the C library, the clock) is a parameter: theorems hold for every one of them, or for
  every one that behaves as the hypotheses say.
* Specifications are separate, small definitions in `*Spec.v` (or at the top of the `*Props.v`
  file) that do not use the model's helpers.
* `*Props.v` files hold the final theorems and their non-vacuity examples, followed by
  `Print Assumptions`.
* Where the code violates the property a user would rely on, a theorem named `*_refuted` (or a conjunct of the
  `*_partial` theorem) proves that a concrete, reachable case violates it, and `_partial` theorems prove what
  remains true. Such properties have the status "partial" in MANIFEST.json: they cannot be proved of this code.

## How each kind of property is proved

| area | modelled | proof |
|---|---|---|
| vector_queue (C01-C03) | array, head and count with size_t wrap | refinement to lists over all histories |
| ring (C04-C07) | indices, array, threads, condition variables | inductive invariants of the interleavings; lost wake-ups refuted by schedules |
| base64, hex (C08-C13, C68, C69) | encoder and decoder state machines, reader, writer | induction over chunks against RFC 4648 |
| math, interval, mapping, endian (C14-C20) | all functions | arithmetic, loop invariant of the binary search |
| chrono (C21-C24) | all conversions | arithmetic over quotients |
| hash (C25-C29, C124) | block_hash, crc32, md5, sha1, stream_hasher | chunk induction; equality with independently written RFC 1321, FIPS 180-4 and bitwise CRC |
| string (C30-C40, C161, C162) | comparison, search, copy, trimming, numbers, glyphs, printf wrappers | induction over buffers |
| sgml (C41-C43, C70-C73) | entity table generated from the header, search, both directions, buffers | computation over the table and induction over the text |
| stream (C44-C54, C74-C102, C125-C131, C159) | basic, converters, memory_file, fifo, cache, async, replicator, file, diag_file | refinement to byte sequences; interleavings for the threads |
| spinlock, pool, watchdog, progress (C55-C60, C103-C109) | transition systems, release/acquire views for spinlock | inductive invariants |
| WAV files (C199-C207) | structures over any stream, searches and cue lists over any file as in idrec | induction over the records of the file, sinks and sources as in C81 |
| idrec, uuid, charset names (C61, C62, C67, C110) | functions over streams and text | round trips, computation over tables |
| parser (C63-C66, C111-C114, C132-C134, C139-C143, C163-C166, C208-C232 ...) | basic tests, combinators, numerals, addresses, references, JSON, HTML, CSS | equivalence with declarative grammars |
| html (C115-C120, C135-C138, C144-C160, C167-C174) | escapers, element tables, document, tokens and linking | induction over source and histories, computation over tables generated from the source |
| minisign (C232-C234), langid (C235-C240) | all functions | sources as in C81; strict weak order, search trees of any shape, computation over the tables |
| descriptors of sys_object and socket (C241-C243, C248) | objects, handles, a table of open descriptors that hands out the lowest free one | invariant over all histories |
| opening files, their times, socket streams (C249-C255) | flags, files and descriptors of Linux; recv and send of any connection | by the binary digits of the mode; as basic_sys |
| charset_encoder (C244-C247, C274) | conversion loop over an arbitrary codec | induction over the rounds, against conversion character by character |
| zlib (C121-C123) | reader and writer over an arbitrary zlib | induction over calls |

## Trusted base

* Coq 8.16.1's kernel (`coqc`), including its virtual machine (`vm_compute` is used for finite tables and examples; `native_compute` is not).
* @@ASSUMPTIONS@@
* No axioms, parameters, functors or module types are declared; no flags that weaken the kernel are used; section variables are
  generalised at the end of their sections, so they appear in the statements.
* That the Gallina definitions are what the C++ code does. The comments at the definitions say which lines they
  stand for and what they leave out. The tables (SGML entities, IBAN countries, HTML elements) are generated from the text of
  the headers by scripts in tools/ and were compared with it by count.
* The platform: Linux, 64-bit size_t, 32-bit signed wchar_t, 16-bit char16_t, little endian, release build (assertions are not
  evaluated) unless a property says otherwise.

## What is modelled, header by header

| header | modelled | not modelled |
|---|---|---|
| base64.hpp | base64_enc, base64_dec, base64_writer, base64_reader | |
| chrono.hpp | aosn_date, aosn_timestamp conversions and arithmetic; to_str, to_rfc822 (C270, C271) | the std::chrono clock wrappers, now() |
| endian.hpp | byteswap of all integer sizes | byteswap of float and double (bit casts of the modelled ones) |
| hash.hpp | block_hash, crc32, md5, sha1, stream_hasher | the Windows CryptoAPI part |
| hex.hpp | all | |
| html.hpp | escapers, element tables, document, tokens, parser::parse, parse_css, link, inserted tokens, merge | progress reporting inside of parse, words and spans of user code |
| wav.hpp | all structures, find_first, find_content, read_first, read_cues, remove_cues over any file that behaves like an array (C199-C207); std::sort and bsearch as any functions that sort and find | allocation failures of resize |
| idrec.hpp | record framing over stream::basic_file | the std::iostream overloads (same text) |
| interval.hpp, math.hpp, mapping.hpp | all but the stream operators | |
| langid.hpp | all; std::map as any search tree with the entries in order | |
| minisign.hpp | all | |
| parser.hpp | all classes, see the table of properties; the HTTP parsers (5566-7195) for char | error paths of allocation |
| pool.hpp, ring.hpp, spinlock.hpp, vector_queue.hpp, watchdog.hpp | all | memory orders weaker than the mutex everywhere but in spinlock |
| progress.hpp | lazy, global, timeout, switcher, aggregate | global_progress with floating point |
| sgml.hpp, sgml_unicode.hpp | all conversions, table | |
| stream.hpp | basic, basic_file, converter, replicator, async_reader, async_writer, buffer, limiter, window, file_window, cache, basic_sys, file, diag_file, cached_file, memory_file, fifo; socket (C242, C248, C254, C255), opening and times of files (C249-C253); opening again, locks and destruction of the converters (C263-C267); exists, readonly (C276, C277) | Windows code, SAFEARRAY, SET_FILE_OP_TIMES |
| string.hpp | comparison, search, copy, case, trimming, numbers, glyphs, printf family, collation, strftime family, strtod (C256-C261) | what the C library makes of one conversion or format (a parameter) |
| unicode.hpp | charset_from_name, charset_encoder (C244-C247, C274), see the table for others | iconv itself (a parameter) |
| uuid.hpp | all (non-Windows) | |
| zlib.hpp | zlib_writer, zlib_reader | zlib itself (a parameter) |
| assert, compat, curl, debug, exception, locale, memory, scoped_executor, socket, sys_info, system | only what a property names, as who owns descriptors (system.hpp basic_sys_object, socket.hpp socket: C241-C243, C248; memory.hpp ref_unique_ptr: C262, sanitizing_allocator: C269; scoped_executor.hpp: C268; sys_info.hpp platform_from_name, os_platform: C272, C273; locale.hpp create_locale: C275) | the rest: thin wrappers of the operating system or tables |

## Testing the theorems against wrong programs

seeded/LOG.jsonl has one line per edit of a model definition: what was edited, the claim it breaks and which theorems stopped proving.
Where an edit survived, the theorem was tightened and the line says which.

## Properties and their theorems

@@TABLE@@
