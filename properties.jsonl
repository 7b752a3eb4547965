{"id": "C01", "title": "vector_queue is a bounded FIFO", "statement": "A stdex::vector_queue of capacity n >= 1 driven only by push_back, pop_back, pop_front and clear shows through size/at/[]/front/back exactly the content of a list that appends at the end, drops the oldest element when more than n are held, and removes at the requested end; removing from an empty queue throws and changes nothing, and at(pos) throws exactly when pos >= size(). Capacities up to 2^63 (larger ones cannot be allocated).", "quantifier": "every capacity n in [1,2^63], every finite history of those operations, every element type/value", "why_tests_cant": "head position, count and wrap-around combine without bound; a test fixes one capacity and one history", "anchors": ["include/stdex/vector_queue.hpp: vector_queue::push_back, pop_back, pop_front, clear, at, operator[], front, back, abs"]}
{"id": "C02", "title": "vector_queue::push_front prepends", "statement": "push_front(v) makes v the first element, keeps the other elements in order behind it and, when the queue is full, drops only the last element - for every capacity.", "quantifier": "every capacity, every queue state, every value", "why_tests_cant": "whether it works depends on the capacity and on where the head happens to be (modulo arithmetic at size_t width)", "anchors": ["include/stdex/vector_queue.hpp: vector_queue::push_front, abs"]}
{"id": "C03", "title": "vector_queue copy and move preserve content", "statement": "Copy construction/assignment gives a queue with the same capacity and the same element sequence as the original (which is unchanged); move gives the same to the target and leaves the source empty.", "quantifier": "every reachable queue state, including wrapped-around ones", "why_tests_cant": "all head/count combinations", "anchors": ["include/stdex/vector_queue.hpp: vector_queue(const vector_queue&), operator=, move constructor/assignment"]}
{"id": "C04", "title": "ring hands out in-bounds contiguous regions", "statement": "In every reachable state of stdex::ring, the region returned by back() lies inside the buffer and contains no byte that is still to be read, the region returned by front() lies inside the buffer and contains only bytes that were pushed and not yet popped, and both are non-empty unless the ring reports quit.", "quantifier": "every capacity N >= 1, every history of back/push/front/pop/sync/quit with pushed/popped amounts within the returned regions", "why_tests_cant": "all wrap-around positions and histories", "anchors": ["include/stdex/ring.hpp: ring::back, push, front, pop"]}
{"id": "C05", "title": "ring delivers bytes in order", "statement": "With one producer and one consumer thread, under every interleaving of their critical sections the sequence of elements read by the consumer is a prefix of the sequence written by the producer; nothing is lost, duplicated or reordered, and when the ring drains they are equal.", "quantifier": "every capacity, every schedule, every transfer sizes", "why_tests_cant": "unbounded number of schedules", "anchors": ["include/stdex/ring.hpp: ring"]}
{"id": "C06", "title": "ring producer and consumer never lose a wake-up", "statement": "With one producer (that also is the only one calling sync) and one consumer, whenever a thread is blocked inside back/front/sync the condition it waits for is false, or a wake-up for it is pending: no schedule leaves a thread asleep whose condition became true, and quit unblocks both.", "quantifier": "every schedule including spurious wake-ups", "why_tests_cant": "schedules cannot be enumerated by tests", "anchors": ["include/stdex/ring.hpp: ring::back, push, front, pop, quit, sync"]}
{"id": "C07", "title": "ring with several waiters on one condition", "statement": "If a thread waits in sync() while another waits in back(), then quit() (or a pop that satisfies both) eventually unblocks both.", "quantifier": "every schedule of three threads", "why_tests_cant": "needs a particular schedule", "anchors": ["include/stdex/ring.hpp: ring::sync, back, pop, quit"]}
{"id": "C08", "title": "base64 encoding equals RFC 4648", "statement": "Feeding bytes to base64_enc in any number of chunks and finishing with is_last yields exactly the RFC 4648 base64 text of the concatenation, including padding, and the encoder is ready for a new session.", "quantifier": "every byte sequence, every split into chunks", "why_tests_cant": "input space and splits are infinite", "anchors": ["include/stdex/base64.hpp: base64_enc::encode"]}
{"id": "C09", "title": "base64 decode inverts encode", "statement": "Feeding the base64 text of any data to base64_dec, split in any way into chunks and with arbitrary characters outside the alphabet (line breaks, spaces; no NUL, no '=') interspersed, returns the original data, and is_last is set exactly when a padded block was seen.", "quantifier": "every byte sequence, every chunking, every interspersed junk", "why_tests_cant": "infinite inputs", "anchors": ["include/stdex/base64.hpp: base64_dec::decode"]}
{"id": "C10", "title": "base64 size estimates are sufficient", "statement": "enc_size / dec_size called before a chunk is an upper bound for the number of characters/bytes that chunk appends.", "quantifier": "every session state and chunk length (below the size_t overflow bound)", "why_tests_cant": "all lengths and states", "anchors": ["include/stdex/base64.hpp: base64_enc::enc_size, base64_dec::dec_size"]}
{"id": "C11", "title": "base64_writer emits decodable text", "statement": "Whatever sequence of write sizes is used, after destruction the sink holds base64 text whose decoding is the concatenation of everything written, with a line break after every max_blocks blocks.", "quantifier": "every data, write partition, max_blocks >= 1, sink accepting everything", "why_tests_cant": "partitions are infinite", "anchors": ["include/stdex/base64.hpp: base64_writer"]}
{"id": "C12", "title": "base64_reader returns all decoded bytes", "statement": "Reading to the end of file through base64_reader over a stream holding the base64 text of data returns all bytes of data.", "quantifier": "every data, every read sizes", "why_tests_cant": "only shows for particular remainders", "anchors": ["include/stdex/base64.hpp: base64_reader::read"]}
{"id": "C13", "title": "hex encode/decode round trip", "statement": "hex_enc::encode writes two uppercase hexadecimal digits per byte; hex_dec::decode applied to it in any chunking (even splitting a digit pair, with non-hex characters interspersed) returns the data, and is_last tells whether digits are paired.", "quantifier": "every byte sequence and chunking", "why_tests_cant": "infinite inputs", "anchors": ["include/stdex/hex.hpp: hex_enc::encode, hex_dec::decode"]}
{"id": "C14", "title": "checked arithmetic never wraps", "statement": "stdex::mul and stdex::add on size_t return the mathematical product/sum or throw, and throw exactly when it does not fit.", "quantifier": "all pairs of size_t", "why_tests_cant": "2^128 inputs", "anchors": ["include/stdex/math.hpp: mul, add"]}
{"id": "C15", "title": "muldiv computes floor(a*b/q) without intermediate overflow", "statement": "muldiv(a,b,q) returns the truncated exact quotient a*b/q whenever it fits the result type.", "quantifier": "all argument triples", "why_tests_cant": "2^96+ inputs", "anchors": ["include/stdex/math.hpp: muldiv"]}
{"id": "C16", "title": "rol rotates bits", "statement": "rol(v,n) is the n-bit left rotation for 0<n<32, hence invertible and periodic.", "quantifier": "all 32-bit values and amounts", "why_tests_cant": "2^37 inputs", "anchors": ["include/stdex/math.hpp: rol"]}
{"id": "C17", "title": "interval algebra", "statement": "size, empty, contains, +, - on intervals: contains(x) on an integer interval holds for exactly size() values, shifting by x and back restores the interval (unsigned wrap included), and an invalidated interval is falsy, empty and contains nothing.", "quantifier": "all endpoints", "why_tests_cant": "infinite", "anchors": ["include/stdex/interval.hpp: interval"]}
{"id": "C18", "title": "mapping position search is correct", "statement": "dst2src/src2dst on a mapping vector sorted in both coordinates return, for positions at or after a mapping element, the element's counterpart plus the distance from it, and before the first element the position itself capped by the first element's counterpart.", "quantifier": "every sorted mapping vector, every position", "why_tests_cant": "infinite inputs", "anchors": ["include/stdex/mapping.hpp: dst2src, src2dst"]}
{"id": "C19", "title": "mapping search hint does not change the result", "statement": "The overloads taking a hint index give the same result as those without for every valid hint and leave a hint that is again valid.", "quantifier": "every sorted vector, position, hint", "why_tests_cant": "infinite inputs", "anchors": ["include/stdex/mapping.hpp: dst2src(…, m), src2dst(…, m)"]}
{"id": "C20", "title": "byte swapping is an involution and reverses bytes", "statement": "byteswap on 16/32/64-bit values reverses the little-endian byte sequence; applying it twice is the identity.", "quantifier": "all values", "why_tests_cant": "2^64 values", "anchors": ["include/stdex/endian.hpp: byteswap"]}
{"id": "C21", "title": "date conversion round trip", "statement": "aosn_date::to_dmy(from_dmy(d,m,y)) = (d,m,y) for every valid proleptic date in range, from_dmy(to_dmy(x)) = x for every day number in range, and successive days map to successive calendar days.", "quantifier": "every valid date / day number in the supported int32 range", "why_tests_cant": "billions of days with leap rules", "anchors": ["include/stdex/chrono.hpp: aosn_date::from_dmy, to_dmy"]}
{"id": "C22", "title": "day_of_week is periodic", "statement": "day_of_week advances by one modulo 7 with every day and agrees with the known weekday of an anchor date, for negative day numbers too.", "quantifier": "all int32 day numbers", "why_tests_cant": "2^32 values", "anchors": ["include/stdex/chrono.hpp: aosn_date::day_of_week"]}
{"id": "C23", "title": "timestamp conversions invert each other", "statement": "from_time_t(to_time_t(...)), to_date/from_date and to_dmy/from_dmy of timestamps round-trip for whole-second (resp. valid) values in range.", "quantifier": "all int64 timestamps in range", "why_tests_cant": "2^64 values", "anchors": ["include/stdex/chrono.hpp: aosn_timestamp"]}
{"id": "C24", "title": "timestamp from timespec keeps the milliseconds", "statement": "from_system(timespec) equals the time in milliseconds of sec*1000 + nsec/10^6.", "quantifier": "all timespec values", "why_tests_cant": "a test with nsec=0 passes", "anchors": ["include/stdex/chrono.hpp: aosn_timestamp::from_system(timespec)"]}
{"id": "C25", "title": "hashes do not depend on chunking", "statement": "For crc32, md5 and sha1, hashing a message in any sequence of chunks and then finalizing gives the same value as hashing it in one call.", "quantifier": "every message and chunking (chunks below 4 GiB for the block hashes)", "why_tests_cant": "infinite inputs", "anchors": ["include/stdex/hash.hpp: block_hash::hash, crc32_hash, md5_hash, sha1_hash"]}
{"id": "C26", "title": "crc32 equals the bitwise definition", "statement": "crc32_hash (table driven) computes the IEEE 802.3 CRC-32: reflected polynomial 0xEDB88320 division with initial and final complement.", "quantifier": "every message", "why_tests_cant": "infinite inputs; a wrong table entry only shows for some bytes", "anchors": ["include/stdex/hash.hpp: crc32_hash"]}
{"id": "C27", "title": "md5 equals RFC 1321", "statement": "md5_hash computes the MD5 digest of RFC 1321 for every message shorter than 2^61 bytes.", "quantifier": "every message", "why_tests_cant": "padding boundary cases, infinite inputs", "anchors": ["include/stdex/hash.hpp: md5_hash"]}
{"id": "C28", "title": "sha1 equals FIPS 180-4", "statement": "sha1_hash computes the SHA-1 digest of FIPS 180-4.", "quantifier": "every message", "why_tests_cant": "padding boundary cases, infinite inputs", "anchors": ["include/stdex/hash.hpp: sha1_hash"]}
{"id": "C29", "title": "block hash counts long chunks", "statement": "The bit length absorbed at finalization equals the total message length modulo 2^64 whatever the chunk sizes.", "quantifier": "every chunk length in size_t", "why_tests_cant": "needs a >= 4 GiB chunk", "anchors": ["include/stdex/hash.hpp: block_hash::hash"]}
{"id": "C30", "title": "string comparison is a total order", "statement": "strcmp/strncmp over counted zero-terminated buffers never read past the count or terminator, return the sign of the lexicographic comparison of the two strings, and hence are a total preorder that is 0 exactly on equal strings.", "quantifier": "all buffers and counts", "why_tests_cant": "infinite inputs", "anchors": ["include/stdex/string.hpp: strcmp, strncmp"]}
{"id": "C31", "title": "case-insensitive comparison", "statement": "stricmp/strnicmp compare as strcmp of the folded strings.", "quantifier": "all buffers, counts, any folding function", "why_tests_cant": "infinite inputs", "anchors": ["include/stdex/string.hpp: stricmp, strnicmp"]}
{"id": "C32", "title": "search functions find the first occurrence", "statement": "strchr/strnchr/strrchr/strnrchr/strstr/strnstr return the smallest (resp. greatest) matching offset before the terminator/count, or npos exactly when there is none.", "quantifier": "all buffers, counts, needles", "why_tests_cant": "infinite inputs", "anchors": ["include/stdex/string.hpp: strchr, strnchr, strrchr, strnrchr, strstr, strnstr"]}
{"id": "C33", "title": "copy functions terminate and stay in bounds", "statement": "strcpy/strncpy/strcat/strncat/strndup write exactly the copied characters plus a terminator when room, and never outside the allowed count.", "quantifier": "all buffers and counts", "why_tests_cant": "infinite inputs", "anchors": ["include/stdex/string.hpp: strcpy, strncpy, strcat, strncat, strndup"]}
{"id": "C34", "title": "trimming removes exactly the surrounding white space", "statement": "ltrim/rtrim/trim leave the longest substring not starting/ending with white space, in place, and return its length.", "quantifier": "all buffers", "why_tests_cant": "infinite inputs", "anchors": ["include/stdex/string.hpp: ltrim, rtrim, trim"]}
{"id": "C35", "title": "crlf2nl normalises line ends", "statement": "crlf2nl replaces each CR LF pair with LF and leaves everything else; it is idempotent when no CR CR LF occurs.", "quantifier": "all strings", "why_tests_cant": "infinite inputs", "anchors": ["include/stdex/string.hpp: crlf2nl"]}
{"id": "C36", "title": "numeric parsing returns the mathematical value or saturates", "statement": "strtoint/strtouint return the value denoted by the longest numeral prefix in the given (or detected) radix and, when it is out of range, the nearest representable value with overflow flag, and report the number of characters consumed.", "quantifier": "all strings, counts, radices", "why_tests_cant": "infinite inputs; overflow boundary", "anchors": ["include/stdex/string.hpp: strtoint, strtouint"]}
{"id": "C37", "title": "strtouint of negative numerals", "statement": "strtouint of '-n' is the two's complement negation of n.", "quantifier": "all n", "why_tests_cant": "needs negative input", "anchors": ["include/stdex/string.hpp: strtouint"]}
{"id": "C38", "title": "surrogate pair coding", "statement": "ucs4 <-> surrogate pair conversion round-trips and is_surrogate classifies exactly.", "quantifier": "all code points", "why_tests_cant": "a million code points", "anchors": ["include/stdex/string.hpp: surrogate helpers"]}
{"id": "C39", "title": "character classification and case folding", "statement": "islbreak/tolower/toupper agree with their documented meaning for every code unit.", "quantifier": "all code units", "why_tests_cant": "all values", "anchors": ["include/stdex/string.hpp: islbreak, tolower, toupper"]}
{"id": "C40", "title": "glyph length in bounds", "statement": "glyphlen(p,count) returns a number in [1,count] when the buffer is not empty, never splitting a surrogate pair or separating combining marks; glyphrlen is its mirror.", "quantifier": "all buffers and counts", "why_tests_cant": "infinite inputs", "anchors": ["include/stdex/string.hpp: glyphlen, glyphrlen"]}
{"id": "C41", "title": "SGML entity lookup", "statement": "sgml2uni finds every entity name of the table and returns its first listed expansion; it returns null for every name not in the table.", "quantifier": "every string (table of ~1500 names)", "why_tests_cant": "binary search correctness depends on table order for every query", "anchors": ["include/stdex/sgml.hpp: sgml2uni; sgml_unicode.hpp"]}
{"id": "C42", "title": "SGML encode/decode round trip", "statement": "Decoding the SGML encoding of any text gives back the text.", "quantifier": "every text", "why_tests_cant": "infinite inputs", "anchors": ["include/stdex/sgml.hpp: str2sgml, sgml2str"]}
{"id": "C43", "title": "SGML buffer variants respect the destination size", "statement": "str2sgmlcat/sgml2strcat with a destination count never write at or after count and always terminate.", "quantifier": "every input and destination size", "why_tests_cant": "boundary cases", "anchors": ["include/stdex/sgml.hpp: str2sgmlcat, sgml2strcat"]}
{"id": "C44", "title": "stream read/write primitives transfer complete values", "statement": "read_data after write_data of the same type on a byte stream returns the value, in little-endian, and a short stream yields eof.", "quantifier": "all values and stream contents", "why_tests_cant": "infinite inputs", "anchors": ["include/stdex/stream.hpp: basic::read_data, write_data, read_array, write_array, read_str, write_str"]}
{"id": "C45", "title": "memory_file is a random-access byte array", "statement": "Any history of read/write/seek/truncate with the position not beyond the end behaves like the same history on an abstract growable byte array with position.", "quantifier": "every history and contents", "why_tests_cant": "infinite histories", "anchors": ["include/stdex/stream.hpp: memory_file"]}
{"id": "C46", "title": "memory_file reading beyond the end", "statement": "Reading when the position is beyond the end of file returns eof (no memory access outside the data).", "quantifier": "every position and size", "why_tests_cant": "requires seek past end", "anchors": ["include/stdex/stream.hpp: memory_file::read, seek"]}
{"id": "C47", "title": "fifo preserves bytes", "statement": "What is read from stream::fifo is, in order, what was written; size() is the number of bytes not yet read; eof is reported only when it is empty.", "quantifier": "every history of writes and reads of any sizes", "why_tests_cant": "infinite histories", "anchors": ["include/stdex/stream.hpp: fifo"]}
{"id": "C48", "title": "buffered stream is transparent", "statement": "Reading/writing through stream::buffer gives the same bytes in the same order as reading/writing the source directly (after flush).", "quantifier": "every history, buffer sizes", "why_tests_cant": "infinite histories", "anchors": ["include/stdex/stream.hpp: buffer"]}
{"id": "C49", "title": "limiter stops at the limit", "statement": "Through stream::limiter at most read_limit bytes can be read and write_limit bytes written, and those are the same bytes as on the source.", "quantifier": "every history", "why_tests_cant": "infinite histories", "anchors": ["include/stdex/stream.hpp: limiter"]}
{"id": "C50", "title": "window confines access", "statement": "stream::window skips offset bytes then allows exactly the window's bytes.", "quantifier": "every history", "why_tests_cant": "infinite histories", "anchors": ["include/stdex/stream.hpp: window"]}
{"id": "C51", "title": "file_window positions are relative to the window", "statement": "file_window::seek(x) followed by tell() gives x, and a read after it returns the window's byte x.", "quantifier": "every window and position", "why_tests_cant": "infinite", "anchors": ["include/stdex/stream.hpp: file_window"]}
{"id": "C52", "title": "cache is transparent", "statement": "A file accessed through stream::cache with any block size shows the same content and returns as direct access; after flush the underlying file equals the logical content.", "quantifier": "every history of read/write/seek/truncate/flush, every block size", "why_tests_cant": "infinite histories", "anchors": ["include/stdex/stream.hpp: cache"]}
{"id": "C53", "title": "replicator writes to all", "statement": "After a successful replicator::write every attached sink has received the same bytes in the same order, whatever the thread schedule.", "quantifier": "every schedule", "why_tests_cant": "schedules", "anchors": ["include/stdex/stream.hpp: replicator"]}
{"id": "C54", "title": "async reader/writer deliver the source bytes", "statement": "async_reader returns the source bytes in order then eof; async_writer delivers all written bytes before destruction completes.", "quantifier": "every schedule", "why_tests_cant": "schedules", "anchors": ["include/stdex/stream.hpp: async_reader, async_writer"]}
{"id": "C55", "title": "spinlock mutual exclusion", "statement": "At most one thread is between lock() and unlock() of a stdex::spinlock; try_lock succeeds only when nobody holds it.", "quantifier": "every number of threads and schedule", "why_tests_cant": "schedules", "anchors": ["include/stdex/spinlock.hpp: spinlock"]}
{"id": "C56", "title": "pool hands an object to one owner", "statement": "An object obtained by pool::pop is not obtained by anybody else until it is pushed back; nothing pushed is lost or duplicated.", "quantifier": "every schedule", "why_tests_cant": "schedules", "anchors": ["include/stdex/pool.hpp: pool"]}
{"id": "C57", "title": "watchdog fires once per missed interval", "statement": "The callback fires only if no reset happened during a whole timeout, and at most once between two resets; after destruction no more callbacks.", "quantifier": "every schedule of resets and timeouts", "why_tests_cant": "timing schedules", "anchors": ["include/stdex/watchdog.hpp: watchdog"]}
{"id": "C58", "title": "aggregate progress equals the sum of workers", "statement": "After any concurrent set/set_range calls complete, the aggregated value and range equal the sums over workers.", "quantifier": "every schedule", "why_tests_cant": "schedules", "anchors": ["include/stdex/progress.hpp: aggregate_progress"]}
{"id": "C59", "title": "aggregate progress last report", "statement": "Once all workers are idle, the last value reported to the host is the aggregate value.", "quantifier": "every schedule", "why_tests_cant": "schedules", "anchors": ["include/stdex/progress.hpp: aggregate_progress::worker_progress::set"]}
{"id": "C60", "title": "global progress maps sections", "statement": "global_progress maps a local range linearly and monotonically onto its section, start to start and end to end.", "quantifier": "all ranges without overflow", "why_tests_cant": "infinite", "anchors": ["include/stdex/progress.hpp: global_progress::set"]}
{"id": "C61", "title": "record padding and framing", "statement": "A record written with idrec open/close to a file is found by find, below the given limit, and its reader is left at the next record, for every payload that with its padding can be counted in the size field; the size field equals the payload length, the padding is the least that aligns the record, nothing else in the file changes; find ends on every file content.", "quantifier": "every payload, alignment and following data", "why_tests_cant": "infinite", "anchors": ["include/stdex/idrec.hpp: padding, open, close, find, ignore"]}
{"id": "C62", "title": "uuid text round trip", "statement": "strtouuid(uuidtostr(id)) gives id; strtouuid rejects texts that are not of the documented form.", "quantifier": "all 2^128 uuids / all texts", "why_tests_cant": "2^128 values", "anchors": ["include/stdex/uuid.hpp: uuidtostr, strtouuid"]}
{"id": "C63", "title": "parser matches stay inside the text", "statement": "With start <= end and a text readable up to end or its terminator, every basic test and every combinator of stdex::parser reads only before end and the terminator, and returns, on success, an interval starting at start and ending there. A sequence matches exactly when its elements match one after another, their intervals tiling the match; a branch yields the first alternative that matches and its index; a permutation matches exactly when the elements match one after another in some order; iterations takes the repeated matches of its element until the maximum, the first failure (a failure below the minimum fails), the minimum when not greedy, or an empty match of the element (which always succeeds); search finds the first position that matches. A match depends on text, bounds and flags only, never on what was parsed before.", "quantifier": "every text, bounds, element parsers", "why_tests_cant": "infinite", "anchors": ["include/stdex/parser.hpp: basic_noop, basic_any_cu, basic_cu, basic_space_cu, basic_punct_cu, basic_space_or_punct_cu, basic_bol, basic_eol, basic_cu_set, basic_string, sgml_any_cp, basic_sequence, basic_branch, basic_string_branch, basic_iterations, basic_permutation, basic_parser::search"]}
{"id": "C64", "title": "number parsers compute the value", "statement": "integer10 and integer16 match the longest run of digits at the start - at least one - and fail, with value 0, when there is none; after a match, value is the number the digits write, modulo 2^64. integer10ts also takes groups of exactly three digits after one and the same separator, as many as follow, if the first run has at most three digits; its value is that of all the digits together, digit_count their number and has_separators tells whether there was a group.", "quantifier": "every text", "why_tests_cant": "infinite", "anchors": ["include/stdex/parser.hpp: basic_integer10, basic_integer16"]}
{"id": "C65", "title": "ipv4 parser value", "statement": "ipv4_address matches exactly four rows of digits with a separator between each two, each row being the longest whose number stays within 255 (so leading zeros are accepted, and a digit that would go beyond 255 ends the row); the 32-bit value holds the four numbers as its bytes in network order, and the four components are the intervals of the rows. When it does not match, value, interval and components are all cleared. None of it depends on what the parser object matched before.", "quantifier": "every text, start, end and flags; every well-behaved digit and separator parsers; every previous state of the object", "why_tests_cant": "infinitely many texts; the object keeps state between matches", "anchors": ["include/stdex/parser.hpp: basic_ipv4_address"]}
{"id": "C66", "title": "IBAN parser and its check", "statement": "iban matches exactly: the code of a country in its table (found whatever its place), two check digits (the prescribed ones where the country prescribes them), and as many letters and digits as the country's account numbers have, with what the space parser takes left out before each of them. country, check_digits and bban then hold these characters as zero-terminated strings, and is_valid is true exactly when the number (account number, country, check digits; letters replaced by 10..35) is 1 modulo 97. When it does not match, all members are empty and is_valid is false. No array is overrun, and nothing depends on earlier matches.", "quantifier": "every text, start, end, flags and (advancing) space parser; every previous state of the object", "why_tests_cant": "infinitely many account numbers; the remainder is computed in pieces of nine digits", "anchors": ["include/stdex/parser.hpp: basic_iban"]}
{"id": "C67", "title": "charset names", "statement": "charset_from_name is case-insensitive and total.", "quantifier": "every string", "why_tests_cant": "infinite", "anchors": ["include/stdex/unicode.hpp: charset_from_name"]}
{"id": "C68", "title": "base64_writer reports bytes taken on failure", "statement": "When the sink fails, base64_writer::write returns the number of bytes of the caller's data that were consumed before the failure.", "quantifier": "every data, every failure point", "why_tests_cant": "needs a sink failing at every possible point", "anchors": ["include/stdex/base64.hpp: base64_writer::write"]}
{"id": "C69", "title": "hex_dec signals the end of input", "statement": "hex_dec::decode sets is_last exactly when every complete pair of hexadecimal digits in the input has been decoded, also when ignored characters (blanks, line breaks) follow the final pair.", "quantifier": "every input text", "why_tests_cant": "infinite inputs", "anchors": ["include/stdex/hex.hpp: hex_dec::decode"]}
{"id": "C70", "title": "SGML encoder output is valid 7-bit SGML", "statement": "str2sgmlcat of any zero-free text appends only characters 1..127, and sgmlerr finds no error in what was appended, whatever flags either call is given.", "quantifier": "every text of 16- or 32-bit units, every flag value", "why_tests_cant": "the set of texts is infinite and the encoder chooses among entities, glyph decomposition and numeric references", "anchors": ["include/stdex/sgml.hpp: str2sgmlcat, sgmlerr, chr2sgml"]}
{"id": "C71", "title": "SGML encoder protects the characters it is asked to protect", "statement": "No character selected by the flags given to str2sgmlcat, nor any '&', appears in its output outside a reference; with sgml_full no character that has an entity does.", "quantifier": "every text and every combination of flags", "why_tests_cant": "2^12 flag combinations times all texts, including glyphs with combining marks", "anchors": ["include/stdex/sgml.hpp: str2sgmlcat, sgml_* flags"]}
{"id": "C72", "title": "SGML decoder index mapping", "statement": "Every (source, destination) pair recorded by sgml2strcat cuts both texts at corresponding places: decoding the source up to the pair gives the destination up to the pair, and decoding the rest gives the rest.", "quantifier": "every SGML text and every skip mask", "why_tests_cant": "needs every position of every text", "anchors": ["include/stdex/sgml.hpp: sgml2strcat"]}
{"id": "C73", "title": "SGML decoder and checker", "statement": "sgml2strcat is total: it replaces exactly the well-formed, known references that the skip mask does not exclude and copies everything else; sgmlerr reports the index of the first '&' that starts no known reference or (unless told otherwise) the first non-ASCII character.", "quantifier": "every text, including malformed references, and every mask", "why_tests_cant": "malformed inputs cannot be enumerated", "anchors": ["include/stdex/sgml.hpp: sgml2strcat, sgmlerr, sgmlend, sgml2uni"]}
{"id": "C74", "title": "read_array counts whole elements", "statement": "read_array returns the number of elements that were read completely.", "quantifier": "every source (including one that delivers any partial amounts or fails at any point), element size and count", "why_tests_cant": "the result depends on how the source splits its data, an unbounded set of histories", "anchors": ["include/stdex/stream.hpp: stream::basic::read_array"]}
{"id": "C75", "title": "read_remainder returns everything up to the limit", "statement": "read_remainder(max) returns exactly the first max bytes that are left (all if fewer), consumes them and nothing else.", "quantifier": "every source, split of its data into partial reads, and limit", "why_tests_cant": "unbounded number of partial reads and sizes", "anchors": ["include/stdex/stream.hpp: stream::basic::read_remainder"]}
{"id": "C76", "title": "skip advances by the amount", "statement": "skip(n) consumes exactly n bytes; skipping beyond the end leaves the stream at its end in state eof.", "quantifier": "every source, split into partial reads, and amount", "why_tests_cant": "three code paths by amount; unbounded sizes", "anchors": ["include/stdex/stream.hpp: stream::basic::skip"]}
{"id": "C77", "title": "readln_and_attach reads one line", "statement": "readln_and_attach appends the text up to the line feed without the line feed and a carriage return before it, and leaves the stream right behind the line feed; at the end of the stream everything left is appended and the state is eof.", "quantifier": "every text of 8-bit characters, including CR and LF at any place, and every split into partial reads", "why_tests_cant": "all texts", "anchors": ["include/stdex/stream.hpp: stream::basic::readln_and_attach"]}
{"id": "C78", "title": "length-prefixed strings round trip", "statement": "read_str after write_str returns the string, leaving the stream right after it.", "quantifier": "every string shorter than 2^32 units of any width, and every split into partial reads", "why_tests_cant": "unbounded strings, more than one 1024 unit block", "anchors": ["include/stdex/stream.hpp: stream::basic::read_str, write_str"]}
{"id": "C79", "title": "write_byte repeats the byte", "statement": "write_byte(b, n) writes b n times unless the sink fails, in which case fewer.", "quantifier": "every sink and amount", "why_tests_cant": "three code paths by amount; partial writes", "anchors": ["include/stdex/stream.hpp: stream::basic::write_byte"]}
{"id": "C80", "title": "vectors round trip", "statement": "operator>> of std::vector after operator<< returns the same vector.", "quantifier": "every vector", "why_tests_cant": "all vectors", "anchors": ["include/stdex/stream.hpp: stream::basic operator<<, operator>> for std::vector"]}
{"id": "C81", "title": "write_stream copies the stream", "statement": "write_stream(src, n) appends exactly the next n bytes of src (all if fewer) and returns how many were written; a failure of either stream is reported in the state.", "quantifier": "every source and sink, split into partial reads, and amount", "why_tests_cant": "unbounded sizes; failures at any point", "anchors": ["include/stdex/stream.hpp: stream::basic::write_stream"]}
{"id": "C82", "title": "memory_file: writing beyond the end", "statement": "After seeking beyond the end and writing, the bytes between the old end and the new data have a defined value.", "quantifier": "every file and position beyond the end", "why_tests_cant": "indeterminate memory looks like zeros in a test", "anchors": ["include/stdex/stream.hpp: memory_file::seek, write, reserve"]}
{"id": "C83", "title": "memory_file::truncate", "statement": "truncate() makes the position the end of the file, keeping the bytes before it, or fails leaving the file readable.", "quantifier": "every file (owned or caller-provided buffer) and position", "why_tests_cant": "all positions and allocation failures", "anchors": ["include/stdex/stream.hpp: memory_file::truncate"]}
{"id": "C84", "title": "memory_file: incomplete string", "statement": "When a length-prefixed string is not complete in the file, read_str reports eof and does not leave the caller's variable holding an unrelated old value.", "quantifier": "every file content and old value", "why_tests_cant": "all truncation points", "anchors": ["include/stdex/stream.hpp: memory_file::read_str"]}
{"id": "C85", "title": "memory_file set/get", "statement": "get after set at any offset within the file returns the value and nothing else of the file changes.", "quantifier": "every offset including the last element, every type width", "why_tests_cant": "boundary in assertions", "anchors": ["include/stdex/stream.hpp: memory_file::set, get"]}
{"id": "C86", "title": "memory_file copies", "statement": "A copied or assigned memory_file has the same content, position and state; a failing assignment leaves a usable file.", "quantifier": "every file, state, and allocation outcome", "why_tests_cant": "allocation failure cannot be provoked in unit tests", "anchors": ["include/stdex/stream.hpp: memory_file copy constructor, operator="]}
{"id": "C87", "title": "memory_file::reserve", "statement": "reserve(n) either fails changing nothing or leaves room for n bytes, and does not change the content (unless tight).", "quantifier": "every size, including sizes near SIZE_MAX, and allocation outcomes", "why_tests_cant": "sizes near SIZE_MAX and allocation failures", "anchors": ["include/stdex/stream.hpp: memory_file::reserve"]}
{"id": "C88", "title": "memory_file::write_stream", "statement": "write_stream stores exactly the bytes it took from the source at the position, reports how many, and reports any failure of source or memory in the state.", "quantifier": "every source (any split, failing at any point), amount, and allocation outcome", "why_tests_cant": "unbounded interleavings of partial reads and failures", "anchors": ["include/stdex/stream.hpp: memory_file::write_stream"]}
{"id": "C89", "title": "byte-order mark round trip", "statement": "read_charset recognises the mark written by write_charset and leaves the file right behind it; without a mark it returns the default with the file at its start.", "quantifier": "every text after the mark", "why_tests_cant": "all texts", "anchors": ["include/stdex/stream.hpp: basic::write_charset, basic_file::read_charset"]}
{"id": "C90", "title": "buffer over a file", "statement": "Reading then writing through one stream::buffer changes a file as the same calls made directly do.", "quantifier": "every file content and sequence of calls", "why_tests_cant": "all interleavings and buffer sizes", "anchors": ["include/stdex/stream.hpp: buffer::read, buffer::write"]}
{"id": "C91", "title": "limiter write in state ok is complete", "statement": "A write through stream::limiter that leaves the state ok has written everything it was given.", "quantifier": "every limit, data and source", "why_tests_cant": "all limits and splits", "anchors": ["include/stdex/stream.hpp: limiter::write"]}
{"id": "C92", "title": "end of a window", "statement": "Reading an exhausted stream::window tells eof and leaves the source where the window ends.", "quantifier": "every source, window and read size", "why_tests_cant": "all positions of the window relative to the source's end", "anchors": ["include/stdex/stream.hpp: window::read, basic::skip"]}
{"id": "C93", "title": "count returned by a window write", "statement": "window::write returns the length of the prefix of the data that was written or deliberately discarded.", "quantifier": "every source, including failing ones", "why_tests_cant": "failures at any byte", "anchors": ["include/stdex/stream.hpp: window::write"]}
{"id": "C94", "title": "cache shows what was written", "statement": "After a write through stream::cache, reading the same place through it gives the written bytes.", "quantifier": "every history, block size and write length", "why_tests_cant": "all positions relative to the cached block", "anchors": ["include/stdex/stream.hpp: cache::write, cache::read, cache::load_cache"]}
{"id": "C95", "title": "cache gap", "statement": "Bytes between the old end of the file and data written beyond it through stream::cache read as zeros, as with direct access.", "quantifier": "every content, position and block size", "why_tests_cant": "contents of uninitialised memory", "anchors": ["include/stdex/stream.hpp: cache::write, cache::load_cache"]}
{"id": "C96", "title": "reading does not change the size", "statement": "Reading through stream::cache at any position does not change size().", "quantifier": "every position and block size", "why_tests_cant": "all positions", "anchors": ["include/stdex/stream.hpp: cache::read, cache::load_cache, cache::size"]}
{"id": "C97", "title": "null read through a cache", "statement": "A read of 0 bytes leaves stream::cache in state ok.", "quantifier": "every position", "why_tests_cant": "all positions", "anchors": ["include/stdex/stream.hpp: cache::read"]}
{"id": "C98", "title": "write after eof through a cache", "statement": "A write through stream::cache after a read that met the end of file writes its data.", "quantifier": "every history and block size", "why_tests_cant": "all histories", "anchors": ["include/stdex/stream.hpp: cache::write"]}
{"id": "C99", "title": "file_window confinement", "statement": "Whatever sequence of calls is made on a stream::file_window, no byte outside the window is read or written.", "quantifier": "every history of read, write, seek and skip", "why_tests_cant": "all histories", "anchors": ["include/stdex/stream.hpp: file_window::skip, file_window::read, file_window::write"]}
{"id": "C100", "title": "async_writer: ok means the source may still take it", "statement": "When async_writer::write reports ok, the source has not failed before that call began; bytes reported as written are delivered by the time the destructor returns.", "quantifier": "every source that may fail, every schedule", "why_tests_cant": "schedules x failure points", "anchors": ["include/stdex/stream.hpp: async_writer::write, async_writer::process"]}
{"id": "C101", "title": "async_writer: one thread at a time uses the source", "statement": "The caller's flush and the worker never use the source stream at the same time.", "quantifier": "every schedule", "why_tests_cant": "schedules", "anchors": ["include/stdex/stream.hpp: async_writer::flush, async_writer::process"]}
{"id": "C102", "title": "async converters and replicator never hang", "statement": "Every call of async_reader, async_writer or replicator, and their destructors, returns: in every reachable state some thread can go on without relying on spurious wake-ups, and only finitely many steps are possible before the call has returned.", "quantifier": "every schedule, every source whose operations return", "why_tests_cant": "schedules", "anchors": ["include/stdex/stream.hpp: async_reader, async_writer, replicator"]}
{"id": "C103", "title": "spinlock publishes what was done under it", "statement": "Whatever a thread wrote before unlock is seen by every thread that gets the lock afterwards: increments of a plain variable under the lock are never lost, under the memory orders the code uses.", "quantifier": "any number of threads, every schedule, every stale value a relaxed load may give", "why_tests_cant": "weak-memory schedules", "anchors": ["include/stdex/spinlock.hpp: lock, try_lock, unlock"]}
{"id": "C104", "title": "pool::clear removes what was there", "statement": "When clear returns, everything in the pool was pushed while clear was running; every call of pop, push and clear returns.", "quantifier": "every schedule", "why_tests_cant": "schedules", "anchors": ["include/stdex/pool.hpp: clear"]}
{"id": "C105", "title": "watchdog fires when left alone", "statement": "If the watchdog was started or reset and nobody resets it, time and the running threads lead to a call of the callback; the destructor always returns if the callback does, without waiting for the timeout.", "quantifier": "every reachable state, every schedule", "why_tests_cant": "timing schedules", "anchors": ["include/stdex/watchdog.hpp: run, ~watchdog"]}
{"id": "C106", "title": "watchdog callbacks are bounded by resets", "statement": "At any time the callback has been called at most once more than reset.", "quantifier": "every schedule", "why_tests_cant": "timing schedules", "anchors": ["include/stdex/watchdog.hpp: run, reset"]}
{"id": "C107", "title": "lazy_progress spaces its reports", "statement": "Values inside the range are reported only after the timeout since the report before and never twice in a row; both ends of the range are always reported; a new value is reported once the timeout has passed.", "quantifier": "every history of set_range and set", "why_tests_cant": "infinite histories", "anchors": ["include/stdex/progress.hpp: lazy_progress"]}
{"id": "C108", "title": "progress_switcher restores the indicator", "statement": "After properly nested lifetimes of progress_switcher objects the current indicator is what it was before, and each switcher reports to the indicator that was current when it was made.", "quantifier": "every properly nested sequence", "why_tests_cant": "infinite", "anchors": ["include/stdex/progress.hpp: progress_switcher"]}
{"id": "C109", "title": "aggregate_progress calls the host from one thread at a time", "statement": "The host indicator is never called by two workers at the same time; never after detach has returned; never while attach or detach runs.", "quantifier": "every schedule", "why_tests_cant": "schedules", "anchors": ["include/stdex/progress.hpp: aggregate_progress"]}
{"id": "C110", "title": "records of every size the header can hold", "statement": "ignore, find and reading a record leave the file at the next record for every record whose data length fits the size field, also when data and padding together do not.", "quantifier": "every payload length and alignment", "why_tests_cant": "all sizes near the wrap-around", "anchors": ["include/stdex/idrec.hpp: ignore, find, record"]}
{"id": "C111", "title": "composite numeral parsers recognise their grammar", "statement": "fraction, score, signed_numeral, mixed_numeral, monetary_numeral and scientific_numeral, built over any well-behaved element parsers (and with any of the optional signs null where the class allows it), match at a position exactly when the documented ordered grammar does (e.g. scientific: optional sign; integer with optional separator and decimals, or separator and decimals; optional exponent: symbol, plus sign, exponent / symbol, exponent / symbol, minus sign, exponent), set interval to exactly the text that grammar consumes, set the interval of every part they hold to what it matched (empty when it took no part), and clear all parts when they fail. monetary_numeral takes the same null signs as its siblings.", "quantifier": "every text, start, end, flags and element parsers; every previous state of the parser object", "why_tests_cant": "infinitely many texts and element parsers; the object keeps state between matches, so a stale interval shows only after particular histories", "anchors": ["include/stdex/parser.hpp: basic_fraction, basic_score, basic_signed_numeral, basic_mixed_numeral, basic_scientific_numeral, basic_monetary_numeral"]}
{"id": "C112", "title": "Roman numeral parser", "statement": "roman_numeral matches the longest row of digits (read by any subset of the nine digit parsers) that forms a numeral - tokens in non-increasing order, a power of ten before the digit five or ten times it counting as one token, no digit but the first four times in a row - fails exactly when no digit stands at start, and its value is the numeral's subtractive reading. In particular the usual numeral of every positive number (any number of M) is matched whole with that value.", "quantifier": "every text shorter than 2^64/10000 units, every start/end/flags, every digit parsers that consume something, every number", "why_tests_cant": "infinitely many digit rows; the parser's look-back over three combined digits is only right by an invariant over the whole run", "anchors": ["include/stdex/parser.hpp: basic_roman_numeral"]}
{"id": "C113", "title": "ipv6 parser components and value", "statement": "ipv6_address matches exactly eight groups of hexadecimal digits (each up to 65535) with separators between them, or a shortened form with one double separator standing for the groups left out; the eight components are the intervals of the groups, empty ones for groups left out; a scope id is taken only together with its separator; the eight words of the value are the numbers of the groups, zero for those left out; when it does not match, value and components are cleared.", "quantifier": "every text, start, end and flags; every well-behaved digit, separator and scope parsers", "why_tests_cant": "infinitely many texts; double separator at every position", "anchors": ["include/stdex/parser.hpp: basic_ipv6_address"]}
{"id": "C114", "title": "creditor reference parser and its check", "statement": "creditor_reference matches exactly 'RF', two check digits and 1 to 21 letters and digits in blocks of four, the space parser tried before each block; reference then holds the characters, filled up with '0' on the left to 21, and is_valid is true exactly when the number (reference, 'RF', check digits; letters replaced by 10..35) is 1 modulo 97; when it does not match, the members are cleared; no array is overrun.", "quantifier": "every text, start, end, flags and space parser; every previous state of the object", "why_tests_cant": "infinitely many references; an overrun needs a particular number of letters", "anchors": ["include/stdex/parser.hpp: basic_creditor_reference"]}
{"id": "C115", "title": "HTML escaping is safe and reversible", "statement": "For any text, html::escape (and escape_min) appends to the destination an encoding of exactly the units before the limit or terminator: the result holds no raw '<', '>' or no-break space (escape: also no raw quote or apostrophe), every '&' in it starts a reference, and decoding the references with sgml2str gives the text back.", "quantifier": "every text, every limit, char and wchar_t, every previous content of the destination", "why_tests_cant": "Tests try a few texts; escaping bugs (double escaping, an entity the decoder reads differently) depend on neighbouring characters.", "anchors": ["include/stdex/html.hpp: escape, escape_min", "include/stdex/sgml.hpp: sgml2strcat"]}
{"id": "C116", "title": "URL unescaping is form decoding", "statement": "url_unescape appends the form decoding of a zero-terminated text or of a counted text that is not cut inside of a percent escape: '+' is a space, '%hh' the byte, everything else, including malformed escapes, stands for itself.", "quantifier": "every text and limit, every previous content of the destination", "why_tests_cant": "Malformed escapes combine in unboundedly many ways with what follows them.", "anchors": ["include/stdex/html.hpp: url_unescape"]}
{"id": "C117", "title": "URL escaping is safe and reversible", "statement": "url_escape of any text gives printable ASCII without any of the reserved characters it lists, and url_unescape of the result gives the text back, whether the result is given with its length or with a terminator.", "quantifier": "every text of chars (all 256 values), every limit", "why_tests_cant": "Tests cover some characters of some texts only.", "anchors": ["include/stdex/html.hpp: url_escape, url_unescape"]}
{"id": "C118", "title": "CSS unescaping reads a text as CSS does", "statement": "css_unescape appends what the text stands for: backslash n, r and t are the control characters, a backslash at the end of a line joins lines, one to six hexadecimal digits (and a space behind fewer than six) are a code point, any other escaped unit stands for itself.  Every text that does not end in a lone backslash has such a reading.", "quantifier": "every text without zeros, counted or zero-terminated", "why_tests_cant": "The grammar of escapes is recursive in the text; the boundary cases (digits at the limit, six digits and a space) are combinatorial.", "anchors": ["include/stdex/html.hpp: css_unescape"]}
{"id": "C119", "title": "CSS escaping is safe and reversible", "statement": "css_escape of any text gives plain units and backslash pairs only, without raw quotes, line breaks or tabs, and css_unescape of the result gives the text back.", "quantifier": "every text, counted or zero-terminated", "why_tests_cant": "Tests cover some texts only.", "anchors": ["include/stdex/html.hpp: css_escape, css_unescape"]}
{"id": "C120", "title": "Unescaping stays within its limit and ends", "statement": "url_unescape and css_unescape read only the units before the limit or terminator, and return for every text.", "quantifier": "every text and limit", "why_tests_cant": "A read past the end or an endless loop needs the one text that is cut at the wrong place.", "anchors": ["include/stdex/html.hpp: url_unescape, css_unescape"]}
{"id": "C121", "title": "zlib_writer sends exactly the compressed data", "statement": "For every sequence of writes to a zlib_writer that were all accepted, followed by its destruction, the underlying stream has received one complete compressed stream (as zlib defines it) of the concatenation of the written data, in order, whatever the block size and the division into calls; a write that the underlying stream stopped reports a count smaller than the length and a state other than ok.", "quantifier": "all data, divisions into writes, block sizes, underlying streams and zlib implementations that keep zlib.h's promises", "why_tests_cant": "the compressor's internal buffering depends on the whole history of calls; the loops must drain it for every one", "anchors": ["include/stdex/zlib.hpp: zlib_writer::do_write, ~zlib_writer"]}
{"id": "C122", "title": "zlib_reader returns the decompressed data", "statement": "For every complete compressed stream, each read from a zlib_reader returns, stores exactly the next bytes of the decompressed data, and returns fewer bytes than asked only at the end of that data; bytes stored come with state ok.", "quantifier": "all compressed streams, read lengths, block sizes, ways in which the source divides its data, zlib implementations that keep zlib.h's promises", "why_tests_cant": "the loop's exit depends on how input blocks and output room interleave", "anchors": ["include/stdex/zlib.hpp: zlib_reader::do_read"]}
{"id": "C123", "title": "Data behind the compressed stream does not stop zlib_reader", "statement": "Reading past the end of the compressed data returns what there is even when the source continues with other data.", "quantifier": "all compressed streams, all non-empty trailing data, all read lengths exceeding what is left", "why_tests_cant": "non-termination cannot be observed by a test", "anchors": ["include/stdex/zlib.hpp: zlib_reader::do_read"]}
{"id": "C124", "title": "stream_hasher is transparent and hashes what went through", "statement": "Through a stream_hasher every read and write gives the caller the bytes, counts and state that the underlying stream gives; and the hash is that of the concatenation of all bytes actually read or written, in call order, however they were divided.", "quantifier": "all streams, sequences of calls, hashes", "why_tests_cant": "ranges over all call sequences and partial transfers", "anchors": ["include/stdex/hash.hpp: stream_hasher"]}
{"id": "C125", "title": "OS streams are streams", "statement": "A basic_sys over a descriptor whose reads and writes may be short or fail is a stream: each read ends, gives the next bytes in order and none is lost or repeated; it gives nothing for a non-zero length only at the end (state eof) or on an error (state fail); a write appends exactly the bytes it counts and is complete if the state is ok.", "quantifier": "all descriptors that keep the POSIX promises (arbitrary short transfers and errors), all lengths, all states", "why_tests_cant": "short transfers and errors come in any pattern", "anchors": ["include/stdex/stream.hpp: basic_sys::read, basic_sys::write"]}
{"id": "C126", "title": "file is an ordinary file", "statement": "On a regular file, however short the operating system's transfers are, stream::file behaves as an array with a position: read gives the bytes at the position up to the length or the end; write stores all of them, filling a gap with zeros; seek, tell, size and truncate do what they say.", "quantifier": "all contents, positions, lengths and transfer sizes", "why_tests_cant": "ranges over all files and transfer patterns", "anchors": ["include/stdex/stream.hpp: file::seek, tell, size, truncate; basic_sys::read, write"]}
{"id": "C127", "title": "Seeks and queries of a file", "statement": "seek returns the position it has set, or fails and leaves the position; size, lock and unlock leave the content and the position as they were.", "quantifier": "all files, positions, offsets and directions; whether or not locking succeeds", "why_tests_cant": "ranges over all positions and failures", "anchors": ["include/stdex/stream.hpp: file::seek, size, lock, unlock"]}
{"id": "C128", "title": "Locking reports refusal", "statement": "After file::lock (and unlock) the state is ok only if the operating system granted it.", "quantifier": "all files, offsets, lengths", "why_tests_cant": "a lock held by another process is needed at the right moment", "anchors": ["include/stdex/stream.hpp: file::lock, file::unlock"]}
{"id": "C129", "title": "diag_file shows one file and checks the others", "statement": "While a diag_file does not throw, every operation gives exactly what its first file gives, all its files make the same history and give the same results; it throws at the first file that differs in the result or, for operations other than tell and size, in the state.", "quantifier": "all files, all numbers of files, all histories", "why_tests_cant": "ranges over all histories of all combinations of files", "anchors": ["include/stdex/stream.hpp: diag_file"]}
{"id": "C130", "title": "diag_file without files", "statement": "Every operation of a diag_file that was given no files fails or does nothing; none touches a file.", "quantifier": "all operations", "why_tests_cant": "undefined behaviour cannot be observed by a test", "anchors": ["include/stdex/stream.hpp: diag_file::lock, unlock, truncate"]}
{"id": "C131", "title": "cached_file is transparent", "statement": "A cache over a stream::file gives every history of calls the results of direct access, and leaves the file with the same content and position.", "quantifier": "all files, histories, cache block sizes, OS transfer sizes", "why_tests_cant": "ranges over all histories", "anchors": ["include/stdex/stream.hpp: cached_file, cache, file"]}
{"id": "C132", "title": "JSON strings are recognised and decoded as RFC 8259 has them", "statement": "With the parsers for the quotation mark, the reverse solidus, the escape letters, u and hexadecimal digits, and case-sensitive matching, json_string matches exactly the texts: quotation mark, any sequence of (plain character | \\ with one of \" \\ / b f n r t | \\u with four hexadecimal digits), quotation mark; it ends behind the first unescaped quotation mark, and value is what the sequence stands for. An unfinished string, a bare control character, an unknown escape or a short \\u makes it fail.", "quantifier": "every text, start, end, any earlier use of the parser object, both character types", "why_tests_cant": "Tests match a handful of strings; the property is about every text and every nesting of escapes, and about the parser being reused.", "anchors": ["include/stdex/parser.hpp: basic_json_string::do_match"]}
{"id": "C133", "title": "\\u escapes in narrow JSON strings become UTF-8", "statement": "For every \\uXXXX escape matched in a char string, value receives exactly the UTF-8 code units (one, two or three) of the code point XXXX; in a wide string it receives the one unit XXXX.", "quantifier": "all 65536 values in any spelling of the digits, anywhere in any string", "why_tests_cant": "The boundary cases (007F/0080, 07FF/0800) and the case of digits multiply with the positions.", "anchors": ["include/stdex/parser.hpp: basic_json_string::do_match"]}
{"id": "C134", "title": "Narrow JSON string values are UTF-8", "statement": "value of a matched narrow JSON string is valid UTF-8 for the text it denotes, also for characters beyond the basic plane, which JSON writes as a pair of \\u escapes.", "quantifier": "every JSON string", "why_tests_cant": "Tests use basic-plane escapes only.", "anchors": ["include/stdex/parser.hpp: basic_json_string::do_match"]}
{"id": "C135", "title": "HTML element names are recognised in any case", "statement": "element::element_code of a narrow name (or a wide name of ASCII characters) gives the code of the element with that name, upper and lower case being the same, and unknown for every other name; it reads no further than num_chars or the terminator.", "quantifier": "every name, every length limit", "why_tests_cant": "The lookup is a binary search over 105 names: order of the table, boundaries and prefixes of names multiply.", "anchors": ["include/stdex/html.hpp: element::element_code"]}
{"id": "C136", "title": "Wide HTML element names with other characters are unknown", "statement": "element_code of a wide name that is not an element's name is unknown, whatever characters it has.", "quantifier": "every wide name", "why_tests_cant": "There are 2^32 characters; tests use ASCII.", "anchors": ["include/stdex/html.hpp: element::element_code"]}
{"id": "C137", "title": "HTML element traits follow HTML 4.01", "statement": "Elements without end tags span nothing (immediate), elements with omissible end tags are end_optional, and, as documented, an end_optional element never may contain one of its own kind.", "quantifier": "every element code", "why_tests_cant": "Tables of 105 elements and their products.", "anchors": ["include/stdex/html.hpp: element_traits::span, may_contain"]}
{"id": "C138", "title": "Which attributes hold URIs or text to localise", "statement": "is_uri is true for every attribute HTML 4.01 types as URI and a fixed list of extensions, is_localizable for title and alt, summary, abbr of certain elements; names in any case, limited by num_chars or the terminator; false for every other name.", "quantifier": "every element and every attribute name", "why_tests_cant": "Tests look at a few names; prefixes, longer names and case variants are unlimited.", "anchors": ["include/stdex/html.hpp: element_traits::is_uri, is_localizable"]}
{"id": "C139", "title": "A recognised HTML tag lies inside the text and its parts lie inside the tag", "statement": "When html_tag matches at s, the tag starts with '<' and ends with '>' (\"/>\" for an empty element, \"-->\" for a comment) at or before the end of the visible text, its type is the one its first characters announce, the name lies behind '<', and names and values of the attributes follow in order without overlapping, all in front of the closing '>'.", "quantifier": "every text, every offset, every ctype", "why_tests_cant": "Tests check a handful of tags; ill-formed tags, unterminated quotes and stray characters are unlimited.", "anchors": ["include/stdex/parser.hpp: basic_html_tag::do_match, basic_html_ident, basic_html_value"]}
{"id": "C140", "title": "Parsing an HTML tag ends", "statement": "html_tag returns after finitely many steps, bounded by the length of the text, when the tag is a start tag, comment or instruction, or no \"/>\" occurs behind it.", "quantifier": "every text, every offset", "why_tests_cant": "A parser that hangs on one text hangs on no test that lacks it.", "anchors": ["include/stdex/parser.hpp: basic_html_tag::do_match"]}
{"id": "C141", "title": "Parsing an HTML tag ends on every text", "statement": "html_tag returns on every text, end tags and declarations written like empty elements included.", "quantifier": "every text, every offset", "why_tests_cant": "The text that hangs the parser must first be found.", "anchors": ["include/stdex/parser.hpp: basic_html_tag::do_match"]}
{"id": "C142", "title": "Well-written HTML tags are recognised exactly", "statement": "Every start tag, empty element, end tag, comment and instruction written by the rules is matched: type, the positions of the name and of every attribute's name and value, white space between them, quoted or plain values, and the end of the tag.", "quantifier": "every name, every list of attributes, all white space, whatever follows", "why_tests_cant": "The texts a grammar generates are unlimited.", "anchors": ["include/stdex/parser.hpp: basic_html_tag::do_match, basic_html_ident, basic_html_value"]}
{"id": "C143", "title": "Conditional sections are recognised exactly", "statement": "html_declaration_condition_end matches exactly \"]]>\"; html_declaration_condition_start matches \"<![\", white space, a condition without '[', white space and '[' with the condition trimmed, and nothing else.", "quantifier": "every text, every offset", "why_tests_cant": "Texts are unlimited.", "anchors": ["include/stdex/parser.hpp: basic_html_declaration_condition_start, basic_html_declaration_condition_end"]}
{"id": "C144", "title": "The sequences of an HTML document lie one after the other in its source", "statement": "After any calls of append, finalize, clear and assign that return, the sequences of the document are ordered and disjoint, lie inside the source, the source at the sequence's place is written like its type (a start tag starts with '<' and ends with '>', CDATA is followed by \"]]>\", text is not empty ...), and the code of an element is that of the name written in it.", "quantifier": "every source, every division into chunks, every history of calls", "why_tests_cant": "Documents and histories are unlimited.", "anchors": ["include/stdex/html.hpp: document::append, finalize, clear, assign, sequence, element"]}
{"id": "C145", "title": "The elements of an HTML document nest", "statement": "The parent of every sequence is a start tag before it that is still open at it; an element's parent may contain it; a start tag's end lies behind it, and is the end tag that links back to it or an element it may not contain; an end tag's start lies in front, links back, has the same element code and the same parent.", "quantifier": "every source, every division into chunks, every history of calls", "why_tests_cant": "Links that cross show up for particular nestings of particular elements only.", "anchors": ["include/stdex/html.hpp: document::append, element_start::end, element_end::start, sequence::parent, may_contain"]}
{"id": "C146", "title": "The sequences of an HTML document together are its source", "statement": "If \"<![\" does not occur in the source, the texts of all sequences of the finalized document, one behind the other, are exactly the source.", "quantifier": "every source without \"<![\", every division into chunks, every history of calls", "why_tests_cant": "Lost characters need the right text in front of the right markup.", "anchors": ["include/stdex/html.hpp: document::append, finalize"]}
{"id": "C147", "title": "Parsing an HTML document ends", "statement": "append to a document that has only been appended to so far, and assign, return without exception and without invalid memory access when the source has no '%' (entities) and no end tag or declaration in it keeps the tag parser from ending (C141).", "quantifier": "every source, every division into chunks", "why_tests_cant": "A hang or a null pointer needs the right document.", "anchors": ["include/stdex/html.hpp: document::append, assign"]}
{"id": "C148", "title": "An HTML document may be parsed in parts", "statement": "Appending two parts gives the same document as appending both at once, provided no markup that starts in the first part is changed by the second: at every offset of the first part not parsed yet the tag and condition matchers give the same with and without the second part.", "quantifier": "every reachable document, every two parts", "why_tests_cant": "Divisions of all documents are too many.", "anchors": ["include/stdex/html.hpp: document::append"]}
{"id": "C149", "title": "Assigning an HTML document forgets the old one", "statement": "assign(source) gives the same document and outcome whatever was parsed before.", "quantifier": "every document, every source", "why_tests_cant": "Left-over state shows up after particular documents only.", "anchors": ["include/stdex/html.hpp: document::assign, clear"]}
{"id": "C150", "title": "End tags end the element of the same name", "statement": "An end tag of a known HTML element that is linked with a start tag is linked with one whose name is the same, apart from the case of letters, and that start tag links back.", "quantifier": "every source, every division, every history", "why_tests_cant": "Documents are unlimited.", "anchors": ["include/stdex/html.hpp: document::append, element_end::start"]}
{"id": "C151", "title": "No text of an HTML document is lost", "statement": "The sequences of a finalized document together hold all the text of the source, conditional sections apart.", "quantifier": "every source", "why_tests_cant": "Needs text in front of a conditional section.", "anchors": ["include/stdex/html.hpp: document::append (1696-1710)"]}
{"id": "C152", "title": "End tags of unknown elements end the element of the same name", "statement": "An end tag of an element unknown to HTML is linked with the start tag of the same name.", "quantifier": "every source", "why_tests_cant": "Needs two unknown elements.", "anchors": ["include/stdex/html.hpp: document::append (1808-1820)"]}
{"id": "C153", "title": "Where an HTML document is cut into parts does not matter", "statement": "Appending a document part by part gives the same as appending it at once.", "quantifier": "every document, every division", "why_tests_cant": "Divisions of all documents are too many.", "anchors": ["include/stdex/html.hpp: document::append"]}
{"id": "C154", "title": "A finalized HTML document may be appended to", "statement": "append to a document that is finalized is safe.", "quantifier": "every history of calls", "why_tests_cant": "Needs a special element left open.", "anchors": ["include/stdex/html.hpp: document::append, finalize (1716, 1869)"]}
{"id": "C155", "title": "Conditional sections of an HTML document", "statement": "Appended to a document that is parsed up to its end outside of any section, \"<![CDATA[content]]>\" adds exactly one CDATA sequence that is the content, \"<![RCDATA[...\" one parsed-character-data sequence, \"<![IGNORE[...\" nothing, whatever markup the content holds; white space may surround the condition; the parser is outside of any section afterwards and the same elements are open.", "quantifier": "every reachable document, every content without \"]]>\", all white space", "why_tests_cant": "Contents are unlimited.", "anchors": ["include/stdex/html.hpp: document::append (1665-1710)"]}
{"id": "C156", "title": "Parameter entities are replaced", "statement": "In a condition or the value of an entity every %name; is replaced by the value of the first entity defined with that name, the text between them is kept, and an undefined name is an exception.", "quantifier": "every list of entities, every text", "why_tests_cant": "Texts and entity lists are unlimited.", "anchors": ["include/stdex/html.hpp: document::replace_entities"]}
{"id": "C157", "title": "What HTML elements may contain is HTML 4.01's content model", "statement": "For any two of the 91 elements of HTML 4.01, may_contain says yes exactly when the content model of the first in the Transitional or Frameset DTD, minus its own exclusions, names the second.", "quantifier": "every pair of elements", "why_tests_cant": "The table must be compared with the DTD entry by entry.", "anchors": ["include/stdex/html.hpp: element_traits::may_contain"]}
{"id": "C158", "title": "Documents valid by HTML 4.01 nest as HTML 4.01 says", "statement": "A document that HTML 4.01 permits is given the element structure HTML 4.01 defines: rows of a table without tbody tags are inside of the table, ins and del inside of a paragraph are inside of it.", "quantifier": "every valid document", "why_tests_cant": "Valid documents are unlimited.", "anchors": ["include/stdex/html.hpp: document::append, element_traits::may_contain"]}
{"id": "C159", "title": "Flushing reports failure", "statement": "After basic_sys::flush the state is ok if the operating system has written the data to the device, and fail otherwise.", "quantifier": "every descriptor and state", "why_tests_cant": "The device must fail at the right moment.", "anchors": ["include/stdex/stream.hpp: basic_sys::flush"]}
{"id": "C160", "title": "Entities declared in quotation marks", "statement": "An entity declared as SGML requires, <!ENTITY % name \"value\">, has the value without the quotation marks.", "quantifier": "every declaration", "why_tests_cant": "Needs a declaration with quotation marks.", "anchors": ["include/stdex/html.hpp: document::append (1825-1842)"]}
{"id": "C161", "title": "Formatting appends the formatted text", "statement": "sprintf, appendf and their v- variants append exactly the text printf makes of the format and the arguments (or replace the string by it) and return its length: for char whenever it has fewer than 1024 characters, for wchar_t whatever its length, provided that vswprintf reports too small buffers by EOVERFLOW; whatever errno was before.", "quantifier": "every text, destination and errno", "why_tests_cant": "Which of three ways is taken depends on the length of the text.", "anchors": ["include/stdex/string.hpp: vappendf, appendf, vsprintf, sprintf"]}
{"id": "C162", "title": "Formatting of long texts", "statement": "appendf appends the formatted char text whatever its length. (Refuted: a text of exactly 1024 characters has its last one replaced by the terminator, a longer one makes appendf throw unless errno is EOVERFLOW from earlier, since vsnprintf does not report truncation by errno; where vswprintf does not set errno the same holds for wide texts from 256 units on.)", "quantifier": "every text", "why_tests_cant": "Only texts of a particular length reach the second call.", "anchors": ["include/stdex/string.hpp: vappendf"]}
{"id": "C163", "title": "CSS comments and comment marks", "statement": "css_comment matches exactly from /* to the first */ behind it, and content is what is between them; css_cdo matches exactly <!-- and css_cdc exactly -->.", "quantifier": "every text, start and end", "why_tests_cant": "The first end mark has to be found whatever comes in front of it.", "anchors": ["include/stdex/parser.hpp: basic_css_comment, basic_css_cdo, basic_css_cdc"]}
{"id": "C164", "title": "CSS strings", "statement": "css_string recognises every CSS 2.1 string in quotation marks whose text does not end in an escaped backslash, with content between the marks; whatever it recognises starts and ends in the same quotation mark, and each such mark in between has a backslash in front of it.", "quantifier": "every text, quotation mark and content", "why_tests_cant": "Backslashes combine with what follows them.", "anchors": ["include/stdex/parser.hpp: basic_css_string"]}
{"id": "C165", "title": "Addresses in CSS", "statement": "css_uri recognises url( ) in either case with an address in quotation marks or not, with white space around it, and css_import recognises @import with a quoted address; content is exactly the address, and always inside of what was matched.", "quantifier": "every text, address and white space", "why_tests_cant": "White space, quotation marks, escapes and cases combine.", "anchors": ["include/stdex/parser.hpp: basic_css_uri, basic_css_import"]}
{"id": "C166", "title": "CSS escapes in strings and addresses", "statement": "css_string and css_uri recognise everything CSS 2.1 allows there. (Refuted: a string that ends in an escaped backslash is not recognised as that string, and an escaped parenthesis ends an unquoted address.)", "quantifier": "every string and address", "why_tests_cant": "An escaped backslash in front of the end is easily forgotten.", "anchors": ["include/stdex/parser.hpp: basic_css_string, basic_css_uri"]}
{"id": "C167", "title": "Tags of tokens", "statement": "The tag append_tag writes for a token is read by parse_tag as that token wherever it stands in a text, and reading goes on right behind it.", "quantifier": "every token address except null, every text in front and behind", "why_tests_cant": "The address and the surrounding text are arbitrary.", "anchors": ["include/stdex/html.hpp: token::append_tag, token::parse_tag"]}
{"id": "C168", "title": "Parse and link rebuild a document", "statement": "parse makes tokens of the sequences of a document and link makes a source of the tokens again: texts, titles and addresses (also those in style sheets) are decoded and encoded anew, everything else, elements whose contents are opaque among it, is copied, in the order of the document.", "quantifier": "every source, sequences that nest, every placement of the tokens in memory", "why_tests_cant": "Tokens nest to any depth, and link follows addresses that are part of the text.", "anchors": ["include/stdex/html.hpp: parser::parse, parser::parse_css, parser::link"]}
{"id": "C169", "title": "Documents nest for the parser", "statement": "In every document that append and assign make, an element that starts inside of another does not end behind it, and names and attributes lie inside of their elements in order.", "quantifier": "every sequence of calls and source", "why_tests_cant": "The stack of open elements depends on the whole document.", "anchors": ["include/stdex/html.hpp: document::append, document::assign"]}
{"id": "C170", "title": "Unescaped documents survive parse and link", "statement": "A document whose texts and values hold nothing that is escaped, without declaration conditions and unended opaque elements, is exactly the same after parse and link.", "quantifier": "every such document", "why_tests_cant": "Every unit of the source must be accounted for once.", "anchors": ["include/stdex/html.hpp: document, parser::parse, parser::link"]}
{"id": "C171", "title": "Changing the active tokens", "statement": "Changing from a list of active tokens to another ends exactly those behind the common start, innermost first, with the names they were started with, and starts exactly those missing, outermost first.", "quantifier": "every pair of lists of tokens", "why_tests_cant": "The lists share starts of any length.", "anchors": ["include/stdex/html.hpp: parser::end_tokens, parser::start_tokens"]}
{"id": "C172", "title": "Inserted tokens", "statement": "append_inserted_tokens puts each token anchored to the word where it belongs, with its active tokens around it and in order, removes exactly those from the list and keeps the others.", "quantifier": "every list of inserted tokens, word and side", "why_tests_cant": "The list changes while it is walked.", "anchors": ["include/stdex/html.hpp: parser::append_inserted_tokens"]}
{"id": "C173", "title": "Merging lists of tokens", "statement": "merge of two lists of tokens holds the tokens of both. (Refuted: nothing is ever added to the first list.)", "quantifier": "every pair of lists", "why_tests_cant": "A branch that no execution takes cannot be seen from outside for lists that hold the same tokens.", "anchors": ["include/stdex/html.hpp: parser::merge"]}
{"id": "C174", "title": "Every document is rebuilt", "statement": "parse and link succeed for every document and what they make means the same. (Proved for documents without style sheets, with ended opaque elements and no references to the unit 18; refuted for an unended opaque element, a reference to the unit tags begin with, an address in a style sheet that ends in a backslash, a quotation mark in a title and a section of character data.)", "quantifier": "every document", "why_tests_cant": "Only particular combinations fail.", "anchors": ["include/stdex/html.hpp: parser::parse, parser::link, parser::parse_css"]}
{"id": "C175", "title": "HTML tokens tell what the document is", "statement": "After parse every text, tag, end tag, comment and so on of the document that is not inside of an opaque element has a token, tagged inside of the token of the innermost group (paragraph, heading, list, table cell ...) it is in, at the place the mapping says; a start tag of an element with contents is a starting token with the name and end of the element, an end tag an ending one, everything else complete; titles in attributes are title tokens with the decoded text, addresses are address tokens; a group's token is a title exactly for headings, terms and titles, a bullet exactly for lists, and has text exactly if there is some that is not white space.", "quantifier": "every source, every division, every placement of tokens in memory", "why_tests_cant": "Documents and their nesting are unlimited; link does not show what the tokens say about themselves.", "anchors": ["include/stdex/html.hpp: parser::parse, text_token, starting_token, url_token"]}
{"id": "C176", "title": "White space in HTTP", "statement": "http_space matches exactly the longest run of white space, unless that run is a single line break, and never reads beyond the end or the terminator.", "quantifier": "every text, start and end", "why_tests_cant": "Texts are unlimited.", "anchors": ["include/stdex/parser.hpp: http_space, http_line_break"]}
{"id": "C177", "title": "HTTP tokens", "statement": "http_token matches exactly the longest non-empty run of units that are neither control characters, white space nor one of the seventeen separators.", "quantifier": "every text, start and end", "why_tests_cant": "Texts are unlimited.", "anchors": ["include/stdex/parser.hpp: http_token"]}
{"id": "C178", "title": "HTTP quoted strings and values", "statement": "http_quoted_string matches exactly a quotation mark, a body in which each quotation mark is escaped and each line break folded, and a quotation mark, with content between them; http_value exactly a quoted string or a token.", "quantifier": "every text, start and end", "why_tests_cant": "Escapes and folding combine.", "anchors": ["include/stdex/parser.hpp: http_quoted_string, http_value"]}
{"id": "C179", "title": "HTTP parameters", "statement": "http_parameter matches exactly a token, white space, and a value with or without an equals sign in front of it, and tells where each is.", "quantifier": "every text, start and end", "why_tests_cant": "White space, sign and value combine.", "anchors": ["include/stdex/parser.hpp: http_parameter"]}
{"id": "C180", "title": "HTTP media types", "statement": "http_media_range matches exactly type / subtype with white space around the slash; http_media_type further takes all parameters behind semicolons there are, in order, and ends where the last one does.", "quantifier": "every text, start and end", "why_tests_cant": "The number of parameters is unlimited.", "anchors": ["include/stdex/parser.hpp: http_media_range, http_media_type"]}
{"id": "C181", "title": "HTTP cookies", "statement": "http_cookie matches exactly name = value, followed by all parameters $name = value behind semicolons there are, in order.", "quantifier": "every text, start and end", "why_tests_cant": "The number of parameters is unlimited.", "anchors": ["include/stdex/parser.hpp: http_cookie, http_cookie_parameter"]}
{"id": "C182", "title": "Servers and ports of HTTP addresses", "statement": "http_url_server matches exactly the longest non-empty run of printable units other than colon and slash; http_url_port matches exactly the longest run of digits if its value is at most 65535, and gives that value.", "quantifier": "every text, start and end", "why_tests_cant": "Numbers of any length must not overflow.", "anchors": ["include/stdex/parser.hpp: http_url_server, http_url_port"]}
{"id": "C183", "title": "Paths and parameters of HTTP addresses", "statement": "http_url_path divides a path into all its segments; http_url_parameter matches exactly name or name = value. (The path must not start at the end, and a parameter must have a readable unit at the end: otherwise the code reads outside of the text.)", "quantifier": "every text, start and end", "why_tests_cant": "The number of segments is unlimited.", "anchors": ["include/stdex/parser.hpp: http_url_path_segment, http_url_path, http_url_parameter"]}
{"id": "C184", "title": "HTTP addresses", "statement": "http_url matches exactly [http://server[:port]]/path[?parameters], in any case of http, with the default port 80, and gives every part. (For texts with a terminator in front of the end.)", "quantifier": "every text, start, end and folding of letters", "why_tests_cant": "Every part is optional.", "anchors": ["include/stdex/parser.hpp: http_url"]}
{"id": "C185", "title": "HTTP languages", "statement": "http_language matches exactly letters, with as many further groups of letters behind hyphens as there are, and gives each.", "quantifier": "every text, start and end", "why_tests_cant": "The number of groups is unlimited.", "anchors": ["include/stdex/parser.hpp: http_language"]}
{"id": "C186", "title": "HTTP weights", "statement": "http_weight matches exactly digits with an optional fraction, and gives the integer part, the numerator and the denominator, each modulo 2^64.", "quantifier": "every text, start and end", "why_tests_cant": "Digits are unlimited.", "anchors": ["include/stdex/parser.hpp: http_weight"]}
{"id": "C187", "title": "HTTP agents", "statement": "http_agent matches exactly type or type/version up to white space, and gives both; without a version the version of the previous match stays.", "quantifier": "every text, start, end and earlier match", "why_tests_cant": "Texts are unlimited.", "anchors": ["include/stdex/parser.hpp: http_agent"]}
{"id": "C188", "title": "HTTP protocols", "statement": "http_protocol matches exactly type/major[.minor] followed by white space, gives the parts, and the version major * 256 + minor modulo 2^16 when both are numbers below 2^64.", "quantifier": "every text, start and end", "why_tests_cant": "Texts are unlimited.", "anchors": ["include/stdex/parser.hpp: http_protocol"]}
{"id": "C189", "title": "HTTP request lines", "statement": "http_request matches exactly a line of a method, an address and an optional protocol, with white space between, gives them all and ends at the start of the next line.", "quantifier": "every text with a terminator, start, end and folding of letters", "why_tests_cant": "Parts, white space and line breaks combine.", "anchors": ["include/stdex/parser.hpp: http_request"]}
{"id": "C190", "title": "HTTP headers", "statement": "http_header matches exactly a name, a colon and a value over all the lines folded into it, gives the name and the value without the white space around them, and ends at the start of the next header.", "quantifier": "every text, start and end", "why_tests_cant": "Folded lines are unlimited.", "anchors": ["include/stdex/parser.hpp: http_header"]}
{"id": "C191", "title": "Any HTTP media type", "statement": "http_any_type and http_asterisk match exactly */* or *, and *.", "quantifier": "every text, start and end", "why_tests_cant": "Texts are unlimited.", "anchors": ["include/stdex/parser.hpp: http_any_type, http_asterisk"]}
{"id": "C192", "title": "Weighted HTTP values", "statement": "http_weighted_value matches exactly an asterisk or a value, with ; q = weight behind it if that is there, for tokens, languages and media ranges.", "quantifier": "every text, start and end", "why_tests_cant": "White space and optional parts combine.", "anchors": ["include/stdex/parser.hpp: http_weighted_value, http_weight"]}
{"id": "C193", "title": "Lists of weighted HTTP values", "statement": "The elements of an http_weighted_collection are exactly those of the list in the text, each once, heaviest first, and in the order of the text among equal weights; whatever the order of weights is, as long as it is one.", "quantifier": "every text, start, end and weak order", "why_tests_cant": "Lists are unlimited.", "anchors": ["include/stdex/parser.hpp: http_weighted_collection, http_value_collection"]}
{"id": "C194", "title": "Lists of HTTP values", "statement": "http_value_collection holds exactly the elements of the list in the text, in order.", "quantifier": "every text, start and end", "why_tests_cant": "Lists are unlimited.", "anchors": ["include/stdex/parser.hpp: http_value_collection"]}
{"id": "C195", "title": "The mapping of HTML tokens", "statement": "The mapping of a token maps the place of each reference in the source to its place in the text. (Refuted: behind a tag or another text the length of the text is added twice.)", "quantifier": "every document", "why_tests_cant": "Only a reference that is not in the first text of its token shows it.", "anchors": ["include/stdex/html.hpp: parser::parse (2444-2446)", "include/stdex/sgml.hpp: sgml2strcat (239-243)"]}
{"id": "C196", "title": "The HTTP parsers and RFC 2616", "statement": "The HTTP parsers accept what RFC 2616 defines. (Refuted: white space may swallow an empty line, octets from 128 on are refused in quoted strings, white space behind the sign of a parameter makes it fail, an address may end beyond the text, a parameter reads the unit behind the end, a colon without number gives port 0, 64 decimals give a zero denominator, a minor version of 256 is carried, a protocol at the end of the text is refused, an empty list element ends the list, weights and versions of earlier matches stay.)", "quantifier": "every message", "why_tests_cant": "Each needs a particular message.", "anchors": ["include/stdex/parser.hpp: http_*"]}
{"id": "C197", "title": "A MIME content type is split where the text says", "statement": "For every text, range, and classification of spaces, a mime_type match returns (without reading beyond the terminator or the end) true exactly if the text starts with a non-empty base type, a slash and a non-empty subtype (neither holding a slash, a semicolon or a space), and base_type, sub_type, charset and interval are then exactly those parts: charset is the value behind `charset=` (in any case) that follows a semicolon and spaces, the content of its quotes if quoted, up to the next space or end otherwise, and invalid if there is none or if the closing quote is missing.", "quantifier": "every text, start and end within it, every locale's classification of spaces", "why_tests_cant": "unit tests try a handful of content types; the claim covers every text and every truncation of it", "anchors": ["include/stdex/parser.hpp: basic_mime_type"]}
{"id": "C198", "title": "The charset of a MIME type is its charset parameter (fails)", "statement": "The charset a mime_type match reports is the value of the type's parameter `charset`, wherever it stands among the parameters (RFC 2045, 5.1). It is not: a parameter in front of it hides it, and a parameter that follows it without a space is taken for a part of its value.", "quantifier": "every type, subtype and list of parameters", "why_tests_cant": "tests use the one parameter the author had in mind", "anchors": ["include/stdex/parser.hpp: basic_mime_type"]}
{"id": "C199", "title": "WAV structures are stored as the format says", "statement": "Writing a WAV structure (header, format, content, cues, ltxt, label, note) to a file stores exactly the little-endian bytes of its fields at the position, texts with a terminator or nothing when empty, over what was there, and moves the position behind them; a format with more than 65535 extra bytes throws invalid_argument instead.", "quantifier": "every structure, file and position", "why_tests_cant": "Fields, texts, data and files are unlimited in number.", "anchors": ["include/stdex/wav.hpp: header, format, content, cue_vector, ltxt, label, note (operator<<)", "include/stdex/idrec.hpp: record"]}
{"id": "C200", "title": "WAV records are read back", "statement": "Reading the record of a WAV structure that holds the bytes of a structure (a 16-byte or an extended format, a content, cues, an ltxt or label with a text that is terminated or not) gives that structure, with the text up to its first zero, and leaves the file right behind the record and its padding. Whatever a file that writes such a record then holds, the record that was written is read.", "quantifier": "every structure, record and file", "why_tests_cant": "Records are unlimited in number and length.", "anchors": ["include/stdex/wav.hpp: header, format, content, cue_vector, ltxt, label (operator>>)", "include/stdex/idrec.hpp: record"]}
{"id": "C201", "title": "The first WAV format record", "statement": "read_first finds the first format record among any well-formed records, gives its format and leaves the file right behind it; when there is none below the limit, it tells false and the value stays.", "quantifier": "every sequence of records, limit, format and file", "why_tests_cant": "Sequences of records are unlimited.", "anchors": ["include/stdex/wav.hpp: read_first"]}
{"id": "C202", "title": "WAV cues are stored as the format says", "statement": "Writing extended cues stores exactly a cue record with all cues in order and a LIST record of type adtl that holds, for each cue, an ltxt record and, for a non-empty title and note, a labl and note record, each with right lengths and padding.", "quantifier": "every list of cues whose records can be counted in 32 bits, every file and position", "why_tests_cant": "Cues are unlimited in number.", "anchors": ["include/stdex/wav.hpp: operator<< of std::vector<cue_ex>"]}
{"id": "C203", "title": "Reading WAV cues", "statement": "read_cues over any well-formed records below a limit (at an even position) returns true and gives the cues of the cue record in order of their ids, each with the description, title and note the records of the associated data lists give to its id; records of other kinds have no effect, the file is unchanged and the position is what it was.", "quantifier": "every sequence of well-formed records, file and earlier content of the cues; every stable or unstable sort and binary search", "why_tests_cant": "Records come in any number and order.", "anchors": ["include/stdex/wav.hpp: read_cues"]}
{"id": "C204", "title": "WAV cues survive a round trip", "statement": "Extended cues with different ids written to a file at an even position and read back from there are the same cues, in order of their ids.", "quantifier": "every list of cues, file and even position", "why_tests_cant": "Cues are unlimited in number, texts in length.", "anchors": ["include/stdex/wav.hpp: operator<< of std::vector<cue_ex>, read_cues"]}
{"id": "C205", "title": "WAV cues up to the end of the file (fails)", "statement": "read_cues with the default limit reads the cues of a file to its end and returns true. (Refuted: it never returns true, whatever the file, and on every file that is well-formed to its end it does not return at all.)", "quantifier": "every file", "why_tests_cant": "That no execution ends is beyond tests.", "anchors": ["include/stdex/wav.hpp: read_cues"]}
{"id": "C206", "title": "Finding WAV blocks", "statement": "find_first finds the first record with an id and sub-id below a limit, tells where it ends and leaves the file behind the sub-id; find_content finds the WAVE block so. (Holds where the records start at an even position of the file. Refuted elsewhere: the padding is computed from the absolute end of a record rather than from its size.)", "quantifier": "every sequence of records, ids, limit, file and position", "why_tests_cant": "Sequences of records are unlimited.", "anchors": ["include/stdex/wav.hpp: find_first, find_content"]}
{"id": "C207", "title": "Removing WAV cues (fails)", "statement": "remove_cues copies to the output the records that are not about cues (cue, ltxt, labl, note), and none that are. (Refuted, and proved of every well-formed input: it copies exactly the records that are about cues and drops all the others.)", "quantifier": "every sequence of well-formed records, with or without a limit", "why_tests_cant": "Sequences of records are unlimited.", "anchors": ["include/stdex/wav.hpp: remove_cues"]}
{"id": "C208", "title": "SI references are recognised part by part", "statement": "An SI reference parser matches exactly where the text begins with SI (in any case, if that is asked for) and two digits. It then holds the two digits of the model and up to three parts: the runs of digits, one '-' between two of them, that follow the model, after what the parser of spaces takes once; model 99 has none. The match ends with the last part, or behind the model if there is none; a '-' with no digits behind it is not part of it. A parser that does not match holds no model, no part, and is not valid.", "quantifier": "every text, start, end and flags, every parser of spaces and every earlier state of the object", "why_tests_cant": "One would have to try every text, with every number and length of parts; tests use a few references.", "anchors": ["include/stdex/parser.hpp: basic_si_reference, basic_si_reference_part, basic_si_reference_delimiter"]}
{"id": "C209", "title": "SI references with checks of single parts are valid exactly by the rules of their model", "statement": "Where each check of an SI reference's model covers one part, is_valid says exactly whether the reference obeys the model: the number of parts is one the model allows, no part has more than twelve digits and all have no more than twenty (model 12: one part of up to thirteen), and each part the model checks ends with its control digit: 11 less the remainder modulo 11 of the sum of the digits times 2, 3, 4, ... from the right, 0 for 10 and 11. References of models the parser does not know are valid.", "quantifier": "every text, model, number and length of parts", "why_tests_cant": "There are 10^20 references; the rules of 26 models for one to three parts are a table in which one wrong entry is seen only with a reference of that model.", "anchors": ["include/stdex/parser.hpp: basic_si_reference::do_match, check11"]}
{"id": "C210", "title": "SI references with checks over joined parts are valid exactly by the rules of their model", "statement": "Where a model checks several parts joined to one (models 01 and 09 with two or three parts; 06, 08 and 10 with three), is_valid says exactly whether the reference obeys the model, the control digit being the last digit of the last part of those joined.", "quantifier": "every text, model, number and length of parts", "why_tests_cant": "As for single parts; the wrong cases are one in eleven.", "anchors": ["include/stdex/parser.hpp: basic_si_reference::check11"]}
{"id": "C211", "title": "Times are hh:mm, hh:mm:ss or hh:mm:ss.mmm, and tell where their parts are", "statement": "A time matches exactly where an hour, a separator and a minute below 60 follow each other. Seconds belong to it when the same separator and a number below 60 follow, milliseconds when behind them their separator and a number below 1000 do; the interval ends with the last part. After the match hour, minute, second and millisecond hold interval and value of what they matched, those without a part are invalid; when there is no time all are. The hour is not limited.", "quantifier": "every text, position and end, all held parsers (second, millisecond and its separator may be null) and every earlier use of the object", "why_tests_cant": "Which of the parts count depends on values, on the equality of two separators and on optional parsers; stale members of an earlier match show only in sequences of calls.", "anchors": ["include/stdex/parser.hpp: basic_time"]}
{"id": "C212", "title": "Angles are degrees, minutes and seconds, of which some may be missing", "statement": "From start on, degrees count when their sign follows, then minutes when they are below 60 and their sign follows, then seconds below 60 with or without sign, each from where the part before ended; a part that does not count is invalid and takes no text. The angle matches exactly when one of degrees, minutes and seconds took up some text, and a decimal part behind it belongs to it.", "quantifier": "every text, position and end, all held parsers (seconds, their sign and the decimal part may be null) and every earlier use of the object", "why_tests_cant": "Every subset of the parts, with and without signs and out of range values, over every text.", "anchors": ["include/stdex/parser.hpp: basic_angle"]}
{"id": "C213", "title": "Dates are recognised in the first of the allowed formats that fits", "statement": "Of the formats dmy, mdy, ymd, ym, my, dm and md that are in the mask, in this order, the first that fits is taken: format says it, the interval is that of the parts (with a second separator behind dm and md if it is the same as the first), day, month and year hold what they matched and the one the format lacks is invalid. Separators of one date are the same; blanks around them belong to it, without line breaks. Where no format fits there is no match, format is none and all three are invalid.", "quantifier": "every mask, text, position and end, all held parsers (parts that no allowed format has may be null) and every earlier use of the object", "why_tests_cant": "Seven formats in 128 masks that try the same parsers again and again on the same text; members left over by a failed format show only in combinations.", "anchors": ["include/stdex/parser.hpp: basic_date"]}
{"id": "C214", "title": "A matched date exists in the calendar", "statement": "When a date with day, month and year is matched, that day exists in that year.", "quantifier": "every text, mask and date", "why_tests_cant": "The test would need all numbers for day, month and year.", "anchors": ["include/stdex/parser.hpp: basic_date::is_valid"]}
{"id": "C215", "title": "DNS names are labels between separators", "statement": "A DNS name is recognised exactly where up to 127 labels with a separator between each two stand; a label is a run of domain characters of which the first and the last may be at the edge. Where absolute names are allowed, one separator may follow the last label. Of the names that start at the position the longest is taken, and a host name never ends in a separator unless absolute names are allowed. The result does not depend on earlier matches, and nothing beyond the terminator or the end is read.", "quantifier": "every text, position, end, flags, either setting of absolute names, every domain-character and separator parser", "why_tests_cant": "The names have any number of labels of any length.", "anchors": ["include/stdex/parser.hpp: basic_dns_domain_char, basic_dns_name"]}
{"id": "C216", "title": "URL paths split into path, query and bookmark", "statement": "The path is the characters up to the first query or bookmark start, the query those up to the first bookmark start, the bookmark all characters behind; each is empty or invalid where its start is missing, and the three intervals and the interval of the whole say just this. There is no match where there is neither a character nor a query nor a bookmark start.", "quantifier": "every text, position, end, flags, and character, query-start and bookmark-start parser", "why_tests_cant": "Any text may follow.", "anchors": ["include/stdex/parser.hpp: basic_url_path_char, basic_url_path"]}
{"id": "C217", "title": "URLs are decomposed into their parts", "statement": "With http or without a scheme: optional user name and password (http only), host (IPv4, IPv6 in brackets or a name, in this order), optional port, optional path. With ftp the same, with mailto user name, at and host, with file an optional path. Where this fits, the interval is that of all of it, and every member's interval is that of its part, or invalid where the part is missing; the decomposition is unique. Where it does not fit there is no match and all members are invalid. The parser can be used again after any match or invalidate.", "quantifier": "every text, position, end, flags, every set of held parsers, every state", "why_tests_cant": "The URL is any text.", "anchors": ["include/stdex/parser.hpp: basic_url"]}
{"id": "C218", "title": "E-mail addresses are user name, at, host", "statement": "An e-mail address is matched where a user name, an at and a host stand: an IPv4 or IPv6 address in brackets, or a name. The members hold these, the others are invalid; otherwise there is no match and all are invalid.", "quantifier": "every text, position, end, flags, every set of held parsers, every state", "why_tests_cant": "The address is any text.", "anchors": ["include/stdex/parser.hpp: basic_email_address"]}
{"id": "C219", "title": "A user name without a password is recognised in ftp URLs", "statement": "In a ftp URL a user name before the at is the user name and the host is behind it.", "quantifier": "every ftp URL", "why_tests_cant": "Such URLs need not be in a test.", "anchors": ["include/stdex/parser.hpp: basic_url"]}
{"id": "C220", "title": "Emoticons are recognised", "statement": "An emoticon is one of the given characters, or an optional apex, eyes, an optional nose and a mouth, which is as many of the same mouth characters as there are; the form with a nose is tried first. The members hold these parts, those that are missing are invalid; otherwise there is no match and all are invalid.", "quantifier": "every text, position, end, flags, every set of held parsers, every state", "why_tests_cant": "A mouth has any length.", "anchors": ["include/stdex/parser.hpp: basic_emoticon"]}
{"id": "C221", "title": "The mouth of an emoticon tells which one it is", "statement": "After a match, hit_offset of the mouth is the position in the set of the mouth that was matched.", "quantifier": "every text and set", "why_tests_cant": "All lengths of mouths and what follows count.", "anchors": ["include/stdex/parser.hpp: basic_emoticon, basic_set"]}
{"id": "C222", "title": "User names, passwords and paths of URLs take the characters of RFC 3986", "statement": "User names take the unreserved characters, sub-delimiters and the percent sign; passwords these and the colon; paths also at, slash, question mark and hash.", "quantifier": "every character, and every locale whose letters and digits are those of ASCII", "why_tests_cant": "All characters have to be tried.", "anchors": ["include/stdex/parser.hpp: basic_url_username_char, basic_url_password_char, basic_url_path_char"]}
{"id": "C223", "title": "Phone numbers are recognised and normalised", "statement": "A phone number is an optional plus sign and pieces: digits, one pair of parentheses of the same kind, separators behind a digit outside of the parentheses and spaces without line breaks behind a digit or the right parenthesis. It ends behind the last digit outside of the parentheses or the right parenthesis, and value is its text without separators and spaces. Where no digit outside of the parentheses is found, there is no match and value is empty. The result does not depend on earlier matches.", "quantifier": "every text, position, end, flags, every set of held parsers (of which those of right parentheses and spaces recognise different things)", "why_tests_cant": "A number has any number of pieces.", "anchors": ["include/stdex/parser.hpp: basic_phone_number"]}
{"id": "C224", "title": "Phone numbers have a well-formed shape", "statement": "A matched phone number has a digit outside of the parentheses, ends with a digit or a right parenthesis, and has no or one pair of parentheses, which is closed. With plain characters value is the matched text less the separators and blanks.", "quantifier": "every text and match", "why_tests_cant": "The test would need all texts.", "anchors": ["include/stdex/parser.hpp: basic_phone_number"]}
{"id": "C225", "title": "Phone numbers may be parsed without parentheses", "statement": "The parsers of the parentheses may be null, like those of the plus sign, separators and spaces, which the tests for null in the loop suggest.", "quantifier": "every text and parser without parentheses", "why_tests_cant": "Undefined behaviour need not show in a test.", "anchors": ["include/stdex/parser.hpp: basic_phone_number::do_match"]}
{"id": "C226", "title": "Chemical formulas are recognised", "statement": "A chemical formula is one or more elements, each with any number of digits, and an optional sign behind all of them. Elements are told apart by case even if the caller asks not to. The match takes all elements and digits there are; has_digits tells whether there is a digit, has_charge whether there is a sign. Otherwise there is no match and both are false.", "quantifier": "every text, position, end, flags, every element, digit and sign parser, every state", "why_tests_cant": "A formula has any number of elements.", "anchors": ["include/stdex/parser.hpp: basic_chemical_formula"]}
{"id": "C227", "title": "An SGML code point", "statement": "Every SGML test looks at exactly one code point at the start: a well-formed, known reference taken whole (its text is what sgml2str makes of it), or one plain character; sgml_cp matches exactly when the text of that code point is that of the first code point it was given (up to case when asked), and the match covers exactly the code point. The outcome is defined for every text. (Refuted: where wchar_t has 32 bits, the text of a numeric reference is returned in a buffer that is gone.)", "quantifier": "every text, every bound, every given code point, both flag values, both widths of wchar_t", "why_tests_cant": "Whether an ampersand starts a reference depends on everything up to the next semicolon; use of a dead local shows only under some optimizers.", "anchors": ["include/stdex/parser.hpp: basic_parser::next_sgml_cp, sgml_cp", "include/stdex/sgml.hpp: sgml2uni, utf32_to_wstr"]}
{"id": "C228", "title": "SGML classes", "statement": "sgml_space_cp, sgml_punct_cp and sgml_space_or_punct_cp match exactly when the code point at the start is a space (a line break only with match_multiline), punctuation, or either; inverted, exactly when something is there and is not. (Refuted for the reference &#0; where wchar_t has 16 bits: it has no text and is in every class.)", "quantifier": "every text, bound, locale, both flags, inverted or not", "why_tests_cant": "infinitely many texts; the reference without a text is one of many", "anchors": ["include/stdex/parser.hpp: sgml_space_cp, sgml_punct_cp, sgml_space_or_punct_cp"]}
{"id": "C229", "title": "SGML sets", "statement": "sgml_cp_set matches exactly when the text of the code point at the start occurs in the set; for a single character, when the set has it (up to case when asked); hit_offset is the first place where it occurs. (Refuted for &#0;, which is in every set.)", "quantifier": "every text, every set, inverted or not", "why_tests_cant": "infinitely many texts and sets", "anchors": ["include/stdex/parser.hpp: sgml_cp_set", "include/stdex/string.hpp: strnstr, strnistr"]}
{"id": "C230", "title": "SGML strings", "statement": "sgml_string matches exactly when the text goes on with code points that spell the string (up to case when asked), takes no more of them than needed, and what it matched decodes with sgml2str to the string.", "quantifier": "every text, every bound, every string", "why_tests_cant": "A reference may straddle the end of the string or the bound; the decoder and the parser are separate code.", "anchors": ["include/stdex/parser.hpp: sgml_string", "include/stdex/sgml.hpp: sgml2strcat"]}
{"id": "C231", "title": "SGML characters of names and URLs", "statement": "The SGML variants of the tests for scope identifiers, DNS names and URL user names, passwords and paths match a code point of one character exactly when the plain variants take that character; a DNS name in SGML is matched exactly where there is one, and the longest.", "quantifier": "every text, bound, locale, both values of allow_idn and allow_absolute", "why_tests_cant": "infinitely many texts", "anchors": ["include/stdex/parser.hpp: sgml_ipv6_scope_id_char, sgml_dns_domain_char, sgml_url_username_char, sgml_url_password_char, sgml_url_path_char, basic_dns_name"]}
{"id": "C232", "title": "Minisign line parsers", "statement": "untrusted_comment matches exactly at the text \"untrusted comment:\", all of it within the bound; line_break matches CR LF or LF and nothing else, CR LF first.", "quantifier": "every text, position and bound", "why_tests_cant": "infinitely many texts", "anchors": ["include/stdex/minisign.hpp: untrusted_comment, line_break"]}
{"id": "C233", "title": "Minisign signature", "statement": "parse_minisig takes the first line with a line end that is neither empty nor an untrusted comment; gives algorithm, key and signature as its Base64 decodes to, leaves the stream behind the line; throws exactly when there is no such line or what it decodes to has less than 74 bytes or does not start with E.", "quantifier": "every stream that does not fail, however it cuts its reads", "why_tests_cant": "the cuts of reads and lines are unbounded", "anchors": ["include/stdex/minisign.hpp: parse_minisig", "include/stdex/stream.hpp: readln_and_attach", "include/stdex/base64.hpp: base64_dec"]}
{"id": "C234", "title": "Minisign files as written", "statement": "A file of an untrusted comment and a line with a signature, in any partition of Base64 and noise, gives back algorithm, key and signature. (Refuted where the file ends with that line without a line end: parse_minisig throws.)", "quantifier": "every comment, algorithm, key, signature, encoding of them and rest of file", "why_tests_cant": "infinitely many signatures", "anchors": ["include/stdex/minisign.hpp: parse_minisig"]}
{"id": "C235", "title": "Order of language names", "statement": "The comparator of the map of language names is a strict weak order on terminated names, as std::map requires: irreflexive, transitive; two names are equivalent exactly when they are equal but for the case of ASCII letters and the kind of ASCII punctuation.", "quantifier": "every triple of names of any length, whatever follows them in memory", "why_tests_cant": "std::map is undefined for a comparator that is no strict weak order; triples of strings are infinite", "anchors": ["include/stdex/langid.hpp: langid_from_rfc1766, stricmp_less"]}
{"id": "C236", "title": "Language code of a name", "statement": "langid_from_rfc1766 gives the code of the first entry of the table whose name is the same but for case and kind of punctuation, and langid_unknown when there is none.", "quantifier": "every name of any length, every shape of the search tree", "why_tests_cant": "infinitely many names", "anchors": ["include/stdex/langid.hpp: langid_from_rfc1766"]}
{"id": "C237", "title": "Name of a language code", "statement": "rfc1766_from_langid gives the name the table has for the code, which is at most one, and the fallback when there is none.", "quantifier": "every code, every shape of the search tree", "why_tests_cant": "The balanced tree depends on the order of the insertions.", "anchors": ["include/stdex/langid.hpp: rfc1766_from_langid"]}
{"id": "C238", "title": "Language names: name to code and back", "statement": "A name that has a code is, but for case and kind of punctuation, the name rfc1766_from_langid gives for this code.", "quantifier": "every name", "why_tests_cant": "infinitely many names", "anchors": ["include/stdex/langid.hpp: langid_from_rfc1766, rfc1766_from_langid"]}
{"id": "C239", "title": "Language names: code to name and back", "statement": "langid_from_rfc1766 of the name of a code is the code. (Refuted: 34 codes, among them 0x804 Chinese in China, come back as another code with the same name.)", "quantifier": "every code with a name", "why_tests_cant": "A test of some codes says nothing of the others; which of two entries of a map initialiser wins depends on their order", "anchors": ["include/stdex/langid.hpp: langid_from_rfc1766, rfc1766_from_langid"]}
{"id": "C240", "title": "Parts of a language code", "statement": "primary_langid and sub_langid split a code into its low 10 and high 6 bits; their sum is the code.", "quantifier": "every 16-bit code", "why_tests_cant": "65536 codes", "anchors": ["include/stdex/langid.hpp: primary_langid, sub_langid"]}
{"id": "C241", "title": "Descriptors have one owner", "statement": "In every history of creating, copying, assigning, moving, closing and destroying sys_object and stdex::socket objects in which dup in assignments, and close outside of destructors, do not fail: each open descriptor is that of exactly one object, an object never has a descriptor that is not open, and when the last object is gone all are closed.", "quantifier": "every history of any number of objects, every choice of descriptor numbers by the system", "why_tests_cant": "histories and reuse of descriptor numbers are unbounded", "anchors": ["include/stdex/system.hpp: basic_sys_object, sys_object_traits", "include/stdex/socket.hpp: socket_traits"]}
{"id": "C242", "title": "Socket streams close their socket once", "statement": "In every history of creating, moving, closing and destroying stream::socket objects, whatever closesocket answers: each open socket is that of exactly one object, and when the last object is gone all are closed.", "quantifier": "every history", "why_tests_cant": "as above", "anchors": ["include/stdex/stream.hpp: socket"]}
{"id": "C243", "title": "Descriptors have one owner also when system calls fail", "statement": "Each open descriptor is that of exactly one object and no object has one that is not open, also after a failing dup or close. (Refuted: a copy assignment whose dup fails, and close() whose close(2) fails, leave the object with the descriptor already closed, so that its destruction closes the descriptor of another object; a move assignment whose close fails ends the program.)", "quantifier": "every history with failures", "why_tests_cant": "a failing close and a reused number must meet", "anchors": ["include/stdex/system.hpp: basic_sys_object"]}
{"id": "C244", "title": "Charset conversion appends the converted text", "statement": "strcat appends to the string the text up to its terminator or count, converted character by character, however many rounds of the internal buffer it takes; strcpy and convert give the same as the whole result. If a character cannot be converted, what is in front of it is appended and the error is thrown.", "quantifier": "every text of any length, every count, every state of the encoder, every codec that writes whole units and at most a buffer for one character", "why_tests_cant": "Where the buffer of 1024 bytes is full depends on the text; all alignments of characters and buffer would have to be tried.", "anchors": ["include/stdex/unicode.hpp: charset_encoder::strcat, strcpy, convert"]}
{"id": "C245", "title": "A text may be converted in parts", "statement": "Converting two texts without terminators one after the other with the same encoder gives the same string, state and error as converting both together, if the first conversion succeeds.", "quantifier": "every pair of texts, every codec that decides by the bytes of the character alone", "why_tests_cant": "infinitely many texts and places to cut", "anchors": ["include/stdex/unicode.hpp: charset_encoder::strcat"]}
{"id": "C246", "title": "Charset conversion gives the whole text", "statement": "What convert returns without an exception is the text in the target charset, with all the charset needs at its end. (Refuted for charsets with shift states, as UTF-7: the encoder never asks iconv to write what it holds back, so \"\\u00e9\" becomes \"+AO\" instead of \"+AOk-\".)", "quantifier": "every text and codec", "why_tests_cant": "A test with ASCII shows nothing.", "anchors": ["include/stdex/unicode.hpp: charset_encoder::strcat, convert", "include/stdex/unicode.hpp: charset_id::utf7"]}
{"id": "C247", "title": "Conversions are independent", "statement": "What convert gives depends on its text only, not on what the encoder has converted before. (Refuted for UTF-7, where the shift state of one text goes to the next.)", "quantifier": "every pair of conversions with the same encoder", "why_tests_cant": "The first text has to end inside of a shift.", "anchors": ["include/stdex/unicode.hpp: charset_encoder::convert, clear"]}
{"id": "C248", "title": "What happens to the descriptors of an object", "statement": "Copying gives the new object a duplicate, assignment closes the old descriptor and takes a duplicate, moving and move assignment take the descriptor of the other object, which has none afterwards (the assignment closes the old one), close() and destruction close it; assigning an object to itself does nothing. Other objects and descriptors are as before.", "quantifier": "every operation of sys_object, socket and stream::socket, in every state with one owner for each descriptor, when the system calls it relies on succeed", "why_tests_cant": "Whether other descriptors are touched depends on all of the program.", "anchors": ["include/stdex/system.hpp: basic_sys_object, sys_object", "include/stdex/socket.hpp: socket", "include/stdex/stream.hpp: socket"]}
{"id": "C249", "title": "Opening a file does what the mode says", "statement": "open() closes what was open, then: open_existing opens the file as it is, truncate_existing empties it, and both fail without a file; preserve_existing opens or creates it, create_new creates it and fails if there is one, create makes it empty. Where this succeeds and access is allowed, the state is ok, the descriptor is one of that file, at its start, or at its end with mode_append, for writing and reading as asked (for reading if neither is). Otherwise the state is fail, there is no descriptor, and no file was changed. An invalid disposition throws. Other files and descriptors are untouched.", "quantifier": "every mode (all bits), name, content of the file system, file object, answer of the operating system", "why_tests_cant": "A mode has 16 bits; each combination meets every state of the file.", "anchors": ["include/stdex/stream.hpp: file::open, mode_t"]}
{"id": "C250", "title": "Exclusive access is exclusive", "statement": "While a file is open for exclusive access (share_none, documented as the default), another open of it fails. (Refuted on Linux: the share flags are ignored.)", "quantifier": "every file and pair of modes", "why_tests_cant": "It must hold for all other openings of the file.", "anchors": ["include/stdex/stream.hpp: file::open, share_none"]}
{"id": "C251", "title": "A cached file can always read what it caches", "statement": "cached_file opens a file so that the cache can read it when it is opened for writing only, with the same disposition, append and write access as asked.", "quantifier": "every mode", "why_tests_cant": "All combinations of bits.", "anchors": ["include/stdex/stream.hpp: cached_file::open, cached_file"]}
{"id": "C252", "title": "File times are read and set one by one", "statement": "set_atime leaves the modification time and set_mtime the access time; when the operating system refuses an exception is thrown and nothing changes. atime and mtime give the file's time in whole seconds, not later than it.", "quantifier": "every pair of times and date", "why_tests_cant": "infinitely many dates", "anchors": ["include/stdex/stream.hpp: file::atime, mtime, set_atime, set_mtime"]}
{"id": "C253", "title": "A file time that was set is read back", "statement": "After set_mtime or set_atime with a time of whole seconds, mtime or atime gives that time. (Refuted on POSIX: the count of nanoseconds is taken for seconds, so that one second after 1970 becomes the year 2001.)", "quantifier": "every date", "why_tests_cant": "A test with the epoch passes.", "anchors": ["include/stdex/stream.hpp: file::set_atime, set_mtime, atime, mtime, clock"]}
{"id": "C254", "title": "Socket streams transfer every byte once", "statement": "Reading a socket stream gives every byte received once and in order, writing sends what it reports to have taken, and the loops end, however the connection cuts reads and writes and whatever it refuses.", "quantifier": "every connection that behaves as POSIX says, every sequence of requests", "why_tests_cant": "The network decides how much each call transfers.", "anchors": ["include/stdex/stream.hpp: socket::read, write"]}
{"id": "C255", "title": "Moving a socket stream moves its state", "statement": "After moving or move-assigning a socket stream the target has the socket and the state of the source. (Refuted: a failed stream is ok after it was moved, and the target of an assignment keeps its own state.)", "quantifier": "every pair of streams and states", "why_tests_cant": "Needs a stream that has failed.", "anchors": ["include/stdex/stream.hpp: socket"]}
{"id": "C256", "title": "strcpy from UTF-16 to UTF-32 decodes the text", "statement": "strcpy of a zero-terminated UTF-16 text to a UTF-32 buffer stores the code points of the text (a surrogate pair gives one, a lone surrogate itself), a terminator, and returns their number; it writes no other cell, reads nothing behind the terminator, and needs one cell more than there are code points. What was encoded as UTF-16 comes back.", "quantifier": "every UTF-16 text (well formed or not), every destination", "why_tests_cant": "the pairs may stand anywhere, also at the end of the text or of the buffer", "anchors": ["include/stdex/string.hpp: strcpy(char32_t*, char16_t*), surrogate_pair_to_ucs4"]}
{"id": "C257", "title": "strcoll orders texts as the locale does", "statement": "strcoll of two zero-terminated texts gives what the comparison of the locale gives for the texts up to their terminators.", "quantifier": "every pair of zero-terminated buffers, every comparison", "why_tests_cant": "what lies behind the terminators must not matter", "anchors": ["include/stdex/string.hpp: strcoll"]}
{"id": "C258", "title": "strncoll orders texts up to terminators or limits", "statement": "strncoll of two texts with limits compares them up to their terminators or limits, whichever comes first, as the other functions with a limit do.", "quantifier": "every pair of buffers and limits", "why_tests_cant": "the result must not depend on cells behind the terminators", "anchors": ["include/stdex/string.hpp: strncoll"]}
{"id": "C259", "title": "strtod reads the text up to its terminator or limit", "statement": "strtod(str, count, ...) gives what the C function makes of the characters up to the terminator or the limit; what lies behind does not matter and is not read.", "quantifier": "every buffer, limit and conversion", "why_tests_cant": "the source need not be terminated", "anchors": ["include/stdex/string.hpp: strtod"]}
{"id": "C260", "title": "strcatftime and strftime give the formatted text, whatever its length", "statement": "strcatftime appends to the string the text the C function makes of the format, and strftime stores it, for any length of the (nonempty) text: the buffer grows until the text fits.", "quantifier": "every nonempty formatted text, every string", "why_tests_cant": "the text may be longer than any buffer tried first, and just as long as one", "anchors": ["include/stdex/string.hpp: strcatftime, strftime, vstrftime"]}
{"id": "C261", "title": "strftime gives an empty text for an empty result", "statement": "strftime of a format with an empty result gives an empty string.", "quantifier": "every format with an empty result", "why_tests_cant": "an empty result looks as if the buffer was too small", "anchors": ["include/stdex/string.hpp: strcatftime, strftime"]}
{"id": "C262", "title": "get_ptr neither leaks nor deletes twice", "statement": "A call f(get_ptr(owner)) whose callee puts an object in the pointer leaves the owner with this object, and every object not deleted has exactly one owner.", "quantifier": "every history of objects, every callee", "why_tests_cant": "the owner may be empty or not, and the callee may keep, delete or replace what the pointer has", "anchors": ["include/stdex/memory.hpp: ref_unique_ptr, get_ptr"]}
{"id": "C263", "title": "A cached file can be opened again", "statement": "open on a cached_file first writes what is pending to the file that was open; if the new file opens, the cached file then behaves like direct access to it, with nothing of the old one; if not, the state is fail. If the pending writes fail, the old file stays open and what is pending stays pending. close writes what is pending first.", "quantifier": "every state a history of calls leaves, every outcome of opening, every later history", "why_tests_cant": "what the cache holds of the old file must show in no later history", "anchors": ["include/stdex/stream.hpp: cached_file::open, cache::close, cache::invalidate_cache, cache::init"]}
{"id": "C264", "title": "Destroying a cached file reports what could not be written", "statement": "The destructor of cached_file throws if the pending writes cannot be written, and does nothing undefined.", "quantifier": "every state of the cache, every failing file", "why_tests_cant": "it needs a file that fails at the very end", "anchors": ["include/stdex/stream.hpp: cached_file::~cached_file, cache::done, cache::~cache"]}
{"id": "C265", "title": "lock and unlock of a file_window concern bytes of the window", "statement": "lock(offset, length) and unlock of a file_window lock or unlock the bytes offset to offset + length of the window, as far as the window has them, and nothing outside.", "quantifier": "every window, offset and length, every file", "why_tests_cant": "offsets of the window and of the file coincide only for a window at the start", "anchors": ["include/stdex/stream.hpp: file_window::lock, file_window::unlock"]}
{"id": "C266", "title": "A lock taken through a cache protects what goes through the cache", "statement": "After lock through a cache, reads give what the file has once the lock is held; before unlock gives the lock back, what was written is in the file.", "quantifier": "every state of the cache, everything other processes do", "why_tests_cant": "it depends on what other processes write before the lock is granted", "anchors": ["include/stdex/stream.hpp: cache::lock, cache::unlock"]}
{"id": "C267", "title": "buffered_sys writes everything before it closes", "statement": "All that was written through a buffered_sys is written to the handle before the destructor closes it, and what cannot be written is reported.", "quantifier": "every sequence of writes, every buffer sizes, every handle", "why_tests_cant": "the order of the destructors matters, and the last write may fail", "anchors": ["include/stdex/stream.hpp: buffered_sys, buffer::done, buffer::~buffer"]}
{"id": "C268", "title": "scoped_executor runs done whenever the scope is left", "statement": "scoped_executor runs init at once, and done exactly once when the scope is left, whether by an exception or not, with any two functions one may give it.", "quantifier": "every way the functions are given, every way the scope is left", "why_tests_cant": "it depends on the lifetimes of what is passed", "anchors": ["include/stdex/scoped_executor.hpp: scoped_executor"]}
{"id": "C269", "title": "A sanitizing_allocator gives back no data", "statement": "What was stored in memory of a sanitizing_allocator is not in it any more when it is given back to the heap, and nothing else is overwritten.", "quantifier": "every history of allocations, stores and deallocations, every size of the elements", "why_tests_cant": "every block ever given back counts", "anchors": ["include/stdex/memory.hpp: sanitizing_allocator"]}
{"id": "C270", "title": "to_rfc822 gives the RFC 822 date", "statement": "to_rfc822 gives a date of RFC 822 (as RFC 1123 has it) with the day, month, year, hour, minute and second of the time and the right day of the week; two times with the same text are in the same second. (Refuted for years before 1000: the year has not four digits.)", "quantifier": "every date and time", "why_tests_cant": "infinitely many dates, and leap years decide the day of the week", "anchors": ["include/stdex/chrono.hpp: aosn_timestamp::to_rfc822, to_str"]}
{"id": "C271", "title": "to_str of a time gives the formatted text, whatever its length", "statement": "to_str gives the text the C library makes of the format, for any format. (Refuted: a text that does not fit 1024 bytes, or an empty one, goes through memory allocated as an array that is given back as one object.)", "quantifier": "every formatted text", "why_tests_cant": "the text may be longer than the first buffer, or just as long", "anchors": ["include/stdex/chrono.hpp: aosn_timestamp::to_str"]}
{"id": "C272", "title": "platform_from_name knows the platform of a name", "statement": "platform_from_name gives the platform whose name is the argument, but for the case of ASCII letters, and unknown where there is none.", "quantifier": "every zero-terminated name, also of characters beyond ASCII", "why_tests_cant": "the order of the map must be one on all names", "anchors": ["include/stdex/sys_info.hpp: platform_from_name"]}
{"id": "C273", "title": "os_platform is the platform of the operating system", "statement": "sys_info.os_platform is the platform the operating system runs on. (Refuted on Linux: 32-bit x86 is called i686 and 32-bit ARM armv7l, which are unknown; what is not unknown is right.)", "quantifier": "every processor", "why_tests_cant": "one needs all kinds of machines", "anchors": ["include/stdex/sys_info.hpp: sys_info_t, os_platform"]}
{"id": "C274", "title": "A charset conversion is closed once", "statement": "Every conversion (iconv_t) a charset_encoder opened belongs to exactly one encoder until it is closed, and none is used or closed after it was closed. (Refuted: an encoder may be copied, assigned, and moved as by a vector, and both then close the same conversion; assignment also loses the old one.)", "quantifier": "every history of construction, copying, assignment, use and destruction of encoders, also where iconv_open fails", "why_tests_cant": "Double closing shows nothing or crashes somewhere else.", "anchors": ["include/stdex/unicode.hpp: charset_encoder"]}
{"id": "C275", "title": "create_locale gives the locale of the name", "statement": "create_locale(category, name) gives a locale that is that of the name in the category, in all for LC_ALL, and the global one in the others; null where there is none. (Refuted on POSIX: the base LC_GLOBAL_LOCALE makes newlocale undefined; with glibc only \"C\" in all categories works, and locale_utf8 is made before main.)", "quantifier": "every category and name", "why_tests_cant": "it depends on the C library", "anchors": ["include/stdex/locale.hpp: create_locale, locale_C, locale_utf8"]}
{"id": "C276", "title": "exists says whether a name is there", "statement": "file::exists is true if and only if there is a file, folder or symbolic link of the name that can be looked up. (Refuted on POSIX: a symbolic link to nothing is said not to exist.)", "quantifier": "every file system and name", "why_tests_cant": "file systems with chains and circles of links", "anchors": ["include/stdex/stream.hpp: file::exists"]}
{"id": "C277", "title": "readonly says whether nobody may write", "statement": "file::readonly is true if and only if the file or folder behind the name and its links may be written by nobody, by its mode; names that are not there or cannot be looked up are assumed to be writable.", "quantifier": "every file system, name and mode", "why_tests_cant": "file systems with chains and circles of links, all modes", "anchors": ["include/stdex/stream.hpp: file::readonly"]}
