import json
P=[]
def p(title,statement,quant,why,anchors):
    P.append(dict(id="C%02d"%(len(P)+1),title=title,statement=statement,quantifier=quant,why_tests_cant=why,anchors=anchors))
I="include/stdex/"
p("vector_queue is a bounded FIFO",
  "A stdex::vector_queue of capacity n >= 1 driven only by push_back, pop_back, pop_front and clear shows through size/at/[]/front/back exactly the content of a list that appends at the end, drops the oldest element when more than n are held, and removes at the requested end; removing from an empty queue throws and changes nothing, and at(pos) throws exactly when pos >= size(). Capacities up to 2^63 (larger ones cannot be allocated).",
  "every capacity n in [1,2^63], every finite history of those operations, every element type/value",
  "head position, count and wrap-around combine without bound; a test fixes one capacity and one history",
  [I+"vector_queue.hpp: vector_queue::push_back, pop_back, pop_front, clear, at, operator[], front, back, abs"])
p("vector_queue::push_front prepends",
  "push_front(v) makes v the first element, keeps the other elements in order behind it and, when the queue is full, drops only the last element - for every capacity.",
  "every capacity, every queue state, every value",
  "whether it works depends on the capacity and on where the head happens to be (modulo arithmetic at size_t width)",
  [I+"vector_queue.hpp: vector_queue::push_front, abs"])
p("vector_queue copy and move preserve content",
  "Copy construction/assignment gives a queue with the same capacity and the same element sequence as the original (which is unchanged); move gives the same to the target and leaves the source empty.",
  "every reachable queue state, including wrapped-around ones",
  "all head/count combinations", [I+"vector_queue.hpp: vector_queue(const vector_queue&), operator=, move constructor/assignment"])
p("ring hands out in-bounds contiguous regions",
  "In every reachable state of stdex::ring, the region returned by back() lies inside the buffer and contains no byte that is still to be read, the region returned by front() lies inside the buffer and contains only bytes that were pushed and not yet popped, and both are non-empty unless the ring reports quit.",
  "every capacity N >= 1, every history of back/push/front/pop/sync/quit with pushed/popped amounts within the returned regions",
  "all wrap-around positions and histories", [I+"ring.hpp: ring::back, push, front, pop"])
p("ring delivers bytes in order",
  "With one producer and one consumer thread, under every interleaving of their critical sections the sequence of elements read by the consumer is a prefix of the sequence written by the producer; nothing is lost, duplicated or reordered, and when the ring drains they are equal.",
  "every capacity, every schedule, every transfer sizes",
  "unbounded number of schedules", [I+"ring.hpp: ring"])
p("ring producer and consumer never lose a wake-up",
  "With one producer (that also is the only one calling sync) and one consumer, whenever a thread is blocked inside back/front/sync the condition it waits for is false, or a wake-up for it is pending: no schedule leaves a thread asleep whose condition became true, and quit unblocks both.",
  "every schedule including spurious wake-ups", "schedules cannot be enumerated by tests",
  [I+"ring.hpp: ring::back, push, front, pop, quit, sync"])
p("ring with several waiters on one condition",
  "If a thread waits in sync() while another waits in back(), then quit() (or a pop that satisfies both) eventually unblocks both.",
  "every schedule of three threads", "needs a particular schedule", [I+"ring.hpp: ring::sync, back, pop, quit"])
p("base64 encoding equals RFC 4648",
  "Feeding bytes to base64_enc in any number of chunks and finishing with is_last yields exactly the RFC 4648 base64 text of the concatenation, including padding, and the encoder is ready for a new session.",
  "every byte sequence, every split into chunks", "input space and splits are infinite",
  [I+"base64.hpp: base64_enc::encode"])
p("base64 decode inverts encode",
  "Feeding the base64 text of any data to base64_dec, split in any way into chunks and with arbitrary characters outside the alphabet (line breaks, spaces; no NUL, no '=') interspersed, returns the original data, and is_last is set exactly when a padded block was seen.",
  "every byte sequence, every chunking, every interspersed junk", "infinite inputs", [I+"base64.hpp: base64_dec::decode"])
p("base64 size estimates are sufficient",
  "enc_size / dec_size called before a chunk is an upper bound for the number of characters/bytes that chunk appends.",
  "every session state and chunk length (below the size_t overflow bound)", "all lengths and states", [I+"base64.hpp: base64_enc::enc_size, base64_dec::dec_size"])
p("base64_writer emits decodable text",
  "Whatever sequence of write sizes is used, after destruction the sink holds base64 text whose decoding is the concatenation of everything written, with a line break after every max_blocks blocks.",
  "every data, write partition, max_blocks >= 1, sink accepting everything", "partitions are infinite", [I+"base64.hpp: base64_writer"])
p("base64_reader returns all decoded bytes",
  "Reading to the end of file through base64_reader over a stream holding the base64 text of data returns all bytes of data.",
  "every data, every read sizes", "only shows for particular remainders", [I+"base64.hpp: base64_reader::read"])
p("hex encode/decode round trip",
  "hex_enc::encode writes two uppercase hexadecimal digits per byte; hex_dec::decode applied to it in any chunking (even splitting a digit pair, with non-hex characters interspersed) returns the data, and is_last tells whether digits are paired.",
  "every byte sequence and chunking", "infinite inputs", [I+"hex.hpp: hex_enc::encode, hex_dec::decode"])
p("checked arithmetic never wraps",
  "stdex::mul and stdex::add on size_t return the mathematical product/sum or throw, and throw exactly when it does not fit.",
  "all pairs of size_t", "2^128 inputs", [I+"math.hpp: mul, add"])
p("muldiv computes floor(a*b/q) without intermediate overflow",
  "muldiv(a,b,q) returns the truncated exact quotient a*b/q whenever it fits the result type.",
  "all argument triples", "2^96+ inputs", [I+"math.hpp: muldiv"])
p("rol rotates bits",
  "rol(v,n) is the n-bit left rotation for 0<n<32, hence invertible and periodic.",
  "all 32-bit values and amounts", "2^37 inputs", [I+"math.hpp: rol"])
p("interval algebra",
  "size, empty, contains, +, - on intervals: contains(x) on an integer interval holds for exactly size() values, shifting by x and back restores the interval (unsigned wrap included), and an invalidated interval is falsy, empty and contains nothing.",
  "all endpoints", "infinite", [I+"interval.hpp: interval"])
p("mapping position search is correct",
  "dst2src/src2dst on a mapping vector sorted in both coordinates return, for positions at or after a mapping element, the element's counterpart plus the distance from it, and before the first element the position itself capped by the first element's counterpart.",
  "every sorted mapping vector, every position", "infinite inputs", [I+"mapping.hpp: dst2src, src2dst"])
p("mapping search hint does not change the result",
  "The overloads taking a hint index give the same result as those without for every valid hint and leave a hint that is again valid.",
  "every sorted vector, position, hint", "infinite inputs", [I+"mapping.hpp: dst2src(…, m), src2dst(…, m)"])
p("byte swapping is an involution and reverses bytes",
  "byteswap on 16/32/64-bit values reverses the little-endian byte sequence; applying it twice is the identity.",
  "all values", "2^64 values", [I+"endian.hpp: byteswap"])
p("date conversion round trip",
  "aosn_date::to_dmy(from_dmy(d,m,y)) = (d,m,y) for every valid proleptic date in range, from_dmy(to_dmy(x)) = x for every day number in range, and successive days map to successive calendar days.",
  "every valid date / day number in the supported int32 range", "billions of days with leap rules", [I+"chrono.hpp: aosn_date::from_dmy, to_dmy"])
p("day_of_week is periodic",
  "day_of_week advances by one modulo 7 with every day and agrees with the known weekday of an anchor date, for negative day numbers too.",
  "all int32 day numbers", "2^32 values", [I+"chrono.hpp: aosn_date::day_of_week"])
p("timestamp conversions invert each other",
  "from_time_t(to_time_t(...)), to_date/from_date and to_dmy/from_dmy of timestamps round-trip for whole-second (resp. valid) values in range.",
  "all int64 timestamps in range", "2^64 values", [I+"chrono.hpp: aosn_timestamp"])
p("timestamp from timespec keeps the milliseconds",
  "from_system(timespec) equals the time in milliseconds of sec*1000 + nsec/10^6.",
  "all timespec values", "a test with nsec=0 passes", [I+"chrono.hpp: aosn_timestamp::from_system(timespec)"])
p("hashes do not depend on chunking",
  "For crc32, md5 and sha1, hashing a message in any sequence of chunks and then finalizing gives the same value as hashing it in one call.",
  "every message and chunking (chunks below 4 GiB for the block hashes)", "infinite inputs", [I+"hash.hpp: block_hash::hash, crc32_hash, md5_hash, sha1_hash"])
p("crc32 equals the bitwise definition",
  "crc32_hash (table driven) computes the IEEE 802.3 CRC-32: reflected polynomial 0xEDB88320 division with initial and final complement.",
  "every message", "infinite inputs; a wrong table entry only shows for some bytes", [I+"hash.hpp: crc32_hash"])
p("md5 equals RFC 1321",
  "md5_hash computes the MD5 digest of RFC 1321 for every message shorter than 2^61 bytes.",
  "every message", "padding boundary cases, infinite inputs", [I+"hash.hpp: md5_hash"])
p("sha1 equals FIPS 180-4",
  "sha1_hash computes the SHA-1 digest of FIPS 180-4.",
  "every message", "padding boundary cases, infinite inputs", [I+"hash.hpp: sha1_hash"])
p("block hash counts long chunks",
  "The bit length absorbed at finalization equals the total message length modulo 2^64 whatever the chunk sizes.",
  "every chunk length in size_t", "needs a >= 4 GiB chunk", [I+"hash.hpp: block_hash::hash"])
p("string comparison is a total order",
  "strcmp/strncmp over counted zero-terminated buffers never read past the count or terminator, return the sign of the lexicographic comparison of the two strings, and hence are a total preorder that is 0 exactly on equal strings.",
  "all buffers and counts", "infinite inputs", [I+"string.hpp: strcmp, strncmp"])
p("case-insensitive comparison",
  "stricmp/strnicmp compare as strcmp of the folded strings.", "all buffers, counts, any folding function", "infinite inputs", [I+"string.hpp: stricmp, strnicmp"])
p("search functions find the first occurrence",
  "strchr/strnchr/strrchr/strnrchr/strstr/strnstr return the smallest (resp. greatest) matching offset before the terminator/count, or npos exactly when there is none.",
  "all buffers, counts, needles", "infinite inputs", [I+"string.hpp: strchr, strnchr, strrchr, strnrchr, strstr, strnstr"])
p("copy functions terminate and stay in bounds",
  "strcpy/strncpy/strcat/strncat/strndup write exactly the copied characters plus a terminator when room, and never outside the allowed count.",
  "all buffers and counts", "infinite inputs", [I+"string.hpp: strcpy, strncpy, strcat, strncat, strndup"])
p("trimming removes exactly the surrounding white space",
  "ltrim/rtrim/trim leave the longest substring not starting/ending with white space, in place, and return its length.",
  "all buffers", "infinite inputs", [I+"string.hpp: ltrim, rtrim, trim"])
p("crlf2nl normalises line ends",
  "crlf2nl replaces each CR LF pair with LF and leaves everything else; it is idempotent when no CR CR LF occurs.",
  "all strings", "infinite inputs", [I+"string.hpp: crlf2nl"])
p("numeric parsing returns the mathematical value or saturates",
  "strtoint/strtouint return the value denoted by the longest numeral prefix in the given (or detected) radix and, when it is out of range, the nearest representable value with overflow flag, and report the number of characters consumed.",
  "all strings, counts, radices", "infinite inputs; overflow boundary", [I+"string.hpp: strtoint, strtouint"])
p("strtouint of negative numerals",
  "strtouint of '-n' is the two's complement negation of n.", "all n", "needs negative input", [I+"string.hpp: strtouint"])
p("surrogate pair coding",
  "ucs4 <-> surrogate pair conversion round-trips and is_surrogate classifies exactly.", "all code points", "a million code points", [I+"string.hpp: surrogate helpers"])
p("character classification and case folding",
  "islbreak/tolower/toupper agree with their documented meaning for every code unit.", "all code units", "all values", [I+"string.hpp: islbreak, tolower, toupper"])
p("glyph length in bounds",
  "glyphlen(p,count) returns a number in [1,count] when the buffer is not empty, never splitting a surrogate pair or separating combining marks; glyphrlen is its mirror.",
  "all buffers and counts", "infinite inputs", [I+"string.hpp: glyphlen, glyphrlen"])
p("SGML entity lookup",
  "sgml2uni finds every entity name of the table and returns its first listed expansion; it returns null for every name not in the table.",
  "every string (table of ~1500 names)", "binary search correctness depends on table order for every query", [I+"sgml.hpp: sgml2uni; sgml_unicode.hpp"])
p("SGML encode/decode round trip",
  "Decoding the SGML encoding of any text gives back the text.", "every text", "infinite inputs", [I+"sgml.hpp: str2sgml, sgml2str"])
p("SGML buffer variants respect the destination size",
  "str2sgmlcat/sgml2strcat with a destination count never write at or after count and always terminate.",
  "every input and destination size", "boundary cases", [I+"sgml.hpp: str2sgmlcat, sgml2strcat"])
p("stream read/write primitives transfer complete values",
  "read_data after write_data of the same type on a byte stream returns the value, in little-endian, and a short stream yields eof.",
  "all values and stream contents", "infinite inputs", [I+"stream.hpp: basic::read_data, write_data, read_array, write_array, read_str, write_str"])
p("memory_file is a random-access byte array",
  "Any history of read/write/seek/truncate with the position not beyond the end behaves like the same history on an abstract growable byte array with position.",
  "every history and contents", "infinite histories", [I+"stream.hpp: memory_file"])
p("memory_file reading beyond the end",
  "Reading when the position is beyond the end of file returns eof (no memory access outside the data).",
  "every position and size", "requires seek past end", [I+"stream.hpp: memory_file::read, seek"])
p("fifo preserves bytes",
  "What is read from stream::fifo is, in order, what was written; size() is the number of bytes not yet read; eof is reported only when it is empty.",
  "every history of writes and reads of any sizes", "infinite histories", [I+"stream.hpp: fifo"])
p("buffered stream is transparent",
  "Reading/writing through stream::buffer gives the same bytes in the same order as reading/writing the source directly (after flush).",
  "every history, buffer sizes", "infinite histories", [I+"stream.hpp: buffer"])
p("limiter stops at the limit",
  "Through stream::limiter at most read_limit bytes can be read and write_limit bytes written, and those are the same bytes as on the source.",
  "every history", "infinite histories", [I+"stream.hpp: limiter"])
p("window confines access",
  "stream::window skips offset bytes then allows exactly the window's bytes.", "every history", "infinite histories", [I+"stream.hpp: window"])
p("file_window positions are relative to the window",
  "file_window::seek(x) followed by tell() gives x, and a read after it returns the window's byte x.", "every window and position", "infinite", [I+"stream.hpp: file_window"])
p("cache is transparent",
  "A file accessed through stream::cache with any block size shows the same content and returns as direct access; after flush the underlying file equals the logical content.",
  "every history of read/write/seek/truncate/flush, every block size", "infinite histories", [I+"stream.hpp: cache"])
p("replicator writes to all",
  "After a successful replicator::write every attached sink has received the same bytes in the same order, whatever the thread schedule.",
  "every schedule", "schedules", [I+"stream.hpp: replicator"])
p("async reader/writer deliver the source bytes",
  "async_reader returns the source bytes in order then eof; async_writer delivers all written bytes before destruction completes.",
  "every schedule", "schedules", [I+"stream.hpp: async_reader, async_writer"])
p("spinlock mutual exclusion",
  "At most one thread is between lock() and unlock() of a stdex::spinlock; try_lock succeeds only when nobody holds it.",
  "every number of threads and schedule", "schedules", [I+"spinlock.hpp: spinlock"])
p("pool hands an object to one owner",
  "An object obtained by pool::pop is not obtained by anybody else until it is pushed back; nothing pushed is lost or duplicated.",
  "every schedule", "schedules", [I+"pool.hpp: pool"])
p("watchdog fires once per missed interval",
  "The callback fires only if no reset happened during a whole timeout, and at most once between two resets; after destruction no more callbacks.",
  "every schedule of resets and timeouts", "timing schedules", [I+"watchdog.hpp: watchdog"])
p("aggregate progress equals the sum of workers",
  "After any concurrent set/set_range calls complete, the aggregated value and range equal the sums over workers.",
  "every schedule", "schedules", [I+"progress.hpp: aggregate_progress"])
p("aggregate progress last report",
  "Once all workers are idle, the last value reported to the host is the aggregate value.",
  "every schedule", "schedules", [I+"progress.hpp: aggregate_progress::worker_progress::set"])
p("global progress maps sections",
  "global_progress maps a local range linearly and monotonically onto its section, start to start and end to end.",
  "all ranges without overflow", "infinite", [I+"progress.hpp: global_progress::set"])
p("record padding and framing",
  "A record written with idrec open/close to a file is found by find, below the given limit, and its reader is left at the next record, for every payload that with its padding can be counted in the size field; the size field equals the payload length, the padding is the least that aligns the record, nothing else in the file changes; find ends on every file content.",
  "every payload, alignment and following data", "infinite", [I+"idrec.hpp: padding, open, close, find, ignore"])
p("uuid text round trip",
  "strtouuid(uuidtostr(id)) gives id; strtouuid rejects texts that are not of the documented form.", "all 2^128 uuids / all texts", "2^128 values", [I+"uuid.hpp: uuidtostr, strtouuid"])
p("parser matches stay inside the text",
  "With start <= end and a text readable up to end or its terminator, every basic test and every combinator of stdex::parser reads only before end and the terminator, and returns, on success, an interval starting at start and ending there. A sequence matches exactly when its elements match one after another, their intervals tiling the match; a branch yields the first alternative that matches and its index; a permutation matches exactly when the elements match one after another in some order; iterations takes the repeated matches of its element until the maximum, the first failure (a failure below the minimum fails), the minimum when not greedy, or an empty match of the element (which always succeeds); search finds the first position that matches. A match depends on text, bounds and flags only, never on what was parsed before.",
  "every text, bounds, element parsers", "infinite", [I+"parser.hpp: basic_noop, basic_any_cu, basic_cu, basic_space_cu, basic_punct_cu, basic_space_or_punct_cu, basic_bol, basic_eol, basic_cu_set, basic_string, sgml_any_cp, basic_sequence, basic_branch, basic_string_branch, basic_iterations, basic_permutation, basic_parser::search"])
p("number parsers compute the value",
  "integer10 and integer16 match the longest run of digits at the start - at least one - and fail, with value 0, when there is none; after a match, value is the number the digits write, modulo 2^64. integer10ts also takes groups of exactly three digits after one and the same separator, as many as follow, if the first run has at most three digits; its value is that of all the digits together, digit_count their number and has_separators tells whether there was a group.", "every text", "infinite", [I+"parser.hpp: basic_integer10, basic_integer16"])
p("ipv4 parser value",
  "ipv4_address matches exactly four rows of digits with a separator between each two, each row being the longest whose number stays within 255 (so leading zeros are accepted, and a digit that would go beyond 255 ends the row); the 32-bit value holds the four numbers as its bytes in network order, and the four components are the intervals of the rows. When it does not match, value, interval and components are all cleared. None of it depends on what the parser object matched before.",
  "every text, start, end and flags; every well-behaved digit and separator parsers; every previous state of the object", "infinitely many texts; the object keeps state between matches", [I+"parser.hpp: basic_ipv4_address"])
p("IBAN parser and its check",
  "iban matches exactly: the code of a country in its table (found whatever its place), two check digits (the prescribed ones where the country prescribes them), and as many letters and digits as the country's account numbers have, with what the space parser takes left out before each of them. country, check_digits and bban then hold these characters as zero-terminated strings, and is_valid is true exactly when the number (account number, country, check digits; letters replaced by 10..35) is 1 modulo 97. When it does not match, all members are empty and is_valid is false. No array is overrun, and nothing depends on earlier matches.",
  "every text, start, end, flags and (advancing) space parser; every previous state of the object", "infinitely many account numbers; the remainder is computed in pieces of nine digits", [I+"parser.hpp: basic_iban"])
p("charset names",
  "charset_from_name is case-insensitive and total.", "every string", "infinite", [I+"unicode.hpp: charset_from_name"])
p("base64_writer reports bytes taken on failure","When the sink fails, base64_writer::write returns the number of bytes of the caller's data that were consumed before the failure.","every data, every failure point","needs a sink failing at every possible point", [I+"base64.hpp: base64_writer::write"])
p("hex_dec signals the end of input","hex_dec::decode sets is_last exactly when every complete pair of hexadecimal digits in the input has been decoded, also when ignored characters (blanks, line breaks) follow the final pair.","every input text","infinite inputs", [I+"hex.hpp: hex_dec::decode"])
p("SGML encoder output is valid 7-bit SGML",
  "str2sgmlcat of any zero-free text appends only characters 1..127, and sgmlerr finds no error in what was appended, whatever flags either call is given.",
  "every text of 16- or 32-bit units, every flag value", "the set of texts is infinite and the encoder chooses among entities, glyph decomposition and numeric references",
  [I+"sgml.hpp: str2sgmlcat, sgmlerr, chr2sgml"])
p("SGML encoder protects the characters it is asked to protect",
  "No character selected by the flags given to str2sgmlcat, nor any '&', appears in its output outside a reference; with sgml_full no character that has an entity does.",
  "every text and every combination of flags", "2^12 flag combinations times all texts, including glyphs with combining marks",
  [I+"sgml.hpp: str2sgmlcat, sgml_* flags"])
p("SGML decoder index mapping",
  "Every (source, destination) pair recorded by sgml2strcat cuts both texts at corresponding places: decoding the source up to the pair gives the destination up to the pair, and decoding the rest gives the rest.",
  "every SGML text and every skip mask", "needs every position of every text",
  [I+"sgml.hpp: sgml2strcat"])
p("SGML decoder and checker",
  "sgml2strcat is total: it replaces exactly the well-formed, known references that the skip mask does not exclude and copies everything else; sgmlerr reports the index of the first '&' that starts no known reference or (unless told otherwise) the first non-ASCII character.",
  "every text, including malformed references, and every mask", "malformed inputs cannot be enumerated",
  [I+"sgml.hpp: sgml2strcat, sgmlerr, sgmlend, sgml2uni"])
p("read_array counts whole elements","read_array returns the number of elements that were read completely.",
  "every source (including one that delivers any partial amounts or fails at any point), element size and count","the result depends on how the source splits its data, an unbounded set of histories",
  [I+"stream.hpp: stream::basic::read_array"])
p("read_remainder returns everything up to the limit","read_remainder(max) returns exactly the first max bytes that are left (all if fewer), consumes them and nothing else.",
  "every source, split of its data into partial reads, and limit","unbounded number of partial reads and sizes",
  [I+"stream.hpp: stream::basic::read_remainder"])
p("skip advances by the amount","skip(n) consumes exactly n bytes; skipping beyond the end leaves the stream at its end in state eof.",
  "every source, split into partial reads, and amount","three code paths by amount; unbounded sizes",
  [I+"stream.hpp: stream::basic::skip"])
p("readln_and_attach reads one line","readln_and_attach appends the text up to the line feed without the line feed and a carriage return before it, and leaves the stream right behind the line feed; at the end of the stream everything left is appended and the state is eof.",
  "every text of 8-bit characters, including CR and LF at any place, and every split into partial reads","all texts",
  [I+"stream.hpp: stream::basic::readln_and_attach"])
p("length-prefixed strings round trip","read_str after write_str returns the string, leaving the stream right after it.",
  "every string shorter than 2^32 units of any width, and every split into partial reads","unbounded strings, more than one 1024 unit block",
  [I+"stream.hpp: stream::basic::read_str, write_str"])
p("write_byte repeats the byte","write_byte(b, n) writes b n times unless the sink fails, in which case fewer.",
  "every sink and amount","three code paths by amount; partial writes",
  [I+"stream.hpp: stream::basic::write_byte"])
p("vectors round trip","operator>> of std::vector after operator<< returns the same vector.",
  "every vector","all vectors",
  [I+"stream.hpp: stream::basic operator<<, operator>> for std::vector"])
p("write_stream copies the stream","write_stream(src, n) appends exactly the next n bytes of src (all if fewer) and returns how many were written; a failure of either stream is reported in the state.",
  "every source and sink, split into partial reads, and amount","unbounded sizes; failures at any point",
  [I+"stream.hpp: stream::basic::write_stream"])
p("memory_file: writing beyond the end","After seeking beyond the end and writing, the bytes between the old end and the new data have a defined value.",
  "every file and position beyond the end","indeterminate memory looks like zeros in a test",
  [I+"stream.hpp: memory_file::seek, write, reserve"])
p("memory_file::truncate","truncate() makes the position the end of the file, keeping the bytes before it, or fails leaving the file readable.",
  "every file (owned or caller-provided buffer) and position","all positions and allocation failures",
  [I+"stream.hpp: memory_file::truncate"])
p("memory_file: incomplete string","When a length-prefixed string is not complete in the file, read_str reports eof and does not leave the caller's variable holding an unrelated old value.",
  "every file content and old value","all truncation points",
  [I+"stream.hpp: memory_file::read_str"])
p("memory_file set/get","get after set at any offset within the file returns the value and nothing else of the file changes.",
  "every offset including the last element, every type width","boundary in assertions",
  [I+"stream.hpp: memory_file::set, get"])
p("memory_file copies","A copied or assigned memory_file has the same content, position and state; a failing assignment leaves a usable file.",
  "every file, state, and allocation outcome","allocation failure cannot be provoked in unit tests",
  [I+"stream.hpp: memory_file copy constructor, operator="])
p("memory_file::reserve","reserve(n) either fails changing nothing or leaves room for n bytes, and does not change the content (unless tight).",
  "every size, including sizes near SIZE_MAX, and allocation outcomes","sizes near SIZE_MAX and allocation failures",
  [I+"stream.hpp: memory_file::reserve"])
p("memory_file::write_stream","write_stream stores exactly the bytes it took from the source at the position, reports how many, and reports any failure of source or memory in the state.",
  "every source (any split, failing at any point), amount, and allocation outcome","unbounded interleavings of partial reads and failures",
  [I+"stream.hpp: memory_file::write_stream"])
p("byte-order mark round trip","read_charset recognises the mark written by write_charset and leaves the file right behind it; without a mark it returns the default with the file at its start.",
  "every text after the mark","all texts",
  [I+"stream.hpp: basic::write_charset, basic_file::read_charset"])
p("buffer over a file","Reading then writing through one stream::buffer changes a file as the same calls made directly do.",
  "every file content and sequence of calls","all interleavings and buffer sizes",
  [I+"stream.hpp: buffer::read, buffer::write"])
p("limiter write in state ok is complete","A write through stream::limiter that leaves the state ok has written everything it was given.",
  "every limit, data and source","all limits and splits",
  [I+"stream.hpp: limiter::write"])
p("end of a window","Reading an exhausted stream::window tells eof and leaves the source where the window ends.",
  "every source, window and read size","all positions of the window relative to the source's end",
  [I+"stream.hpp: window::read, basic::skip"])
p("count returned by a window write","window::write returns the length of the prefix of the data that was written or deliberately discarded.",
  "every source, including failing ones","failures at any byte",
  [I+"stream.hpp: window::write"])
p("cache shows what was written","After a write through stream::cache, reading the same place through it gives the written bytes.",
  "every history, block size and write length","all positions relative to the cached block",
  [I+"stream.hpp: cache::write, cache::read, cache::load_cache"])
p("cache gap","Bytes between the old end of the file and data written beyond it through stream::cache read as zeros, as with direct access.",
  "every content, position and block size","contents of uninitialised memory",
  [I+"stream.hpp: cache::write, cache::load_cache"])
p("reading does not change the size","Reading through stream::cache at any position does not change size().",
  "every position and block size","all positions",
  [I+"stream.hpp: cache::read, cache::load_cache, cache::size"])
p("null read through a cache","A read of 0 bytes leaves stream::cache in state ok.",
  "every position","all positions",
  [I+"stream.hpp: cache::read"])
p("write after eof through a cache","A write through stream::cache after a read that met the end of file writes its data.",
  "every history and block size","all histories",
  [I+"stream.hpp: cache::write"])
p("file_window confinement","Whatever sequence of calls is made on a stream::file_window, no byte outside the window is read or written.",
  "every history of read, write, seek and skip","all histories",
  [I+"stream.hpp: file_window::skip, file_window::read, file_window::write"])
p("async_writer: ok means the source may still take it","When async_writer::write reports ok, the source has not failed before that call began; bytes reported as written are delivered by the time the destructor returns.","every source that may fail, every schedule","schedules x failure points",[I+"stream.hpp: async_writer::write, async_writer::process"])
p("async_writer: one thread at a time uses the source","The caller's flush and the worker never use the source stream at the same time.","every schedule","schedules",[I+"stream.hpp: async_writer::flush, async_writer::process"])
p("async converters and replicator never hang","Every call of async_reader, async_writer or replicator, and their destructors, returns: in every reachable state some thread can go on without relying on spurious wake-ups, and only finitely many steps are possible before the call has returned.","every schedule, every source whose operations return","schedules",[I+"stream.hpp: async_reader, async_writer, replicator"])
p("spinlock publishes what was done under it","Whatever a thread wrote before unlock is seen by every thread that gets the lock afterwards: increments of a plain variable under the lock are never lost, under the memory orders the code uses.","any number of threads, every schedule, every stale value a relaxed load may give","weak-memory schedules",[I+"spinlock.hpp: lock, try_lock, unlock"])
p("pool::clear removes what was there","When clear returns, everything in the pool was pushed while clear was running; every call of pop, push and clear returns.","every schedule","schedules",[I+"pool.hpp: clear"])
p("watchdog fires when left alone","If the watchdog was started or reset and nobody resets it, time and the running threads lead to a call of the callback; the destructor always returns if the callback does, without waiting for the timeout.","every reachable state, every schedule","timing schedules",[I+"watchdog.hpp: run, ~watchdog"])
p("watchdog callbacks are bounded by resets","At any time the callback has been called at most once more than reset.","every schedule","timing schedules",[I+"watchdog.hpp: run, reset"])
p("lazy_progress spaces its reports","Values inside the range are reported only after the timeout since the report before and never twice in a row; both ends of the range are always reported; a new value is reported once the timeout has passed.","every history of set_range and set","infinite histories",[I+"progress.hpp: lazy_progress"])
p("progress_switcher restores the indicator","After properly nested lifetimes of progress_switcher objects the current indicator is what it was before, and each switcher reports to the indicator that was current when it was made.","every properly nested sequence","infinite",[I+"progress.hpp: progress_switcher"])
p("aggregate_progress calls the host from one thread at a time","The host indicator is never called by two workers at the same time; never after detach has returned; never while attach or detach runs.","every schedule","schedules",[I+"progress.hpp: aggregate_progress"])
p("records of every size the header can hold","ignore, find and reading a record leave the file at the next record for every record whose data length fits the size field, also when data and padding together do not.","every payload length and alignment","all sizes near the wrap-around",[I+"idrec.hpp: ignore, find, record"])
p("composite numeral parsers recognise their grammar",
  "fraction, score, signed_numeral, mixed_numeral, monetary_numeral and scientific_numeral, built over any well-behaved element parsers (and with any of the optional signs null where the class allows it), match at a position exactly when the documented ordered grammar does (e.g. scientific: optional sign; integer with optional separator and decimals, or separator and decimals; optional exponent: symbol, plus sign, exponent / symbol, exponent / symbol, minus sign, exponent), set interval to exactly the text that grammar consumes, set the interval of every part they hold to what it matched (empty when it took no part), and clear all parts when they fail. monetary_numeral takes the same null signs as its siblings.",
  "every text, start, end, flags and element parsers; every previous state of the parser object",
  "infinitely many texts and element parsers; the object keeps state between matches, so a stale interval shows only after particular histories",
  [I+"parser.hpp: basic_fraction, basic_score, basic_signed_numeral, basic_mixed_numeral, basic_scientific_numeral, basic_monetary_numeral"])
p("Roman numeral parser",
  "roman_numeral matches the longest row of digits (read by any subset of the nine digit parsers) that forms a numeral - tokens in non-increasing order, a power of ten before the digit five or ten times it counting as one token, no digit but the first four times in a row - fails exactly when no digit stands at start, and its value is the numeral's subtractive reading. In particular the usual numeral of every positive number (any number of M) is matched whole with that value.",
  "every text shorter than 2^64/10000 units, every start/end/flags, every digit parsers that consume something, every number",
  "infinitely many digit rows; the parser's look-back over three combined digits is only right by an invariant over the whole run",
  [I+"parser.hpp: basic_roman_numeral"])
p("ipv6 parser components and value",
  "ipv6_address matches exactly eight groups of hexadecimal digits (each up to 65535) with separators between them, or a shortened form with one double separator standing for the groups left out; the eight components are the intervals of the groups, empty ones for groups left out; a scope id is taken only together with its separator; the eight words of the value are the numbers of the groups, zero for those left out; when it does not match, value and components are cleared.",
  "every text, start, end and flags; every well-behaved digit, separator and scope parsers", "infinitely many texts; double separator at every position", [I+"parser.hpp: basic_ipv6_address"])
p("creditor reference parser and its check",
  "creditor_reference matches exactly 'RF', two check digits and 1 to 21 letters and digits in blocks of four, the space parser tried before each block; reference then holds the characters, filled up with '0' on the left to 21, and is_valid is true exactly when the number (reference, 'RF', check digits; letters replaced by 10..35) is 1 modulo 97; when it does not match, the members are cleared; no array is overrun.",
  "every text, start, end, flags and space parser; every previous state of the object", "infinitely many references; an overrun needs a particular number of letters", [I+"parser.hpp: basic_creditor_reference"])
p("HTML escaping is safe and reversible","For any text, html::escape (and escape_min) appends to the destination an encoding of exactly the units before the limit or terminator: the result holds no raw '<', '>' or no-break space (escape: also no raw quote or apostrophe), every '&' in it starts a reference, and decoding the references with sgml2str gives the text back.","every text, every limit, char and wchar_t, every previous content of the destination","Tests try a few texts; escaping bugs (double escaping, an entity the decoder reads differently) depend on neighbouring characters.",[I+"html.hpp: escape, escape_min",I+"sgml.hpp: sgml2strcat"])
p("URL unescaping is form decoding","url_unescape appends the form decoding of a zero-terminated text or of a counted text that is not cut inside of a percent escape: '+' is a space, '%hh' the byte, everything else, including malformed escapes, stands for itself.","every text and limit, every previous content of the destination","Malformed escapes combine in unboundedly many ways with what follows them.",[I+"html.hpp: url_unescape"])
p("URL escaping is safe and reversible","url_escape of any text gives printable ASCII without any of the reserved characters it lists, and url_unescape of the result gives the text back, whether the result is given with its length or with a terminator.","every text of chars (all 256 values), every limit","Tests cover some characters of some texts only.",[I+"html.hpp: url_escape, url_unescape"])
p("CSS unescaping reads a text as CSS does","css_unescape appends what the text stands for: backslash n, r and t are the control characters, a backslash at the end of a line joins lines, one to six hexadecimal digits (and a space behind fewer than six) are a code point, any other escaped unit stands for itself.  Every text that does not end in a lone backslash has such a reading.","every text without zeros, counted or zero-terminated","The grammar of escapes is recursive in the text; the boundary cases (digits at the limit, six digits and a space) are combinatorial.",[I+"html.hpp: css_unescape"])
p("CSS escaping is safe and reversible","css_escape of any text gives plain units and backslash pairs only, without raw quotes, line breaks or tabs, and css_unescape of the result gives the text back.","every text, counted or zero-terminated","Tests cover some texts only.",[I+"html.hpp: css_escape, css_unescape"])
p("Unescaping stays within its limit and ends","url_unescape and css_unescape read only the units before the limit or terminator, and return for every text.","every text and limit","A read past the end or an endless loop needs the one text that is cut at the wrong place.",[I+"html.hpp: url_unescape, css_unescape"])
p("zlib_writer sends exactly the compressed data","For every sequence of writes to a zlib_writer that were all accepted, followed by its destruction, the underlying stream has received one complete compressed stream (as zlib defines it) of the concatenation of the written data, in order, whatever the block size and the division into calls; a write that the underlying stream stopped reports a count smaller than the length and a state other than ok.","all data, divisions into writes, block sizes, underlying streams and zlib implementations that keep zlib.h's promises","the compressor's internal buffering depends on the whole history of calls; the loops must drain it for every one",[I+"zlib.hpp: zlib_writer::do_write, ~zlib_writer"])
p("zlib_reader returns the decompressed data","For every complete compressed stream, each read from a zlib_reader returns, stores exactly the next bytes of the decompressed data, and returns fewer bytes than asked only at the end of that data; bytes stored come with state ok.","all compressed streams, read lengths, block sizes, ways in which the source divides its data, zlib implementations that keep zlib.h's promises","the loop's exit depends on how input blocks and output room interleave",[I+"zlib.hpp: zlib_reader::do_read"])
p("Data behind the compressed stream does not stop zlib_reader","Reading past the end of the compressed data returns what there is even when the source continues with other data.","all compressed streams, all non-empty trailing data, all read lengths exceeding what is left","non-termination cannot be observed by a test",[I+"zlib.hpp: zlib_reader::do_read"])
p("stream_hasher is transparent and hashes what went through","Through a stream_hasher every read and write gives the caller the bytes, counts and state that the underlying stream gives; and the hash is that of the concatenation of all bytes actually read or written, in call order, however they were divided.","all streams, sequences of calls, hashes","ranges over all call sequences and partial transfers",[I+"hash.hpp: stream_hasher"])
p("OS streams are streams","A basic_sys over a descriptor whose reads and writes may be short or fail is a stream: each read ends, gives the next bytes in order and none is lost or repeated; it gives nothing for a non-zero length only at the end (state eof) or on an error (state fail); a write appends exactly the bytes it counts and is complete if the state is ok.","all descriptors that keep the POSIX promises (arbitrary short transfers and errors), all lengths, all states","short transfers and errors come in any pattern",[I+"stream.hpp: basic_sys::read, basic_sys::write"])
p("file is an ordinary file","On a regular file, however short the operating system's transfers are, stream::file behaves as an array with a position: read gives the bytes at the position up to the length or the end; write stores all of them, filling a gap with zeros; seek, tell, size and truncate do what they say.","all contents, positions, lengths and transfer sizes","ranges over all files and transfer patterns",[I+"stream.hpp: file::seek, tell, size, truncate; basic_sys::read, write"])
p("Seeks and queries of a file","seek returns the position it has set, or fails and leaves the position; size, lock and unlock leave the content and the position as they were.","all files, positions, offsets and directions; whether or not locking succeeds","ranges over all positions and failures",[I+"stream.hpp: file::seek, size, lock, unlock"])
p("Locking reports refusal","After file::lock (and unlock) the state is ok only if the operating system granted it.","all files, offsets, lengths","a lock held by another process is needed at the right moment",[I+"stream.hpp: file::lock, file::unlock"])
p("diag_file shows one file and checks the others","While a diag_file does not throw, every operation gives exactly what its first file gives, all its files make the same history and give the same results; it throws at the first file that differs in the result or, for operations other than tell and size, in the state.","all files, all numbers of files, all histories","ranges over all histories of all combinations of files",[I+"stream.hpp: diag_file"])
p("diag_file without files","Every operation of a diag_file that was given no files fails or does nothing; none touches a file.","all operations","undefined behaviour cannot be observed by a test",[I+"stream.hpp: diag_file::lock, unlock, truncate"])
p("cached_file is transparent","A cache over a stream::file gives every history of calls the results of direct access, and leaves the file with the same content and position.","all files, histories, cache block sizes, OS transfer sizes","ranges over all histories",[I+"stream.hpp: cached_file, cache, file"])
p("JSON strings are recognised and decoded as RFC 8259 has them","With the parsers for the quotation mark, the reverse solidus, the escape letters, u and hexadecimal digits, and case-sensitive matching, json_string matches exactly the texts: quotation mark, any sequence of (plain character | \\ with one of \" \\ / b f n r t | \\u with four hexadecimal digits), quotation mark; it ends behind the first unescaped quotation mark, and value is what the sequence stands for. An unfinished string, a bare control character, an unknown escape or a short \\u makes it fail.","every text, start, end, any earlier use of the parser object, both character types","Tests match a handful of strings; the property is about every text and every nesting of escapes, and about the parser being reused.",[I+"parser.hpp: basic_json_string::do_match"])
p("\\u escapes in narrow JSON strings become UTF-8","For every \\uXXXX escape matched in a char string, value receives exactly the UTF-8 code units (one, two or three) of the code point XXXX; in a wide string it receives the one unit XXXX.","all 65536 values in any spelling of the digits, anywhere in any string","The boundary cases (007F/0080, 07FF/0800) and the case of digits multiply with the positions.",[I+"parser.hpp: basic_json_string::do_match"])
p("Narrow JSON string values are UTF-8","value of a matched narrow JSON string is valid UTF-8 for the text it denotes, also for characters beyond the basic plane, which JSON writes as a pair of \\u escapes.","every JSON string","Tests use basic-plane escapes only.",[I+"parser.hpp: basic_json_string::do_match"])
p("HTML element names are recognised in any case","element::element_code of a narrow name (or a wide name of ASCII characters) gives the code of the element with that name, upper and lower case being the same, and unknown for every other name; it reads no further than num_chars or the terminator.","every name, every length limit","The lookup is a binary search over 105 names: order of the table, boundaries and prefixes of names multiply.",[I+"html.hpp: element::element_code"])
p("Wide HTML element names with other characters are unknown","element_code of a wide name that is not an element's name is unknown, whatever characters it has.","every wide name","There are 2^32 characters; tests use ASCII.",[I+"html.hpp: element::element_code"])
p("HTML element traits follow HTML 4.01","Elements without end tags span nothing (immediate), elements with omissible end tags are end_optional, and, as documented, an end_optional element never may contain one of its own kind.","every element code","Tables of 105 elements and their products.",[I+"html.hpp: element_traits::span, may_contain"])
p("Which attributes hold URIs or text to localise","is_uri is true for every attribute HTML 4.01 types as URI and a fixed list of extensions, is_localizable for title and alt, summary, abbr of certain elements; names in any case, limited by num_chars or the terminator; false for every other name.","every element and every attribute name","Tests look at a few names; prefixes, longer names and case variants are unlimited.",[I+"html.hpp: element_traits::is_uri, is_localizable"])
p("A recognised HTML tag lies inside the text and its parts lie inside the tag","When html_tag matches at s, the tag starts with '<' and ends with '>' (\"/>\" for an empty element, \"-->\" for a comment) at or before the end of the visible text, its type is the one its first characters announce, the name lies behind '<', and names and values of the attributes follow in order without overlapping, all in front of the closing '>'.","every text, every offset, every ctype","Tests check a handful of tags; ill-formed tags, unterminated quotes and stray characters are unlimited.",[I+"parser.hpp: basic_html_tag::do_match, basic_html_ident, basic_html_value"])
p("Parsing an HTML tag ends","html_tag returns after finitely many steps, bounded by the length of the text, when the tag is a start tag, comment or instruction, or no \"/>\" occurs behind it.","every text, every offset","A parser that hangs on one text hangs on no test that lacks it.",[I+"parser.hpp: basic_html_tag::do_match"])
p("Parsing an HTML tag ends on every text","html_tag returns on every text, end tags and declarations written like empty elements included.","every text, every offset","The text that hangs the parser must first be found.",[I+"parser.hpp: basic_html_tag::do_match"])
p("Well-written HTML tags are recognised exactly","Every start tag, empty element, end tag, comment and instruction written by the rules is matched: type, the positions of the name and of every attribute's name and value, white space between them, quoted or plain values, and the end of the tag.","every name, every list of attributes, all white space, whatever follows","The texts a grammar generates are unlimited.",[I+"parser.hpp: basic_html_tag::do_match, basic_html_ident, basic_html_value"])
p("Conditional sections are recognised exactly","html_declaration_condition_end matches exactly \"]]>\"; html_declaration_condition_start matches \"<![\", white space, a condition without '[', white space and '[' with the condition trimmed, and nothing else.","every text, every offset","Texts are unlimited.",[I+"parser.hpp: basic_html_declaration_condition_start, basic_html_declaration_condition_end"])
p("The sequences of an HTML document lie one after the other in its source","After any calls of append, finalize, clear and assign that return, the sequences of the document are ordered and disjoint, lie inside the source, the source at the sequence's place is written like its type (a start tag starts with '<' and ends with '>', CDATA is followed by \"]]>\", text is not empty ...), and the code of an element is that of the name written in it.","every source, every division into chunks, every history of calls","Documents and histories are unlimited.",[I+"html.hpp: document::append, finalize, clear, assign, sequence, element"])
p("The elements of an HTML document nest","The parent of every sequence is a start tag before it that is still open at it; an element's parent may contain it; a start tag's end lies behind it, and is the end tag that links back to it or an element it may not contain; an end tag's start lies in front, links back, has the same element code and the same parent.","every source, every division into chunks, every history of calls","Links that cross show up for particular nestings of particular elements only.",[I+"html.hpp: document::append, element_start::end, element_end::start, sequence::parent, may_contain"])
p("The sequences of an HTML document together are its source","If \"<![\" does not occur in the source, the texts of all sequences of the finalized document, one behind the other, are exactly the source.","every source without \"<![\", every division into chunks, every history of calls","Lost characters need the right text in front of the right markup.",[I+"html.hpp: document::append, finalize"])
p("Parsing an HTML document ends","append to a document that has only been appended to so far, and assign, return without exception and without invalid memory access when the source has no '%' (entities) and no end tag or declaration in it keeps the tag parser from ending (C141).","every source, every division into chunks","A hang or a null pointer needs the right document.",[I+"html.hpp: document::append, assign"])
p("An HTML document may be parsed in parts","Appending two parts gives the same document as appending both at once, provided no markup that starts in the first part is changed by the second: at every offset of the first part not parsed yet the tag and condition matchers give the same with and without the second part.","every reachable document, every two parts","Divisions of all documents are too many.",[I+"html.hpp: document::append"])
p("Assigning an HTML document forgets the old one","assign(source) gives the same document and outcome whatever was parsed before.","every document, every source","Left-over state shows up after particular documents only.",[I+"html.hpp: document::assign, clear"])
p("End tags end the element of the same name","An end tag of a known HTML element that is linked with a start tag is linked with one whose name is the same, apart from the case of letters, and that start tag links back.","every source, every division, every history","Documents are unlimited.",[I+"html.hpp: document::append, element_end::start"])
p("No text of an HTML document is lost","The sequences of a finalized document together hold all the text of the source, conditional sections apart.","every source","Needs text in front of a conditional section.",[I+"html.hpp: document::append (1696-1710)"])
p("End tags of unknown elements end the element of the same name","An end tag of an element unknown to HTML is linked with the start tag of the same name.","every source","Needs two unknown elements.",[I+"html.hpp: document::append (1808-1820)"])
p("Where an HTML document is cut into parts does not matter","Appending a document part by part gives the same as appending it at once.","every document, every division","Divisions of all documents are too many.",[I+"html.hpp: document::append"])
p("A finalized HTML document may be appended to","append to a document that is finalized is safe.","every history of calls","Needs a special element left open.",[I+"html.hpp: document::append, finalize (1716, 1869)"])
p("Conditional sections of an HTML document","Appended to a document that is parsed up to its end outside of any section, \"<![CDATA[content]]>\" adds exactly one CDATA sequence that is the content, \"<![RCDATA[...\" one parsed-character-data sequence, \"<![IGNORE[...\" nothing, whatever markup the content holds; white space may surround the condition; the parser is outside of any section afterwards and the same elements are open.","every reachable document, every content without \"]]>\", all white space","Contents are unlimited.",[I+"html.hpp: document::append (1665-1710)"])
p("Parameter entities are replaced","In a condition or the value of an entity every %name; is replaced by the value of the first entity defined with that name, the text between them is kept, and an undefined name is an exception.","every list of entities, every text","Texts and entity lists are unlimited.",[I+"html.hpp: document::replace_entities"])
p("What HTML elements may contain is HTML 4.01's content model","For any two of the 91 elements of HTML 4.01, may_contain says yes exactly when the content model of the first in the Transitional or Frameset DTD, minus its own exclusions, names the second.","every pair of elements","The table must be compared with the DTD entry by entry.",[I+"html.hpp: element_traits::may_contain"])
p("Documents valid by HTML 4.01 nest as HTML 4.01 says","A document that HTML 4.01 permits is given the element structure HTML 4.01 defines: rows of a table without tbody tags are inside of the table, ins and del inside of a paragraph are inside of it.","every valid document","Valid documents are unlimited.",[I+"html.hpp: document::append, element_traits::may_contain"])
p("Flushing reports failure","After basic_sys::flush the state is ok if the operating system has written the data to the device, and fail otherwise.","every descriptor and state","The device must fail at the right moment.",[I+"stream.hpp: basic_sys::flush"])
p("Entities declared in quotation marks","An entity declared as SGML requires, <!ENTITY % name \"value\">, has the value without the quotation marks.","every declaration","Needs a declaration with quotation marks.",[I+"html.hpp: document::append (1825-1842)"])
p("Formatting appends the formatted text","sprintf, appendf and their v- variants append exactly the text printf makes of the format and the arguments (or replace the string by it) and return its length: for char whenever it has fewer than 1024 characters, for wchar_t whatever its length, provided that vswprintf reports too small buffers by EOVERFLOW; whatever errno was before.","every text, destination and errno","Which of three ways is taken depends on the length of the text.",[I+"string.hpp: vappendf, appendf, vsprintf, sprintf"])
p("Formatting of long texts","appendf appends the formatted char text whatever its length. (Refuted: a text of exactly 1024 characters has its last one replaced by the terminator, a longer one makes appendf throw unless errno is EOVERFLOW from earlier, since vsnprintf does not report truncation by errno; where vswprintf does not set errno the same holds for wide texts from 256 units on.)","every text","Only texts of a particular length reach the second call.",[I+"string.hpp: vappendf"])
p("CSS comments and comment marks","css_comment matches exactly from /* to the first */ behind it, and content is what is between them; css_cdo matches exactly <!-- and css_cdc exactly -->.","every text, start and end","The first end mark has to be found whatever comes in front of it.",[I+"parser.hpp: basic_css_comment, basic_css_cdo, basic_css_cdc"])
p("CSS strings","css_string recognises every CSS 2.1 string in quotation marks whose text does not end in an escaped backslash, with content between the marks; whatever it recognises starts and ends in the same quotation mark, and each such mark in between has a backslash in front of it.","every text, quotation mark and content","Backslashes combine with what follows them.",[I+"parser.hpp: basic_css_string"])
p("Addresses in CSS","css_uri recognises url( ) in either case with an address in quotation marks or not, with white space around it, and css_import recognises @import with a quoted address; content is exactly the address, and always inside of what was matched.","every text, address and white space","White space, quotation marks, escapes and cases combine.",[I+"parser.hpp: basic_css_uri, basic_css_import"])
p("CSS escapes in strings and addresses","css_string and css_uri recognise everything CSS 2.1 allows there. (Refuted: a string that ends in an escaped backslash is not recognised as that string, and an escaped parenthesis ends an unquoted address.)","every string and address","An escaped backslash in front of the end is easily forgotten.",[I+"parser.hpp: basic_css_string, basic_css_uri"])
p("Tags of tokens","The tag append_tag writes for a token is read by parse_tag as that token wherever it stands in a text, and reading goes on right behind it.","every token address except null, every text in front and behind","The address and the surrounding text are arbitrary.",[I+"html.hpp: token::append_tag, token::parse_tag"])
p("Parse and link rebuild a document","parse makes tokens of the sequences of a document and link makes a source of the tokens again: texts, titles and addresses (also those in style sheets) are decoded and encoded anew, everything else, elements whose contents are opaque among it, is copied, in the order of the document.","every source, sequences that nest, every placement of the tokens in memory","Tokens nest to any depth, and link follows addresses that are part of the text.",[I+"html.hpp: parser::parse, parser::parse_css, parser::link"])
p("Documents nest for the parser","In every document that append and assign make, an element that starts inside of another does not end behind it, and names and attributes lie inside of their elements in order.","every sequence of calls and source","The stack of open elements depends on the whole document.",[I+"html.hpp: document::append, document::assign"])
p("Unescaped documents survive parse and link","A document whose texts and values hold nothing that is escaped, without declaration conditions and unended opaque elements, is exactly the same after parse and link.","every such document","Every unit of the source must be accounted for once.",[I+"html.hpp: document, parser::parse, parser::link"])
p("Changing the active tokens","Changing from a list of active tokens to another ends exactly those behind the common start, innermost first, with the names they were started with, and starts exactly those missing, outermost first.","every pair of lists of tokens","The lists share starts of any length.",[I+"html.hpp: parser::end_tokens, parser::start_tokens"])
p("Inserted tokens","append_inserted_tokens puts each token anchored to the word where it belongs, with its active tokens around it and in order, removes exactly those from the list and keeps the others.","every list of inserted tokens, word and side","The list changes while it is walked.",[I+"html.hpp: parser::append_inserted_tokens"])
p("Merging lists of tokens","merge of two lists of tokens holds the tokens of both. (Refuted: nothing is ever added to the first list.)","every pair of lists","A branch that no execution takes cannot be seen from outside for lists that hold the same tokens.",[I+"html.hpp: parser::merge"])
p("Every document is rebuilt","parse and link succeed for every document and what they make means the same. (Proved for documents without style sheets, with ended opaque elements and no references to the unit 18; refuted for an unended opaque element, a reference to the unit tags begin with, an address in a style sheet that ends in a backslash, a quotation mark in a title and a section of character data.)","every document","Only particular combinations fail.",[I+"html.hpp: parser::parse, parser::link, parser::parse_css"])
p("HTML tokens tell what the document is","After parse every text, tag, end tag, comment and so on of the document that is not inside of an opaque element has a token, tagged inside of the token of the innermost group (paragraph, heading, list, table cell ...) it is in, at the place the mapping says; a start tag of an element with contents is a starting token with the name and end of the element, an end tag an ending one, everything else complete; titles in attributes are title tokens with the decoded text, addresses are address tokens; a group's token is a title exactly for headings, terms and titles, a bullet exactly for lists, and has text exactly if there is some that is not white space.","every source, every division, every placement of tokens in memory","Documents and their nesting are unlimited; link does not show what the tokens say about themselves.",[I+"html.hpp: parser::parse, text_token, starting_token, url_token"])
p("White space in HTTP","http_space matches exactly the longest run of white space, unless that run is a single line break, and never reads beyond the end or the terminator.","every text, start and end","Texts are unlimited.",[I+"parser.hpp: http_space, http_line_break"])
p("HTTP tokens","http_token matches exactly the longest non-empty run of units that are neither control characters, white space nor one of the seventeen separators.","every text, start and end","Texts are unlimited.",[I+"parser.hpp: http_token"])
p("HTTP quoted strings and values","http_quoted_string matches exactly a quotation mark, a body in which each quotation mark is escaped and each line break folded, and a quotation mark, with content between them; http_value exactly a quoted string or a token.","every text, start and end","Escapes and folding combine.",[I+"parser.hpp: http_quoted_string, http_value"])
p("HTTP parameters","http_parameter matches exactly a token, white space, and a value with or without an equals sign in front of it, and tells where each is.","every text, start and end","White space, sign and value combine.",[I+"parser.hpp: http_parameter"])
p("HTTP media types","http_media_range matches exactly type / subtype with white space around the slash; http_media_type further takes all parameters behind semicolons there are, in order, and ends where the last one does.","every text, start and end","The number of parameters is unlimited.",[I+"parser.hpp: http_media_range, http_media_type"])
p("HTTP cookies","http_cookie matches exactly name = value, followed by all parameters $name = value behind semicolons there are, in order.","every text, start and end","The number of parameters is unlimited.",[I+"parser.hpp: http_cookie, http_cookie_parameter"])
p("Servers and ports of HTTP addresses","http_url_server matches exactly the longest non-empty run of printable units other than colon and slash; http_url_port matches exactly the longest run of digits if its value is at most 65535, and gives that value.","every text, start and end","Numbers of any length must not overflow.",[I+"parser.hpp: http_url_server, http_url_port"])
p("Paths and parameters of HTTP addresses","http_url_path divides a path into all its segments; http_url_parameter matches exactly name or name = value. (The path must not start at the end, and a parameter must have a readable unit at the end: otherwise the code reads outside of the text.)","every text, start and end","The number of segments is unlimited.",[I+"parser.hpp: http_url_path_segment, http_url_path, http_url_parameter"])
p("HTTP addresses","http_url matches exactly [http://server[:port]]/path[?parameters], in any case of http, with the default port 80, and gives every part. (For texts with a terminator in front of the end.)","every text, start, end and folding of letters","Every part is optional.",[I+"parser.hpp: http_url"])
p("HTTP languages","http_language matches exactly letters, with as many further groups of letters behind hyphens as there are, and gives each.","every text, start and end","The number of groups is unlimited.",[I+"parser.hpp: http_language"])
p("HTTP weights","http_weight matches exactly digits with an optional fraction, and gives the integer part, the numerator and the denominator, each modulo 2^64.","every text, start and end","Digits are unlimited.",[I+"parser.hpp: http_weight"])
p("HTTP agents","http_agent matches exactly type or type/version up to white space, and gives both; without a version the version of the previous match stays.","every text, start, end and earlier match","Texts are unlimited.",[I+"parser.hpp: http_agent"])
p("HTTP protocols","http_protocol matches exactly type/major[.minor] followed by white space, gives the parts, and the version major * 256 + minor modulo 2^16 when both are numbers below 2^64.","every text, start and end","Texts are unlimited.",[I+"parser.hpp: http_protocol"])
p("HTTP request lines","http_request matches exactly a line of a method, an address and an optional protocol, with white space between, gives them all and ends at the start of the next line.","every text with a terminator, start, end and folding of letters","Parts, white space and line breaks combine.",[I+"parser.hpp: http_request"])
p("HTTP headers","http_header matches exactly a name, a colon and a value over all the lines folded into it, gives the name and the value without the white space around them, and ends at the start of the next header.","every text, start and end","Folded lines are unlimited.",[I+"parser.hpp: http_header"])
p("Any HTTP media type","http_any_type and http_asterisk match exactly */* or *, and *.","every text, start and end","Texts are unlimited.",[I+"parser.hpp: http_any_type, http_asterisk"])
p("Weighted HTTP values","http_weighted_value matches exactly an asterisk or a value, with ; q = weight behind it if that is there, for tokens, languages and media ranges.","every text, start and end","White space and optional parts combine.",[I+"parser.hpp: http_weighted_value, http_weight"])
p("Lists of weighted HTTP values","The elements of an http_weighted_collection are exactly those of the list in the text, each once, heaviest first, and in the order of the text among equal weights; whatever the order of weights is, as long as it is one.","every text, start, end and weak order","Lists are unlimited.",[I+"parser.hpp: http_weighted_collection, http_value_collection"])
p("Lists of HTTP values","http_value_collection holds exactly the elements of the list in the text, in order.","every text, start and end","Lists are unlimited.",[I+"parser.hpp: http_value_collection"])
p("The mapping of HTML tokens","The mapping of a token maps the place of each reference in the source to its place in the text. (Refuted: behind a tag or another text the length of the text is added twice.)","every document","Only a reference that is not in the first text of its token shows it.",[I+"html.hpp: parser::parse (2444-2446)",I+"sgml.hpp: sgml2strcat (239-243)"])
p("The HTTP parsers and RFC 2616","The HTTP parsers accept what RFC 2616 defines. (Refuted: white space may swallow an empty line, octets from 128 on are refused in quoted strings, white space behind the sign of a parameter makes it fail, an address may end beyond the text, a parameter reads the unit behind the end, a colon without number gives port 0, 64 decimals give a zero denominator, a minor version of 256 is carried, a protocol at the end of the text is refused, an empty list element ends the list, weights and versions of earlier matches stay.)","every message","Each needs a particular message.",[I+"parser.hpp: http_*"])
p("A MIME content type is split where the text says","For every text, range, and classification of spaces, a mime_type match returns (without reading beyond the terminator or the end) true exactly if the text starts with a non-empty base type, a slash and a non-empty subtype (neither holding a slash, a semicolon or a space), and base_type, sub_type, charset and interval are then exactly those parts: charset is the value behind `charset=` (in any case) that follows a semicolon and spaces, the content of its quotes if quoted, up to the next space or end otherwise, and invalid if there is none or if the closing quote is missing.","every text, start and end within it, every locale's classification of spaces","unit tests try a handful of content types; the claim covers every text and every truncation of it",[I+"parser.hpp: basic_mime_type"])
p("The charset of a MIME type is its charset parameter (fails)","The charset a mime_type match reports is the value of the type's parameter `charset`, wherever it stands among the parameters (RFC 2045, 5.1). It is not: a parameter in front of it hides it, and a parameter that follows it without a space is taken for a part of its value.","every type, subtype and list of parameters","tests use the one parameter the author had in mind",[I+"parser.hpp: basic_mime_type"])
p("WAV structures are stored as the format says","Writing a WAV structure (header, format, content, cues, ltxt, label, note) to a file stores exactly the little-endian bytes of its fields at the position, texts with a terminator or nothing when empty, over what was there, and moves the position behind them; a format with more than 65535 extra bytes throws invalid_argument instead.","every structure, file and position","Fields, texts, data and files are unlimited in number.",[I+"wav.hpp: header, format, content, cue_vector, ltxt, label, note (operator<<)",I+"idrec.hpp: record"])
p("WAV records are read back","Reading the record of a WAV structure that holds the bytes of a structure (a 16-byte or an extended format, a content, cues, an ltxt or label with a text that is terminated or not) gives that structure, with the text up to its first zero, and leaves the file right behind the record and its padding. Whatever a file that writes such a record then holds, the record that was written is read.","every structure, record and file","Records are unlimited in number and length.",[I+"wav.hpp: header, format, content, cue_vector, ltxt, label (operator>>)",I+"idrec.hpp: record"])
p("The first WAV format record","read_first finds the first format record among any well-formed records, gives its format and leaves the file right behind it; when there is none below the limit, it tells false and the value stays.","every sequence of records, limit, format and file","Sequences of records are unlimited.",[I+"wav.hpp: read_first"])
p("WAV cues are stored as the format says","Writing extended cues stores exactly a cue record with all cues in order and a LIST record of type adtl that holds, for each cue, an ltxt record and, for a non-empty title and note, a labl and note record, each with right lengths and padding.","every list of cues whose records can be counted in 32 bits, every file and position","Cues are unlimited in number.",[I+"wav.hpp: operator<< of std::vector<cue_ex>"])
p("Reading WAV cues","read_cues over any well-formed records below a limit (at an even position) returns true and gives the cues of the cue record in order of their ids, each with the description, title and note the records of the associated data lists give to its id; records of other kinds have no effect, the file is unchanged and the position is what it was.","every sequence of well-formed records, file and earlier content of the cues; every stable or unstable sort and binary search","Records come in any number and order.",[I+"wav.hpp: read_cues"])
p("WAV cues survive a round trip","Extended cues with different ids written to a file at an even position and read back from there are the same cues, in order of their ids.","every list of cues, file and even position","Cues are unlimited in number, texts in length.",[I+"wav.hpp: operator<< of std::vector<cue_ex>, read_cues"])
p("WAV cues up to the end of the file (fails)","read_cues with the default limit reads the cues of a file to its end and returns true. (Refuted: it never returns true, whatever the file, and on every file that is well-formed to its end it does not return at all.)","every file","That no execution ends is beyond tests.",[I+"wav.hpp: read_cues"])
p("Finding WAV blocks","find_first finds the first record with an id and sub-id below a limit, tells where it ends and leaves the file behind the sub-id; find_content finds the WAVE block so. (Holds where the records start at an even position of the file. Refuted elsewhere: the padding is computed from the absolute end of a record rather than from its size.)","every sequence of records, ids, limit, file and position","Sequences of records are unlimited.",[I+"wav.hpp: find_first, find_content"])
p("Removing WAV cues (fails)","remove_cues copies to the output the records that are not about cues (cue, ltxt, labl, note), and none that are. (Refuted, and proved of every well-formed input: it copies exactly the records that are about cues and drops all the others.)","every sequence of well-formed records, with or without a limit","Sequences of records are unlimited.",[I+"wav.hpp: remove_cues"])
p("SI references are recognised part by part","An SI reference parser matches exactly where the text begins with SI (in any case, if that is asked for) and two digits. It then holds the two digits of the model and up to three parts: the runs of digits, one '-' between two of them, that follow the model, after what the parser of spaces takes once; model 99 has none. The match ends with the last part, or behind the model if there is none; a '-' with no digits behind it is not part of it. A parser that does not match holds no model, no part, and is not valid.","every text, start, end and flags, every parser of spaces and every earlier state of the object","One would have to try every text, with every number and length of parts; tests use a few references.",[I+"parser.hpp: basic_si_reference, basic_si_reference_part, basic_si_reference_delimiter"])
p("SI references with checks of single parts are valid exactly by the rules of their model","Where each check of an SI reference's model covers one part, is_valid says exactly whether the reference obeys the model: the number of parts is one the model allows, no part has more than twelve digits and all have no more than twenty (model 12: one part of up to thirteen), and each part the model checks ends with its control digit: 11 less the remainder modulo 11 of the sum of the digits times 2, 3, 4, ... from the right, 0 for 10 and 11. References of models the parser does not know are valid.","every text, model, number and length of parts","There are 10^20 references; the rules of 26 models for one to three parts are a table in which one wrong entry is seen only with a reference of that model.",[I+"parser.hpp: basic_si_reference::do_match, check11"])
p("SI references with checks over joined parts are valid exactly by the rules of their model","Where a model checks several parts joined to one (models 01 and 09 with two or three parts; 06, 08 and 10 with three), is_valid says exactly whether the reference obeys the model, the control digit being the last digit of the last part of those joined.","every text, model, number and length of parts","As for single parts; the wrong cases are one in eleven.",[I+"parser.hpp: basic_si_reference::check11"])
p("Times are hh:mm, hh:mm:ss or hh:mm:ss.mmm, and tell where their parts are","A time matches exactly where an hour, a separator and a minute below 60 follow each other. Seconds belong to it when the same separator and a number below 60 follow, milliseconds when behind them their separator and a number below 1000 do; the interval ends with the last part. After the match hour, minute, second and millisecond hold interval and value of what they matched, those without a part are invalid; when there is no time all are. The hour is not limited.","every text, position and end, all held parsers (second, millisecond and its separator may be null) and every earlier use of the object","Which of the parts count depends on values, on the equality of two separators and on optional parsers; stale members of an earlier match show only in sequences of calls.",[I+"parser.hpp: basic_time"])
p("Angles are degrees, minutes and seconds, of which some may be missing","From start on, degrees count when their sign follows, then minutes when they are below 60 and their sign follows, then seconds below 60 with or without sign, each from where the part before ended; a part that does not count is invalid and takes no text. The angle matches exactly when one of degrees, minutes and seconds took up some text, and a decimal part behind it belongs to it.","every text, position and end, all held parsers (seconds, their sign and the decimal part may be null) and every earlier use of the object","Every subset of the parts, with and without signs and out of range values, over every text.",[I+"parser.hpp: basic_angle"])
p("Dates are recognised in the first of the allowed formats that fits","Of the formats dmy, mdy, ymd, ym, my, dm and md that are in the mask, in this order, the first that fits is taken: format says it, the interval is that of the parts (with a second separator behind dm and md if it is the same as the first), day, month and year hold what they matched and the one the format lacks is invalid. Separators of one date are the same; blanks around them belong to it, without line breaks. Where no format fits there is no match, format is none and all three are invalid.","every mask, text, position and end, all held parsers (parts that no allowed format has may be null) and every earlier use of the object","Seven formats in 128 masks that try the same parsers again and again on the same text; members left over by a failed format show only in combinations.",[I+"parser.hpp: basic_date"])
p("A matched date exists in the calendar","When a date with day, month and year is matched, that day exists in that year.","every text, mask and date","The test would need all numbers for day, month and year.",[I+"parser.hpp: basic_date::is_valid"])
p("DNS names are labels between separators","A DNS name is recognised exactly where up to 127 labels with a separator between each two stand; a label is a run of domain characters of which the first and the last may be at the edge. Where absolute names are allowed, one separator may follow the last label. Of the names that start at the position the longest is taken, and a host name never ends in a separator unless absolute names are allowed. The result does not depend on earlier matches, and nothing beyond the terminator or the end is read.","every text, position, end, flags, either setting of absolute names, every domain-character and separator parser","The names have any number of labels of any length.",[I+"parser.hpp: basic_dns_domain_char, basic_dns_name"])
p("URL paths split into path, query and bookmark","The path is the characters up to the first query or bookmark start, the query those up to the first bookmark start, the bookmark all characters behind; each is empty or invalid where its start is missing, and the three intervals and the interval of the whole say just this. There is no match where there is neither a character nor a query nor a bookmark start.","every text, position, end, flags, and character, query-start and bookmark-start parser","Any text may follow.",[I+"parser.hpp: basic_url_path_char, basic_url_path"])
p("URLs are decomposed into their parts","With http or without a scheme: optional user name and password (http only), host (IPv4, IPv6 in brackets or a name, in this order), optional port, optional path. With ftp the same, with mailto user name, at and host, with file an optional path. Where this fits, the interval is that of all of it, and every member's interval is that of its part, or invalid where the part is missing; the decomposition is unique. Where it does not fit there is no match and all members are invalid. The parser can be used again after any match or invalidate.","every text, position, end, flags, every set of held parsers, every state","The URL is any text.",[I+"parser.hpp: basic_url"])
p("E-mail addresses are user name, at, host","An e-mail address is matched where a user name, an at and a host stand: an IPv4 or IPv6 address in brackets, or a name. The members hold these, the others are invalid; otherwise there is no match and all are invalid.","every text, position, end, flags, every set of held parsers, every state","The address is any text.",[I+"parser.hpp: basic_email_address"])
p("A user name without a password is recognised in ftp URLs","In a ftp URL a user name before the at is the user name and the host is behind it.","every ftp URL","Such URLs need not be in a test.",[I+"parser.hpp: basic_url"])
p("Emoticons are recognised","An emoticon is one of the given characters, or an optional apex, eyes, an optional nose and a mouth, which is as many of the same mouth characters as there are; the form with a nose is tried first. The members hold these parts, those that are missing are invalid; otherwise there is no match and all are invalid.","every text, position, end, flags, every set of held parsers, every state","A mouth has any length.",[I+"parser.hpp: basic_emoticon"])
p("The mouth of an emoticon tells which one it is","After a match, hit_offset of the mouth is the position in the set of the mouth that was matched.","every text and set","All lengths of mouths and what follows count.",[I+"parser.hpp: basic_emoticon, basic_set"])
p("User names, passwords and paths of URLs take the characters of RFC 3986","User names take the unreserved characters, sub-delimiters and the percent sign; passwords these and the colon; paths also at, slash, question mark and hash.","every character, and every locale whose letters and digits are those of ASCII","All characters have to be tried.",[I+"parser.hpp: basic_url_username_char, basic_url_password_char, basic_url_path_char"])
p("Phone numbers are recognised and normalised","A phone number is an optional plus sign and pieces: digits, one pair of parentheses of the same kind, separators behind a digit outside of the parentheses and spaces without line breaks behind a digit or the right parenthesis. It ends behind the last digit outside of the parentheses or the right parenthesis, and value is its text without separators and spaces. Where no digit outside of the parentheses is found, there is no match and value is empty. The result does not depend on earlier matches.","every text, position, end, flags, every set of held parsers (of which those of right parentheses and spaces recognise different things)","A number has any number of pieces.",[I+"parser.hpp: basic_phone_number"])
p("Phone numbers have a well-formed shape","A matched phone number has a digit outside of the parentheses, ends with a digit or a right parenthesis, and has no or one pair of parentheses, which is closed. With plain characters value is the matched text less the separators and blanks.","every text and match","The test would need all texts.",[I+"parser.hpp: basic_phone_number"])
p("Phone numbers may be parsed without parentheses","The parsers of the parentheses may be null, like those of the plus sign, separators and spaces, which the tests for null in the loop suggest.","every text and parser without parentheses","Undefined behaviour need not show in a test.",[I+"parser.hpp: basic_phone_number::do_match"])
p("Chemical formulas are recognised","A chemical formula is one or more elements, each with any number of digits, and an optional sign behind all of them. Elements are told apart by case even if the caller asks not to. The match takes all elements and digits there are; has_digits tells whether there is a digit, has_charge whether there is a sign. Otherwise there is no match and both are false.","every text, position, end, flags, every element, digit and sign parser, every state","A formula has any number of elements.",[I+"parser.hpp: basic_chemical_formula"])
p("An SGML code point","Every SGML test looks at exactly one code point at the start: a well-formed, known reference taken whole (its text is what sgml2str makes of it), or one plain character; sgml_cp matches exactly when the text of that code point is that of the first code point it was given (up to case when asked), and the match covers exactly the code point. The outcome is defined for every text. (Refuted: where wchar_t has 32 bits, the text of a numeric reference is returned in a buffer that is gone.)","every text, every bound, every given code point, both flag values, both widths of wchar_t","Whether an ampersand starts a reference depends on everything up to the next semicolon; use of a dead local shows only under some optimizers.",[I+"parser.hpp: basic_parser::next_sgml_cp, sgml_cp",I+"sgml.hpp: sgml2uni, utf32_to_wstr"])
p("SGML classes","sgml_space_cp, sgml_punct_cp and sgml_space_or_punct_cp match exactly when the code point at the start is a space (a line break only with match_multiline), punctuation, or either; inverted, exactly when something is there and is not. (Refuted for the reference &#0; where wchar_t has 16 bits: it has no text and is in every class.)","every text, bound, locale, both flags, inverted or not","infinitely many texts; the reference without a text is one of many",[I+"parser.hpp: sgml_space_cp, sgml_punct_cp, sgml_space_or_punct_cp"])
p("SGML sets","sgml_cp_set matches exactly when the text of the code point at the start occurs in the set; for a single character, when the set has it (up to case when asked); hit_offset is the first place where it occurs. (Refuted for &#0;, which is in every set.)","every text, every set, inverted or not","infinitely many texts and sets",[I+"parser.hpp: sgml_cp_set",I+"string.hpp: strnstr, strnistr"])
p("SGML strings","sgml_string matches exactly when the text goes on with code points that spell the string (up to case when asked), takes no more of them than needed, and what it matched decodes with sgml2str to the string.","every text, every bound, every string","A reference may straddle the end of the string or the bound; the decoder and the parser are separate code.",[I+"parser.hpp: sgml_string",I+"sgml.hpp: sgml2strcat"])
p("SGML characters of names and URLs","The SGML variants of the tests for scope identifiers, DNS names and URL user names, passwords and paths match a code point of one character exactly when the plain variants take that character; a DNS name in SGML is matched exactly where there is one, and the longest.","every text, bound, locale, both values of allow_idn and allow_absolute","infinitely many texts",[I+"parser.hpp: sgml_ipv6_scope_id_char, sgml_dns_domain_char, sgml_url_username_char, sgml_url_password_char, sgml_url_path_char, basic_dns_name"])
p("Minisign line parsers","untrusted_comment matches exactly at the text \"untrusted comment:\", all of it within the bound; line_break matches CR LF or LF and nothing else, CR LF first.","every text, position and bound","infinitely many texts",[I+"minisign.hpp: untrusted_comment, line_break"])
p("Minisign signature","parse_minisig takes the first line with a line end that is neither empty nor an untrusted comment; gives algorithm, key and signature as its Base64 decodes to, leaves the stream behind the line; throws exactly when there is no such line or what it decodes to has less than 74 bytes or does not start with E.","every stream that does not fail, however it cuts its reads","the cuts of reads and lines are unbounded",[I+"minisign.hpp: parse_minisig",I+"stream.hpp: readln_and_attach",I+"base64.hpp: base64_dec"])
p("Minisign files as written","A file of an untrusted comment and a line with a signature, in any partition of Base64 and noise, gives back algorithm, key and signature. (Refuted where the file ends with that line without a line end: parse_minisig throws.)","every comment, algorithm, key, signature, encoding of them and rest of file","infinitely many signatures",[I+"minisign.hpp: parse_minisig"])
p("Order of language names","The comparator of the map of language names is a strict weak order on terminated names, as std::map requires: irreflexive, transitive; two names are equivalent exactly when they are equal but for the case of ASCII letters and the kind of ASCII punctuation.","every triple of names of any length, whatever follows them in memory","std::map is undefined for a comparator that is no strict weak order; triples of strings are infinite",[I+"langid.hpp: langid_from_rfc1766, stricmp_less"])
p("Language code of a name","langid_from_rfc1766 gives the code of the first entry of the table whose name is the same but for case and kind of punctuation, and langid_unknown when there is none.","every name of any length, every shape of the search tree","infinitely many names",[I+"langid.hpp: langid_from_rfc1766"])
p("Name of a language code","rfc1766_from_langid gives the name the table has for the code, which is at most one, and the fallback when there is none.","every code, every shape of the search tree","The balanced tree depends on the order of the insertions.",[I+"langid.hpp: rfc1766_from_langid"])
p("Language names: name to code and back","A name that has a code is, but for case and kind of punctuation, the name rfc1766_from_langid gives for this code.","every name","infinitely many names",[I+"langid.hpp: langid_from_rfc1766, rfc1766_from_langid"])
p("Language names: code to name and back","langid_from_rfc1766 of the name of a code is the code. (Refuted: 34 codes, among them 0x804 Chinese in China, come back as another code with the same name.)","every code with a name","A test of some codes says nothing of the others; which of two entries of a map initialiser wins depends on their order",[I+"langid.hpp: langid_from_rfc1766, rfc1766_from_langid"])
p("Parts of a language code","primary_langid and sub_langid split a code into its low 10 and high 6 bits; their sum is the code.","every 16-bit code","65536 codes",[I+"langid.hpp: primary_langid, sub_langid"])
p("Descriptors have one owner","In every history of creating, copying, assigning, moving, closing and destroying sys_object and stdex::socket objects in which dup in assignments, and close outside of destructors, do not fail: each open descriptor is that of exactly one object, an object never has a descriptor that is not open, and when the last object is gone all are closed.","every history of any number of objects, every choice of descriptor numbers by the system","histories and reuse of descriptor numbers are unbounded",[I+"system.hpp: basic_sys_object, sys_object_traits",I+"socket.hpp: socket_traits"])
p("Socket streams close their socket once","In every history of creating, moving, closing and destroying stream::socket objects, whatever closesocket answers: each open socket is that of exactly one object, and when the last object is gone all are closed.","every history","as above",[I+"stream.hpp: socket"])
p("Descriptors have one owner also when system calls fail","Each open descriptor is that of exactly one object and no object has one that is not open, also after a failing dup or close. (Refuted: a copy assignment whose dup fails, and close() whose close(2) fails, leave the object with the descriptor already closed, so that its destruction closes the descriptor of another object; a move assignment whose close fails ends the program.)","every history with failures","a failing close and a reused number must meet",[I+"system.hpp: basic_sys_object"])
p("Charset conversion appends the converted text","strcat appends to the string the text up to its terminator or count, converted character by character, however many rounds of the internal buffer it takes; strcpy and convert give the same as the whole result. If a character cannot be converted, what is in front of it is appended and the error is thrown.","every text of any length, every count, every state of the encoder, every codec that writes whole units and at most a buffer for one character","Where the buffer of 1024 bytes is full depends on the text; all alignments of characters and buffer would have to be tried.",[I+"unicode.hpp: charset_encoder::strcat, strcpy, convert"])
p("A text may be converted in parts","Converting two texts without terminators one after the other with the same encoder gives the same string, state and error as converting both together, if the first conversion succeeds.","every pair of texts, every codec that decides by the bytes of the character alone","infinitely many texts and places to cut",[I+"unicode.hpp: charset_encoder::strcat"])
p("Charset conversion gives the whole text","What convert returns without an exception is the text in the target charset, with all the charset needs at its end. (Refuted for charsets with shift states, as UTF-7: the encoder never asks iconv to write what it holds back, so \"\\u00e9\" becomes \"+AO\" instead of \"+AOk-\".)","every text and codec","A test with ASCII shows nothing.",[I+"unicode.hpp: charset_encoder::strcat, convert",I+"unicode.hpp: charset_id::utf7"])
p("Conversions are independent","What convert gives depends on its text only, not on what the encoder has converted before. (Refuted for UTF-7, where the shift state of one text goes to the next.)","every pair of conversions with the same encoder","The first text has to end inside of a shift.",[I+"unicode.hpp: charset_encoder::convert, clear"])
p("What happens to the descriptors of an object","Copying gives the new object a duplicate, assignment closes the old descriptor and takes a duplicate, moving and move assignment take the descriptor of the other object, which has none afterwards (the assignment closes the old one), close() and destruction close it; assigning an object to itself does nothing. Other objects and descriptors are as before.","every operation of sys_object, socket and stream::socket, in every state with one owner for each descriptor, when the system calls it relies on succeed","Whether other descriptors are touched depends on all of the program.",[I+"system.hpp: basic_sys_object, sys_object",I+"socket.hpp: socket",I+"stream.hpp: socket"])
p("Opening a file does what the mode says","open() closes what was open, then: open_existing opens the file as it is, truncate_existing empties it, and both fail without a file; preserve_existing opens or creates it, create_new creates it and fails if there is one, create makes it empty. Where this succeeds and access is allowed, the state is ok, the descriptor is one of that file, at its start, or at its end with mode_append, for writing and reading as asked (for reading if neither is). Otherwise the state is fail, there is no descriptor, and no file was changed. An invalid disposition throws. Other files and descriptors are untouched.","every mode (all bits), name, content of the file system, file object, answer of the operating system","A mode has 16 bits; each combination meets every state of the file.",[I+"stream.hpp: file::open, mode_t"])
p("Exclusive access is exclusive","While a file is open for exclusive access (share_none, documented as the default), another open of it fails. (Refuted on Linux: the share flags are ignored.)","every file and pair of modes","It must hold for all other openings of the file.",[I+"stream.hpp: file::open, share_none"])
p("A cached file can always read what it caches","cached_file opens a file so that the cache can read it when it is opened for writing only, with the same disposition, append and write access as asked.","every mode","All combinations of bits.",[I+"stream.hpp: cached_file::open, cached_file"])
p("File times are read and set one by one","set_atime leaves the modification time and set_mtime the access time; when the operating system refuses an exception is thrown and nothing changes. atime and mtime give the file's time in whole seconds, not later than it.","every pair of times and date","infinitely many dates",[I+"stream.hpp: file::atime, mtime, set_atime, set_mtime"])
p("A file time that was set is read back","After set_mtime or set_atime with a time of whole seconds, mtime or atime gives that time. (Refuted on POSIX: the count of nanoseconds is taken for seconds, so that one second after 1970 becomes the year 2001.)","every date","A test with the epoch passes.",[I+"stream.hpp: file::set_atime, set_mtime, atime, mtime, clock"])
p("Socket streams transfer every byte once","Reading a socket stream gives every byte received once and in order, writing sends what it reports to have taken, and the loops end, however the connection cuts reads and writes and whatever it refuses.","every connection that behaves as POSIX says, every sequence of requests","The network decides how much each call transfers.",[I+"stream.hpp: socket::read, write"])
p("Moving a socket stream moves its state","After moving or move-assigning a socket stream the target has the socket and the state of the source. (Refuted: a failed stream is ok after it was moved, and the target of an assignment keeps its own state.)","every pair of streams and states","Needs a stream that has failed.",[I+"stream.hpp: socket"])
p("strcpy from UTF-16 to UTF-32 decodes the text","strcpy of a zero-terminated UTF-16 text to a UTF-32 buffer stores the code points of the text (a surrogate pair gives one, a lone surrogate itself), a terminator, and returns their number; it writes no other cell, reads nothing behind the terminator, and needs one cell more than there are code points. What was encoded as UTF-16 comes back.","every UTF-16 text (well formed or not), every destination","the pairs may stand anywhere, also at the end of the text or of the buffer",[I+"string.hpp: strcpy(char32_t*, char16_t*), surrogate_pair_to_ucs4"])
p("strcoll orders texts as the locale does","strcoll of two zero-terminated texts gives what the comparison of the locale gives for the texts up to their terminators.","every pair of zero-terminated buffers, every comparison","what lies behind the terminators must not matter",[I+"string.hpp: strcoll"])
p("strncoll orders texts up to terminators or limits","strncoll of two texts with limits compares them up to their terminators or limits, whichever comes first, as the other functions with a limit do.","every pair of buffers and limits","the result must not depend on cells behind the terminators",[I+"string.hpp: strncoll"])
p("strtod reads the text up to its terminator or limit","strtod(str, count, ...) gives what the C function makes of the characters up to the terminator or the limit; what lies behind does not matter and is not read.","every buffer, limit and conversion","the source need not be terminated",[I+"string.hpp: strtod"])
p("strcatftime and strftime give the formatted text, whatever its length","strcatftime appends to the string the text the C function makes of the format, and strftime stores it, for any length of the (nonempty) text: the buffer grows until the text fits.","every nonempty formatted text, every string","the text may be longer than any buffer tried first, and just as long as one",[I+"string.hpp: strcatftime, strftime, vstrftime"])
p("strftime gives an empty text for an empty result","strftime of a format with an empty result gives an empty string.","every format with an empty result","an empty result looks as if the buffer was too small",[I+"string.hpp: strcatftime, strftime"])
p("get_ptr neither leaks nor deletes twice","A call f(get_ptr(owner)) whose callee puts an object in the pointer leaves the owner with this object, and every object not deleted has exactly one owner.","every history of objects, every callee","the owner may be empty or not, and the callee may keep, delete or replace what the pointer has",[I+"memory.hpp: ref_unique_ptr, get_ptr"])
p("A cached file can be opened again","open on a cached_file first writes what is pending to the file that was open; if the new file opens, the cached file then behaves like direct access to it, with nothing of the old one; if not, the state is fail. If the pending writes fail, the old file stays open and what is pending stays pending. close writes what is pending first.","every state a history of calls leaves, every outcome of opening, every later history","what the cache holds of the old file must show in no later history",[I+"stream.hpp: cached_file::open, cache::close, cache::invalidate_cache, cache::init"])
p("Destroying a cached file reports what could not be written","The destructor of cached_file throws if the pending writes cannot be written, and does nothing undefined.","every state of the cache, every failing file","it needs a file that fails at the very end",[I+"stream.hpp: cached_file::~cached_file, cache::done, cache::~cache"])
p("lock and unlock of a file_window concern bytes of the window","lock(offset, length) and unlock of a file_window lock or unlock the bytes offset to offset + length of the window, as far as the window has them, and nothing outside.","every window, offset and length, every file","offsets of the window and of the file coincide only for a window at the start",[I+"stream.hpp: file_window::lock, file_window::unlock"])
p("A lock taken through a cache protects what goes through the cache","After lock through a cache, reads give what the file has once the lock is held; before unlock gives the lock back, what was written is in the file.","every state of the cache, everything other processes do","it depends on what other processes write before the lock is granted",[I+"stream.hpp: cache::lock, cache::unlock"])
p("buffered_sys writes everything before it closes","All that was written through a buffered_sys is written to the handle before the destructor closes it, and what cannot be written is reported.","every sequence of writes, every buffer sizes, every handle","the order of the destructors matters, and the last write may fail",[I+"stream.hpp: buffered_sys, buffer::done, buffer::~buffer"])
p("scoped_executor runs done whenever the scope is left","scoped_executor runs init at once, and done exactly once when the scope is left, whether by an exception or not, with any two functions one may give it.","every way the functions are given, every way the scope is left","it depends on the lifetimes of what is passed",[I+"scoped_executor.hpp: scoped_executor"])
p("A sanitizing_allocator gives back no data","What was stored in memory of a sanitizing_allocator is not in it any more when it is given back to the heap, and nothing else is overwritten.","every history of allocations, stores and deallocations, every size of the elements","every block ever given back counts",[I+"memory.hpp: sanitizing_allocator"])
p("to_rfc822 gives the RFC 822 date","to_rfc822 gives a date of RFC 822 (as RFC 1123 has it) with the day, month, year, hour, minute and second of the time and the right day of the week; two times with the same text are in the same second. (Refuted for years before 1000: the year has not four digits.)","every date and time","infinitely many dates, and leap years decide the day of the week",[I+"chrono.hpp: aosn_timestamp::to_rfc822, to_str"])
p("to_str of a time gives the formatted text, whatever its length","to_str gives the text the C library makes of the format, for any format. (Refuted: a text that does not fit 1024 bytes, or an empty one, goes through memory allocated as an array that is given back as one object.)","every formatted text","the text may be longer than the first buffer, or just as long",[I+"chrono.hpp: aosn_timestamp::to_str"])
p("platform_from_name knows the platform of a name","platform_from_name gives the platform whose name is the argument, but for the case of ASCII letters, and unknown where there is none.","every zero-terminated name, also of characters beyond ASCII","the order of the map must be one on all names",[I+"sys_info.hpp: platform_from_name"])
p("os_platform is the platform of the operating system","sys_info.os_platform is the platform the operating system runs on. (Refuted on Linux: 32-bit x86 is called i686 and 32-bit ARM armv7l, which are unknown; what is not unknown is right.)","every processor","one needs all kinds of machines",[I+"sys_info.hpp: sys_info_t, os_platform"])
p("A charset conversion is closed once","Every conversion (iconv_t) a charset_encoder opened belongs to exactly one encoder until it is closed, and none is used or closed after it was closed. (Refuted: an encoder may be copied, assigned, and moved as by a vector, and both then close the same conversion; assignment also loses the old one.)","every history of construction, copying, assignment, use and destruction of encoders, also where iconv_open fails","Double closing shows nothing or crashes somewhere else.",[I+"unicode.hpp: charset_encoder"])
p("create_locale gives the locale of the name","create_locale(category, name) gives a locale that is that of the name in the category, in all for LC_ALL, and the global one in the others; null where there is none. (Refuted on POSIX: the base LC_GLOBAL_LOCALE makes newlocale undefined; with glibc only \"C\" in all categories works, and locale_utf8 is made before main.)","every category and name","it depends on the C library",[I+"locale.hpp: create_locale, locale_C, locale_utf8"])
p("exists says whether a name is there","file::exists is true if and only if there is a file, folder or symbolic link of the name that can be looked up. (Refuted on POSIX: a symbolic link to nothing is said not to exist.)","every file system and name","file systems with chains and circles of links",[I+"stream.hpp: file::exists"])
p("readonly says whether nobody may write","file::readonly is true if and only if the file or folder behind the name and its links may be written by nobody, by its mode; names that are not there or cannot be looked up are assumed to be writable.","every file system, name and mode","file systems with chains and circles of links, all modes",[I+"stream.hpp: file::readonly"])
with open("/verif/properties.jsonl","w") as f:
    for x in P: f.write(json.dumps(x,ensure_ascii=False)+"\n")
print(len(P))
