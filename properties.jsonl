{"id": "C01", "title": "SHA-256 streaming equals FIPS 180-4", "statement": "Feeding a message to a fresh SHA-256 engine with any sequence of push and push_zero calls and then finalizing yields the FIPS 180-4 SHA-256 digest of the concatenation of the pushed data (push_zero(n) counting as n zero bytes); chunk boundaries never matter.", "quantifier": "every finite sequence of push/push_zero calls with arbitrary byte contents and lengths whose total is below 2^61 bytes", "why_tests_cant": "infinitely many messages and infinitely many ways to split each; tests sample a few vectors and splits", "anchors": ["lib/osi/src/hash/sha256.rs: Engine::push, Engine::push_zero, Engine::finalize, sha256_round, sha256_step", "lib/osi/src/hash.rs: Engine"]}
{"id": "C02", "title": "SHA-256 engines are reusable", "statement": "After finalize, and after reset, an engine behaves like a freshly created one: every further history of calls returns the same digests (or panics) as on a new engine, whatever was hashed before, and is_reset() reports exactly whether no byte has been pushed since.", "quantifier": "every history of push/push_zero/finalize/reset calls", "why_tests_cant": "depends on all histories; residue left in the internal chunk buffer could leak for some earlier message only", "anchors": ["lib/osi/src/hash/sha256.rs: Engine::finalize, Engine::reset, Engine::is_reset"]}
{"id": "C03", "title": "SHA-256 panics only on over-long input", "statement": "A sequence of push/push_zero calls followed by finalize panics if and only if the total number of bytes is not below 2^61 (bit length does not fit 64 bits); all buffer accesses and internal assertions hold for every shorter input.", "quantifier": "every finite call sequence", "why_tests_cant": "the panicking inputs are exabytes long and the internal assertions range over every state", "anchors": ["lib/osi/src/hash/sha256.rs: Engine::push, Engine::push_zero, Engine::finalize"]}
{"id": "C04", "title": "HMAC equals RFC 2104", "statement": "For every key (shorter, equal or longer than the block size) and every message, split arbitrarily over push/push_zero calls, finalize returns H((K' xor opad) || H((K' xor ipad) || message)) with K' the zero-padded (and hashed, if longer than a block) key.", "quantifier": "every key, every sequence of push/push_zero calls", "why_tests_cant": "unbounded keys, messages and chunkings; the inner padding is applied lazily, depending on the engine state", "anchors": ["lib/osi/src/hmac.rs: Hmac::with_engine, push, push_zero, finalize, reset"]}
{"id": "C05", "title": "HMAC instances are reusable", "statement": "After finalize or reset, an HMAC instance authenticates the next message under the same key exactly as a new instance would, for any history of calls.", "quantifier": "every history of push/push_zero/finalize/reset calls on one instance", "why_tests_cant": "histories are unbounded; the lazily inserted inner pad must be re-inserted exactly once per message", "anchors": ["lib/osi/src/hmac.rs: Hmac"]}
{"id": "C06", "title": "Digest hex form", "statement": "Hash::to_hex renders exactly two lowercase hexadecimal digits per byte, most significant nibble first, so that decoding the text gives back the digest, and distinct digests have distinct texts.", "quantifier": "every digest value", "why_tests_cant": "2^256 digests", "anchors": ["lib/osi/src/hash.rs: Hash::to_hex"]}
{"id": "C07", "title": "SplitMix64 visits every 64-bit value once per period", "statement": "For any odd increment, 2^64 successive 64-bit outputs of a SplitMix64 generator are pairwise distinct (a permutation of all 64-bit values), and the sequence then repeats.", "quantifier": "every seed and every odd gamma, all 2^64 positions", "why_tests_cant": "2^64 outputs per seed", "anchors": ["lib/osi/src/rng.rs: SplitMix64::next64, Mix64::mix64"]}
{"id": "C08", "title": "SplitMix64 splitting keeps the generator well-formed", "statement": "The gamma derived for a new stream is odd for every input, so a split generator again has full period; splitting advances the parent by exactly its documented number of steps.", "quantifier": "every generator state", "why_tests_cant": "2^128 states", "anchors": ["lib/osi/src/rng.rs: SplitMix64, Mix64::mixg"]}
{"id": "C09", "title": "Xoshiro256++ state transition is invertible and never reaches zero", "statement": "The Xoshiro256++ step is a bijection on 256-bit states that fixes the all-zero state, hence a generator seeded through the API never enters the all-zero state.", "quantifier": "every 256-bit state, every number of steps, every seed", "why_tests_cant": "2^256 states", "anchors": ["lib/osi/src/rng.rs: Xoshiro256pp::step, with_seed"]}
{"id": "C10", "title": "Xoshiro256++ jumps equal iterated steps", "statement": "jump128 and jump192 leave the generator in exactly the state that 2^128, respectively 2^192, single steps would.", "quantifier": "every 256-bit state", "why_tests_cant": "2^128 single steps can never be executed", "anchors": ["lib/osi/src/rng.rs: Xoshiro256pp::jump, jump128, jump192"]}
{"id": "C11", "title": "Xoshiro256++ has period 2^256-1", "statement": "Starting from any non-zero state, the states reached by 1, 2, ..., 2^256-1 steps are pairwise distinct and the last one is the start state.", "quantifier": "every non-zero 256-bit state", "why_tests_cant": "astronomically long cycle", "anchors": ["lib/osi/src/rng.rs: Xoshiro256pp::step"]}
{"id": "C12", "title": "Xoshiro256++ seeding from SplitMix64", "statement": "from_splitmix64 seeds the four state words with four successive outputs of the given generator, advancing it four times.", "quantifier": "every SplitMix64 state", "why_tests_cant": "the claim is over all 2^128 source states", "anchors": ["lib/osi/src/rng.rs: Xoshiro256pp::from_splitmix64, MIX64_0"]}
{"id": "C13", "title": "D-Bus signature acceptance", "statement": "Signature parsing succeeds if and only if the input is exactly one complete type of the documented grammar: a basic code, a variant, an array or maybe of a complete type, a struct of zero or more complete types, or a dict entry of one basic key and one complete value.", "quantifier": "every byte string", "why_tests_cant": "the language is infinite and recursive", "anchors": ["lib/tmp/src/fmt/dbus/signature.rs: parse, Sig::parse, Sig::new"]}
{"id": "C14", "title": "D-Bus signature text round trip", "statement": "Displaying a parsed signature gives back the parsed text, parsing the displayed text succeeds with an equal signature, and equality, ordering and hashing of signatures are those of their text.", "quantifier": "every accepted byte string", "why_tests_cant": "infinite language, and two in-memory encodings", "anchors": ["lib/tmp/src/fmt/dbus/signature.rs: Display, PartialEq, Ord, Hash for Sig"]}
{"id": "C15", "title": "D-Bus signature errors are accurate", "statement": "Each rejection names the first position where the input stops being a prefix of a valid signature, or the reason it is incomplete: the element, pairing, dictionary, sequence, empty and incomplete errors are reported exactly under their documented conditions with the documented indices.", "quantifier": "every rejected byte string", "why_tests_cant": "infinitely many rejected inputs", "anchors": ["lib/tmp/src/fmt/dbus/signature.rs: Error, parse"]}
{"id": "C16", "title": "D-Bus signature parsing never panics and always terminates", "statement": "Parsing any byte string into a buffer obtained from the size computation returns a value or an error after finitely many steps without panicking.", "quantifier": "every byte string, both node encodings, every buffer size", "why_tests_cant": "needs all inputs and a termination argument", "anchors": ["lib/tmp/src/fmt/dbus/signature.rs: parse, Sig::parse, Node8, Node64"]}
{"id": "C17", "title": "D-Bus signature structure metadata", "statement": "For every element of a parsed signature, its recorded length is the number of characters of the complete type it starts, its offset the distance to the enclosing container, its position the index among the siblings.", "quantifier": "every accepted byte string, every element index", "why_tests_cant": "must hold at every index of arbitrarily nested signatures", "anchors": ["lib/tmp/src/fmt/dbus/signature.rs: parse, Node8, Node64"]}
{"id": "C18", "title": "D-Bus alignment and size metadata", "statement": "The alignment and fixed size recorded for every type equal those of the D-Bus specification: basic alignments, 8 for structs and dict entries, 4 for arrays, 1 for variants and signatures; fixed sizes of static types sum up with padding.", "quantifier": "every accepted signature, every element", "why_tests_cant": "arbitrary nesting", "anchors": ["lib/tmp/src/fmt/dbus/signature.rs: Cursor::dvar_alignment_exp, dvar_size", "lib/tmp/src/fmt/dbus/element.rs"]}
{"id": "C19", "title": "D-Bus type flags metadata", "statement": "A type is flagged dynamic, handle-carrying, variant-carrying or DVar-unsupported if and only if it contains an element that is.", "quantifier": "every accepted signature, every element", "why_tests_cant": "arbitrary nesting", "anchors": ["lib/tmp/src/fmt/dbus/element.rs: FLAG_*", "lib/tmp/src/fmt/dbus/signature.rs: parse"]}
{"id": "C20", "title": "D-Bus signature length", "statement": "The number of elements a signature reports equals the number of characters it was parsed from, whichever node encoding is used.", "quantifier": "every accepted byte string", "why_tests_cant": "crosses the node-encoding threshold, depends on the size", "anchors": ["lib/tmp/src/fmt/dbus/signature.rs: Sig::len"]}
{"id": "C21", "title": "D-Bus cursor navigation", "statement": "Stepping over an element moves to the first element after its complete type; down enters a container's first child, up returns to the container; a full walk visits every sibling exactly once and navigation never leaves the signature.", "quantifier": "every signature, every cursor position, every sequence of moves", "why_tests_cant": "arbitrary walks over arbitrary nesting", "anchors": ["lib/tmp/src/fmt/dbus/signature.rs: Cursor::idx_step, idx_down, idx_up, move_*"]}
{"id": "C22", "title": "D-Bus sub-signatures", "statement": "The sub-signature taken at an element is the signature that parsing the text of that complete type on its own yields.", "quantifier": "every accepted signature, every element that starts a type", "why_tests_cant": "arbitrary nesting, relative offsets must be relocated", "anchors": ["lib/tmp/src/fmt/dbus/signature.rs: Sig::at, try_make"]}
{"id": "C23", "title": "D-Bus DVar encoding equals the wire format", "statement": "Driving the encoder through the API calls that describe a value of the signature's type produces exactly the D-Bus marshalling of that value (alignment padding, byte order, length prefixes, terminators), at any start offset and with either endianness.", "quantifier": "every supported signature, every well-typed value", "why_tests_cant": "arbitrarily nested values", "anchors": ["lib/tmp/src/fmt/dbus/dvar.rs: Enc"]}
{"id": "C24", "title": "D-Bus DVar round trip", "statement": "Decoding the bytes produced by encoding a value, with the same signature and format, yields the same value and consumes exactly those bytes.", "quantifier": "every supported signature, every well-typed value", "why_tests_cant": "arbitrarily nested values", "anchors": ["lib/tmp/src/fmt/dbus/dvar.rs: Enc, Dec"]}
{"id": "C25", "title": "D-Bus encoder rejects mistyped calls without effect", "statement": "A call that does not match the next element of the signature returns Mismatch and leaves the encoder, its output and position unchanged. After a commit every call on the encoder leaves it and its output unchanged, and only commits succeed.", "quantifier": "every reachable encoder state and every call", "why_tests_cant": "all reachable states", "anchors": ["lib/tmp/src/fmt/dbus/dvar.rs: Enc"]}
{"id": "C26", "title": "D-Bus decoder array iteration", "statement": "While decoding an array, more() is true exactly as long as the current position is before the end of the array contents announced by its length prefix.", "quantifier": "every reachable decoder state", "why_tests_cant": "all positions and lengths", "anchors": ["lib/tmp/src/fmt/dbus/dvar.rs: Dec::array, Dec::more, Dec::close"]}
{"id": "C27", "title": "Mapped writes are independent of chunking", "statement": "Writing a byte string through a mapped writer stores exactly these bytes at consecutive positions from the given index, whichever chunk sizes the writer maps, and touches nothing else.", "quantifier": "every byte string, every chunking behaviour of the writer, every start index", "why_tests_cant": "chunk sizes are adversarial", "anchors": ["lib/tmp/src/io/map.rs: Write::write, fill, zero, align_exp2, Read::read"]}
{"id": "C28", "title": "Mapped iterator writes", "statement": "write_iter stores the iterator's items in order at consecutive positions from the given index, independent of the chunk sizes mapped by the writer.", "quantifier": "every item sequence, every chunking behaviour", "why_tests_cant": "chunk sizes are adversarial", "anchors": ["lib/tmp/src/io/map.rs: Write::write_iter"]}
{"id": "C29", "title": "Vec as a mapped writer", "statement": "Mapping and committing on a Vec appends: previously committed bytes never change and committed bytes are exactly those written through the map.", "quantifier": "every initial vector and every sequence of map/commit calls", "why_tests_cant": "histories", "anchors": ["lib/tmp/src/io/map.rs: Write for Vec<u8>"]}
{"id": "C30", "title": "read_map_while finds the longest prefix", "statement": "read_map_while returns the longest prefix of the stream, up to the given maximum, whose bytes satisfy the predicate, or asks for more data exactly when the available data does not determine it, for any chunk sizes the stream maps.", "quantifier": "every stream content, predicate, maximum and chunking", "why_tests_cant": "chunk sizes are adversarial", "anchors": ["lib/tmp/src/io/stream.rs: read_map_while"]}
{"id": "C31", "title": "JSON tokenizer never panics", "statement": "For every sequence of pushed characters and flags, and every handler behaviour, the tokenizer reaches no panic.", "quantifier": "every character sequence, flag set and handler decision", "why_tests_cant": "state machine over infinitely many inputs", "anchors": ["lib/osi/src/json/token.rs: Tokenizer::push, push_str, parse_str"]}
{"id": "C32", "title": "JSON tokenization is independent of chunking", "statement": "The tokens reported for a text are the same whether it is pushed character by character or in arbitrary pieces.", "quantifier": "every text and every split", "why_tests_cant": "exponentially many splits", "anchors": ["lib/osi/src/json/token.rs: Tokenizer::push, push_str, parse_str"]}
{"id": "C33", "title": "JSON tokenizer state after completion or abort", "statement": "After the end of input has been pushed, or the handler aborted, the tokenizer behaves like a new one.", "quantifier": "every history", "why_tests_cant": "histories", "anchors": ["lib/osi/src/json/token.rs: Tokenizer::push, prepare, status"]}
{"id": "C34", "title": "JSON tokenizer conforms to RFC 8259", "statement": "For every text that is a sequence of RFC 8259 tokens separated by insignificant whitespace, the tokenizer reports exactly these tokens, with decoded string contents and number parts, and no error; a text yielding no error token is such a sequence.", "quantifier": "every token sequence and every text", "why_tests_cant": "infinite language", "anchors": ["lib/osi/src/json/token.rs: Tokenizer"]}
{"id": "C35", "title": "JSON strings decode correctly", "statement": "For every sequence of Unicode scalar values and every RFC 8259 escaping of it (including surrogate pairs), the tokenizer reports exactly this sequence as string contents.", "quantifier": "every string, every escaping", "why_tests_cant": "every escaping choice of every string", "anchors": ["lib/osi/src/json/token.rs: advance_string"]}
{"id": "C36", "title": "JSON tokenizer accounts for every character", "statement": "The source texts attached to the reported tokens, with the delimiters they imply, cover the input in order: no character is lost or reported twice.", "quantifier": "every text", "why_tests_cant": "infinite inputs, including malformed ones", "anchors": ["lib/osi/src/json/token.rs: Tokenizer"]}
{"id": "C37", "title": "Streaming JSON decoder tokenization is independent of buffering", "statement": "The streaming JSON token decoder yields the same tokens whether the data is available at once or arrives in arbitrary pieces.", "quantifier": "every byte string and arrival schedule", "why_tests_cant": "arrival schedules are adversarial", "anchors": ["lib/tmp/src/fmt/json/token.rs: Dec::pop"]}
{"id": "C38", "title": "Streaming JSON decoder string conformance", "statement": "A string containing an unescaped control character (U+0000 to U+001F) is reported as an error; the reported text of a string with errors contains each input segment once.", "quantifier": "every string token", "why_tests_cant": "all positions of all characters", "anchors": ["lib/tmp/src/fmt/json/token.rs: advance_string"]}
{"id": "C39", "title": "Streaming JSON decoder completion", "statement": "Calling complete in a loop until it yields None, as documented, terminates without panicking for every input.", "quantifier": "every input prefix", "why_tests_cant": "needs termination over all states", "anchors": ["lib/tmp/src/fmt/json/token.rs: Dec::complete, complete_inner, number_done"]}
{"id": "C40", "title": "JSON document decoder accepts exactly JSON documents", "statement": "The document decoder reports no unexpected-token error on a token stream if and only if it is a JSON document.", "quantifier": "every token sequence", "why_tests_cant": "infinite language", "anchors": ["lib/tmp/src/fmt/json/stream.rs: DecInner::advance"]}
{"id": "C41", "title": "JSON document decoder nesting", "statement": "Arrays and objects reported as closed always match the most recently opened one that is still open, for any token stream.", "quantifier": "every token sequence", "why_tests_cant": "unbounded nesting", "anchors": ["lib/tmp/src/fmt/json/stream.rs: DecInner::advance"]}
{"id": "C42", "title": "Command selection", "statement": "Parsing selects the command whose path equals the sequence of positional arguments up to the first that does not extend a command path, or reports that none was selected.", "quantifier": "every command layout and argument vector", "why_tests_cant": "unbounded layouts and inputs", "anchors": ["lib/osi/src/args/parse.rs: Cursor, Parser::parse_command, parse"]}
{"id": "C43", "title": "Flags resolve to the innermost enclosing command", "statement": "A flag is looked up in the selected command and then in its ancestors, and never in a command that was not selected.", "quantifier": "every command layout and argument vector", "why_tests_cant": "layout dependent", "anchors": ["lib/osi/src/args/parse.rs: Cursor::find_flag", "lib/osi/src/args/layout.rs"]}
{"id": "C44", "title": "Double dash ends flag parsing", "statement": "After a `--` argument every argument is a positional parameter, whatever it looks like.", "quantifier": "every argument vector", "why_tests_cant": "infinite inputs", "anchors": ["lib/osi/src/args/parse.rs: Parser::parse_cursor"]}
{"id": "C45", "title": "Flag values are attributed correctly", "statement": "--flag=value, --flag value, --no-flag and grouped short flags set exactly the named flag to exactly the given value; missing or unexpected values are reported.", "quantifier": "every layout, every argument vector", "why_tests_cant": "infinite inputs", "anchors": ["lib/osi/src/args/parse.rs: Parser::parse_long, parse_short"]}
{"id": "C46", "title": "Natural comparison is a total order", "statement": "cmp_natural is reflexive, antisymmetric and transitive and equals Equal only for equal strings, so it is usable for sorting.", "quantifier": "every triple of strings", "why_tests_cant": "infinitely many strings; violations need digit runs beyond 64 bit", "anchors": ["lib/osi/src/str.rs: cmp_natural"]}
{"id": "C47", "title": "Natural comparison orders numbers by value", "statement": "Strings that differ in one number only are ordered by the numeric value of that number.", "quantifier": "every common prefix and suffix and every pair of numbers", "why_tests_cant": "infinitely many", "anchors": ["lib/osi/src/str.rs: cmp_natural"]}
{"id": "C48", "title": "Symbolized names are valid and stable", "statement": "symbolize yields a non-empty string of alphanumeric characters and underscores not starting with a digit, is the identity on such strings, and is idempotent. A string taken as an option is none if it is empty, and otherwise itself.", "quantifier": "every string", "why_tests_cant": "infinitely many strings", "anchors": ["lib/osi/src/str.rs: symbolize, some"]}
{"id": "C49", "title": "MZ checksum", "statement": "sum16 is the sum modulo 2^16 of the little-endian 16-bit words of the data, an odd trailing byte counting as zero-extended, and patching the checksum field makes the total complement to zero.", "quantifier": "every byte string", "why_tests_cant": "infinite inputs", "anchors": ["lib/tmp/src/msdosmz.rs: sum16"]}
{"id": "C50", "title": "MZ header codec", "statement": "Reading an MZ header from bytes and writing it back is the identity, every field is the little-endian value at its specified offset, and every header value survives the byte form.", "quantifier": "every 28-byte string and every header value", "why_tests_cant": "2^224 headers", "anchors": ["lib/tmp/src/msdosmz.rs: Header, HeaderExt, Relocation"]}
{"id": "C51", "title": "Endian wrappers store the declared byte order", "statement": "A big- or little-endian wrapper of an integer has exactly the big- or little-endian byte image of its value, converts back to that value, and compares, orders and hashes like it, on hosts of either endianness.", "quantifier": "every integer width and value, both host endiannesses", "why_tests_cant": "2^128 values, hosts not available to tests", "anchors": ["lib/osi/src/ffi/endian.rs: NativeEndian, BigEndian, LittleEndian", "lib/osi/src/mem.rs: bswap_copy"]}
{"id": "C52", "title": "Tagged pointers keep address and metadata apart", "statement": "For a 4-byte aligned non-null pointer, any sequence of pointer and metadata updates leaves the address as last set and the two metadata bits as last set, and the pointer never becomes null.", "quantifier": "every address and every update sequence", "why_tests_cant": "2^64 addresses and all histories", "anchors": ["lib/osi/src/ptr.rs: NonNull4"]}
{"id": "C53", "title": "32-bit outputs are equidistributed", "statement": "Over a full period of 2^64 calls of next32, every 32-bit value is produced exactly 2^32 times.", "quantifier": "every generator obtainable through the API, every 32-bit value", "why_tests_cant": "2^64 calls", "anchors": ["lib/osi/src/rng.rs: SplitMix64::next32, Mix64::mix32"]}
{"id": "C54", "title": "Split increments are irregular", "statement": "The increment of every generator obtainable through the API, however often split, has at least 24 bit transitions, the quality criterion of the SplitMix design.", "quantifier": "every generator reachable by seeding, advancing and splitting", "why_tests_cant": "2^64 increments, unbounded histories", "anchors": ["lib/osi/src/rng.rs: Mix64::mixg, SplitMix64::split"]}
{"id": "C55", "title": "Streams set apart by jump128 do not overlap", "statement": "Generators obtained from a common non-zero state by different numbers (below 2^128-1) of jump128 calls share no state during their first 2^128 calls each.", "quantifier": "every non-zero state, every pair of stream indices, all positions", "why_tests_cant": "2^256 pairs of positions", "anchors": ["lib/osi/src/rng.rs: Xoshiro256pp::jump128"]}
{"id": "C56", "title": "Decoding arbitrary bytes is safe", "statement": "Whatever bytes a D-Bus decoder is given and whatever calls are made on it, every call returns; a call that does not match the type expected next is rejected without effect; data returned is exactly the data in the message at the position of the decoder, and text returned is valid UTF-8.", "quantifier": "every message, every signature, every sequence of calls including calls after errors", "why_tests_cant": "hostile messages and call histories are unbounded", "anchors": ["lib/tmp/src/fmt/dbus/dvar.rs: Dec"]}
{"id": "C57", "title": "Writing to a buffered stream appends", "statement": "Data written to a vector, through any sequence of writes and however its storage grows, is appended to what it holds: nothing is lost, reordered, duplicated or overwritten, and no write panics.", "quantifier": "every content, spare capacity, growth policy and sequence of writes", "why_tests_cant": "capacities and write sizes are unbounded", "anchors": ["lib/tmp/src/io/stream.rs: Write for Vec, write"]}
{"id": "C58", "title": "Streaming JSON decoder makes progress", "statement": "Whatever bytes arrive and in whatever pieces, every call to pop returns without panicking; calling it often enough leads to a request for more data, and the request is for exactly one byte more than is available.", "quantifier": "every history of arriving data and calls", "why_tests_cant": "hostile inputs and schedules are unbounded", "anchors": ["lib/tmp/src/fmt/json/token.rs: Dec::pop"]}
{"id": "C59", "title": "Streaming JSON decoder accepts RFC texts", "statement": "Every sequence of lexemes of RFC 8259 is reported as exactly one token per lexeme, with its text and its value (strings unescaped, numbers split in sign, integer, fraction and exponent), and without errors, whatever the pieces in which it arrives.", "quantifier": "every text of RFC lexemes, every history", "why_tests_cant": "infinite language, adversarial schedules", "anchors": ["lib/tmp/src/fmt/json/token.rs: Dec::pop, advance_number, advance_string"]}
{"id": "C60", "title": "Streaming JSON decoder reports numbers at the end of the stream", "statement": "A number that ends with the stream is reported by complete with the value it would have had with a delimiter behind it.", "quantifier": "every number", "why_tests_cant": "infinitely many numbers", "anchors": ["lib/tmp/src/fmt/json/token.rs: Dec::complete, number_done"]}
{"id": "C61", "title": "Streaming JSON decoder reports malformed numbers", "statement": "Every deviation of a number from the grammar of RFC 8259 is reported as an error.", "quantifier": "every malformed number", "why_tests_cant": "infinite language", "anchors": ["lib/tmp/src/fmt/json/token.rs: advance_number, number_done"]}
{"id": "C62", "title": "JSON document decoder is independent of buffering", "statement": "The document decoder reports the same items whether the data is available at once or arrives in arbitrary pieces.", "quantifier": "every byte string and every two arrival schedules", "why_tests_cant": "arrival schedules are adversarial", "anchors": ["lib/tmp/src/fmt/json/stream.rs: Dec::pop"]}
{"id": "C63", "title": "JSON document decoder makes progress", "statement": "Whatever bytes arrive and in whatever pieces, every call to pop of the document decoder returns without panicking, and calling it often enough leads to a request for more data.", "quantifier": "every history of arriving data and calls", "why_tests_cant": "hostile inputs and schedules are unbounded", "anchors": ["lib/tmp/src/fmt/json/stream.rs: Dec::pop, advance"]}
{"id": "C64", "title": "JSON document decoder tells keys from values", "statement": "The keys of objects are reported as keys, so that a user can tell them from values.", "quantifier": "every token sequence", "why_tests_cant": "all token sequences", "anchors": ["lib/tmp/src/fmt/json/stream.rs: Item::Key, DecInner::advance"]}
{"id": "C65", "title": "Aligned integers have the declared layout", "statement": "An aligned integer has exactly the declared alignment and the smallest size that is a multiple of it and holds the value; the value comes first, in the declared byte order, whatever the alignment of the primitive on the host.", "quantifier": "every primitive size, every alignment, every host and every value", "why_tests_cant": "hosts not available to tests, all values", "anchors": ["lib/osi/src/ffi/integer.rs: Integer", "lib/osi/src/ffi/packed.rs: Packed", "lib/osi/src/align.rs: AlignAs"]}
{"id": "C66", "title": "Integer and packed cells hold the last value stored", "statement": "After any sequence of set, replace and take an integer or packed object holds exactly the value last stored; replace and take have returned the one before, set has dropped it; no value is lost, or dropped or returned twice.", "quantifier": "every type and every sequence of updates", "why_tests_cant": "all histories", "anchors": ["lib/osi/src/ffi/integer.rs: Integer::new, get, set, replace, take, into_inner", "lib/osi/src/ffi/packed.rs: Packed"]}
{"id": "C67", "title": "Addresses convert to and from usize", "statement": "Where the conversion is offered it is the identity on every address that fits; conversions that would truncate panic rather than change the address; null becomes no address; a dangling address is a multiple of the alignment and not null.", "quantifier": "every address, address type and usize size", "why_tests_cant": "2^64 addresses, hosts not available to tests", "anchors": ["lib/osi/src/ffi/pointer.rs: NativeAddress, from_usize, to_usize, dangling"]}
{"id": "C68", "title": "File format structures have the specified layout", "statement": "Every structure of the MZ, PE and ELF formats has exactly the fields of the format specification, at the specified offsets, without padding, and with the specified size and alignment, on every host. Its numbers are signed exactly where the specification has them signed.", "quantifier": "every structure and every host whose integers have an alignment dividing their size", "why_tests_cant": "the tests check two numbers of some structures on the host they run on", "anchors": ["lib/tmp/src/msdosmz.rs: Header, HeaderExt, Relocation", "lib/tmp/src/pecoff.rs: Header, OptionalHeader, OptionalHeaderExt, DataDirectory, SectionHeader", "lib/sys/src/ffi/elf.rs: Ident, Ehdr, Shdr, Phdr, Sym, Dyn, Rel, Rela"]}
{"id": "C69", "title": "Container and field pointers are inverse", "statement": "Going from a container to one of its fields and back, or from a field to its container and back, gives the original address.", "quantifier": "every address and every field offset", "why_tests_cant": "2^64 addresses", "anchors": ["lib/osi/src/meta.rs: container_of_ptr, field_of_ptr, field_of, field_of_mut"]}
{"id": "C70", "title": "PE constants follow the PE specification", "statement": "The constants exported for PE have the values of the specification: the magic of the optional header tells PE32 from PE32+, and subsystems are numbered as specified.", "quantifier": "every image", "why_tests_cant": "an interpretation of all images depends on them", "anchors": ["lib/tmp/src/pecoff.rs: PE_MAGIC_OH32, PE_MAGIC_OH32P, SUBSYSTEM_EFI_APPLICATION"]}
{"id": "C71", "title": "Flag values end up in the objects given for them", "statement": "After parsing, every object that flags report to holds what the uses of its flags on the command line leave: a switch the last setting, a single value the last accepted value, a list all accepted values in order behind what it held; an object whose flags are not used is unchanged. Values that are not text are accepted only by objects for OS strings.", "quantifier": "every layout with distinct names, every assignment of objects to flags (also shared ones), every initial content and every command line", "why_tests_cant": "unbounded layouts, sharing and command lines", "anchors": ["lib/osi/src/args/report.rs: FlagReport implementations, Shared"]}
{"id": "C72", "title": "Parameters end up in the objects given for them", "statement": "After parsing, the object of a command holds the parameters given to it, in order, behind what it held before; parameters that are not text are left out of objects for text.", "quantifier": "every layout with distinct names, every assignment of objects to commands and every command line", "why_tests_cant": "unbounded layouts and command lines", "anchors": ["lib/osi/src/args/report.rs: CommandReport implementations"]}
{"id": "C73", "title": "All argument errors are reported", "statement": "With an error list as parser report, parsing completes and the list has exactly the errors of the command line in the order of the arguments. Any other parser report is told the same errors in the same order until it breaks off, which ends parsing with the value it returned.", "quantifier": "every layout with distinct names, every set of objects, every parser report, every command line", "why_tests_cant": "user-supplied callbacks, unbounded command lines", "anchors": ["lib/osi/src/args/report.rs: ParserReport, Vec<Error>", "lib/osi/src/args/parse.rs: parse"]}
{"id": "C74", "title": "Help lists what a command offers", "statement": "The help on a command shows its path, exactly its flags by name, and exactly the commands one word below it by name, each section with the width of its widest name counted in characters; empty sections are left out.", "quantifier": "every layout with distinct names and every command of it", "why_tests_cant": "unbounded layouts", "anchors": ["lib/osi/src/args/help.rs: Help::write"]}
{"id": "C75", "title": "Help is shown if and only if it was asked for", "statement": "Help is shown exactly if a help flag was set and not turned off again afterwards, and it is the help on the command that was being parsed where it was last asked for; output stops at the first failure of the writer, which is returned.", "quantifier": "every layout with distinct names, every command line and every writer", "why_tests_cant": "user-supplied callbacks, unbounded command lines", "anchors": ["lib/osi/src/args/help.rs: Help::try_help, Help::help, Flag"]}
{"id": "C76", "title": "Structures of foreign platforms have their C layout", "statement": "A structure declared with the types of a platform's ABI module, with arrays and nested structures, has the size, the alignment and the field offsets that C gives it on that platform, whatever machine the program runs on; on a machine of that platform the native types have the same layout.", "quantifier": "every declaration, every platform and every host", "why_tests_cant": "unbounded nesting, hosts not available to tests", "anchors": ["lib/osi/src/ffi/abi.rs: native, aarch64_sysv, x86_sysv, x86_64_sysv"]}
{"id": "C77", "title": "Error numbers are those of Linux", "statement": "For every platform and on every host each error constant is the number Linux defines, in two bytes of the byte order of the platform; it reads back as that number; there are no others; different constants are different numbers except for the aliases of Linux.", "quantifier": "every constant, platform and host", "why_tests_cant": "hosts not available to tests", "anchors": ["lib/sys/src/ffi/linux/common/errno.rs", "lib/sys/src/ffi/linux/mod.rs: impl_platform", "lib/osi/src/ffi/abi.rs: shared::num"]}
{"id": "C78", "title": "ELF numbers follow the ELF specification", "statement": "The constants exported for ELF have the values of the specification, and different machines have different numbers.", "quantifier": "every constant", "why_tests_cant": "an interpretation of all files depends on them", "anchors": ["lib/sys/src/ffi/elf.rs: constants"]}
{"id": "C79", "title": "Converting owners to OnceRef and back keeps ownership", "statement": "Any sequence of creating, copying, dropping, converting and restoring references, boxes and counted pointers accesses only live memory; pointers lead to the same address exactly if they belong to the same object; an object is destroyed exactly when its last owner is dropped, and exactly once, and never while a wrapper made from one of its owners was not restored; if all wrappers are restored nothing leaks.", "quantifier": "every program over these operations, every allocator", "why_tests_cant": "unbounded histories and address assignments", "anchors": ["lib/osi/src/convert.rs: IntoDeref, FromDeref", "lib/osi/src/ptr.rs: OnceRef", "lib/osi/src/pin.rs", "lib/osi/src/cmp.rs: Identity"]}
{"id": "C80", "title": "Comparisons of pointer-like and maybe-owned values are lawful", "statement": "Identity and Ptr are equal exactly for the same object, ordered by a total order that agrees with it and hashed consistently; a Mown is compared, ordered and hashed as its value whether owned or borrowed; a OnceRef, documented to behave like a reference, compares like one.", "quantifier": "every pair of objects and every program that made them", "why_tests_cant": "all addresses and values", "anchors": ["lib/osi/src/cmp.rs: Identity", "lib/osi/src/ptr.rs: Ptr, OnceRef", "lib/osi/src/mown.rs: Mown"]}
{"id": "C81", "title": "Uncaught errors expose what was promised", "statement": "An uncaught error exposes nothing of the value in it beyond what the constructor used promises (nothing, the debug text, the display text, or all), shows that in its own texts, and formatting stops at the first failure of the formatter.", "quantifier": "every value, constructor, formatter and feature set", "why_tests_cant": "user-supplied values and formatters", "anchors": ["lib/osi/src/error.rs: Uncaught"]}
{"id": "C82", "title": "Text written through the compatibility wrappers arrives", "statement": "Writing text through the Write wrapper delivers exactly its bytes in order on success and a proper beginning of them on an error, whatever the device does; an OS string keeps its bytes and is text exactly if they are UTF-8.", "quantifier": "every device that writes partially, interrupts or fails, every text and every byte string", "why_tests_cant": "adversarial devices, infinitely many texts", "anchors": ["lib/osi/src/compat.rs: Write, OsStr"]}
{"id": "C83", "title": "Alignment markers have the alignment of their type", "statement": "The marker of a type takes no space, has exactly the alignment of the type, exists for every type with an alignment up to 128 bytes, and embedded in a structure raises its alignment to at least that of the type without moving other fields.", "quantifier": "every type with a marker, every structure and every host", "why_tests_cant": "hosts not available to tests, unbounded types", "anchors": ["lib/osi/src/align.rs: AlignAs, AlignOf, Aligned, AlignNative"]}
{"id": "C84", "title": "Format-generic D-Bus coders work for every format", "statement": "Coders can be created for every format of the interface, and copying values from a decoder to an encoder writes them.", "quantifier": "every signature, format and message", "why_tests_cant": "all messages", "anchors": ["lib/tmp/src/fmt/dbus/ende.rs: Enc, Dec"]}
{"id": "C85", "title": "Copies and byte views of objects stay within the object", "statement": "Copying an object as another type, whatever the sizes and alignments of both, reads only the object and only as its address allows, gives its bytes cut off or followed by uninitialised ones, and changes nothing. The byte view of an object is exactly its bytes; a write through it changes that byte and nothing else. Comparing the memory of two objects says whether they have the same bytes and as many.", "quantifier": "every memory, address, pair of types and contents", "why_tests_cant": "all sizes, alignments and addresses; undefined behaviour cannot be observed by a test", "anchors": ["lib/osi/src/mem.rs: transmute_copy_uninit, as_bytes, as_bytes_mut, eq"]}
{"id": "C86", "title": "Byte swapped copies reverse all bytes", "statement": "For every object whose type stays valid with reversed bytes, the byte swapped copy has exactly the bytes of the object in reverse order, without undefined behaviour, whatever size, alignment and host.", "quantifier": "every memory, type, contents, byte order and integer alignment of the host", "why_tests_cant": "all sizes, alignments and hosts; undefined behaviour cannot be observed by a test", "anchors": ["lib/osi/src/mem.rs: bswap_copy"]}
{"id": "C87", "title": "Conditional blocks behave like if and else", "statement": "Of a list of blocks with configuration conditions exactly the first whose condition holds is compiled; if none holds, the block without a condition, if there is one.", "quantifier": "every list of conditions and blocks and every configuration", "why_tests_cant": "a test is compiled for one configuration", "anchors": ["lib/osi/src/cfg.rs: cond"]}
{"id": "C88", "title": "Variance markers have their variance and no layout", "statement": "The markers for covariance, contravariance and invariance make a type follow its parameter in exactly that way, for every pair of types; they take no space and have alignment 1 on every host. The two example types are in a proper subtype relation.", "quantifier": "every pair of types, every host", "why_tests_cant": "that a program is rejected by the compiler cannot be tested within it", "anchors": ["lib/osi/src/marker.rs: PhantomInvariant, PhantomInvariantLifetime", "lib/osi/src/test.rs: CovariantType, ContravariantType, InvariantType, SuperType, SubType"]}
{"id": "C89", "title": "Brands cannot be exchanged or leave their closure", "statement": "An identifier or unique brand for one lifetime is never accepted where one for another lifetime is needed, and no conversion hides the brand of an identifier, so that it cannot be returned from the closure it was created for.", "quantifier": "every pair of lifetimes, every type that has an identifier in it", "why_tests_cant": "that a program is rejected by the compiler cannot be tested within it", "anchors": ["lib/osi/src/brand.rs: Id, Unique, unique"]}
{"id": "C90", "title": "Unique brands are unique", "statement": "At all times a unique brand is the only value of its brand: there is no second one, and no identifier of it. Every identifier was obtained by giving up the unique brand.", "quantifier": "every program of safe code", "why_tests_cant": "all programs", "anchors": ["lib/osi/src/brand.rs: Unique, unique, Id::from"]}
{"id": "C91", "title": "Nested foreign-function types keep the value", "statement": "Integers and pointers around each other and around endian wrappers, in any nesting: converting a value at once and wrapping it one type at a time make the same object, with the value first in the byte order of the innermost type; converting back at once and unwrapping one at a time give the value; such objects compare, order and hash as their values whatever is in their padding; a native address stored in one is read back.", "quantifier": "every nesting, alignment, primitive type, host and value", "why_tests_cant": "unbounded nesting, hosts not available to tests", "anchors": ["lib/osi/src/ffi/integer.rs: Integer", "lib/osi/src/ffi/pointer.rs: Pointer", "lib/osi/src/ffi/endian.rs: from_native, to_native"]}
{"id": "C92", "title": "What a D-Bus encoder commits, whatever the writer does", "statement": "With a writer that may grant less than asked and may fail at any point, and a caller that goes on after failed calls in any way: when the calls that succeeded describe a value of the signature's type, the output holds the wire format of this value and committing commits its length. An encoder can be committed only then, where calls on sub-encoders that are dropped before they are committed do not count: they leave no trace.", "quantifier": "every writer that grants at most what it is asked for, every signature, every sequence of calls on the encoder and nested sub-encoders, including calls after errors", "why_tests_cant": "writers, failure points and histories are unbounded", "anchors": ["lib/tmp/src/fmt/dbus/dvar.rs: Enc", "lib/tmp/src/io/map.rs: Write"]}
{"id": "C93", "title": "Platform modules match the compilation target", "statement": "For every target the crates can be compiled, and the alias for the ABI of the target exists exactly where a module for it exists and names that module. The Linux interfaces of every platform are available on every target; those of the target and the native ones exist exactly for supported targets (the native ones otherwise being those of libc if enabled), and whatever is declared with the types of one has the same layout with the others, and error numbers are the same bytes.", "quantifier": "every target (architecture, family, environment, pointer width, byte order), every feature set and every declaration", "why_tests_cant": "a test runs on one target", "anchors": ["lib/osi/src/ffi/abi.rs: target", "lib/sys/src/ffi/linux/mod.rs: impl_platform, target, native", "lib/sys/src/ffi/linux/libc/mod.rs: abi", "lib/sys/src/ffi/linux/libc/errno.rs"]}
{"id": "C94", "title": "Generators implement the published algorithms", "statement": "A generator with a seed answers every sequence of calls with the values that the published SplitMix64 (values of 32 and 64 bits, and seed and increment of split generators) and Xoshiro256++ algorithms have for this seed, as other implementations do.", "quantifier": "every seed and every sequence of calls", "why_tests_cant": "all seeds and unbounded sequences", "anchors": ["lib/osi/src/rng.rs: Mix64, SplitMix64, Xoshiro256pp"]}
{"id": "C95", "title": "Xoshiro256++ outputs are equidistributed", "statement": "Over a full period of 2^256-1 calls every sequence of three 64-bit values is returned at exactly 2^64 positions (three zeros at one less), and every single value at exactly 2^192 positions (zero at one less).", "quantifier": "every generator obtainable through the API, all values", "why_tests_cant": "2^256 positions", "anchors": ["lib/osi/src/rng.rs: Xoshiro256pp::next64"]}
{"id": "C96", "title": "Groups of streams set apart by jumps do not overlap", "statement": "Generators obtained from one generator by different numbers of jump192 (below 2^64-1) and then of jump128 (below 2^64) share no state during their first 2^128 calls each.", "quantifier": "every generator obtainable through the API, every pair of streams, all positions", "why_tests_cant": "2^256 positions", "anchors": ["lib/osi/src/rng.rs: Xoshiro256pp::jump128, Xoshiro256pp::jump192"]}
{"id": "C97", "title": "Wrapping a pointer does not let objects cross threads", "statement": "Whatever programs do with references, boxes, counted pointers and the OnceRef and Ptr made from them, moving them to other threads or lending references to them as their markers allow, and restoring them as documented: an object that may not be shared is never within reach of two threads, an object that may not be sent can be changed or destroyed only by the thread that created it, and the counter of an Rc is used by one thread only.", "quantifier": "every program over these operations, any number of threads and objects, every payload", "why_tests_cant": "data races and rejected programs cannot be tested; schedules are unbounded", "anchors": ["lib/osi/src/ptr.rs: Send and Sync of Ptr and OnceRef", "lib/osi/src/convert.rs: IntoDeref, FromDeref"]}
{"id": "C98", "title": "D-Bus signatures are the same however they are created", "statement": "A signature created on the heap, as a shared object, in static memory of any size, as a literal or as a copy has all its memory initialised and is the one created from the same text in any other way; a text that is not a signature gives the same error, for literals when compiling.", "quantifier": "every text and every size of the static memory", "why_tests_cant": "all texts and sizes; undefined behaviour cannot be observed by a test", "anchors": ["lib/tmp/src/fmt/dbus/signature.rs: Sig::new, Sig::arc, Sig::clone, Sig::to_owned, Sig::try_make, Sig::make, make!, sig!"]}
{"id": "C99", "title": "Pinned pointers become raw pointers to their target", "statement": "Turning a pinned pointer of any kind, or a wrapper, into a raw pointer (shared, mutable or known not to be null) gives the address of its target, which is not null; the target is not destroyed and can be read through the raw pointer.", "quantifier": "every state that programs over references, boxes, counted pointers and wrappers can reach, every allocator", "why_tests_cant": "unbounded histories; a dangling pointer cannot be observed by a test", "anchors": ["lib/osi/src/pin.rs: as_ptr, as_mut_ptr, map_unchecked", "lib/osi/src/ptr.rs: nonnull_from_pin_ref, nonnull_from_pin_mut, OnceRef::pin_from_ref, OnceRef::pin_from_mut, OnceRef::into_ptr"]}
{"id": "C100", "title": "Layouts can be inspected: nothing is lost, order and links are as documented", "statement": "Creating a layout never panics. Its iterators and indices give exactly the commands and flags it was created with, commands in depth-first pre-order and flags by name; the link of a command leads to the closest command above it, and following links visits exactly the commands above; searching finds what is there and otherwise where it would be. All of this stays so whatever is done through mutable references.", "quantifier": "every list of commands and flags in any order, every outcome of sorting and searching the standard library allows, every sequence of assignments", "why_tests_cant": "unbounded layouts and histories", "anchors": ["lib/osi/src/args/layout.rs: FlagSet, CommandSet, Schema, iter, iter_from, search_by, up_from, flag_mut_at, command_mut_at"]}
{"id": "C101", "title": "Mapped access reports what the device answered, and slices and vectors which limit was hit", "statement": "An access that fails reports exactly the error with which the device refused the part that was still missing, with the index at its start. A read of a slice gives the bytes if they are all there, says Exceeded if they are not, and Overflow if their end is not representable. A write to a vector always succeeds up to the largest possible size, says Overflow if its end is not representable, and panics in between. Aligning to a power of two below 2^31 fills zeroes up to the next multiple, or says Overflow if that is not representable.", "quantifier": "every device, slice, vector, index, length, data and alignment", "why_tests_cant": "all indices up to the largest integers, adversarial devices", "anchors": ["lib/tmp/src/io/map.rs: Read, Write, align_exp2", "lib/tmp/src/io/map.rs: implementations for slices and Vec"]}
{"id": "C102", "title": "The packed words of a signature hold the signature", "statement": "The memory words that a signature is stored in hold all of it: the text, errors and parts that can be read back from the words are those of C13 to C22 on machines of either byte order, and do not depend on what the memory held before; no word is read before it was written, the words of a part are a contiguous piece of the words of the whole, and no field of a node is cut off.", "quantifier": "every text, byte order and previous content of the memory", "why_tests_cant": "all texts, machines not available to tests; reading uninitialised memory cannot be observed by a test", "anchors": ["lib/tmp/src/fmt/dbus/signature.rs: Sig::parse, Sig::new, Sig::at, Sig::node_at, Node8, Node64, NodeRef", "lib/tmp/src/fmt/dbus/element.rs: FlagSet, Element::from_id"]}
{"id": "C103", "title": "Ending a JSON stream reports what was not read", "statement": "Whenever completing the stream says that nothing is left, all data was consumed. Completing it directly after a token, or before anything was read, reports remaining data exactly if there is any, whatever arrived since; in the middle of a token it reports that token, made of what was looked at so far.", "quantifier": "every history of data and pops, every reader that keeps its contract, every point at which the stream is completed", "why_tests_cant": "unbounded histories, adversarial readers", "anchors": ["lib/tmp/src/fmt/json/token.rs: Dec::complete, Error::BufferRemaining"]}
{"id": "C104", "title": "Pointers of fixed size lead where they were made to lead", "statement": "A pointer made from a reference, raw pointer or address leads to the same object, however it is cast, copied and unwrapped; null is refused; a dangling pointer is aligned and not null; set and replace keep the last address and lose none; the address of a pointer is never null.", "quantifier": "every address, nesting of address types, host, sequence of casts and updates", "why_tests_cant": "unbounded address and type space; padding of any content", "anchors": ["lib/osi/src/ffi/pointer.rs: NativeAddress, Pointer::{from_usize, dangling, as_ptr, as_ref, cast, cast_into, set, replace}, From<&Target>, TryFrom"]}
{"id": "C105", "title": "Alignment markers leave no trace in values", "statement": "Each alignment marker has exactly one value, the default; values of it are equal in every comparison, are copies of one another and add nothing to a hash, so that a structure with markers in it compares and hashes like its other fields. The debug output of a marker names its type, and shows the alignment it has.", "quantifier": "every marker of every type, host, structure and hasher", "why_tests_cant": "all types and structures", "anchors": ["lib/osi/src/align.rs: Align1 to Align128, AlignAs, AlignOf and their Clone, Debug, Default, Hash, Eq, Ord, PartialEq, PartialOrd"]}
{"id": "C106", "title": "Foreign-function integers are shown as the numbers they hold", "statement": "Displaying an integer or pointer of fixed size, however its types are nested and whatever its padding holds, gives the stored number in decimal, so that two of them are displayed alike exactly if they are equal. Debug output names all types from the outside in around the number the host sees in the bytes, which is the stored one if the declared byte order is the host's.", "quantifier": "every number, integer type, nesting of wrappers, host byte order and padding", "why_tests_cant": "unbounded nestings, all numbers, padding of any content", "anchors": ["lib/osi/src/ffi/endian.rs: Debug, Display", "lib/osi/src/ffi/integer.rs: Debug, Display", "lib/osi/src/ffi/pointer.rs: Debug, Display", "lib/osi/src/ffi/packed.rs: Debug, Display"]}
{"id": "C107", "title": "Pointers follow their targets and lifetimes as documented", "statement": "A singular reference or lifetime-annotated pointer can be used in place of another exactly if a mutable reference could be: its lifetime may shrink, but its target type must be the same up to subtyping both ways. So nothing can be stored through it that its owner could not have stored, and no lifetime grows. A 4-byte aligned pointer, a pointer of fixed size and a borrowed-or-owned value follow their parameters like a shared reference.", "quantifier": "every target type, including nested references, functions and higher-ranked types, and every pair of lifetimes", "why_tests_cant": "which coercions compile is a matter for the compiler: a test shows one that does, not that none of the wrong ones do", "anchors": ["lib/osi/src/ptr.rs: NonNull4, Ptr, OnceRef", "lib/osi/src/ffi/pointer.rs: Pointer", "lib/osi/src/mown.rs: Mown"]}
{"id": "C108", "title": "A committed D-Bus decoder has read one value that is in the message", "statement": "Whatever bytes a D-Bus decoder is given, and whatever calls are made on it and on decoders derived from it: if it can be committed then what its successful calls have yielded, not counting those on derived decoders that were dropped before they were committed, are the parts of one complete value of its type. That value is in the message, from its start to the position of the decoder, with the alignments of the format, and takes the space it takes when it is encoded. Calls that fail, and derived decoders that are dropped, leave the decoder where it was.", "quantifier": "every message, reader, byte order and type, every history of calls with any mixture of successes, errors, and nested, committed and dropped derived decoders", "why_tests_cant": "the histories and the messages are unbounded; tests decode well-formed messages in one go", "anchors": ["lib/tmp/src/fmt/dbus/dvar.rs: Dec::commit", "lib/tmp/src/fmt/dbus/dvar.rs: Dec::dec", "lib/tmp/src/fmt/dbus/dvar.rs: Dec::array"]}
{"id": "C109", "title": "Argument layouts may list commands and flags more than once", "statement": "Compiling a layout of commands and parsing any arguments with it always returns, and never panics, also if several commands have the same path or several flags of a command the same name. What the reports are told then refers to commands and flags that are in the layout, and each flag is reported by the call for its mode. Arguments without flags enter the longest path of the layout they begin with, the others are parameters, and a command with that path is selected if there is one.", "quantifier": "every layout, every order in which sorting leaves equal commands and flags, every match a search may find, every argument vector and every report", "why_tests_cant": "the layouts are unbounded, and the standard library does not say which of several equal elements comes first or is found", "anchors": ["lib/osi/src/args/layout.rs: CommandSet::with, FlagSet::with", "lib/osi/src/args/parse.rs: parse"]}
{"id": "C110", "title": "D-Bus signatures are a prefix code", "statement": "No D-Bus signature begins with another one, so a text of several signatures in sequence can be split into them in one way only, and what several signatures in sequence give to a hasher is the same only if all of them are the same.", "quantifier": "every sequence of signatures of any length", "why_tests_cant": "the signatures are infinitely many; the claim is a comment in the code that justifies the hash", "anchors": ["lib/tmp/src/fmt/dbus/signature.rs: Hash for Sig"]}
{"id": "C111", "title": "References to members stay within their member", "statement": "Going from a reference of a structure to a reference of one of its members by the offset of the member gives an aligned reference that lies within the structure and refers to that member, for every layout the compiler may choose and every place the structure may live at. Reading through it gives the bytes of the member; assigning through it changes all bytes of the member and no other byte, neither of another member nor of a gap nor outside of the structure; and the pointer to the member leads back to the structure.", "quantifier": "every layout with aligned members that share no bytes, every member, every address, every content of memory and every value assigned", "why_tests_cant": "layouts and addresses are not bounded; that no other byte changes is about all of memory", "anchors": ["lib/osi/src/meta.rs: Field", "lib/osi/src/meta.rs: field_of", "lib/osi/src/meta.rs: field_of_mut", "lib/osi/src/meta.rs: container_of_ptr", "lib/osi/src/mem.rs: typed_offset_of"]}
{"id": "C112", "title": "What a D-Bus element says of itself holds for every type it is used in", "statement": "The elements are the characters of signatures, one each, with distinct ids that are never zero; the character and the text of an element are its code. An element is marked as a prefix, an opening, a closing or a basic one exactly if it can start a type, open a container, close one, or is a basic type on its own, and two elements are a pair exactly if one closes what the other opens. For every type that starts with an element, the element tells its alignment, whether it is a handle, a variant, a container with a closing element or not supported by DVar, and, if the element is the whole type, its sizes. Asking for several flags at once answers as asking for each of them.", "quantifier": "every element, every byte, every type that starts with the element, and every combination of flags", "why_tests_cant": "Types are unbounded in number and so are the combinations of bytes that may follow an element; the unit tests look at elements in isolation.", "anchors": ["lib/tmp/src/fmt/dbus/element.rs: Element", "lib/tmp/src/fmt/dbus/element.rs: from_code", "lib/tmp/src/fmt/dbus/element.rs: from_id", "lib/tmp/src/fmt/dbus/element.rs: id", "lib/tmp/src/fmt/dbus/element.rs: code", "lib/tmp/src/fmt/dbus/element.rs: char", "lib/tmp/src/fmt/dbus/element.rs: str", "lib/tmp/src/fmt/dbus/element.rs: pair", "lib/tmp/src/fmt/dbus/element.rs: all", "lib/tmp/src/fmt/dbus/element.rs: any", "lib/tmp/src/fmt/dbus/element.rs: dvar_alignment_exp", "lib/tmp/src/fmt/dbus/element.rs: gvar_alignment_exp", "lib/tmp/src/fmt/dbus/element.rs: dvar_size", "lib/tmp/src/fmt/dbus/element.rs: gvar_size", "lib/tmp/src/fmt/dbus/element.rs: ELEMENTS"]}
{"id": "C113", "title": "Packed objects work at any address and do not touch their neighbours", "statement": "In an array of packed objects, at any address and for any wrapped type, every sequence of get, into_inner, set, replace, take, clone, conversion, comparison, hashing and formatting is free of unaligned accesses and gives what the same calls on a plain list of the values give. The objects follow each other without gaps, and no call changes a byte of another object or around the array.", "quantifier": "every wrapped type with its size and alignment, every address, number of objects and content, and every sequence of calls", "why_tests_cant": "An access that relies on the alignment of the wrapped type works in a test whenever the object happens to be aligned, and on most hosts even if it is not; addresses and sequences of calls are unbounded.", "anchors": ["lib/osi/src/ffi/packed.rs: Packed::new", "lib/osi/src/ffi/packed.rs: Packed::as_ptr", "lib/osi/src/ffi/packed.rs: Packed::into_inner", "lib/osi/src/ffi/packed.rs: Packed::set", "lib/osi/src/ffi/packed.rs: Packed::replace", "lib/osi/src/ffi/packed.rs: Packed::get", "lib/osi/src/ffi/packed.rs: Packed::take", "lib/osi/src/ffi/packed.rs: Clone, Debug, Display, Hash, Ord, PartialEq, PartialOrd, From"]}
{"id": "C114", "title": "Variance markers and brands leave no trace in values", "statement": "A variance marker, or a brand, may be a field anywhere in a structure, in structures within it, and so on: derived equality, orders and hash are those of the other data. There is one value of each marker, equal to itself in every comparison and adding nothing to a hash. The debug output of the marker tells its type, and those of markers and brands differ from each other.", "quantifier": "every structure of fields and structures in any nesting, every pair of objects of it, every equality, order and hash of the data, every type name", "why_tests_cant": "The structures that can be declared around a marker and their contents are unbounded; a test declares a few.", "anchors": ["lib/osi/src/marker.rs: PhantomInvariant", "lib/osi/src/marker.rs: PhantomInvariantLifetime", "lib/osi/src/brand.rs: Id", "lib/osi/src/brand.rs: Unique"]}
{"id": "C115", "title": "Lossy conversion of OS strings to text", "statement": "Converting an OS string to text lossily always yields text, with each maximal part that is no character replaced by one replacement character, as the Unicode Standard recommends. Text, and only text, comes back unchanged and without a copy. Converting again changes nothing. Damage stays local: before and after a byte that continues no character, the parts are converted on their own. The result is no shorter and at most three times as long.", "quantifier": "every sequence of bytes", "why_tests_cant": "All byte sequences, of any length, with damage anywhere; a test tries a few.", "anchors": ["lib/osi/src/compat.rs: OsStr::to_string_lossy"]}
{"id": "C116", "title": "Report objects shared by several flags", "statement": "Flags that share one report object of any type, given by the library or the program, behave as if the object were told everything directly, in the order of the command line, and so is what they tell the parser. Through a cell, a report that ends the parsing leaves no trace in the object. Through a dynamically checked cell, no borrow is left behind; a report panics exactly if the program holds a borrow, or the report itself panics.", "quantifier": "every report type, every number of objects, every assignment of flags to them, every sequence of reports", "why_tests_cant": "The report types programs can define, and the histories of reports, are unbounded.", "anchors": ["lib/osi/src/args/report.rs: Shared", "lib/osi/src/args/report.rs: FlagReport"]}
{"id": "C117", "title": "Coercions with and without Polonius", "statement": "The macro for coercions that only Polonius accepts yields the same value in every build in which it compiles.", "quantifier": "every value of every reference, pointer or box type, every chain of coercions, every contents of memory, both settings of the option", "why_tests_cant": "The types and coercions a program can use are unbounded, and a test runs in one build only.", "anchors": ["lib/osi/src/polonius.rs: coerce_unsafe"]}
{"id": "C118", "title": "Streaming JSON decoder accounts for every byte", "statement": "At every time and for every input, valid or not, the texts of the tokens reported by the streaming JSON decoder so far (and of the errors reported in place of a token) are, one after the other, exactly the beginning of the bytes that arrived: no byte is left out, added, repeated or reordered. Once the decoder asks for more data, the bytes that are missing from them are exactly those it left in the stream.", "quantifier": "all byte strings, all ways to divide them into arriving pieces, all interleavings with pops, all readers that keep their contract, all numbers of pops", "why_tests_cant": "The decoder is a resumable state machine with indices into a buffer that is dropped token by token; a test sees a few inputs cut at a few places, and a lost or repeated byte depends on both.", "anchors": ["lib/tmp/src/fmt/json/token.rs: Dec::pop", "lib/tmp/src/fmt/json/token.rs: Dec::advance_inner", "lib/tmp/src/fmt/json/token.rs: Dec::clear_done", "lib/tmp/src/fmt/json/token.rs: Token"]}
{"id": "C119", "title": "The MS-DOS stub runs on every MS-DOS system", "statement": "A file that starts with the stub program is a program for MS-DOS that prints \"This program cannot be run in DOS mode.\" and ends with code 1, whatever follows the stub in the file and whatever offset is stored in its extended header, and it touches only memory it was given.", "quantifier": "every content of the file behind the stub, every value of the offset, every place the program is loaded to and every amount of memory it is given, every content of the other memory and registers, and every timing and effect of interrupts", "why_tests_cant": "The stub is data to the test suite: no test runs it, and a run shows one machine state and one timing of interrupts.", "anchors": ["lib/tmp/src/msdosmz.rs: STUB_X86", "lib/tmp/src/msdosmz.rs: Header", "lib/tmp/src/msdosmz.rs: HeaderExt"]}
{"id": "C120", "title": "The two JSON tokenizers agree", "statement": "For the same text, the tokenizer of osi (given characters, with a handler) and the streaming one of tmp (given bytes in any pieces) report the same tokens: the same kinds in the same order, the same source text, the same digits and signs of numbers and the same characters of strings; so code can move from one to the other.", "quantifier": "all texts, all divisions of their bytes into arriving pieces, all interleavings with pops, all readers that keep their contract", "why_tests_cant": "The two are written independently of each other, one with a table of character classes, one as a buffer scanner with look-ahead; no test runs both, and where they differ depends on what follows a token.", "anchors": ["lib/osi/src/json/token.rs: Tokenizer::parse_str", "lib/osi/src/json/token.rs: Token", "lib/tmp/src/fmt/json/token.rs: Dec::pop", "lib/tmp/src/fmt/json/token.rs: Token"]}
{"id": "C121", "title": "JSON document decoder recovers from errors", "statement": "A token that cannot follow the ones accepted before it, or is itself an error, is reported as one error and has no other effect: everything after it is reported as if the token was not there. So the items reported for any data are those of the accepted tokens, in order, with exactly one error for each other token.", "quantifier": "all sequences of tokens, erroneous ones included, and all histories of arriving data and pops", "why_tests_cant": "Any number of errors can occur anywhere, each in any state and at any depth of nesting; tests show a few.", "anchors": ["lib/tmp/src/fmt/json/stream.rs: Dec::pop", "lib/tmp/src/fmt/json/stream.rs: DecInner::advance", "lib/tmp/src/fmt/json/stream.rs: DecInner::unexpected"]}
{"id": "C122", "title": "What follows a JSON token does not depend on what came before it", "statement": "Once the streaming decoder has returned a token, everything it reports from then on (tokens, requests for more data, and the end of the stream) is what a new decoder would report for the data after that token. The text of the token stays in the stream until the decoder is used again.", "quantifier": "all histories before the token, all data that arrives and all pops after it, all points at which the stream ends", "why_tests_cant": "State that is left over from earlier tokens (positions, collected characters of strings) shows only for particular pairs of tokens and particular divisions of the data.", "anchors": ["lib/tmp/src/fmt/json/token.rs: Dec::pop", "lib/tmp/src/fmt/json/token.rs: Dec::complete", "lib/tmp/src/fmt/json/token.rs: Dec::clear_done"]}
{"id": "C123", "title": "What the streaming JSON decoder reports for every sequence of bytes", "statement": "Every sequence of bytes, valid JSON or not, divides into lexemes (white space, structural characters, words, numbers, strings) and a last one that may still go on, in exactly one way as far as can be observed. The decoder reports the tokens and errors of these lexemes in order, then the errors that are already certain of the last one, and keeps exactly the last one in the stream. What it says when the stream ends follows from that last lexeme alone.", "quantifier": "all sequences of bytes, all ways in which they arrive, all points at which the stream ends", "why_tests_cant": "Malformed input has no end of variants: half surrogate pairs, escapes that break off, signs in odd places, control characters, bytes that are no text, in any combination and cut at any point.", "anchors": ["lib/tmp/src/fmt/json/token.rs: Dec::pop", "lib/tmp/src/fmt/json/token.rs: Dec::complete", "lib/tmp/src/fmt/json/token.rs: Dec::advance_string", "lib/tmp/src/fmt/json/token.rs: Dec::advance_number"]}
{"id": "C124", "title": "OS strings compare by their bytes, and texts by their characters", "statement": "Two OS strings are equal exactly if their encoded bytes are. Their order is that of a dictionary over bytes: total, the same for both comparison traits, and the order by which commands and flags are sorted. For strings made from text it is the order of the code points, and equality is equality of the texts. Debug output is that of a structure with a slice of numbers, in either form, and different OS strings never have the same.", "quantifier": "all pairs and triples of OS strings, text or not; all pairs of texts", "why_tests_cant": "That the order of bytes is the order of characters holds across all pairs of characters of one to four bytes at every boundary; transitivity ranges over triples; and distinct output over all pairs of byte strings.", "anchors": ["lib/osi/src/compat.rs: OsStr", "lib/osi/src/compat.rs: OsStr::from_str"]}
{"id": "C125", "title": "Generators compare equal exactly if they return the same numbers", "statement": "Two Xoshiro256++ generators compare equal exactly if all the numbers they will ever return are the same; the numbers repeat after 2^256 - 1 calls and after no other number of calls but its multiples. Two SplitMix64 generators, split off or not, are equal exactly if the next two numbers are; two Mix64 generators if the next one is.", "quantifier": "all pairs of generators that can be obtained through the interface; all numbers of calls", "why_tests_cant": "That no two of 2^256 states have the same infinite output, and that the output has no shorter period than the state, is beyond any enumeration.", "anchors": ["lib/osi/src/rng.rs: Xoshiro256pp", "lib/osi/src/rng.rs: Xoshiro256pp::next64", "lib/osi/src/rng.rs: SplitMix64", "lib/osi/src/rng.rs: Mix64"]}
{"id": "C126", "title": "Different values are encoded differently", "statement": "Two encoders of the same signature and byte order, on any writers and after any calls with any outcomes, that are committed and hold the same bytes, were given the same value; the bytes of one value never begin with those of another. The same calls never describe two values.", "quantifier": "every signature, every pair of values, including nested variants, all writers, all histories of calls", "why_tests_cant": "Ranges over pairs of arbitrarily nested values; a loss shows only for the pair that is confused.", "anchors": ["lib/tmp/src/fmt/dbus/dvar.rs: Enc", "lib/tmp/src/fmt/dbus/dvar.rs: Enc::commit"]}
{"id": "C127", "title": "Flags can stand anywhere between the words", "statement": "Moving flags, together with the values that follow them, across parameters and other flags changes neither the selected command nor what any object holds afterwards, as long as the flags moved and those passed report to different objects; the errors are the same up to their order. A flag with its value after an equals sign can always be moved so.", "quantifier": "all layouts, all argument vectors, all flags and all places to move them to that are not beyond a command or a double dash", "why_tests_cant": "Relates pairs of runs over all argument vectors and layouts.", "anchors": ["lib/osi/src/args/parse.rs: parse", "lib/osi/src/args/report.rs"]}
{"id": "C128", "title": "White space between JSON tokens makes no difference", "statement": "Inserting white space between two tokens of the data sent to the streaming decoder changes no token and no error that it reports, apart from the white space tokens themselves, and nothing at all of what the document decoder reports, wherever the data is cut into pieces and whether or not it is JSON.", "quantifier": "all sequences of bytes, all places between two tokens, all white space, all histories of arriving data and pops", "why_tests_cant": "Relates pairs of runs over all inputs; a tokenizer that looks one character too far fails only for some neighbours.", "anchors": ["lib/tmp/src/fmt/json/token.rs: Dec::pop", "lib/tmp/src/fmt/json/stream.rs: Dec::pop"]}
{"id": "C129", "title": "In natural string comparison the first difference decides", "statement": "Two strings compare the way the place of their first difference says: a string comes before any longer one that begins with it; where neither has a numeric character there, the lower code point comes first; where one begins a number and the other does not, the number comes first; and where both are within a number that begins at the same place, the numbers decide, by value if both fit 64 bits and their values differ, and otherwise as strings. So what both begin with makes no difference unless it ends within a number, and strings without numbers compare as in a dictionary.", "quantifier": "all pairs of strings, all sizes of numbers, any class of numeric characters that contains exactly the ten ASCII digits among ASCII", "why_tests_cant": "Covers all pairs of strings; tests compare a few names.", "anchors": ["lib/osi/src/str.rs: cmp_natural"]}
{"id": "C130", "title": "A collision of digests is a collision of the compression function", "statement": "If two messages, however they are pushed, have the same SHA-256 digest, they are the same message, or hashing them gave the compression function of FIPS 180-4 different arguments for which its results are the same. If two HMACs are equal then so are their messages and keys, or the hashes they are made of collide that way; keys count as equal if they differ only in zeros at the end, a key longer than a block counts as its digest, and such keys cannot be told apart by any history of calls.", "quantifier": "all pairs of messages, keys and ways of pushing", "why_tests_cant": "A statement about all pairs of messages of any length; no test can find a collision, and a padding that lets two messages share their blocks passes every digest of a test vector.", "anchors": ["lib/osi/src/hash/sha256.rs: Engine::finalize", "lib/osi/src/hmac.rs: Hmac::finalize", "lib/osi/src/hmac.rs: Hmac::with_engine"]}
{"id": "C131", "title": "Decoding can be continued when more of a D-Bus message arrives", "statement": "A decoder that reads a byte slice of which the end is missing behaves as if it were there, until a call says that the slice is exceeded. Then the decoder is as it was before that call, so that the call can be made again on a longer slice, and it makes no difference that it was tried before. For the bytes of a value that are cut off anywhere, the calls for the value report nothing else: no other error, no other data, and no panic.", "quantifier": "all messages, all places to cut them, all decoders in any state, all sequences of calls", "why_tests_cant": "Relates runs on all prefixes of all messages; tests decode whole messages.", "anchors": ["lib/tmp/src/fmt/dbus/dvar.rs: Dec::align", "lib/tmp/src/fmt/dbus/dvar.rs: Dec::string", "lib/tmp/src/fmt/dbus/dvar.rs: Dec::array", "lib/tmp/src/io/map.rs: Read::read_uninit"]}
{"id": "C132", "title": "Sizes and positions in D-Bus messages are those the signature tells", "statement": "If a signature marks a type as not dynamic, then each value of it, wherever it is in a message, ends as many bytes after the next multiple of the alignment as the signature tells, and every encoder of the type commits exactly that many bytes, whatever the writer and the calls. Elements of an array of such a type are found by multiplying: element i is i times the size, rounded up to the alignment, after the first, and has the bytes it has when it is written alone. The bytes of a value depend on its position modulo 8 only, so that structures, dictionary entries and 64-bit integers are found in each message as they are written alone, after the padding.", "quantifier": "all types, values, positions, byte orders, writers, histories of calls and indices of elements", "why_tests_cant": "Relates what one part of the library computes from a signature to what another part writes, for all types and values; tests compare a few messages.", "anchors": ["lib/tmp/src/fmt/dbus/signature.rs: dvar_size", "lib/tmp/src/fmt/dbus/element.rs: dvar_size", "lib/tmp/src/fmt/dbus/dvar.rs: Enc::align", "lib/tmp/src/fmt/dbus/dvar.rs: Enc::array"]}
{"id": "C133", "title": "Different seeds give different Xoshiro256++ generators", "statement": "Two seeds give generators that return the same sequence of numbers only if they are the same seed, or if one is the seed of zeros and the other one is the seed that stands in for it. Of the 2^64 generators that can be made one after the other from one SplitMix64 generator, whatever its history, no two return the same sequence of numbers, except for exactly one such pair.", "quantifier": "all seeds, all SplitMix64 generators obtainable through the API, all pairs of the first 2^64 generators made of them", "why_tests_cant": "Ranges over all pairs of 2^256 seeds and compares infinite sequences of numbers.", "anchors": ["lib/osi/src/rng.rs: Xoshiro256pp::with_seed", "lib/osi/src/rng.rs: Xoshiro256pp::from_splitmix64"]}
{"id": "C134", "title": "Signatures mark the types of which the D-Bus wire format depends on the position", "statement": "If a signature does not mark a type as misaligned in the D-Bus wire format, then each value of the type has, at every position aligned as the type demands, the bytes it has when it is written alone. If the signature marks it, and the wire format supports the type, then some value of it has different bytes at two such positions.", "quantifier": "all signatures, occurrences of types in them, values, byte orders and positions", "why_tests_cant": "Says that bytes are equal at infinitely many positions for all values of a type, and relates this to a bit computed while parsing; tests compare a few signatures.", "anchors": ["lib/tmp/src/fmt/dbus/element.rs: FLAG_DVAR_MISALIGNED", "lib/tmp/src/fmt/dbus/signature.rs: Sig::parse", "lib/tmp/src/fmt/dbus/dvar.rs: Enc::align"]}
{"id": "C135", "title": "The byte order of a D-Bus message changes nothing but integers", "statement": "A value can be written in little endian if and only if it can be written in big endian. The two messages have the same size and the same bytes, except that integers of 2, 4 or 8 bytes, all of them at offsets that are multiples of their size, are the other way round. So it is for what two encoders of the two byte orders commit after describing the same value, on any writers and whatever calls failed.", "quantifier": "all types, values, positions, writers and histories of calls", "why_tests_cant": "Relates two runs for all values; tests compare messages of few values in both byte orders.", "anchors": ["lib/tmp/src/fmt/dbus/dvar.rs: Format", "lib/tmp/src/fmt/dbus/dvar.rs: Enc::u16", "lib/tmp/src/fmt/dbus/dvar.rs: Enc::u32", "lib/tmp/src/fmt/dbus/dvar.rs: Enc::u64", "lib/tmp/src/fmt/dbus/dvar.rs: Enc::commit"]}
{"id": "C136", "title": "Mapped access that failed can be taken up where it stopped", "statement": "If writing, filling, aligning or reading fails, a caller that calls again with the rest, at the index the failed call left, gets in the end what one successful call would have done: all of the data is stored from the first index on, nothing else is changed, or the bytes read are those that were asked for. However often the calls failed, and whatever the object did in between.", "quantifier": "all objects, data, indices, lengths, chunkings and sequences of failures", "why_tests_cant": "Ranges over all points at which an object may fail and all ways to resume; tests have objects that do not fail.", "anchors": ["lib/tmp/src/io/map.rs: Write::write", "lib/tmp/src/io/map.rs: Write::fill", "lib/tmp/src/io/map.rs: Write::align_exp2", "lib/tmp/src/io/map.rs: Read::read"]}
{"id": "C137", "title": "A D-Bus decoder accepts exactly the wire format", "statement": "A decoder yields the parts of a value and can be committed exactly if the message begins with the wire format of this value. After that its position is where the wire format ends.", "quantifier": "all types the decoder has methods for, values, ways to call the decoder for them (with sub-decoders or without), byte orders and messages", "why_tests_cant": "Ranges over all sequences of bytes a message may consist of; tests have a few messages, most of them well-formed.", "anchors": ["lib/tmp/src/fmt/dbus/dvar.rs: Dec::string", "lib/tmp/src/fmt/dbus/dvar.rs: Dec::array", "lib/tmp/src/fmt/dbus/dvar.rs: Dec::align", "lib/tmp/src/fmt/dbus/dvar.rs: Dec::commit"]}
{"id": "C138", "title": "Reading a D-Bus array in a loop yields all its elements", "statement": "If the elements of an array are read as long as the decoder says that there are more, then all elements are read and none are left out, wherever the array and whatever its elements are.", "quantifier": "all arrays at the start of a message whose elements are of types the decoder has methods for, all element lists, byte orders and bytes after the array", "why_tests_cant": "Ranges over all lists of elements of all types; tests do not read arrays in a loop, and a wrong end of the loop only shows with some lengths.", "anchors": ["lib/tmp/src/fmt/dbus/dvar.rs: Dec::more", "lib/tmp/src/fmt/dbus/dvar.rs: Dec::array", "lib/tmp/src/fmt/dbus/dvar.rs: Dec::close"]}
