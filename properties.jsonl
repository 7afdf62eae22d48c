{"id": "C01", "title": "split accepts only RFC 3986 URIs and returns their components", "statement": "If uri::split(s) returns parts p then s is in the language of the RFC 3986 rule URI and p is exactly its decomposition: scheme, userinfo, host, port, the list of path segments, query and fragment are the substrings the RFC grammar assigns to them.", "quantifier": "every byte string s shorter than 2^32 bytes, on signed-char and unsigned-char platforms", "why_tests_cant": "the input space is infinite; a PEG parser can mis-split on inputs no test lists", "anchors": ["lib/uri/uri.cpp: split, URI, hier_part, authority, ...", "include/uri/rule.hpp"]}
{"id": "C02", "title": "split accepts every RFC 3986 URI except those with an IPv4-prefixed registered name", "statement": "Every string in the RFC 3986 language URI is accepted by uri::split, with the (unique) decomposition of the RFC grammar, unless its host starts with an IPv4 address without being one (http://1.2.3.4.com/, http://1.2.3.256/): those URIs, and only those, are rejected.", "quantifier": "every string in the language of URI shorter than 2^32 bytes", "why_tests_cant": "completeness of a no-backtracking parser depends on every ambiguous prefix", "anchors": ["lib/uri/uri.cpp: host, ipv4address, ipv6address, split"]}
{"id": "C03", "title": "compose inverts split", "statement": "If split(s) (or split_reference(s)) returns p then compose(p) is byte-for-byte s.", "quantifier": "every accepted string shorter than 2^32 bytes", "why_tests_cant": "the fuzz test samples it; equality must hold for all strings", "anchors": ["lib/uri/uri.cpp: split, split_reference, compose, operator<<"]}
{"id": "C04", "title": "split_reference recognises exactly URI-reference", "statement": "split_reference(s) returns p iff s is an RFC 3986 URI-reference and p its decomposition (URI first, relative-ref otherwise), up to the host ambiguity of C02.", "quantifier": "every byte string shorter than 2^32 bytes", "why_tests_cant": "as C01/C02", "anchors": ["lib/uri/uri.cpp: split_reference, URI_reference, relative_ref, relative_part"]}
{"id": "C05", "title": "split inverts compose on valid parts", "statement": "If p.valid() then split(compose(p)) yields a value equal (operator==) to p, if and only if p has an authority or its path is one that has a text form of its own (not absolute without segments, no empty first segment unless the path is just \"/\"). For the other valid parts the round trip fails.", "quantifier": "every parts value satisfying valid() whose text is shorter than 2^32 bytes", "why_tests_cant": "the set of valid parts values is infinite and includes hand-built ones no parse produces", "anchors": ["lib/uri/uri.cpp: compose, parts::valid, split", "unittests/uri/test_parts.cpp: EncodeAndComposeValidAlwaysAgree"]}
{"id": "C06", "title": "the result of split is valid", "statement": "If split(s) returns p then p.valid() is true (and p.authority->valid(), p.path.valid()).", "quantifier": "every accepted string shorter than 2^32 bytes", "why_tests_cant": "quantifies over all accepted strings", "anchors": ["lib/uri/uri.cpp: parts::valid, parts::authority::valid, parts::path::valid"]}
{"id": "C07", "title": "valid() means each component is in its RFC 3986 language", "statement": "valid() is true iff a scheme is present and scheme, userinfo, host, port, every path segment, query and fragment are each in the language of the corresponding RFC 3986 rule and the host is not a registered name that starts with an IPv4 address. The valid() of authority and path likewise.", "quantifier": "every parts value with components shorter than 2^32 bytes", "why_tests_cant": "infinite domain", "anchors": ["lib/uri/uri.cpp: parts::valid"]}
{"id": "C08", "title": "parsing terminates and has no undefined behaviour", "statement": "split, split_reference, join and valid return on every byte string: no infinite loop, no access outside the string, no exception, no failed assert; the only undefined behaviour is a <cctype> call with a negative argument, which needs a signed char and a byte 0x80..0xFE in the input (and then does happen).", "quantifier": "every byte string shorter than 2^32 bytes, signed or unsigned char", "why_tests_cant": "UB and divergence can hide on any input; a test that passes on one platform shows nothing about another", "anchors": ["include/uri/rule.hpp: rule::star, single_char", "lib/uri/uri.cpp: unreserved, code_point_range"]}
{"id": "C09", "title": "failed parses have no effect; acceptors run only for the successful derivation, in order", "statement": "done() runs the acceptor functions collected along the successful match in input order, and runs none if the input is not fully matched; alternatives and optionals that fail contribute none.", "quantifier": "every rule object, every matcher", "why_tests_cant": "quantifies over arbitrary matchers and inputs", "anchors": ["lib/uri/rule.cpp: rule::done", "include/uri/rule.hpp: concat_impl, optional, alternative, star"]}
{"id": "C10", "title": "rule combinators implement greedy PEG semantics", "statement": "concat, optional, alternative and star(min,max) consume a prefix of the input as documented: star is greedy, consumes at most max and fails below min; alternative takes the first match; failure is absorbing; matched() returns exactly the consumed prefix.", "quantifier": "every matcher and every input, counts below 2^32", "why_tests_cant": "arbitrary matchers", "anchors": ["include/uri/rule.hpp", "lib/uri/rule.cpp"]}
{"id": "C11", "title": "remove_dot_segments removes all dot segments, is idempotent and keeps the rest in order", "statement": "After remove_dot_segments no segment is \".\" or \"..\"; a second call changes nothing; the absolute flag is unchanged; the remaining segments are a subsequence of the originals (plus at most one final empty segment).", "quantifier": "every path (every list of segments)", "why_tests_cant": "all lists of segments", "anchors": ["lib/uri/uri.cpp: parts::path::remove_dot_segments"]}
{"id": "C12", "title": "remove_dot_segments implements RFC 3986 5.2.4", "statement": "The string form of the path after remove_dot_segments equals the RFC 3986 section 5.2.4 algorithm applied to the string form before, except exactly when a relative path climbs above its first segment (the RFC then has a leading slash) or a final dot segment follows an empty segment (the RFC then has one more trailing slash).", "quantifier": "every path", "why_tests_cant": "all strings", "anchors": ["lib/uri/uri.cpp: parts::path::remove_dot_segments"]}
{"id": "C13", "title": "join implements RFC 3986 5.2.2 / 5.2.3", "statement": "join(base, ref) yields the RFC 3986 section 5.2.2 target (with merge of 5.2.3 and remove_dot_segments of 5.2.4) of the two, in parts and as composed string, outside the corner cases of C12 and except that a relative-path reference against a base path of exactly one segment keeps that segment (where 5.2.3 drops it). Exactly: the two agree iff either the base's only segment is still there in the end, is empty and the reference ends in a dot segment and leaves only empty segments, or the base's only segment is not kept and the path whose dots are removed is no corner case. In particular a base whose path is \"/\" joined with a reference without dot segments gives one slash too many (http://a/ and g give http://a//g).", "quantifier": "every base and reference, strict and non-strict", "why_tests_cant": "all pairs of URIs", "anchors": ["lib/uri/uri.cpp: join, merge"]}
{"id": "C14", "title": "join on strings fails exactly when an argument does not parse", "statement": "join(base, reference, strict) over strings is nullopt iff split(base) or split_reference(reference) is, and otherwise is join of the parsed parts; the scheme is the reference's if it has one and the base's otherwise; the fragment is always the reference's; an absolute reference ignores the base (strict) and an empty one gives the base without fragment.", "quantifier": "every pair of strings", "why_tests_cant": "infinite domain", "anchors": ["lib/uri/uri.cpp: join"]}
{"id": "C15", "title": "percent-decoding inverts percent-encoding", "statement": "pctdecode(pctencode(s, es)) == s for every non-empty encode set (with the set \"none\" a '%' is not encoded and this fails); pctencode is injective.", "quantifier": "every byte string and every non-empty encode set", "why_tests_cant": "all strings and sets", "anchors": ["include/uri/pctencode.hpp", "lib/uri/pctencode.cpp", "include/uri/pctdecode.hpp"]}
{"id": "C16", "title": "percent-encoding leaves no byte of the encode set in the clear and changes nothing else", "statement": "In pctencode(s, es) each input byte in the set appears as '%' and two upper-case hex digits, each other byte is copied; the output is s itself iff needs_pctencode(s, es) is false; output length is |s| + 2*(number of encoded bytes).", "quantifier": "every byte string and set", "why_tests_cant": "all strings", "anchors": ["include/uri/pctencode.hpp", "lib/uri/pctencode.cpp"]}
{"id": "C17", "title": "needs_pctencode implements the WHATWG percent-encode sets", "statement": "needs_pctencode(c, es) holds iff c is in the WHATWG URL percent-encode set named es, or c is '%'; except that the fragment set lacks U+0060. The set \"none\" means C0 controls, space and non-ASCII; a union of sets encodes the union.", "quantifier": "every byte and every named set", "why_tests_cant": "finite but 256*7; tests sample", "anchors": ["lib/uri/pctencode.cpp: needs_pctencode"]}
{"id": "C18", "title": "percent-decoding leaves malformed escapes unchanged", "statement": "pctdecode replaces every '%' HEXDIG HEXDIG (scanned left to right) by the byte it denotes and copies everything else, including truncated or non-hex escapes; strings without '%' are unchanged; decoded size is between a third of the size and the size. (iter_move of the range adaptor's iterator does not decode.)", "quantifier": "every byte string", "why_tests_cant": "all strings", "anchors": ["include/uri/pctdecode.hpp"]}
{"id": "C19", "title": "punycode decode inverts encode", "statement": "For every sequence u of char32_t values, decode(encode(u)) succeeds with u, unless plain output was allowed and used.", "quantifier": "every code point sequence shorter than 2^32", "why_tests_cant": "bias adaptation and variable length integers make sampled tests weak", "anchors": ["include/uri/punycode.hpp: encode, decode, encode_vli, decode_vli, adapt"]}
{"id": "C20", "title": "punycode output is ASCII and carries the basic code points in order", "statement": "encode(u) emits only basic code points: the basic code points of u in order, '-' if there are any (unless plain output is allowed and nothing needs encoding), then only digits from a-z0-9; any_non_ascii is reported iff u has a code point >= 0x80. Distinct inputs give distinct outputs.", "quantifier": "every code point sequence", "why_tests_cant": "all sequences", "anchors": ["include/uri/punycode.hpp: encode, encode_digit"]}
{"id": "C21", "title": "punycode decode never wraps, never inserts out of range, and reports every malformed input", "statement": "decode on any byte string terminates with an error or a result, with no wrap-around, out-of-range insert or division by zero; it succeeds with u exactly if RFC 3492 (over unbounded integers) decodes the text, or the text behind a leading delimiter, to u and u fits 32 bits; everything else is reported as an error. Inserted code points are >= 0x80. Surrogates and values above 0x10FFFF are not rejected.", "quantifier": "every byte string shorter than 2^32", "why_tests_cant": "overflow needs adversarial inputs", "anchors": ["include/uri/punycode.hpp: decode_loop, decode_vli, copy_plain_ascii_part"]}
{"id": "C22", "title": "UTF-8 to UTF-32 transcoding decodes well-formed UTF-8 and flags everything else", "statement": "The UTF-8 transcoder accepts exactly the byte sequences that are well-formed UTF-8 (Unicode table 3-7), yields their code points, and otherwise clears well_formed() and emits one U+FFFD for each ill-formed piece (an incomplete sequence together with the byte that breaks it, or at the end of the input).", "quantifier": "every byte sequence", "why_tests_cant": "the DFA is a 364-entry table", "anchors": ["include/uri/icubaby.hpp: transcoder<char8, char32_t>"]}
{"id": "C23", "title": "UTF-32 to UTF-8 transcoding is the inverse and always emits well-formed UTF-8", "statement": "Transcoding any UTF-32 sequence to UTF-8 gives well-formed UTF-8; on Unicode scalar values decoding it gives the sequence back; anything else becomes U+FFFD.", "quantifier": "every UTF-32 sequence", "why_tests_cant": "2^32 code units", "anchors": ["include/uri/icubaby.hpp: transcoder<char32_t, char8>"]}
{"id": "C24", "title": "encode then decode gives the original parts", "statement": "For valid parts (host not already carrying an xn-- label) encode succeeds with valid parts and decode of them gives the original; the same holds for hosts that are any well-formed UTF-8.", "quantifier": "every parts value in the stated class", "why_tests_cant": "the fuzz test samples it", "anchors": ["include/uri/parts.hpp: encode, decode, parts_strings", "unittests/uri/test_parts.cpp: EncodeDecodeRoundTrip"]}
{"id": "C25", "title": "views returned by encode/decode stay valid", "statement": "The size computed in the first pass is exactly the number of bytes stored in the second, so the store never reallocates after the first view into it is taken, and every returned view is inside the store or the caller's data.", "quantifier": "every parts value, any number of path segments (including more than the 26 tracked by the bitset), any null views", "why_tests_cant": "dangling views depend on allocation behaviour that tests cannot observe", "anchors": ["include/uri/parts.hpp: encode, decode, puny_encoded_size, puny_decoded_size", "lib/uri/parts.cpp: pct_encoded_size, pct_decoded_size"]}
{"id": "C26", "title": "encode/decode change only what needs changing", "statement": "encode transforms each field independently: path/userinfo/query/fragment by pctencode with the field's set, host labels by punycode, scheme and port untouched for valid parts; fields that need nothing are returned as the identical view and the store is empty if no field needs encoding.", "quantifier": "every parts value", "why_tests_cant": "per-field bitset logic over arbitrarily many segments", "anchors": ["include/uri/parts.hpp: encode, decode"]}
{"id": "C27", "title": "parts equality is an equivalence compatible with compose", "statement": "operator== on parts is reflexive, symmetric and transitive, and equal parts compose to equal strings.", "quantifier": "every parts value", "why_tests_cant": "all pairs/triples", "anchors": ["lib/uri/uri.cpp: parts::operator==, path::operator==, authority::operator==, compose"]}
{"id": "C28", "title": "find_last and starts_with", "statement": "find_last(first,last,v) returns the sub-range from the last occurrence of v to the end, or an empty range at the end; the forward and bidirectional implementations agree. starts_with(a,b) iff b is a prefix of a.", "quantifier": "every sequence and value", "why_tests_cant": "all sequences", "anchors": ["include/uri/find_last.hpp", "include/uri/starts_with.hpp"]}
{"id": "C29", "title": "UTF-16 transcoding", "statement": "Transcoding scalar values to UTF-16 and back gives them back; ill-formed UTF-16 becomes U+FFFD and clears well_formed().", "quantifier": "every sequence", "why_tests_cant": "all sequences", "anchors": ["include/uri/icubaby.hpp: transcoder<char16_t, char32_t>, transcoder<char32_t, char16_t>"]}
{"id": "C30", "title": "byte transcoder", "statement": "The byte transcoder decodes each BOM-prefixed encoding (and BOM-less UTF-8) as the corresponding transcoder would on the bytes after the BOM, and selected_encoding() names it; with three exceptions: an input that ends within a BOM is read as UTF-8 with a NUL appended, UTF-16LE text whose first unit has a zero low byte (and a nonzero high byte) is read as UTF-8, and the top byte of UTF-32LE units is ignored. An incomplete last code unit is dropped silently.", "quantifier": "every byte sequence", "why_tests_cant": "state machine over all sequences", "anchors": ["include/uri/icubaby.hpp: transcoder<std::byte, X>"]}
{"id": "C31", "title": "the transcode view yields the transcoder's output and its buffer never overflows", "statement": "For each pair of UTF-8, UTF-16 and UTF-32, iterating icubaby's transcode view over a sequence yields exactly what feeding the sequence to the transcoder and calling end_cp yields, with the same well_formed() afterwards, and the fixed output buffer is never overrun. (Views over std::byte can overrun it.)", "quantifier": "every sequence and every encoding pair", "why_tests_cant": "buffer overruns need adversarial inputs", "anchors": ["include/uri/icubaby.hpp: transcode_view, state::fill, max_output_bytes"]}
{"id": "C32", "title": "path to string and to filesystem path", "statement": "The string form of a path is the segments joined by '/', with a leading '/' iff absolute and non-empty; parsing recovers the segments. The filesystem form has the same components (empty ones collapsed) and is rooted iff absolute.", "quantifier": "every path", "why_tests_cant": "all segment lists", "anchors": ["lib/uri/uri.cpp: path::operator std::string, path::operator std::filesystem::path"]}
{"id": "C33", "title": "the result of a join is valid", "statement": "If join of two strings returns parts then they are valid(), and they contain no dot segments when the reference has a path.", "quantifier": "every pair of strings shorter than 2^32 bytes", "why_tests_cant": "infinite domain; resolution must never produce parts that break compose or a further split", "anchors": ["lib/uri/uri.cpp: join, merge, remove_dot_segments, valid"]}
{"id": "C34", "title": "percent-encoding produces RFC 3986 text", "statement": "pctencode with the userinfo, component or form set turns any bytes into a valid RFC 3986 segment, query, fragment, userinfo and registered name; with any non-empty set it keeps valid text valid. The sets named path, query and fragment do not make arbitrary bytes valid ('[' survives).", "quantifier": "every byte string and set", "why_tests_cant": "all strings", "anchors": ["include/uri/pctencode.hpp", "lib/uri/pctencode.cpp"]}
{"id": "C35", "title": "punycode output is the Punycode of RFC 3492", "statement": "encode(u) is the one and only lower-case text that the RFC 3492 decoding procedure (over unbounded integers) maps to u; that procedure is a function.", "quantifier": "every sequence of fewer than 2^32 char32_t values", "why_tests_cant": "interoperability must hold for every label; overflow and bias adaptation hide errors", "anchors": ["include/uri/punycode.hpp: encode, encode_vli, adapt, clamp"]}
{"id": "C36", "title": "transcoding between UTF-8 and UTF-16, and repairing UTF-8, UTF-16 and UTF-32", "statement": "The transcoders that go through UTF-32 write the target form of exactly the code points the input stands for, keep the well-formedness verdict, never overrun their intermediate buffer, always write well-formed text, and are inverse to each other on well-formed text.", "quantifier": "every sequence of code units", "why_tests_cant": "all sequences; surrogates may be split across calls", "anchors": ["include/uri/icubaby.hpp: details::triangulator, transcoder<char32_t, char32_t>"]}
{"id": "C37", "title": "length and index count code points", "statement": "On well-formed UTF-8, UTF-16 or UTF-32 text icubaby::length gives the number of code points, and icubaby::index(pos) the place where code point number pos starts (the end if there are not so many).", "quantifier": "every well-formed text and position", "why_tests_cant": "all texts", "anchors": ["include/uri/icubaby.hpp: length, index, is_code_point_start"]}
{"id": "C38", "title": "partial() tells whether a code point is under way", "statement": "After any input partial() is false exactly when everything the input stands for has been written, so that end_cp would add nothing.", "quantifier": "every sequence of code units and every pair of encodings (other than bytes)", "why_tests_cant": "all sequences", "anchors": ["include/uri/icubaby.hpp: partial"]}
{"id": "C39", "title": "split returns views into the caller's string", "statement": "The views in the parts returned by split and split_reference refer to the characters passed in, at the places where those components stand: one after the other, separated by exactly the delimiters, from the first character to the last; none reaches outside, and the only view without data is the empty segment of the path \"/\" of a reference without authority.", "quantifier": "every accepted string", "why_tests_cant": "pointer identity and bounds must hold for every input; equality tests only compare contents", "anchors": ["lib/uri/uri.cpp: split, split_reference", "include/uri/rule.hpp: rule::concat, rule::star, rule::matched"]}
{"id": "C40", "title": "parsing does linear work", "statement": "split, split_reference and valid() take a number of steps (calls of match functions and acceptors, copies of acceptors) bounded by a constant times the length of the input plus one, whether the input is accepted or not: backtracking never multiplies.", "quantifier": "every string", "why_tests_cant": "tests cannot bound the work on all adversarial inputs", "anchors": ["lib/uri/uri.cpp: split, split_reference, valid", "include/uri/rule.hpp: rule"]}
{"id": "C41", "title": "join returns views into its arguments and nothing else", "statement": "Every view in the parts that join returns shows characters of the base string or of the reference string, inside their bounds, or is empty: join makes no copy and leaves no dangling view. For join of parts, every view of the result is one of the views of the two arguments or a view of nothing.", "quantifier": "every pair of strings (and every pair of parts)", "why_tests_cant": "pointer identity must hold for every input; equality tests only compare contents", "anchors": ["lib/uri/uri.cpp: join, merge, remove_dot_segments"]}
{"id": "C42", "title": "stream insertion writes the composed URI", "statement": "os << parts writes exactly the text compose returns; when the stream stops accepting characters exactly the part that fitted is written and the stream is not good afterwards; a stream that is not good is left alone. A field width is used up but pads only the first piece written.", "quantifier": "every parts value and every state of the stream", "why_tests_cant": "all parts, every point at which the stream may fail", "anchors": ["lib/uri/uri.cpp: operator<<, compose, authority operator<<"]}
{"id": "C43", "title": "a text put into a URI arrives", "statement": "If parts are encoded, the result composed into a string, the string split and the components found decoded, the receiver has the texts the sender put in: for every text in userinfo, every text in a path segment without / [ \\ ] ^ |, in a query without [ \\ ] ^ | { } backquote, in a fragment without those and #, every scheme and port of the grammar, and every host that is either valid as it is or UTF-8 whose ASCII characters are unreserved or sub-delims and that does not begin with an IPv4 address (labels beginning with xn-- excepted); provided the parts are representable (C05). For the components other than the host those are exactly the texts whose encoded form is in the grammar.", "quantifier": "every parts value, every text in every component, every store and growth policy, sender and receiver independent", "why_tests_cant": "all texts and all parts at once; the composition of four functions", "anchors": ["lib/uri/uri.cpp: compose, split", "include/uri/parts.hpp: encode, decode"]}
{"id": "C44", "title": "percent-decoding iterators behave as independent cursors over the decoded text", "statement": "Whatever a program does with any number of iterators of a pctdecoder or pctdecode_view (copy, assign, prefix and postfix increment, dereference, compare, destroy, in any order), it sees what cursors over the decoded text would show, as long as it stays within the range and uses a reference only until its iterator is moved, assigned to or destroyed. Two iterators are equal exactly when they are at the same decoded character.", "quantifier": "every text and every finite history of operations on any number of iterators", "why_tests_cant": "histories of unbounded length and number of objects; tests run a few", "anchors": ["include/uri/pctdecode.hpp: pctdecode_iterator, pctdecode_view::iterator, deref, increment"]}
{"id": "C45", "title": "iterators of a transcode view behave as independent cursors over the transcoded text", "statement": "Whatever a program does with any number of iterators of one icubaby::transcode_view, it sees what cursors over the transcoder's output would show, comparisons being those with the same position or the end; well_formed() never becomes false for well-formed input and tells the truth once some iterator has reached the end, whatever other iterators do afterwards.", "quantifier": "all nine encodings, every input, every finite history of operations on any number of iterators", "why_tests_cant": "the iterators share the mutable flag of the view; interleavings are unbounded", "anchors": ["include/uri/icubaby.hpp: transcode_view::iterator, state::fill"]}
{"id": "C46", "title": "writing through icubaby::iterator transcodes what was written", "statement": "Code units written through an icubaby::iterator and its copies, in any way into a container that is appended to, or through one line of iterators into an array, come out as the transcoder's output for the units in the order written, followed by what end_cp adds; in an array nothing outside of the output's place is changed.", "quantifier": "every transcoder, every history of copies, assignments, increments and writes, every array and position", "why_tests_cant": "histories of unbounded length", "anchors": ["include/uri/icubaby.hpp: iterator, transcoder::end_cp"]}
{"id": "C47", "title": "uri-split reports every line", "statement": "uri-split succeeds exactly when every file can be opened and every line of every input is a URI (in the sense of C02); it writes one heading and seven lines for each line read up to the first that is not a URI, and those seven lines determine the URI: absent and empty components are not confused. A blank line or CR LF line ends is a failure.", "quantifier": "every input text, every list of files", "why_tests_cant": "all inputs; the report's readability is injectivity over all URIs", "anchors": ["tools/uri-split/uri-split.cpp: read_stream, main"]}
{"id": "C48", "title": "a resolved URI can be written, read and resolved again", "statement": "The text of what join returns is at most one byte longer than its two arguments together. Splitting it gives parts equal to the result exactly when the result has an authority or its resolved path has a text form of its own (an absolute path must not begin with //, a relative one must begin with a segment that is not empty); so it does for absolute paths in which only the last segment may be empty and a base path other than /. When it can be read back, resolving it against any base gives the same result again.", "quantifier": "every base and reference, strict or not, every second base", "why_tests_cant": "all pairs of URIs; whether text gains a meaning neither input had is a statement about all of them", "anchors": ["lib/uri/uri.cpp: join, compose, split"]}
{"id": "C49", "title": "equal parts behave equally", "statement": "Parts that compare equal with == (their path's absolute flag may differ if they have an authority) cannot be told apart: valid, compose and join, as base and as reference, give equal results for them.", "quantifier": "all parts", "why_tests_cant": "all pairs of equal parts", "anchors": ["lib/uri/uri.cpp: operator==, join, compose, parts::valid"]}
{"id": "C50", "title": "errors in a text stay where they are, and transcoding invents nothing", "statement": "Transcoding a text cut into pieces gives the pieces' results one after the other, wherever no code point is under way at the cut (in UTF-8 after any ASCII character, whatever comes before it; in UTF-16 anywhere but inside a surrogate pair; in UTF-32 anywhere). Whatever bytes come before a UTF-8 text, it is read correctly from its second code point on, and from its first unless what comes before ends in an incomplete form. Every ASCII character written was in the input, in the same order (from UTF-16 and UTF-32 none is lost either), so no ill-formed sequence can produce a delimiter.", "quantifier": "all nine transcoders, all inputs, all cuts", "why_tests_cant": "all inputs and all places of cuts and errors", "anchors": ["include/uri/icubaby.hpp: transcoder, triangulator"]}
{"id": "C51", "title": "several threads may use one view at the same time", "statement": "Threads that share a const percent-decoding view or transcode view, and iterators made beforehand which they only copy, compare and (for a transcode view, or where there is no escape) dereference, do not race, and in every interleaving each thread sees exactly what it would see alone. This holds for a transcode view of well-formed input only: over ill-formed input any two threads that get to the end race on the view's flag. So do a thread that asks well_formed() and one that gets to the end, and so do threads one of which moves, assigns to or destroys a shared iterator that the other one uses. A percent-decoding iterator at an escape must not be dereferenced by two threads at once.", "quantifier": "any number of threads, any programs, any schedule, any text", "why_tests_cant": "every schedule", "anchors": ["include/uri/pctdecode.hpp: pctdecode_view, pctdecode_iterator", "include/uri/icubaby.hpp: transcode_view, iterator, state::fill"]}
{"id": "C52", "title": "changing one part of a URI changes that part of its text", "statement": "Split a URI, assign proper component text to any of its parts any number of times (also adding, removing and replacing path segments and removing dot segments), and compose it: splitting the result gives the edited parts exactly when they are representable (C05). That is always so if only scheme, authority components, query and fragment are assigned (the scheme not being taken away), and for every edit of a URI that has an authority and keeps it. An assignment to one component replaces that component's text and delimiter in the composed text and nothing else; an edit of the path replaces the path in the text by the path edited as told; assigning an authority replaces the authority, and the path gains or loses its leading slash.", "quantifier": "every URI and every finite sequence of edits", "why_tests_cant": "all URIs and all histories of edits", "anchors": ["include/uri/uri.hpp: parts, parts::ensure_authority, parts::path", "lib/uri/uri.cpp: compose, split"]}
{"id": "C53", "title": "a transcoder may be used for several texts", "statement": "A program that feeds several texts to one transcoder, calling end_cp after each, gets for each text what a fresh transcoder would write, and well_formed() says whether this text and all before it were well formed: always for the transcoders from UTF-16 and UTF-32 (for which partial() is false after end_cp), and for those from UTF-8 if no text but the last ends within a code point, in particular if all are well formed. Otherwise exactly this: after a text that ended within a code point the first byte of the next is read as a byte that can occur in no text.", "quantifier": "all nine transcoders between encodings, every finite list of texts", "why_tests_cant": "every sequence of texts of any length", "anchors": ["include/uri/icubaby.hpp: transcoder::operator(), end_cp, well_formed, partial"]}
{"id": "C54", "title": "the locale does not matter for ASCII text", "statement": "Whatever locale setlocale has installed (having the usual letters in ASCII), split, split_reference, valid and join give for ASCII text what they give in the C locale, and for any text in a locale without letters beyond ASCII. In general the bytes that the locale calls letters beyond ASCII are read exactly as the letter g would be, so that nothing else changes.", "quantifier": "every locale that satisfies the stated conditions, every text and parts value", "why_tests_cant": "all locales and all texts", "anchors": ["include/uri/rule.hpp: single_char, char_range, alpha", "lib/uri/uri.cpp: code_point_range, unreserved, split, split_reference, join, parts::valid"]}
{"id": "C55", "title": "Punycode takes quadratic work at most, and its results are not much longer than its input", "statement": "punycode::encode reads its range exactly once plus once for each distinct non-ASCII code point in it, and writes at most 21 characters for each non-ASCII code point, one for each ASCII one, and a delimiter; punycode::decode reads each character at most twice and moves at most n*n elements of its result, which is never longer than the text. So for n code points or characters both take at most n*n steps and a multiple of n, and so do encode and decode on a whole host; the square is reached for every n (n distinct code points; n literal characters followed by n insertions in front of them). An encoded host has at most 26 n + 5 characters, a decoded one at most 4 n bytes.", "quantifier": "every text, whether it is accepted or not", "why_tests_cant": "a bound on the work for all inputs of all lengths", "anchors": ["include/uri/punycode.hpp: encode, decode, adapt, encode_vli, decode_vli", "include/uri/parts.hpp: puny_encoded, puny_decoded"]}
{"id": "C56", "title": "encode and decode can be repeated when memory runs out", "statement": "Wherever in a call of encode or decode an allocation fails, the exception reaches the caller; the store then is as it was before the call or holds a beginning of the text that it would have held in the end (nothing, if the host cannot be decoded), and the parts passed in are as before; calling again with that store gives the same text and the same places as an undisturbed call. The number of allocations needed is finite, and whatever number of them the standard library makes for a copy or a label does not matter.", "quantifier": "all parts, all stores and growth policies, every allocation that may fail", "why_tests_cant": "every crash point of every call", "anchors": ["include/uri/parts.hpp: encode, decode, puny_encoded, puny_decoded"]}
{"id": "C57", "title": "transcoding to a destination that throws", "statement": "If no assignment through the output iterator throws, the result is the usual one. When one throws in a transcoder from UTF-8 or UTF-32 to UTF-32, the exception comes out of operator(), the code point concerned is lost and everything else (rest of the text, well_formed, partial) is as if it had not been refused; in all others the program is terminated with the destination having what came before. When end_cp throws, it has written nothing and may be called again with its usual effect.", "quantifier": "all twelve transcoders, every input, every set of assignments that throw", "why_tests_cant": "every point of failure in every run", "anchors": ["include/uri/icubaby.hpp: transcoder::operator(), end_cp, triangulator"]}
{"id": "C58", "title": "percent-encoding and decoding work piece by piece, and give normal forms", "statement": "Encoding the pieces of a text and putting the results together is encoding the text; for decoding this holds exactly when no cut goes through an escape. Decoding leaves a text alone exactly when it contains no escape. Decoding followed by encoding gives a normal form: it decodes to the same text, and two texts have the same one exactly when they decode to the same.", "quantifier": "every text, every cut, every encode set", "why_tests_cant": "all texts and all cuts", "anchors": ["include/uri/pctencode.hpp: pctencode", "include/uri/pctdecode.hpp: pctdecoder, pctdecode_iterator"]}
{"id": "C59", "title": "split and split_reference take the languages of the grammar that the project ships", "statement": "systemtests/uri.abnf, read as RFC 5234 says, defines the rules of RFC 3986; split takes exactly the texts that its rule URI derives, and split_reference those that URI-reference derives, except for the hosts of C02.", "quantifier": "every text, every rule", "why_tests_cant": "the language of a grammar is infinite; the project's system test samples 500 texts", "anchors": ["systemtests/uri.abnf", "systemtests/test", "lib/uri/uri.cpp: split, split_reference"]}
{"id": "C60", "title": "all routes between encodings agree", "statement": "Transcoding from one of UTF-8, UTF-16, UTF-32 to another directly gives the same units as going through any third encoding (also the same one), and the first step already reports what the direct conversion reports. Whatever the input, the output is well-formed text of the target encoding, which transcoding to itself does not change. Text reported as well formed comes back unit for unit, and what is reported does not depend on the target.", "quantifier": "all triples of encodings, every input, well formed or not", "why_tests_cant": "all inputs, nine transcoders in 27 combinations", "anchors": ["include/uri/icubaby.hpp: transcoder"]}
{"id": "C61", "title": "how much room transcoded text needs", "statement": "For n units of input a transcoder writes at most 3 n bytes from UTF-8 or UTF-16 to UTF-8 and 4 n from UTF-32, at most 2 n units from UTF-32 to UTF-16 and n in the other cases; and at least n / 4 units from UTF-8 to UTF-16 or UTF-32, 3 n / 4 from UTF-8 to UTF-8, n / 2 from UTF-16 to UTF-32 and n in the other cases. No smaller (or greater) factor will do at any length.", "quantifier": "all pairs of encodings, every input, well formed or not, every length", "why_tests_cant": "a caller sizes a buffer for all inputs of a length", "anchors": ["include/uri/icubaby.hpp: transcoder"]}
{"id": "C62", "title": "transcoding to UTF-8 keeps the order of texts", "statement": "If two texts are transcoded to UTF-8, the results compare lexicographically as the code points of the texts do; well-formed UTF-8 text compares as what it is transcoded to in UTF-32. For UTF-16 this holds for texts without code points from U+E000 to U+FFFF, and not in general.", "quantifier": "all pairs of texts in any encoding", "why_tests_cant": "all pairs of texts", "anchors": ["include/uri/icubaby.hpp: transcoder"]}
{"id": "C63", "title": "a reference leads only to the origin it names", "statement": "Let a base text begin with scheme://authority. Joined with a reference that has no ':' before its first '/', '?' or '#' and does not begin with '//', it gives parts whose text begins with the same scheme://authority, followed by nothing or one of / ? #. A reference that begins with //authority' leads to the base's scheme and that authority, and one that begins with scheme'://authority' leads there. For a base without an authority the resulting parts have the base's scheme and no authority (but the text written from them may name one: C48).", "quantifier": "all bases and references, strict or not", "why_tests_cant": "a check of a redirection or link by its text must hold for all texts", "anchors": ["lib/uri/uri.cpp: join, compose"]}
{"id": "C64", "title": "a relative reference stays inside the base's directory", "statement": "A reference that begins with a path segment and in which no '..' comes without a segment before it to cancel is resolved to the segments of the base's directory followed by its own; the composed text continues the base's origin with that directory. For every reference in which some '..' is left over there is a directory that it leads out of. If, in addition, no segment of the reference decodes to '.', '..' or a text with '/', the file name made of the decoded result lies below the directory; without that condition it need not.", "quantifier": "all bases and references", "why_tests_cant": "path traversal: all texts, all escapes", "anchors": ["lib/uri/uri.cpp: join, remove_dot_segments, path conversion operators", "include/uri/parts.hpp: decode"]}
{"id": "C65", "title": "percent-decoding a string into itself", "statement": "Running the percent-decoding iterators over a string and writing each character to the beginning of the same string: the loop *out++ = *it++ leaves the decoded text at the beginning and does not touch the rest. std::copy, which writes a character before it increments the iterator, terminates and stays within the string, but gives the decoded text exactly when there is no escape or the first escape stands for '%'; otherwise the result is longer and keeps the digits of escapes.", "quantifier": "all strings", "why_tests_cant": "all strings; the result depends on where the first escape is and what it stands for", "anchors": ["include/uri/pctdecode.hpp: pctdecode_iterator, pctdecode_view, pctdecoder, deref, increment"]}
{"id": "C66", "title": "transcoding an array into itself", "statement": "A transcoder between equal types of code units may write over the array that it reads: for UTF-16 and UTF-32 the result is that of transcoding to a different place, for every content of the array. For UTF-8 this is so exactly when no prefix is transcoded to more bytes than it has (well-formed text, for one); otherwise bytes past the end of the array are written. A wrong text is never left in an intact array.", "quantifier": "all arrays, well formed or not", "why_tests_cant": "all contents of the array", "anchors": ["include/uri/icubaby.hpp: transcoder, triangulator"]}
{"id": "C67", "title": "which error Punycode decoding reports", "statement": "Decoding a Punycode text reports \"bad input\" only if the text has no meaning under RFC 3492 at all, and \"overflow\" for every text whose code points do not fit in 32 bits; it reports \"overflow\" only if a beginning of the text, perhaps followed by the digit a, has such a meaning. uri::decode of parts reports the error of the first label of the host that cannot be decoded, and no other. The returned error_code converts to true, is equal only to the code of the same error, belongs to the category named punycode decode, and its message is \"bad input\" or \"overflow\"; any other number asked of the category is an unknown error.", "quantifier": "all texts shorter than 2^32 characters, all hosts, all ints as error values", "why_tests_cant": "all texts: an error is wrong only with respect to every possible meaning of the text", "anchors": ["include/uri/punycode.hpp: decode, decode_vli, decode_error_code, error_category", "lib/uri/punycode.cpp: error_category::message, make_error_code", "include/uri/parts.hpp: decode, puny_decoded"]}
{"id": "C68", "title": "what uri::decode may show as a host", "statement": "The host that uri::decode returns has as many labels as the host it was given; each is the same label, or, for a label xn--q, well-formed UTF-8 whose ASCII characters are just those of q in front of its last hyphen, in order. So no ASCII character (no /, @, :, ? or dot) appears that was not in the host. A host written as encode writes it (ASCII labels not beginning with xn--, and xn-- with the lower-case Punycode of scalar values not all ASCII) is decoded, encode makes the same host out of the result, and two different such hosts are never shown alike; every host made by encode is of this kind. (Other hosts are shown alike: xn--paypal- and paypal; and the text shown may itself be a host to decode.)", "quantifier": "all hosts shorter than 2^32 characters, all stores and growth policies", "why_tests_cant": "all hosts: a spoofed delimiter needs one bad text out of all", "anchors": ["include/uri/parts.hpp: decode, encode, puny_decoded, puny_encoded", "include/uri/punycode.hpp: decode, encode"]}
{"id": "C69", "title": "compose and operator<< on streams that throw, and without memory", "statement": "os << uri on a good stream of width 0, whatever its buffer does (takes less, throws half-way) and whatever its exceptions() mask: the buffer receives the text of compose up to some point, without a gap; if the call returns and the stream is good it received all of it; the call throws exactly when a bit of the final state is in the mask (or there is no memory for the path's string), so with badbit (and the bits of a short write) in the mask a truncated URI is never written without an exception; with the default mask nothing else is thrown; a stream that is not good receives nothing. compose(parts) returns the URI up to some point, the whole of it when no memory request of its string stream is refused, and throws only when there is no memory for the path's string or the result. (It does not throw when the string stream runs out of memory: the URI is truncated silently; with badbit in the stream's mask it would be whole or an exception.)", "quantifier": "all URIs, all stream buffers, masks, stream states, all schedules of refused memory requests and growth policies", "why_tests_cant": "all buffers and all points at which a write or a memory request can fail", "anchors": ["lib/uri/uri.cpp: compose, operator<<, parts::path::operator std::string"]}
{"id": "C70", "title": "what partial() and well_formed() tell in the middle of the input", "statement": "Asked at any point before end_cp, well_formed() of a transcoder is true exactly if the units given so far are the beginning of some well-formed text. For the byte transcoder, once it is past the byte order mark, the same holds of the whole code units given so far in the encoding it chose, and partial() is false exactly if those units are read to the end, no code point being half read, and everything read has been written. Within a mark nothing has been written, partial() is true and well_formed() is true; in the beginning partial() is false. (Half a code unit shows in neither answer: FE FF D8 00 00 is well_formed() although no continuation is well-formed.)", "quantifier": "all inputs, stopped at every point, all encodings", "why_tests_cant": "every prefix of every input", "anchors": ["include/uri/icubaby.hpp: transcoder::partial, transcoder::well_formed, transcoder<std::byte, To>"]}
{"id": "C71", "title": "how much of each kind of work parsing does, and that this is the merit of the grammar", "statement": "Sharpening C40: whatever text split or split_reference is given, well-formed or hostile, the number of characters it tests, of match functions it calls, of acceptors it copies and of acceptors it runs is at most a constant times the length of the text plus a constant (for split of n characters 29n+2382, 41n+3939, 31n+74 and 2n+6); no backtracking in the grammar multiplies up. valid() of a parts object is likewise bounded by the characters and segments in it and copies no acceptors. This is a property of the grammar in uri.cpp, not of the rule library: a grammar written with it may take 2^k tests on a text of one character.", "quantifier": "all strings (accepted or not), all parts values; for the contrast, all k", "why_tests_cant": "no finite set of strings bounds the work of all strings", "anchors": ["lib/uri/uri.cpp: split, split_reference, uri_parts::valid, parts_authority::valid, parts_path::valid", "include/uri/rule.hpp: rule::concat, rule::optional, rule::star, rule::alternative, rule::matched, rule::done"]}
{"id": "C72", "title": "parsing, valid() and join when memory runs out", "statement": "Whatever the allocator does, split, split_reference and join give the answer they would give with unlimited memory, or throw bad_alloc; they never give another answer. How much is enough is bounded by the text: an allocator that refuses no vector of up to 31n+74 elements makes split of n characters succeed (35n+86 for split_reference; for join the sum over its arguments). The vector of segments needs room for exactly as many segments as the result has, and a rejected text needs none. valid() is noexcept and keeps that promise: it never asks for memory and answers correctly when there is none. remove_dot_segments never makes the path longer, so it needs no memory beyond the vector it is given.", "quantifier": "all strings, all parts values, all allocators: every schedule of refused and granted requests", "why_tests_cant": "every point at which a request can be refused, for every input", "anchors": ["lib/uri/uri.cpp: split, split_reference, join, parts::valid, parts::authority::valid, parts::path::valid, parts::path::remove_dot_segments", "include/uri/rule.hpp: rule::concat_impl, rule::optional, rule::star, rule::alternative, rule::join, rule::matched, rule::done"]}
{"id": "C73", "title": "base() and == of a transcode view's iterators", "statement": "base() of the iterator that shows the i-th unit of the output is the place in the input where the transcoder last stood when it had written no unit after the i-th, and the end of the input for the end. Where the input up to and including a code point is well-formed that is the place where the code point begins, and transcoding the input from base() on gives the rest of the output. Two iterators compare equal exactly when they stand at the same place; over well-formed input, exactly when they show units of the same code point. (In ill-formed UTF-16 base() can be in the middle of a surrogate pair, or before the replaced surrogate when the unit after it is shown.)", "quantifier": "all inputs, all nine pairs of encodings, all positions, all programs over any number of iterators", "why_tests_cant": "every input and every history of iterators", "anchors": ["include/uri/icubaby.hpp: transcode_view::iterator::base, transcode_view::iterator::operator==, transcode_view::iterator::state::fill, transcode_view::begin, transcode_view::iterator::operator++"]}
{"id": "C74", "title": "match functions, predicates and actions with effects and exceptions", "statement": "A grammar made with the rule library calls the client's match functions, predicates and actions in a fixed order given by the structure of the grammar and the answers so far: left to right, the next alternative only after the one before has answered no, a sequence stopped at the first no. Matching never runs an action. Matching ends whatever the functions do, if what is repeated matches no empty text. An exception thrown by any call, at any point, comes out of the parse at once: no further call is made, no action is run if matching threw, and the calls up to then are the calls that would have been made without it. done() runs the actions of a complete match in order, up to and including the first that throws; it runs none if the match failed or left text. A rule that has failed calls nothing. star() gives its match function the successive rests of the text, at most max+1 times. (It calls it once more after max matches and drops that match.) With functions that have no effects this is the library of C09 and C10.", "quantifier": "all grammars, all texts, all client functions (their answers may depend on everything that happened before), all points at which one may throw", "why_tests_cant": "all client functions with any state, and every call at which one can throw", "anchors": ["include/uri/rule.hpp: rule::concat, rule::optional, rule::star, rule::alternative, rule::single_char", "lib/uri/rule.cpp: rule::done, rule::matched"]}
{"id": "C75", "title": "percent-encoding and decoding of characters wider than char", "statement": "pctdecode_view and pctdecode_iterator decode text of characters of any width as they decode bytes: an escape gives the character of that number, everything else, in particular every character of 256 or more, is copied. The template pctencode treats characters below 256 as bytes; of any other character it looks at the low byte only: if that is in the set, the escape of the low byte is written, else the character, cut to the width of the output's characters. So decoding gives back the text exactly when every character of 256 or more in it has a low byte outside the set; and through a std::string only the low bytes arrive. (U+012F encoded as a path into a std::string is a slash; U+0125 is written as %25.)", "quantifier": "all texts of characters of any width, all sets, all widths of the output", "why_tests_cant": "all texts over all characters", "anchors": ["include/uri/pctencode.hpp: pctencode, needs_pctencode", "include/uri/pctdecode.hpp: pctdecode_view, pctdecode_iterator, hex2dec, deref, increment, needs_pctdecode"]}
{"id": "C76", "title": "transcode view over a single-pass range", "statement": "Over a range of iterators that share their source (std::istreambuf_iterator: all copies read one stream buffer and are at the end once it is exhausted) a range-for over the transcode view ends without fault and well_formed() tells of the whole input, but what is shown is only what the transcoder writes for all units but the last: what the last unit completes and what the end of the input adds is never shown. Of well-formed text exactly the last code point is missing; text of one code point looks empty. (The expected property, that all of the output is shown as over multi-pass ranges, is false.)", "quantifier": "all inputs, all nine pairs of encodings", "why_tests_cant": "every input; a test with a std::string or vector as the source never sees it", "anchors": ["include/uri/icubaby.hpp: transcode_view, transcode_view::iterator, transcode_view::iterator::operator==, transcode_view::iterator::state::fill, transcode_view::sentinel"]}
{"id": "C77", "title": "a path as a std::filesystem::path on Windows", "statement": "Converting a path to std::filesystem::path on Windows: the segments of a URI contain neither / nor a backslash, and if none of them begins with a drive (a letter and a colon, which the grammar allows) the result is the non-empty segments with a backslash between them, / in front iff the path is absolute and a backslash behind iff the last segment is empty, and appending segments to a directory stays below it. If a segment begins with a drive, everything before the last change of drive is dropped, also the root, and the names follow the drive without a separator: the result is relative to that drive's current directory. The result is never absolute in the sense of Windows. A decoded segment may have separators in it: one that begins with two of them and a name (a server) replaces everything before it, one that begins with one replaces everything but the drive or server. (So file:///C:/Windows becomes C:Windows, and a/d:x leaves the directory.)", "quantifier": "all paths whose segments have no separators, in particular those of all URIs, references and results of join; then all decoded segments that begin with separators", "why_tests_cant": "all paths; the tests run on one system only", "anchors": ["lib/uri/uri.cpp: parts::path::operator std::filesystem::path"]}
{"id": "C78", "title": "resolving references one after the other", "statement": "For all parts objects b, r1 and r2, join(join(b, r1), r2) equals join(b, join(r1, r2)) (strictly) if r2 has a scheme, an authority, a path from the root or no path, which can be seen from the text of r2; so a chain of such references of any length may be composed first and resolved later. If r1 names neither scheme nor authority and r2 has a scheme, an authority or a path from the root, join(join(b, r1), r2) equals join(b, r2). The first equation also holds if r2 has a relative path, provided r1's path ends in a document in a directory (or is empty), and, where r1 is relative too, both together do not climb out of the directory of b. (It does not hold if r1 is a single relative segment, ends in dots, or is resolved non-strictly.)", "quantifier": "all parts objects b, r1, r2; all chains of references", "why_tests_cant": "three unbounded arguments with five kinds of references each, and arbitrary segments", "anchors": ["lib/uri/uri.cpp: join, merge, parts::path::remove_dot_segments"]}
{"id": "C79", "title": "reading a text from a source that throws", "statement": "For every well or ill formed text and every pattern of exceptions from the operations of the underlying range (reading an element, moving on): a range-for over a transcode_view that is ended by an exception has seen exactly what the transcoder writes for the units before the one that could not be read or moved past, and well_formed() is not false for a well formed text; a program that keeps a copy of the iterator and goes back to it after an exception gets the whole text and the right well_formed() once the source recovers, and never anything wrong or undefined before that. The iterators of pctdecode keep their value when * or ++ throws and may simply be used again; a loop that is cut off has seen a beginning of the decoded text. pctencode has then written the encoding of the characters read so far, never half an escape. (A transcode_view iterator out of whose ++ an exception came is not at the end, but may not be dereferenced or incremented any more.)", "quantifier": "all texts, encodings and patterns of exceptions; all numbers of retries", "why_tests_cant": "every operation on the source is a point at which it may throw, in any combination", "anchors": ["include/uri/icubaby.hpp: transcode_view::iterator::state::fill, iterator::operator++", "include/uri/pctdecode.hpp: details::increment, details::deref, pctdecode_iterator", "include/uri/pctencode.hpp: pctencode"]}
{"id": "C80", "title": "programs that do not know the grammar see the same URI", "statement": "For every text that split or split_reference accepts, the regular expression of RFC 3986 Appendix B (matched greedily, with backtracking) finds the same scheme, authority, path, query and fragment. Every way to take the authority apart that separates the userinfo by '@', leaves no '@' in host and port, takes a host in brackets or without ':', and a port without ':' and ']' finds the library's userinfo, host and port; so the reader from the left and the reader from the right agree. What is accepted has no blanks, control characters, non-ASCII bytes, backslashes or any of \"<>^`{|}. Conversely a text is a URI (a relative reference) exactly if the pieces that the regular expression finds make up the text and each of them is in the language of its rule, and split accepts it exactly if besides that its host is no IPv4 address followed by something.", "quantifier": "all texts shorter than 2^32 bytes; all ways to take an authority apart", "why_tests_cant": "differences between two parsers hide in texts nobody thought of; the regular expression backtracks", "anchors": ["lib/uri/uri.cpp: split, split_reference, URI, authority, userinfo, host, port"]}
{"id": "C81", "title": "answers do not depend on the platform", "statement": "If split, split_reference, join or valid return on two platforms, one with signed and one with unsigned char, they return the same. Where char is unsigned they always return; a text for which the call is undefined with signed char (C08) is rejected with unsigned char. For ASCII text there is one answer for all platforms and all locales (of the kind of C54).", "quantifier": "all texts and parts, both kinds of char, all locales", "why_tests_cant": "one build runs on one platform", "anchors": ["lib/uri/uri.cpp: split, split_reference, join, parts::valid", "include/uri/rule.hpp: single_char"]}
{"id": "C82", "title": "encoding, decoding and resolving in either order", "statement": "Encoding all components of a base and of a reference and resolving (strictly) the one against the other gives the same parts as resolving them and encoding the result: encoding neither makes nor destroys the segments that matter to resolution, '.', '..' and the empty one. Decoding first gives the same as decoding the result if no segment is a dot segment in disguise ('%2e%2e'); if one is, it does not: decode of join(b, r) then keeps a '..' that join of the decoded b and r would have resolved. When resolving is not strict, both schemes have to be free of '%' and of characters that encode replaces, which they are in whatever split and split_reference accept.", "quantifier": "all bases and references, strict or not, all stores", "why_tests_cant": "the order of operations matters only for some of infinitely many pairs; a few examples do not tell which", "anchors": ["lib/uri/uri.cpp: join", "include/uri/uri.hpp: encode, decode"]}
{"id": "C83", "title": "what of the base shows in the result of a join", "statement": "Two bases that agree on what a reference leaves open give the same result. A reference with a scheme: nothing of the base matters (strictly); with an authority: only the scheme; with a path from the root: scheme and authority; with a path: scheme, authority and the directories of the path, not the last segment (if there are at least two); the query of the base only shows if the reference has neither path nor query; the fragment never. User, host and port of the result come all from the base or all from the reference, and from the base only if the reference names neither scheme nor authority. On texts: what comes after the first # of the base makes no difference, and what comes after the first ? or # makes none unless the reference is empty or only a fragment. (An only segment does show, C13; and so does the query if a reference is just the base's scheme and resolved non-strictly.)", "quantifier": "all pairs of bases, all references", "why_tests_cant": "non-interference relates two runs, for all secrets in the base", "anchors": ["lib/uri/uri.cpp: join"]}
{"id": "C84", "title": "encoding and decoding several times", "statement": "Encoding parts n times and decoding the result n times gives the parts of the beginning, for every n, and decode never reports an error on the way, however often it is called. In userinfo, path segments, query and fragment each decoding takes off exactly one layer; scheme, host and port have one layer only: encoding them again, or decoding them again, changes nothing. The parts are those of C24 without any host label beginning with xn--. (Decoding more often than was encoded loses text: %41 comes back as A.)", "quantifier": "all parts, all numbers of repetitions, all stores", "why_tests_cant": "n is not bounded", "anchors": ["include/uri/uri.hpp: encode, decode", "include/uri/pctencode.hpp: pctencode", "include/uri/pctdecode.hpp: pctdecode"]}
{"id": "C85", "title": "the case of letters", "statement": "Two texts that differ in the case of ASCII letters only are treated alike: split and split_reference accept both or neither and cut them at the same places; valid, compose, strict join, remove_dot_segments, pctencode, pctdecode, Punycode encode and decode, and uri::encode give results that differ in case only; so does uri::decode if the labels beginning with xn-- (in lower case) are the same. Changing the case of any letters of the components of a split URI gives parts that compose to a text which splits into just those parts (case normalisation is safe). Upper-case and lower-case digits in escapes decode to the same bytes. (Non-strict join compares schemes with regard to case, and the prefix XN-- is not known: there the results differ.)", "quantifier": "all texts, all parts, all ways to change the case of letters", "why_tests_cant": "there are 2^n ways to write n letters", "anchors": ["lib/uri/uri.cpp: split, split_reference, join, compose", "include/uri/rule.hpp: alpha, single_char", "include/uri/pctencode.hpp: pctencode", "include/uri/pctdecode.hpp: pctdecode", "include/uri/punycode.hpp: encode, decode", "include/uri/uri.hpp: encode, decode"]}
{"id": "C86", "title": "a URI cut short", "statement": "A text accepted by split or split_reference and cut anywhere after its scheme and authority is accepted exactly if the cut does not go through an escape; scheme, authority and every component before the cut are as they were, and the component that was cut is a beginning of the original one. If there is no userinfo and the host is not an IP literal, the same holds for cuts within host and port; and then every beginning beyond the scheme's colon (of a reference without scheme: every beginning) is accepted but for cut escapes. (Cut within the userinfo, the userinfo may become the host.)", "quantifier": "all texts and all places to cut them", "why_tests_cant": "every prefix of every accepted text", "anchors": ["lib/uri/uri.cpp: split, split_reference"]}
{"id": "C87", "title": "a URI continued", "statement": "Let s be a text that split (split_reference) accepts. If s has no query and no fragment, then s followed by any text that begins with ? or # is accepted exactly if that text is ?query, #fragment or both, and then these are the query and the fragment and everything else is as it was; if s has a query but no fragment, the same holds for s followed by # and any text. If s has no query and no fragment, s followed by / and a segment has this segment as one more, and everything else as it was, unless s has no authority and its path is / alone (there the segment becomes the host).", "quantifier": "all accepted texts and all texts put after them", "why_tests_cant": "any text may follow any text", "anchors": ["lib/uri/uri.cpp: split, split_reference"]}
{"id": "C88", "title": "a reference written out", "statement": "join of two texts can be done by writing: let base be accepted by split. A reference that begins with // gives what split gives for scheme:reference, after remove_dot_segments; one that begins with / (not //) what split gives for scheme://authority (or scheme:) followed by it, after remove_dot_segments; one that begins with ? or # exactly what split gives for the base without query and fragment (without fragment) followed by it; each is accepted exactly if the written text is. An accepted reference without scheme and authority whose path does not begin with / gives what split gives for it written after the last / of the path of the base (after host/ if the base has no path, after scheme: if it has no authority either), after remove_dot_segments, if the path of the base has more than one segment or none. The empty reference gives the base without fragment; an absolute one (with strict) itself without dot segments, so base joined with itself gives base without dot segments. The beginnings of base that are used here exist for every base.", "quantifier": "all accepted bases, all reference texts, strict and not", "why_tests_cant": "any reference may meet any base", "anchors": ["lib/uri/uri.cpp: join, merge, split, split_reference"]}
{"id": "C89", "title": "internationalised names that mean the same", "statement": "punycode::encode of what punycode::decode returns for a text is the text in its tidy spelling: the digits after the last hyphen in lower case, and without a hyphen that nothing precedes; so two texts decode to the same code points exactly if their tidy spellings are the same. uri::decode followed by uri::encode replaces a host of ASCII labels by its tidy spelling (label by label: a label without xn-- stays, one after xn-- becomes the tidy Punycode, or the decoded text if that is ASCII), and two hosts are shown alike by decode exactly if their tidy spellings are the same.", "quantifier": "all texts that decode accepts; all hosts whose labels are ASCII and whose xn-- labels decode to Unicode scalar values", "why_tests_cant": "any name may be registered in any spelling", "anchors": ["include/uri/punycode.hpp: encode, decode", "include/uri/parts.hpp: encode, decode, puny_encoded, puny_decoded"]}
{"id": "C90", "title": "how long the results are", "statement": "The text of join's result is not longer than the base and the reference together, plus one character, and without that one if the base's path has at least two segments (or the base has neither path nor authority); a chain of references adds at most one character for each of them. n calls of encode make a URI with an ASCII host at most 2n+1 times as long (n layers add two characters each for every byte to be encoded, not a power of it), any other at most the larger of 26 and 2n+1 times; decode makes it at most four times as long, and if no label of the host begins with xn-- no longer than it was and not shorter than a third.", "quantifier": "all bases, references and chains of references; all parts and numbers of calls; all percent-encode sets without the digits of an escape", "why_tests_cant": "a buffer sized from samples may be too small for the next input", "anchors": ["lib/uri/uri.cpp: join, merge, compose", "include/uri/parts.hpp: encode, decode", "include/uri/pctencode.hpp: encode", "include/uri/punycode.hpp: encode, decode"]}
{"id": "C91", "title": "what the project's fuzz tests assert, for every input", "statement": "Each of the eleven FUZZ_TESTs of the project, without its sampling: split, pctdecode (iterator and view), pctencode, punycode::encode and punycode::decode return for every input (split: where char is unsigned); compose gives back what split accepted; pctdecode gives back what pctencode encoded, for each of the seven sets; punycode::decode gives back what encode wrote; encoding what punycode::decode read gives the same number of characters, the same text up to the last hyphen and the rest but for the case of letters; if the parts that encode returns are valid then split accepts their text, provided there is an authority or what follows a leading // of the path reads as one; and if valid parts have no host label that begins with xn--, encode gives valid parts from which decode gives back the original.", "quantifier": "all texts, code points, encode sets and parts", "why_tests_cant": "a fuzz test tries inputs for as long as it runs", "anchors": ["lib/uri/uri.cpp: split, compose", "include/uri/pctencode.hpp: encode", "include/uri/pctdecode.hpp: pctdecode_iterator", "include/uri/punycode.hpp: encode, decode", "include/uri/parts.hpp: encode, decode", "unittests/uri: FUZZ_TEST"]}
{"id": "C92", "title": "parsing needs a bounded stack", "statement": "However long the text is, and whether it is accepted or not, split never has more than 53 calls of the project's functions under way at once, split_reference 56, join on two strings 57 and valid() 40 (whatever the parts), and these numbers are the least such; star() repeats without nesting its calls; and for every grammar written with the rule library there is a bound that does not depend on the text.", "quantifier": "all texts, parts and grammars", "why_tests_cant": "a test shows the stack that one text needs; a parser that recursed per character, as std::regex does, would pass it", "anchors": ["lib/uri/uri.cpp: split, split_reference, join, parts::valid", "include/uri/rule.hpp: star, concat_impl, optional, alternative_impl", "lib/uri/rule.cpp: done, matched"]}
{"id": "C93", "title": "Punycode when the source, the destination or the memory fails", "statement": "Whatever throws while punycode::encode runs, and whenever, what has been written to the output iterator is the beginning of the complete output, up to the character whose writing failed; a destination with room for k characters gets the first k. encode needs memory for as many code points as there are beyond ASCII, and where there is less it throws at the first that is too many, having written the ASCII characters before it; it reads the whole source once, and once more for each distinct code point beyond ASCII. punycode::decode writes nothing outside, never needs memory for more code points than the text has characters, needs exactly that of its result if it succeeds, and reads at most twice as many characters as there are (three times with asserts). Where nothing that is asked for throws, the results are those of C19 to C21.", "quantifier": "all texts and code points, and all choices of which operation throws", "why_tests_cant": "a test fails one chosen operation on one text", "anchors": ["include/uri/punycode.hpp: encode, encode_vli, decode, decode_loop, copy_plain_ascii_part", "include/uri/find_last.hpp: find_last_bidi"]}
{"id": "C94", "title": "Percent-encoding and decoding when the source, the destination or the memory fails", "statement": "pctencode to an output iterator works as a stream: it reads each character of the source once and in order, and has written the whole encoding of a character before it reads the next. So where a reading throws, what was written is the encoding of what was read and the caller can go on from there; where a writing throws, what was written is the beginning of the output, a destination with room for k characters has the first k, and decoding it gives the characters that were written whole followed by nothing, a percent sign or a percent sign and one digit. pctencode to a string needs memory for exactly its result; pctdecode to a string needs memory for as many characters as its input has, however short the result, and if that is refused it throws at once. needs_pctencode and needs_pctdecode read up to the first character that decides the answer, once, and nothing after it.", "quantifier": "all texts, all encode sets and all choices of which operation throws", "why_tests_cant": "a test fails one chosen operation on one text", "anchors": ["include/uri/pctencode.hpp: pctencode, needs_pctencode, dec2hex", "lib/uri/pctencode.cpp: needs_pctencode", "include/uri/pctdecode.hpp: pctdecode, needs_pctdecode"]}
{"id": "C95", "title": "views that are copied, assigned to and destroyed while their iterators are in use", "statement": "Whatever a program does with any number of views over any texts and any number of their iterators, it sees cursors over what the texts are shown as, if it keeps to these rules: an iterator of pctdecode_view is moved and read from only while its view is there and shows the text it showed; one of transcode_view is moved only then, but may be read from afterwards; one of pctdecoder needs its pctdecoder for nothing. Iterators may be compared if they are in the same text; for transcode_view they must also be of the same view. well_formed() tells about the view through which the end was reached and the copies made of it afterwards. The rules are needed: an iterator whose view is gone or shows another text cannot be moved (nor read from, for pctdecode_view).", "quantifier": "all texts, all nine encodings, every finite history of operations on any number of views and iterators", "why_tests_cant": "a test runs one history; use after the view's lifetime often seems to work", "anchors": ["include/uri/pctdecode.hpp: pctdecode_view, pctdecoder, pctdecode_iterator", "include/uri/icubaby.hpp: transcode_view, iterator, well_formed"]}
{"id": "C96", "title": "how much work resolving references takes", "statement": "join() compares segments with \".\" or \"..\" at most twice, and writes segments at most twice, for each segment of the base and of the reference. remove_dot_segments() writes nothing, and changes nothing, if there are no dot segments; otherwise it moves each ordinary segment after the first dot segment once, and appends at most one, and that only if the path ends in a dot segment. The work depends only on the shape of the two URIs: which components are there and which segments are \".\", \"..\" or empty; not on how long the texts are or what they say. A chain of k references, each resolved against the result so far, takes at most 2k times the segments of all of them together, so it is quadratic in the length of the texts at most; and that is reached: \"a/\" again and again takes at least k*k comparisons.", "quantifier": "all bases and references, all lists of references", "why_tests_cant": "a test times a few paths; a bound for all of them, and that a chain is quadratic at worst, no finite number of runs can show", "anchors": ["lib/uri/uri.cpp: join, merge, remove_dot_segments"]}
{"id": "C97", "title": "encode and the URI that RFC 3987 assigns to an IRI", "statement": "parts given as an IRI (each component characters of RFC 3987 in UTF-8, no escapes in them, and a host without IPv4 prefix and without labels that begin with xn--) become the parts of the URI that RFC 3987 section 3.1 assigns to the IRI: encode() leaves the ASCII characters alone and writes the escapes of the UTF-8 octets for the others, and writes the labels of the host that are not ASCII in Punycode. split() takes the composed text, and decode() gives the IRI back. If the host is ASCII, composing and mapping commute. The exceptions are exact: encode() escapes the \"%\" of an IRI's own escapes, and \":\", \";\" and \"=\" in the userinfo, although RFC 3987 leaves them alone, and differs from RFC 3987 if and only if there is such a character.", "quantifier": "all IRIs, with texts of any length over all code points", "why_tests_cant": "a test encodes a few IRIs; that every IRI gives the URI the RFC says, and when it does not, ranges over all texts", "anchors": ["include/uri/parts.hpp: encode, parts_strings, puny_encoded_size", "include/uri/pctencode.hpp: needs_pctencode, pctencode", "lib/uri/pctencode.cpp: needs_pctencode", "include/uri/punycode.hpp: encode"]}
{"id": "C98", "title": "views that are laid one on top of the other", "statement": "s | uri::views::pctdecode | icubaby::views::transcode<char8, B>, and any number of transcode views one after the other over an array or over a percent-decoding view: every program that copies, assigns, increments, reads and compares the iterators of the topmost view, a range-based for loop in particular, sees what decoding the whole text first and one transcoder from the first encoding to the last make of it, whatever encodings lie between, and wherever the escapes cut the text. It is the same for every number of layers, except well_formed(): with two transcode views or more it is always true, because the one below has replaced what was malformed. A userinfo, segment, query or fragment as encode() wrote it, seen through pctdecode and transcode to char32_t, is the original text, code point by code point.", "quantifier": "all texts, all numbers and kinds of layers, all programs over the iterators", "why_tests_cant": "a test lays two views on one text; every pile over every text with every program is more than any number of tests", "anchors": ["include/uri/icubaby.hpp: transcode_view, iterator, state::fill", "include/uri/pctdecode.hpp: pctdecode_view"]}
{"id": "C99", "title": "decode and the IRI that RFC 3987 assigns to a URI", "statement": "RFC 3987 section 3.2 assigns exactly one text to every userinfo, segment, query and fragment of a URI, and that text is a component of an IRI. What decode gives is that text, in UTF-8, exactly if every escape in the component is one that RFC 3987 converts (of an unreserved or international character, in well-formed UTF-8); otherwise decode also converts what RFC 3987 keeps, and its text is shorter by two octets for each of those escapes. Taking a text without a percent sign to a URI as section 3.1 says and back as section 3.2 says gives the text again.", "quantifier": "all components of URIs, all parts", "why_tests_cant": "a test decodes a few escapes; every sequence of escapes, legal or not, is more than any number of tests", "anchors": ["include/uri/pctdecode.hpp: pctdecode, pctdecode_iterator", "lib/uri/parts.cpp, include/uri/parts.hpp: decode"]}
