STATUS={}
NOTES={
"C02":"C02_refuted is the finding: RFC 3986 URIs such as http://1.2.3.4.com/ are rejected; C02_split_rejects says exactly which.",
"C05":"C05_refuted: valid() parts whose composed string does not parse or parses to other parts; C05_roundtrip is the exact characterisation.",
"C07":"C07_refuted: a host in the RFC language that valid() rejects (same cause as C02).",
"C08":"C08_refuted: on a signed-char platform a UTF-8 byte in the input reaches <cctype> as a negative int (undefined). For every other input the theorems show termination without fault.",
"C10":"Includes two limits of star(): it diverges on a nullable body, and its counter wraps at exactly 2^32 matches.",
"C12":"C12_refuted gives the two kinds of deviation from RFC 3986 5.2.4; C12_rfc_algorithm is an iff.",
"C13":"C13_refuted: join(\"http://a/b\",\"g\") is http://a/b/g, RFC says http://a/g. C13_one_segment_base says what the code does in the excluded case; C13_exact_parts and C13_exact_strings (PropMerge.v) say exactly when the code agrees with the RFC; C13_root_base: http://a/ + g gives http://a//g.",
"C15":"C15_none_refuted: the set none is the exception.",
"C17":"C17_fragment_refuted: the fragment set lacks the backquote. Path set as in the standard before U+005E was added (2023).",
"C18":"C18_iter_move_refuted: iter_move yields the raw byte.",
"C21":"C21_delimiter_refuted (RFC 3492 would reject a leading delimiter) and C21_unicode_refuted (surrogates and > 0x10FFFF are produced) are findings.",
"C34":"C34_named_sets_refuted: the sets named after components follow WHATWG, not RFC 3986.",
"C22":"C22_maximal_refuted: the byte that breaks an incomplete sequence is swallowed with it, unlike the practice the Unicode Standard recommends; everything else is proved (C22_decode is an iff over all byte sequences).",
"C30":"C30_decode is an iff outside three kinds of input, for each of which a theorem says what happens and a _refuted theorem shows the departure; C30_half_unit_refuted: half a unit at the end is silently dropped.",
"C31":"All nine pairs of encodings; C31_byte_view_refuted: views over bytes overrun the buffer or dereference an empty one.",
"C24":"C24_round_trip covers any text in userinfo, path, query, fragment and any well-formed UTF-8 host without an xn-- label; C24_excluded_refuted shows that what the hypotheses exclude (xn-- host, escape in scheme or port) is really not recovered; C24_invalid_refuted: encode does not make arbitrary parts valid.",
"C25":"C25_same_store_refuted: passing back the store that the views point into leaves them dangling (a caller's error that the interface does not prevent).",
"C26":"C26_host_refuted: host xn-- (decoding to nothing) is returned as it is and the prefix is recognised in lower case only.",
"C32":"C32_slash_refuted: a segment starting with / (only possible in hand-made parts) makes the filesystem path drop what precedes it.",
"C39":"Model with views as (offset, length); C39_unique shows that the specification leaves only one possible set of places.",
"C40":"Steps are those of the matcher (calls of match functions and acceptors, copies of acceptor lists); vector growth is not counted.",
"C41":"Strings: places in the two arguments. Parts: for any type of view.",
"C42":"C42_width_refuted: setw pads only the first piece. Stream exceptions and locales are not modelled.",
"C43":"C43_refuted: a / in a segment makes two segments, a [ makes a rejected string, a host beginning with an IPv4 address is rejected.",
"C44":"C44_reference_refuted: at an escape a reference does not outlive its iterator's position, so the classes are not forward iterators. C44_write_refuted: writes to an escape are lost, iter_swap swaps raw bytes.",
"C45":"C45_equal_refuted: iterators at different units of one code point compare equal. C45_reference_refuted: references change as the iterator moves.",
"C46":"C46_postfix_refuted: *out++ = u into an array overwrites, since postfix ++ returns a copy.",
"C47":"std::cout is taken to accept everything; a file is what can be read from it.",
"C48":"C48_refuted: \"a:/x\" joined with \"/.//evil/y\" composes to a://evil/y, \"file:/\" with \"etc/passwd\" to file://etc/passwd: the text has an authority that no input had.",
"C49":"operator== itself is characterised by C27.",
"C50":"The byte swallowed after an incomplete UTF-8 form (C22) is the one ASCII character that can be lost.",
"C51":"C51_shared_iterator_refuted: operator* const of a percent-decoding iterator writes to the iterator at an escape. C51_transcode_ill_formed_race: the view's flag. Threads are taken not to synchronise with each other; memory is sequentially consistent in the model, which is what a program without races sees.",
"C52":"C52_refuted: taking the authority away from \"a://h//evil/x\" gives a://evil/x; adding a segment to the path of \"a:/\" gives a://evil; removing the only segment of \"a:/x\" loses the slash.",
"C53":"C53_refuted: after the text E2 the UTF-8 transcoder swallows the A of the next, writes one more U+FFFD for every further end_cp and answers true to partial() forever. C53_bytes_refuted: the transcoder from bytes looks for a byte order mark in the first text only.",
"C54":"C54_refuted: in an ISO-8859-1 locale, with unsigned char, split accepts \"a:\" followed by the byte E9 and valid() agrees: not URIs. With signed char such bytes are outside of the domain of <cctype> (C08).",
"C55":"C55_encode_linear_refuted and C55_decode_linear_refuted: for every n there are inputs that take n*n steps (a host name of n distinct non-ASCII characters, or n letters followed by n insertions in front of them). std::sort, reallocation of strings and the assertions are not counted.",
"C56":"C56_strong_refuted: what the store held before is lost. Asserts are taken to be on. The allocations that one label takes are one step in the model: between them the store is not touched.",
"C57":"C57_end_refuted: until end_cp has returned, well_formed() is true for a text cut off. C57_again_refuted: a byte of UTF-8 cannot be passed again after an exception.",
"C58":"C58_twice_refuted: neither encoding nor decoding is idempotent.",
"C59":"C59_system_test_refuted: the system test feeds URI-references to uri-split, which fails on relative ones.",
"C62":"C62_utf16_refuted: U+FFFF sorts after U+10000 in UTF-16 (a fact about UTF-16, not a defect of the code).",
"C63":"C63_no_authority_refuted: the text composed from a join result without authority can have an origin that neither input named.",
"C64":"C64_escape_refuted: %2e%2e and %2F in a reference lead out of the directory once decoded. The base with a single path segment is covered by C64_text only (its segment stays, C13_one_segment_base).",
"C65":"C65_copy_refuted: std::copy over the same string turns %41BC into A41BC.",
"C66":"C66_utf8_refuted: ill-formed UTF-8 whose repaired text has room in the array still overruns it.",
"C67":"Texts and hosts shorter than 2^32 characters. The converse of C67_overflow does not hold in that form: a number still growing is reported when it leaves 64 bits or when it is complete, so an invalid digit may come first.",
"C68":"C68_alike_refuted, C68_twice_refuted: hosts not of the form that encode writes may be shown as other hosts, or as hosts to be decoded again.",
"C69":"C69_compose_refuted: compose returns a truncated URI when its string stream runs out of memory; C69_repaired is the code with the mask set. Whether the path's string and the result find memory are parameters.",
"C70":"C70_half_unit_refuted: half a code unit is seen by neither partial() nor well_formed(). partial() of the nine other transcoders is C38. Inputs on which C30 found the byte transcoder to depart have their own theorems (C70_bytes_le16_then_zero, C70_bytes_le32).",
"C79":"C79_again_refuted: an iterator of transcode_view whose ++ threw can only be thrown away (F39). An operation on the source that throws is taken to leave the source's iterator where it was; comparisons, copies, std::distance and std::advance are taken not to throw.",
"C78":"C78_refuted shows that the conditions are needed; the failure for a first reference of one relative segment is a consequence of F5. Strict resolution; the equation is between parts objects.",
"C77":"C77_drive_refuted: drives in segments (F38). std::filesystem::path on Windows is modelled from the standard and the documented root names; narrow characters are taken as they are.",
"C76":"C76_single_pass_refuted: the last code point is not shown (F37). The model is for iterators that are at the end when the shared source is; std::istream_iterator, which keeps its own value, behaves as in C31.",
"C75":"C75_wide_refuted: characters of 256 or more lose their high bits. Nothing in the library itself calls pctencode with wider characters.",
"C74":"C74_star_calls_refuted: star(f,0,2) calls f a third time and drops its match. Function objects are taken to be the same object at each call (a copy per call, as for functions passed by value, is a client whose answers depend on less). 2^32 or more repetitions of one star are C10_star_count_wraps.",
"C73":"C73_resume_refuted and C73_pair_refuted: where UTF-16 input is ill-formed. base() is modelled as an offset; operator== compares the iterators into the input, as in C45.",
"C72":"Requests are those of std::vector (acceptors, segments) with their sizes; merge() is one request for its final size instead of several growing ones; a std::function made from one of uri.cpp's function objects counts as part of its vector.",
"C71":"C71_any_grammar_refuted: the rule library does not memoise, so the bound is a property of the URI grammar only. Not counted: elements moved when a std::vector grows, and destruction.",
"C80":"C80_ex_rejected: a@b@c, a:1:2 and backslashes, over which programs disagree, are rejected. The regular expression is given the semantics of a backtracking matcher; POSIX's longest match finds the same for this expression, which is not proved.",
"C81":"The locale is one that satisfies SpecLocale.usable, as in C54; loop bounds other than 2^32 (a 16-bit unsigned int) are not considered.",
"C82":"join works on the components' texts; that the views join returns show them is C41. The bounds on sizes are those of C26 (proper); the _text theorems have none.",
"C83":"For texts, the last segment is not treated (C83_directory is about parts).",
"C84":"Each call may use any views that show the parts and any other store (SpecLayers.encode_call); the sizes are those of C26 (proper).",
"C85":"No condition on length or bytes for the parser: undefined behaviour and divergence are the same for both texts too (SpecCase.same_answer).",
"C86":"Stated against the RFC 3986 components (SpecParts.comps). The IPv4 restriction of C02 is inherited by beginnings (unambiguous_prefix).",
"C87":"The conditions on s are stated on the parts that split returns for it.",
"C88":"The one-segment base is F5 (C88_one_segment_refuted); without strict a base joined with itself doubles its directory (C88_itself_loose_refuted).",
"C89":"Excluded are hosts whose text goes away altogether (xn--, xn---) and labels whose ASCII text begins with xn-- again (C68_twice_refuted, C89_ex_again).",
"C90":"The factors 1, 3 (2n+1) and the extra character are reached; 26 is an upper bound only.",
"C91":"Two of the tests assert what is false: EncodeAndComposeValidAlwaysAgree (C91_compose_valid_refuted, finding F46) and, where char is signed, UriSplitNeverCrashes (C91_split_never_crashes_refuted, finding F3). The exact condition for the former is proved.",
"C92":"Calls are counted, not bytes of stack; calls inside the standard library are not counted (std::function, std::for_each).",
"C93":"Dereferencing and moving the source's iterator count as one reading. A string that grows may throw at each growth, whatever its capacity.",
"C94":"Dereferencing and moving the source's iterator count as one reading. A string that grows may throw at each growth, whatever its capacity; the readings of the string that pctdecode is given cannot throw and are left out. The part on broken-off encodings needs a set other than none (see C15).",
"C95":"The texts lie outside the views (string_view, ref_view, span), are not changed and outlive them. Values are read as soon as an iterator is dereferenced; how long references last is C44 and C45. Views that own their text, and moved-from views, are not modelled. For transcode_view a loop from one view's begin to its copy's end is refuted (F47).",
"C96":"Counted are the comparisons of a segment with a dot segment and the writes of segments (string_view objects). Moves of a std::vector that grows and the copies of the six other fields (a constant number for each join) are not counted. The work of splitting the texts is C40 and C71. The shape theorem is for strict resolution, because otherwise the schemes are compared.",
"C97":"ToASCII is without Nameprep (the code has none). IRIs with escapes and userinfos with ':', ';' or '=' are covered by C97_component and C97_exact (the result is then not RFC 3987's: F48, C97_refuted); hosts with labels that begin with xn-- are C31's.",
"C98":"Arrays (contiguous, common ranges) at the bottom. The lower view's own well_formed() cannot be asked for without copying the view (base()) and is not modelled. pctdecode_view on top of a transcode_view or of another pctdecode_view does not compile (it asks for pos + 1).",
"C99":"The host (Punycode), scheme and port are not compared; kept escapes are compared as they are written (no upper-casing).",
}
