{
 "claims": [
  {
   "property": "C01",
   "status": "proved",
   "theorems": [
    "C01_split_sound"
   ],
   "note": ""
  },
  {
   "property": "C02",
   "status": "proved",
   "theorems": [
    "C02_split_complete",
    "C02_every_URI_decomposes",
    "C02_split_rejects",
    "C02_refuted"
   ],
   "note": "C02_refuted is the finding: RFC 3986 URIs such as http://1.2.3.4.com/ are rejected; C02_split_rejects says exactly which."
  },
  {
   "property": "C03",
   "status": "proved",
   "theorems": [
    "C03_compose_split"
   ],
   "note": ""
  },
  {
   "property": "C04",
   "status": "proved",
   "theorems": [
    "C04_split_reference",
    "C04_unique",
    "C04_language",
    "C04_rejects"
   ],
   "note": ""
  },
  {
   "property": "C05",
   "status": "proved",
   "theorems": [
    "C05_roundtrip",
    "C05_refuted"
   ],
   "note": "C05_refuted: valid() parts whose composed string does not parse or parses to other parts; C05_roundtrip is the exact characterisation."
  },
  {
   "property": "C06",
   "status": "proved",
   "theorems": [
    "C06_split_valid",
    "C06_split_reference_valid"
   ],
   "note": ""
  },
  {
   "property": "C07",
   "status": "proved",
   "theorems": [
    "C07_valid",
    "C07_valid_decides",
    "C07_authority_valid",
    "C07_path_valid",
    "C07_refuted"
   ],
   "note": "C07_refuted: a host in the RFC language that valid() rejects (same cause as C02)."
  },
  {
   "property": "C08",
   "status": "proved",
   "theorems": [
    "C08_split_total",
    "C08_split_reference_total",
    "C08_join_total",
    "C08_valid_total",
    "C08_refuted"
   ],
   "note": "C08_refuted: on a signed-char platform a UTF-8 byte in the input reaches <cctype> as a negative int (undefined). For every other input the theorems show termination without fault."
  },
  {
   "property": "C09",
   "status": "proved",
   "theorems": [
    "C09_done",
    "C09_order",
    "C09_no_effect"
   ],
   "note": ""
  },
  {
   "property": "C10",
   "status": "proved",
   "theorems": [
    "C10_concat",
    "C10_optional",
    "C10_alternative",
    "C10_alternative_none",
    "C10_star",
    "C10_star_terminates",
    "C10_star_nullable_diverges",
    "C10_star_count_wraps",
    "C10_failure_absorbing",
    "C10_matched",
    "C10_peg",
    "C10_peg_total"
   ],
   "note": "Includes two limits of star(): it diverges on a nullable body, and its counter wraps at exactly 2^32 matches."
  },
  {
   "property": "C11",
   "status": "proved",
   "theorems": [
    "C11_no_dots",
    "C11_idempotent",
    "C11_unchanged_without_dots",
    "C11_result",
    "C11_resolves_function"
   ],
   "note": ""
  },
  {
   "property": "C12",
   "status": "proved",
   "theorems": [
    "C12_rfc_algorithm",
    "C12_difference",
    "C12_rfc_total",
    "C12_refuted"
   ],
   "note": "C12_refuted gives the two kinds of deviation from RFC 3986 5.2.4; C12_rfc_algorithm is an iff."
  },
  {
   "property": "C13",
   "status": "proved",
   "theorems": [
    "C13_exact_parts",
    "C13_exact_strings",
    "C13_root_base",
    "C13_join_parts",
    "C13_join_strings",
    "C13_one_segment_base",
    "C13_refuted"
   ],
   "note": "C13_refuted: join(\"http://a/b\",\"g\") is http://a/b/g, RFC says http://a/g. C13_one_segment_base says what the code does in the excluded case; C13_exact_parts and C13_exact_strings (PropMerge.v) say exactly when the code agrees with the RFC; C13_root_base: http://a/ + g gives http://a//g."
  },
  {
   "property": "C14",
   "status": "proved",
   "theorems": [
    "C14_join",
    "C14_scheme_and_fragment",
    "C14_absolute_reference",
    "C14_empty_reference"
   ],
   "note": ""
  },
  {
   "property": "C15",
   "status": "proved",
   "theorems": [
    "C15_decode_encode",
    "C15_encode_injective",
    "C15_none_refuted"
   ],
   "note": "C15_none_refuted: the set none is the exception."
  },
  {
   "property": "C16",
   "status": "proved",
   "theorems": [
    "C16_encode",
    "C16_size_and_needs",
    "C16_nothing_left"
   ],
   "note": ""
  },
  {
   "property": "C17",
   "status": "proved",
   "theorems": [
    "C17_sets",
    "C17_union",
    "C17_total",
    "C17_fragment_refuted"
   ],
   "note": "C17_fragment_refuted: the fragment set lacks the backquote. Path set as in the standard before U+005E was added (2023)."
  },
  {
   "property": "C18",
   "status": "proved",
   "theorems": [
    "C18_decode",
    "C18_total",
    "C18_unescaped_unchanged",
    "C18_needs",
    "C18_size",
    "C18_iter_move_refuted"
   ],
   "note": "C18_iter_move_refuted: iter_move yields the raw byte."
  },
  {
   "property": "C19",
   "status": "proved",
   "theorems": [
    "C19_decode_encode"
   ],
   "note": ""
  },
  {
   "property": "C20",
   "status": "proved",
   "theorems": [
    "C20_shape",
    "C20_injective"
   ],
   "note": ""
  },
  {
   "property": "C21",
   "status": "proved",
   "theorems": [
    "C21_total",
    "C21_decode",
    "C21_code_points",
    "C21_non_ascii_literal",
    "C21_delimiter_refuted",
    "C21_unicode_refuted"
   ],
   "note": "C21_delimiter_refuted (RFC 3492 would reject a leading delimiter) and C21_unicode_refuted (surrogates and > 0x10FFFF are produced) are findings."
  },
  {
   "property": "C22",
   "status": "proved",
   "theorems": [
    "C22_decode",
    "C22_total",
    "C22_well_formed",
    "C22_table",
    "C22_maximal_refuted"
   ],
   "note": "C22_maximal_refuted: the byte that breaks an incomplete sequence is swallowed with it, unlike the practice the Unicode Standard recommends; everything else is proved (C22_decode is an iff over all byte sequences)."
  },
  {
   "property": "C23",
   "status": "proved",
   "theorems": [
    "C23_encode",
    "C23_total",
    "C23_round_trip",
    "C23_round_trip_back"
   ],
   "note": ""
  },
  {
   "property": "C24",
   "status": "proved",
   "theorems": [
    "C24_round_trip",
    "C24_valid",
    "C24_excluded_refuted",
    "C24_invalid_refuted"
   ],
   "note": "C24_round_trip covers any text in userinfo, path, query, fragment and any well-formed UTF-8 host without an xn-- label; C24_excluded_refuted shows that what the hypotheses exclude (xn-- host, escape in scheme or port) is really not recovered; C24_invalid_refuted: encode does not make arbitrary parts valid."
  },
  {
   "property": "C25",
   "status": "proved",
   "theorems": [
    "C25_encode",
    "C25_decode",
    "C25_readable",
    "C25_same_store_refuted"
   ],
   "note": "C25_same_store_refuted: passing back the store that the views point into leaves them dangling (a caller's error that the interface does not prevent)."
  },
  {
   "property": "C26",
   "status": "proved",
   "theorems": [
    "C26_encode",
    "C26_encode_text",
    "C26_encoded_unique",
    "C26_encode_nothing",
    "C26_decode",
    "C26_decode_text",
    "C26_decoded_unique",
    "C26_decode_nothing",
    "C26_valid_unchanged",
    "C26_host_refuted"
   ],
   "note": "C26_host_refuted: host xn-- (decoding to nothing) is returned as it is and the prefix is recognised in lower case only."
  },
  {
   "property": "C27",
   "status": "proved",
   "theorems": [
    "C27_equivalence",
    "C27_exact",
    "C27_compose",
    "C27_compose_injective"
   ],
   "note": ""
  },
  {
   "property": "C28",
   "status": "proved",
   "theorems": [
    "C28_find_last_agree",
    "C28_find_last",
    "C28_last_unique",
    "C28_starts_with"
   ],
   "note": ""
  },
  {
   "property": "C29",
   "status": "proved",
   "theorems": [
    "C29_decode",
    "C29_total",
    "C29_well_formed",
    "C29_encode",
    "C29_encode_total",
    "C29_round_trip",
    "C29_round_trip_back"
   ],
   "note": ""
  },
  {
   "property": "C30",
   "status": "proved",
   "theorems": [
    "C30_total",
    "C30_decode",
    "C30_ends_in_bom",
    "C30_le16_then_zero",
    "C30_le32_large",
    "C30_ends_in_bom_refuted",
    "C30_le16_then_zero_refuted",
    "C30_le32_large_refuted",
    "C30_half_unit_refuted",
    "C30_selected"
   ],
   "note": "C30_decode is an iff outside three kinds of input, for each of which a theorem says what happens and a _refuted theorem shows the departure; C30_half_unit_refuted: half a unit at the end is silently dropped."
  },
  {
   "property": "C31",
   "status": "proved",
   "theorems": [
    "C31_view",
    "C31_byte_view_refuted"
   ],
   "note": "All nine pairs of encodings; C31_byte_view_refuted: views over bytes overrun the buffer or dereference an empty one."
  },
  {
   "property": "C32",
   "status": "proved",
   "theorems": [
    "C32_string",
    "C32_recovers",
    "C32_filesystem",
    "C32_rooted",
    "C32_slash_refuted"
   ],
   "note": "C32_slash_refuted: a segment starting with / (only possible in hand-made parts) makes the filesystem path drop what precedes it."
  },
  {
   "property": "C33",
   "status": "proved",
   "theorems": [
    "C33_join_valid",
    "C33_join_valid_bool",
    "C33_no_dots"
   ],
   "note": ""
  },
  {
   "property": "C34",
   "status": "proved",
   "theorems": [
    "C34_any_bytes",
    "C34_keeps_valid",
    "C34_named_sets_refuted"
   ],
   "note": "C34_named_sets_refuted: the sets named after components follow WHATWG, not RFC 3986."
  },
  {
   "property": "C35",
   "status": "proved",
   "theorems": [
    "C35_rfc3492",
    "C35_decoding_unique"
   ],
   "note": ""
  },
  {
   "property": "C36",
   "status": "proved",
   "theorems": [
    "C36_8_16",
    "C36_16_8",
    "C36_8_8",
    "C36_16_16",
    "C36_32_32",
    "C36_round_trip_8",
    "C36_round_trip_16",
    "C36_repair_8"
   ],
   "note": ""
  },
  {
   "property": "C37",
   "status": "proved",
   "theorems": [
    "C37_length_8",
    "C37_length_16",
    "C37_length_32",
    "C37_index_8",
    "C37_index_16",
    "C37_index_32"
   ],
   "note": ""
  },
  {
   "property": "C38",
   "status": "proved",
   "theorems": [
    "C38_under_way"
   ],
   "note": ""
  },
  {
   "property": "C39",
   "status": "proved",
   "theorems": [
    "C39_split_places",
    "C39_split_reference_places",
    "C39_inside",
    "C39_null",
    "C39_unique"
   ],
   "note": "Model with views as (offset, length); C39_unique shows that the specification leaves only one possible set of places."
  },
  {
   "property": "C40",
   "status": "proved",
   "theorems": [
    "C40_split_linear",
    "C40_split_reference_linear",
    "C40_valid_linear",
    "C40_any_run"
   ],
   "note": "Steps are those of the matcher (calls of match functions and acceptors, copies of acceptor lists); vector growth is not counted."
  },
  {
   "property": "C41",
   "status": "proved",
   "theorems": [
    "C41_join_borrows",
    "C41_join_parts",
    "C41_join_contents"
   ],
   "note": "Strings: places in the two arguments. Parts: for any type of view."
  },
  {
   "property": "C42",
   "status": "proved",
   "theorems": [
    "C42_compose",
    "C42_insert",
    "C42_bad_stream",
    "C42_width",
    "C42_width_refuted",
    "C42_authority"
   ],
   "note": "C42_width_refuted: setw pads only the first piece. Stream exceptions and locales are not modelled."
  },
  {
   "property": "C43",
   "status": "proved",
   "theorems": [
    "C43_components",
    "C43_host",
    "C43_valid",
    "C43_send",
    "C43_refuted"
   ],
   "note": "C43_refuted: a / in a segment makes two segments, a [ makes a rejected string, a host beginning with an IPv4 address is rejected."
  },
  {
   "property": "C44",
   "status": "proved",
   "theorems": [
    "C44_cursors",
    "C44_reference_refuted",
    "C44_write_refuted"
   ],
   "note": "C44_reference_refuted: at an escape a reference does not outlive its iterator's position, so the classes are not forward iterators. C44_write_refuted: writes to an escape are lost, iter_swap swaps raw bytes."
  },
  {
   "property": "C45",
   "status": "proved",
   "theorems": [
    "C45_cursors",
    "C45_equal_refuted",
    "C45_reference_refuted"
   ],
   "note": "C45_equal_refuted: iterators at different units of one code point compare equal. C45_reference_refuted: references change as the iterator moves."
  },
  {
   "property": "C46",
   "status": "proved",
   "theorems": [
    "C46_append",
    "C46_array",
    "C46_array_too_small",
    "C46_copy",
    "C46_postfix_refuted"
   ],
   "note": "C46_postfix_refuted: *out++ = u into an array overwrites, since postfix ++ returns a copy."
  },
  {
   "property": "C47",
   "status": "proved",
   "theorems": [
    "C47_stdin",
    "C47_files",
    "C47_lines",
    "C47_description",
    "C47_blank"
   ],
   "note": "std::cout is taken to accept everything; a file is what can be read from it."
  },
  {
   "property": "C48",
   "status": "proved",
   "theorems": [
    "C48_length",
    "C48_reads_back",
    "C48_reads_back_inputs",
    "C48_again",
    "C48_refuted"
   ],
   "note": "C48_refuted: \"a:/x\" joined with \"/.//evil/y\" composes to a://evil/y, \"file:/\" with \"etc/passwd\" to file://etc/passwd: the text has an authority that no input had."
  },
  {
   "property": "C49",
   "status": "proved",
   "theorems": [
    "C49_join",
    "C49_valid"
   ],
   "note": "operator== itself is characterised by C27."
  },
  {
   "property": "C50",
   "status": "proved",
   "theorems": [
    "C50_pieces_8",
    "C50_lines_8",
    "C50_pieces_16",
    "C50_pieces_32",
    "C50_recovers_8",
    "C50_recovers_8_all",
    "C50_ascii_8",
    "C50_ascii_16",
    "C50_ascii_32"
   ],
   "note": "The byte swallowed after an incomplete UTF-8 form (C22) is the one ASCII character that can be lost."
  },
  {
   "property": "C51",
   "status": "proved",
   "theorems": [
    "C51_pct_race_free",
    "C51_pct_plain_race_free",
    "C51_pct_independent",
    "C51_shared_iterator_refuted",
    "C51_transcode_race_free",
    "C51_transcode_independent",
    "C51_transcode_ill_formed_race",
    "C51_transcode_flag_race",
    "C51_pct_moved_race",
    "C51_transcode_moved_race"
   ],
   "note": "C51_shared_iterator_refuted: operator* const of a percent-decoding iterator writes to the iterator at an escape. C51_transcode_ill_formed_race: the view's flag. Threads are taken not to synchronise with each other; memory is sequentially consistent in the model, which is what a program without races sees."
  },
  {
   "property": "C52",
   "status": "proved",
   "theorems": [
    "C52_edits",
    "C52_safe",
    "C52_text",
    "C52_path",
    "C52_authority",
    "C52_new_authority",
    "C52_defined",
    "C52_refuted"
   ],
   "note": "C52_refuted: taking the authority away from \"a://h//evil/x\" gives a://evil/x; adding a segment to the path of \"a:/\" gives a://evil; removing the only segment of \"a:/x\" loses the slash."
  },
  {
   "property": "C53",
   "status": "proved",
   "theorems": [
    "C53_reuse",
    "C53_not_partial",
    "C53_reuse_8",
    "C53_well_formed",
    "C53_seen_8",
    "C53_refuted",
    "C53_bytes_refuted"
   ],
   "note": "C53_refuted: after the text E2 the UTF-8 transcoder swallows the A of the next, writes one more U+FFFD for every further end_cp and answers true to partial() forever. C53_bytes_refuted: the transcoder from bytes looks for a byte order mark in the first text only."
  },
  {
   "property": "C54",
   "status": "proved",
   "theorems": [
    "C54_c_locale",
    "C54_ascii",
    "C54_ascii_valid",
    "C54_ascii_join",
    "C54_no_letters",
    "C54_split",
    "C54_split_reference",
    "C54_valid",
    "C54_sound",
    "C54_refuted"
   ],
   "note": "C54_refuted: in an ISO-8859-1 locale, with unsigned char, split accepts \"a:\" followed by the byte E9 and valid() agrees: not URIs. With signed char such bytes are outside of the domain of <cctype> (C08)."
  },
  {
   "property": "C55",
   "status": "proved",
   "theorems": [
    "C55_same_encode",
    "C55_same_decode",
    "C55_encode",
    "C55_encode_bound",
    "C55_decode",
    "C55_decode_bound",
    "C55_host_encode",
    "C55_host_decode",
    "C55_encode_linear_refuted",
    "C55_decode_linear_refuted"
   ],
   "note": "C55_encode_linear_refuted and C55_decode_linear_refuted: for every n there are inputs that take n*n steps (a host name of n distinct non-ASCII characters, or n letters followed by n insertions in front of them). std::sort, reallocation of strings and the assertions are not counted."
  },
  {
   "property": "C56",
   "status": "proved",
   "theorems": [
    "C56_encode",
    "C56_decode",
    "C56_strong_refuted"
   ],
   "note": "C56_strong_refuted: what the store held before is lost. Asserts are taken to be on. The allocations that one label takes are one step in the model: between them the store is not touched."
  },
  {
   "property": "C57",
   "status": "proved",
   "theorems": [
    "C57_same",
    "C57_go_on",
    "C57_terminates",
    "C57_terminates_16_32",
    "C57_end",
    "C57_end_refuted",
    "C57_again",
    "C57_again_refuted"
   ],
   "note": "C57_end_refuted: until end_cp has returned, well_formed() is true for a text cut off. C57_again_refuted: a byte of UTF-8 cannot be passed again after an exception."
  },
  {
   "property": "C58",
   "status": "proved",
   "theorems": [
    "C58_encode",
    "C58_decode",
    "C58_fixed",
    "C58_normal",
    "C58_twice_refuted"
   ],
   "note": "C58_twice_refuted: neither encoding nor decoding is idempotent."
  },
  {
   "property": "C59",
   "status": "proved",
   "theorems": [
    "C59_rules",
    "C59_split",
    "C59_split_reference",
    "C59_system_test_refuted"
   ],
   "note": "C59_system_test_refuted: the system test feeds URI-references to uri-split, which fails on relative ones."
  },
  {
   "property": "C60",
   "status": "proved",
   "theorems": [
    "C60_routes",
    "C60_fixed",
    "C60_returns",
    "C60_report"
   ],
   "note": ""
  },
  {
   "property": "C61",
   "status": "proved",
   "theorems": [
    "C61_most",
    "C61_least",
    "C61_most_attained",
    "C61_least_attained"
   ],
   "note": ""
  },
  {
   "property": "C62",
   "status": "proved",
   "theorems": [
    "C62_order",
    "C62_order8",
    "C62_utf16",
    "C62_utf16_refuted"
   ],
   "note": "C62_utf16_refuted: U+FFFF sorts after U+10000 in UTF-16 (a fact about UTF-16, not a defect of the code)."
  },
  {
   "property": "C63",
   "status": "proved",
   "theorems": [
    "C63_local",
    "C63_authority",
    "C63_origin",
    "C63_one",
    "C63_parts",
    "C63_no_authority_refuted"
   ],
   "note": "C63_no_authority_refuted: the text composed from a join result without authority can have an origin that neither input named."
  },
  {
   "property": "C64",
   "status": "proved",
   "theorems": [
    "C64_directory",
    "C64_text",
    "C64_exact",
    "C64_pathname",
    "C64_escape_refuted"
   ],
   "note": "C64_escape_refuted: %2e%2e and %2F in a reference lead out of the directory once decoded. The base with a single path segment is covered by C64_text only (its segment stays, C13_one_segment_base)."
  },
  {
   "property": "C65",
   "status": "proved",
   "theorems": [
    "C65_step",
    "C65_copy",
    "C65_copy_exact",
    "C65_copy_longer",
    "C65_copy_refuted"
   ],
   "note": "C65_copy_refuted: std::copy over the same string turns %41BC into A41BC."
  },
  {
   "property": "C66",
   "status": "proved",
   "theorems": [
    "C66_behind",
    "C66_any",
    "C66_utf8",
    "C66_well_formed8",
    "C66_utf8_refuted"
   ],
   "note": "C66_utf8_refuted: ill-formed UTF-8 whose repaired text has room in the array still overruns it."
  },
  {
   "property": "C67",
   "status": "proved",
   "theorems": [
    "C67_bad_input",
    "C67_too_large",
    "C67_overflow",
    "C67_parts",
    "C67_first_unique",
    "C67_codes",
    "C67_messages"
   ],
   "note": "Texts and hosts shorter than 2^32 characters. The converse of C67_overflow does not hold in that form: a number still growing is reported when it leaves 64 bits or when it is complete, so an invalid digit may come first."
  },
  {
   "property": "C68",
   "status": "proved",
   "theorems": [
    "C68_decode",
    "C68_no_new_ascii",
    "C68_utf8",
    "C68_back",
    "C68_encode_normal",
    "C68_distinct",
    "C68_alike_refuted",
    "C68_twice_refuted"
   ],
   "note": "C68_alike_refuted, C68_twice_refuted: hosts not of the form that encode writes may be shown as other hosts, or as hosts to be decoded again."
  },
  {
   "property": "C69",
   "status": "proved",
   "theorems": [
    "C69_insert",
    "C69_watched",
    "C69_quiet",
    "C69_bad_stream",
    "C69_authority",
    "C69_compose",
    "C69_out_of_memory",
    "C69_compose_refuted",
    "C69_repaired",
    "C69_as_C42"
   ],
   "note": "C69_compose_refuted: compose returns a truncated URI when its string stream runs out of memory; C69_repaired is the code with the mask set. Whether the path's string and the result find memory are parameters."
  },
  {
   "property": "C70",
   "status": "proved",
   "theorems": [
    "C70_well_formed",
    "C70_bytes_partial",
    "C70_bytes_well_formed",
    "C70_bytes_mark",
    "C70_bytes_empty",
    "C70_bytes_le16_then_zero",
    "C70_bytes_le32",
    "C70_half_unit_refuted"
   ],
   "note": "C70_half_unit_refuted: half a code unit is seen by neither partial() nor well_formed(). partial() of the nine other transcoders is C38. Inputs on which C30 found the byte transcoder to depart have their own theorems (C70_bytes_le16_then_zero, C70_bytes_le32)."
  },
  {
   "property": "C71",
   "status": "proved",
   "theorems": [
    "C71_same_split",
    "C71_same_split_reference",
    "C71_same_valid",
    "C71_split",
    "C71_split_reference",
    "C71_valid",
    "C71_any_grammar_refuted"
   ],
   "note": "C71_any_grammar_refuted: the rule library does not memoise, so the bound is a property of the URI grammar only. Not counted: elements moved when a std::vector grows, and destruction."
  },
  {
   "property": "C72",
   "status": "proved",
   "theorems": [
    "C72_split",
    "C72_split_reference",
    "C72_join",
    "C72_same_answer",
    "C72_valid",
    "C72_split_enough",
    "C72_split_reference_enough",
    "C72_join_enough",
    "C72_split_segments",
    "C72_split_reference_segments",
    "C72_rejected_segments",
    "C72_remove_dot_segments",
    "C72_remove_dot_segments_no_memory"
   ],
   "note": "Requests are those of std::vector (acceptors, segments) with their sizes; merge() is one request for its final size instead of several growing ones; a std::function made from one of uri.cpp's function objects counts as part of its vector."
  },
  {
   "property": "C73",
   "status": "proved",
   "theorems": [
    "C73_base",
    "C73_one_place",
    "C73_equal",
    "C73_base_well_formed",
    "C73_resume",
    "C73_equal_well_formed",
    "C73_resume_refuted",
    "C73_pair_refuted"
   ],
   "note": "C73_resume_refuted and C73_pair_refuted: where UTF-16 input is ill-formed. base() is modelled as an offset; operator== compares the iterators into the input, as in C45."
  },
  {
   "property": "C74",
   "status": "proved",
   "theorems": [
    "C74_matching",
    "C74_determined",
    "C74_ends",
    "C74_parse",
    "C74_matching_history",
    "C74_actions",
    "C74_any_point",
    "C74_failed",
    "C74_star_calls",
    "C74_pure",
    "C74_star_calls_refuted"
   ],
   "note": "C74_star_calls_refuted: star(f,0,2) calls f a third time and drops its match. Function objects are taken to be the same object at each call (a copy per call, as for functions passed by value, is a client whose answers depend on less). 2^32 or more repetitions of one star are C10_star_count_wraps."
  },
  {
   "property": "C75",
   "status": "proved",
   "theorems": [
    "C75_bytes",
    "C75_encode",
    "C75_decode",
    "C75_decode_total",
    "C75_round_trip",
    "C75_narrow",
    "C75_wide_refuted"
   ],
   "note": "C75_wide_refuted: characters of 256 or more lose their high bits. Nothing in the library itself calls pctencode with wider characters."
  },
  {
   "property": "C76",
   "status": "proved",
   "theorems": [
    "C76_shown",
    "C76_lost",
    "C76_text",
    "C76_one",
    "C76_single_pass_refuted"
   ],
   "note": "C76_single_pass_refuted: the last code point is not shown (F37). The model is for iterators that are at the end when the shared source is; std::istream_iterator, which keeps its own value, behaves as in C31."
  },
  {
   "property": "C77",
   "status": "proved",
   "theorems": [
    "C77_split",
    "C77_split_reference",
    "C77_join",
    "C77_valid",
    "C77_plain",
    "C77_drive",
    "C77_cases",
    "C77_never_absolute",
    "C77_confined",
    "C77_server",
    "C77_from_root",
    "C77_drive_refuted"
   ],
   "note": "C77_drive_refuted: drives in segments (F38). std::filesystem::path on Windows is modelled from the standard and the documented root names; narrow characters are taken as they are."
  },
  {
   "property": "C78",
   "status": "proved",
   "theorems": [
    "C78_settled",
    "C78_text",
    "C78_chain",
    "C78_rooted",
    "C78_continues_rooted",
    "C78_continues",
    "C78_refuted"
   ],
   "note": "C78_refuted shows that the conditions are needed; the failure for a first reference of one relative segment is a consequence of F5. Strict resolution; the equation is between parts objects."
  },
  {
   "property": "C79",
   "status": "proved",
   "theorems": [
    "C79_complete",
    "C79_cut_off",
    "C79_from_copy",
    "C79_never_wrong",
    "C79_stuck",
    "C79_again_refuted",
    "C79_pct_kept",
    "C79_pct_again",
    "C79_pct_cut_off",
    "C79_encode_cut_off",
    "C79_encode_complete"
   ],
   "note": "C79_again_refuted: an iterator of transcode_view whose ++ threw can only be thrown away (F39). An operation on the source that throws is taken to leave the source's iterator where it was; comparisons, copies, std::distance and std::advance are taken not to throw."
  },
  {
   "property": "C80",
   "status": "proved",
   "theorems": [
    "C80_split",
    "C80_split_reference",
    "C80_authority",
    "C80_scanners",
    "C80_characters",
    "C80_URI",
    "C80_relative",
    "C80_accepted"
   ],
   "note": "C80_ex_rejected: a@b@c, a:1:2 and backslashes, over which programs disagree, are rejected. The regular expression is given the semantics of a backtracking matcher; POSIX's longest match finds the same for this expression, which is not proved."
  },
  {
   "property": "C81",
   "status": "proved",
   "theorems": [
    "C81_split",
    "C81_split_reference",
    "C81_valid",
    "C81_join",
    "C81_undefined",
    "C81_ascii",
    "C81_ascii_join",
    "C81_ascii_valid"
   ],
   "note": "The locale is one that satisfies SpecLocale.usable, as in C54; loop bounds other than 2^32 (a 16-bit unsigned int) are not considered."
  },
  {
   "property": "C82",
   "status": "proved",
   "theorems": [
    "C82_encode",
    "C82_encode_text",
    "C82_decode",
    "C82_decode_text",
    "C82_valid",
    "C82_hidden_refuted",
    "C82_scheme_refuted"
   ],
   "note": "join works on the components' texts; that the views join returns show them is C41. The bounds on sizes are those of C26 (proper); the _text theorems have none."
  },
  {
   "property": "C83",
   "status": "proved",
   "theorems": [
    "C83_nothing",
    "C83_scheme",
    "C83_origin",
    "C83_directory",
    "C83_query",
    "C83_fragment",
    "C83_credentials",
    "C83_fragment_text",
    "C83_query_text",
    "C83_refuted"
   ],
   "note": "For texts, the last segment is not treated (C83_directory is about parts)."
  },
  {
   "property": "C84",
   "status": "proved",
   "theorems": [
    "C84_round_trip",
    "C84_never_fails",
    "C84_one_layer",
    "C84_settled",
    "C84_too_often_refuted"
   ],
   "note": "Each call may use any views that show the parts and any other store (SpecLayers.encode_call); the sizes are those of C26 (proper)."
  },
  {
   "property": "C85",
   "status": "proved",
   "theorems": [
    "C85_split",
    "C85_split_reference",
    "C85_valid",
    "C85_compose",
    "C85_normalise",
    "C85_apart",
    "C85_join",
    "C85_join_nonstrict",
    "C85_nonstrict_refuted",
    "C85_path",
    "C85_pctencode",
    "C85_pctdecode",
    "C85_escapes",
    "C85_punycode_encode",
    "C85_punycode_decode",
    "C85_encode",
    "C85_decode",
    "C85_decode_fails",
    "C85_ace_refuted"
   ],
   "note": "No condition on length or bytes for the parser: undefined behaviour and divergence are the same for both texts too (SpecCase.same_answer)."
  },
  {
   "property": "C86",
   "status": "proved",
   "theorems": [
    "C86_split",
    "C86_split_reference",
    "C86_host",
    "C86_any",
    "C86_userinfo_refuted"
   ],
   "note": "Stated against the RFC 3986 components (SpecParts.comps). The IPv4 restriction of C02 is inherited by beginnings (unambiguous_prefix)."
  },
  {
   "property": "C87",
   "status": "proved",
   "theorems": [
    "C87_tail",
    "C87_fragment",
    "C87_segment",
    "C87_root_refuted"
   ],
   "note": "The conditions on s are stated on the parts that split returns for it."
  },
  {
   "property": "C88",
   "status": "proved",
   "theorems": [
    "C88_network",
    "C88_root",
    "C88_from_here",
    "C88_from_host",
    "C88_from_scheme",
    "C88_query",
    "C88_fragment",
    "C88_empty",
    "C88_absolute",
    "C88_itself",
    "C88_beginnings",
    "C88_one_segment_refuted",
    "C88_itself_loose_refuted"
   ],
   "note": "The one-segment base is F5 (C88_one_segment_refuted); without strict a base joined with itself doubles its directory (C88_itself_loose_refuted)."
  },
  {
   "property": "C89",
   "status": "proved",
   "theorems": [
    "C89_punycode",
    "C89_punycode_alike",
    "C89_tidy",
    "C89_host",
    "C89_host_alike",
    "C89_tidy_normal"
   ],
   "note": "Excluded are hosts whose text goes away altogether (xn--, xn---) and labels whose ASCII text begins with xn-- again (C68_twice_refuted, C89_ex_again)."
  },
  {
   "property": "C90",
   "status": "proved",
   "theorems": [
    "C90_join",
    "C90_joins",
    "C90_layers",
    "C90_layers_sets",
    "C90_encode",
    "C90_decode"
   ],
   "note": "The factors 1, 3 (2n+1) and the extra character are reached; 26 is an upper bound only."
  },
  {
   "property": "C91",
   "status": "proved",
   "theorems": [
    "C91_split_never_crashes",
    "C91_split_never_crashes_refuted",
    "C91_split_compose_equal",
    "C91_pctdecode_never_crashes",
    "C91_pctencode_round_trip",
    "C91_punycode_never_crashes",
    "C91_punycode_encode_decode",
    "C91_punycode_decode_encode",
    "C91_compose_valid_refuted",
    "C91_compose_valid",
    "C91_condition",
    "C91_encode_decode"
   ],
   "note": "Two of the tests assert what is false: EncodeAndComposeValidAlwaysAgree (C91_compose_valid_refuted, finding F46) and, where char is signed, UriSplitNeverCrashes (C91_split_never_crashes_refuted, finding F3). The exact condition for the former is proved."
  },
  {
   "property": "C92",
   "status": "proved",
   "theorems": [
    "C92_split",
    "C92_split_reference",
    "C92_join",
    "C92_valid",
    "C92_least",
    "C92_star",
    "C92_grammar"
   ],
   "note": "Calls are counted, not bytes of stack; calls inside the standard library are not counted (std::function, std::for_each)."
  },
  {
   "property": "C93",
   "status": "proved",
   "theorems": [
    "C93_encode_returns",
    "C93_encode_throws",
    "C93_encode_destination",
    "C93_encode_memory",
    "C93_encode_source",
    "C93_decode_returns",
    "C93_decode_memory",
    "C93_decode_memory_exact",
    "C93_decode_source",
    "C93_decode_silent"
   ],
   "note": "Dereferencing and moving the source's iterator count as one reading. A string that grows may throw at each growth, whatever its capacity."
  },
  {
   "property": "C94",
   "status": "proved",
   "theorems": [
    "C94_encode_returns",
    "C94_encode_source_fails",
    "C94_encode_destination_fails",
    "C94_encode_room",
    "C94_encode_broken_off",
    "C94_encode_string",
    "C94_decode_string",
    "C94_string_returns",
    "C94_needs_encoding",
    "C94_needs_decoding"
   ],
   "note": "Dereferencing and moving the source's iterator count as one reading. A string that grows may throw at each growth, whatever its capacity; the readings of the string that pctdecode is given cannot throw and are left out. The part on broken-off encodings needs a set other than none (see C15)."
  },
  {
   "property": "C95",
   "status": "proved",
   "theorems": [
    "C95_pctdecode_view",
    "C95_pctdecode_view_needed",
    "C95_pctdecoder",
    "C95_transcode_view",
    "C95_transcode_view_needed",
    "C95_copy_refuted"
   ],
   "note": "The texts lie outside the views (string_view, ref_view, span), are not changed and outlive them. Values are read as soon as an iterator is dereferenced; how long references last is C44 and C45. Views that own their text, and moved-from views, are not modelled. For transcode_view a loop from one view's begin to its copy's end is refuted (F47)."
  },
  {
   "property": "C96",
   "status": "proved",
   "theorems": [
    "C96_same_result",
    "C96_linear",
    "C96_no_dots",
    "C96_moved",
    "C96_shape",
    "C96_chain_result",
    "C96_chain",
    "C96_texts",
    "C96_chain_reached"
   ],
   "note": "Counted are the comparisons of a segment with a dot segment and the writes of segments (string_view objects). Moves of a std::vector that grows and the copies of the six other fields (a constant number for each join) are not counted. The work of splitting the texts is C40 and C71. The shape theorem is for strict resolution, because otherwise the schemes are compared."
  },
  {
   "property": "C97",
   "status": "proved",
   "theorems": [
    "C97_mapping_unique",
    "C97_component",
    "C97_exact",
    "C97_host",
    "C97_iri",
    "C97_text",
    "C97_refuted"
   ],
   "note": "ToASCII is without Nameprep (the code has none). IRIs with escapes and userinfos with ':', ';' or '=' are covered by C97_component and C97_exact (the result is then not RFC 3987's: F48, C97_refuted); hosts with labels that begin with xn-- are C31's."
  },
  {
   "property": "C98",
   "status": "proved",
   "theorems": [
    "C98_text",
    "C98_escaped",
    "C98_same",
    "C98_loop",
    "C98_loop_escaped",
    "C98_report_refuted",
    "C98_component",
    "C98_parts"
   ],
   "note": "Arrays (contiguous, common ranges) at the bottom. The lower view's own well_formed() cannot be asked for without copying the view (base()) and is not modelled. pctdecode_view on top of a transcode_view or of another pctdecode_view does not compile (it asks for pos + 1)."
  },
  {
   "property": "C99",
   "status": "proved",
   "theorems": [
    "C99_mapping",
    "C99_text",
    "C99_length",
    "C99_back",
    "C99_encode",
    "C99_parts",
    "C99_refuted"
   ],
   "note": "The host (Punycode), scheme and port are not compared; kept escapes are compared as they are written (no upper-casing)."
  }
 ]
}