# A Rocq model of paulhuggett/uri

## Layout (rocq/theories)

| files | content |
|---|---|
| `Base.v` | bytes, strings, the `outcome` monad (value / fault / out of fuel) |
| `Rfc3986.v`, `Spec*.v` | specifications, written from the standards and from the English properties, not from the code: ABNF and RFC 3986 App. A (`Rfc3986`, `SpecHost`, `SpecParts`, `SpecUri`), PEG semantics (`SpecPeg`), RFC 3986 5.2.2-5.2.4/5.3 (`SpecPath`), WHATWG percent-encode sets and percent-decoding (`SpecPct`), RFC 3492 (`SpecPuny`), Unicode UTF-8/16/32 (`SpecIcu`), encode/decode of whole parts (`SpecStore`, `SpecViews`), filesystem paths (`SpecFs`), places of views (`SpecPlaces`, `SpecJoinViews`), cursors (`SpecHist`), what was written (`SpecOut`), lines and reports (`SpecTool`), data races (`SpecConc`), edits (`SpecEdit`, `SpecSession`, `SpecLocale`) |
| `Model*.v` | the model of the code, one definition per C++ function, each with its file:line citation; no proofs.  `ModelRule` (rule.hpp, rule.cpp), `ModelUri` (uri.cpp), `ModelPct` (pctencode.*, pctdecode.hpp), `ModelAlgo` (find_last.hpp, starts_with.hpp), `ModelPuny` (punycode.hpp), `ModelIcu` (icubaby.hpp), `ModelParts` (parts.hpp, parts.cpp), `ModelFs` (conversion to std::filesystem::path), `ModelSpan` (rule.hpp and uri.cpp again, with views as (offset, length) and a step count), `ModelJoin` (join again, keeping the identity of views), `ModelStream` (operator<< and compose on a std::ostream), `ModelHist` (programs over many iterators of pctdecode.hpp and of transcode_view), `ModelInPlace` (results written over the input), `ModelOut` (icubaby::iterator), `ModelTool` (uri-split), `ModelConc` (threads over one view), `ModelEdit` (programs that assign to the members of parts), `ModelSession` (one transcoder used for several texts), `ModelLocale` (the parser under any locale), `ModelWork` (punycode.hpp and the host loops of parts.hpp again, counting), `ModelThrow` (the transcoders of icubaby.hpp again, writing to a destination that throws), `ModelSrcThrow` (the iterators of transcode_view and pctdecode.hpp, and pctencode, over a source that throws), `ModelCrash` (parts.hpp again, with allocations that fail), `ModelError` (punycode.cpp's error codes), `ModelParse` (the rules of uri.cpp as data, counting), `ModelAlloc` (the parser, valid and join where memory runs out), `ModelCalls` (rule.hpp with callbacks that have effects and throw), `ModelWide` (percent-encoding of wider characters), `ModelSingle` (transcode_view over single-pass ranges), `ModelWin` (conversion to std::filesystem::path on Windows), `ModelXStream` (the stream operators on streams that throw), `ModelStack` (the parser with its call depth), `ModelPunyIo` (punycode.hpp with what it does to the outside), `ModelPctIo` (percent-encoding likewise), `ModelViews` (programs over many views and their iterators), `ModelJoinWork` (join again, counting), `ModelPipe` (transcode views on top of other views), `AbnfText` (systemtests/uri.abnf, verbatim) |
| everything else | proofs (`Peg*`, `Uri*`, `RuleFacts`, `Path*`, `Join*`, `Pct*`, `Puny*`, `Icu*`, `Parts*`, `Fs*`, `Span*`, `PlacesFacts`, `WorkFacts`, `StreamFacts`, ...) |
| `PropSplit`, `PropRule`, `PropPath`, `PropPct`, `PropPuny`, `PropIcu`, `PropParts`, `PropFs`, `PropSpan`, `PropStream`, `PropSend`, `PropHist`, `PropOut`, `PropTool`, `PropResolve`, `PropLocal`, `PropConc`, `PropEdit`, `PropSession`, `PropLocale`, `PropWork`, `PropCrash`, `PropThrow`, `PropPieces`, `PropAbnf`, `PropRoute`, `PropConfine`, `PropInPlace`, `PropError`, `PropIdn`, `PropXStream`, `PropMid`, `PropParse`, `PropMerge`, `PropAlloc`, `PropBase`, `PropCalls`, `PropWide`, `PropSingle`, `PropWin`, `PropSteps`, `PropSrc`, `PropRegex`, `PropPort`, `PropCommute`, `PropInfluence`, `PropLayers`, `PropCase`, `PropCut`, `PropContinue`, `PropWritten`, `PropAlike`, `PropLength`, `PropFuzz`, `PropStack`, `PropPunyIo`, `PropPctIo`, `PropViews`, `PropJoinWork`, `PropIri`, `PropPipe`, `PropBack` | only the property theorems, each with `Print Assumptions` and a concrete case meeting its hypotheses; `_refuted` theorems where a stronger statement one might expect is false of the code |
| `TestRepo`, `TestMore` | the project's unit tests, evaluated in the model |

`tools/gen_props.py` and `tools/gen_manifest.py` write properties.jsonl and MANIFEST.json.

## Modelling conventions

* A `char` is an `ascii` (a byte); a `std::string`/`string_view` is the `list ascii` of its contents.
  Where the identity of a view matters (C25) views are (buffer, offset, length) triples.
* Undefined behaviour, exceptions and failed asserts are distinct outcomes (`Fault f`).  In
  particular the calls `std::isalpha (static_cast<int> (c))` etc. have a domain check: with a signed
  `char` the bytes 0x80..0xFE are negative, not EOF, and the call is undefined.  Signedness of
  `char` is a parameter (`sg`) of the model.
* Loops whose termination is not structural take a fuel argument; running out is the outcome
  `Diverge`, never a normal-looking value.  Theorems say how much fuel is enough.
* `unsigned` and `size_t` arithmetic that could wrap (the `count` of `rule::star`, everything in
  punycode) is written with explicit `mod 2^32` / `mod 2^64`.
* The "C" locale is assumed for `<cctype>`.
* `std::vector`, `std::optional`, `std::function`, `std::string`, iostream insertion of string views
  and `std::filesystem::path` (POSIX flavour) are modelled by their standard semantics; memory
  exhaustion is modelled where C56, C57, C69 and C72 say so and excluded elsewhere.

## Properties

For each property: what is modelled, and the proof.

* **C01, C02, C04** rule.hpp, rule.cpp and all grammar functions of uri.cpp are modelled literally
  (shallow embedding: `rule` is a record of tail and acceptors; a match function is a function
  from rule to outcome).  Each is proved equal to a pure PEG parser; PEG parsers are proved sound and
  complete against the RFC 3986 ABNF (`Rfc3986.v`: an ABNF syntax, its denotation, and the
  transcription of Appendix A), giving `split s = Some p <-> decomposition s p /\ host unambiguous`.
  The full C02 is false (F1) and is refuted with witnesses.
* **C03, C05, C06, C07** follow from the two directions plus reasoning on compose.
  C05 is false as stated (F2); proved for canonical parts.
* **C08** the outcome monad: no fault except the ctype domain one, and that one only for a signed
  char and a byte 0x80..0xFE; no divergence given fuel > length (no grammar star has a nullable body).
* **C09, C10** generic theorems about the combinators for arbitrary match functions.
* **C11, C12** the in-place loop of remove_dot_segments, its stack-machine reading; RFC 5.2.4 string
  algorithm as spec.  C12 is false in corner cases (F4).
* **C13, C14** join/merge against RFC 5.2.2/5.2.3 pseudo code.  C13 is false because of merge (F5). `JoinExact.v` turns the two exclusions into an equivalence (`join_agrees`, SpecMerge.v): scheme, authority, query and fragment always agree, so that everything turns on the path; a kept first segment makes the text longer, which only a path of slashes can make up for.
* **C15 - C18** pctencode/needs_pctencode/pctdecode (iterator, view, string function).
* **C19 - C21** punycode encode/decode with 64-bit arithmetic.
* **C22, C23, C29, C36, C38** the icubaby transcoders as state machines (`ModelIcu.v`: every class template
  specialisation of icubaby.hpp, with the DFA table); proved equal, for every input, to the relations
  `reads8/16/32` ("what this sequence of units stands for") and `text form` of `SpecIcu.v`, which are
  written from chapter 3.9 of the Unicode Standard.
* **C30** the byte transcoder with its packed state; **C31** the transcode view with its fixed buffer (a
  write past it is a fault); **C37** length and index.
* **C24 - C26** parts.hpp two-pass encode/decode with the store as an explicit buffer with capacity and an
  allocation counter: a view is null, the caller's, or (allocation, offset, length) in the store, and reading
  one of an older allocation is a fault.  The growth policy is any function.  The text of every component is
  characterised by `encoded`/`decoded` of `SpecStore.v`.
* **C27, C28** operator==, find_last, starts_with.
* **C32** string form and POSIX filesystem path model (`operator/` of std::filesystem::path).
* **C33, C34, C35** consequences of the above that need their own proofs: validity of join, languages of the
  percent-encode sets, uniqueness of the Punycode text.
* **C39** a second model of the parser in which a view is a place; a simulation (`SpanSim`, `SpanUri`) with the
  first model, then a location argument; `placed` (SpecPlaces.v) pins the places down uniquely (C39_unique).
* **C40** the same model with a step counter; cost bounds by induction over the combinators.
* **C41** join over an arbitrary type of views, proved parametric: only views of the arguments come out.
* **C42** a model of std::ostream (width, fill, adjustment, a buffer that may stop accepting), the insertion
  operators on it, against the text of compose.
* **C43** the composition encode -> compose -> split -> decode, from C05, C07, C24 and C34; which texts survive is
  `sendable` of `SpecSend.v`, written in terms of forbidden characters.
* **C44, C45** a machine with iterator objects (identity, lifetime), references into the range or into an iterator
  object, and the view's mutable flag, for an arbitrary class of iterators; a simulation by cursors (`HistFacts`)
  instantiated for the two classes.
* **C46** the same for the output iterator: all copies share the transcoder, each has its own position.
* **C47** getline, std::quoted, the report and main's control flow; the set of accepted lines comes from C01/C02.
* **C48** the model of C13/C14 and C05; the path whose dots are resolved is described in `SpecResolve` from RFC 5.2.2/5.2.3 and the finding of C13, and the length bound turns the size hypothesis into one about the inputs.
* **C49** from C27's description of ==, by cases of join.
* **C50** from the descriptions of C22, C29 and C36 (`reads8`, `reads16`, `reads32`) by induction on how the text is read.
* **C51** the machine of C44/C45 with one store of shared iterators and a private one per thread, run over any
  interleaving and recording accesses to shared memory; the simulation by cursors holds for every thread at once.
* **C52** programs of assignments to the public members of parts; well-formedness is an invariant of them, the rest is C05 and a closed form of compose.
* **C53** `session`: feed and end_cp for each text in turn on one state (`ModelSession`), against a fresh transcoder per text (`SpecSession`, `SpecLocale`); a relation between the used and the fresh state is kept by every call, and a "stuck" state of the UTF-8 transcoder is described by the texts `seen`.
* **C54** the grammar of `ModelUri` again, with the <cctype> functions of a locale (`ModelLocale`); in the C locale the two are convertible. Every matcher commutes with replacing the locale's letters beyond ASCII by g, by a relation that all combinators keep.
* **C55** `ModelWork`: the functions of `ModelPuny` and the host loops of `ModelParts` with counters; forgetting them gives the functions of C19-C26 back (C55_same_*, C55_host_*). Counts by induction over the loops; the passes over the range are the distinct non-ASCII code points, so the count is exact; two families of inputs show that the square is reached.
* **C56** `ModelCrash`: encode and decode in a monad that counts allocations down and raises an exception carrying the store; for any number of allocations per label and per copy of the parts. Each function "is good": it gives the result of `ModelParts` once enough allocations succeed and otherwise an exception with a store that is untouched or a beginning of the final text. That a second call succeeds alike: encode and decode do not depend on what the store holds (`CrashSame`).
* **C57** `ModelThrow`: the twelve transcoders as sequences of member writes and assignments through dest, each of which may throw; noexcept functions turn an exception into termination. Without a refusal they are the transcoders of `ModelIcu` (C57_same); the rest is by induction over the units.
* **C58** the functions of C15-C18; an escape across a cut makes the decoded whole shorter than the decoded pieces together, so the condition is exact.
* **C59** the text of systemtests/uri.abnf is read by a reader for ABNF (`SpecAbnf`, executed in the kernel); the language of a rule is an inductive derivation relation, which equals the language of its expansion when names are unique and not recursive; the expansions are those of `Rfc3986` up to association of concatenations. This also ties the specification used by C01-C08 to a text that can be compared with the RFC by eye.
* **C60-C62** `transcode` of C22/C29; each transcoder is characterised by "reads as code points" and "is the form of code points" (`converts`), from which routes, sizes and order follow by induction over the reading.
* **C63** texts only: `origin` and `local_reference` (`SpecConfine`) are defined on characters; cutting a text at the first `:` and the first of `/?#` is unique, so the grammar's decomposition and the text's origin agree.
* **C64** `inside` is dot resolution that never meets an empty stack; the stack reading of C11 then commutes with putting the directory below it. The file name is C26 (decode) followed by C32.
* **C65** `ModelInPlace` runs the iterators of pctdecode.hpp over a string which they also write: `copy_in_place` in the order of `std::copy` (write, then increment), `step_in_place` in the order of `*out++ = *it++`. `SpecInPlace.garbled` says what the first makes of a text; both loops are run by induction over `decodes`/`garbled` with the memory split in written, passed and unread.
* **C66** the same for a transcoder of equal source and destination type; the invariant is written ++ untouched tail, as long as no more is written than read (C61 gives this for UTF-16 and UTF-32, the decoder's pending bytes for well-formed UTF-8). For UTF-8 a second invariant (the unread part of what was written is a suffix of U+FFFD forms) shows that a writer that gets ahead runs to the end of the array.
* **C67** `ModelError` has the error codes of punycode.cpp; `SpecError` says what a text stands for over unbounded integers. Induction over the digits of a number (`PunyErr.vli_error`: an error in the middle of a number means that no number begins there, or that the number so far, closed by the digit 0, is beyond 64 bits; the second overflow check of decode_vli is shown unreachable on the way), then over the numbers of the text, then over the labels of the host and the components of the parts.
* **C68** `SpecIdn`: what may be shown for a label and for a host, and the hosts as encode writes them. From C26 (the result is the decoding of the host), by induction over RFC 3492 decodings (only code points from U+0080 on are inserted), over UTF-32 and UTF-8 texts (ASCII goes through unchanged, everything else into bytes of 0x80 and more) and over labels; the way back from the uniqueness of Punycode (C35).
* **C69** `ModelXStream` runs the insertion operators over an arbitrary stream buffer (a function that takes part of a text and may throw), any exceptions() mask and any library choice of error bits, and compose over a std::stringbuf with an arbitrary schedule of refused memory requests, growth policy and limit. `SpecXStream` says what is assumed of buffers and libraries. Induction over the pieces that are written; C42 is recovered as the case without exceptions (C69_as_C42).
* **C70** No new model. well_formed() never becomes true again (`sticky`), so a well-formed continuation forces it; conversely from each state of the UTF-8 table that is reached there is a completing tail (`tail8`, finite table) and a high surrogate is completed by DC00. The byte transcoder is simulated by one whose end_cp does nothing and whose well_formed() is the answer asked for, which reduces the question to C30's equations.
* **C71** C40 bounds the sum of all steps by one large constant; here each kind of work is bounded by itself, with the constants that the grammar itself yields. `ModelParse.v` has the rules of uri.cpp as data (`gram`), with the meaning they have in ModelUri.v (`uri_is : URI sg fuel = run sg fuel Uri` holds by reflexivity) and a meaning that counts (`run_w`). An attribute is computed for each rule (maximal length if any, whether it can be empty, affine bounds of its cost when it matches and when it fails, number of acceptors) and proved sound by induction over the grammar (`analysis`); a repetition costs at most what its body costs per character, because a body that matches is not empty and a failing attempt is paid once. The constants of the theorems are the attributes of the start rules, computed. Contrast: a grammar of size k with exactly 2^k tests.
* **C72** `ModelAlloc.v` interprets the rules of ModelParse.v in a monad with an arbitrary allocator `alloc : request -> Mem -> option Mem` (any state, any policy) that is asked for each non-empty vector; None is bad_alloc and ends everything. `same` (AllocFacts) relates every function to the one without allocator; `plain` grammars (AllocQuiet) never have a non-empty vector, which covers all that valid() calls; AllocSize bounds each request by the number of acceptors copied, hence by C71's linear bound. AllocSegs follows the vector of segments through the actions: room for the segments of the result is enough and needed.
* **C73** `ModelHist.v` has base () (an offset in the input) and the iterator after i increments. `SpecBase.v` says which place belongs to the i-th unit of the output by what a new transcoder has written after each prefix of the input, without reference to the view's buffer. `BaseFacts.v` proves it by an invariant over the fills of the buffer (what had been written before it, and that no earlier prefix had written as much); `BaseText.v` derives the start of the code point where the input is well-formed from an exactness property of each transcoder (a code point's form writes just that code point's output, its strict prefixes write nothing). == is then a relation on places: `BaseFacts.run_as` extends the simulation of C45 to programs that compare any two iterators.
* **C74** `ModelCalls.v` is rule.hpp/rule.cpp once more, over a state: each call of a client's function takes the state and gives an answer or an exception and a new state; the state is the list of all calls so far, and a client answers as a function of it, which covers every stateful client. `SpecCalls.v` is a big-step semantics of grammars (`eval`: history before, text, outcome, history after; `performs` for actions). Proved by induction over `eval` (the code does what it says, `CallFacts`; it is a function, every prefix of its history is free of exceptions, a client that throws at call n cuts the history there, `CallMore`) and over the grammar and the text (`CallTotal`, it exists). `C74_pure` ties the model to `ModelRule.v`.
* **C75** `ModelWide.v` is the templates of pctencode.hpp and pctdecode.hpp with a character as its number (any width) and the conversions that the code makes: to uint_least8_t for the table, to the output's character type at each assignment. `SpecWide.v` restates decoding over numbers. `WideFacts.v`: encoding is a concatenation of pieces, decoding undoes each piece up to the bits it lost; `C75_bytes` ties both to `ModelPct.v`.
* **C76** `ModelSingle.v` has the view's functions of `ModelIcu.v` with the one difference that a shared source makes: the comparison with the end asks a copy of `next_` that sees the source as `next_` left it. `SingleFacts.v` follows the fills as `IcuView.v` does: a fill that reached the end of the source is never shown, the others end at the unit that wrote something, so together they show `feed` over all units but the last. For well-formed text the three decoders are run over a code point without its last unit (nothing written), and lifted through the triangulators.
* **C77** `ModelWin.v` is the same conversion as `ModelFs.v` over a model of `std::filesystem::path` on Windows (root names, root directories, operator/= of the standard). `WinFacts.v` keeps the invariant that what has been appended so far is a drive or nothing, a root only without a drive, and names; `cases` splits any list of segments at its last change of drive, so `C77_plain` and `C77_drive` together are exact. `WinUri.v`: the grammar keeps separators out of segments. Decoded segments may contain separators: `C77_server` and `C77_from_root`.
* **C78** No new model: `join_parts` of `ModelUri.v`. `StepsFacts.v`: removing dot segments is a stack machine (`stk`), so it may be run on a prefix first (`rds_left`), and on a suffix first if that never pops more than it pushed (`rds_right`); then the five kinds of references case by case. `StepsText.v` reads the kind off the text through the grammar.
* **C79** `ModelSrcThrow.v`: `fill`, `increment`, `deref` and `pctencode` once more, where each operation on the source consults an oracle and an exception leaves the members as assigned so far. Without an exception each call is the one of `ModelIcu.v` and `ModelPct.v` (`next_cases`, `deref_cases`, `incr_cases`), so a retry from a copy follows the fault-free run (`SrcThrowFacts.v`, `SrcThrowPct.v`); `SrcThrowExact.v` counts the operations (two for each unit) to say exactly what has been seen at the first exception.
* **C80** `SpecRegex.v` has regular expressions with groups (`run` lists the matches in the order a backtracking matcher tries them), Appendix B's expression, `sensible` ways to take an authority apart, and two scanners. RegexFacts matches the expression on a text given in pieces; RegexUri shows that every decomposition of C01/C04 is such a text; RegexAuth shows that `sensible` has one solution; RegexExact shows the scanners right, and that the pieces decide.
* **C81** From the exact characterisations (C01/C02, C04, C07) and totality (C08): two platforms that answer agree; with C54 for ASCII text in all locales.
* **C82** A relation between texts that keeps `.`, `..` and the empty segment apart is carried through remove_dot_segments, merge and join (`CommuteFacts`, by induction on the segments); `encoded` always is such a relation, `decoded` if no segment hides dots. With the exact characterisation of encode and decode (C26) this becomes an equation between the functions' results.
* **C83** Case analysis of join on parts; for texts the decomposition of C01 is cut at the first `?` or `#` and is unique (InfluenceFacts).
* **C84** Induction on the number of calls. Per component: with `%` in the set, decodes is the inverse of encodes (C15); otherwise encoded is idempotent and decoded is the identity. Lifted to parts by composition of `parts_rel` (LayersFacts).
* **C85** A simulation argument: every combinator of the parser maps related texts to related results (CaseFacts); compose, rds, join, percent-coding by induction (CaseUri), with composed texts of the same shape being equal only if the parts are; Punycode digits ignore case (CasePuny); UTF-8 and labels (CaseHost).
* **C86** From the characterisation of split by RFC decompositions (C01/C02/C04): each repetition of characters and escapes is closed under beginnings that cut no escape; paths, tails and hosts by cases (CutFacts). The converse: in every decomposition each percent sign is followed by two characters.
* **C87** From the characterisation of split by RFC decompositions: the place of the first ? or # in a text is determined, decompositions are unique (C02, C04), and a decomposition with another tail or one more segment is again one (ContinueFacts).
* **C88** From the characterisation of split by RFC decompositions: which decompositions a text that begins with / // ? # can have, how they change when a scheme, an authority or directories are written before it (WrittenFacts), and the five cases of join_parts (StepsFacts).
* **C89** From the relational RFC 3492 decoder (C21, C35): lowering the digits keeps every step of it, so the tidy text is the Punycode of the same code points, which is unique; the hosts follow label by label as in C68 (AlikeFacts).
* **C90** compose's length is a sum over the components (LengthFacts.compose_length); remove_dot_segments lowers both the number of segments and their total length; a relation that multiplies no component's length by more than k multiplies no URI's by more (parts_length); the layers by counting the bytes of the set, which an escape keeps at one; Punycode from the digit count of C55.
* **C91** the earlier theorems (C03, C08, C15, C18, C19–C21, C24, C89), and for the text of valid parts FuzzFacts.accepted_iff: a path that begins with // is read as an authority followed by the rest of the segments.
* **C92** ModelStack.v runs the grammar of ModelParse.v with the depth of the calls; erasing the depth gives the parser (StackFacts.drop_all), and the depth is bounded by a function of the grammar alone (StackFacts.below_all), by induction on the grammar.
* **C93** ModelPunyIo.v writes encode and decode as the list of what they do to the outside with their result; an arbitrary predicate on the history decides what throws. PunyIoFacts.encode_is and decode_is show that the results are those of ModelPuny.v.
* **C94** ModelPctIo.v writes the functions as the list of what they do to the outside with their result, in the vocabulary of ModelPunyIo.v (C93); PctIoFacts.history gives the history of an encoding in closed form, history_cut the places where it can be cut.
* **C95** ModelViews.v adds views with a lifetime to the iterators of ModelHist.v: an iterator holds the number of its view and asks it for the end. SpecLifetimes.v says what a program must see to. ViewsFacts.v: a simulation that uses the per-iterator lemmas of C44 and C45 for each text.
* **C96** ModelJoinWork.v is join, merge and remove_dot_segments with two counters; JoinWorkFacts.v: the counting functions compute what ModelUri's do (the pair is the result of ModelUri's function and a closed form of the counts), then induction over the segments and over the chain.
* **C97** SpecIri.v has the characters of RFC 3987 and its mapping as an inductive relation on code points; IriFacts.v relates it to the encoding relation of SpecStore.v by induction on the text, and uses C43's proofs (SendFacts.v: what is encoded can be sent as a text and decoded to the parts again).
* **C98** ModelPipe.v is transcode_view's iterator over any class of iterators; PipeFacts.v shows that it simulates the one over an array of what the lower view shows (induction over the fill loop), so that the laws of HistFacts.v go from the lower view to the upper one, and then by induction over the layers; C60 gives the direct conversion.
* **C99** SpecBack.v is section 3.2 as an inductive relation; BackFacts.v proves that it is a total function (from the prefix property of UTF-8 and decidability), counts the octets by induction along it against the decoding of SpecPct.v, and cuts a word of the RFC 3986 rule into its characters and escapes.

## Findings (places where the full property is false of the code)

See the `_refuted` theorems.

* F1 (C02, C07): `host` tries IPv4address before reg-name and commits to a prefix, so
  `http://1.2.3.256/`, `http://1.2.3.4.com/` (valid per RFC: reg-name) are rejected.
* F2 (C05): valid() parts need not survive compose/split: path beginning "//" without authority, empty
  first relative segment, absolute path without segments.
* F3 (C08): bytes 0x80..0xFE reach <cctype> functions as negative ints (undefined) when char is
  signed; `star` with a nullable body and default max never ends; `count` wraps at 2^32 matches.
* F4 (C12): "/a//." gives "/a/" (RFC "/a//"); relative "a/../b" gives "b" (RFC "/b").
* F5 (C13): merge does not drop the only segment of a one-segment base path:
  join("http://a/b","g") is "http://a/b/g" (RFC "http://a/g"). In particular a base with the path "/", perhaps the commonest base there is, gives http://a/ + g = http://a//g (`C13_root_base`).
* F6 (C15): with the `none` encode set '%' is not encoded, so decode does not invert encode.
* F7 (C17): the fragment set lacks '`'.
* F8 (C18): `iter_move` of the pctdecode iterator yields the raw byte.
* F9 (C21): punycode decode accepts surrogates and values above 0x10FFFF; a delimiter at position 0 is skipped.
* F10 (C22): a truncated multi-byte sequence swallows the following byte.
* F11 (C30): byte transcoder: end_cp emits an extra NUL; UTF-16LE BOM followed by a code unit with a zero low
  byte is taken for the start of something else; the top byte of UTF-32LE is lost.
* F12 (C31): transcode_view from bytes overruns its one-element buffer.
* F13 (C32): a decoded segment such as "/etc" makes the filesystem path absolute.
* F14 (C24 - C26): the encoded form of arbitrary (invalid) parts need not be valid(); a host "xn--" is returned as
  it is by decode; "XN--" is not recognised; an escape in scheme or port is decoded but never encoded; passing
  back the store that the views point into leaves them dangling.
* F15 (C42): a field width pads only the first piece written by operator<<.
* F16 (C44): the percent-decoding iterators keep the decoded byte in themselves: a reference from *it++ dangles and an
  older reference changes; writes to an escaped byte are lost and iter_swap exchanges raw bytes.
* F17 (C45): == of transcode_view's iterators compares only the place in the input, so different units of one code
  point compare equal; its references, too, are into the iterator.
* F18 (C46): postfix ++ of icubaby::iterator returns a copy, so `*out++ = u` into an array writes over itself.
* F19 (C48): the composed text of a join can have an authority although neither argument has one ("a:/x" + "/.//evil/y" gives "a://evil/y"; "file:/" + "etc/passwd" gives "file://etc/passwd").
* F20 (C51): const is not thread-safe: operator* const of a percent-decoding iterator at an escape writes hex_; begin() const
  and ++ of a transcode_view over ill-formed input write the view's well_formed_.
* F21 (C52): proper edits of a proper URI can give it another authority when composed: removing the authority in front of a
  path that begins with an empty segment, or adding a segment to the path "/".
* F22 (C53): end_cp of the UTF-8 transcoder leaves it in state reject after a truncated text (icubaby.hpp:877-884): it
  then swallows the first byte of the next text, each further end_cp writes another U+FFFD, and partial() stays true. The
  other transcoders can be reused; the one from bytes recognises a byte order mark only once.
* F23 (C54): std::isalnum/isalpha depend on the C locale: under ISO-8859-1 (char unsigned) split and valid() accept bytes such
  as E9 in scheme, host, path, query and fragment.
* F24 (C55): Punycode encode and decode of a label of n characters take n*n steps (RFC 3492's algorithm, but there is no limit on the
  length of a label, which DNS has).
* F25 (C57): operator() of the transcoders out of UTF-16, of those from UTF-32 to UTF-8 and UTF-16, and so of all that go through UTF-32,
  is declared noexcept although it writes through an arbitrary output iterator: a std::bad_alloc from back_inserter ends the program.
  Of the others, end_cp that throws leaves well_formed() true for a text that was cut off, and a byte of UTF-8 during which operator()
  threw cannot be passed again.
* F26 (C56): an exception from encode or decode loses what the store held (it is cleared first): basic guarantee only.
* F27 (C59): systemtests/test generates URI-references and gives them to uri-split, which takes only URIs: it fails on every relative reference.
* F28 (C64): `%2e%2e` is not treated as a dot segment by join (RFC 3986 6.2.2.2 and WHATWG would), so that decode after join gives paths that lead out of the base directory.
* F29 (C65, C66): `std::copy` of a percent-decoding range over its own string does not decode it (the increment reads the `%` again, which has been overwritten: `%41BC` becomes `A41BC`); repairing ill-formed UTF-8 in place overruns the array.
* F30 (C68): decode shows `xn--paypal-` as `paypal`, and `xn--tda`, `xn--TDA`, `xn---tda` all as the same text; `xn--xn--tda-` is shown as `xn--tda`, which decodes again.
* Without theorem: `pctdecode_view::sentinel::operator==` names a member `current_` that does not exist, so the view
  cannot be compared with its end over a range that is not a common_range.
* F31 (C69): compose (parts) uses a std::stringstream whose exceptions() mask is empty, so std::bad_alloc inside its buffer is swallowed and a truncated URI is returned: with libstdc++'s 15 inner characters, `http://good.com.evil.org/` becomes `http://good.com`. Setting the mask to badbit repairs it (C69_repaired).
* F32 (C70): the byte transcoder's partial() and well_formed() do not see half a code unit: after FE FF D8 00 00 well_formed() is true though nothing that follows can be well-formed text (and C30: end_cp drops the half unit silently).
* F33 (C71): the rule library re-parses on backtracking without memoising, so a grammar written with it (the class is in an installed header) can take time exponential in its size, on one character (`C71_any_grammar_refuted`). uri.cpp's own grammar is linear.
* F34 (C73): in ill-formed UTF-16, base () of a transcode view's iterator is not where the shown code point begins: over D800 D800 DC00 the iterator that shows U+10000 has base () = 2, between the two halves of its pair, and over D800 0041 the iterators that show U+FFFD and U+0041 have the same base () and compare equal (`C73_resume_refuted`, `C73_pair_refuted`).
* F35 (C74): star (f, min, max) checks the maximum after the call: f is called again after max matches and its match, with its actions, is dropped; an exception of that superfluous call fails the parse (`C74_star_calls_refuted`).
* F36 (C75): the template pctencode accepts characters wider than a byte but encodes only their low bytes: U+0125 becomes %25 (decoded: %), and written to a std::string U+012F becomes an unescaped / and U+0141 becomes A (`C75_wide_refuted`).
* F37 (C76): `transcode_view` requires only `std::ranges::input_range`, but keeps a copy of the iterator from before each code point and compares it with the end. Over `std::istreambuf_iterator` that copy is at the end once the stream is, so the last code point is never shown (`C76_single_pass_refuted`); `well_formed ()` still speaks of it. (Using the old copy of an input iterator is outside what the standard allows for input iterators in general.)
* F38 (C77): on Windows a URI segment that begins with a letter and a colon is taken for a drive by `path::operator std::filesystem::path`: file:///C:/Windows/x gives C:Windows\x (relative to the current directory of C:), and ./d:secret resolved against http://h/srv/www/ gives d:secret (`C77_drive_refuted`). No path ever becomes absolute (`C77_never_absolute`).
* F39 (C79): when reading the source throws inside `++` of a transcode_view iterator, the iterator has used up its buffered code point, has moved on in the source and in its transcoder, and still compares unequal to the end; `*` and `++` then fail their assertions (without them, a stale or out-of-range code unit is read) (`C79_stuck`, `C79_again_refuted`). Keeping a copy helps (`C79_from_copy`).
* F40 (C82): decode after join and join after decode differ for a reference with `%2e%2e` (`C82_hidden_refuted`): decoding a resolved URI can bring back dot segments. (Compare F28.)
* F41 (C84): a host with a label such as `xn--ü` is encoded and decoded once without loss, but decoding the result again fails (`C84_too_often_refuted`).
* F42 (C85): non-strict join compares the schemes letter by letter, so `HTTP:b` is not resolved against `http://h/a/c` although `http:b` is (`C85_nonstrict_refuted`); `XN--tda` is not decoded although `xn--tda` is (`C85_ace_refuted`).
* F43 (C86): the beginning of an accepted URI can have another host: `http://www.good.com@evil.com/` cut after `good.com` (`C86_userinfo_refuted`; a property of RFC 3986, not an error of the code).
* F44 (C87): `a:/` followed by `/b` is a URI with the host b (`C87_root_refuted`; RFC 3986 3.3, compare F19 and F21).
* F45 (C88): without strict, a URI joined with itself is not itself: `a:b/c` gives `a:b/b/c` (`C88_itself_loose_refuted`; RFC 3986 5.2.2 has the same effect).
* F46 (C91): the project's own fuzz test `EncodeAndComposeValidAlwaysAgree` asserts something false: the parts with scheme `a`, no authority and the absolute path with an empty segment and then `a:b` are `valid()`, but their text `a://a:b` is rejected by `split` (a port must be digits). Same cause as F2.
* F47 (C95): iterators of a transcode_view and of a copy of it never compare equal, so a loop from the begin of one to the end of the other runs past the end; those of pctdecode_view and pctdecoder do compare equal (`C95_copy_refuted`).
* F48 (C97): encode() escapes the "%" of escapes that are already in a component ("%41é" gives "%2541%C3%A9") and ":", ";" and "=" in a userinfo ("u:p" gives "u%3Ap"), so for an IRI with such characters the result is another URI than the one RFC 3987 3.1 assigns to it (`C97_refuted`).
* F49 (C98): with a transcode_view on top of another one `well_formed()` of the upper one is true for every input, malformed or not; what is malformed has been replaced below, where the flag belongs to a view that is out of reach (`C98_report_refuted`).
* F50 (C99): `decode` converts every escape, also those RFC 3987 3.2 keeps because converting them changes what the text means: the segment "a%2Fb" becomes "a/b" (`C99_refuted`).

## Trusted base

* Coq 8.16.1's kernel (and `vm_compute`, which it includes).
* Axioms: none.  `Print Assumptions` under every property theorem says "Closed under the global context".
  (Loading Lia/ssreflect brings the opaque module Coq.ssr.ssrunder into the environment, whose sealed fields
  `Under_rel ...` a checker of compiled files may list as axioms of the standard library; no theorem uses them.)
* The reading of the C++ recorded in the comments of the `Model*.v` files.  Nothing is extracted or run.
  As a check of that reading, the project's own unit tests (all of /repo/unittests/uri, 217 of them) are evaluated in the model:
  `TestRepo.v`, generated from the C++ by `tools/gen_tests.py` (which stops at any statement it does not understand), and
  `TestMore.v`, by hand.  All of them give what the C++ tests expect.  No theorem rests on them.

Modelled: lib/uri/*.cpp, include/uri/{uri,rule,pctencode,pctdecode,punycode,parts,find_last,starts_with}.hpp and the
transcoders, views, output iterator, length and index of icubaby.hpp, and tools/uri-split/uri-split.cpp.

Not modelled: concepts, type traits,
constexpr-ness and deduction guides; memory exhaustion elsewhere than in encode, decode (C56), the transcoders' destinations
(C57), compose (C69), split, split_reference, join and valid (C72), punycode (C93), percent-encoding (C94); moved-from states; the tracing hooks; locales in operator<< (only the parser's use of <cctype>, C54); tied streams and unitbuf;
growth moves of std::vector in the step counts.  The CMake files and tests.
