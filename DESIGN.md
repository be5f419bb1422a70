# Formal model of sugarme/tokenizer in Rocq

## Approach

The Go code in /repo is read as text and transcribed, function by function, into
total computable Gallina functions.  Every model definition cites the file and
lines it models and states its simplifications.

* Go `int` is modelled by `Z` (no overflow), lengths and indices by `nat` where
  they cannot be negative, strings by lists of bytes (`list N`), slices by
  lists (an explicit backing-array model is used where aliasing matters).
* A Go panic, `log.Fatal` and a returned error are values of the result type
  `res` (`Ok`, `Err`, `Panic`, `Fatal`), never totalised away.
* Loops are structural recursion or recursion with explicit fuel; running out
  of fuel is a distinct result, excluded by theorem.
* Calls into libraries (regexp, unicode tables, gob, json, random numbers, the
  file system) are function arguments or section variables.
* Goroutines are state machines whose theorems quantify over all schedules.

Files: `*Model.v` (definitions only), `*Spec.v` (small specifications),
`*Proofs.v` (lemmas), `Prop*.v` (property theorems, closed by `exact`, each
followed by `Print Assumptions`, with `Example`s showing that the hypotheses
are met by a non-trivial state).

A property the unchanged code violates is settled by a theorem whose name ends
in `_refuted` (a concrete witness computed in the model); the part that does
hold is proved next to it, with suffix `_partial` when it is only part of the
listed property.

## Plan per property

* **C01** Truncate keeps a prefix and turns the rest into stride-overlapping windows. EncodingModel.v models Truncate over the seven attribute lists; theorem gives every overflow window as skipn/firstn of the original list (induction over the part counter).
* **C02** Truncate error and no-op cases. Same model; exact characterisation of the error, no-op and success outcomes; panic excluded on parallel encodings.
* **C03** Attribute lists stay parallel under any history of operations. History type (Truncate | Pad Right | Merge) folded over the model; rose-tree invariant over Overflowing.
* **C04** Merging two encodings concatenates them and keeps every overflow combination. MergeWith as a nested structural recursion on both rose trees; concatenation, offset shift, overflow count and frontier of combinations proved.
* **C05** Right padding is exact. pad Right as in the code; frame theorem.
* **C06** Left padding is the mirror image of right padding. pad Left as in the code; expected to be refuted (index out of range, TypeIds taken from Ids).
* **C07** Batch padding makes every encoding equally long. PadEncodings over a list of encodings.
* **C08** Truncation limit is respected. TruncateEncodings with the three strategies; total length theorem where it holds, refutation where Truncate errors are ignored.
* **C09** Padding the main part never alters the overflow parts. Slice model with explicit backing arrays (SliceModel.v), heap-level Truncate and Pad; refinement to the list model and refutation of the aliasing property.
* **C10** Position lookups agree with the recorded offsets and words. Lookup functions as in the code against declarative specs.
* **C11** BPE tokens tile the word. BpeModel.v: symbols, heap-ordered merge queue; segmentation invariant.
* **C12** BPE merging terminates and is exhaustive. Termination by explicit fuel with a proved sufficient bound; exhaustiveness by queue invariant.
* **C13** BPE merge order: lowest rank first, leftmost first. Reference merge procedure; expected to be refuted on ties because the queue orders by rank only.
* **C14** BPE dropout keeps a valid segmentation. Random choices as an oracle stream; safety for every oracle, non-termination witness.
* **C15** Unknown characters in BPE. MergeWord with optional unknown token; panic branch is a value.
* **C16** The BPE cache is transparent and bounded. CacheModel.v: capacity bounded map with lock-granular steps; invariant over all histories/interleavings.
* **C17** A BPE model survives save and load. CreateMerges/ReadFiles/Save over lists of lines.
* **C18** Token/id lookups are mutually inverse. vocabR construction for every iteration order of the map.
* **C19** Added tokens get fresh, unique, stable ids. AddedVocabulary state machine; invariant over histories.
* **C20** Reading the vocabulary has no side effects. Shared map modelled as shared state; expected to be refuted.
* **C21** Added-token extraction partitions the text and finds every token. findMatches over an abstract matcher result list.
* **C22** Pattern matching partitions the string. Pattern functions over byte strings and abstract ordered match lists.
* **C23** Split keeps the text according to its delimiter behavior. Split over a match partition, five behaviours.
* **C24** Transform produces exactly the requested text and never touches the original. TransformRange text part.
* **C25** Alignments stay well-formed. TransformRange alignment part, invariant over histories.
* **C26** Case mapping keeps alignments. ForEach/Lowercase as in the code; expected to be refuted for byte-length-changing mappings.
* **C27** Offset conversion and slicing stay inside the text. ConvertOffset and Slice.
* **C28** Elementary normalizers produce the documented text. Filter/Prepend/Append/Replace/strip through TransformRange.
* **C29** Pre-tokenization steps never lose extracted tokens or text. PreTokenizedString model; Normalize expected to be refuted.
* **C30** IntoEncoding yields parallel attributes and correct offsets. IntoEncoding; character conversion expected to be refuted at the end of the text.
* **C31** Byte-level alphabet is a bijection and decoding inverts encoding. 256-entry table by finite sweep; induction for strings.
* **C32** Byte-fallback decoding rebuilds UTF-8. ByteFallback over UTF-8 model.
* **C33** Decoders are total and compose. Decoder functions with panics as values.
* **C34** Metaspace decoding inverts metaspace encoding. Metaspace encode/decode.
* **C35** WordPiece is greedy longest-match-first. WordPiece loop against a relational greedy spec.
* **C36** Model token offsets are byte offsets. Offsets of the four models against byte offsets; WordPiece/byte-fallback Unigram expected to be refuted.
* **C37** WordLevel tokenization. WordLevel model and builder.
* **C38** Unigram picks the best segmentation. Viterbi over integer scores against all segmentations.
* **C39** BERT post-processing. Bert processor over the encoding model.
* **C40** RoBERTa post-processing. Roberta processor; trimOffsets=false expected to be refuted.
* **C41** Template post-processing. Template processor; Words list expected to be refuted.
* **C42** Sequenced post-processors. Sequence processor; pair duplication expected to be refuted.
* **C43** The final encoding respects the configured maximum length. PostProcess composition.
* **C44** Batch encoding returns results in input order under every schedule. Worker state machine with arbitrary interleaving.
* **C45** Batch decoding returns results in input order under every schedule. Worker state machine with unsynchronised append; expected to be refuted.
* **C46** Training counts do not depend on the schedule. Sum over channel messages in any order; countPairs chunking expected to be refuted. The sequential count (PairCountModel.v) by the same table of events.
* **C47** BPE training produces a usable model. Trainer functions; several sub-claims expected to be refuted.
* **C48** Downloaded files appear atomically in the cache. File-system state machine with crash after any step.
* **C49** Decoding ids to text. Decode over vocabulary functions.
* **C50** Configuration values reach the model. Config loaders over a JSON-like value type.
* **C51** Precompiled charsmap normalization. Trie lookups and Parse.
* **C52** Vocabulary files survive save and load. Save/ReadFiles over lines.
* **C53** Built-in pre-tokenizers lose no text. Pre-tokenizers as split functions over text.
* **C54** Encode reports offsets inside the input. Composition of the above contracts.
* **C55** The byte-level pre-tokenizer and decoder restore the text. Replacement and prefix steps followed through TransformRange with exact alignments (ExpandedProofs.v), then C31.
* **C56** Sequence ranges after post-processing. Ranges recorded by MergeWith, followed through each processor.
* **C57** Tokens with their word and sequence. The stages of EncodeSingleSequence followed list by list.
* **C58** Added tokens are in the encoding. C21 and C29 carried through the pipeline as a subsequence statement.
* **C59** Where added tokens are recognised. GetPattern as a record, Go's leftmost-first matching of it as a function (AddedPatternModel.v), compared with ranges described by text, word edges and white space.
* **C60** The BERT normalizer. Each step as a change list; expansions with an optional leading space followed through TransformRange.
* **C61** The default normalizer. The whole-text case of C24 after a length-preserving case map.
* **C62** Slice helpers. Headers over a memory of arrays (SliceModel); one lemma for append, list invariants for the loops.
* **C63** Effects of the slice helpers. Frame statements: every slice, or every slice of another array, reads the same.
* **C64** List helpers and iterators. Induction on the list.
* **C65** Sequence ids. The appended views on slices (SliceOpsModel); one lemma for a turn of the loop, list reasoning for the rest.
* **C66** Templates as text. An inductive grammar for numbers and pieces, equivalence with the parser; invariant over builder calls.
* **C67** Parameter maps. A heap of maps with references; map semantics per operation, deep copies as an inductive relation, independence as disjoint reachability.
* **C68** WordPiece training. Invariant of the merge loop: the symbols of a word cut its characters into runs, so every token is such a run; from it which tokens cannot exist.
* **C69** Builders. Settings behind a pointer as a heap; last value per field over all sequences.
* **C70** Unicode normalizers. Exact text for each form, given what the library decides and decomposes; exact condition for correct alignments.
* **C71** Encoding returns. A contract "returns, with tokens" per component (ReturnSpec.v), composed along the pipeline of C54; instances for each component; counterexamples run on pieces as the pipeline makes them.
* **C72** Decoding undoes encoding. Along the byte-level pipeline the texts of the pieces are tracked exactly (RoundTripProofs.v); a BPE model spells its words (RoundTripBpeProofs.v, invariant over merge steps); the processors' added ids are hidden (RoundTripEndProofs.v). Pre-tokenizers that cut without removing anything may stand in front (CutBytesProofs.v): their pieces put together are the text.
* **C73** The ready-made tokenizers. Their tokens are whole characters (invariant of the merges), so they are rendered byte strings (PretrainedProofs.v); the decoded text is computed from these, and counting lead bytes shows which texts come back. Texts with <s> and </s> in them are cut at these first (RobertaPartsProofs.v on WrittenProofs.v). For tokens in any order, OrderSpec.v says which are found: those that no token listed before them follows; the search keeps exactly these (OrderProofs.v, also used for C76, C77, C85 and C88).
* **C74** Words through WordPiece. The tokens of a word are a first piece and pieces with the prefix (WordsProofs.v), so joining and cleaning puts the words together again; the pipeline keeps the words in order (WordsGlueProofs.v, BertWordsProofs.v). TurnedProofs.v shows what the BERT normalizer makes of a text (spaces around Chinese characters, lower case, accents) and that Encode then sees the words of that text. The clean-up is shown to act only in front of `. ? ! ,` because BERT words are single punctuation marks or have none. Texts with special tokens in the order of their registration are joined from C84 (BertMaskedProofs.v). When special tokens are not skipped, each counts as a word that the vocabulary has whole (BertKeptProofs.v, BertKeptSpec.v).
* **C75** Metaspace round trip. The pieces are exactly the texts between the added tokens with marks for white space, cut in front of the marks (MetaTripProofs.v: `meta_at`, `meta_open`); a model that spells its words with tokens of whole characters (MetaModelProofs.v, for BPE by the merges and for Unigram by the best segmentation) hands the decoder the same characters back, where only the first token can lose its space. Whole characters matter because the decoder looks at characters, not bytes.
* **C76** Files. `from_reader` (C50) gives the components, LoadedModel.v puts them together as the loader does; the ids of the listed tokens are computed from the list (LoadedAddedProofs.v, over the two calls that add them), and the round trips of C72 and C75 are instantiated from what the file says (LoadedProofs.v). LoadedUnigramProofs.v does this for metaspace files with any model that spells its words, and for Unigram: a part of a word without the mark is a part of the text, so a special token that is not written in the text is in no word. Listed tokens that are not special are looked for in the changed text; BareProofs.v shows that a tokenizer that finds none of them encodes as if they were not listed. Special tokens written in a text: WrittenProofs.v computes what a text is cut into when all listed tokens are special and enclosed (by C21's characterisation of the search), LoadedPartsProofs.v and UnigramPartsProofs.v run the pre-tokenizers and models on what stands between. Specification in LoadedSpec.v, LoadedUnigramSpec.v and ItemsSpec.v.
* **C77** BERT files. As C76, with the word decoding of C74 (WordsGlueProofs.v, TurnedProofs.v) for all settings of the normalizer: the added tokens are looked for before and after the normalizer, so neither text may have one; words that the model does not know become the unknown token, which is skipped if special (LoadedWordsProofs.v). Listed tokens that are not special do not matter as long as they are not written (BareProofs.v). Special tokens that are written cut the text before it is normalized, and each part gives its own words (WordPartsProofs.v on WrittenProofs.v). Specification in LoadedWordsSpec.v.
* **C78** Trained tokenizers. `train_bpe` (C47) gives the tables; a model whose merged texts are all different has a vocabulary that numbers them in their order, so the byte-level round trip of C72 applies, and the special tokens get the ids after it (TrainedProofs.v). If a text is made twice, the vocabulary has fewer entries than indices, and counting gives the clash. Specification in TrainedSpec.v.
* **C79** Building and saving Unigram models. The builder calls are folded, and each setting is the last one given (UnigramSaveProofs.v); the file is a JSON value, compared between models and given to the loader of ConfigModel.v. Specification in UnigramSaveSpec.v.
* **C80** The token of its id. A relation of ids and texts is carried through every step of Encode (NamesProofs.v), then instantiated with the names that an assembled tokenizer gives to its ids (NamesLoadedProofs.v). ApiModel.v models EncodeSingle, EncodePair and Tokenize. Specification in NamesSpec.v.
* **C81** The windows of a truncated text. Windows, special tokens around them and padding described by lists in WindowsSpec.v; the fields ids and tokens of the parts followed through truncation, merging, post-processing and padding (WindowsProofs.v).
* **C82** Reading windows back. The windows of C81 with the hidden ids filtered out rejoin to the shown ids of the text, which are those of the untruncated encoding (WindowTextProofs.v); the byte-level case instantiates the round trip of C72. Specification in WindowTextSpec.v.
* **C83** Malformed files. An inductive description of the files whose members have the right kinds (LoadErrorSpec.v), by induction on the nesting of sequences; the refutations compute the first failing type assertion (LoadErrorProofs.v).
* **C84** Items of a text. The pieces of C57 are labelled with the added token or the word they are (ItemsProofs.v); bracketed tokens are found where they are written (MaskedProofs.v); for BERT both are combined with the greedy pieces of C36 and the frame of C39 (BertItemsProofs.v).
* **C85** Word-level files. What Encode shows of a text are the tokens of its words (C74), the model gives each word one id, and without a decoder Decode joins the names of the ids with spaces (WordLevelProofs.v). Words with single spaces between them are cut into these words again by the maximal runs of PreTokenizerSpec.v. With a normalizer (WordLevelNormSpec.v, WordLevelNormProofs.v) the words are those of the normalized text; added tokens that are written neither before nor after it have no effect, special or not (BareProofs.v); special tokens that are written cut the text before it is normalized (WordLevelPartsProofs.v).
* **C86** Encodings from tokens. The constructor is one record (ConstructModel.v); that its words are nil shows in the operations of C02 and C04 (ConstructProofs.v). Specification in ConstructSpec.v.
* **C87** Sequences of merged encodings. Both merge functions move the ranges of the second encoding; a fold over its map gives the range of every sequence (ConstructProofs.v, EncodingProofs.v).
* **C88** Llama files. Prepending the mark and replacing spaces turns a text into its marked text and keeps the alignments sound (ReturnNormProofs.v, LlamaProofs.v); without a pre-tokenizer the model sees the whole marked text and spells it (C76); the decoder chain is computed on what is spelled. Byte fallback has no effect if no merge makes the name of a byte. Special tokens written in a text: tokens that begin and end with characters they do not hold otherwise do not overlap, so the patterns cut the text at them (MaskedProofs.v), and each part is marked by itself (LlamaPartsProofs.v). Specification in LlamaSpec.v.
* **C89** Order on merges and symbol lists. Case analysis on ranks and positions against a lexicographic order (SymbolsSpec.v); the lists by the append lemma of C62.
* **C90** Building BPE models. The builder calls are folded; by induction on the history each setting is the last one given, and the tables too unless files were given, which Build reads again each time (BpeBuildProofs.v). The file system is two functions. Specification in BpeBuildSpec.v.
* **C91** Download progress. The loop over the units is run symbolically, one case for each unit (ProgressProofs.v); printing rounds to the nearest tenth; the conversion to float64 is a monotone function that keeps numbers up to 2^53 and powers of two. Specification in ProgressSpec.v.
* **C92** Reader of characters. Induction on the number of calls, for a reader at any place (RuneReaderProofs.v). Specification in RuneReaderSpec.v.
* **C93** Settings of added tokens. One lemma for any fold and any kind of setting (SettingsProofs.v), used for the options and for the setters. Specification in SettingsSpec.v.

## Trusted base

* Coq 8.16.1: its kernel, its virtual machine (`vm_compute` is used in examples,
  concrete refutations and the 256-entry byte table) and the tools `coqc` and
  `coq_makefile`.  No kernel check is switched off, no plugin of ours is used.
* Axioms: `Print Assumptions` stands behind every manifest theorem and answers
  "Closed under the global context" for each one of them: no theorem rests on
  any axiom.  `vcheck` also lists seven constants of the standard library as
  axioms of the loaded modules (`Coq.ssr.ssrunder.Under_rel.Under_rel`,
  `Under_rel_from_rel`, `Under_relE`, `under_rel_done`, `over_rel`,
  `over_rel_done`, `Over_rel`).  They are the fields of a sealed module of the
  standard library, loaded through the arithmetic tactics; none of our theorems
  uses them.
* The transcription: that each definition of a `*Model.v` file says what the Go
  lines cited in its comment do.  This is checked by reading only; the code was
  neither built nor run.
* The reading of each English property by the theorems listed for it in
  MANIFEST.json.

### What is taken for granted about Go and its libraries

* `int` does not overflow; memory does not run out; a goroutine that can go on
  eventually does (only for the statements about termination of schedules).
* Strings are byte lists; `range` over a string, `[]rune(s)`, `string(r)` and
  `utf8` functions behave as written in Utf8Model.v (an invalid byte reads as
  U+FFFD of width 1).
* `append`, slicing and `copy` on slices: the backing-array model of SliceModel.v
  (used for the aliasing property C09); everywhere else slices are values.
* Maps: iteration order is arbitrary.  Where the code iterates over a map the
  theorem quantifies over every order (a permutation of the entries).
* Regular expressions: the fixed expressions of the code (`\s`, `\w+|[^\w\s]+`,
  the GPT-2 expression, `<0x..>`, the patterns of added tokens) are transcribed by hand into matchers.  Expressions
  given by the user are an arbitrary function from the text to an ordered list of
  ranges.
* `unicode.In` on the table of bert.go: the linear search of package unicode for at
  most 18 ranges, which stops at the first range behind the character.
* Unicode tables (letters, numbers, spaces, scripts, case, decompositions, marks)
  and grapheme clusters (uniseg) are parameters of the theorems, so they hold for
  all tables; where a fact about the table is needed it is a hypothesis (for
  instance: the space is not a letter).
* golang.org/x/text/unicode/norm: IsNormalString decides whether a text is in a form,
  and the iterators of the decomposing forms cut it into groups and return the segments
  of each (`library_at`, a hypothesis about the given text; it fails for more than 30
  marks in a row, where the iterator inserts joiners).
* `sort.Sort` returns a sorted permutation and does not move elements of a list
  that is sorted already; the binary heap used by BPE pops a largest element
  (any one of several, the theorems hold for each choice; C13 uses the order of
  the published heap for its witness).
* The conversion of uint64 to float64 (C91) is monotone and keeps numbers up to 2^53
  and powers of two; %.1f rounds to the nearest tenth, halves to the even one.
* float64 scores of Unigram: an arbitrary ordered set with an addition that obeys
  the laws `score_laws` (monotone, no NaN, no infinity).  Rounding is covered only
  as far as it obeys them.  Random draws of dropout are an arbitrary stream.
* `bufio.Scanner` cuts lines at newlines, drops a final carriage return and stops
  at lines of 64 KiB; `strings.Split`, `ReplaceAll`, `Fields`, `hex` decoding as
  written in the models.
* JSON text is taken as parsed: the loader theorems start from a JSON value.
  Rounding of numbers, base64, `regexp` compilation and lower-casing of names are
  parameters.
* Files: a flat map from names to contents.  A crash ends the process between two
  steps; loss of power and `fsync` are not modelled.  An HTTP body that ends
  without an error is taken to be complete.
* Concurrency: the steps that interleave are the channel operations, the lock
  regions and the unsynchronised reads and writes of shared slices (a read of the
  old slice and a later write of the new one).  Torn words and compiler
  reorderings are not modelled.

### Which code is modelled

| Go file | model | not modelled |
| --- | --- | --- |
| encoding.go, util.go (TruncateEncodings, PadEncodings) | EncodingModel, ConstructModel, SequenceIdsModel, SliceModel, HeapModel | gob encoding of Clone (taken as a copy) |
| added-vocabulary.go | AddedVocabModel, AddedPatternModel, SettingsModel | the pattern strings (their meaning is modelled) |
| normalizer/normalized.go, pattern.go, strip.go, replace.go, prepend.go, unicode.go, sequence.go | PatternModel, NormalizedModel, UnicodeNormModel | printing and logging |
| normalizer/bert.go, default.go | BertNormModel, PreTokenizerModel (isPunctuation) | the unused contraction table |
| normalizer/precompiled.go, spm/spm-precompiled.go | SpmModel | |
| pretokenizer.go, pretokenizer/*.go | PreTokenizedModel, PreTokenizerModel, PipelineModel | |
| model/bpe/bpe.go, word.go, cache.go | BpeModel, HeapModel, CacheModel, BpeSaveModel, BpeBuildModel, SymbolsModel | |
| model/bpe/trainer.go | TrainerModel, PairCountModel | the progress bar |
| model/wordpiece, model/wordlevel, model/unigram | WordPieceModel, WordPieceTrainModel, UnigramModel, UnigramSaveModel | - |
| processor/*.go | ProcessorModel, TemplateBuildModel | |
| decoder/*.go and the decoders in pretokenizer/ | DecoderModel | |
| tokenizer.go | PipelineModel, ApiModel, BatchModel, TrainedModel | printing, deprecated training entry points |
| file-util.go, util/file.go | FileCacheModel, ProgressModel | HTTP itself |
| pretrained/*.go, config.go | ConfigModel, PretrainedModel, LoadedModel | finding and reading the vocabulary files |
| util/slice/*.go, util/util.go, util/iterator.go | SliceOpsModel | ToASCII, ToGrapheme, DeepCopy, GetType, casts, file access |
| util/param.go | ParamsModel | DefaultParams (panics by design) |
| util/rune-reader.go | RuneReaderModel | |
| util/error.go | - | everything |
| example/, test data | | all |

## Findings: where the code disagrees with a property

Each is a theorem ending in `_refuted` (or, where no property of the list is
concerned, an observation made while transcribing; those are marked "observed").

**Encoding.** Left padding panics on every non-empty encoding shorter than the
target, and copies ids into type ids on empty ones (C06).  Merging into an
encoding whose range map is nil panics; windows made by Truncate have a nil map
(C04).  Pair truncation ignores the error of Truncate, so the limit is exceeded
when the part to shorten would keep no more than the stride (C08).  Windows share
their backing array: padding the main part beyond the truncation length overwrites
the next window (C09).  Token2Chars panics at index = length; Word2Tokens ends at
the end of the encoding when a word-less token follows; Token2Sequence accepts
indices out of range (C10).  LongestFirst may cut one token too many
(C08_pair_longest_first_lengths).  GetSequenceIds returns one entry too many per
sequence and panics without recorded sequences; SequenceRange of a sequence shorter
than the encoding panics or returns too much (C65).

**BPE.** Offsets overrun words that are not valid UTF-8 (C11).  Among overlapping
pairs of equal rank the leftmost is not taken first: `aaaaa` becomes
`aa|a|aa` (C13).  Dropout may loop for ever (C14).  A character outside the
vocabulary panics without unknown token; a configured unknown token that is
missing becomes id 0 (C15).  A cache of capacity 0 panics (C16).  Merge lines
containing `#version` are lost, a line of 64 KiB makes the file unreadable, lines
with unknown tokens are skipped silently (C17).

**Added tokens.** Content that is not valid UTF-8 ends the process (C19).
GetVocab(true) writes added tokens into the model's own map, changing the size
and the next id (C20).  An occurrence of a later-registered token in front of an
earlier-registered one is not found (C21).  The byte-level pre-tokenizer drops
every added token, so a text that is one added token has an empty encoding (C58).
Word edges are ASCII-only: a single-word token is found inside a non-ASCII word,
and one beginning with punctuation, such as `[MASK]`, is found only when glued to
a letter, never alone.  The strip options take one white space instead of all.
The content of a normalized token is not normalized unless it is single-word, so
"Yes" is never found behind a lower-casing normalizer (C59).

**Patterns and normalized strings.** A pattern for U+FFFD overruns invalid text;
inverting an inverted or user-defined pattern ends the process (C22).  Split
panics on an empty match at the end of the text (C23).  A second size-changing
Transform works on stale alignments and keeps or repeats parts of the old text
(C24): for instance NBSP-strip followed by NFD.  Invalid UTF-8 breaks the
alignments, and dropping a leading multi-byte character gives wrong ranges (C25).
Case maps that lengthen a character make slicing panic (C26).  Empty ranges are
returned unconverted, slicing an empty range at the end panics (C27).  Strip of
two em spaces panics, Clear ends the process on every text with a multi-byte
character (C28).  The BERT normalizer turns tabs and line breaks into spaces only right
before a character it drops; its table of Chinese characters is unsorted, so
`unicode.In` never finds the block U+3400 to U+4DBF; a Chinese character at the
start of the text gets two spaces in front when accents are stripped afterwards;
stripping accents does not decompose, so composed letters keep theirs (C60).  The
default normalizer keeps or repeats text when lower-casing lengthens it (C61).
NFC and NFKC never compose: a text that is not yet in the form is decomposed instead;
NFKD returns nil for a text that is in the form, so a tokenizer with this normalizer
panics on ASCII text; the k-th segment is aligned with the k-th character, which is wrong
behind text that was decomposed already and behind ligatures (C70).
Observed: NUL counts as size 0; the Prepend normalizer returns nil on empty text.

**Utilities.** CutInt accepts -1 and panics, Delete at the length panics, Batch with size
0 divides by zero, Deduplicate of an empty slice panics or shows an element of the spare
capacity, Expand makes room for `end` elements instead of `end - start`, InsertVec of a
part of the same slice loses elements (C62); Insert and Delete overwrite the slice they
are given whenever the result fits into its array (C63).  MakeRange repeats its start
(harmless at its only use, normalized.go:652, which needs the length), ReadAllLn returns
every line twice when line breaks are kept, and CurrentIndex is -2 at the end (C64).
Params panics on a stored array, Select invents entries for unknown keys, and cloning
parameters that contain themselves does not end (C67).

**Models.** WordPiece offsets count characters, Unigram byte fallback counts six
per byte (C36).  WordLevel: two unknown tokens may share an id, UnkToken after a
nil vocabulary panics (C37).  Unigram: a bonus of 0.1 per byte for known tokens
changes the winner, tokens over 20 bytes are never used, byte fallback ignores the
vocabulary (C38); with repeated tokens the earlier one is not found (C18).
Vocabulary files lose tokens ending in a carriage return or of 64 KiB (C52).

**Pre-tokenization.** Normalize drops every piece that already has tokens, so a
byte-level pre-tokenizer loses added tokens (C29).  Character offsets end one
short at the end of the text and GetSplits panics there (C30).  The script
pre-tokenizer drops leading characters without a script (C53).  Metaspace turns
tabs and newlines into spaces and loses a leading space (C34).  A lone NUL with
the prefix space and invalid UTF-8 make the byte-level pre-tokenizer panic (C55).
Observed: `\w` is ASCII only, so the Whitespace pre-tokenizer cuts accented words;
the Metaspace replacement is compiled as a regular expression.

**Decoders.** The three Default decoders crash on every list, Strip crashes on
tokens made of the stripped character only and shorter than both counts (C33),
malformed byte tokens crash (C32).

**Processors.** RoBERTa without trimmed offsets panics or returns nil (C40).
Template special tokens have no word entry (C41).  Sequences add the pair once per
processor (C42).  A limit equal to the number of special tokens disables
truncation (C43).  BERT and RoBERTa forget the sequence ranges (C56).
Stray spaces in a template text become special tokens with the empty name; Validate
panics on every pair template with a special token, never reports a missing special
token, and rejects the default template, which drops the second sequence (C66).

**Whole pipeline.** A text ending inside a character panics, Strip before
byte-level panics, NUL loses a byte of the offsets (C54).

**Concurrency and training.** Batch decoding returns its results in any order and
may lose some (C45).  Files above the chunk size are counted several times; pair
counts use only the first quarter of 10000 or more words (C46).  Trained
vocabularies lack the special tokens, the alphabet limit removes what it should
keep, a text made twice leaves an id without a token, characters that are not kept are
skipped and their neighbours joined (C47).  Prefixes and suffixes are formatted as
pointer addresses, and in front of the first character: a trained WordPiece model has
no continuing pieces and no unknown token, never splits a word and fails on the words
it was trained on (C68).  Observed: WordPieceTrainer.Train returns one value and does
not implement tokenizer.Trainer.  WordPiece trainer builders returned by setters share
their settings (C69).

**Files and configuration.** Local copies are not atomic and need an existing
directory, names ending in `.tmp` are served half-written, different files may
share a cached name (C48).  NormalizeString drops everything after the first
rewritten grapheme, the precompiled normalizer aligns its result with the last
character of the grapheme, lookups panic on malformed tries (C51).  The loader
ignores the WordPiece prefix, added-token ids, the regular expression of Replace
and prepend_scheme of the decoder, compiles the String of Split, refuses merges
with spaces, panics on Nmt and on missing sections (C50).

**Encoding that does not return (C71).** Removing spaces at both ends, as the default
normalizer does, panics on two ideographic spaces in front and three spaces at the end:
the iterator over the changes starts again after the leading characters were removed, and
the last step indexes the alignments past their end (normalized.go:724) although the
same index is clamped before (648).  The BERT normalizer's cleaning panics for the same
reason on two replacement characters in front and control characters at the end.  Two
replacements can panic: a tab becomes eight spaces, two spaces become two marks; clearing
two characters that come from the same original character subtracts from its range twice
(512-530).  Truncating only the second sequence ends the process when there is one
sequence and it reaches the limit.  Padding in front panics for every text that is
shorter than asked for.

**Round trips (C72).** With the byte-level pre-tokenizer an added token found in the text
disappears: the pre-tokenizer's normalizing step drops the pieces that already have tokens,
so the ids decode to the text without it, even if special tokens are not skipped.
With add_prefix_space and a pre-tokenizer in front of the byte-level one, every piece gets a
space: with Digits (each digit by itself) "a12" decodes to " a 1 2".

**Ready-made tokenizers (C73).** GPT2, RobertaBase and RobertaBaseSquad2 get
`decoder.NewBpeDecoder("Ġ")`, which replaces that mark by a space, or by nothing in the last
token, and leaves the other characters of the byte-level alphabet as they are: "é" decodes to
"Ã©", "hello world" to "helloworld" when " world" is one token.  The byte-level decoder would be
right.  The parameter trimOffsets of RobertaBase has no effect.  BertBaseUncased uses
DefaultWordpieceDecoder, whose embedded base is nil: every call of Decode panics.
BertLargeCasedWholeWordMaskingSquad keeps upper case but still removes accents.

**Words (C74).** The clean-up of the WordPiece decoder removes the space in front of `. ? ! ,`
only.  Its rules for `n't`, `'s` and so on never act on BERT tokens, because the pre-tokenizer
makes the apostrophe a word of its own: "don't" decodes to "don ' t".  Other punctuation keeps a
space on both sides: "(a)" decodes to "( a )".

**Metaspace (C75).** Texts that begin with white space lose it if a mark is put in front
(`PrependScheme` Always or First), because the mark of the text is not told from the added
one; tabs and line ends, and marks in the text, come back as spaces
(`C75_text_refuted`, for every such text and tokenizer). With `Always`, a mark is put in
front of every part between added tokens, and only the first is removed by the decoder, so
that `a[M]a` with the added token `[M]` decodes to `a a` (`C75_example`). The Unigram model
must not meet the text of its unknown token: tokens with that id are fused with unknown
characters around them.

**Files (C76).** The loader ignores the ids in `added_tokens` and adds special tokens first, so
a file that lists another token before a special one gets both ids wrong: the ids of
`[M]` and `<s>`, listed with 257 and 258, come out swapped (`C76_ids_refuted`), and so does
what a processor that names id 258 adds.  A Metaspace decoder section that names
`prepend_scheme` but not `add_prefix_space`, as current files do, is read as "keep the first
mark": every text that should come back gets a space in front (`C76_scheme_refuted`, for every
such file and text).

**BERT files (C77).** An uncased BERT tokenizer panics while encoding any text whose lower case
takes more bytes than the text, such as U+023A whose lower case U+2C65 takes three bytes
instead of two (`C77_longer_refuted`, for every file and text; the cause is in
`NormalizedString.Lowercase`, see C26).  Words that the vocabulary cannot spell vanish when
special tokens are skipped, because `[UNK]` is listed as special in the usual files.

**Trained tokenizers (C78).** If two merges make the same text, the trainer gives the text two
indices but one entry of the vocabulary, so the size of the vocabulary is smaller than the next
index. The special tokens are numbered by that size, and get the ids of tokens made by training
(`C78_ids_refuted`, for every corpus with enough special tokens). Words of the corpus then decode
to nothing, or to a special token; words spelled with the index that was given up decode to
nothing with or without special tokens (`C78_lost_refuted`).

**Saved Unigram models (C79).** `Save` writes the entries of the vocabulary as objects with the
members `token` and `score`, but `CreateModel` reads lists of two: it panics on every saved file
whose vocabulary is not empty (`C79_load_refuted`). `fuse_unk` is not saved, so that two models that cut
texts differently have the same file (`C79_fuse_refuted`), and tokens that are not UTF-8 are written as
U+FFFD (`C79_text_refuted`). `Build` refuses unknown ids past the vocabulary but accepts negative
ones (`C79_negative_refuted`).

**Tokens and ids (C80).** `WordLevel.Tokenize` (model/wordlevel/wordlevel.go) gives an unknown word the id of the
unknown token but the word as its text, so that the tokens of the encoding are not those that its ids
decode to (`C80_wordlevel_refuted`). Added tokens with `RStrip` carry the white space after them in their text
(`C80_stripped_refuted`). `Tokenize`, `EncodeSingle` and `EncodePair` do not look whether `Encode` returned nil: with RoBERTa
processing that does not trim offsets `Tokenize` panics for every text (`C80_tokenize_refuted`).

**Windows (C81).** `Truncate` accepts a negative stride; `getCurrentPart` (encoding.go) then returns nothing, so that all
overflowing parts are empty and every token after the maximum is lost (`C81_negative_refuted`).

**Malformed files (C83).** The loader asserts the types of members without a check, as in `params.Get("type").(string)`
(pretrained/normalizer.go, pretokenizer.go, processor.go, decoder.go, truncation.go). A section without a textual `type`
(`C83_type_refuted`), one that lacks a member its type needs (`C83_member_refuted`) or a truncation section that lacks one of its
members (`C83_truncation_refuted`) therefore crash the program instead of giving an error. So do a file that holds `null` and
one without model, such as `{}` (`C83_model_refuted`). In files for BERT, `"strip_accents": null` is read as false
(pretrained/normalizer.go:93), although null means in this format that accents are taken off with lower case; C50 and C77 follow the code.

**Special tokens in a text (C84).** `findMatches` (added-vocabulary.go) sorts what it found by token instead of by place and then drops
what begins before the end of the last one taken. The BERT tokenizers register `[MASK]`, `[SEP]` and `[CLS]` in this order, so that of
`[CLS] a [SEP]` only the `[SEP]` is found and `[CLS]` is cut into a bracket, a word and a bracket (`C84_cls_refuted`).

**White space in word-level tokenizers (C85).** Without a decoder, Decode (tokenizer.go:515-530) joins the words with single spaces, so that
every other white space is lost; no text with a tab or a line break comes back (`C85_text_refuted`).

**A byte order mark in front of a text (C60).** The BERT normalizer drops a leading control character of more than one byte (byte order mark,
zero-width space, soft hyphen), but the alignments of the original text are then wrong at the end, so that the next whole-text change
(doHandleChineseChars, bert.go:154-181) replaces only the front of the text: with a character of w bytes the last 2w(w-1) single-byte
characters come twice, for a byte order mark up to 12 (`C60_dropped_refuted`; `abcd` becomes `abcdabcd`).

**Encodings from tokens (C86).** NewEncodingFromTokens (encoding.go:105-134) never reads its argument `typeId`: every token gets type 0
(`C86_types_refuted`). Its words are nil instead of -1 for each token, so that `Truncate` panics whenever it has something to remove
(`C86_truncate_refuted`), and after `MergeWith` its tokens are said to be in the words of the other encoding (`C86_merge_refuted`).

**Sequences of merged encodings (C87).** `MergeWith` copies the old range of a sequence with `util.DeepCopy` into a value, which fails, and drops the
error; the positions that a sequence had in the first encoding are lost if it is also in the second (`C87_merge_with_refuted`). The unused
`mergeEncoding` (encoding.go:499-551) does this right but forgets every sequence that is only in the first (`C87_sequences_refuted`).

**The empty text with Llama files (C88).** Decoding the ids of the empty text panics, whatever the post-processor adds, since all special tokens are
dropped, Fuse (decoder/fuse.go) makes one empty token of none, and Strip (decoder/strip.go:39-41) reads the first character of this token
(`C88_empty_refuted`). A mark in a text comes back as a space (`C88_text_partial`: a text comes back exactly if it holds no mark).

**The order on merges is not used (C89).** Merge.Cmp orders merges by rank and position; the comparator of the queue in MergeAll (word.go:265-277) looks at the rank and at a time that is never set (`C89_queue_refuted`), which is why overlapping pairs of equal rank are not merged from the left (C13).

**BPE builders (C90).** Once `Files` was called on a BpeBuilder, `VocabAndMerges` has no effect, since Build (bpe.go:127-134) reads the files whenever there are any and nothing takes them away (`C90_tables_refuted`). The check of the dropout, `p <= 0.0 || p > 1.0` (bpe.go:122), is false of NaN, which is accepted (`C90_dropout_refuted`).

**Download progress (C91).** byteCountIEC (file-util.go:200-212) chooses the unit before it rounds: from a twentieth of a unit below the next one on it shows 1024.0 of the smaller unit, e.g. `1024.0 KiB` for 1048575 bytes (`C91_units_refuted`).

**Special tokens in another order (C73, C76, C77, C85, C88).** The search for added tokens sorts what it found by the place of the token in the list before it drops overlaps (added-vocabulary.go, findMatches; C21), so a token that is written in front of one listed before it is not found: RoBERTa takes the `</s>` of `a</s>b<s>c` for plain text, and it is still in the decoded text although special tokens are skipped (`C73_roberta_order_refuted`).

**Sizes of characters (C92).** ReadRune (util/rune-reader.go:44-53) returns 1 as the size of every character, where io.RuneReader asks for its bytes. Positions that a regexp finds are then positions in the list of characters, which the example in the file uses, but for a text that is not ASCII they are not positions in the text (`C92_bytes_refuted`, `C92_places`).
