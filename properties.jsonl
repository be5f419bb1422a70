{"id": "C01", "title": "Truncate keeps a prefix and turns the rest into stride-overlapping windows", "statement": "After a successful Truncate(maxLen, stride) of an encoding longer than maxLen, the encoding holds exactly its first maxLen tokens (all per-token attributes alike), and GetOverflowing() is a list of windows of the original token sequence, each at most maxLen long, each starting maxLen-stride tokens after the previous one (so neighbours share exactly stride tokens), the last window ending at the last original token; so no token is lost.", "quantifier": "every encoding with equally long attribute lists, every maxLen and stride", "why_tests_cant": "The window arithmetic depends on len mod (maxLen-stride); tests try a handful of lengths.", "anchors": ["encoding.go:Encoding.Truncate", "encoding.go:getCurrentPart"]}
{"id": "C02", "title": "Truncate error and no-op cases", "statement": "Truncate returns an error exactly when maxLen = 0 or stride >= maxLen, in that case (and when the encoding already fits) the encoding is left unchanged; it never panics on an encoding whose attribute lists are equally long and whose arguments are non-negative.", "quantifier": "every encoding, every pair of integer arguments", "why_tests_cant": "The rejected/accepted boundary must be exact for every pair of integers.", "anchors": ["encoding.go:Encoding.Truncate"]}
{"id": "C03", "title": "Attribute lists stay parallel under any history of operations", "statement": "Ids, TypeIds, Tokens, Offsets, SpecialTokenMask, AttentionMask and Words of an encoding and of every overflowing encoding (nested ones included) keep equal lengths under every finite sequence of Truncate, Pad (right) and Merge operations starting from encodings where they are equal.", "quantifier": "all finite histories of operations, with arbitrary arguments and arbitrary second operands", "why_tests_cant": "A history invariant; tests exercise single calls.", "anchors": ["encoding.go:Truncate", "encoding.go:Pad", "encoding.go:MergeWith"]}
{"id": "C04", "title": "Merging two encodings concatenates them and keeps every overflow combination", "statement": "MergeWith(pair, growing) yields for each attribute the concatenation of the two encodings' attributes, offsets of the second part shifted by the end of the last offset of the first iff growing; the overflow list consists of every combination of (own or overflowing part) x (pair's own or overflowing part) except own x own, so its length is |E|(1+|P|)+|P|; merging loses no token; sequence ranges of the pair are shifted by the receiver's length. It succeeds whenever the range maps involved are allocated.", "quantifier": "all pairs of encodings with any number of overflow parts", "why_tests_cant": "Combinatorial in the number of overflow parts on both sides.", "anchors": ["encoding.go:MergeWith", "encoding.go:Merge", "tokenizer.go:MergeEncodings"]}
{"id": "C05", "title": "Right padding is exact", "statement": "Pad(target,…,Right) leaves an encoding at least target long unchanged and otherwise appends exactly target-len tokens carrying padId, padTypeId, padToken, special mask 1, attention mask 0, offsets (0,0) and no word, without touching the existing tokens; its overflowing parts are padded the same way.", "quantifier": "all encodings, targets and pad parameters", "why_tests_cant": "Exact frame condition for all lists and lengths.", "anchors": ["encoding.go:Pad", "encoding.go:pad"]}
{"id": "C06", "title": "Left padding is the mirror image of right padding", "statement": "Pad(target,…,Left) puts the target-len pad tokens before the existing tokens and keeps every attribute of the existing tokens (ids, type ids, tokens, offsets, masks, words).", "quantifier": "all encodings shorter than the target", "why_tests_cant": "Must hold for every encoding; a crash or a mixed-up attribute for any input violates it.", "anchors": ["encoding.go:pad"]}
{"id": "C07", "title": "Batch padding makes every encoding equally long", "statement": "PadEncodings brings every encoding of a batch to one common length - the longest one for BatchLongest, the requested one for Fixed when no encoding is longer - and keeps each original encoding as a prefix, in the same order.", "quantifier": "all batches, all padding parameters with direction Right", "why_tests_cant": "Universally quantified over batch composition.", "anchors": ["util.go:PadEncodings"]}
{"id": "C08", "title": "Truncation limit is respected", "statement": "TruncateEncodings with MaxLength m > 0 returns encodings whose total length is at most m, for a single encoding and for a pair, whatever the strategy and stride.", "quantifier": "all encodings or pairs, strategies, strides and limits", "why_tests_cant": "The interplay of both lengths, strategy and stride is unbounded.", "anchors": ["util.go:TruncateEncodings"]}
{"id": "C09", "title": "Padding the main part never alters the overflow parts", "statement": "Truncating an encoding and then padding the truncated encoding leaves the tokens recorded in its overflowing windows as they were before padding (values are not shared destructively).", "quantifier": "all encodings, truncations and paddings", "why_tests_cant": "Depends on slice capacity/aliasing for every length combination.", "anchors": ["encoding.go:Truncate", "encoding.go:pad", "encoding.go:getCurrentPart"]}
{"id": "C10", "title": "Position lookups agree with the recorded offsets and words", "statement": "Char2Token(pos) returns the first token whose offset range contains pos and nothing if no token does; Token2Chars and Token2Word return the recorded values; Word2Tokens(w) returns the exact token range of word w.", "quantifier": "all encodings, all positions, words and tokens", "why_tests_cant": "For-all over positions and word layouts (including merged pairs).", "anchors": ["encoding.go:Char2Token", "encoding.go:Word2Tokens", "encoding.go:Token2Chars", "encoding.go:Token2Word"]}
{"id": "C11", "title": "BPE tokens tile the word", "statement": "Tokenizing a word with a BPE model yields tokens whose offsets are contiguous, start at 0 and end at the byte length of the word, and every token's value is the vocabulary string of its id.", "quantifier": "all words, vocabularies and merge tables (without dropout)", "why_tests_cant": "Ranges over all merge tables and words.", "anchors": ["model/bpe/bpe.go:MergeWord", "model/bpe/bpe.go:WordToTokens", "model/bpe/word.go:MergeAll", "model/bpe/word.go:GetOffsets"]}
{"id": "C12", "title": "BPE merging terminates and is exhaustive", "statement": "Without dropout BPE merging always terminates, only ever replaces two adjacent symbols by the symbol the merge table prescribes, and stops only when no adjacent pair of the result is in the merge table.", "quantifier": "all words and merge tables", "why_tests_cant": "Termination and exhaustiveness cannot be established by sampling.", "anchors": ["model/bpe/word.go:MergeAll"]}
{"id": "C13", "title": "BPE merge order: lowest rank first, leftmost first", "statement": "BPE tokenization of a word equals the reference procedure: repeatedly merge the leftmost occurrence of the adjacent pair with the lowest rank.", "quantifier": "all words and merge tables", "why_tests_cant": "Tie-breaking inside the priority queue depends on the queue's whole history.", "anchors": ["model/bpe/word.go:MergeAll"]}
{"id": "C14", "title": "BPE dropout keeps a valid segmentation", "statement": "With dropout, whatever the random choices, tokenization terminates and the result is a segmentation of the word reached by prescribed merges only.", "quantifier": "all words, merge tables and random sequences", "why_tests_cant": "All random sequences.", "anchors": ["model/bpe/word.go:MergeAll"]}
{"id": "C15", "title": "Unknown characters in BPE", "statement": "A word containing characters outside the vocabulary is tokenized, each unknown character becoming one unknown token when an unknown token is configured (and nothing but the configured unknown token), never panicking.", "quantifier": "all words, vocabularies and unknown-token settings", "why_tests_cant": "Universally quantified over configuration and text.", "anchors": ["model/bpe/bpe.go:MergeWord"]}
{"id": "C16", "title": "The BPE cache is transparent and bounded", "statement": "Under every history (and every interleaving of concurrent calls at the cache's lock granularity) of cached tokenizations and cache clears, each call returns what an uncached tokenization would return, and the cache never holds more entries than its capacity.", "quantifier": "all histories, interleavings, capacities", "why_tests_cant": "Histories and schedules.", "anchors": ["model/bpe/cache.go", "model/bpe/bpe.go:TokenizeWithCache"]}
{"id": "C17", "title": "A BPE model survives save and load", "statement": "Reading back the merges written by Save yields the same ranks and results, and building merges from lines assigns rank = line order and rejects malformed lines.", "quantifier": "all models whose tokens contain no space or newline", "why_tests_cant": "All merge tables.", "anchors": ["model/bpe/bpe.go:Save", "model/bpe/bpe.go:ReadFiles", "model/bpe/bpe.go:CreateMerges"]}
{"id": "C18", "title": "Token/id lookups are mutually inverse", "statement": "For every model built from a vocabulary with distinct ids, IdToToken(TokenToId(t)) = t and TokenToId(IdToToken(i)) = i.", "quantifier": "all vocabularies with distinct ids; WordLevel, WordPiece, BPE and Unigram", "why_tests_cant": "All vocabularies, map iteration orders included.", "anchors": ["model/bpe/bpe.go:Build", "model/wordpiece/wordpiece.go:Build", "model/wordlevel/wordlevel.go:Build", "model/unigram/unigram.go:Build"]}
{"id": "C19", "title": "Added tokens get fresh, unique, stable ids", "statement": "Over any history of AddTokens/AddSpecialTokens calls: a token already known keeps its id, a new one gets an id not used by the model or by another added token, TokenToId and IdToToken are inverse on added tokens, the returned count is the number of tokens newly added, and no call aborts the process.", "quantifier": "all histories of additions over any base vocabulary with ids 0..n-1", "why_tests_cant": "History invariant.", "anchors": ["added-vocabulary.go:AddTokens", "added-vocabulary.go:AddSpecialTokens", "added-vocabulary.go:refreshAddedTokens"]}
{"id": "C20", "title": "Reading the vocabulary has no side effects", "statement": "GetVocab (with or without added tokens) does not change what later calls to GetVocabSize, TokenToId, AddTokens or Encode return.", "quantifier": "all tokenizer states and call histories", "why_tests_cant": "Aliasing of the returned map over histories.", "anchors": ["tokenizer.go:GetVocab", "tokenizer.go:GetVocabSize", "added-vocabulary.go:AddTokens"]}
{"id": "C21", "title": "Added-token extraction partitions the text and finds every token", "statement": "Splitting a text on added tokens produces consecutive pieces covering the whole text, pieces labelled with a token are exact occurrences found by the matcher, and every occurrence that does not overlap an extracted one is extracted.", "quantifier": "all texts and sets of added tokens", "why_tests_cant": "All texts and pattern orders.", "anchors": ["added-vocabulary.go:findMatches", "added-vocabulary.go:splitWithIndices"]}
{"id": "C22", "title": "Pattern matching partitions the string", "statement": "FindMatches of every pattern kind (rune, string, regexp, function, and inverted) returns consecutive ranges that start at 0, end at the byte length and alternate match/non-match coverage with no gap or overlap.", "quantifier": "all strings, all match sets returned by a regexp engine (ordered, disjoint)", "why_tests_cant": "All strings and match lists.", "anchors": ["normalizer/pattern.go"]}
{"id": "C23", "title": "Split keeps the text according to its delimiter behavior", "statement": "NormalizedString.Split with Isolated, MergedWithPrevious, MergedWithNext or Contiguous yields pieces whose concatenation is the input; Removed yields exactly the non-matching pieces in order.", "quantifier": "all strings and match partitions, all five behaviors", "why_tests_cant": "All match partitions.", "anchors": ["normalizer/normalized.go:Split"]}
{"id": "C24", "title": "Transform produces exactly the requested text and never touches the original", "statement": "Transform/TransformRange replace the selected part of the normalized text by exactly the listed characters, leave the rest of the normalized text and the whole original text unchanged.", "quantifier": "all strings and change lists", "why_tests_cant": "All change lists.", "anchors": ["normalizer/normalized.go:TransformRange"]}
{"id": "C25", "title": "Alignments stay well-formed", "statement": "After any history of normalization operations there is exactly one original range per normalized byte and every range lies within the original text.", "quantifier": "all strings and operation histories", "why_tests_cant": "History invariant over an intricate algorithm.", "anchors": ["normalizer/normalized.go:TransformRange", "normalizer/normalized.go:Lowercase"]}
{"id": "C26", "title": "Case mapping keeps alignments", "statement": "Lowercase/Uppercase keep one alignment per byte of the normalized text.", "quantifier": "all strings, all case mappings", "why_tests_cant": "Some characters change byte length under case mapping.", "anchors": ["normalizer/normalized.go:Lowercase", "normalizer/normalized.go:Uppercase", "normalizer/normalized.go:ForEach"]}
{"id": "C27", "title": "Offset conversion and slicing stay inside the text", "statement": "ConvertOffset maps a valid normalized range to a valid original range (start <= end <= length) and Slice returns the selected text with matching alignments.", "quantifier": "all normalized strings with ordered alignments, all ranges", "why_tests_cant": "All ranges.", "anchors": ["normalizer/normalized.go:ConvertOffset", "normalizer/normalized.go:Slice"]}
{"id": "C28", "title": "Elementary normalizers produce the documented text", "statement": "Strip, Prepend, Append, Replace, Filter, Clear produce exactly the documented text.", "quantifier": "all strings", "why_tests_cant": "All strings.", "anchors": ["normalizer/normalized.go", "normalizer/strip.go", "normalizer/prepend.go", "normalizer/replace.go"]}
{"id": "C29", "title": "Pre-tokenization steps never lose extracted tokens or text", "statement": "PreTokenizedString.Split/Normalize/Tokenize keep every already tokenized piece, and the pieces' texts concatenate to what the split function produced.", "quantifier": "all pre-tokenized strings and split functions", "why_tests_cant": "All states.", "anchors": ["pretokenizer.go:Split", "pretokenizer.go:Normalize", "pretokenizer.go:Tokenize"]}
{"id": "C30", "title": "IntoEncoding yields parallel attributes and correct offsets", "statement": "IntoEncoding fails iff some piece has no tokens, otherwise lists every token once, in order, with parallel attribute lists; byte offsets lie in the original text and character offsets are the character positions of those bytes.", "quantifier": "all pre-tokenized strings", "why_tests_cant": "All texts, multi-byte included.", "anchors": ["pretokenizer.go:IntoEncoding", "pretokenizer.go:BytesToCharOffsetConverter"]}
{"id": "C31", "title": "Byte-level alphabet is a bijection and decoding inverts encoding", "statement": "The byte-level mapping sends the 256 bytes to 256 distinct printable characters, and decoding the byte-level rendering of any byte string yields that byte string.", "quantifier": "all byte strings", "why_tests_cant": "Unbounded strings.", "anchors": ["pretokenizer/bytelevel.go:GenerateBytesChar", "pretokenizer/bytelevel.go:DecodeChain"]}
{"id": "C32", "title": "Byte-fallback decoding rebuilds UTF-8", "statement": "A maximal run of <0xNN> tokens decodes to the string with those bytes when they are valid UTF-8 and to one replacement character per byte otherwise; other tokens pass through unchanged.", "quantifier": "all token lists", "why_tests_cant": "All token lists.", "anchors": ["decoder/byte-fallback.go"]}
{"id": "C33", "title": "Decoders are total and compose", "statement": "Fuse joins all tokens, Sequence applies its decoders in order, BPE/WordPiece/CTC/Strip decoders yield the documented text, and no decoder crashes on any token list.", "quantifier": "all token lists", "why_tests_cant": "All token lists.", "anchors": ["decoder/"]}
{"id": "C34", "title": "Metaspace decoding inverts metaspace encoding", "statement": "Decoding the pieces produced by the metaspace pre-tokenizer restores the text.", "quantifier": "all texts not containing the replacement character", "why_tests_cant": "All texts.", "anchors": ["pretokenizer/metaspace.go"]}
{"id": "C35", "title": "WordPiece is greedy longest-match-first", "statement": "WordPiece.Tokenize returns the unique greedy longest-prefix segmentation (continuing pieces looked up with the prefix), tiling the word; if none exists or the word is too long it returns the single unknown token spanning the word, or an error if that is not in the vocabulary.", "quantifier": "all words and vocabularies", "why_tests_cant": "All words and vocabularies.", "anchors": ["model/wordpiece/wordpiece.go:Tokenize"]}
{"id": "C36", "title": "Model token offsets are byte offsets", "statement": "The offsets a model reports for its tokens are byte positions in the given word, as IntoEncoding assumes.", "quantifier": "all words, multi-byte included; all four models", "why_tests_cant": "Multi-byte text.", "anchors": ["model/wordpiece/wordpiece.go:Tokenize", "model/wordlevel/wordlevel.go:Tokenize", "model/unigram/unigram.go:tokensToTokenizer", "pretokenizer.go:IntoEncoding"]}
{"id": "C37", "title": "WordLevel tokenization", "statement": "WordLevel.Tokenize yields one token spanning the word with the word's id, or the unknown id, or an error iff neither is in the vocabulary; the builder gives the unknown token an id no other token has.", "quantifier": "all words, vocabularies and builder histories", "why_tests_cant": "All vocabularies.", "anchors": ["model/wordlevel/wordlevel.go"]}
{"id": "C38", "title": "Unigram picks the best segmentation", "statement": "Unigram tokenization returns a segmentation of the input into vocabulary tokens (or unknown characters) of maximal total score.", "quantifier": "all inputs and scored vocabularies", "why_tests_cant": "Exponentially many segmentations.", "anchors": ["model/unigram/unigram.go:tokenizeWithViterbi"]}
{"id": "C39", "title": "BERT post-processing", "statement": "BertProcessing adds [CLS] A [SEP] (B [SEP]) with the documented type ids and masks to the encoding and to each overflow part, keeps attribute lists parallel, and adds exactly AddedTokens(isPair) tokens.", "quantifier": "all encodings and pairs", "why_tests_cant": "All encodings incl. overflow.", "anchors": ["processor/bert.go"]}
{"id": "C40", "title": "RoBERTa post-processing", "statement": "RobertaProcessing adds <s> A </s> (</s> B </s>), adds exactly AddedTokens(isPair) tokens and works for every setting of its options.", "quantifier": "all encodings, pairs and settings", "why_tests_cant": "All encodings and settings.", "anchors": ["processor/roberta.go"]}
{"id": "C41", "title": "Template post-processing", "statement": "TemplateProcessing yields the concatenation of its pieces in template order, AddedTokens is the number of tokens it adds, and attribute lists stay parallel.", "quantifier": "all templates, encodings and special tokens", "why_tests_cant": "All templates.", "anchors": ["processor/template.go"]}
{"id": "C42", "title": "Sequenced post-processors", "statement": "A Sequence post-processor composes its processors so that each input sequence occurs once in the result and AddedTokens is the number of tokens added.", "quantifier": "all processor lists and inputs", "why_tests_cant": "All processor lists.", "anchors": ["processor/sequence.go"]}
{"id": "C43", "title": "The final encoding respects the configured maximum length", "statement": "With truncation to MaxLength and special tokens enabled, the encoding returned by post-processing has at most MaxLength tokens before padding.", "quantifier": "all encodings, processors and limits", "why_tests_cant": "All lengths.", "anchors": ["tokenizer.go:PostProcess"]}
{"id": "C44", "title": "Batch encoding returns results in input order under every schedule", "statement": "EncodeBatch returns, for any number of inputs and any interleaving of its workers, the same encodings in the same order as encoding sequentially, or an error if some input fails.", "quantifier": "all schedules", "why_tests_cant": "Schedules.", "anchors": ["tokenizer.go:EncodeBatch"]}
{"id": "C45", "title": "Batch decoding returns results in input order under every schedule", "statement": "DecodeBatch returns the decoded sentences in input order, none missing, under every interleaving of its workers.", "quantifier": "all schedules", "why_tests_cant": "Schedules.", "anchors": ["tokenizer.go:DecodeBatch"]}
{"id": "C46", "title": "Training counts do not depend on the schedule", "statement": "The word counts collected by Train (and the pair counts of the BPE trainer) are the sums over all inputs, independent of worker interleaving and of the number of workers.", "quantifier": "all inputs and schedules", "why_tests_cant": "Schedules and sizes.", "anchors": ["tokenizer.go:Train", "model/bpe/trainer.go:countPairs", "model/bpe/trainer.go:countPairsM"]}
{"id": "C47", "title": "BPE training produces a usable model", "statement": "The trained vocabulary contains the special tokens and at most LimitAlphabet initial characters, every id has a token, ids are distinct, vocabulary size does not exceed the target by training, and every merge's parts and result are in the vocabulary.", "quantifier": "all word counts and trainer settings", "why_tests_cant": "All corpora.", "anchors": ["model/bpe/trainer.go"]}
{"id": "C48", "title": "Downloaded files appear atomically in the cache", "statement": "At every crash point CachedPath leaves either no cached file or a complete one under the cached name; a later call never serves a partial file.", "quantifier": "all crash points", "why_tests_cant": "Crash points.", "anchors": ["file-util.go:CachedPath"]}
{"id": "C49", "title": "Decoding ids to text", "statement": "Decode maps each known id to its token in order, skips special tokens iff asked, ignores unknown ids, and joins with spaces when no decoder is set.", "quantifier": "all id lists and tokenizer states", "why_tests_cant": "All id lists.", "anchors": ["tokenizer.go:Decode"]}
{"id": "C50", "title": "Configuration values reach the model", "statement": "Every value in a tokenizer.json section that the loader reads determines the corresponding setting of the created component (continuing prefix, max chars, padding, truncation, patterns).", "quantifier": "all configuration values", "why_tests_cant": "All configurations.", "anchors": ["pretrained/model.go", "pretrained/normalizer.go", "pretrained/padding.go", "pretrained/truncation.go", "model/wordpiece/wordpiece.go:New"]}
{"id": "C51", "title": "Precompiled charsmap normalization", "statement": "Parsing a charsmap blob recovers its trie and text, lookup never reads outside the trie for a well-formed trie, and normalization rewrites every grapheme of the input.", "quantifier": "all blobs and inputs", "why_tests_cant": "All inputs.", "anchors": ["spm/spm-precompiled.go"]}
{"id": "C52", "title": "Vocabulary files survive save and load", "statement": "Saving a WordPiece/WordLevel vocabulary and reading it back yields the same token-to-id mapping.", "quantifier": "all vocabularies with ids 0..n-1 and newline-free tokens", "why_tests_cant": "All vocabularies.", "anchors": ["model/wordpiece/wordpiece.go:Save", "model/wordpiece/wordpiece.go:ReadFiles", "model/wordlevel/wordlevel.go:Save"]}
{"id": "C53", "title": "Built-in pre-tokenizers lose no text", "statement": "The BERT, whitespace, punctuation, digits, delimiter and script pre-tokenizers produce pieces whose concatenation is the input minus exactly the documented separators.", "quantifier": "all texts", "why_tests_cant": "All texts.", "anchors": ["pretokenizer/bert.go", "pretokenizer/whitespace.go", "pretokenizer/digits.go", "pretokenizer/punctuation.go", "pretokenizer/delimiter.go", "pretokenizer/unicode-script.go"]}
{"id": "C54", "title": "Encode reports offsets inside the input", "statement": "Encoding any input yields tokens whose byte offsets satisfy 0 <= start <= end <= len(input) and tokens appear in text order.", "quantifier": "all inputs, normalizers, pre-tokenizers and models meeting their contracts", "why_tests_cant": "End-to-end for all inputs.", "anchors": ["tokenizer.go:Encode", "tokenizer.go:EncodeSingleSequence"]}
{"id": "C55", "title": "Byte-level pre-tokenization is lossless", "statement": "Decoding the pieces the byte-level pre-tokenizer makes of a text with the byte-level decoder gives back the text (with the prefix space, if one was added).", "quantifier": "all texts and settings", "why_tests_cant": "All texts; depends on alignment bookkeeping through splitting and rewriting.", "anchors": ["pretokenizer/bytelevel.go:PreTokenize", "pretokenizer/bytelevel.go:Decode"]}
{"id": "C56", "title": "Post-processed encodings record which sequence a token came from", "statement": "After post-processing a pair, SequenceRanges holds for each of the two sequences exactly the positions of its tokens, and Token2Sequence answers accordingly.", "quantifier": "all encodings, pairs and post-processors", "why_tests_cant": "All template shapes and lengths.", "anchors": ["encoding.go:SetSequenceIds", "encoding.go:Token2Sequence", "processor/template.go:ApplyTemplate", "processor/bert.go:Process", "processor/roberta.go:Process"]}
{"id": "C57", "title": "Encode labels tokens with their word and sequence", "statement": "The encoding of a text consists of the tokens of its pieces in order, numbered by piece; the encoding of a list of words consists of the encodings of the words in order, numbered by word; in a pair the first sequence has type id 0 and the second type id 1.", "quantifier": "all tokenizers and inputs", "why_tests_cant": "All combinations of added tokens, pre-tokenizers, models and inputs.", "anchors": ["tokenizer.go:EncodeSingleSequence", "tokenizer.go:doTokenize", "pretokenizer.go:IntoEncoding"]}
{"id": "C58", "title": "Added tokens found in the text are in its encoding", "statement": "Every added token that is extracted from a text (or from its normalized parts) is a token of the encoding, with its id, in text order.", "quantifier": "all texts, normalizers and pre-tokenizers", "why_tests_cant": "All texts and component combinations.", "anchors": ["added-vocabulary.go:ExtractAndNormalize", "pretokenizer.go:Split", "pretokenizer.go:Normalize", "tokenizer.go:EncodeSingleSequence"]}
{"id": "C59", "title": "Added tokens are recognised where their options say", "statement": "A plain added token is found at its leftmost disjoint occurrences; a single-word token only as a word of its own; the strip options take the white space next to the token; a normalized token is found where the normalized text contains its normalized content.", "quantifier": "all added tokens and texts", "why_tests_cant": "All contents, options and texts.", "anchors": ["added-vocabulary.go:GetPattern", "added-vocabulary.go:refreshAddedTokens", "added-vocabulary.go:findMatches"]}
{"id": "C60", "title": "The BERT normalizer produces the documented text", "statement": "Cleaning removes NUL, U+FFFD and control characters and turns white space into spaces; every character of the listed CJK blocks gets a space on each side; lower-casing and accent stripping then apply to that text, and any choice of the options composes.", "quantifier": "all texts, all choices of options, all Unicode tables", "why_tests_cant": "All texts and option combinations; the tests use a few short strings.", "anchors": ["normalizer/bert.go:doCleanText", "normalizer/bert.go:doHandleChineseChars", "normalizer/bert.go:isChinese", "normalizer/bert.go:Normalize"]}
{"id": "C61", "title": "The default normalizer lower-cases and trims", "statement": "DefaultNormalizer returns the text in lower case without the white space at both ends (each step optional).", "quantifier": "all texts and case mappings", "why_tests_cant": "All texts; case mappings that change the byte length are rare in test data.", "anchors": ["normalizer/default.go:Normalize"]}
{"id": "C62", "title": "The slice helpers return the documented slice", "statement": "Cut, Delete, Insert, InsertVec, Expand, Extend, Push, Pop, Filter, Reverse, Shuffle, Batch and Deduplicate return the elements their names and comments promise; an index out of range is an error.", "quantifier": "all slices, backing arrays, capacities, indices and element types, any growth policy of append", "why_tests_cant": "All lengths, capacities and aliasings; the tests use two literals.", "anchors": ["util/slice/int.go", "util/slice/string.go", "util/slice/generic.go:Reverse"]}
{"id": "C63", "title": "The slice helpers change no slice but the one they are given", "statement": "Copy, PushFront, the generic Reverse and Merge leave every existing slice as it was; the others write only to the array of their argument; batches can be appended to without overwriting each other; Insert and Delete return a new slice and leave the argument alone.", "quantifier": "all slices sharing backing arrays in any way", "why_tests_cant": "Aliasing shows only for some capacities, which depend on the run-time's growth policy.", "anchors": ["util/slice/int.go", "util/util.go:Merge", "util/slice/int.go:BatchInt"]}
{"id": "C64", "title": "The list helpers and iterators of util", "statement": "MakeRange returns the numbers from start to end; MinMax the extremes; Repeat, Zip, Contains and ReadAllLn what they say; the iterators deliver every element once, in order, and know their index.", "quantifier": "all lists", "why_tests_cant": "All lists and lengths.", "anchors": ["util/util.go:MakeRange", "util/util.go:MinMax", "util/util.go:Zip", "util/util.go:ReadAllLn", "util/util.go:Repeat", "util/iterator.go:Next", "util/iterator.go:CurrentIndex"]}
{"id": "C65", "title": "The sequence of each token can be looked up", "statement": "GetSequenceIds returns one entry per token: the number of the sequence the token belongs to. SequenceRange returns the token range of a sequence.", "quantifier": "all encodings with any number of sequences, any growth policy of append", "why_tests_cant": "All numbers and lengths of sequences; the result is built by appending to views of the list being read.", "anchors": ["encoding.go:GetSequenceIds", "encoding.go:SequenceRange", "encoding.go:NSequences"]}
{"id": "C66", "title": "Template texts, the template builder and its validation", "statement": "A template text such as '[CLS] $A [SEP] $B:1 [SEP]:1' denotes exactly its pieces, anything else is rejected; the builder sets the part it is asked to set and AddedTokens stays right; Validate accepts exactly the templates whose pair part uses both sequences and whose special tokens are all known.", "quantifier": "all texts, all sequences of builder calls, all encodings", "why_tests_cant": "All texts and call sequences; the tests parse a handful of pieces.", "anchors": ["processor/template.go:extractId", "processor/template.go:NewPiece", "processor/template.go:NewTemplateFromOne", "processor/template.go:NewSingle", "processor/template.go:Validate", "processor/template.go:DefaultTemplateProcessing"]}
{"id": "C67", "title": "Parameter maps", "statement": "Params behaves as a map from names to values: Set, Pop, Delete and DeleteAll change exactly the named keys of one map; Get, Has, Param, Keys and Len read it; Select returns a new map with the asked keys; Clone and DeepCopy return deep copies that share no map with the original; WithParams transfers all parameters.", "quantifier": "all heaps of nested parameter maps, all keys and values", "why_tests_cant": "All nestings and sharings; a shared inner map shows only when it is later changed.", "anchors": ["util/param.go:Get", "util/param.go:Delete", "util/param.go:Select", "util/param.go:Clone", "util/param.go:deepCopy", "util/param.go:WithParams", "util/param.go:IsNil"]}
{"id": "C68", "title": "A trained WordPiece model can tokenize its corpus", "statement": "Training a WordPiece model ends with a model whose vocabulary is that of the trainer, with inverse id and token lookups, the unknown token and continuing pieces; it splits words into pieces, and the words it was trained on are tokenized.", "quantifier": "all corpora, settings without an alphabet limit, iteration orders and addresses", "why_tests_cant": "All corpora; the trainer has no test.", "anchors": ["model/wordpiece/trainer.go:Train", "model/wordpiece/wordpiece.go:NewWordPieceFromBPE", "model/bpe/trainer.go:tokenizeWords"]}
{"id": "C69", "title": "Builders of trainers and WordPiece models", "statement": "A built trainer or model has the last value given to each setting and the default for the others; settings made on one builder do not change another, and a builder returned by a setter is independent of its receiver.", "quantifier": "all sequences of settings on any number of builders", "why_tests_cant": "All sequences; sharing shows only when two trainers are derived from one builder.", "anchors": ["model/wordpiece/trainer.go:NewWordPieceTrainerBuilder", "model/wordpiece/trainer.go:VocabSize", "model/wordpiece/trainer.go:Build", "model/bpe/trainer.go:Build", "model/wordpiece/wordpiece.go:Build"]}
{"id": "C70", "title": "The Unicode normalizers produce the named normal form", "statement": "The normalizers NFC, NFD, NFKC and NFKD turn a text into the named Unicode normal form, leave a text that is in the form as it is, and align every byte of the result with the character and marks it comes from; a sequence of normalizers applies them one after the other.", "quantifier": "all texts, all four forms, every library that decides and decomposes correctly", "why_tests_cant": "Composed and decomposed texts look alike; the wrong branch is taken only for texts that are not yet normal, or only for those that are; alignments shift only behind particular characters.", "anchors": ["normalizer/unicode.go:Normalize", "normalizer/normalized.go:NFD", "normalizer/normalized.go:NFC", "normalizer/normalized.go:NFKD", "normalizer/normalized.go:NFKC", "normalizer/sequence.go:Normalize"]}
{"id": "C71", "title": "Encoding valid text never fails", "statement": "For a configured tokenizer whose model has an unknown token, encoding any valid text, list of words or pair of them returns an encoding: no error, no panic, no exit of the process, and no endless loop.", "quantifier": "all texts without NUL, lists of words and pairs, all combinations of the supported normalizers, pre-tokenizers, models, post-processors, truncation and padding", "why_tests_cant": "Failures depend on particular combinations of characters at both ends of the text, of lengths and limits, and of components; no test suite meets them all.", "anchors": ["tokenizer.go:Encode", "tokenizer.go:EncodeSingleSequence", "tokenizer.go:doNormalize", "tokenizer.go:doPostProcess", "normalizer/normalized.go:TransformRange", "normalizer/default.go:Normalize", "normalizer/bert.go:Normalize", "normalizer/replace.go:Normalize", "util.go:TruncateEncodings", "encoding.go:Pad"]}
{"id": "C72", "title": "Decoding an encoded text gives the text", "statement": "For a byte-level tokenizer whose model knows the 256 characters that stand for bytes, also behind pre-tokenizers that cut the text without removing anything, encoding a valid text, a list of words or a pair and decoding the ids (skipping the special tokens that post-processing and padding add) gives the text back, with the prefix space where one is asked for.", "quantifier": "all texts without NUL, lists of words and pairs, all vocabularies and merges that load, all added tokens, post-processors and padding settings, truncation not set", "why_tests_cant": "The texts and vocabularies are unbounded; a token boundary inside a character, a wrong merge or an id that names another text shows only for particular combinations.", "anchors": ["tokenizer.go:Encode", "tokenizer.go:Decode", "pretokenizer/bytelevel.go:PreTokenize", "pretokenizer/bytelevel.go:Decode", "model/bpe/bpe.go:Tokenize", "model/bpe/bpe.go:CreateMerges", "added-vocabulary.go:ExtractAndNormalize"]}
{"id": "C73", "title": "The ready-made tokenizers decode what they encode", "statement": "The tokenizers built by the package pretrained (GPT-2, RoBERTa and BERT) decode the ids of an encoded text to the text, when special tokens are skipped.", "quantifier": "all texts without NUL, lists of words and pairs, all vocabularies with the 256 characters of the byte-level alphabet and all merges files that load, all settings of the prefix space", "why_tests_cant": "Which texts come back depends on every byte of the text and on where the merges put the last token; the set of texts is unbounded.", "anchors": ["pretrained/gpt2.go:GPT2", "pretrained/roberta.go:RobertaBase", "pretrained/bert.go:BertBaseUncased", "decoder/bpe.go:DecodeChain", "decoder/wordpiece.go:DefaultWordpieceDecoder", "added-vocabulary.go:NewAddedToken", "tokenizer.go:Decode"]}
{"id": "C74", "title": "WordPiece tokenizers decode to the words of the text", "statement": "A tokenizer that cuts text into words for a WordPiece model (such as BERT) decodes the ids of an encoded text to the words of the normalized text in their order, a word outside the vocabulary as the unknown token, with single spaces between them and none in front of a full stop, question mark, exclamation mark or comma.", "quantifier": "all texts without NUL, lists of words and pairs, all vocabularies with distinct entries, all Unicode tables, all pre-tokenizers that cut", "why_tests_cant": "The clean-up of the decoder is a chain of textual replacements over the joined tokens; whether one fires across a word boundary depends on the words, of which there are unboundedly many.", "anchors": ["model/wordpiece/wordpiece.go:Tokenize", "decoder/wordpiece.go:DecodeChain", "decoder/wordpiece.go:Cleanup", "pretokenizer/bert.go:PreTokenize", "pretrained/bert.go:BertLargeCasedWholeWordMaskingSquad", "tokenizer.go:Decode", "normalizer/bert.go:Normalize"]}
{"id": "C75", "title": "Metaspace tokenizers decode what they encode", "statement": "A tokenizer with the metaspace pre-tokenizer (as for T5 or LLaMA) decodes the ids of an encoded text to the text, if the vocabulary has its characters: every white-space character and mark as a space, and without the first space if a mark is put in front. So a text comes back unchanged exactly if it has no white space but spaces, it has no mark and, where a mark is put in front, it does not begin with a space.", "quantifier": "all valid texts without NUL, lists of words and pairs, all marks, all prepend schemes, all BPE and Unigram vocabularies, all added tokens", "why_tests_cant": "The text between the added tokens, the place of the marks, the merges or scores of the model and the first word that loses its space all interact, and there are unboundedly many texts and vocabularies.", "anchors": ["pretokenizer/metaspace.go:PreTokenize", "pretokenizer/metaspace.go:DecodeChain", "model/unigram/unigram.go:Tokenize", "model/bpe/bpe.go:Tokenize", "tokenizer.go:Encode", "tokenizer.go:Decode"]}
{"id": "C76", "title": "Tokenizers loaded from a file decode what they encode", "statement": "A tokenizer loaded from a tokenizer.json file that describes a byte-level BPE tokenizer or a metaspace tokenizer with a BPE or Unigram model loads, gives the listed tokens their ids, and decodes the ids of an encoded text to the text when special tokens are skipped.", "quantifier": "all files that describe such a tokenizer, with any vocabulary, merges, listed tokens, post-processor and padding; all orders in which Go walks the vocabulary; all valid texts, lists of words and pairs in which no listed token is written", "why_tests_cant": "The loader, the added vocabulary, the pipeline and the decoder have to agree for every vocabulary, list of tokens and text; the order of a Go map differs between runs.", "anchors": ["pretrained/tokenizer.go:FromReader", "pretrained/model.go:CreateModel", "pretrained/decoder.go:CreateDecoder", "pretrained/added-tokens.go:CreateAddedTokens", "added-vocabulary.go:AddTokens", "tokenizer.go:Encode", "tokenizer.go:Decode"]}
{"id": "C77", "title": "BERT tokenizers loaded from a file decode to the words of the text", "statement": "A tokenizer loaded from a tokenizer.json file that describes a cased or uncased BERT tokenizer (WordPiece with ##) loads, encodes every text, and decodes the ids to the words of the text (Chinese characters being words of their own, in lower case and without accents if the file says so) in their order, where special tokens are skipped; a word that the vocabulary cannot spell vanishes if the unknown token is special and is the unknown token otherwise.", "quantifier": "all files that describe such a tokenizer, with any vocabulary, unknown token, word limit, special tokens, post-processor and padding; all orders in which Go walks the vocabulary; all valid texts, lists of words and pairs in which no listed token is written", "why_tests_cant": "Loader, normalizer, added vocabulary, pre-tokenizer, greedy matching, templates and decoder have to agree for every vocabulary and text; the lower case of a rare character can be longer than the character.", "anchors": ["pretrained/tokenizer.go:FromReader", "pretrained/model.go:CreateModel", "pretrained/normalizer.go:CreateNormalizer", "normalizer/bert.go:Normalize", "pretokenizer/bert.go:PreTokenize", "model/wordpiece/wordpiece.go:Tokenize", "decoder/wordpiece.go:DecodeChain", "normalizer/normalized.go:Lowercase", "tokenizer.go:Encode", "tokenizer.go:Decode"]}
{"id": "C78", "title": "A trained byte-level tokenizer decodes what it encodes", "statement": "After training a byte-level BPE model on a corpus and adding the special tokens of the trainer, the special tokens get the ids after the vocabulary, and every text in which no special token is written is encoded to ids that decode to the same text when special tokens are skipped.", "quantifier": "all corpora, sizes, minimum frequencies and special tokens; all orders in which Go walks its maps and the goroutines send their results; all post-processors and padding at the end; all valid texts, lists of words and pairs", "why_tests_cant": "Which pairs are merged depends on the corpus; the case where two different merges make the same text needs a particular corpus, and whether a text round-trips must hold for every text, also bytes the corpus does not have.", "anchors": ["tokenizer.go:Train", "model/bpe/trainer.go:train", "added-vocabulary.go:AddSpecialTokens", "tokenizer.go:Encode", "tokenizer.go:Decode"]}
{"id": "C79", "title": "Unigram models have the settings they were built with, and can be saved and loaded", "statement": "A Unigram model built with the builder has for each setting the last value given or the default; its unknown id is the id of a token; the file that Save writes tells the model apart from models that behave otherwise, and CreateModel reads the same model from it.", "quantifier": "all sequences of builder calls; all models with any vocabulary, unknown id, byte fallback and joining of unknown tokens; all orders in which Go walks maps", "why_tests_cant": "Every combination of settings and every vocabulary has to survive; what is missing in the file shows only for models and texts that depend on it.", "anchors": ["model/unigram/unigram.go:Build", "model/unigram/unigram.go:Save", "model/unigram/unigram.go:New", "pretrained/model.go:createUnigram", "pretrained/model.go:CreateModel"]}
{"id": "C80", "title": "Each token of an encoding is the token of its id", "statement": "In every encoding that Encode returns, and in its overflowing parts, the token at each position is what IdToToken gives for the id at that position, so that decoding the ids decodes the tokens shown; Tokenize returns such tokens.", "quantifier": "all tokenizers of the library's models, normalizers, pre-tokenizers, added tokens, post-processors, truncation and padding; all inputs (raw, words, pairs), offset types and both values of addSpecialTokens", "why_tests_cant": "Ids and tokens are carried in separate lists through splitting, merging, truncation, special tokens and padding; a single step that cuts or fills them differently shows only for some combination of settings and lengths.", "anchors": ["tokenizer.go:Encode", "tokenizer.go:Tokenize", "tokenizer.go:EncodeSingle", "tokenizer.go:IdToToken", "added-vocabulary.go:splitWithIndices", "pretokenizer.go:IntoEncoding", "encoding.go:Truncate", "encoding.go:MergeWith", "encoding.go:Pad", "model/wordlevel/wordlevel.go:Tokenize", "model/unigram/unigram.go:Tokenize", "processor/roberta.go:Process"]}
{"id": "C81", "title": "The windows of a truncated text hold all of its tokens", "statement": "When Encode truncates, the encoding and its overflowing parts are overlapping windows of the text in order (for two texts: all pairs of windows), each with the special tokens of the post-processor around it and padding behind it; taken without what they share they are the whole text.", "quantifier": "all tokenizers, post-processors (none, byte-level, BERT, RoBERTa, templates), maximum lengths, strides, strategies and paddings; all inputs and pairs of inputs", "why_tests_cant": "The number and the ends of the windows depend on length, maximum, stride and the number of special tokens; a window cut one off, or a part that a post-processor forgets, shows only for some of these combinations.", "anchors": ["tokenizer.go:PostProcess", "util.go:TruncateEncodings", "encoding.go:Truncate", "encoding.go:getCurrentPart", "encoding.go:MergeWith", "encoding.go:Pad", "processor/bert.go:Process", "processor/roberta.go:Process", "processor/template.go:applyTemplate"]}
{"id": "C82", "title": "A truncated text can be read back from its windows", "statement": "The ids of the windows of a truncated text, taken without special tokens, padding and what each window shares with the one before, decode to what the ids of the text encoded without truncation decode to; with a byte-level tokenizer this is the text itself.", "quantifier": "all tokenizers and decoders, post-processors (none, byte-level, BERT, RoBERTa, templates), maximum lengths, strides, strategies and paddings; all single inputs", "why_tests_cant": "Whether the windows overlap by exactly the stride, and lose or repeat nothing, depends on length, maximum, stride and special tokens together; decoding then has to agree for every sequence of ids.", "anchors": ["tokenizer.go:Encode", "tokenizer.go:PostProcess", "tokenizer.go:Decode", "encoding.go:Truncate", "encoding.go:Pad", "encoding.go:GetOverflowing"]}
{"id": "C83", "title": "Loading a file comes back with a tokenizer or an error", "statement": "Reading a tokenizer.json file never crashes the program: whatever JSON object the file holds, FromFile returns a tokenizer or an error.", "quantifier": "all JSON values of every section and member, all nestings of sequences", "why_tests_cant": "The sections are untyped maps whose members are asserted to be of some type where they are used; there are as many ways for a file to be malformed as there are JSON values.", "anchors": ["pretrained/tokenizer.go:FromReader", "pretrained/model.go:CreateModel", "pretrained/normalizer.go:CreateNormalizer", "pretrained/pretokenizer.go:CreatePreTokenizer", "pretrained/processor.go:CreatePostProcessor", "pretrained/decoder.go:CreateDecoder", "pretrained/truncation.go:CreateTruncationParams", "pretrained/padding.go:CreatePaddingParams", "util/param.go:Get"]}
{"id": "C84", "title": "An encoding consists exactly of the added tokens and the words of the text", "statement": "The encoding of a text, before special tokens are put around it, consists of the added tokens written in the text, each under its own id, and of the tokens the model makes of the words between them, in the order of the text, without any other token; the word numbers count these items.", "quantifier": "all texts, all tokenizers with a pre-tokenizer that cuts text or none, all sets of added tokens; for BERT all vocabularies and all texts with special tokens in them", "why_tests_cant": "Texts with special tokens in them pass two searches for added tokens, a normalizer and a pre-tokenizer; whether every token is found depends on the order in which the tokens were registered and on the order in which they stand in the text.", "anchors": ["tokenizer.go:Encode", "tokenizer.go:doTokenize", "added-vocabulary.go:ExtractAndNormalize", "added-vocabulary.go:findMatches", "pretokenizer.go:IntoEncoding", "pretrained/bert.go:BertBaseUncased"]}
{"id": "C85", "title": "A word-level tokenizer decodes to the words of the text with single spaces", "statement": "A tokenizer loaded from a tokenizer.json file with a WordLevel model and without a decoder decodes what it encoded to the words of the text with single spaces between them, where words outside the vocabulary are replaced by the unknown token and special tokens are left out. A text of known words with single spaces comes back as it was.", "quantifier": "all WordLevel files with a pre-tokenizer that cuts text, all vocabularies, listed special tokens, post-processors that add only special tokens and paddings, all texts, pairs and word lists", "why_tests_cant": "Loading, cutting, looking up, post-processing, padding, skipping special tokens and joining all have to fit together for every file and every text; tests try a few files and sentences.", "anchors": ["pretrained/tokenizer.go:FromReader", "pretrained/model.go:createWordLevel", "model/wordlevel/wordlevel.go:Tokenize", "tokenizer.go:Decode", "pretokenizer/whitespace.go:PreTokenize"]}
{"id": "C86", "title": "An encoding made from tokens holds these tokens and can be used like any other", "statement": "NewEncodingFromTokens(tokens, typeId) gives an encoding with exactly the ids, texts and offsets of the tokens, in order, with the given type id for every token, attended to, not special and in no word; it can be truncated and merged like every encoding, and after a merge its tokens are still in no word.", "quantifier": "all lists of tokens, type ids, truncation lengths and strides, all encodings merged with it", "why_tests_cant": "The tests build encodings with type id 0 only and never truncate them; the missing words show only in later operations.", "anchors": ["encoding.go:NewEncodingFromTokens", "encoding.go:Truncate", "encoding.go:MergeWith", "encoding.go:Token2Word"]}
{"id": "C87", "title": "Merging two encodings remembers where each sequence is", "statement": "After two encodings are merged, with MergeWith or with mergeEncoding, the recorded positions of every sequence are those it had in the first encoding followed by those in the second, moved by the length of the first; mergeEncoding concatenates all attributes of encodings without overflowing parts and stops the program for others.", "quantifier": "all encodings whose recorded ranges are intervals, all sequence numbers", "why_tests_cant": "Sequences present in both or in only one of the encodings behave differently; mergeEncoding has no test.", "anchors": ["encoding.go:mergeEncoding", "encoding.go:MergeWith"]}
{"id": "C88", "title": "Tokenizers of the Llama kind give texts back", "statement": "With a tokenizer loaded from a file whose normalizer puts a mark in front of the text and in the place of every space, with a BPE model, no pre-tokenizer, and a decoder that puts spaces for marks, fuses the tokens and strips one space in front: if every character of a text is in the vocabulary and no listed token is written in it, encoding the text and decoding the ids without special tokens gives the text back; several texts come back with spaces between them.", "quantifier": "all files of this kind, vocabularies and merges, marks, post-processors and padding whose tokens are special, all texts without NUL", "why_tests_cant": "No test loads a file of this kind; the empty text and texts with the mark in them fail only when decoded.", "anchors": ["pretrained/tokenizer.go:FromReader", "normalizer/prepend.go:Normalize", "normalizer/replace.go:DecodeChain", "decoder/strip.go:DecodeChain", "decoder/fuse.go:DecodeChain", "tokenizer.go:Decode"]}
{"id": "C89", "title": "Order on merges and symbol lists", "statement": "Merges are totally ordered: one is greater than another exactly if its rank is lower or, with equal ranks, its position is further to the left; they are equal exactly if rank and position agree; the queue that picks the next merge uses this order. Inserting a symbol puts it at the index and keeps the others in order, removing takes out the one at the index, and an index out of range is an error.", "quantifier": "all merges, all symbol lists, capacities and indices", "why_tests_cant": "All combinations of ranks, positions, lengths, spare capacity and indices.", "anchors": ["model/bpe/word.go:PartialCmp", "model/bpe/word.go:Cmp", "model/bpe/word.go:Insert", "model/bpe/word.go:Remove", "model/bpe/word.go:MergeAll"]}
{"id": "C90", "title": "BPE models have the settings they were built with", "statement": "A BPE model built with the builder has for each setting the last value given or the default, and the vocabulary and merges last given, as tables or as files; building fails exactly if the dropout is not a probability above 0 or the files cannot be read; the constructors NewBPE, NewBpeFromFiles and New make the models that the builder makes.", "quantifier": "all sequences of builder calls, with models built in between; all file contents; all float values of the dropout; all orders in which Go walks maps", "why_tests_cant": "Every order and combination of calls has to be right, and which of two conflicting settings wins shows only in histories with both.", "anchors": ["model/bpe/bpe.go:NewBpeBuilder", "model/bpe/bpe.go:Files", "model/bpe/bpe.go:VocabAndMerges", "model/bpe/bpe.go:Dropout", "model/bpe/bpe.go:Build", "model/bpe/bpe.go:NewBPE", "model/bpe/bpe.go:NewBpeFromFiles", "model/bpe/bpe.go:New"]}
{"id": "C91", "title": "Progress of a download", "statement": "While a file is downloaded, the total shown is the number of bytes written so far; a number of bytes is shown in the largest unit (B, KiB, ..., EiB) that it reaches, rounded to the nearest tenth, and fewer than 1024 of the unit are shown; no number of 64 bits makes it panic.", "quantifier": "all numbers below 2^64, all sequences of writes", "why_tests_cant": "The set of numbers has 2^64 elements, and the last unit, the rounding at the edges and the overflow of the divisor show only for particular ones.", "anchors": ["file-util.go:byteCountIEC", "file-util.go:Write", "file-util.go:printProgress"]}
{"id": "C92", "title": "Reading characters one by one", "statement": "The reader of characters returns the characters of its list in their order, and the end from then on; each has its size in bytes, as io.RuneReader asks, so that positions found by a regexp on the reader are positions in the text.", "quantifier": "all lists of characters, all numbers of calls", "why_tests_cant": "The number of characters and of calls, also after the end, is unbounded, and the sizes agree with the bytes for every ASCII text.", "anchors": ["util/rune-reader.go:NewRuneReader", "util/rune-reader.go:ReadRune"]}
{"id": "C93", "title": "Settings of an added token", "statement": "An added token has the content it was made with and, of each kind of setting, the last one given, when it was made or afterwards; without one it is not a single word, strips nothing, and is normalized exactly if it is not special. Giving one setting changes no other.", "quantifier": "all contents, all sequences of options and setters", "why_tests_cant": "Sequences of settings are unbounded; tests set each once, in one order.", "anchors": ["added-vocabulary.go:NewAddedToken", "added-vocabulary.go:WithSingleWord", "added-vocabulary.go:SetSingleWord", "added-vocabulary.go:SetNormalized"]}
