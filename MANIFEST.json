{
 "claims": [
  {
   "property": "C01",
   "status": "proved",
   "theorems": [
    "C01_truncate_windows",
    "C01_no_token_lost"
   ],
   "note": "Exact prefix and window list for every parallel encoding, length and stride."
  },
  {
   "property": "C02",
   "status": "proved",
   "theorems": [
    "C02_truncate_outcomes",
    "C02_truncate_error_iff"
   ],
   "note": ""
  },
  {
   "property": "C03",
   "status": "proved",
   "theorems": [
    "C03_history_parallel"
   ],
   "note": "Left padding is excluded: it panics or produces misaligned type ids (C06)."
  },
  {
   "property": "C04",
   "status": "proved",
   "theorems": [
    "C04_merge_concatenates",
    "C04_merge_overflow",
    "C04_merge_overflow_count",
    "C04_merge_ranges",
    "C04_merge_total",
    "C04_merge_nil_ranges_panic"
   ],
   "note": "Totality holds when the range maps are allocated; C04_merge_nil_ranges_panic shows the crash otherwise (windows made by Truncate have a nil map)."
  },
  {
   "property": "C05",
   "status": "proved",
   "theorems": [
    "C05_pad_right_exact",
    "C05_pad_right_noop"
   ],
   "note": ""
  },
  {
   "property": "C06",
   "status": "partial",
   "theorems": [
    "C06_left_pad_refuted",
    "C06_left_pad_panics_refuted",
    "C06_left_pad_noop_partial"
   ],
   "note": "The code violates the property: left padding panics on every non-empty encoding shorter than the target and gives wrong type ids on empty ones. Only the no-op case holds."
  },
  {
   "property": "C07",
   "status": "proved",
   "theorems": [
    "C07_pad_batch_longest",
    "C07_pad_fixed"
   ],
   "note": ""
  },
  {
   "property": "C08",
   "status": "partial",
   "theorems": [
    "C08_single_limit",
    "C08_pair_only_first_partial",
    "C08_pair_only_second_partial",
    "C08_pair_longest_first_partial",
    "C08_pair_limit_refuted",
    "C08_pair_longest_first_lengths"
   ],
   "note": "Holds for single encodings and for pairs when the part to shorten keeps more than stride tokens; refuted for pairs otherwise (the Truncate error is ignored). Exact resulting lengths are given for LongestFirst."
  },
  {
   "property": "C09",
   "status": "partial",
   "theorems": [
    "C09_truncate_no_write",
    "C09_pad_small_target_partial",
    "C09_pad_large_target_refuted"
   ],
   "note": "Holds when the padding target is at most the truncation length; refuted for every larger target with two or more windows (shared backing array)."
  },
  {
   "property": "C10",
   "status": "partial",
   "theorems": [
    "C10_char2token",
    "C10_token2word",
    "C10_token2chars_partial",
    "C10_token2chars_refuted",
    "C10_word2tokens_partial",
    "C10_word2tokens_refuted",
    "C10_char2word",
    "C10_word2chars_partial",
    "C10_token2sequence",
    "C10_token2sequence_bounds_refuted"
   ],
   "note": "Char2Token and Token2Word hold; Token2Chars panics at index = length; Word2Tokens is right for non-decreasing words only and wrong whenever a word-less token follows the last word."
  },
  {
   "property": "C11",
   "status": "partial",
   "theorems": [
    "C11_offsets_tile_partial",
    "C11_invalid_utf8_refuted",
    "C11_values"
   ],
   "note": "Offsets tile every valid UTF-8 word; refuted for every word that is not valid UTF-8 (the offsets overrun the input)."
  },
  {
   "property": "C12",
   "status": "proved",
   "theorems": [
    "C12_merge_exhaustive",
    "C12_tokenize_exhaustive",
    "C12_tokenize_terminates"
   ],
   "note": ""
  },
  {
   "property": "C13",
   "status": "partial",
   "theorems": [
    "C13_lowest_rank_partial",
    "C13_reference_partial",
    "C13_tokenize_reference_partial",
    "C13_leftmost_refuted"
   ],
   "note": "Every merge performed has the lowest rank available, and the result equals the reference algorithm when pairs of equal rank cannot overlap. Leftmost-first among overlapping pairs of equal rank is refuted."
  },
  {
   "property": "C14",
   "status": "partial",
   "theorems": [
    "C14_prescribed_partial",
    "C14_offsets_tile_partial",
    "C14_termination_refuted"
   ],
   "note": "Every terminating dropout run performs only prescribed merges and keeps tiling; termination is refuted for dropout draws that always skip."
  },
  {
   "property": "C15",
   "status": "partial",
   "theorems": [
    "C15_no_panic",
    "C15_unknown_chars_partial",
    "C15_unconfigured_refuted",
    "C15_missing_unk_refuted"
   ],
   "note": "Unknown characters map to the unknown token when it is configured and present; otherwise the code panics or silently emits id 0."
  },
  {
   "property": "C16",
   "status": "partial",
   "theorems": [
    "C16_cache_transparent_partial",
    "C16_set_values_bounded",
    "C16_capacity_zero_refuted"
   ],
   "note": "Holds for every capacity except 0, for which every non-empty word panics."
  },
  {
   "property": "C17",
   "status": "partial",
   "theorems": [
    "C17_round_trip_partial",
    "C17_same_ranks_partial",
    "C17_same_results_partial",
    "C17_rank_order_suffices",
    "C17_create_outcome",
    "C17_create_rejects",
    "C17_create_ranks",
    "C17_create_line_order",
    "C17_version_refuted",
    "C17_long_line_refuted"
   ],
   "note": "Round trip holds for lines without \"#version\", without a final carriage return and shorter than 64 KiB; refuted for the first and last of these. Lines naming an unknown token are skipped, not rejected (C17_create_ranks says so exactly)."
  },
  {
   "property": "C18",
   "status": "partial",
   "theorems": [
    "C18_bpe",
    "C18_wordpiece",
    "C18_wordlevel",
    "C18_unigram_partial",
    "C18_repeated_ids",
    "C18_unigram_duplicate_refuted"
   ],
   "note": "Proved for BPE, WordPiece and WordLevel, and for Unigram lists without repeated tokens; with a repeated token the earlier position is not found again (refuted)."
  },
  {
   "property": "C19",
   "status": "partial",
   "theorems": [
    "C19_known_tokens_keep_ids",
    "C19_model_tokens_keep_ids",
    "C19_ids_fresh",
    "C19_lookups_inverse",
    "C19_count",
    "C19_new_tokens_have_patterns",
    "C19_no_abort_partial",
    "C19_abort_refuted"
   ],
   "note": "Everything but the last clause holds for all histories; a new token whose pattern does not compile (any content that is not valid UTF-8) ends the process."
  },
  {
   "property": "C20",
   "status": "partial",
   "theorems": [
    "C20_without_added",
    "C20_lookups_unchanged",
    "C20_id_lookups_unchanged",
    "C20_contents",
    "C20_size_refuted",
    "C20_next_id_refuted"
   ],
   "note": "Holds for lookups; refuted for the sizes and for the next added id: GetVocab(true) writes the added tokens into the model's own map. Modelled for BPE, WordPiece and WordLevel."
  },
  {
   "property": "C21",
   "status": "partial",
   "theorems": [
    "C21_pieces_cover",
    "C21_labels_are_occurrences",
    "C21_complete_partial",
    "C21_single_pattern_complete",
    "C21_complete_refuted"
   ],
   "note": "Coverage and labels hold; completeness is refuted whenever a later-registered token stands before an earlier-registered one."
  },
  {
   "property": "C22",
   "status": "partial",
   "theorems": [
    "C22_partition_partial",
    "C22_no_adjacent_gaps",
    "C22_function_matches",
    "C22_rune_matches",
    "C22_regexp_matches",
    "C22_string_matches",
    "C22_invert",
    "C22_invalid_utf8_refuted",
    "C22_invert_invert_refuted",
    "C22_invert_user_defined_refuted"
   ],
   "note": "Holds for every supported pattern on valid text; refuted for function and rune patterns matching U+FFFD in invalid UTF-8 (last range ends past the text) and for inverting an inverted or user-defined pattern (process ends)."
  },
  {
   "property": "C23",
   "status": "partial",
   "theorems": [
    "C23_split_partial",
    "C23_groups",
    "C23_empty",
    "C23_empty_match_refuted"
   ],
   "note": "Holds on all valid non-empty texts with ordered alignments for all supported patterns whose matches are non-empty and fall between characters (always for rune and function patterns). Refuted for patterns with an empty match at the end of the text: Split panics."
  },
  {
   "property": "C24",
   "status": "partial",
   "theorems": [
    "C24_range_text",
    "C24_range_succeeds",
    "C24_transform_fresh_partial",
    "C24_original_range_partial",
    "C24_original_untouched",
    "C24_later_transform_refuted"
   ],
   "note": "TransformRange on normalized ranges is exact; the original is never touched. Transform is exact on fresh strings and replaces what ConvertOffset finds otherwise; refuted for a later Transform (stale alignments make it keep part of the old text)."
  },
  {
   "property": "C25",
   "status": "partial",
   "theorems": [
    "C25_aligned_partial",
    "C25_steps",
    "C25_order_partial",
    "C25_expansion",
    "C25_expansion_range",
    "C25_edit_partial",
    "C25_invalid_utf8_refuted",
    "C25_wrong_ranges_refuted"
   ],
   "note": "Holds for all histories from valid text with length-preserving case maps, with exact alignments for expansions and for edits of single-byte text; refuted for every text that is not UTF-8. The ranges are in bounds but may be wrong when a multi-byte leading character is dropped."
  },
  {
   "property": "C26",
   "status": "partial",
   "theorems": [
    "C26_case_mapping_partial",
    "C26_longer_refuted"
   ],
   "note": "Exactly the length-preserving mappings keep the alignments; every longer result makes slicing the whole text panic."
  },
  {
   "property": "C27",
   "status": "partial",
   "theorems": [
    "C27_convert_partial",
    "C27_slice_partial",
    "C27_slice_inside_char",
    "C27_range",
    "C27_convert_empty_refuted",
    "C27_slice_empty_refuted",
    "C27_from_original_refuted"
   ],
   "note": "Holds for all non-empty normalized ranges; refuted for empty ranges (unconverted; slicing at the end panics) and for ranges of the original text."
  },
  {
   "property": "C28",
   "status": "partial",
   "theorems": [
    "C28_strip_partial",
    "C28_strip_single_byte_partial",
    "C28_strip_panics_refuted",
    "C28_filter_partial",
    "C28_filter_single_byte_partial",
    "C28_prepend",
    "C28_append",
    "C28_replace_partial",
    "C28_clear_single_byte_partial",
    "C28_clear_refuted"
   ],
   "note": "Texts are as documented whenever the operation returns; success and exact alignments are proved for single-byte texts. Refuted: Strip panics after two em spaces, Clear ends the process on every text with a multi-byte character."
  },
  {
   "property": "C29",
   "status": "partial",
   "theorems": [
    "C29_split",
    "C29_split_text",
    "C29_tokenize",
    "C29_history",
    "C29_normalize_partial",
    "C29_normalize_refuted"
   ],
   "note": "Proved for Split and Tokenize and all histories of them; refuted for Normalize, which drops every piece that already has tokens."
  },
  {
   "property": "C30",
   "status": "partial",
   "theorems": [
    "C30_fails",
    "C30_rows",
    "C30_bytes_partial",
    "C30_chars_partial",
    "C30_chars_end_refuted",
    "C30_empty_token_refuted",
    "C30_get_splits",
    "C30_get_splits_refuted"
   ],
   "note": "Failure condition, order and parallel lists proved; byte offsets proved for tokens on non-empty ranges; character offsets proved except at the end of the text, where the end is always one too small. GetSplits with character offsets panics when a piece reaches the end of the text."
  },
  {
   "property": "C31",
   "status": "proved",
   "theorems": [
    "C31_alphabet",
    "C31_bijection",
    "C31_decode",
    "C31_decode_chain"
   ],
   "note": "Alphabet, bijection and inversion for every byte string and every cutting of its rendering into tokens."
  },
  {
   "property": "C32",
   "status": "partial",
   "theorems": [
    "C32_byte_fallback_partial",
    "C32_malformed_refuted"
   ],
   "note": "Exact outcome for every token list without malformed tokens; refuted for \"<0x??>\" tokens that are not hexadecimal, which crash instead of passing unchanged."
  },
  {
   "property": "C33",
   "status": "partial",
   "theorems": [
    "C33_fuse",
    "C33_sequence",
    "C33_decode_joins",
    "C33_bpe",
    "C33_wordpiece",
    "C33_ctc",
    "C33_ctc_runs",
    "C33_strip_partial",
    "C33_strip_refuted",
    "C33_total_partial",
    "C33_default_refuted"
   ],
   "note": "Texts and composition proved. Refuted: Strip crashes on tokens made of the stripped character only and shorter than the two counts, byte fallback on malformed tokens, and the three Default decoders crash on every list."
  },
  {
   "property": "C34",
   "status": "partial",
   "theorems": [
    "C34_text",
    "C34_restored_partial",
    "C34_refuted",
    "C34_leading_refuted"
   ],
   "note": "For every replacement character, scheme and valid text the text that comes back is stated exactly, and restoration is characterised by an iff. Refuted: tabs and newlines come back as spaces, and with a prepend scheme a leading space is lost. Not covered: replacements that are regexp metacharacters (the program panics or matches something else) and text that is not valid UTF-8."
  },
  {
   "property": "C35",
   "status": "proved",
   "theorems": [
    "C35_greedy",
    "C35_unknown",
    "C35_cases",
    "C35_unique",
    "C35_tiles",
    "C35_values"
   ],
   "note": "The result is the greedy segmentation if there is one and the word is short enough, else the unknown token or an error; offsets tile the word in characters (see C36 for bytes)."
  },
  {
   "property": "C36",
   "status": "partial",
   "theorems": [
    "C36_bpe_partial",
    "C36_wordlevel",
    "C36_wordpiece_partial",
    "C36_wordpiece_refuted",
    "C36_unigram_partial",
    "C36_unigram_refuted"
   ],
   "note": "Holds for WordLevel, BPE on valid UTF-8, WordPiece on single-byte words and Unigram without byte fallback. Refuted for WordPiece on every word with a multi-byte character and for Unigram byte fallback (six per byte)."
  },
  {
   "property": "C37",
   "status": "partial",
   "theorems": [
    "C37_tokenize",
    "C37_builder_partial",
    "C37_unk_id",
    "C37_shared_id_refuted",
    "C37_nil_vocab_refuted"
   ],
   "note": "Tokenize is proved; builder ids are distinct while every unknown token named is new and vocabularies are dense. Refuted: UnkToken(\"<unk>\") then UnkToken(u) gives both the id 1; UnkToken after Vocab(nil) panics."
  },
  {
   "property": "C38",
   "status": "partial",
   "theorems": [
    "C38_best_partial",
    "C38_lowest",
    "C38_byte_token",
    "C38_values",
    "C38_ids",
    "C38_no_unknown_partial",
    "C38_bonus_refuted",
    "C38_long_tokens_refuted",
    "C38_byte_fallback_refuted"
   ],
   "note": "The lattice search is optimal for the score the program adds up (with a length bonus for known tokens), and for the plain sum without unknown token. Refuted: the bonus can outweigh the sum, tokens over 20 bytes are never used, byte fallback ignores the vocabulary. Missing: rounding of float64 sums beyond the order laws assumed."
  },
  {
   "property": "C39",
   "status": "proved",
   "theorems": [
    "C39_bert",
    "C39_bert_plain",
    "C39_count",
    "C39_parallel"
   ],
   "note": "For all encodings, pairs and overflowing parts."
  },
  {
   "property": "C40",
   "status": "partial",
   "theorems": [
    "C40_roberta_partial",
    "C40_trim_inside",
    "C40_count",
    "C40_no_trim_refuted"
   ],
   "note": "Exact result with trimmed offsets when trimOffsets is set. Refuted without it: Process panics, or returns nil when no special tokens are added."
  },
  {
   "property": "C41",
   "status": "partial",
   "theorems": [
    "C41_concat",
    "C41_panics_partial",
    "C41_count",
    "C41_words_refuted"
   ],
   "note": "Concatenation in template order and token count proved, with the exact condition for panics and nil results. Parallel lists refuted: special tokens get no word entry, so the words list is parallel exactly when no special token is added."
  },
  {
   "property": "C42",
   "status": "partial",
   "theorems": [
    "C42_composes",
    "C42_members",
    "C42_single_partial",
    "C42_pair_refuted",
    "C42_pair_twice_refuted"
   ],
   "note": "Composition in order, and the count without a pair. With a pair refuted: every processor of the sequence adds the pair again, so it occurs as often as there are processors."
  },
  {
   "property": "C43",
   "status": "partial",
   "theorems": [
    "C43_single_partial",
    "C43_pair_partial",
    "C43_full_refuted",
    "C43_pair_refuted"
   ],
   "note": "Limit kept if it leaves more than the stride beside the special tokens (single), or beside the uncut sequence (pair). Refuted when the special tokens fill the limit and for two long sequences under LongestFirst."
  },
  {
   "property": "C44",
   "status": "proved",
   "theorems": [
    "C44_order",
    "C44_padded",
    "C44_returns"
   ],
   "note": "Every completed schedule returns what sequential encoding returns; no deadlock. Encode is taken as a function of its input."
  },
  {
   "property": "C45",
   "status": "partial",
   "theorems": [
    "C45_results_partial",
    "C45_one",
    "C45_order_refuted"
   ],
   "note": "The exact set of possible results. Refuted for every batch of two or more: entries come in any order and may be lost."
  },
  {
   "property": "C46",
   "status": "partial",
   "theorems": [
    "C46_words_partial",
    "C46_progress",
    "C46_words_refuted",
    "C46_words_first_chunk_refuted",
    "C46_pairs_partial",
    "C46_sequential",
    "C46_sequential_panics",
    "C46_pairs_refuted",
    "C46_positions_refuted"
   ],
   "note": "Word counts exact for files up to the chunk limit, pair counts exact below 10000 words. Refuted above: counts are multiplied by the number of workers of a file, and only the first quarter of the words is paired. The sequential count, which the trainer does not use, is exact for any number of words; it panics exactly if a word with a pair has no count."
  },
  {
   "property": "C47",
   "status": "partial",
   "theorems": [
    "C47_terminates",
    "C47_ids",
    "C47_size",
    "C47_merges",
    "C47_usable_partial",
    "C47_orphan_refuted",
    "C47_special_refuted",
    "C47_alphabet_partial",
    "C47_limit_refuted",
    "C47_tokens_partial",
    "C47_tokens_refuted"
   ],
   "note": "Termination, distinct ids, size, and texts of merges proved. Refuted: special tokens are missing, the alphabet limit removes instead of keeps, a text made twice leaves an id without a token, and with an alphabet limit tokens that occur in no word are made (without one every token is a run of characters of a word)."
  },
  {
   "property": "C48",
   "status": "partial",
   "theorems": [
    "C48_atomic_partial",
    "C48_serves_partial",
    "C48_copy_refuted",
    "C48_copy_dir_refuted",
    "C48_tmp_refuted",
    "C48_same_name_refuted"
   ],
   "note": "Downloads: every file under a cached name is complete after any history of calls stopped at any point (process crashes, not power loss). Refuted: local copies are not atomic and fail without the cache directory, names ending in .tmp are served half-written, and different files share a cached name."
  },
  {
   "property": "C49",
   "status": "proved",
   "theorems": [
    "C49_decode",
    "C49_lookup"
   ],
   "note": "For all id lists, decoders, models and added vocabularies."
  },
  {
   "property": "C50",
   "status": "partial",
   "theorems": [
    "C50_model_partial",
    "C50_wordpiece_prefix_refuted",
    "C50_merge_space_refuted",
    "C50_normalizer_partial",
    "C50_pretokenizer_partial",
    "C50_decoder_partial",
    "C50_replace_regex_refuted",
    "C50_split_string_refuted",
    "C50_decoder_scheme_refuted",
    "C50_nmt_refuted",
    "C50_processor",
    "C50_truncation",
    "C50_truncation_unknown_refuted",
    "C50_padding",
    "C50_added",
    "C50_added_id_refuted",
    "C50_file_partial"
   ],
   "note": "False of the code as stated: the continuing prefix of WordPiece is always '##', array merges whose tokens contain a space do not load, a regular expression in Replace is dropped, a plain string in Split is compiled as a regular expression, the Metaspace decoder ignores prepend_scheme, Nmt panics, an unknown truncation strategy becomes LongestFirst, ids of added tokens are ignored. Proved: for every file asking for none of these, each section and the whole file give exactly the described components. JSON parsing, number rounding and regexp compilation are parameters or trusted."
  },
  {
   "property": "C51",
   "status": "partial",
   "theorems": [
    "C51_parse",
    "C51_parse_only",
    "C51_units",
    "C51_lookup",
    "C51_lookup_safe",
    "C51_lookup_refuted",
    "C51_transform",
    "C51_rewriting",
    "C51_normalize_partial",
    "C51_normalize_refuted",
    "C51_normalizer_partial",
    "C51_normalizer_refuted",
    "C51_alignment_refuted"
   ],
   "note": "Parsing and lookup proved in full for well-formed tries. Refuted: NormalizeString drops everything after the first grapheme that has an entry; the normalizer looks up the beginning of a grapheme for each of its characters and aligns the whole result with the last character."
  },
  {
   "property": "C52",
   "status": "partial",
   "theorems": [
    "C52_round_trip_partial",
    "C52_newline",
    "C52_carriage_return_refuted",
    "C52_long_token_refuted"
   ],
   "note": "Proved for tokens without newline or final carriage return and shorter than 64 KiB; the last two cases are refuted."
  },
  {
   "property": "C53",
   "status": "partial",
   "theorems": [
    "C53_pieces",
    "C53_classes",
    "C53_fresh",
    "C53_text_partial",
    "C53_script_partial",
    "C53_script_refuted"
   ],
   "note": "For every pre-tokenizer that only cuts, and sequences of them: exactly the documented pieces, on every pre-tokenized string. The concatenation property holds for all but the script pre-tokenizer, which drops leading characters without a script (spaces included): refuted with the exact condition."
  },
  {
   "property": "C54",
   "status": "partial",
   "theorems": [
    "C54_inside_partial",
    "C54_order_partial",
    "C54_sequence_partial",
    "C54_pre_tokenizers",
    "C54_byte_level",
    "C54_normalizers",
    "C54_bpe",
    "C54_wordpiece",
    "C54_wordlevel",
    "C54_unigram",
    "C54_invalid_utf8_refuted",
    "C54_strip_refuted",
    "C54_unigram_bytes_refuted",
    "C54_nul_refuted"
   ],
   "note": "Whole pipeline modelled. Proved for valid UTF-8 without NUL and components that meet a stated contract; instances proved for all pre-tokenizers, the four models and normalizers made of one whole-text change followed by local ones. Order is proved for a single text and for post-processors that use the input once and leave offsets alone. Refuted: texts ending inside a character panic, Strip before byte-level panics, Unigram byte fallback reports ranges outside the text, a NUL shortens a range. Missing: several whole-text changes in a row, the byte-level pre-tokenizer after a normalizer, order for pairs and trimmed offsets."
  },
  {
   "property": "C55",
   "status": "partial",
   "theorems": [
    "C55_restored_partial",
    "C55_refuted"
   ],
   "note": "Proved for every valid UTF-8 text without NUL and both settings of the prefix space: the pieces decode to the text (with the space if one was added). Refuted for the rest: a lone NUL with the prefix space and invalid UTF-8 panic."
  },
  {
   "property": "C56",
   "status": "partial",
   "theorems": [
    "C56_template_partial",
    "C56_bytelevel_partial",
    "C56_forgotten_refuted"
   ],
   "note": "Template and byte-level processing record exact positions; BERT and RoBERTa processing forget them, every token is then said to be in sequence 0."
  },
  {
   "property": "C57",
   "status": "proved",
   "theorems": [
    "C57_raw",
    "C57_words",
    "C57_words_total",
    "C57_dual"
   ],
   "note": "Pieces, words and pairs, for every tokenizer. The order and number of the pieces are those of C29 and C54; post-processing is C37 to C41 and C56."
  },
  {
   "property": "C58",
   "status": "partial",
   "theorems": [
    "C58_found_partial",
    "C58_pre_tokenizers",
    "C58_byte_level",
    "C58_refuted"
   ],
   "note": "Proved for all pre-tokenizers but the byte-level one (and for normalizers that keep the alignments right, without post-processing). Refuted for the byte-level pre-tokenizer: its Normalize step drops every piece that is an added token."
  },
  {
   "property": "C59",
   "status": "partial",
   "theorems": [
    "C59_plain",
    "C59_found",
    "C59_single_partial",
    "C59_matching",
    "C59_single_refuted",
    "C59_single_glued_refuted",
    "C59_strip_refuted",
    "C59_normalized_refuted"
   ],
   "note": "Exact for every pattern in terms of text, ASCII word edges and single white spaces. Refuted as documented: word edges are ASCII-only, so a single-word token is found inside a non-ASCII word and one that begins with punctuation is never found as a word of its own; stripping takes one white space, not all; the content of a normalized token is not normalized. The meaning of the regexp is trusted."
  },
  {
   "property": "C60",
   "status": "partial",
   "theorems": [
    "C60_clean_partial",
    "C60_clean_single_byte_partial",
    "C60_white_space_refuted",
    "C60_chinese_partial",
    "C60_extension_a_refuted",
    "C60_all_partial",
    "C60_leading_refuted",
    "C60_accents_refuted",
    "C60_dropped_partial",
    "C60_dropped_refuted"
   ],
   "note": "Exact text for each step on a fresh string and for all options together. Refuted as documented: tabs and line breaks become spaces only right before a dropped character; CJK extension A is never recognised because the table is unsorted; a Chinese character at the start gets two spaces in front when accents are stripped afterwards; composed accents stay; after a dropped multi-byte character at the start the text or its end comes twice. With dropped characters and later steps proved for single-byte text. Missing: dropped characters inside multi-byte text, and the cases in which cleaning multi-byte text panics."
  },
  {
   "property": "C61",
   "status": "partial",
   "theorems": [
    "C61_default_partial",
    "C61_longer_refuted"
   ],
   "note": "Proved for case mappings that keep the length, when stripping does not panic; refuted for a longer lower-case form."
  },
  {
   "property": "C62",
   "status": "partial",
   "theorems": [
    "C62_cut_partial",
    "C62_cut_refuted",
    "C62_delete_partial",
    "C62_delete_refuted",
    "C62_insert",
    "C62_insert_vec_partial",
    "C62_insert_vec_refuted",
    "C62_out_of_range",
    "C62_extend",
    "C62_expand_partial",
    "C62_expand_refuted",
    "C62_push",
    "C62_pop_partial",
    "C62_pop_refuted",
    "C62_filter",
    "C62_reverse",
    "C62_shuffle",
    "C62_batch_partial",
    "C62_batch_refuted",
    "C62_dedup_partial",
    "C62_dedup_refuted"
   ],
   "note": "Each helper exactly, on shared backing arrays. Refuted: CutInt accepts -1 and panics; Delete at the length panics; InsertVec of a part of the slice itself loses an element; Expand inserts end zeros, not end - start; Pop of an empty slice, Batch with size 0 and Deduplicate of an empty slice panic (the last one may instead return an element that was not there)."
  },
  {
   "property": "C63",
   "status": "partial",
   "theorems": [
    "C63_fresh",
    "C63_copy",
    "C63_merge",
    "C63_elsewhere",
    "C63_batch",
    "C63_insert_partial",
    "C63_insert_refuted",
    "C63_delete_refuted"
   ],
   "note": "Proved for the helpers that promise a new slice, for batches and, as confinement to the argument's array, for the others; refuted for Insert with spare capacity and for Delete, which overwrite the argument. InsertVec (two arguments) is not covered."
  },
  {
   "property": "C64",
   "status": "partial",
   "theorems": [
    "C64_range_partial",
    "C64_range_refuted",
    "C64_min_max",
    "C64_lists",
    "C64_lines_partial",
    "C64_lines_refuted",
    "C64_iterators",
    "C64_index_refuted"
   ],
   "note": "Refuted: MakeRange repeats its start; ReadAllLn with line breaks returns every line twice; CurrentIndex is -2 at the end. The rest is proved for all lists; reading the file is outside the model."
  },
  {
   "property": "C65",
   "status": "partial",
   "theorems": [
    "C65_inside_partial",
    "C65_length_refuted",
    "C65_empty_refuted",
    "C65_range_partial",
    "C65_range_refuted"
   ],
   "note": "Every token of a sequence gets its number, but the list is one entry too long per sequence, always; without recorded sequences (BERT, RoBERTa) it panics. SequenceRange is right only for a sequence that is the whole encoding; otherwise it panics or returns too much."
  },
  {
   "property": "C66",
   "status": "partial",
   "theorems": [
    "C66_piece",
    "C66_template",
    "C66_expressible",
    "C66_spaces_refuted",
    "C66_builder",
    "C66_counts",
    "C66_validate_partial",
    "C66_validate_refuted",
    "C66_missing_refuted",
    "C66_default_refuted"
   ],
   "note": "Parsing, builder and counts exactly. Refuted: stray spaces become special tokens with the empty name; Validate panics on every pair template with a special token, never reports a missing one, and rejects the default template, which drops the second sequence."
  },
  {
   "property": "C67",
   "status": "partial",
   "theorems": [
    "C67_write",
    "C67_read",
    "C67_array_refuted",
    "C67_select_partial",
    "C67_select_refuted",
    "C67_clone_partial",
    "C67_cyclic_refuted",
    "C67_copy",
    "C67_options"
   ],
   "note": "Proved for all heaps of nested maps. Refuted: a stored array makes Get, Has, Delete and Clone panic; Select adds an entry for every key asked for, also for unknown ones; parameters that contain themselves are cloned forever (the positive theorem asks for acyclic, array-free parameters)."
  },
  {
   "property": "C68",
   "status": "partial",
   "theorems": [
    "C68_model",
    "C68_unknown_refuted",
    "C68_split_refuted",
    "C68_corpus_refuted"
   ],
   "note": "Proved: training ends and the lookups are inverse. Refuted for every corpus without the bytes of the prefix and of the unknown token: the unknown token is missing, no continuing piece exists, so no word is ever split, and words of the corpus are not tokenized, because an address stands before their first character."
  },
  {
   "property": "C69",
   "status": "partial",
   "theorems": [
    "C69_trainer",
    "C69_shared_refuted",
    "C69_builder_partial",
    "C69_files_refuted"
   ],
   "note": "Last value or default, proved for all sequences of settings. Refuted: trainer builders returned by setters share their settings with the receiver; a vocabulary set after naming a file is ignored. Partial: the vocabulary map is copied in the model, shared in the source."
  },
  {
   "property": "C70",
   "status": "partial",
   "theorems": [
    "C70_decomposed_partial",
    "C70_composed_partial",
    "C70_nfc_refuted",
    "C70_nfkd_nil_refuted",
    "C70_nfkd_encode_refuted",
    "C70_sequence",
    "C70_sequence_refuted",
    "C70_alignment_refuted"
   ],
   "note": "Proved for fresh texts without NUL: NFD and, for texts not yet in the form, NFKD produce the form; NFC and NFKC keep a text in the form. Refuted for every other text: NFC gives the form D and NFKC the form KD, NFKD gives nil and encoding panics; alignments are right exactly if each group but the last has as many characters as segments. Missing: texts changed before, alignments of NFKC."
  },
  {
   "property": "C71",
   "status": "partial",
   "theorems": [
    "C71_encode_partial",
    "C71_pre_tokenizers",
    "C71_rewriting_partial",
    "C71_normalizers_partial",
    "C71_bpe",
    "C71_wordpiece",
    "C71_wordlevel",
    "C71_unigram_partial",
    "C71_strip_refuted",
    "C71_replace_refuted",
    "C71_bert_refuted",
    "C71_only_second_refuted",
    "C71_left_padding_refuted"
   ],
   "note": "Proved for every input without NUL when the components return (cutting pre-tokenizers after any such normalizer; byte-level and metaspace without a normalizer; one change of the text, or a mark and one replacement, then small changes; the four models with an unknown token; all post-processors; truncation of the longest or of a single sequence; padding at the end). Refuted: spaces removed at both ends, BERT cleaning, two replacements, OnlySecond with one sequence, padding in front. Missing: other sequences of normalizers, NFKC, truncation of one sequence of a pair, Unigram byte fallback, BPE without an unknown token (C72 for byte-level)."
  },
  {
   "property": "C72",
   "status": "partial",
   "theorems": [
    "C72_byte_level_partial",
    "C72_text_partial",
    "C72_cut_partial",
    "C72_cut_text_partial",
    "C72_pieces_partial",
    "C72_added_refuted",
    "C72_digits_refuted",
    "C72_loaded_bpe",
    "C72_bpe_spells"
   ],
   "note": "Proved for byte-level tokenizers without normalizer and truncation: encoding returns, and the exact decoded text for every input, also with pre-tokenizers in front that cut the text without removing anything (digits, punctuation, patterns, sequences of them); every loaded BPE vocabulary with the 256 characters meets the requirement on the model. Refuted: added tokens found in the text are lost; with a prefix space every piece cut off in front, such as every digit, gets a space of its own. Missing: other decoders, cutting pre-tokenizers that remove characters, sequences of processors for pairs."
  },
  {
   "property": "C73",
   "status": "partial",
   "theorems": [
    "C73_gpt2_partial",
    "C73_gpt2_restored",
    "C73_gpt2_refuted",
    "C73_roberta_partial",
    "C73_roberta_special_partial",
    "C73_roberta_order_partial",
    "C73_roberta_order_refuted",
    "C73_bert_uncased_refuted"
   ],
   "note": "Refuted: GPT-2 and RoBERTa are given the BPE decoder instead of the byte-level one, so no text with a byte outside printable ASCII comes back, and the spaces of the last token are lost; uncased BERT panics in every decoding; a </s> written in front of a <s> is not found and stays in the decoded text. Proved: what GPT-2 and RoBERTa decode to for every input, and exactly which texts come back; RoBERTa also for texts with <s> and </s> in them, each <s> in front of each </s>, or each of them once at most in any order. Missing: RoBERTa for texts with one of them several times in another order (cased BERT: C74)."
  },
  {
   "property": "C74",
   "status": "partial",
   "theorems": [
    "C74_words_partial",
    "C74_bert_partial",
    "C74_special_partial",
    "C74_special_pair_partial",
    "C74_kept_partial",
    "C74_kept_pair_partial",
    "C74_text_refuted"
   ],
   "note": "Proved for WordPiece models behind any pre-tokenizer that cuts, and in full for cased BERT (encoding and decoding return, exact text, with spaces around Chinese characters and accents taken off), when no word begins with the prefix, added tokens in the text are hidden and the texts have no character that the BERT normalizer drops, no character of extension A, and begin with no Chinese character or accent. Refuted: that the text itself comes back, for every text without spaces in which a word but the first is no stop or comma. Cased BERT is also proved for texts and pairs with special tokens written in the order of their registration, whether special tokens are skipped or kept when decoding. Missing: texts with dropped characters or special tokens in another order in the BERT case, texts that begin with a Chinese character (their space is doubled, C60) or an accent."
  },
  {
   "property": "C75",
   "status": "partial",
   "theorems": [
    "C75_inputs_partial",
    "C75_bpe_partial",
    "C75_unigram_partial",
    "C75_faithful",
    "C75_text_refuted"
   ],
   "note": "Proved for texts, lists of words and pairs, any mark and scheme, with added tokens that are hidden when decoding and no normalizer, for every model that spells words with whole characters; for BPE and Unigram models from conditions on their vocabularies, for a text in which no added token is found. Refuted: that every text comes back; those that do are characterised exactly. Missing: a normalizer, Unigram with byte fallback (its tokens are not parts of the text), BPE and Unigram vocabularies for texts with added tokens in them."
  },
  {
   "property": "C76",
   "status": "partial",
   "theorems": [
    "C76_byte_level_partial",
    "C76_cut_partial",
    "C76_ids",
    "C76_ids_refuted",
    "C76_metaspace_partial",
    "C76_metaspace_inputs_partial",
    "C76_unigram_partial",
    "C76_led_text",
    "C76_scheme_refuted",
    "C76_unigram_scheme_refuted",
    "C76_special_partial",
    "C76_metaspace_special_partial",
    "C76_unigram_special_partial",
    "C76_order_partial",
    "C76_metaspace_order_partial"
   ],
   "note": "Proved for every file that describes a byte-level BPE tokenizer (any vocabulary with the 256 characters and ids from 0 up, merges, listed tokens, post-processor, padding at the end; also with cutting pre-tokenizers in front) and for metaspace files with a BPE model or a Unigram model without byte fallback whose decoder section says whether the first mark is dropped: the file loads and every input in which no listed token is written comes back; the ids of the listed tokens for every model. Refuted: listed ids are ignored, interleaved special tokens get other ids; with a prepend_scheme in the decoder section every text gets a leading space. Missing: normalizers, truncation, dropout, WordLevel files (see C85), for Unigram metaspace files, special tokens that contain the mark. Texts with special tokens in them: proved for tokens enclosed by two characters (<...>) that are written in the order of the list (they are gone, what stands between them comes back, led by marks as the scheme says); and, for BPE models, for such tokens in any order if each is written once at most: a token is found exactly if none that is listed before it follows it, and the others stay; missing: tokens written several times in another order, other orders for Unigram, tokens that take white space with them, listed tokens that are not special."
  },
  {
   "property": "C77",
   "status": "partial",
   "theorems": [
    "C77_bert_partial",
    "C77_special_partial",
    "C77_order_partial",
    "C77_longer_refuted"
   ],
   "note": "Proved for every file with a BERT normalizer (any of its settings), the BERT pre-tokenizer, a WordPiece model and decoder with ##, listed tokens of which the special ones begin with punctuation, any post-processor and padding at the end, for texts without dropped characters and characters of extension A whose lower case is as long as the text, and which begin neither with a Chinese character nor with an accent if accents are taken off. Refuted that every text is encoded: for every text whose lower case takes more bytes (such as U+023A) an uncased tokenizer panics. Special tokens that stand between two characters not in them otherwise, as brackets, and are written in the texts in the order in which the file lists them are gone, and the words between them come back; in another order, each once at most, the words between those that are found. Missing: dropped characters, a shorter lower case, special tokens several times in another order and ordinary listed tokens in the texts, tokens restricted to whole words, truncation."
  },
  {
   "property": "C78",
   "status": "partial",
   "theorems": [
    "C78_round_trip_partial",
    "C78_ids_refuted",
    "C78_lost_refuted"
   ],
   "note": "Proved for every corpus and setting for which no merge makes a text that another merge made before, for special tokens that are not written in the corpus. Refuted otherwise: texts made twice take several indices but one entry of the vocabulary, so the special tokens, numbered by the size of the vocabulary, get ids of other tokens, and words of the corpus decode to nothing. Missing: a normalizer, truncation, an alphabet limit, prefix and suffix, tokens added before the training, texts with special tokens in them."
  },
  {
   "property": "C79",
   "status": "partial",
   "theorems": [
    "C79_builder",
    "C79_negative_refuted",
    "C79_saved_partial",
    "C79_text_refuted",
    "C79_fuse_refuted",
    "C79_load_refuted"
   ],
   "note": "Proved: the settings of the built model for every sequence of builder calls, and that the saved file determines the model up to the joining of unknown tokens if the tokens are UTF-8. Refuted: negative unknown ids are accepted; tokens that are not UTF-8 are written as U+FFFD; the joining of unknown tokens is not saved; loading the file panics for every vocabulary but the empty one. Missing: the training of Unigram models (not implemented), scores that are not finite."
  },
  {
   "property": "C80",
   "status": "partial",
   "theorems": [
    "C80_encode_partial",
    "C80_loaded_partial",
    "C80_unknown_partial",
    "C80_wordlevel_refuted",
    "C80_stripped_refuted",
    "C80_tokenize_refuted"
   ],
   "note": "Proved: whatever relation of ids and texts holds in the parts of a tokenizer holds in its encodings; for loaded BPE and WordPiece tokenizers whose added tokens take no white space, each token is that of its id; for WordLevel and Unigram it is, or it is unknown to the model and has the unknown id. Refuted: every unknown word of WordLevel keeps its own text with the unknown id; added tokens with RStrip have the white space in their text; Tokenize panics for RoBERTa processing without trimming. Missing: BPE with dropout, single-word added tokens behind a normalizer, vocabularies whose ids are not 0 up to their size."
  },
  {
   "property": "C81",
   "status": "partial",
   "theorems": [
    "C81_single_partial",
    "C81_pair_partial",
    "C81_negative_refuted"
   ],
   "note": "Proved for one text and for two, with no post-processor, the byte-level one, BERT, RoBERTa and templates with one place for each text: the parts are the windows between the special tokens, padded at the end, and the windows put together are the text. Refuted: with a negative stride, which is accepted, all windows but the first are empty. Missing: sequences of post-processors, padding of a single text without special tokens (it overwrites the windows, C09), padding on the left (it panics, C06)."
  },
  {
   "property": "C82",
   "status": "partial",
   "theorems": [
    "C82_decode_partial",
    "C82_byte_level_partial"
   ],
   "note": "Proved for any tokenizer and decoder for single inputs, with no post-processor, the byte-level one, BERT, RoBERTa and templates, when the windows share nothing or all ids of the text are shown; for byte-level tokenizers the encoding returns and the text itself comes back. Missing: pairs, sequences of post-processors, overlapping windows over texts with ids that are not shown."
  },
  {
   "property": "C83",
   "status": "partial",
   "theorems": [
    "C83_file_partial",
    "C83_sections_partial",
    "C83_type_refuted",
    "C83_member_refuted",
    "C83_truncation_refuted",
    "C83_model_refuted"
   ],
   "note": "Proved for every file in which the members that are read have the kind of value they should have; the padding section may hold anything. Refuted: a section without a type, a missing member that a component needs, an incomplete truncation section, a file without model and a file that holds null all make the loader panic."
  },
  {
   "property": "C84",
   "status": "partial",
   "theorems": [
    "C84_items_partial",
    "C84_written_partial",
    "C84_bert_partial",
    "C84_bert_pair_partial",
    "C84_cls_refuted"
   ],
   "note": "Proved for every tokenizer whose pre-tokenizer, if any, is documented to cut text, and in terms of ids for BERT on texts and pairs with special tokens in the order of their registration. Refuted: special tokens in another order, such as [CLS] in front of [SEP], are not found. Missing: pre-tokenizers that change the text, texts where BERT normalization drops characters or changes their length."
  },
  {
   "property": "C85",
   "status": "partial",
   "theorems": [
    "C85_words_partial",
    "C85_added_partial",
    "C85_text_partial",
    "C85_normalized_partial",
    "C85_special_partial",
    "C85_order_partial",
    "C85_text_refuted"
   ],
   "note": "Proved for files without truncation and decoder, when special tokens are skipped: without a normalizer, also for texts with listed special tokens in them, in terms of the words between those found; with the lower case normalizer or the BERT normalizer, for the words of the normalized text, where listed tokens may be ordinary ones but are not written in the text, or are special ones between two characters not in them otherwise, written in the order in which the file lists them or each once at most in any order. Refuted: that every text comes back; no text with a tab or a line break does. Missing: other normalizers, special tokens several times in another order in texts that are normalized, ordinary listed tokens in texts."
  },
  {
   "property": "C86",
   "status": "partial",
   "theorems": [
    "C86_tokens_partial",
    "C86_types_refuted",
    "C86_words_refuted",
    "C86_truncate_partial",
    "C86_truncate_refuted",
    "C86_merge_refuted"
   ],
   "note": "Ids, texts, offsets and masks proved. Refuted: every type id but 0 is ignored, the words are missing, so that every truncation that removes something panics and a merge gives the tokens the words of the other encoding. Truncation is proved when nothing has to be removed."
  },
  {
   "property": "C87",
   "status": "partial",
   "theorems": [
    "C87_outcome",
    "C87_tokens",
    "C87_sequences_partial",
    "C87_sequences_refuted",
    "C87_merge_with_partial",
    "C87_merge_with_refuted"
   ],
   "note": "Tokens and outcome of mergeEncoding proved in full. Positions: MergeWith is right for sequences that are in one of the encodings and wrong for every sequence that is in both; mergeEncoding is right for the sequences of the second encoding and loses those that are only in the first, unless the second has none."
  },
  {
   "property": "C88",
   "status": "partial",
   "theorems": [
    "C88_inputs_partial",
    "C88_text_partial",
    "C88_special_partial",
    "C88_order_partial",
    "C88_empty_refuted"
   ],
   "note": "Proved for files without truncation, when special tokens are skipped, for texts of known characters in which no listed token is written: a text comes back exactly if it holds no mark. With special tokens such as <s> written in the texts, in the order in which the file lists them: they are gone and what follows each is led by a space; in another order, each once at most, this holds of those that are found. Refuted: the empty text; decoding what it gives panics. Missing: unknown characters with byte fallback, other listed tokens in the text or restricted to whole words, special tokens several times in another order (C21)."
  },
  {
   "property": "C89",
   "status": "partial",
   "theorems": [
    "C89_order",
    "C89_queue_refuted",
    "C89_insert",
    "C89_remove"
   ],
   "note": "The order and the list operations are proved in full. Refuted: the queue that picks the next merge does not use this order and does not tell merges of equal rank apart."
  },
  {
   "property": "C90",
   "status": "partial",
   "theorems": [
    "C90_built_partial",
    "C90_errors_partial",
    "C90_constructors",
    "C90_tables_refuted",
    "C90_dropout_refuted"
   ],
   "note": "Proved for every history of calls, with models built in between: which settings and tables a model has, exactly when building fails, and that the constructors agree with the builder. Refuted: that tables given after files are used (files always win), and that the dropout is a probability (NaN is accepted). Missing: files that change between calls; caches are only their capacity here (C16)."
  },
  {
   "property": "C91",
   "status": "partial",
   "theorems": [
    "C91_amount_partial",
    "C91_units_refuted",
    "C91_totals"
   ],
   "note": "Proved for all numbers of 64 bits: the unit, that the number shown lies between 1.0 and 1024.0 and, up to 2^53, is the nearest tenth, the even one of two; the totals for all writes. Refuted: that fewer than 1024 of a unit are shown. Missing: the nearest tenth above 2^53, where the conversion to float64 rounds first."
  },
  {
   "property": "C92",
   "status": "partial",
   "theorems": [
    "C92_reads",
    "C92_places",
    "C92_bytes_refuted"
   ],
   "note": "Proved for all lists and numbers of calls: the characters in order, then the end; the sizes add up to places in the list of characters. Refuted: that the sizes are in bytes, except for ASCII texts."
  },
  {
   "property": "C93",
   "status": "proved",
   "theorems": [
    "C93_new",
    "C93_set",
    "C93_either_way"
   ],
   "note": "For all sequences of options and setters."
  }
 ]
}