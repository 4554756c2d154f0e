{
 "claims": [
  {
   "property": "C01",
   "status": "proved",
   "theorems": [
    "C01_popcnt64",
    "C01_popcnt16",
    "C01_popcnt8",
    "C01_popcnt_word"
   ],
   "note": "popcnt64, popcnt16, popcnt8 exact for every word (portable branches)."
  },
  {
   "property": "C02",
   "status": "partial",
   "theorems": [
    "C02_popcnt32_iff_partial",
    "C02_popcnt32_refuted"
   ],
   "note": "Full statement refuted (0x0F0F0F0F). The _partial theorem characterises exactly the words on which the count is right."
  },
  {
   "property": "C03",
   "status": "partial",
   "theorems": [
    "C03_ctz64",
    "C03_ctz32",
    "C03_clz64",
    "C03_clz32_offset_partial",
    "C03_clz32_refuted"
   ],
   "note": "ctz32, ctz64, clz64 exact for every word. clz(uint32_t) is refuted: 32 too large on every non-zero word (offset theorem)."
  },
  {
   "property": "C04",
   "status": "partial",
   "theorems": [
    "C04_sel_partial",
    "C04_sel_refuted",
    "C04_sel_bmi2"
   ],
   "note": "Refuted through popcnt32 (0x0F0F0F0F). Proved for every word whose low half is outside the two bad families, and for the BMI2 variant for every word."
  },
  {
   "property": "C05",
   "status": "proved",
   "theorems": [
    "C05_popcnt11",
    "C05_popcnt10",
    "C05_popcnt111",
    "C05_popcnt110",
    "C05_popcnt101",
    "C05_popcnt100"
   ],
   "note": "All six field counters exact for every word."
  },
  {
   "property": "C06",
   "status": "partial",
   "theorems": [
    "C06_WidthMask_partial",
    "C06_bextr_partial",
    "C06_WidthMask_refuted"
   ],
   "note": "Exact for widths 0..63; width 64 is undefined behaviour (refuted)."
  },
  {
   "property": "C07",
   "status": "proved",
   "theorems": [
    "C07_xor_map",
    "C07_xor_map_involutive",
    "C07_swap_lanes"
   ],
   "note": "Bitwise action of xor_map and of the six lane swaps; involution."
  },
  {
   "property": "C08",
   "status": "partial",
   "theorems": [
    "C08_popcnt256",
    "C08_is_zero256",
    "C08_ctz256",
    "C08_set256",
    "C08_clz256_refuted"
   ],
   "note": "popcnt256, ctz256, is_zero256 exact. clz256 is wrong on every non-zero argument (refuted)."
  },
  {
   "property": "C09",
   "status": "partial",
   "theorems": [
    "C09_bits_partial",
    "C09_bytes_partial",
    "C09_bits_top_undefined",
    "C09_bytes_top_undefined",
    "C09_refuted"
   ],
   "note": "Least k for every value below 2^63 (bits) / 2^56 (bytes); above those bounds the call is undefined (exact bounds proved)."
  },
  {
   "property": "C10",
   "status": "partial",
   "theorems": [
    "C10_units_partial",
    "C10_refuted"
   ],
   "note": "Proved for unit lists whose entries are below 64; an entry of 64 is undefined (refuted)."
  },
  {
   "property": "C11",
   "status": "partial",
   "theorems": [
    "C11_histogram_partial",
    "C11_cumulative_partial",
    "C11_refuted"
   ],
   "note": "Histogram and cumulative list exact for every list of values below 2^63; a value of 2^63 or more is undefined (refuted)."
  },
  {
   "property": "C12",
   "status": "partial",
   "theorems": [
    "C12_always_out_of_bounds",
    "C12_refuted",
    "C12_split_partial"
   ],
   "note": "Refuted: every non-empty list makes the function read and write one element past its vectors. With that stray iteration left out, the widths are a partition into 1..max_levels positive parts (for max_levels >= 2)."
  },
  {
   "property": "C13",
   "status": "proved",
   "theorems": [
    "C13_bitvector_is_sequence"
   ],
   "note": "Every constructor and every history of resize, push_back, assign, fill and element writes; stale bits past the end are never exposed."
  },
  {
   "property": "C14",
   "status": "proved",
   "theorems": [
    "C14_displacement",
    "C14_steps",
    "C14_comparisons",
    "C14_address_of_reference"
   ],
   "note": "Displacements are bounded by the range of ptrdiff_t."
  },
  {
   "property": "C15",
   "status": "partial",
   "theorems": [
    "C15_bitvector_at",
    "C15_fitvector_at_partial",
    "C15_fitvector_at_throws",
    "C15_fitvector_at_set",
    "C15_bitvector_at_set"
   ],
   "note": "Throwing exactly outside the range is proved for every vector of both kinds; the element returned is proved for every BitVector and for FitVectors of width 1..63 in the histories of C21."
  },
  {
   "property": "C16",
   "status": "partial",
   "theorems": [
    "C16_rank_partial",
    "C16_rank_full_length_refuted",
    "C16_rank_full_length_out_of_bounds",
    "C16_rank_with_readable_padding_partial"
   ],
   "note": "Exact for every prefix length except rank(size()) with size() a positive multiple of 64, which reads one word past the array (refuted); if that word is readable the answer is right whatever it holds."
  },
  {
   "property": "C17",
   "status": "partial",
   "theorems": [
    "C17_select_bmi2_partial",
    "C17_select_portable_partial",
    "C17_select_out_of_bounds",
    "C17_select_refuted",
    "C17_select_portable_refuted"
   ],
   "note": "Exact for k in a sampled group of 512 ones and size below 2^41; other k read past the sample table (exact condition proved, refuted with a witness). Portable word select additionally restricted to words outside the C04 defect."
  },
  {
   "property": "C18",
   "status": "partial",
   "theorems": [
    "C18_rank_select_partial",
    "C18_rank_select_portable_partial"
   ],
   "note": "Under the conditions of C17."
  },
  {
   "property": "C22",
   "status": "proved",
   "theorems": [
    "C22_fill_range"
   ],
   "note": "Word array of any length and any range."
  },
  {
   "property": "C19",
   "status": "partial",
   "theorems": [
    "C19_write_independent_partial",
    "C19_wide_value_refuted",
    "C19_width_64_undefined",
    "C19_filled_partial"
   ],
   "note": "Widths 1..63 and values that fit the width. Wider values spoil following elements (refuted; exactly which: C85); width 64 is undefined (proved)."
  },
  {
   "property": "C20",
   "status": "partial",
   "theorems": [
    "C20_from_values_partial",
    "C20_top_values_refuted",
    "C20_top_values_undefined"
   ],
   "note": "Every vector with values below 2^63; a value of 2^63 or more is undefined (refuted, exact)."
  },
  {
   "property": "C21",
   "status": "partial",
   "theorems": [
    "C21_history_partial",
    "C21_front_back_partial",
    "C21_resize_after_shrink_refuted"
   ],
   "note": "Every history with values that fit, except growth by resize(n) after a shrink, which exposes stale values (refuted; exactly which: C85)."
  },
  {
   "property": "C23",
   "status": "partial",
   "theorems": [
    "C23_library_widths_undefined",
    "C23_refuted",
    "C23_lossless_partial"
   ],
   "note": "As written construction is undefined for every non-empty sequence (refuted, exact); with the stray DP iteration left out it is lossless for all values below 2^63."
  },
  {
   "property": "C24",
   "status": "partial",
   "theorems": [
    "C24_explicit_widths_partial",
    "C24_refuted"
   ],
   "note": "Widths 1..63 none of which is superfluous. Superfluous levels read past the frequency table (refuted)."
  },
  {
   "property": "C25",
   "status": "partial",
   "theorems": [
    "C25_empty_refuted"
   ],
   "note": "Refuted: size() and every read of a DacVector built from an empty vector are undefined."
  },
  {
   "property": "C61",
   "status": "partial",
   "theorems": [
    "C61_depth_partial"
   ],
   "note": "As C24."
  },
  {
   "property": "C26",
   "status": "partial",
   "theorems": [
    "C26_access_mod_256",
    "C26_access_partial",
    "C26_refuted",
    "C26_size",
    "C26_make_undefined"
   ],
   "note": "Every sequence of values below 256; operator[] returns the value modulo 256 (proved for all values below 2^31), so larger values are refuted."
  },
  {
   "property": "C27",
   "status": "partial",
   "theorems": [
    "C27_rank_partial",
    "C27_access_and_rank_partial",
    "C27_rank_symbol_partial",
    "C27_rank_symbol_short_partial",
    "C27_rank_symbol_member_partial",
    "C27_symbol_high_bits_ignored",
    "C27_refuted",
    "C27_out_of_bounds_refuted"
   ],
   "note": "rank(i) for every sequence and index; rank(c,i) except where a visited node ends at a word boundary (refuted: out of bounds) and for symbols wider than the alphabet (refuted)."
  },
  {
   "property": "C28",
   "status": "proved",
   "theorems": [
    "C28_last_set"
   ],
   "note": "Histories of set and resize with values of at most U bits, U = 1, 2, 3."
  },
  {
   "property": "C29",
   "status": "proved",
   "theorems": [
    "C29_rank"
   ],
   "note": "Every content reached by such a history, every index holding a non-zero symbol, U = 1, 2, 3."
  },
  {
   "property": "C31",
   "status": "proved",
   "theorems": [
    "C31_value",
    "C31_vector",
    "C31_string"
   ],
   "note": "Every value, vector of k-byte elements, string and following stream."
  },
  {
   "property": "C32",
   "status": "partial",
   "theorems": [
    "C32_multiple_partial",
    "C32_multiple_refuted",
    "C32_bitvector_partial",
    "C32_succinct_select_partial",
    "C32_succinct_rank_partial",
    "C32_fitvector_partial",
    "C32_dacvector_partial",
    "C32_multibit_partial",
    "C32_wavelet_partial",
    "C32_default_dac_refuted",
    "C32_wavelet_refuted",
    "C32_fitvector_64_undefined"
   ],
   "note": "Exact round trip for BitVector, SuccinctBitVector, FitVector of width below 64, DacVector with consistent layers, MultiBitVector, and WaveletTree into a target with the same number of nodes; refuted for a default-constructed DacVector and for WaveletTree targets of another alphabet; FitVector of width 64 is undefined (proved). MultipleVector: exact into a fresh object, refuted for a target that already has a layout."
  },
  {
   "property": "C33",
   "status": "partial",
   "theorems": [
    "C33_multiple_four_less",
    "C33_bitvector_partial",
    "C33_succinct_partial",
    "C33_fitvector_partial",
    "C33_multibit_partial",
    "C33_wavelet_partial",
    "C33_tip_layout",
    "C33_dac_eight_more",
    "C33_dac_refuted"
   ],
   "note": "Exact for every BitVector, SuccinctBitVector, FitVector, MultiBitVector and WaveletTree; DacVector reports exactly 8 bytes too many (proved, refuting the claim). MultipleVector reports exactly 4 bytes too few (proved)."
  },
  {
   "property": "C30",
   "status": "proved",
   "theorems": [
    "C30_fields"
   ],
   "note": "Every history of the public writing operations over every layout with fields of at most 8 bytes (id_type is 64-bit) and a non-empty record."
  },
  {
   "property": "C34",
   "status": "proved",
   "theorems": [
    "C34_folklore",
    "C34_folklore_from_range"
   ],
   "note": "Every element type, size and history; also the range constructor."
  },
  {
   "property": "C35",
   "status": "proved",
   "theorems": [
    "C35_unsigned",
    "C35_signed"
   ],
   "note": "Every initial memory, size, history and every signed or unsigned integer type the specialisation rule accepts."
  },
  {
   "property": "C36",
   "status": "partial",
   "theorems": [
    "C36_refuted_float",
    "C36_refuted_double",
    "C36_odd_partial"
   ],
   "note": "Refuted for float and double (even indices); odd indices are right for every element type."
  },
  {
   "property": "C37",
   "status": "proved",
   "theorems": [
    "C37_drain",
    "C37_front"
   ],
   "note": "Heap constructed from any sequence (MinHeap and MaxHeap): repeated front/pop yields a sorted permutation; the front is extreme after any number of pops."
  },
  {
   "property": "C38",
   "status": "partial",
   "theorems": [
    "C38_refuted",
    "C38_front_partial",
    "C38_push_contents_partial",
    "C38_pop_contents_partial"
   ],
   "note": "False as stated: push prepends and sifts one element, after which a later pop can expose a non-minimal front (C38_refuted). Proved: the front is right when pushes come after the last pop, and in every state push/pop change the contents exactly as expected."
  },
  {
   "property": "C39",
   "status": "proved",
   "theorems": [
    "C39_sorts"
   ],
   "note": "HeapSort for every sequence and strict weak order: result is an ordered permutation."
  },
  {
   "property": "C40",
   "status": "partial",
   "theorems": [
    "C40_bijection_partial",
    "C40_width64_refuted"
   ],
   "note": "Proved for every width below 64 and every x < 2^width. Width 64, the default, indexes PRIME_TABLE past its end (C40_width64_refuted)."
  },
  {
   "property": "C41",
   "status": "proved",
   "theorems": [
    "C41_map"
   ],
   "note": "SplitMixHash, any value width 1..63, key widths up to 60, any power-of-two bucket count admitting an entry, fewer than 2^50 operations including reserve and growth. The excluded parameters are C62."
  },
  {
   "property": "C42",
   "status": "partial",
   "theorems": [
    "C42_lookups_unchanged_partial",
    "C42_erased_key_found_refuted",
    "C42_other_key_lost_refuted"
   ],
   "note": "Refuted: erase computes h / bucket_bits_ where set uses h >> bucket_bits_, and get ignores the Deleted flag. Proved: erase leaves every lookup as it was, so the erased key is always still found; witnesses show the erased key found and an unrelated key lost at the next growth."
  },
  {
   "property": "C62",
   "status": "partial",
   "theorems": [
    "C62_wide_keys_refuted",
    "C62_no_growth_refuted"
   ],
   "note": "Refuted: 63-bit keys with 8 buckets shift by 64; two buckets at 40 per cent never grow and the search for a free slot does not end. C41 gives the parameters for which it holds."
  },
  {
   "property": "C43",
   "status": "partial",
   "theorems": [
    "C43_width_kept_partial",
    "C43_interference_refuted",
    "C43_top_value_refuted",
    "C43_endless_refuted"
   ],
   "note": "See C88 for what holds of all histories. Refuted: set erases from table pw instead of pw-1, which loses unrelated elements (witness of six writes to eight elements); values from 2^63 are UB; a table can fill up and the next write never ends. Proved for every history below 2^63 in which no write changes the bit length of a non-zero element."
  },
  {
   "property": "C44",
   "status": "partial",
   "theorems": [
    "C44_growing_partial",
    "C44_one_width_partial",
    "C44_push_on_empty_refuted",
    "C44_stale_value_refuted"
   ],
   "note": "Refuted: push_back on an empty vector allocates 0 elements and is UB; resize down and up brings old values back. Proved for growing histories from a non-empty start, and for histories with removals whose values share one bit length."
  },
  {
   "property": "C63",
   "status": "proved",
   "theorems": [
    "C63_range"
   ],
   "note": "Every range of fewer than 2^50 values below 2^63."
  },
  {
   "property": "C45",
   "status": "proved",
   "theorems": [
    "C45_simple"
   ],
   "note": "Every text and key."
  },
  {
   "property": "C46",
   "status": "partial",
   "theorems": [
    "C46_terminated_partial",
    "C46_no_inner_match_partial",
    "C46_reads_past_key_refuted",
    "C46_zero_byte_refuted"
   ],
   "note": "Refuted strictly: after a match key_[key_.size()] is read, and a text with a zero byte then runs past the terminator. Proved for a key followed by a byte that does not occur in the text (a zero-terminated key and text without zero bytes), and without any read outside the key if no occurrence ends before the end of the text."
  },
  {
   "property": "C47",
   "status": "partial",
   "theorems": [
    "C47_ascii_partial",
    "C47_high_text_refuted",
    "C47_high_key_refuted"
   ],
   "note": "Proved for bytes below 128 (the last byte of the key may be any). Refuted for a text or key byte from 128 on, which is a negative index."
  },
  {
   "property": "C50",
   "status": "partial",
   "theorems": [
    "C50_domain_partial",
    "C50_short_text_refuted",
    "C50_high_bytes_refuted",
    "C50_byte_255_refuted"
   ],
   "note": "Proved for keys of bytes below 128 and texts of bytes below 255 not shorter than the key. Refuted: every shorter text is read out of bounds; key bytes from 128 on and text byte 255 index outside the table."
  },
  {
   "property": "C51",
   "status": "partial",
   "theorems": [
    "C51_domain_partial",
    "C51_short_text_refuted",
    "C51_byte_255_refuted"
   ],
   "note": "As C50."
  },
  {
   "property": "C64",
   "status": "proved",
   "theorems": [
    "C64_agree"
   ],
   "note": "Every text of bytes 1..127 and every non-empty ASCII key not longer than it."
  },
  {
   "property": "C48",
   "status": "partial",
   "theorems": [
    "C48_terminated_partial",
    "C48_few_letters_partial",
    "C48_reads_past_oracle_refuted",
    "C48_diverges_refuted"
   ],
   "note": "Refuted strictly: the oracle reads the byte behind its array in the last state (C48_reads_past_oracle_refuted), and for some keys its construction never ends (C48_diverges_refuted). Proved for keys without zero bytes when the byte behind the array does not occur in the text and the construction ends, which it does for keys with few distinct letters."
  },
  {
   "property": "C49",
   "status": "partial",
   "theorems": [
    "C49_sound_partial",
    "C49_missed_match_refuted"
   ],
   "note": "Refuted: an occurrence completed in the middle of the KMP phase is skipped (key aaaaab, text aaaaaaaab). Proved: everything reported is an occurrence. Which occurrences are found is C77."
  },
  {
   "property": "C52",
   "status": "partial",
   "theorems": [
    "C52_nonzero_partial",
    "C52_zero_byte_refuted"
   ],
   "note": "Proved for every text without zero bytes whose construction ends. Refuted for a text with a zero byte."
  },
  {
   "property": "C53",
   "status": "partial",
   "theorems": [
    "C53_weak_partial",
    "C53_inside_partial",
    "C53_padded_partial",
    "C53_reads_past_end_refuted",
    "C53_longer_word_refuted"
   ],
   "note": "Refuted: in the last state image reads the byte behind check_. Proved: the length bound and uniqueness, that reads stay inside if the last letter of the text occurs at most at the end of the query, and the whole claim if the byte behind the array is readable and not in the query."
  },
  {
   "property": "C54",
   "status": "partial",
   "theorems": [
    "C54_few_letters_partial",
    "C54_two_letters_partial",
    "C54_diverges_refuted",
    "C54_empty_refuted"
   ],
   "note": "Refuted: for an 80-letter text the list of free slots becomes empty and _find_base never ends, whatever the fuel; the empty text is UB. Proved for every text of length m with s distinct letters, (m-2)(s-1)+2 <= 256*ceil(m/256), which includes all texts over two letters."
  },
  {
   "property": "C55",
   "status": "partial",
   "theorems": [
    "C55_order_refuted",
    "C55_high_bytes_undefined",
    "C55_empty_undefined",
    "C55_zero_byte_refuted"
   ],
   "note": "Refuted: babab is given the order 3 1 4 0 2, because the array of the first induction is returned when all LMS substrings differ. Undefined for the empty string, for every string with a byte from 128 on, and for some with a zero byte. C71 and C72 say which pairs can be misplaced and for which strings the array is right, C129 what happens with zero bytes."
  },
  {
   "property": "C56",
   "status": "partial",
   "theorems": [
    "C56_sorted_partial",
    "C56_order_refuted"
   ],
   "note": "Proved for every suffix array that is sorted; refuted as it stands because the stored order can be wrong."
  },
  {
   "property": "C57",
   "status": "partial",
   "theorems": [
    "C57_size_types_partial",
    "C57_zero_byte_refuted"
   ],
   "note": "Proved for all size types when no key contains a zero byte. Refuted for int and uint32_t with a zero byte: traverse reads outside the storage. See C65 for size_t."
  },
  {
   "property": "C58",
   "status": "proved",
   "theorems": [
    "C58_dfs",
    "C58_bfs"
   ],
   "note": "Exact sequence of calls, for every history."
  },
  {
   "property": "C65",
   "status": "proved",
   "theorems": [
    "C65_default_size_type",
    "C65_insert_returns_item"
   ],
   "note": "Every history of fewer than 2^64-1 inserts."
  },
  {
   "property": "C66",
   "status": "partial",
   "theorems": [
    "C66_default_partial",
    "C66_int_refuted"
   ],
   "note": "Proved for size_t. Refuted for int: the marker is never equal to the stored value, so every node is terminal."
  },
  {
   "property": "C59",
   "status": "partial",
   "theorems": [
    "C59_accept_partial",
    "C59_zero_byte_refuted",
    "C59_empty_list_undefined",
    "C59_query_refuted"
   ],
   "note": "Proved for non-empty key lists without zero bytes and every query except a longest key followed by a zero byte, which is undefined. Refuted for keys with a zero byte, undefined for the empty list."
  },
  {
   "property": "C60",
   "status": "partial",
   "theorems": [
    "C60_dict_bmi2_partial",
    "C60_dict_portable_partial",
    "C60_access_refuted"
   ],
   "note": "Proved under the hypotheses of C59; access is right or, for ids from 512 on, undefined through select (refuted with 513 keys). Portable select under the hypothesis of C04."
  },
  {
   "property": "C67",
   "status": "proved",
   "theorems": [
    "C67_exact"
   ],
   "note": "Every such key list; codes are not truncated to code_type in the model."
  },
  {
   "property": "C68",
   "status": "proved",
   "theorems": [
    "C68_inverse"
   ],
   "note": "Every such key list of at most 512 keys; storage below 2^41 slots."
  },
  {
   "property": "C69",
   "status": "proved",
   "theorems": [
    "C69_front_back"
   ],
   "note": "Every history, as in C13."
  },
  {
   "property": "C70",
   "status": "proved",
   "theorems": [
    "C70_suffixarray_built",
    "C70_samc",
    "C70_samcdict",
    "C70_suffixarray",
    "C70_sizes",
    "C70_suffix"
   ],
   "note": "Every object; code_type of any number of bytes."
  },
  {
   "property": "C71",
   "status": "proved",
   "theorems": [
    "C71_completes"
   ],
   "note": "Every non-empty string of bytes 1..127 shorter than 2^31."
  },
  {
   "property": "C72",
   "status": "proved",
   "theorems": [
    "C72_sortable",
    "C72_first_pass"
   ],
   "note": "Exact criterion where no two LMS substrings are equal, sufficient criterion through the reduced strings otherwise."
  },
  {
   "property": "C73",
   "status": "proved",
   "theorems": [
    "C73_rank_symbol",
    "C73_node_diff"
   ],
   "note": "Defined and undefined cases, for all symbols and positions up to the size."
  },
  {
   "property": "C74",
   "status": "proved",
   "theorems": [
    "C74_popcnt_word",
    "C74_fields",
    "C74_bextr",
    "C74_ctz_bmi",
    "C74_ctz_popcnt",
    "C74_clz_lzcnt",
    "C74_clz_popcnt",
    "C74_sel_popcnt",
    "C74_sel_bmi2",
    "C74_swap_plain"
   ],
   "note": "All listed functions for every word."
  },
  {
   "property": "C75",
   "status": "proved",
   "theorems": [
    "C75_xor_map_avx2",
    "C75_xor_map_same",
    "C75_is_zero_avx2",
    "C75_copy256",
    "C75_copy256_plain",
    "C75_copy256_avx2",
    "C75_copy256_misaligned"
   ],
   "note": "All listed functions, including overlapping copies and misaligned addresses."
  },
  {
   "property": "C76",
   "status": "proved",
   "theorems": [
    "C76_select",
    "C76_rank"
   ],
   "note": "Defined and undefined cases for every reachable vector."
  },
  {
   "property": "C77",
   "status": "proved",
   "theorems": [
    "C77_finds",
    "C77_no_short_period",
    "C77_short"
   ],
   "note": "Which occurrences TurboBom reports: all but those overlapped by an earlier partial one; all of them for keys without a long prefix of short period."
  },
  {
   "property": "C78",
   "status": "proved",
   "theorems": [
    "C78_best"
   ],
   "note": "Minimality over all splits, and the greedy merging, for the function with its stray last iteration left out (as written it is undefined, C12)."
  },
  {
   "property": "C79",
   "status": "proved",
   "theorems": [
    "C79_rebuild",
    "C79_popcnt_width"
   ],
   "note": "All histories with builds anywhere; width-limited counts for whole elements."
  },
  {
   "property": "C80",
   "status": "proved",
   "theorems": [
    "C80_collect",
    "C80_moves",
    "C80_order",
    "C80_minus"
   ],
   "note": "For the vectors with explicit widths of C24 (the default widths are undefined, C23) shorter than 2^63."
  },
  {
   "property": "C81",
   "status": "proved",
   "theorems": [
    "C81_bm",
    "C81_qs",
    "C81_ms",
    "C81_kmp"
   ],
   "note": "Non-empty keys for Bm and Kmp; for SundayMS the exact set of undefined inputs is not given, only that it is inside the conditions stated."
  },
  {
   "property": "C82",
   "status": "proved",
   "theorems": [
    "C82_samc",
    "C82_dict",
    "C82_uint8_sharp"
   ],
   "note": "Sorted non-empty key lists without zero bytes, as in C67; storage below 2^63 elements. Too narrow a code type: construction does not return (the witness with uint8_t is undefined)."
  },
  {
   "property": "C83",
   "status": "proved",
   "theorems": [
    "C83_front",
    "C83_sharp"
   ],
   "note": "Both orders. The bound on pops after the first push is shown sharp by two witnesses."
  },
  {
   "property": "C84",
   "status": "proved",
   "theorems": [
    "C84_set_at",
    "C84_wide_field",
    "C84_no_bytes"
   ],
   "note": "Histories of C30; the type T is given by its size, values are integers of either sign."
  },
  {
   "property": "C85",
   "status": "proved",
   "theorems": [
    "C85_tape",
    "C85_write",
    "C85_regrow",
    "C85_width_0"
   ],
   "note": "Exact for widths 0 to 63, all histories inside the vector and all 64-bit values. Width 64 is C19_width_64_undefined."
  },
  {
   "property": "C86",
   "status": "proved",
   "theorems": [
    "C86_erase_history"
   ],
   "note": "Until the table is completely full (C87 shows that this can happen and what then follows). Size counter modelled with its wrap."
  },
  {
   "property": "C87",
   "status": "partial",
   "theorems": [
    "C87_endless_refuted",
    "C87_size_wraps_refuted"
   ],
   "note": "Refuted: with the defaults of the source a history of nine sets and erases fills the table and the next set never ends; another brings the size to 2^64-1. What does hold is C86, and C41 without erase."
  },
  {
   "property": "C88",
   "status": "proved",
   "theorems": [
    "C88_all_writes"
   ],
   "note": "Until one of the tables is completely full; C43_endless_refuted shows a write that then never ends."
  },
  {
   "property": "C89",
   "status": "proved",
   "theorems": [
    "C89_all_operations"
   ],
   "note": "Until one of the tables is completely full. Excluded by the specification of a step: values of 64 bits (UB, C88) and shrinking an empty vector, after which push_back is UB (C44_push_on_empty_refuted)."
  },
  {
   "property": "C90",
   "status": "proved",
   "theorems": [
    "C90_assertions",
    "C90_exactly_when"
   ],
   "note": "The model with assertions returns Throw for a failed assertion."
  },
  {
   "property": "C91",
   "status": "proved",
   "theorems": [
    "C91_same",
    "C91_accept",
    "C91_dict"
   ],
   "note": "The empty list is UB (C59_empty_list_undefined). Ids from 512 on: access may be UB, as in C60."
  },
  {
   "property": "C92",
   "status": "proved",
   "theorems": [
    "C92_assertions",
    "C92_sorted"
   ],
   "note": "The model with assertions returns Throw for a failed assertion."
  },
  {
   "property": "C93",
   "status": "proved",
   "theorems": [
    "C93_assertions"
   ],
   "note": "With the select of BMI2 targets."
  },
  {
   "property": "C94",
   "status": "proved",
   "theorems": [
    "C94_construct",
    "C94_history",
    "C94_unfit",
    "C94_never"
   ],
   "note": "The model with assertions returns Throw for a failed assertion."
  },
  {
   "property": "C95",
   "status": "proved",
   "theorems": [
    "C95_array"
   ],
   "note": "A write of a value of 64 bits is UB in the release build (C88)."
  },
  {
   "property": "C96",
   "status": "proved",
   "theorems": [
    "C96_vector",
    "C96_empty"
   ],
   "note": "Sizes below 2^48, values below 2^63, as in C89."
  },
  {
   "property": "C97",
   "status": "proved",
   "theorems": [
    "C97_wavelet_rank_assertion"
   ],
   "note": "The model with assertions returns Throw for a failed assertion."
  },
  {
   "property": "C98",
   "status": "proved",
   "theorems": [
    "C98_heapify",
    "C98_heap",
    "C98_initializable_array"
   ],
   "note": "_shrink of InitializableArray, which has an assertion too, is never called."
  },
  {
   "property": "C99",
   "status": "proved",
   "theorems": [
    "C99_multibit",
    "C99_multibit_rank"
   ],
   "note": ""
  },
  {
   "property": "C100",
   "status": "proved",
   "theorems": [
    "C100_multiple"
   ],
   "note": ""
  },
  {
   "property": "C101",
   "status": "proved",
   "theorems": [
    "C101_masks"
   ],
   "note": ""
  },
  {
   "property": "C102",
   "status": "proved",
   "theorems": [
    "C102_order",
    "C102_sorted_iff"
   ],
   "note": "Strengthens C71 and C72: the order is given also where valleys repeat and the result is not sorted."
  },
  {
   "property": "C103",
   "status": "proved",
   "theorems": [
    "C103_val",
    "C103_vec",
    "C103_string",
    "C103_bitvector",
    "C103_succinct",
    "C103_fitvector",
    "C103_dacvector",
    "C103_dacvector_image",
    "C103_wavelet",
    "C103_samc",
    "C103_samcdict",
    "C103_suffixarray"
   ],
   "note": "Allocation is assumed to succeed for every stored size. MultiBitVector, whose elements have padding bytes, is in C143."
  },
  {
   "property": "C104",
   "status": "proved",
   "theorems": [
    "C104_popcnt32",
    "C104_sel",
    "C104_sel_zero",
    "C104_select",
    "C104_select_iff",
    "C104_dict",
    "C104_dict_wrong"
   ],
   "note": "Gives the exact extent of the defects behind C02, C04, C17 and C60 in the portable build. A wrong dictionary of 50 keys is C104_dict_wrong."
  },
  {
   "property": "C105",
   "status": "proved",
   "theorems": [
    "C105_width_mask",
    "C105_offset_mask",
    "C105_bextr",
    "C105_units",
    "C105_units_zero",
    "C105_bits",
    "C105_list",
    "C105_frequencies",
    "C105_cumulative",
    "C105_split",
    "C105_fitvector"
   ],
   "note": "Total equations behind C01, C09, C10, C11 and C12. The lists given to split_positions are shorter than 2^57."
  },
  {
   "property": "C106",
   "status": "proved",
   "theorems": [
    "C106_no_widths",
    "C106_defined",
    "C106_reads",
    "C106_empty_level",
    "C106_unreached_level",
    "C106_wide_level",
    "C106_top_value"
   ],
   "note": "The exact domain behind C23, C24, C25 and C61."
  },
  {
   "property": "C107",
   "status": "proved",
   "theorems": [
    "C107_clz32",
    "C107_clz64",
    "C107_clz256",
    "C107_sel_bmi2",
    "C107_trailing",
    "C107_sel_popcnt",
    "C107_bextr_bmi"
   ],
   "note": "Exact counterparts of C03, C04, C08 and C74 outside the ranges those claim."
  },
  {
   "property": "C108",
   "status": "proved",
   "theorems": [
    "C108_map",
    "C108_first_store",
    "C108_first_lookup",
    "C108_reserve_shrinks"
   ],
   "note": "Keys of up to 63 bits (C41 has 60), the exact widths for which the first store and lookup are defined, and what a shrinking reserve does."
  },
  {
   "property": "C109",
   "status": "proved",
   "theorems": [
    "C109_traverse",
    "C109_terminal"
   ],
   "note": "Exact form of C57 and C66: says for every key and every size type what the lookup does, and which nodes are terminal."
  },
  {
   "property": "C110",
   "status": "proved",
   "theorems": [
    "C110_shifts",
    "C110_no_conflict",
    "C110_assertion"
   ],
   "note": "A private member function without a caller. The value, the guarantee for smaller shifts, the undefined case and the assertion."
  },
  {
   "property": "C111",
   "status": "proved",
   "theorems": [
    "C111_show",
    "C111_default_size",
    "C111_tells_apart"
   ],
   "note": "The conversion from size_t to int is taken modulo 2^32 (implementation-defined before C++20) and the right shift of a negative value as arithmetic."
  },
  {
   "property": "C112",
   "status": "proved",
   "theorems": [
    "C112_float"
   ],
   "note": "Exact form of C36: the elements that are read wrongly and the value read instead."
  },
  {
   "property": "C113",
   "status": "proved",
   "theorems": [
    "C113_hash",
    "C113_ihash",
    "C113_collisions",
    "C113_round_trip",
    "C113_wide"
   ],
   "note": "Exact form of C40, including arguments outside the range and the default width."
  },
  {
   "property": "C114",
   "status": "proved",
   "theorems": [
    "C114_oracle",
    "C114_unique"
   ],
   "note": "Exact form of C53 for texts without zero bytes."
  },
  {
   "property": "C115",
   "status": "proved",
   "theorems": [
    "C115_any_order"
   ],
   "note": "Exact form of C56: also for the orders that SuffixArray gets wrong."
  },
  {
   "property": "C116",
   "status": "proved",
   "theorems": [
    "C116_map",
    "C116_full"
   ],
   "note": "Exact form of the growth part of C62; the key widths are C108."
  },
  {
   "property": "C117",
   "status": "proved",
   "theorems": [
    "C117_erase_history_exact"
   ],
   "note": "Exact form of C86 and of the first half of C87."
  },
  {
   "property": "C118",
   "status": "proved",
   "theorems": [
    "C118_all_writes_exact"
   ],
   "note": "Exact form of C88."
  },
  {
   "property": "C119",
   "status": "proved",
   "theorems": [
    "C119_all_operations_exact",
    "C119_assertions_exact"
   ],
   "note": "Exact form of C89 and C96."
  },
  {
   "property": "C120",
   "status": "proved",
   "theorems": [
    "C120_fitvector",
    "C120_wavelet",
    "C120_wavelet_symbol",
    "C120_dacvector",
    "C120_cdrwarray"
   ],
   "note": "The constructors are modelled with their conversions in SignedModel.v; queries are those of the unsigned models."
  },
  {
   "property": "C121",
   "status": "proved",
   "theorems": [
    "C121_access"
   ],
   "note": "Exact form of the FitVector half of C15."
  },
  {
   "property": "C122",
   "status": "proved",
   "theorems": [
    "C122_bitvector",
    "C122_succinct",
    "C122_fitvector",
    "C122_dacvector",
    "C122_multibit",
    "C122_samcdict"
   ],
   "note": "Exact form of C32, C33 and C70 for objects that can arise; the field ranges those take as hypotheses are proved here."
  },
  {
   "property": "C123",
   "status": "proved",
   "theorems": [
    "C123_same",
    "C123_lower",
    "C123_higher"
   ],
   "note": "Exact form of the WaveletTree part of C32."
  },
  {
   "property": "C124",
   "status": "proved",
   "theorems": [
    "C124_bom",
    "C124_false_match"
   ],
   "note": "Exact counterpart of C48. The automaton is the factor oracle as defined in Spec20 (C114), continued by the memory behind it; windows and readings are defined in Spec24 without reference to the model."
  },
  {
   "property": "C125",
   "status": "proved",
   "theorems": [
    "C125_order",
    "C125_ms"
   ],
   "note": "Exact counterpart of C51; completes C81 for SundayMS."
  },
  {
   "property": "C126",
   "status": "proved",
   "theorems": [
    "C126_wavelet",
    "C126_wavelet_signed",
    "C126_cumulative",
    "C126_through_int",
    "C126_dac",
    "C126_dac_few",
    "C126_dac_many",
    "C126_multibit",
    "C126_double"
   ],
   "note": "LimitModel.v models the loops with their int counters and the double quotient; C126 relates them to the models with unbounded counters that the other properties use. Assumes that a request for 2^57 words or more throws."
  },
  {
   "property": "C127",
   "status": "proved",
   "theorems": [
    "C127_enough",
    "C127_terminal",
    "C127_first_lost",
    "C127_wrong_item"
   ],
   "note": "TrieWidthModel.v stores node and item numbers in the size type; TrieModel.v, which C57, C58, C65, C66 and C109 use, has them unbounded. The key whose insertion passes the limit is taken to be shorter than 2^62 bytes."
  },
  {
   "property": "C128",
   "status": "proved",
   "theorems": [
    "C128_any_comparison",
    "C128_sort_comparisons",
    "C128_make_comparisons",
    "C128_push_comparisons",
    "C128_pop_comparisons"
   ],
   "note": "HeapCostModel.v has the comparison as a function from a state to an answer and a new state; with a plain comparison it is proved to compute what HeapModel.v computes. Copies of elements (push inserts at the front of the array) are not counted."
  },
  {
   "property": "C129",
   "status": "proved",
   "theorems": [
    "C129_first",
    "C129_last",
    "C129_adjacent",
    "C129_single",
    "C129_abort",
    "C129_repeats",
    "C129_misplaced"
   ],
   "note": "Together with C71 this settles all strings except those with at least two zero bytes, none of them first, last or next to another. For strings with exactly one zero byte the undefined access may happen only after several recursions."
  },
  {
   "property": "C130",
   "status": "proved",
   "theorems": [
    "C130_simple",
    "C130_kmp",
    "C130_bm",
    "C130_quick_search",
    "C130_maximal_shift",
    "C130_bom"
   ],
   "note": "PatternCostModel.v is PatternModel.v (and Bom of FoModel.v) with counters; the theorems say that the counting version returns the same positions. For Bom the calls of image are counted. TurboBom is left out. For the Sunday matchers lengths are below 2^64."
  },
  {
   "property": "C131",
   "status": "proved",
   "theorems": [
    "C131_size"
   ],
   "note": "The transitions are those of the factor oracle as specified in Spec20 (C114). Both ends of the range are reached (example)."
  },
  {
   "property": "C132",
   "status": "proved",
   "theorems": [
    "C132_fitvector",
    "C132_bitvector",
    "C132_swap"
   ],
   "note": "FitVector references for widths 1 to 63; their operator& calls a private constructor and is not part of the programs."
  },
  {
   "property": "C133",
   "status": "proved",
   "theorems": [
    "C133_linear",
    "C133_same"
   ],
   "note": "Counted are the iterations of the loops written in SuffixArray.hpp; the work inside std::vector, std::sort (statistics) and FitVector is not counted. C133_same relates the counting functions to the model of C71."
  },
  {
   "property": "C134",
   "status": "proved",
   "theorems": [
    "C134_in_place_get",
    "C134_in_place_set",
    "C134_in_place_history",
    "C134_folklore_get",
    "C134_folklore_history"
   ],
   "note": "Counted are the accesses to elements of the arrays. Allocation of the storage is not counted, nor the reallocation of the vector t_ of the folklore array, which the model does not have. Leaving out the counters gives the model of C34 and C35 (first half of each theorem)."
  },
  {
   "property": "C135",
   "status": "proved",
   "theorems": [
    "C135_get",
    "C135_rank",
    "C135_select",
    "C135_directory",
    "C135_wavelet_access",
    "C135_wavelet_rank",
    "C135_fit",
    "C135_dac"
   ],
   "note": "Counted are the reads of elements of the word vectors, not those of member fields and of the tables of layers and nodes. Leaving out the counters gives the models of C15 to C27 (first half of each theorem)."
  },
  {
   "property": "C136",
   "status": "proved",
   "theorems": [
    "C136_bitvector",
    "C136_bitvector_assign",
    "C136_bitvector_resize",
    "C136_fitvector",
    "C136_fitvector_push",
    "C136_succinct",
    "C136_sequences",
    "C136_wavelet_ranks",
    "C136_hash_table",
    "C136_strings"
   ],
   "note": "Move construction only: after a move assignment the standard leaves the content of the source vector unspecified. For set on a CHT the state must not count elements while no slot is used, which holds of every table with size_ <= used_."
  },
  {
   "property": "C137",
   "status": "proved",
   "theorems": [
    "C137_words",
    "C137_chunks",
    "C137_auto_words",
    "C137_estimate",
    "C137_near_best",
    "C137_near_best_bytes"
   ],
   "note": "Counted are the elements of the word vectors, not capacities, object headers and the list of widths. The automatic split is the variant of C24/C78 with the stray loop iteration of split_positions left out, since the shipped one is undefined (C23, C106)."
  },
  {
   "property": "C138",
   "status": "proved",
   "theorems": [
    "C138_samc_accept",
    "C138_dict_lookup",
    "C138_dict_access",
    "C138_trie_traverse",
    "C138_trie_size",
    "C138_oracle",
    "C138_multibit_get",
    "C138_multibit_rank"
   ],
   "note": "Counted are reads of elements of the arrays; the lookup among the edges of one trie node (a search by character, at most 256) counts as part of the node. Leaving out the counters gives the models of C29, C52 and C57 to C60."
  },
  {
   "property": "C139",
   "status": "proved",
   "theorems": [
    "C139_bitvector",
    "C139_fitvector",
    "C139_wavelet",
    "C139_table"
   ],
   "note": "Memory is the number of words in the vectors; what the allocator adds and capacity above the size are not modelled."
  },
  {
   "property": "C140",
   "status": "proved",
   "theorems": [
    "C140_delay",
    "C140_sharp"
   ],
   "note": "DelayModel.v counts the comparisons of line 99 per character. The proof uses the theorem of Fine and Wilf on words with two periods."
  },
  {
   "property": "C141",
   "status": "proved",
   "theorems": [
    "C141_turbo",
    "C141_runs"
   ],
   "note": "TurboCostModel.v is the loop of FoModel.v with counters; TurboCost.v shows that without them it is the same loop."
  },
  {
   "property": "C142",
   "status": "proved",
   "theorems": [
    "C142_moves",
    "C142_reserve"
   ],
   "note": "RehashModel.v is _resize, reserve and set of CHTModel.v with the calls of set by _resize counted; Rehash.v shows that without the counters they are the same. The work of one insertion, which depends on the clusters, is not counted."
  },
  {
   "property": "C143",
   "status": "proved",
   "theorems": [
    "C143_read",
    "C143_history"
   ],
   "note": "PadModel.v carries the padding bytes of each RankTip next to its members; streams as in C103. New elements of a resized vector have zeros in the padding (value-initialization). Allocation is assumed to succeed."
  },
  {
   "property": "C144",
   "status": "proved",
   "theorems": [
    "C144_float",
    "C144_window",
    "C144_any_window",
    "C144_finds",
    "C144_same"
   ],
   "note": "Conversion to float is IEEE round to nearest even, shown against a separate statement of rounding. As in C77 the oracle must be built and the byte behind its array must not occur in the text; for the byte behind the key the same, or no occurrence may be overlapped."
  },
  {
   "property": "C145",
   "status": "proved",
   "theorems": [
    "C145_push",
    "C145_resize",
    "C145_assign",
    "C145_succinct",
    "C145_fit_push",
    "C145_fit_resize",
    "C145_fit_assign",
    "C145_fit",
    "C145_wavelet",
    "C145_dac",
    "C145_multibit"
   ],
   "note": "Every theorem also says that the counting version computes what the model without counters computes. Growing a std::vector is not counted, nor is the choice of the level widths (split_positions_optimized_for_dac)."
  },
  {
   "property": "C146",
   "status": "proved",
   "theorems": [
    "C146_order",
    "C146_short",
    "C146_long"
   ],
   "note": "Covers all int counters of the constructor except the index of the printed statistics. What happens above 2^31-2 characters without such a valley is not stated."
  },
  {
   "property": "C147",
   "status": "proved",
   "theorems": [
    "C147_short",
    "C147_same",
    "C147_endless"
   ],
   "note": "That construction with unbounded ids ends is a hypothesis; when it does is C90. Texts between the two limits are not covered."
  },
  {
   "property": "C148",
   "status": "proved",
   "theorems": [
    "C148_bom_keeps",
    "C148_sunday_keep",
    "C148_turbo_reports",
    "C148_simple_follows",
    "C148_bm_mixes",
    "C148_simple_gone",
    "C148_bm_gone",
    "C148_kmp_gone",
    "C148_kmp_mixes"
   ],
   "note": "Freed memory is modelled as memory of which every read is undefined. Nothing is claimed about which occurrences TurboBom misses after a change."
  },
  {
   "property": "C149",
   "status": "partial",
   "theorems": [
    "C149_assign_stores_partial",
    "C149_assign_long",
    "C149_assign_refuted",
    "C149_relayout",
    "C149_load_used"
   ],
   "note": "The assignment operator is undefined as a whole because it flows off its end (C149_assign_refuted); what its stores do before that is C149_assign_stores_partial. The other parts are proved in full."
  },
  {
   "property": "C150",
   "status": "proved",
   "theorems": [
    "C150_dfs",
    "C150_bfs"
   ],
   "note": "The members of an action are an arbitrary type changed by an arbitrary function of the node and the depth."
  },
  {
   "property": "C151",
   "status": "proved",
   "theorems": [
    "C151_narrow",
    "C151_construct",
    "C151_any_mask",
    "C151_right_mask",
    "C151_only_right_mask",
    "C151_zero_mask"
   ],
   "note": "The statement describes the code for every outcome of the shift; that default construction is undefined is one of the theorems."
  },
  {
   "property": "C152",
   "status": "proved",
   "theorems": [
    "C152_same",
    "C152_caught",
    "C152_reads",
    "C152_list",
    "C152_width",
    "C152_dac_build",
    "C152_dac_wide",
    "C152_dac_reads",
    "C152_dac_default",
    "C152_suffix"
   ],
   "note": ""
  },
  {
   "property": "C153",
   "status": "proved",
   "theorems": [
    "C153_single_level",
    "C153_numbers",
    "C153_parts",
    "C153_overflow",
    "C153_empty"
   ],
   "note": "The float value of the printed quotient is not modelled; its dividend and divisor are."
  },
  {
   "property": "C154",
   "status": "proved",
   "theorems": [
    "C154_same",
    "C154_figures",
    "C154_exact_sum",
    "C154_empty"
   ],
   "note": "The float value of the average is not modelled; its dividend and divisor are. std::sort is modelled by its result."
  },
  {
   "property": "C155",
   "status": "proved",
   "theorems": [
    "C155_unsigned",
    "C155_signed"
   ],
   "note": "float and double elements are left to C112. Values are shown as their object representation; how the stream formats them is not modelled."
  },
  {
   "property": "C156",
   "status": "proved",
   "theorems": [
    "C156_flags"
   ],
   "note": "Histories with erase are not covered: the output does not show the deleted flag, and the counters differ."
  },
  {
   "property": "C157",
   "status": "proved",
   "theorems": [
    "C157_calls",
    "C157_same"
   ],
   "note": "The calls are counted, not the time spent inside _insert_trans: the search for a base (_find_base) is bounded in C158."
  },
  {
   "property": "C158",
   "status": "proved",
   "theorems": [
    "C158_search",
    "C158_decides"
   ],
   "note": "Together with C157: a construction that ends tries O(n^2) slots. That some constructions do not end is C54."
  }
 ]
}