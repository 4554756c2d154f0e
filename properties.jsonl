{"id": "C01", "title": "64-bit population count is exact", "statement": "bit_util::popcnt(uint64_t) in the default (portable) build returns exactly the number of one bits of its argument; so do the 8- and 16-bit table versions.", "quantifier": "every 64-bit (8-, 16-bit) word", "why_tests_cant": "2^64 inputs cannot be enumerated; the SWAR arithmetic relies on no carry ever crossing a byte", "anchors": ["include/sim_ds/bit_util.hpp: popcnt(uint8_t), popcnt(uint16_t), popcnt(uint64_t), kLtCnt"]}
{"id": "C02", "title": "32-bit population count is exact", "statement": "bit_util::popcnt(uint32_t) in the default (portable) build returns exactly the number of one bits of its argument.", "quantifier": "every 32-bit word", "why_tests_cant": "only a 2^-15 fraction of the words (all even or all odd nibbles full) exposes a carry out of a 4-bit counter; random tests miss it", "anchors": ["include/sim_ds/bit_util.hpp: popcnt(uint32_t)"]}
{"id": "C03", "title": "Leading/trailing zero counts are exact", "statement": "bit_util::ctz and bit_util::clz return the number of zero bits below the lowest / above the highest one bit of a non-zero 32- or 64-bit word, and the width for zero.", "quantifier": "every 32- and 64-bit word", "why_tests_cant": "2^64 inputs", "anchors": ["include/sim_ds/bit_util.hpp: ctz(uint32_t), ctz(uint64_t), clz(uint32_t), clz(uint64_t)"]}
{"id": "C04", "title": "Select inside a word", "statement": "bit_util::sel(x,i) returns the 1-based position of the i-th one bit of x, counted from the least significant bit (1 <= i <= number of one bits).", "quantifier": "every 64-bit word and every valid i", "why_tests_cant": "2^64 words; failing words are rare (they need a full set of even or odd nibbles in the low half)", "anchors": ["include/sim_ds/bit_util.hpp: sel, kLtSel, popcnt(uint32_t)"]}
{"id": "C05", "title": "Field-pattern counts", "statement": "popcnt10/popcnt11 (2-bit fields) and popcnt100/101/110/111 (3-bit fields) return the number of fields of the word that hold exactly the named bit pattern.", "quantifier": "every 64-bit word", "why_tests_cant": "2^64 inputs; result depends on field sums never overflowing", "anchors": ["include/sim_ds/bit_util.hpp: popcnt10, popcnt11, popcnt100, popcnt101, popcnt110, popcnt111"]}
{"id": "C06", "title": "Bit-field masks and extraction", "statement": "WidthMask(w) is the word with exactly the w low bits set and bextr(x,start,len) is the integer formed by bits start..start+len-1 of x; neither invokes undefined behaviour for any w in 0..64.", "quantifier": "every width 0..64, every word, start, length", "why_tests_cant": "the failing width is the one corner (64) whose hardware result is platform dependent", "anchors": ["include/sim_ds/bit_util.hpp: WidthMask, OffsetMask, bextr"]}
{"id": "C07", "title": "xor_map permutes the 256 bits by xor of the index", "statement": "After xor_map(x,dst,m), bit i of dst is bit (i xor m) of x; in particular applying it twice with the same m restores x. The lane swaps swap_pi* exchange neighbouring lanes.", "quantifier": "every 256-bit word and every 8-bit mask", "why_tests_cant": "2^256 inputs times 256 masks", "anchors": ["include/sim_ds/bit_util256.hpp: bit_util::xor_map, swap256_*", "include/sim_ds/bit_util.hpp: swap_pi1..swap_pi32"]}
{"id": "C08", "title": "256-bit counting", "statement": "popcnt256, ctz256, clz256 and is_zero256 are the population count, trailing/leading zero counts and zero test of the 256-bit number formed by the four words.", "quantifier": "every 256-bit word", "why_tests_cant": "2^256 inputs", "anchors": ["include/sim_ds/bit_util256.hpp: popcnt256, ctz256, clz256, is_zero256"]}
{"id": "C09", "title": "Minimal bit and byte sizes", "statement": "calc::SizeFitsInBits(v) / SizeFitsInBytes(v) returns the least k >= 1 with v < 2^k (v < 256^k).", "quantifier": "every 64-bit value", "why_tests_cant": "the shift count reaches the word width only for values in the topmost range", "anchors": ["include/sim_ds/calc.hpp: SizeFitsInUnits, SizeFitsInBits, SizeFitsInBytes"]}
{"id": "C10", "title": "Number of units needed for a value", "statement": "calc::SizeFitsAsList(v, sizes) returns the least k >= 1 such that v < 2^(sizes[0]+...+sizes[k-1]) whenever some such k exists.", "quantifier": "every value and unit list", "why_tests_cant": "unbounded list and values", "anchors": ["include/sim_ds/calc.hpp: SizeFitsAsList"]}
{"id": "C11", "title": "Bit-length statistics of a list", "statement": "bit_length_frequencies produces the histogram of bit lengths (entry k counts the values needing exactly k+1 bits); cummulative_frequency_list produces, for every k, the number of values needing more than k bits; both lists end at the greatest bit length.", "quantifier": "every list of values", "why_tests_cant": "unbounded lists", "anchors": ["include/sim_ds/calc.hpp: bit_length_frequencies, cummulative_frequency_list"]}
{"id": "C12", "title": "DAC level split is a partition of the bit length", "statement": "calc::split_positions_optimized_for_dac returns between 1 and 8 positive level widths whose sum is the greatest bit length of the list, and touches only elements inside its vectors.", "quantifier": "every non-empty list", "why_tests_cant": "dynamic programming over arbitrary data; out-of-bounds accesses can be silent", "anchors": ["include/sim_ds/calc.hpp: split_positions_optimized_for_dac, additional_bit_size_of_rank"]}
{"id": "C13", "title": "BitVector behaves as a sequence of booleans", "statement": "After any history of construction, push_back, resize, assign and element writes, size() and every element read of a BitVector are those of a plain sequence of booleans undergoing the same operations.", "quantifier": "every operation history and every index", "why_tests_cant": "word-boundary arithmetic depends on all combinations of begin/end offsets, stale bits left by shrinking and later growth", "anchors": ["include/sim_ds/BitVector.hpp: _BitVector, BitVector, _fill, _resize, _assign, push_back", "include/sim_ds/BitReference.hpp: BitReference"]}
{"id": "C14", "title": "Bit iterators are positions", "statement": "Bit iterators obey positional arithmetic: (begin()+i)+d denotes bit i+d for positive and negative d, increments/decrements step one bit, the difference of two iterators is the difference of positions and comparison orders by position.", "quantifier": "every position and signed displacement", "why_tests_cant": "floor division of negative displacements across words for every offset", "anchors": ["include/sim_ds/BitReference.hpp: BitIterator"]}
{"id": "C15", "title": "Checked access throws exactly out of range", "statement": "BitVector::at(i) and FitVector::at(i) return element i when i < size() and throw out_of_range exactly when i >= size().", "quantifier": "every index, every vector", "why_tests_cant": "all indices", "anchors": ["include/sim_ds/BitVector.hpp: at", "include/sim_ds/FitVector.hpp: at"]}
{"id": "C16", "title": "rank counts the ones of a prefix", "statement": "For a SuccinctBitVector built from any BitVector, rank(i) (rank_1) is the number of ones among the first i bits, rank_0(i) the number of zeros, for every 0 <= i <= size(), without touching memory outside the vector.", "quantifier": "every bit sequence and every prefix length including the full length", "why_tests_cant": "two-level 9-bit packed counters; corner lengths (multiples of 64 and 512) and stale bits", "anchors": ["include/sim_ds/SuccinctBitVector.hpp: constructor, rank_1, rank_0, rank"]}
{"id": "C17", "title": "select finds the k-th one", "statement": "For a SuccinctBitVector<true> built from any BitVector and any k smaller than its number of ones, select(k) is the position of the (k+1)-th one bit, and only entries inside its tables are read.", "quantifier": "every bit sequence and every k", "why_tests_cant": "the sampled table is too short only when a multiple of 512 ones is crossed inside the last partial block", "anchors": ["include/sim_ds/SuccinctBitVector.hpp: SuccinctBitVector<true>::select, select_tips_"]}
{"id": "C18", "title": "rank and select are inverse", "statement": "rank(select(k)) = k for every k smaller than the number of ones, and select(rank(i)) = i for every set bit i.", "quantifier": "every bit sequence and position", "why_tests_cant": "unbounded sequences", "anchors": ["include/sim_ds/SuccinctBitVector.hpp: rank, select"]}
{"id": "C19", "title": "FitVector element writes are independent", "statement": "In a FitVector of element width w, after writing value x at i, reading i gives x and reading any other index gives what it gave before.", "quantifier": "every width, size, index pair and value", "why_tests_cant": "elements straddle word boundaries in all alignments; neighbours are corrupted only by some values", "anchors": ["include/sim_ds/FitVector.hpp: operator[]", "include/sim_ds/BitsReference.hpp: BitsReference"]}
{"id": "C20", "title": "FitVector built from values reads them back", "statement": "FitVector(v) for a vector v of unsigned values has the same size and elements as v and uses the least element width that holds the maximum.", "quantifier": "every vector", "why_tests_cant": "unbounded contents; the top bit value is special", "anchors": ["include/sim_ds/FitVector.hpp: FitVector(const std::vector<T>&)", "include/sim_ds/calc.hpp: minimal_word_size, SizeFitsInBits"]}
{"id": "C21", "title": "FitVector grows with well-defined elements", "statement": "FitVector behaves as a sequence under any history of push_back, resize, assign and writes: elements added by resize(n) read as zero, by resize(n,x) or assign(n,x) as x, and existing elements are unchanged.", "quantifier": "every history", "why_tests_cant": "stale bits appear only after particular shrink/grow histories", "anchors": ["include/sim_ds/FitVector.hpp: resize, assign, push_back"]}
{"id": "C22", "title": "Range fill touches exactly its range", "statement": "BitVector::fill(begin()+i, begin()+j, b) sets bits i..j-1 to b and leaves every other bit unchanged, and writes no word outside the vector.", "quantifier": "every vector, range and bit", "why_tests_cant": "all combinations of begin/end offsets within and across words", "anchors": ["include/sim_ds/BitVector.hpp: _fill, fill"]}
{"id": "C23", "title": "DacVector stores every sequence losslessly", "statement": "DacVector(v) has size v.size() and operator[](i) = v[i] for every index, whatever level widths the library picks.", "quantifier": "every non-empty sequence of values", "why_tests_cant": "levels, rank structures and data-dependent widths for unbounded inputs", "anchors": ["include/sim_ds/DacVector.hpp: constructor, operator[]", "include/sim_ds/calc.hpp: split_positions_optimized_for_dac"]}
{"id": "C24", "title": "DacVector with caller-chosen level widths", "statement": "DacVector(v, widths) reads back v for any widths whose sum covers the greatest bit length.", "quantifier": "every sequence and width list", "why_tests_cant": "width lists and data are unbounded; out-of-bounds reads are silent", "anchors": ["include/sim_ds/DacVector.hpp: DacVector(const std::vector<T>&, std::vector<size_t>)"]}
{"id": "C25", "title": "DacVector of an empty sequence", "statement": "DacVector of an empty vector is a valid empty sequence: size() is 0 and it can be written and read back.", "quantifier": "the empty sequence and every later use", "why_tests_cant": "reads of uninitialised/out-of-range memory may happen to work", "anchors": ["include/sim_ds/DacVector.hpp: constructor, size, Write, Read"]}
{"id": "C26", "title": "WaveletTree access", "statement": "For WaveletTree(v), operator[](i) = v[i] for every i.", "quantifier": "every non-empty sequence and index", "why_tests_cant": "tree shape depends on the data; unbounded alphabets", "anchors": ["include/sim_ds/WaveletTree.hpp: constructor, operator[]"]}
{"id": "C27", "title": "WaveletTree rank", "statement": "For WaveletTree(v), rank(i) is the number of j < i with v[j] = v[i]; rank(c,i) is the number of j < i with v[j] = c for every symbol c and every 0 <= i <= size.", "quantifier": "every sequence, symbol and index", "why_tests_cant": "sub-node boundaries depend on data", "anchors": ["include/sim_ds/WaveletTree.hpp: rank(size_t), rank(uint8_t,size_t), AccessAndRank"]}
{"id": "C28", "title": "MultiBitVector element writes are independent", "statement": "For element width U in 1..3, after any history of set and resize, element i reads as the last value set at i (0 if none).", "quantifier": "every history and index", "why_tests_cant": "unbounded histories, growth on demand", "anchors": ["include/sim_ds/MultiBitVector.hpp: set, operator[], resize"]}
{"id": "C29", "title": "MultiBitVector rank counts equal symbols", "statement": "After build, rank(i) is the number of j < i holding the same non-zero symbol as i.", "quantifier": "every content and index, U in 1..3", "why_tests_cant": "3-level counters with 8-bit fields; unbounded sizes", "anchors": ["include/sim_ds/MultiBitVector.hpp: build, rank, popcnt_"]}
{"id": "C30", "title": "MultipleVector fields are independent byte fields", "statement": "In a MultipleVector with declared field sizes, writing field e of record i stores the value modulo 256^size(e) there and changes no other field of any record; growth keeps existing contents.", "quantifier": "every field layout, record, field and value; non-empty records with fields of at most 8 bytes", "why_tests_cant": "unbounded layouts", "anchors": ["include/sim_ds/MultipleVector.hpp: set_nested_element, operator[], restricted_get, resize, push_back"]}
{"id": "C31", "title": "Primitive serialisation round-trips", "statement": "read_val/read_vec/read_string return exactly what write_val/write_vec/write_string wrote and leave the rest of the stream untouched.", "quantifier": "every value, vector, string and following stream content", "why_tests_cant": "unbounded contents", "anchors": ["include/sim_ds/basic.hpp: read_val, write_val, read_vec, write_vec, read_string, write_string"]}
{"id": "C32", "title": "Container serialisation round-trips", "statement": "Reading what Write wrote for BitVector, SuccinctBitVector, FitVector, DacVector, MultiBitVector and WaveletTree reproduces an object answering every query identically, and consumes exactly the written bytes.", "quantifier": "every container value and target object", "why_tests_cant": "unbounded contents; the defect depends on the state of the object being loaded into", "anchors": ["include/sim_ds/BitVector.hpp: Read, Write", "include/sim_ds/SuccinctBitVector.hpp: Read, Write", "include/sim_ds/FitVector.hpp: FitVector(istream), Write", "include/sim_ds/DacVector.hpp: Read, Write", "include/sim_ds/WaveletTree.hpp: Read, Write", "include/sim_ds/MultipleVector.hpp: StoreTo, LoadFrom"]}
{"id": "C33", "title": "Reported size equals written size", "statement": "size_in_bytes() equals the number of bytes Write emits.", "quantifier": "every container value", "why_tests_cant": "unbounded contents", "anchors": ["include/sim_ds/BitVector.hpp: size_in_bytes", "include/sim_ds/FitVector.hpp: size_in_bytes", "include/sim_ds/SuccinctBitVector.hpp: size_in_bytes", "include/sim_ds/DacVector.hpp: size_in_bytes", "include/sim_ds/MultipleVector.hpp: size_in_bytes"]}
{"id": "C34", "title": "Folklore initializable array", "statement": "InitializableArrayFolklore: after fill(v), every element reads v until it is written, and then reads the last value written, regardless of earlier contents.", "quantifier": "every history of fill/set/get and every size", "why_tests_cant": "unbounded histories; correctness relies on a cross-check with stale memory", "anchors": ["include/sim_ds/InitializableArray.hpp: InitializableArrayFolklore"]}
{"id": "C35", "title": "In-place initializable array is correct over arbitrary memory", "statement": "InitializableArray<T,N> (in-place variant, integer T): starting from arbitrary garbage memory, after fill(v) every element reads v until written and then reads the last written value, even when stored values look like internal links.", "quantifier": "every initial memory content, history and size", "why_tests_cant": "adversarial values that imitate internal pointers have negligible probability in tests", "anchors": ["include/sim_ds/InitializableArray.hpp: _InitializableArray<T,Size,true>"]}
{"id": "C36", "title": "In-place initializable array for floating element types", "statement": "InitializableArray<T,N> gives the same guarantee for every element type accepted by its specialisation rule, including float and double.", "quantifier": "every accepted element type, history", "why_tests_cant": "needs a particular mixture of written and unwritten blocks", "anchors": ["include/sim_ds/InitializableArray.hpp: get"]}
{"id": "C37", "title": "Heap built from a sequence pops in order", "statement": "A Heap constructed from a sequence yields its elements in non-decreasing order under repeated front/pop, each exactly once; front is always a minimum.", "quantifier": "every sequence; MinHeap and MaxHeap", "why_tests_cant": "unbounded sequences", "anchors": ["include/sim_ds/Heap.hpp: Build, Heapify, pop, front"]}
{"id": "C38", "title": "Heap push keeps the order guarantee", "statement": "After any history of construction, push and pop, front() is a minimum of the contents and repeated pop yields them in order.", "quantifier": "every history; MinHeap and MaxHeap", "why_tests_cant": "the defect shows only for certain shapes", "anchors": ["include/sim_ds/Heap.hpp: push"]}
{"id": "C39", "title": "HeapSort sorts", "statement": "HeapSort(begin,end,compare) leaves the range a permutation of its input that is ordered by compare.", "quantifier": "every sequence and every strict weak order", "why_tests_cant": "unbounded inputs", "anchors": ["include/sim_ds/sort.hpp: HeapSort"]}
{"id": "C40", "title": "SplitMix hash is a bijection with the given inverse", "statement": "For every width w, hash maps [0,2^w) to itself and ihash(hash(x)) = x = hash(ihash(x)).", "quantifier": "every width 0..64 and every x < 2^w", "why_tests_cant": "2^w inputs for each width", "anchors": ["include/sim_ds/BijectiveHash.hpp: SplitMixHash, MultiplyHash, Xorshift, PRIME_TABLE"]}
{"id": "C41", "title": "Compact hash table stores a map", "statement": "CHT: after any history of set, including automatic growth and reserve, get(k) returns the value last set for k, and reports absence for keys never set; size() is the number of distinct keys.", "quantifier": "every history of fewer than 2^50 operations with keys below 2^key_bits (key_bits <= 60), values fitting the value width (1..63 bits), load factor 1..99 per cent and a power-of-two initial bucket count that admits at least one entry", "why_tests_cant": "cluster shapes, wrap-around and growth depend on hash collisions; unbounded", "anchors": ["include/sim_ds/CHT.hpp: set, get, reserve, _resize, ToClusterHead"]}
{"id": "C42", "title": "Compact hash table erase", "statement": "After erase(k), get(k) reports absence and every other key keeps its value, now and after later insertions and growth.", "quantifier": "every history with erase", "why_tests_cant": "needs collisions between unrelated keys", "anchors": ["include/sim_ds/CHT.hpp: erase, get, set"]}
{"id": "C43", "title": "CDRWArray reads back the last write", "statement": "CDRWArray(n): get(i) returns the last value set at i, 0 if none, for every history of writes.", "quantifier": "every history, index and 64-bit value", "why_tests_cant": "interference between unrelated indices through shared tables", "anchors": ["include/sim_ds/CDRWArray.hpp: set, get"]}
{"id": "C44", "title": "CDRWVector behaves as a sequence", "statement": "CDRWVector behaves as a sequence of 64-bit integers under push_back, pop_back, resize and element writes, starting from an empty vector.", "quantifier": "every history", "why_tests_cant": "growth paths and stale values", "anchors": ["include/sim_ds/CDRWArray.hpp: CDRWVector"]}
{"id": "C45", "title": "Naive matcher finds exactly the occurrences", "statement": "PatternMatchSimple(text,key) returns, in increasing order, exactly the positions where key occurs in text.", "quantifier": "every text and key", "why_tests_cant": "unbounded strings", "anchors": ["include/sim_ds/string_util/PatternMatching.hpp: Simple"]}
{"id": "C46", "title": "KMP matcher finds exactly the occurrences", "statement": "PatternMatchKMP(text,key) returns exactly the occurrences of key in text, in increasing order, reading only inside text and key.", "quantifier": "every text and non-empty key", "why_tests_cant": "the stray read after a match usually hits a NUL", "anchors": ["include/sim_ds/string_util/PatternMatching.hpp: Kmp"]}
{"id": "C47", "title": "BM matcher finds exactly the occurrences", "statement": "PatternMatchBM(text,key) returns exactly the occurrences of key in text for arbitrary byte strings.", "quantifier": "every text and non-empty key", "why_tests_cant": "unbounded strings; bytes >= 0x80", "anchors": ["include/sim_ds/string_util/PatternMatching.hpp: Bm"]}
{"id": "C48", "title": "BOM matcher finds exactly the occurrences", "statement": "PatternMatchBOM(text,key) returns exactly the occurrences of key in text, reading only inside its arrays.", "quantifier": "every text and non-empty key", "why_tests_cant": "depends on the factor oracle of every key", "anchors": ["include/sim_ds/string_util/PatternMatching.hpp: Bom", "include/sim_ds/string_util/FactorOracle.hpp: FactorOracle"]}
{"id": "C49", "title": "Turbo-BOM matcher finds exactly the occurrences", "statement": "PatternMatchTurboBOM(text,key) returns exactly the occurrences of key in text.", "quantifier": "every text and non-empty key", "why_tests_cant": "missed matches need a specific interplay of the two search phases", "anchors": ["include/sim_ds/string_util/PatternMatching.hpp: TurboBom"]}
{"id": "C50", "title": "Quick-search matcher finds exactly the occurrences", "statement": "PatternMatchSundayQS(text,key) returns exactly the occurrences of key in text, for texts of any length and arbitrary bytes.", "quantifier": "every text and key", "why_tests_cant": "unbounded strings; short texts and non-ASCII bytes are corner cases", "anchors": ["include/sim_ds/string_util/PatternMatching.hpp: Sunday, SundayQS"]}
{"id": "C51", "title": "Maximal-shift matcher finds exactly the occurrences", "statement": "PatternMatchSundayMS(text,key) returns exactly the occurrences of key in text, for texts of any length and arbitrary bytes.", "quantifier": "every text and key", "why_tests_cant": "shift table correctness ranges over all keys", "anchors": ["include/sim_ds/string_util/PatternMatching.hpp: SundayMS"]}
{"id": "C52", "title": "Factor oracle accepts every factor", "statement": "FactorOracle(text) accepts every substring of text.", "quantifier": "every text and substring", "why_tests_cant": "on-line construction plus double-array relocation for unbounded texts", "anchors": ["include/sim_ds/string_util/FactorOracle.hpp: FactorOracleBaseCTAFOBuilder, FactorOracle::accept"]}
{"id": "C53", "title": "Factor oracle is weak only for shorter words", "statement": "FactorOracle(text) accepts no word longer than text, the only word of length |text| it accepts is text itself, and evaluating accept never reads outside the oracle's arrays.", "quantifier": "every text and query", "why_tests_cant": "stray reads are silent", "anchors": ["include/sim_ds/string_util/FactorOracle.hpp: FactorOracle::image"]}
{"id": "C54", "title": "Factor oracle construction terminates", "statement": "Building a FactorOracle terminates for every text.", "quantifier": "every text", "why_tests_cant": "non-termination would need the free list to be exhausted exactly", "anchors": ["include/sim_ds/string_util/FactorOracle.hpp: _find_base, _expand_block, set_next"]}
{"id": "C55", "title": "Suffix array is sorted", "statement": "SuffixArray(s) stores the permutation of positions that lists the suffixes of s in increasing lexicographic order.", "quantifier": "every string", "why_tests_cant": "unbounded strings", "anchors": ["include/sim_ds/string_util/SuffixArray.hpp: Sais_, InducedSort_, Induce_"]}
{"id": "C56", "title": "LCP array", "statement": "The stored LCP array entry k is the length of the longest common prefix of the k-th and (k+1)-th suffix in suffix-array order, 0 for the last.", "quantifier": "every string and suffix order", "why_tests_cant": "the algorithm skips comparisons, justified only by a global argument", "anchors": ["include/sim_ds/string_util/SuffixArray.hpp: BuildLCP_, CompareLCP_"]}
{"id": "C57", "title": "Trie is a map from strings", "statement": "graph_util::Trie: traverse(k) returns the item last inserted for k, or null if none, for any history of inserts and any byte strings.", "quantifier": "every history and key", "why_tests_cant": "unbounded histories", "anchors": ["include/sim_ds/string_util/graph_util.hpp: Trie::insert, Trie::traverse"]}
{"id": "C58", "title": "Trie traversals visit each node once", "statement": "dfs and bfs terminate and call the action exactly once for every node with its depth; bfs in non-decreasing depth.", "quantifier": "every history of inserts", "why_tests_cant": "unbounded tries", "anchors": ["include/sim_ds/string_util/graph_util.hpp: Trie::dfs, Trie::bfs"]}
{"id": "C59", "title": "Samc recognises exactly its key set", "statement": "Samc built from a sorted list of distinct keys accepts a string iff it is one of the keys.", "quantifier": "every key set and query", "why_tests_cant": "packing collisions depend on the whole key set", "anchors": ["include/sim_ds/string_util/Samc.hpp: Samc, accept"]}
{"id": "C60", "title": "SamcDict lookup and access are inverse", "statement": "SamcDict gives the keys distinct ids in 0..n-1, access(lookup(k)) = k for every key and lookup rejects other strings.", "quantifier": "every key set and query", "why_tests_cant": "depends on rank/select over unbounded data", "anchors": ["include/sim_ds/string_util/Samc.hpp: SamcDict"]}
{"id": "C61", "title": "DacVector::depth is the least sufficient level", "statement": "For every DacVector built from v with given level widths, depth(i) is the least k such that v[i] fits in the first k+1 widths.", "quantifier": "every sequence, width list and index", "why_tests_cant": "The answer depends on the rank directory of every level for every sequence; a test samples a few positions.", "anchors": ["include/sim_ds/DacVector.hpp:171-179", "include/sim_ds/DacVector.hpp:261-295"]}
{"id": "C62", "title": "Compact hash table accepts every key width and bucket count", "statement": "CHT: for every key width up to 63 bits and every power-of-two bucket count, set terminates without undefined behaviour.", "quantifier": "every key width, bucket count and load factor", "why_tests_cant": "the failures lie at parameters the tests do not use", "anchors": ["include/sim_ds/CHT.hpp:50-63", "include/sim_ds/CHT.hpp:137-139"]}
{"id": "C63", "title": "CDRWArray built from a range reads it back", "statement": "CDRWArray(begin, end): size() is the length of the range and get(i) is its i-th value.", "quantifier": "every range of fewer than 2^50 values below 2^63 and every index", "why_tests_cant": "each value width has its own hash table; growth and collisions depend on the whole range", "anchors": ["include/sim_ds/CDRWArray.hpp:27-53"]}
{"id": "C64", "title": "Matchers agree on plain text", "statement": "On ASCII text without zero bytes the naive, KMP, BM, quick-search and maximal-shift matchers all return the same list, with no read outside the text and the zero-terminated key.", "quantifier": "every text and every non-empty ASCII key not longer than the text", "why_tests_cant": "the skip tables depend on all positions of the key; agreement on samples does not cover all periodic keys", "anchors": ["include/sim_ds/string_util/PatternMatching.hpp:45-147", "include/sim_ds/string_util/PatternMatching.hpp:235-388"]}
{"id": "C65", "title": "Trie with the default size type is a map", "statement": "graph_util::Trie with size_type size_t: after any sequence of inserts traverse(k) returns the item last inserted for k and null for every other string, zero bytes included; insert returns a reference to the item just stored.", "quantifier": "every history of fewer than 2^64-1 inserts and every byte string", "why_tests_cant": "unbounded histories and keys, zero bytes inside keys share the label of the end mark", "anchors": ["include/sim_ds/string_util/graph_util.hpp: Trie::insert, Trie::traverse"]}
{"id": "C66", "title": "is_terminal marks the ends of keys", "statement": "Trie::Node::is_terminal is true exactly for the nodes which end an inserted key, whatever the size type.", "quantifier": "every history of inserts, every node", "why_tests_cant": "unbounded tries; the marker value depends on the size type", "anchors": ["include/sim_ds/string_util/graph_util.hpp: Trie::Node::is_terminal"]}
{"id": "C67", "title": "Samc is exact on zero-free strings", "statement": "For a non-empty strictly sorted list of keys without zero bytes, Samc (both packing variants) accepts a string without zero bytes iff it is one of the keys, and never reads outside its arrays.", "quantifier": "every such key list and query, bytes 1..255", "why_tests_cant": "the double-array packing depends on the whole key set; free slots carry the byte 0xFF, which is also a legal character", "anchors": ["include/sim_ds/string_util/Samc.hpp:135-216", "include/sim_ds/string_util/Samc.hpp:218-261", "include/sim_ds/string_util/Samc.hpp:308-334"]}
{"id": "C68", "title": "SamcDict is a bijection for small key sets", "statement": "For at most 512 sorted zero-free keys, SamcDict (BMI2 select) numbers the keys 0..n-1 bijectively, lookup rejects every other zero-free string and access(lookup(k)) = k.", "quantifier": "every such key list and query, storage below 2^41 slots", "why_tests_cant": "depends on packing, rank and select over unbounded data", "anchors": ["include/sim_ds/string_util/Samc.hpp:366-475"]}
{"id": "C69", "title": "front and back of BitVector", "statement": "After any history of construction, push_back, resize, assign, fill and element writes that leaves a BitVector non-empty, front() is its first and back() its last element.", "quantifier": "every history", "why_tests_cant": "the last element may be anywhere in the last word, behind it stale bits", "anchors": ["include/sim_ds/BitVector.hpp:198-204"]}
{"id": "C70", "title": "String structures serialise", "statement": "Reading what Write wrote for Samc, SamcDict and SuffixArray reproduces the object, whatever it was read into, and consumes exactly the written bytes; size_in_bytes of Samc and SamcDict is the number of bytes written; suffix(i) is the text from i on and throws for i behind the end.", "quantifier": "every object whose fields fit their types, every target object", "why_tests_cant": "unbounded contents", "anchors": ["include/sim_ds/string_util/Samc.hpp:91-108", "include/sim_ds/string_util/Samc.hpp:382-392", "include/sim_ds/string_util/SuffixArray.hpp:44-70"]}
{"id": "C71", "title": "SuffixArray construction completes", "statement": "For every non-empty string of bytes 1..127 shorter than 2^31 the SuffixArray constructor completes without undefined behaviour; its array is a permutation of the positions in which any two suffixes stand in the right order unless they agree up to and including the next valley (LMS position) of both; and every LCP entry is at least the real common prefix of the two neighbouring suffixes and at most the length of the string.", "quantifier": "every such string", "why_tests_cant": "unbounded strings and recursion depth; the remaining errors are confined to pairs characterised exactly", "anchors": ["include/sim_ds/string_util/SuffixArray.hpp:73-278"]}
{"id": "C72", "title": "Strings SuffixArray sorts correctly", "statement": "If no two valleys (LMS positions) of the string start the same LMS substring, the constructed array is the suffix array if and only if positions that agree up to the next valley are already in suffix order from left to right; where valleys repeat, it suffices that the string of their names has this property recursively, and then the LCP array is exact as well.", "quantifier": "every non-empty string of bytes 1..127 shorter than 2^31", "why_tests_cant": "an exact criterion over unbounded strings", "anchors": ["include/sim_ds/string_util/SuffixArray.hpp:73-278"]}
{"id": "C73", "title": "WaveletTree rank of a symbol, exactly", "statement": "For every sequence of values below 2^31, every symbol c and every position i up to the size: only the low bits of c that the tree distinguishes count, and rank(c, i) is the number of their occurrences before i, unless on some level all elements that share the symbol's leading bits lie before i and their number is a positive multiple of 64, in which case it reads outside the bit vector of that node. node_diff(node, d) is the number of ids of the last d bit lengths up to that of node.", "quantifier": "every sequence, symbol and position", "why_tests_cant": "the undefined case depends on counts on every level being exact multiples of the word size", "anchors": ["include/sim_ds/WaveletTree.hpp:83-93", "include/sim_ds/WaveletTree.hpp:113-118"]}
{"id": "C74", "title": "bit_util with POPCNT, BMI, BMI2 and LZCNT", "statement": "In the builds that use the POPCNT, BMI, BMI2 or LZCNT instructions, and in the MMX-free branch of the swaps, popcnt for 1, 2, 4 and 8 bytes counts the ones, popcnt11/10/111/110/101/100 count the matching 2- or 3-bit fields, bextr extracts the field for every start and length up to 64, ctz and clz of 32 and 64 bits are the positions of the lowest and highest one (the width for zero), and sel returns the position after the i-th one for every word with at least i ones.", "quantifier": "every word, and every start, length and index in range", "why_tests_cant": "2^64 words; several of these functions are wrong in the portable build on sparse sets of words", "anchors": ["include/sim_ds/bit_util.hpp:76-176", "include/sim_ds/bit_util.hpp:182-310", "include/sim_ds/bit_util.hpp:511-570"]}
{"id": "C75", "title": "256-bit operations with AVX2, and copy256", "statement": "xor_map_intrinsics (without AVX-512) moves bit i xor mask to bit i and equals xor_map; is_zero256_intrinsics is true exactly for zero; copy256_epi64 copies four words and changes nothing else unless the target starts inside the source, in which case the portable loop repeats the words before the target; the AVX2 version copies exactly, and is undefined unless both addresses are multiples of 32 bytes.", "quantifier": "every 256-bit value, mask and pair of positions", "why_tests_cant": "2^256 values times 256 masks", "anchors": ["include/sim_ds/bit_util256.hpp:32-56", "include/sim_ds/bit_util256.hpp:135-173"]}
{"id": "C76", "title": "SuccinctBitVector rank and select, every case", "statement": "On targets with POPCNT or BMI2 and for fewer than 2^41 bits, select(k) for k below the number of ones is the position p of the k-th one and rank(p) = k, if k/512 is at most the number of ones before the last 512-bit block divided by 512; otherwise it reads outside the sample table. rank(i) for i up to the size is the number of ones before i, except that rank(size()) is undefined when the size is a positive multiple of 64.", "quantifier": "every bit vector reachable by a history of operations, every k and i", "why_tests_cant": "unbounded vectors; the failing indices depend on the distribution of the ones", "anchors": ["include/sim_ds/SuccinctBitVector.hpp:80-182"]}
{"id": "C77", "title": "What TurboBom finds", "statement": "If the bytes behind the key and behind the array of the oracle do not occur in the text and the construction of the oracle ends, TurboBom::find_all ends and reports, once and in increasing order, only occurrences of the key, and every occurrence x unless for some d >= 1 with d + 2 <= m/2 the key of length m does not occur at x - d although its first d + ceil(m/2) + 1 characters do. Hence it is exact, and never reads behind the key, for keys in which no prefix of length d + ceil(m/2) + 1 < m has period d, in particular for every key of at most five bytes.", "quantifier": "every text and every non-empty key without zero bytes", "why_tests_cant": "unbounded strings; misses need a self-overlapping key at a particular offset", "anchors": ["include/sim_ds/string_util/PatternMatching.hpp:187-240"]}
{"id": "C78", "title": "The DAC level split is optimal", "statement": "With the stray iteration of split_positions_optimized_for_dac left out, the widths computed before merging minimise, over all splits of the greatest bit length into positive widths, the sum over the levels of width times number of values reaching the level, plus n + n/4 + 191 bits of rank index for every level but the last. If they are more than max_levels (at least 2), exactly max_levels remain, every remaining cut is one of the original cuts, and no removed cut lies at a bit length of more values than a kept one (except the cut before the last bit, which is never removed).", "quantifier": "every non-empty list of fewer than 2^57 values below 2^63 and every max_levels >= 2", "why_tests_cant": "exponentially many splits; arbitrary data", "anchors": ["include/sim_ds/calc.hpp:85-167"]}
{"id": "C79", "title": "MultiBitVector may be rebuilt, and counts below a width", "statement": "After any history of set, resize and build calls a MultiBitVector reads back the last value set at every index; if the history ends with build(), rank(i) of a non-zero element is the number of equal elements before i, whatever earlier builds left behind. popcnt_(t, word, width) for a width of r whole elements below 64 bits is the number of the first r elements of the word equal to t, for every t including 0.", "quantifier": "element widths 1, 2 and 3, every history, every word, type and width", "why_tests_cant": "unbounded histories; stale tables only show for particular type sets", "anchors": ["include/sim_ds/MultiBitVector.hpp:92-131", "include/sim_ds/MultiBitVector.hpp:183-227"]}
{"id": "C80", "title": "DacVector iterators are random-access iterators", "statement": "Iterating a DacVector from begin() to end() yields the stored values in order, front() and back() are the first and the last. An iterator moved from begin() by any sequence of ++, --, += and -= (possibly through positions outside the vector) to a total distance inside the vector dereferences to the element at that distance, it[p] to the element p further; the difference of two iterators and their six comparisons agree with the distances.", "quantifier": "every sequence and level widths for which the vector is defined, every sequence of moves by representable distances", "why_tests_cant": "unbounded sequences of moves, unsigned wrap-around", "anchors": ["include/sim_ds/DacVector.hpp:22-104", "include/sim_ds/DacVector.hpp:158-165"]}
{"id": "C81", "title": "What the matchers do with arbitrary bytes", "statement": "Bm is undefined exactly if a character of the key other than the last, or a text character under the end of one of Horspool's windows, is negative as a char; SundayQS (for texts of bytes, lengths below 2^64) is undefined exactly if the key has a negative character, the text is shorter than the key, or the byte 255 stands directly behind one of Sunday's windows; otherwise both return exactly the occurrences. SundayMS never returns anything but the occurrences. Kmp returns exactly the occurrences unless one of them is followed in the text by the byte that follows the key in memory (or nothing readable follows the key); at the first such place it loses all later occurrences if the memory behind the key repeats the rest of the text and reads out of range otherwise.", "quantifier": "every text and key, every content of the memory behind the key", "why_tests_cant": "the outcome depends on which windows are visited and on memory outside the key", "anchors": ["include/sim_ds/string_util/PatternMatching.hpp:68-147", "include/sim_ds/string_util/PatternMatching.hpp:251-388"]}
{"id": "C82", "title": "The width of the code type of Samc", "statement": "For every non-empty sorted list of distinct keys without zero bytes and an unsigned code type of 1, 2, 4 or 8 bytes, constructing a Samc (or a SamcDict) is defined exactly if its storage has fewer elements than the code type has values (storage below 2^63 elements); in that case no code or head is truncated, exactly the keys are accepted and Read after Write gives the object back. In particular such an object needs fewer keys than the code type has values. With uint8_t the key of 253 letters a can be stored and the key of 254 letters a is undefined behaviour.", "quantifier": "every code type width, key list and query", "why_tests_cant": "the repository only instantiates uint32_t and its tests are far below 2^32 elements", "anchors": ["include/sim_ds/string_util/Samc.hpp:63-109", "include/sim_ds/string_util/Samc.hpp:133-216"]}
{"id": "C83", "title": "How long the front of a Heap stays right", "statement": "For a Heap built from any vector, after any number of pops, then any pushes, then at most one pop, then any pushes, front() is the least (MaxHeap: greatest) of the elements left. The bound is sharp: push, pop, pop and push, pop, push, pop can each leave a front that is not the least.", "quantifier": "every initial vector, every pushed value, every number of operations of the given form", "why_tests_cant": "the wrong fronts need at least seven elements in a particular layout", "anchors": ["include/sim_ds/Heap.hpp:42-74"]}
{"id": "C84", "title": "set_at of MultipleVector for every integer type and the limits of layouts", "statement": "In every reachable MultipleVector with fields of at most eight bytes, block(i).set_at<T>(e, v) with an integer type T of t bytes, signed or not, stores v modulo 256^size in that field and leaves all others if the field has at most max(4, t) bytes, and is undefined otherwise. A field of more than eight bytes can be neither read nor written. If all fields are empty (or there are none), size, emplace_back, push_back and resize with values are undefined.", "quantifier": "every layout, history, type width, value and index", "why_tests_cant": "the tests use set_nested_element with two layouts", "anchors": ["include/sim_ds/MultipleVector.hpp:59-62", "include/sim_ds/MultipleVector.hpp:110-118", "include/sim_ds/MultipleVector.hpp:248-320"]}
{"id": "C85", "title": "FitVector is exactly a tape of bits", "statement": "For element widths 1 to 63, after any history of resize, resize with a value, assign, push_back and writes of arbitrary 64-bit values, every element reads the bits of its place on a tape on which resize(n) keeps whole words and clears what lies behind them, and a write puts the low bits of the value in the element and ors its further bits into what follows up to the end of the last word of the element. So a value that does not fit spoils exactly the following elements of that word, and growth after a shrink brings back exactly the bits in kept words. With width 0 no element can be read or written.", "quantifier": "every width from 0 to 63, every history, every 64-bit value", "why_tests_cant": "which neighbours are spoiled and which old bits return depends on the alignment of elements to words", "anchors": ["include/sim_ds/FitVector.hpp:127-152", "include/sim_ds/BitsReference.hpp:38-53"]}
{"id": "C86", "title": "Histories of a CHT with erase", "statement": "With keys of at most 60 bits and values that fit, over any history of sets, reservations and erases: unless the table becomes completely full at some point, every operation is defined and ends, and every lookup gives the value last set for the key, except for at most as many keys as there were erases, whose lookups find nothing. In particular no lookup ever gives a stale or foreign value, and an erased key may still be found.", "quantifier": "every key width up to 60, load 1 to 99 per cent, value width 1 to 63, starting size, history of fewer than 2^50 operations", "why_tests_cant": "which slot is flagged depends on the hash, and flags only show at the next rebuild", "anchors": ["include/sim_ds/CHT.hpp:108-193", "include/sim_ds/CHT.hpp:195-260"]}
{"id": "C87", "title": "A CHT with erases always makes progress and counts its elements", "statement": "Over any history of sets and erases within the limits of C86, every operation ends and size() is the number of keys the table holds.", "quantifier": "every history", "why_tests_cant": "the table fills up only after particular sequences of erases, which flag other keys' slots", "anchors": ["include/sim_ds/CHT.hpp:108-193"]}
{"id": "C88", "title": "CDRWArray under arbitrary writes", "statement": "For an array of 1 to 2^50 elements and any history of fewer than 2^49 writes of 64-bit values: unless one of the hash tables becomes completely full at some point, the history is undefined exactly if some value has 64 bits, and otherwise every element reads the value last written to it, except for at most as many elements as there were writes that changed the bit length of a non-zero element; those exceptions read 0.", "quantifier": "every size, every history of writes, every 64-bit value", "why_tests_cant": "set erases the index from the table of the next bit length, where it flags a slot by a wrong quotient; what is lost shows only at a later rebuild", "anchors": ["include/sim_ds/CDRWArray.hpp:17-53", "include/sim_ds/CHT.hpp:110-193"]}
{"id": "C89", "title": "CDRWVector under arbitrary operations", "statement": "For a vector of 1 to 2^48 elements and any history of at most 2^48 pushes, pops, resizes, reserves, shrinks, clears and writes inside the vector (values below 2^63, sizes below 2^48, no shrink of an empty vector): unless one of the hash tables becomes completely full at some point, the history is defined; size and capacity follow the growth rule (double when full, halve the slack when under a third); and reading any cell below the capacity gives what a plain tape holds there, where cells removed by pop, resize or clear keep their value until the next reallocation clears them, except for at most as many cells as there were writes that changed the bit length of a non-zero cell; those read 0.", "quantifier": "every starting size, every history of operations, every value below 2^63", "why_tests_cant": "which cells come back after a shrink and which are lost depends on the whole history of reallocations and of bit lengths", "anchors": ["include/sim_ds/CDRWArray.hpp:60-132", "include/sim_ds/CDRWArray.hpp:17-53"]}
{"id": "C90", "title": "Factor oracle built with assertions on", "statement": "For every non-empty text of non-zero bytes the construction with its three assertions compiled in always ends: an assertion fails exactly for the texts on which the release build never ends, and for every other text both builds give the same automaton.", "quantifier": "every non-empty text of non-zero bytes", "why_tests_cant": "the texts on which an assertion fails need a particular clash of array slots several letters in; no finite set of texts shows that the assertions catch every endless case", "anchors": ["include/sim_ds/string_util/FactorOracle.hpp:35-67", "include/sim_ds/string_util/FactorOracle.hpp:99-152", "include/sim_ds/string_util/FactorOracle.hpp:179-190"]}
{"id": "C91", "title": "Samc and SamcDict from any list of keys", "statement": "For every list of byte strings the double array built depends only on the set of the keys read as C strings (cut at the first zero byte): order, repetitions and whatever follows a zero byte make no difference. For a non-empty list construction always succeeds; accept returns true exactly for these C strings; a query is undefined exactly if it is a longest of them followed by a zero byte. SamcDict numbers the distinct C strings from 0 and access inverts lookup for the first 512 ids.", "quantifier": "every list of byte strings, every query of bytes", "why_tests_cant": "tests feed sorted distinct keys without zero bytes; what unsorted or repeated input does to the packing needs all orders", "anchors": ["include/sim_ds/string_util/Samc.hpp:37-53", "include/sim_ds/string_util/Samc.hpp:135-261", "include/sim_ds/string_util/Samc.hpp:319-334", "include/sim_ds/string_util/Samc.hpp:439-475"]}
{"id": "C92", "title": "Samc built with assertions on", "statement": "For every non-empty list of byte strings the construction with its assertions compiled in fails an assertion exactly if the keys are scattered, that is, for some prefix without zero bytes, the keys with that prefix which continue with the same byte do not stand together, or the prefix itself stands first and another continues it with a zero byte. Otherwise it builds what the release build builds. Sorted keys without zero bytes, repeated or not, are never scattered.", "quantifier": "every non-empty list of byte strings, both packing algorithms", "why_tests_cant": "which inputs trip the assertion depends on the order of all keys at every depth of the trie", "anchors": ["include/sim_ds/string_util/Samc.hpp:37-53", "include/sim_ds/string_util/Samc.hpp:145-216"]}
{"id": "C93", "title": "SamcDict with assertions on", "statement": "For every non-empty list of byte strings: construction of SamcDict fails an assertion exactly for scattered keys (C92); lookup never fails one; access of the id of a key fails one exactly if the key contains the byte 0xFF, although the release build returns the key (ids below 512, storage below 2^41).", "quantifier": "every non-empty list of byte strings, every query, every id of a key below 512", "why_tests_cant": "the byte 0xFF is also the mark of an unused cell; no finite set of keys shows that other keys never hit one", "anchors": ["include/sim_ds/string_util/Samc.hpp:366-378", "include/sim_ds/string_util/Samc.hpp:430-475"]}
{"id": "C94", "title": "CHT built with assertions on", "statement": "The constructor of the compact hash table fails an assertion exactly if the number of buckets is not a power of two. For every history of sets, reserves and erases whose keys and values fit their widths, whatever the load, no assertion of CHT or FitVector fails unless the release build is undefined, and the table is the one of the release build; a lookup fails an assertion exactly if the key does not fit. The first set of a key or value that does not fit fails one. Until the table is completely full no history of fitting keys and values fails an assertion.", "quantifier": "every history of operations, every number of buckets below 2^64, key widths up to 60, value widths up to 64", "why_tests_cant": "the assertions are inside FitVector accesses of loops over the table; that none is ever hit is a statement about all histories", "anchors": ["include/sim_ds/CHT.hpp:53-66", "include/sim_ds/CHT.hpp:86-148", "include/sim_ds/CHT.hpp:149-199", "include/sim_ds/CHT.hpp:240-330", "include/sim_ds/FitVector.hpp:170-185"]}
{"id": "C95", "title": "CDRWArray built with assertions on", "statement": "For every history of writes of 64-bit values to elements in range no assertion fails in writing unless the release build is undefined. Until one of the tables is completely full and while values are below 2^63, reading an element returns the last value written or fails the assertion of get, and the latter happens exactly where the release build returns 0 instead of the value.", "quantifier": "every array size up to 2^50, every history of fewer than 2^49 writes", "why_tests_cant": "elements are lost by erasures of other elements in tables at load limits; only an invariant over all histories tells the exact set", "anchors": ["include/sim_ds/CDRWArray.hpp:17-53", "include/sim_ds/CHT.hpp:53-330"]}
{"id": "C96", "title": "CDRWVector built with assertions on", "statement": "Until one of the tables is completely full, a history of operations on a CDRWVector fails an assertion exactly at the first operation that allocates a capacity which is not a power of two, or that copies an element already lost; before that the debug and the release build hold the same. The first push_back into an empty vector always fails one.", "quantifier": "every initial size up to 2^48, every history of at most 2^48 operations in range", "why_tests_cant": "whether an allocation aborts depends on the capacities and losses of the whole history", "anchors": ["include/sim_ds/CDRWArray.hpp:66-130"]}
{"id": "C97", "title": "WaveletTree::rank(c, i) built with assertions on", "statement": "rank(c, i) for a position inside the sequence fails its assertion exactly if the element there is not c (of c only the bits of the tree height count), and otherwise counts the earlier elements equal to c. At the end of the sequence it fails for every symbol but 0, for which it counts all zeros, except where the release build is undefined too.", "quantifier": "every sequence of values below 2^31 and length below 2^63, every symbol of a byte, every position up to the end", "why_tests_cant": "the assertion compares one bit per level; that together they mean equality with the element holds for all trees only by an invariant of the construction", "anchors": ["include/sim_ds/WaveletTree.hpp:83-93"]}
{"id": "C98", "title": "Heap and InitializableArray never fail an assertion", "statement": "Whatever the constructor is given and whatever is pushed and popped, no assertion of Heap fails and the heap is that of the release build; Heapify called directly fails one exactly for id 0. No assertion of the in-place InitializableArray ever fails, whatever its memory held before and whichever elements are set.", "quantifier": "every history of operations, every contents of the uninitialised memory, every element width", "why_tests_cant": "the chains are read from uninitialised memory; tests see only a few contents of it", "anchors": ["include/sim_ds/Heap.hpp:42-84", "include/sim_ds/InitializableArray.hpp:107-224"]}
{"id": "C99", "title": "MultiBitVector built with assertions on", "statement": "A history of sets, resizes and builds fails an assertion exactly if some value set has more bits than an element; otherwise the vector is that of the release build. After build, rank of an element in range fails its assertion exactly if the element is 0, and otherwise counts the earlier elements of the same value.", "quantifier": "every history, element widths 1 to 3", "why_tests_cant": "quantifies over all histories and positions", "anchors": ["include/sim_ds/MultiBitVector.hpp:144-150", "include/sim_ds/MultiBitVector.hpp:187-198"]}
{"id": "C100", "title": "MultipleVector built with assertions on", "statement": "Histories whose set_nested_element values fit their fields fail no assertion and give the same object as the release build. After them nested_element fails an assertion exactly for a record or field out of range; set_nested_element fails one for these and for a value that does not fit a field of less than eight bytes, every value in the case of a field of no bytes; but for a value of 2^56 or more the assertion itself is undefined. The assertions of block references never fail.", "quantifier": "every layout of fields up to eight bytes, every history, every value", "why_tests_cant": "the undefined shift inside the assertion shows only for values using the top byte", "anchors": ["include/sim_ds/MultipleVector.hpp:75-118", "include/sim_ds/MultipleVector.hpp:154-165", "include/sim_ds/MultipleVector.hpp:269-283", "include/sim_ds/calc.hpp:16-30"]}
{"id": "C101", "title": "The assertions of the bit masks", "statement": "OffsetMask fails its assertion exactly for offsets from 64 on, where the shift would be undefined. WidthMask fails its assertion exactly for widths above 64; width 64 passes the assertion although the shift is undefined.", "quantifier": "every width", "why_tests_cant": "undefined shifts give plausible values on the machine at hand", "anchors": ["include/sim_ds/bit_util.hpp:33-44"]}
{"id": "C102", "title": "The order in which SuffixArray lists the positions", "statement": "Of two positions whose stretches up to the next valley (LMS position) differ, the one with the smaller suffix is listed first. Of two positions with equal stretches, the earlier one in the text is listed first if no two valleys of the string have equal stretches; otherwise the one whose next valley is listed first when the reduced string is sorted by the same rule. So the array is sorted exactly if this rule agrees with the order of suffixes wherever stretches are equal.", "quantifier": "every non-empty string of bytes 1..127 shorter than 2^31, every two places of the array", "why_tests_cant": "fixes the complete result for all strings, including those on which it is not a suffix array; the recursion depth is unbounded", "anchors": ["include/sim_ds/string_util/SuffixArray.hpp:73-278"]}
{"id": "C103", "title": "Reading from a stream that may end early", "statement": "Read returns normally exactly in two cases. Either the stream starts with the complete image of an object, which is then the result, and the stream stands behind the image. Or the stream ends inside the payload of the last array of the image, and the result is the object whose image is completed by what that array of the target held before (zeros where it had to grow), with the stream left failed. Wherever else the stream ends, or if a stored width is 64 or more, the behaviour is undefined, since read_val returns an indeterminate value.", "quantifier": "every list of bytes as stream; every earlier content of the object read into; read_val, read_vec, read_string, BitVector, SuccinctBitVector, FitVector, DacVector, WaveletTree, Samc, SamcDict, SuffixArray", "why_tests_cant": "all byte strings, well formed or not, of every length, and all earlier contents of the target", "anchors": ["include/sim_ds/basic.hpp:79-100", "include/sim_ds/BitVector.hpp:250-253", "include/sim_ds/SuccinctBitVector.hpp:64-69", "include/sim_ds/FitVector.hpp:64-67"]}
{"id": "C104", "title": "Select in the portable build, every case", "statement": "The portable 32-bit count misses 15, 31 or 16 ones, depending only on whether the lower or upper nibbles of its four bytes are full. Hence sel(x, i) finds the i-th one of the lower half for i up to that count, otherwise the one of the upper half that lies as many ones too far as were missed, and past the last one either returns 64 or reads past its table. SuccinctBitVector::select is right exactly if the word misses no ones or the one asked for is not beyond the count. A SamcDict with at most 15 different keys is right in the portable build; with 50 keys it is not.", "quantifier": "every word and index; every bit vector after any history, below 2^41 bits; every list of keys with at most 15 different C strings", "why_tests_cant": "all words, all bit vectors and all key lists; the failing patterns are rare among random words", "anchors": ["include/sim_ds/bit_util.hpp:76-84", "include/sim_ds/bit_util.hpp:511-537", "include/sim_ds/SuccinctBitVector.hpp", "include/sim_ds/string_util/Samc.hpp:461-478"]}
{"id": "C105", "title": "The masks and bit-length helpers, every argument", "statement": "WidthMask(w), OffsetMask(o) and bextr(x, s, len) give 2^w - 1, 2^o and the field of len bits from s when their arguments are below 64, and are undefined otherwise. SizeFitsInUnits gives the bits needed by the value rounded up to whole units, undefined when that is 64 bits or more; with units of 0 bits it never ends except for the value 0. SizeFitsAsList gives the least number of leading widths that add up to enough bits and is undefined when there is none. The frequency and cumulative frequency lists, and a FitVector made from a list of values, are the expected ones exactly when all values are below 2^63. The level widths of split_positions_optimized_for_dac are computed for the empty list only.", "quantifier": "every 64-bit value, width, unit, list of widths and list of values", "why_tests_cant": "all words and all lists; the undefined arguments cannot be tested by running the code", "anchors": ["include/sim_ds/bit_util.hpp:33-44", "include/sim_ds/bit_util.hpp:182-188", "include/sim_ds/calc.hpp:16-167", "include/sim_ds/FitVector.hpp"]}
{"id": "C106", "title": "DacVector with every list of level widths", "statement": "A DacVector made from a non-empty list with given level widths is defined exactly when all values are below 2^63, all widths are 1..63 and the widths before the last add up to fewer bits than the longest value. It then reads every value modulo 2 to the sum of the widths, throws outside the range, and depth is the first sufficient level or the last one. Otherwise the first level without bits throws, a level no value reaches reads past the frequency table, and a last level of 64 bits or more is undefined. Without widths only the empty list is accepted.", "quantifier": "every non-empty list of 64-bit values and every non-empty list of widths; every list below 2^57 values without widths", "why_tests_cant": "all value lists and all width lists, including the undefined ones", "anchors": ["include/sim_ds/DacVector.hpp:249-312", "include/sim_ds/DacVector.hpp:171-179"]}
{"id": "C107", "title": "Leading zeros, select and field extraction, every argument", "statement": "clz of a non-zero 32-bit word x is 63 minus the position of its highest one, as for 64 bits; clz256 of a non-zero value with highest one h is 64 * (h / 64) + 63 - h mod 64. sel with BMI2 returns 65 past the last one and is undefined for the indices 0 and above 64; with POPCNT only it returns 64 or reads past its table, and 0 for the index 0. bextr with BMI uses the low eight bits of start and length and is always defined.", "quantifier": "every 32-bit, 64-bit and 256-bit word, every index, start and length", "why_tests_cant": "all words and indices, in branches of other build flags", "anchors": ["include/sim_ds/bit_util.hpp:182-340", "include/sim_ds/bit_util.hpp:511-537", "include/sim_ds/bit_util256.hpp:77-81"]}
{"id": "C108", "title": "Compact hash table for every key width", "statement": "A CHT of 2^bb buckets for keys of kb bits works as a finite map, for every history of set and reserve, whenever kb <= 63 and the words of kb - bb + 4 bits fit into 63 bits, as long as no reserve(n) asks for so few buckets that the words would no longer fit. Outside these widths, and for values of 0 or of 64 and more bits, the first store is undefined whatever the key and the value; outside the key widths so is the first lookup. A reserve(n) for more entries than the table has shrinks the table if n is small: for keys of 61 to 63 bits the next store is then undefined.", "quantifier": "all key widths, value widths, load factors from 1 to 99, power-of-two bucket counts up to 2^60, histories of fewer than 2^50 operations, keys and values", "why_tests_cant": "The limits depend on the key width, the bucket count and the growth of the table together; tests with the default eight buckets and short keys never come near them, and undefined shifts usually go unnoticed.", "anchors": ["include/sim_ds/CHT.hpp:50-63", "include/sim_ds/CHT.hpp:88-104", "include/sim_ds/CHT.hpp:110-170", "include/sim_ds/CHT.hpp:223-266", "include/sim_ds/BijectiveHash.hpp:27-113", "include/sim_ds/FitVector.hpp:54-58"]}
{"id": "C109", "title": "Trie with every size type", "statement": "After any history of inserts of any byte strings into a Trie with size type size_t, uint32_t or int, traverse(k) returns the item last inserted for k. For a key k never inserted it returns null, except that with uint32_t and int the call is undefined exactly when some inserted key starts with k followed by a zero byte. is_terminal of a node is true exactly for the ends of inserted keys with size_t and uint32_t, and for every node with int.", "quantifier": "every size type, history of fewer inserts than the type's largest value, key and node", "why_tests_cant": "Unbounded histories; the undefined case needs a key with a zero byte inside and a lookup of the part before it, for which the read outside the storage may go unnoticed.", "anchors": ["include/sim_ds/string_util/graph_util.hpp: Trie::insert, Trie::traverse, Trie::_traverse", "include/sim_ds/string_util/graph_util.hpp: Trie::Node::is_terminal"]}
{"id": "C110", "title": "shifts_of_conflicts_ skips no free shift", "statement": "For words fields and mask with a common one, shifts_of_conflicts_(fields, mask, fields & mask) returns the number of ones of fields in one run upwards from the lowest common one plus the number of ones of mask in one run downwards from it, minus one; this is at least 1, and shifting the mask up by any smaller number leaves a common one with fields. Without a common one the call is undefined, and with assertions it stops exactly if the third argument is not fields & mask.", "quantifier": "all pairs of 64-bit words", "why_tests_cant": "The function has no caller, so no test reaches it; the claim ranges over all pairs of words and all shifts.", "anchors": ["include/sim_ds/string_util/Samc.hpp:262-272"]}
{"id": "C111", "title": "ShowAsBinary prints the two's complement digits", "statement": "ShowAsBinary(value) writes the bytes of the value from the highest to the lowest, eight digits and a space each, and the end of the line. With an explicit size it writes that many bytes if they fit into the promoted type, is undefined if they do not, and because the counter is an int it depends only on size modulo 2^29: it writes an empty line if that is 0 or above 2^28. Different values of one type give different lines.", "quantifier": "all integer types of up to 64 bits, values and sizes", "why_tests_cant": "All values and sizes; the repository has no test of the function.", "anchors": ["include/sim_ds/log.hpp:16-26"]}
{"id": "C112", "title": "In-place initializable array of float and double", "statement": "For element type float or double, after any history of fill and set on the in-place InitializableArray, get(i) is the value last given to i, except for even i whose pair of elements was written since the last fill and whose pair number is at least the number of pairs written since then. All those elements read as one and the same element j: element 1 if pair 0 was written, otherwise the even element of one of those pairs.", "quantifier": "all sizes accepted by the specialisation rule, initial memory contents, histories and indices", "why_tests_cant": "Which elements are misread depends on the whole history since the last fill and on what the memory held before; the array is right in many histories.", "anchors": ["include/sim_ds/InitializableArray.hpp:66-74", "include/sim_ds/InitializableArray.hpp:78-224"]}
{"id": "C113", "title": "SplitMix hash for every width and argument", "statement": "For every width w below 64, hash and ihash are defined for every 64-bit argument and give numbers below 2^w. A number x of w or more bits is hashed like the number below 2^w got by x ^= x >> (w+1)/2, cutting to w bits and undoing the xor; two numbers collide exactly if these agree. ihash(hash(x)) = x and hash(ihash(x)) = x hold exactly for x < 2^w. For a width of 64 or more both functions are undefined for every argument.", "quantifier": "all widths and 64-bit arguments", "why_tests_cant": "2^64 arguments for each width; the default width 64 reads behind a constant table, which a test may not notice.", "anchors": ["include/sim_ds/BijectiveHash.hpp:8-25", "include/sim_ds/BijectiveHash.hpp:94-153"]}
{"id": "C114", "title": "FactorOracle builds the factor oracle", "statement": "The automaton that FactorOracle builds has exactly the transitions of the factor oracle of the text: one from each position to the next over the text's letter, and from a state with shortest word u a transition over each other letter c to the end of the first occurrence of uc. accept returns true exactly for the words that can be read, reads behind its arrays exactly if a proper prefix of the word leads to the last state, and returns false otherwise. The definition determines the automaton.", "quantifier": "all non-zero byte texts for which the construction ends, all queries", "why_tests_cant": "the language of the automaton is larger than the set of factors, so there is no simple reference to compare with; stray reads are silent", "anchors": ["include/sim_ds/string_util/FactorOracle.hpp:35-67", "include/sim_ds/string_util/FactorOracle.hpp:283-312"]}
{"id": "C115", "title": "LCP array for any order of the suffixes", "statement": "Given any permutation of the positions of a non-empty string, BuildLCP_ completes; the entry of a suffix is computed by skipping as many characters as the entry of the suffix one position to the left, less one, and adding the common prefix of what remains; and the array holds the common prefixes of all neighbours if and only if, whenever both suffixes have a successor, the common prefix of a suffix with its successor is at most one longer than that of the next suffix with its own successor. Otherwise some entry is too large.", "quantifier": "all non-empty strings shorter than 2^31 and all orders", "why_tests_cant": "the array is built for orders that are not sorted (C55), where the skipped comparisons may be wrong", "anchors": ["include/sim_ds/string_util/SuffixArray.hpp:301-351"]}
{"id": "C116", "title": "Compact hash tables whose maximal size rounds down to nothing", "statement": "A CHT with so few buckets that their number times the load factor is below 100 (a single bucket always) never grows by itself. It works as a map, and counts its keys, over every history that stores at most as many different keys as there are buckets before a reserve asks for more than the table holds, even when every slot is taken; from such a reserve on it works as a map without that restriction. Storing one key more than there are buckets, without such a reserve, never ends: the search for a free slot goes on for ever.", "quantifier": "every key width that fits, load factor, bucket count 2^0 to 2^60, value width 1 to 63, history of fewer than 2^50 operations", "why_tests_cant": "the tests use the default load factor and 8 or more buckets", "anchors": ["include/sim_ds/CHT.hpp:50-63", "include/sim_ds/CHT.hpp:108-139", "include/sim_ds/CHT.hpp:222-260"]}
{"id": "C117", "title": "Histories of a CHT with erase, to the end", "statement": "With keys of at most 60 bits and values that fit, every history of sets, reservations and erases does exactly one of two things. Either some set of a key that the table does not find meets a table without a free slot, and never ends; or every operation is defined and ends, and every lookup gives the value last set for the key, except for at most as many keys as there were erases, whose lookups find nothing. A table that is completely full still answers all lookups, erases, and sets of keys it has.", "quantifier": "every key width up to 60, load 1 to 99 per cent, value width 1 to 63, starting size, history of fewer than 2^50 operations", "why_tests_cant": "a completely full table only arises after erases that flag other keys' slots", "anchors": ["include/sim_ds/CHT.hpp:108-193", "include/sim_ds/CHT.hpp:195-260"]}
{"id": "C118", "title": "CDRWArray under arbitrary writes, to the end", "statement": "For an array of 1 to 2^50 elements, every history of fewer than 2^49 writes of 64-bit values does exactly one of three things. Either some write meets a completely full hash table for values of its bit length, and never ends; or some value has 64 bits and the history is undefined; or all writes end, and every element reads the value last written to it, except for at most as many elements as there were writes that changed the bit length of a non-zero element, which read 0. An array with a full table goes on working for elements whose values are in it and for values of other lengths.", "quantifier": "every size, every history of writes, every 64-bit value", "why_tests_cant": "a table fills up only after erases that flag other elements' slots", "anchors": ["include/sim_ds/CDRWArray.hpp:17-53", "include/sim_ds/CHT.hpp:108-193"]}
{"id": "C119", "title": "CDRWVector under arbitrary operations, to the end", "statement": "For a vector of 1 to 2^48 elements and any history within the limits of C89, either some push or element write meets a completely full hash table for values of its bit length and never ends, or every operation is defined and ends with the size, capacity and cells of a plain tape, except for at most as many cells as there were writes that changed the bit length of a non-zero cell, which read 0. A reallocation never fails to end, and leaves no table full. With assertions on, the same write never ends, unless an earlier reallocation fails an assertion, which happens exactly if its capacity is not a power of two or it copies a lost cell.", "quantifier": "every starting size, every history of operations, every value below 2^63", "why_tests_cant": "a table fills up only after erases that flag other elements' slots", "anchors": ["include/sim_ds/CDRWArray.hpp:62-130", "include/sim_ds/CHT.hpp:108-193"]}
{"id": "C120", "title": "Sequences of a signed type", "statement": "Built from a non-empty sequence of a signed type of at most 64 bits, with greatest value m: FitVector and WaveletTree are undefined exactly if all values are negative (WaveletTree also if m has more than 31 bits); otherwise they keep of every value the low bits, as many as m needs, so non-negative values are kept and each negative one reads as some number of that many bits; WaveletTree::rank counts the elements with equal low bits, so in a text of chars a byte from 128 on is confused with another character whenever m is below 128, as it is for chars. DacVector with given widths and CDRWArray are undefined as soon as one value is negative.", "quantifier": "every non-empty sequence of signed values, every position and symbol", "why_tests_cant": "tests use unsigned or non-negative values; nothing fails visibly, wrong characters are returned", "anchors": ["include/sim_ds/FitVector.hpp:69-85", "include/sim_ds/WaveletTree.hpp:31-53", "include/sim_ds/DacVector.hpp:249-295", "include/sim_ds/CDRWArray.hpp:27-32"]}
{"id": "C121", "title": "Checked access to a FitVector over every history", "statement": "After any history of C85 (element widths 1 to 63, any 64-bit values), at(i) returns the bits of element i on the tape for i below the size and throws otherwise; front() and back() return the first and last element and are undefined for an empty vector; writing through at(i) throws outside the size and otherwise does to the tape what C85 says, for every 64-bit value.", "quantifier": "every width, history, index and value", "why_tests_cant": "stale and spilled bits only show up in particular histories", "anchors": ["include/sim_ds/FitVector.hpp:87-119", "include/sim_ds/BitsReference.hpp:38-53"]}
{"id": "C122", "title": "What was built can be written and read back", "statement": "For every object the interface can build with fewer than 2^63 elements, Write followed by Read restores the object exactly and leaves the stream at what follows: a BitVector after any history, a SuccinctBitVector of any such vector (with or without select, read into a default-constructed or any built object), a FitVector of width 1 to 63 after any history, a DacVector from every sequence and list of level widths for which its construction is defined, a MultiBitVector after any history of set, resize and build with indices below 2^57, and a SamcDict for every code type for which it can be built. size_in_bytes is the number of bytes written, except for DacVector, where it is eight more.", "quantifier": "every history, sequence, width, target and following stream", "why_tests_cant": "the range of the values in the rank directories and tips depends on the whole contents", "anchors": ["include/sim_ds/BitVector.hpp:244-258", "include/sim_ds/SuccinctBitVector.hpp:56-128", "include/sim_ds/FitVector.hpp:156-166", "include/sim_ds/DacVector.hpp:181-223", "include/sim_ds/MultiBitVector.hpp:165-227", "include/sim_ds/string_util/Samc.hpp:384-427"]}
{"id": "C123", "title": "WaveletTree read into a tree over another alphabet", "statement": "A WaveletTree of fewer than 2^63 elements is written and then read into a tree that was built from another sequence. If both trees have the same height the written tree is restored exactly. If the target is lower, part of the image stays unread in the stream, size() is right, and every access, rank, access_and_rank and rank of a symbol is undefined, for every argument. If the target is higher, reading is undefined at the end of the stream; if the following bytes are enough, Read takes at least 24 of them for each node too many, and all queries then answer as on the written tree.", "quantifier": "all pairs of sequences, indices, symbols and following streams", "why_tests_cant": "all pairs of alphabets and whatever follows in the stream", "anchors": ["include/sim_ds/WaveletTree.hpp:56-141"]}
{"id": "C124", "title": "What Bom does, whatever lies behind its oracle", "statement": "For every non-empty key without zero bytes whose oracle gets built and every text of bytes: Bom reads each window backwards through the factor oracle of the reversed key continued by the bytes behind the oracle's array; it is undefined exactly if in one of the windows inspected this reading stops early in a state behind the oracle (or in the last one, with nothing behind it); otherwise it reports, in increasing order, exactly the windows inspected that can be read completely. Every occurrence of the key is among them; a reported window is an occurrence exactly if the reading ends in the last state of the oracle, and not one exactly if it ends behind. For every key whose first character does not return and all bytes behind the oracle there is a text without the key in which Bom reports a match.", "quantifier": "all keys, texts and bytes in memory behind the oracle", "why_tests_cant": "The bytes behind a vector on the heap are not under a test's control; with the usual zeros and texts without zeros the matcher is right.", "anchors": ["include/sim_ds/string_util/PatternMatching.hpp:150-182", "include/sim_ds/string_util/FactorOracle.hpp:283-298"]}
{"id": "C125", "title": "The windows SundayMS inspects", "statement": "SundayMS compares the positions of the key in increasing order of the distance to the previous equal character (position plus one if there is none), from left to right among equals; this order is unique. From a window it moves by the larger of two shifts: the one that brings the character behind the window over its last occurrence in the key, and the least one for which the moved key agrees with the positions that agreed and differs at the position that did not. For texts of bytes (lengths below 2^64) it is undefined exactly if the key has a negative character, the text is shorter than the key, or the byte 255 stands directly behind one of these windows; otherwise it returns exactly the occurrences.", "quantifier": "all keys and texts", "why_tests_cant": "Which windows are inspected depends on the whole text; whether a byte 255 is fatal depends on where the windows fall.", "anchors": ["include/sim_ds/string_util/PatternMatching.hpp:242-388"]}
{"id": "C126", "title": "What the int counters limit", "statement": "WaveletTree counts its elements in an int: its constructor is undefined exactly from 2^31 elements on where it would otherwise be defined, and gives the tree of C26, C27, C73 and C120 below. cummulative_frequency_list adds up in an int: every entry is the number of values longer than that, cut to 32 bits and sign-extended, so it is right exactly below 2^31; a DacVector with given widths 1 to 63 throws exactly if the entry at the start of some level came out negative (always for 2^31 to 2^32 - 1 values, never for fewer), and otherwise is that of C106. MultiBitVector::build numbers words in an int: it is undefined exactly if some element is not 0 and the words, rounded up to whole tips, are more than 2^31, and the tip count it computes in double is exact for fewer than 2^53 words.", "quantifier": "every sequence, every list of widths from 1 to 63, every MultiBitVector of fewer than 2^53 words", "why_tests_cant": "the limits are reached only with billions of elements", "anchors": ["include/sim_ds/WaveletTree.hpp:40-48", "include/sim_ds/calc.hpp:62-83", "include/sim_ds/DacVector.hpp:261-277", "include/sim_ds/MultiBitVector.hpp:200-227"]}
{"id": "C127", "title": "Trie with a size type of any width", "statement": "Let the size type of Trie be any signed or unsigned integer type of 8, 16, 32 or 64 bits. As long as the prefixes of the keys with their end mark (the empty one included) are not more than the values of the type from 0 upwards, the trie is the map of C109: every inserted key has its last item, every other key none, except that a key continued by a zero byte in a longer one is undefined behaviour unless the type is the unsigned 64-bit one; terminal() is true for every node if the type is signed or narrower than 32 bits, and otherwise exactly at the ends of keys. The first insertion with which the prefixes become more (8, 16 or 32 bits) completes, and then looking up that very key gives nothing if the type is unsigned and is undefined if it is signed. Later insertions share nodes with other keys: a lookup can give the item of another key.", "quantifier": "every integer type of 8, 16, 32 or 64 bits, every history of insertions, every key", "why_tests_cant": "the width of the numbers shows only with as many nodes as the type has values", "anchors": ["include/sim_ds/string_util/graph_util.hpp:20-61", "include/sim_ds/string_util/graph_util.hpp:64-126", "include/sim_ds/string_util/graph_util.hpp:168-186"]}
{"id": "C128", "title": "Heaps and HeapSort with any comparison, and their number of comparisons", "statement": "HeapSort terminates, stays within its range and leaves a permutation of it whatever the comparison answers, even if it keeps a state and answers the same question differently. Sorting n elements calls the comparison at most 2 (n - 1) (1 + floor(log2 n)) times. Building a Heap of n elements takes at most 2 (n - 1) comparisons, push into a heap of n at most 2 floor(log2 (n + 1)), pop from one of n at most 2 floor(log2 (n - 1)).", "quantifier": "every sequence, every comparison with or without a state, every heap array (also one that is not in heap order)", "why_tests_cant": "an inconsistent comparison can answer in unboundedly many ways", "anchors": ["include/sim_ds/Heap.hpp:42-74", "include/sim_ds/sort.hpp:16-73"]}
{"id": "C129", "title": "SuffixArray on strings with zero bytes", "statement": "The SuffixArray constructor has undefined behaviour for every string that begins or ends with a zero byte, contains two zero bytes in a row, or contains exactly one zero byte. With several isolated zero bytes inside the string the outcome depends on the string: there are strings for which the constructor aborts, strings for which the array lists a position twice, and strings for which the array is a permutation in the wrong order.", "quantifier": "every string of any bytes of the stated form; existence of strings for the remaining outcomes", "why_tests_cant": "undefined behaviour need not show in a test, and the class of strings is infinite; the recursion depth at which the undefined access happens is unbounded", "anchors": ["include/sim_ds/string_util/SuffixArray.hpp:209-299"]}
{"id": "C130", "title": "How many characters the matchers compare", "statement": "For a key of length m and a text of length n: Simple makes at most m (n - m + 1) comparisons of characters. The constructor of Kmp makes at most 3m - 2 and its find_all, whatever lies behind the key in memory, at most 2n. Bm and Bom inspect between (n - m + 1) / m and n - m + 1 windows, SundayQS and SundayMS between (n - m + 1) / (m + 1) and n - m + 1, each with at least one and at most m comparisons.", "quantifier": "every text and key for which the search is defined", "why_tests_cant": "worst cases have to be found for every length; a bound cannot be observed from outside", "anchors": ["include/sim_ds/string_util/PatternMatching.hpp:50-182", "include/sim_ds/string_util/PatternMatching.hpp:297-388"]}
{"id": "C131", "title": "The size of the factor oracle", "statement": "For a text of m nonzero bytes whose FactorOracle gets built, the factor oracle has at least m and at most 2m - 1 transitions. Of these the m along the text take no space; the array next_ has one nonzero entry for each of the others, base_ has m + 1 entries, and next_ has 256 q entries with q between ceil(m/256) and ceil(m/256) plus the number of the other transitions.", "quantifier": "every nonempty text of nonzero bytes for which the construction ends", "why_tests_cant": "the bound is over all texts; extreme texts are rare", "anchors": ["include/sim_ds/string_util/FactorOracle.hpp:35-152", "include/sim_ds/string_util/FactorOracle.hpp:213-242"]}
{"id": "C132", "title": "References to elements name the elements", "statement": "A program may keep references to elements of several BitVectors or FitVectors (of different widths) and copy them, assign values to them, assign one to another, swap two with std::swap, and for BitVectors take their address and dereference it. As long as the vectors keep their sizes and assigned values fit, each reference, copies included, goes on naming its element: assigning to it changes that element and no other, assigning a reference copies the value the other element has at that time, and reading gives the present value. std::swap of two references therefore does not exchange the elements: both end with the value of the second.", "quantifier": "all programs of such steps, all vectors", "why_tests_cant": "the aliasing between references and the order of operations have unboundedly many cases", "anchors": ["include/sim_ds/BitReference.hpp:22-58", "include/sim_ds/BitReference.hpp:116-118", "include/sim_ds/BitsReference.hpp:20-71", "include/sim_ds/FitVector.hpp:169-181"]}
{"id": "C133", "title": "SuffixArray is built in linear time and with logarithmic recursion", "statement": "For a non-empty string of n bytes from 1 to 127 with n < 2^31, the loops of Sais_ and of the functions it calls run for at most 31 n + 1055 iterations in all levels of the recursion together (comparisons of LMS substrings included), each level sorts a string at most half as long as the one before, all strings together have at most 2(n+1) characters and the recursion is at most log2(n+1) calls deep. BuildLCP_ compares at most 3n + 1 pairs of characters.", "quantifier": "every non-empty string of bytes 1..127 shorter than 2^31", "why_tests_cant": "a bound on the running time over all strings; tests see particular strings", "anchors": ["include/sim_ds/string_util/SuffixArray.hpp:129-299", "include/sim_ds/string_util/SuffixArray.hpp:301-351"]}
{"id": "C134", "title": "The initializable arrays take constant time per operation", "statement": "A read of the in-place initializable array touches at most 4 elements of its storage and a write at most 26, whatever the storage held before; a history of writes and fills, construction included, touches at most 26 elements per write and none for a fill, however long the array is. For the folklore array a read takes at most 3 and a history at most 5 accesses per write.", "quantifier": "every size, every initial memory content, every history of writes and fills, every index", "why_tests_cant": "a worst-case bound over all contents of uninitialised memory and all histories; tests see particular ones", "anchors": ["include/sim_ds/InitializableArray.hpp:22-62", "include/sim_ds/InitializableArray.hpp:91-224"]}
{"id": "C135", "title": "Queries of the succinct containers read few words", "statement": "SuccinctBitVector: operator[] reads 1 word and rank at most 3; select on n bits built with the select samples reads at most 12 + ceil(log2(n/512+1)) words; the rank directory has exactly 2(n/512+1) words and there are at most n/512+2 select samples. WaveletTree over values of at most h bits: operator[] reads at most 4h-3 words and rank of a symbol at most 3h. FitVector: a read takes at most 2 words. DacVector: reading a value that fits in the first k+1 layers takes at most 3+6k words.", "quantifier": "every bit vector, sequence, list of layer widths and index for which construction is defined", "why_tests_cant": "a worst-case bound over all contents and sizes; tests see particular ones", "anchors": ["include/sim_ds/SuccinctBitVector.hpp:84-207", "include/sim_ds/WaveletTree.hpp:56-93", "include/sim_ds/FitVector.hpp:87-89", "include/sim_ds/DacVector.hpp:298-312"]}
{"id": "C136", "title": "Containers that were moved from", "statement": "After a move construction (also through SuccinctBitVector(BitVector&&)) the source BitVector or FitVector still reports its old size while every access to an element is undefined, and at(i) throws only for i >= the old size. assign, and resize to a different size, make it usable again, the old elements then being zero; push_back appends to as many zeros as there were elements. Moved-from SuccinctBitVector, WaveletTree, DacVector, CHT, Samc, SamcDict and Trie answer no query and accept no insertion, and the same holds of queries on a default-constructed SuccinctBitVector or Samc.", "quantifier": "every container, every index, key and following operation", "why_tests_cant": "the outcome is undefined behaviour for every argument, which a test can at best crash on", "anchors": ["include/sim_ds/BitVector.hpp:42-43", "include/sim_ds/FitVector.hpp:46-51", "include/sim_ds/SuccinctBitVector.hpp:19-30", "include/sim_ds/SuccinctBitVector.hpp:81", "include/sim_ds/WaveletTree.hpp:24-27", "include/sim_ds/DacVector.hpp:124-127", "include/sim_ds/CHT.hpp:27-38", "include/sim_ds/string_util/Samc.hpp:78-83", "include/sim_ds/string_util/graph_util.hpp:75-76"]}
{"id": "C137", "title": "The memory of a DacVector and how near the automatic split comes to the smallest", "statement": "A DacVector over l with level widths ws holds, in level k, one chunk for exactly each value that needs more than ws[0]+...+ws[k-1] bits, n_k of them; its layers, path bits and rank directories together are exactly the sum over the levels of ceil(n_k ws[k]/64) words plus, except for the last level, ceil(n_k/64) + 2(n_k/512+1) words. The same holds for the widths chosen automatically. The size minimised by split_positions_optimized_for_dac is this size up to 63 bits per level above it and 191 bits per index below. Hence the automatically split vector, when no best split has more than eight levels (always so for values below 256), is larger than the vector with any other widths ws that keeps all values by at most 63 bits per chosen level plus 191(|ws|-1) bits.", "quantifier": "every non-empty list of values (below 2^63, fewer than 2^57 of them, for the automatic split) and every list of level widths with which construction is defined", "why_tests_cant": "an exact size formula and a comparison with every other choice of widths", "anchors": ["include/sim_ds/DacVector.hpp:126-127", "include/sim_ds/DacVector.hpp:249-296", "include/sim_ds/calc.hpp:90-168"]}
{"id": "C138", "title": "Searches for a key read a number of elements linear in the key", "statement": "Samc::accept reads at most 4(|q|+1) elements of its arrays and SamcDict::lookup at most 4(|q|+1)+3, whatever the number of keys; SamcDict::access of an id, on a dictionary with n slots and h heads, reads at most 12 + ceil(log2(n/512+1)) + ceil(log2(h+1)) + 2(|key|+1) elements, and its std::upper_bound over the heads, done by binary search, finds the depth because the heads are sorted for every key list. Trie::traverse visits at most |q|+2 nodes, and a trie after any insertions has at most 1 + sum(|key|+1) nodes and one item per insertion. FactorOracle::accept reads at most 4|w| elements. MultiBitVector reads 1 word for operator[] and at most 4 elements for rank.", "quantifier": "every automaton, trie, oracle and vector, built or not (access: every dictionary that was built), and every query", "why_tests_cant": "a worst-case bound over all structures and queries; tests see particular ones", "anchors": ["include/sim_ds/string_util/Samc.hpp:317-334", "include/sim_ds/string_util/Samc.hpp:439-475", "include/sim_ds/string_util/graph_util.hpp:87-121", "include/sim_ds/string_util/graph_util.hpp:169-186", "include/sim_ds/string_util/FactorOracle.hpp:283-312", "include/sim_ds/MultiBitVector.hpp:136-138", "include/sim_ds/MultiBitVector.hpp:187-198"]}
{"id": "C139", "title": "The memory of the containers follows from their contents", "statement": "A BitVector reached by any history holds max(1, ceil(n/64)) words for its n bits, and a FitVector ceil(n*w/64) for its n elements of w bits, also after shrinking. A WaveletTree over n symbols whose largest has h bits has 2^h-1 nodes which hold n*h bits between them; its words W satisfy W >= 3(2^h-1) and 5nh <= 256W <= 5nh + 768(2^h-1), so that its memory is exponential in the width of the largest symbol however short the sequence is. A CompactHashTable after any history of sets and reserves has 2^b buckets, with exactly the words for 2^b slots of kb-b+4 bits and 2^b values, 100*entries <= L*2^b, and b is at most the initial one or 2^b*L is at most 198 times the largest reserve or 396 times the number of entries.", "quantifier": "every history of operations (the hash table: keys of up to 60 bits, load limit L from 1 to 99 per cent with room for one entry), every sequence of symbols below 2^31", "why_tests_cant": "bounds on the memory over all histories; tests of behaviour do not look at memory, and particular histories would not show the worst case", "anchors": ["include/sim_ds/BitVector.hpp:60-63", "include/sim_ds/BitVector.hpp:115-132", "include/sim_ds/FitVector.hpp:127-130", "include/sim_ds/WaveletTree.hpp:31-53", "include/sim_ds/CHT.hpp:34-35", "include/sim_ds/CHT.hpp:223-230"]}
{"id": "C140", "title": "Kmp spends a logarithmic number of comparisons on each character", "statement": "For a non-empty key of length m and whatever lies behind it in memory, Kmp::find_all, when it ends, compares each single character of the text d times with F(d+1) <= m+1 (F the Fibonacci numbers), hence at most 2 log2(m+1) + 1 times; these numbers add up to the total of C130. The bound is sharp up to one comparison: for every d there are a key with m+1 = F(d+2) and a text of length m with a character that is compared at least d times.", "quantifier": "every non-empty key, every text, every content of the memory behind the key", "why_tests_cant": "a worst-case bound over all keys and texts whose extremal cases are Fibonacci words; a table of plain borders instead of strong ones finds the same matches", "anchors": ["include/sim_ds/string_util/PatternMatching.hpp:74-86", "include/sim_ds/string_util/PatternMatching.hpp:94-107"]}
{"id": "C141", "title": "TurboBom is linear apart from the matches it reports", "statement": "For a non-empty key of length m (non-zero bytes, oracle built) and a text of length n, when the byte behind the key does not occur in the text or no long prefix of the key has a short period, TurboBom::find_all looks at at most 2n windows, of which at most n/(m/2)+1 are no match; it calls image at least m times per reported match and at most 3n+2m times besides, and kmp_search makes at most 2n comparisons in all. The term per match is real: searching a run of m equal letters in a run of n it reports all n+1-m occurrences and calls image at least m(n+1-m) times.", "quantifier": "every key and text as described, every content of the memory behind the oracle's array that begins with a byte not in the text", "why_tests_cant": "a worst-case bound over all keys and texts; tests look at the matches and not at the work", "anchors": ["include/sim_ds/string_util/PatternMatching.hpp:201-208", "include/sim_ds/string_util/PatternMatching.hpp:213-240"]}
{"id": "C142", "title": "Growing a compact hash table moves few elements", "statement": "Over any history of set and reserve on a CHT (keys of at most 60 bits, MaxLoadFactorPercent below 100, a first bucket count that takes an element) the calls of set together move at most two elements per distinct key, plus twice what the calls of reserve move; each call of reserve moves at most two elements per distinct key. Without calls of reserve growing therefore costs a constant number of insertions per key on average. The term for reserve is needed: with six keys, writing over an entry and reserving room for seven in turn moves six elements in every call of set.", "quantifier": "every key width up to 60 bits, value width, load factor, first bucket count and history of set and reserve", "why_tests_cant": "an amortised bound over histories of any length; tests see the contents and not the moves", "anchors": ["include/sim_ds/CHT.hpp:110-117", "include/sim_ds/CHT.hpp:223-229", "include/sim_ds/CHT.hpp:235-266"]}
{"id": "C143", "title": "Padding and cut images of MultiBitVector", "statement": "MultiBitVector::Write writes the rank tips with their padding bytes, whose values are unspecified. Whatever those bytes are, Read takes any byte string exactly when it starts with the image of some object (or misses only the end of the last array, whose missing bytes keep their old values), and it is undefined otherwise. For an object made by any history of set, resize and build, the image has size_in_bytes bytes and Read gives the same members back into any object and leaves the rest of the stream; since the last array is never filled, every proper prefix of the image is undefined to read.", "quantifier": "every width 1 to 3, history of set, resize and build with indices below 2^57, content of the padding, object read into and byte string", "why_tests_cant": "padding bytes have unspecified values that a test run fixes by accident; every byte string and every prefix of every image is covered", "anchors": ["include/sim_ds/MultiBitVector.hpp:33-37", "include/sim_ds/MultiBitVector.hpp:163-182", "include/sim_ds/basic.hpp:88-93", "include/sim_ds/basic.hpp:109-113"]}
{"id": "C144", "title": "The floating point window of TurboBom", "statement": "TurboBom computes the size of its Kmp windows as the float product of 0.5 and the key length. The window is always shorter than the key, empty only for a key of one character, exactly half of it (rounded down) up to 2^24 characters and within one part in 2^24 of the half beyond. For keys of every length find_all reports only occurrences, in increasing order and once, and every occurrence that no earlier partial occurrence overlaps with respect to that window; the same holds for windows of any smaller-than-key size in place of the half.", "quantifier": "every key without zero bytes of any length, text and window size", "why_tests_cant": "the rounding starts at keys of 16 million characters; any key, text and window size is covered", "anchors": ["include/sim_ds/string_util/PatternMatching.hpp:187-240"]}
{"id": "C145", "title": "Filling and building the containers takes linear time", "statement": "Counting every read and write of an element of a vector: BitVector::push_back makes at most 2 accesses, resize by m bits at most m/64+4 and assign of n bits at most n/64+3. A SuccinctBitVector over n bits is built with at most max(1, n/64) + 3(n/512) + 3 accesses, and 2(n/512+1) more with the select samples. FitVector: push_back at most 4, resize and assign 4 per new element, construction from a list 6 per element. A WaveletTree over n symbols of at most h bits takes at most n(3h+2) + 11nh/512 + 5(2^h-1). A DacVector of n values with L levels takes at most n(6L+4) + 11n(L-1)/512 + 5L + 126. MultiBitVector::build on W words of U-bit symbols takes at most (64/U)W + (2^U-1)(3W+8U).", "quantifier": "every vector, list, size, number and width of levels, and symbol width", "why_tests_cant": "a test measures a few sizes; the bounds hold for all of them", "anchors": ["include/sim_ds/BitVector.hpp:83-132", "include/sim_ds/SuccinctBitVector.hpp:80-128", "include/sim_ds/BitsReference.hpp:46-53", "include/sim_ds/FitVector.hpp:69-152", "include/sim_ds/WaveletTree.hpp:31-53", "include/sim_ds/DacVector.hpp:261-295", "include/sim_ds/calc.hpp:44-83", "include/sim_ds/MultiBitVector.hpp:201-227"]}
{"id": "C146", "title": "SuffixArray keeps positions and counts in an int", "statement": "The constructor of SuffixArray keeps the running bucket start, the last LMS position, the number of the LMS substring, the loop index over the LMS positions and the previous LCP in an int. For strings of up to 2^31-2 characters this makes no difference: the outcome is that of unbounded counters for every string, in particular the array of a string of bytes 1 to 127 has the order of C102. For a longer string (below 2^32) with a valley whose character is greater than 2^31-1 or more characters of the string, the constructor writes outside the array or aborts.", "quantifier": "every string of up to 2^31-2 bytes; every string of bytes 1 to 127 shorter than 2^32 with such a valley", "why_tests_cant": "the defect needs a string of two gigabytes and forty bytes of memory per character, and no test of short strings shows where the limit is", "anchors": ["include/sim_ds/string_util/SuffixArray.hpp:148-160", "include/sim_ds/string_util/SuffixArray.hpp:227-251", "include/sim_ds/string_util/SuffixArray.hpp:253-299", "include/sim_ds/string_util/SuffixArray.hpp:301-316"]}
{"id": "C147", "title": "FactorOracle and its 32-bit ids", "statement": "FactorOracle keeps states and bases in an id_type of 32 bits whose largest value stands for no id. For a text of nonzero bytes with 257 times its length below 2^32 this makes no difference: when construction with unbounded ids ends, construction with 32-bit ids ends with arrays of the same size, and the automaton is the factor oracle of the text. For a text of 2^32 or more nonzero characters the constructor never completes. Both hold for ids of any width w in place of 32.", "quantifier": "every width w, every text of nonzero bytes with 257 times its length below 2^w, every query; every text of 2^w or more nonzero characters", "why_tests_cant": "the limit lies at texts of four gigabytes, and no test of short texts shows that no id below it collides with the reserved value", "anchors": ["include/sim_ds/string_util/FactorOracle.hpp:18-31", "include/sim_ds/string_util/FactorOracle.hpp:35-67", "include/sim_ds/string_util/FactorOracle.hpp:76-152", "include/sim_ds/string_util/FactorOracle.hpp:179-207", "include/sim_ds/string_util/FactorOracle.hpp:283-312"]}
{"id": "C148", "title": "What a matcher keeps of its key", "statement": "A matcher keeps a view of the key it was built from. Bom, SundayQS and SundayMS do not look at it again: for the inputs on which they are right they report the occurrences of the key as it was at construction, even if the characters have changed or the key was freed, and whatever TurboBom reports is an occurrence of that key. Simple reports the occurrences of whatever stands there at the time of the search. Bm, after a change, reports exactly those occurrences of the new characters that lie in a window the old key leads it to. Kmp may then report places where neither key stands. After the key was freed, Simple and Bm are undefined exactly for texts that are at least as long as the (non-empty) key and Kmp for every non-empty text.", "quantifier": "every key, every later content of its memory, every text", "why_tests_cant": "reading a freed or changed key often gives the expected answer in a test, and which of seven matchers depend on it is a statement about all contents of the memory", "anchors": ["include/sim_ds/string_util/PatternMatching.hpp:27-36", "include/sim_ds/string_util/PatternMatching.hpp:50-64", "include/sim_ds/string_util/PatternMatching.hpp:94-107", "include/sim_ds/string_util/PatternMatching.hpp:129-147", "include/sim_ds/string_util/PatternMatching.hpp:163-182", "include/sim_ds/string_util/PatternMatching.hpp:212-240", "include/sim_ds/string_util/PatternMatching.hpp:297-316", "include/sim_ds/string_util/PatternMatching.hpp:369-388"]}
{"id": "C149", "title": "MultipleVector blocks assigned from lists and layouts set again", "statement": "block(i) = {v0, v1, ...} stores the values, reduced to the sizes of their fields, into the first fields of element i and changes nothing else. Setting a layout on a MultipleVector that already has one re-cuts its bytes into blocks of the new layout: the new fields are numbered behind the old ones, and the old fields are read at their old places inside the new blocks. Loading into an object that already has a layout recovers everything that was stored, with field numbers shifted by the number of fields the object had.", "quantifier": "every history, every list of values, every object loaded into, every pair of layouts", "why_tests_cant": "the assignment may appear to work although its body ends without a return; the renumbering depends on two layouts and on the bytes of arbitrary records", "anchors": ["include/sim_ds/MultipleVector.hpp:64-68", "include/sim_ds/MultipleVector.hpp:229-251", "include/sim_ds/MultipleVector.hpp:330-336"]}
{"id": "C150", "title": "Trie traversals with actions that have state", "statement": "Both traversals of a Trie take the node action by value. bfs calls one action for all nodes, so on each call its members reflect all calls made before, in order. dfs hands a copy of the action to each subtree, so on the node of a prefix p its members reflect exactly the calls on the proper prefixes of p, in order of length; nothing seen in a sibling's subtree reaches it.", "quantifier": "every history of insertions, every action and every initial state of it", "why_tests_cant": "tests pass lambdas that capture by reference, for which the copies share their state", "anchors": ["include/sim_ds/string_util/graph_util.hpp:128-140", "include/sim_ds/string_util/graph_util.hpp:142-158"]}
{"id": "C151", "title": "The mask of a FitVector and the width 64", "statement": "A FitVector computes its mask once, in its constructor, as WidthMask(width). For widths below 64 this changes nothing: histories and reads are those of the model that computes the mask at each use. For the default width 64 the constructor itself is undefined, and the assertion in WidthMask, which catches larger widths, lets it pass. Whatever word M the shift leaves in the mask, a history on a FitVector of width 64 stores over each 64-bit word (old and not M) or new and reads word and M. It is a vector of 64-bit values exactly for M = 2^64 - 1; with M = 0, which a machine reducing shift counts modulo 64 leaves, every element reads as 0.", "quantifier": "every width, every word left by the undefined shift, every history of 64-bit values", "why_tests_cant": "the result depends on how the compiler folds a shift by 64", "anchors": ["include/sim_ds/FitVector.hpp:45-62", "include/sim_ds/FitVector.hpp:127-152", "include/sim_ds/BitsReference.hpp:38-53", "include/sim_ds/bit_util.hpp:33-36"]}
{"id": "C152", "title": "FitVector, DacVector and SuffixArray with assertions on", "statement": "In a build with assertions, a FitVector history whose writes lie below the size of their moment runs exactly as in the release build, for every width below 64; the first write at or past the size fails the assertion, also where it would land inside the allocated words. Reads, front() and back() give the value below size() and fail the assertion otherwise. Building a FitVector from a list, a DacVector from values and widths below 64, and a SuffixArray from any text fails no assertion. DacVector::operator[] passes the assertions of all its levels for every index below the number of elements and fails one for every other index. A width above 64 is caught at construction; 64 passes the assertion and is undefined.", "quantifier": "every width, history, index, list of values and widths, and text", "why_tests_cant": "out-of-range accesses inside the last word go unnoticed in release builds, and the index passed to a deep level depends on ranks over all elements before", "anchors": ["include/sim_ds/FitVector.hpp:54-181", "include/sim_ds/DacVector.hpp:249-312", "include/sim_ds/bit_util.hpp:33-36", "include/sim_ds/string_util/SuffixArray.hpp:129-137", "include/sim_ds/string_util/SuffixArray.hpp:301-339"]}
{"id": "C153", "title": "What DacVector::ShowStatus prints", "statement": "ShowStatus on a DacVector built from values and widths is undefined when there is a single level, because its loop over the paths always reads the first. With two levels or more it prints the number of values, size_in_bytes(), the widths, and the bytes of paths and of layers, all determined by the values and widths; the two sums are accumulated in an int, so they come out modulo 2^32. Below 2^31 bytes the two sums, eight bytes for the number of levels and the stored list of widths add up to size_in_bytes(). A default-constructed DacVector reports the bytes of one path although its size counts none; one built from no values is undefined.", "quantifier": "every list of values and widths for which the constructor is defined", "why_tests_cant": "the read past the end of an empty vector of paths goes unnoticed, and the int overflows only past two gigabytes", "anchors": ["include/sim_ds/DacVector.hpp:225-244", "include/sim_ds/DacVector.hpp:181-191"]}
{"id": "C154", "title": "What SuffixArray prints about its LCP array", "statement": "The figures that BuildLCP_ prints describe the LCP array it has just stored: the number of values, the greatest, the sum modulo 2^64 as a signed number over the count, a value with at most half of the array below it and more than half not above it, and for every width from one up to the widest how many values need exactly that many bits, listed under an index one below the width. Printing adds no undefined behaviour for any string: with the figures left out the outcome is that of the constructor. For non-empty strings of bytes 1 to 127 shorter than 2^31 the sum is exact.", "quantifier": "every string on which the constructor is defined; the exact sum for every non-empty string of bytes 1 to 127 shorter than 2^31", "why_tests_cant": "the output goes to the terminal and no test reads it; whether computing it can go wrong depends on every string", "anchors": ["include/sim_ds/string_util/SuffixArray.hpp:301-339", "include/sim_ds/calc.hpp"]}
{"id": "C155", "title": "What InitializableArray::print_for_debug prints", "statement": "For integer element types, print_for_debug after any history of fills and sets prints every element as the history left it, whatever memory the array started from; then, when the size is odd, one further value, which is that of the last fill; then the number of pairs of elements written since that fill; then the raw cells. The loops count in an int: from 2^31 cells on the call is undefined.", "quantifier": "every width of the element type, every size the in-place variant accepts, every initial memory and every history of fills and sets within the size", "why_tests_cant": "the starting memory is indeterminate and histories are unbounded; an array of 2^31 cells does not fit a test", "anchors": ["include/sim_ds/InitializableArray.hpp:162-172"]}
{"id": "C156", "title": "What CHT::print_for_debug prints", "statement": "print_for_debug on a table reached by stores and reserves prints one row of three flags for every slot. The first flag is set exactly at the slots where the search for a stored key starts. As many rows have a flag as there are distinct keys. The second flag is set as many times as there are distinct keys beyond the first of each starting slot, and never without the third. The last line is the number of third flags. The loop counts in an int: from 2^31 slots on the call is undefined.", "quantifier": "every key width, value width, load factor, bucket count and history of stores and reserves that the table supports", "why_tests_cant": "no test reads the output, the flags depend on the whole history through displacement around the end of the table, and 2^31 slots do not fit a test", "anchors": ["include/sim_ds/CHT.hpp:209-221"]}
{"id": "C157", "title": "How many lookups and insertions it takes to build the factor oracle", "statement": "The loop of FactorOracle that adds the letters calls transition and _insert_trans together exactly 2 * (T - d) times, where T is the number of transitions of the factor oracle of the text and d the number of distinct letters in it. For a text of n letters this is at least 2n - 2 and at most 4n - 4: linear, whatever the text.", "quantifier": "every text of nonzero bytes for which the construction ends", "why_tests_cant": "the walks along the suffix links are bounded only together, over the whole construction: a single letter can cost as many calls as there are states", "anchors": ["include/sim_ds/string_util/FactorOracle.hpp:49-59"]}
{"id": "C158", "title": "How many slots FactorOracle tries when it looks for a base", "statement": "If the construction of the factor oracle of a text of n letters ends, then none of its searches for a base (_find_base) tries more than 512n + 257 slots. If a search goes on for longer, the construction never ends.", "quantifier": "every text of nonzero bytes", "why_tests_cant": "whether a search ends depends on the list of free slots that the whole construction has left behind, and a test cannot tell a long search from one without end", "anchors": ["include/sim_ds/string_util/FactorOracle.hpp:99-117", "include/sim_ds/string_util/FactorOracle.hpp:35-67"]}
