# Design

Subject: the header library in `/repo/include/sim_ds` (C++17), read as text.
The proof assistant is Rocq/Coq 8.16.1, standard library only.

## Build variant that is modelled

`CMakeLists.txt` leaves `-march=native` commented out and selects `Release`.
On x86-64 this means:

* `__POPCNT__`, `__BMI__`, `__BMI2__`, `__LZCNT__`, `__AVX2__` are undefined, so the
  portable `#else` branches are the compiled ones. They are what is modelled, except in `HwModel.v`,
  which models the branches of bit_util.hpp and bit_util256.hpp for those instruction sets
  (C74-C76). The instructions are modelled by their published definitions (`hw_popcnt`, `hw_tzcnt`,
  `hw_lzcnt`, `hw_bextr`, `pdep`, the `v_` operations on four words); these definitions are trusted.
  The AVX-512 branch calls intrinsics that do not exist and is not modelled.
* `__MMX__` is defined, so the `_mm_slli_pi16`/`_mm_srli_pi16` branches of the lane swaps are modelled.
* `NDEBUG` is defined, so `assert` is a no-op. Where an `assert` states a precondition we say so. The files named `*Debug*` model the same functions with the assertions compiled in; there `Throw` stands for a failed assertion.
* `char` is signed, `size_t`/`id_type` is 64 bits, little endian.

## Modelling conventions

* Machine words are `N`, with every wrap-around written explicitly (`mod 2^64`).
  Sizes and indices are unbounded naturals except where the code's wrap-around is
  observable (for instance `text.size() - key.size()`), where it is written out.
  Allocation failure and sizes beyond 2^63 are outside the model.
* `std::vector`, `std::array`, `std::string_view` are Coq lists. Every element access is
  bounds-checked by the model, and an access out of bounds is the distinct outcome `UB`.
  A shift by at least the word width is also `UB`. A thrown exception is `Throw`.
* Loops that are not structurally recursive carry fuel. Running out of fuel is the distinct outcome
  `Fuel`; theorems show it is not reached (or exhibit non-termination).
* The outcome type is `res A := Ok a | UB | Throw | Fuel`.
* Pure accessors whose C++ precondition is a structural invariant of the object return `res` too; theorems state
  `= Ok v`, so that memory safety is part of each theorem.

## Files

`Base.v` outcome monad and list access; `*Model.v` definitions only, each citing file and lines;
`CostBase.v` a counter beside the outcome, used by `*CostModel.v`, `DelayModel.v` and `RehashModel.v` (the functions again with what they do counted); `*Proof.v` lemmas; `*SpaceModel.v` what a structure holds in words; `Spec.v` to `Spec35.v` independent specifications (counting, occurrences, lexicographic order, ...);
`Prop_*.v` only the property theorems, each closed by one `exact`, followed by `Print Assumptions` and an `Example` meeting the
hypotheses. Refutations are theorems named `*_refuted` and give a concrete witness.

## Simplifications worth knowing

* Streams are lists of bytes. Reading past the end is `UB` (the code does not check the stream state). `ShortStreamModel` (C103) refines this: it carries the
  failed state of the stream and the values then left in place, for streams of any length.
  `&vec[0]` on an empty vector is treated as harmless. Padding bytes inside `RankTip` are written as zeros in `StreamModel`; `PadModel` gives them any value (C143).
* `WaveletTree`, `FitVector`, `DacVector`, `CDRWArray`: the element type is an unsigned integer (signed ones: `SignedModel`, C120).
* Loop counters and sums kept in an `int` are unbounded in the main models of `WaveletTree`, `MultiBitVector` and `calc`; `LimitModel` has them as 32-bit ints, and C126 says
  from which sizes on that makes a difference.
* `MultiBitVector`: the floating point `ceil` is taken to be exact; C126 proves that it is, for fewer than 2^53 words.
* `DacVector`/`calc`: two readings of the level optimiser are modelled, as written (a stray iteration is `UB`) and tolerant (stray iteration skipped).

* In-place initialisable array: values are their object representations (byte images); for `float` elements the conversion
  of an index through `float` is modelled for the small indices the witness needs.
* `HeapSort` on an empty range forms `end_ - 1`; this is treated as harmless because nothing is read through it.
* `CHT`: `BijectiveHash` is `SplitMixHash`. The arrays are real `FitVector`s (C19-C21), so bit packing is part of the proof.
  `set` and `_resize` call each other; the fuel bounds that nesting only, and the proof shows two levels suffice.
  The ring of slots is unrolled over `Z` in the proof (`CHTRing.v`), so that wrap-around needs no case splits.
  `FitVector()` and `FitVector(64)` evaluate `WidthMask(64)`, a shift by 64 that C06 calls undefined. The model computes the mask when an
  element is accessed, so constructing such a vector is harmless in the model and using it is `UB`. Read strictly, every
  default-constructed `FitVector` (hence every `CHT` and `CDRWArray`) is already undefined; the theorems assume that shift merely yields some unused word. C151 keeps the mask in the object and covers every word the shift may yield.
  Bucket arithmetic that would exceed 2^64 is outside the model (fewer than 2^50 operations).

* Pattern matchers: strings are lists of bytes, the result vector is the list pushed. KeyViewModel.v keeps the members of a matcher apart from the memory its key_ refers to (C148). `Kmp` reads one character behind the key;
  the model takes the bytes following the key in memory as a parameter. `std::sort` in the Sunday matchers is an insertion sort (the order is total).
  Indexing an array with a `char` from 128 on is `UB`.
* Factor oracle: an id is an `option nat`, `None` being `kEmptyValue`; ids are assumed to stay below 2^32 - 1 (FoWidthModel.v takes them modulo 2^w with 2^w - 1 reserved, C147). The bit vectors `used_state_` and
  `used_trans_` are lists of bool. Two fuels: the walk along suffix links (bounded by the model itself) and the search for a base, which is a parameter because
  that search can run for ever. `image` reads one byte behind `check_` in the last state; the bytes there are a parameter (`beyond`), empty for the strict reading.
  `Bom` and `TurboBom` are modelled on top of it; the float product `kAlpha * kWindowSize` is taken to be exact (keys of at most 2^24 characters); `WindowModel` has the rounded product (C144).

* Suffix array: `SuffixArray.hpp` with the `int`/`unsigned` arrays as lists, results stored in real `FitVector`s. A `char` from 128 on indexes before the bucket
  array and is `UB`. The recursion of SA-IS is bounded by the length of the string. Counters are unbounded in `SuffixModel`; `SuffixIntModel` keeps those that are an `int` in 32 bits (C146).
* `Trie`: nodes are a list, the map of children is a list sorted by byte; the size type is a parameter (`SizeT`, `Int32`, `UInt32`).
  Node and item numbers are unbounded in `TrieModel`; `TrieWidthModel` stores them in a signed or unsigned type of any width (C127).
* `Samc`: in `SamcModel` codes and heads are not truncated to `code_type`; `SamcWidthModel` models the constructor with the truncations, and C82 proves that the two agree exactly if the storage fits. Both builds (`y_check` and the legacy one) are modelled.

## Plan per property

| id | what is modelled | how proved |
|----|------------------|------------|
| C01 | table and SWAR popcounts | byte decomposition of the word, no carry lemma, sweep over 256 bytes |
| C02 | popcnt32 | refuted by witness 0x0F0F0F0F; exact for every word outside the two bad families |
| C03 | ctz/clz binary searches | invariant on lowest/highest set bit; clz32 refuted |
| C04 | sel + kLtSel | sweep of the table, composition; refuted through popcnt32, partial elsewhere |
| C05 | popcnt10.. popcnt111 | digit decomposition |
| C06 | WidthMask, bextr | bitwise extensionality; width 64 refuted (UB) |
| C07 | xor_map, swaps | bitwise extensionality with index xor |
| C08 | 256-bit counters | reduction to C01, C03; clz256 refuted |
| C09 | SizeFitsInUnits loop | loop invariant; top values refuted (UB) |
| C10 | SizeFitsAsList | induction |
| C11 | histogram, cumulative list | induction over the list |
| C12 | DP and level merge | invariant on the DP tables; stray access refuted, partial for the stray-tolerant reading |
| C13, C15, C22 | BitReference/BitVector | simulation with `list bool` over operation histories |
| C69 | front, back of BitVector | from C13 |
| C14 | BitIterator | arithmetic on (word, offset) pairs |
| C16-C18 | SuccinctBitVector | loop invariant of the constructor, refinement to list counting |
| C19-C21 | BitsReference/FitVector | bitwise extensionality; simulation with `list N` |
| C23-C25, C61 | DacVector | layer invariant |
| C26, C27 | WaveletTree | invariant per node: node sequence = stable filtered subsequence |
| C28, C29 | MultiBitVector | as C16 for U = 1,2,3 |
| C30 | MultipleVector | byte-level frame lemma |
| C31-C33 | stream as list of bytes | round-trip algebra |
| C34 | folklore array | invariant |
| C35, C36 | in-place array, element type abstracted by its index conversion | invariant on chains; float refuted |
| C37-C39 | Heap, HeapSort | heap-order invariant, permutation; push refuted |
| C40 | hash | per-width table check (finite, 64 rows) + algebra for all x |
| C41, C42, C62 | CHT | cluster/run invariant on the unrolled ring, refinement to a finite map; erase refuted; parameter limits refuted |
| C86, C87 | CHT with erase | the same invariant with Deleted flags (`base` in CHTMain.v); each rebuild drops the flagged slots, whose keys form the list of lost keys; termination and size refuted |
| C88 | CDRWArray, all writes | the invariant of C86 for each of the 64 tables; the last one always stays empty |
| C89 | CDRWVector, all operations | invariant of C88 for the current array plus a list of elements copied as lost; a copy only writes zero elements, so it erases nothing |
| C90 | FactorOracle, assertions on | step by step, the debug run and the release run either agree or the first fails an assertion where the second loops for ever (`lasts` in FoDebug.v) |
| C91 | Samc, any keys | the packing of a level depends only on the set of edges (least position that fits; bits cleared commute), so two key lists with the same C strings run in lockstep; results transfer from the sorted list (C59, C60) |
| C92, C93 | Samc and SamcDict, assertions on | a step with assertions agrees with the release step as long as no place is written twice; a place is written twice exactly when one node lists an edge twice |
| C94 | CHT, assertions on | the sizes of the arrays and widths are an invariant of every function; then each function with assertions equals the one without, up to UB |
| C95, C96 | CDRWArray, CDRWVector, assertions on | same invariant for the 64 tables; with the invariant of C88 the assertion of get is decided; allocation step by step |
| C97 | WaveletTree, assertions on | the node reached by the bits of c holds the elements sharing them; the bit read is the element's next bit |
| C98 | Heap, InitializableArray, assertions on | equality with the release build for every state, also unreachable ones; chains are symmetric |
| C99, C100, C101 | MultiBitVector, MultipleVector, bit_util, assertions on | equality with the release build where the assertions hold; where not, the first failing one |
| C102 | SA-IS, the exact result | `Spec12.listed_before` is inductive over the reduced strings; `SaisExact` shows that the keys of both passes are compared in this order, by induction through the recursion; the reduced string is unique |
| C103 | readers on every byte string | `ShortStreamModel` carries the bytes left and the state of the stream; `ShortStream.exact` says that a reader accepts exactly the images, composed field by field; allocation is assumed to succeed; `MultiBitVector` (padding bytes) is in C143 |
| C104 | portable select | `popcnt32` in closed form (`Spec14.lost_ones`), the halvings of `sel` by cases, `select` reduced to one word; for `SamcDict` the words of the leaves hold no stale bits, so 15 keys cannot fill the nibbles |
| C105 | masks and bit lengths | equations with no hypotheses: the value when it is defined, `UB` otherwise (`CalcExact.v`) |
| C106 | DacVector widths | the reservation loop by its first bad level (`DacExact.reserve_total`), reads as values modulo a power of two, a wide last level by the first value that reaches it |
| C107 | clz, sel, bextr | logarithms for the highest one; `pdep` of a bit past the last one is 0; the tables of `sel` past the last one as in C104 |
| C108 | Compact hash table for every key width | proofs of C41 generalised to 63-bit keys; words of 64 bits make every access undefined; the first entry moved by a shrinking reserve hits one |
| C109 | Trie with every size type | the invariant of C57, with the three cases of a missing key split |
| C110 | shifts_of_conflicts_ skips no free shift | bitwise, from the specifications of ctz and clz |
| C111 | ShowAsBinary | induction on the number of bytes; arithmetic on the counter |
| C112 | In-place initializable array of float and double | invariant of C35 extended by the set of written pairs; its size is b_ |
| C113 | SplitMix hash for every width and argument | xor-shift and multiplication depend on the argument modulo 2^w only after the first shift |
| C114 | FactorOracle builds the factor oracle | suffix links are the states whose shortest word ends at a position; edges go to the first such position |
| C115 | LCP array for any order | loop invariant gives the recurrence; induction on the position for the criterion |
| C116 | CHT that does not grow | invariant of the table without room for a free slot (CHTFull); induction on the history |
| C117 | Histories with erase, to the end | the invariant of C86 generalised to full tables; insertion of a new key into a full table does not end |
| C118 | CDRWArray, to the end | the invariant of C88 over tables that may be full (C117); the erase of the write keeps a full table full |
| C119 | CDRWVector, to the end | simulation of the tape as for C89, with the step that does not end as an outcome |
| C120 | signed sequences | bits of the two's complement carried through the tape of C85 and the insertion into the wavelet tree |
| C121 | FitVector at, every history | tape of C85 |
| C122 | Round trip of built objects | invariants of the builders give the field ranges of C32 |
| C123 | WaveletTree::Read into any target | three cases by height; nodes are numbered by level |
| C124 | What Bom does, whatever lies behind its oracle | factor oracle of Spec20 continued by the memory behind it; windows of Spec24; induction over the windows |
| C125 | The windows SundayMS inspects | order and shifts specified in Spec25; the tables are shown to hold exactly these |
| C126 | What the int counters limit | `LimitModel`: counters as 32-bit ints, `LimitProof`: lockstep with the unbounded models, rounding of the double quotient |
| C127 | Trie with a size type of any width | simulation of the unbounded trie while every node has a number; at the first number which does not fit, the edge is followed (C127_enough, C127_terminal, C127_first_lost, C127_wrong_item) |
| C128 | Heaps with any comparison | state-passing comparison with a cost bound per call; a sift from node i takes log2 (size / i) levels, and these add up to less than the size (C128_*) |
| C129 | SuffixArray with zero bytes | the first pass fills the bucket of zeros without the terminator; either the front entry stays empty, or it is a duplicate and the reduced string has the same defect (C129_*) |
| C130 | Comparisons of the matchers | counting versions shown equal to the plain ones; for Kmp the position in the key pays for the backward steps (C130_*) |
| C131 | Size of the factor oracle | each letter inserts at most as many transitions as the chain of suffix links gets shorter (C131_size) |
| C132 | References to elements | simulation of the stored pointers by names of elements (C132_fitvector, C132_bitvector, C132_swap) |
| C133 | Linear time of SuffixArray | counting versions of the functions; each position is charged to the LMS position before it (C133_linear, C133_same) |
| C134 | Constant time of the initializable arrays | counting versions of the functions (CostBase.v), bounded by composition |
| C135 | Words read by the queries | counting versions of the functions (CostBase.v); binary search halves its range, select samples stay below the number of blocks |
| C136 | Moved-from containers | storage emptied, sizes kept (MovedModel.v); the next resize relates them to fresh zero-filled ones |
| C137 | Memory of a DacVector | number of values above bit t as an invariant of the layers; word counts from the representation invariants; trimming the last width never raises the cost |
| C138 | Elements read by the searches | counting versions of the functions; heads sorted by induction over the levels, binary search halves its range |
| C139 | Memory of the other containers | word counts from the representation invariants; every inserted symbol pushes h bits; reserve asks for less than twice n*99/L buckets |
| C140 | Delay of Kmp | strong failure links, theorem of Fine and Wilf; Fibonacci words for the lower bound |
| C141 | Work of TurboBom | potential critpos - begin, critical position moves by half a key per window that is no match |
| C142 | Elements moved by a growing CHT | bucket counts double; potential argument over the history; a cycle of two calls for the lower bound |
| C143 | MultiBitVector with padding bytes, streams of any length | the C103 combinators with a tip as members and padding; the last array of a built vector is empty, so no prefix is read |
| C144 | TurboBom with the float product | rounding to 24 bits proved to be nearest even; the proof of C77 with the window size as a parameter |
| C145 | time to fill and build | models of BitVector, SuccinctBitVector, FitVector, WaveletTree, DacVector and MultiBitVector with a counter; bounds by induction over the loops |
| C146 | int counters of SuffixArray | the model with conversions to int in lockstep with SuffixModel; for the failure, the first put into the bucket whose start was sign-extended |
| C147 | ids of FactorOracle | the model with ids modulo 2^w in lockstep with FoModel below the size bound of C131; above, the link set to 2^w is read as 0 and the walk returns to the root for ever |
| C148 | Keys that change or vanish | the matchers as objects with the memory behind key_ as a parameter of the search; old proofs for Bom and Sunday, a new invariant for the windows of Bm |
| C149 | Block assignment, second layouts | the stores of the operator and its missing return separately; reading of arbitrary byte strings under an appended table |
| C150 | Stateful traversal actions | traversals that thread or copy the state of the action; invariant of C58 extended by the state after the prefixes |
| C151 | Mask kept in the object, width 64 | lockstep with FitVectorModel.v below 64; one word per element at 64, for an arbitrary mask |
| C152 | FitVector, DacVector and SuffixArray with assertions on | model with asserts compared with the release model; layer indices bounded by the representation invariant of DacProof.v |
| C153 | DacVector::ShowStatus | closed formula for the numbers printed, from the representation invariant; int accumulation modulo 2^32 |
| C154 | LCP statistics of SuffixArray | sorted permutation; max and sum by induction; the size map from the specification of bit_length_frequencies |
| C155 | InitializableArray::print_for_debug | from the representation invariant of C35, which also covers the padding cell and counts the pairs |
| C156 | CHT::print_for_debug | from the ring invariant of C41: a bijection between occupied flags and the first slots of the runs |
| C157 | Calls made by the construction of the factor oracle | a counting copy of the loop (FoCostModel.v) shown equal to fo_build when the counter is dropped; every insertion adds a transition, and a walk runs past the initial state exactly if the letter is new |
| C158 | Slots tried by _find_base | the explicit bound behind C90: a search that ends passes each free slot at most once, and there are at most 256 slots per block and one new block per insertion |
| C43, C44, C63 | CDRWArray/Vector | 63 tables related to one array through C41; refuted in general, proved when no non-zero element changes its bit length, and for construction from a range |
| C45-C47, C50, C51, C64 | pattern matchers | each equals the naive specification: KMP by borders, BM and Sunday by soundness of each shift |
| C48, C49 | Bom, TurboBom | no factor is rejected, so each shift of Bom is safe; TurboBom reports only occurrences, refuted by a missed one |
| C52-C54 | factor oracle | free slots form a ring, the double array represents a log of edges, on-line invariant on suffix links; termination by counting the slots each insertion takes; divergence by a text that empties the ring |
| C55, C56 | SA-IS, Kasai | SA refuted by witness; LCP for every sorted suffix array |
| C74, C75 | instruction-set branches | counting over strided bits, smearing, isolation of the lowest one; AVX2 stages equal the portable stages |
| C78 | split_positions_optimized_for_dac | the tables hold the least cost from each bit on; the queue of cuts is sorted by the number of values of that length |
| C79 | MultiBitVector build/popcnt_ | build() reads only the words, so stale tips cannot matter; masked complements keep whole elements |
| C81 | Bm, SundayQS, SundayMS, Kmp on arbitrary bytes | relations for the windows visited (`MatchSpec`); one undefined read per visited negative or 255 byte; Kmp up to the first escape by the step of C77 |
| C82 | Samc with a `code_type` of 1, 2, 4 or 8 bytes | simulation level by level against `SamcModel`; past the first overflow a write stays behind that lies outside the truncated storage |
| C83 | Heap | invariant: the front is least and the least of the rest is second or third |
| C85 | FitVector for all values and all resizes | simulation with a tape `nat -> bool` (Spec7) |
| C84 | `set_at<T>` (MultipleModel2), wide fields, layouts without bytes | byte-wise shifts of a promoted value |
| C80 | IndexConstIterator, DacVector begin/end/front/back | positions modulo 2^64; moves add up |
| C77 | TurboBom | the KMP state is the longest prefix that begins no earlier than the window; what ends inside a half window is overlapped |
| C76 | SuccinctBitVector with POPCNT/BMI2 | C16, C17 with the word select of C74 |
| C73 | WaveletTree::rank(c,i), node_diff | the walk of C27 down to the first node whose end is hit |
| C71, C72 | SA-IS | induced sorting proved for any order of keys compatible with the types (`SaisInduce`, `SaisKey`), instantiated with the stretch up to the next LMS position (first pass) and the whole suffix (second pass); names and reduced string (`SaisName`, `SaisTotal`); induction on the length through the recursion (`SaisSort`); `SaisPublic` translates to `Spec6`, which knows only suffixes and their order |
| C57, C58, C65, C66 | Trie | refinement to a map; tree invariant |
| C59, C60, C67, C68 | Samc, SamcDict | packing of one level, then an invariant over levels: a node is the sum of the codes along its string; free slots matching 0xFF never lead to a node; ids by C16, access by C17 |
| C70 | Samc, SamcDict, SuffixArray streams | round-trip algebra of C31 |

## Trusted base

Coq's kernel; what `Print Assumptions` prints under each theorem; the reading of the
C++ source recorded in the comments of the model files; the definitions of the instructions in `HwModel.v`. Not modelled: AVX-512, iostream failure,
allocation failure, timing utilities, the float values of printed quotients, the text around printed numbers, iterator classes that do not compile when used (`BitsIterator`).
