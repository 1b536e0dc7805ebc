{"id": "C01", "title": "Bit accessors read back what was written and touch nothing else", "statement": "After set_be_bit/set_le_bit(buf,pos,val) the matching get returns val, every other bit of every byte reads as before, and no byte outside buf[pos/8] changes; big- and little-endian accessors differ only by mirroring the bit inside its byte.", "quantifier": "every byte buffer, every in-range bit position pos >= 0 and every other position, both values", "why_tests_cant": "256^n buffer contents times all position pairs cannot be enumerated", "anchors": ["bitman.hh: set_be_bit, set_le_bit, get_be_bit, get_le_bit"]}
{"id": "C02", "title": "xor accessors toggle exactly one bit", "statement": "xor_be_bit/xor_le_bit(buf,pos,val) replaces bit pos by its exclusive-or with val, leaves all other bits alone, and applying it twice restores the buffer.", "quantifier": "every buffer, every in-range position, both values", "why_tests_cant": "unbounded buffers and positions", "anchors": ["bitman.hh: xor_be_bit, xor_le_bit"]}
{"id": "C03", "title": "Bitstream behaves like an array of bits with a cursor, for every history of single-bit operations", "statement": "For any sequence of seek/tell/reset/putbit/getbit that stays in range, every value returned equals that of an abstract array of bits with a cursor, and the bits in data() equal the abstract array (bit i is bit i%8 of byte i/8).", "quantifier": "every finite sequence of operations, every initial content, every SIZE", "why_tests_cant": "operation histories are unbounded; unaligned/aligned interleavings cannot be enumerated", "anchors": ["bitstream.hh: Bitstream::putbit, getbit, seek, tell, reset, data"]}
{"id": "C04", "title": "Multi-bit stream operations equal the corresponding run of single-bit operations", "statement": "putbyte/getbyte/writebytes/readbytes/writebits/readbits at any (aligned or unaligned) position transfer exactly the next 8, 8*len or num bits least-significant first, advance the cursor by exactly that many bits and leave every other bit unchanged; hence each write followed by seek back and the matching read returns what was written.", "quantifier": "every stream content, every cursor position, every byte block, every num up to the width of the value type", "why_tests_cant": "cross product of cursor offset, lengths and contents is unbounded; carries across byte borders depend on neighbours", "anchors": ["bitstream.hh: putbyte, getbyte, writebytes, readbytes, writebits, readbits"]}
{"id": "C05", "title": "Table driven CRC equals the bit-serial CRC", "statement": "Feeding a byte, a 16, 32 or 64 bit word to CRC gives the same register as feeding its bits one at a time, least significant bit (and byte) first, for every register width of at least 8 bits including the specialised 8 bit class.", "quantifier": "every polynomial, every register width, every register value, every message", "why_tests_cant": "2^w polynomials times 2^w registers times unbounded messages", "anchors": ["crc.hh: CRC::CRC, CRC::update, CRC::operator()"]}
{"id": "C06", "title": "CRC is a linear remainder: residue zero and burst detection", "statement": "The CRC register after a message is linear over bitwise exclusive-or; feeding the register value itself (least significant bit first) leaves zero; two equally long messages that differ only inside one window of at most w consecutive bits, and there in at least one bit, never have the same CRC (for polynomials with the top bit set).", "quantifier": "every message length, every pair of messages, every polynomial with the required bit", "why_tests_cant": "error patterns and message lengths are unbounded", "anchors": ["crc.hh: CRC::update, CRC::operator()(bool), reset"]}
{"id": "C07", "title": "Xorshift32 visits all 2^32-1 non-zero states", "statement": "From any non-zero seed the generator never reaches zero, and the sequence of states first returns to the seed after exactly 2^32-1 calls; the step function is a bijection on 32 bit words.", "quantifier": "every non-zero 32 bit seed, every number of calls", "why_tests_cant": "4 billion seeds times 4 billion calls", "anchors": ["xorshift.hh: Xorshift32::operator()"]}
{"id": "C08", "title": "Xorshift64 visits all 2^64-1 non-zero states", "statement": "As C07 for 64 bits: exact period 2^64-1 from every non-zero seed and no zero state.", "quantifier": "every non-zero 64 bit seed", "why_tests_cant": "2^64 calls cannot be executed", "anchors": ["xorshift.hh: Xorshift64::operator()"]}
{"id": "C09", "title": "Xorshift128 has exact period 2^128-1", "statement": "From every seed that is not all-zero, the state first repeats after exactly 2^128-1 calls, and never becomes all-zero.", "quantifier": "every non-zero 128 bit state", "why_tests_cant": "2^128 calls cannot be executed", "anchors": ["xorshift.hh: Xorshift128::operator()"]}
{"id": "C10", "title": "Xorwow has exact period 2^192-2^32", "statement": "From every seed whose xorshift part is not all-zero the state first repeats after exactly (2^160-1)*2^32 calls.", "quantifier": "every such 192 bit state", "why_tests_cant": "2^192 calls cannot be executed", "anchors": ["xorshift.hh: Xorwow::operator()"]}
{"id": "C11", "title": "MLS::bad decides maximality exactly, and accepted sequences are balanced", "statement": "For a feedback polynomial of degree n (1 <= n <= 30) and a non-zero start, bad() returns false exactly when the register runs through all 2^n-1 non-zero n bit states before returning to its start; then one period of the output contains exactly 2^(n-1) ones and 2^(n-1)-1 zeros.", "quantifier": "every polynomial up to degree 30, every start state", "why_tests_cant": "2^30 polynomials, each with up to 2^30 steps", "anchors": ["mls.hh: MLS::bad, MLS::operator(), MLS::hibit"]}
{"id": "C12", "title": "exclusive_reduce computes the leave-one-out reduction", "statement": "For N >= 2 and an associative and commutative operator, out[i] is the reduction of all in[j] with j != i, as the README reference loop computes; the input is not changed and no element outside out[0..N-1] is written.", "quantifier": "every N >= 2, every element type, every associative commutative operator, every input", "why_tests_cant": "N, element type and operator are unbounded", "anchors": ["exclusive_reduce.hh: exclusive_reduce", "README.md: exclusive_reduce"]}
{"id": "C13", "title": "Interleave and Deinterleave are mutually inverse permutations", "statement": "For every SIZE divisible by ORDER, Deinterleave undoes Interleave and vice versa, every element appears exactly once, and element i+j*LENGTH goes to ORDER*i+j.", "quantifier": "every SIZE, every ORDER dividing it, every content", "why_tests_cant": "SIZE and ORDER are unbounded template parameters", "anchors": ["interleave.hh: Interleave, Deinterleave"]}
{"id": "C14", "title": "Fisher-Yates shuffle is a permutation undone by ReverseFisherYatesShuffle", "statement": "FisherYatesShuffle permutes its array (never reading or writing outside it) and ReverseFisherYatesShuffle of the same SIZE restores the original array, and vice versa.", "quantifier": "every SIZE >= 2, every content and element type", "why_tests_cant": "SIZE and contents are unbounded", "anchors": ["permute.hh: FisherYatesShuffle, ReverseFisherYatesShuffle"]}
{"id": "C15", "title": "BitReversalPermute swaps each element with its bit-reversed index", "statement": "For SIZE = 2^m the element at index i ends at the index whose m bit binary expansion is reversed; applying it twice is the identity.", "quantifier": "every power of two SIZE, every content", "why_tests_cant": "SIZE is unbounded", "anchors": ["permute.hh: BitReversalPermute"]}
{"id": "C16", "title": "Rotate rotates the first WIDTH lanes", "statement": "Rotate(a,s) puts lane n of the input into lane (n+s) mod WIDTH, for positive and negative shifts, both in the portable code and in the table-lookup (NEON, SSE, AVX2) versions; negating the shift undoes it.", "quantifier": "every WIDTH up to the SIMD size, every shift in [-WIDTH, WIDTH-1], every lane content", "why_tests_cant": "all WIDTH/shift/content combinations on all three back ends cannot be run on one machine", "anchors": ["rotate.hh: Rotate::operator(), Rotate specialisations", "README.md: rotate"]}
{"id": "C17", "title": "insertion_sort sorts stably", "statement": "insertion_sort(a,n[,comp]) leaves a stable sorted permutation of a[0..n-1]: no later element compares less than an earlier one, equivalent elements keep their order, and elements from n on are untouched.", "quantifier": "every length, every content, every strict weak ordering", "why_tests_cant": "inputs and orderings are unbounded", "anchors": ["sort.hh: insertion_sort"]}
{"id": "C18", "title": "Index insertion_sort and vorder report the sorting permutation", "statement": "insertion_sort(p,a,n) sorts a stably and sets p to the permutation with new a[i] = old a[p[i]].", "quantifier": "every length, every content", "why_tests_cant": "inputs are unbounded", "anchors": ["sort.hh: insertion_sort(INDEX*,TYPE*,int)", "simd_sort.hh: vorder, vsort"]}
{"id": "C19", "title": "MergeSort sorts stably for every length", "statement": "MergeSort<TYPE,MAX_N,M>()(a,n,comp) leaves a stable sorted permutation for every n <= MAX_N and chunk size M >= 1, without touching memory outside a[0..n-1] and its own MAX_N element buffer.", "quantifier": "every n with 3n and n+M representable in int, every MAX_N, M, content and strict weak ordering", "why_tests_cant": "lengths, chunk sizes and orderings are unbounded; ragged last runs", "anchors": ["sort.hh: MergeSort"]}
{"id": "C20", "title": "Galois field tables give polynomial arithmetic modulo POLY", "statement": "If the table constructor accepts POLY (its assertions hold) then Value addition and multiplication are addition and multiplication of binary polynomials modulo POLY, and they form a field with 2^M elements in which 2 generates all non-zero elements; no intermediate result leaves TYPE.", "quantifier": "every M and TYPE width w with M <= w, every accepted POLY, all operands", "why_tests_cant": "M, POLY and TYPE are template parameters; exhaustive triple tests are 2^48 per field already for M=16", "anchors": ["galois_field.hh: GF::Tables, GF::Value, GF::index, GF::value, operator*, operator+"]}
{"id": "C21", "title": "Index, Value and mixed operators agree", "statement": "Products, quotients, reciprocals and all fma overloads on Index, Value or mixed operands give the field product, quotient, reciprocal and a*b+c of the values they denote, and never violate an internal assertion unless dividing by or taking the index of zero.", "quantifier": "every accepted field, all operands", "why_tests_cant": "all operand pairs/triples for all fields", "anchors": ["galois_field.hh: operator/, rcp, fma, operator*=, operator/="]}
{"id": "C22", "title": "GaloisFieldReference agrees with the table driven field", "statement": "The shift-and-add product, the extended-Euclid reciprocal and the quotient of GaloisFieldReference equal those of the table driven field, and the reciprocal loop always terminates.", "quantifier": "every accepted field, all operands (non-zero divisors)", "why_tests_cant": "unbounded set of fields; loop termination", "anchors": ["galois_field.hh: GaloisFieldReference, operator*, rcp, operator/"]}
{"id": "C23", "title": "PrimeField is arithmetic modulo P", "statement": "For prime P with (P-1)^2 representable in TYPE, + - * / unary minus, pow and rcp on reduced operands return the reduced result of the same operation modulo P; rcp(a)*a = 1 for a != 0.", "quantifier": "every prime P, every unsigned TYPE wide enough, all operands", "why_tests_cant": "unbounded primes and operands", "anchors": ["prime_field.hh: PrimeField, reduce, add, sub, neg, mul, pow, rcp, div"]}
{"id": "C24", "title": "Cauchy Reed-Solomon: any block_cnt blocks recover the data", "statement": "Encoding block_cnt data blocks under any block_cnt distinct identifiers in [block_cnt, 2^M-1] and decoding them with the same identifiers in the same order restores every data block, whatever subset and order of identifiers is used.", "quantifier": "every accepted field, every block count, every block length, every data content, every list of distinct admissible identifiers", "why_tests_cant": "binomial(2^M, n) identifier choices times contents", "anchors": ["cauchy_reed_solomon_erasure_coding.hh: encode, decode, cauchy_matrix, inverse_cauchy_matrix, multiply_accumulate"]}
{"id": "C25", "title": "SIMD multiply-accumulate equals the scalar one", "statement": "The nibble-table multiply-accumulate used when pointers and length are aligned gives bit for bit the scalar result, for 8 and 16 bit fields.", "quantifier": "every accepted 8 or 16 bit field, every coefficient, every vector", "why_tests_cant": "2^16 coefficients times vectors; per-platform code", "anchors": ["cauchy_reed_solomon_erasure_coding.hh: mac_simd, multiply_accumulate"]}
{"id": "C26", "title": "Cauchy prime field erasure code round-trips without overflow", "statement": "For the prime P and machine word TYPE the delayed-reduction arithmetic never overflows, every emitted symbol fits IO, a substitute symbol always exists, and decoding any block_cnt distinct identifiers in [block_cnt, P/2) restores the data.", "quantifier": "every prime and word size satisfying the stated size condition (both shipped instances do), every data content, every distinct identifier list, every block length <= MAX_LEN", "why_tests_cant": "worst case of the delayed reductions is reached only by rare identifier combinations", "anchors": ["cauchy_prime_field_erasure_coding.hh: encode, decode, mac, mac_sub, find_unused, inverse_cauchy_matrix"]}
{"id": "C27", "title": "Hadamard decoding is exact maximum likelihood", "statement": "HadamardDecoder returns the message whose codeword has the strictly largest correlation with the soft input, or -1 when the maximum is not unique; so decoding an encoded message returns it; the hand-unrolled K=2,3,4 classes agree with the general one; no int overflow.", "quantifier": "every K from 2 to 24 (beyond which the sums can leave int), all 256^(2^(K-1)) soft inputs", "why_tests_cant": "256^N inputs", "anchors": ["hadamard_encoder.hh: HadamardEncoder", "hadamard_decoder.hh: HadamardDecoder"]}
{"id": "C28", "title": "Simplex decoding is exact maximum likelihood", "statement": "As C27 for SimplexEncoder/SimplexDecoder.", "quantifier": "every K from 2 to 23 (beyond which the sums can leave int), all soft inputs", "why_tests_cant": "256^N inputs", "anchors": ["simplex_encoder.hh: SimplexEncoder", "simplex_decoder.hh: SimplexDecoder"]}
{"id": "C29", "title": "Short BCH encoder is systematic and produces multiples of the generator", "statement": "The codeword carries the message in its top K bits, is divisible by G as a binary polynomial, encoding is linear, and the soft form maps bit i to +1/-1.", "quantifier": "every N, K, G of degree N-K, every message", "why_tests_cant": "all template parameters", "anchors": ["short_bch_code_encoder.hh: ShortBCHCodeEncoder"]}
{"id": "C30", "title": "Short BCH hard decoder corrects up to T errors and only ever returns codewords", "statement": "If any two codewords differ in at least 2T+1 bits, flipping at most T bits of a codeword is undone; for every input the result is a codeword or -1, and a returned codeword differs from the input in at most T bits.", "quantifier": "every N, K, G, T <= 3, every input word", "why_tests_cant": "2^N inputs for every code", "anchors": ["short_bch_code_decoder.hh: ShortBCHCodeDecoder::operator()(int)"]}
{"id": "C31", "title": "Short BCH soft decoder: codeword or -1, exact maximum likelihood for K <= 4", "statement": "The soft decoder returns -1 or a codeword at least as likely as the hard decision's; for K <= 4 it returns the unique maximum likelihood codeword and -1 exactly when that is not unique.", "quantifier": "every code, all soft inputs", "why_tests_cant": "256^N inputs", "anchors": ["short_bch_code_decoder.hh: operator()(const int8_t *), metric"]}
{"id": "C32", "title": "Reed-Solomon encoder produces codewords", "statement": "data followed by parity is a polynomial vanishing at pe^FCR .. pe^(FCR+NR-1), for every data length up to K; the data is not modified; hence compute_syndromes returns 0 and the decoder returns 0 changing nothing.", "quantifier": "every accepted field, NR, FCR, data_len, data", "why_tests_cant": "all data words and parameters", "anchors": ["reed_solomon_encoder.hh: ReedSolomonEncoder", "reed_solomon_decoder.hh: compute_syndromes"]}
{"id": "C33", "title": "Reed-Solomon decoder corrects e errors and f erasures whenever 2e+f <= NR", "statement": "For every codeword, every e wrong symbols outside and f declared erasures (distinct positions, symbols there right or wrong) with 2e+f <= NR, the decoder restores data and parity and returns the number of symbols it changed; the only exception is the pair of C55, which does not exist in fields where y(y+1) = N has no solution (GF(16), GF(256) of the tests).", "quantifier": "every accepted field, NR, FCR, data length, codeword, error pattern and erasure list", "why_tests_cant": "number of error patterns is astronomic", "anchors": ["reed_solomon_decoder.hh: operator()", "reed_solomon_error_correction.hh: BerlekampMassey, LocationFinder, Chien, ArtinSchreier, Forney, ReedSolomonErrorCorrection"]}
{"id": "C34", "title": "Reed-Solomon decoder is total and changes nothing when it fails", "statement": "On every input (any received word, any erasure list of in-range positions, even repeated ones) the decoder terminates without assertion failure or out-of-bounds access, and when it returns -1 or 0 data and parity are unchanged; otherwise the result is the number of symbols changed. The caller's erasure list is shifted by the shortening of the code.", "quantifier": "every received word and erasure list", "why_tests_cant": "all received words", "anchors": ["reed_solomon_decoder.hh: operator()", "reed_solomon_error_correction.hh"]}
{"id": "C35", "title": "When a non-negative Reed-Solomon decoder result means the output is a codeword", "statement": "With distinct erasures using all or all but one of the check symbols, a non-negative result means data and parity form a codeword. (In general this is false of the code: a word with syndromes a,0,0,0 is reported as correct; proved as a counterexample.)", "quantifier": "every received word", "why_tests_cant": "all received words", "anchors": ["reed_solomon_decoder.hh: operator()", "reed_solomon_error_correction.hh: ReedSolomonErrorCorrection::operator()"]}
{"id": "C36", "title": "BCH encoder: product generator, remainder parity, packed equals reference", "statement": "The generator built from the minimal polynomials is their product; data followed by parity is divisible by it for every data length; the packed-byte encoder and the reference encoder produce the same parity bits; padding bits are zero.", "quantifier": "every list of minimal polynomials, N, K, data length, data", "why_tests_cant": "all data words and codes", "anchors": ["bose_chaudhuri_hocquenghem_encoder.hh: BoseChaudhuriHocquenghemEncoder, BoseChaudhuriHocquenghemEncoderReference"]}
{"id": "C37", "title": "BCH decoder corrects errors and erasures up to half the designed distance", "statement": "If the generator vanishes at pe^FCR .. pe^(FCR+NR-1), e bit errors and f erasures with 2e+f <= NR are corrected and the number of flipped bits is returned, the only exception being the two-position pattern of C55, which is refused; when -1 is returned nothing changes.", "quantifier": "every such code, codeword, error and erasure pattern", "why_tests_cant": "number of error patterns is astronomic", "anchors": ["bose_chaudhuri_hocquenghem_decoder.hh: BoseChaudhuriHocquenghemDecoder, BoseChaudhuriHocquenghemDecoderReference"]}
{"id": "C38", "title": "LDPC encoder satisfies every parity check of the table", "statement": "With parity computed by LDPCEncoder, for every check the product of its data signs, its own parity and the preceding parity is +1. No other +1/-1 parity word has this property for the same data, and the parity of the elementwise product of two data words is the elementwise product of their parities.", "quantifier": "every well-formed table, all +1/-1 data", "why_tests_cant": "2^K data words", "anchors": ["ldpc_encoder.hh: LDPCEncoder"]}
{"id": "C39", "title": "LDPC decoder: a non-negative result means all checks hold, and clean words pass unchanged", "statement": "If the decoder returns a value >= 0 the signs of its output satisfy all parity checks of the table; an input whose values are non-zero and satisfy all checks is returned unchanged with the trial count untouched.", "quantifier": "every well-formed table, all soft inputs, every trial count", "why_tests_cant": "all soft inputs", "anchors": ["ldpc_decoder.hh: LDPCDecoder::operator(), bad, update"]}
{"id": "C40", "title": "Polar encoder computes the polar transform", "statement": "PolarEncoder's codeword is the Kronecker-power transform of the message expanded with +1 at frozen positions, an involution on +1/-1 words; it reads exactly as many message symbols as there are unfrozen positions.", "quantifier": "every level, every frozen set, every +1/-1 message", "why_tests_cant": "2^(2^level) frozen sets", "anchors": ["polar_encoder.hh: PolarEncoder"]}
{"id": "C41", "title": "Systematic polar encoder reproduces the message at the unfrozen positions", "statement": "For every frozen set closed under the polar (bitwise domination) order, the codeword of PolarSysEnc carries the message at the unfrozen positions and is a codeword of the same polar code.", "quantifier": "every level, every such frozen set, every message", "why_tests_cant": "2^(2^level) frozen sets", "anchors": ["polar_encoder.hh: PolarSysEnc"]}
{"id": "C42", "title": "Successive cancellation decoding inverts encoding without noise", "statement": "PolarDecoder applied to any noiseless (correct signs, non-zero magnitudes) version of an encoded message returns that message.", "quantifier": "every level from 5, every frozen set, every message, every positive magnitudes", "why_tests_cant": "2^(2^level) frozen sets times messages times magnitudes", "anchors": ["polar_decoder.hh: PolarDecoder, PolarTree, PolarNode", "polar_helper.hh: PolarHelper"]}
{"id": "C43", "title": "Rate-0 and rate-1 shortcuts do not change the decoded message", "statement": "The decoder's special treatment of all-frozen and all-unfrozen subtrees gives the same message as plain successive cancellation, up to and including the first symbol that could not be decided (a tie, shown as 0); without a tie message and codeword estimate are identical.", "quantifier": "every frozen set and soft input", "why_tests_cant": "all frozen sets and soft inputs", "anchors": ["polar_decoder.hh: PolarNode::rate0, rate1, PolarTree"]}
{"id": "C44", "title": "Polar list decoder: every lane is a consistent path, lanes ranked by metric", "statement": "Each of the SIZE output lanes is a message whose recomputed path metric is the lane's metric, different lanes carry different messages, rank counts the distinct metrics before each lane, and metrics are non-decreasing over lanes whenever the last code position is unfrozen (as in every constructed code).", "quantifier": "every level, frozen set, soft input, list size", "why_tests_cant": "all inputs", "anchors": ["polar_list_decoder.hh: PolarListDecoder, PolarListTree, PolarListNode"]}
{"id": "C45", "title": "Polar list decoder inverts encoding without noise", "statement": "For any noiseless version of an encoded message lane 0 of the list decoder is that message.", "quantifier": "every level, frozen set, message, list size", "why_tests_cant": "all inputs", "anchors": ["polar_list_decoder.hh: PolarListDecoder"]}
{"id": "C46", "title": "Parity aided polar coding: inserted parity bits and noiseless decoding", "statement": "PolarParityEncoder inserts after first and then every stride message symbols the product of the preceding ones; the parity aided list decoder returns in lane 0 the message of a noiseless codeword, for received values that cannot saturate every lane below the penalty is a message that obeys the parity symbols with its path metric, and a list large enough for all messages contains each of them with a most likely one in lane 0.", "quantifier": "every level, frozen set, stride, first, message", "why_tests_cant": "all inputs", "anchors": ["polar_parity_aided.hh: PolarParityEncoder, PolarParityDecoder"]}
{"id": "C47", "title": "Polar code construction freezes the right number of positions", "statement": "PolarFreezer returns the number of unfrozen positions it wrote; PolarCodeConst0 leaves exactly K unfrozen positions and none of them is less reliable than a frozen one; bits beyond the length are untouched.", "quantifier": "every level, K, erasure probability", "why_tests_cant": "all levels, K and probabilities", "anchors": ["polar_freezer.hh: PolarFreezer, PolarCodeConst0"]}
{"id": "C48", "title": "PolarSeqConst0 yields a permutation ordered by reliability", "statement": "The sequence is a permutation of 0..2^level-1 in non-increasing order of channel erasure probability.", "quantifier": "every level and probability", "why_tests_cant": "all levels and probabilities", "anchors": ["polar_sequence.hh: PolarSeqConst0"]}
{"id": "C49", "title": "LinearEncoder multiplies the message by the generator matrix", "statement": "Bit i of the codeword is the parity of the message bits selected by column i of the matrix; no bit outside 0..N-1 changes.", "quantifier": "every N, K, matrix and message", "why_tests_cant": "2^(N*K) matrices", "anchors": ["osd.hh: LinearEncoder"]}
{"id": "C50", "title": "BCH generator matrix generates the cyclic code", "statement": "matrix() yields K rows that are the shifts of the product of the minimal polynomials, or in systematic mode an equivalent basis starting with the identity; all combinations are multiples of the generator polynomial.", "quantifier": "every N, K, list of minimal polynomials", "why_tests_cant": "unbounded parameters", "anchors": ["osd.hh: BoseChaudhuriHocquenghemGenerator"]}
{"id": "C51", "title": "Ordered statistics decoder returns the best codeword of its search set", "statement": "For every full-rank generator matrix the decoder terminates without assertion failure, its hard output is a codeword, and no codeword differing in at most O of the most reliable basis positions has a larger correlation with the soft input.", "quantifier": "every N, K, O <= 6, full-rank matrix and soft input", "why_tests_cant": "256^N soft inputs", "anchors": ["osd.hh: OrderedStatisticsDecoder"]}
{"id": "C52", "title": "Ordered statistics list decoder returns distinct ranked codewords", "statement": "All filled list entries are codewords ordered by non-increasing correlation, the first equals a best candidate, and rank counts distinct scores.", "quantifier": "every N, K, O, L, matrix and soft input", "why_tests_cant": "256^N soft inputs", "anchors": ["osd.hh: OrderedStatisticsListDecoder"]}
{"id": "C53", "title": "Lane-wise SIMD primitives have their documented saturating semantics", "statement": "vqadd/vqsub/vqabs/vsign/vmin/vmax/vclamp/vshuf, the comparison masks, the bitwise operations and the wrapping arithmetic act lane by lane: saturation to the nearest value of the lane type, masks of all zeros or all ones, two's complement wrap around for 8 and 16 bit lanes, exact results for 32 and 64 bit lanes whenever they fit and undefined behaviour exactly when one does not.", "quantifier": "every number of lanes, all lane contents, all four integer widths", "why_tests_cant": "256^(2*WIDTH) operand pairs", "anchors": ["simd.hh"]}
{"id": "C54", "title": "SIMD back ends agree with the portable definitions", "statement": "For integer lanes the SSE4.1, AVX2 and NEON versions (single and multi register) of the primitives return the same lanes as the portable code whenever that is defined; the shuffles agree for every index NEON can be given and, on x86, for indices below WIDTH or at least 112 + WIDTH, and only for those.", "quantifier": "all register contents, any number of registers, all lane widths", "why_tests_cant": "needs three CPUs and all operand pairs", "anchors": ["sse4_1.hh", "avx2.hh", "neon.hh", "simd.hh"]}
{"id": "C55", "title": "Reed-Solomon decoder refuses certain correctable two-symbol patterns", "statement": "If the located positions (erasures and errors) are exactly two, with locators Xa, Xb satisfying Xa Xb = N (Xa+Xb)^2 (N the all-ones symbol), the decoder returns -1 and changes nothing although 2e+f <= NR (the Artin-Schreier table skips that value).", "quantifier": "every accepted field, NR, FCR, codeword and such pair of positions", "why_tests_cant": "The tests use fields or position pairs in which the equation never occurs; only the algebra shows exactly which pairs fail.", "anchors": ["reed_solomon_error_correction.hh ArtinSchreier, LocationFinder", "reed_solomon_decoder.hh ReedSolomonDecoder::operator()"]}
{"id": "C56", "title": "LDPC layer update is offset min-sum with self-correction", "statement": "Processing one layer of an iteration computes, simultaneously for the WORD_SIZE checks of the layer, the offset min-sum messages: every link that may write receives the clamped minimum of the offset magnitudes of the other links with the product of their signs, set to zero if its sign contradicts the previous message (self-correction), and the stored soft value becomes the extrinsic value plus the new message, saturated; everything else is unchanged.", "quantifier": "every well-formed table, word size, offset BETA, layer and object contents", "why_tests_cant": "All soft values and all tables; vector lanes, rotations and the wrap-around parity link are easily wrong for a few lanes only.", "anchors": ["ldpc_decoder.hh: LDPCDecoder::update, rotate, other, mine, selfcorr"]}
{"id": "C57", "title": "LDPC decoder: one writing link per shared word", "statement": "After construction exactly one of the data links of a layer sharing a word may write it; a layer without shared words keeps all its links writing across calls, and in a layer whose last two links share a word exactly one link per word may write after any history of calls. Each iteration makes links with the same word take turns, together with the last two links whatever their words; hence in the remaining layers one writer per word is lost (a counterexample table is proved).", "quantifier": "every well-formed table and word size, every layer and every sequence of calls", "why_tests_cant": "Depends on table structure and on the history of calls.", "anchors": ["ldpc_decoder.hh: LDPCDecoder constructor, update (wd)"]}
{"id": "C58", "title": "LDPC decoder: what survives from call to call", "statement": "The outcome of a call depends on earlier calls only through the write disable masks; when no layer has two links in one word a reused object behaves exactly like a fresh one. (With shared words it need not: the same input decoded twice can give different outputs, proved on a concrete table.)", "quantifier": "every well-formed table, every earlier call, all soft inputs", "why_tests_cant": "Ranges over call histories.", "anchors": ["ldpc_decoder.hh: LDPCDecoder::operator(), reset"]}
{"id": "C59", "title": "SIMD polar decoder lanes are independent scalar decoders", "statement": "PolarDecoder over a SIMD<int8_t, W> type decodes in every lane exactly what PolarDecoder over int8_t decodes from that lane of the input, with either variant of the SIMD helper, for soft values above -128.", "quantifier": "every width, level 5..20, frozen set, lane contents, earlier contents of both objects", "why_tests_cant": "all lane contents and frozen sets", "anchors": ["polar_decoder.hh: PolarDecoder", "polar_helper.hh: PolarHelper<SIMD<int8_t, WIDTH>>"]}
{"id": "C60", "title": "Constructed polar codes are closed under domination", "statement": "Computed in exact arithmetic, the sets of unfrozen positions chosen by PolarFreezer (erasure probability in [0,1]) and PolarCodeConst0 (probability strictly between 0 and 1, any conforming std::nth_element) are closed upwards under domination of binary representations, which is what systematic polar encoding needs; in double arithmetic underflow to equal probabilities can break it.", "quantifier": "every level, K, threshold, probability and nth_element implementation", "why_tests_cant": "depends on the order of all 2^level probabilities and on implementation freedom of std::nth_element", "anchors": ["polar_freezer.hh: PolarFreezer, PolarCodeConst0", "polar_encoder.hh: PolarSysEnc"]}
{"id": "C61", "title": "Matrix encoder and BCH encoder agree", "statement": "LinearEncoder with the systematic matrix that BoseChaudhuriHocquenghemGenerator builds from a list of minimal polynomials produces, for every message, the message followed by exactly the parity bits BoseChaudhuriHocquenghemEncoder computes for the same polynomials.", "quantifier": "every N, K, list of odd minimal polynomials of total degree N-K, and message", "why_tests_cant": "2^K messages for every code", "anchors": ["osd.hh: LinearEncoder, BoseChaudhuriHocquenghemGenerator", "bose_chaudhuri_hocquenghem_encoder.hh: BoseChaudhuriHocquenghemEncoder"]}
{"id": "C62", "title": "Reed-Solomon and BCH minimum distance", "statement": "Two different words accepted as codewords by ReedSolomonErrorCorrection's syndromes (and so any two different outputs of ReedSolomonEncoder, or of BoseChaudhuriHocquenghemEncoder for the same generator) differ in at least NR+1 places, and changing between 1 and NR symbols of a codeword never gives a codeword.", "quantifier": "every field, NR, FCR, code length and every pair of words", "why_tests_cant": "ranges over all pairs of codewords of every code", "anchors": ["reed_solomon_error_correction.hh: ReedSolomonErrorCorrection", "reed_solomon_encoder.hh: ReedSolomonEncoder", "bose_chaudhuri_hocquenghem_encoder.hh: BoseChaudhuriHocquenghemEncoder"]}
{"id": "C63", "title": "Maximum length sequences are pseudo-noise", "statement": "For a polynomial that MLS::bad() does not reject, started from any non-zero register, the output's periodic autocorrelation (bits as +1/-1) over one period 2^n-1 is -1 at every shift that is not a multiple of the period, and every non-zero pattern of n bits appears exactly once per period as n consecutive outputs (the zero pattern never).", "quantifier": "every degree 1..30, polynomial, start register and shift", "why_tests_cant": "sequences of up to 2^30-1 bits for every accepted polynomial and shift", "anchors": ["mls.hh: MLS::operator(), MLS::bad"]}
{"id": "C64", "title": "Polar codes with floating point symbols", "statement": "With float or double (or any IEEE format) symbols: on messages of +1.0/-1.0 PolarEncoder computes the polar transform exactly and leaves the rest of the buffer alone, PolarSysEnc shows the message at the unfrozen positions and produces an encoder codeword; PolarDecoder recovers the message exactly from any values (denormal, huge or infinite) that have the signs of the codeword; for all received values, NaNs and infinities included, its message equals that of plain successive cancellation in the same arithmetic up to and including the first tie, and without a tie message and word are bit for bit equal; and every lane of the SIMD<float>/SIMD<double> encoders and decoder computes exactly what the scalar one does on that lane.", "quantifier": "every IEEE format with 1 < precision < exponent bound, level, frozen set, message, all received floats, all previous contents of the objects", "why_tests_cant": "ranges over all floats (rounding, overflow, NaN) at every position of codes with up to 2^20 symbols", "anchors": ["polar_helper.hh: PolarHelper<TYPE>, PolarHelper<SIMD<VALUE, WIDTH>>", "polar_encoder.hh: PolarEncoder, PolarSysEnc", "polar_decoder.hh: PolarDecoder"]}
{"id": "C65", "title": "Quantization of soft values", "statement": "PolarHelper<int8_t>::quant gives, for every finite float, the integer in -127..127 nearest to the value limited to that range, the even one of two equally near ones; infinities give -127 and 127; it is monotone and odd.  (NaN must not be passed: its conversion is undefined.)", "quantifier": "every floating point value", "why_tests_cant": "2^64 values, monotonicity over all pairs", "anchors": ["polar_helper.hh: PolarHelper<int8_t>::quant"]}
{"id": "C66", "title": "Guaranteed error correction of Hadamard and simplex codes", "statement": "Two different codewords of HadamardEncoder<K> differ in exactly 2^(K-2) positions, or in all when only the sign bit differs; two different codewords of SimplexEncoder<K> in exactly 2^(K-1).  HadamardDecoder/SimplexDecoder return the encoded message whenever 2*errors+erasures (hard decisions of any one amplitude, zeros as erasures) is below that distance, and more generally whenever soft values of magnitude up to g fall short of full amplitude by a total below g times the distance.", "quantifier": "every K (2..24, 2..23), pair of messages, and received word", "why_tests_cant": "all messages times all error patterns", "anchors": ["hadamard_encoder.hh: HadamardEncoder", "hadamard_decoder.hh: HadamardDecoder", "simplex_encoder.hh: SimplexEncoder", "simplex_decoder.hh: SimplexDecoder"]}
{"id": "C67", "title": "Errors a CRC is guaranteed to reveal", "statement": "Let two bit streams of equal length be fed into CRC objects with the same polynomial and start value. If the polynomial has an odd number of one bits, the registers differ whenever the streams differ in an odd number of bits. Two flipped bits d positions apart go unnoticed exactly when feeding a one and d-1 zeros into a zero register leaves 1, independent of message, position and start value. For the polynomials of the library's tests the smallest such d is 4294967295 (0xEDB88320), 65534 (0xC8DF352F), 65537 (0xD419CC15), 64897 (0xA8F4), 127 (0x8C), exactly; so 0xC8DF352F (0x8C) reveal every error of up to three bits in at most 65534 (127) bits.", "quantifier": "every message, length, start value and error position; the first two over every width >= 8 and polynomial", "why_tests_cant": "all messages times all error positions, up to 2^32 bits apart", "anchors": ["crc.hh: CRC::operator()(bool)", "tests/crc_test.cc: the polynomials", "tests/polar_list_regression_test.cc: 0xD419CC15"]}
{"id": "C68", "title": "Short BCH codes of the tests, Golay perfection, and reach of soft decoding", "statement": "The four codes of the regression tests (two Golay codes (23,12), BCH(15,5), BCH(31,16)) have minimum distance at least 7, so with T=3 every encoded message survives every pattern of up to three flipped bits. With the Golay codes the hard decision decoder never returns -1: every 23 bit word has exactly one codeword within three bits and that is returned. For K > 4 the soft decision decoder returns the unique most likely codeword whenever flipping some subset of the weak positions (the T smallest magnitudes, excluding those stronger than position 0) brings the hard decision within T bits of it; the exclusion is needed: a word exists whose three weakest positions include position 0 for which the decoder misses the most likely codeword although flipping two of the other weakest would have found it.", "quantifier": "every message, error pattern, received word and soft word; the last over every N, K, G, T accepted by the header with distance 2T+1", "why_tests_cant": "all messages times all error patterns and all soft words", "anchors": ["short_bch_code_decoder.hh: ShortBCHCodeDecoder::operator()", "short_bch_code_encoder.hh: ShortBCHCodeEncoder", "tests/short_bch_code_regression_test.cc"]}
{"id": "C69", "title": "Errors ordered statistics decoding is guaranteed to correct", "statement": "If one codeword correlates strictly better with the soft values than every other codeword of the whole code, its correlation is not negative, and it differs from the hard decisions in at most min(O,6) positions of the most reliable basis, OrderedStatisticsDecoder returns it and reports it as unique, and OrderedStatisticsListDecoder returns it first. This covers: noiseless words at every order; soft values of amplitude at most A whose total shortfall from the ideal is below A times the minimum distance; hard decisions of one amplitude with fewer than half the minimum distance errors. For the matrices generated from BCH generator polynomials with NR consecutive roots the minimum distance is at least NR+1. A generator matrix without full rank makes both decoders fail an assertion for all soft values.", "quantifier": "every N, K, order, list size, decoder object content, generator matrix, codeword and soft word", "why_tests_cant": "all codes, noise patterns and previous contents", "anchors": ["osd.hh: OrderedStatisticsDecoder", "osd.hh: OrderedStatisticsListDecoder", "osd.hh: BoseChaudhuriHocquenghemGenerator"]}
{"id": "C70", "title": "Floating point SIMD lanes agree between back ends and portable code", "statement": "For float and double lanes, any number of registers and all bit patterns: the SSE4.1, AVX2 and NEON versions of vadd, vsub, vmul give the correctly rounded IEEE results, vabs and vcopysign are exact on the bits (NaNs included), the comparisons give the masks of the portable loops, vdup, vzero and the AVX2 float vshuf move the values unchanged. vsignum is -1, +0 or 1 after the sign of the number and differs from the portable loop only on NaN (which yields the sign of the NaN's sign bit instead of 0). vsign keeps, negates or clears its first operand and gives the portable number unless the second operand is NaN, or it is zero and the first one infinite or NaN. vmin, vmax and vclamp give the portable number in every lane without NaN, up to the sign of a zero; the portable ones are the smaller number, the larger number and the nearest number of the interval.", "quantifier": "every IEEE format (float, double), every number of registers, all lane bit patterns, every choice of NaN payloads by the arithmetic instructions", "why_tests_cant": "2^64 pairs of floats per operation; the differences sit at NaNs, infinities, signed zeros and subnormals, which tests with ordinary values miss", "anchors": ["simd.hh: vneg, vabs, vcgtz, vceqz, vcltz, vclez, vcgt, vceq, vmin, vmax, vclamp, vadd, vsub, vmul, vsignum, vsign, vcopysign, vshuf for float and double", "sse4_1.hh, avx2.hh, neon.hh: SIMD<float, ...>, SIMD<double, ...>"]}
{"id": "C71", "title": "Polar coding on float and double vectors gives the scalar results in every lane on every back end", "statement": "PolarEncoder, PolarSysEnc and PolarDecoder instantiated with SIMD<float, WIDTH> or SIMD<double, WIDTH> and compiled with the SSE4.1, AVX2 or NEON specializations compute, in every lane, bit for bit what the scalar float/double instance of the portable code computes on the numbers of that lane: the encoders for every content of the buffers, the decoder whenever the received numbers are finite and far enough below the largest number that 2^level of them can be added. In particular the lanes never influence each other and the differing treatments of signed zeros, NaN and equal magnitudes by the instruction sets are not observable.", "quantifier": "for both formats, both register widths, every number of registers per vector, every frozen set, level, buffer content and previous content of the decoder's state, every finite received word below the bound, every lane and every NaN payload the hardware may return", "why_tests_cant": "the space of float vectors and frozen sets is unbounded, and a test on one machine exercises one instruction set", "anchors": ["polar_helper.hh: PolarHelper<SIMD<VALUE, WIDTH>>", "polar_decoder.hh: PolarDecoder", "polar_encoder.hh: PolarEncoder, PolarSysEnc", "sse4_1.hh, avx2.hh, neon.hh: SIMD<float>, SIMD<double>"]}
{"id": "C72", "title": "The polar list decoders with float or double lanes keep real, distinct, correctly ranked paths", "statement": "PolarListDecoder and PolarParityDecoder instantiated with SIMD<float, W> or SIMD<double, W> (generic simd.hh): for every received word, NaNs and infinities included, every lane of the message output consists of +1.0 and -1.0 only, the corresponding lane of the hard values is the codeword of that message, the metric is that of the path (with IEEE rounding at every step), the rank array counts the changes of the metric, lanes that descend from the one real start path carry different messages, and only K message vectors and W ranks are written. If the received values are finite and small enough not to overflow, the metrics are ordered when the last position is not frozen; if moreover no message costs 1000000 or more, exactly the first 2^K lanes are real, so a list that is large enough contains every message and lane 0 has the least metric. Received values with the signs of a codeword put its message in lane 0 with rank 0 and all other lanes at larger rank. The parity aided decoder gives lanes below 1000000 that obey the parity symbols. A code without message symbols is undefined behaviour and other levels fail an assertion. With values of the order of 10^6 the list degenerates: the lanes that never were real paths crowd out the real ones.", "quantifier": "for every binary floating point format, every list length W whose lane numbers fit a map lane, every level from 5 to MAX_M <= 16, every frozen set, every stride and first, every received word and every previous content of the decoder's arrays", "why_tests_cant": "the received words, frozen sets and list lengths are unbounded, and rounding, ties, NaN and the fixed penalty of 1000000 only matter on rare inputs", "anchors": ["polar_list_decoder.hh: PolarListDecoder, PolarListTree, PolarListNode", "polar_parity_aided.hh: PolarParityEncoder, PolarParityDecoder, PolarParityTree, PolarParityNode", "polar_helper.hh: PolarHelper<SIMD<VALUE, WIDTH>>"]}
{"id": "C73", "title": "Random number generators: range, seeding and equidistribution of consecutive results", "statement": "Every result of Xorshift32, Xorshift64, Xorwow and Xorshift128 is between min() and max(), for every seed; reset with any arguments gives the object the constructor gives for them, and without arguments the published sequences. From any non-zero seed, within one period every non-zero value is returned exactly once (Xorshift32, Xorshift64), every four consecutive results other than four zeros occur exactly once (Xorshift128), and every five consecutive results together with the value of the counter occur exactly once, except the five next counter values themselves (Xorwow).", "quantifier": "all seeds and arguments, all positions in the sequence, all windows of results", "why_tests_cant": "The periods are 2^32 - 1 to (2^160 - 1) 2^32 long; equidistribution quantifies over all windows.", "anchors": ["xorshift.hh: Xorshift32, Xorshift64, Xorwow, Xorshift128: constructors, reset, min, max, operator()"]}
{"id": "C74", "title": "Erasure coding of untyped memory returns the same bytes", "statement": "The encode and decode overloads on void pointers treat memory as values of the field's type in the byte order of the machine: for any number of blocks, any block length in bytes that is a multiple of the size of the type, and any different admissible identifiers, decoding the encoded blocks gives back every byte of the data, whatever the buffers held before; a single decode writes exactly the bytes of its block. Fields that fill their type (8 bits in uint8_t, 16 bits in uint16_t) accept any bytes. Other block lengths are refused by an assertion before anything is written.", "quantifier": "all fields, byte orders, instruction sets and alignments, all data, identifiers, block lengths and counts, all previous buffer contents", "why_tests_cant": "The regression test tries random block counts with one length and random bytes; the claim ranges over all data, identifier sets, lengths and machine byte orders.", "anchors": ["cauchy_reed_solomon_erasure_coding.hh: CauchyReedSolomonErasureCoding::encode, decode (value_type and void overloads), vqtbl1q_u8"]}
{"id": "C75", "title": "The LDPC tables of the repository work with encoder and decoder", "statement": "Each of the four DVB-T2 tables in the repository (A1, A3, A6, B7) meets the requirements of LDPCEncoder and LDPCDecoder for both word sizes (15, and 30 with AVX2): with each of them the parity computed for any data satisfies every check, and the decoder stays within its arrays, terminates for every soft input and reports success exactly when its output satisfies every check. With A1, A3 and A6 and word size 15 a decoder that has been used for any sequence of calls gives the same results as a new one; the structural reason (no check has two data links in one word) fails for B7 and, with word size 30, for all four.", "quantifier": "the four tables, both word sizes, all data, all soft inputs, all trial counts, every way of sorting equal words, every history of calls", "why_tests_cant": "the test runs one table on random noise; it samples neither the data, the noise nor the histories", "anchors": ["tests/ldpc_regression_test.cc: DVB_T2_TABLE_A1, DVB_T2_TABLE_A3, DVB_T2_TABLE_A6, DVB_T2_TABLE_B7", "ldpc_encoder.hh: LDPCEncoder", "ldpc_decoder.hh: LDPCDecoder"]}
{"id": "C76", "title": "Polar decoding errors do not depend on the codeword", "statement": "If the soft values given to PolarDecoder are multiplied, place by place, by the symbols of a codeword of PolarEncoder, then the decoded message is multiplied, place by place, by the symbols of that codeword's message: wrongly decoded and undecided (zero) symbols are at the same places whatever message was sent, and a message is recovered exactly if the all ones message would be, through the same noise. Holds for int8_t values from -127 to 127 (those the quantizer produces), for float and double (NaNs and infinities included, up to the sign of zeros), and lane by lane for SIMD values, each lane with its own message.", "quantifier": "all levels, frozen sets, messages, received values, lanes and contents of the decoder object", "why_tests_cant": "simulations send random codewords and assume the error rate does not depend on them; that is a statement about all codewords and all noise", "anchors": ["polar_decoder.hh: PolarDecoder, PolarTree", "polar_encoder.hh: PolarEncoder", "polar_helper.hh: PolarHelper"]}
{"id": "C77", "title": "Ordered statistics decoding errors depend neither on the codeword nor on the object", "statement": "Let a binary generator matrix of full rank be given and let c be any codeword. If the soft values of a second decoding are those of a first with the signs changed wherever c is one (as if c had been sent over the same channel instead of the zero word; -128 counts as -127) and no value is zero where c is one, then OrderedStatisticsDecoder returns the same flag in both and the second decoded word is the first plus c; hence c is found exactly when the zero word would have been found. OrderedStatisticsListDecoder returns the same ranks and every filled list entry is turned by c. The two runs may use different decoder objects with any earlier contents, and any earlier contents of the output arrays.", "quantifier": "all code sizes N up to 32768 and K from 1 to N, all orders and list lengths, all full-rank binary generator matrices, all codewords, all int8 soft values, all contents of the objects and output buffers", "why_tests_cant": "Tests commonly simulate the zero word only and rely on this symmetry; it involves the sorting, the elimination with column swaps, the tie breaking of the search and the insertion into the list, for every matrix and every noise.", "anchors": ["osd.hh: OrderedStatisticsDecoder::operator()", "osd.hh: OrderedStatisticsListDecoder::operator()", "sort.hh: MergeSort"]}
{"id": "C78", "title": "Algebraic decoding errors do not depend on the codeword", "statement": "Let two codewords be sent and hit by the same errors, with the same positions declared erased. Then the Reed-Solomon decoder, the packed BCH decoder and the reference BCH decoder return the same result for both, make the same changes to the caller's erasure list, and leave the same errors: the two decoded words differ from the two sent codewords by the same residue. This holds for every error word: within the correction capability, beyond it, refused or decoded to a wrong word.", "quantifier": "all fields, numbers of roots, first roots, shortenings, codewords, error words, erasure lists (also repeated positions), contents of the buffers beyond the code", "why_tests_cant": "Simulations that send only the zero word, or reuse one codeword for many noise patterns, rely on this for every codeword and every noise, in particular for the noise beyond the guaranteed capability, where no other property says what the decoder does.", "anchors": ["reed_solomon_decoder.hh: ReedSolomonDecoder::operator()", "bose_chaudhuri_hocquenghem_decoder.hh: BoseChaudhuriHocquenghemDecoder::operator(), BoseChaudhuriHocquenghemDecoderReference::operator()", "reed_solomon_error_correction.hh"]}
{"id": "C79", "title": "Short BCH, Hadamard and simplex decoding errors do not depend on the codeword", "statement": "Adding a codeword to the received word (changing the signs of the soft values where the codeword is one, no -128 among them) adds that codeword, or its message, to the answer and keeps the answer -1: for ShortBCHCodeDecoder with hard decisions and every received word, for its soft decoding with K up to 4, and for the Hadamard and simplex decoders. For the soft short BCH decoder with K above 4 the same holds when no value is zero where the codeword is one and the word found by the hard decisions is at least as likely as the zero word and as the added codeword; otherwise it may fail, because candidates are compared with the metrics -1 and -2 of no word.", "quantifier": "all code parameters and generators the headers accept, all codewords, all received words and int8 soft values", "why_tests_cant": "Performance simulations with one codeword rely on the symmetry for all codewords and all noise; it covers ties, refusals and wrong answers, where no other property says what the decoder does, and an exception is rare in random tests.", "anchors": ["short_bch_code_decoder.hh: ShortBCHCodeDecoder::operator()", "hadamard_decoder.hh: HadamardDecoder::operator()", "simplex_decoder.hh: SimplexDecoder::operator()"]}
{"id": "C80", "title": "Field objects may be destroyed and made again; the operators see the same tables in every life", "statement": "GaloisField objects of one type share static tables. In every history of constructions, destructions and expressions over field elements which ends normally at most one object lives at a time; constructing a second one while the first lives, and destroying twice, stop the program at an assertion. Whenever an object lives, every expression has the same value or the same failure as with the first object ever made, no matter how often objects were made and destroyed before. Without an object, sums, differences, comparisons and the operators of indices give the values they give with an object, a product with a zero factor and its sum are right as well, and all that needs the tables stops at an assertion instead of reading stale or null memory.", "quantifier": "all histories of constructions, destructions and uses, all expressions, all field sizes and all polynomials", "why_tests_cant": "Tests make one object per program; the shared mutable statics matter for the order of lives of objects, of which there are infinitely many.", "anchors": ["galois_field.hh: GF::Tables, GaloisField::GaloisField, GaloisField::Tables", "galois_field.hh: GF::Value, GF::Index operators"]}
{"id": "C81", "title": "Minimum distance of polar codes", "statement": "Two messages whose first different symbol is carried by position i give polar codewords which differ in at least 2^w places, w the number of one bits of i, and in exactly 2^w when no other symbol differs. So when all unfrozen positions have at least w one bits, codewords of different messages differ in at least 2^w places, a word with less than half as many wrong signs is nearer to the codeword sent than to all others, and for every unfrozen position there is a codeword at distance exactly 2^w. The same bound holds for the systematic encoder, with closed frozen sets, and for the parity aided encoder, where only the positions of message symbols count.", "quantifier": "all levels 1 to 30, all frozen sets, all pairs of messages, all buffers", "why_tests_cant": "The number of pairs of messages is 4^K; the distance of the code bounds what any decoder can correct and which undetected errors can happen.", "anchors": ["polar_encoder.hh: PolarEncoder, PolarSysEnc", "polar_parity_aided.hh: PolarParityEncoder"]}
{"id": "C82", "title": "Interleaved Reed-Solomon words survive bursts", "statement": "ORDER Reed-Solomon codewords of n symbols, put one after the other, interleaved with ORDER, changed arbitrarily in at most ORDER*(NR/2) consecutive symbols anywhere, and deinterleaved again are all restored by the decoder without any knowledge of the burst, each with the number of its wrong symbols as result; when the place of the burst is known and declared as erasures, ORDER*NR consecutive symbols may be lost. (Fields in which the pair of C55 exists are excluded.)", "quantifier": "all fields without that pair, all code parameters, ORDERs, codewords, burst positions and contents", "why_tests_cant": "The tests of the interleaver only check that it is undone; that its direction and order spread a burst over the words is what it is for, and a wrong order would still be undone.", "anchors": ["interleave.hh: Interleave, Deinterleave", "reed_solomon_decoder.hh: ReedSolomonDecoder::operator()"]}
{"id": "C83", "title": "Polar codes on the erasure channel: the construction's probabilities are the decoder's", "statement": "From a polar codeword of which some places are erased (soft value 0) and the others have the right sign, the decoder writes for every symbol the right one or 0, never a wrong one; it recovers the whole message exactly when no unfrozen position is ambiguous (undetermined by what is not erased even when all earlier symbols are known). When each place is erased independently with probability pe, a position is ambiguous with exactly the probability PolarFreezer, PolarCodeConst0 and PolarSeqConst0 compute for it (exact arithmetic). So the probability that the decoder does not recover the message is at most the sum of these over the unfrozen positions and at least each one; with PolarFreezer it is at most the returned K times the threshold, and PolarCodeConst0's choice makes the sum least among all sets of K positions.", "quantifier": "all levels the decoder accepts, frozen sets, messages, erasure patterns, magnitudes, erasure probabilities and thresholds", "why_tests_cant": "The tests simulate a few thousand noisy words; that the numbers of the construction are the decoder's failure probabilities is a statement about all 2^(2^level) patterns.", "anchors": ["polar_decoder.hh: PolarDecoder", "polar_encoder.hh: PolarEncoder", "polar_freezer.hh: PolarFreezer, PolarCodeConst0"]}
{"id": "C84", "title": "The constructions of polar codes agree and are nested", "statement": "PolarFreezer and PolarCodeConst0 called with the number of positions the former left unfrozen give the same frozen set, for every probability and threshold (doubles, ties and NaN included) and every std::nth_element. A larger threshold unfreezes a superset. When no two positions have the same computed probability, PolarCodeConst0's set does not depend on the implementation of std::nth_element nor on the object and arrays used, the set for K1 <= K2 positions is contained in that for K2, and it is the last K entries of PolarSeqConst0's sequence. With ties different implementations may choose differently.", "quantifier": "all levels, probabilities, thresholds, numbers of positions, implementations of std::nth_element and std::sort", "why_tests_cant": "A sender using one construction and a receiver using another (or another standard library) must get the same code for all parameters; the tests use one construction with one library.", "anchors": ["polar_freezer.hh: PolarFreezer, PolarCodeConst0", "polar_sequence.hh: PolarSeqConst0"]}
{"id": "C85", "title": "Errors and erasures a complete polar list is guaranteed to correct", "statement": "With a list of at least 2^K lanes for K message symbols and received 8 bit values that cannot saturate (magnitudes adding up to at most 127), the polar list decoder recovers the message in lane 0 (and its codeword in the hard values) whenever the sent codeword contradicts the received values by less than half of lo*(2^w - number of values weaker than lo), where every unfrozen position has at least w one bits in its index and lo is any strength. In particular values of one magnitude with e wrong signs and f erasures are corrected when 2e+f < 2^w; the bound is sharp. The same holds behind the systematic encoder and for the parity aided decoder, where only the positions of message symbols count.", "quantifier": "all levels up to 12, frozen sets whose last position is unfrozen, messages, received values, error and erasure patterns, list sizes, back ends, buffer contents", "why_tests_cant": "Error patterns are exponentially many; the tests add random noise and only look at the frame error rate.", "anchors": ["polar_list_decoder.hh: PolarListDecoder::operator()", "polar_parity_aided.hh: PolarParityDecoder", "polar_encoder.hh: PolarEncoder, PolarSysEnc"]}
{"id": "C86", "title": "List decoding with float and double lanes is the same on every SIMD back end", "statement": "For finite received values so small that no soft value can overflow, PolarListDecoder and PolarParityDecoder on SIMD<float> and SIMD<double> vectors of SSE4.1, AVX2 (with its own shuffles of 32 bit lanes) and NEON, single or multi register, end whenever the decoder with the loops of simd.hh on the same lanes ends, with bit for bit the same numbers in every lane of the soft and hard values and of the output message, and the same maps and ranks, whatever the arrays contained before and whichever NaNs the arithmetic returns. So on every back end each output lane is a message of +1.0 and -1.0 with its codeword and its path metric, different real lanes carry different messages, metrics are in order, a complete list contains every message with one of least metric in lane 0, and lanes below the penalty obey the parity checks.", "quantifier": "all float and double formats, register widths and counts, list sizes, levels, frozen sets, parity strides, moderate received values, NaN conventions, buffer contents", "why_tests_cant": "The tests compare frame error rates on one back end; equality of the lanes must hold for all inputs, and stale NaNs in the buffers, signed zeros and NaN dependent minima are not hit by random tests.", "anchors": ["polar_list_decoder.hh: PolarListDecoder::operator()", "polar_parity_aided.hh: PolarParityDecoder::operator()", "polar_helper.hh: PolarHelper<SIMD<VALUE, WIDTH>>", "sse4_1.hh, avx2.hh, avx2_double.hh, neon.hh: float and double lanes, vshuf", "simd.hh: vshuf"]}
{"id": "C87", "title": "The reliability table of the tests gives nested, almost always systematic polar codes of known distance", "statement": "The 1024 entries of tests/sequence.h list every position once. Freezing the first n of them the way the list decoder's regression test does freezes exactly these n positions whatever the words held before, and the codes for different n are nested. For n = 0 and 26 <= n <= 1024 the unfrozen positions are closed in the domination order, so PolarSysEnc leaves the message at the unfrozen positions; for each n from 1 to 25 it does not: there is a message which the systematic codeword does not show. For every n < 1024 codewords of different messages differ in at least 2^w places, w growing from 0 to 10 with n (3 for the test's n = 308, 1024 - 716), and every message has a neighbour at exactly that distance.", "quantifier": "every number of frozen positions 0..1024, every content of the words, every message", "why_tests_cant": "The regression test uses the table with one n and random messages without the systematic switch; that the codes are systematic from 26 on and what distance they have is about all n and all messages.", "anchors": ["tests/sequence.h: sequence", "tests/polar_list_regression_test.cc: main (freezing)", "polar_encoder.hh: PolarSysEnc, PolarEncoder"]}
{"id": "C88", "title": "CRC aided list decoding returns the data, or data that fits its CRC, or an error", "statement": "The message the list decoder's regression test builds is the data followed by the bits of its CRC, lowest first, whatever the CRC object held. After PolarListDecoder or PolarParityDecoder the test picks the first lane whose bits leave the CRC register at zero and flags an error exactly if no lane does. For every received word an unflagged result is some data followed by the CRC of that data; a sent message which is among the lanes is found unless an earlier lane passes too, and a lane different from it only within a window of at most w symbols (w the CRC's width) never passes. Received values with the right signs give back the data from lane 0 without an error, with and without parity symbols.", "quantifier": "all CRC widths and polynomials, data, frozen sets, parity strides, list sizes, received values, back ends, buffer contents", "why_tests_cant": "The regression test counts frame errors on random data at some noise levels; undetected wrong frames and dependence on earlier contents are too rare to be seen there.", "anchors": ["tests/polar_list_regression_test.cc: main (CRC, selection)", "crc.hh: CRC", "polar_list_decoder.hh: PolarListDecoder", "polar_parity_aided.hh: PolarParityEncoder, PolarParityDecoder"]}
{"id": "C89", "title": "A list of one is successive cancellation", "statement": "With a list size of one PolarListDecoder decodes any received values above -128 exactly as plain successive cancellation does: each message symbol is the sign of the value the preceding decisions leave for it, a tie being decided as 1 (never 0); PolarParityDecoder does the same with each parity symbol set to the product of the message symbols since the preceding one whatever its value (up to level 12). The rank is 0, and only the message symbols and one rank are written. Hence it gives the message and the codeword PolarDecoder gives, unless PolarDecoder's message contains a tie (a zero).", "quantifier": "all received values above -128, frozen sets with a message symbol, levels, parity strides, back ends, contents of the objects' arrays and buffers", "why_tests_cant": "Sorting, forking, lane maps and the unrolling of decisions at the end must together leave exactly the greedy path for every input; the tests only count frame errors with longer lists.", "anchors": ["polar_list_decoder.hh: PolarListDecoder, PolarListTree, PolarListNode", "polar_parity_aided.hh: PolarParityDecoder", "polar_decoder.hh: PolarDecoder"]}
{"id": "C90", "title": "Systematic polar coding from sender to receiver", "statement": "The chain of the regression test (PolarSysEnc at the sender; PolarDecoder, PolarEncoder on what it put out, and the symbols at the unfrozen positions of the result at the receiver) with an upwards closed frozen set: from values with the signs of the sent codeword and any non-zero magnitudes it gives the data; from any values it gives the data part of the codeword of the decoder's message, and when the decoder left no symbol undecided the re-encoding reproduces the word the decoder already holds, the one of plain successive cancellation; a data symbol stays undecided exactly when some undecided message symbol sits at a position whose bits include those of its own; wrong and undecided data symbols are at the same places whatever the data, so the data are recovered exactly when the chain gives all ones on the noise alone.", "quantifier": "all levels, upwards closed frozen sets, data, received values (above -128 where data are exchanged), contents of the objects' arrays and buffers", "why_tests_cant": "The test runs one level and one construction with random data and noise and only counts errors; the claims are for every word of values and every closed set.", "anchors": ["tests/polar_regression_test.cc: main", "polar_encoder.hh: PolarSysEnc, PolarEncoder", "polar_decoder.hh: PolarDecoder"]}
{"id": "C91", "title": "Systematic polar coding with a list decoder, from sender to receiver", "statement": "The systematic path of the list regression test (PolarSysEnc at the sender; PolarListDecoder, PolarEncoder on all lanes of what it put out, and the symbols at the unfrozen positions at the receiver). From any values each lane of the re-encoded word is the codeword the decoder already holds for that lane and each lane of the result is its data part; with an upwards closed frozen set PolarSysEnc makes that codeword from that result, and lanes with different messages give different results. From values with the signs of the sent codeword (any non-zero magnitudes) lane 0 gives the data and only lane 0 has rank 0. With the CRC of the test: without noise lane 0 is chosen, without error, and it carries the data; from any values the chosen lane is data followed by the CRC of that data, and the error flag means that no lane passes.", "quantifier": "all levels, list sizes, both SIMD back ends, frozen sets (closed where PolarSysEnc is involved), data, received values, CRCs of at least 8 bits, contents of the objects' arrays and buffers", "why_tests_cant": "The test runs one code with random data and noise and counts errors; that re-encoding and extraction give the data part of every lane, for every word of values, is not something counting can show.", "anchors": ["tests/polar_list_regression_test.cc: main", "polar_list_decoder.hh: PolarListDecoder", "polar_encoder.hh: PolarSysEnc, PolarEncoder", "crc.hh: CRC"]}
{"id": "C92", "title": "LDPC decoder: errors do not depend on the codeword while nothing saturates", "statement": "Let decoding some soft values with the LDPC decoder saturate nowhere. Then for every codeword, decoding the values turned by the codeword's signs gives exactly the turned output, with the same result (remaining trials), so which bits are wrong depends on the noise alone and the all-zero word may stand for all. (When something saturates this fails: 8 bit values reach -128 but only +127; proved on a concrete table.)", "quantifier": "all tables accepted by the decoder, word sizes, ways of sorting links, codewords, soft inputs, trial counts and objects after any history with the same write masks", "why_tests_cant": "The regression tests measure error rates with random codewords; that the error pattern is independent of the codeword is a statement about all pairs of codeword and noise, which is what makes such measurements meaningful.", "anchors": ["ldpc_decoder.hh: LDPCDecoder::update, bad, operator()"]}
