# Formal model of aicodix/code in Rocq (Coq 8.16.1)

## 1. Layout

* `rocq/theories/Cpp.v` – the execution model: result type with *distinct* outcomes
  for normal results, failed `assert`, undefined behaviour (out-of-bounds access,
  read of an uninitialised element, signed overflow, bad shift) and exhausted loop fuel;
  array reads/writes; loop combinators; generic loop rules.
* `rocq/theories/Model_*.v` – one file per group of headers.  Only definitions, every one
  cites the file and lines of `/repo` it models.  No proofs.
* `rocq/theories/Spec_*.v` – small independent specifications (what the user relies on),
  not using the model's helpers.
* `rocq/theories/Proof_*.v` – lemmas.
* `rocq/theories/Prop_*.v` – the property theorems, each closed by `exact`, with a concrete
  non-vacuity `Example` beside it and `Print Assumptions` beneath it.

## 2. Modelling conventions

* `uintW_t` values are `N` below `2^W`; every store into such a variable is wrapped
  explicitly (`mod 2^W`).  `int` values are `Z` (or `nat` for loop indices that the code keeps
  non-negative); where the code can overflow an `int` the model returns `Undef`.
* An array is a list; reading or writing outside it gives `Undef`.  A function writing through
  a pointer returns the new array.  Uninitialised local arrays are lists of `option`; reading
  `None` gives `Undef`.
* `assert(c)` gives `Abort` when `c` is false (the code is modelled as compiled without NDEBUG).
* `for` loops are the combinators of `Cpp.v`; `while` loops take explicit fuel and return `Fuel`
  when it runs out; theorems state results equal `Ok ...`, so they include termination,
  memory safety and absence of assertion failures.
* Templates parameters are ordinary parameters of the model; `static_assert`s are hypotheses.

## 3. Plan per property

| id | model | proof |
|----|-------|-------|
| C01,C02 | Model_bits: bitman.hh on `list N` | bit-extensionality (`N.bits_inj`) |
| C03,C04 | Model_bits: Bitstream as record (buf,pos), op type, step | refinement to a `nat -> bool` bit array, induction over histories |
| C05,C06 | Model_crc: table constructor, bit/byte/word updates at any width | byte = 8 bit steps for every register by linearity; residue, burst by injectivity of the step |
| C07–C10 | Model_xorshift | step is GF(2)-linear; exact period from matrix powers (`vm_compute`), invertibility of `T^(n/p)-1` for each prime p of n, primality of the factors (Lib_prime, Lib_orbit, Lib_gf2lin) |
| C11 | Model_mls | loop analysis of `bad`, counting argument on the orbit |
| C12–C16 | Model_perm | loop invariants, pointwise index equations |
| C17–C19 | Model_sort | loop invariants; stability through an index-tagged order |
| C20–C22 | Model_gf | table invariants; carry-less polynomial arithmetic over `N`; field laws (Lib_gf, Lib_field: an own record of field operations and laws) |
| C23 | Model_pf | modular arithmetic over `N`, Fermat's little theorem |
| C24–C26 | Model_crs, Model_cpf | Cauchy inverse over the abstract field record, transported to the tables; overflow bounds for delayed reduction |
| C27,C28 | Model_wht | fast Walsh–Hadamard loop invariant, arg-max loop invariant |
| C29–C31 | Model_sbch | polynomial division over `N`, table invariants |
| C32–C35, C55 | Model_rs | own polynomials over the field record (Lib_poly, Lib_rs): generator, remainder, Berlekamp–Massey with erasures, Chien, Forney |
| C36,C37 | Model_bch | bit LFSR = polynomial remainder; reduction to the RS algorithm |
| C38,C39,C56–C58 | Model_ldpc | index arithmetic of the quasi-cyclic structure; the decoder's layer update refined to one min-sum step per check node; histories of calls |
| C40–C43, C59 | Model_polar | structural recursion on the level, each specialised node refined to the leafwise decoder |
| C44–C46 | Model_polar_list | path-consistency invariant: every lane carries the metric of its own path |
| C47,C48,C60 | Model_polar_const | over an abstract arithmetic satisfying named laws, instantiated with exact rationals and with IEEE binary64 (`Floats.SpecFloat`) |
| C49–C52, C61 | Model_osd | Gaussian elimination invariants, exhaustive search invariant |
| C62 | Model_rs, Model_bch | Vandermonde uniqueness on the differing positions (Proof_rs7), composed with the encoders |
| C63 | Model_mls | linearity of the register step and transitivity on non-zero states (Lib_orbit, Proof_mls); counting |
| C64 | Model_polar_float | the decoder over any operations that act on signs as expected (Proof_polarf1), instantiated by facts about IEEE rounding (Lib_float): a sum of two numbers of one sign keeps the sign, products with +1, -1 are exact; encoders by simulation of the 8 bit ones |
| C65 | Model_polar_float | integer division, ties; exact values as rationals |
| C66 | Model_wht | orthogonality of the Walsh functions gives the distances; a correlation argument on top of C27, C28 |
| C67 | Model_crc | parity invariant of the register; exact period of the linear register map by the order-of-x certificate (prime factors) of Lib_gf2lin/Lib_orbit |
| C68 | Model_sbch, Spec_chase | exhaustive kernel computation over the codewords for the distances; invariant of the insertion list worst[] and of the best/next update |
| C69 | Model_osd, Spec_osd2 | from the exact search set of C51/C52, inequalities between correlations, and a separate invariant of Gaussian elimination that ends in Abort when the rank is too small |
| C70 | Model_fsimd.v: registers as integers, lanes read as IEEE interchange formats (Spec_ieee.v: sign, exponent and mantissa fields to Floats.SpecFloat), the float intrinsics after their documentation, the back end functions over lists of registers, the portable loops on numbers; NaN payloads are a parameter. | Decoding and encoding of bit patterns are inverse and only valid numbers occur (Proof_ieee.v); sums, differences and products of valid numbers are valid, underflow included (Lib_float2.v); bit tricks on the sign bit are read back as operations on numbers; trichotomy of SFcompare for the order operations (Prop_fsimd.v). |
| C71 | Model_fsimd.v opsf_x86 and opsf_neon: the PolarHelper operations on lists of registers, through the modelled intrinsics on bit patterns; the encoders and decoder are those of Model_polar.v | Proof_fsimd2.v: a homomorphism with a magnitude bound that depends on the level, because the minimum only agrees on absolute values and signum only away from NaN; Prop_fsimd2.v instantiates it and composes with the per-lane result of C64 |
| C72 | Model_polar_listf.v: both decoders again, text by text, on lists of IEEE numbers (Coq's SpecFloat), with the insertion sort of Model_sort.v | Proof_plf1-4.v: the imperative decoder equals a recursive function gnode on states; Proof_plf5-8.v: invariants of gnode parametrised by what is known of the numbers (nothing, or bounded and not NaN), giving lane meaning, distinctness, order, the number of real lanes and the noiseless case; Proof_plf9.v: the parity encoder by simulation of the 8 bit one; Lib_float3.v: rounding is monotone from above |
| C73 | Model_xorshift (constructors, reset, min, max added) | the cycle theorems C07-C10; the members of Xorshift128 are its last four results; for Xorwow the Chinese remainder theorem joins the cycle of the five words with that of the counter |
| C74 | Model_crs_bytes on top of Model_crs (which gained the 32 bit NEON back end) | bytes and objects are inverse to each other; each call on memory follows the call on values, then C24 |
| C75 | Model_dvb (the tables' data), Model_ldpc | a checker on binary numbers, proved sound for Spec_ldpc's table_ok/decoder_ok, evaluated by the kernel on the four tables; then C38, C39, C58; histories by induction over calls |
| C76 | Model_polar, Model_polar_float | a relation 'turned by the sign s' between the values of two runs is preserved by signum, qmul, prod and madd (saturation and rounding are symmetric), hence by every subtree (induction over the tree) |
| C77 | Model_osd (osd_decode, osdl_decode), Model_sort; nothing new is modelled. | Two-run simulation: equal magnitudes give the same order (uniqueness of the sorted permutation), hence the same reduced matrix and column order whatever the object held; the first words differ by the codeword because the reduced matrix is systematic; the metrics are then equal and the search, the updates and the insertion into the list take the same branches. Spec: turned_by in Prop_osd_sym. |
| C78 | Model_rs (rs_decode), Model_bch (bch_decode with bch_packed and bch_reference); nothing new | The syndromes of a codeword are zero and the syndrome is linear, so both runs compute the same syndrome values (Proof_rs2.syndromes_ok and injectivity of the value map) and hence run the same correction; the application of the corrections is followed in lockstep (Proof_osd_sym.rel_for_up). The bit decoders are reduced to the symbol decoder by the simulation of C37. |
| C79 | Model_sbch (sb_hard, sb_soft), Model_wht (had_decode, spx_decode); nothing new | Hard decisions: the syndrome of a codeword is zero, so both lookups hit the same table entry. Exact maximum likelihood decoders (C27, C28, C31): the correlation with the turned word is that of the original one. The search for K above 4: lockstep of the two searches; word and best move by the codeword and a constant, next by the constant above its sentinel. |
| C80 | Model_gflife: gf_construct, gf_destroy and gf_run over the static pointers; Model_gf tables_ctor and the operators with None for nullptr | By induction over the history the state is None, or the tables the constructor makes from None; the operators are evaluated with None for the last part. |
| C81 | Model_polar (polar_encode, polar_sysenc) and Model_polar_list (parity_encode), nothing new | Induction over the levels of the recursive transform (a b, b): when the first difference is in the left half the triangle inequality bounds the left factor's distance, otherwise the distance of the right half doubles. |
| C82 | Model_perm (interleave, deinterleave), Model_rs (rs_decode), nothing new | A window of ORDER*T sent symbols contains at most T of the indices ORDER*i+j for each j; C13 gives the positions, C33 and C34 the decoding of each block. |
| C83 | Model_polar, Model_polar_const (exact rational arithmetic), Spec_polar_erasure: ambiguity and independent chances | The decoder tree follows the erasure pattern: the left half sees the union of the halves' patterns, the right half, when the left succeeded, the intersection (no cancellation, as signs agree); means over patterns split accordingly, giving p(2-p) and p*p. Rounding of double is not covered. |
| C84 | Model_polar_const, nothing new | Two sets of the same size, one closed downwards by its threshold and the other by its choice, cannot differ: an exchange pair would be ordered both ways. Doubles are compared through the order of their keys. |
| C85 | Model_polar, Model_polar_list, nothing new | C44_most_likely / C46_most_likely (lane 0 contradicts the received values least) with the minimum distance of C81: where two codewords differ, one of them pays for the received value. |
| C86 | Model_polar_listg: the text of polar_list_decoder.hh and polar_parity_aided.hh over an abstract vector type (operations, broadcast, lanes, vector made of lanes, shuffles), with instances for registers of SSE4.1/AVX2/NEON | simulation (Proof_plg1): if the run on lists of lanes ends, the run on vectors ends with related states; the invariant bounds the soft values of depth k by 2^(T-k) and keeps hard values in -1, 0, 1, so that no soft value is NaN, where the minimum of the back ends is that of simd.hh; all stored maps are lane permutations with indices below W, where the back ends' shuffles are exact. Proof_plg2 checks the operations of the three back ends. The conclusions of C72 then transfer. |
| C87 | Model_polar_table.v transcribes tests/sequence.h (generated from the file) and the test's freezing loops; PolarEncoder and PolarSysEnc are those of C40/C41. | The finite facts about the table (inverse permutation, clearing a bit of a position gives an earlier entry unless among the first 26, fewest ones among the entries left) are evaluated once over the table; induction over the loops gives the flags for every n, induction over the differing bits gives domination closure, C41 and C81 give the rest for all messages. The failures for n <= 25 are by evaluating PolarSysEnc on one message for each n. |
| C88 | Model_polar_crc.v: the test's loops building the message and choosing the lane, over the CRC object of Model_crc.v and the encoders and list decoders of C44-C46. | Loop invariants give the register after each lane; C06 (residue and bursts) turns a zero register into 'data followed by its CRC'; C44, C45 and C46 give the lanes. |
| C89 | Model_polar_list.v (C44-C46) with W = 1; Spec_polar_one.v: the plain recursion with roles. | Induction over the tree on the functional form of C44: sorting two forks keeps the better one, the first on a tie; a metric bound of 128 per position keeps the parity penalty of 1000000 out of reach; without a tie the recursion is that of C43. |
| C90 | Model_polar_chain.v: lines 133-145 of the test on Model_polar.v. Noise and statistics are left out. | The decoder's message has symbols -1, 0, 1 (induction over its tree); encoding such a message is the transform; the word of successive cancellation is the transform of its message; C41 gives the inner message, C42 and C76 the rest; the transform and the selection are multiplicative. |
| C91 | Model_polar_lchain.v: lines 170 and 176-182 of the test on Model_polar_list.v and Model_polar.v; the CRC lines are those of C88 (Model_polar_crc.v). Noise, quantisation and statistics are left out. | Encoding of SIMD values is the scalar transform in each lane (the expansion and the stages for any element type, then the product of the back end per lane); C44 says each lane's word is the transform of its message; C41, C42 for the closed set; C45 for the noiseless case; C88 for the CRC. |
| C92 | Model_ldpc.v (LDPCDecoder). Spec_ldpc_turn.v states what a layer computes before it limits to 8 bit, and the states after each layer. | The min-sum message of a check commutes with signs whose product is one; with the fetch, subtract, self-correct, add and write-back steps of C56 a layer commutes with the codeword's signs if nothing saturates (Proof_ldpc12.v), hence iterations, the termination test and the whole call do (Proof_ldpc13.v). |
| C53 | Model_simd, Model_simd2 | lane functions against Spec_simd |
| C54 | Model_intrin, Model_backend | registers as integers, intrinsics by their documentation; lane by lane agreement with Model_simd/Model_simd2 |

The status of each property is in `MANIFEST.json`; deviations found in the code are in section 5.

## 4. Trusted base

* Coq 8.16.1's kernel including its virtual machine (`vm_compute` is used for closed computations: tables, matrix powers,
  exhaustive case analyses over 256 byte values, concrete examples).  No `native_compute`, no plugins.
* `Print Assumptions` answers "Closed under the global context" for every theorem listed in `MANIFEST.json`: no axiom is used,
  neither ours nor the standard library's.  `coqchk` of the whole development lists the fields of the *module type*
  `Coq.ssr.ssrunder.Under_rel` (seven constants `Coq.ssr.ssrunder.Under_rel.*`), because some files load standard library
  modules that require ssreflect; they are abstract names of a signature inside the standard library and no theorem here
  depends on them.
* IEEE floats are `Coq.Floats.SpecFloat`, doubles with precision 53 and emax 1024 (plain integers, no axiom, not the kernel's primitive
  floats).  `sqrt`, `exp`, `log` do not occur in the modelled code.
* The correspondence between C++ and model is by reading; every definition cites the lines it models.
* Only the standard library is imported (no mathcomp, std++, Iris, Equations, Flocq...).

### What is modelled

Every header of `/repo` except as listed here:

* Floating point instances of the templates: PolarEncoder, PolarSysEnc and PolarDecoder with float, double, `SIMD<float, W>` and
  `SIMD<double, W>` (generic simd.hh) are modelled for every format (Model_polar_float.v), polar_freezer.hh and polar_sequence.hh with
  their `double` arithmetic; PolarListDecoder and PolarParityDecoder with float and double lanes of the generic simd.hh
  (Model_polar_listf.v) and of the SIMD back ends (Model_polar_listg.v); the float and double lanes of the SIMD back ends (Model_fsimd.v).
  Not modelled: long double.
* `__builtin_popcount` and the like by their mathematical meaning.
* `vzero()` of simd.hh xors an uninitialised lane with itself; modelled as 0.
* Data races, exceptions, memory exhaustion and the contents of `tests/` are not modelled (except the LDPC tables of tests/ldpc_regression_test.cc, Model_dvb.v, the reliability table tests/sequence.h, Model_polar_table.v, the CRC aided chain of tests/polar_list_regression_test.cc, Model_polar_crc.v, and the systematic chains of tests/polar_regression_test.cc, Model_polar_chain.v, and tests/polar_list_regression_test.cc, Model_polar_lchain.v) (there is no concurrency in the library).
* Compilation with NDEBUG (assertions removed) is not modelled: `Abort` marks the failed assertions.
* Alignment attributes and `memcpy` of trivially copyable objects are value copies.

## 5. Deviations and surprises found while modelling

1. The two-error shortcut of the Reed–Solomon decoder (quadratic solved through the Artin–Schreier table of galois_field.hh) refuses certain
   correctable patterns, the "unlucky pairs", because its constructor skips the entry of the value 2^M - 1: C55; the same for BCH:
   C37_unlucky_pair_refused.
2. With more errors than the code corrects, a non-negative result of the decoder need not be a codeword (C35_counterexample); it is one when at most one
   check symbol is left for errors (C35_codeword_if_erasures_use_the_checks).
3. Both decoders shift the caller's erasure list in place by K - data_len.
4. cauchy_prime_field_erasure_coding.hh reduces after every third multiplication; the product fits under (P-1)^2 (P-2)(P-3) < 2^w.
5. Short BCH decoder: the list `worst` starts as zeros, so positions stronger than position 0 are never tried (C68_weak_first_position).  With a minimum distance <= T a nonzero correction of the zero word exists.
6. OSD: `next` starts at -1, so when the best metric is negative the returned flag says nothing (C51_negative_best); unfilled entries of the list
   decoder are garbage (C52_unfilled_entry); LinearEncoder uses bit 0 of the entries of row 0 but "nonzero" of the other rows (C49_needs_binary);
   a trivial generator polynomial leads to an access out of bounds (C50_trivial_polynomial_undefined).
7. PolarListDecoder with all positions frozen reads uninitialised lanes (C44_all_frozen_undefined); PolarParityDecoder with `first` = 0 reads in
   front of the message array (C46_first_zero_undefined); the lanes are not sorted when the last position is frozen (C44_last_frozen_unordered); the metric
   "infinity" 1000000 is reachable from level 13 on.
8. Systematic polar encoding needs frozen sets closed under domination (C41_needs_closure).  The constructions give such sets in exact arithmetic (C60),
   but ties by double underflow can break it (C60_double_ties).  After a tie (a zero soft value) the specialised nodes differ from leafwise
   decoding (C43_ties_differ).
9. HadamardDecoder<1> reads an uninitialised sum (C27_one_bit_undefined).
10. LDPC: an LLR of zero counts as a failed check; static_assert allows check degrees up to 32, but the masks in `int` need at most 30; the
    write-disable flags are rotated wrongly for some tables (C57); the second call of a decoder object starts from a different state (C58).
11. The BCH encoder's constructor reads get_be_bit(buf, -1) harmlessly; the reference constructor reads generator[NP + 1] when a trivial minimal polynomial
    follows a full product.
12. x86 `vshuf` differs from the portable one on indices between WIDTH and 111 + WIDTH (C54_x86_shuffle_out_of_range); sse4_1.hh needs SSE4.2 for
    `_mm_cmpgt_epi64` and avx2.hh needs AVX-512 for `_mm256_min_epi64`.
13. The soft ShortBCHCodeDecoder with K > 4 compares candidates with sentinel metrics -1 and -2, so its answer can depend on the codeword sent
    (C79_soft_search_depends_on_the_codeword).
14. GaloisField objects of one type share static tables: a second live object stops at an assertion (C80).
15. With the table tests/sequence.h the systematic encoder is not systematic when between 1 and 25 positions are frozen (C87_not_systematic_below_26).
